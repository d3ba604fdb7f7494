(** Theorems about causets with the same or the opposite order that the library itself makes: causets
    read back from matrices and files, and the symmetries of permutations (C94). *)
From Verif Require Import Base Spec EventModel EventFacts History HistoryFacts PathFacts RankFacts
  EventProps Prop_Event CausetModel CausetFacts IntervalFacts SortFacts LayerFacts Prop_Causet Prop_CausetMore
  PyStr SpecBuild BuildModel BuildFacts CsvFacts Prop_Build PathsModel Prop_Paths Prop_Iso Prop_Dual.

(** ** Lists of corresponding events *)
Lemma same_of_lists h1 C1 h2 C2 (l1 l2 : list nat) :
  NoDup l1 → NoDup l2 → length l1 = length l2 → (∀ x, x ∈ C1 ↔ x ∈ l1) → (∀ x, x ∈ C2 ↔ x ∈ l2) → closed h1 C1 → closed h2 C2 →
  (∀ i j a b x y, l1 !! i = Some a → l1 !! j = Some b → l2 !! i = Some x → l2 !! j = Some y → before h2 x y ↔ before h1 a b) →
  ∃ f, same_causet f h1 C1 h2 C2.
Proof.
  intros H1 H2 Hlen E1 E2 Hc1 Hc2 Ho. destruct (iso_of_lists h1 h2 l1 l2 H1 H2 Hlen Ho) as (f & Hf & Hs & Hb).
  assert (F1 : list_to_set l1 = C1) by (apply set_eq; intros x; by rewrite elem_of_list_to_set, E1).
  assert (F2 : list_to_set l2 = C2) by (apply set_eq; intros x; by rewrite elem_of_list_to_set, E2).
  rewrite F1, F2 in *. exists f. split; [exact Hf| | |done|done].
  - intros y. rewrite Hs. split; intros (x & Hx & E); eauto.
  - intros a b Ha Hb'. symmetry. by apply Hb.
Qed.
Lemma opposite_of_lists h1 C1 h2 C2 (l1 l2 : list nat) : order_inv h2 →
  NoDup l1 → NoDup l2 → length l1 = length l2 → (∀ x, x ∈ C1 ↔ x ∈ l1) → (∀ x, x ∈ C2 ↔ x ∈ l2) → closed h1 C1 → closed h2 C2 →
  (∀ i j a b x y, l1 !! i = Some a → l1 !! j = Some b → l2 !! i = Some x → l2 !! j = Some y → before h2 y x ↔ before h1 a b) →
  ∃ f, opposite_causet f h1 C1 h2 C2.
Proof.
  intros HO H1 H2 Hlen E1 E2 Hc1 Hc2 Ho. destruct (same_of_lists h1 C1 (dual h2) C2 l1 l2) as [f [Hi Hs Hb _ _]]; try done.
  - by apply dual_closed.
  - intros. rewrite dual_before by done. eauto.
  - exists f. split; [done|done| |done|done]. intros a b Ha Hb'. rewrite Hb by done. by apply dual_before.
Qed.

(** ** Matrices *)
Lemma mat_order_of n (l : list nat) M (R : nat → nat → Prop) :
  length l = n → (∀ i j a b, l !! i = Some a → l !! j = Some b → M i j = true ↔ R a b) →
  (∀ a, ¬ R a a) → (∀ a b c, R a b → R b c → R a c) → mat_order n M.
Proof.
  intros Hl HM Hi Ht. assert (Hg : ∀ i, i < n → ∃ a, l !! i = Some a) by (intros i H; apply lookup_lt_is_Some_2; lia). split.
  - intros i H. destruct (Hg i H) as [a Ha]. apply not_true_is_false. rewrite (HM i i a a) by done. apply Hi.
  - intros i j k H1 H2 H3. destruct (Hg i H1) as [a Ha], (Hg j H2) as [b Hb], (Hg k H3) as [c Hc].
    rewrite (HM i j a b), (HM j k b c), (HM i k a c) by done. apply Ht.
Qed.
(** Reading a matrix [M] of the events [l] of [C] back as a past or as a future matrix. *)
Lemma reload it h C h2 (l : list nat) M :
  iter_ok it → order_inv h → order_inv h2 → link_inv h2 → closed h C → NoDup l → (∀ x, x ∈ C ↔ x ∈ l) →
  (∀ i j a b, l !! i = Some a → l !! j = Some b → M i j = true ↔ before h b a) ∨
  (∀ i j a b, l !! i = Some a → l !! j = Some b → M i j = true ↔ before h a b) →
  (∃ h' evs C', FromPastMatrix it (length l) (length l) M h2 = (h', evs, Ok C') ∧ order_inv h' ∧ link_inv h' ∧
     ((∀ i j a b, l !! i = Some a → l !! j = Some b → M i j = true ↔ before h b a) → ∃ f, same_causet f h C h' C') ∧
     ((∀ i j a b, l !! i = Some a → l !! j = Some b → M i j = true ↔ before h a b) → ∃ f, opposite_causet f h C h' C')) ∧
  (∃ h' evs C', FromFutureMatrix it (length l) (length l) M h2 = (h', evs, Ok C') ∧ order_inv h' ∧ link_inv h' ∧
     ((∀ i j a b, l !! i = Some a → l !! j = Some b → M i j = true ↔ before h b a) → ∃ f, opposite_causet f h C h' C') ∧
     ((∀ i j a b, l !! i = Some a → l !! j = Some b → M i j = true ↔ before h a b) → ∃ f, same_causet f h C h' C')).
Proof.
  intros Hit HO HO2 HL2 Hcl Hnd Hl HM.
  assert (Hm : mat_order (length l) M).
  { destruct HM as [HM|HM].
    - apply (mat_order_of _ l M (λ a b, before h b a) eq_refl HM); [apply (oi_irr h HO)|]. intros a b c H1 H2. exact (oi_trans h HO c b a H2 H1).
    - apply (mat_order_of _ l M (before h) eq_refl HM); [apply (oi_irr h HO)|apply (oi_trans h HO)]. }
  clear HM. split.
  - destruct (C18_FromPastMatrix it h2 (length l) M Hit HO2 HL2 Hm) as (h' & evs & E & Hf & Hlen & _ & Ho & _).
    exists h', evs, (list_to_set evs). split; [exact E|]. split; [apply (fc_order _ _ _ Hf)|]. split; [apply (fc_link _ _ _ Hf)|]. split; intros HM.
    + apply (same_of_lists h C h' _ l evs); try done; [apply (fc_nodup _ _ _ Hf)|intros x; apply elem_of_list_to_set|apply (fc_closed _ _ _ Hf)|].
      intros i j a b x y Hi Hj Hx Hy. rewrite (Ho j i y x) by done. by apply HM.
    + apply (opposite_of_lists h C h' _ l evs); try done; [apply (fc_order _ _ _ Hf)|apply (fc_nodup _ _ _ Hf)|intros x; apply elem_of_list_to_set|apply (fc_closed _ _ _ Hf)|].
      intros i j a b x y Hi Hj Hx Hy. rewrite (Ho i j x y) by done. by apply HM.
  - destruct (C18_FromFutureMatrix it h2 (length l) M Hit HO2 HL2 Hm) as (h' & evs & E & Hf & Hlen & _ & Ho & _).
    exists h', evs, (list_to_set evs). split; [exact E|]. split; [apply (fc_order _ _ _ Hf)|]. split; [apply (fc_link _ _ _ Hf)|]. split; intros HM.
    + apply (opposite_of_lists h C h' _ l evs); try done; [apply (fc_order _ _ _ Hf)|apply (fc_nodup _ _ _ Hf)|intros x; apply elem_of_list_to_set|apply (fc_closed _ _ _ Hf)|].
      intros i j a b x y Hi Hj Hx Hy. rewrite (Ho j i y x) by done. by apply HM.
    + apply (same_of_lists h C h' _ l evs); try done; [apply (fc_nodup _ _ _ Hf)|intros x; apply elem_of_list_to_set|apply (fc_closed _ _ _ Hf)|].
      intros i j a b x y Hi Hj Hx Hy. rewrite (Ho i j x y) by done. by apply HM.
Qed.

(** ** C94 *)
(** A causet that is written as a matrix and read back, into the same store or into any other one, is the
    same causet; a matrix read the wrong way round gives the opposite causet. *)
Theorem C94_reload (it it2 : oracle) (argsort : argsort_t) (h h2 : heap) (C : gset nat) :
  iter_ok it → iter_ok it2 → argsort_ok argsort → order_inv h → link_inv h → order_inv h2 → link_inv h2 →
  closed h C → (∀ x, x ∈ C → lab h x ≠ LNone) →
  let n := Card C in
  ∃ MP MF, PastMatrix it argsort h C = Ok MP ∧ FutureMatrix it argsort h C = Ok MF ∧
    (∃ h' evs C', FromPastMatrix it2 n n (mat_get MP) h2 = (h', evs, Ok C') ∧ order_inv h' ∧ link_inv h' ∧ ∃ f, same_causet f h C h' C') ∧
    (∃ h' evs C', FromFutureMatrix it2 n n (mat_get MF) h2 = (h', evs, Ok C') ∧ order_inv h' ∧ link_inv h' ∧ ∃ f, same_causet f h C h' C') ∧
    (∃ h' evs C', FromFutureMatrix it2 n n (mat_get MP) h2 = (h', evs, Ok C') ∧ order_inv h' ∧ link_inv h' ∧ ∃ f, opposite_causet f h C h' C') ∧
    (∃ h' evs C', FromPastMatrix it2 n n (mat_get MF) h2 = (h', evs, Ok C') ∧ order_inv h' ∧ link_inv h' ∧ ∃ f, opposite_causet f h C h' C').
Proof.
  intros Hit Hit2 Has HO HL HO2 HL2 Hcl Hlab n.
  destruct (C25_default_order it argsort h C Hit Has HO HL Hlab) as (l & MP & MF & KP & KF & Hl & EP & EF & _ & _ & Hin & _ & _).
  destruct Hl as [Hperm _]. assert (Hnd : NoDup l) by (rewrite Hperm; apply NoDup_elements).
  assert (HlC : ∀ x, x ∈ C ↔ x ∈ l) by (intros x; rewrite Hperm; symmetry; apply elem_of_elements).
  assert (Hn : n = length l) by (unfold n, Card; by rewrite Hperm). rewrite Hn.
  assert (HP : ∀ i j a b, l !! i = Some a → l !! j = Some b → mat_get MP i j = true ↔ before h b a) by (intros i j a b Ha Hb; apply (Hin i j a b Ha Hb)).
  assert (HF : ∀ i j a b, l !! i = Some a → l !! j = Some b → mat_get MF i j = true ↔ before h a b) by (intros i j a b Ha Hb; apply (Hin i j a b Ha Hb)).
  destruct (reload it2 h C h2 l (mat_get MP) Hit2 HO HO2 HL2 Hcl Hnd HlC (or_introl HP)) as [(h1 & e1 & C1 & E1 & O1 & L1 & S1 & _) (h3 & e3 & C3 & E3 & O3 & L3 & S3 & _)].
  destruct (reload it2 h C h2 l (mat_get MF) Hit2 HO HO2 HL2 Hcl Hnd HlC (or_intror HF)) as [(h4 & e4 & C4 & E4 & O4 & L4 & _ & S4) (h5 & e5 & C5 & E5 & O5 & L5 & _ & S5)].
  exists MP, MF. split; [exact EP|]. split; [exact EF|]. split_and!.
  - exists h1, e1, C1. auto.
  - exists h5, e5, C5. auto.
  - exists h3, e3, C3. auto.
  - exists h4, e4, C4. auto.
Qed.
Print Assumptions C94_reload.

(** The same with a file. *)
Theorem C94_file (it it2 : oracle) (argsort : argsort_t) (h h2 : heap) (C : gset nat) :
  iter_ok it → iter_ok it2 → argsort_ok argsort → order_inv h → link_inv h → order_inv h2 → link_inv h2 →
  closed h C → 2 ≤ Card C → (∀ x, x ∈ C → lab h x ≠ LNone) →
  ∃ text, saveAsCSV it argsort h C = Ok text ∧
    (∃ h' evs C', FromTextFile it2 text true h2 = (h', evs, Ok C') ∧ order_inv h' ∧ link_inv h' ∧ ∃ f, same_causet f h C h' C') ∧
    (∃ h' evs C', FromTextFile it2 text false h2 = (h', evs, Ok C') ∧ order_inv h' ∧ link_inv h' ∧ ∃ f, opposite_causet f h C h' C').
Proof.
  intros Hit Hit2 Has HO HL HO2 HL2 Hcl Hsz Hlab.
  destruct (C26_sortedByCausality it argsort h C Hit Has HO (or_intror Hlab)) as [(l & El & Hperm & _) _].
  assert (Hnd : NoDup l) by (rewrite Hperm; apply NoDup_elements).
  assert (HlC : ∀ x, x ∈ C ↔ x ∈ l) by (intros x; rewrite Hperm; symmetry; apply elem_of_elements).
  assert (Hll : length l = Card C) by (unfold Card; by rewrite Hperm).
  destruct (C25_shape h l) as (Hs1 & _ & Hs2 & _).
  unfold saveAsCSV, PastMatrix. rewrite El. cbn [res_map]. eexists. split; [done|].
  unfold FromTextFile. rewrite (genfromtxt_square (length l)) by (done || lia).
  assert (Hhd : length (default [] (head (PastMatrix_of h l))) = length l).
  { destruct (PastMatrix_of h l) as [|r M] eqn:EM; [cbn in Hs1; lia|]. cbn. apply Hs2, elem_of_list_here. }
  rewrite Hs1, Hhd.
  assert (HP : ∀ i j a b, l !! i = Some a → l !! j = Some b → mat_get (PastMatrix_of h l) i j = true ↔ before h b a)
    by (intros i j a b Ha Hb; apply (C25_matrices h l i j a b HO HL Ha Hb)).
  destruct (reload it2 h C h2 l (mat_get (PastMatrix_of h l)) Hit2 HO HO2 HL2 Hcl Hnd HlC (or_introl HP))
    as [(h1 & e1 & C1 & E1 & O1 & L1 & S1 & _) (h3 & e3 & C3 & E3 & O3 & L3 & S3 & _)].
  split; [exists h1, e1, C1|exists h3, e3, C3]; auto.
Qed.
Print Assumptions C94_file.

(** The past matrices of all listings of the events determine the order: two causets have the same order
    exactly if some listings of their events have the same past matrix, and opposite orders exactly if the
    past matrix of one listing is the future matrix of the other. *)
Lemma past_entries h1 h2 (l1 l2 : list nat) :
  PastMatrix_of h1 l1 = PastMatrix_of h2 l2 ↔
  length l1 = length l2 ∧ ∀ i j a b x y, l1 !! i = Some a → l1 !! j = Some b → l2 !! i = Some x → l2 !! j = Some y → before h2 x y ↔ before h1 a b.
Proof.
  assert (Hget : ∀ h (l : list nat) i j a b, l !! i = Some a → l !! j = Some b → mat_get (PastMatrix_of h l) i j = ev_gt h a b).
  { intros h l i j a b Ha Hb. unfold mat_get, PastMatrix_of. rewrite list_lookup_fmap, Ha. cbn. by rewrite list_lookup_fmap, Hb. }
  split.
  - intros E. split; [by rewrite <- (proj1 (C25_shape h1 l1)), E, (proj1 (C25_shape h2 l2))|].
    intros i j a b x y Ha Hb Hx Hy. pose proof (Hget h1 l1 j i b a Hb Ha) as H1. pose proof (Hget h2 l2 j i y x Hy Hx) as H2.
    rewrite E, H2 in H1. rewrite <- (ev_gt_spec h2 y x), <- (ev_gt_spec h1 b a). by rewrite H1.
  - intros [Hlen H]. unfold PastMatrix_of. apply list_eq. intros i. rewrite !list_lookup_fmap.
    destruct (l1 !! i) as [a|] eqn:Ea.
    + destruct (lookup_lt_is_Some_2 l2 i) as [x Ex]; [rewrite <- Hlen; by eapply lookup_lt_Some|]. rewrite Ex. cbn. f_equal.
      apply list_eq. intros j. rewrite !list_lookup_fmap. destruct (l1 !! j) as [b|] eqn:Eb.
      * destruct (lookup_lt_is_Some_2 l2 j) as [y Ey]; [rewrite <- Hlen; by eapply lookup_lt_Some|]. rewrite Ey. cbn. f_equal.
        apply bool_decide_ext. symmetry. exact (H j i b a y x Eb Ea Ey Ex).
      * apply lookup_ge_None in Eb. by rewrite (proj2 (lookup_ge_None l2 j)) by lia.
    + apply lookup_ge_None in Ea. by rewrite (proj2 (lookup_ge_None l2 i)) by lia.
Qed.
Lemma future_dual h (l : list nat) : order_inv h → FutureMatrix_of h l = PastMatrix_of (dual h) l.
Proof.
  intros HO. unfold FutureMatrix_of, mat_T, PastMatrix_of. apply list_eq. intros i. rewrite !list_lookup_fmap.
  destruct (l !! i) as [a|] eqn:Ea.
  - pose proof (lookup_lt_Some _ _ _ Ea) as Hi. rewrite lookup_seq_lt by done. cbn. f_equal. apply list_eq. intros j. rewrite !list_lookup_fmap.
    destruct (l !! j) as [b|] eqn:Eb.
    + pose proof (lookup_lt_Some _ _ _ Eb) as Hj. rewrite lookup_seq_lt by done. cbn. f_equal.
      unfold mat_get. rewrite list_lookup_fmap, Eb. cbn. rewrite list_lookup_fmap, Ea. cbn. symmetry. apply (dual_lt h HO b a).
    + apply lookup_ge_None in Eb. by rewrite lookup_seq_ge by done.
  - apply lookup_ge_None in Ea. by rewrite lookup_seq_ge by done.
Qed.
Lemma listings_same h1 h2 C1 C2 : closed h1 C1 → closed h2 C2 →
  (∃ f, same_causet f h1 C1 h2 C2) ↔
  (∃ l1 l2, l1 ≡ₚ elements C1 ∧ l2 ≡ₚ elements C2 ∧ PastMatrix_of h1 l1 = PastMatrix_of h2 l2).
Proof.
  intros Hc1 Hc2. split.
  - intros [f [Hi Hs Hb _ _]]. exists (elements C1), (f <$> elements C1). split; [done|]. split.
    + apply NoDup_Permutation; [|apply NoDup_elements|].
      * apply NoDup_fmap_2_strong; [|apply NoDup_elements]. intros a b Ha%elem_of_elements Hb'%elem_of_elements. by apply Hi.
      * intros y. rewrite elem_of_elements, Hs, elem_of_list_fmap. split; intros (x & H1 & H2); exists x.
        -- apply elem_of_elements in H2. done.
        -- split; [done|]. by apply elem_of_elements.
    + apply past_entries. split; [by rewrite fmap_length|]. intros i j a b x y Ha Hb' Hx Hy. rewrite list_lookup_fmap, Ha in Hx. rewrite list_lookup_fmap, Hb' in Hy.
      cbn in Hx, Hy. injection Hx as <-. injection Hy as <-. symmetry. apply Hb; apply elem_of_elements; by eapply elem_of_list_lookup_2.
  - intros (l1 & l2 & P1 & P2 & [Hlen E]%past_entries).
    apply (same_of_lists h1 C1 h2 C2 l1 l2); try done; [rewrite P1; apply NoDup_elements|rewrite P2; apply NoDup_elements| |].
    + intros x. rewrite P1. symmetry. apply elem_of_elements.
    + intros x. rewrite P2. symmetry. apply elem_of_elements.
Qed.
Theorem C94_matrices (h1 h2 : heap) (C1 C2 : gset nat) : order_inv h1 → order_inv h2 → closed h1 C1 → closed h2 C2 →
  ((∃ f, same_causet f h1 C1 h2 C2) ↔
   (∃ l1 l2, l1 ≡ₚ elements C1 ∧ l2 ≡ₚ elements C2 ∧ PastMatrix_of h1 l1 = PastMatrix_of h2 l2)) ∧
  ((∃ f, opposite_causet f h1 C1 h2 C2) ↔
   (∃ l1 l2, l1 ≡ₚ elements C1 ∧ l2 ≡ₚ elements C2 ∧ PastMatrix_of h1 l1 = FutureMatrix_of h2 l2)).
Proof.
  intros HO1 HO2 Hc1 Hc2. split; [by apply listings_same|].
  assert (Hcd : closed (dual h2) C2) by by apply dual_closed.
  transitivity (∃ f, same_causet f h1 C1 (dual h2) C2).
  - split; intros [f H]; exists f; [by apply opposite_dual|]. destruct H as [Hi Hs Hb _ _]. split; [done|done| |done|done].
    intros a b Ha Hb'. rewrite Hb by done. by apply dual_before.
  - rewrite (listings_same h1 (dual h2) C1 C2 Hc1 Hcd). setoid_rewrite (λ l, future_dual h2 l HO2). done.
Qed.
Print Assumptions C94_matrices.

(** ** Permutations *)
(** The events [evs], listed in another order. *)
Lemma relisted n (evs : list nat) (g : nat → nat) :
  NoDup evs → length evs = n → (∀ u, u < n → g u < n) → (∀ u w, u < n → w < n → g u = g w → u = w) →
  ∃ l, NoDup l ∧ length l = n ∧ (∀ x, x ∈ l ↔ x ∈ evs) ∧ ∀ u, u < n → l !! u = evs !! g u.
Proof.
  intros Hnd Hlen Hg Hi. set (l := (λ u, evs !!! g u) <$> seq 0 n).
  assert (Hl : ∀ u, u < n → l !! u = evs !! g u).
  { intros u Hu. unfold l. rewrite list_lookup_fmap, lookup_seq_lt by done. cbn. symmetry. apply list_lookup_lookup_total_lt. rewrite Hlen. by apply Hg. }
  assert (Hll : length l = n) by (unfold l; by rewrite fmap_length, seq_length).
  assert (Hndl : NoDup l).
  { apply NoDup_alt. intros u w x Hu Hw. pose proof (lookup_lt_Some _ _ _ Hu) as Lu. pose proof (lookup_lt_Some _ _ _ Hw) as Lw. rewrite Hll in Lu, Lw.
    rewrite Hl in Hu, Hw by done. apply Hi; [done|done|]. exact (NoDup_lookup _ _ _ _ Hnd Hu Hw). }
  assert (Hp : l ≡ₚ evs).
  { apply submseteq_Permutation_length_eq; [lia|]. apply NoDup_submseteq; [done|]. intros x [u Hu]%elem_of_list_lookup.
    pose proof (lookup_lt_Some _ _ _ Hu) as Lu. rewrite Hll in Lu. rewrite Hl in Hu by done. by eapply elem_of_list_lookup_2. }
  exists l. split_and!; [done|done| |done]. intros x. by rewrite Hp.
Qed.
Lemma perm_pos n (P : list Z) : P ≡ₚ upto n → length P = n ∧ NoDup P ∧
  (∀ u, u < n → ∃ i, i < n ∧ P !! i = Some (Z.of_nat u + 1)%Z) ∧ (∀ i, i < n → ∃ u, u < n ∧ P !! i = Some (Z.of_nat u + 1)%Z).
Proof.
  intros HP. assert (Hl : length P = n) by (by rewrite HP, upto_length). split_and!; [done|rewrite HP; apply upto_nodup| |].
  - intros u Hu. assert (Hin : (Z.of_nat u + 1)%Z ∈ P) by (rewrite HP; apply elem_of_upto; eauto).
    apply elem_of_list_lookup in Hin as [i Hi]. exists i. split; [|done]. rewrite <- Hl. by eapply lookup_lt_Some.
  - intros i Hi. destruct (lookup_lt_is_Some_2 P i) as [z Hz]; [lia|]. pose proof (elem_of_list_lookup_2 _ _ _ Hz) as Hin.
    rewrite HP in Hin. apply elem_of_upto in Hin as (u & Hu & ->). eauto.
Qed.
(** The permutation [Q] takes the value v at place p where [P] takes the value p at place v. *)
Definition inverse_permutation (P Q : list Z) : Prop :=
  ∀ i u : nat, Q !! i = Some (Z.of_nat u + 1)%Z ↔ P !! u = Some (Z.of_nat i + 1)%Z.
(** Every value v of 1..n is replaced by n + 1 - v. *)
Definition complement (n : nat) (P : list Z) : list Z := (λ v, Z.of_nat n + 1 - v)%Z <$> P.

Theorem C94_permutations (it1 it2 : oracle) (h1 h2 : heap) (fmt1 fmt2 : label_format) (n : nat) (P Q : list Z) :
  iter_ok it1 → iter_ok it2 → order_inv h1 → link_inv h1 → order_inv h2 → link_inv h2 →
  P ≡ₚ upto n → Q ≡ₚ upto n →
  ∃ h1' C1 h2' C2,
    FromPermutation it1 fmt1 P h1 = (h1', Ok C1) ∧ FromPermutation it2 fmt2 Q h2 = (h2', Ok C2) ∧
    order_inv h1' ∧ link_inv h1' ∧ order_inv h2' ∧ link_inv h2' ∧
    (* the same or the inverse permutation: the same causet *)
    (Q = P ∨ inverse_permutation P Q → ∃ f, same_causet f h1' C1 h2' C2) ∧
    (* reversed and complemented: the opposite causet *)
    (Q = reverse (complement n P) → ∃ f, opposite_causet f h1' C1 h2' C2) ∧
    (* reversed or complemented: causal and spacelike pairs are exchanged *)
    (Q = reverse P ∨ Q = complement n P →
       ∃ f : nat → nat, (∀ a b, a ∈ C1 → b ∈ C1 → f a = f b → a = b) ∧ (∀ y, y ∈ C2 ↔ ∃ x, x ∈ C1 ∧ f x = y) ∧
         ∀ a b, a ∈ C1 → b ∈ C1 → a ≠ b → isCausalTo h2' (f a) (f b) = isSpacelikeTo h1' a b).
Proof.
  intros Hi1 Hi2 HO1 HL1 HO2 HL2 HP HQ.
  destruct (C14_FromPermutation it1 h1 fmt1 n P Hi1 HO1 HL1 HP) as (h1' & e1 & E1 & F1 & N1 & _ & B1).
  destruct (C14_FromPermutation it2 h2 fmt2 n Q Hi2 HO2 HL2 HQ) as (h2' & e2 & E2 & F2 & N2 & _ & B2).
  destruct (perm_pos n P HP) as (LP & NP & PP & VP). destruct (perm_pos n Q HQ) as (LQ & NQ & PQ & VQ).
  pose proof (fc_order _ _ _ F1) as HO1'. pose proof (fc_order _ _ _ F2) as HO2'.
  exists h1', (list_to_set e1), h2', (list_to_set e2). split; [exact E1|]. split; [exact E2|].
  split; [exact HO1'|]. split; [apply (fc_link _ _ _ F1)|]. split; [exact HO2'|]. split; [apply (fc_link _ _ _ F2)|].
  assert (M1 : ∀ x, x ∈ (list_to_set e1 : gset nat) ↔ x ∈ e1) by (intros x; apply elem_of_list_to_set).
  assert (Hrev : ∀ (A : list Z) i v, length A = n → i < n → A !! i = Some v → reverse A !! (n - 1 - i) = Some v).
  { intros A i v HA Hi Hv. rewrite reverse_lookup by lia. rewrite HA. by replace (n - S (n - 1 - i)) with i by lia. }
  (* comparing along a renumbering [g] of the values whose places are given by [p] *)
  assert (Hcmp : ∀ g : nat → nat, (∀ u, u < n → g u < n) → (∀ u w, u < n → w < n → g u = g w → u = w) →
    ∀ R : nat → nat → nat → nat → Prop,
    (∀ u w i j, u < n → w < n → P !! i = Some (Z.of_nat u + 1)%Z → P !! j = Some (Z.of_nat w + 1)%Z →
       ∃ i' j', Q !! i' = Some (Z.of_nat (g u) + 1)%Z ∧ Q !! j' = Some (Z.of_nat (g w) + 1)%Z ∧ (g u < g w ∧ i' < j' ↔ R u w i j)) →
    ∃ l, NoDup l ∧ length l = n ∧ (∀ x, x ∈ (list_to_set e2 : gset nat) ↔ x ∈ l) ∧
      ∀ u w a b x y i j, e1 !! u = Some a → e1 !! w = Some b → l !! u = Some x → l !! w = Some y →
        P !! i = Some (Z.of_nat u + 1)%Z → P !! j = Some (Z.of_nat w + 1)%Z → before h2' x y ↔ R u w i j).
  { intros g Hg1 Hg2 R HR. destruct (relisted n e2 g (fc_nodup _ _ _ F2) N2 Hg1 Hg2) as (l & Hnl & Hll & Hml & Hlu).
    exists l. split; [done|]. split; [done|]. split; [intros x; by rewrite Hml, elem_of_list_to_set|].
    intros u w a b x y i j Hu Hw Hx Hy Hpi Hpj. pose proof (lookup_lt_Some _ _ _ Hx) as Lu. pose proof (lookup_lt_Some _ _ _ Hy) as Lw. rewrite Hll in Lu, Lw.
    rewrite Hlu in Hx, Hy by done. destruct (HR u w i j Lu Lw Hpi Hpj) as (i' & j' & Hi' & Hj' & <-). exact (B2 _ _ _ _ _ _ Hx Hy Hi' Hj'). }
  assert (Hn1 : ∀ u a, e1 !! u = Some a → u < n) by (intros u a Hu; rewrite <- N1; by eapply lookup_lt_Some).
  split_and!.
  - intros HQP.
    assert (Hl : ∃ l, NoDup l ∧ length l = n ∧ (∀ x, x ∈ (list_to_set e2 : gset nat) ↔ x ∈ l) ∧
      ∀ u w a b x y i j, e1 !! u = Some a → e1 !! w = Some b → l !! u = Some x → l !! w = Some y →
        P !! i = Some (Z.of_nat u + 1)%Z → P !! j = Some (Z.of_nat w + 1)%Z → before h2' x y ↔ u < w ∧ i < j).
    { destruct HQP as [->|Hinv].
      - apply (Hcmp (λ u, u)); [done|done|]. intros u w i j _ _ Hi Hj. exists i, j. done.
      - apply (Hcmp (λ u, Z.to_nat (Q !!! u) - 1)).
        + intros u Hu. destruct (VQ u Hu) as (v & Hv & E). rewrite (list_lookup_total_correct _ _ _ E). lia.
        + intros u w Hu Hw. destruct (VQ u Hu) as (v & Hv & E), (VQ w Hw) as (v' & Hv' & E').
          rewrite (list_lookup_total_correct _ _ _ E), (list_lookup_total_correct _ _ _ E'). intros Hvv. assert (v = v') as <- by lia.
          exact (NoDup_lookup _ _ _ _ NQ E E').
        + intros u w i j Hu Hw Hi Hj. pose proof (proj2 (Hinv u i) Hi) as E. pose proof (proj2 (Hinv w j) Hj) as E'.
          rewrite (list_lookup_total_correct _ _ _ E), (list_lookup_total_correct _ _ _ E').
          exists u, w. replace (Z.to_nat (Z.of_nat i + 1) - 1) with i by lia. replace (Z.to_nat (Z.of_nat j + 1) - 1) with j by lia.
          split; [done|]. split; [done|]. tauto. }
    destruct Hl as (l & Hnl & Hll & Hml & Hb).
    apply (same_of_lists _ _ _ _ e1 l); [apply (fc_nodup _ _ _ F1)|done|lia|done|done|apply (fc_closed _ _ _ F1)|apply (fc_closed _ _ _ F2)|].
    intros u w a b x y Hu Hw Hx Hy. destruct (PP u (Hn1 u a Hu)) as (i & _ & Hi), (PP w (Hn1 w b Hw)) as (j & _ & Hj).
    rewrite (Hb u w a b x y i j) by done. symmetry. exact (B1 _ _ _ _ _ _ Hu Hw Hi Hj).
  - intros ->. destruct (Hcmp (λ u, n - 1 - u) ltac:(intros; cbn beta in *; lia) ltac:(intros; cbn beta in *; lia) (λ u w i j, w < u ∧ j < i)) as (l & Hnl & Hll & Hml & Hb).
    { intros u w i j Hu Hw Hi Hj. pose proof (lookup_lt_Some _ _ _ Hi) as Li. pose proof (lookup_lt_Some _ _ _ Hj) as Lj. rewrite LP in Li, Lj.
      exists (n - 1 - i), (n - 1 - j). unfold complement. split_and!; [| |lia].
      - apply Hrev; [by rewrite fmap_length|done|]. rewrite list_lookup_fmap, Hi. cbn. f_equal. lia.
      - apply Hrev; [by rewrite fmap_length|done|]. rewrite list_lookup_fmap, Hj. cbn. f_equal. lia. }
    apply (opposite_of_lists _ _ _ _ e1 l); [done|apply (fc_nodup _ _ _ F1)|done|lia|done|done|apply (fc_closed _ _ _ F1)|apply (fc_closed _ _ _ F2)|].
    intros u w a b x y Hu Hw Hx Hy. destruct (PP u (Hn1 u a Hu)) as (i & _ & Hi), (PP w (Hn1 w b Hw)) as (j & _ & Hj).
    rewrite (Hb w u b a y x j i) by done. symmetry. exact (B1 _ _ _ _ _ _ Hu Hw Hi Hj).
  - intros HQP.
    assert (Hl : ∃ l, NoDup l ∧ length l = n ∧ (∀ x, x ∈ (list_to_set e2 : gset nat) ↔ x ∈ l) ∧
      ∀ u w a b x y i j, e1 !! u = Some a → e1 !! w = Some b → l !! u = Some x → l !! w = Some y →
        P !! i = Some (Z.of_nat u + 1)%Z → P !! j = Some (Z.of_nat w + 1)%Z →
        (before h2' x y ∨ before h2' y x) ↔ u < w ∧ j < i ∨ w < u ∧ i < j).
    { destruct HQP as [->| ->].
      - destruct (Hcmp (λ u, u) ltac:(done) ltac:(done) (λ u w i j, u < w ∧ j < i)) as (l & Hnl & Hll & Hml & Hb).
        { intros u w i j Hu Hw Hi Hj. pose proof (lookup_lt_Some _ _ _ Hi) as Li. pose proof (lookup_lt_Some _ _ _ Hj) as Lj. rewrite LP in Li, Lj.
          exists (n - 1 - i), (n - 1 - j). split_and!; [by apply Hrev|by apply Hrev|lia]. }
        exists l. split_and!; try done. intros u w a b x y i j Hu Hw Hx Hy Hi Hj.
        rewrite (Hb u w a b x y i j), (Hb w u b a y x j i) by done. tauto.
      - destruct (Hcmp (λ u, n - 1 - u) ltac:(intros; cbn beta in *; lia) ltac:(intros; cbn beta in *; lia) (λ u w i j, w < u ∧ i < j)) as (l & Hnl & Hll & Hml & Hb).
        { intros u w i j Hu Hw Hi Hj. exists i, j. unfold complement. split_and!; [| |lia].
          - rewrite list_lookup_fmap, Hi. cbn. f_equal. lia.
          - rewrite list_lookup_fmap, Hj. cbn. f_equal. lia. }
        exists l. split_and!; try done. intros u w a b x y i j Hu Hw Hx Hy Hi Hj.
        rewrite (Hb u w a b x y i j), (Hb w u b a y x j i) by done. tauto. }
    destruct Hl as (l & Hnl & Hll & Hml & Hb).
    (* the function that takes the u-th event of [e1] to the u-th entry of [l] *)
    set (f := λ a, l !!! (default 0 (fst <$> list_find (λ b, a = b) e1))).
    assert (Hf : ∀ u a, e1 !! u = Some a → l !! u = Some (f a)).
    { intros u a Hu. unfold f. assert (Hfi : list_find (λ b, a = b) e1 = Some (u, a)).
      { apply list_find_Some. split_and!; [done|done|]. intros j y Hj Hlt ->. assert (j = u) by exact (NoDup_lookup _ _ _ _ (fc_nodup _ _ _ F1) Hj Hu). lia. }
      rewrite Hfi. cbn. apply list_lookup_lookup_total_lt. rewrite Hll. by eapply Hn1. }
    exists f. split_and!.
    + intros a b [u Hu]%M1%elem_of_list_lookup [w Hw]%M1%elem_of_list_lookup E. pose proof (Hf u a Hu) as Hx. pose proof (Hf w b Hw) as Hy. rewrite <- E in Hy.
      assert (u = w) as <- by exact (NoDup_lookup _ _ _ _ Hnl Hx Hy). congruence.
    + intros y. rewrite Hml, elem_of_list_lookup. split.
      * intros [u Hu]. destruct (lookup_lt_is_Some_2 e1 u) as [a Ha]; [rewrite N1, <- Hll; by eapply lookup_lt_Some|].
        exists a. split; [by eapply elem_of_list_to_set, elem_of_list_lookup_2|]. pose proof (Hf u a Ha). congruence.
      * intros (a & [u Hu]%M1%elem_of_list_lookup & <-). exists u. by apply Hf.
    + intros a b [u Hu]%M1%elem_of_list_lookup [w Hw]%M1%elem_of_list_lookup Hab.
      assert (Huw : u ≠ w) by (intros ->; congruence).
      destruct (PP u (Hn1 u a Hu)) as (i & _ & Hi), (PP w (Hn1 w b Hw)) as (j & _ & Hj).
      assert (Hij : i ≠ j) by (intros <-; rewrite Hi in Hj; injection Hj as ?; lia).
      pose proof (Hb u w a b (f a) (f b) i j Hu Hw (Hf u a Hu) (Hf w b Hw) Hi Hj) as H2.
      pose proof (B1 _ _ _ _ _ _ Hu Hw Hi Hj) as H1. pose proof (B1 _ _ _ _ _ _ Hw Hu Hj Hi) as H1'.
      assert (Hfab : f a ≠ f b).
      { intros E. pose proof (Hf u a Hu) as Hx. pose proof (Hf w b Hw) as Hy. rewrite <- E in Hy. apply Huw. exact (NoDup_lookup _ _ _ _ Hnl Hx Hy). }
      destruct (C07_comparisons h2' (f a) (f b) HO2') as (_ & _ & _ & _ & _ & _ & ->).
      apply eq_true_iff_eq. rewrite negb_true_iff. unfold isSpacelikeTo.
      assert (A2 : negb (bool_decide (f b = f a)) && negb (bool_decide (f b ∈ prec h2' (f a))) && negb (bool_decide (f b ∈ succ h2' (f a))) = false ↔ before h2' (f a) (f b) ∨ before h2' (f b) (f a)).
      { clear -HO2' Hfab. rewrite (bool_decide_eq_false_2 (f b = f a)) by congruence. pose proof (oi_conv h2' HO2' (f a) (f b)) as Hc. unfold before in *.
        destruct (bool_decide_reflect (f b ∈ prec h2' (f a))), (bool_decide_reflect (f b ∈ succ h2' (f a))); cbn; naive_solver. }
      assert (A1 : negb (bool_decide (b = a)) && negb (bool_decide (b ∈ prec h1' a)) && negb (bool_decide (b ∈ succ h1' a)) = true ↔ ¬ before h1' a b ∧ ¬ before h1' b a).
      { clear -HO1' Hab. rewrite (bool_decide_eq_false_2 (b = a)) by congruence. pose proof (oi_conv h1' HO1' a b) as Hc. unfold before in *.
        destruct (bool_decide_reflect (b ∈ prec h1' a)), (bool_decide_reflect (b ∈ succ h1' a)); cbn; naive_solver. }
      rewrite A1, A2, H2, H1, H1'. lia.
Qed.
Print Assumptions C94_permutations.

(** Concrete cases. *)
Example C94_nonvacuous :
  (order_inv hook ∧ link_inv hook ∧ closed hook {[0; 1; 2; 3]} ∧ Card {[0; 1; 2; 3]} = 4 ∧
   (∀ x, x ∈ ({[0; 1; 2; 3]} : gset nat) → lab hook x ≠ LNone) ∧ order_inv penta ∧ link_inv penta) ∧
  ([2; 3; 1; 4]%Z ≡ₚ upto 4 ∧ [3; 1; 2; 4]%Z ≡ₚ upto 4 ∧ inverse_permutation [2; 3; 1; 4]%Z [3; 1; 2; 4]%Z ∧
   reverse (complement 4 [2; 3; 1; 4]%Z) = [1; 4; 2; 3]%Z ∧ ev_lt (fst (FromPermutation it_elements FmtNone [2; 3; 1; 4]%Z ∅)) 1 4 = true).
Proof.
  split.
  - destruct C93_nonvacuous as (H1 & H2 & _).
    assert (H3 : closed_dec hook {[0; 1; 2; 3]}) by decide_vm.
    assert (H4 : set_Forall (λ x, lab hook x ≠ LNone) ({[0; 1; 2; 3]} : gset nat)) by decide_vm.
    split; [exact H1|]. split; [exact H2|]. split; [exact H3|]. split; [decide_vm|]. split; [exact H4|].
    split; [exact penta_order|exact penta_link].
  - split; [decide_vm|]. split; [decide_vm|]. split; [|split; decide_vm].
    intros i u. destruct i as [|[|[|[|i]]]], u as [|[|[|[|u]]]]; cbn; split; intros H; try done; try (exfalso; injection H; lia); f_equal; injection H; lia.
Qed.
