(** Theorems about the standard causets: two of the same kind have the same order, and most of them
    are their own opposites (C95). *)
From Verif Require Import Base Spec EventModel EventFacts History HistoryFacts PathFacts RankFacts
  EventProps Prop_Event CausetModel CausetFacts IntervalFacts SortFacts LayerFacts Prop_Causet Prop_CausetMore
  PyStr SpecBuild BuildModel BuildFacts SimplexFacts CsvFacts Prop_Build PathsModel Prop_Paths Prop_Iso Prop_Dual Prop_Reload.

(** ** Specification *)
(** Two calls of the constructor [make], in any two stores, return causets with the same order. *)
Definition reproducible (make : oracle → heap → heap * res (gset nat)) : Prop :=
  ∀ it1 it2 h1 h2, iter_ok it1 → iter_ok it2 → order_inv h1 → link_inv h1 → order_inv h2 → link_inv h2 →
  ∃ h1' C1 h2' C2, make it1 h1 = (h1', Ok C1) ∧ make it2 h2 = (h2', Ok C2) ∧ ∃ f, same_causet f h1' C1 h2' C2.
(** Two calls of [make] return causets with opposite orders: what it makes is its own mirror image. *)
Definition mirror_symmetric (make : oracle → heap → heap * res (gset nat)) : Prop :=
  ∀ it1 it2 h1 h2, iter_ok it1 → iter_ok it2 → order_inv h1 → link_inv h1 → order_inv h2 → link_inv h2 →
  ∃ h1' C1 h2' C2, make it1 h1 = (h1', Ok C1) ∧ make it2 h2 = (h2', Ok C2) ∧ ∃ f, opposite_causet f h1' C1 h2' C2.

(** ** The constructors by the places of their events *)
(** [make] returns [n] new events, the u-th before the w-th exactly if [R u w]. *)
Definition makes (make : oracle → heap → heap * res (gset nat)) (n : nat) (R : nat → nat → Prop) : Prop :=
  ∀ it h, iter_ok it → order_inv h → link_inv h →
  ∃ h' evs, make it h = (h', Ok (list_to_set evs)) ∧ fresh_causet h h' evs ∧ length evs = n ∧
    ∀ u w x y, evs !! u = Some x → evs !! w = Some y → before h' x y ↔ R u w.
Lemma makes_reproducible make n R : makes make n R → reproducible make.
Proof.
  intros H it1 it2 h1 h2 Hi1 Hi2 HO1 HL1 HO2 HL2.
  destruct (H it1 h1 Hi1 HO1 HL1) as (h1' & e1 & E1 & F1 & N1 & B1). destruct (H it2 h2 Hi2 HO2 HL2) as (h2' & e2 & E2 & F2 & N2 & B2).
  exists h1', (list_to_set e1), h2', (list_to_set e2). split; [exact E1|]. split; [exact E2|].
  apply (same_of_lists _ _ _ _ e1 e2); [apply (fc_nodup _ _ _ F1)|apply (fc_nodup _ _ _ F2)|lia|intros x; apply elem_of_list_to_set|intros x; apply elem_of_list_to_set|apply (fc_closed _ _ _ F1)|apply (fc_closed _ _ _ F2)|].
  intros u w a b x y Ha Hb Hx Hy. by rewrite (B1 u w a b), (B2 u w x y).
Qed.
Lemma makes_mirror make n R (g : nat → nat) : makes make n R →
  (∀ u, u < n → g u < n) → (∀ u w, u < n → w < n → g u = g w → u = w) → (∀ u w, u < n → w < n → R (g w) (g u) ↔ R u w) →
  mirror_symmetric make.
Proof.
  intros H Hg1 Hg2 HR it1 it2 h1 h2 Hi1 Hi2 HO1 HL1 HO2 HL2.
  destruct (H it1 h1 Hi1 HO1 HL1) as (h1' & e1 & E1 & F1 & N1 & B1). destruct (H it2 h2 Hi2 HO2 HL2) as (h2' & e2 & E2 & F2 & N2 & B2).
  destruct (relisted n e2 g (fc_nodup _ _ _ F2) N2 Hg1 Hg2) as (l & Hnl & Hll & Hml & Hlu).
  exists h1', (list_to_set e1), h2', (list_to_set e2). split; [exact E1|]. split; [exact E2|].
  apply (opposite_of_lists _ _ _ _ e1 l); [apply (fc_order _ _ _ F2)|apply (fc_nodup _ _ _ F1)|done|lia|intros x; apply elem_of_list_to_set|intros x; by rewrite Hml, elem_of_list_to_set|apply (fc_closed _ _ _ F1)|apply (fc_closed _ _ _ F2)|].
  intros u w a b x y Ha Hb Hx Hy. pose proof (lookup_lt_Some _ _ _ Hx) as Lu. pose proof (lookup_lt_Some _ _ _ Hy) as Lw. rewrite Hll in Lu, Lw.
  rewrite Hlu in Hx, Hy by done. rewrite (B1 u w a b), (B2 _ _ _ _ Hy Hx) by done. by apply HR.
Qed.

Lemma chain_makes n fmt : makes (λ it, NewChain it n fmt) (Z.to_nat n) (λ u w, u < w).
Proof.
  intros it h Hi HO HL. destruct (C15_NewChain it h n fmt Hi HO HL) as (h' & evs & C & E & -> & F & S & _ & _ & B).
  exists h', evs. split; [exact E|]. split; [exact F|]. split; [|exact B]. rewrite <- S. symmetry. apply size_list_to_set, (fc_nodup _ _ _ F).
Qed.
Lemma antichain_makes n fmt : makes (λ it, NewAntichain it n fmt) (Z.to_nat n) (λ _ _, False).
Proof.
  intros it h Hi HO HL. destruct (C15_NewAntichain it h n fmt Hi HO HL) as (h' & evs & C & E & -> & F & S & _ & _ & B).
  exists h', evs. split; [exact E|]. split; [exact F|]. split.
  - rewrite <- S. symmetry. apply size_list_to_set, (fc_nodup _ _ _ F).
  - intros u w x y Hx Hy. split; [|done]. apply B; by eapply elem_of_list_to_set, elem_of_list_lookup_2.
Qed.
Lemma permutation_makes P fmt n : P ≡ₚ upto n →
  makes (λ it, FromPermutation it fmt P) n (λ u w, ∃ i j, P !! i = Some (Z.of_nat u + 1)%Z ∧ P !! j = Some (Z.of_nat w + 1)%Z ∧ u < w ∧ i < j).
Proof.
  intros HP it h Hi HO HL. destruct (C14_FromPermutation it h fmt n P Hi HO HL HP) as (h' & evs & E & F & N & _ & B).
  exists h', evs. split; [exact E|]. split; [exact F|]. split; [exact N|]. intros u w x y Hx Hy.
  destruct (perm_pos n P HP) as (LP & NP & PP & VP).
  destruct (PP u) as (i & _ & Hu); [rewrite <- N; by eapply lookup_lt_Some|]. destruct (PP w) as (j & _ & Hw); [rewrite <- N; by eapply lookup_lt_Some|].
  rewrite (B u w x y i j) by done. split.
  - intros [H1 H2]. by exists i, j.
  - intros (i' & j' & Hu' & Hw' & H1 & H2). assert (i' = i) as -> by exact (NoDup_lookup _ _ _ _ NP Hu' Hu). by assert (j' = j) as -> by exact (NoDup_lookup _ _ _ _ NP Hw' Hw).
Qed.
Lemma fence_makes len m (closed : bool) : (2 <= len)%Z → (0 <= m)%Z →
  let L := Z.to_nat len in
  makes (λ it, NewFence it len m closed) ((Z.to_nat m + 1) * L) (λ u w, u `div` L < w `div` L ∧ within closed L (w `div` L - u `div` L) (u mod L) (w mod L)).
Proof.
  intros Hl Hm L it h Hi HO HL. destruct (C17_NewFence it h len m closed Hi HO HL Hl Hm) as (h' & evs & E & F & N & _ & B).
  exists h', evs. split; [exact E|]. split; [exact F|]. split; [exact N|]. intros u w x y Hx Hy. fold L in B.
  assert (HL0 : L ≠ 0) by lia.
  pose proof (Nat.div_mod_eq u L) as Eu. pose proof (Nat.div_mod_eq w L) as Ew. rewrite (Nat.mul_comm L) in Eu, Ew.
  apply (B (u `div` L) (u mod L) (w `div` L) (w mod L) x y); [by apply Nat.mod_upper_bound|by apply Nat.mod_upper_bound| |]; congruence.
Qed.
Lemma within_mirror (closed : bool) L d l l' : l < L → l' < L →
  within closed L d (L - 1 - l') (L - 1 - l) ↔ within closed L d l l'.
Proof.
  intros Hl Hl'. unfold within. destruct closed.
  - assert (HL0 : L ≠ 0) by lia.
    assert (Hgen : ∀ k a b, a < L → b < L → b = (a + k) mod L → L - 1 - a = (L - 1 - b + k) mod L).
    { intros k a b Ha Hb Hab. pose proof (Nat.div_mod_eq (a + k) L) as E. rewrite <- Hab in E.
      replace (L - 1 - b + k) with (L - 1 - a + ((a + k) `div` L) * L) by nia. rewrite Nat.mod_add by done. symmetry. apply Nat.mod_small. lia. }
    split; intros (k & Hk & E); exists k; (split; [done|]).
    + pose proof (Hgen k (L - 1 - l') (L - 1 - l) ltac:(lia) ltac:(lia) E) as H.
      replace (L - 1 - (L - 1 - l')) with l' in H by lia. by replace (L - 1 - (L - 1 - l)) with l in H by lia.
    + by apply Hgen.
  - split; intros (k & Hk & E); exists k; (split; [done|lia]).
Qed.
Lemma empty_opposite h1 h2 : ∃ f, opposite_causet f h1 ∅ h2 ∅.
Proof. exists (λ x, x). split.
  - intros a b Ha. by apply not_elem_of_empty in Ha.
  - intros y. split; [intros Hy; by apply not_elem_of_empty in Hy|]. intros (x & Hx & _). by apply not_elem_of_empty in Hx.
  - intros a b Ha. by apply not_elem_of_empty in Ha.
  - intros a Ha. by apply not_elem_of_empty in Ha.
  - intros a Ha. by apply not_elem_of_empty in Ha.
Qed.
Lemma fence_mirror len m closed : mirror_symmetric (λ it, NewFence it len m closed).
Proof.
  destruct (decide (2 <= len)%Z) as [Hl|Hl]; [destruct (decide (0 <= m)%Z) as [Hm|Hm]|].
  - set (L := Z.to_nat len). assert (HL0 : L ≠ 0) by lia. set (n := (Z.to_nat m + 1) * L).
    apply (makes_mirror _ n _ (λ u, n - 1 - u) (fence_makes len m closed Hl Hm)); [intros; cbn beta; lia|intros; cbn beta in *; lia|].
    fold L.
    assert (Hg : ∀ u, u < n → (n - 1 - u) `div` L = Z.to_nat m - u `div` L ∧ (n - 1 - u) mod L = L - 1 - u mod L ∧ u `div` L ≤ Z.to_nat m ∧ u mod L < L).
    { intros u Hu. pose proof (Nat.div_mod_eq u L) as E. pose proof (Nat.mod_upper_bound u L HL0) as Hu2.
      assert (Hq : u `div` L ≤ Z.to_nat m) by (assert (u `div` L < Z.to_nat m + 1) by (apply Nat.div_lt_upper_bound; [done|]; rewrite Nat.mul_comm; exact Hu); lia).
      set (q := u `div` L) in *. set (r := u mod L) in *. clearbody q r.
      assert (E2 : n - 1 - u = L * (Z.to_nat m - q) + (L - 1 - r)).
      { unfold n. rewrite E. replace (Z.to_nat m) with ((Z.to_nat m - q) + q) at 1 by lia. generalize (Z.to_nat m - q). intros t. nia. }
      split; [symmetry; apply (Nat.div_unique _ L _ (L - 1 - r)); [lia|exact E2]|].
      split; [symmetry; apply (Nat.mod_unique _ L (Z.to_nat m - q)); [lia|exact E2]|done]. }
    intros u w Hu Hw. destruct (Hg u Hu) as (-> & -> & Hu1 & Hu2), (Hg w Hw) as (-> & -> & Hw1 & Hw2).
    replace (Z.to_nat m - u `div` L - (Z.to_nat m - w `div` L)) with (w `div` L - u `div` L) by lia.
    rewrite within_mirror by done. split; intros [H1 H2]; (split; [lia|done]).
  - intros it1 it2 h1 h2 Hi1 Hi2 HO1 HL1 HO2 HL2.
    destruct (C17_degenerate it1 h1 len m closed Hi1 HO1 HL1) as (E1 & _). destruct (C17_degenerate it2 h2 len m closed Hi2 HO2 HL2) as (E2 & _).
    exists h1, ∅, h2, ∅. split; [apply E1; lia|]. split; [apply E2; lia|]. apply empty_opposite.
  - destruct (decide (len < 1 ∨ m < 0)%Z) as [Hd|Hd].
    + intros it1 it2 h1 h2 Hi1 Hi2 HO1 HL1 HO2 HL2.
      destruct (C17_degenerate it1 h1 len m closed Hi1 HO1 HL1) as (E1 & _). destruct (C17_degenerate it2 h2 len m closed Hi2 HO2 HL2) as (E2 & _).
      exists h1, ∅, h2, ∅. split; [by apply E1|]. split; [by apply E2|]. apply empty_opposite.
    + assert (len = 1%Z) as -> by lia.
      apply (makes_mirror _ (Z.to_nat m + 1) (λ u w, u < w) (λ u, Z.to_nat m + 1 - 1 - u)); [|intros; cbn beta; lia|intros; cbn beta in *; lia|intros; cbn beta; lia].
      intros it h Hi HO HL. destruct (C17_degenerate it h 1 m closed Hi HO HL) as (_ & H & _). apply H. lia.
Qed.

(** *** The simplex: the faces [F] are listed in the order of the events. *)
Definition other_vertices (n : nat) (c : list nat) : list nat := filter (λ v, v ∉ c) (seq 1 n).
Lemma other_elem n c v : v ∈ other_vertices n c ↔ v ∉ c ∧ v ∈ seq 1 n.
Proof. unfold other_vertices. by rewrite elem_of_list_filter. Qed.
Lemma other_sub n c : other_vertices n c `sublist_of` seq 1 n.
Proof. apply filter_sublist. Qed.
Lemma sub_seq_length n c : c `sublist_of` seq 1 n → length c ≤ n.
Proof. intros H. apply sublist_length in H. by rewrite seq_length in H. Qed.
Lemma other_length n c : c `sublist_of` seq 1 n → length (other_vertices n c) + length c = n.
Proof.
  intros Hc. assert (Hp : other_vertices n c ++ c ≡ₚ seq 1 n).
  { apply NoDup_Permutation; [|apply NoDup_seq|].
    - apply NoDup_app. split_and!; [eapply sublist_nodup; [apply other_sub|apply NoDup_seq]| |eapply sublist_nodup; [exact Hc|apply NoDup_seq]].
      intros v Hv. by apply other_elem in Hv as [? _].
    - intros v. rewrite elem_of_app, other_elem. split.
      + intros [[_ ?]|Hv]; [done|]. by apply (sublist_elem _ _ _ Hc).
      + intros Hv. destruct (decide (v ∈ c)); [by right|by left]. }
  apply Permutation_length in Hp. by rewrite app_length, seq_length in Hp.
Qed.
Lemma other_inj n c e : c `sublist_of` seq 1 n → e `sublist_of` seq 1 n → other_vertices n c = other_vertices n e → c = e.
Proof.
  intros Hc He E. apply (sublist_ext (seq 1 n)); [apply NoDup_seq|done|done|]. intros v.
  assert (H : v ∈ other_vertices n c ↔ v ∈ other_vertices n e) by (by rewrite E). rewrite !other_elem in H.
  pose proof (sublist_elem _ _ v Hc). pose proof (sublist_elem _ _ v He). destruct (decide (v ∈ c)), (decide (v ∈ e)); tauto.
Qed.
Lemma other_mirror n c e : c `sublist_of` seq 1 n → e `sublist_of` seq 1 n →
  (list_to_set (other_vertices n e) : gset nat) ⊂ list_to_set (other_vertices n c) ↔ (list_to_set c : gset nat) ⊂ list_to_set e.
Proof.
  intros Hc He. rewrite (sublist_subset_iff (seq 1 n) e c) by (done || apply NoDup_seq).
  rewrite (sublist_subset_iff (seq 1 n) (other_vertices n c) (other_vertices n e)) by (apply NoDup_seq || apply other_sub).
  rewrite !elem_of_subseteq. setoid_rewrite elem_of_list_to_set. setoid_rewrite other_elem. split; intros [H1 H2]; split.
  - intros v Hv. destruct (decide (v ∈ e)) as [|Hn]; [done|]. destruct (H1 v) as [Hnc _]; [split; [done|by apply (sublist_elem _ _ _ Hc)]|done].
  - by intros ->.
  - intros v [Hn Hs]. split; [|done]. auto.
  - intros E. apply H2. symmetry. by apply (other_inj n).
Qed.
(** Two simplices compared along a function [φ] of the faces. *)
Lemma simplex_compare d central (φ : list nat → list nat) :
  let n := Z.to_nat (d + 1) in
  let face c := c `sublist_of` seq 1 n ∧ c ≠ [] ∧ (length c < n ∨ n = 1 ∨ (central = true ∧ (0 < d)%Z)) in
  (∀ c, face c → face (φ c)) → (∀ c e, face c → face e → φ c = φ e → c = e) →
  ∀ it1 it2 h1 h2, iter_ok it1 → iter_ok it2 → order_inv h1 → link_inv h1 → order_inv h2 → link_inv h2 →
  ∃ h1' e1 h2' l, NewSimplex it1 d central h1 = (h1', Ok (list_to_set e1)) ∧ NewSimplex it2 d central h2 = (h2', Ok (list_to_set l)) ∧
    order_inv h2' ∧ NoDup e1 ∧ NoDup l ∧ length e1 = length l ∧ closed h1' (list_to_set e1) ∧ closed h2' (list_to_set l) ∧
    ∀ u w a b x y, e1 !! u = Some a → e1 !! w = Some b → l !! u = Some x → l !! w = Some y →
      ∃ c e, face c ∧ face e ∧ (before h1' a b ↔ (list_to_set c : gset nat) ⊂ list_to_set e) ∧
        (before h2' x y ↔ (list_to_set (φ c) : gset nat) ⊂ list_to_set (φ e)) ∧ (before h2' y x ↔ (list_to_set (φ e) : gset nat) ⊂ list_to_set (φ c)).
Proof.
  intros n face Hφ Hinj it1 it2 h1 h2 Hi1 Hi2 HO1 HL1 HO2 HL2.
  destruct (C16_NewSimplex it1 h1 d central Hi1 HO1 HL1) as (h1' & e1 & F1 & E1 & Fr1 & Len1 & ND1 & Fa1 & _ & B1 & _).
  destruct (C16_NewSimplex it2 h2 d central Hi2 HO2 HL2) as (h2' & e2 & F2 & E2 & Fr2 & Len2 & ND2 & Fa2 & _ & B2 & _).
  fold n in Fa1, Fa2. assert (HF : length F1 = length F2).
  { apply Permutation_length, NoDup_Permutation; [done|done|]. intros c. by rewrite Fa1, Fa2. }
  set (idx := λ c : list nat, default 0 (fst <$> list_find (λ e, c = e) F2)).
  assert (Hidx : ∀ i c, F2 !! i = Some c → idx c = i).
  { intros i c Hc. unfold idx. assert (Hfi : list_find (λ e, c = e) F2 = Some (i, c)).
    { apply list_find_Some. split_and!; [done|done|]. intros j y Hj Hlt <-. assert (j = i) by exact (NoDup_lookup _ _ _ _ ND2 Hj Hc). lia. }
    by rewrite Hfi. }
  set (g := λ u, idx (φ (F1 !!! u))).
  assert (Hg : ∀ u c, F1 !! u = Some c → F2 !! g u = Some (φ c)).
  { intros u c Hc. unfold g. rewrite (list_lookup_total_correct _ _ _ Hc). pose proof (elem_of_list_lookup_2 _ _ _ Hc) as Hin. apply Fa1 in Hin.
    apply Hφ in Hin. assert (Hin2 : φ c ∈ F2) by (by apply Fa2). apply elem_of_list_lookup in Hin2 as [i Hi]. by rewrite (Hidx i (φ c) Hi). }
  destruct (relisted (length e2) e2 g (fc_nodup _ _ _ Fr2) eq_refl) as (l & Hnl & Hll & Hml & Hlu).
  { intros u Hu. destruct (lookup_lt_is_Some_2 F1 u) as [c Hc]; [lia|]. rewrite <- Len2. eapply lookup_lt_Some, Hg, Hc. }
  { intros u w Hu Hw E. destruct (lookup_lt_is_Some_2 F1 u) as [c Hc]; [lia|]. destruct (lookup_lt_is_Some_2 F1 w) as [e He]; [lia|].
    pose proof (Hg u c Hc) as H1. pose proof (Hg w e He) as H2. rewrite E, H2 in H1. injection H1 as H1.
    assert (c = e) as <- by (apply Hinj; [by apply Fa1, (elem_of_list_lookup_2 _ u)|by apply Fa1, (elem_of_list_lookup_2 _ w)|done]).
    exact (NoDup_lookup _ _ _ _ ND1 Hc He). }
  assert (Hset : (list_to_set e2 : gset nat) = list_to_set l) by (apply set_eq; intros x; by rewrite !elem_of_list_to_set, Hml).
  pose proof (fc_closed _ _ _ Fr2) as Hcl2. rewrite Hset in E2, Hcl2.
  exists h1', e1, h2', l. split; [exact E1|]. split; [exact E2|]. split; [apply (fc_order _ _ _ Fr2)|].
  split; [apply (fc_nodup _ _ _ Fr1)|]. split; [exact Hnl|]. split; [lia|]. split; [apply (fc_closed _ _ _ Fr1)|]. split; [exact Hcl2|].
  intros u w a b x y Ha Hb Hx Hy. pose proof (lookup_lt_Some _ _ _ Hx) as Lu. pose proof (lookup_lt_Some _ _ _ Hy) as Lw. rewrite Hll in Lu, Lw.
  rewrite Hlu in Hx, Hy by done.
  destruct (lookup_lt_is_Some_2 F1 u) as [c Hc]; [lia|]. destruct (lookup_lt_is_Some_2 F1 w) as [e He]; [lia|].
  exists c, e. split; [by apply Fa1, (elem_of_list_lookup_2 _ u)|]. split; [by apply Fa1, (elem_of_list_lookup_2 _ w)|].
  split; [by apply (B1 u w)|]. split; [by apply (B2 (g u) (g w) _ _ _ _ (Hg u c Hc) (Hg w e He))|by apply (B2 (g w) (g u) _ _ _ _ (Hg w e He) (Hg u c Hc))].
Qed.

(** ** C95 *)
(** Two causets made by the same call have the same order. *)
Theorem C95_reproducible :
  (∀ n fmt, reproducible (λ it, NewChain it n fmt)) ∧ (∀ n fmt, reproducible (λ it, NewAntichain it n fmt)) ∧
  (∀ n P fmt, P ≡ₚ upto n → reproducible (λ it, FromPermutation it fmt P)) ∧
  (∀ d central, reproducible (λ it, NewSimplex it d central)) ∧
  (∀ length height closed, (2 <= length)%Z → (0 <= height)%Z → reproducible (λ it, NewFence it length height closed)) ∧
  (∀ length, (2 <= length)%Z → reproducible (λ it, NewCrown it length)).
Proof.
  split_and!.
  - intros n fmt. exact (makes_reproducible _ _ _ (chain_makes n fmt)).
  - intros n fmt. exact (makes_reproducible _ _ _ (antichain_makes n fmt)).
  - intros n P fmt HP. exact (makes_reproducible _ _ _ (permutation_makes P fmt n HP)).
  - intros d central it1 it2 h1 h2 Hi1 Hi2 HO1 HL1 HO2 HL2.
    destruct (simplex_compare d central (λ c, c) ltac:(done) ltac:(done) it1 it2 h1 h2 Hi1 Hi2 HO1 HL1 HO2 HL2)
      as (h1' & e1 & h2' & l & E1 & E2 & HO & N1 & N2 & Hlen & C1 & C2 & B).
    exists h1', (list_to_set e1), h2', (list_to_set l). split; [exact E1|]. split; [exact E2|].
    apply (same_of_lists _ _ _ _ e1 l); try done; [intros x; apply elem_of_list_to_set|intros x; apply elem_of_list_to_set|].
    intros u w a b x y Ha Hb Hx Hy. destruct (B u w a b x y Ha Hb Hx Hy) as (c & e & _ & _ & H1 & H2 & _). by rewrite H1, H2.
  - intros len m cl Hl Hm. exact (makes_reproducible _ _ _ (fence_makes len m cl Hl Hm)).
  - intros len Hl. unfold NewCrown. exact (makes_reproducible _ _ _ (fence_makes len 1 true Hl ltac:(lia))).
Qed.
Print Assumptions C95_reproducible.

(** Chains, antichains, fences and crowns of every size and simplices without the central face are their
    own opposites. *)
Theorem C95_mirror :
  (∀ n fmt, mirror_symmetric (λ it, NewChain it n fmt)) ∧ (∀ n fmt, mirror_symmetric (λ it, NewAntichain it n fmt)) ∧
  (∀ length height closed, mirror_symmetric (λ it, NewFence it length height closed)) ∧
  (∀ length, mirror_symmetric (λ it, NewCrown it length)) ∧
  (∀ d, mirror_symmetric (λ it, NewSimplex it d false)).
Proof.
  split_and!.
  - intros n fmt. apply (makes_mirror _ _ _ (λ u, Z.to_nat n - 1 - u) (chain_makes n fmt)); intros; cbn beta in *; lia.
  - intros n fmt. by apply (makes_mirror _ _ _ (λ u, u) (antichain_makes n fmt)).
  - exact fence_mirror.
  - intros len. exact (fence_mirror len 1 true).
  - intros d it1 it2 h1 h2 Hi1 Hi2 HO1 HL1 HO2 HL2. set (n := Z.to_nat (d + 1)). destruct (decide (n ≤ 1)) as [Hn|Hn].
    + destruct (simplex_compare d false (λ c, c) ltac:(done) ltac:(done) it1 it2 h1 h2 Hi1 Hi2 HO1 HL1 HO2 HL2)
        as (h1' & e1 & h2' & l & E1 & E2 & HO & N1 & N2 & Hlen & C1 & C2 & B). fold n in B.
      exists h1', (list_to_set e1), h2', (list_to_set l). split; [exact E1|]. split; [exact E2|].
      apply (opposite_of_lists _ _ _ _ e1 l); try done; [intros x; apply elem_of_list_to_set|intros x; apply elem_of_list_to_set|].
      intros u w a b x y Ha Hb Hx Hy. destruct (B u w a b x y Ha Hb Hx Hy) as (c & e & (S1 & N3 & _) & (S2 & N4 & _) & H1 & _ & H2). rewrite H1, H2.
      apply sub_seq_length in S1 as L1. apply sub_seq_length in S2 as L2.
      split; intros H; [apply (sublist_set_length (seq 1 n) c e) in H|apply (sublist_set_length (seq 1 n) e c) in H]; try done; try apply NoDup_seq; destruct c, e; cbn in *; done || lia.
    + assert (Hface : ∀ c, c `sublist_of` seq 1 n ∧ c ≠ [] ∧ (length c < n ∨ n = 1 ∨ (false = true ∧ (0 < d)%Z)) → c `sublist_of` seq 1 n ∧ length c ≠ 0 ∧ length c < n).
      { intros c (H1 & H2 & H3). split; [done|]. split; [by destruct c|]. destruct H3 as [?|[?|[? _]]]; [done|lia|done]. }
      destruct (simplex_compare d false (other_vertices n)) with (it1 := it1) (it2 := it2) (h1 := h1) (h2 := h2)
        as (h1' & e1 & h2' & l & E1 & E2 & HO & N1 & N2 & Hlen & C1 & C2 & B); try done.
      { fold n. intros c (H1 & H2 & H3)%Hface. pose proof (other_length n c H1) as Hl. split; [apply other_sub|]. split; [|left; lia].
        intros E. rewrite E in Hl. cbn in Hl. lia. }
      { fold n. intros c e (H1 & _)%Hface (H2 & _)%Hface. by apply other_inj. }
      fold n in B. exists h1', (list_to_set e1), h2', (list_to_set l). split; [exact E1|]. split; [exact E2|].
      apply (opposite_of_lists _ _ _ _ e1 l); try done; [intros x; apply elem_of_list_to_set|intros x; apply elem_of_list_to_set|].
      intros u w a b x y Ha Hb Hx Hy. destruct (B u w a b x y Ha Hb Hx Hy) as (c & e & (S1 & _)%Hface & (S2 & _)%Hface & H1 & _ & H2). rewrite H1, H2.
      by apply other_mirror.
Qed.
Print Assumptions C95_mirror.

(** With the central face this is false: the edge with its two end points has two first events and one
    last event. *)
Theorem C95_central_refuted : ¬ mirror_symmetric (λ it, NewSimplex it 1 true).
Proof.
  intros H. destruct (H it_elements it_elements ∅ ∅ ) as (h1 & C1 & h2 & C2 & E1 & E2 & f & Hop);
    [apply it_elements_ok|apply it_elements_ok|apply order_inv_empty|apply link_inv_empty|apply order_inv_empty|apply link_inv_empty|].
  rewrite E1 in E2. injection E2 as <- <-.
  destruct (C16_NewSimplex it_elements ∅ 1 true it_elements_ok order_inv_empty link_inv_empty) as (h' & evs & F & E & Fr & _).
  rewrite E in E1. injection E1 as <- <-.
  destruct (C93_sets it_elements it_elements f h' h' (list_to_set evs) (list_to_set evs)) as (_ & _ & H2);
    [apply it_elements_ok|apply it_elements_ok|apply (fc_order _ _ _ Fr)|apply (fc_link _ _ _ Fr)|apply (fc_order _ _ _ Fr)|apply (fc_link _ _ _ Fr)|exact Hop|].
  destruct H2 as (_ & _ & _ & _ & _ & _ & _ & H2 & _).
  assert (H3 : let r := NewSimplex it_elements 1 true ∅ in match snd r with Ok C => bool_decide (FutureInfCard (fst r) C = PastInfCard (fst r) C) | Err _ => true end = false) by by vm_compute.
  cbv zeta in H3. rewrite E in H3. cbn [fst snd] in H3. by rewrite H2, bool_decide_eq_true_2 in H3.
Qed.
Print Assumptions C95_central_refuted.

(** Concrete calls: the crown of six events, made in the empty store and next to the pentagon. *)
Example C95_nonvacuous :
  iter_ok it_elements ∧ iter_ok it_reverse ∧ order_inv ∅ ∧ link_inv ∅ ∧ order_inv penta ∧ link_inv penta ∧
  match NewCrown it_elements 3 ∅, NewCrown it_reverse 3 penta with
  | (h1, Ok C1), (h2, Ok C2) =>
    bool_decide (Card C1 = 6) && bool_decide (C1 ≠ C2) && bool_decide (PastInfCard h1 C1 = 3) && bool_decide (FutureInfCard h2 C2 = 3)
  | _, _ => false
  end = true ∧
  match NewSimplex it_elements 2 false ∅ with (h, Ok C) => bool_decide (Card C = 6) | _ => false end = true.
Proof.
  split; [apply it_elements_ok|]. split; [apply it_reverse_ok|]. split; [apply order_inv_empty|]. split; [apply link_inv_empty|].
  split; [exact penta_order|]. split; [exact penta_link|]. split; by vm_compute.
Qed.
