(** Theorems about the constructors and mutators of Causet: C14 - C24. *)
From Verif Require Import Base Spec EventModel EventFacts History HistoryFacts PathFacts RankFacts
  EventProps CausetModel CausetFacts IntervalFacts SortFacts LayerFacts Prop_Event Prop_Causet
  PyStr SpecBuild BuildModel BuildFacts FenceFacts SimplexFacts MatrixFacts MatrixLinkFacts
  CsvFacts MergeFacts.
From Coq Require Import Ascii.

(** The list 1..n. *)
Definition upto (n : nat) : list Z := (λ k, Z.of_nat k + 1)%Z <$> seq 0 n.
Lemma elem_of_upto n z : z ∈ upto n ↔ ∃ u, u < n ∧ z = (Z.of_nat u + 1)%Z.
Proof.
  unfold upto. rewrite elem_of_list_fmap. split.
  - intros (u & -> & Hu%elem_of_seq). exists u. split; [lia|done].
  - intros (u & Hu & ->). exists u. split; [done|]. apply elem_of_seq. lia.
Qed.
Lemma upto_nodup n : NoDup (upto n).
Proof. apply NoDup_fmap_2; [|apply NoDup_seq]. intros a b. lia. Qed.
Lemma upto_length n : length (upto n) = n.
Proof. unfold upto. by rewrite fmap_length, seq_length. Qed.

(** ** C14 *)
Theorem C14_FromPermutation (it : oracle) (h : heap) (fmt : label_format) (n : nat) (P : list Z) :
  iter_ok it → order_inv h → link_inv h → P ≡ₚ upto n →
  ∃ h' evs, FromPermutation it fmt P h = (h', Ok (list_to_set evs)) ∧
    fresh_causet h h' evs ∧ length evs = n ∧
    (∀ u x, evs !! u = Some x →
       lab h' x = match fmt with
                  | FmtNone => LInt (Z.of_nat u + 1)
                  | FmtEmpty => LNone
                  | FmtStr f => LStr (f (Z.of_nat u + 1)%Z)
                  end) ∧
    (∀ u w x y i j, evs !! u = Some x → evs !! w = Some y →
       P !! i = Some (Z.of_nat u + 1)%Z → P !! j = Some (Z.of_nat w + 1)%Z →
       before h' x y ↔ u < w ∧ i < j).
Proof.
  intros Hit HO HL HP.
  assert (Hnd : NoDup P) by (rewrite HP; apply upto_nodup).
  assert (Hlen : length P = n) by (rewrite HP; apply upto_length).
  destruct (FromPermutation_spec it fmt P (λ j, default 0 (py_index P (Z.of_nat j + 1))) h Hit HO HL)
    as (h' & evs & E & Hf & Hl & Hlab & Hord).
  { intros j Hj. assert (Hin : (Z.of_nat j + 1)%Z ∈ P).
    { rewrite HP. apply elem_of_upto. exists j. split; [lia|done]. }
    apply elem_of_list_lookup in Hin as [v Hv]. by rewrite (py_index_nodup P _ v Hnd Hv). }
  exists h', evs. split_and!; [done|done|congruence|done|].
  intros u w x y i j Hu Hw Hi Hj. rewrite (Hord u w x y Hu Hw).
  by rewrite (py_index_nodup P _ i Hnd Hi), (py_index_nodup P _ j Hnd Hj).
Qed.
Print Assumptions C14_FromPermutation.
Theorem C14_not_permutation (it : oracle) (h : heap) (fmt : label_format) (P : list Z) :
  ¬ P ≡ₚ upto (length P) → ∃ h', FromPermutation it fmt P h = (h', Err ValueError).
Proof.
  intros Hn.
  destruct (decide (Forall (λ z, z ∈ P) (upto (length P)))) as [Hall|Hnot].
  - exfalso. apply Hn. symmetry. apply submseteq_Permutation_length_le.
    + by rewrite upto_length.
    + apply NoDup_submseteq; [apply upto_nodup|]. intros z Hz. rewrite Forall_forall in Hall. by apply Hall.
  - apply not_Forall_Exists in Hnot; [|apply _]. apply Exists_exists in Hnot as (z & Hz & Hz').
    apply elem_of_upto in Hz as (u & Hu & ->).
    apply (FromPermutation_err it fmt P h (S u)); [lia|]. by replace (Z.of_nat (S u)) with (Z.of_nat u + 1)%Z by lia.
Qed.
Print Assumptions C14_not_permutation.
Example C14_nonvacuous :
  let r := FromPermutation it_reverse FmtNone [2; 3; 1]%Z ∅ in
  [2; 3; 1]%Z ≡ₚ upto 3 ∧ ¬ [2; 2]%Z ≡ₚ upto 2 ∧
  snd r = Ok {[1; 2; 3]} ∧ ev_lt (fst r) 2 3 = true ∧ ev_lt (fst r) 1 3 = false.
Proof. split_and!; decide_vm. Qed.

(** ** C15 *)
Lemma elements_evs (evs : list nat) : NoDup evs → size (list_to_set evs : gset nat) = length evs.
Proof. intros H. apply size_list_to_set. done. Qed.
Theorem C15_NewChain (it : oracle) (h : heap) (n : Z) (fmt : label_format) :
  iter_ok it → order_inv h → link_inv h →
  ∃ h' evs C, NewChain it n fmt h = (h', Ok C) ∧ C = list_to_set evs ∧ fresh_causet h h' evs ∧
    size C = Z.to_nat n ∧ isChain h' C None = true ∧
    (∀ u x, evs !! u = Some x → fmt = FmtNone → lab h' x = LInt (Z.of_nat u + 1)) ∧
    (∀ u w x y, evs !! u = Some x → evs !! w = Some y → before h' x y ↔ u < w).
Proof.
  intros Hit HO HL.
  destruct (C14_FromPermutation it h fmt (Z.to_nat n) (upto (Z.to_nat n)) Hit HO HL (reflexivity _))
    as (h' & evs & E & Hf & Hl & Hlab & Hord).
  assert (Hlt : ∀ u w x y, evs !! u = Some x → evs !! w = Some y → before h' x y ↔ u < w).
  { intros u w x y Hu Hw. pose proof (lookup_lt_Some _ _ _ Hu). pose proof (lookup_lt_Some _ _ _ Hw).
    rewrite (Hord u w x y u w Hu Hw); [tauto| |]; unfold upto; by rewrite list_lookup_fmap, lookup_seq_lt by lia. }
  exists h', evs, (list_to_set evs). split_and!; try done.
  - by rewrite elements_evs by apply (fc_nodup _ _ _ Hf).
  - rewrite isChain_none by (apply (fc_order _ _ _ Hf) || apply (fc_closed _ _ _ Hf)).
    apply isChain_some; [apply (fc_order _ _ _ Hf)|]. intros x y Hx Hy.
    apply elem_of_list_to_set, elem_of_list_lookup in Hx as [u Hu].
    apply elem_of_list_to_set, elem_of_list_lookup in Hy as [w Hw].
    unfold comparable. rewrite (Hlt u w x y Hu Hw), (Hlt w u y x Hw Hu).
    destruct (lt_eq_lt_dec u w) as [[?| -> ]|?]; [tauto| |tauto]. left. congruence.
  - intros u x Hu ->. by apply (Hlab u x Hu).
Qed.
Print Assumptions C15_NewChain.
Theorem C15_NewAntichain (it : oracle) (h : heap) (n : Z) (fmt : label_format) :
  iter_ok it → order_inv h → link_inv h →
  ∃ h' evs C, NewAntichain it n fmt h = (h', Ok C) ∧ C = list_to_set evs ∧ fresh_causet h h' evs ∧
    size C = Z.to_nat n ∧ isAntichain h' C None = true ∧
    (∀ u x, evs !! u = Some x → fmt = FmtNone → lab h' x = LInt (Z.of_nat u + 1)) ∧
    (∀ x y, x ∈ C → y ∈ C → ¬ before h' x y).
Proof.
  intros Hit HO HL. unfold NewAntichain.
  set (P := (λ k, n - Z.of_nat k)%Z <$> seq 0 (Z.to_nat n)).
  assert (Hlook : ∀ i z, P !! i = Some z ↔ i < Z.to_nat n ∧ z = (n - Z.of_nat i)%Z).
  { intros i z. unfold P. rewrite list_lookup_fmap. destruct (decide (i < Z.to_nat n)).
    - rewrite lookup_seq_lt by done. cbn. split; [intros [= <-]; done|intros [_ ->]; done].
    - rewrite lookup_seq_ge by lia. cbn. split; [done|lia]. }
  assert (Hndp : NoDup P) by (apply NoDup_fmap_2; [intros a b; lia|apply NoDup_seq]).
  assert (HP : P ≡ₚ upto (Z.to_nat n)).
  { apply NoDup_Permutation; [done|apply upto_nodup|]. intros z. rewrite elem_of_upto, elem_of_list_lookup.
    setoid_rewrite Hlook. split.
    - intros (i & Hi & ->). exists (Z.to_nat n - 1 - i). lia.
    - intros (u & Hu & ->). exists (Z.to_nat n - 1 - u). lia. }
  destruct (C14_FromPermutation it h fmt (Z.to_nat n) P Hit HO HL HP)
    as (h' & evs & E & Hf & Hl & Hlab & Hord).
  assert (Hno : ∀ x y, x ∈ evs → y ∈ evs → ¬ before h' x y).
  { intros x y [u Hu]%elem_of_list_lookup [w Hw]%elem_of_list_lookup.
    pose proof (lookup_lt_Some _ _ _ Hu). pose proof (lookup_lt_Some _ _ _ Hw).
    rewrite (Hord u w x y (Z.to_nat n - 1 - u) (Z.to_nat n - 1 - w) Hu Hw); [lia| |]; apply Hlook; lia. }
  exists h', evs, (list_to_set evs). split_and!; try done.
  - by rewrite elements_evs by apply (fc_nodup _ _ _ Hf).
  - rewrite isAntichain_none by (apply (fc_order _ _ _ Hf) || apply (fc_closed _ _ _ Hf)).
    apply isAntichain_some; [apply (fc_order _ _ _ Hf)|]. intros x y Hx Hy.
    apply elem_of_list_to_set in Hx, Hy. by apply Hno.
  - intros u x Hu ->. by apply (Hlab u x Hu).
  - intros x y Hx Hy. apply elem_of_list_to_set in Hx, Hy. by apply Hno.
Qed.
Print Assumptions C15_NewAntichain.
Example C15_nonvacuous :
  snd (NewChain it_reverse 3 FmtNone ∅) = Ok {[1; 2; 3]} ∧
  snd (NewAntichain it_reverse (-3) FmtNone ∅) = Ok ∅ ∧ order_inv ∅ ∧ link_inv ∅.
Proof. split; [decide_vm|]. split; [decide_vm|]. split; [apply order_inv_empty|apply link_inv_empty]. Qed.

(** ** C16: [F] lists the faces (strictly increasing lists of vertices, i.e. subsets), [evs]
    the events, in the same order. *)
Theorem C16_NewSimplex (it : oracle) (h : heap) (d : Z) (central : bool) :
  iter_ok it → order_inv h → link_inv h →
  let n := Z.to_nat (d + 1) in
  ∃ h' evs (F : list (list nat)), NewSimplex it d central h = (h', Ok (list_to_set evs)) ∧
    fresh_causet h h' evs ∧ length F = length evs ∧ NoDup F ∧
    (∀ c, c ∈ F ↔ c `sublist_of` seq 1 n ∧ c ≠ [] ∧
       (length c < n ∨ n = 1 ∨ (central = true ∧ (0 < d)%Z))) ∧
    (∀ k c x, F !! k = Some c → evs !! k = Some x → lab h' x = LStr (flabel c)) ∧
    (∀ i j c e x y, F !! i = Some c → F !! j = Some e → evs !! i = Some x → evs !! j = Some y →
       before h' x y ↔ (list_to_set c : gset nat) ⊂ list_to_set e) ∧
    ((0 < d)%Z → length evs = if central then 2 ^ n - 1 else 2 ^ n - 2).
Proof.
  intros Hit HO HL n.
  destruct (NewSimplex_spec it h d central Hit HO HL) as (h' & evs & F & vs & E & HI & HF & Hc).
  fold n in HI, HF, Hc.
  exists h', evs, F. split_and!; [done|by eapply si_fresh|by eapply si_len|by eapply si_nodup| | | |].
  - intros c. rewrite HF. split.
    + intros (Hs & Hl & Hcase). split_and!; [done|intros ->; cbn in Hl; lia|].
      pose proof (sublist_length _ _ Hs) as Hsl. rewrite seq_length in Hsl. subst n.
      destruct Hcase as [?|[-> ?]]; [|auto]. destruct (decide (0 < d)%Z); [left; lia|].
      right; left. lia.
    + intros (Hs & Hl & Hcase). pose proof (sublist_length _ _ Hs) as Hsl. rewrite seq_length in Hsl. subst n.
      split_and!; [done|destruct c; [done|cbn; lia]|].
      destruct Hcase as [?|[?|[? ?]]]; [left; lia|left; lia|by right].
  - by eapply si_lab.
  - by eapply si_ord.
  - intros Hd. specialize (Hc Hd). pose proof (si_len _ _ _ _ _ _ HI). destruct central; lia.
Qed.
Print Assumptions C16_NewSimplex.
Example C16_nonvacuous :
  let r := NewSimplex it_reverse 2 true ∅ in
  (match snd r with Ok C => size C | Err _ => 0 end) = 7 ∧
  lab (fst r) 4 = LStr "1-3" ∧ ev_lt (fst r) 0 4 = true ∧ ev_lt (fst r) 1 4 = false.
Proof. split_and!; decide_vm. Qed.

(** ** C17: [evs] lists the events row by row; entry [r * len + l] is the event at level [r]
    and place [l]. *)
Theorem C17_NewFence (it : oracle) (h : heap) (length height : Z) (closed : bool) :
  iter_ok it → order_inv h → link_inv h → (2 <= length)%Z → (0 <= height)%Z →
  let len := Z.to_nat length in
  ∃ h' evs, NewFence it length height closed h = (h', Ok (list_to_set evs)) ∧
    fresh_causet h h' evs ∧ base.length evs = (Z.to_nat height + 1) * len ∧
    (∀ i x, evs !! i = Some x → lab h' x = LInt (Z.of_nat i + 1)) ∧
    (∀ r l r' l' x y, l < len → l' < len → evs !! (r * len + l) = Some x →
       evs !! (r' * len + l') = Some y →
       before h' x y ↔ r < r' ∧ within closed len (r' - r) l l').
Proof.
  intros Hit HO HL Hl Hh len.
  destruct (NewFence_spec it h length height closed Hit HO HL Hl Hh) as (h' & evs & E & Hf & H1 & H2 & H3).
  exists h', evs. split_and!; done.
Qed.
Print Assumptions C17_NewFence.
Theorem C17_degenerate (it : oracle) (h : heap) (length height : Z) (closed : bool) :
  iter_ok it → order_inv h → link_inv h →
  ((length < 1 ∨ height < 0)%Z → NewFence it length height closed h = (h, Ok ∅)) ∧
  ((0 <= height)%Z → ∃ h' evs, NewFence it 1 height closed h = (h', Ok (list_to_set evs)) ∧
     fresh_causet h h' evs ∧ base.length evs = Z.to_nat height + 1 ∧
     (∀ u w x y, evs !! u = Some x → evs !! w = Some y → before h' x y ↔ u < w)) ∧
  NewCrown it length h = NewFence it length 1 true h.
Proof.
  intros Hit HO HL. split_and!.
  - intros Hd. unfold NewFence. rewrite decide_True by done. f_equal.
    apply causet_closed; [by apply in_store_order|]. intros x Hx. by apply elem_of_empty in Hx.
  - intros Hh. unfold NewFence. destruct (decide _); [lia|]. rewrite decide_True by done.
    destruct (C15_NewChain it h (height + 1) FmtNone Hit HO HL) as (h' & evs & C & E & -> & Hf & Hs & _ & _ & Ho).
    exists h', evs. split_and!; [done|done| |done]. rewrite elements_evs in Hs by apply (fc_nodup _ _ _ Hf). lia.
  - done.
Qed.
Print Assumptions C17_degenerate.
Example C17_nonvacuous :
  let r := NewCrown it_reverse 3 ∅ in
  (match snd r with Ok C => size C | Err _ => 0 end) = 6 ∧
  ev_lt (fst r) 2 3 = true ∧ ev_lt (fst r) 0 3 = true ∧ ev_lt (fst r) 1 3 = false.
Proof. split_and!; decide_vm. Qed.

(** ** C18 *)
Theorem C18_FromPastMatrix (it : oracle) (h : heap) (n : nat) (C : nat → nat → bool) :
  iter_ok it → order_inv h → link_inv h → mat_order n C →
  ∃ h' evs, FromPastMatrix it n n C h = (h', evs, Ok (list_to_set evs)) ∧
    fresh_causet h h' evs ∧ length evs = n ∧
    (∀ i x, evs !! i = Some x → lab h' x = LInt (Z.of_nat i + 1)) ∧
    (∀ i j x y, evs !! i = Some x → evs !! j = Some y → before h' y x ↔ C i j = true) ∧
    (∀ i j, i < n → j < n → mat_get (PastMatrix_of h' evs) i j = C i j).
Proof.
  intros Hit HO HL HC.
  destruct (FromPastMatrix_spec it h n C Hit HO HL HC) as (h' & evs & E & Hf & Hl & Hlab & Ho).
  exists h', evs. split_and!; try done. intros i j Hi Hj.
  destruct (lookup_lt_is_Some_2 evs i) as [x Hx]; [lia|].
  destruct (lookup_lt_is_Some_2 evs j) as [y Hy]; [lia|].
  destruct (C25_matrices h' evs i j x y (fc_order _ _ _ Hf) (fc_link _ _ _ Hf) Hx Hy) as (H1 & _).
  rewrite (Ho i j x y Hx Hy) in H1. destruct (mat_get _ i j), (C i j); try done; [by symmetry; apply H1|by apply H1].
Qed.
Print Assumptions C18_FromPastMatrix.
Lemma mat_order_T n C : mat_order n C → mat_order n (λ i j, C j i).
Proof.
  intros [H1 H2]. split; [done|]. intros i j k Hi Hj Hk Hij Hjk. by apply (H2 k j i).
Qed.
Theorem C18_FromFutureMatrix (it : oracle) (h : heap) (n : nat) (C : nat → nat → bool) :
  iter_ok it → order_inv h → link_inv h → mat_order n C →
  ∃ h' evs, FromFutureMatrix it n n C h = (h', evs, Ok (list_to_set evs)) ∧
    fresh_causet h h' evs ∧ length evs = n ∧
    (∀ i x, evs !! i = Some x → lab h' x = LInt (Z.of_nat i + 1)) ∧
    (∀ i j x y, evs !! i = Some x → evs !! j = Some y → before h' x y ↔ C i j = true) ∧
    (∀ i j, i < n → j < n → mat_get (FutureMatrix_of h' evs) i j = C i j).
Proof.
  intros Hit HO HL HC. unfold FromFutureMatrix.
  destruct (FromPastMatrix_spec it h n (λ i j, C j i) Hit HO HL (mat_order_T n C HC)) as (h' & evs & E & Hf & Hl & Hlab & Ho).
  exists h', evs. split_and!; try done; [intros i j x y Hi Hj; by apply (Ho j i)|]. intros i j Hi Hj.
  destruct (lookup_lt_is_Some_2 evs i) as [x Hx]; [lia|].
  destruct (lookup_lt_is_Some_2 evs j) as [y Hy]; [lia|].
  destruct (C25_matrices h' evs i j x y (fc_order _ _ _ Hf) (fc_link _ _ _ Hf) Hx Hy) as (_ & H1 & _).
  rewrite (Ho j i y x Hy Hx) in H1. destruct (mat_get _ i j), (C i j); try done; [by symmetry; apply H1|by apply H1].
Qed.
Print Assumptions C18_FromFutureMatrix.
Definition demo_mat (i j : nat) : bool := bool_decide (i = 2 ∧ j < 2).
Example C18_nonvacuous :
  mat_order 3 demo_mat ∧ demo_mat 2 0 = true ∧
  ev_lt (fst (fst (FromPastMatrix it_reverse 3 3 demo_mat ∅))) 1 2 = true.
Proof.
  split; [|split; decide_vm]. unfold mat_order, demo_mat. split.
  - intros i Hi. apply bool_decide_eq_false. lia.
  - intros i j k _ _ _. rewrite !bool_decide_eq_true. lia.
Qed.

(** ** C19 *)
Theorem C19_ValueError_iff (it : oracle) (h : heap) (r c : nat) (C : nat → nat → bool) :
  iter_ok it → order_inv h → link_inv h →
  (c < r ∨ mat_clash r C → ∃ h' evs, FromPastMatrix it r c C h = (h', evs, Err ValueError)) ∧
  (¬ (c < r ∨ mat_clash r C) → ∃ h' evs, FromPastMatrix it r c C h = (h', evs, Ok (list_to_set evs)) ∧
     NoDup evs ∧ length evs = c ∧ (∀ x, x ∈ evs → x ∉ dom h) ∧
     (∀ y, y ∈ dom h → h' !!! y = h !!! y) ∧
     (∀ i x, evs !! i = Some x → lab h' x = LInt (Z.of_nat i + 1))).
Proof.
  intros Hit HO HL. split; [by apply FromPastMatrix_err|]. intros Hn.
  destruct (FromPastMatrix_any it h r c C Hit HO HL) as
    (h' & h1 & evs & E & Hlen & Hnd & Hfr & Hold & Hcl & _ & _ & _ & Hlab & _); [lia|tauto|].
  exists h', evs. split_and!; done.
Qed.
Print Assumptions C19_ValueError_iff.
(** FromFutureMatrix: the same with rows and columns exchanged. *)
Theorem C19_future_ValueError_iff (it : oracle) (h : heap) (r c : nat) (C : nat → nat → bool) :
  iter_ok it → order_inv h → link_inv h →
  (r < c ∨ mat_clash c (λ i j, C j i) → ∃ h' evs, FromFutureMatrix it r c C h = (h', evs, Err ValueError)) ∧
  (¬ (r < c ∨ mat_clash c (λ i j, C j i)) → ∃ h' evs, FromFutureMatrix it r c C h = (h', evs, Ok (list_to_set evs)) ∧
     NoDup evs ∧ length evs = r ∧ (∀ x, x ∈ evs → x ∉ dom h) ∧
     (∀ y, y ∈ dom h → h' !!! y = h !!! y) ∧
     (∀ i x, evs !! i = Some x → lab h' x = LInt (Z.of_nat i + 1))).
Proof. intros Hit HO HL. exact (C19_ValueError_iff it h c r (λ i j, C j i) Hit HO HL). Qed.
Print Assumptions C19_future_ValueError_iff.
Theorem C19_link_matrix_past (it : oracle) (h : heap) (n : nat) (C : nat → nat → bool) :
  iter_ok it → order_inv h → link_inv h →
  (∀ i j, i < n → C i j = true → j < i) →
  ∃ h' evs, FromPastMatrix it n n C h = (h', evs, Ok (list_to_set evs)) ∧
    NoDup evs ∧ length evs = n ∧
    (∀ i j x y, evs !! i = Some x → evs !! j = Some y →
       ev_lt h' y x = true ↔ tc (λ a b, C a b = true) i j).
Proof.
  intros Hit HO HL Hlow.
  destruct (FromPastMatrix_lower it h n C Hit HO HL Hlow) as (h' & evs & E & Hl & Hnd & _ & _ & _ & Ho).
  exists h', evs. split_and!; try done. intros i j x y Hi Hj. unfold ev_lt. rewrite bool_decide_eq_true.
  change (y ∈ prec h' x) with (before h' y x). rewrite (Ho i x y Hi). split.
  - intros (j' & Hj' & Ht). assert (j' = j) as -> by exact (NoDup_lookup _ _ _ _ Hnd Hj' Hj). done.
  - eauto.
Qed.
Print Assumptions C19_link_matrix_past.
Theorem C19_future_incomplete_refuted :
  let C := λ i j, bool_decide (i = S j) in
  let h' := fst (fst (FromPastMatrix it_elements 4 4 C ∅)) in
  (∀ i j, i < 4 → C i j = true → j < i) ∧
  ev_lt h' 0 3 = true ∧ 3 ∉ Future h' 0.
Proof.
  split_and!; [|decide_vm|decide_vm]. intros i j _. rewrite bool_decide_eq_true. lia.
Qed.
Print Assumptions C19_future_incomplete_refuted.
Theorem C19_three_loop_refuted :
  let C := λ i j, bool_decide (j < 3 ∧ i = (j + 1) mod 3) in
  let r := FromPastMatrix it_elements 3 3 C ∅ in
  tc (λ a b, C a b = true) 0 0 ∧
  snd r = Ok {[0; 1; 2]} ∧ ev_lt (fst (fst r)) 0 2 = true ∧ ev_lt (fst (fst r)) 2 0 = true.
Proof.
  split_and!; [|decide_vm|decide_vm|decide_vm].
  apply tc_l with 2; [done|]. apply tc_l with 1; [done|]. by apply tc_once.
Qed.
Print Assumptions C19_three_loop_refuted.
Theorem C19_missing_rows_refuted :
  let C := λ i j, bool_decide (i = 0 ∧ j = 1) in
  let h' := fst (fst (FromPastMatrix it_elements 1 2 C ∅)) in
  ev_lt h' 1 0 = true ∧ Future h' 1 = ∅.
Proof. split_and!; decide_vm. Qed.
Print Assumptions C19_missing_rows_refuted.
Example C19_nonvacuous : mat_clash 2 (λ i j, bool_decide (i + j = 1)).
Proof. exists 0, 1. split_and!; try lia; done. Qed.

(** ** C20 *)
Lemma iso_of_lists h h' (l evs : list nat) :
  NoDup l → NoDup evs → length l = length evs →
  (∀ i j a b x y, l !! i = Some a → l !! j = Some b → evs !! i = Some x → evs !! j = Some y →
     before h' x y ↔ before h a b) →
  order_iso h (list_to_set l) h' (list_to_set evs).
Proof.
  intros Hl He Hlen Ho.
  set (f := λ a, evs !!! (default 0 (fst <$> list_find (λ b, a = b) l))).
  assert (Hf : ∀ i a, l !! i = Some a → evs !! i = Some (f a)).
  { intros i a Hi. unfold f.
    assert (Hfi : list_find (λ b, a = b) l = Some (i, a)).
    { apply list_find_Some. split_and!; [done|done|]. intros j y Hj Hlt <-.
      assert (j = i) by exact (NoDup_lookup _ _ _ _ Hl Hj Hi). lia. }
    rewrite Hfi. cbn. apply list_lookup_lookup_total_lt. rewrite <- Hlen. by eapply lookup_lt_Some. }
  exists f. split_and!.
  - intros x y Hx Hy Hxy. apply elem_of_list_to_set, elem_of_list_lookup in Hx as [i Hi].
    apply elem_of_list_to_set, elem_of_list_lookup in Hy as [j Hj].
    pose proof (Hf i x Hi) as H1. pose proof (Hf j y Hj) as H2. rewrite <- Hxy in H2.
    assert (i = j) as -> by exact (NoDup_lookup _ _ _ _ He H1 H2). congruence.
  - intros z. rewrite elem_of_list_to_set, elem_of_list_lookup. split.
    + intros [i Hi]. destruct (lookup_lt_is_Some_2 l i) as [a Ha]; [rewrite Hlen; by eapply lookup_lt_Some|].
      exists a. split; [by eapply elem_of_list_to_set, elem_of_list_lookup_2|].
      pose proof (Hf i a Ha). congruence.
    + intros (a & Ha & ->). apply elem_of_list_to_set, elem_of_list_lookup in Ha as [i Hi]. exists i. by apply Hf.
  - intros x y Hx Hy. apply elem_of_list_to_set, elem_of_list_lookup in Hx as [i Hi].
    apply elem_of_list_to_set, elem_of_list_lookup in Hy as [j Hj].
    apply (Ho i j); [done|done|by apply Hf|by apply Hf].
Qed.
Lemma pastmatrix_order h l : order_inv h → NoDup l → mat_order (length l) (mat_get (PastMatrix_of h l)).
Proof.
  intros HO Hl.
  assert (H : ∀ i j a b, l !! i = Some a → l !! j = Some b → mat_get (PastMatrix_of h l) i j = true ↔ before h b a).
  { intros i j a b Hi Hj. unfold mat_get, PastMatrix_of. rewrite !list_lookup_fmap, Hi. cbn.
    rewrite !list_lookup_fmap, Hj. cbn. unfold ev_gt. by rewrite bool_decide_eq_true. }
  split.
  - intros i Hi. destruct (lookup_lt_is_Some_2 l i Hi) as [a Ha]. apply not_true_is_false.
    rewrite (H i i a a Ha Ha). apply (oi_irr h HO).
  - intros i j k Hi Hj Hk. destruct (lookup_lt_is_Some_2 l i Hi) as [a Ha].
    destruct (lookup_lt_is_Some_2 l j Hj) as [b Hb]. destruct (lookup_lt_is_Some_2 l k Hk) as [c Hc].
    rewrite (H i j a b Ha Hb), (H j k b c Hb Hc), (H i k a c Ha Hc). intros H1 H2.
    exact (oi_trans h HO _ _ _ H2 H1).
Qed.
Theorem C20_csv_round_trip (it it' : oracle) (argsort : argsort_t) (h : heap) (C : gset nat) :
  iter_ok it → iter_ok it' → argsort_ok argsort → order_inv h → link_inv h →
  2 ≤ size C → (∀ x, x ∈ C → lab h x ≠ LNone) →
  ∃ text h' evs C', saveAsCSV it argsort h C = Ok text ∧
    FromTextFile it' text true h = (h', evs, Ok C') ∧ fresh_causet h h' evs ∧
    C' = list_to_set evs ∧ order_iso h C h' C'.
Proof.
  intros Hit Hit' Has HO HL Hsz Hlab.
  destruct (C26_sortedByCausality it argsort h C Hit Has HO (or_intror Hlab)) as [(l & El & Hperm & _) _].
  assert (Hnd : NoDup l) by (rewrite Hperm; apply NoDup_elements).
  assert (Hll : length l = size C) by (by rewrite Hperm).
  assert (HlC : list_to_set l = C).
  { apply set_eq. intros x. rewrite elem_of_list_to_set, Hperm. apply elem_of_elements. }
  destruct (C25_shape h l) as (Hs1 & _ & Hs2 & _).
  unfold saveAsCSV, PastMatrix. rewrite El. cbn [res_map].
  exists (savetxt (PastMatrix_of h l)). unfold FromTextFile. rewrite (genfromtxt_square (length l)) by (done || lia).
  assert (Hhd : length (default [] (head (PastMatrix_of h l))) = length l).
  { destruct (PastMatrix_of h l) as [|r M] eqn:EM; [cbn in Hs1; lia|]. cbn. apply Hs2, elem_of_list_here. }
  rewrite Hs1, Hhd.
  destruct (FromPastMatrix_spec it' h (length l) (mat_get (PastMatrix_of h l)) Hit' HO HL (pastmatrix_order h l HO Hnd))
    as (h' & evs & -> & Hf & Hlen & _ & Ho).
  exists h', evs, (list_to_set evs). split_and!; [done|done|done|done|].
  rewrite <- HlC. apply iso_of_lists; [done|apply (fc_nodup _ _ _ Hf)|done|].
  intros i j a b x y Hi Hj Hx Hy. rewrite (Ho j i y x Hy Hx).
  by destruct (C25_matrices h l j i b a HO HL Hj Hi) as (-> & _).
Qed.
Print Assumptions C20_csv_round_trip.
Theorem C20_small (it it' : oracle) (argsort : argsort_t) (h : heap) (C : gset nat) :
  iter_ok it → argsort_ok argsort → order_inv h → size C ≤ 1 →
  ∃ text, saveAsCSV it argsort h C = Ok text ∧
    FromTextFile it' text true h = (h, [], Err IndexError).
Proof.
  intros Hit Has HO Hsz.
  destruct (C26_sortedByCausality it argsort h C Hit Has HO (or_introl Hsz)) as [(l & El & Hperm & _) _].
  assert (Hll : length l = size C) by (by rewrite Hperm).
  unfold saveAsCSV, PastMatrix. rewrite El. cbn [res_map]. eexists. split; [done|].
  destruct l as [|a [|b l]]; cbn in Hll; [done| |lia].
  cbn [PastMatrix_of]. change (PastMatrix_of h [a]) with [[ev_gt h a a]]. by destruct (ev_gt h a a).
Qed.
Print Assumptions C20_small.
Example C20_nonvacuous :
  order_inv demo ∧ 2 ≤ size (dom demo) ∧ (∀ x, x ∈ dom demo → lab demo x ≠ LNone).
Proof. split; [apply demo_order|]. split; [decide_vm|].
  assert (H : set_Forall (λ x, lab demo x ≠ LNone) (dom demo)) by decide_vm. exact H. Qed.

(** ** C21 *)
Theorem C21_merge (it : oracle) (h : heap) (A B : gset nat) :
  iter_ok it → order_inv h → A ⊆ dom h → B ⊆ dom h → A ## B → closed h A → closed h B →
  ∃ h', merge it A B false h = (h', Ok (A ∪ B)) ∧ order_inv h' ∧ dom h' = dom h ∧
    (∀ x y, before h' x y ↔ before h x y ∨ (x ∈ A ∧ y ∈ B)) ∧
    (∀ x, lab h' x = lab h x).
Proof.
  intros Hit HO HA HB Hd HcA HcB. unfold merge.
  assert (Hdown : ∀ a b, before h a b → b ∈ A → a ∈ A).
  { intros a b Hab Hb. exact (proj1 (HcA b Hb) a Hab). }
  assert (Hup : ∀ a b, before h a b → a ∈ B → b ∈ B).
  { intros a b Hab Ha. destruct (HcB a Ha) as [_ H]. apply H. by apply (oi_conv h HO). }
  assert (HO' := merge_order it h A B Hit HO HA HB Hd Hdown Hup).
  assert (Hb := merge_before it h A B Hit HA HB). assert (Hs := merge_succ it h A B Hit HA HB).
  exists (merge_loop it A B h). split; [|split_and!; [exact HO'| |exact Hb|]].
  - f_equal. apply causet_closed; [by apply in_store_order|]. intros x Hx. split; intros y Hy.
    + apply Hb in Hy as [Hy|[Hy _]]; [|by apply elem_of_union_l].
      apply elem_of_union in Hx as [Hx|Hx]; [apply elem_of_union_l, (proj1 (HcA x Hx))|apply elem_of_union_r, (proj1 (HcB x Hx))]; done.
    + apply Hs in Hy as [Hy|[_ Hy]]; [|by apply elem_of_union_r].
      apply elem_of_union in Hx as [Hx|Hx]; [apply elem_of_union_l, (proj2 (HcA x Hx))|apply elem_of_union_r, (proj2 (HcB x Hx))]; done.
  - apply (mg_dom _ _ _ _ (merge_loop_merged it A B h Hit HA HB)).
  - intros x. apply (mg_rest _ _ _ _ (merge_loop_merged it A B h Hit HA HB)).
Qed.
Print Assumptions C21_merge.
(** With disjoint=True nothing is changed and the event set is the union. *)
Theorem C21_merge_disjoint (it : oracle) (h : heap) (A B : gset nat) :
  order_inv h → closed h A → closed h B → merge it A B true h = (h, Ok (A ∪ B)).
Proof.
  intros HO HcA HcB. unfold merge. f_equal. apply causet_closed; [by apply in_store_order|].
  intros x [Hx|Hx]%elem_of_union; [destruct (HcA x Hx)|destruct (HcB x Hx)]; split; intros y Hy;
    (apply elem_of_union_l; by auto) || (apply elem_of_union_r; by auto).
Qed.
Print Assumptions C21_merge_disjoint.
(** An event before A but outside A is not put before B: the result is no order. *)
Theorem C21_not_closed_refuted (it : oracle) (h : heap) (A B : gset nat) (a b f : nat) :
  iter_ok it → A ⊆ dom h → B ⊆ dom h →
  before h a b → b ∈ A → f ∈ B → a ∉ A → ¬ before h a f →
  ∃ h' r, merge it A B false h = (h', r) ∧ before h' a b ∧ before h' b f ∧ ¬ before h' a f.
Proof.
  intros Hit HA HB Hab Hb Hf Ha Haf. unfold merge. eexists _, _. split; [done|].
  rewrite !(merge_before it h A B Hit HA HB). tauto.
Qed.
Print Assumptions C21_not_closed_refuted.
(** Store with the two causets 0 < 1 and 2. *)
Definition two_ops : list op :=
  [ONew (LInt 1) ∅ ∅ [] []; ONew (LInt 2) {[0]} ∅ [] []; ONew (LInt 3) ∅ ∅ [] []].
Definition two : heap := run ∅ ((λ o, (it_elements, o)) <$> two_ops).
Lemma two_order : order_inv two.
Proof. apply ops_order. by vm_compute. Qed.
Lemma two_link : link_inv two.
Proof. apply ops_link; [by vm_compute|]. unfold no_disjoin; repeat constructor. Qed.
Definition closedb (h : heap) (S : gset nat) : Prop := set_Forall (λ x, prec h x ⊆ S ∧ succ h x ⊆ S) S.
Example C21_nonvacuous :
  order_inv two ∧ ({[0; 1]} : gset nat) ⊆ dom two ∧ ({[2]} : gset nat) ⊆ dom two ∧
  ({[0; 1]} : gset nat) ## {[2]} ∧ closed two {[0; 1]} ∧ closed two {[2]}.
Proof.
  split; [apply two_order|]. split; [decide_vm|]. split; [decide_vm|]. split; [decide_vm|]. split.
  - assert (H : closedb two {[0; 1]}) by decide_vm. exact H.
  - assert (H : closedb two {[2]}) by decide_vm. exact H.
Qed.

(** ** C22 *)
Theorem C22_links_without_caches (it : oracle) (h : heap) (A B : gset nat) :
  iter_ok it → order_inv h → link_inv h → A ⊆ dom h → B ⊆ dom h → A ## B →
  closed h A → closed h B →
  (∀ x, x ∈ A ∪ B → lprec h x = None ∧ lsucc h x = None) →
  ∃ h', merge it A B false h = (h', Ok (A ∪ B)) ∧
    ∀ x y, (y ∈ LinkPast h' x ↔ covers (before h') y x) ∧
           (y ∈ LinkFuture h' x ↔ covers (before h') x y).
Proof.
  intros Hit HO HL HA HB Hd HcA HcB Hno.
  destruct (C21_merge it h A B Hit HO HA HB Hd HcA HcB) as (h' & E & HO' & _).
  exists h'. split; [done|].
  assert (HL' : link_inv h').
  { unfold merge in E. injection E as <- _. apply merge_link_inv; try done.
    - intros a b Hab Hb. exact (proj1 (HcA b Hb) a Hab).
    - intros a b Hab Ha. destruct (HcB a Ha) as [_ H]. apply H. by apply (oi_conv h HO). }
  intros x y. by rewrite LinkPast_spec, LinkFuture_spec.
Qed.
Print Assumptions C22_links_without_caches.
(** Linked arguments: the chain 0 < 1 merged with 2, event 0 visited first. *)
Definition two_linked_ops : list op := two_ops ++ [OLink 0; OLink 1; OLink 2].
Definition two_linked : heap := run ∅ ((λ o, (it_elements, o)) <$> two_linked_ops).
Theorem C22_links_with_caches_refuted :
  order_inv two_linked ∧ link_inv two_linked ∧
  let h' := fst (merge it_elements {[0; 1]} {[2]} false two_linked) in
  ev_lt h' 0 1 = true ∧ ev_lt h' 1 2 = true ∧ 2 ∈ LinkFuture h' 0.
Proof.
  split; [|split].
  - apply ops_order. by vm_compute.
  - apply ops_link; [by vm_compute|]. unfold no_disjoin; repeat constructor.
  - split_and!; decide_vm.
Qed.
Print Assumptions C22_links_with_caches_refuted.
Example C22_nonvacuous :
  link_inv two ∧ set_Forall (λ x, lprec two x = None ∧ lsucc two x = None) ({[0; 1]} ∪ {[2]} : gset nat).
Proof. split; [apply two_link|]. decide_vm. Qed.

(** ** C23 *)
Theorem C23_link (it : oracle) (h : heap) (C : gset nat) :
  iter_ok it → order_inv h → C ⊆ dom h → closed h C →
  ∃ h', link_causet it C h = (h', Ok tt) ∧ order_inv h' ∧
    (∀ x y, before h' x y ↔ before h x y) ∧
    (∀ x, x ∈ C → hasBeenLinked h' x = true) ∧
    (∀ x y, x ∈ C → (y ∈ LinkPast h' x ↔ covers (before h) y x) ∧
                    (y ∈ LinkFuture h' x ↔ covers (before h) x y)) ∧
    (∀ x, x ∉ C → lprec h' x = lprec h x ∧ lsucc h' x = lsucc h x) ∧
    (link_inv h → link_inv h').
Proof.
  intros Hit HO HC Hcl.
  destruct (link_causet_ok it h C Hit (oi_conv h HO) HC) as (h' & E & Hd & Hso & Hin & Hout & _).
  { intros b a Hb [Hab _]. left. exact (proj1 (Hcl b Hb) a Hab). }
  assert (HO' : order_inv h') by by eapply same_order_inv.
  assert (Hfut : ∀ x y, x ∈ C → y ∈ filter (λ b, x ∈ link_past_set h b) C ↔ covers (before h) x y).
  { intros x y Hx. rewrite elem_of_filter, link_past_set_spec by done. split; [tauto|]. intros Hc.
    split; [done|]. destruct (Hcl x Hx) as [_ H]. apply H. apply (oi_conv h HO). apply Hc. }
  assert (Hout' : ∀ x, x ∉ C → lprec h' x = lprec h x ∧ lsucc h' x = lsucc h x).
  { intros x Hx. destruct (Hout x Hx) as [-> ->]. split; [done|].
    assert (He : filter (λ b, x ∈ link_past_set h b) C = ∅).
    { apply set_eq. intros b. split; [|intros Hb; by apply elem_of_empty in Hb].
      rewrite elem_of_filter, link_past_set_spec by done. intros [[Hc _] Hb]. exfalso. apply Hx.
      exact (proj1 (Hcl b Hb) x Hc). }
    rewrite He. destruct (lsucc h x); [|done]. cbn. by rewrite union_empty_r_L. }
  exists h'. split_and!; try done.
  - intros x y. by apply same_order_before.
  - intros x Hx. unfold hasBeenLinked. by destruct (Hin x Hx) as [-> ->].
  - intros x y Hx. unfold LinkPast, LinkFuture. destruct (Hin x Hx) as [-> ->].
    split; [by apply link_past_set_spec|by apply Hfut].
  - intros HL x. destruct (decide (x ∈ C)) as [Hx|Hx].
    + right. destruct (Hin x Hx) as [-> ->]. eexists _, _. split; [done|]. split; [done|]. split; intros y.
      * rewrite (same_order_covers h h') by done. by apply link_past_set_spec.
      * rewrite (same_order_covers h h') by done. by apply Hfut.
    + destruct (Hout' x Hx) as [-> ->]. destruct (HL x) as [?|(lp & ls & H1 & H2 & H3 & H4)]; [by left|right].
      exists lp, ls. split_and!; [done|done| |]; intros y; rewrite (same_order_covers h h') by done; [apply H3|apply H4].
Qed.
Print Assumptions C23_link.
(** Outside a closed set the future links are missing: the first event without the attribute
    raises. *)
Theorem C23_link_not_closed (it : oracle) (h : heap) (C : gset nat) (a b : nat) :
  iter_ok it → order_inv h → C ⊆ dom h →
  b ∈ C → covers (before h) a b → a ∉ C → lsucc h a = None →
  ∃ h', link_causet it C h = (h', Err AttributeError).
Proof. intros. eapply link_causet_err; eauto 10. Qed.
Print Assumptions C23_link_not_closed.
Lemma sum_pairs (f : nat → gset nat) (l : list nat) : NoDup l →
  ∃ L : list (nat * nat), NoDup L ∧ (∀ a b, (a, b) ∈ L ↔ b ∈ l ∧ a ∈ f b) ∧
    sum_list ((λ e, size (f e)) <$> l) = length L.
Proof.
  induction l as [|b l IH]; intros Hnd.
  { exists []. split_and!; [constructor| |done]. intros a b. rewrite !elem_of_nil. tauto. }
  apply NoDup_cons in Hnd as [Hb Hnd]. destruct (IH Hnd) as (L & H1 & H2 & H3).
  exists (((λ a, (a, b)) <$> elements (f b)) ++ L). split_and!.
  - apply NoDup_app. split_and!; [apply NoDup_fmap_2; [intros ?? [=]; done|apply NoDup_elements]| |done].
    intros [a b'] (? & [= -> ->] & Ha)%elem_of_list_fmap Hin. apply H2 in Hin as [? _]. done.
  - intros a c. rewrite elem_of_app, H2, elem_of_list_fmap, elem_of_cons. split.
    + intros [(? & [= -> ->] & Ha%elem_of_elements)|[? ?]]; auto.
    + intros [[-> |Hc] Ha]; [left; exists a; split; [done|by apply elem_of_elements]|by right].
  - rewrite app_length, fmap_length. cbn [fmap list_fmap sum_list_with sum_list]. unfold sum_list in *. cbn. rewrite <- H3. done.
Qed.
(** LinkCount() and LinkCount(S) count the covering pairs. *)
Theorem C23_LinkCount (h : heap) (C S : gset nat) :
  order_inv h → link_inv h → closed h C →
  (∃ L : list (nat * nat), NoDup L ∧ LinkCount h C None = length L ∧
     ∀ a b, (a, b) ∈ L ↔ a ∈ C ∧ b ∈ C ∧ covers (before h) a b) ∧
  (∃ L : list (nat * nat), NoDup L ∧ LinkCount h C (Some S) = length L ∧
     ∀ a b, (a, b) ∈ L ↔ a ∈ S ∧ b ∈ S ∧ covers (before h) a b).
Proof.
  intros HO HL Hcl. split.
  - destruct (sum_pairs (LinkPast h) (elements C) (NoDup_elements C)) as (L & H1 & H2 & H3).
    exists L. split_and!; [done|done|]. intros a b. rewrite H2, elem_of_elements, LinkPast_spec by done.
    split; [|tauto]. intros [Hb Hc]. split; [|done]. exact (proj1 (Hcl b Hb) a (proj1 Hc)).
  - destruct (sum_pairs (λ b, LinkPast h b ∩ S) (elements S) (NoDup_elements S)) as (L & H1 & H2 & H3).
    exists L. split_and!; [done|done|]. intros a b.
    rewrite H2, elem_of_elements, elem_of_intersection, LinkPast_spec by done. tauto.
Qed.
Print Assumptions C23_LinkCount.
Theorem C23_unlink (it : oracle) (h : heap) (C : gset nat) :
  iter_ok it → link_paired h →
  ∃ h', unlink_causet it C h = (h', Ok tt) ∧
    (∀ x, x ∈ C → lprec h' x = None ∧ lsucc h' x = None) ∧
    (∀ x, x ∉ C → h' !!! x = h !!! x) ∧
    (∀ x, prec h' x = prec h x ∧ succ h' x = succ h x ∧ lab h' x = lab h x).
Proof.
  intros Hit HP. unfold unlink_causet.
  destruct (unlink_linked_loop_spec (it 25 C) h) as (h' & -> & H); [by apply iter_nodup|].
  exists h'. split_and!; [done| | |].
  - intros x Hx. unfold lprec, lsucc. rewrite H. destruct (decide _) as [?|Hn]; [done|].
    assert (Hx' : x ∈ it 25 C) by by apply iter_elem.
    assert (Hl : hasBeenLinked h x ≠ true) by tauto.
    unfold hasBeenLinked in Hl. pose proof (HP x) as Hp. unfold lprec, lsucc in *.
    destruct (ev_lprec (h !!! x)), (ev_lsucc (h !!! x)); try done.
    + by destruct Hp as [_ ->]. + by destruct Hp as [-> _].
  - intros x Hx. rewrite H, decide_False; [done|]. rewrite iter_elem by done. tauto.
  - intros x. unfold prec, succ, lab. rewrite H. by destruct (decide _).
Qed.
Print Assumptions C23_unlink.
Example C23_nonvacuous :
  order_inv demo ∧ closed demo (dom demo) ∧
  (let r := link_causet it_reverse (dom demo) demo in
   snd r = Ok tt ∧ LinkCount (fst r) (dom demo) None = 4 ∧
   snd (unlink_causet it_reverse (dom demo) (fst r)) = Ok tt).
Proof.
  split; [apply demo_order|]. split.
  - assert (H : closedb demo (dom demo)) by decide_vm. exact H.
  - split_and!; decide_vm.
Qed.

(** ** C24 *)
Theorem C24_add_discard (it : oracle) (h : heap) (C S : gset nat) (unlink : bool) :
  iter_ok it → link_paired h →
  (∃ h' r, add it C S unlink h = (h', C ∪ S, r) ∧ same_order h h' ∧ (unlink = false → h' = h ∧ r = Ok tt)) ∧
  (∃ h' r, discard it C S unlink h = (h', C ∖ S, r) ∧ same_order h h' ∧ (unlink = false → h' = h ∧ r = Ok tt)).
Proof.
  intros Hit HP. unfold add, discard. destruct unlink.
  - pose proof (unlink_loop_spec (it 24 (add_events C S)) h (iter_nodup it 24 _ Hit) HP) as (H1 & _).
    pose proof (unlink_loop_spec (it 24 (discard_events C S)) h (iter_nodup it 24 _ Hit) HP) as (H2 & _).
    destruct (unlink_loop (it 24 (add_events C S)) h) as [ha ra].
    destruct (unlink_loop (it 24 (discard_events C S)) h) as [hd rd]. cbn [fst] in *.
    split; eexists _, _; (split; [done|]); done.
  - split; eexists _, _; (split; [done|]); done.
Qed.
Print Assumptions C24_add_discard.
Theorem C24_unlink_raises (it : oracle) (h : heap) (C S : gset nat) :
  iter_ok it → link_paired h →
  (snd (add it C S true h) = Err AttributeError ↔ ∃ x, x ∈ C ∪ S ∧ hasBeenLinked h x = false) ∧
  (snd (discard it C S true h) = Err AttributeError ↔ ∃ x, x ∈ C ∖ S ∧ hasBeenLinked h x = false).
Proof.
  intros Hit HP.
  assert (G : ∀ D : gset nat, snd (unlink_loop (it 24 D) h) = Err AttributeError ↔ ∃ x, x ∈ D ∧ hasBeenLinked h x = false).
  { intros D. destruct (unlink_loop_spec (it 24 D) h (iter_nodup it 24 _ Hit) HP) as (_ & H2 & H3). split.
    - intros He. destruct (decide (set_Forall (λ x, hasBeenLinked h x = true) D)) as [Hall|Hn].
      + exfalso. destruct H3 as [H3 _]; [|congruence]. intros x Hx. rewrite iter_elem in Hx by done.
        specialize (Hall x Hx). cbn in Hall. unfold hasBeenLinked in Hall. by destruct (lprec h x).
      + apply not_set_Forall_Exists in Hn; [|apply _]. destruct Hn as (x & Hx & Hf). exists x. split; [done|].
        by apply not_true_is_false.
    - intros (x & Hx & Hf). apply H2. exists x. rewrite iter_elem by done. split; [done|].
      unfold hasBeenLinked in Hf. pose proof (HP x) as Hp. destruct (lprec h x), (lsucc h x); try done. by apply Hp. }
  unfold add, discard. split.
  - rewrite <- (G (C ∪ S)). unfold add_events. by destruct (unlink_loop _ h).
  - rewrite <- (G (C ∖ S)). unfold discard_events. by destruct (unlink_loop _ h).
Qed.
Print Assumptions C24_unlink_raises.
Example C24_nonvacuous :
  link_inv demo ∧ snd (add it_reverse {[0]} {[3]} true demo) = Err AttributeError ∧
  snd (discard it_reverse {[0; 3]} {[3]} true demo) = Ok tt.
Proof. split; [apply demo_link|]. split; decide_vm. Qed.
