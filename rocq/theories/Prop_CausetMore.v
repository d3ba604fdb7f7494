(** More about Causet queries (C25, C30, C40): exact characterisations. *)
From Verif Require Import Base Spec EventModel EventFacts History HistoryFacts PathFacts RankFacts
  EventProps CausetModel CausetFacts IntervalFacts SortFacts LayerFacts Prop_Event Prop_Causet.
From stdpp Require Import sorting.

(** ** C25: the future matrices in default order are upper triangular, and all four default
    matrices are indexed by one and the same linear extension. *)
Theorem C25_default_order (it : oracle) (argsort : argsort_t) (h : heap) (C : gset nat) :
  iter_ok it → argsort_ok argsort → order_inv h → link_inv h →
  (∀ x, x ∈ C → lab h x ≠ LNone) →
  ∃ l MP MF KP KF, linear_extension (before h) C l ∧
    PastMatrix it argsort h C = Ok MP ∧ FutureMatrix it argsort h C = Ok MF ∧
    LinkPastMatrix it argsort h C = Ok KP ∧ LinkFutureMatrix it argsort h C = Ok KF ∧
    (∀ i j a b, l !! i = Some a → l !! j = Some b →
      (mat_get MP i j = true ↔ before h b a) ∧ (mat_get MF i j = true ↔ before h a b) ∧
      (mat_get KP i j = true ↔ covers (before h) b a) ∧
      (mat_get KF i j = true ↔ covers (before h) a b)) ∧
    (∀ i j, size C ≤ i ∨ size C ≤ j → mat_get MP i j = false ∧ mat_get MF i j = false ∧
                                     mat_get KP i j = false ∧ mat_get KF i j = false) ∧
    (∀ i j, j ≤ i → mat_get MF i j = false ∧ mat_get KF i j = false).
Proof.
  intros Hit Has HO HL Hlab.
  destruct (C26_sortedByCausality it argsort h C Hit Has HO (or_intror Hlab)) as [(l & El & Hl) _].
  assert (Hlen : length l = size C) by (by rewrite (proj1 Hl)).
  exists l, (PastMatrix_of h l), (FutureMatrix_of h l), (LinkPastMatrix_of h l), (LinkFutureMatrix_of h l).
  unfold PastMatrix, FutureMatrix, LinkPastMatrix, LinkFutureMatrix. rewrite El. cbn [res_map].
  assert (Hin : ∀ i j a b, l !! i = Some a → l !! j = Some b →
      (mat_get (PastMatrix_of h l) i j = true ↔ before h b a) ∧
      (mat_get (FutureMatrix_of h l) i j = true ↔ before h a b) ∧
      (mat_get (LinkPastMatrix_of h l) i j = true ↔ covers (before h) b a) ∧
      (mat_get (LinkFutureMatrix_of h l) i j = true ↔ covers (before h) a b)).
  { intros. by apply C25_matrices. }
  assert (Hout : ∀ i j, size C ≤ i ∨ size C ≤ j →
     mat_get (PastMatrix_of h l) i j = false ∧ mat_get (FutureMatrix_of h l) i j = false ∧
     mat_get (LinkPastMatrix_of h l) i j = false ∧ mat_get (LinkFutureMatrix_of h l) i j = false).
  { rewrite <- Hlen. intros i j Hij.
    assert (HT : ∀ M, mat_get (mat_T (length l) M) i j = false).
    { intros M. unfold mat_get, mat_T. rewrite list_lookup_fmap.
      destruct (decide (i < length l)); [|rewrite lookup_seq_ge by lia; done].
      rewrite lookup_seq_lt by lia. cbn. rewrite list_lookup_fmap, lookup_seq_ge by lia. done. }
    assert (HP : ∀ f : nat → nat → bool, mat_get ((λ a, (λ b, f a b) <$> l) <$> l) i j = false).
    { intros f. unfold mat_get. rewrite list_lookup_fmap. destruct (l !! i) as [a|] eqn:E; [|done].
      cbn. rewrite list_lookup_fmap, lookup_ge_None_2; [done|]. apply lookup_lt_Some in E. lia. }
    split_and!; [apply HP|apply HT|apply (HP (λ a b, bool_decide (b ∈ LinkPast h a)))|apply HT]. }
  split_and!; try done.
  intros i j Hij. destruct (l !! i) as [a|] eqn:Ei; cycle 1.
  { destruct (Hout i j) as (_ & ? & _ & ?); [|done]. left. apply lookup_ge_None in Ei. lia. }
  destruct (l !! j) as [b|] eqn:Ej; cycle 1.
  { destruct (Hout i j) as (_ & ? & _ & ?); [|done]. right. apply lookup_ge_None in Ej. lia. }
  destruct (Hin i j a b Ei Ej) as (_ & H1 & _ & H2).
  assert (Hn : ¬ before h a b).
  { intros Hb. pose proof (proj2 Hl i j a b Ei Ej Hb). lia. }
  split; apply not_true_is_false; [by rewrite H1|]. rewrite H2. by intros [? _].
Qed.
Print Assumptions C25_default_order.

(** ** C30: what isPath accepts, exactly *)
Lemma path_loop_true_inv h S es k :
  path_loop h S es k = true →
  (∀ e, e ∈ es → 1 ≤ size (LinkCone h e ∩ S) ≤ 2) ∧
  (k ≤ 2 → k + length (filter (λ e, size (LinkCone h e ∩ S) = 1) es) ≤ 2).
Proof.
  revert k. induction es as [|e es IH]; intros k H.
  { split; [|cbn; lia]. intros e He. by apply elem_of_nil in He. }
  cbn [path_loop] in H.
  destruct ((_ <? 1) || (2 <? _)) eqn:E0; [done|].
  apply orb_false_iff in E0 as [E1%Nat.ltb_ge E2%Nat.ltb_ge].
  destruct (_ =? 1) eqn:E3.
  - apply Nat.eqb_eq in E3. destruct (2 <? k + 1) eqn:E4; [done|]. apply Nat.ltb_ge in E4.
    destruct (IH _ H) as [H1 H2]. split.
    + intros e' [-> |He']%elem_of_cons; [lia|by apply H1].
    + intros _. rewrite filter_cons_True by done. cbn. specialize (H2 E4). lia.
  - apply Nat.eqb_neq in E3. destruct (IH _ H) as [H1 H2]. split.
    + intros e' [-> |He']%elem_of_cons; [lia|by apply H1].
    + intros Hk. rewrite filter_cons_False by done. by apply H2.
Qed.

(** [P] is the set of link partners of [x] inside [T]. *)
Definition partners_in (h : heap) (T : gset nat) (x : nat) (P : gset nat) : Prop :=
  ∀ y, y ∈ P ↔ y ∈ T ∧ (covers (before h) y x ∨ covers (before h) x y).
Theorem C30_isPath_exact (it : oracle) (h : heap) (C T : gset nat) :
  iter_ok it → order_inv h → link_inv h →
  isPath it h C (Some T) = true ↔
  (∃ x, T = {[x]}) ∨
  (2 ≤ size T ∧
   (∀ x, x ∈ T → ∃ P, partners_in h T x P ∧ 1 ≤ size P ≤ 2) ∧
   ∃ ends : gset nat, size ends ≤ 2 ∧ ∀ x, x ∈ ends ↔ x ∈ T ∧ ∃ P, partners_in h T x P ∧ size P = 1).
Proof.
  intros Hit HO HL.
  assert (Hlc : ∀ x, partners_in h T x (LinkCone h x ∩ T)).
  { intros x y. unfold LinkCone. rewrite elem_of_intersection, get_LinkCone_value by (by eapply link_inv_paired).
    rewrite elem_of_union, LinkPast_spec, LinkFuture_spec by done. tauto. }
  assert (Hu : ∀ x P, partners_in h T x P → P = LinkCone h x ∩ T).
  { intros x P HP. apply set_eq. intros y. rewrite (HP y), (Hlc x y). done. }
  cbn [isPath]. destruct (size T <=? 1) eqn:Es.
  { apply Nat.leb_le in Es. rewrite Nat.eqb_eq. split.
    - intros H1%size_1_elem_of. left. destruct H1 as [x Hx]. exists x. by apply leibniz_equiv.
    - intros [[x ->]|[? _]]; [apply size_singleton|lia]. }
  apply Nat.leb_gt in Es.
  assert (HE : ∀ x, x ∈ (list_to_set (filter (λ e, size (LinkCone h e ∩ T) = 1) (it 9 T)) : gset nat) ↔
     x ∈ T ∧ ∃ P, partners_in h T x P ∧ size P = 1).
  { intros x. rewrite elem_of_list_to_set, elem_of_list_filter, iter_elem by done. split.
    - intros [H1 H2]. split; [done|]. by exists (LinkCone h x ∩ T).
    - intros [H1 (P & HP & H2)]. apply Hu in HP as ->. done. }
  assert (HN : NoDup (filter (λ e, size (LinkCone h e ∩ T) = 1) (it 9 T))).
  { apply NoDup_filter. by apply iter_nodup. }
  split.
  - intros [H1 H2]%path_loop_true_inv. right. split; [lia|]. split.
    + intros x Hx. exists (LinkCone h x ∩ T). split; [done|]. apply H1. by apply iter_elem.
    + exists (list_to_set (filter (λ e, size (LinkCone h e ∩ T) = 1) (it 9 T))). split; [|done].
      rewrite size_list_to_set by done. specialize (H2 (Nat.le_0_l 2)). lia.
  - intros [[x ->]|(_ & H1 & ends & Hs & Hends)].
    { rewrite size_singleton in Es. lia. }
    apply path_loop_spec.
    + intros e He. rewrite iter_elem in He by done. destruct (H1 e He) as (P & HP & Hsz).
      by apply Hu in HP as ->.
    + cbn. rewrite <- (size_list_to_set (C := gset nat)) by done.
      assert (list_to_set (filter (λ e, size (LinkCone h e ∩ T) = 1) (it 9 T)) = ends) as ->; [|done].
      apply set_eq. intros x. by rewrite HE, Hends.
Qed.
Print Assumptions C30_isPath_exact.
Theorem C30_isPath_self (it : oracle) (h : heap) (C : gset nat) :
  order_inv h → closed h C →
  isPath it h C None = true ↔
  C ≠ ∅ ∧ ∀ a b, a ∈ C → b ∈ C → a = b ∨ before h a b ∨ before h b a.
Proof.
  intros HO Hc. destruct (C29_chain_antichain h C C HO) as (H1 & _ & H2). destruct (H2 Hc) as [H3 _].
  cbn [isPath]. destruct (size C =? 0) eqn:E.
  - apply Nat.eqb_eq, size_empty_inv, leibniz_equiv in E. split; [done|]. by intros [? _].
  - apply Nat.eqb_neq in E. rewrite H3, H1. split; [|by intros [_ ?]].
    intros H. split; [|done]. intros ->. by rewrite size_empty in E.
Qed.
Print Assumptions C30_isPath_self.
(** 2 > 0 < 1 < 3 next to 4 < 5: a zigzag is accepted, two separate links are not. *)
Definition star_ops : list op :=
  [ONew (LInt 1) ∅ ∅ [] []; ONew (LInt 2) {[0]} ∅ [] []; ONew (LInt 3) {[0]} ∅ [] [];
   ONew (LInt 4) {[1]} ∅ [] []; ONew (LInt 5) ∅ ∅ [] []; ONew (LInt 6) {[4]} ∅ [] []].
Definition star : heap := run ∅ ((λ o, (it_elements, o)) <$> star_ops).
Example C30_exact_nonvacuous :
  order_inv star ∧ link_inv star ∧
  isPath it_elements star (dom star) (Some {[0; 1; 2; 3]}) = true ∧
  isPath it_elements star (dom star) (Some {[0; 1; 4; 5]}) = false ∧
  isPath it_elements star (dom star) (Some {[0; 3]}) = false ∧
  isPath it_elements star (dom star) (Some ∅) = false ∧
  isPath it_elements star ∅ None = false.
Proof.
  split; [apply ops_order; by vm_compute|]. split; [apply ops_link; [by vm_compute|]; unfold no_disjoin; repeat constructor|].
  split_and!; decide_vm.
Qed.

(** ** C40: comparable arguments with a given search set *)
Theorem C40_comparable_searching (h : heap) (C : gset nat) (a b : nat) (s : gset nat) (i : option (gset nat)) :
  order_inv h → a = b ∨ before h a b →
  (a ∈ s → b ∈ s → SmallestIntervalCard h C a b (Some s) i = counted (Interval h a b true) i) ∧
  (a ∈ s → b ∉ s → SmallestIntervalCard h C a b (Some s) i = counted (Future h a) i) ∧
  (a ∉ s → b ∈ s → SmallestIntervalCard h C a b (Some s) i = counted (Past h b) i).
Proof.
  intros HO Hab.
  assert (Hle : ev_le h a b = true) by (by apply ev_le_spec).
  assert (Hgt : ev_gt h a b = false).
  { apply not_true_iff_false. rewrite ev_gt_spec. intros Hba.
    destruct Hab as [->|Hab]; [by apply (oi_irr h HO b)|by eapply (oi_asym h HO)]. }
  unfold SmallestIntervalCard. rewrite Hgt, Hle, IntervalCard_size by done.
  split_and!; intros Ha Hb.
  - rewrite decide_True by done. by destruct i.
  - rewrite decide_False by tauto. rewrite decide_True by done. by destruct i.
  - rewrite decide_False by tauto. rewrite decide_False by done. rewrite decide_True by done. by destruct i.
Qed.
Print Assumptions C40_comparable_searching.
(** Both arguments outside the search set: the bounds are searched as for spacelike ones. *)
Theorem C40_comparable_outside (h : heap) (C : gset nat) (a b : nat) (s : gset nat) (i : option (gset nat)) (n : nat) :
  order_inv h → before h a b → a ∉ s → b ∉ s →
  let common_past p := p ∈ s ∧ before h p a in
  let common_future f := f ∈ s ∧ before h b f in
  ((∃ p, common_past p) → (∃ f, common_future f) →
     SmallestIntervalCard h C a b (Some s) i = n ↔
     (∃ p f, common_past p ∧ common_future f ∧ counted (Interval h p f true) i = n) ∧
     (∀ p f, common_past p → common_future f → n ≤ counted (Interval h p f true) i)) ∧
  ((¬ ∃ p, common_past p) → (¬ ∃ f, common_future f) → SmallestIntervalCard h C a b (Some s) i = 0) ∧
  ((¬ ∃ p, common_past p) → (∃ f, common_future f) →
     SmallestIntervalCard h C a b (Some s) i = n ↔
     (∃ f, common_future f ∧ counted (Past h f) i = n) ∧
     (∀ f, common_future f → n ≤ counted (Past h f) i)) ∧
  ((∃ p, common_past p) → (¬ ∃ f, common_future f) →
     SmallestIntervalCard h C a b (Some s) i = n ↔
     (∃ p, common_past p ∧ counted (Future h p) i = n) ∧
     (∀ p, common_past p → n ≤ counted (Future h p) i)).
Proof.
  intros HO Hab Has Hbs common_past common_future.
  assert (Hle : ev_le h a b = true) by (apply ev_le_spec; by right).
  assert (Hgt : ev_gt h a b = false).
  { apply not_true_iff_false. rewrite ev_gt_spec. intros Hba. by eapply (oi_asym h HO). }
  unfold SmallestIntervalCard. rewrite Hgt, Hle. cbn [default].
  rewrite (decide_False (P := a ∈ s ∧ b ∈ s)) by tauto. rewrite (decide_False (P := a ∈ s)) by done.
  rewrite (decide_False (P := b ∈ s)) by done. unfold Datatypes.id.
  set (P := Past h a ∩ Past h b ∩ s). set (F := Future h a ∩ Future h b ∩ s).
  assert (HP : ∀ p, p ∈ P ↔ common_past p).
  { intros p. unfold P, common_past, Past. rewrite !elem_of_intersection. unfold before. split; [tauto|].
    intros [H1 H2]. split_and!; try done. by apply (oi_trans h HO p a b). }
  assert (HF : ∀ f, f ∈ F ↔ common_future f).
  { intros p. unfold F, common_future, Future.
    rewrite !elem_of_intersection, <- !(oi_conv h HO). split; [unfold before; tauto|].
    intros [H1 H2]. split_and!; try done. by apply (oi_trans h HO a b p). }
  assert (HPe : P = ∅ ↔ ¬ ∃ p, common_past p).
  { split; [intros He (p & Hp%HP); rewrite He in Hp; by apply elem_of_empty in Hp|]. intros Hn. apply set_eq. intros p.
    split; [|intros Hp; by apply elem_of_empty in Hp]. intros Hp%HP. destruct Hn. eauto. }
  assert (HFe : F = ∅ ↔ ¬ ∃ p, common_future p).
  { split; [intros He (p & Hp%HF); rewrite He in Hp; by apply elem_of_empty in Hp|]. intros Hn. apply set_eq. intros p.
    split; [|intros Hp; by apply elem_of_empty in Hp]. intros Hp%HF. destruct Hn. eauto. }
  clearbody P F.
  split_and!.
  - intros Hp Hf.
    assert (HPn : P ≠ ∅) by (intros He; by apply HPe in He).
    assert (HFn : F ≠ ∅) by (intros He; by apply HFe in He).
    rewrite decide_False by tauto. rewrite !decide_False by done.
    assert (Hmin : match i with
        | None => min_of (λ ep, min_of (λ ef, IntervalCard h ep ef true) F) P
        | Some i0 => min_of (λ ep, min_of (λ ef, size (Interval h ep ef true ∩ i0)) F) P
        end = min_of (λ ep, min_of (λ ef, counted (Interval h ep ef true) i) F) P).
    { destruct i; cbn; [done|]. apply min_pairs_ext. intros x y _ _. by apply IntervalCard_size. }
    rewrite Hmin. rewrite min_of_spec by done. split.
    + intros [(p & Hpp & Hm) Hlow]. apply min_of_spec in Hm as [(f & Hff & Hm) Hlow']; [|done]. split.
      * exists p, f. rewrite <- HP, <- HF. done.
      * intros p' f' Hp'%HP Hf'%HF. specialize (Hlow p' Hp').
        pose proof (min_of_lb (λ ef, counted (Interval h p' ef true) i) F f' Hf'). cbn in *. lia.
    + intros [(p & f & Hp'%HP & Hf'%HF & Hm) Hlow].
      assert (Hall : ∀ x, x ∈ P → n ≤ min_of (λ ef, counted (Interval h x ef true) i) F).
      { intros x Hx. destruct (min_of_in (λ ef, counted (Interval h x ef true) i) F HFn) as (y & Hy & ->).
        apply Hlow; [by apply HP|by apply HF]. }
      split; [|exact Hall]. exists p. split; [done|].
      pose proof (min_of_lb (λ ef, counted (Interval h p ef true) i) F f Hf'). cbn in *.
      specialize (Hall p Hp'). lia.
  - intros Hp%HPe Hf%HFe. by rewrite decide_True by done.
  - intros Hp%HPe Hf. assert (HFn : F ≠ ∅) by (intros He; by apply HFe in He).
    rewrite decide_False by tauto. rewrite decide_True by done.
    rewrite min_of_spec by done. setoid_rewrite HF. destruct i; done.
  - intros Hp Hf%HFe. assert (HPn : P ≠ ∅) by (intros He; by apply HPe in He).
    rewrite decide_False by tauto. rewrite decide_False by done. rewrite decide_True by done.
    rewrite min_of_spec by done. setoid_rewrite HP. destruct i; done.
Qed.
Print Assumptions C40_comparable_outside.
Example C40_searching_nonvacuous :
  order_inv demo ∧ before demo 0 1 ∧
  SmallestIntervalCard demo (dom demo) 0 1 (Some {[0]}) None = 3 ∧
  SmallestIntervalCard demo (dom demo) 1 2 (Some {[2]}) None = 3 ∧
  SmallestIntervalCard demo (dom demo) 0 1 (Some {[2]}) None = 3.
Proof. split; [apply demo_order|]. split; [unfold before; decide_vm|]. by vm_compute. Qed.
