(** Theorems about the query methods of Causet: C13, C25 - C37, C40, C43, C62. *)
From Verif Require Import Base Spec EventModel EventFacts History HistoryFacts PathFacts RankFacts
  EventProps CausetModel CausetFacts IntervalFacts SortFacts LayerFacts Prop_Event.
From stdpp Require Import sorting.

(** Two more concrete stores.  [vee]: 0 < 1, 0 < 2.  [crown2]: 0, 1 < 2, 3. *)
Definition vee_ops : list op :=
  [ONew (LInt 1) ∅ ∅ [] []; ONew (LInt 2) {[0]} ∅ [] []; ONew (LInt 3) {[0]} ∅ [] []].
Definition vee : heap := run ∅ ((λ o, (it_elements, o)) <$> vee_ops).
Definition crown_ops : list op :=
  [ONew (LInt 1) ∅ ∅ [] []; ONew (LInt 2) ∅ ∅ [] [];
   ONew (LInt 3) {[0; 1]} ∅ [] []; ONew (LInt 4) {[0; 1]} ∅ [] []].
Definition crown2 : heap := run ∅ ((λ o, (it_elements, o)) <$> crown_ops).
Lemma ops_order ops :
  adm_histb it_elements ∅ ops = true →
  order_inv (run ∅ ((λ o, (it_elements, o)) <$> ops)).
Proof.
  intros H. apply run_order; [|apply order_inv_empty].
  apply adm_histb_sound; [apply it_elements_ok|apply order_inv_empty|done].
Qed.
Lemma vee_order : order_inv vee.
Proof. apply ops_order. by vm_compute. Qed.
Lemma crown2_order : order_inv crown2.
Proof. apply ops_order. by vm_compute. Qed.
Lemma ops_link ops :
  adm_histb it_elements ∅ ops = true →
  no_disjoin ((λ o, (it_elements, o)) <$> ops) →
  link_inv (run ∅ ((λ o, (it_elements, o)) <$> ops)).
Proof.
  intros H Hn. apply run_link; [|done|apply order_inv_empty|apply link_inv_empty].
  apply adm_histb_sound; [apply it_elements_ok|apply order_inv_empty|done].
Qed.
Lemma vee_link : link_inv vee.
Proof. apply ops_link; [by vm_compute|]. unfold no_disjoin; repeat constructor. Qed.
Lemma crown2_link : link_inv crown2.
Proof. apply ops_link; [by vm_compute|]. unfold no_disjoin; repeat constructor. Qed.

(** ** C13 *)
Theorem C13_causet_closure (h : heap) (S : gset nat) :
  order_inv h →
  ∃ C, causet h S = Ok C ∧
    (∀ x, x ∈ C ↔ ∃ s, s ∈ S ∧ rtc (λ a b, before h a b ∨ before h b a) s x) ∧
    S ⊆ C ∧ closed h C ∧ (∀ D, S ⊆ D → closed h D → C ⊆ D) ∧
    causet h C = Ok C.
Proof.
  intros HO. destruct (causet_spec h S (in_store_order h HO)) as (C & HC & Hs).
  assert (Ht : ∀ x y, touches h x y ↔ before h x y ∨ before h y x).
  { intros x y. unfold touches, before. rewrite (oi_conv h HO x y). tauto. }
  exists C. split; [done|].
  assert (Hcl : closed h C).
  { intros x Hx. apply Hs in Hx as (s & Hs' & Hr). split; intros y Hy; apply Hs; exists s;
      (split; [done|]); (eapply rtc_r; [exact Hr|]); [by left|by right]. }
  split_and!.
  - intros x. rewrite Hs. split; intros (s & Hs' & Hr); exists s; (split; [done|]);
      (eapply rtc_subrel; [|exact Hr]); intros ? ?; by rewrite Ht.
  - intros x Hx. apply Hs. exists x. split; [done|apply rtc_refl].
  - done.
  - intros D HD Hc x Hx. apply Hs in Hx as (s & Hs' & Hr). apply HD in Hs'.
    induction Hr as [|s y z Hst Hr IH]; [done|]. apply IH.
    destruct (Hc s Hs') as [H1 H2]. destruct Hst; [by apply H1|by apply H2].
  - apply causet_closed; [by apply in_store_order|done].
Qed.
Print Assumptions C13_causet_closure.
Example C13_nonvacuous :
  order_inv demo ∧ causet demo {[1]} = Ok {[0; 1; 2; 3]}.
Proof. split; [apply demo_order|]. decide_vm. Qed.

(** ** C25 *)
Theorem C25_matrices (h : heap) (l : list nat) (i j : nat) (a b : nat) :
  order_inv h → link_inv h → l !! i = Some a → l !! j = Some b →
  (mat_get (PastMatrix_of h l) i j = true ↔ before h b a) ∧
  (mat_get (FutureMatrix_of h l) i j = true ↔ before h a b) ∧
  (mat_get (LinkPastMatrix_of h l) i j = true ↔ covers (before h) b a) ∧
  (mat_get (LinkFutureMatrix_of h l) i j = true ↔ covers (before h) a b).
Proof.
  intros HO HL Hi Hj.
  assert (HP : ∀ i j a b, l !! i = Some a → l !! j = Some b →
    (mat_get (PastMatrix_of h l) i j = true ↔ before h b a) ∧
    (mat_get (LinkPastMatrix_of h l) i j = true ↔ covers (before h) b a)).
  { clear i j a b Hi Hj. intros i j a b Hi Hj. unfold mat_get, PastMatrix_of, LinkPastMatrix_of.
    rewrite !list_lookup_fmap, Hi. cbn. rewrite !list_lookup_fmap, Hj. cbn.
    rewrite bool_decide_eq_true, LinkPast_spec by done. by rewrite ev_gt_spec. }
  assert (HT : ∀ M, mat_get (mat_T (length l) M) i j = mat_get M j i).
  { intros M. pose proof (lookup_lt_Some _ _ _ Hi) as H1. pose proof (lookup_lt_Some _ _ _ Hj) as H2.
    unfold mat_get at 1, mat_T. rewrite list_lookup_fmap, lookup_seq_lt by done. cbn.
    rewrite list_lookup_fmap, lookup_seq_lt by done. done. }
  unfold FutureMatrix_of, LinkFutureMatrix_of. rewrite !HT.
  destruct (HP i j a b Hi Hj), (HP j i b a Hj Hi). done.
Qed.
Print Assumptions C25_matrices.
Theorem C25_shape (h : heap) (l : list nat) :
  length (PastMatrix_of h l) = length l ∧ length (LinkPastMatrix_of h l) = length l ∧
  (∀ r, r ∈ PastMatrix_of h l → length r = length l) ∧
  (∀ r, r ∈ LinkPastMatrix_of h l → length r = length l).
Proof.
  unfold PastMatrix_of, LinkPastMatrix_of. rewrite !fmap_length. split_and!; try done.
  all: intros r (a & -> & _)%elem_of_list_fmap; by rewrite fmap_length.
Qed.
Print Assumptions C25_shape.
Theorem C25_default_triangular (it : oracle) (argsort : argsort_t) (h : heap) (C : gset nat) :
  iter_ok it → argsort_ok argsort → order_inv h → link_inv h →
  (∀ x, x ∈ C → lab h x ≠ LNone) →
  ∃ M K, PastMatrix it argsort h C = Ok M ∧ LinkPastMatrix it argsort h C = Ok K ∧
    ∀ i j, i ≤ j → mat_get M i j = false ∧ mat_get K i j = false.
Proof.
  intros Hit Has HO HL Hlab.
  unfold PastMatrix, LinkPastMatrix, sortedByCausality.
  destruct (sortedByLabels_perm it argsort h C true Hit Has (or_intror Hlab)) as (l & -> & Hl).
  cbn [res_map]. eexists _, _. split; [done|]. split; [done|]. intros i j Hij.
  set (s := swap_sort h l). destruct (swap_sort_spec h HO l) as [_ Hs]. fold s in Hs.
  destruct (s !! i) as [a|] eqn:Ei; cycle 1.
  { unfold mat_get, PastMatrix_of, LinkPastMatrix_of. by rewrite !list_lookup_fmap, Ei. }
  destruct (s !! j) as [b|] eqn:Ej; cycle 1.
  { unfold mat_get, PastMatrix_of, LinkPastMatrix_of. rewrite !list_lookup_fmap, Ei. cbn.
    by rewrite !list_lookup_fmap, Ej. }
  destruct (C25_matrices h s i j a b HO HL Ei Ej) as (H1 & _ & H2 & _).
  assert (Hn : ¬ before h b a).
  { destruct (decide (i = j)) as [->|Hne].
    - assert (a = b) as -> by congruence. apply (oi_irr h HO).
    - apply (Hs i j); [lia|done|done]. }
  split; apply not_true_is_false; [by rewrite H1|]. rewrite H2. by intros [? _].
Qed.
Print Assumptions C25_default_triangular.

(** Concrete sort oracle: stable insertion by label is not needed; the identity order is a
    legal answer for labels already ascending, so [argsort_ok] is shown to be inhabited by
    sorting the indices by label. *)
#[global] Instance label_inhabited : Inhabited label := populate LNone.
Definition label_key (l : label) : Z := match l with LInt z => z | _ => 0%Z end.
Definition idx_le (ls : list label) (i j : nat) : Prop :=
  (label_key (ls !!! i) ≤ label_key (ls !!! j))%Z.
#[global] Instance idx_le_dec ls i j : Decision (idx_le ls i j).
Proof. unfold idx_le. apply _. Defined.
#[global] Instance idx_le_total ls : Total (idx_le ls).
Proof. intros i j. unfold idx_le. lia. Qed.
Definition demo_argsort : argsort_t := λ ls, merge_sort (idx_le ls) (seq 0 (length ls)).
Lemma demo_argsort_ok : argsort_ok demo_argsort.
Proof.
  split.
  - intros ls. unfold demo_argsort. apply merge_sort_Permutation.
  - intros zs. unfold demo_argsort. rewrite fmap_length.
    assert (Hs : Sorted (idx_le (LInt <$> zs))
      (merge_sort (idx_le (LInt <$> zs)) (seq 0 (length zs)))) by (apply Sorted_merge_sort; apply _).
    assert (Hin : Forall (λ i, i < length zs) (merge_sort (idx_le (LInt <$> zs)) (seq 0 (length zs)))).
    { apply Forall_forall. intros i Hi. rewrite merge_sort_Permutation in Hi.
      apply elem_of_seq in Hi. lia. }
    induction Hs as [|i is Hs IH Hhd]; [constructor|]. inversion Hin; subst. cbn. constructor; [by apply IH|].
    destruct Hhd as [|j js Hij]; cbn; constructor. inversion H2; subst.
    unfold idx_le in Hij. rewrite !(list_lookup_total_fmap LInt) in Hij by done. done.
Qed.
Example C25_nonvacuous :
  iter_ok it_reverse ∧ argsort_ok demo_argsort ∧ order_inv demo ∧ link_inv demo ∧
  PastMatrix it_reverse demo_argsort demo (dom demo) =
    Ok [[false; false; false; false]; [true; false; false; false];
        [true; false; false; false]; [true; true; true; false]].
Proof.
  split; [apply it_reverse_ok|]. split; [apply demo_argsort_ok|]. split; [apply demo_order|].
  split; [apply demo_link|]. decide_vm.
Qed.

(** ** C26 *)
Lemma lookup_reverse_lt {A} (l : list A) (i : nat) :
  i < length l → reverse l !! i = l !! (length l - S i).
Proof. intros Hi. by apply reverse_lookup. Qed.
Theorem C26_sortedByCausality (it : oracle) (argsort : argsort_t) (h : heap) (S : gset nat) :
  iter_ok it → argsort_ok argsort → order_inv h →
  (size S ≤ 1 ∨ ∀ x, x ∈ S → lab h x ≠ LNone) →
  (∃ l, sortedByCausality it argsort h S false = Ok l ∧ linear_extension (before h) S l) ∧
  (∃ l, sortedByCausality it argsort h S true = Ok l ∧
        linear_extension (λ a b, before h b a) S l).
Proof.
  intros Hit Has HO Hlab. unfold sortedByCausality.
  destruct (sortedByLabels_perm it argsort h S true Hit Has Hlab) as (l & -> & Hl).
  cbn [res_map]. destruct (swap_sort_spec h HO l) as [Hp Hs]. set (s := swap_sort h l) in *.
  assert (Hle : linear_extension (before h) S s).
  { split; [by rewrite Hp|]. intros i j x y Hi Hj Hxy.
    destruct (decide (i < j)) as [|Hn]; [done|]. exfalso.
    destruct (decide (i = j)) as [->|Hne].
    - assert (x = y) as -> by congruence. by apply (oi_irr h HO y).
    - eapply (Hs j i); [lia|exact Hj|exact Hi|done]. }
  split; (eexists; split; [done|]); [done|].
  destruct Hle as [Hperm Hord]. split; [by rewrite reverse_Permutation|].
  intros i j x y Hi Hj Hxy.
  pose proof (lookup_lt_Some _ _ _ Hi) as H1. pose proof (lookup_lt_Some _ _ _ Hj) as H2.
  rewrite reverse_length in H1, H2.
  rewrite lookup_reverse_lt in Hi, Hj by done.
  specialize (Hord _ _ _ _ Hj Hi Hxy). lia.
Qed.
Print Assumptions C26_sortedByCausality.
Theorem C26_unlabelled (it : oracle) (argsort : argsort_t) (h : heap) (S : gset nat) (rev : bool) :
  iter_ok it → 2 ≤ size S → (∃ x, x ∈ S ∧ lab h x = LNone) →
  sortedByCausality it argsort h S rev = Err TypeError ∧
  PastMatrix it argsort h S = Err TypeError.
Proof.
  intros Hit Hs (x & Hx & Hl).
  assert (H : sortedByLabels it argsort h S true = Err TypeError).
  { unfold sortedByLabels, np_argsort. rewrite decide_True; [done|]. split.
    - rewrite fmap_length, (Hit 12 S). done.
    - apply elem_of_list_fmap. exists x. split; [done|]. by apply iter_elem. }
  unfold PastMatrix, sortedByCausality. by rewrite H.
Qed.
Print Assumptions C26_unlabelled.
Example C26_nonvacuous :
  order_inv demo ∧ (∀ x, x ∈ dom demo → lab demo x ≠ LNone) ∧
  sortedByCausality it_reverse demo_argsort demo (dom demo) true = Ok [2; 3; 1; 0].
Proof. split; [apply demo_order|]. split; [|decide_vm].
  assert (H : set_Forall (λ x, lab demo x ≠ LNone) (dom demo)) by decide_vm. exact H. Qed.

(** ** C62: sortedByLabels *)
Theorem C62_sortedByLabels (it : oracle) (argsort : argsort_t) (h : heap) (S : gset nat) :
  iter_ok it → argsort_ok argsort →
  (∀ x, x ∈ S → ∃ z, lab h x = LInt z) →
  (∃ l, sortedByLabels it argsort h S false = Ok l ∧ l ≡ₚ elements S ∧
        Sorted (λ x y, ∃ u v, lab h x = LInt u ∧ lab h y = LInt v ∧ (u <= v)%Z) l) ∧
  (∃ l, sortedByLabels it argsort h S true = Ok l ∧ l ≡ₚ elements S ∧
        Sorted (λ x y, ∃ u v, lab h x = LInt u ∧ lab h y = LInt v ∧ (v <= u)%Z) l).
Proof.
  intros Hit Has Hlab.
  assert (Hl : size S ≤ 1 ∨ ∀ x, x ∈ S → lab h x ≠ LNone).
  { right. intros x Hx. destruct (Hlab x Hx) as [z ->]. done. }
  destruct (sortedByLabels_perm it argsort h S false Hit Has Hl) as (l & Hl1 & Hp).
  destruct (sortedByLabels_perm it argsort h S true Hit Has Hl) as (l' & Hl2 & Hp').
  assert (Hrev : l' = reverse l).
  { unfold sortedByLabels in Hl1, Hl2. destruct (np_argsort _ _); cbn in *; [|done]. congruence. }
  set (zs := (λ x, label_key (lab h x)) <$> it 12 S).
  assert (Hzs : lab h <$> it 12 S = LInt <$> zs).
  { unfold zs. rewrite <- list_fmap_compose. apply list_fmap_ext. intros i x Hx. cbn.
    apply elem_of_list_lookup_2 in Hx. rewrite iter_elem in Hx by done.
    destruct (Hlab x Hx) as [z ->]. done. }
  assert (Hsort : Sorted Z.le ((λ x, label_key (lab h x)) <$> l)).
  { unfold sortedByLabels, np_argsort in Hl1. destruct (decide _); [done|].
    cbn in Hl1. injection Hl1 as <-. rewrite Hzs. rewrite <- list_fmap_compose.
    pose proof (as_sorted _ Has zs) as Hs.
    replace ((λ i, zs !!! i) <$> argsort (LInt <$> zs)) with
      ((λ x, label_key (lab h x)) ∘ (λ i, it 12 S !!! i) <$> argsort (LInt <$> zs)) in Hs; [done|].
    apply list_fmap_ext. intros k i Hi. cbn. unfold zs.
    apply elem_of_list_lookup_2 in Hi. rewrite (as_perm _ Has) in Hi. apply elem_of_seq in Hi.
    rewrite fmap_length in Hi. unfold zs in Hi. rewrite fmap_length in Hi.
    rewrite (list_lookup_total_fmap (λ x, label_key (lab h x))) by lia. done. }
  assert (HlS : ∀ x, x ∈ l → lab h x = LInt (label_key (lab h x))).
  { intros x Hx. rewrite Hp, elem_of_elements in Hx. destruct (Hlab x Hx) as [z ->]. done. }
  assert (Hasc : Sorted (λ x y, ∃ u v, lab h x = LInt u ∧ lab h y = LInt v ∧ (u <= v)%Z) l).
  { clear -Hsort HlS. induction l as [|x l IH]; [constructor|]. cbn in Hsort.
    inversion Hsort as [|? ? Hs Hh]; subst. constructor.
    - apply IH; [done|]. intros y Hy. apply HlS. by apply elem_of_list_further.
    - destruct l as [|y l]; constructor. inversion Hh; subst.
      eexists _, _. split_and!; [apply HlS|apply HlS|done]; set_solver. }
  split; [eauto|]. exists l'. split_and!; [done|done|]. subst l'.
  assert (Hstr : ∀ (R : nat → nat → Prop) l, Sorted R l → Sorted (λ x y, R y x) (reverse l)).
  { clear. intros R l. induction l as [|x l IH]; intros Hs; [constructor|].
    rewrite reverse_cons. inversion Hs as [|? ? Hs' Hh]; subst. specialize (IH Hs').
    assert (Hgen : ∀ k, Sorted (λ x y, R y x) k → (∀ y, last k = Some y → R x y) →
      Sorted (λ x y, R y x) (k ++ [x])).
    { clear. induction k as [|z k IH]; intros Hk Hy; cbn; [repeat constructor|].
      inversion Hk as [|? ? Hk' Hh]; subst. constructor.
      - apply IH; [done|]. intros y Hy'. apply Hy. rewrite last_cons, Hy'. done.
      - destruct k as [|w k]; cbn; constructor; [by apply Hy|by inversion Hh]. }
    apply Hgen; [done|]. intros y Hy. rewrite last_reverse in Hy.
    destruct l; [done|]. injection Hy as ->. by inversion Hh. }
  apply Hstr in Hasc. clear -Hasc. revert Hasc. generalize (reverse l). clear l. intros l Hasc.
  induction Hasc as [|x k Hs IH Hh]; [constructor|]. constructor; [done|].
  destruct Hh as [|y k Hxy]; constructor. destruct Hxy as (u & v & ? & ? & ?). eauto 6.
Qed.
Print Assumptions C62_sortedByLabels.
Example C62_nonvacuous :
  (∀ x : nat, x ∈ ({[0; 1; 2]} : gset nat) → ∃ z, lab demo x = LInt z) ∧
  sortedByLabels it_reverse demo_argsort demo {[0; 1; 2]} true = Ok [2; 1; 0].
Proof.
  split; [|decide_vm]. intros x Hx. rewrite !elem_of_union, !elem_of_singleton in Hx.
  destruct Hx as [[->| ->]| ->]; vm_compute; eauto.
Qed.

(** ** C27 *)
Theorem C27_find (it : oracle) (h : heap) (C : gset nat) (l : label) (ls : list label) :
  iter_ok it →
  (∀ x, CausetModel.find it h C l = Ok x → x ∈ C ∧ lab h x = l) ∧
  (CausetModel.find it h C l = Err ValueError ↔ ¬ ∃ x, x ∈ C ∧ lab h x = l) ∧
  (∀ e, CausetModel.find it h C l = Err e → e = ValueError) ∧
  (∀ x, x ∈ findAll h C ls ↔ x ∈ C ∧ lab h x ∈ ls) ∧
  (∀ x, x ∈ findAny it h C ls ↔ x ∈ C ∧ lab h x ∈ ls) ∧ NoDup (findAny it h C ls).
Proof.
  intros Hit.
  assert (Hf : ∀ es, match find_loop h l es with
      | Ok x => x ∈ es ∧ lab h x = l
      | Err e => e = ValueError ∧ ∀ x, x ∈ es → lab h x ≠ l end).
  { induction es as [|e es IH]; cbn.
    - split; [done|]. intros x Hx. by apply elem_of_nil in Hx.
    - destruct (decide (lab h e = l)) as [He|He]; [split; [apply elem_of_list_here|done]|].
      destruct (find_loop h l es); destruct IH as [H1 H2].
      + split; [by apply elem_of_list_further|done].
      + split; [done|]. intros x [->|Hx]%elem_of_cons; [done|by apply H2]. }
  specialize (Hf (it 7 C)). unfold CausetModel.find. split_and!.
  - intros x Hx. rewrite Hx in Hf. by rewrite iter_elem in Hf by done.
  - destruct (find_loop h l (it 7 C)) as [x|e].
    + split; [done|]. intros Hn. destruct Hn. exists x. by rewrite iter_elem in Hf by done.
    + destruct Hf as [-> Hf]. split; [|done]. intros _ (x & Hx & Hl).
      apply (Hf x); [by apply iter_elem|done].
  - intros e He. rewrite He in Hf. apply Hf.
  - intros x. unfold findAll. rewrite elem_of_filter. tauto.
  - intros x. unfold findAny. rewrite elem_of_list_filter, iter_elem by done. tauto.
  - unfold findAny. apply NoDup_filter. by apply iter_nodup.
Qed.
Print Assumptions C27_find.
Example C27_nonvacuous : CausetModel.find it_reverse demo (dom demo) (LInt 2) = Ok 1.
Proof. decide_vm. Qed.

(** ** C28 *)
Theorem C28_set_operators (C X : gset nat) (e : nat) :
  (e ∈ op_or C X ↔ e ∈ C ∨ e ∈ X) ∧ (e ∈ op_ror C X ↔ e ∈ X ∨ e ∈ C) ∧
  (e ∈ union_ C X ↔ e ∈ C ∨ e ∈ X) ∧
  (e ∈ op_and C X ↔ e ∈ C ∧ e ∈ X) ∧ (e ∈ op_rand C X ↔ e ∈ X ∧ e ∈ C) ∧
  (e ∈ intersection_ C X ↔ e ∈ C ∧ e ∈ X) ∧
  (e ∈ op_sub C X ↔ e ∈ C ∧ e ∉ X) ∧ (e ∈ difference_ C X ↔ e ∈ C ∧ e ∉ X) ∧
  (e ∈ op_xor C X ↔ (e ∈ C ∧ e ∉ X) ∨ (e ∈ X ∧ e ∉ C)) ∧
  (e ∈ op_rxor C X ↔ (e ∈ C ∧ e ∉ X) ∨ (e ∈ X ∧ e ∉ C)) ∧
  (e ∈ symmetric_difference_ C X ↔ (e ∈ C ∧ e ∉ X) ∨ (e ∈ X ∧ e ∉ C)) ∧
  (e ∈ op_rsub C X ↔ e ∈ C ∧ e ∉ X) ∧
  (contains C e = true ↔ e ∈ C).
Proof.
  unfold op_or, op_ror, union_, op_and, op_rand, intersection_, op_sub, difference_, op_xor, op_rxor,
    symmetric_difference_, op_rsub, contains. rewrite bool_decide_eq_true.
  rewrite !elem_of_union, !elem_of_intersection, !elem_of_difference. tauto.
Qed.
Print Assumptions C28_set_operators.
Theorem C28_rsub_refuted :
  (∀ C X, op_rsub C X = X ∖ C ↔ C = X) ∧
  ∃ C X, op_rsub C X ≠ X ∖ C.
Proof.
  split.
  - intros C X. unfold op_rsub. split; [|by intros ->]. intros He. apply set_eq. intros e.
    assert (e ∈ C ∖ X ↔ e ∈ X ∖ C) as Hx by (by rewrite He).
    rewrite !elem_of_difference in Hx. destruct (decide (e ∈ C)), (decide (e ∈ X)); tauto.
  - exists {[0]}, {[1]}. unfold op_rsub. decide_vm.
Qed.
Print Assumptions C28_rsub_refuted.

(** ** C29 *)
Theorem C29_chain_antichain (h : heap) (C S : gset nat) :
  order_inv h →
  (isChain h C (Some S) = true ↔ ∀ a b, a ∈ S → b ∈ S → a = b ∨ before h a b ∨ before h b a) ∧
  (isAntichain h C (Some S) = true ↔
     ∀ a b, a ∈ S → b ∈ S → a ≠ b → ¬ before h a b ∧ ¬ before h b a) ∧
  (closed h C →
     isChain h C None = isChain h C (Some C) ∧ isAntichain h C None = isAntichain h C (Some C)).
Proof.
  intros HO. split_and!.
  - apply (isChain_some h C S HO).
  - rewrite isAntichain_some by done. split.
    + intros H a b Ha Hb _. split; [by apply H|by apply H].
    + intros H a b Ha Hb Hab. destruct (decide (a = b)) as [->|Hne].
      * by apply (oi_irr h HO b). * by destruct (H a b Ha Hb Hne).
  - intros HC. split; [by apply isChain_none|by apply isAntichain_none].
Qed.
Print Assumptions C29_chain_antichain.
Example C29_nonvacuous :
  order_inv demo ∧ isChain demo (dom demo) (Some {[0; 1; 2]}) = true ∧
  isChain demo (dom demo) None = false ∧ isAntichain demo (dom demo) (Some {[1; 3]}) = true.
Proof. split; [apply demo_order|]. decide_vm. Qed.

(** ** C30 *)
Lemma path_loop_spec h S es k :
  (∀ e, e ∈ es → 1 ≤ size (LinkCone h e ∩ S) ≤ 2) →
  k + length (filter (λ e, size (LinkCone h e ∩ S) = 1) es) ≤ 2 →
  path_loop h S es k = true.
Proof.
  revert k. induction es as [|e es IH]; intros k Hall Hk; [done|]. cbn [path_loop].
  pose proof (Hall e (elem_of_list_here _ _)) as He.
  replace ((_ <? 1) || (2 <? _)) with false; cycle 1.
  { symmetry. apply orb_false_iff. split; apply Nat.ltb_ge; lia. }
  destruct (_ =? 1) eqn:E.
  - apply Nat.eqb_eq in E. rewrite filter_cons_True in Hk by done. cbn in Hk.
    replace (2 <? k + 1) with false by (symmetry; apply Nat.ltb_ge; lia).
    apply IH; [|lia]. intros e' He'. apply Hall. by apply elem_of_list_further.
  - apply Nat.eqb_neq in E. rewrite filter_cons_False in Hk by done.
    apply IH; [|done]. intros e' He'. apply Hall. by apply elem_of_list_further.
Qed.
Theorem C30_path_accepted (it : oracle) (h : heap) (C : gset nat) (a b : nat) (l : list nat) :
  iter_ok it → order_inv h → link_inv h →
  link_path (before h) a b l →
  isPath it h C (Some (list_to_set l)) = true.
Proof.
  intros Hit HO HL (Hhd & Hla & Hcon).
  assert (Hri : consecutive (before h) l) by (eapply consecutive_impl; [|exact Hcon]; by intros ?? [? _]).
  assert (Hnd : NoDup l) by (eapply rising_nodup; [apply (oi_order h HO)|done]).
  assert (Htr : ∀ x y z, before h x y → before h y z → before h x z).
  { intros ???. apply (oi_trans h HO). }
  assert (Hsz : size (list_to_set l : gset nat) = length l) by (by apply size_list_to_set).
  cbn [isPath]. rewrite Hsz. destruct (length l <=? 1) eqn:E1.
  { apply Nat.leb_le in E1. apply Nat.eqb_eq. destruct l; [done|]. cbn in *. lia. }
  apply Nat.leb_gt in E1. set (S := list_to_set l : gset nat).
  (* covering relations inside the list are exactly those of neighbours *)
  assert (Hnb : ∀ i j x y, l !! i = Some x → l !! j = Some y → covers (before h) x y ↔ j = i + 1).
  { intros i j x y Hi Hj. split.
    - intros [Hb Hn]. destruct (decide (j = i + 1)) as [|Hne]; [done|]. exfalso.
      destruct (decide (i < j)) as [Hlt|Hge].
      + destruct (lookup_lt_is_Some_2 l (i + 1)) as [z Hz].
        { apply lookup_lt_Some in Hj. lia. }
        apply Hn. exists z. split.
        * apply (rising_pairs (before h) l i (i+1)); try done. lia.
        * apply (rising_pairs (before h) l (i+1) j); try done. lia.
      + destruct (decide (i = j)) as [->|Hij].
        * assert (x = y) as -> by congruence. by apply (oi_irr h HO y).
        * assert (before h y x) by (apply (rising_pairs (before h) l j i); try done; lia).
          by eapply (oi_asym h HO).
    - intros ->. clear -Hcon Hi Hj. revert i Hi Hj. induction l as [|z l IH]; intros i Hi Hj; [done|].
      apply consecutive_cons in Hcon as [H1 H2]. destruct i as [|i]; cbn in *.
      + injection Hi as ->. destruct l; [done|]. cbn in Hj. injection Hj as ->. by apply H1.
      + by apply (IH H2 i). }
  assert (Hlc : ∀ x y, y ∈ LinkCone h x ↔ covers (before h) y x ∨ covers (before h) x y).
  { intros x y. unfold LinkCone. rewrite get_LinkCone_value by (by eapply link_inv_paired).
    rewrite elem_of_union, LinkPast_spec, LinkFuture_spec by done. done. }
  assert (HS : ∀ i x y, l !! i = Some x →
     y ∈ LinkCone h x ∩ S ↔ (l !! (i + 1) = Some y ∨ (0 < i ∧ l !! (i - 1) = Some y))).
  { intros i x y Hi. rewrite elem_of_intersection, Hlc. unfold S. rewrite elem_of_list_to_set. split.
    - intros [Hc [j Hj]%elem_of_list_lookup]. destruct Hc as [Hc|Hc].
      + apply (Hnb j i y x Hj Hi) in Hc. right. split; [lia|]. by replace (i - 1) with j by lia.
      + apply (Hnb i j x y Hi Hj) in Hc. left. by subst.
    - intros [Hj|[H0 Hj]].
      + split; [right; by apply (Hnb i (i+1))|by eapply elem_of_list_lookup_2].
      + split; [left; apply (Hnb (i-1) i); try done; lia|by eapply elem_of_list_lookup_2]. }
  assert (Hcnt : ∀ i x, l !! i = Some x →
     1 ≤ size (LinkCone h x ∩ S) ≤ 2 ∧
     (size (LinkCone h x ∩ S) = 1 → i = 0 ∨ i + 1 = length l)).
  { intros i x Hi. pose proof (lookup_lt_Some _ _ _ Hi) as Hlt.
    destruct (l !! (i + 1)) as [y|] eqn:Ey.
    - destruct (decide (0 < i)) as [Hpos|Hz].
      + destruct (lookup_lt_is_Some_2 l (i - 1)) as [z Hz]; [lia|].
        assert (Hset : LinkCone h x ∩ S = {[y; z]}).
        { apply set_eq. intros w. rewrite (HS i x w Hi), Ey, Hz, elem_of_union, !elem_of_singleton.
          split; [intros [[= ->]|[_ [= ->]]]; auto|]. intros [-> | ->]; auto. }
        assert (Hyz : y ≠ z).
        { intros ->. assert (i + 1 = i - 1) by (by eapply NoDup_lookup). lia. }
        rewrite Hset, size_union, !size_singleton by set_solver. lia.
      + assert (Hset : LinkCone h x ∩ S = {[y]}).
        { apply set_eq. intros w. rewrite (HS i x w Hi), Ey, elem_of_singleton.
          split; [intros [[= ->]|[? _]]; [done|lia]|]. intros ->; auto. }
        rewrite Hset, size_singleton. lia.
    - apply lookup_ge_None in Ey.
      destruct (lookup_lt_is_Some_2 l (i - 1)) as [z Hz]; [lia|].
      assert (Hset : LinkCone h x ∩ S = {[z]}).
      { apply set_eq. intros w. rewrite (HS i x w Hi), Hz, elem_of_singleton.
        rewrite (lookup_ge_None_2 l (i + 1)) by lia.
        split; [intros [?|[_ [= ->]]]; done|]. intros ->. right. split; [lia|done]. }
      rewrite Hset, size_singleton. lia. }
  apply path_loop_spec.
  - intros e He. rewrite iter_elem in He by done. unfold S in He.
    apply elem_of_list_to_set, elem_of_list_lookup in He as [i Hi]. by apply (Hcnt i e).
  - cbn. assert (Hsub : filter (λ e, size (LinkCone h e ∩ S) = 1) (it 9 S) ⊆ [a; b]).
    { intros e [Hs He]%elem_of_list_filter. rewrite iter_elem in He by done. unfold S in He.
      apply elem_of_list_to_set, elem_of_list_lookup in He as [i Hi].
      destruct (Hcnt i e Hi) as [_ [->|Hl]]; [done| |].
      - rewrite <- head_lookup, Hhd in Hi. injection Hi as ->. set_solver.
      - rewrite last_lookup in Hla. replace (pred (length l)) with i in Hla by lia.
        rewrite Hi in Hla. injection Hla as ->. set_solver. }
    assert (HN : NoDup (filter (λ e, size (LinkCone h e ∩ S) = 1) (it 9 S))).
    { apply NoDup_filter. by apply iter_nodup. }
    pose proof (submseteq_length _ _ (NoDup_submseteq _ _ HN Hsub)). done.
Qed.
Print Assumptions C30_path_accepted.
Theorem C30_converse_refuted :
  (order_inv vee ∧ link_inv vee ∧
   isPath it_elements vee (dom vee) (Some {[0; 1; 2]}) = true ∧
   ¬ comparable (before vee) 1 2) ∧
  (order_inv crown2 ∧ link_inv crown2 ∧
   isPath it_elements crown2 (dom crown2) (Some {[0; 1; 2; 3]}) = true ∧
   ¬ comparable (before crown2) 0 1).
Proof.
  split; (split; [apply vee_order || apply crown2_order|]);
    (split; [apply vee_link || apply crown2_link|]); (split; [by vm_compute|]);
    unfold comparable, before; decide_vm.
Qed.
Print Assumptions C30_converse_refuted.
Example C30_nonvacuous : link_path (before demo) 0 2 [0; 1; 2].
Proof.
  assert (H1 : covers (before demo) 0 1) by (apply isLink_covers; [apply demo_order|decide_vm|decide_vm]).
  assert (H2 : covers (before demo) 1 2) by (apply isLink_covers; [apply demo_order|decide_vm|decide_vm]).
  split; [done|]. split; [done|]. exact (conj H1 (conj H2 (conj I I))).
Qed.

(** ** C31 *)
Theorem C31_infinities (h : heap) (C S : gset nat) :
  order_inv h →
  (∀ x, x ∈ PastInfOf h S ↔ x ∈ S ∧ ¬ ∃ y, y ∈ S ∧ before h y x) ∧
  (∀ x, x ∈ FutureInfOf h S ↔ x ∈ S ∧ ¬ ∃ y, y ∈ S ∧ before h x y) ∧
  (S ≠ ∅ → PastInfOf h S ≠ ∅ ∧ FutureInfOf h S ≠ ∅) ∧
  PastInfCardOf h S = size (PastInfOf h S) ∧ FutureInfCardOf h S = size (FutureInfOf h S) ∧
  PastInfCard h C = size (PastInf h C) ∧ FutureInfCard h C = size (FutureInf h C) ∧
  (closed h C → PastInf h C = PastInfOf h C ∧ FutureInf h C = FutureInfOf h C).
Proof.
  intros HO. split_and!.
  - intros x. apply PastInfOf_spec.
  - intros x. by apply FutureInfOf_spec.
  - intros HS. split.
    + destruct (minimal_exists h S HO HS) as (x & H). apply PastInfOf_spec in H. set_solver.
    + destruct (maximal_exists h S HO HS) as (x & H). apply FutureInfOf_spec in H; [|done]. set_solver.
  - unfold PastInfCardOf. rewrite sum_ones. apply filter_size.
  - unfold FutureInfCardOf. rewrite sum_ones. apply filter_size.
  - unfold PastInfCard. rewrite sum_ones. apply filter_size.
  - unfold FutureInfCard. rewrite sum_ones. apply filter_size.
  - intros HC. unfold PastInf, PastInfOf, FutureInf, FutureInfOf, PastCard, FutureCard, Past, Future.
    split; apply set_eq; intros x; rewrite !elem_of_filter, size_empty_iff, leibniz_equiv_iff;
      (split; intros [H1 H2]; (split; [|done])); destruct (HC x H2); set_solver.
Qed.
Print Assumptions C31_infinities.
Example C31_nonvacuous :
  order_inv demo ∧ PastInfOf demo {[1; 2; 3]} = {[1; 3]} ∧ FutureInf demo (dom demo) = {[2]}.
Proof. split; [apply demo_order|]. decide_vm. Qed.

(** ** C32 *)
Theorem C32_cones (h : heap) (C S : gset nat) (present : bool) (x : nat) :
  order_inv h →
  (x ∈ PastOf h S present false ↔ (∃ e, e ∈ S ∧ before h x e) ∨ (present = true ∧ x ∈ S)) ∧
  (x ∈ FutureOf h S present false ↔ (∃ e, e ∈ S ∧ before h e x) ∨ (present = true ∧ x ∈ S)) ∧
  (x ∈ ConeOf h S present false ↔
     (∃ e, e ∈ S ∧ (before h x e ∨ before h e x)) ∨ (present = true ∧ x ∈ S)) ∧
  (x ∈ SpacelikeTo h C S ↔ x ∈ C ∧ ∀ e, e ∈ S → spacelike (before h) x e) ∧
  PastOf h S present true = ∅ ∧ FutureOf h S present true = ∅ ∧ ConeOf h S present true = ∅.
Proof.
  intros HO. split; [apply PastOf_spec|]. split.
  { rewrite FutureOf_spec. unfold before. by setoid_rewrite (oi_conv h HO). }
  assert (HC : ∀ p, x ∈ ConeOf h S p false ↔
     (∃ e, e ∈ S ∧ (before h x e ∨ before h e x)) ∨ (p = true ∧ x ∈ S)).
  { intros p. rewrite ConeOf_spec. unfold before.
    split; (intros [(e & He & [Hx|Hx])|?]; [left; exists e; split; [done|]..|by right]);
      [by left|right; by apply (oi_conv h HO)|by left|right; by apply (oi_conv h HO)]. }
  split; [apply HC|]. split; [|apply intersect_empty].
  unfold SpacelikeTo. rewrite elem_of_difference, HC. unfold spacelike. split.
  - intros [Hx Hn]. split; [done|]. intros e He. split_and!.
    + intros ->. apply Hn. by right. + intros Hb. apply Hn. left. eauto. + intros Hb. apply Hn. left. eauto.
  - intros [Hx Hn]. split; [done|]. intros [(e & He & Hb)|[_ HxS]].
    + destruct (Hn e He) as (_ & ? & ?). by destruct Hb. + by destruct (Hn x HxS).
Qed.
Print Assumptions C32_cones.
Theorem C32_intersect_refuted :
  order_inv demo ∧ (∀ e, e ∈ ({[1; 3]} : gset nat) → before demo 0 e) ∧
  0 ∉ PastOf demo {[1; 3]} false true.
Proof.
  split; [apply demo_order|]. split.
  - assert (H : set_Forall (λ e, 0 ∈ prec demo e) ({[1; 3]} : gset nat)) by decide_vm. exact H.
  - decide_vm.
Qed.
Print Assumptions C32_intersect_refuted.
Example C32_nonvacuous : order_inv demo ∧ PastOf demo {[1; 3]} false false = {[0]} ∧
  FutureOf demo {[1; 3]} true false = {[1; 2; 3]} ∧ SpacelikeTo demo {[0; 1; 2; 3]} {[1]} = {[3]}.
Proof. split; [apply demo_order|]. split_and!; decide_vm. Qed.

(** ** C33 *)
Theorem C33_intervals (h : heap) (a b x : nat) :
  order_inv h → link_inv h →
  (x ∈ Interval h a b true ↔ (a = x ∨ before h a x) ∧ (x = b ∨ before h x b)) ∧
  (a ≠ b → x ∈ Interval h a b false ↔ before h a x ∧ before h x b) ∧
  (∀ i, IntervalCard h a b i = size (Interval h a b i)) ∧
  (ev_le h a b = false → ∀ i, Interval h a b i = ∅) ∧
  (x ∈ PerimetralEvents h a b ↔ covers (before h) a x ∧ covers (before h) x b) ∧
  (x ∈ InternalEvents h a b ↔
     before h a x ∧ before h x b ∧ ¬ (covers (before h) a x ∧ covers (before h) x b)) ∧
  PerimetralEventCount h a b = size (PerimetralEvents h a b) ∧
  InternalEventCount h a b = Z.of_nat (size (InternalEvents h a b)) ∧
  (before h a b →
   size (Interval h a b false) = size (PerimetralEvents h a b) + size (InternalEvents h a b)).
Proof.
  intros HO HL.
  assert (Hper : ∀ y, y ∈ PerimetralEvents h a b ↔ covers (before h) a y ∧ covers (before h) y b).
  { intros y. unfold PerimetralEvents. destruct (ev_lt h a b) eqn:E; cbn [negb].
    - rewrite elem_of_intersection, LinkPast_spec, LinkFuture_spec by done. done.
    - split; [set_solver|]. intros [[H1 _] [H2 _]]. exfalso.
      assert (ev_lt h a b = true); [|congruence]. apply ev_lt_spec. by eapply (oi_trans h HO). }
  assert (Hint : ∀ y, y ∈ InternalEvents h a b ↔
     before h a y ∧ before h y b ∧ ¬ (covers (before h) a y ∧ covers (before h) y b)).
  { intros y. unfold InternalEvents. destruct (ev_lt h a b) eqn:E; cbn [negb].
    - rewrite elem_of_difference, Hper, elem_of_intersection. unfold Future, Past, before.
      rewrite (oi_conv h HO a y). tauto.
    - split; [set_solver|]. intros (H1 & H2 & _). exfalso.
      assert (ev_lt h a b = true); [|congruence]. apply ev_lt_spec. by eapply (oi_trans h HO). }
  assert (Hsum : before h a b → Interval h a b false = PerimetralEvents h a b ∪ InternalEvents h a b).
  { intros Hab. apply set_eq. intros y. rewrite Interval_open_spec, elem_of_union, Hper, Hint; [|done|].
    - unfold covers. split.
      + intros [H1 H2]. destruct (decide (y ∈ PerimetralEvents h a b)) as [Hp|Hp].
        * left. by apply Hper. * right. split_and!; [done|done|]. intros Hc. by apply Hp, Hper.
      + intros [[[? _] [? _]]|(? & ? & _)]; done.
    - intros ->. by apply (oi_irr h HO b). }
  assert (Hdis : PerimetralEvents h a b ## InternalEvents h a b).
  { intros y. rewrite Hper, Hint. tauto. }
  split_and!.
  - by apply Interval_spec.
  - by apply Interval_open_spec.
  - intros i. by apply IntervalCard_size.
  - intros Hn i. unfold Interval. by rewrite Hn.
  - apply Hper.
  - apply Hint.
  - unfold PerimetralEventCount, PerimetralEvents. destruct (ev_lt h a b); cbn; [done|by rewrite size_empty].
  - unfold InternalEventCount. destruct (ev_lt h a b) eqn:E; cbn [negb].
    + assert (Hab : before h a b) by (by apply ev_lt_spec).
      specialize (Hsum Hab).
      assert (Hopen : Interval h a b false = Future h a ∩ Past h b).
      { unfold Interval. replace (ev_le h a b) with true by (symmetry; apply ev_le_spec; auto). cbn [negb].
        rewrite decide_False; [done|]. intros ->. by apply (oi_irr h HO b). }
      rewrite <- Hopen, Hsum, size_union by done. unfold PerimetralEventCount.
      rewrite E. cbn [negb].
      replace (LinkFuture h a ∩ LinkPast h b) with (PerimetralEvents h a b); [lia|].
      unfold PerimetralEvents. by rewrite E.
    + unfold InternalEvents. rewrite E. cbn [negb]. by rewrite size_empty.
  - intros Hab. rewrite Hsum by done. by apply size_union.
Qed.
Print Assumptions C33_intervals.
Example C33_nonvacuous :
  order_inv demo ∧ link_inv demo ∧ before demo 0 2 ∧
  Interval demo 0 2 true = {[0; 1; 2; 3]} ∧ PerimetralEvents demo 0 2 = {[1; 3]}.
Proof.
  split; [apply demo_order|]. split; [apply demo_link|]. unfold before. split; [decide_vm|].
  split; decide_vm.
Qed.

(** ** C34 *)
Theorem C34_CentralAntichain (it : oracle) (h : heap) (C : gset nat) (e : option nat) :
  iter_ok it → order_inv h →
  let A := CentralAntichain it h C e in
  let target := match e with Some x => (Z.of_nat (size (Past h x)) - Z.of_nat (size (Future h x)))%Z
                | None => 0%Z end in
  let deviation x := Z.abs (Z.of_nat (size (Past h x)) - Z.of_nat (size (Future h x)) - target) in
  A ⊆ C ∧
  (∀ a b, a ∈ A → b ∈ A → ¬ before h a b) ∧
  (∀ x, x ∈ C → x ∉ A → ∃ a, a ∈ A ∧ (before h a x ∨ before h x a)) ∧
  (C ≠ ∅ → ∃ a, a ∈ A ∧ ∀ x, x ∈ C → (deviation a <= deviation x)%Z).
Proof.
  intros Hit HO A target deviation.
  set (diff := match e with None => 0%Z | Some x => balance h x end).
  assert (Hdev : ∀ x, central_size h diff x = deviation x).
  { intros x. unfold central_size, deviation, balance, diff, target, balance, PastCard, FutureCard.
    destruct e; done. }
  assert (HA : A = foldl (λ acc size, central_pass h diff size (it 10 C) acc) ∅
    (np_unique (central_size h diff <$> it 10 C))) by done.
  assert (H0 : ∀ a b, a ∈ (∅ : gset nat) → b ∈ (∅ : gset nat) → ¬ before h a b) by set_solver.
  destruct (central_all h HO diff (np_unique (central_size h diff <$> it 10 C)) (it 10 C) ∅ H0)
    as (H1 & _ & H3 & H4). rewrite <- HA in *. split_and!.
  - intros x [Hx|Hx]%H3; [by apply elem_of_empty in Hx|]. by apply iter_elem in Hx.
  - done.
  - intros x Hx HxA. destruct (H4 x) as (y & Hy & Hc).
    + by apply iter_elem.
    + apply np_unique_elem. apply elem_of_list_fmap. exists x. split; [done|]. by apply iter_elem.
    + exists y. split; [done|]. destruct Hc as [->|Hc]; [done|]. done.
  - intros HC. apply set_choose_L in HC as [x0 Hx0]. rewrite <- (iter_elem it 10 C x0 Hit) in Hx0.
    destruct (np_unique (central_size h diff <$> it 10 C)) as [|z zs] eqn:Eu.
    { exfalso. assert (Hz : central_size h diff x0 ∈ np_unique (central_size h diff <$> it 10 C)).
      { apply np_unique_elem, elem_of_list_fmap. eauto. }
      rewrite Eu in Hz. by apply elem_of_nil in Hz. }
    pose proof (np_unique_head _ _ _ Eu) as Hmin.
    assert (Hz : z ∈ central_size h diff <$> it 10 C).
    { apply np_unique_elem. rewrite Eu. apply elem_of_list_here. }
    apply elem_of_list_fmap in Hz as (x1 & Hz & Hx1).
    destruct (central_pass_spec h HO diff z (it 10 C) ∅ H0) as (G1 & G2 & G3 & G4).
    destruct (G4 x1 Hx1 (eq_sym Hz)) as (a & Ha & _).
    exists a. split.
    + rewrite HA. cbn [foldl].
      destruct (central_all h HO diff zs (it 10 C) _ G1) as (_ & Hsup & _). by apply Hsup.
    + intros x Hx. rewrite <- !Hdev. destruct (G3 a Ha) as [Ha'|[_ ->]]; [by apply elem_of_empty in Ha'|].
      apply Hmin. apply elem_of_list_fmap. exists x. split; [done|]. by apply iter_elem.
Qed.
Print Assumptions C34_CentralAntichain.
Example C34_nonvacuous :
  order_inv demo ∧ CentralAntichain it_reverse demo (dom demo) None = {[1; 3]} ∧
  CentralAntichain it_reverse demo (dom demo) (Some 2) = {[2]}.
Proof. split; [apply demo_order|]. split; decide_vm. Qed.

(** ** C35 *)
Theorem C35_LayerNumbers (h : heap) (l : list nat) (i : nat) (x : nat) :
  order_inv h → l !! i = Some x →
  length (LayerNumbers h l false) = length l ∧ length (LayerNumbers h l true) = length l ∧
  (∀ n, LayerNumbers h l false !! i = Some n ↔
     ((¬ ∃ a, a ∈ l ∧ before h a x) ∧ n = 0%Z) ∨
     ∃ m, n = (Z.of_nat m - 1)%Z ∧
       (∃ a, a ∈ l ∧ before h a x ∧ size (Interval h a x true) = m) ∧
       (∀ a, a ∈ l → before h a x → size (Interval h a x true) ≤ m)) ∧
  (∀ n, LayerNumbers h l true !! i = Some n ↔
     ((¬ ∃ b, b ∈ l ∧ before h x b) ∧ n = 0%Z) ∨
     ∃ m, n = (- (Z.of_nat m - 1))%Z ∧
       (∃ b, b ∈ l ∧ before h x b ∧ size (Interval h x b true) = m) ∧
       (∀ b, b ∈ l → before h x b → size (Interval h x b true) ≤ m)).
Proof.
  intros HO Hi. unfold LayerNumbers.
  assert (Hne : size (list_to_set l : gset nat) ≠ 0).
  { intros He. apply size_empty_inv in He. apply elem_of_list_lookup_2 in Hi.
    assert (Hx : x ∈ (list_to_set l : gset nat)) by (by apply elem_of_list_to_set).
    rewrite He in Hx. by apply elem_of_empty in Hx. }
  rewrite !decide_False by done. rewrite !fmap_length, !list_lookup_fmap, Hi. cbn.
  split_and!; [done|done| |].
  - intros n. rewrite <- (future_number_spec h HO (list_to_set l) x n) || idtac.
    pose proof (future_number_spec h HO (list_to_set l) x n) as H.
    setoid_rewrite elem_of_list_to_set in H. rewrite <- H. split; [by intros [= ->]|by intros ->].
  - intros n. pose proof (past_number_spec h (list_to_set l) x n HO) as H.
    setoid_rewrite elem_of_list_to_set in H. rewrite <- H. split; [by intros [= ->]|by intros ->].
Qed.
Print Assumptions C35_LayerNumbers.
Theorem C35_LayerNumbers_monotone (h : heap) (l : list nat) (i j : nat) (x y : nat) (n m : Z) :
  order_inv h → l !! i = Some x → l !! j = Some y → before h x y →
  (LayerNumbers h l false !! i = Some n → LayerNumbers h l false !! j = Some m →
     (0 <= n < m)%Z) ∧
  (LayerNumbers h l true !! i = Some n → LayerNumbers h l true !! j = Some m →
     (n < m <= 0)%Z).
Proof.
  intros HO Hi Hj Hxy. unfold LayerNumbers.
  assert (Hx : x ∈ (list_to_set l : gset nat)) by (by eapply elem_of_list_to_set, elem_of_list_lookup_2).
  assert (Hy : y ∈ (list_to_set l : gset nat)) by (by eapply elem_of_list_to_set, elem_of_list_lookup_2).
  assert (Hne : size (list_to_set l : gset nat) ≠ 0).
  { intros He. apply size_empty_inv in He. rewrite He in Hx. by apply elem_of_empty in Hx. }
  rewrite !decide_False by done.
  rewrite !list_lookup_fmap, Hi, Hj. cbn. split; intros [= <-] [= <-].
  - pose proof (future_number_nonneg h HO (list_to_set l) x).
    pose proof (future_number_grow h HO (list_to_set l) x y Hx Hxy). lia.
  - pose proof (past_number_nonpos h (list_to_set l) y HO).
    pose proof (past_number_grow h (list_to_set l) x y HO Hy Hxy). lia.
Qed.
Print Assumptions C35_LayerNumbers_monotone.
Theorem C35_Layers (h : heap) (S : gset nat) :
  order_inv h → (∀ a b, a ∈ S → b ∈ S → ¬ before h a b) →
  (∀ first last x, x ∈ Layers h S first last ↔
     ∃ n, layer_number h S x n ∧ (first <= n)%Z ∧ (n <= default first last)%Z) ∧
  Layers h S 0 None = S ∧
  (∀ x, x ∈ ConeOf h S true false → ∃ n, layer_number h S x n ∧ ∀ m, layer_number h S x m → m = n).
Proof.
  intros HO HS. assert (HL := λ f l x, Layers_antichain h HO S HS f l x). split_and!.
  - exact HL.
  - apply set_eq. intros x. rewrite HL. cbn. split.
    + intros (n & Hn & H1 & H2). assert (n = 0%Z) as -> by lia.
      destruct Hn as [[Hx _]|[(m & Hm & (a & Ha & Hax & Hsz) & _)|(m & Hm & (a & Ha & Hax & Hsz) & _)]];
        [done| |]; rewrite <- IntervalCard_size in Hsz by done;
        pose proof (IntervalCard_lt2 h HO _ _ Hax); lia.
    + intros Hx. exists 0%Z. split; [by left|lia].
  - intros x Hx. apply (C32_cones h ∅ S true x HO) in Hx.
    destruct Hx as [(e & He & [Hb|Hb])|[_ Hx]].
    + exists (past_number h S x). split; [apply layer_number_past; eauto|].
      intros m Hm. apply layer_number_past in Hm; eauto.
    + exists (future_number h S x). split; [apply layer_number_future; eauto|].
      intros m Hm. apply layer_number_future in Hm; eauto.
    + exists 0%Z. split; [by left|]. intros m Hm. by apply layer_number_present in Hm.
Qed.
Print Assumptions C35_Layers.
Example C35_nonvacuous :
  order_inv demo ∧ LayerNumbers demo [0; 1; 2; 3] false = [0; 1; 3; 1]%Z ∧
  LayerNumbers demo [0; 1; 2; 3] true = [-3; -1; 0; -1]%Z ∧
  (∀ a b, a ∈ ({[1; 3]} : gset nat) → b ∈ ({[1; 3]} : gset nat) → ¬ before demo a b) ∧
  Layers demo {[1; 3]} (-1) (Some 0%Z) = {[0; 1; 3]}.
Proof.
  split; [apply demo_order|]. split; [by vm_compute|]. split; [by vm_compute|]. split; [|decide_vm].
  apply (isAntichain_some demo ∅ {[1; 3]} demo_order). decide_vm.
Qed.

(** ** C36 *)
Theorem C36_layered (h : heap) (C : gset nat) :
  order_inv h → closed h C →
  (∃ l, layered h C false = Ok l ∧ (∀ T, T ∈ l → T ≠ ∅) ∧
     ∀ x k, (∃ T, l !! k = Some T ∧ x ∈ T) ↔ x ∈ C ∧ has_height (before h) x k) ∧
  (∃ l, layered h C true = Ok l ∧ (∀ T, T ∈ l → T ≠ ∅) ∧
     ∀ x k, (∃ T, l !! k = Some T ∧ x ∈ T) ↔ x ∈ C ∧ has_height (λ a b, before h b a) x k).
Proof.
  intros HO HC. split; [|by apply layered_down].
  destruct (layered_up h C HO HC) as (l & H1 & H2 & H3). exists l. split_and!; [done|done|].
  intros x k. by rewrite H3, has_height_iff.
Qed.
Print Assumptions C36_layered.
Theorem C36_layered_partition (h : heap) (C : gset nat) (rev : bool) (l : list (gset nat)) :
  order_inv h → closed h C → layered h C rev = Ok l →
  (∀ x, x ∈ C ↔ ∃ T, T ∈ l ∧ x ∈ T) ∧
  (∀ i j T U, l !! i = Some T → l !! j = Some U → i ≠ j → T ∩ U = ∅) ∧
  (∀ T a b, T ∈ l → a ∈ T → b ∈ T → ¬ before h a b).
Proof.
  intros HO HC Hl.
  assert (Hd := dual_order h HO). assert (Hdc := dual_closed h C HC).
  assert (Hg : ∃ f : nat → nat, (∀ x i, (∃ T, l !! i = Some T ∧ x ∈ T) ↔ x ∈ C ∧ f x = i) ∧
     ∀ a b, before h a b → f a ≠ f b).
  { destruct rev.
    - rewrite dual_layered in Hl by done.
      destruct (layered_up (dual h) C Hd Hdc) as (l' & Hl' & _ & H). assert (l' = l) as -> by congruence.
      exists (ht (dual h)). split; [done|]. intros a b Hab.
      pose proof (ht_lt (dual h) Hd b a) as Hlt. rewrite dual_before in Hlt by done.
      specialize (Hlt Hab). lia.
    - destruct (layered_up h C HO HC) as (l' & Hl' & _ & H). assert (l' = l) as -> by congruence.
      exists (ht h). split; [done|]. intros a b Hab. pose proof (ht_lt h HO a b Hab). lia. }
  destruct Hg as (f & Hf & Hne). split_and!.
  - intros x. split.
    + intros Hx. destruct (proj2 (Hf x (f x)) (conj Hx eq_refl)) as (T & HT & HxT).
      exists T. split; [by eapply elem_of_list_lookup_2|done].
    + intros (T & [i Hi]%elem_of_list_lookup & HxT). by apply (Hf x i); eauto.
  - intros i j T U HT HU Hij. apply set_eq. intros x. split; [|set_solver].
    intros [H1 H2]%elem_of_intersection.
    assert (f x = i) by (apply (Hf x i); eauto). assert (f x = j) by (apply (Hf x j); eauto). congruence.
  - intros T a b [i Hi]%elem_of_list_lookup Ha Hb Hab. apply (Hne a b Hab).
    assert (f a = i) by (apply (Hf a i); eauto). assert (f b = i) by (apply (Hf b i); eauto). congruence.
Qed.
Print Assumptions C36_layered_partition.
Theorem C36_nonconvex_refuted :
  order_inv demo ∧ layered demo {[0; 2]} false = Ok [{[0]}].
Proof. split; [apply demo_order|]. decide_vm. Qed.
Print Assumptions C36_nonconvex_refuted.
Example C36_nonvacuous :
  order_inv demo ∧ closed demo (dom demo) ∧
  layered demo (dom demo) false = Ok [{[0]}; {[1; 3]}; {[2]}].
Proof.
  split; [apply demo_order|]. split; [|decide_vm].
  intros x _. split; [apply prec_sub_dom, demo_order|apply succ_sub_dom, demo_order].
Qed.

(** ** C37 *)
(** [max_rank h below x S n]: n is the largest least number of links from events of S. *)
Lemma rank_int_spec it h a b n :
  iter_ok it → order_inv h → link_inv h → before h a b →
  rank_int it h a b = n ↔ link_distance (before h) a b n.
Proof.
  intros Hit HO HL Hab. unfold rank_int.
  destruct (Rank_spec it Hit h HO HL a b) as [[H1 _]|(_ & m & -> & Hm)].
  - assert (ev_le h a b = true) by (apply ev_le_spec; auto). congruence.
  - split; [by intros <-|]. intros Hn. by eapply link_distance_unique.
Qed.
Lemma future_rank_spec it h S b n :
  iter_ok it → order_inv h → link_inv h →
  future_rank it h S b = n ↔
    ((¬ ∃ a, a ∈ S ∧ before h a b) ∧ n = 0%Z) ∨
    ∃ m, n = Z.of_nat m ∧
      (∃ a, a ∈ S ∧ before h a b ∧ link_distance (before h) a b m) ∧
      (∀ a k, a ∈ S → before h a b → link_distance (before h) a b k → k ≤ m).
Proof.
  intros Hit HO HL. unfold future_rank, Past. destruct (decide (prec h b ∩ S = ∅)) as [He|He].
  - assert (Hn : ¬ ∃ a, a ∈ S ∧ before h a b).
    { intros (a & Ha & Hb). unfold before in Hb. set_solver. }
    split; [intros <-; by left|]. intros [[_ ->]|(m & _ & (a & Ha & Hb & _) & _)]; [done|].
    destruct Hn. eauto.
  - set (M := max_of (λ a, rank_int it h a b) (prec h b ∩ S)).
    assert (Hsp : ∀ m, M = m ↔
      (∃ a, a ∈ S ∧ before h a b ∧ link_distance (before h) a b m) ∧
      (∀ a k, a ∈ S → before h a b → link_distance (before h) a b k → k ≤ m)).
    { intros m. unfold M. rewrite max_of_spec by done. split.
      - intros [(a' & [H1 H2]%elem_of_intersection & Hm') Hu']. split.
        + exists a'. split_and!; [done|done|]. by apply (rank_int_spec it).
        + intros c k Hc Hcb Hk. apply (rank_int_spec it) in Hk as <-; try done. apply Hu'.
          by apply elem_of_intersection.
      - intros [(a' & H1 & H2 & Hm') Hu']. split.
        + exists a'. split; [by apply elem_of_intersection|]. by apply rank_int_spec.
        + intros c [Hc Hcb]%elem_of_intersection. apply (Hu' c); [done|done|]. by apply (rank_int_spec it). }
    split.
    + intros <-. right. exists M. split; [done|]. by apply Hsp.
    + intros [[Hn _]|(m & -> & Hm')].
      * apply set_choose_L in He as [a [Ha1 Ha2]%elem_of_intersection]. destruct Hn. by exists a.
      * apply Hsp in Hm' as ->. done.
Qed.
Lemma past_rank_spec it h S a n :
  iter_ok it → order_inv h → link_inv h →
  past_rank it h S a = n ↔
    ((¬ ∃ b, b ∈ S ∧ before h a b) ∧ n = 0%Z) ∨
    ∃ m, n = (- Z.of_nat m)%Z ∧
      (∃ b, b ∈ S ∧ before h a b ∧ link_distance (before h) a b m) ∧
      (∀ b k, b ∈ S → before h a b → link_distance (before h) a b k → k ≤ m).
Proof.
  intros Hit HO HL. unfold past_rank, Future. destruct (decide (succ h a ∩ S = ∅)) as [He|He].
  - assert (Hn : ¬ ∃ b, b ∈ S ∧ before h a b).
    { intros (b & Ha & Hb). apply (oi_conv h HO) in Hb. set_solver. }
    split; [intros <-; by left|]. intros [[_ ->]|(m & _ & (b & Ha & Hb & _) & _)]; [done|].
    destruct Hn. eauto.
  - set (M := max_of (λ b, rank_int it h a b) (succ h a ∩ S)).
    assert (Hsp : ∀ m, M = m ↔
      (∃ b, b ∈ S ∧ before h a b ∧ link_distance (before h) a b m) ∧
      (∀ b k, b ∈ S → before h a b → link_distance (before h) a b k → k ≤ m)).
    { intros m. unfold M. rewrite max_of_spec by done. split.
      - intros [(a' & [H1 H2]%elem_of_intersection & Hm') Hu']. apply (oi_conv h HO) in H1. split.
        + exists a'. split_and!; [done|done|]. by apply (rank_int_spec it).
        + intros c k Hc Hcb Hk. apply (rank_int_spec it) in Hk as <-; try done. apply Hu'.
          apply elem_of_intersection. split; [by apply (oi_conv h HO)|done].
      - intros [(a' & H1 & H2 & Hm') Hu']. split.
        + exists a'. split; [apply elem_of_intersection; split; [by apply (oi_conv h HO)|done]|].
          by apply rank_int_spec.
        + intros c [Hc Hcb]%elem_of_intersection. apply (oi_conv h HO) in Hc.
          apply (Hu' c); [done|done|]. by apply (rank_int_spec it). }
    split.
    + intros <-. right. exists M. split; [done|]. by apply Hsp.
    + intros [[Hn _]|(m & -> & Hm')].
      * apply set_choose_L in He as [b [Ha1 Ha2]%elem_of_intersection]. destruct Hn. exists b.
        split; [done|]. by apply (oi_conv h HO).
      * apply Hsp in Hm' as ->. done.
Qed.
Theorem C37_RankNumbers (it : oracle) (h : heap) (l : list nat) (i : nat) (x : nat) :
  iter_ok it → order_inv h → link_inv h → l !! i = Some x →
  (∀ n, RankNumbers it h l false !! i = Some n ↔
     ((¬ ∃ a, a ∈ l ∧ before h a x) ∧ n = 0%Z) ∨
     ∃ m, n = Z.of_nat m ∧
       (∃ a, a ∈ l ∧ before h a x ∧ link_distance (before h) a x m) ∧
       (∀ a k, a ∈ l → before h a x → link_distance (before h) a x k → k ≤ m)) ∧
  (∀ n, RankNumbers it h l true !! i = Some n ↔
     ((¬ ∃ b, b ∈ l ∧ before h x b) ∧ n = 0%Z) ∨
     ∃ m, n = (- Z.of_nat m)%Z ∧
       (∃ b, b ∈ l ∧ before h x b ∧ link_distance (before h) x b m) ∧
       (∀ b k, b ∈ l → before h x b → link_distance (before h) x b k → k ≤ m)).
Proof.
  intros Hit HO HL Hi. unfold RankNumbers.
  assert (Hx : x ∈ (list_to_set l : gset nat)) by (by eapply elem_of_list_to_set, elem_of_list_lookup_2).
  assert (Hne : size (list_to_set l : gset nat) ≠ 0).
  { intros He. apply size_empty_inv in He. rewrite He in Hx. by apply elem_of_empty in Hx. }
  rewrite !decide_False by done.
  rewrite !list_lookup_fmap, Hi. cbn. split; intros n.
  - pose proof (future_rank_spec it h (list_to_set l) x n Hit HO HL) as H.
    setoid_rewrite elem_of_list_to_set in H. rewrite <- H. split; [by intros [= ->]|by intros ->].
  - pose proof (past_rank_spec it h (list_to_set l) x n Hit HO HL) as H.
    setoid_rewrite elem_of_list_to_set in H. rewrite <- H. split; [by intros [= ->]|by intros ->].
Qed.
Print Assumptions C37_RankNumbers.
(** The future / past rank of an event with respect to a set, as in C37_RankNumbers. *)
Definition up_rank (h : heap) (S : gset nat) (x : nat) (n : Z) : Prop :=
  ((¬ ∃ a, a ∈ S ∧ before h a x) ∧ n = 0%Z) ∨
  ∃ m, n = Z.of_nat m ∧
    (∃ a, a ∈ S ∧ before h a x ∧ link_distance (before h) a x m) ∧
    (∀ a k, a ∈ S → before h a x → link_distance (before h) a x k → k ≤ m).
Definition down_rank (h : heap) (S : gset nat) (x : nat) (n : Z) : Prop :=
  ((¬ ∃ b, b ∈ S ∧ before h x b) ∧ n = 0%Z) ∨
  ∃ m, n = (- Z.of_nat m)%Z ∧
    (∃ b, b ∈ S ∧ before h x b ∧ link_distance (before h) x b m) ∧
    (∀ b k, b ∈ S → before h x b → link_distance (before h) x b k → k ≤ m).
Theorem C37_Ranks (it : oracle) (h : heap) (S : gset nat) (first : Z) (last : option Z) (x : nat) :
  iter_ok it → order_inv h → link_inv h →
  x ∈ Ranks it h S first last ↔
    ((x ∈ S ∨ ∃ b, b ∈ S ∧ before h x b) ∧ ∃ n, down_rank h S x n ∧
       (first <= n <= 0)%Z ∧ (n <= default first last)%Z) ∨
    ((x ∈ S ∨ ∃ a, a ∈ S ∧ before h a x) ∧ ∃ n, up_rank h S x n ∧
       (0 <= n)%Z ∧ (first <= n <= default first last)%Z ∧ (0 < default first last)%Z).
Proof.
  intros Hit HO HL. unfold Ranks. set (la := default first last).
  assert (Hd : ∀ n, down_rank h S x n ↔ n = past_rank it h S x).
  { intros n. rewrite (eq_comm n). symmetry. by apply past_rank_spec. }
  assert (Hu : ∀ n, up_rank h S x n ↔ n = future_rank it h S x).
  { intros n. rewrite (eq_comm n). symmetry. by apply future_rank_spec. }
  setoid_rewrite Hd. setoid_rewrite Hu.
  destruct (decide _) as [Hdec|Hdec].
  { split; [set_solver|]. intros [[Hx (n & -> & H1 & H2)]|[Hx (n & -> & H1 & H2 & H3)]]; exfalso;
      (destruct Hdec as [Hdec|Hdec]; [|lia]); apply size_empty_inv, leibniz_equiv in Hdec; set_solver. }
  rewrite elem_of_union.
  assert (Hp : x ∈ PastOf h S true false ↔ x ∈ S ∨ ∃ b, b ∈ S ∧ before h x b).
  { rewrite PastOf_spec. unfold before. tauto. }
  assert (Hf : x ∈ FutureOf h S true false ↔ x ∈ S ∨ ∃ a, a ∈ S ∧ before h a x).
  { rewrite FutureOf_spec. unfold before. setoid_rewrite (oi_conv h HO). tauto. }
  split.
  - intros [Hx|Hx].
    + left. destruct (decide _); [|set_solver]. apply elem_of_filter in Hx as [H1 Hx%Hp].
      split; [done|]. eexists. split; [done|]. lia.
    + right. destruct (decide _); [|set_solver]. apply elem_of_filter in Hx as [H1 Hx%Hf].
      split; [done|]. eexists. split; [done|]. lia.
  - intros [[Hx (n & -> & H1 & H2)]|[Hx (n & -> & H1 & H2 & H3)]].
    + left. rewrite decide_True by lia. apply elem_of_filter. split; [lia|by apply Hp].
    + right. rewrite decide_True by lia. apply elem_of_filter. split; [lia|by apply Hf].
Qed.
Print Assumptions C37_Ranks.
Example C37_nonvacuous :
  order_inv demo ∧ link_inv demo ∧ RankNumbers it_reverse demo [0; 1; 2; 3] false = [0; 1; 2; 1]%Z ∧
  Ranks it_elements demo {[2]} (-1) None = {[1; 3]}.
Proof. split; [apply demo_order|]. split; [apply demo_link|]. split; [by vm_compute|decide_vm]. Qed.

(** ** C40 *)
Theorem C40_symmetric (h : heap) (C : gset nat) (a b : nat) (s i : option (gset nat)) :
  order_inv h → SmallestIntervalCard h C a b s i = SmallestIntervalCard h C b a s i.
Proof. intros HO. by apply SIC_sym. Qed.
Print Assumptions C40_symmetric.
Theorem C40_comparable (h : heap) (C : gset nat) (a b : nat) :
  order_inv h → a = b ∨ before h a b →
  SmallestIntervalCard h C a b None None = size (Interval h a b true) ∧
  ∀ i, SmallestIntervalCard h C a b None (Some i) = size (Interval h a b true ∩ i).
Proof.
  intros HO Hab.
  assert (Hle : ev_le h a b = true) by (by apply ev_le_spec).
  assert (Hgt : ev_gt h a b = false).
  { apply not_true_iff_false. rewrite ev_gt_spec. intros Hba.
    destruct Hab as [->|Hab]; [by apply (oi_irr h HO b)|by eapply (oi_asym h HO)]. }
  unfold SmallestIntervalCard. rewrite Hgt, Hle, IntervalCard_size by done. done.
Qed.
Print Assumptions C40_comparable.
(** Size of the part of an interval (or past, future) that counts. *)
Definition counted (X : gset nat) (i : option (gset nat)) : nat :=
  match i with None => size X | Some i => size (X ∩ i) end.
Theorem C40_spacelike (h : heap) (C : gset nat) (a b : nat) (s i : option (gset nat)) (n : nat) :
  order_inv h → spacelike (before h) a b →
  let common_past p := p ∈ default C s ∧ before h p a ∧ before h p b in
  let common_future f := f ∈ default C s ∧ before h a f ∧ before h b f in
  ((∃ p, common_past p) → (∃ f, common_future f) →
     SmallestIntervalCard h C a b s i = n ↔
     (∃ p f, common_past p ∧ common_future f ∧ counted (Interval h p f true) i = n) ∧
     (∀ p f, common_past p → common_future f → n ≤ counted (Interval h p f true) i)) ∧
  ((¬ ∃ p, common_past p) → (¬ ∃ f, common_future f) → SmallestIntervalCard h C a b s i = 0) ∧
  ((¬ ∃ p, common_past p) → (∃ f, common_future f) →
     SmallestIntervalCard h C a b s i = n ↔
     (∃ f, common_future f ∧ counted (Past h f) i = n) ∧
     (∀ f, common_future f → n ≤ counted (Past h f) i)) ∧
  ((∃ p, common_past p) → (¬ ∃ f, common_future f) →
     SmallestIntervalCard h C a b s i = n ↔
     (∃ p, common_past p ∧ counted (Future h p) i = n) ∧
     (∀ p, common_past p → n ≤ counted (Future h p) i)).
Proof.
  intros HO (Hne & Hn1 & Hn2) common_past common_future.
  assert (Hle : ev_le h a b = false).
  { apply not_true_iff_false. rewrite ev_le_spec. naive_solver. }
  assert (Hgt : ev_gt h a b = false) by (apply not_true_iff_false; by rewrite ev_gt_spec).
  unfold SmallestIntervalCard. rewrite Hgt, Hle.
  set (P := Past h a ∩ Past h b ∩ default C s). set (F := Future h a ∩ Future h b ∩ default C s).
  assert (HP : ∀ p, p ∈ P ↔ common_past p).
  { intros p. unfold P, common_past, Past, before. rewrite !elem_of_intersection. tauto. }
  assert (HF : ∀ f, f ∈ F ↔ common_future f).
  { intros p. unfold F, common_future, Future, before.
    rewrite !elem_of_intersection, <- !(oi_conv h HO). tauto. }
  assert (HPe : P = ∅ ↔ ¬ ∃ p, common_past p).
  { split; [intros He (p & Hp%HP); set_solver|]. intros Hn. apply set_eq. intros p.
    split; [|set_solver]. intros Hp%HP. destruct Hn. eauto. }
  assert (HFe : F = ∅ ↔ ¬ ∃ p, common_future p).
  { split; [intros He (p & Hp%HF); set_solver|]. intros Hn. apply set_eq. intros p.
    split; [|set_solver]. intros Hp%HF. destruct Hn. eauto. }
  clearbody P F.
  assert (Hdec : (P = ∅ ∨ ∃ p, common_past p) ∧ (F = ∅ ∨ ∃ f, common_future f)).
  { split.
    - destruct (decide (P = ∅)) as [|Hp]; [by left|right]. apply set_choose_L in Hp as [p Hp].
      exists p. by apply HP.
    - destruct (decide (F = ∅)) as [|Hp]; [by left|right]. apply set_choose_L in Hp as [p Hp].
      exists p. by apply HF. }
  split_and!.
  - intros Hp Hf.
    assert (HPn : P ≠ ∅) by (intros He; by apply HPe in He).
    assert (HFn : F ≠ ∅) by (intros He; by apply HFe in He).
    rewrite decide_False by tauto. rewrite !decide_False by done.
    assert (Hmin : match i with
        | None => min_of (λ ep, min_of (λ ef, IntervalCard h ep ef true) F) P
        | Some i0 => min_of (λ ep, min_of (λ ef, size (Interval h ep ef true ∩ i0)) F) P
        end = min_of (λ ep, min_of (λ ef, counted (Interval h ep ef true) i) F) P).
    { destruct i; cbn; [done|]. apply min_pairs_ext. intros x y _ _. by apply IntervalCard_size. }
    rewrite Hmin. rewrite min_of_spec by done. split.
    + intros [(p & Hpp & Hm) Hlow]. apply min_of_spec in Hm as [(f & Hff & Hm) Hlow']; [|done]. split.
      * exists p, f. rewrite <- HP, <- HF. done.
      * intros p' f' Hp'%HP Hf'%HF. specialize (Hlow p' Hp').
        pose proof (min_of_lb (λ ef, counted (Interval h p' ef true) i) F f' Hf'). cbn in *. lia.
    + intros [(p & f & Hp'%HP & Hf'%HF & Hm) Hlow].
      assert (Hall : ∀ x, x ∈ P → n ≤ min_of (λ ef, counted (Interval h x ef true) i) F).
      { intros x Hx. destruct (min_of_in (λ ef, counted (Interval h x ef true) i) F HFn) as (y & Hy & ->).
        apply Hlow; [by apply HP|by apply HF]. }
      split; [|exact Hall]. exists p. split; [done|].
      pose proof (min_of_lb (λ ef, counted (Interval h p ef true) i) F f Hf'). cbn in *.
      specialize (Hall p Hp'). lia.
  - intros Hp%HPe Hf%HFe. by rewrite decide_True by done.
  - intros Hp%HPe Hf. assert (HFn : F ≠ ∅) by (intros He; by apply HFe in He).
    rewrite decide_False by tauto. rewrite decide_True by done.
    rewrite min_of_spec by done. setoid_rewrite HF. destruct i; done.
  - intros Hp Hf%HFe. assert (HPn : P ≠ ∅) by (intros He; by apply HPe in He).
    rewrite decide_False by tauto. rewrite decide_False by done. rewrite decide_True by done.
    rewrite min_of_spec by done. setoid_rewrite HP. destruct i; done.
Qed.
Print Assumptions C40_spacelike.
Example C40_nonvacuous :
  order_inv demo ∧ spacelike (before demo) 1 3 ∧
  SmallestIntervalCard demo (dom demo) 1 3 None None = 4 ∧
  SmallestIntervalCard demo (dom demo) 1 3 None (Some {[1; 3]}) = 2.
Proof.
  split; [apply demo_order|]. split; [unfold spacelike, before; decide_vm|]. by vm_compute.
Qed.

(** ** C43 *)
Theorem C43_disjoint (it : oracle) (h : heap) (S : gset nat) :
  iter_ok it → order_inv h →
  ∃ l, disjoint_ it h S = Ok l ∧
    (∀ T, T ∈ l → T ≠ ∅) ∧ ⋃ l = S ∧
    (∀ i j T U, l !! i = Some T → l !! j = Some U → i ≠ j →
       T ∩ U = ∅ ∧ ∀ a b, a ∈ T → b ∈ U → ¬ before h a b ∧ ¬ before h b a) ∧
    (∀ x y, x ∈ S → y ∈ S →
       (∃ T, T ∈ l ∧ x ∈ T ∧ y ∈ T) ↔ connected_in (before h) S x y) ∧
    (isDisjoint it h S = Ok true ↔ ∃ x y, x ∈ S ∧ y ∈ S ∧ ¬ connected_in (before h) S x y) ∧
    (isDisjoint it h S = Ok true ∨ isDisjoint it h S = Ok false).
Proof.
  intros Hit HO. unfold isDisjoint, disjoint_.
  destruct (disjoint_loop_spec h HO it Hit (Datatypes.S (size S)) S) as (l & Hl & H1 & H2 & H3 & H4);
    [lia|]. rewrite Hl. exists l. cbn [res_map].
  assert (Hmem : ∀ T x, T ∈ l → x ∈ T → x ∈ S).
  { intros T x HT Hx. rewrite <- H2. apply elem_of_union_list. eauto. }
  assert (Hin : ∀ x, x ∈ S → ∃ T, T ∈ l ∧ x ∈ T).
  { intros x Hx. rewrite <- H2 in Hx. by apply elem_of_union_list in Hx. }
  split_and!; try done.
  - intros i j T U HT HU Hij. split; [by apply (H4 i j)|]. intros a b Ha Hb.
    pose proof (elem_of_list_lookup_2 _ _ _ HT) as HT'. pose proof (elem_of_list_lookup_2 _ _ _ HU) as HU'.
    assert (Hnc : ¬ comparable (before h) a b).
    { intros Hc. assert (HbT : b ∈ T).
      { apply (H3 T a HT' Ha). apply conn_step with a; [by apply conn_refl, (Hmem T)|by apply (Hmem U)|done]. }
      pose proof (H4 i j T U HT HU Hij). set_solver. }
    unfold comparable in Hnc. tauto.
  - intros x y Hx Hy. split.
    + intros (T & HT & HxT & HyT). by apply (H3 T x).
    + intros Hc. destruct (Hin x Hx) as (T & HT & HxT). exists T. split_and!; [done|done|].
      by apply (H3 T x HT HxT).
  - split.
    + intros [= Hlen%bool_decide_eq_true]. destruct l as [|T [|U l]]; cbn in Hlen; [lia|lia|].
      assert (HTne : T ≠ ∅) by (apply H1; set_solver). assert (HUne : U ≠ ∅) by (apply H1; set_solver).
      apply set_choose_L in HTne as [x Hx]. apply set_choose_L in HUne as [y Hy].
      exists x, y. split_and!; [eapply (Hmem T); [set_solver|done]|eapply (Hmem U); [set_solver|done]|].
      intros Hc. assert (HyT : y ∈ T) by (apply (H3 T x); [set_solver|done|done]).
      pose proof (H4 0 1 T U eq_refl eq_refl). set_solver.
    + intros (x & y & Hx & Hy & Hn). f_equal. apply bool_decide_eq_true.
      destruct (Hin x Hx) as (T & HT & HxT), (Hin y Hy) as (U & HU & HyU).
      destruct l as [|V [|W l]]; cbn; [set_solver| |lia].
      apply elem_of_list_singleton in HT as ->, HU as ->. destruct Hn.
      apply (H3 V x); [set_solver|done|done].
  - destruct (bool_decide _); auto.
Qed.
Print Assumptions C43_disjoint.
Example C43_nonvacuous :
  order_inv demo ∧ disjoint_ it_reverse demo {[0; 1; 3]} = Ok [{[0; 1; 3]}] ∧
  disjoint_ it_reverse demo {[1; 3]} = Ok [{[3]}; {[1]}].
Proof. split; [apply demo_order|]. split; decide_vm. Qed.
