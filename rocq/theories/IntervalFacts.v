(** Facts about intervals, extrema over sets and SmallestIntervalCard. *)
From Verif Require Import Base Spec EventModel EventFacts CausetModel CausetFacts.

Lemma elements_nonempty (S : gset nat) : S ≠ ∅ → elements S ≠ [].
Proof. intros HS He. apply HS. apply leibniz_equiv. by apply elements_empty_inv. Qed.

(** * max and min over sets *)
Lemma max_of_ub f S x : x ∈ S → f x ≤ max_of f S.
Proof.
  intros Hx. unfold max_of. apply elem_of_elements in Hx.
  induction (elements S) as [|y l IH]; [by apply elem_of_nil in Hx|]. cbn.
  apply elem_of_cons in Hx as [->|Hx]; [lia|]. specialize (IH Hx). lia.
Qed.
Lemma max_of_in f S : S ≠ ∅ → ∃ x, x ∈ S ∧ max_of f S = f x.
Proof.
  intros HS. pose proof (elements_nonempty S HS) as He.
  assert (H : ∀ l, l ≠ [] → ∃ x, x ∈ l ∧ foldr max 0 (f <$> l) = f x).
  { induction l as [|y l IH]; [done|]. intros _. cbn. destruct l as [|z l].
    - exists y. split; [apply elem_of_list_here|]. cbn. lia.
    - destruct IH as (x & Hx & He'); [done|]. rewrite He'.
      destruct (decide (f x ≤ f y)).
      + exists y. split; [apply elem_of_list_here|lia].
      + exists x. split; [by apply elem_of_list_further|lia]. }
  destruct (H _ He) as (x & Hx & Heq). exists x. by rewrite <- elem_of_elements.
Qed.
Lemma max_of_spec f S n :
  S ≠ ∅ → max_of f S = n ↔ (∃ x, x ∈ S ∧ f x = n) ∧ ∀ x, x ∈ S → f x ≤ n.
Proof.
  intros HS. destruct (max_of_in f S HS) as (x & Hx & Heq). split.
  - intros <-. split; [by exists x|]. intros y. apply max_of_ub.
  - intros [(y & Hy & <-) Hu]. pose proof (max_of_ub f S y Hy). rewrite Heq in *.
    specialize (Hu x Hx). lia.
Qed.
Lemma max_of_ext f g S : (∀ x, x ∈ S → f x = g x) → max_of f S = max_of g S.
Proof.
  intros H. unfold max_of. f_equal. apply list_fmap_ext. intros i x Hx.
  apply H, elem_of_elements. by eapply elem_of_list_lookup_2.
Qed.
Lemma foldr_min_lb x l : ∀ y, y = x ∨ y ∈ l → foldr min x l ≤ y.
Proof.
  induction l as [|z l IH]; intros y; cbn.
  - intros [->|Hy]; [done|by apply elem_of_nil in Hy].
  - intros [->|[->|Hy]%elem_of_cons]; [specialize (IH x (or_introl eq_refl)); lia|lia|].
    specialize (IH y (or_intror Hy)). lia.
Qed.
Lemma foldr_min_in x l : foldr min x l = x ∨ foldr min x l ∈ l.
Proof.
  induction l as [|z l IH]; cbn; [by left|].
  destruct (Nat.min_spec z (foldr min x l)) as [[_ ->]|[_ ->]].
  - right. apply elem_of_list_here.
  - destruct IH as [IH|IH]; [by left|right; by apply elem_of_list_further].
Qed.
Lemma min_of_lb f S x : x ∈ S → min_of f S ≤ f x.
Proof.
  intros Hx%elem_of_elements. unfold min_of.
  assert (H : f x ∈ f <$> elements S) by (apply elem_of_list_fmap; eauto).
  destruct (f <$> elements S) as [|y l]; [by apply elem_of_nil in H|].
  apply foldr_min_lb. by apply elem_of_cons in H.
Qed.
Lemma min_of_in f S : S ≠ ∅ → ∃ x, x ∈ S ∧ min_of f S = f x.
Proof.
  intros HS. pose proof (elements_nonempty S HS) as He.
  unfold min_of.
  assert (Hl : ∀ y, y ∈ f <$> elements S → ∃ x, x ∈ S ∧ y = f x).
  { intros y (x & -> & Hx%elem_of_elements)%elem_of_list_fmap. eauto. }
  destruct (f <$> elements S) as [|y l] eqn:E.
  { by apply fmap_nil_inv in E. }
  destruct (foldr_min_in y l) as [->|Hin]; apply Hl; [apply elem_of_list_here|].
  by apply elem_of_list_further.
Qed.
Lemma min_of_spec f S n :
  S ≠ ∅ → min_of f S = n ↔ (∃ x, x ∈ S ∧ f x = n) ∧ ∀ x, x ∈ S → n ≤ f x.
Proof.
  intros HS. destruct (min_of_in f S HS) as (x & Hx & Heq). split.
  - intros <-. split; [by exists x|]. intros y. apply min_of_lb.
  - intros [(y & Hy & <-) Hu]. pose proof (min_of_lb f S y Hy). rewrite Heq in *.
    specialize (Hu x Hx). lia.
Qed.
Lemma min_of_ext f g S : (∀ x, x ∈ S → f x = g x) → min_of f S = min_of g S.
Proof.
  intros H. unfold min_of. replace (g <$> elements S) with (f <$> elements S); [done|].
  apply list_fmap_ext. intros i x Hx.
  apply H, elem_of_elements. by eapply elem_of_list_lookup_2.
Qed.

(** * Intervals *)
Section order.
Context (h : heap) (HO : order_inv h).

Lemma ev_lt_spec a b : ev_lt h a b = true ↔ before h a b.
Proof. unfold ev_lt, before. apply bool_decide_eq_true. Qed.
Lemma ev_gt_spec a b : ev_gt h a b = true ↔ before h b a.
Proof. unfold ev_gt, before. apply bool_decide_eq_true. Qed.
Lemma ev_le_spec a b : ev_le h a b = true ↔ a = b ∨ before h a b.
Proof. unfold ev_le, before. by rewrite orb_true_iff, !bool_decide_eq_true. Qed.

Lemma Interval_spec a b x :
  x ∈ Interval h a b true ↔ (a = x ∨ before h a x) ∧ (x = b ∨ before h x b).
Proof using HO.
  unfold Interval. destruct (ev_le h a b) eqn:E; cbn [negb].
  - apply ev_le_spec in E. destruct (decide (a = b)) as [->|Hne].
    + rewrite elem_of_singleton. split; [intros ->; auto|].
      intros [[H1|H1] [H2|H2]]; try congruence. exfalso. by eapply (oi_asym h HO).
    + unfold PresentOrFuture, PresentOrPast, before.
      rewrite elem_of_intersection, !elem_of_union, !elem_of_singleton.
      rewrite (oi_conv h HO a x). clear. naive_solver.
  - split; [set_solver|]. intros [H1 H2]. exfalso.
    assert (ev_le h a b = true); [|congruence]. apply ev_le_spec.
    destruct H1 as [->|H1], H2 as [->|H2]; auto. right. by eapply (oi_trans h HO).
Qed.
Lemma Interval_open_spec a b x :
  a ≠ b → x ∈ Interval h a b false ↔ before h a x ∧ before h x b.
Proof using HO.
  intros Hne. unfold Interval. destruct (ev_le h a b) eqn:E; cbn [negb].
  - rewrite decide_False by done. unfold Future, Past, before.
    by rewrite elem_of_intersection, (oi_conv h HO a x).
  - split; [set_solver|]. intros [H1 H2]. exfalso.
    assert (ev_le h a b = true); [|congruence]. apply ev_le_spec.
    right. by eapply (oi_trans h HO).
Qed.
Lemma IntervalCard_size a b i : IntervalCard h a b i = size (Interval h a b i).
Proof using HO.
  unfold IntervalCard, Interval. destruct (ev_le h a b) eqn:E; cbn [negb]; [|by rewrite size_empty].
  destruct (decide (a = b)) as [->|Hne]; [by rewrite size_singleton|].
  destruct i; [|lia].
  apply ev_le_spec in E. destruct E as [E|Hab]; [done|].
  assert (Heq : PresentOrFuture h a ∩ PresentOrPast h b =
    ({[a]} : gset nat) ∪ ({[b]} : gset nat) ∪ (Future h a ∩ Past h b)).
  { unfold PresentOrFuture, PresentOrPast, Future, Past. apply set_eq. intros x.
    rewrite !elem_of_union, !elem_of_intersection, !elem_of_union, !elem_of_singleton.
    pose proof (proj1 (oi_conv h HO a b) Hab). unfold before in Hab. naive_solver. }
  rewrite Heq. clear Heq. rewrite (size_union ({[a]} ∪ {[b]}) _); [rewrite (size_union {[a]} _)|].
  - rewrite !size_singleton. lia.
  - set_solver.
  - unfold Future, Past. intros x Hx (H1 & H2)%elem_of_intersection.
    apply elem_of_union in Hx as [->%elem_of_singleton| ->%elem_of_singleton].
    + by apply (oi_irr' h HO a). + by apply (oi_irr h HO b).
Qed.
Lemma IntervalCard_lt2 a b : before h a b → 2 ≤ IntervalCard h a b true.
Proof using HO.
  intros Hab. unfold IntervalCard.
  replace (ev_le h a b) with true by (symmetry; apply ev_le_spec; auto). cbn [negb].
  rewrite decide_False; [lia|]. intros ->. by apply (oi_irr h HO b).
Qed.
Lemma IntervalCard_covers a b :
  before h a b → IntervalCard h a b true = 2 ↔ covers (before h) a b.
Proof using HO.
  intros Hab. unfold IntervalCard.
  replace (ev_le h a b) with true by (symmetry; apply ev_le_spec; auto). cbn [negb].
  rewrite decide_False; [|intros ->; by apply (oi_irr h HO b)].
  unfold covers. split.
  - intros He. split; [done|]. intros (c & H1 & H2).
    assert (Hz : size (Future h a ∩ Past h b) = 0) by lia.
    apply size_empty_inv in Hz. apply (not_elem_of_empty (C:=gset nat) c), (Hz c).
    unfold Future, Past. apply elem_of_intersection. by rewrite <- (oi_conv h HO).
  - intros [_ Hn]. replace (Future h a ∩ Past h b) with (∅ : gset nat); [by rewrite size_empty|].
    symmetry. apply set_eq. intros c. split; [|set_solver].
    intros [H1 H2]%elem_of_intersection. destruct Hn. exists c.
    split; [by apply (oi_conv h HO)|done].
Qed.
Lemma IntervalCard_grow a x y :
  before h a x → before h x y → IntervalCard h a x true < IntervalCard h a y true.
Proof using HO.
  intros Hax Hxy. rewrite !IntervalCard_size. apply subset_size. split.
  - intros z. rewrite !Interval_spec. intros [H1 [->|H2]]; split; auto.
    right. by eapply (oi_trans h HO).
  - intros Hs. assert (Hy : y ∈ Interval h a x true).
    { apply Hs. apply Interval_spec. split; [right; by eapply (oi_trans h HO)|by left]. }
    apply Interval_spec in Hy as [_ [->|Hy]]; [by apply (oi_irr h HO x)|by eapply (oi_asym h HO)].
Qed.

(** * SmallestIntervalCard *)
Lemma min_pairs_ext (f g : nat → nat → nat) (A B : gset nat) :
  (∀ x y, x ∈ A → y ∈ B → f x y = g x y) →
  min_of (λ x, min_of (f x) B) A = min_of (λ x, min_of (g x) B) A.
Proof. intros H. apply min_of_ext. intros x Hx. apply min_of_ext. intros y Hy. by apply H. Qed.

Lemma SIC_sym C a b s i :
  SmallestIntervalCard h C a b s i = SmallestIntervalCard h C b a s i.
Proof using HO.
  unfold SmallestIntervalCard.
  destruct (ev_gt h a b) eqn:E1.
  - assert (E2 : ev_gt h b a = false).
    { apply not_true_iff_false. intros H. apply ev_gt_spec in E1, H. by eapply (oi_asym h HO). }
    by rewrite E2.
  - destruct (ev_gt h b a) eqn:E2; [done|].
    assert (Heq : Past h a ∩ Past h b = Past h b ∩ Past h a) by set_solver.
    assert (Heq' : Future h a ∩ Future h b = Future h b ∩ Future h a) by set_solver.
    rewrite Heq, Heq'. clear Heq Heq'.
    assert (Hle : ev_le h a b = ev_le h b a).
    { apply not_true_iff_false in E1, E2. rewrite ev_gt_spec in E1, E2.
      apply eq_true_iff_eq. rewrite !ev_le_spec. naive_solver. }
    rewrite <- Hle. destruct (ev_le h a b) eqn:E3; [|done].
    apply ev_le_spec in E3. apply not_true_iff_false in E2. rewrite ev_gt_spec in E2.
    destruct E3 as [->|E3]; done.
Qed.
End order.
