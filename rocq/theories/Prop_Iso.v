(** Theorems about causets with the same order: what a query answers depends only on the order of
    the causet, not on the event objects that carry it, on other events in the store or on the
    way the causet was made (C92). *)
From Verif Require Import Base Spec EventModel EventFacts DisjoinFacts History HistoryFacts PathFacts RankFacts
  EventProps Prop_Event CausetModel CausetFacts IntervalFacts SortFacts LayerFacts Prop_Causet Prop_CausetMore
  PathsModel Prop_Paths DistModel Prop_Dist GradedFacts.

(** ** Specification *)
(** The causet [C1] in the store [h1] and the causet [C2] in the store [h2] have the same order; [f]
    says which event of [C2] stands for which event of [C1]. *)
Record same_causet (f : nat → nat) (h1 : heap) (C1 : gset nat) (h2 : heap) (C2 : gset nat) : Prop := SameCauset {
  sc_inj : ∀ a b, a ∈ C1 → b ∈ C1 → f a = f b → a = b;
  sc_onto : ∀ y, y ∈ C2 ↔ ∃ x, x ∈ C1 ∧ f x = y;
  sc_before : ∀ a b, a ∈ C1 → b ∈ C1 → before h1 a b ↔ before h2 (f a) (f b);
  sc_closed1 : closed h1 C1;
  sc_closed2 : closed h2 C2
}.
(** The events of [C2] that stand for the events of [X]. *)
Definition image (f : nat → nat) (X : gset nat) : gset nat := set_map f X.

(** The list of the events that stand for the events of a list. *)
Definition image_list (f : nat → nat) (l : list nat) : list nat := f <$> l.

Lemma image_elem f X y : y ∈ image f X ↔ ∃ x, x ∈ X ∧ f x = y.
Proof. unfold image. rewrite elem_of_map. naive_solver. Qed.
Lemma image_union f X Y : image f (X ∪ Y) = image f X ∪ image f Y.
Proof. unfold image. apply set_map_union_L. Qed.
Lemma image_single f x : image f {[x]} = {[f x]}.
Proof. unfold image. apply set_map_singleton_L. Qed.
Lemma image_empty f : image f ∅ = ∅.
Proof. unfold image. apply set_map_empty. Qed.
Lemma image_empty_iff f X : image f X = ∅ ↔ X = ∅.
Proof.
  split; [|intros ->; apply image_empty]. intros H. apply elem_of_equiv_empty_L. intros x Hx.
  assert (f x ∈ image f X) by (apply image_elem; eauto). rewrite H in *. set_solver.
Qed.
Lemma image_filter (f : nat → nat) (P Q : nat → Prop) `{∀ x, Decision (P x), ∀ x, Decision (Q x)} X :
  (∀ x, x ∈ X → P x ↔ Q (f x)) → filter Q (image f X) = image f (filter P X).
Proof.
  intros HPQ. apply set_eq. intros y. rewrite elem_of_filter, !image_elem. setoid_rewrite elem_of_filter. split.
  - intros (HQ & x & Hx & <-). exists x. by rewrite HPQ.
  - intros (x & (HP & Hx) & <-). split; [by apply HPQ|eauto].
Qed.
Lemma image_max f (g1 g2 : nat → nat) X : (∀ x, x ∈ X → g2 (f x) = g1 x) → max_of g2 (image f X) = max_of g1 X.
Proof.
  intros Hg. destruct (decide (X = ∅)) as [->|HX]; [by rewrite image_empty|].
  assert (image f X ≠ ∅) by by rewrite image_empty_iff. apply max_of_spec; [done|].
  destruct (max_of_in g1 X HX) as (x & Hx & Ex). split.
  - exists (f x). split; [apply image_elem; eauto|]. by rewrite Hg.
  - intros y (z & Hz & <-)%image_elem. rewrite Hg by done. by apply max_of_ub.
Qed.
Lemma image_min f (g1 g2 : nat → nat) X : (∀ x, x ∈ X → g2 (f x) = g1 x) → min_of g2 (image f X) = min_of g1 X.
Proof.
  intros Hg. destruct (decide (X = ∅)) as [->|HX]; [by rewrite image_empty|].
  assert (image f X ≠ ∅) by by rewrite image_empty_iff. apply min_of_spec; [done|].
  destruct (min_of_in g1 X HX) as (x & Hx & Ex). split.
  - exists (f x). split; [apply image_elem; eauto|]. by rewrite Hg.
  - intros y (z & Hz & <-)%image_elem. rewrite Hg by done. by apply min_of_lb.
Qed.
Lemma nodup_image (f : nat → nat) (l : list nat) : (∀ a b, a ∈ l → b ∈ l → f a = f b → a = b) → NoDup l → NoDup (f <$> l).
Proof.
  induction l as [|x l IH]; intros Hi Hn; [apply NoDup_nil_2|]. apply NoDup_cons in Hn as [Hx Hn]. rewrite fmap_cons. apply NoDup_cons. split.
  - intros (y & E & Hy)%elem_of_list_fmap. assert (x = y) as ->; [|done]. apply Hi; [apply elem_of_list_here|by apply elem_of_list_further|done].
  - apply IH; [|done]. intros a b Ha Hb. apply Hi; by apply elem_of_list_further.
Qed.

Section same.
Context (f : nat → nat) (h1 : heap) (C1 : gset nat) (h2 : heap) (C2 : gset nat) (HS : same_causet f h1 C1 h2 C2).
Context (HO1 : order_inv h1) (HL1 : link_inv h1) (HO2 : order_inv h2) (HL2 : link_inv h2).
Notation I := (image f).

Lemma same_in X x : X ⊆ C1 → x ∈ C1 → f x ∈ I X ↔ x ∈ X.
Proof using HS HO1 HL1 HO2 HL2.
  intros HX Hx. rewrite image_elem. split; [|eauto]. intros (y & Hy & E). assert (y = x) as <-; [|done].
  apply (sc_inj _ _ _ _ _ HS); auto.
Qed.
Lemma same_all : I C1 = C2.
Proof using HS HO1 HL1 HO2 HL2. apply set_eq. intros y. by rewrite image_elem, (sc_onto _ _ _ _ _ HS). Qed.
Lemma same_sub X : X ⊆ C1 → I X ⊆ C2.
Proof using HS HO1 HL1 HO2 HL2. intros HX y (x & Hx & <-)%image_elem. apply (sc_onto _ _ _ _ _ HS). eauto. Qed.
Lemma same_mem x : x ∈ C1 → f x ∈ C2.
Proof using HS HO1 HL1 HO2 HL2. intros Hx. apply (sc_onto _ _ _ _ _ HS). eauto. Qed.
Lemma same_inter X Y : X ⊆ C1 → Y ⊆ C1 → I X ∩ I Y = I (X ∩ Y).
Proof using HS HO1 HL1 HO2 HL2.
  intros HX HY. apply set_eq. intros y. rewrite elem_of_intersection, !image_elem. split.
  - intros [(x & Hx & <-) (z & Hz & E)]. exists x. split; [|done]. apply elem_of_intersection. split; [done|].
    by rewrite <- (sc_inj _ _ _ _ _ HS z x (HY _ Hz) (HX _ Hx) E).
  - intros (x & [Hx Hy]%elem_of_intersection & <-). split; eauto.
Qed.
Lemma same_diff X Y : X ⊆ C1 → Y ⊆ C1 → I X ∖ I Y = I (X ∖ Y).
Proof using HS HO1 HL1 HO2 HL2.
  intros HX HY. apply set_eq. intros y. rewrite elem_of_difference, !image_elem. split.
  - intros [(x & Hx & <-) Hn]. exists x. split; [|done]. apply elem_of_difference. split; [done|]. eauto.
  - intros (x & [Hx Hy]%elem_of_difference & <-). split; [eauto|]. intros (z & Hz & E).
    apply Hy. by rewrite <- (sc_inj _ _ _ _ _ HS z x (HY _ Hz) (HX _ Hx) E).
Qed.
Lemma same_elements X : X ⊆ C1 → elements (I X) ≡ₚ f <$> elements X.
Proof using HS HO1 HL1 HO2 HL2.
  intros HX. apply NoDup_Permutation; [apply NoDup_elements| |].
  - apply nodup_image; [|apply NoDup_elements]. intros a b Ha%elem_of_elements Hb%elem_of_elements. apply (sc_inj _ _ _ _ _ HS); auto.
  - intros y. rewrite elem_of_elements, image_elem, elem_of_list_fmap. setoid_rewrite elem_of_elements. naive_solver.
Qed.
Lemma same_size X : X ⊆ C1 → size (I X) = size X.
Proof using HS HO1 HL1 HO2 HL2.
  intros HX. unfold size, set_size. pose proof (Permutation_length (same_elements X HX)) as H. rewrite fmap_length in H. exact H.
Qed.
Lemma past_sub a : a ∈ C1 → Past h1 a ⊆ C1.
Proof using HS HO1 HL1 HO2 HL2. intros Ha. exact (proj1 (sc_closed1 _ _ _ _ _ HS a Ha)). Qed.
Lemma future_sub a : a ∈ C1 → Future h1 a ⊆ C1.
Proof using HS HO1 HL1 HO2 HL2. intros Ha. exact (proj2 (sc_closed1 _ _ _ _ _ HS a Ha)). Qed.
Lemma closed2_past b y : b ∈ C2 → before h2 y b → y ∈ C2.
Proof using HS HO1 HL1 HO2 HL2. intros Hb Hy. exact (proj1 (sc_closed2 _ _ _ _ _ HS b Hb) y Hy). Qed.
Lemma closed2_future b y : b ∈ C2 → y ∈ succ h2 b → y ∈ C2.
Proof using HS HO1 HL1 HO2 HL2. intros Hb Hy. exact (proj2 (sc_closed2 _ _ _ _ _ HS b Hb) y Hy). Qed.
Lemma same_Past a : a ∈ C1 → Past h2 (f a) = I (Past h1 a).
Proof using HS HO1 HL1 HO2 HL2.
  intros Ha. apply set_eq. intros y. rewrite image_elem. split.
  - intros Hy. assert (Hc : y ∈ C2) by (apply (closed2_past (f a)); [by apply same_mem|done]).
    apply (sc_onto _ _ _ _ _ HS) in Hc as (x & Hx & <-). exists x. split; [|done]. by apply (sc_before _ _ _ _ _ HS x a).
  - intros (x & Hx & <-). apply (sc_before _ _ _ _ _ HS x a); [|done|done]. by apply (past_sub a).
Qed.
Lemma same_Future a : a ∈ C1 → Future h2 (f a) = I (Future h1 a).
Proof using HS HO1 HL1 HO2 HL2.
  intros Ha. apply set_eq. intros y. rewrite image_elem. split.
  - intros Hy. assert (Hc : y ∈ C2) by (apply (closed2_future (f a)); [by apply same_mem|done]).
    apply (sc_onto _ _ _ _ _ HS) in Hc as (x & Hx & <-). exists x. split; [|done].
    apply (oi_conv _ HO1). apply (sc_before _ _ _ _ _ HS a x); [done|done|]. by apply (oi_conv _ HO2).
  - intros (x & Hx & <-). apply (oi_conv _ HO2). apply (sc_before _ _ _ _ _ HS a x); [done|by apply (future_sub a)|]. by apply (oi_conv _ HO1).
Qed.
Lemma same_covers a b : a ∈ C1 → b ∈ C1 → covers (before h1) a b ↔ covers (before h2) (f a) (f b).
Proof using HS HO1 HL1 HO2 HL2.
  intros Ha Hb. unfold covers. rewrite <- (sc_before _ _ _ _ _ HS a b) by done. apply and_iff_compat_l. split; intros Hn (c & H1 & H2); apply Hn.
  - assert (Hc : c ∈ C2) by (apply (closed2_past (f b)); [by apply same_mem|done]).
    apply (sc_onto _ _ _ _ _ HS) in Hc as (x & Hx & <-). exists x. by rewrite !(sc_before _ _ _ _ _ HS).
  - assert (Hc : c ∈ C1) by (by apply (past_sub b)). exists (f c). by rewrite <- !(sc_before _ _ _ _ _ HS).
Qed.
Lemma linkpast_sub a : a ∈ C1 → LinkPast h1 a ⊆ C1.
Proof using HS HO1 HL1 HO2 HL2. intros Ha x Hx%(LinkPast_spec h1 HO1 HL1). apply (past_sub a Ha), Hx. Qed.
Lemma linkfuture_sub a : a ∈ C1 → LinkFuture h1 a ⊆ C1.
Proof using HS HO1 HL1 HO2 HL2. intros Ha x Hx%(LinkFuture_spec h1 HO1 HL1). apply (future_sub a Ha), (oi_conv _ HO1), Hx. Qed.
Lemma same_LinkPast a : a ∈ C1 → LinkPast h2 (f a) = I (LinkPast h1 a).
Proof using HS HO1 HL1 HO2 HL2.
  intros Ha. apply set_eq. intros y. rewrite image_elem, (LinkPast_spec h2 HO2 HL2). setoid_rewrite (LinkPast_spec h1 HO1 HL1). split.
  - intros Hy. assert (Hc : y ∈ C2) by (apply (closed2_past (f a)); [by apply same_mem|apply Hy]).
    apply (sc_onto _ _ _ _ _ HS) in Hc as (x & Hx & <-). exists x. split; [|done]. by apply same_covers.
  - intros (x & Hx & <-). apply same_covers; [|done|done]. apply (past_sub a Ha), Hx.
Qed.
Lemma same_LinkFuture a : a ∈ C1 → LinkFuture h2 (f a) = I (LinkFuture h1 a).
Proof using HS HO1 HL1 HO2 HL2.
  intros Ha. apply set_eq. intros y. rewrite image_elem, (LinkFuture_spec h2 HO2 HL2). setoid_rewrite (LinkFuture_spec h1 HO1 HL1). split.
  - intros Hy. assert (Hc : y ∈ C2) by (apply (closed2_future (f a)); [by apply same_mem|apply (oi_conv _ HO2), Hy]).
    apply (sc_onto _ _ _ _ _ HS) in Hc as (x & Hx & <-). exists x. split; [|done]. by apply same_covers.
  - intros (x & Hx & <-). apply same_covers; [done| |done]. apply (future_sub a Ha), (oi_conv _ HO1), Hx.
Qed.
Lemma same_lt a b : a ∈ C1 → b ∈ C1 → ev_lt h2 (f a) (f b) = ev_lt h1 a b.
Proof using HS HO1 HL1 HO2 HL2. intros Ha Hb. apply bool_decide_ext. symmetry. by apply (sc_before _ _ _ _ _ HS). Qed.
Lemma same_eq a b : a ∈ C1 → b ∈ C1 → f a = f b ↔ a = b.
Proof using HS HO1 HL1 HO2 HL2. intros Ha Hb. split; [by apply (sc_inj _ _ _ _ _ HS)|by intros ->]. Qed.
Lemma same_le a b : a ∈ C1 → b ∈ C1 → ev_le h2 (f a) (f b) = ev_le h1 a b.
Proof using HS HO1 HL1 HO2 HL2.
  intros Ha Hb. unfold ev_le. f_equal; apply bool_decide_ext; [by apply same_eq|symmetry; by apply (sc_before _ _ _ _ _ HS)].
Qed.
Lemma same_Cone a : a ∈ C1 → Cone h2 (f a) = I (Cone h1 a).
Proof using HS HO1 HL1 HO2 HL2.
  intros Ha. unfold Cone. pose proof (same_Past a Ha) as HP. pose proof (same_Future a Ha) as HF. unfold Past, Future in HP, HF.
  by rewrite HP, HF, !image_union, image_single.
Qed.
Lemma cone_sub a : a ∈ C1 → Cone h1 a ⊆ C1.
Proof using HS HO1 HL1 HO2 HL2. intros Ha. unfold Cone. pose proof (past_sub a Ha). pose proof (future_sub a Ha). unfold Past, Future in *. set_solver. Qed.
Lemma same_link_path a b l : a ∈ C1 → b ∈ C1 → (∀ x, x ∈ l → x ∈ C1) →
  link_path (before h1) a b l ↔ link_path (before h2) (f a) (f b) (f <$> l).
Proof using HS HO1 HL1 HO2 HL2.
  intros Ha Hb Hl. unfold link_path.
  assert (Hc : consecutive (covers (before h1)) l ↔ consecutive (covers (before h2)) (f <$> l)).
  { clear Ha Hb. induction l as [|x l IH]; [done|]. cbn [consecutive fmap list_fmap]. rewrite IH by (intros; apply Hl; by apply elem_of_list_further).
    apply and_iff_compat_r. destruct l as [|y l]; [done|]. cbn [fmap list_fmap]. apply same_covers; apply Hl; [apply elem_of_list_here|apply elem_of_list_further, elem_of_list_here]. }
  rewrite Hc, fmap_last. assert (Hh : head l = Some a ↔ head (f <$> l) = Some (f a)).
  { destruct l as [|x l]; [done|]. cbn. split; [by intros [= ->]|]. intros [= E]. f_equal. apply (sc_inj _ _ _ _ _ HS); [apply Hl, elem_of_list_here|done|done]. }
  assert (Ht : last l = Some b ↔ f <$> last l = Some (f b)).
  { destruct (last l) as [x|] eqn:E; [|done]. cbn. split; [by intros [= ->]|]. intros [= E']. f_equal.
    apply (sc_inj _ _ _ _ _ HS); [|done|done]. apply Hl. by apply last_Some_elem_of. }
  by rewrite Hh, Ht.
Qed.

(** *** Sums, tests and filters over the events of a set. *)
Lemma same_fmap {A} (g1 g2 : nat → A) (l : list nat) : (∀ x, x ∈ l → g2 (f x) = g1 x) → g2 <$> (f <$> l) = g1 <$> l.
Proof using HS HO1 HL1 HO2 HL2.
  induction l as [|x l IH]; [done|]. intros Hg. cbn [fmap list_fmap]. f_equal; [apply Hg, elem_of_list_here|].
  apply IH. intros y Hy. by apply Hg, elem_of_list_further.
Qed.
Lemma same_sum (g1 g2 : nat → nat) X : X ⊆ C1 → (∀ x, x ∈ X → g2 (f x) = g1 x) →
  sum_list (g2 <$> elements (I X)) = sum_list (g1 <$> elements X).
Proof using HS HO1 HL1 HO2 HL2.
  intros HX Hg. rewrite (same_elements X HX). by rewrite (same_fmap g1 g2) by (intros x Hx%elem_of_elements; by apply Hg).
Qed.
Lemma same_forallb (g1 g2 : nat → bool) X : (∀ x, x ∈ X → g2 (f x) = g1 x) →
  forallb g2 (elements (I X)) = forallb g1 (elements X).
Proof using HS HO1 HL1 HO2 HL2.
  intros Hg. apply eq_true_iff_eq. rewrite !forallb_forall. split; intros H x Hx%elem_of_list_In%elem_of_elements.
  - rewrite <- Hg by done. apply H. apply elem_of_list_In, elem_of_elements, image_elem. eauto.
  - apply image_elem in Hx as (y & Hy & <-). rewrite Hg by done. by apply H, elem_of_list_In, elem_of_elements.
Qed.
Lemma same_LinkCone a : a ∈ C1 → snd (get_LinkCone h2 (f a)) = I (snd (get_LinkCone h1 a)) ∧ snd (get_LinkCone h1 a) ⊆ C1.
Proof using HS HO1 HL1 HO2 HL2.
  intros Ha. rewrite !get_LinkCone_value by (by apply link_inv_paired).
  rewrite same_LinkPast, same_LinkFuture, image_union by done. split; [done|].
  pose proof (linkpast_sub a Ha). pose proof (linkfuture_sub a Ha). set_solver.
Qed.
Lemma same_Spacelike a X : a ∈ C1 → X ⊆ C1 → Spacelike h2 (f a) (I X) = I (Spacelike h1 a X).
Proof using HS HO1 HL1 HO2 HL2. intros Ha HX. unfold Spacelike. rewrite same_Cone by done. apply same_diff; [done|by apply cone_sub]. Qed.
Lemma same_SpacelikeCard a X : a ∈ C1 → X ⊆ C1 → SpacelikeCard h2 (f a) (I X) = SpacelikeCard h1 a X.
Proof using HS HO1 HL1 HO2 HL2.
  intros Ha HX. unfold SpacelikeCard. pose proof (same_Past a Ha) as HP. pose proof (same_Future a Ha) as HF. unfold Past, Future in HP, HF.
  pose proof (past_sub a Ha) as Hp. pose proof (future_sub a Ha) as Hf. unfold Past, Future in Hp, Hf.
  assert (E : size (I X ∖ prec h2 (f a) ∖ succ h2 (f a)) = size (X ∖ prec h1 a ∖ succ h1 a)).
  { rewrite HP, HF. rewrite same_diff by done. rewrite same_diff by (clear -HX Hf; set_solver). apply same_size. clear -HX; set_solver. }
  rewrite E. destruct (decide (a ∈ X)) as [H|H], (decide (f a ∈ I X)) as [H'|H']; try done.
  - exfalso. apply H'. by apply (same_in X a).
  - exfalso. apply H. by apply (same_in X a).
Qed.
Lemma same_isLink a b : a ∈ C1 → b ∈ C1 → isLink h2 (f a) (f b) = isLink h1 a b.
Proof using HS HO1 HL1 HO2 HL2.
  intros Ha Hb. unfold isLink. pose proof (same_Past b Hb) as HP. pose proof (same_Future a Ha) as HF. unfold Past, Future in HP, HF.
  rewrite HP, HF, same_inter by (apply future_sub || apply past_sub; done). apply bool_decide_ext. apply image_empty_iff.
Qed.
Lemma same_path_in a b l : a ∈ C1 → link_path (before h1) a b l → ∀ x, x ∈ l → x ∈ C1.
Proof using HS HO1 HL1 HO2 HL2.
  intros Ha (Hh & _ & Hl). revert a Ha Hh. induction l as [|x l IH]; intros a Ha Hh y; [by intros ?%elem_of_nil|]. injection Hh as <-.
  destruct Hl as [Hc Hl]. intros [->|Hy]%elem_of_cons; [done|]. destruct l as [|z l]; [by apply elem_of_nil in Hy|].
  apply (IH Hl z); [|done|done]. destruct Hc as [Hc _]. apply (future_sub x Ha). by apply (oi_conv _ HO1).
Qed.
Lemma same_path_in2 b c l : b ∈ C2 → link_path (before h2) b c l → ∀ x, x ∈ l → x ∈ C2.
Proof using HS HO1 HL1 HO2 HL2.
  intros Ha (Hh & _ & Hl). revert b Ha Hh. induction l as [|x l IH]; intros a Ha Hh y; [by intros ?%elem_of_nil|]. injection Hh as <-.
  destruct Hl as [Hc Hl]. intros [->|Hy]%elem_of_cons; [done|]. destruct l as [|z l]; [by apply elem_of_nil in Hy|].
  apply (IH Hl z); [|done|done]. destruct Hc as [Hc _]. apply (closed2_future x z Ha). by apply (oi_conv _ HO2).
Qed.
Lemma same_list_back (l2 : list nat) : (∀ y, y ∈ l2 → y ∈ C2) → ∃ l, l2 = f <$> l ∧ ∀ x, x ∈ l → x ∈ C1.
Proof using HS HO1 HL1 HO2 HL2.
  induction l2 as [|y l2 IH]; intros H; [exists []; split; [done|by intros ? ?%elem_of_nil]|].
  destruct IH as (l & -> & Hl); [intros z Hz; apply H; by apply elem_of_list_further|].
  assert (Hy : y ∈ C2) by apply H, elem_of_list_here. apply (sc_onto _ _ _ _ _ HS) in Hy as (x & Hx & <-).
  exists (x :: l). split; [done|]. by intros z [->|Hz]%elem_of_cons; [|apply Hl].
Qed.
Lemma same_path a b l : a ∈ C1 → b ∈ C1 → link_path (before h1) a b l → link_path (before h2) (f a) (f b) (f <$> l).
Proof using HS HO1 HL1 HO2 HL2. intros Ha Hb Hl. apply same_link_path; [done|done| |done]. by apply (same_path_in a b). Qed.
Lemma same_path_back a b l2 : a ∈ C1 → b ∈ C1 → link_path (before h2) (f a) (f b) l2 →
  ∃ l, l2 = f <$> l ∧ link_path (before h1) a b l.
Proof using HS HO1 HL1 HO2 HL2.
  intros Ha Hb Hl. destruct (same_list_back l2) as (l & -> & Hc).
  { apply (same_path_in2 (f a) (f b)); [by apply same_mem|done]. }
  exists l. split; [done|]. by apply same_link_path in Hl.
Qed.
Lemma same_Rank it1 it2 a b : iter_ok it1 → iter_ok it2 → a ∈ C1 → b ∈ C1 → Rank it2 h2 (f a) (f b) = Rank it1 h1 a b.
Proof using HS HO1 HL1 HO2 HL2.
  intros Hi1 Hi2 Ha Hb. destruct (C10_Rank it1 h1 a b Hi1 HO1 HL1) as (N1 & S1 & E1).
  destruct (C10_Rank it2 h2 (f a) (f b) Hi2 HO2 HL2) as (N2 & S2 & E2).
  destruct (Rank it1 h1 a b) as [[n|]|e] eqn:E; [| |by destruct (E1 e)].
  - apply S2. destruct (proj1 (S1 n) eq_refl) as ((l & Hl & El) & Hmin). split.
    + exists (f <$> l). rewrite fmap_length. split; [by apply same_path|done].
    + intros l2 Hl2. destruct (same_path_back a b l2 Ha Hb Hl2) as (l' & -> & Hl'). rewrite fmap_length. by apply Hmin.
  - apply N2. rewrite same_le by done. by apply N1.
Qed.
(** *** Cones of sets, intervals. *)
Lemma same_PastOf X p q : X ⊆ C1 → PastOf h2 (I X) p q = I (PastOf h1 X p q) ∧ PastOf h1 X p q ⊆ C1.
Proof using HS HO1 HL1 HO2 HL2.
  intros HX. destruct q.
  - destruct (C32_cones h1 C1 X p 0 HO1) as (_ & _ & _ & _ & -> & _ & _).
    destruct (C32_cones h2 C2 (I X) p 0 HO2) as (_ & _ & _ & _ & -> & _ & _). rewrite image_empty. split; [done|set_solver].
  - split.
    + apply set_eq. intros y. rewrite PastOf_spec, (image_elem f (PastOf h1 X p false)). setoid_rewrite PastOf_spec. split.
      * intros [(e & He & Hy)|[Hp (x & Hx & <-)%image_elem]]; [|exists x; split; [right; done|done]].
        apply image_elem in He as (e0 & He & <-). change (y ∈ Past h2 (f e0)) in Hy. rewrite same_Past in Hy by auto.
        apply image_elem in Hy as (x & Hx & <-). exists x. split; [left; eauto|done].
      * intros (x & [(e & He & Hx)|[Hp Hx]] & <-); [left|right; split; [done|apply image_elem; eauto]].
        exists (f e). split; [apply image_elem; eauto|]. change (f x ∈ Past h2 (f e)). rewrite same_Past by auto. apply image_elem; eauto.
    + intros x [(e & He & Hx)|[_ Hx]]%PastOf_spec; [by apply (past_sub e); [apply HX|]|auto].
Qed.
Lemma same_FutureOf X p q : X ⊆ C1 → FutureOf h2 (I X) p q = I (FutureOf h1 X p q) ∧ FutureOf h1 X p q ⊆ C1.
Proof using HS HO1 HL1 HO2 HL2.
  intros HX. destruct q.
  - destruct (C32_cones h1 C1 X p 0 HO1) as (_ & _ & _ & _ & _ & -> & _).
    destruct (C32_cones h2 C2 (I X) p 0 HO2) as (_ & _ & _ & _ & _ & -> & _). rewrite image_empty. split; [done|set_solver].
  - split.
    + apply set_eq. intros y. rewrite FutureOf_spec, (image_elem f (FutureOf h1 X p false)). setoid_rewrite FutureOf_spec. split.
      * intros [(e & He & Hy)|[Hp (x & Hx & <-)%image_elem]]; [|exists x; split; [right; done|done]].
        apply image_elem in He as (e0 & He & <-). change (y ∈ Future h2 (f e0)) in Hy. rewrite same_Future in Hy by auto.
        apply image_elem in Hy as (x & Hx & <-). exists x. split; [left; eauto|done].
      * intros (x & [(e & He & Hx)|[Hp Hx]] & <-); [left|right; split; [done|apply image_elem; eauto]].
        exists (f e). split; [apply image_elem; eauto|]. change (f x ∈ Future h2 (f e)). rewrite same_Future by auto. apply image_elem; eauto.
    + intros x [(e & He & Hx)|[_ Hx]]%FutureOf_spec; [by apply (future_sub e); [apply HX|]|auto].
Qed.
Lemma ConeOf_halves h X p : ConeOf h X p false = PastOf h X p false ∪ FutureOf h X p false.
Proof using. apply set_eq. intros x. rewrite elem_of_union, ConeOf_spec, PastOf_spec, FutureOf_spec. naive_solver. Qed.
Lemma same_ConeOf X p q : X ⊆ C1 → ConeOf h2 (I X) p q = I (ConeOf h1 X p q) ∧ ConeOf h1 X p q ⊆ C1.
Proof using HS HO1 HL1 HO2 HL2.
  intros HX. destruct q.
  - destruct (C32_cones h1 C1 X p 0 HO1) as (_ & _ & _ & _ & _ & _ & ->).
    destruct (C32_cones h2 C2 (I X) p 0 HO2) as (_ & _ & _ & _ & _ & _ & ->). rewrite image_empty. split; [done|set_solver].
  - rewrite !ConeOf_halves, image_union. destruct (same_PastOf X p false HX) as [-> ?], (same_FutureOf X p false HX) as [-> ?].
    split; [done|set_solver].
Qed.
Lemma same_POF a : a ∈ C1 → PresentOrFuture h2 (f a) = I (PresentOrFuture h1 a) ∧ PresentOrFuture h1 a ⊆ C1.
Proof using HS HO1 HL1 HO2 HL2.
  intros Ha. unfold PresentOrFuture. pose proof (same_Future a Ha) as HF. pose proof (future_sub a Ha) as Hf. unfold Future in HF, Hf.
  rewrite HF, image_union, image_single. split; [done|set_solver].
Qed.
Lemma same_POP a : a ∈ C1 → PresentOrPast h2 (f a) = I (PresentOrPast h1 a) ∧ PresentOrPast h1 a ⊆ C1.
Proof using HS HO1 HL1 HO2 HL2.
  intros Ha. unfold PresentOrPast. pose proof (same_Past a Ha) as HF. pose proof (past_sub a Ha) as Hf. unfold Past in HF, Hf.
  rewrite HF, image_union, image_single. split; [done|set_solver].
Qed.
Lemma same_Interval a b i : a ∈ C1 → b ∈ C1 → Interval h2 (f a) (f b) i = I (Interval h1 a b i) ∧ Interval h1 a b i ⊆ C1.
Proof using HS HO1 HL1 HO2 HL2.
  intros Ha Hb. unfold Interval. rewrite same_le by done. destruct (ev_le h1 a b); cbn [negb]; [|rewrite image_empty; split; [done|set_solver]].
  destruct (decide (a = b)) as [->|Hne]; [rewrite decide_True by done; rewrite image_single; split; [done|set_solver]|].
  rewrite decide_False by (by rewrite same_eq).
  destruct (same_POF a Ha) as [-> ?], (same_POP b Hb) as [-> ?]. rewrite same_Future, same_Past by done.
  pose proof (future_sub a Ha). pose proof (past_sub b Hb).
  destruct i; (split; [by apply same_inter|set_solver]).
Qed.
Lemma same_IntervalCard a b i : a ∈ C1 → b ∈ C1 → IntervalCard h2 (f a) (f b) i = IntervalCard h1 a b i.
Proof using HS HO1 HL1 HO2 HL2.
  intros Ha Hb. destruct (C33_intervals h1 a b 0 HO1 HL1) as (_ & _ & -> & _). destruct (C33_intervals h2 (f a) (f b) 0 HO2 HL2) as (_ & _ & -> & _).
  destruct (same_Interval a b i Ha Hb) as [-> ?]. by apply same_size.
Qed.
Lemma same_Perimetral a b : a ∈ C1 → b ∈ C1 → PerimetralEvents h2 (f a) (f b) = I (PerimetralEvents h1 a b) ∧ PerimetralEvents h1 a b ⊆ C1.
Proof using HS HO1 HL1 HO2 HL2.
  intros Ha Hb. unfold PerimetralEvents. rewrite same_lt by done. destruct (ev_lt h1 a b); cbn [negb]; [|rewrite image_empty; split; [done|set_solver]].
  rewrite same_LinkFuture, same_LinkPast by done. pose proof (linkfuture_sub a Ha). pose proof (linkpast_sub b Hb).
  split; [by apply same_inter|set_solver].
Qed.
Lemma same_Internal a b : a ∈ C1 → b ∈ C1 → InternalEvents h2 (f a) (f b) = I (InternalEvents h1 a b) ∧ InternalEvents h1 a b ⊆ C1.
Proof using HS HO1 HL1 HO2 HL2.
  intros Ha Hb. unfold InternalEvents. rewrite same_lt by done. destruct (ev_lt h1 a b); cbn [negb]; [|rewrite image_empty; split; [done|set_solver]].
  destruct (same_Perimetral a b Ha Hb) as [-> ?]. rewrite same_Future, same_Past by done. pose proof (future_sub a Ha). pose proof (past_sub b Hb).
  rewrite same_inter by done. split; [apply same_diff; [set_solver|done]|set_solver].
Qed.

Lemma same_SpacelikeTo X : X ⊆ C1 → SpacelikeTo h2 C2 (I X) = I (SpacelikeTo h1 C1 X).
Proof using HS HO1 HL1 HO2 HL2. intros HX. unfold SpacelikeTo. destruct (same_ConeOf X true false HX) as [-> ?]. rewrite <- same_all. by apply same_diff. Qed.
(** *** Counts and tests. *)
Lemma same_LinkCount X : X ⊆ C1 →
  LinkCount h2 C2 None = LinkCount h1 C1 None ∧ LinkCount h2 C2 (Some (I X)) = LinkCount h1 C1 (Some X).
Proof using HS HO1 HL1 HO2 HL2.
  intros HX. unfold LinkCount. rewrite <- same_all. split; apply same_sum; [done| |done|].
  - intros x Hx. rewrite same_LinkPast by done. apply same_size. by apply linkpast_sub.
  - intros x Hx. rewrite same_LinkPast by auto. pose proof (linkpast_sub x (HX x Hx)).
    rewrite same_inter by done. apply same_size. set_solver.
Qed.
Lemma same_ConeCard a : a ∈ C1 → ConeCard h2 (f a) = ConeCard h1 a.
Proof using HS HO1 HL1 HO2 HL2.
  intros Ha. unfold ConeCard. pose proof (same_Past a Ha) as HP. pose proof (same_Future a Ha) as HF. unfold Past, Future in HP, HF.
  rewrite HP, HF, !same_size by (apply future_sub || apply past_sub; done). done.
Qed.
Lemma same_size_inter X Y : X ⊆ C1 → Y ⊆ C1 → size (I X ∩ I Y) = size (X ∩ Y).
Proof using HS HO1 HL1 HO2 HL2. intros HX HY. rewrite same_inter by done. apply same_size. set_solver. Qed.
Lemma same_isChain X : X ⊆ C1 → isChain h2 C2 None = isChain h1 C1 None ∧ isChain h2 C2 (Some (I X)) = isChain h1 C1 (Some X).
Proof using HS HO1 HL1 HO2 HL2.
  intros HX. unfold isChain. rewrite <- same_all. split; apply same_forallb; intros x Hx.
  - rewrite same_ConeCard, same_size by done. done.
  - rewrite same_Cone, same_size by auto. rewrite same_size_inter; [done|apply cone_sub; auto|done].
Qed.
Lemma same_isAntichain X : X ⊆ C1 →
  isAntichain h2 C2 None = isAntichain h1 C1 None ∧ isAntichain h2 C2 (Some (I X)) = isAntichain h1 C1 (Some X).
Proof using HS HO1 HL1 HO2 HL2.
  intros HX. unfold isAntichain. rewrite <- same_all. split; apply same_forallb; intros x Hx.
  - rewrite same_ConeCard by done. done.
  - rewrite same_Cone by auto. rewrite same_size_inter; [done|apply cone_sub; auto|done].
Qed.
Lemma path_loop_iff h T es : path_loop h T es 0 = true ↔
  (∀ e, e ∈ es → 1 ≤ size (LinkCone h e ∩ T) ≤ 2) ∧ length (filter (λ e, size (LinkCone h e ∩ T) = 1) es) ≤ 2.
Proof using.
  split; [|intros [H1 H2]; by apply path_loop_spec]. intros H. apply path_loop_true_inv in H as [H1 H2]. split; [done|].
  specialize (H2 ltac:(lia)). lia.
Qed.
Lemma same_isPath it1 it2 X : iter_ok it1 → iter_ok it2 → X ⊆ C1 →
  isPath it2 h2 C2 None = isPath it1 h1 C1 None ∧ isPath it2 h2 C2 (Some (I X)) = isPath it1 h1 C1 (Some X).
Proof using HS HO1 HL1 HO2 HL2.
  intros Hi1 Hi2 HX. unfold isPath. pose proof (same_size C1 ltac:(done)) as Es. rewrite same_all in Es. rewrite Es.
  destruct (same_isChain X HX) as [-> _]. split; [done|]. rewrite same_size by done. destruct (size X <=? 1); [done|].
  apply eq_true_iff_eq. rewrite !path_loop_iff.
  assert (Hc : ∀ x, x ∈ X → size (LinkCone h2 (f x) ∩ I X) = size (LinkCone h1 x ∩ X)).
  { intros x Hx. unfold LinkCone. destruct (same_LinkCone x (HX x Hx)) as [-> ?]. by apply same_size_inter. }
  assert (El : length (filter (λ e, size (LinkCone h2 e ∩ I X) = 1) (it2 9 (I X))) = length (filter (λ e, size (LinkCone h1 e ∩ X) = 1) (it1 9 X))).
  { rewrite (Hi1 9 X), (Hi2 9 (I X)), (same_elements X HX).
    assert (Hc' : ∀ x, x ∈ elements X → size (LinkCone h2 (f x) ∩ I X) = size (LinkCone h1 x ∩ X)) by (intros x Hx%elem_of_elements; auto).
    clear Hc. induction (elements X) as [|x l IH]; [done|]. cbn [fmap list_fmap]. pose proof (Hc' x (elem_of_list_here _ _)) as E.
    specialize (IH (λ y Hy, Hc' y (elem_of_list_further _ _ _ Hy))).
    destruct (decide (size (LinkCone h1 x ∩ X) = 1)) as [H|H].
    - rewrite !filter_cons_True by congruence. cbn. by rewrite IH.
    - rewrite !filter_cons_False by congruence. done. }
  rewrite El. apply and_iff_compat_r. split; intros H x Hx.
  - rewrite (Hi1 9 X) in Hx. apply elem_of_elements in Hx. rewrite <- Hc by done. apply H. rewrite (Hi2 9 (I X)). apply elem_of_elements, image_elem. eauto.
  - rewrite (Hi2 9 (I X)) in Hx. apply elem_of_elements, image_elem in Hx as (y & Hy & <-). rewrite Hc by done. apply H. rewrite (Hi1 9 X). by apply elem_of_elements.
Qed.
(** *** Infinities. *)
Lemma same_Infs X : X ⊆ C1 →
  PastInf h2 C2 = I (PastInf h1 C1) ∧ FutureInf h2 C2 = I (FutureInf h1 C1) ∧
  PastInfOf h2 (I X) = I (PastInfOf h1 X) ∧ FutureInfOf h2 (I X) = I (FutureInfOf h1 X).
Proof using HS HO1 HL1 HO2 HL2.
  intros HX. unfold PastInf, FutureInf, PastInfOf, FutureInfOf, PastCard, FutureCard. rewrite <- same_all. split_and!; apply image_filter; intros x Hx.
  - pose proof (same_Past x Hx) as E. unfold Past in E. rewrite E, same_size by (by apply past_sub). done.
  - pose proof (same_Future x Hx) as E. unfold Future in E. rewrite E, same_size by (by apply future_sub). done.
  - rewrite same_Past by auto. rewrite same_inter by (done || apply past_sub; auto). by rewrite image_empty_iff.
  - rewrite same_Future by auto. rewrite same_inter by (done || apply future_sub; auto). by rewrite image_empty_iff.
Qed.
Lemma same_InfCards X : X ⊆ C1 →
  PastInfCard h2 C2 = PastInfCard h1 C1 ∧ FutureInfCard h2 C2 = FutureInfCard h1 C1 ∧
  PastInfCardOf h2 (I X) = PastInfCardOf h1 X ∧ FutureInfCardOf h2 (I X) = FutureInfCardOf h1 X.
Proof using HS HO1 HL1 HO2 HL2.
  intros HX. destruct (C31_infinities h1 C1 X HO1) as (P1 & F1 & _ & -> & -> & -> & -> & _).
  destruct (C31_infinities h2 C2 (I X) HO2) as (_ & _ & _ & -> & -> & -> & -> & _).
  destruct (same_Infs X HX) as (-> & -> & -> & ->).
  assert (PastInf h1 C1 ⊆ C1) by (intros x [_ Hx]%elem_of_filter; done).
  assert (FutureInf h1 C1 ⊆ C1) by (intros x [_ Hx]%elem_of_filter; done).
  split_and!; apply same_size; [done|done| |]; intros x Hx; apply HX; [by apply P1|by apply F1].
Qed.
(** *** Layers and ranks. *)
Lemma same_past_number X a : X ⊆ C1 → a ∈ C1 → past_number h2 (I X) (f a) = past_number h1 X a.
Proof using HS HO1 HL1 HO2 HL2.
  intros HX Ha. unfold past_number. rewrite same_Future, same_inter by (done || apply future_sub; done).
  destruct (decide (Future h1 a ∩ X = ∅)) as [E|E]; [by rewrite decide_True by (by rewrite image_empty_iff)|].
  rewrite decide_False by (by rewrite image_empty_iff). do 3 f_equal. apply image_max. intros x Hx. apply same_IntervalCard; [done|set_solver].
Qed.
Lemma same_future_number X a : X ⊆ C1 → a ∈ C1 → future_number h2 (I X) (f a) = future_number h1 X a.
Proof using HS HO1 HL1 HO2 HL2.
  intros HX Ha. unfold future_number. rewrite same_Past, same_inter by (done || apply past_sub; done).
  destruct (decide (Past h1 a ∩ X = ∅)) as [E|E]; [by rewrite decide_True by (by rewrite image_empty_iff)|].
  rewrite decide_False by (by rewrite image_empty_iff). do 2 f_equal. apply image_max. intros x Hx. apply same_IntervalCard; [set_solver|done].
Qed.
Lemma same_Layers X first last : X ⊆ C1 → Layers h2 (I X) first last = I (Layers h1 X first last) ∧ Layers h1 X first last ⊆ C1.
Proof using HS HO1 HL1 HO2 HL2.
  intros HX. unfold Layers. cbv zeta. rewrite same_size by done. destruct (decide (size X = 0 ∨ (default first last < first)%Z)); [rewrite image_empty; split; [done|set_solver]|].
  destruct (same_PastOf X true false HX) as [-> HP], (same_FutureOf X true false HX) as [-> HF]. split.
  - rewrite image_union. f_equal.
    + destruct (decide (first <= 0)%Z); [|by rewrite image_empty]. apply image_filter. intros x Hx. by rewrite same_past_number by auto.
    + destruct (decide (0 < default first last)%Z); [|by rewrite image_empty]. apply image_filter. intros x Hx. by rewrite same_future_number by auto.
  - intros x [Hx|Hx]%elem_of_union.
    + destruct (decide (first <= 0)%Z); [apply elem_of_filter in Hx as [_ Hx]; auto|by apply elem_of_empty in Hx].
    + destruct (decide (0 < default first last)%Z); [apply elem_of_filter in Hx as [_ Hx]; auto|by apply elem_of_empty in Hx].
Qed.
Lemma same_list_to_set (l : list nat) : (list_to_set (f <$> l) : gset nat) = I (list_to_set l).
Proof using. apply set_eq. intros y. rewrite elem_of_list_to_set, image_elem, elem_of_list_fmap. setoid_rewrite elem_of_list_to_set. naive_solver. Qed.
Lemma same_LayerNumbers (l : list nat) r : (∀ x, x ∈ l → x ∈ C1) → LayerNumbers h2 (f <$> l) r = LayerNumbers h1 l r.
Proof using HS HO1 HL1 HO2 HL2.
  intros Hl. unfold LayerNumbers. cbv zeta. rewrite same_list_to_set. assert (HX : (list_to_set l : gset nat) ⊆ C1) by (intros x Hx%elem_of_list_to_set; auto).
  rewrite same_size by done. destruct (decide _); [done|]. destruct r; apply same_fmap; intros x Hx.
  - apply same_past_number; auto.
  - apply same_future_number; auto.
Qed.
Section ranks.
Context (it1 it2 : oracle) (Hi1 : iter_ok it1) (Hi2 : iter_ok it2).
Lemma same_rank_int a b : a ∈ C1 → b ∈ C1 → rank_int it2 h2 (f a) (f b) = rank_int it1 h1 a b.
Proof using HS HO1 HL1 HO2 HL2 Hi1 Hi2. intros Ha Hb. unfold rank_int. by rewrite (same_Rank it1 it2). Qed.
Lemma same_past_rank X a : X ⊆ C1 → a ∈ C1 → past_rank it2 h2 (I X) (f a) = past_rank it1 h1 X a.
Proof using HS HO1 HL1 HO2 HL2 Hi1 Hi2.
  intros HX Ha. unfold past_rank. rewrite same_Future, same_inter by (done || apply future_sub; done).
  destruct (decide (Future h1 a ∩ X = ∅)) as [E|E]; [by rewrite decide_True by (by rewrite image_empty_iff)|].
  rewrite decide_False by (by rewrite image_empty_iff). do 2 f_equal. apply image_max. intros x Hx. apply same_rank_int; [done|set_solver].
Qed.
Lemma same_future_rank X a : X ⊆ C1 → a ∈ C1 → future_rank it2 h2 (I X) (f a) = future_rank it1 h1 X a.
Proof using HS HO1 HL1 HO2 HL2 Hi1 Hi2.
  intros HX Ha. unfold future_rank. rewrite same_Past, same_inter by (done || apply past_sub; done).
  destruct (decide (Past h1 a ∩ X = ∅)) as [E|E]; [by rewrite decide_True by (by rewrite image_empty_iff)|].
  rewrite decide_False by (by rewrite image_empty_iff). f_equal. apply image_max. intros x Hx. apply same_rank_int; [set_solver|done].
Qed.
Lemma same_Ranks X first last : X ⊆ C1 → Ranks it2 h2 (I X) first last = I (Ranks it1 h1 X first last).
Proof using HS HO1 HL1 HO2 HL2 Hi1 Hi2.
  intros HX. unfold Ranks. cbv zeta. rewrite same_size by done. destruct (decide (size X = 0 ∨ (default first last < first)%Z)); [by rewrite image_empty|].
  destruct (same_PastOf X true false HX) as [-> HP], (same_FutureOf X true false HX) as [-> HF].
  rewrite image_union. f_equal.
  - destruct (decide (first <= 0)%Z); [|by rewrite image_empty]. apply image_filter. intros x Hx. by rewrite same_past_rank by auto.
  - destruct (decide (0 < default first last)%Z); [|by rewrite image_empty]. apply image_filter. intros x Hx. by rewrite same_future_rank by auto.
Qed.
Lemma same_RankNumbers (l : list nat) r : (∀ x, x ∈ l → x ∈ C1) → RankNumbers it2 h2 (f <$> l) r = RankNumbers it1 h1 l r.
Proof using HS HO1 HL1 HO2 HL2 Hi1 Hi2.
  intros Hl. unfold RankNumbers. cbv zeta. rewrite same_list_to_set. assert (HX : (list_to_set l : gset nat) ⊆ C1) by (intros x Hx%elem_of_list_to_set; auto).
  rewrite same_size by done. destruct (decide _); [done|]. destruct r; apply same_fmap; intros x Hx.
  - apply same_past_rank; auto.
  - apply same_future_rank; auto.
Qed.
End ranks.
Lemma same_layered_loop n X st L : X ⊆ C1 → L ⊆ C1 →
  layered_loop n h2 (I X) st (I L) = res_map (fmap I) (layered_loop n h1 X st L).
Proof using HS HO1 HL1 HO2 HL2.
  intros HX. revert L. induction n as [|n IH]; intros L HL; [done|]. cbn [layered_loop].
  destruct (decide (L = ∅)) as [->|Hne]; [by rewrite decide_True by apply image_empty|]. rewrite decide_False by (by rewrite image_empty_iff).
  destruct (same_Layers L st None HL) as [-> Hs]. rewrite same_inter by done. rewrite IH by (clear -HX; set_solver).
  by destruct (layered_loop n h1 X st (Layers h1 L st None ∩ X)).
Qed.
Lemma same_layered X r : X ⊆ C1 → layered h2 (I X) r = res_map (fmap I) (layered h1 X r).
Proof using HS HO1 HL1 HO2 HL2.
  intros HX. unfold layered. rewrite same_size by done. destruct (same_Infs X HX) as (_ & _ & -> & ->).
  destruct (C31_infinities h1 C1 X HO1) as (P1 & F1 & _). destruct r; apply same_layered_loop; try done; intros x Hx; apply HX; [by apply F1|by apply P1].
Qed.
(** *** Components. *)
Lemma same_connected X x y : X ⊆ C1 → connected_in (before h1) X x y → connected_in (before h2) (I X) (f x) (f y).
Proof using HS HO1 HL1 HO2 HL2.
  intros HX. induction 1 as [x Hx|x y z Hxy IH Hz Hc]; [apply conn_refl, image_elem; eauto|].
  assert (Hy : y ∈ X) by (clear -Hxy; by destruct Hxy).
  apply conn_step with (f y); [done|apply image_elem; eauto|]. destruct Hc as [->|[Hc|Hc]]; [by left| |]; right; [left|right]; apply (sc_before _ _ _ _ _ HS); auto.
Qed.
Lemma same_connected_back X u v : X ⊆ C1 → connected_in (before h2) (I X) u v →
  ∃ x y, x ∈ X ∧ y ∈ X ∧ f x = u ∧ f y = v ∧ connected_in (before h1) X x y.
Proof using HS HO1 HL1 HO2 HL2.
  intros HX. induction 1 as [u Hu|u v w Huv (x & y & Hx & Hy & <- & <- & IH) Hw Hc].
  - apply image_elem in Hu as (x & Hx & <-). exists x, x. split_and!; try done. by apply conn_refl.
  - apply image_elem in Hw as (z & Hz & <-). exists x, z. split_and!; try done. apply conn_step with y; [done|done|].
    destruct Hc as [E|[Hc|Hc]]; [left; by apply (sc_inj _ _ _ _ _ HS); auto| |]; right; [left|right]; apply (sc_before _ _ _ _ _ HS); auto.
Qed.
Lemma same_connected_iff X x y : X ⊆ C1 → x ∈ X → y ∈ X → connected_in (before h2) (I X) (f x) (f y) ↔ connected_in (before h1) X x y.
Proof using HS HO1 HL1 HO2 HL2.
  intros HX Hx Hy. split; [|by apply same_connected]. intros (x' & y' & Hx' & Hy' & Ex & Ey & H)%same_connected_back; [|done].
  apply (sc_inj _ _ _ _ _ HS) in Ex, Ey; auto. by subst.
Qed.
Lemma component_iff it h X l T : iter_ok it → order_inv h → disjoint_ it h X = Ok l →
  NoDup l ∧ (T ∈ l ↔ ∃ x, x ∈ X ∧ ∀ y, y ∈ T ↔ y ∈ X ∧ connected_in (before h) X x y).
Proof using.
  intros Hi HO E. destruct (C43_disjoint it h X Hi HO) as (l' & E' & Hne & Hu & Hd & Hc & _). rewrite E in E'. injection E' as <-.
  assert (HTX : ∀ U, U ∈ l → U ⊆ X) by (intros U HU z Hz; rewrite <- Hu; apply elem_of_union_list; eauto).
  assert (Hsame : ∀ U V z, U ∈ l → V ∈ l → z ∈ U → z ∈ V → U = V).
  { intros U V z [i HU]%elem_of_list_lookup [j HV]%elem_of_list_lookup H1 H2. destruct (decide (i = j)) as [<-|Hij]; [congruence|].
    destruct (Hd i j U V HU HV Hij) as [He _]. exfalso. clear -He H1 H2. set_solver. }
  split.
  - apply NoDup_alt. intros i j U Hi' Hj. destruct (decide (i = j)) as [|Hij]; [done|]. exfalso. destruct (Hd i j U U Hi' Hj Hij) as [He _].
    assert (HU : U ∈ l) by (by eapply elem_of_list_lookup_2). apply (Hne U HU). clear -He. set_solver.
  - split.
    + intros HT. destruct (set_choose_L T (Hne T HT)) as [x Hx]. assert (HxX : x ∈ X) by (by apply (HTX T)). exists x. split; [done|].
      intros y. split.
      * intros Hy. assert (y ∈ X) by (by apply (HTX T)). split; [done|]. apply Hc; [done|done|eauto].
      * intros [Hy Hxy]. apply Hc in Hxy as (V & HV & HxV & HyV); [|done|done]. by rewrite (Hsame T V x).
    + intros (x & Hx & Hy). assert (HxU : x ∈ ⋃ l) by (by rewrite Hu). apply elem_of_union_list in HxU as (U & HU & HxU).
      assert (T = U) as ->; [|done]. apply set_eq. intros y. rewrite Hy. split.
      * intros [HyX Hxy]. apply Hc in Hxy as (V & HV & HxV & HyV); [|done|done]. by rewrite (Hsame U V x).
      * intros HyU. assert (y ∈ X) by (by apply (HTX U)). split; [done|]. apply Hc; [done|done|eauto].
Qed.
Lemma same_disjoint it1 it2 X : iter_ok it1 → iter_ok it2 → X ⊆ C1 →
  ∃ l1 l2, disjoint_ it1 h1 X = Ok l1 ∧ disjoint_ it2 h2 (I X) = Ok l2 ∧ l2 ≡ₚ I <$> l1.
Proof using HS HO1 HL1 HO2 HL2.
  intros Hi1 Hi2 HX. destruct (C43_disjoint it1 h1 X Hi1 HO1) as (l1 & E1 & _ & Hu & _).
  destruct (C43_disjoint it2 h2 (I X) Hi2 HO2) as (l2 & E2 & _).
  exists l1, l2. split; [done|]. split; [done|].
  assert (Hsub : ∀ T, T ∈ l1 → T ⊆ X) by (intros U HU z Hz; rewrite <- Hu; apply elem_of_union_list; eauto).
  apply NoDup_Permutation.
  - exact (proj1 (component_iff it2 h2 (I X) l2 ∅ Hi2 HO2 E2)).
  - apply NoDup_fmap_2_strong; [|exact (proj1 (component_iff it1 h1 X l1 ∅ Hi1 HO1 E1))].
    intros T U HT HU E. apply set_eq. intros z. split; intros Hz.
    + apply (same_in U z); [exact (transitivity (Hsub U HU) HX)|apply HX; by apply (Hsub T)|]. rewrite <- E. apply image_elem; eauto.
    + apply (same_in T z); [exact (transitivity (Hsub T HT) HX)|apply HX; by apply (Hsub U)|]. rewrite E. apply image_elem; eauto.
  - intros T. rewrite (proj2 (component_iff it2 h2 (I X) l2 T Hi2 HO2 E2)), elem_of_list_fmap. split.
    + intros (u & (x & Hx & <-)%image_elem & HT).
      exists (filter (λ y, f y ∈ T) X). split.
      * apply set_eq. intros y. rewrite image_elem. setoid_rewrite elem_of_filter. split; [|by intros (z & [Hz _] & <-)].
        intros Hy. pose proof (proj1 (HT y) Hy) as [(z & Hz & <-)%image_elem _]. eauto.
      * apply (component_iff it1 h1 X l1 _ Hi1 HO1 E1). exists x. split; [done|]. intros y. rewrite elem_of_filter, HT.
        split.
        -- intros [[_ H] Hy]. split; [done|]. by apply same_connected_iff.
        -- intros [Hy H]. split; [|done]. split; [apply image_elem; eauto|]. by apply same_connected_iff.
    + intros (U & -> & HU). apply (component_iff it1 h1 X l1 U Hi1 HO1 E1) in HU as (x & Hx & HU).
      exists (f x). split; [apply image_elem; eauto|]. intros y. rewrite !image_elem. split.
      * intros (z & Hz & <-). apply HU in Hz as [Hz Hxz]. split; [eauto|]. by apply same_connected.
      * intros [(z & Hz & <-) Hxz]. exists z. split; [|done]. apply HU. split; [done|]. by apply same_connected_iff in Hxz.
Qed.
Lemma same_isDisjoint it1 it2 X : iter_ok it1 → iter_ok it2 → X ⊆ C1 → isDisjoint it2 h2 (I X) = isDisjoint it1 h1 X.
Proof using HS HO1 HL1 HO2 HL2.
  intros Hi1 Hi2 HX. unfold isDisjoint. destruct (same_disjoint it1 it2 X Hi1 Hi2 HX) as (l1 & l2 & -> & -> & Hp). cbn.
  apply Permutation_length in Hp. rewrite fmap_length in Hp. by rewrite Hp.
Qed.
(** *** Distances. *)
Lemma same_card_in X (o : option (gset nat)) : X ⊆ C1 → (∀ Y, o = Some Y → Y ⊆ C1) → card_in (I X) (I <$> o) = card_in X o.
Proof using HS HO1 HL1 HO2 HL2. intros HX Ho. destruct o as [Y|]; cbn; [apply same_size_inter; auto|by apply same_size]. Qed.
Lemma same_SmallestIntervalCard a b (o p : option (gset nat)) : a ∈ C1 → b ∈ C1 →
  (∀ Y, o = Some Y → Y ⊆ C1) → (∀ Y, p = Some Y → Y ⊆ C1) →
  SmallestIntervalCard h2 C2 (f a) (f b) (I <$> o) (I <$> p) = SmallestIntervalCard h1 C1 a b o p.
Proof using HS HO1 HL1 HO2 HL2.
  intros Ha Hb Ho Hp. unfold SmallestIntervalCard.
  assert (Egt : ev_gt h2 (f a) (f b) = ev_gt h1 a b) by (by apply same_lt). rewrite Egt.
  set (ab := if ev_gt h1 a b then (b, a) else (a, b)).
  replace (if ev_gt h1 a b then (f b, f a) else (f a, f b)) with (f ab.1, f ab.2) by (subst ab; by destruct (ev_gt h1 a b)).
  assert (Ha' : ab.1 ∈ C1) by (subst ab; by destruct (ev_gt h1 a b)). assert (Hb' : ab.2 ∈ C1) by (subst ab; by destruct (ev_gt h1 a b)).
  destruct ab as [a' b']. cbn in Ha', Hb'. clear a b Ha Hb Egt. rename a' into a, b' into b, Ha' into Ha, Hb' into Hb. cbn [fst snd].
  assert (Es : default C2 (I <$> o) = I (default C1 o)) by (destruct o as [Y|]; [done|symmetry; apply same_all]). rewrite Es. clear Es.
  assert (Hs : default C1 o ⊆ C1) by (destruct o as [Y|]; cbn; auto). set (s := default C1 o) in *.
  pose proof (past_sub a Ha) as Hpa. pose proof (past_sub b Hb) as Hpb. pose proof (future_sub a Ha) as Hfa. pose proof (future_sub b Hb) as Hfb.
  rewrite !same_Past, !same_Future by done.
  rewrite (same_inter (Past h1 a) (Past h1 b)), (same_inter (Future h1 a) (Future h1 b)) by done.
  rewrite (same_inter (Past h1 a ∩ Past h1 b) s), (same_inter (Future h1 a ∩ Future h1 b) s) by (done || (clear -Hpa Hfa; set_solver)).
  set (P := Past h1 a ∩ Past h1 b ∩ s). set (F := Future h1 a ∩ Future h1 b ∩ s).
  assert (HP : P ⊆ C1) by (subst P; clear -Hs; set_solver). assert (HF : F ⊆ C1) by (subst F; clear -Hs; set_solver). cbv zeta.
  rewrite same_le by done. rewrite same_IntervalCard by done.
  destruct (same_Interval a b true Ha Hb) as [-> HI].
  assert (Eint : ∀ i, p = Some i → size (I (Interval h1 a b true) ∩ I i) = size (Interval h1 a b true ∩ i)) by (intros i Ei; apply same_size_inter; auto).
  match goal with |- (if _ then _ else ?x) = (if _ then _ else ?y) => assert (Esp : x = y) end.
  { destruct (decide (P = ∅)) as [EP|EP], (decide (F = ∅)) as [EF|EF].
    - rewrite (decide_True (P := I P = ∅ ∧ I F = ∅)) by (by rewrite !image_empty_iff). by rewrite (decide_True (P := P = ∅ ∧ F = ∅)) by done.
    - rewrite (decide_False (P := I P = ∅ ∧ I F = ∅)) by (rewrite !image_empty_iff; tauto). rewrite (decide_False (P := P = ∅ ∧ F = ∅)) by tauto.
      rewrite (decide_True (P := I P = ∅)) by (by rewrite image_empty_iff).
      apply image_min. intros x Hx. rewrite same_Past by auto. apply same_card_in; [by apply past_sub; auto|done].
    - rewrite (decide_False (P := I P = ∅ ∧ I F = ∅)) by (rewrite !image_empty_iff; tauto). rewrite (decide_False (P := P = ∅ ∧ F = ∅)) by tauto.
      rewrite (decide_False (P := I P = ∅)) by (by rewrite image_empty_iff). rewrite (decide_True (P := I F = ∅)) by (by rewrite image_empty_iff).
      apply image_min. intros x Hx. rewrite same_Future by auto. apply same_card_in; [by apply future_sub; auto|done].
    - rewrite (decide_False (P := I P = ∅ ∧ I F = ∅)) by (rewrite !image_empty_iff; tauto). rewrite (decide_False (P := P = ∅ ∧ F = ∅)) by tauto.
      rewrite (decide_False (P := I P = ∅)) by (by rewrite image_empty_iff). rewrite (decide_False (P := I F = ∅)) by (by rewrite image_empty_iff).
      destruct p as [i|]; cbn.
      + apply image_min. intros x Hx. apply image_min. intros y Hy. destruct (same_Interval x y true (HP x Hx) (HF y Hy)) as [-> ?]. apply same_size_inter; auto.
      + apply image_min. intros x Hx. apply image_min. intros y Hy. apply same_IntervalCard; auto. }
  rewrite Esp. destruct (ev_le h1 a b); [|done].
  destruct o as [Y|]; cbn [fmap option_fmap option_map].
  - pose proof (Ho Y eq_refl) as HY.
    destruct (decide (a ∈ Y)) as [HaY|HaY], (decide (b ∈ Y)) as [HbY|HbY].
    + rewrite !decide_True by (rewrite ?same_in by done; done). destruct p as [i|]; [by apply Eint|done].
    + rewrite (decide_False (P := f a ∈ I Y ∧ f b ∈ I Y)) by (rewrite !same_in by done; tauto). rewrite (decide_False (P := a ∈ Y ∧ b ∈ Y)) by tauto.
      rewrite (decide_True (P := f a ∈ I Y)) by (by rewrite same_in). by apply same_card_in.
    + rewrite (decide_False (P := f a ∈ I Y ∧ f b ∈ I Y)) by (rewrite !same_in by done; tauto). rewrite (decide_False (P := a ∈ Y ∧ b ∈ Y)) by tauto.
      rewrite (decide_False (P := f a ∈ I Y)) by (by rewrite same_in). rewrite (decide_True (P := f b ∈ I Y)) by (by rewrite same_in).
      by apply same_card_in.
    + rewrite (decide_False (P := f a ∈ I Y ∧ f b ∈ I Y)) by (rewrite !same_in by done; tauto). rewrite (decide_False (P := a ∈ Y ∧ b ∈ Y)) by tauto.
      rewrite (decide_False (P := f a ∈ I Y)) by (by rewrite same_in). rewrite (decide_False (P := f b ∈ I Y)) by (by rewrite same_in). done.
  - destruct p as [i|]; [by apply Eint|done].
Qed.
Lemma lookup_total_image (l : list nat) i : i < length l → (f <$> l) !!! i = f (l !!! i).
Proof using. intros Hi. rewrite !list_lookup_total_alt, list_lookup_fmap. by destruct (lookup_lt_is_Some_2 l i Hi) as [x ->]. Qed.
Lemma same_dm_direct (ac : list nat) z X D : X ⊆ C1 → (∀ x, x ∈ ac → x ∈ C1) →
  dm_direct h2 C2 (f <$> ac) z (I X) D = dm_direct h1 C1 ac z X D.
Proof using HS HO1 HL1 HO2 HL2.
  intros HX Hac. unfold dm_direct. rewrite fmap_length.
  assert (Hl : ∀ i j, (i, j) ∈ combinations2 (length ac) → i < length ac ∧ j < length ac).
  { intros i j H. unfold combinations2 in H. apply elem_of_list_bind in H as (i' & H & Hi). apply elem_of_list_bind in H as (j' & H & Hj).
    apply elem_of_list_singleton in H as [= -> ->]. apply elem_of_seq in Hi, Hj. lia. }
  assert (Hv : ∀ i j, (i, j) ∈ combinations2 (length ac) → dm_value h2 C2 (f <$> ac) z (I X) i j = dm_value h1 C1 ac z X i j).
  { intros i j H. destruct (Hl i j H) as [Hi Hj]. unfold dm_value. rewrite !lookup_total_image by done.
    rewrite same_list_to_set. change (Some (I X)) with (I <$> Some X). change (Some (I (list_to_set ac))) with (I <$> Some (list_to_set ac : gset nat)).
    rewrite same_SmallestIntervalCard; [done| | | |].
    - apply Hac. by apply elem_of_list_lookup_total_2.
    - apply Hac. by apply elem_of_list_lookup_total_2.
    - by intros Y [= <-].
    - intros Y [= <-] x Hx%elem_of_list_to_set. auto. }
  clear Hl. revert D Hv. generalize (combinations2 (length ac)). intros l. induction l as [|[i j] l IH]; intros D Hv; [done|]. cbn [foldl].
  rewrite (Hv i j) by apply elem_of_list_here. apply IH. intros i' j' H. apply Hv. by apply elem_of_list_further.
Qed.
Lemma same_dm_loop n (ac : list nat) z r X Y D : X ⊆ C1 → Y ⊆ C1 → (∀ x, x ∈ ac → x ∈ C1) →
  dm_loop n h2 C2 (f <$> ac) z r (I X) (I Y) D = dm_loop n h1 C1 ac z r X Y D.
Proof using HS HO1 HL1 HO2 HL2.
  intros HX HY Hac. revert X Y D HX HY. induction n as [|n IH]; intros X Y D HX HY; [done|]. cbn [dm_loop].
  rewrite !same_size by done. destruct (decide (size X < size Y)); [|done]. rewrite same_dm_direct by done. rewrite fmap_length. cbv zeta.
  destruct r; [|done]. destruct (dm_extend (length ac) (dm_direct h1 C1 ac z Y D)) as [[D2 c] d]. destruct d; [done|].
  destruct (same_Layers Y (-1)%Z (Some 1%Z) HY) as [-> Hs]. by apply IH.
Qed.
Lemma dm_loop_fuel h C (ac : list nat) z r n m X Y D v :
  dm_loop n h C ac z r X Y D = Ok v → n ≤ m → dm_loop m h C ac z r X Y D = Ok v.
Proof using.
  revert m X Y D. induction n as [|n IH]; intros m X Y D H Hm; [done|]. destruct m as [|m]; [lia|]. cbn [dm_loop] in H |- *.
  destruct (decide (size X < size Y)); [|done]. cbv zeta in *. destruct r; [|done].
  destruct (dm_extend (length ac) (dm_direct h C ac z Y D)) as [[D2 c] d]. destruct d; [done|]. apply IH; [done|lia].
Qed.
Lemma same_DistanceMatrix (ac : list nat) counting r : (∀ x, x ∈ ac → x ∈ C1) → NoDup ac →
  (∀ a b, a ∈ ac → b ∈ ac → a ≠ b → spacelike (before h1) a b) →
  DistanceMatrix h2 C2 (f <$> ac) counting r = DistanceMatrix h1 C1 ac counting r.
Proof using HS HO1 HL1 HO2 HL2.
  intros Hac Hnd Hsp.
  assert (Hnd2 : NoDup (f <$> ac)). { apply nodup_image; [|done]. intros a b Ha Hb. apply (sc_inj _ _ _ _ _ HS); auto. }
  assert (Hsp2 : ∀ a b, a ∈ f <$> ac → b ∈ f <$> ac → a ≠ b → spacelike (before h2) a b).
  { intros a b (x & -> & Hx)%elem_of_list_fmap (y & -> & Hy)%elem_of_list_fmap Hne.
    assert (x ≠ y) by congruence. destruct (Hsp x y Hx Hy ltac:(done)) as (_ & H1 & H2).
    split; [done|]. rewrite <- !(sc_before _ _ _ _ _ HS) by auto. done. }
  destruct (bool_decide (counting = "ziczac") || bool_decide (counting = "intersection")) eqn:Ec; cycle 1.
  { apply orb_false_iff in Ec as [E1 E2]. unfold DistanceMatrix. by rewrite E1, E2. }
  assert (Hc : counting = "ziczac" ∨ counting = "intersection") by (apply orb_true_iff in Ec as [E|E]; apply bool_decide_eq_true in E; auto).
  destruct (C41_DistanceMatrix h1 C1 ac counting r HO1 Hnd Hsp Hc) as (M1 & E1 & _).
  destruct (C41_DistanceMatrix h2 C2 (f <$> ac) counting r HO2 Hnd2 Hsp2 Hc) as (M2 & E2 & _).
  rewrite E1, E2. unfold DistanceMatrix in E1, E2. cbv zeta in E1, E2.
  destruct (negb (bool_decide (counting = "ziczac")) && negb (bool_decide (counting = "intersection"))); [done|].
  rewrite same_list_to_set, fmap_length in E2.
  assert (HX : (list_to_set ac : gset nat) ⊆ C1) by (intros x Hx%elem_of_list_to_set; auto).
  destruct (same_Layers (list_to_set ac) (-1)%Z (Some 1%Z) HX) as [EL HLs]. rewrite EL in E2.
  rewrite same_dm_loop in E2 by done.
  match type of E1 with res_map _ (dm_loop ?n _ _ _ _ _ _ _ _) = _ => set (n1 := n) in * end.
  match type of E2 with res_map _ (dm_loop ?n _ _ _ _ _ _ _ _) = _ => set (n2 := n) in * end.
  match type of E1 with res_map _ ?x = _ => destruct x as [D1|] eqn:F1; [|done] end.
  match type of E2 with res_map _ ?x = _ => destruct x as [D2|] eqn:F2; [|done] end.
  apply (dm_loop_fuel _ _ _ _ _ _ (max n1 n2)) in F1; [|lia]. apply (dm_loop_fuel _ _ _ _ _ _ (max n1 n2)) in F2; [|lia].
  rewrite F1 in F2. injection F2 as <-. cbn in E1, E2. congruence.
Qed.
(** *** Paths. *)
Lemma same_path_lists (P1 P2 : list nat → Prop) a b (L1 L2 : list (list nat)) : a ∈ C1 → b ∈ C1 →
  NoDup L1 → NoDup L2 →
  (∀ p, p ∈ L1 ↔ link_path (before h1) a b p ∧ P1 p) → (∀ p, p ∈ L2 ↔ link_path (before h2) (f a) (f b) p ∧ P2 p) →
  (∀ p, link_path (before h1) a b p → P1 p ↔ P2 (image_list f p)) → L2 ≡ₚ image_list f <$> L1.
Proof using HS HO1 HL1 HO2 HL2.
  intros Ha Hb N1 N2 H1 H2 HP. apply NoDup_Permutation; [done| |].
  - apply NoDup_fmap_2_strong; [|done]. intros p q [Hp _]%H1 [Hq _]%H1 E.
    pose proof (same_path_in a b p Ha Hp) as Ip. pose proof (same_path_in a b q Ha Hq) as Iq. clear -E Ip Iq HS.
    revert q E Iq. induction p as [|x p IH]; intros [|y q] E Iq; [done|done|done|]. unfold image_list in E. cbn in E. injection E as Exy E. f_equal.
    + apply (sc_inj _ _ _ _ _ HS); [apply Ip, elem_of_list_here|apply Iq, elem_of_list_here|done].
    + apply IH; [intros; apply Ip; by apply elem_of_list_further|done|intros; apply Iq; by apply elem_of_list_further].
  - intros p2. rewrite H2, elem_of_list_fmap. split.
    + intros [Hp Hq]. destruct (same_path_back a b p2 Ha Hb Hp) as (p & -> & Hp1). exists p. split; [done|]. apply H1. split; [done|]. by apply HP.
    + intros (p & -> & [Hp Hq]%H1). split; [by apply same_path|by apply HP].
Qed.
Lemma same_Paths pit1 pit2 a b len : (∀ p, iter_ok (pit1 p)) → (∀ p, iter_ok (pit2 p)) → a ∈ C1 → b ∈ C1 →
  (∀ l, len = LenList l → ∃ m n : nat, l = [Z.of_nat m; Z.of_nat n]) → len ≠ LenOther →
  ∃ L1 L2, Paths pit1 h1 a b len = Ok L1 ∧ Paths pit2 h2 (f a) (f b) len = Ok L2 ∧ L2 ≡ₚ image_list f <$> L1.
Proof using HS HO1 HL1 HO2 HL2.
  intros Hi1 Hi2 Ha Hb Hl Ho.
  destruct (C38_Paths h1 pit1 a b HO1 HL1 Hi1) as (A1 & I1 & L1 & _). destruct (C38_Paths h2 pit2 (f a) (f b) HO2 HL2 Hi2) as (A2 & I2 & L2 & _).
  destruct (C39_Paths_min_max h1 pit1 a b HO1 HL1 Hi1) as (N1 & X1). destruct (C39_Paths_min_max h2 pit2 (f a) (f b) HO2 HL2 Hi2) as (N2 & X2).
  assert (Hlen : ∀ p, length (image_list f p) = length p) by (intros p; apply fmap_length).
  destruct len as [s|n|l|]; [| | |done].
  - destruct (decide (s = "min")) as [->|S1]; [|destruct (decide (s = "max" ∨ s = "timegeo")) as [S2|S2]].
    + destruct N1 as (Q1 & E1 & D1 & H1), N2 as (Q2 & E2 & D2 & H2). exists Q1, Q2. split; [done|]. split; [done|].
      apply (same_path_lists _ _ a b Q1 Q2 Ha Hb D1 D2 H1 H2). intros p Hp. rewrite Hlen. split.
      * intros Hm q2 Hq. destruct (same_path_back a b q2 Ha Hb Hq) as (q & -> & Hq1). rewrite fmap_length. by apply Hm.
      * intros Hm q Hq. rewrite <- (Hlen q). apply Hm. by apply same_path.
    + destruct (X1 s S2) as (Q1 & E1 & D1 & H1), (X2 s S2) as (Q2 & E2 & D2 & H2). exists Q1, Q2. split; [done|]. split; [done|].
      apply (same_path_lists _ _ a b Q1 Q2 Ha Hb D1 D2 H1 H2). intros p Hp. rewrite Hlen. split.
      * intros Hm q2 Hq. destruct (same_path_back a b q2 Ha Hb Hq) as (q & -> & Hq1). rewrite fmap_length. by apply Hm.
      * intros Hm q Hq. rewrite <- (Hlen q). apply Hm. by apply same_path.
    + destruct (A1 s) as (Q1 & E1 & D1 & H1); [tauto..|]. destruct (A2 s) as (Q2 & E2 & D2 & H2); [tauto..|].
      exists Q1, Q2. split; [done|]. split; [done|]. apply (same_path_lists (λ _, True) (λ _, True) a b Q1 Q2 Ha Hb D1 D2); [| |done]; intros p; [rewrite H1|rewrite H2]; tauto.
  - destruct (decide (n < 0)%Z) as [Hn|Hn].
    + destruct (C38_negative_length h1 pit1 a b n HO1 HL1 Hi1 Hn) as (Q1 & E1 & D1 & H1).
      destruct (C38_negative_length h2 pit2 (f a) (f b) n HO2 HL2 Hi2 Hn) as (Q2 & E2 & D2 & H2).
      exists Q1, Q2. split; [done|]. split; [done|]. by apply (same_path_lists (λ _, n = (-1)%Z) (λ _, n = (-1)%Z) a b Q1 Q2 Ha Hb D1 D2).
    + destruct (I1 (Z.to_nat n)) as (Q1 & E1 & D1 & H1), (I2 (Z.to_nat n)) as (Q2 & E2 & D2 & H2). rewrite Z2Nat.id in E1, E2 by lia.
      exists Q1, Q2. split; [done|]. split; [done|].
      apply (same_path_lists (λ p, length p = Z.to_nat n) (λ p, length p = Z.to_nat n) a b Q1 Q2 Ha Hb D1 D2 H1 H2). intros p _. by rewrite Hlen.
  - destruct (Hl l eq_refl) as (m & n & ->). destruct (L1 m n) as (Q1 & E1 & D1 & H1), (L2 m n) as (Q2 & E2 & D2 & H2).
    exists Q1, Q2. split; [done|]. split; [done|].
    apply (same_path_lists (λ p, m ≤ length p ≤ n) (λ p, m ≤ length p ≤ n) a b Q1 Q2 Ha Hb D1 D2 H1 H2). intros p _. by rewrite Hlen.
Qed.
End same.

(** ** Theorems *)
(** Queries of single events. *)
Theorem C92_event (it1 it2 : oracle) (f : nat → nat) (h1 h2 : heap) (C1 C2 : gset nat) :
  iter_ok it1 → iter_ok it2 → order_inv h1 → link_inv h1 → order_inv h2 → link_inv h2 → same_causet f h1 C1 h2 C2 →
  (∀ a, a ∈ C1 →
     Past h2 (f a) = image f (Past h1 a) ∧ Future h2 (f a) = image f (Future h1 a) ∧ Cone h2 (f a) = image f (Cone h1 a) ∧
     PresentOrPast h2 (f a) = image f (PresentOrPast h1 a) ∧ PresentOrFuture h2 (f a) = image f (PresentOrFuture h1 a) ∧
     snd (get_LinkPast h2 (f a)) = image f (snd (get_LinkPast h1 a)) ∧ snd (get_LinkFuture h2 (f a)) = image f (snd (get_LinkFuture h1 a)) ∧
     snd (get_LinkCone h2 (f a)) = image f (snd (get_LinkCone h1 a)) ∧
     PastCard h2 (f a) = PastCard h1 a ∧ FutureCard h2 (f a) = FutureCard h1 a ∧ ConeCard h2 (f a) = ConeCard h1 a ∧
     snd (get_LinkPastCard h2 (f a)) = snd (get_LinkPastCard h1 a) ∧ snd (get_LinkFutureCard h2 (f a)) = snd (get_LinkFutureCard h1 a) ∧
     (∀ X, X ⊆ C1 → Spacelike h2 (f a) (image f X) = image f (Spacelike h1 a X) ∧ SpacelikeCard h2 (f a) (image f X) = SpacelikeCard h1 a X)) ∧
  (∀ a b, a ∈ C1 → b ∈ C1 →
     ev_lt h2 (f a) (f b) = ev_lt h1 a b ∧ ev_le h2 (f a) (f b) = ev_le h1 a b ∧
     ev_gt h2 (f a) (f b) = ev_gt h1 a b ∧ ev_ge h2 (f a) (f b) = ev_ge h1 a b ∧
     isCausalTo h2 (f a) (f b) = isCausalTo h1 a b ∧ isSpacelikeTo h2 (f a) (f b) = isSpacelikeTo h1 a b ∧
     isLink h2 (f a) (f b) = isLink h1 a b ∧
     snd (isPastLink h2 (f a) (f b)) = snd (isPastLink h1 a b) ∧ snd (isFutureLink h2 (f a) (f b)) = snd (isFutureLink h1 a b) ∧
     Rank it2 h2 (f a) (f b) = Rank it1 h1 a b).
Proof.
  intros Hi1 Hi2 HO1 HL1 HO2 HL2 HS.
  assert (EP : ∀ h x, snd (get_LinkPast h x) = LinkPast h x) by (intros h x; unfold get_LinkPast, LinkPast; destruct (lprec h x); [done|]; unfold lprec; cbv zeta; cbn [snd]; rewrite link_lookup; by rewrite decide_True).
  assert (EF : ∀ h x, snd (get_LinkFuture h x) = LinkFuture h x) by (intros h x; unfold get_LinkFuture, LinkFuture; destruct (lsucc h x); [done|]; unfold lsucc; cbv zeta; cbn [snd]; rewrite link_lookup; by rewrite decide_True).
  assert (EPc : ∀ h x, snd (get_LinkPastCard h x) = size (LinkPast h x)) by (intros h x; rewrite <- EP; unfold get_LinkPastCard; by destruct (get_LinkPast h x)).
  assert (EFc : ∀ h x, snd (get_LinkFutureCard h x) = size (LinkFuture h x)) by (intros h x; rewrite <- EF; unfold get_LinkFutureCard; by destruct (get_LinkFuture h x)).
  assert (EPl : ∀ h x y, snd (isPastLink h x y) = bool_decide (y ∈ LinkPast h x)) by (intros h x y; rewrite <- EP; unfold isPastLink; by destruct (get_LinkPast h x)).
  assert (EFl : ∀ h x y, snd (isFutureLink h x y) = bool_decide (y ∈ LinkFuture h x)) by (intros h x y; rewrite <- EF; unfold isFutureLink; by destruct (get_LinkFuture h x)).
  split.
  - intros a Ha. pose proof (same_Past f h1 C1 h2 C2 HS HO1 HL1 HO2 HL2 a Ha) as EPa. pose proof (same_Future f h1 C1 h2 C2 HS HO1 HL1 HO2 HL2 a Ha) as EFa.
    split_and!; try done.
    + by apply (same_Cone f h1 C1 h2 C2).
    + by apply (same_POP f h1 C1 h2 C2).
    + by apply (same_POF f h1 C1 h2 C2).
    + rewrite !EP. by apply (same_LinkPast f h1 C1 h2 C2).
    + rewrite !EF. by apply (same_LinkFuture f h1 C1 h2 C2).
    + by apply (same_LinkCone f h1 C1 h2 C2).
    + unfold PastCard. change (prec h2 (f a)) with (Past h2 (f a)). rewrite EPa. apply (same_size f h1 C1 h2 C2); try done. by apply (past_sub f h1 C1 h2 C2).
    + unfold FutureCard. change (succ h2 (f a)) with (Future h2 (f a)). rewrite EFa. apply (same_size f h1 C1 h2 C2); try done. by apply (future_sub f h1 C1 h2 C2).
    + by apply (same_ConeCard f h1 C1 h2 C2).
    + rewrite !EPc, (same_LinkPast f h1 C1 h2 C2) by done. apply (same_size f h1 C1 h2 C2); try done. by apply (linkpast_sub f h1 C1 h2 C2).
    + rewrite !EFc, (same_LinkFuture f h1 C1 h2 C2) by done. apply (same_size f h1 C1 h2 C2); try done. by apply (linkfuture_sub f h1 C1 h2 C2).
    + intros X HX. split; [by apply (same_Spacelike f h1 C1 h2 C2)|by apply (same_SpacelikeCard f h1 C1 h2 C2)].
  - intros a b Ha Hb.
    pose proof (same_lt f h1 C1 h2 C2 HS HO1 HL1 HO2 HL2 a b Ha Hb) as Elt.
    pose proof (same_lt f h1 C1 h2 C2 HS HO1 HL1 HO2 HL2 b a Hb Ha) as Egt.
    pose proof (same_le f h1 C1 h2 C2 HS HO1 HL1 HO2 HL2 a b Ha Hb) as Ele.
    assert (Ege : ev_ge h2 (f a) (f b) = ev_ge h1 a b).
    { unfold ev_ge. f_equal; [|exact Egt]. apply bool_decide_ext. by apply (same_eq f h1 C1 h2 C2). }
    assert (Egt' : ev_gt h2 (f a) (f b) = ev_gt h1 a b) by exact Egt.
    split_and!; try done.
    + unfold isCausalTo. by rewrite Ele, Egt'.
    + unfold isSpacelikeTo. f_equal; [f_equal|]; f_equal; apply bool_decide_ext.
      * by apply (same_eq f h1 C1 h2 C2).
      * symmetry. by apply (sc_before _ _ _ _ _ HS).
      * rewrite <- (oi_conv _ HO1), <- (oi_conv _ HO2). symmetry. by apply (sc_before _ _ _ _ _ HS).
    + by apply (same_isLink f h1 C1 h2 C2).
    + rewrite !EPl. rewrite (same_LinkPast f h1 C1 h2 C2) by done. apply bool_decide_ext. apply (same_in f h1 C1 h2 C2); try done. by apply (linkpast_sub f h1 C1 h2 C2).
    + rewrite !EFl. rewrite (same_LinkFuture f h1 C1 h2 C2) by done. apply bool_decide_ext. apply (same_in f h1 C1 h2 C2); try done. by apply (linkfuture_sub f h1 C1 h2 C2).
    + by apply (same_Rank f h1 C1 h2 C2).
Qed.
Print Assumptions C92_event.

(** Queries of sets of events and of the whole causet. *)
Theorem C92_sets (it1 it2 : oracle) (f : nat → nat) (h1 h2 : heap) (C1 C2 : gset nat) :
  iter_ok it1 → iter_ok it2 → order_inv h1 → link_inv h1 → order_inv h2 → link_inv h2 → same_causet f h1 C1 h2 C2 →
  (∀ X, X ⊆ C1 →
     (∀ present intersect,
        PastOf h2 (image f X) present intersect = image f (PastOf h1 X present intersect) ∧
        FutureOf h2 (image f X) present intersect = image f (FutureOf h1 X present intersect) ∧
        ConeOf h2 (image f X) present intersect = image f (ConeOf h1 X present intersect)) ∧
     SpacelikeTo h2 C2 (image f X) = image f (SpacelikeTo h1 C1 X) ∧
     LinkCount h2 C2 (Some (image f X)) = LinkCount h1 C1 (Some X) ∧
     isChain h2 C2 (Some (image f X)) = isChain h1 C1 (Some X) ∧
     isAntichain h2 C2 (Some (image f X)) = isAntichain h1 C1 (Some X) ∧
     isPath it2 h2 C2 (Some (image f X)) = isPath it1 h1 C1 (Some X) ∧
     PastInfOf h2 (image f X) = image f (PastInfOf h1 X) ∧ FutureInfOf h2 (image f X) = image f (FutureInfOf h1 X) ∧
     PastInfCardOf h2 (image f X) = PastInfCardOf h1 X ∧ FutureInfCardOf h2 (image f X) = FutureInfCardOf h1 X) ∧
  (∀ a b, a ∈ C1 → b ∈ C1 →
     (∀ boundary, Interval h2 (f a) (f b) boundary = image f (Interval h1 a b boundary) ∧
                  IntervalCard h2 (f a) (f b) boundary = IntervalCard h1 a b boundary) ∧
     PerimetralEvents h2 (f a) (f b) = image f (PerimetralEvents h1 a b) ∧
     PerimetralEventCount h2 (f a) (f b) = PerimetralEventCount h1 a b ∧
     InternalEvents h2 (f a) (f b) = image f (InternalEvents h1 a b) ∧
     InternalEventCount h2 (f a) (f b) = InternalEventCount h1 a b) ∧
  Card C2 = Card C1 ∧ LinkCount h2 C2 None = LinkCount h1 C1 None ∧
  isChain h2 C2 None = isChain h1 C1 None ∧ isAntichain h2 C2 None = isAntichain h1 C1 None ∧
  isPath it2 h2 C2 None = isPath it1 h1 C1 None ∧
  PastInf h2 C2 = image f (PastInf h1 C1) ∧ FutureInf h2 C2 = image f (FutureInf h1 C1) ∧
  PastInfCard h2 C2 = PastInfCard h1 C1 ∧ FutureInfCard h2 C2 = FutureInfCard h1 C1.
Proof.
  intros Hi1 Hi2 HO1 HL1 HO2 HL2 HS. split; [|split].
  - intros X HX.
    destruct (same_LinkCount f h1 C1 h2 C2 HS HO1 HL1 HO2 HL2 X HX) as [_ ?].
    destruct (same_isChain f h1 C1 h2 C2 HS HO1 HL1 HO2 HL2 X HX) as [_ ?].
    destruct (same_isAntichain f h1 C1 h2 C2 HS HO1 HL1 HO2 HL2 X HX) as [_ ?].
    destruct (same_isPath f h1 C1 h2 C2 HS HO1 HL1 HO2 HL2 it1 it2 X Hi1 Hi2 HX) as [_ ?].
    destruct (same_Infs f h1 C1 h2 C2 HS HO1 HL1 HO2 HL2 X HX) as (_ & _ & ? & ?).
    destruct (same_InfCards f h1 C1 h2 C2 HS HO1 HL1 HO2 HL2 X HX) as (_ & _ & ? & ?).
    split_and!; try done; [|by apply (same_SpacelikeTo f h1 C1 h2 C2)].
    intros p q. split_and!; [apply (same_PastOf f h1 C1 h2 C2)|apply (same_FutureOf f h1 C1 h2 C2)|apply (same_ConeOf f h1 C1 h2 C2)]; done.
  - intros a b Ha Hb.
    pose proof (same_Perimetral f h1 C1 h2 C2 HS HO1 HL1 HO2 HL2 a b Ha Hb) as [EP SP].
    pose proof (same_Internal f h1 C1 h2 C2 HS HO1 HL1 HO2 HL2 a b Ha Hb) as [EI SI].
    destruct (C33_intervals h1 a b 0 HO1 HL1) as (_ & _ & _ & _ & _ & _ & P1 & I1 & _).
    destruct (C33_intervals h2 (f a) (f b) 0 HO2 HL2) as (_ & _ & _ & _ & _ & _ & P2 & I2 & _).
    split_and!; try done.
    + intros i. split; [by apply (same_Interval f h1 C1 h2 C2)|by apply (same_IntervalCard f h1 C1 h2 C2)].
    + rewrite P1, P2, EP. by apply (same_size f h1 C1 h2 C2).
    + rewrite I1, I2, EI. f_equal. by apply (same_size f h1 C1 h2 C2).
  - destruct (same_LinkCount f h1 C1 h2 C2 HS HO1 HL1 HO2 HL2 C1 ltac:(done)) as [? _].
    destruct (same_isChain f h1 C1 h2 C2 HS HO1 HL1 HO2 HL2 C1 ltac:(done)) as [? _].
    destruct (same_isAntichain f h1 C1 h2 C2 HS HO1 HL1 HO2 HL2 C1 ltac:(done)) as [? _].
    destruct (same_isPath f h1 C1 h2 C2 HS HO1 HL1 HO2 HL2 it1 it2 C1 Hi1 Hi2 ltac:(done)) as [? _].
    destruct (same_Infs f h1 C1 h2 C2 HS HO1 HL1 HO2 HL2 C1 ltac:(done)) as (? & ? & _).
    destruct (same_InfCards f h1 C1 h2 C2 HS HO1 HL1 HO2 HL2 C1 ltac:(done)) as (? & ? & _).
    split_and!; try done. unfold Card. rewrite <- (same_all f h1 C1 h2 C2 HS HO1 HL1 HO2 HL2). by apply (same_size f h1 C1 h2 C2).
Qed.
Print Assumptions C92_sets.

(** Layers, ranks and components. *)
Theorem C92_layers (it1 it2 : oracle) (f : nat → nat) (h1 h2 : heap) (C1 C2 : gset nat) :
  iter_ok it1 → iter_ok it2 → order_inv h1 → link_inv h1 → order_inv h2 → link_inv h2 → same_causet f h1 C1 h2 C2 →
  (∀ X, X ⊆ C1 →
     (∀ first last, Layers h2 (image f X) first last = image f (Layers h1 X first last) ∧
                    Ranks it2 h2 (image f X) first last = image f (Ranks it1 h1 X first last)) ∧
     (∀ reverse l, layered h1 X reverse = Ok l → layered h2 (image f X) reverse = Ok (image f <$> l)) ∧
     (∃ l1 l2, disjoint_ it1 h1 X = Ok l1 ∧ disjoint_ it2 h2 (image f X) = Ok l2 ∧ l2 ≡ₚ image f <$> l1) ∧
     isDisjoint it2 h2 (image f X) = isDisjoint it1 h1 X) ∧
  (∀ l reverse, (∀ x, x ∈ l → x ∈ C1) →
     LayerNumbers h2 (image_list f l) reverse = LayerNumbers h1 l reverse ∧
     RankNumbers it2 h2 (image_list f l) reverse = RankNumbers it1 h1 l reverse) ∧
  (∀ reverse, ∃ l, layered h1 C1 reverse = Ok l ∧ layered h2 C2 reverse = Ok (image f <$> l)).
Proof.
  intros Hi1 Hi2 HO1 HL1 HO2 HL2 HS. split; [|split].
  - intros X HX. split_and!.
    + intros first last. split; [by apply (same_Layers f h1 C1 h2 C2)|by apply (same_Ranks f h1 C1 h2 C2)].
    + intros r l E. rewrite (same_layered f h1 C1 h2 C2) by done. by rewrite E.
    + by apply (same_disjoint f h1 C1 h2 C2).
    + by apply (same_isDisjoint f h1 C1 h2 C2).
  - intros l r Hl. split; [by apply (same_LayerNumbers f h1 C1 h2 C2)|by apply (same_RankNumbers f h1 C1 h2 C2)].
  - intros r. destruct (C36_layered h1 C1 HO1 (sc_closed1 _ _ _ _ _ HS)) as [(l & El & _) (k & Ek & _)].
    rewrite <- (same_all f h1 C1 h2 C2 HS HO1 HL1 HO2 HL2). destruct r; [exists k|exists l]; rewrite (same_layered f h1 C1 h2 C2) by done.
    + by rewrite Ek.
    + by rewrite El.
Qed.
Print Assumptions C92_layers.

(** Paths: the same paths, possibly in another order. *)
Theorem C92_paths (pit1 pit2 : list nat → oracle) (f : nat → nat) (h1 h2 : heap) (C1 C2 : gset nat) (a b : nat) (len : path_length) :
  (∀ p, iter_ok (pit1 p)) → (∀ p, iter_ok (pit2 p)) →
  order_inv h1 → link_inv h1 → order_inv h2 → link_inv h2 → same_causet f h1 C1 h2 C2 → a ∈ C1 → b ∈ C1 →
  (∃ s, len = LenStr s) ∨ (∃ n, len = LenInt n) ∨ (∃ m n : nat, len = LenList [Z.of_nat m; Z.of_nat n]) →
  ∃ L1 L2, Paths pit1 h1 a b len = Ok L1 ∧ Paths pit2 h2 (f a) (f b) len = Ok L2 ∧ L2 ≡ₚ image_list f <$> L1.
Proof.
  intros Hi1 Hi2 HO1 HL1 HO2 HL2 HS Ha Hb Hlen. apply (same_Paths f h1 C1 h2 C2); try done.
  - intros l ->. destruct Hlen as [[? ?]|[[? ?]|(m & n & [= ->])]]; [done|done|eauto].
  - intros ->. destruct Hlen as [[? ?]|[[? ?]|(m & n & ?)]]; done.
Qed.
Print Assumptions C92_paths.

(** Distances. *)
Theorem C92_distances (f : nat → nat) (h1 h2 : heap) (C1 C2 : gset nat) :
  order_inv h1 → link_inv h1 → order_inv h2 → link_inv h2 → same_causet f h1 C1 h2 C2 →
  (∀ a b searching intersecting, a ∈ C1 → b ∈ C1 →
     (∀ X, searching = Some X → X ⊆ C1) → (∀ X, intersecting = Some X → X ⊆ C1) →
     SmallestIntervalCard h2 C2 (f a) (f b) (image f <$> searching) (image f <$> intersecting) =
     SmallestIntervalCard h1 C1 a b searching intersecting) ∧
  (∀ ac counting recursive, (∀ x, x ∈ ac → x ∈ C1) → NoDup ac →
     (∀ a b, a ∈ ac → b ∈ ac → a ≠ b → spacelike (before h1) a b) →
     DistanceMatrix h2 C2 (image_list f ac) counting recursive = DistanceMatrix h1 C1 ac counting recursive).
Proof.
  intros HO1 HL1 HO2 HL2 HS. split.
  - intros a b o p Ha Hb Ho Hp. by apply (same_SmallestIntervalCard f h1 C1 h2 C2).
  - intros ac c r Hac Hn Hsp. by apply (same_DistanceMatrix f h1 C1 h2 C2).
Qed.
Print Assumptions C92_distances.

(** A concrete case: the pentagon, and the pentagon made in another order after another event, with some links known. *)
Definition penta2_ops : list op :=
  [ONew (LInt 9) ∅ ∅ [] []; ONew (LInt 1) ∅ ∅ [] []; ONew (LInt 2) {[1]} ∅ [] []; ONew (LInt 3) {[1]} ∅ [] [];
   ONew (LInt 4) {[3]} ∅ [] []; ONew (LInt 5) {[2; 4]} ∅ [] []; OLink 4; OLink 1].
Definition penta2 : heap := run ∅ ((λ o, (it_elements, o)) <$> penta2_ops).
Definition to_penta2 (x : nat) : nat := match x with 0 => 1 | 1 => 3 | 2 => 4 | 3 => 2 | 4 => 5 | _ => 0 end.
Definition closed_dec (h : heap) (X : gset nat) : Prop := set_Forall (λ x, prec h x ⊆ X ∧ succ h x ⊆ X) X.
Definition same_dec (f : nat → nat) (h1 : heap) (C1 : gset nat) (h2 : heap) : Prop :=
  set_Forall (λ a, set_Forall (λ b, (f a = f b → a = b) ∧ (a ∈ prec h1 b ↔ f a ∈ prec h2 (f b))) C1) C1.
Example C92_nonvacuous :
  order_inv penta ∧ link_inv penta ∧ order_inv penta2 ∧ link_inv penta2 ∧
  same_causet to_penta2 penta {[0; 1; 2; 3; 4]} penta2 {[1; 2; 3; 4; 5]} ∧
  Past penta 4 = {[0; 1; 2; 3]} ∧ Rank it_elements penta 0 4 = Ok (Some 2).
Proof.
  split; [apply penta_order|]. split; [apply penta_link|].
  split; [apply ops_order; by vm_compute|]. split; [apply ops_link; [by vm_compute|]; unfold no_disjoin; repeat constructor|].
  split; [|split; decide_vm].
  assert (H1 : closed_dec penta {[0; 1; 2; 3; 4]}) by decide_vm.
  assert (H2 : closed_dec penta2 {[1; 2; 3; 4; 5]}) by decide_vm.
  assert (H : same_dec to_penta2 penta {[0; 1; 2; 3; 4]} penta2) by decide_vm.
  assert (Him : image to_penta2 {[0; 1; 2; 3; 4]} = {[1; 2; 3; 4; 5]}) by decide_vm.
  split.
  - intros a b Ha Hb. exact (proj1 (H a Ha b Hb)).
  - intros y. rewrite <- Him. apply image_elem.
  - intros a b Ha Hb. exact (proj2 (H a Ha b Hb)).
  - exact H1.
  - exact H2.
Qed.
