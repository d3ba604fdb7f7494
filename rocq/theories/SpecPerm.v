(** Specification vocabulary for /repo/causetpermutations.py, independent of the model. *)
From Verif Require Import Base Spec.

(** The sets that are built from the empty set by adding an event below all others, adding an
    event above all others, and putting two mutually unrelated sets side by side. *)
Inductive pieced (R : nat → nat → Prop) : gset nat → Prop :=
| pieced_empty : pieced R ∅
| pieced_min x S : x ∉ S → (∀ y, y ∈ S → R x y) → pieced R S → pieced R ({[x]} ∪ S)
| pieced_max x S : x ∉ S → (∀ y, y ∈ S → R y x) → pieced R S → pieced R ({[x]} ∪ S)
| pieced_union S T : S ∩ T = ∅ → (∀ x y, x ∈ S → y ∈ T → ¬ R x y ∧ ¬ R y x) →
    pieced R S → pieced R T → pieced R (S ∪ T).

(** A part of a piecewise set is piecewise. *)
Lemma pieced_part R S : pieced R S → ∀ T, T ⊆ S → pieced R T.
Proof.
  induction 1 as [|x S Hx HR _ IH|x S Hx HR _ IH|S U HSU HR _ IHS _ IHU]; intros T HT.
  - assert (T = ∅) as -> by set_solver. apply pieced_empty.
  - destruct (decide (x ∈ T)) as [Hin|Hin]; [|apply IH; set_solver].
    assert (T = {[x]} ∪ T ∖ {[x]}) as -> by (apply set_eq; intros y; destruct (decide (y = x)); set_solver).
    apply pieced_min; [set_solver|set_solver|]. apply IH. set_solver.
  - destruct (decide (x ∈ T)) as [Hin|Hin]; [|apply IH; set_solver].
    assert (T = {[x]} ∪ T ∖ {[x]}) as -> by (apply set_eq; intros y; destruct (decide (y = x)); set_solver).
    apply pieced_max; [set_solver|set_solver|]. apply IH. set_solver.
  - assert (T = (T ∩ S) ∪ (T ∩ U)) as -> by set_solver.
    apply pieced_union; [set_solver|set_solver|apply IHS; set_solver|apply IHU; set_solver].
Qed.

(** A connected set with two minimal and two maximal events is not piecewise. *)
Lemma pieced_not_tangled R S : pieced R S →
  (∀ x y, x ∈ S → y ∈ S → connected_in R S x y) →
  (∃ a b, a ∈ S ∧ b ∈ S ∧ a ≠ b ∧ (∀ c, c ∈ S → ¬ R c a ∧ ¬ R c b)) →
  (∃ a b, a ∈ S ∧ b ∈ S ∧ a ≠ b ∧ (∀ c, c ∈ S → ¬ R a c ∧ ¬ R b c)) → False.
Proof.
  induction 1 as [|x S Hx HR _ IH|x S Hx HR _ IH|S U HSU HR _ IHS _ IHU]; intros Hc Hmin Hmax.
  - destruct Hmin as (a & _ & Ha & _). set_solver.
  - destruct Hmin as (a & b & Ha & Hb & Hab & Hn).
    destruct (decide (a = x)) as [->|Hax].
    + apply (proj2 (Hn x Ha)), HR. set_solver.
    + apply (proj1 (Hn x ltac:(set_solver))), HR. set_solver.
  - destruct Hmax as (a & b & Ha & Hb & Hab & Hn).
    destruct (decide (a = x)) as [->|Hax].
    + apply (proj2 (Hn x Ha)), HR. set_solver.
    + apply (proj1 (Hn x ltac:(set_solver))), HR. set_solver.
  - destruct (decide (S = ∅)) as [->|HS].
    { rewrite (left_id_L ∅ (∪)) in Hc, Hmin, Hmax. by apply IHU. }
    destruct (decide (U = ∅)) as [->|HU].
    { rewrite (right_id_L ∅ (∪)) in Hc, Hmin, Hmax. by apply IHS. }
    apply set_choose_L in HS as [x Hx]. apply set_choose_L in HU as [y Hy].
    assert (Hcon : ∀ z, connected_in R (S ∪ U) x z → z ∈ S).
    { intros z Hz. induction Hz as [x' Hx'|x' y' z' _ IH Hz' Hcmp]; [done|].
      specialize (IH Hx). apply elem_of_union in Hz' as [?|Hz']; [done|].
      destruct (HR y' z' IH Hz'). destruct Hcmp as [->|[?|?]]; done. }
    assert (HyS : y ∈ S).
    { apply Hcon, Hc; apply elem_of_union; [by left|by right]. }
    assert (He : y ∈ S ∩ U) by (by apply elem_of_intersection). rewrite HSU in He.
    by apply elem_of_empty in He.
Qed.

(** [A] and [B] start a fence: the i-th event of [B] is related to exactly the i-th and the next
    event of [A], among all of [A]; the last event of [B], if it has no next event in [A], is
    related to the last event of [A] only, or the fence is closed. *)
Definition exactly (rel : nat → nat → Prop) (A : list nat) (b : nat) (xs : list nat) : Prop :=
  ∀ z, z ∈ A ∧ rel z b ↔ z ∈ xs.
Definition fence_closing (rel : nat → nat → Prop) (A B : list nat) : Prop :=
  2 ≤ length A ∧ length A = length B ∧
  ∀ b x y, last B = Some b → last A = Some x → head A = Some y → exactly rel A b [x; y].
Definition fence_start (rel : nat → nat → Prop) (A B : list nat) : Prop :=
  A ≠ [] ∧ length B ≤ length A ≤ S (length B) ∧
  (∀ i b x y, B !! i = Some b → A !! i = Some x → A !! S i = Some y → exactly rel A b [x; y]) ∧
  (length A = length B →
     (∀ b x, last B = Some b → last A = Some x → exactly rel A b [x]) ∨ fence_closing rel A B).

(** All choices of one element from each list, the last choice varying fastest. *)
Fixpoint lex_product {A : Type} (ls : list (list A)) : list (list A) :=
  match ls with
  | [] => [[]]
  | l :: ls' => l ≫= λ x, (x ::.) <$> lex_product ls'
  end.

(** [b] stands in the list between two events (or is one of them) that [a] precedes. *)
Definition spans (R : nat → nat → Prop) (a : nat) (l : list nat) (b : nat) : Prop :=
  ∃ i j k x y, i ≤ j ≤ k ∧ l !! i = Some x ∧ l !! j = Some b ∧ l !! k = Some y ∧ R a x ∧ R a y.

(** The relation that the drawing of the layers side by side cannot avoid: the order itself and,
    for each event, every event between two of its successors, with what that is related to. *)
Inductive widened (R : nat → nat → Prop) (S : gset nat) (layers : list (list nat)) : nat → nat → Prop :=
| widened_order a x : x ∈ S → R a x → widened R S layers a x
| widened_span a l b : l ∈ layers → spans R a l b → widened R S layers a b
| widened_next a l b x : l ∈ layers → spans R a l b → widened R S layers b x → widened R S layers a x.

(** The number of pairs of events of [S] that are related only by the widened relation. *)
Definition extension_degree (R : nat → nat → Prop) (S : gset nat) (layers : list (list nat)) (d : nat) : Prop :=
  ∃ ps : list (nat * nat), NoDup ps ∧ length ps = d ∧
    ∀ e x, (e, x) ∈ ps ↔ e ∈ S ∧ widened R S layers e x ∧ ¬ R e x.

(** Where an event is drawn, for a given choice of the layers (each from left to right; the
    first event of a layer has the others of its layer on one side only).  The cone of an
    event: the event itself and everything it is related to by the widened relation, to the
    future or to the past. *)
Definition in_cone (R : nat → nat → Prop) (S : gset nat) (layers : list (list nat)) (e x : nat) : Prop :=
  x = e ∨ widened R S layers e x ∨ widened (λ a b, R b a) S layers e x.
(** The side of the j-th event of layer number l on which the events stand that come before
    it: the cones of the previous events of the layer; and, for each lower layer with a cause of
    the first event of the layer, the events before the first of these causes with their
    futures - without the cone of the event. *)
Definition before_side (R : nat → nat → Prop) (S : gset nat) (layers : list (list nat)) (l j x : nat) : Prop :=
  ∃ layer e, layers !! l = Some layer ∧ layer !! j = Some e ∧ ¬ in_cone R S layers e x ∧
    ((∃ i e', i < j ∧ layer !! i = Some e' ∧ in_cone R S layers e' x) ∨
     (∃ e0 k low i i' y z, layer !! 0 = Some e0 ∧ k < l ∧ layers !! k = Some low ∧
        low !! i = Some y ∧ low !! i' = Some z ∧ R z e0 ∧
        (∀ i'' z', i'' ≤ i → low !! i'' = Some z' → ¬ R z' e0) ∧
        (x = y ∨ widened R S layers y x))).
(** [v], [u]: the place in the list and the integer of the j-th event of layer l. *)
Definition drawn_at (R : nat → nat → Prop) (S : gset nat) (layers : list (list nat)) (l j v u : nat) : Prop :=
  ∃ (layer : list nat) (e : nat) (pasts side other : gset nat),
    layers !! l = Some layer ∧ layer !! j = Some e ∧
    (∀ x, x ∈ pasts ↔ widened (λ a b, R b a) S layers e x) ∧
    (∀ x, x ∈ side ↔ before_side R S layers l j x) ∧
    (∀ x, x ∈ other ↔ x ∈ S ∧ ¬ in_cone R S layers e x ∧ ¬ before_side R S layers l j x) ∧
    v = size pasts + size side ∧ u = size pasts + size other + 1.
