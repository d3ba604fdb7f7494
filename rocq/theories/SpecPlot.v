(** Vocabulary for the theorems about plots, independent of the model of the plotter. *)
From Verif Require Import Base Spec.
From Coq Require Import Reals Qreals.
#[local] Open Scope nat_scope.

(** The links among events: one is covered by the other. *)
Definition linked (h : heap) (a b : nat) : Prop := covers (before h) a b ∨ covers (before h) b a.
(** The pairs (l[i], l[j]) with i < j, ordered by i, then by j. *)
Fixpoint pairs_of (l : list nat) : list (nat * nat) :=
  match l with [] => [] | a :: l' => ((λ b, (a, b)) <$> l') ++ pairs_of l' end.
(** [ps] lists the linked pairs of the distinct events [l], in that order. *)
Definition links_of (h : heap) (l : list nat) (ps : list (nat * nat)) : Prop :=
  ps `sublist_of` pairs_of l ∧ ∀ a b, (a, b) ∈ ps ↔ (a, b) ∈ pairs_of l ∧ linked h a b.

(** The coordinates that a plot reads: of the embedding or of the Hasse diagram. *)
Definition plot_coords (embedded : bool) (h : heap) (a : nat) : list R :=
  Q2R <$> (if embedded then default [] (Base.coords h a) else Base.pos h a).
(** The point at which an event is drawn. *)
Definition point (embedded : bool) (dims : list nat) (h : heap) (a : nat) : list R :=
  (λ d, nth d (plot_coords embedded h a) 0%R) <$> dims.
(** The event has all the coordinates that are drawn. *)
Definition plottable (embedded : bool) (dims : list nat) (h : heap) (a : nat) : Prop :=
  (embedded = true → is_Some (Base.coords h a)) ∧ ∀ d, d ∈ dims → d < length (plot_coords embedded h a).

(** [p] is on the segment between [a] and [b]. *)
Definition on_segment (a p b : list R) : Prop :=
  ∃ t, (0 <= t <= 1)%R ∧ p = zip_with (λ x y, (1 - t) * x + t * y)%R a b.
(** Squared length of the cross product of [u] and [v], in any dimension: the sum of the squares
    of the 2x2 minors (Lagrange: |u|^2 |v|^2 - (u.v)^2). *)
Definition dot (u v : list R) : R := foldr Rplus 0%R (zip_with Rmult u v).
Definition minus (u v : list R) : list R := zip_with Rminus u v.
Definition cross2 (u v : list R) : R := (dot u u * dot v v - dot u v * dot u v)%R.
(** [p] is in the box with corners [a] and [b]. *)
Definition boxed (a p b : list R) : Prop :=
  ∀ i x y z, a !! i = Some x → p !! i = Some y → b !! i = Some z → (Rmin x z <= y <= Rmax x z)%R.
(** [p] is drawn as a gap of the line from [a] to [b]: in the box, and (distance of p from the
    line) * |b - a| < 10^-7. *)
Definition near_segment (a p b : list R) : Prop :=
  boxed a p b ∧ (cross2 (minus p a) (minus b a) < (/ 10 ^ 7) ^ 2)%R.
