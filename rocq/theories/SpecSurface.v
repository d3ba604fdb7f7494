(** Specification vocabulary for surfaces in space: the cut of a shape that shows three
    coordinates, the boundary of a set, and the points of a drawn surface. *)
From Verif Require Import Base SpacetimeModel ShapeModel OutlineModel SpecOutline.
From Coq Require Import Reals.
#[local] Open Scope nat_scope.

Notation point3 := (R * R * R)%type.

(** The cut through the centre of a shape that shows the coordinates [i], [j] and [k]: the
    point with these coordinates, which agrees with the centre in the others. *)
Definition cut3 (s : shape) (i j k : nat) (q : point3) : list R :=
  <[i := q.1.1]> (<[j := q.1.2]> (<[k := q.2]> (sh_center s))).

(** The three coordinates of two points differ by at most [eps]. *)
Definition close (eps : R) (p q : point3) : Prop :=
  (Rabs (p.1.1 - q.1.1) <= eps)%R ∧ (Rabs (p.1.2 - q.1.2) <= eps)%R ∧ (Rabs (p.2 - q.2) <= eps)%R.

(** The boundary of a closed set: the points of the set that have points outside the set
    arbitrarily close. *)
Definition boundary (A : point3 → Prop) (q : point3) : Prop :=
  A q ∧ ∀ eps, (0 < eps)%R → ∃ q', close eps q q' ∧ ¬ A q'.

(** The points of a drawn surface: each cell of the grid of nodes is filled by interpolation
    in both directions. *)
Definition interpolate (u v a b c d : R) : R :=
  ((1 - u) * (1 - v) * a + u * (1 - v) * b + (1 - u) * v * c + u * v * d)%R.
Definition on_surface (F : surface) (q : point3) : Prop :=
  ∃ a b u v, S a < (grid F).1 ∧ S b < (grid F).2 ∧ (0 <= u <= 1)%R ∧ (0 <= v <= 1)%R ∧
    let n00 := node F a b in let n10 := node F (S a) b in let n01 := node F a (S b) in let n11 := node F (S a) (S b) in
    q.1.1 = interpolate u v n00.1.1 n10.1.1 n01.1.1 n11.1.1 ∧
    q.1.2 = interpolate u v n00.1.2 n10.1.2 n01.1.2 n11.1.2 ∧
    q.2 = interpolate u v n00.2 n10.2 n01.2 n11.2.
