(** Specification vocabulary for drawings, independent of the functions of the model: which
    points of the plane a patch paints. *)
From Verif Require Import Base SpacetimeModel ShapeModel OutlineModel.
From Coq Require Import Reals.
#[local] Open Scope nat_scope.

(** The line segments of an outline: consecutive rows; a row of nan separates pieces. *)
Fixpoint segments (o : outline) : list (point * point) :=
  match o with
  | Some a :: ((Some b :: _) as o') => (a, b) :: segments o'
  | _ :: o' => segments o'
  | [] => []
  end.
(** [on_segment a b p]: p lies on the segment from a to b. *)
Definition on_segment (a b p : point) : Prop :=
  ∃ t, (0 <= t <= 1)%R ∧ p.1 = (a.1 + t * (b.1 - a.1))%R ∧ p.2 = (a.2 + t * (b.2 - a.2))%R.
Definition on_outline (o : outline) (p : point) : Prop :=
  ∃ a b, (a, b) ∈ segments o ∧ on_segment a b p.

(** The winding number of the pieces of an outline around a point that is not on it: the
    segments that cross the horizontal ray from p to the right are counted, +1 for those
    going up (p is left of them) and -1 for those going down (p is right of them). *)
Definition orientation (a b p : point) : R :=
  ((b.1 - a.1) * (p.2 - a.2) - (p.1 - a.1) * (b.2 - a.2))%R.
Definition crossing (p : point) (e : point * point) : Z :=
  let '(a, b) := e in
  if decide (a.2 <= p.2 ∧ p.2 < b.2 ∧ 0 < orientation a b p)%R then 1%Z
  else if decide (b.2 <= p.2 ∧ p.2 < a.2 ∧ orientation a b p < 0)%R then (-1)%Z
  else 0%Z.
Definition winding (o : outline) (p : point) : Z := foldr Z.add 0%Z (crossing p <$> segments o).

(** The points painted by a patch.  A polygon is filled by the non-zero winding rule (the
    rule of matplotlib) and its edge is drawn. *)
Definition painted (pa : patch) (p : point) : Prop :=
  match pa with
  | Rectangle c w h => (c.1 <= p.1 <= c.1 + w)%R ∧ (c.2 <= p.2 <= c.2 + h)%R
  | Circle c r => ((p.1 - c.1) * (p.1 - c.1) + (p.2 - c.2) * (p.2 - c.2) <= r * r)%R
  | Polygon o => on_outline o p ∨ winding o p ≠ 0%Z
  end.

(** The cut through the centre of a shape that shows the coordinates [i] and [j]: the point
    with these two coordinates, which agrees with the centre in the others. *)
Definition cut (s : shape) (i j : nat) (p : point) : list R :=
  <[i := p.1]> (<[j := p.2]> (sh_center s)).

(** Surfaces: matplotlib broadcasts the three matrices to a common size. *)
Definition rows (M : matrix) : nat := length M.
Definition columns (M : matrix) : nat := length (default [] (M !! 0)).
(** The entry (i, j) of a matrix of which one row or one column may stand for all. *)
Definition entry (M : matrix) (i j : nat) : R :=
  nth (if decide (columns M = 1) then 0 else j) (nth (if decide (rows M = 1) then 0 else i) M []) 0%R.
(** The nodes of a surface. *)
Definition node (S : surface) (i j : nat) : R * R * R :=
  let '(X, Y, Z) := S in (entry X i j, entry Y i j, entry Z i j).
(** The size of the grid of nodes. *)
Definition grid (S : surface) : nat * nat :=
  let '(X, Y, Z) := S in (max (rows X) (max (rows Y) (rows Z)), max (columns X) (max (columns Y) (columns Z))).

(** The pieces of an outline: the runs of rows without nan. *)
Fixpoint pieces (o : outline) : list (list point) :=
  match o with
  | [] => [[]]
  | None :: o' => [] :: pieces o'
  | Some p :: o' => match pieces o' with q :: qs => (p :: q) :: qs | [] => [[p]] end
  end.
(** A piece is closed: it ends where it starts. *)
Definition closed_piece (l : list point) : Prop := ∃ p, head l = Some p ∧ last l = Some p.
