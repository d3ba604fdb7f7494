(** Specification vocabulary for shapes, independent of the model's functions: which points
    belong to a shape, and the volume of the solid bodies. *)
From Verif Require Import Base SpacetimeModel ShapeModel.
From Coq Require Import Reals.
#[local] Open Scope nat_scope.

(** Coordinate [i] of a point relative to the centre of the shape. *)
Definition offset (s : shape) (x : list R) (i : nat) : R := (nth i x 0 - nth i (sh_center s) 0)%R.
(** Squared distance to the centre in the coordinates [i .. dim - 1]. *)
Definition dist2_from (s : shape) (x : list R) (i : nat) : R :=
  rsum ((λ k, offset s x k * offset s x k)%R <$> seq i (sh_dim s - i)).
(** Distance to the centre in all coordinates, and in the space coordinates. *)
Definition dist_all (s : shape) (x : list R) : R := sqrt (dist2_from s x 0).
Definition dist_space (s : shape) (x : list R) : R := sqrt (dist2_from s x 1).

(** The region described in /repo/shapes.py:36-62.  The empty interior of a hollow cylinder
    is the inner cylinder of the same duration. *)
Definition in_region (s : shape) (x : list R) : Prop :=
  let r := default 0%R (sh_radius s) in
  let h := default 0%R (sh_hollow s) in
  (sh_name s = "ball" → (h * r <= dist_all s x <= r)%R) ∧
  (sh_name s = "bicone" → (h * r <= Rabs (offset s x 0) + dist_space s x <= r)%R) ∧
  (sh_name s = "cylinder" → (Rabs (offset s x 0) <= default 0 (sh_duration s) / 2)%R ∧
                            (h * r <= dist_space s x <= r)%R) ∧
  (sh_name s = "cube" → ∀ i, i < sh_dim s → (Rabs (offset s x i) <= default 0 (sh_edge s) / 2)%R) ∧
  (sh_name s = "cuboid" → ∀ i, i < sh_dim s →
     (Rabs (offset s x i) <= nth i (default [] (sh_edges s)) 0 / 2)%R).
Definition in_shape (s : shape) (x : list R) : Prop := length x = sh_dim s ∧ in_region s x.

(** Volume of the unit ball: 1, 2, and the recursion V(d) = 2 pi / d V(d - 2). *)
Fixpoint unit_ball (d : nat) : R :=
  match d with
  | 0 => 1%R
  | 1 => 2%R
  | S (S k) => (2 * PI / INR d * unit_ball k)%R
  end.
Definition ball_volume (d : nat) (r : R) : R := (unit_ball d * r ^ d)%R.
(** A cylinder over, and a double cone of height [r] on both sides of, the ball of the
    [d - 1] space coordinates. *)
Definition cylinder_volume (d : nat) (r T : R) : R := (ball_volume (d - 1) r * T)%R.
Definition bicone_volume (d : nat) (r : R) : R := (2 * (r * ball_volume (d - 1) r / INR d))%R.
Definition box_volume (edges : list R) : R := foldr Rmult 1%R edges.
