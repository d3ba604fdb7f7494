(** Specification vocabulary for causal cones, in terms of the causality functions of the
    spacetimes (with tolerance 0). *)
From Verif Require Import Base SpacetimeModel OutlineModel SpecOutline SpecSurface.
From Coq Require Import Reals.
#[local] Open Scope nat_scope.

(** The argument timesign of ConePlotter. *)
Definition sign (past : bool) : R := if past then (-1)%R else 1%R.

(** y lies in the causal future of o, or in its past. *)
Definition in_cone (st : spacetime) (past : bool) (o y : coords) : Prop :=
  (if past then Causality 0 st y o else Causality 0 st o y).1 = true.

(** The time of y is not beyond the time slice. *)
Definition up_to (past : bool) (timeslice : R) (y : coords) : Prop :=
  if past then (timeslice <= cget y 0)%R else (cget y 0 <= timeslice)%R.

(** The point that agrees with o except for the given coordinates. *)
Definition place (o : list R) (xs : list (nat * R)) : list R :=
  foldr (λ (e : nat * R) (y : list R), <[e.1 := e.2]> y) o xs.

(** The period in the direction of the coordinate m; not positive if it is not periodic. *)
Definition period_of (st : spacetime) (m : nat) : R :=
  match m, st with S k, Flat _ (Some ps) => nth k ps 0%R | _, _ => 0%R end.
(** The points o and y are at most one period apart in every periodic direction. *)
Definition one_period (st : spacetime) (o y : coords) : Prop :=
  ∀ m, 1 ≤ m → (0 < period_of st m)%R → (Rabs (cget y m - cget o m) <= period_of st m)%R.

(** b is a, or its image one period further along the coordinate m. *)
Definition image (st : spacetime) (m : nat) (a b : R) : Prop :=
  b = a ∨ (0 < period_of st m ∧ (b = a - period_of st m ∨ b = a + period_of st m))%R.

(** The cone with origin o is not drawn: the time slice is not in its time direction, or the
    opacity is not positive. *)
Definition not_drawn (past : bool) (alpha : option (R → R)) (o : coords) (timeslice : R) : Prop :=
  let r := (sign past * (timeslice - cget o 0))%R in
  (r <= 0)%R ∨ ∃ f, alpha = Some f ∧ (f r <= 0)%R.
(** The opacity, if there is a function for it. *)
Definition opacity (past : bool) (alpha : option (R → R)) (o : coords) (timeslice : R) : option R :=
  (λ f, f (sign past * (timeslice - cget o 0))%R) <$> alpha.

(** y lies on the light cone of o in Minkowski spacetime with [dim] dimensions. *)
Definition on_light_cone (dim : nat) (past : bool) (o y : coords) : Prop :=
  (0 <= sign past * (cget y 0 - cget o 0))%R ∧
  rsum ((λ m, (cget y m - cget o m) * (cget y m - cget o m))%R <$> seq 1 (dim - 1)) =
    ((cget y 0 - cget o 0) * (cget y 0 - cget o 0))%R.

(** The surfaces show the set A: their nodes are points of A, and every point of A is close to
    a point of the surfaces. *)
Definition draws (Fs : list surface) (A : point3 → Prop) (tol : R) : Prop :=
  (∀ F a b, F ∈ Fs → a < (grid F).1 → b < (grid F).2 → A (node F a b)) ∧
  (∀ q, A q → ∃ F q', F ∈ Fs ∧ on_surface F q' ∧ close tol q q').

(** y lies on the light cone of o: it is in the causal cone, and no earlier point at the same
    position in space is. *)
Definition first_light (st : spacetime) (past : bool) (o y : list R) : Prop :=
  in_cone st past o y ∧
  ∀ t, (sign past * (t - cget o 0) < sign past * (cget y 0 - cget o 0))%R → ¬ in_cone st past o (<[0 := t]> y).

(** The outline returned to the point where it starts: matplotlib's Polygon closes the path. *)
Definition closed_path (rows : outline) : outline := match rows with [] => [] | r :: _ => rows ++ [r] end.
