(** Specification vocabulary for the cones of black holes. *)
From Verif Require Import Base SpacetimeModel BlackHoleConeModel.
From Coq Require Import Reals.
#[local] Open Scope nat_scope.

(** The coordinate with radius r on the side of x. *)
Definition on_side (x r : R) : R := if decide (x < 0)%R then (- r)%R else r.
(** The rows follow the curve t = time(r) on the side of x, in [N] equal steps from the radius
    a to the radius b; at the horizon the curve is infinite. *)
Definition traces (rows : list bh_row) (N : nat) (x r_S a b : R) (time : R → R) : Prop :=
  length rows = N ∧
  ∀ k, k < N → let r := (a + INR k / INR (N - 1) * (b - a))%R in
    ∃ t, rows !! k = Some (Some (Fin (on_side x r), t)) ∧ (r ≠ r_S → t = Fin (time r)) ∧ (r = r_S → t = NInf ∨ t = PInf).
(** The vertex (x, t). *)
Definition vertex (x t : R) : bh_row := Some (Fin x, Fin t).
