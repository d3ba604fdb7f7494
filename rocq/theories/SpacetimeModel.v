(** Model of /repo/spacetimes.py (constructors, DefaultShape names and Causality).

    Floating point numbers are modelled by real numbers (no rounding, no overflow); only the
    black hole functions, which evaluate numpy.log at 0 on the horizon, use real numbers
    extended by +inf, -inf and nan as numpy does.  A coordinate array is a list of reals;
    reading beyond its end gives 0 instead of an IndexError and arrays of different lengths
    are subtracted up to the shorter one (numpy raises): the theorems are about arrays of the
    length of the spacetime dimension.  The tolerance [eps] is a parameter: the code uses
    [causality_eps] = 1e-12. *)
From Verif Require Import Base.
From Coq Require Import Reals Rtrigo_def.
#[local] Open Scope nat_scope.

#[global] Instance Rle_decision (x y : R) : Decision (x <= y)%R := Rle_dec x y.
#[global] Instance Rlt_decision (x y : R) : Decision (x < y)%R := Rlt_dec x y.
#[global] Instance Req_decision (x y : R) : Decision (x = y) := Req_EM_T x y.

(** /repo/spacetimes.py:80-94 the numpy arrays given to the causality functions *)
Definition coords : Type := list R.
(** x[i]. (/repo/spacetimes.py:295-341) *)
Definition cget (x : coords) (i : nat) : R := nth i x 0%R.
(** Python's sum. (/repo/spacetimes.py:304-341) *)
Definition rsum (v : list R) : R := foldl Rplus 0%R v.
(** sum(np.square(v)). (/repo/spacetimes.py:304-341) *)
Definition sqsum (v : list R) : R := rsum ((λ a, a * a)%R <$> v).
(** y[1:] - x[1:]. (/repo/spacetimes.py:304-341) *)
Definition vsub (y x : list R) : list R := zip_with Rminus y x.
(** /repo/spacetimes.py:304-341 *)
Definition space_delta (x y : coords) : list R := vsub (tail y) (tail x).

(** /repo/spacetimes.py:21 *)
Definition causality_eps : R := (/ 10 ^ 12)%R.

(** The common last line of most causality functions: ((d >= 0.0) and c, (d < 0.0) and c).
    (/repo/spacetimes.py:302, 311, 325, 341, 654) *)
Definition by_sign (d : R) (c : bool) : bool * bool :=
  (bool_decide (0 <= d)%R && c, bool_decide (d < 0)%R && c).

(** /repo/spacetimes.py:90-94 (Spacetime.Causality, also 1-dimensional flat spacetime). *)
Definition isCausal_base (x y : coords) : bool * bool :=
  let t_delta := (cget y 0 - cget x 0)%R in
  (bool_decide (0 <= t_delta)%R, bool_decide (t_delta < 0)%R).

(** /repo/spacetimes.py:295-302 *)
Definition isCausal_flat2D (eps : R) (x y : coords) : bool * bool :=
  let t_delta := (cget y 0 - cget x 0)%R in
  by_sign t_delta (bool_decide (Rabs (cget y 1 - cget x 1) - eps <= Rabs t_delta)%R).

(** /repo/spacetimes.py:304-311 *)
Definition isCausal_flat (eps : R) (x y : coords) : bool * bool :=
  let t_delta := (cget y 0 - cget x 0)%R in
  by_sign t_delta (bool_decide (sqsum (space_delta x y) - eps <= t_delta * t_delta)%R).

(** /repo/spacetimes.py:332-335 (also 318-320): the spatial difference along one direction. *)
Definition period_delta (p xi yi : R) : R :=
  let r_delta := Rabs (yi - xi) in
  if decide (0 < p)%R then Rmin r_delta (p - r_delta) else r_delta.

(** /repo/spacetimes.py:315-325 *)
Definition isCausal_flat2Dperiodic (eps : R) (period : list R) (x y : coords) : bool * bool :=
  let t_delta := (cget y 0 - cget x 0)%R in
  let r_delta := period_delta (nth 0 period 0%R) (cget x 1) (cget y 1) in
  by_sign t_delta (bool_decide (Rabs r_delta - eps <= Rabs t_delta)%R).

(** /repo/spacetimes.py:327-341; the loop over i in range(1, self.Dim). *)
Definition isCausal_flatperiodic (eps : R) (dim : nat) (period : list R) (x y : coords)
    : bool * bool :=
  let t_delta := (cget y 0 - cget x 0)%R in
  let r2_delta :=
    foldl (λ r2 i, let r_i := period_delta (nth (i - 1) period 0%R) (cget x i) (cget y i) in
                   r2 + r_i * r_i)%R 0%R (seq 1 (dim - 1)) in
  by_sign t_delta (bool_decide (r2_delta - eps <= t_delta * t_delta)%R).

(** /repo/spacetimes.py:546-564; [alpha] is self._alpha. *)
Definition isCausal_dS (eps alpha : R) (x y : coords) : bool * bool :=
  let alpha_sq := (alpha * alpha)%R in
  let r2_x := sqsum (tail x) in
  let r2_y := sqsum (tail y) in
  if decide (alpha_sq <= r2_x)%R then (false, false)
  else if decide (alpha_sq <= r2_y)%R then (false, false)
  else
    let amp_x := sqrt (alpha_sq - r2_x) in
    let amp_y := sqrt (alpha_sq - r2_y) in
    let x0_x := (amp_x * sinh (cget x 0 / alpha))%R in
    let x1_x := (amp_x * cosh (cget x 0 / alpha))%R in
    let x0_y := (amp_y * sinh (cget y 0 / alpha))%R in
    let x1_y := (amp_y * cosh (cget y 0 / alpha))%R in
    let x0_delta := (x0_y - x0_x)%R in
    by_sign x0_delta
      (bool_decide (sqsum (space_delta x y) + (x1_y - x1_x) * (x1_y - x1_x) - eps
                    <= x0_delta * x0_delta)%R).

(** /repo/spacetimes.py:641-654 *)
Definition isCausal_AdS (eps alpha : R) (x y : coords) : bool * bool :=
  let alpha_sq := (alpha * alpha)%R in
  let amp_x := sqrt (alpha_sq + sqsum (tail x)) in
  let amp_y := sqrt (alpha_sq + sqsum (tail y)) in
  let x0_x := (amp_x * sin (cget x 0 / alpha))%R in
  let x1_x := (amp_x * cos (cget x 0 / alpha))%R in
  let x0_y := (amp_y * sin (cget y 0 / alpha))%R in
  let x1_y := (amp_y * cos (cget y 0 / alpha))%R in
  let x0_delta := (x0_y - x0_x)%R in
  by_sign x0_delta
    (bool_decide (sqsum (space_delta x y) - eps
                  <= x0_delta * x0_delta + (x1_y - x1_x) * (x1_y - x1_x))%R).

(** Real numbers with the special values of numpy. (/repo/spacetimes.py:693-790) *)
Inductive fl : Type := Fin (r : R) | PInf | NInf | NaN.
(** /repo/spacetimes.py:693-790 negation *)
Definition fl_neg (a : fl) : fl :=
  match a with Fin r => Fin (- r) | PInf => NInf | NInf => PInf | NaN => NaN end.
(** /repo/spacetimes.py:693-790 addition *)
Definition fl_add (a b : fl) : fl :=
  match a, b with
  | NaN, _ | _, NaN => NaN
  | PInf, NInf | NInf, PInf => NaN
  | PInf, _ | _, PInf => PInf
  | NInf, _ | _, NInf => NInf
  | Fin r, Fin s => Fin (r + s)
  end.
(** /repo/spacetimes.py:693-790 subtraction *)
Definition fl_sub (a b : fl) : fl := fl_add a (fl_neg b).
(** multiplication with a positive constant. (/repo/spacetimes.py:693-746) *)
Definition fl_scale (c : R) (a : fl) : fl :=
  match a with Fin r => Fin (c * r) | _ => a end.
(** np.log(np.abs(x)). (/repo/spacetimes.py:693-746) *)
Definition fl_log_abs (x : R) : fl := if decide (x = 0%R) then NInf else Fin (ln (Rabs x)).
(** a >= b; False as soon as one of them is nan. (/repo/spacetimes.py:748-790) *)
Definition fl_ge (a b : fl) : bool :=
  match a, b with
  | NaN, _ | _, NaN => false
  | PInf, _ | _, NInf => true
  | NInf, _ | _, PInf => false
  | Fin r, Fin s => bool_decide (s <= r)%R
  end.

(** /repo/spacetimes.py:706-709 (_light_EF, outgoing). *)
Definition light_EF_out (r_S t0 r0 r : R) : fl :=
  fl_add (Fin (r - r0 + t0)) (fl_scale (2 * r_S) (fl_log_abs ((r - r_S) / (r0 - r_S)))).
(** /repo/spacetimes.py:732-735 (_light_S, outgoing). *)
Definition light_S_out (r_S t0 r0 r : R) : fl :=
  fl_add (Fin (r - r0 + t0)) (fl_scale r_S (fl_log_abs ((r - r_S) / (r0 - r_S)))).

(** /repo/spacetimes.py:752-788; [schw] is isSchwarzschildMetric. *)
Definition isCausal_BH2D (schw : bool) (r_S : R) (x y : coords) : bool * bool :=
  let f := if schw then light_S_out r_S 0 0 else light_EF_out r_S 0 0 in
  if decide (cget x 1 * cget y 1 < 0)%R then (false, false)
  else
    let t_delta := (cget y 0 - cget x 0)%R in
    let r_x := Rabs (cget x 1) in
    let r_y := Rabs (cget y 1) in
    let isSwapped :=
      if schw && (bool_decide (r_x < r_S)%R || bool_decide (r_y < r_S)%R)
      then bool_decide (r_x < r_y)%R
      else bool_decide (t_delta < 0)%R in
    let '(r_x, r_y, t_delta) :=
      if isSwapped then (r_y, r_x, (- t_delta)%R) else (r_x, r_y, t_delta) in
    let t_out := fl_sub (f r_y) (f r_x) in
    let t_in := if schw then fl_neg t_out else Fin (r_x - r_y) in
    let isCausal :=
      if decide (r_y <= r_x ∧ r_x <= r_S)%R then fl_ge t_out (Fin t_delta) && fl_ge (Fin t_delta) t_in
      else if decide (r_S <= r_x ∧ r_y <= r_x)%R then fl_ge (Fin t_delta) t_in
      else if decide (r_S <= r_x ∧ r_x <= r_y)%R then fl_ge (Fin t_delta) t_out
      else false in
    if isSwapped then (false, isCausal) else (isCausal, false).

(** ** The spacetime objects *)
(** /repo/spacetimes.py:24-38, 243-278, 464-484, 616-636, 657-687 *)
Inductive spacetime : Type :=
| Generic                                     (* Spacetime() *)
| Flat (dim : nat) (period : option (list R)) (* Some: isPeriodic with these periods *)
| DeSitter (dim : nat) (alpha : R)
| AntiDeSitter (dim : nat) (alpha : R)
| BlackHole (r_S : R) (schwarzschild : bool).

(** The argument 'period': a float, a tuple or anything else.
    (/repo/spacetimes.py:254-278) *)
Inductive period_arg : Type := PFloat (p : R) | PTuple (ps : list R) | POther.

(** /repo/spacetimes.py:254-278 *)
Definition FlatSpacetime (dim : Z) (period : period_arg) : res spacetime :=
  if decide (dim < 1)%Z then Err ValueError
  else
    let n := Z.to_nat dim in
    match period with
    | PFloat p =>
      if decide (0 < p)%R then Ok (Flat n (Some (replicate (n - 1) p))) else Ok (Flat n None)
    | PTuple ps =>
      if decide (length ps = n - 1)
      then if decide (Exists (λ p, 0 < p)%R ps) then Ok (Flat n (Some ps)) else Ok (Flat n None)
      else Err ValueError
    | POther => Err ValueError
    end.

(** /repo/spacetimes.py:473-484, 529-541 *)
Definition deSitterSpacetime (dim : Z) (r_dS : R) : res spacetime :=
  if decide (dim < 2)%Z then Err ValueError
  else if decide (0 < r_dS)%R then Ok (DeSitter (Z.to_nat dim) r_dS) else Err ValueError.

(** /repo/spacetimes.py:473-484, 625-636 *)
Definition AntideSitterSpacetime (dim : Z) (r_AdS : R) : res spacetime :=
  if decide (dim < 2)%Z then Err ValueError
  else if decide (0 < r_AdS)%R then Ok (AntiDeSitter (Z.to_nat dim) r_AdS) else Err ValueError.

(** /repo/spacetimes.py:664-687 *)
Definition BlackHoleSpacetime (dim : Z) (r_S : R) (metric : string) : res spacetime :=
  if decide (dim < 2)%Z then Err ValueError
  else if decide (2 < dim)%Z then Err ValueError
  else if decide (metric = "Eddington-Finkelstein" ∨ metric = "Schwarzschild")
  then if decide (0 < r_S)%R
       then Ok (BlackHole r_S (bool_decide (metric = "Schwarzschild"))) else Err ValueError
  else Err ValueError.

(** /repo/spacetimes.py:47-51, 35 (Dim) *)
Definition Dim (st : spacetime) : nat :=
  match st with
  | Generic => 2
  | Flat d _ | DeSitter d _ | AntiDeSitter d _ => d
  | BlackHole _ _ => 2
  end.

(** /repo/spacetimes.py:80-94, 289-341, 543-564, 638-654, 748-790 (Causality). *)
Definition Causality (eps : R) (st : spacetime) : coords → coords → bool * bool :=
  match st with
  | Generic => isCausal_base
  | Flat dim period =>
    if decide (dim = 1) then isCausal_base
    else match period with
         | None => if decide (dim = 2) then isCausal_flat2D eps else isCausal_flat eps
         | Some ps =>
           if decide (dim = 2) then isCausal_flat2Dperiodic eps ps
           else isCausal_flatperiodic eps dim ps
         end
  | DeSitter _ alpha => isCausal_dS eps alpha
  | AntiDeSitter _ alpha => isCausal_AdS eps alpha
  | BlackHole r_S schw => isCausal_BH2D schw r_S
  end.

(** /repo/spacetimes.py:73-78, 284-287 (the name of DefaultShape). *)
Definition DefaultShape_name (st : spacetime) : string :=
  match st with
  | Flat _ (Some _) => "cube"
  | Flat _ None => "diamond"
  | _ => "cylinder"
  end.

(** /repo/spacetimes.py:43-44, 280-282, 689-691 (repr): self.Parameter('period') raises
    KeyError when the key is missing.  The text itself is not modelled. *)
Definition repr_ok (st : spacetime) : res unit :=
  match st with Flat _ None => Err KeyError | _ => Ok tt end.
