(** Model of the causal cones of black hole spacetimes, /repo/spacetimes.py:693-746, 792-882, and
    of ConePlotter of the base class (161-239) for them.

    Floating point numbers are real numbers, except that the times of the light rays can be
    infinite on the horizon ([fl], SpacetimeModel).  Simplification: in Newton's method the
    functions are evaluated as functions of real numbers, so that an iterate exactly on the
    horizon is not modelled faithfully (Coq's ln 0 is 0).  Signed zeros are not modelled: the
    sign of the coordinate 0 is +1. *)
From Verif Require Import Base SpacetimeModel ShapeModel OutlineModel CalcModel ConeModel.
From Coq Require Import Reals.
#[local] Open Scope nat_scope.

(** A row of XT; None is a row of nan.
    (/repo/spacetimes.py:799-803 a row of the array XT) *)
Definition bh_row : Type := option (fl * fl).

(** /repo/spacetimes.py:727-730 (_light_S, ingoing); outgoing: SpacetimeModel. *)
Definition light_S_in (r_S t0 r0 r : R) : fl :=
  fl_add (Fin (r0 - r + t0)) (fl_neg (fl_scale r_S (fl_log_abs ((r - r_S) / (r0 - r_S))))).
(** /repo/spacetimes.py:712-713, 742-743, 738-739: the derivatives *)
Definition light_EF_out_d1 (r_S r : R) : R := (1 + 2 * r_S / (r - r_S))%R.
(** /repo/spacetimes.py:742-743 *)
Definition light_S_out_d1 (r_S r : R) : R := (1 + r_S / (r - r_S))%R.
(** /repo/spacetimes.py:738-739 *)
Definition light_S_in_d1 (r_S r : R) : R := (- 1 - r_S / (r - r_S))%R.

(** The value of a time that is not infinite.
    (/repo/spacetimes.py:805-882 Newton's method gets a function of floats) *)
Definition fl_real (a : fl) : R := match a with Fin r => r | _ => 0%R end.
(** Newton(f, fd, x0, t, xmin, xmax) with the defaults of /repo/calculations.py:76-80 *)
Definition precission : R := (1 / 1000000)%R.
(** /repo/spacetimes.py:805-882 calls of calculations.py:76-102 *)
Definition Newton (f : R → fl) (fd : R → R) (x0 t : R) (xmin xmax : option R) : R :=
  NewtonsMethod (λ r, fl_real (f r)) fd x0 t xmin xmax 0 precission 50.

(** np.copysign(r, x). (/repo/spacetimes.py:805-882 numpy) *)
Definition copysign (r x : R) : R := if decide (x < 0)%R then (- Rabs r)%R else Rabs r.
(** XT[:, 0] = np.copysign(X, x); XT[:, 1] = f(X). (/repo/spacetimes.py:805-882) *)
Definition ray_rows (x : R) (f : R → fl) (X : list R) : list bh_row :=
  (λ r, Some (Fin (copysign r x), f r)) <$> X.
(** [x, t]. (/repo/spacetimes.py:805-882) *)
Definition fin_row (x t : R) : bh_row := Some (Fin x, Fin t).

(** min(t, f): [f] is finite or infinite. (/repo/spacetimes.py:805-882) *)
Definition fl_min (t : R) (a : fl) : R := match a with Fin r => Rmin t r | _ => t end.

(** /repo/spacetimes.py:805-855: the Schwarzschild metric *)
Definition S_XT_rows (r_S t t0 x : R) (n : nat) : list bh_row :=
  let r_0 := Rabs x in
  let f_in := light_S_in r_S t0 r_0 in
  let fd_in := light_S_in_d1 r_S in
  let f_out := light_S_out r_S t0 r_0 in
  let fd_out := light_S_out_d1 r_S in
  if decide (r_0 = r_S) then [fin_row x t0; fin_row x t; fin_row 0 t; fin_row 0 t0]
  else if decide (r_0 < r_S)%R then
    if decide (t0 < t)%R then
      ray_rows x f_out (linspace r_0 0 n) ++ ray_rows x f_in (rev (linspace r_0 0 n))
    else
      let r_out := Newton f_in fd_in r_0 t (Some r_S) None in
      let r_in := Newton f_out fd_out r_0 t (Some 0%R) (Some r_S) in
      ray_rows x f_in (linspace r_out r_0 n) ++ ray_rows x f_out (linspace r_0 r_in n)
  else
    let r_out := Newton f_out fd_out r_0 t (Some r_S) None in
    let r_in := Newton f_in fd_in r_0 t (Some r_S) None in
    let XT := ray_rows x f_out (linspace r_0 r_out n) ++ ray_rows x f_in (linspace r_in r_0 n) in
    let t_sing := f_in 0%R in
    if bool_decide (t0 < t)%R && negb (fl_ge t_sing (Fin t)) then
      let r_in := Newton f_in fd_in (r_S / 2) t (Some 0%R) (Some r_S) in
      XT ++ None :: ray_rows x f_in (linspace r_in 0 n) ++ [fin_row 0 t]
    else XT.

(** /repo/spacetimes.py:856-882: the Eddington-Finkelstein metric *)
Definition EF_XT_rows (r_S t t0 x : R) (n : nat) : list bh_row :=
  let r_0 := Rabs x in
  let r_in := (t0 - t + r_0)%R in
  let f_out := light_EF_out r_S t0 r_0 in
  let fd_out := light_EF_out_d1 r_S in
  (** the time is changed inside the horizon only *)
  let t := if decide (r_0 < r_S)%R then fl_min t (f_out 0%R) else t in
  let front :=
    if decide (r_0 = r_S) then [fin_row x t0; fin_row x t]
    else
      let r_out :=
        if decide (r_0 < r_S)%R then Newton f_out fd_out r_0 t (Some 0%R) (Some r_S)
        else Newton f_out fd_out (3 / 2 * r_S) t (Some r_S) None in
      ray_rows x f_out (linspace r_0 r_out n) in
  front ++ (if decide (r_in < 0)%R then [fin_row 0 t; fin_row 0 (t0 + r_0)]
            else [fin_row (copysign 1 x * r_in) t]).

(** /repo/spacetimes.py:792-882 *)
Definition BH_XT_slice (schw : bool) (r_S t : R) (origin : coords) (xdim : Z) (samplingsize : Z) : res (list bh_row) :=
  res_map (λ x, (if schw then S_XT_rows else EF_XT_rows) r_S t (cget origin 0) x (sampling samplingsize))
    (np_index origin xdim).

(** /repo/spacetimes.py:161-239 for black holes: the slices in space are not implemented. *)
Definition BH_cone (schw : bool) (r_S : R) (dims : list Z) (timesign : R) (alpha : option (R → R))
    (samplingsize : Z) (origin : coords) (timeslice : R) : res (option (option R * list bh_row)) :=
  let timeaxis := time_axis dims in
  let axis k := dim_at dims (Z.to_nat ((timeaxis + k) mod Z.of_nat (length dims))) in
  match cone_start timesign alpha origin timeslice with
  | None => Ok None
  | Some (_, a) =>
    if is3d dims then Err NotImplementedError
    else if decide (timeaxis < 0)%Z then Err NotImplementedError
    else
      res_map (λ rows, Some (a, if decide (timeaxis = 0)%Z
                                then (λ row : bh_row, (λ p : fl * fl, (p.2, p.1)) <$> row) <$> rows else rows))
        (BH_XT_slice schw r_S timeslice origin (axis 1%Z) (Z.of_nat (sampling samplingsize)))
  end.
