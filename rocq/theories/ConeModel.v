(** Model of the causal cones of /repo/spacetimes.py: ConePlotter of the base class (lines
    96-239), of flat spacetime (343-457) and of (anti-) de Sitter spacetime (490-521, 566-613).

    Floating point numbers are real numbers.  The handle returned by ConePlotter is a function
    of the origin and the time slice; its result is None, or the polygon or the surfaces
    passed to matplotlib together with the opacity (None if no function dynamicAlpha is given:
    the plotting parameters are not changed).  The axes object and the other plotting
    parameters are not modelled.  [dims] is a list of 2 or 3 dimensions. *)
From Verif Require Import Base SpacetimeModel ShapeModel OutlineModel.
From Coq Require Import Reals Rtrigo_def Ratan.
#[local] Open Scope nat_scope.

(** /repo/spacetimes.py:194-239, 416-457 what is added to the axes *)
Inductive drawn : Type := DPatch (rows : outline) | DSurfaces (fs : list surface).
(** /repo/spacetimes.py:131-239 the result of the plotting function *)
Definition cone_result : Type := res (option (option R * drawn)).

(** dims[k]. (/repo/spacetimes.py:131-239) *)
Definition dim_at (dims : list Z) (k : nat) : Z := nth k dims 0%Z.
(** len(dims) == 3. (/repo/spacetimes.py:131-239) *)
Definition is3d (dims : list Z) : bool := bool_decide (length dims = 3).

(** /repo/spacetimes.py:185-192 (also 407-414): the radius and the opacity, or None. *)
Definition cone_start (timesign : R) (alpha : option (R → R)) (origin : coords) (timeslice : R)
    : option (R * option R) :=
  let r := (timesign * (timeslice - cget origin 0))%R in
  if decide (r <= 0)%R then None
  else match alpha with
       | None => Some (r, None)
       | Some f => if decide (f r <= 0)%R then None else Some (r, Some (f r))
       end.

(** ** Flat spacetime *)
(** /repo/spacetimes.py:384-386: the shifts along one axis. *)
Definition axis_shifts (k : R) : list R := if decide (0 < k)%R then [- k; 0; k]%R else [0%R].
(** self.Parameter('period')[d - 1], or 0.0 for the time axis [a].
    (/repo/spacetimes.py:360-403) *)
Definition period_at (ps : list R) (timeaxis : Z) (a : nat) (dims : list Z) : res R :=
  if decide (timeaxis = Z.of_nat a) then Ok 0%R else np_index ps (dim_at dims a - 1).
(** /repo/spacetimes.py:360-403 *)
Definition cone_shifts (period : option (list R)) (dims : list Z) : res (list (list R)) :=
  let timeaxis := time_axis dims in
  match period with
  | None => Ok [if is3d dims then [0; 0; 0]%R else [0; 0]%R]
  | Some ps =>
    res_bind (period_at ps timeaxis 0 dims) (λ k_x,
    res_bind (period_at ps timeaxis 1 dims) (λ k_y,
    if is3d dims then
      res_bind (period_at ps timeaxis 2 dims) (λ k_z,
      Ok (flat_map (λ x, flat_map (λ y, (λ z, [x; y; z]) <$> axis_shifts k_z) (axis_shifts k_y)) (axis_shifts k_x)))
    else Ok (flat_map (λ x, (λ y, [x; y]) <$> axis_shifts k_y) (axis_shifts k_x))))
  end.
(** /repo/spacetimes.py:433-444 *)
Definition cone_triangle (timeaxis : Z) (o s : list R) (r timeslice : R) : outline :=
  let o0 := cget o 0 in
  let o1 := cget o 1 in
  (λ p : point, Some (p.1 - cget s 0, p.2 - cget s 1)%R) <$>
    if decide (timeaxis = 0)%Z
    then [(o0, o1); (timeslice, o1 - r); (timeslice, o1 + r); (o0, o1)]%R
    else [(o0, o1); (o0 + r, timeslice); (o0 - r, timeslice); (o0, o1)]%R.
(** /repo/spacetimes.py:448-451: the parts are separated by rows of nan. *)
Definition join (parts : list outline) : outline :=
  match parts with [] => [] | p :: ps => foldl (λ o q, o ++ None :: q) p ps end.
(** /repo/spacetimes.py:405-457 (the handle) *)
Definition flat_cone (junk : nat → point) (shifts : list (list R)) (dims : list Z) (timesign : R)
    (alpha : option (R → R)) (samplingsize : Z) (origin : coords) (timeslice : R) : cone_result :=
  match cone_start timesign alpha origin timeslice with
  | None => Ok None
  | Some (r, a) =>
    let timeaxis := time_axis dims in
    let n := Z.of_nat (sampling samplingsize) in
    res_bind (np_take origin dims) (λ o,
    if is3d dims then
      Ok (Some (a, DSurfaces (flat_map (λ s,
        if decide (timeaxis < 0)%Z then BallSurface (vsub o s) r n
        else OpenConeSurface (vsub o s) r (timesign * r) timeaxis n) shifts)))
    else
      Ok (Some (a, DPatch (join ((λ s,
        if decide (timeaxis = 0 ∨ timeaxis = 1)%Z then cone_triangle timeaxis o s r timeslice
        else CircleEdge junk (vsub o s) r 0 n) <$> shifts)))))
  end.

(** ** De Sitter spacetime *)
(** numpy.arctanh. (/repo/spacetimes.py:566-613) *)
Definition arctanh (x : R) : R := (ln ((1 + x) / (1 - x)) / 2)%R.
(** numpy.arctan2 (without signed zeros). (/repo/spacetimes.py:571-613) *)
Definition arctan2 (y x : R) : R :=
  if decide (0 < x)%R then atan (y / x)
  else if decide (x < 0)%R then (if decide (0 <= y)%R then atan (y / x) + PI else atan (y / x) - PI)%R
  else if decide (0 < y)%R then (PI / 2)%R
  else if decide (y < 0)%R then (- (PI / 2))%R
  else 0%R.

(** /repo/spacetimes.py:96-104 *)
Definition T_slice_sampling (t : R) (origin : coords) (samplingsize : Z) : list R :=
  linspace (cget origin 0) t
    (if decide (0 <= samplingsize)%Z then Z.to_nat samplingsize else default_samplingsize).

(** /repo/spacetimes.py:566-569 *)
Definition XT_slice2 (alpha t t0 x0 : R) : R * R :=
  (alpha * tanh (arctanh x0 - (t - t0) / alpha), alpha * tanh (arctanh x0 + (t - t0) / alpha))%R.

(** /repo/spacetimes.py:592-606: the ellipse in coordinates rotated by -phi0 (Theta0 is 1);
    [r0_sq] is r0^2 in units of alpha. *)
Definition ellipse_center_radii (alpha r0_sq delta_t : R) : R * R * R :=
  let r0 := sqrt r0_sq in
  let x_i := (alpha * tanh (arctanh r0 - delta_t))%R in
  let x_o := (alpha * tanh (arctanh r0 + delta_t))%R in
  let x_c := (1 / 2 * (x_o + x_i))%R in
  let a := (1 / 2 * (x_o - x_i))%R in
  let b :=
    if decide (0 < r0 ∧ 0 < a)%R then
      let delta_t_tanh := tanh delta_t in
      let r_s := (alpha * sqrt ((1 - r0_sq) * (delta_t_tanh * delta_t_tanh) + r0_sq))%R in
      let arg_s := atan (sqrt (1 - r0_sq) * delta_t_tanh / r0) in
      sqrt ((r_s * sin arg_s) * (r_s * sin arg_s) /
            (1 - ((r_s * cos arg_s - x_c) / a) * ((r_s * cos arg_s - x_c) / a)))
    else a in
  (x_c, a, b).
(** np.matmul(XY, R.T) for the rotation by [phi]. (/repo/spacetimes.py:571-613) *)
Definition rotate_rows (phi : R) (XY : outline) : outline :=
  (λ row : option point, (λ p : point, (cos phi * p.1 + - sin phi * p.2, sin phi * p.1 + cos phi * p.2)%R) <$> row) <$> XY.
(** /repo/spacetimes.py:571-613; the argument samplingsize is not passed to EllipseEdge. *)
Definition dS_XY_slice (junk : nat → point) (alpha t : R) (origin : coords) (dims : Z * Z) : res (option outline) :=
  let alpha_sq := (alpha * alpha)%R in
  let r0_sq := (sqsum (tail origin) / alpha_sq)%R in
  if decide (1 <= r0_sq)%R then Ok None
  else
    res_bind (np_index origin dims.2) (λ y0,
    res_bind (np_index origin dims.1) (λ x0,
    let phi0 := arctan2 y0 x0 in
    let delta_t := (Rabs (t - cget origin 0) / alpha)%R in
    let '(x_c, a, b) := ellipse_center_radii alpha r0_sq delta_t in
    Ok (Some (rotate_rows phi0 (EllipseEdge junk [x_c; 0%R] [a; b] 0 (-1)))))).

(** ** The slices of the spacetimes (black holes: BlackHoleConeModel) *)
(** /repo/spacetimes.py:114-120, 571-613 *)
Definition XY_slice (junk : nat → point) (st : spacetime) (t : R) (origin : coords) (dims : Z * Z) : res (option outline) :=
  match st with
  | DeSitter _ alpha => dS_XY_slice junk alpha t origin dims
  | _ => Err NotImplementedError
  end.

(** The index -i of an array of [m] rows. (/repo/spacetimes.py:494-521) *)
Definition neg_index (m i : nat) : nat := if decide (i = 0) then 0 else m - i.
(** XT[-i, 0], XT[i, 0] = lo, hi; XT[-i, 1], XT[i, 1] = t, t.
    (/repo/spacetimes.py:494-521) *)
Definition set_rows (XT : list point) (i : nat) (lo hi t : R) : list point :=
  <[i := (hi, t)]> (<[neg_index (length XT) i := (lo, t)]> XT).
(** The loop for i, t in enumerate(T): [f t] gives the lower and the upper x.
    (/repo/spacetimes.py:494-521) *)
Fixpoint XT_loop (f : R → res (option (R * R))) (T : list R) (i : nat) (XT : list point) : res (option (list point)) :=
  match T with
  | [] => Ok (Some XT)
  | t :: T' =>
    res_bind (f t) (λ o, match o with
      | None => Ok None
      | Some (lo, hi) => XT_loop f T' (S i) (set_rows XT i lo hi t)
      end)
  end.
(** /repo/spacetimes.py:507-518: the smallest and largest x over the slices in all planes
    (there is at least one other direction). *)
Definition list_min (l : list R) : R := match l with [] => 0%R | x :: l' => foldl Rmin x l' end.
(** /repo/spacetimes.py:507-518 *)
Definition list_max (l : list R) : R := match l with [] => 0%R | x :: l' => foldl Rmax x l' end.
(** t_X[:, 0]. (/repo/spacetimes.py:507-518) *)
Definition first_column (o : outline) : list R := (λ row : option point, match row with Some p => p.1 | None => 0%R end) <$> o.
(** /repo/spacetimes.py:507-518 *)
Fixpoint slice_columns (xy : Z * Z → res (option outline)) (xdim : Z) (ydims : list nat) (acc : list R)
    : res (option (list R)) :=
  match ydims with
  | [] => Ok (Some acc)
  | y :: ydims' =>
    if decide (Z.of_nat y = xdim) then slice_columns xy xdim ydims' acc
    else res_bind (xy (xdim, Z.of_nat y)) (λ o, match o with
      | None => Ok None
      | Some XY => slice_columns xy xdim ydims' (acc ++ first_column XY)
      end)
  end.
(** /repo/spacetimes.py:494-521 with 490-492 (XT_slice2 of anti-de Sitter spacetime) *)
Definition dS_XT_slice (junk : nat → point) (st : spacetime) (alpha : R) (t : R) (origin : coords) (xdim : Z)
    (samplingsize : Z) : res (option (list point)) :=
  let T := T_slice_sampling t origin samplingsize in
  let XT := replicate (2 * length T - 1) (0, 0)%R in
  if decide (length origin = 2) then
    let x0 := (cget origin 1 / alpha)%R in
    if decide (1 <= Rabs x0)%R then Ok None
    else
      XT_loop (λ t, match st with
                    | DeSitter _ _ => let '(x, y) := XT_slice2 alpha t (cget origin 0) x0 in Ok (Some (Rmin x y, Rmax x y))
                    | _ => Err NotImplementedError
                    end) T 0 XT
  else
    XT_loop (λ t, res_map (λ o : option (list R), (λ l, (list_min l, list_max l)) <$> o)
                    (slice_columns (XY_slice junk st t origin) xdim (seq 1 (length origin - 1)) [])) T 0 XT.
(** /repo/spacetimes.py:106-112, 494-521 *)
Definition XT_slice (junk : nat → point) (st : spacetime) (t : R) (origin : coords) (xdim samplingsize : Z) : res (option outline) :=
  match st with
  | DeSitter _ alpha | AntiDeSitter _ alpha =>
    res_map (λ o : option (list point), (λ l : list point, Some <$> l) <$> o) (dS_XT_slice junk st alpha t origin xdim samplingsize)
  | _ => Err NotImplementedError
  end.

(** ** ConePlotter of the base class *)
(** /repo/spacetimes.py:206-217: the loop over T; one row of X, Y and Z for each slice. *)
Fixpoint slice_rows (xy : R → res (option outline)) (T : list R) : res (option surface) :=
  match T with
  | [] => Ok (Some ([], [], []))
  | t :: T' =>
    res_bind (xy t) (λ o, match o with
      | None => Ok None
      | Some XY =>
        res_map (λ rest : option surface, (λ F : surface, let '(X, Y, Z) := F in
            (first_column XY :: X, first_column (swap_columns XY) :: Y, replicate (length XY) t :: Z)) <$> rest)
          (slice_rows xy T')
      end)
  end.
(** /repo/spacetimes.py:161-239: the handle; xaxis and yaxis follow the time axis cyclically. *)
Definition base_cone (junk : nat → point) (st : spacetime) (dims : list Z) (timesign : R) (alpha : option (R → R))
    (samplingsize : Z) (origin : coords) (timeslice : R) : cone_result :=
  let timeaxis := time_axis dims in
  let axis k := dim_at dims (Z.to_nat ((timeaxis + k) mod Z.of_nat (length dims))) in
  let n := Z.of_nat (sampling samplingsize) in
  match cone_start timesign alpha origin timeslice with
  | None => Ok None
  | Some (r, a) =>
    if is3d dims then
      if decide (timeaxis < 0)%Z then Err NotImplementedError
      else
        res_map (λ o : option surface, (λ F, (a, DSurfaces [rotate timeaxis F])) <$> o)
          (slice_rows (λ t, XY_slice junk st t origin (axis 1%Z, axis 2%Z)) (T_slice_sampling timeslice origin n))
    else
      res_map (λ o : option outline, (λ XY, (a, DPatch (if decide (timeaxis = 0)%Z then swap_columns XY else XY))) <$> o)
        (if decide (timeaxis < 0)%Z then XY_slice junk st timeslice origin (dim_at dims 0, dim_at dims 1)
         else XT_slice junk st timeslice origin (axis 1%Z) n)
  end.

(** ConePlotter of all spacetimes except black holes: the handle, or the exception raised
    by looking up the periods. (/repo/spacetimes.py:131-240) *)
Definition ConePlotter (junk : nat → point) (st : spacetime) (dims : list Z) (timesign : R) (alpha : option (R → R))
    (samplingsize : Z) : res (coords → R → cone_result) :=
  match st with
  | Flat _ period => res_map (λ shifts, flat_cone junk shifts dims timesign alpha samplingsize) (cone_shifts period dims)
  | _ => Ok (base_cone junk st dims timesign alpha samplingsize)
  end.
