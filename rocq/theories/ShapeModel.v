(** Model of /repo/shapes.py, class CoordinateShape without plot (lines 20-249).

    Floating point numbers are real numbers.  The constructor stores every number as
    numpy.float32: the conversion is the parameter [f32], of which nothing is assumed (the
    identity models exact arithmetic).  Keyword values of a wrong type are not modelled. *)
From Verif Require Import Base SpacetimeModel.
From Coq Require Import Reals.
#[local] Open Scope nat_scope.

(** The keyword arguments of the constructor; [None]: not given. (/repo/shapes.py:31-66) *)
Record shape_args : Type := ShapeArgs {
  a_center : option (list R);
  a_radius : option R;
  a_hollow : option R;
  a_duration : option R;
  a_edge : option R;
  a_edges : option (list R)
}.
(** /repo/shapes.py:31-66 *)
Definition no_args : shape_args := ShapeArgs None None None None None None.

(** /repo/shapes.py:25-29.  [sh_radius] .. [sh_edges] are the entries of the dictionary
    _params; [sh_volume] is the attribute _volume, which exists after the first reading of
    Volume. *)
Record shape : Type := Shape {
  sh_dim : nat;
  sh_name : string;
  sh_center : list R;
  sh_radius : option R;
  sh_hollow : option R;
  sh_duration : option R;
  sh_edge : option R;
  sh_edges : option (list R);
  sh_volume : option R
}.
(** /repo/shapes.py:178-212 the cached _volume *)
Definition set_volume (v : R) (s : shape) : shape :=
  Shape (sh_dim s) (sh_name s) (sh_center s) (sh_radius s) (sh_hollow s) (sh_duration s)
    (sh_edge s) (sh_edges s) (Some v).
(** /repo/shapes.py:309, 318 the entry 'radius' of _params *)
Definition set_radius (r : R) (s : shape) : shape :=
  Shape (sh_dim s) (sh_name s) (sh_center s) (Some r) (sh_hollow s) (sh_duration s)
    (sh_edge s) (sh_edges s) (sh_volume s).

(** /repo/shapes.py:92-107 (param_rangecheck); [maxValue = None]: math.nan. *)
Definition rangecheck (v : R) (maxValue : option R) (canBeZero : bool) : res unit :=
  let isTooLow := (canBeZero && bool_decide (v < 0)%R) || (negb canBeZero && bool_decide (v <= 0)%R) in
  match maxValue with
  | None => if isTooLow then Err ValueError else Ok tt
  | Some m => if isTooLow || bool_decide (m <= v)%R then Err ValueError else Ok tt
  end.

Section model.
Context (f32 : R → R).

(** /repo/shapes.py:81-90 *)
Definition init_center (dim : nat) (c : option (list R)) : res (list R) :=
  match c with
  | None => Ok (replicate dim 0%R)
  | Some c => if decide (length c = dim) then Ok (f32 <$> c) else Err ValueError
  end.

(** /repo/shapes.py:31-136 (__init__). *)
Definition CoordinateShape (dim : Z) (name : string) (args : shape_args) : res shape :=
  if decide (dim < 1)%Z then Err ValueError
  else
    let n := Z.to_nat dim in
    let name := if decide (name = "diamond") then "bicone" else name in
    if decide (name ∈ ["ball"; "bicone"; "cylinder"; "cube"; "cuboid"]) then
      res_bind (init_center n (a_center args)) (λ c,
      if decide (name = "ball" ∨ name = "bicone" ∨ name = "cylinder") then
        let radius := f32 (default 1%R (a_radius args)) in
        res_bind (rangecheck radius None false) (λ _,
        let hollow := f32 (default 0%R (a_hollow args)) in
        res_bind (rangecheck hollow (Some 1%R) true) (λ _,
        if decide (name = "cylinder") then
          let duration := f32 (default (2 * radius)%R (a_duration args)) in
          res_bind (rangecheck duration None false) (λ _,
            Ok (Shape n name c (Some radius) (Some hollow) (Some duration) None None None))
        else Ok (Shape n name c (Some radius) (Some hollow) None None None None)))
      else if decide (name = "cube") then
        let edge := f32 (default 1%R (a_edge args)) in
        res_bind (rangecheck edge None false) (λ _,
          Ok (Shape n name c None None None (Some edge) None None))
      else
        let edges := f32 <$> default (replicate n 1%R) (a_edges args) in
        if decide (length edges = n) then
          if decide (Exists (λ x, x <= 0)%R edges) then Err ValueError
          else Ok (Shape n name c None None None None (Some edges) None)
        else Err ValueError)
    else Err ValueError.
End model.

(** Γ(n/2) for the arguments that occur below, from Γ(1/2) = sqrt(pi), Γ(1) = 1 and
    Γ(x + 1) = x Γ(x) (math.gamma). (/repo/shapes.py:185-212) *)
Fixpoint gamma_half (n : nat) : R :=
  match n with
  | 0 => 0%R
  | 1 => sqrt PI
  | 2 => 1%R
  | S (S m) => (INR m / 2 * gamma_half m)%R
  end.

(** /repo/shapes.py:185-212: the volume computed by the first reading.  self._params.get
    with default 0.0; indexing a missing key cannot happen for a constructed shape (0 and
    [] are used). *)
Definition compute_volume (s : shape) : R :=
  let d := sh_dim s in
  let r := default 0%R (sh_radius s) in
  let hollow := default 0%R (sh_hollow s) in
  let less (k : nat) (V : R) : R := if decide (0 < hollow)%R then (V - (hollow * r) ^ k)%R else V in
  if decide (sh_name s = "ball") then
    (less d (r ^ d) * (Rpower PI (INR d / 2) / gamma_half (d + 2)))%R
  else if decide (sh_name s = "cylinder") then
    (less (d - 1)%nat (r ^ (d - 1)) * (Rpower PI (INR d / 2 - / 2) / gamma_half (d + 1))
     * default 0%R (sh_duration s))%R
  else if decide (sh_name s = "bicone") then
    (less d (r ^ d) * (Rpower PI (INR d / 2 - / 2) / gamma_half (d + 1)) * (2 / INR d))%R
  else if decide (sh_name s = "cube") then (default 0%R (sh_edge s) ^ d)%R
  else if decide (sh_name s = "cuboid") then foldl Rmult 1%R (default [] (sh_edges s))
  else 0%R.

(** /repo/shapes.py:177-213 (Volume): returns the new state of the object and the value. *)
Definition Volume (s : shape) : shape * R :=
  match sh_volume s with
  | Some v => (s, v)
  | None => let v := compute_volume s in (set_volume v s, v)
  end.

(** Fancy indexing edges[dims] with the negative indices of Python.
    (/repo/shapes.py:215-230) *)
Definition np_index (l : list R) (i : Z) : res R :=
  let k := if decide (i < 0)%Z then (i + Z.of_nat (length l))%Z else i in
  if decide (k < 0)%Z then Err IndexError
  else match l !! Z.to_nat k with Some v => Ok v | None => Err IndexError end.
(** /repo/shapes.py:215-230 *)
Fixpoint np_take (l : list R) (is : list Z) : res (list R) :=
  match is with
  | [] => Ok []
  | i :: is' => res_bind (np_index l i) (λ v, res_map (cons v) (np_take l is'))
  end.
(** max of a list; ValueError for an empty one. (/repo/shapes.py:215-230) *)
Definition py_max (l : list R) : res R :=
  match l with [] => Err ValueError | v :: l' => Ok (foldl Rmax v l') end.

(** /repo/shapes.py:215-230 (MaxEdgeHalf). *)
Definition MaxEdgeHalf (s : shape) (dims : list Z) : res R :=
  let r := default 0%R (sh_radius s) in
  if decide (sh_name s = "cube") then Ok (default 0 (sh_edge s) / 2)%R
  else if decide (sh_name s = "bicone" ∨ sh_name s = "ball") then Ok r
  else if decide (sh_name s = "cylinder") then
    if decide (0%Z ∈ dims) then Ok (Rmax r (default 0 (sh_duration s) / 2)%R) else Ok r
  else res_bind (np_take (default [] (sh_edges s)) dims) (λ l, res_map (λ v, v / 2)%R (py_max l)).

(** /repo/shapes.py:232-249 (Limits). *)
Definition Limits (s : shape) (dim : Z) : res (R * R) :=
  if decide (dim < 0 ∨ Z.of_nat (sh_dim s) <= dim)%Z then Err ValueError
  else
    let l :=
      if decide (dim = 0%Z ∧ sh_name s = "cylinder") then (default 0 (sh_duration s) / 2)%R
      else if decide (sh_name s = "cube") then (default 0 (sh_edge s) / 2)%R
      else if decide (sh_name s = "cuboid") then (nth (Z.to_nat dim) (default [] (sh_edges s)) 0 / 2)%R
      else default 0%R (sh_radius s) in
    let shift := nth (Z.to_nat dim) (sh_center s) 0%R in
    Ok ((- l + shift)%R, (l + shift)%R).

(** /repo/shapes.py:138-143 (__str__): is the word 'hollow' printed? *)
Definition str_hollow (s : shape) : bool :=
  match sh_hollow s with Some h => bool_decide (0 < h)%R | None => false end.
