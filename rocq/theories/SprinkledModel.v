(** Model of /repo/sprinkledcauset.py (class SprinkledCauset).

    A numpy random Generator is a stream of draws: draw number [k] is a number of [0, 1)
    ([g_random], from which numpy computes uniform), a standard normal number ([g_normal]) or a
    Poisson number ([g_poisson]).  The methods take the position in the stream and return the
    new one, since the default argument rng=default_rng() is one generator shared by all
    calls.  The coordinates are computed as real numbers; storing them in the float32 array
    of line 72 is the parameter [rnd].  Intensities are real numbers. *)
From Verif Require Import Base EventModel CausetModel BuildModel.
From Coq Require Import Reals Qreals.
From Verif Require Import SpacetimeModel ShapeModel EmbedModel.
#[local] Open Scope nat_scope.

(** /repo/sprinkledcauset.py:67-159 numpy.random: the stream of random numbers *)
Record rng : Type := Rng {
  g_random : nat → R;
  g_normal : nat → R;
  g_poisson : nat → R → nat
}.

(** x ** y for a float x >= 0. (/repo/sprinkledcauset.py:64-65, 112-126) *)
Definition py_pow (x y : R) : R :=
  if decide (x = 0%R) then (if decide (y = 0%R) then 1%R else 0%R) else Rpower x y.
(** numpy.sign. (/repo/sprinkledcauset.py:91-97) *)
Definition np_sign (x : R) : R :=
  if decide (x < 0)%R then (-1)%R else if decide (0 < x)%R then 1%R else 0%R.

(** Assigning a row of numbers to a row of length [d] of an array: numpy broadcasts a row of
    length 1 and refuses every other length. (/repo/sprinkledcauset.py:111-126) *)
Definition assign_row (d : nat) (l : list R) : res (list R) :=
  if decide (length l = d) then Ok l
  else match l with [x] => Ok (replicate d x) | _ => Err ValueError end.

Section coords.
Context (g : rng) (junk : nat → nat → R).

(** numpy.random.Generator.uniform(low, high): low + (high - low) * random().
    (/repo/sprinkledcauset.py:83-126) *)
Definition uniform (k : nat) (low high : R) : R := (low + (high - low) * g_random g k)%R.
(** /repo/sprinkledcauset.py:83-84 *)
Fixpoint uniform_vec (k : nat) (low high : list R) : list R :=
  match low, high with
  | l :: low', u :: high' => uniform k l u :: uniform_vec (S k) low' high'
  | _, _ => []
  end.

(** /repo/sprinkledcauset.py:83-84 *)
Fixpoint box_rows (count d k : nat) (low high : list R) : nat * res (list (list R)) :=
  match count with
  | 0 => (k, Ok [])
  | S n =>
    let k1 := k + length low in
    match assign_row d (uniform_vec k low high) with
    | Err e => (k1, Err e)
    | Ok row => let '(k2, r) := box_rows n d k1 low high in (k2, res_map (cons row) r)
    end
  end.

(** /repo/sprinkledcauset.py:112-126, one pass of the loop, for coordinates [start ..] of a
    row; [time]: coordinate 0 for start = 1 (of a cylinder; the one of a diamond is drawn
    here). *)
Definition ball_row (isDiamond : bool) (d start k : nat) (center : list R) (b_r r_low time : R)
    : nat * res (list R) :=
  let b_d := d - start in
  let coord := g_normal g <$> seq k b_d in
  let r := sqrt (sqsum coord) in
  if decide (b_d = 0) then (k + 1, Err ZeroDivisionError)
  else
    let r_scaling := py_pow (uniform (k + b_d) r_low 1) (1 / INR b_d)%R in
    let h_squeeze := py_pow (uniform (k + b_d + 1) 0 1) (1 / INR d)%R in
    let h_sign := np_sign (uniform (k + b_d + 2) (-1) 1) in
    let time := if isDiamond then (h_sign * (1 - h_squeeze) * b_r)%R else time in
    let r_scaling := if isDiamond then (r_scaling * h_squeeze)%R else r_scaling in
    let k1 := if isDiamond then k + b_d + 3 else k + b_d + 1 in
    match assign_row b_d (drop start center) with
    | Err e => (k1, Err e)
    | Ok c =>
      let tail := zip_with (λ ci xi, ci + (r_scaling * b_r / r) * xi)%R c coord in
      (k1, Ok (if decide (start = 0) then tail else time :: tail))
    end.
(** /repo/sprinkledcauset.py:111-126; [times]: the array coords[:, 0]. *)
Fixpoint ball_rows (isDiamond : bool) (d start k : nat) (center : list R) (b_r r_low : R) (times : list R)
    : nat * res (list (list R)) :=
  match times with
  | [] => (k, Ok [])
  | t :: times' =>
    match ball_row isDiamond d start k center b_r r_low t with
    | (k1, Err e) => (k1, Err e)
    | (k1, Ok row) =>
      let '(k2, r) := ball_rows isDiamond d start k1 center b_r r_low times' in
      (k2, res_map (cons row) r)
    end
  end.
(** /repo/sprinkledcauset.py:91-97 (the branch of a 2-dimensional 'diamond') *)
Definition diamond_row (b_r u v : R) : list R := [((u + v) * (b_r / 2))%R; ((u - v) * (b_r / 2))%R].

(** /repo/sprinkledcauset.py:67-127 (_sprinkle_coords) for an instance of dimension [d]. The
    array of line 72 is uninitialised ([junk]).  Reading a missing parameter of the shape
    cannot happen for constructed shapes. *)
Definition sprinkle_coords (d : nat) (count : Z) (s : shape) (k : nat) : nat * res (list (list R)) :=
  if decide (count < 0)%Z then (k, Err ValueError)
  else
    let n := Z.to_nat count in
    let center := sh_center s in
    if decide (sh_name s ∈ ["cube"; "cuboid"]) then
      let half := if decide (sh_name s = "cuboid") then (λ x, x / 2)%R <$> default [] (sh_edges s)
                  else replicate (length center) (default 0 (sh_edge s) / 2)%R in
      box_rows n d k (zip_with Rminus center half) (zip_with Rplus center half)
    else if decide (sh_name s ∈ ["ball"; "cylinder"; "diamond"]) then
      let isCylindrical := bool_decide (sh_name s = "cylinder") in
      let isDiamond := bool_decide (sh_name s = "diamond") in
      let b_r := default 0%R (sh_radius s) in
      if decide (d = 2 ∧ isDiamond = true) then
        (k + 2 * n, Ok ((λ i, diamond_row b_r (uniform (k + 2 * i) (-1) 1) (uniform (k + 2 * i + 1) (-1) 1))
                        <$> seq 0 n))
      else
        let b_dstart := if decide (sh_name s = "ball") then 0 else 1 in
        let c0 := nth 0 center 0%R in
        let dur := default 0%R (sh_duration s) in
        let times :=
          if isCylindrical then (λ i, uniform (k + i) (c0 - dur / 2) (c0 + dur / 2)) <$> seq 0 n
          else (λ i, junk i 0) <$> seq 0 n in
        let k1 := if isCylindrical then k + n else k in
        let r_low := (default 0 (sh_hollow s) ^ (d - b_dstart))%R in
        ball_rows isDiamond d b_dstart k1 center b_r r_low times
    else (k, Ok ((λ i, junk i <$> seq 0 d) <$> seq 0 n)).
End coords.

(** A SprinkledCauset instance: /repo/sprinkledcauset.py:23. *)
Record sprinkled : Type := Sprinkled { sp_causet : ecauset; sp_intensity : R }.
(** /repo/sprinkledcauset.py:18-23 the events of the causet *)
Definition sp_events (C : sprinkled) : gset nat := ec_events (sp_causet C).
(** /repo/sprinkledcauset.py:161-180 assignment of the events *)
Definition set_events (evs : gset nat) (C : sprinkled) : sprinkled :=
  Sprinkled (ECauset (ec_spacetime (sp_causet C)) (ec_shape (sp_causet C)) evs) (sp_intensity C).
(** /repo/sprinkledcauset.py:139-180 assignment of the intensity *)
Definition set_intensity (r : R) (C : sprinkled) : sprinkled := Sprinkled (sp_causet C) r.

(** /repo/sprinkledcauset.py:50-57 (Intensity) *)
Definition Intensity (C : sprinkled) : R := sp_intensity C.
(** /repo/causet.py:270-275 (Card) *)
Definition sp_Card (C : sprinkled) : nat := size (sp_events C).
(** /repo/sprinkledcauset.py:59-65 (Density, LengthScale); division by zero is not modelled
    separately. *)
Definition sp_Density (C : sprinkled) : R := (sp_intensity C / snd (Volume (ec_shape (sp_causet C))))%R.
(** /repo/sprinkledcauset.py:63-65 *)
Definition sp_LengthScale (C : sprinkled) : R :=
  py_pow (snd (Volume (ec_shape (sp_causet C))) / sp_intensity C) (1 / INR (sh_dim (ec_shape (sp_causet C)))).

Section methods.
Context (f32 : R → R) (eps : R) (it : oracle) (g : rng) (junk : nat → nat → R) (rnd : R → Q).

(** The store of events, the position in the random stream and the causet.
    (/repo/sprinkledcauset.py:129-180) *)
Definition world : Type := heap * nat * sprinkled.

(** super().create(coords, labelFormat, relate) on the instance: EmbeddedCauset.create.
    (/repo/sprinkledcauset.py:161-170, embeddedcauset.py:189-209) *)
Definition super_create (rows : list (list Q)) (fmt : label_format) (rel : bool) (C : sprinkled) (h : heap)
    : heap * sprinkled * res (gset nat) :=
  let '(h1, evs, r) := EmbedModel.create it (caus_of eps (ec_spacetime (sp_causet C))) rows fmt rel (sp_events C) h in
  (h1, set_events evs C, r).

(** /repo/sprinkledcauset.py:139-142 and 156-159 *)
Definition sprinkle_into (count : Z) (sh : option shape) (w : world) : world * res (gset nat) :=
  let '(h, k, C) := w in
  let s := default (ec_shape (sp_causet C)) sh in
  match sprinkle_coords g junk (sh_dim (ec_shape (sp_causet C))) count s k with
  | (k1, Err e) => ((h, k1, C), Err e)
  | (k1, Ok coords) =>
    let '(h1, C1, r) := super_create (map (map rnd) coords) FmtNone true C h in ((h1, k1, C1), r)
  end.
(** /repo/sprinkledcauset.py:129-142 (sprinkle) *)
Definition sprinkle (count : Z) (sh : option shape) (w : world) : world * res (gset nat) :=
  let '(h, k, C) := w in
  if decide (count < 0)%Z then (w, Err ValueError)
  else sprinkle_into count sh (h, k, set_intensity (sp_intensity C + IZR count) C).
(** /repo/sprinkledcauset.py:144-159 (intensify) *)
Definition intensify (intensity : R) (sh : option shape) (w : world) : world * res (gset nat) :=
  let '(h, k, C) := w in
  if decide (intensity < 0)%R then (w, Err ValueError)
  else
    let C1 := set_intensity (sp_intensity C + intensity) C in
    sprinkle_into (Z.of_nat (g_poisson g k intensity)) sh (h, k + 1, C1).
(** /repo/sprinkledcauset.py:161-170 (create) *)
Definition sp_create (rows : list (list Q)) (fmt : label_format) (rel : bool) (w : world)
    : world * res (gset nat) :=
  let '(h, k, C) := w in
  let card_old := INR (sp_Card C) in
  match super_create rows fmt rel C h with
  | (h1, C1, Err e) => ((h1, k, C1), Err e)
  | (h1, C1, Ok evs) => ((h1, k, set_intensity (sp_intensity C1 + (INR (sp_Card C1) - card_old)) C1), Ok evs)
  end.
(** /repo/sprinkledcauset.py:172-175 (add) *)
Definition sp_add (S : gset nat) (unlink : bool) (w : world) : world * res unit :=
  let '(h, k, C) := w in
  let card_old := INR (sp_Card C) in
  match BuildModel.add it (sp_events C) S unlink h with
  | (h1, evs, Err e) => ((h1, k, set_events evs C), Err e)
  | (h1, evs, Ok _) =>
    let C1 := set_events evs C in
    ((h1, k, set_intensity (sp_intensity C1 + (INR (sp_Card C1) - card_old)) C1), Ok tt)
  end.
(** /repo/sprinkledcauset.py:177-180 (discard) *)
Definition sp_discard (S : gset nat) (unlink : bool) (w : world) : world * res unit :=
  let '(h, k, C) := w in
  let card_old := INR (sp_Card C) in
  match BuildModel.discard it (sp_events C) S unlink h with
  | (h1, evs, Err e) => ((h1, k, set_events evs C), Err e)
  | (h1, evs, Ok _) =>
    let C1 := set_events evs C in
    if decide (card_old = 0%R) then ((h1, k, C1), Err ZeroDivisionError)
    else ((h1, k, set_intensity (sp_intensity C1 * (INR (sp_Card C1) / card_old)) C1), Ok tt)
  end.

(** /repo/sprinkledcauset.py:25-48 (__init__) *)
Definition SprinkledCauset (card : Z) (intensity : R) (dim : Z) (sta : spacetime_arg) (sha : shape_arg)
    (h : heap) (k : nat) : heap * nat * res sprinkled :=
  match EmbeddedCauset f32 eps it sta sha CoNone dim h with
  | (h1, Err e) => (h1, k, Err e)
  | (h1, Ok C) =>
    let w := (h1, k, Sprinkled C 0) in
    let '((h2, k2, C2), r) := if decide (0 < card)%Z then sprinkle card None w else intensify intensity None w in
    (h2, k2, res_map (λ _, C2) r)
  end.
End methods.
