(** Model of the drawing part of /repo/shapes.py: the outlines and surfaces (lines 370-592)
    and CoordinateShape.plot (lines 251-369).

    Floating point numbers are real numbers.  A matrix with two columns that describes
    polygons is the list of its rows; [None] is the row [nan, nan].  Calls of matplotlib
    (patches.Rectangle, patches.Circle, patches.Polygon, plot_surface) are represented by
    their arguments; the axes object and gca() are not modelled. *)
From Verif Require Import Base SpacetimeModel ShapeModel ColorModel.
From Coq Require Import Reals.
#[local] Open Scope nat_scope.

Notation point := (R * R)%type.
(** /repo/shapes.py:370-472 rows of a matrix of size m x 2; None is a row of nan *)
Definition outline : Type := list (option point).
(** /repo/shapes.py:475-592 a numpy matrix *)
Definition matrix : Type := list (list R).
(** /repo/shapes.py:475-592 the XYZ data *)
Definition surface : Type := (matrix * matrix * matrix)%type.

(** /repo/shapes.py:17 (also /repo/spacetimes.py:20) *)
Definition default_samplingsize : nat := 128.
(** The first lines of the functions below: the sampling size, replaced if non-positive.
    (/repo/shapes.py:390-391, 415-416, 523-524, 544-545, 577-578) *)
Definition sampling (samplingsize : Z) : nat :=
  if decide (samplingsize <= 0)%Z then default_samplingsize else Z.to_nat samplingsize.

(** numpy.linspace(a, b, n). (/repo/shapes.py:395, 420, 526-527, 547, 580) *)
Definition linspace (a b : R) (n : nat) : list R :=
  (λ i, a + INR i * ((b - a) / INR (n - 1)))%R <$> seq 0 n.

(** /repo/shapes.py:370-379 *)
Definition RectangleEdge (l b w h : R) : outline :=
  Some <$> [(l, b); (l + w, b); (l + w, b + h); (l, b + h); (l, b)]%R.

(** The outer or inner edge of the functions below: center + (a cos(phi), b sin(phi)).
    (/repo/shapes.py:396-403, 421-428) *)
Definition arc (c : list R) (a b : R) (phi : list R) : outline :=
  (λ p, Some (cget c 0 + a * cos p, cget c 1 + b * sin p)%R) <$> phi.

(** /repo/shapes.py:407-429.  [junk] is the content of the uninitialised rows that are
    returned for a negative [hollow]. *)
Definition EllipseEdge (junk : nat → point) (c radii : list R) (hollow : R) (samplingsize : Z) : outline :=
  let n := S (sampling samplingsize) in
  let phi := linspace 0 (2 * PI) n in
  let outer := arc c (cget radii 0) (cget radii 1) phi in
  if decide (hollow = 0%R) then outer
  else if decide (0 < hollow)%R
  then outer ++ None :: arc c (hollow * cget radii 0) (hollow * cget radii 1) (Ropp <$> phi)
  else outer ++ (Some <$> (junk <$> seq n (n + 1))).

(** /repo/shapes.py:382-404 *)
Definition CircleEdge (junk : nat → point) (c : list R) (radius hollow : R) (samplingsize : Z) : outline :=
  let n := S (sampling samplingsize) in
  let phi := linspace 0 (2 * PI) n in
  let outer := arc c radius radius phi in
  if decide (hollow = 0%R) then outer
  else if decide (0 < hollow)%R
  then outer ++ None :: arc c (hollow * radius) (hollow * radius) (Ropp <$> phi)
  else outer ++ (Some <$> (junk <$> seq n (n + 1))).

(** /repo/shapes.py:432-452 *)
Definition BiconeEdge (c : list R) (radius hollow : R) : outline :=
  let x := cget c 0 in
  let y := cget c 1 in
  let outer := Some <$> [(x, y + radius); (x - radius, y); (x, y - radius); (x + radius, y); (x, y + radius)]%R in
  if decide (0 < hollow)%R then
    let r := (hollow * radius)%R in
    outer ++ None :: (Some <$> [(x + r, y); (x, y - r); (x - r, y); (x, y + r); (x + r, y)]%R)
  else outer.

(** /repo/shapes.py:455-472 *)
Definition CylinderCutEdge (c : list R) (radius height hollow : R) : outline :=
  let x := cget c 0 in
  let b := (cget c 1 - height / 2)%R in
  if decide (hollow = 0%R) then RectangleEdge (x - radius) b (2 * radius) height
  else RectangleEdge (x - radius) b ((1 - hollow) * radius) height ++
       None :: RectangleEdge (x + hollow * radius) b ((1 - hollow) * radius) height.

(** Row and column vectors, and M + x for a matrix and a number.
    (/repo/shapes.py:486-503) *)
Definition mrow (l : list R) : matrix := [l].
(** /repo/shapes.py:486-503 *)
Definition mcol (l : list R) : matrix := (λ x, [x]) <$> l.
(** /repo/shapes.py:486-503 *)
Definition madd (M : matrix) (x : R) : matrix := (λ l : list R, (λ y, y + x)%R <$> l) <$> M.
(** numpy.outer(a, b) * k. (/repo/shapes.py:528-531, 558-560, 583-586) *)
Definition mouter (a b : list R) (k : R) : matrix := (λ x, (λ y, x * y * k)%R <$> b) <$> a.

(** /repo/shapes.py:475-504 *)
Definition CuboidSurface (center edges : list R) : list surface :=
  let xed := cget edges 0 in
  let yed := cget edges 1 in
  let zed := cget edges 2 in
  let x := (cget center 0 - xed / 2)%R in
  let y := (cget center 1 - yed / 2)%R in
  let z := (cget center 2 - zed / 2)%R in
  [(madd (mrow [0]) x, madd (mrow [0; 0; yed; yed]) y, madd (mcol [0; zed; zed; 0]) z);
   (madd (mcol [0; xed; xed; 0]) x, madd (mrow [0]) y, madd (mrow [0; 0; zed; zed]) z);
   (madd (mrow [0; 0; xed; xed]) x, madd (mcol [0; yed; yed; 0]) y, madd (mrow [0]) z);
   (madd (mrow [xed]) x, madd (mrow [0; yed; yed; 0]) y, madd (mcol [0; 0; zed; zed]) z);
   (madd (mcol [0; 0; xed; xed]) x, madd (mrow [yed]) y, madd (mrow [0; zed; zed; 0]) z);
   (madd (mrow [0; xed; xed; 0]) x, madd (mcol [0; 0; yed; yed]) y, madd (mrow [zed]) z)]%R.
(** /repo/shapes.py:507-513 *)
Definition CubeSurface (center : list R) (edge : R) : list surface :=
  CuboidSurface center [edge; edge; edge].

(** Python's round(n / 2): halves are rounded to the even neighbour.
    (/repo/shapes.py:527) *)
Definition round_half (n : nat) : nat :=
  if decide (n `mod` 4 = 3) then S (n / 2) else n / 2.

(** /repo/shapes.py:516-531 *)
Definition BallSurface (center : list R) (radius : R) (samplingsize : Z) : list surface :=
  let n := S (sampling samplingsize) in
  let phi := linspace 0 (2 * PI) n in
  let theta := linspace 0 PI (round_half n) in
  [(madd (mouter (cos <$> phi) (sin <$> theta) radius) (cget center 0),
    madd (mouter (sin <$> phi) (sin <$> theta) radius) (cget center 1),
    madd (mouter (replicate n 1%R) (cos <$> theta) radius) (cget center 2))].

(** /repo/shapes.py:561-566, 587-592: (X, Y, Z) is rotated such that the third matrix
    belongs to the axis [zaxis]. *)
Definition rotate (zaxis : Z) (S : surface) : surface :=
  let '(X, Y, Z) := S in
  if decide (zaxis = 0)%Z then (Z, X, Y)
  else if decide (zaxis = 1)%Z then (Y, Z, X)
  else (X, Y, Z).

(** /repo/shapes.py:534-566 *)
Definition CylinderSurface (center : list R) (radius height hollow : R) (zaxis samplingsize : Z) : list surface :=
  let n := S (sampling samplingsize) in
  let phi := linspace 0 (2 * PI) n in
  let radii := if decide (hollow = 0%R) then [0; 1; 1; 0]%R else [hollow; 1; 1; hollow; hollow]%R in
  let relZ := if decide (hollow = 0%R) then [-1; -1; 1; 1]%R else [-1; -1; 1; 1; -1]%R in
  [rotate zaxis
     (madd (mouter radii (cos <$> phi) radius) (cget center 0),
      madd (mouter radii (sin <$> phi) radius) (cget center 1),
      madd (mouter relZ (replicate n 1%R) (height / 2)) (cget center 2))].

(** /repo/shapes.py:569-592 *)
Definition OpenConeSurface (tip : list R) (radius height : R) (zaxis samplingsize : Z) : list surface :=
  let n := S (sampling samplingsize) in
  let phi := linspace 0 (2 * PI) n in
  [rotate zaxis
     (madd (mouter [0; 1]%R (cos <$> phi) radius) (cget tip 0),
      madd (mouter [0; 1]%R (sin <$> phi) radius) (cget tip 1),
      madd (mouter [0; 1]%R (replicate n 1%R) height) (cget tip 2))].

(** ** CoordinateShape.plot *)
(** dims.index(0), or -1. (/repo/shapes.py:282-286) *)
Fixpoint index_of_zero (dims : list Z) : option nat :=
  match dims with
  | [] => None
  | d :: dims' => if decide (d = 0)%Z then Some 0 else S <$> index_of_zero dims'
  end.
(** /repo/shapes.py:282-286 *)
Definition time_axis (dims : list Z) : Z :=
  match index_of_zero dims with Some k => Z.of_nat k | None => (-1)%Z end.

(** The plotted objects, with the arguments of the matplotlib constructors.
    (/repo/shapes.py:329-367) *)
Inductive patch : Type :=
| Rectangle (corner : point) (width height : R)
| Circle (center : point) (radius : R)
| Polygon (rows : outline).

(** /repo/shapes.py:273-281 *)
Definition shape_plot_options (is3d : bool) (kwargs : dict (option pyval)) : dict (option pyval) :=
  dupdate (if is3d then [("edgecolor", None); ("color", Some (VStr "black")); ("alpha", Some (VNum (1 # 20)))]
           else [("edgecolor", Some (VStr "black")); ("facecolor", Some (VStr "black"));
                 ("alpha", Some (VNum (1 # 20)))])%string kwargs.

(** cyl[:, [1, 0]]. (/repo/shapes.py:353-354) *)
Definition swap_columns (o : outline) : outline :=
  (λ row : option point, (λ p, (p.2, p.1)) <$> row) <$> o.

(** /repo/shapes.py:329-367: the patch for a list of two dimensions; Center[dims] and
    edges[dims] raise IndexError for a missing dimension.  [-1]: the default sampling size. *)
Definition plot_patch (junk : nat → point) (s : shape) (dims : list Z) : res patch :=
  let timeaxis := time_axis dims in
  let r := default 0%R (sh_radius s) in
  let hollow := default 0%R (sh_hollow s) in
  res_bind (np_take (sh_center s) dims) (λ c,
  if decide (sh_name s = "cube")%string then
    let a := default 0%R (sh_edge s) in
    Ok (Rectangle (cget c 0 - / 2 * a, cget c 1 - / 2 * a)%R a a)
  else if decide (sh_name s = "ball" ∨ (timeaxis < 0)%Z ∧ (sh_name s = "bicone" ∨ sh_name s = "cylinder"))%string then
    if decide (hollow = 0%R) then Ok (Circle (cget c 0, cget c 1) r)
    else Ok (Polygon (CircleEdge junk c r hollow (-1)))
  else if decide (sh_name s = "cylinder")%string then
    let cyl := CylinderCutEdge c r (default 0%R (sh_duration s)) hollow in
    Ok (Polygon (if decide (timeaxis = 0)%Z then swap_columns cyl else cyl))
  else if decide (sh_name s = "bicone")%string then Ok (Polygon (BiconeEdge c r hollow))
  else
    res_bind (np_take (default [] (sh_edges s)) dims) (λ edges,
    Ok (Rectangle (cget c 0 - / 2 * cget edges 0, cget c 1 - / 2 * cget edges 1)%R (cget edges 0) (cget edges 1)))).

(** a[k] = x. (/repo/shapes.py:311-320) *)
Definition setc (l : list R) (k : nat) (x : R) : list R := <[k := x]> l.

(** /repo/shapes.py:290-328: the surfaces for a list of three dimensions, and the new state
    of the shape.  The parameters are stored as numpy arrays without axes, and line 326
    [r *= hollow] multiplies the stored radius in place (rounded to float32 by [f32]). *)
Definition plot_surfaces (f32 : R → R) (s : shape) (dims : list Z) : shape * res (list surface) :=
  let timeaxis := time_axis dims in
  let r := default 0%R (sh_radius s) in
  let hollow := default 0%R (sh_hollow s) in
  match np_take (sh_center s) dims with
  | Err e => (s, Err e)
  | Ok c =>
    if decide (sh_name s = "cube")%string then (s, Ok (CubeSurface c (default 0%R (sh_edge s))))
    else if decide (sh_name s = "ball" ∨ (timeaxis < 0)%Z ∧ (sh_name s = "bicone" ∨ sh_name s = "cylinder"))%string then
      let outer := BallSurface c r (-1) in
      (s, Ok (if decide (0 < hollow)%R then BallSurface c (hollow * r) (-1) ++ outer else outer))
    else if decide (sh_name s = "cylinder")%string then
      (s, Ok (CylinderSurface c r (default 0%R (sh_duration s)) hollow timeaxis (-1)))
    else if decide (sh_name s = "bicone")%string then
      let k := Z.to_nat timeaxis in
      let cones (r : R) :=
        OpenConeSurface (setc c k (cget c k - r)%R) r r timeaxis (-1) ++
        OpenConeSurface (setc c k (cget c k + r)%R) r (- r) timeaxis (-1) in
      if decide (0 < hollow)%R then
        let r' := f32 (r * hollow)%R in
        (set_radius r' s, Ok (cones r' ++ cones r))
      else (s, Ok (cones r))
    else (s, res_map (CuboidSurface c) (np_take (default [] (sh_edges s)) dims))
  end.

(** What is added to the axes: a patch or a surface, with the keyword arguments passed on.
    (/repo/shapes.py:329-331, 333-367) *)
Inductive artist : Type :=
| PatchArtist (p : patch) (options : dict (option pyval))
| SurfaceArtist (S : surface) (options : dict (option pyval)).

(** /repo/shapes.py:251-369: CoordinateShape.plot(dims, plotAxes, **kwargs): the new state of
    the shape, and the objects added to the axes in this order (which are also the returned
    ones); nothing is added if an exception is raised. *)
Definition shape_plot (junk : nat → point) (f32 : R → R) (s : shape) (dims : list Z) (kwargs : dict (option pyval))
  : shape * res (list artist) :=
  let is3d := bool_decide (length dims = 3) in
  let o := shape_plot_options is3d kwargs in
  if is3d then
    let '(s', r) := plot_surfaces f32 s dims in
    (s', res_map (λ Fs, (λ F, SurfaceArtist F o) <$> Fs) r)
  else (s, res_map (λ p, [PatchArtist p o]) (plot_patch junk s dims)).
