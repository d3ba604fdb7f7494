(** Model of /repo/causetplotting.py.

    The axes object is the list of what was drawn (artists), in order.  Coordinates are the
    real values of the stored rationals; the sizes that the fading computes are real numbers.
    Plot parameters that are changed between two drawings (alpha, linewidth, markevery) are
    fields of the artist; the code overwrites them before every drawing that uses them, so
    no value is carried over.  Not modelled: the choice of the axes (gca), set_axis_off. *)
From Verif Require Import Base EventModel CausetModel ColorModel.
From Coq Require Import Reals Qreals.
From Verif Require Import SpacetimeModel ShapeModel EmbedModel SprinkledModel.
#[local] Open Scope nat_scope.
#[local] Open Scope string_scope.

(** ** Plot parameters *)
(** A parameter that is a bool or a dict. (/repo/causetplotting.py:215-289) *)
Inductive switch : Type := Switch (b : bool) | Params (d : dict pyval).
(** The keyword argument axislim: 'shape' or a dict of pairs.
    (/repo/causetplotting.py:169-189) *)
Inductive axislim : Type := AxShape | AxDict (d : dict (R * R)).
(** /repo/causetplotting.py:42-290 the keyword arguments *)
Record kwargs : Type := Kwargs {
  kw_dims : option (list nat);
  kw_axislim : option axislim;
  kw_shape : option shape;
  kw_conetimefade : option string;
  kw_conetimedepth : option R;
  kw_timedepth : option R;
  kw_timefade : option string;
  kw_pastcones : option switch;
  kw_futurecones : option switch;
  kw_links : option switch;
  kw_linkgapsize : option Q;
  kw_events : option switch;
  kw_labels : option switch
}.
(** /repo/causetplotting.py:42-290 no keyword argument is given *)
Definition no_kwargs : kwargs := Kwargs None None None None None None None None None None None None None.
(** The dictionary p returned by plot_parameters.  The key 'linkgaps' is always set.
    (/repo/causetplotting.py:42-290) *)
Record plotting : Type := Plotting {
  pl_dims : list nat;
  pl_axislim : option axislim;
  pl_timeaxis : option nat;
  pl_conetimefade : string;
  pl_conetimedepth : R;
  pl_dynamic : option (R * string);
  pl_pastcones : option (dict pyval);
  pl_futurecones : option (dict pyval);
  pl_links : option (dict pyval);
  pl_linkgaps : bool;
  pl_events : option (dict pyval);
  pl_labels : option (dict pyval)
}.

Section params.
(** The global colour scheme and default_colors. *)
Context (g : scheme) (dc : dict pyval).
(** default_colors[key]: setDefaultColors never removes a key.
    (/repo/causetplotting.py:21-39, 206-271) *)
Definition dcol (k : string) : pyval := default (VStr "") (dget dc k).

(** /repo/causetplotting.py:206-214, 224-232, 242-249, 266-271, 281-282 *)
Definition default_cones (is3d : bool) : dict pyval :=
  if is3d then [("edgecolor", VStr "none"); ("color", dcol "conesface"); ("alpha", VNum (1 # 10))]
  else [("edgecolor", dcol "conesedge"); ("facecolor", VStr "none"); ("alpha", VNum (1 # 10))].
(** /repo/causetplotting.py:242-249 *)
Definition default_links : dict pyval :=
  [("linewidth", VNum 2); ("linestyle", VStr "-"); ("markevery", VNums []); ("color", dcol "links");
   ("marker", VStr "o"); ("markersize", VNum 5); ("markeredgecolor", dcol "linksedge");
   ("markerfacecolor", dcol "linksface")].
(** /repo/causetplotting.py:266-271 *)
Definition default_events : dict pyval :=
  [("linewidth", VNum 2); ("linestyle", VStr ""); ("marker", VStr "o"); ("markersize", VNum 7);
   ("markeredgecolor", dcol "eventsedge"); ("markerfacecolor", dcol "eventsface")].
(** /repo/causetplotting.py:281-282 *)
Definition default_labels : dict pyval :=
  [("verticalalignment", VStr "top"); ("horizontalalignment", VStr "right")].

(** /repo/causetplotting.py:215-221, 233-239, 255-263, 272-278, 283-289; [extra]: the update of
    line 261-262 *)
Definition param_block (defaults : dict pyval) (arg : option switch) (default_on : bool) (extra : dict pyval)
    : res (option (dict pyval)) :=
  match default (Switch default_on) arg with
  | Switch true => res_map Some (snd (convertColorsInDict g defaults None))
  | Switch false => Ok None
  | Params d => res_map Some (snd (convertColorsInDict g (dupdate (dupdate defaults d) extra) None))
  end.

(** /repo/causetplotting.py:173-189 *)
Definition axis_limits (dims : list nat) (lim : option axislim) (sh : option shape) : res (option axislim) :=
  match lim, sh with
  | Some (AxDict _), _ | _, None => Ok lim
  | _, Some s =>
    match dims with
    | [x; y] =>
      res_bind (Limits s (Z.of_nat x)) (λ lx, res_bind (Limits s (Z.of_nat y)) (λ ly,
        Ok (Some (AxDict [("xlim", lx); ("ylim", ly)]))))
    | _ =>
      res_bind (MaxEdgeHalf s (Z.of_nat <$> dims)) (λ e,
        match (λ d, sh_center s !! d) <$> dims with
        | [Some x; Some y; Some z] =>
          Ok (Some (AxDict [("xlim", (x - e, x + e)%R); ("ylim", (y - e, y + e)%R); ("zlim", (z - e, z + e)%R)]))
        | _ => Err IndexError
        end)
    end
  end.
(** /repo/causetplotting.py:193-196 list.index *)
Fixpoint index_of (x : nat) (l : list nat) : option nat :=
  match l with
  | [] => None
  | y :: l' => if decide (y = x) then Some 0 else S <$> index_of x l'
  end.

(** /repo/causetplotting.py:42-290 (plot_parameters) *)
Definition plot_parameters (kw : kwargs) : res plotting :=
  let dims := default [1; 0] (kw_dims kw) in
  if decide (length dims < 2 ∨ 3 < length dims) then Err ValueError
  else
    let is3d := bool_decide (2 < length dims) in
    res_bind (axis_limits dims (kw_axislim kw) (kw_shape kw)) (λ lim,
    res_bind (param_block (default_cones is3d) (kw_pastcones kw) false []) (λ pcones,
    res_bind (param_block (default_cones is3d) (kw_futurecones kw) false []) (λ fcones,
    let gap := default 0%Q (kw_linkgapsize kw) in
    let gaps := negb (Qle_bool gap 0) in
    let links0 := if gaps then dupdate default_links [("markeredgecolor", VNums [0; 0; 0; 0]%Q); ("markerfacecolor", VNums [0; 0; 0; 0]%Q)]
                  else default_links in
    res_bind (param_block links0 (kw_links kw) true (if gaps then [("markersize", VNum gap)] else [])) (λ links,
    res_bind (param_block default_events (kw_events kw) true []) (λ evs,
    res_bind (param_block default_labels (kw_labels kw) true []) (λ lbls,
    Ok (Plotting dims lim (index_of 0 dims) (default "intensity" (kw_conetimefade kw))
          (default 0%R (kw_conetimedepth kw))
          ((λ d, (d, default "linear" (kw_timefade kw))) <$> kw_timedepth kw)
          pcones fcones links gaps evs lbls))))))).
End params.

(** ** dynamic_parameter *)
(** numpy.heaviside. (/repo/causetplotting.py:307-321) *)
Definition heaviside (x h0 : R) : R :=
  if decide (x < 0)%R then 0%R else if decide (x = 0%R) then h0 else 1%R.
(** /repo/causetplotting.py:293-323; [None]: the value NotImplemented, which cannot be called *)
Definition dynamic_parameter (function : string) (dim : nat) (timedepth alpha_max : R) : option (R → R) :=
  let timefade := if decide (timedepth = 0%R) then (- 10 ^ 10)%R else (- 1 / timedepth)%R in
  let sgn := np_sign timedepth in
  if decide (function = "linear") then
    Some (λ value, heaviside (sgn * value) 1 * alpha_max * (timefade * value + 1))%R
  else if decide (function = "exponential") then
    Some (λ value, heaviside (sgn * value) 1 * alpha_max * exp (timefade * value))%R
  else if decide (function = "intensity") then
    Some (λ value, heaviside (sgn * value) 1 * alpha_max / (Rmax value 0 + 1) ^ (dim - 1))%R
  else None.

(** ** Drawing *)
(** What is drawn: a line through points (of links, of a single point for events), a text, a
    causal cone of the event at [origin] up to a time. (/repo/causetplotting.py:456-657) *)
Inductive artist : Type :=
| ALine (points : list (list R)) (params : dict pyval) (alpha linewidth : option R) (markevery : option (list nat))
| AText (point : list R) (text : label) (params : dict pyval)
| ACone (past : bool) (origin : list R) (time : R) (params : dict pyval) (alpha : R).

(** State and exceptions: the store of events and the axes.
    (/repo/causetplotting.py:442-681) *)
Definition pstate : Type := heap * list artist.
(** /repo/causetplotting.py:442-681 a statement: new state and result *)
Definition M (A : Type) : Type := pstate → pstate * res A.
(** /repo/causetplotting.py:442-681 a value without effect *)
Definition ret {A} (a : A) : M A := λ s, (s, Ok a).
(** /repo/causetplotting.py:442-681 an exception *)
Definition raise {A} (e : exn) : M A := λ s, (s, Err e).
(** /repo/causetplotting.py:442-681 sequence of statements *)
Definition bind {A B} (m : M A) (f : A → M B) : M B :=
  λ s, match m s with (s1, Ok a) => f a s1 | (s1, Err e) => (s1, Err e) end.
(** /repo/causetplotting.py:442-681 an expression that may raise *)
Definition lift {A} (r : res A) : M A := λ s, (s, r).
(** /repo/causetplotting.py:456-657 ax.plot, ax.text and the cone plotters add one artist *)
Definition draw (a : artist) : M artist := λ '(h, ax), ((h, (ax ++ [a])%list), Ok a).
(** /repo/causetplotting.py:456-657 a for loop *)
Fixpoint for_each {A B} (l : list A) (acc : B) (f : A → B → M B) : M B :=
  match l with [] => ret acc | x :: l' => bind (f x acc) (λ acc', for_each l' acc' f) end.

(** getattr(a, coordattr) as an array.
    (/repo/causetplotting.py:390-395, 457, 477, 485, 559, 564) *)
Definition attr_of (embedded : bool) (h : heap) (a : nat) : res (list R) :=
  if embedded then res_map (fmap Q2R) (Coordinates h a) else Ok (Q2R <$> get_Position h a).
(** /repo/causetplotting.py:457, 477, 485, 559, 564 *)
Definition get_attr (embedded : bool) (a : nat) : M (list R) := λ '(h, ax), ((h, ax), attr_of embedded h a).
(** c[_x], c[_y] (and c[_z]).  Simplification: all are read at once.
    (/repo/causetplotting.py:524-552, 568-657) *)
Definition project (dims : list nat) (c : list R) : res (list R) :=
  foldr (λ d r, match c !! d with Some x => res_map (cons x) r | None => Err IndexError end) (Ok []) dims.
(** /repo/causetplotting.py:478, 485 *)
Definition time_of (c : list R) : res R := match c with t :: _ => Ok t | [] => Err IndexError end.
(** /repo/causetplotting.py:483, 565 *)
Definition is_linked_to (a b : nat) : M bool := λ '(h, ax), let '(h1, r) := isLinkedTo h a b in ((h1, ax), Ok r).
(** slots[l] = artist. (/repo/causetplotting.py:470-472, 524-533, 610, 636) *)
Definition store (slots : list (option artist)) (l : nat) (a : artist) : res (list (option artist)) :=
  if decide (l < length slots) then Ok (<[l := Some a]> slots) else Err IndexError.

Section plotter.
Context (it : oracle) (pl : plotting) (embedded : bool) (events : list nat).
(** /repo/causetplotting.py:168, 372 *)
Definition is3d : bool := bool_decide (2 < length (pl_dims pl)).
(** /repo/causetplotting.py:373 *)
Definition dim : nat := if is3d then 3 else 2.
(** /repo/causetplotting.py:366 *)
Definition event_count : nat := length events.

(** *** Static links: /repo/causetplotting.py:554-636 *)
(** a <= e <= b or a >= e >= b, in every plotted coordinate: lines 578-583, 617-620.
    (/repo/causetplotting.py:578-583, 617-620) *)
Fixpoint in_box (a e b : list R) : bool :=
  match a, e, b with
  | x :: a', y :: e', z :: b' =>
    bool_decide ((x <= y <= z)%R ∨ (z <= y <= x)%R) && in_box a' e' b'
  | _, _, _ => true
  end.
(** Lines 584-595 (the length of the cross product) and 621-624.
    (/repo/causetplotting.py:584-595, 621-624) *)
Definition area (a e b : list R) : R :=
  match a, e, b with
  | [ax; ay], [ex; ey], [bx; b_y] => Rabs ((ex - ax) * (b_y - ey) - (ey - ay) * (bx - ex))
  | [ax; ay; az], [ex; ey; ez], [bx; b_y; bz] =>
    sqrt (((ey - ay) * (bz - ez) - (ez - az) * (b_y - ey)) ^ 2 +
          ((ez - az) * (bx - ex) - (ex - ax) * (bz - ez)) ^ 2 +
          ((ex - ax) * (b_y - ey) - (ey - ay) * (bx - ex)) ^ 2)
  | _, _, _ => 0
  end%R.
(** /repo/causetplotting.py:557 *)
Definition line_eps : R := (/ 10 ^ 7)%R.
(** The points of other events on the line from a to b: lines 574-599, 613-627.
    (/repo/causetplotting.py:574-599, 613-627) *)
Definition gap_points (a b : nat) (pa pb : list R) : M (list (list R)) :=
  for_each events [] (λ e acc,
    if decide (e = a ∨ e = b) then ret acc
    else bind (get_attr embedded e) (λ c, bind (lift (project (pl_dims pl) c)) (λ pe,
      ret (if in_box pa pe pb && bool_decide (area pa pe pb < line_eps)%R then (acc ++ [pe])%list else acc)))).
(** numpy.lexsort((X, Y)): by the last coordinate, ties by the one before, ...
    (/repo/causetplotting.py:604, 631) *)
Fixpoint lex_le (p q : list R) : Prop :=
  match p, q with
  | x :: p', y :: q' => (x < y)%R ∨ (x = y ∧ lex_le p' q')
  | _, _ => True
  end.
#[global] Instance lex_le_dec p q : Decision (lex_le p q).
Proof. revert q. induction p as [|x p IH]; intros [|y q]; cbn; apply _. Defined.
(** /repo/causetplotting.py:604, 631 *)
Definition point_le (p q : list R) : Prop := lex_le (reverse p) (reverse q).
#[global] Instance point_le_dec p q : Decision (point_le p q).
Proof. unfold point_le. apply _. Defined.
(** /repo/causetplotting.py:603-607, 630-633 *)
Fixpoint insert_point (p : list R) (l : list (list R)) : list (list R) :=
  match l with
  | [] => [p]
  | q :: l' => if decide (point_le p q) then p :: l else q :: insert_point p l'
  end.
(** /repo/causetplotting.py:603-607, 630-633 *)
Definition lexsort (l : list (list R)) : list (list R) := foldr insert_point [] l.
(** Lines 600-610, 628-636. (/repo/causetplotting.py:600-610, 628-636) *)
Definition link_points (pa pb : list R) (gaps : list (list R)) : list (list R) :=
  let pts := (pa :: gaps ++ [pb])%list in
  if decide (3 < length pts) then lexsort pts else pts.
(** /repo/causetplotting.py:568-636 *)
Definition static_link (params : dict pyval) (a b : nat) (pa pb : list R) : M artist :=
  bind (gap_points a b pa pb) (λ gaps,
  let pts := link_points pa pb gaps in
  draw (ALine pts params None None (Some (seq 1 (length pts - 2))))).
(** Lines 560-636: the loop over j for the event a at position i; the accumulator is the array
    of slots and the number l + 1 of links so far. (/repo/causetplotting.py:560-636) *)
Definition static_row (params : dict pyval) (a : nat) (ca : list R) (bs : list nat)
    (acc : list (option artist) * nat) : M (list (option artist) * nat) :=
  for_each bs acc (λ b '(slots, l),
    bind (get_attr embedded b) (λ cb,
    bind (is_linked_to a b) (λ linked,
    if linked then
      bind (lift (project (pl_dims pl) ca)) (λ pa, bind (lift (project (pl_dims pl) cb)) (λ pb,
      bind (static_link params a b pa pb) (λ ar,
      bind (lift (store slots l ar)) (λ slots', ret (slots', S l)))))
    else ret (slots, l)))).
(** /repo/causetplotting.py:556-636 *)
Fixpoint static_links (params : dict pyval) (rest : list nat) (acc : list (option artist) * nat)
    : M (list (option artist) * nat) :=
  match rest with
  | [] => ret acc
  | a :: rest' =>
    bind (get_attr embedded a) (λ ca,
    bind (static_row params a ca rest' acc) (λ acc', static_links params rest' acc'))
  end.
(** Lines 637-646 and 647-657. (/repo/causetplotting.py:637-646) *)
Definition static_events (params : dict pyval) : M (list (option artist)) :=
  for_each events [] (λ a acc,
    bind (get_attr embedded a) (λ c, bind (lift (project (pl_dims pl) c)) (λ p,
    bind (draw (ALine [p] params None None None)) (λ ar, ret (acc ++ [Some ar])%list)))).
(** /repo/causetplotting.py:651-657 a.Label *)
Definition lab_of (a : nat) : M label := λ '(h, ax), ((h, ax), Ok (lab h a)).
(** /repo/causetplotting.py:647-657 *)
Definition static_labels (params : dict pyval) : M (list (option artist)) :=
  for_each events [] (λ a acc,
    bind (get_attr embedded a) (λ c, bind (lift (project (pl_dims pl) c)) (λ p,
    bind (lab_of a) (λ lb, bind (draw (AText p lb params)) (λ ar, ret (acc ++ [Some ar])%list))))).

(** *** Dynamic plots: /repo/causetplotting.py:473-552 *)
Section dynamic.
Context (depth : R) (dyn_links dyn_events : R → R) (t0 : R).
(** Lines 489-513: which event is the outer one (true: i), how far the link is drawn from it,
    whether the end is marked; None: continue. (/repo/causetplotting.py:488-513) *)
Definition link_cut (i_t j_t i_fade j_fade : R) : option (bool * R * bool) :=
  if decide (0 < i_fade ∧ 0 < j_fade)%R then
    Some (bool_decide (Rabs j_t < Rabs i_t)%R, 1%R, false)
  else if decide ((0 < i_fade ∨ 0 < j_fade)%R ∧ np_sign i_t ≠ np_sign j_t) then
    let i_out := bool_decide (0 < depth * i_t)%R in
    Some (i_out, Rabs ((if i_out then i_t else j_t) / (i_t - j_t))%R, true)
  else None.
(** /repo/causetplotting.py:514-517 *)
Definition between (tau : R) (c_out c_in : list R) : list R :=
  zip_with (λ o i, (1 - tau) * o + tau * i)%R c_out c_in.
(** Lines 482-533: one link; [l] is its slot. (/repo/causetplotting.py:482-533) *)
Definition dynamic_link (params : dict pyval) (ca cb : list R) (i_t j_t i_fade j_fade : R) (l : nat)
    (slots : list (option artist)) : M (list (option artist)) :=
  match link_cut i_t j_t i_fade j_fade with
  | None => ret slots
  | Some (i_out, tau, mark) =>
    let c_out := if i_out then ca else cb in
    let target := between tau c_out (if i_out then cb else ca) in
    let width := dyn_links (if i_out then i_t else j_t) in
    if decide (0 < width)%R then
      bind (lift (project (pl_dims pl) c_out)) (λ p, bind (lift (project (pl_dims pl) target)) (λ q,
      bind (draw (ALine [p; q] params (Some (if i_out then i_fade else j_fade)) (Some width)
                    (Some (if mark then [1] else [])))) (λ ar, lift (store slots l ar))))
    else ret slots
  end.
(** /repo/causetplotting.py:480-533 *)
Definition dynamic_row (params : dict pyval) (a : nat) (ca : list R) (i_t i_fade : R) (bs : list nat)
    (acc : list (option artist) * nat) : M (list (option artist) * nat) :=
  for_each bs acc (λ b '(slots, l),
    bind (is_linked_to a b) (λ linked,
    if linked then
      bind (get_attr embedded b) (λ cb, bind (lift (time_of cb)) (λ tb,
      let j_t := (tb - t0)%R in
      bind (dynamic_link params ca cb i_t j_t i_fade (dyn_events j_t) l slots) (λ slots', ret (slots', S l))))
    else ret (slots, l))).
(** Lines 534-552. (/repo/causetplotting.py:534-543) *)
Definition dynamic_event (params : dict pyval) (c : list R) (fade : R) : M (option artist) :=
  if decide (fade <= 0)%R then ret None
  else bind (lift (project (pl_dims pl) c)) (λ p,
       bind (draw (ALine [p] params (Some fade) None None)) (λ ar, ret (Some ar))).
(** /repo/causetplotting.py:544-552 *)
Definition dynamic_label (params : dict pyval) (a : nat) (c : list R) (fade : R) : M (option artist) :=
  if decide (fade <= 0)%R then ret None
  else bind (lift (project (pl_dims pl) c)) (λ p, bind (lab_of a) (λ lb,
       bind (draw (AText p lb params)) (λ ar, ret (Some ar)))).
(** A parameter dict that is missing or empty counts as False (lines 480, 536, 544).
    (/repo/causetplotting.py:480, 536, 544) *)
Definition truthy (d : option (dict pyval)) : option (dict pyval) :=
  match d with Some [] => None | _ => d end.
(** Lines 476-552. (/repo/causetplotting.py:476-552) *)
Fixpoint dynamic_loop (rest : list nat) (links : list (option artist) * nat) (evs lbls : list (option artist))
    : M ((list (option artist) * nat) * list (option artist) * list (option artist)) :=
  match rest with
  | [] => ret (links, evs, lbls)
  | a :: rest' =>
    bind (get_attr embedded a) (λ ca, bind (lift (time_of ca)) (λ ta,
    let i_t := (ta - t0)%R in
    let i_fade := dyn_events i_t in
    bind (match truthy (pl_links pl) with
          | Some p => dynamic_row p a ca i_t i_fade rest' links
          | None => ret links end) (λ links',
    bind (match truthy (pl_events pl) with Some p => dynamic_event p ca i_fade | None => ret None end) (λ ev,
    bind (match truthy (pl_labels pl) with Some p => dynamic_label p a ca i_fade | None => ret None end) (λ lb,
    dynamic_loop rest' links' (evs ++ [ev])%list (lbls ++ [lb])%list)))))
  end.
End dynamic.

(** *** Cones: /repo/causetplotting.py:450-465 with /repo/spacetimes.py:185-192, 231-232.
    [slice]: whether the spacetime provides the boundary of the cone (the geometry itself is
    not modelled here). *)
Definition cone (past : bool) (slice : list R → R → res bool) (alpha : option (R → R)) (params : dict pyval)
    (c : list R) (t : R) : M (option artist) :=
  bind (lift (time_of c)) (λ tc,
  let r := if past then (tc - t)%R else (t - tc)%R in
  if decide (r <= 0)%R then ret None
  else match alpha with
       | None => raise TypeError
       | Some f =>
         if decide (f r <= 0)%R then ret None
         else bind (lift (slice c t)) (λ ok,
              if ok then bind (draw (ACone past c t params (f r))) (λ ar, ret (Some ar)) else ret None)
       end).
(** /repo/causetplotting.py:460-465 *)
Definition push (o : option artist) (l : list artist) : list artist :=
  match o with Some a => (l ++ [a])%list | None => l end.
(** /repo/causetplotting.py:450-465 *)
Definition cones (slice : list R → R → res bool) (pc fc : option (option (R → R) * dict pyval)) (t0 t1 : R)
    : M (list artist * list artist) :=
  for_each events ([], []) (λ a '(ps, fs),
    bind (get_attr embedded a) (λ c,
    bind (match pc with Some (al, p) => cone true slice al p c t0 | None => ret None end) (λ p,
    bind (match fc with Some (al, p) => cone false slice al p c t1 | None => ret None end) (λ f,
    ret (push p ps, push f fs))))).
End plotter.

(** ** Plotter *)
(** The argument E. (/repo/causetplotting.py:326-328, 357-365) *)
Inductive plot_arg : Type := PEvent (e : nat) | PList (l : list nat) | PCauset (C : ecauset).
(** /repo/causetplotting.py:670-681 the dictionary of handles *)
Record handles : Type := Handles {
  ha_pastcones : option (list artist);
  ha_futurecones : option (list artist);
  ha_links : option (list (option artist));
  ha_events : option (list (option artist));
  ha_labels : option (list (option artist));
  ha_limits : option (dict (R * R))
}.
(** A number in a parameter dict; other values are not modelled.
    (/repo/causetplotting.py:396-439) *)
Definition num_of (v : option pyval) : option R := match v with Some (VNum q) => Some (Q2R q) | _ => None end.
Section Plotter.
Context (g : scheme) (dc : dict pyval) (it : oracle) (slice : list R → R → res bool).

(** /repo/causetplotting.py:357-365 *)
Definition plot_events (E : plot_arg) : list nat :=
  match E with PEvent e => [e] | PList l => l | PCauset C => it 40 (ec_events C) end.
(** /repo/causetplotting.py:357-365, 390-395 *)
Definition is_embedded (E : plot_arg) (st : option spacetime) : bool :=
  match E with PCauset _ => true | _ => bool_decide (is_Some st) end.
(** /repo/causetplotting.py:366-369: LinkCountOf reads the links of every event. *)
Definition link_count (pl : plotting) (events : list nat) : M nat := λ '(h, ax),
  match pl_links pl with
  | None => ((h, ax), Ok 0)
  | Some _ =>
    let evs := list_to_set events in
    ((foldl (λ h e, fst (get_LinkPast h e)) h (it 41 evs), ax), Ok (LinkCountOf h evs))
  end.
(** /repo/causetplotting.py:396-419: with conetimefade '' the variable pcn_alpha_max is unbound *)
Definition cone_alpha (pl : plotting) (params : option (dict pyval)) : res (option (option (R → R) * dict pyval)) :=
  match params with
  | None => Ok None
  | Some p =>
    if decide (pl_conetimefade pl = "") then Err UnboundLocalError
    else Ok (Some (dynamic_parameter (pl_conetimefade pl) (dim pl) (Rabs (pl_conetimedepth pl))
                     (default 1%R (num_of (dget p "alpha"))), p))
  end.
(** /repo/causetplotting.py:421-439 *)
Definition dynamic_setup (pl : plotting) : res (option (R * option (R → R) * option (R → R))) :=
  match pl_dynamic pl with
  | None => Ok None
  | Some (depth, fade) =>
    match dget (default [] (pl_links pl)) "linewidth" with
    | None => Err KeyError
    | Some w =>
      Ok (Some (depth, dynamic_parameter fade (dim pl) depth (default 0%R (num_of (Some w))),
                dynamic_parameter fade (dim pl) depth (default 1%R (num_of (dget (default [] (pl_events pl)) "alpha")))))
    end
  end.
(** /repo/causetplotting.py:660-666 *)
Definition set_limits (pl : plotting) : res (option (dict (R * R))) :=
  match pl_axislim pl with
  | None => Ok None
  | Some AxShape => Err TypeError
  | Some (AxDict d) =>
    match dget d "xlim", dget d "ylim" with
    | Some x, Some y =>
      Ok (Some ([("xlim", x); ("ylim", y)] ++
                match (if is3d pl then dget d "zlim" else None) with Some z => [("zlim", z)] | None => [] end)%list)
    | _, _ => Ok None
    end
  end.

(** /repo/causetplotting.py:326-439: what the call of Plotter prepares. *)
Record prepared : Type := Prepared {
  pr_pl : plotting; pr_events : list nat; pr_embedded : bool; pr_links : nat;
  pr_pc : option (option (R → R) * dict pyval); pr_fc : option (option (R → R) * dict pyval);
  pr_dyn : option (R * option (R → R) * option (R → R))
}.
(** /repo/causetplotting.py:326-683 *)
Definition Plotter (E : plot_arg) (st : option spacetime) (kw : kwargs) : M prepared :=
  bind (lift (plot_parameters g dc kw)) (λ pl,
  bind (link_count pl (plot_events E)) (λ n,
  bind (lift (cone_alpha pl (pl_pastcones pl))) (λ pc,
  bind (lift (cone_alpha pl (pl_futurecones pl))) (λ fc,
  bind (lift (dynamic_setup pl)) (λ dyn,
  ret (Prepared pl (plot_events E) (is_embedded E st) n pc fc dyn)))))).
(** /repo/causetplotting.py:442-681 (_timeslice).  Calling NotImplemented raises TypeError. *)
Definition timeslice (pr : prepared) (t0 t1 : R) : M handles :=
  let pl := pr_pl pr in
  let slots := replicate (pr_links pr) None in
  bind (match pr_pc pr, pr_fc pr with
        | None, None => ret ([], [])
        | _, _ => cones (pr_embedded pr) (pr_events pr) slice (pr_pc pr) (pr_fc pr) t0 t1
        end) (λ '(ps, fs),
  bind (match pr_dyn pr with
        | Some (depth, dl, de) =>
          match pr_events pr with
          | [] => ret (slots, [], [])
          | _ => match dl, de with
                 | Some dl, Some de =>
                   bind (dynamic_loop pl (pr_embedded pr) depth dl de t0 (pr_events pr) (slots, 0) [] [])
                     (λ '(lk, evs, lbls), ret (fst lk, evs, lbls))
                 | _, _ => raise TypeError
                 end
          end
        | None =>
          bind (match truthy (pl_links pl) with
                | Some p => static_links pl (pr_embedded pr) (pr_events pr) p (pr_events pr) (slots, 0)
                | None => ret (slots, 0) end) (λ lk,
          bind (match pl_events pl with
                | Some p => static_events pl (pr_embedded pr) (pr_events pr) p
                | None => ret [] end) (λ evs,
          bind (match pl_labels pl with
                | Some p => static_labels pl (pr_embedded pr) (pr_events pr) p
                | None => ret [] end) (λ lbls, ret (fst lk, evs, lbls))))
        end) (λ '(lk, evs, lbls),
  bind (lift (set_limits pl)) (λ lim,
  ret (Handles (match pr_pc pr with Some _ => Some ps | None => None end)
               (match pr_fc pr with Some _ => Some fs | None => None end)
               (match pl_links pl with Some _ => Some lk | None => None end)
               (match pl_events pl with Some _ => Some evs | None => None end)
               (match pl_labels pl with Some _ => Some lbls | None => None end) lim)))).

(** /repo/causetplotting.py:686-701 (plot); [time]: absent, one number or two numbers. *)
Inductive time_arg : Type := TNone | TOne (t : R) | TTwo (t0 t1 : R).
(** /repo/causetplotting.py:695-700 *)
Definition times (t : time_arg) : R * R :=
  match t with TNone => (0, 0)%R | TOne t => (t, t) | TTwo t0 t1 => (t0, t1) end.
(** /repo/causetplotting.py:686-701 *)
Definition plot (E : plot_arg) (st : option spacetime) (time : time_arg) (kw : kwargs) : M handles :=
  bind (Plotter E st kw) (λ pr, timeslice pr (fst (times time)) (snd (times time))).

(** /repo/causetplotting.py:704-723 (plotDiagram); [junk]: see Permutation_Coords. *)
Fixpoint set_positions (E : list nat) (rows : list (list Q)) (h : heap) : heap * res unit :=
  match E, rows with
  | e :: E', r :: rows' =>
    match set_Position h e r with (h1, Ok _) => set_positions E' rows' h1 | (h1, Err er) => (h1, Err er) end
  | _, _ => (h, Ok tt)
  end.
(** /repo/causetplotting.py:704-723 *)
Definition plotDiagram (junk : nat → list Q) (E : list nat) (permutation : list Z) (time : time_arg) (kw : kwargs) : M handles :=
  bind (if decide (length permutation = length E)
        then bind (lift (Permutation_Coords junk permutation 1)) (λ rows,
             λ '(h, ax), let '(h1, r) := set_positions E rows h in ((h1, ax), r))
        else ret tt) (λ _, plot (PList E) None time kw).
End Plotter.
