(** Model of the query methods of /repo/causet.py (class Causet).
    A Causet instance is represented by its attribute [_events], a set of instances.
    The optional argument [eventSet] of a method is always given here; the Python default
    [None] stands for the event set of the causet itself (/repo/causet.py:1104, 1136, 1154,
    1173 and so on). *)
From Verif Require Import Base EventModel.
From stdpp Require Import sorting.

(** Python's max()/min() of a non-empty generator over a set. (/repo/causet.py:718-843) *)
Definition max_of (f : nat → nat) (S : gset nat) : nat :=
  foldr max 0 (f <$> elements S).
(** /repo/causet.py:694-716, 931-991 *)
Definition min_of (f : nat → nat) (S : gset nat) : nat :=
  match f <$> elements S with [] => 0 | x :: l => foldr min x l end.

(** A logical matrix: a list of rows. *)
Notation matrix := (list (list bool)).

Section model.
Context (it : oracle).

(** /repo/causet.py:547-565 (PastOf), 567-585 (FutureOf), 587-605 (ConeOf).  The loop order is
    irrelevant for [|=] and [&=], so the loops use [elements]. *)
Definition PastOf (h : heap) (S : gset nat) (includePresent intersect : bool) : gset nat :=
  if includePresent && intersect then
    foldl (λ acc e, acc ∩ PresentOrPast h e) ∅ (elements S)
  else if intersect then foldl (λ acc e, acc ∩ Past h e) ∅ (elements S)
  else
    let n := foldl (λ acc e, acc ∪ Past h e) ∅ (elements S) in
    if includePresent then n ∪ S else n.
(** /repo/causet.py:568-585 *)
Definition FutureOf (h : heap) (S : gset nat) (includePresent intersect : bool) : gset nat :=
  if includePresent && intersect then
    foldl (λ acc e, acc ∩ PresentOrFuture h e) ∅ (elements S)
  else if intersect then foldl (λ acc e, acc ∩ Future h e) ∅ (elements S)
  else
    let n := foldl (λ acc e, acc ∪ Future h e) ∅ (elements S) in
    if includePresent then n ∪ S else n.
(** /repo/causet.py:588-605 *)
Definition ConeOf (h : heap) (S : gset nat) (includePresent intersect : bool) : gset nat :=
  if includePresent && intersect then
    foldl (λ acc e, acc ∩ Cone h e) ∅ (elements S)
  else if intersect then foldl (λ acc e, acc ∩ (Past h e ∪ Future h e)) ∅ (elements S)
  else
    let n := foldl (λ acc e, acc ∪ (Past h e ∪ Future h e)) ∅ (elements S) in
    if includePresent then n ∪ S else n.

(** /repo/causet.py:22-32 (__init__): the while loop, with fuel. *)
Fixpoint causet_loop (fuel : nat) (h : heap) (S : gset nat) : res (gset nat) :=
  match fuel with
  | O => Err OutOfFuel
  | Datatypes.S fuel' =>
    let S' := ConeOf h S true false in
    if decide (size S' = size S) then Ok S' else causet_loop fuel' h S'
  end.
(** /repo/causet.py:22-32 *)
Definition causet (h : heap) (S : gset nat) : res (gset nat) :=
  causet_loop (Datatypes.S (size (S ∪ dom h))) h S.

(** /repo/causet.py:263-275 (len, Card), 388-389 (__contains__). *)
Definition Card (C : gset nat) : nat := size C.
(** /repo/causet.py:388-389 *)
Definition contains (C : gset nat) (x : nat) : bool := bool_decide (x ∈ C).

(** /repo/causet.py:239-249 (add), 251-261 (discard), without the [unlink] option (see
    BuildModel for the option).  The [hasattr(self, '__diagram_coords')] branch never runs
    because inside the class the string is not mangled and nothing sets that attribute. *)
Definition add_events (C S : gset nat) : gset nat := C ∪ S.
(** /repo/causet.py:251-261 *)
Definition discard_events (C S : gset nat) : gset nat := C ∖ S.

(** /repo/causet.py:391-426 (set operators and named set methods). *)
Definition op_sub (C X : gset nat) : gset nat := C ∖ X.
(** /repo/causet.py:394-395 *)
Definition op_rsub (C X : gset nat) : gset nat := C ∖ X.
(** /repo/causet.py:397-398 *)
Definition op_or (C X : gset nat) : gset nat := C ∪ X.
(** /repo/causet.py:400-401 *)
Definition op_ror (C X : gset nat) : gset nat := C ∪ X.
(** /repo/causet.py:403-404 *)
Definition op_and (C X : gset nat) : gset nat := C ∩ X.
(** /repo/causet.py:406-407 *)
Definition op_rand (C X : gset nat) : gset nat := C ∩ X.
(** /repo/causet.py:409-410 *)
Definition op_xor (C X : gset nat) : gset nat := (C ∖ X) ∪ (X ∖ C).
(** /repo/causet.py:412-413 *)
Definition op_rxor (C X : gset nat) : gset nat := (C ∖ X) ∪ (X ∖ C).
(** /repo/causet.py:415-416 *)
Definition difference_ (C X : gset nat) : gset nat := C ∖ X.
(** /repo/causet.py:418-419 *)
Definition intersection_ (C X : gset nat) : gset nat := C ∩ X.
(** /repo/causet.py:421-423 *)
Definition symmetric_difference_ (C X : gset nat) : gset nat := (C ∖ X) ∪ (X ∖ C).
(** /repo/causet.py:425-426 *)
Definition union_ (C X : gset nat) : gset nat := C ∪ X.

(** /repo/causet.py:364-372 (find), 374-380 (findAny, a generator: the list of yielded
    events), 382-386 (findAll). *)
Fixpoint find_loop (h : heap) (l : label) (es : list nat) : res nat :=
  match es with
  | [] => Err ValueError
  | e :: es' => if decide (lab h e = l) then Ok e else find_loop h l es'
  end.
(** /repo/causet.py:364-372 *)
Definition find (h : heap) (C : gset nat) (l : label) : res nat := find_loop h l (it 7 C).
(** /repo/causet.py:374-380 *)
Definition findAny (h : heap) (C : gset nat) (ls : list label) : list nat :=
  filter (λ e, lab h e ∈ ls) (it 8 C).
(** /repo/causet.py:382-386 *)
Definition findAll (h : heap) (C : gset nat) (ls : list label) : gset nat :=
  filter (λ e, lab h e ∈ ls) C.

(** /repo/causet.py:298-306 (LinkCount): [None] and [Some eventSet]. *)
Definition LinkCount (h : heap) (C : gset nat) (o : option (gset nat)) : nat :=
  match o with
  | None => sum_list ((λ e, size (LinkPast h e)) <$> elements C)
  | Some T => sum_list ((λ e, size (LinkPast h e ∩ T)) <$> elements T)
  end.

(** /repo/causet.py:428-444 (isChain), 470-484 (isAntichain): [None] and [Some events]. *)
Definition isChain (h : heap) (C : gset nat) (o : option (gset nat)) : bool :=
  match o with
  | None => forallb (λ e, bool_decide (ConeCard h e = size C)) (elements C)
  | Some T => forallb (λ e, bool_decide (size (Cone h e ∩ T) = size T)) (elements T)
  end.
(** /repo/causet.py:470-484 *)
Definition isAntichain (h : heap) (C : gset nat) (o : option (gset nat)) : bool :=
  match o with
  | None => forallb (λ e, bool_decide (ConeCard h e = 1)) (elements C)
  | Some T => forallb (λ e, bool_decide (size (Cone h e ∩ T) = 1)) (elements T)
  end.

(** /repo/causet.py:446-468 (isPath). *)
Fixpoint path_loop (h : heap) (S : gset nat) (es : list nat) (extremal : nat) : bool :=
  match es with
  | [] => true
  | e :: es' =>
    let c := size (LinkCone h e ∩ S) in
    if (c <? 1) || (2 <? c) then false
    else if c =? 1 then
      if 2 <? extremal + 1 then false else path_loop h S es' (extremal + 1)
    else path_loop h S es' extremal
  end.
(** /repo/causet.py:446-468 *)
Definition isPath (h : heap) (C : gset nat) (o : option (gset nat)) : bool :=
  match o with
  | None => if size C =? 0 then false else isChain h C None
  | Some T => if size T <=? 1 then size T =? 1 else path_loop h T (it 9 T) 0
  end.

(** /repo/causet.py:486-499 (PastInf, FutureInf), 501-513 (the Card versions, a sum of ones
    over the same filter), 515-529 (PastInfOf, FutureInfOf), 531-545 (their Card versions). *)
Definition PastInf (h : heap) (C : gset nat) : gset nat := filter (λ e, PastCard h e = 0) C.
(** /repo/causet.py:494-499 *)
Definition FutureInf (h : heap) (C : gset nat) : gset nat := filter (λ e, FutureCard h e = 0) C.
(** /repo/causet.py:502-506 *)
Definition PastInfCard (h : heap) (C : gset nat) : nat :=
  sum_list ((λ _, 1) <$> filter (λ e, PastCard h e = 0) (elements C)).
(** /repo/causet.py:509-513 *)
Definition FutureInfCard (h : heap) (C : gset nat) : nat :=
  sum_list ((λ _, 1) <$> filter (λ e, FutureCard h e = 0) (elements C)).
(** /repo/causet.py:516-521 *)
Definition PastInfOf (h : heap) (S : gset nat) : gset nat := filter (λ e, Past h e ∩ S = ∅) S.
(** /repo/causet.py:524-529 *)
Definition FutureInfOf (h : heap) (S : gset nat) : gset nat :=
  filter (λ e, Future h e ∩ S = ∅) S.
(** /repo/causet.py:532-537 *)
Definition PastInfCardOf (h : heap) (S : gset nat) : nat :=
  sum_list ((λ _, 1) <$> filter (λ e, Past h e ∩ S = ∅) (elements S)).
(** /repo/causet.py:540-545 *)
Definition FutureInfCardOf (h : heap) (S : gset nat) : nat :=
  sum_list ((λ _, 1) <$> filter (λ e, Future h e ∩ S = ∅) (elements S)).

(** /repo/causet.py:607-611 (SpacelikeTo). *)
Definition SpacelikeTo (h : heap) (C S : gset nat) : gset nat := C ∖ ConeOf h S true false.

(** /repo/causet.py:613-629 (Interval), 631-645 (IntervalCard). *)
Definition Interval (h : heap) (a b : nat) (includeBoundary : bool) : gset nat :=
  if negb (ev_le h a b) then ∅
  else if decide (a = b) then {[a]}
  else if includeBoundary then PresentOrFuture h a ∩ PresentOrPast h b
  else Future h a ∩ Past h b.
(** /repo/causet.py:632-645 *)
Definition IntervalCard (h : heap) (a b : nat) (includeBoundary : bool) : nat :=
  if negb (ev_le h a b) then 0
  else if decide (a = b) then 1
  else size (Future h a ∩ Past h b) + 2 * (if includeBoundary then 1 else 0).

(** /repo/causet.py:647-657, 659-668 (PerimetralEvents, PerimetralEventCount), 670-680,
    682-692 (InternalEvents, InternalEventCount).  Int subtraction in Z. *)
Definition PerimetralEvents (h : heap) (a b : nat) : gset nat :=
  if negb (ev_lt h a b) then ∅ else LinkFuture h a ∩ LinkPast h b.
(** /repo/causet.py:660-668 *)
Definition PerimetralEventCount (h : heap) (a b : nat) : nat :=
  if negb (ev_lt h a b) then 0 else size (LinkFuture h a ∩ LinkPast h b).
(** /repo/causet.py:671-680 *)
Definition InternalEvents (h : heap) (a b : nat) : gset nat :=
  if negb (ev_lt h a b) then ∅ else (Future h a ∩ Past h b) ∖ PerimetralEvents h a b.
(** /repo/causet.py:683-692 *)
Definition InternalEventCount (h : heap) (a b : nat) : Z :=
  if negb (ev_lt h a b) then 0%Z
  else (Z.of_nat (size (Future h a ∩ Past h b)) - Z.of_nat (PerimetralEventCount h a b))%Z.

(** /repo/causet.py:694-716 (CentralAntichain).  Both passes iterate over the same unmodified
    set, hence in the same order (one oracle site).  [np_unique]: the sorted distinct values
    (numpy.unique). *)
Definition np_unique (l : list Z) : list Z := merge_sort Z.le (remove_dups l).
(** /repo/causet.py:694-716 *)
Definition balance (h : heap) (x : nat) : Z :=
  (Z.of_nat (PastCard h x) - Z.of_nat (FutureCard h x))%Z.
(** /repo/causet.py:694-716 *)
Definition central_size (h : heap) (diff : Z) (x : nat) : Z := Z.abs (balance h x - diff).
(** /repo/causet.py:694-716 *)
Definition central_pass (h : heap) (diff size : Z) (es : list nat) (acc : gset nat) : gset nat :=
  foldl (λ acc e,
    if decide (central_size h diff e = size ∧ Cone h e ∩ acc = ∅) then acc ∪ {[e]} else acc)
    acc es.
(** /repo/causet.py:694-716 *)
Definition CentralAntichain (h : heap) (C : gset nat) (e : option nat) : gset nat :=
  let diff := match e with None => 0%Z | Some x => balance h x end in
  let es := it 10 C in
  foldl (λ acc size, central_pass h diff size es acc) ∅
    (np_unique (central_size h diff <$> es)).

(** /repo/causet.py:718-755 (Layers); [past_number]/[future_number] is the value [n] of the two
    loops. *)
Definition past_number (h : heap) (S : gset nat) (a : nat) : Z :=
  let setB := Future h a ∩ S in
  if decide (setB = ∅) then 0%Z
  else (- (Z.of_nat (max_of (λ b, IntervalCard h a b true) setB) - 1))%Z.
(** /repo/causet.py:718-755 *)
Definition future_number (h : heap) (S : gset nat) (b : nat) : Z :=
  let setA := Past h b ∩ S in
  if decide (setA = ∅) then 0%Z
  else (Z.of_nat (max_of (λ a, IntervalCard h a b true) setA) - 1)%Z.
(** /repo/causet.py:719-755 *)
Definition Layers (h : heap) (S : gset nat) (first : Z) (last : option Z) : gset nat :=
  let last := default first last in
  if decide (size S = 0 ∨ (last < first)%Z) then ∅
  else
    (if decide (first <= 0)%Z
     then filter (λ a, (first <= past_number h S a)%Z ∧ (past_number h S a <= Z.min 0 last)%Z)
            (PastOf h S true false)
     else ∅) ∪
    (if decide (0 < last)%Z
     then filter (λ b, (Z.max first 0 <= future_number h S b)%Z ∧
                       (future_number h S b <= last)%Z)
            (FutureOf h S true false)
     else ∅).

(** /repo/causet.py:757-783 (LayerNumbers).  [lnums] starts as a list of zeros, the loop
    replaces entry i; an event without relatives in the list keeps 0, which is what
    [past_number]/[future_number] return. *)
Definition LayerNumbers (h : heap) (l : list nat) (reverse : bool) : list Z :=
  let S : gset nat := list_to_set l in
  if decide (size S = 0) then []
  else if reverse then past_number h S <$> l else future_number h S <$> l.

(** /repo/causet.py:785-819 (Ranks), 821-845 (RankNumbers).  [int(a.Rank(b))] of math.inf
    raises OverflowError in Python; the model returns 0 there ([default]); it never happens
    for a < b (see Ranks_spec).  An exhausted fuel of Rank is also excluded there. *)
Definition rank_int (h : heap) (a b : nat) : nat :=
  match Rank it h a b with Ok (Some n) => n | _ => 0 end.
(** /repo/causet.py:785-819 *)
Definition past_rank (h : heap) (S : gset nat) (a : nat) : Z :=
  let setB := Future h a ∩ S in
  if decide (setB = ∅) then 0%Z else (- Z.of_nat (max_of (λ b, rank_int h a b) setB))%Z.
(** /repo/causet.py:785-819 *)
Definition future_rank (h : heap) (S : gset nat) (b : nat) : Z :=
  let setA := Past h b ∩ S in
  if decide (setA = ∅) then 0%Z else Z.of_nat (max_of (λ a, rank_int h a b) setA).
(** /repo/causet.py:786-819 *)
Definition Ranks (h : heap) (S : gset nat) (first : Z) (last : option Z) : gset nat :=
  let last := default first last in
  if decide (size S = 0 ∨ (last < first)%Z) then ∅
  else
    (if decide (first <= 0)%Z
     then filter (λ a, (first <= past_rank h S a)%Z ∧ (past_rank h S a <= Z.min 0 last)%Z)
            (PastOf h S true false)
     else ∅) ∪
    (if decide (0 < last)%Z
     then filter (λ b, (Z.max first 0 <= future_rank h S b)%Z ∧ (future_rank h S b <= last)%Z)
            (FutureOf h S true false)
     else ∅).
(** /repo/causet.py:822-845 *)
Definition RankNumbers (h : heap) (l : list nat) (reverse : bool) : list Z :=
  let S : gset nat := list_to_set l in
  if decide (size S = 0) then []
  else if reverse then past_rank h S <$> l else future_rank h S <$> l.

(** /repo/causet.py:1166-1185 (layered): the while loop, with fuel. *)
Fixpoint layered_loop (fuel : nat) (h : heap) (S : gset nat) (step : Z) (layer : gset nat)
    : res (list (gset nat)) :=
  match fuel with
  | O => Err OutOfFuel
  | Datatypes.S fuel' =>
    if decide (layer = ∅) then Ok []
    else res_map (cons layer) (layered_loop fuel' h S step (Layers h layer step None ∩ S))
  end.
(** /repo/causet.py:1166-1185 *)
Definition layered (h : heap) (S : gset nat) (reverse : bool) : res (list (gset nat)) :=
  layered_loop (Datatypes.S (size S)) h S (if reverse then (-1)%Z else 1%Z)
    (if reverse then FutureInfOf h S else PastInfOf h S).

(** /repo/causet.py:931-991 (SmallestIntervalCard).  [C] is the causet (self). *)
Definition card_in (S : gset nat) (o : option (gset nat)) : nat :=
  match o with None => size S | Some i => size (S ∩ i) end.
(** /repo/causet.py:931-991 *)
Definition SmallestIntervalCard (h : heap) (C : gset nat) (a0 b0 : nat)
    (searching intersecting : option (gset nat)) : nat :=
  let '(a, b) := if ev_gt h a0 b0 then (b0, a0) else (a0, b0) in
  let spacelike_case :=
    let s := default C searching in
    let p := Past h a ∩ Past h b ∩ s in
    let f := Future h a ∩ Future h b ∩ s in
    if decide (p = ∅ ∧ f = ∅) then 0
    else if decide (p = ∅) then min_of (λ e, card_in (Past h e) intersecting) f
    else if decide (f = ∅) then min_of (λ e, card_in (Future h e) intersecting) p
    else
      match intersecting with
      | None => min_of (λ ep, min_of (λ ef, IntervalCard h ep ef true) f) p
      | Some i => min_of (λ ep, min_of (λ ef, size (Interval h ep ef true ∩ i)) f) p
      end in
  if ev_le h a b then
    match searching with
    | None =>
      match intersecting with
      | None => IntervalCard h a b true
      | Some i => size (Interval h a b true ∩ i)
      end
    | Some s =>
      if decide (a ∈ s ∧ b ∈ s) then
        match intersecting with
        | None => IntervalCard h a b true
        | Some i => size (Interval h a b true ∩ i)
        end
      else if decide (a ∈ s) then card_in (Future h a) intersecting
      else if decide (b ∈ s) then card_in (Past h b) intersecting
      else spacelike_case
    end
  else spacelike_case.

(** /repo/causet.py:1093-1120 (disjoint): the inner while loop grows one component, the outer
    one removes it from [remaining].  [next(iter(remaining))] is the head of the iteration. *)
Fixpoint component_loop (fuel : nat) (h : heap) (remaining : gset nat) (pre : nat)
    (S : gset nat) : res (gset nat) :=
  match fuel with
  | O => Err OutOfFuel
  | Datatypes.S fuel' =>
    if decide (pre < size S)
    then component_loop fuel' h remaining (size S) (ConeOf h S true false ∩ remaining)
    else Ok S
  end.
(** /repo/causet.py:1093-1120 *)
Fixpoint disjoint_loop (fuel : nat) (h : heap) (remaining : gset nat)
    : res (list (gset nat)) :=
  match fuel with
  | O => Err OutOfFuel
  | Datatypes.S fuel' =>
    match it 11 remaining with
    | [] => Ok []
    | x :: _ =>
      res_bind (component_loop (2 + size remaining) h remaining 0 {[x]}) (λ S,
        res_map (cons S) (disjoint_loop fuel' h (remaining ∖ S)))
    end
  end.
(** /repo/causet.py:1093-1120 *)
Definition disjoint_ (h : heap) (S : gset nat) : res (list (gset nat)) :=
  disjoint_loop (Datatypes.S (size S)) h S.
(** /repo/causet.py:1122-1127 (isDisjoint). *)
Definition isDisjoint (h : heap) (S : gset nat) : res bool :=
  res_map (λ l : list (gset nat), bool_decide (1 < length l)) (disjoint_ h S).

(** numpy.argsort of a list of labels: a function [argsort] that may return any order of the
    indices (quicksort is not stable).  With two or more labels one of which is None the
    array has dtype object and the comparison raises TypeError.
    (/repo/causet.py:1129-1164) *)
Definition argsort_t : Type := list label → list nat.
(** /repo/causet.py:1129-1164 *)
Definition np_argsort (argsort : argsort_t) (ls : list label) : res (list nat) :=
  if decide (2 ≤ length ls ∧ LNone ∈ ls) then Err TypeError else Ok (argsort ls).

(** /repo/causet.py:1129-1145 (sortedByLabels). *)
Definition sortedByLabels (argsort : argsort_t) (h : heap) (S : gset nat) (rev : bool)
    : res (list nat) :=
  let unsorted := it 12 S in
  res_map (λ idx : list nat,
      let sorted := (λ i, unsorted !!! i) <$> idx in
      if rev then reverse sorted else sorted)
    (np_argsort argsort (lab h <$> unsorted)).

(** /repo/causet.py:1158-1161: the two nested loops of sortedByCausality. *)
Definition swap (l : list nat) (i j : nat) : list nat := <[j := l !!! i]> (<[i := l !!! j]> l).
(** /repo/causet.py:1158-1161 *)
Definition swap_step (h : heap) (i : nat) (l : list nat) (j : nat) : list nat :=
  if ev_lt h (l !!! i) (l !!! j) then swap l i j else l.
(** /repo/causet.py:1158-1161 *)
Definition swap_row (h : heap) (l : list nat) (i : nat) : list nat :=
  foldl (swap_step h i) l (seq 0 i).
(** /repo/causet.py:1158-1161 *)
Definition swap_sort (h : heap) (l : list nat) : list nat :=
  foldl (swap_row h) l (seq 0 (length l)).
(** /repo/causet.py:1147-1164 (sortedByCausality). *)
Definition sortedByCausality (argsort : argsort_t) (h : heap) (S : gset nat) (rev : bool)
    : res (list nat) :=
  res_map (λ l, let e := swap_sort h l in if rev then reverse e else e)
    (sortedByLabels argsort h S true).

(** /repo/causet.py:308-323 (PastMatrix of a given list), 333-338 (FutureMatrix: transpose),
    340-355 (LinkPastMatrix), 357-362 (LinkFutureMatrix).  A matrix is a list of rows; the
    dtype is bool.  [a.isPastLink(b)] is membership in LinkPast. *)
Definition PastMatrix_of (h : heap) (l : list nat) : matrix :=
  (λ a, (λ b, ev_gt h a b) <$> l) <$> l.
(** /repo/causet.py:340-355 *)
Definition LinkPastMatrix_of (h : heap) (l : list nat) : matrix :=
  (λ a, (λ b, bool_decide (b ∈ LinkPast h a)) <$> l) <$> l.
(** numpy's [.T] of a square matrix. (/repo/causet.py:333-338) *)
Definition mat_get (M : matrix) (i j : nat) : bool :=
  match M !! i with Some r => default false (r !! j) | None => false end.
(** /repo/causet.py:333-338, 357-362 *)
Definition mat_T (n : nat) (M : matrix) : matrix :=
  (λ i, (λ j, mat_get M j i) <$> seq 0 n) <$> seq 0 n.
(** /repo/causet.py:333-338 *)
Definition FutureMatrix_of (h : heap) (l : list nat) : matrix :=
  mat_T (length l) (PastMatrix_of h l).
(** /repo/causet.py:357-362 *)
Definition LinkFutureMatrix_of (h : heap) (l : list nat) : matrix :=
  mat_T (length l) (LinkPastMatrix_of h l).
(** /repo/causet.py:308-323 *)
Definition PastMatrix (argsort : argsort_t) (h : heap) (C : gset nat) : res matrix :=
  res_map (PastMatrix_of h) (sortedByCausality argsort h C false).
(** /repo/causet.py:340-355 *)
Definition LinkPastMatrix (argsort : argsort_t) (h : heap) (C : gset nat) : res matrix :=
  res_map (LinkPastMatrix_of h) (sortedByCausality argsort h C false).
(** /repo/causet.py:333-338 *)
Definition FutureMatrix (argsort : argsort_t) (h : heap) (C : gset nat) : res matrix :=
  res_map (FutureMatrix_of h) (sortedByCausality argsort h C false).
(** /repo/causet.py:357-362 *)
Definition LinkFutureMatrix (argsort : argsort_t) (h : heap) (C : gset nat) : res matrix :=
  res_map (LinkFutureMatrix_of h) (sortedByCausality argsort h C false).

End model.
