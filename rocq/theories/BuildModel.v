(** Model of the constructors and mutators of /repo/causet.py (lines 41-306 and 325-331):
    FromPermutation, NewChain, NewAntichain, NewSimplex, NewFence, NewCrown, FromPastMatrix,
    FromFutureMatrix, FromTextFile, saveAsCSV, merge, add, discard, link, unlink. *)
From Verif Require Import Base EventModel CausetModel PyStr.
From Coq Require Import Ascii.

(** A call inside a longer method sees its own iteration orders: call number [k] of the
    oracle [it] uses call sites that no other call uses (the sites of a single method are
    below 100). (/repo/causet.py:40-204 calls of the constructor, causetevent.py:34-67) *)
Definition sub (it : oracle) (k : nat) : oracle := λ s, it (100 + 100 * k + s).

Section model.
Context (it : oracle).

(** CausetEvent(past=P, label=l), /repo/causetevent.py:34-67; the call is numbered by the
    identity of the new instance. *)
Definition alloc (l : label) (P : gset nat) (h : heap) : heap * nat :=
  new_event (sub it (new_id h)) l P ∅ [] [] h.

(** The optional argument labelFormat, /repo/causet.py:49-52, 59-64: None, '' or a format
    string; [f u] stands for labelFormat.format(u). *)
Inductive label_format : Type :=
| FmtNone
| FmtEmpty
| FmtStr (f : Z → string).
(** /repo/causet.py:59-64 *)
Definition fmt_label (fmt : label_format) (u : Z) : label :=
  match fmt with FmtNone => LInt u | FmtEmpty => LNone | FmtStr f => LStr (f u) end.

(** Python list.index: first position of a value ([None]: ValueError).
    (/repo/causet.py:54-67) *)
Definition py_index (P : list Z) (u : Z) : option nat := fst <$> list_find (λ x, x = u) P.

(** /repo/causet.py:54-67, the for loop.  [P.index(j + 1)] in the set comprehension was
    evaluated in iteration j before and cannot raise there. *)
Definition index_lt (P : list Z) (j v : nat) : bool :=
  match py_index P (Z.of_nat j + 1) with Some w => bool_decide (w < v) | None => false end.
(** /repo/causet.py:54-67 *)
Fixpoint fromperm_loop (fmt : label_format) (P : list Z) (is : list nat) (evs : list nat)
    (h : heap) : heap * res (list nat) :=
  match is with
  | [] => (h, Ok evs)
  | i :: is' =>
    let u := (Z.of_nat i + 1)%Z in
    match py_index P u with
    | None => (h, Err ValueError)
    | Some v =>
      let past : gset nat := list_to_set ((λ j, evs !!! j) <$> filter (λ j, index_lt P j v = true) (seq 0 i)) in
      let '(h1, x) := alloc (fmt_label fmt u) past h in
      fromperm_loop fmt P is' (<[i := x]> evs) h1
    end
  end.
(** /repo/causet.py:40-68 (FromPermutation). *)
Definition FromPermutation (fmt : label_format) (P : list Z) (h : heap)
    : heap * res (gset nat) :=
  let '(h0, e0) := alloc LNone ∅ h in
  match fromperm_loop fmt P (seq 0 (length P)) (replicate (length P) e0) h0 with
  | (h1, Ok evs) => (h1, causet h1 (list_to_set evs))
  | (h1, Err e) => (h1, Err e)
  end.

(** /repo/causet.py:70-78 (NewChain), 80-87 (NewAntichain). *)
Definition NewChain (n : Z) (fmt : label_format) (h : heap) : heap * res (gset nat) :=
  FromPermutation fmt ((λ k, Z.of_nat k + 1)%Z <$> seq 0 (Z.to_nat n)) h.
(** /repo/causet.py:81-87 *)
Definition NewAntichain (n : Z) (fmt : label_format) (h : heap) : heap * res (gset nat) :=
  FromPermutation fmt ((λ k, n - Z.of_nat k)%Z <$> seq 0 (Z.to_nat n)) h.

(** A list comprehension of constructor calls, from left to right.
    (/repo/causet.py:89-145) *)
Fixpoint alloc_list (args : list (label * gset nat)) (h : heap) : heap * list nat :=
  match args with
  | [] => (h, [])
  | (l, P) :: args' =>
    let '(h1, x) := alloc l P h in
    let '(h2, xs) := alloc_list args' h1 in (h2, x :: xs)
  end.

(** itertools.combinations: the k-element sublists in lexicographic order of positions.
    (/repo/causet.py:89-112) *)
Fixpoint combinations {A} (l : list A) (k : nat) : list (list A) :=
  match k, l with
  | O, _ => [[]]
  | S _, [] => []
  | S k', x :: l' => ((λ c, x :: c) <$> combinations l' k') ++ combinations l' k
  end.

(** '-'.join(e.Label for e in l); all labels are str here. (/repo/causet.py:100-107) *)
Definition label_str (l : label) : string := match l with LStr s => s | _ => "" end.
(** /repo/causet.py:100-107 *)
Definition face_label (h : heap) (l : list nat) : string :=
  join "-" ((λ e, label_str (lab h e)) <$> l).

(** /repo/causet.py:100-107: one face. *)
Definition simplex_face (st : heap * gset nat) (fv : list nat) : heap * gset nat :=
  let '(h, E) := st in
  let past := ⋃ ((λ pf, filter (λ e, lab h e = LStr (face_label h pf)) E) <$>
                   combinations fv (length fv - 1)) in
  let '(h1, x) := alloc (LStr (face_label h fv)) past h in
  (h1, {[x]} ∪ E).
(** /repo/causet.py:89-112 (NewSimplex). *)
Definition NewSimplex (d : Z) (central : bool) (h : heap) : heap * res (gset nat) :=
  let '(h0, vs) :=
    alloc_list ((λ i, (LStr (str_of_nat i), ∅)) <$> seq 1 (Z.to_nat (d + 1))) h in
  let faces := k ← seq 2 (Z.to_nat (d - 1)); combinations vs k in
  let '(h1, E) := foldl simplex_face (h0, list_to_set vs) faces in
  let '(h2, E2) :=
    if central && bool_decide (0 < d)%Z
    then let '(h', x) := alloc (LStr (face_label h1 vs)) E h1 in (h', {[x]} ∪ E)
    else (h1, E) in
  (h2, causet h2 E2).

(** /repo/causet.py:126-144: one level of the fence.  [loop[l - 1]] for l = 0 is the last
    entry (negative index). *)
Definition fence_row (closed : bool) (len : nat) (h_ : nat) (loop : list nat)
    : list (label * gset nat) :=
  let offset := h_ * len + 1 in
  (λ l, (LInt (Z.of_nat (l + offset)),
         if decide (l = 0)
         then if closed then {[loop !!! (len - 1); loop !!! 0]} else {[loop !!! 0]}
         else {[loop !!! (l - 1); loop !!! l]} : gset nat)) <$> seq 0 len.
(** /repo/causet.py:126-144 *)
Fixpoint fence_levels (closed : bool) (len : nat) (hs : list nat) (loop : list nat)
    (E : gset nat) (h : heap) : heap * gset nat :=
  match hs with
  | [] => (h, E)
  | k :: hs' =>
    let '(h1, next) := alloc_list (fence_row closed len k loop) h in
    fence_levels closed len hs' next (E ∪ list_to_set next) h1
  end.
(** /repo/causet.py:114-145 (NewFence). *)
Definition NewFence (length height : Z) (closed : bool) (h : heap) : heap * res (gset nat) :=
  if decide (length < 1 ∨ height < 0)%Z then (h, causet h ∅)
  else if decide (length = 1)%Z then NewChain (height + 1) FmtNone h
  else
    let len := Z.to_nat length in
    let '(h0, loop) := alloc_list ((λ l, (LInt (Z.of_nat l), ∅)) <$> seq 1 len) h in
    let '(h1, E) := fence_levels closed len (seq 1 (Z.to_nat height)) loop
                      (list_to_set loop) h0 in
    (h1, causet h1 E).
(** /repo/causet.py:147-153 (NewCrown). *)
Definition NewCrown (length : Z) (h : heap) : heap * res (gset nat) := NewFence length 1 true h.

(** /repo/causet.py:182-191: first loop of FromPastMatrix.  [C] is the matrix, [r] and [c] its
    shape. *)
Fixpoint frommat_assign (r c : nat) (C : nat → nat → bool) (evs is : list nat) (h : heap)
    : heap * res unit :=
  match is with
  | [] => (h, Ok tt)
  | i :: is' =>
    let e := evs !!! i in
    let past : gset nat := list_to_set ((λ j, evs !!! j) <$> filter (λ j, C i j = true) (seq 0 c)) in
    let future : gset nat := list_to_set ((λ j, evs !!! j) <$> filter (λ j, C j i = true) (seq 0 r)) in
    if decide (past ∩ future ≠ ∅ ∨ e ∈ past ∨ e ∈ future) then (h, Err ValueError)
    else frommat_assign r c C evs is' (upd (λ e, set_succ future (set_prec past e)) e h)
  end.
(** /repo/causet.py:193-196: the completion loop. *)
Definition frommat_complete (h : heap) (e : nat) : heap :=
  let h1 := upd (set_prec (PastOf h (prec h e) true false)) e h in
  upd (set_succ (FutureOf h1 (succ h1 e) true false)) e h1.
(** /repo/causet.py:167-197 (FromPastMatrix).  The events array is returned as well: it is
    local in Python, the theorems use it to name the events. *)
Definition FromPastMatrix (r c : nat) (C : nat → nat → bool) (h : heap)
    : heap * list nat * res (gset nat) :=
  if decide (c < r) then (h, [], Err ValueError)
  else
    let '(h0, evs) := alloc_list ((λ i, (LInt (Z.of_nat i), ∅)) <$> seq 1 c) h in
    match frommat_assign r c C evs (seq 0 r) h0 with
    | (h1, Err e) => (h1, evs, Err e)
    | (h1, Ok _) =>
      let h2 := foldl frommat_complete h1 evs in
      (h2, evs, causet h2 (list_to_set evs))
    end.
(** /repo/causet.py:199-204 (FromFutureMatrix): [C.T]. *)
Definition FromFutureMatrix (r c : nat) (C : nat → nat → bool) (h : heap)
    : heap * list nat * res (gset nat) :=
  FromPastMatrix c r (λ i j, C j i) h.

(** numpy.savetxt(filename, C, fmt='%.0f', delimiter=','): one line per row, fields '0' and
    '1', newline after every row. (/repo/causet.py:325-331) *)
Definition csv_field (b : bool) : string := if b then "1" else "0".
(** /repo/causet.py:325-331 *)
Definition csv_line (row : list bool) : string := join "," (csv_field <$> row).
(** /repo/causet.py:325-331 *)
Definition newline : ascii := ascii_of_nat 10.
(** /repo/causet.py:325-331 *)
Definition savetxt (M : matrix) : string :=
  foldr (λ row s, csv_line row +:+ String newline s) EmptyString M.
(** /repo/causet.py:325-331 (saveAsCSV): the text written. *)
Definition saveAsCSV (argsort : argsort_t) (h : heap) (C : gset nat) : res string :=
  res_map savetxt (PastMatrix it argsort h C).

(** numpy.genfromtxt(dtype=int, delimiter=',') followed by astype(bool).  Lines are split at
    newlines, empty lines are skipped, fields are split at ','; a decimal field is its value,
    any other field the default -1 of an int column; rows of different lengths raise
    ValueError; the array is squeezed, so a single row or column loses a dimension and a
    single field has none; an empty file gives an array of shape (0,).
    Simplification: comments, blanks and signs in fields are not modelled (saveAsCSV writes
    none). (/repo/causet.py:206-221) *)
Definition digit_val (a : ascii) : option nat :=
  let n := nat_of_ascii a in
  if decide (48 ≤ n ∧ n ≤ 57) then Some (n - 48) else None.
(** /repo/causet.py:206-221 *)
Fixpoint parse_digits (acc : nat) (s : string) : option nat :=
  match s with
  | EmptyString => Some acc
  | String a s' => match digit_val a with
                   | Some d => parse_digits (10 * acc + d) s'
                   | None => None
                   end
  end.
(** /repo/causet.py:206-221 *)
Definition field_bool (s : string) : bool :=
  match s with
  | EmptyString => true
  | _ => match parse_digits 0 s with Some 0 => false | _ => true end
  end.
(** /repo/causet.py:206-221 the array read by numpy *)
Inductive ndarray : Type :=
| Arr0 (b : bool)
| Arr1 (l : list bool)
| Arr2 (M : matrix).
(** /repo/causet.py:206-221 numpy squeezes the array read *)
Definition squeeze (M : matrix) : ndarray :=
  match M with
  | [] => Arr1 []
  | [[b]] => Arr0 b
  | [row] => Arr1 row
  | row :: _ => if decide (length row = 1) then Arr1 (mjoin M) else Arr2 M
  end.
(** /repo/causet.py:206-221 *)
Definition genfromtxt (text : string) : res ndarray :=
  let lines := filter (λ s, s ≠ EmptyString) (split_on newline text) in
  let M := (λ line, field_bool <$> split_on "," line) <$> lines in
  if decide (Forall (λ row : list bool, length row = length (default [] (head M))) M)
  then Ok (squeeze M) else Err ValueError.
(** /repo/causet.py:206-221 (FromTextFile) on the content of the file.  [C.shape[0]] or
    [C.shape[1]] raises IndexError for an array with fewer than two dimensions. *)
Definition FromTextFile (text : string) (isPastMatrix : bool) (h : heap)
    : heap * list nat * res (gset nat) :=
  match genfromtxt text with
  | Err e => (h, [], Err e)
  | Ok (Arr2 M) =>
    let r := length M in
    let c := length (default [] (head M)) in
    if isPastMatrix then FromPastMatrix r c (mat_get M) h
    else FromFutureMatrix r c (mat_get M) h
  | Ok _ => (h, [], Err IndexError)
  end.

(** /repo/causet.py:223-237 (merge): the two nested loops, then the union. *)
Definition merge_pair (p : nat) (h : heap) (f : nat) : heap :=
  fst (addToPast (fst (addToFuture h p f)) f p).
(** /repo/causet.py:223-237 *)
Definition merge_loop (A B : gset nat) (h : heap) : heap :=
  foldl (λ h p, foldl (merge_pair p) h (it 21 B)) h (it 20 A).
(** /repo/causet.py:224-237 *)
Definition merge (A B : gset nat) (disjoint : bool) (h : heap) : heap * res (gset nat) :=
  let h1 := if disjoint then h else merge_loop A B h in
  (h1, causet h1 (A ∪ B)).

(** /repo/causet.py:239-261 (add, discard) with the unlink option: CausetEvent.unlink on every
    event of the new set; the first AttributeError ends the loop. *)
Fixpoint unlink_loop (l : list nat) (h : heap) : heap * res unit :=
  match l with
  | [] => (h, Ok tt)
  | e :: l' => match EventModel.unlink h e with
               | (h1, Ok _) => unlink_loop l' h1
               | (h1, Err x) => (h1, Err x)
               end
  end.
(** /repo/causet.py:239-249 *)
Definition add (C S : gset nat) (unlink : bool) (h : heap) : heap * gset nat * res unit :=
  let C' := add_events C S in
  if unlink then let '(h1, r) := unlink_loop (it 24 C') h in (h1, C', r) else (h, C', Ok tt).
(** /repo/causet.py:251-261 *)
Definition discard (C S : gset nat) (unlink : bool) (h : heap) : heap * gset nat * res unit :=
  let C' := discard_events C S in
  if unlink then let '(h1, r) := unlink_loop (it 24 C') h in (h1, C', r) else (h, C', Ok tt).

(** /repo/causet.py:277-289 (link).  [a._lsucc.add(b)] raises AttributeError if [a] has no
    attribute [_lsucc]. *)
Fixpoint add_lsucc (b : nat) (l : list nat) (h : heap) : heap * res unit :=
  match l with
  | [] => (h, Ok tt)
  | a :: l' => match lsucc h a with
               | None => (h, Err AttributeError)
               | Some s => add_lsucc b l' (upd (set_lsucc (Some (s ∪ {[b]}))) a h)
               end
  end.
(** /repo/causet.py:277-289 *)
Fixpoint link_loop (l : list nat) (h : heap) : heap * res unit :=
  match l with
  | [] => (h, Ok tt)
  | b :: l' =>
    let lp := link_past_set h b in
    let h1 := upd (set_lprec (Some lp)) b h in
    match add_lsucc b (it 23 lp) h1 with
    | (h2, Ok _) => link_loop l' h2
    | (h2, Err e) => (h2, Err e)
    end
  end.
(** /repo/causet.py:277-289 *)
Definition link_causet (C : gset nat) (h : heap) : heap * res unit :=
  let h1 := foldl (λ h e, upd (set_lsucc (Some ∅)) e h) h (it 22 C) in
  link_loop (it 22 C) h1.
(** /repo/causet.py:291-296 (unlink). *)
Fixpoint unlink_linked_loop (l : list nat) (h : heap) : heap * res unit :=
  match l with
  | [] => (h, Ok tt)
  | e :: l' =>
    if hasBeenLinked h e then
      match EventModel.unlink h e with
      | (h1, Ok _) => unlink_linked_loop l' h1
      | (h1, Err x) => (h1, Err x)
      end
    else unlink_linked_loop l' h
  end.
(** /repo/causet.py:291-296 *)
Definition unlink_causet (C : gset nat) (h : heap) : heap * res unit :=
  unlink_linked_loop (it 25 C) h.

End model.
