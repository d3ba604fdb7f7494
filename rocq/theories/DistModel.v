(** Model of Causet.DistanceMatrix and Causet.Antipaths.  /repo/causet.py:993-1091. *)
From Verif Require Import Base EventModel CausetModel.

(** An l x l numpy array of int: its entry function.  Simplification: the shape is kept apart
    (the parameter [l] of the functions below); all accesses use indices below l. *)
Notation zmat := (nat → nat → Z).
(** /repo/causet.py:1014-1022 *)
Definition zzero : zmat := λ _ _, 0%Z.
(** D[i, j], D[j, i] = d, d. (/repo/causet.py:1027-1051) *)
Definition zset2 (D : zmat) (i j : nat) (d : Z) : zmat :=
  λ x y, if decide ((x = i ∧ y = j) ∨ (x = j ∧ y = i)) then d else D x y.
(** /repo/causet.py:1014-1053 *)
Definition zrows (l : nat) (D : zmat) : list (list Z) :=
  (λ i, D i <$> seq 0 l) <$> seq 0 l.
(** /repo/causet.py:1055-1091 *)
Definition zget (M : list (list Z)) : zmat := λ i j, default 0%Z ((M !! i) ≫= (.!! j)).

(** min of a non-empty list of int. (/repo/causet.py:1027-1034) *)
Definition zmin_list (x : Z) (xs : list Z) : Z := foldl Z.min x xs.

(** itertools.combinations(range(l), 2). (/repo/causet.py:1027-1034) *)
Definition combinations2 (l : nat) : list (nat * nat) :=
  i ← seq 0 l; j ← seq (S i) (l - S i); [(i, j)].

(** /repo/causet.py:1027-1034: the direct distances of one round. *)
Definition dm_value (h : heap) (C : gset nat) (ac : list nat) (ziczac : bool)
    (slice : gset nat) (i j : nat) : Z :=
  let d := (Z.of_nat (SmallestIntervalCard h C (ac !!! i) (ac !!! j) (Some slice)
                        (Some (list_to_set ac))) - 1)%Z in
  if ziczac then Z.min 1 d else d.
(** /repo/causet.py:1027-1034 *)
Definition dm_direct (h : heap) (C : gset nat) (ac : list nat) (ziczac : bool)
    (slice : gset nat) (D : zmat) : zmat :=
  foldl (λ (D : zmat) '(i, j),
      if decide (D i j < 1)%Z then zset2 D i j (dm_value h C ac ziczac slice i j) else D)
    D (combinations2 (length ac)).

(** /repo/causet.py:1037-1051: the state of the three nested loops is the matrix, the number
    of disconnected entries and whether the function has returned. *)
Definition dm_state : Type := zmat * Z * bool.
(** /repo/causet.py:1042-1051: the body of the loop over j; [conn] is i_connected. *)
Definition dm_body (l i : nat) (conn : nat → bool) (st : dm_state) (j : nat) : dm_state :=
  let '(D, count, done) := st in
  if done then st
  else
    match filter (λ m, conn m = true ∧ D j m = 1%Z) (seq 0 l) with
    | [] => st
    | m :: ms =>
      let d := zmin_list (D i m + D j m)%Z ((λ m, D i m + D j m)%Z <$> ms) in
      let count' := (count - 2)%Z in
      (zset2 D i j d, count', bool_decide (count' = 0%Z))
    end.
(** /repo/causet.py:1039-1042: the body of the loop over i; i_disjoint and i_connected are
    arrays computed once per i. *)
Definition dm_row (l : nat) (k : Z) (st : dm_state) (i : nat) : dm_state :=
  let '(D, _, done) := st in
  if done then st
  else foldl (dm_body l i (λ m, bool_decide (D i m = k))) st
         (filter (λ j, (D i j < 0)%Z) (seq 0 l)).
(** /repo/causet.py:1039-1042 *)
Definition dm_level (l : nat) (st : dm_state) (k : nat) : dm_state :=
  foldl (dm_row l (Z.of_nat k)) st (seq 0 l).
(** np.sum(D < 0). (/repo/causet.py:1035-1053) *)
Definition dm_count (l : nat) (D : zmat) : Z :=
  Z.of_nat (length (filter (λ '(i, j), (D i j < 0)%Z) (pairs (seq 0 l) (seq 0 l)))).
(** /repo/causet.py:1037-1051 *)
Definition dm_extend (l : nat) (D : zmat) : dm_state :=
  foldl (dm_level l) (D, dm_count l D, false) (seq 1 (l - 1)).

(** /repo/causet.py:1022-1053: the while loop. *)
Fixpoint dm_loop (fuel : nat) (h : heap) (C : gset nat) (ac : list nat) (ziczac recursive : bool)
    (slice thicker : gset nat) (D : zmat) : res zmat :=
  match fuel with
  | O => Err OutOfFuel
  | S fuel' =>
    if decide (size slice < size thicker) then
      let D1 := dm_direct h C ac ziczac thicker D in
      if recursive then
        let '(D2, _, done) := dm_extend (length ac) D1 in
        if done then Ok D2
        else dm_loop fuel' h C ac ziczac recursive thicker (Layers h thicker (-1) (Some 1%Z)) D2
      else Ok D1
    else Ok D
  end.

(** /repo/causet.py:993-1053 (DistanceMatrix); [C] is the causet (self), [ac] the argument
    'antichain'.  Fuel: the slices grow inside the finitely many events. *)
Definition DistanceMatrix (h : heap) (C : gset nat) (ac : list nat) (counting : string)
    (recursive : bool) : res (list (list Z)) :=
  let ziczac := bool_decide (counting = "ziczac") in
  if negb ziczac && negb (bool_decide (counting = "intersection")) then Err ValueError
  else
    let s : gset nat := list_to_set ac in
    res_map (zrows (length ac))
      (dm_loop (S (size (dom h ∪ s))) h C ac ziczac recursive s
         (Layers h s (-1) (Some 1%Z)) zzero).

(** What a generator does: the values it yields, then the exception it raises, if any. *)
Notation yields := (list (list nat) * option exn)%type.

(** [for e2_idx in ...: for ap in Antipaths_find(e2_idx): yield [x] + ap]: an exception of the
    inner generator ends the outer one. (/repo/causet.py:1078-1088) *)
Fixpoint yield_from (x : nat) (rec : nat → yields) (is : list nat) : yields :=
  match is with
  | [] => ([], None)
  | i :: is' =>
    match rec i with
    | (ys, Some e) => (cons x <$> ys, Some e)
    | (ys, None) => let '(zs, e) := yield_from x rec is' in ((cons x <$> ys) ++ zs, e)
    end
  end.

(** /repo/causet.py:1078-1088 (inner function Antipaths_find).  [fuel] is Python's recursion
    limit; beyond it Python raises RecursionError, here [OutOfFuel].  np.min of an empty
    array raises ValueError. *)
Fixpoint antipaths_find (fuel : nat) (ac : list nat) (D : zmat) (b b_idx e_idx : nat) : yields :=
  match fuel with
  | O => ([], Some OutOfFuel)
  | S fuel' =>
    let l := length ac in
    if decide (D e_idx b_idx = 1%Z) then ([[ac !!! e_idx; b]], None)
    else
      match filter (λ m, (0 < D e_idx m)%Z) (seq 0 l) with
      | [] => ([], Some ValueError)
      | m :: ms =>
        let r := zmin_list (D e_idx m) (D e_idx <$> ms) in
        match filter (λ m, D e_idx m = r) (seq 0 l) with
        | [] => ([], Some ValueError)
        | n :: ns =>
          let q := zmin_list (D b_idx n) (D b_idx <$> ns) in
          yield_from (ac !!! e_idx) (antipaths_find fuel' ac D b b_idx)
            (filter (λ m, D b_idx m = q) (n :: ns))
        end
      end
  end.

(** list.index: position of the first occurrence. (/repo/causet.py:1055-1091) *)
Definition index_of (x : nat) (l : list nat) : nat :=
  match list_find (x =.) l with Some (i, _) => i | None => 0 end.

(** /repo/causet.py:1055-1091 (Antipaths).  Simplification: 'along' is a list and a given
    matrix has len(along) rows and columns. *)
Definition Antipaths (limit : nat) (h : heap) (C : gset nat) (a b : nat) (along : list nat)
    (distances : option zmat) : yields :=
  let first := if decide (a = b ∧ a ∈ along) then [[a]] else [] in
  if negb (isSpacelikeTo h a b && bool_decide (a ∈ along) && bool_decide (b ∈ along))
  then (first, None)
  else
    let a_idx := index_of a along in
    let b_idx := index_of b along in
    let go D :=
      if decide (D a_idx b_idx = (-1)%Z) then (first, None)
      else let '(ys, e) := antipaths_find limit along D b b_idx a_idx in (first ++ ys, e) in
    match distances with
    | Some D => go D
    | None =>
      match DistanceMatrix h C along "ziczac" true with
      | Ok M => go (zget M)
      | Err e => (first, Some e)
      end
    end.
