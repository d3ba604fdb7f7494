(** Model of AntichainPermutations_old, /repo/causetpermutations.py:33-134.  The printing of D
    (line 53) is not modelled. *)
From Verif Require Import Base EventModel CausetModel DistModel.

Section model.
Context (it : oracle) (argsort : argsort_t).

(** /repo/causetpermutations.py:44-52: the matrix D for the list [events] of the set [S]; SmallestIntervalCard
    searches in the set [S], and 0 (nothing found) is replaced by c. *)
Definition old_dist (h : heap) (C S : gset nat) (events : list nat) (i j : nat) : nat :=
  if decide (i = j) then 0
  else match SmallestIntervalCard h C (events !!! (i `min` j)) (events !!! (i `max` j)) (Some S) None with
       | O => length events
       | Datatypes.S n => n
       end.

Section extend.
Context (h : heap) (c : nat) (D : nat → nat → nat) (events pastLayer : list nat).

(** min(D[subP, i]) of line 63, for a nonempty subP. (/repo/causetpermutations.py:63) *)
Definition old_min (subP : list nat) (i : nat) : nat :=
  match subP with
  | [] => 0
  | s :: subP' => foldl Nat.min (D s i) ((λ t, D t i) <$> subP')
  end.
(** /repo/causetpermutations.py:58-65: the next closest index and minvalue; [p] is the value that
    the variable has before (unbound at first). *)
Definition old_closest (subP : list nat) (p : option nat) : option nat * nat :=
  foldl (λ '(p, minvalue) i,
      let m := old_min subP i in
      if decide (m < minvalue ∨ m = c) then (Some i, m) else (p, minvalue))
    (p, c) (filter (λ i, i ∉ subP) (seq 0 c)).
(** /repo/causetpermutations.py:67-73 *)
Definition old_min_indices (subP : list nat) (p minvalue : nat) : list nat :=
  if decide (minvalue = c ∧ D (subP !!! 0) p = c) then [length subP - 1]
  else if decide (minvalue = c ∧ D (subP !!! (length subP - 1)) p = c) then [0]
  else filter (λ i, D (subP !!! i) p = minvalue) (seq 0 (length subP)).
(** /repo/causetpermutations.py:79-85: the loop over the events of the past layer; [seen] is
    p_has_past_in_layer.  [Some b]: the loop ends by break and appends the index if [b]; [None]: the
    else branch.  An index beyond subP raises IndexError. *)
Fixpoint old_past_loop (subP : list nat) (p i : nat) (past : list nat) (seen : bool)
    : res (option bool) :=
  match past with
  | [] => Ok None
  | e :: past' =>
    let seen' := seen || ev_lt h e (events !!! p) in
    match subP !! i with
    | None => Err IndexError
    | Some s => if ev_lt h e (events !!! s) then Ok (Some seen') else old_past_loop subP p i past' seen'
    end
  end.
(** /repo/causetpermutations.py:76-91: one pass of the two loops that collect p_indices. *)
Definition old_try_index (subP : list nat) (p : nat) (p_indices : list nat) (oi : nat * nat)
    : res (list nat) :=
  let '(offset, i) := oi in
  if decide (i ∈ p_indices) then Ok p_indices
  else res_map (λ r : option bool,
      match r with
      | Some b => if b then p_indices ++ [i] else p_indices
      | None =>
        if decide (length subP = 1 ∧ offset = 1) then p_indices ++ [i]
        else if decide ((i = 0 ∨ D (subP !!! (i - 1)) p < c) ∧
                        (length subP ≤ i ∨ D (subP !!! i) p < c)) then p_indices ++ [i]
        else p_indices
      end)
    (old_past_loop subP p i (if decide (offset = 0) then pastLayer else reverse pastLayer) false).
(** A for loop whose body may raise. (/repo/causetpermutations.py:74-91) *)
Fixpoint old_indices (subP : list nat) (p : nat) (ois : list (nat * nat)) (p_indices : list nat)
    : res (list nat) :=
  match ois with
  | [] => Ok p_indices
  | oi :: ois' => res_bind (old_try_index subP p p_indices oi) (old_indices subP p ois')
  end.
(** np.insert(subP, i, p), and np.append if the index is too large.
    (/repo/causetpermutations.py:95-98 and 104-107) *)
Definition np_insert (subP : list nat) (i p : nat) : list nat := take i subP ++ p :: drop i subP.

(** /repo/causetpermutations.py:56-109 (__extend): what the generator yields; it yields nothing before
    an exception.  np.insert without any index changes nothing.  [fuel] bounds the passes of while. *)
Fixpoint old_extend (fuel : nat) (subP : list nat) (p : option nat) : yields :=
  match fuel with
  | O => ([], Some OutOfFuel)
  | Datatypes.S fuel' =>
    if decide (length subP < c) then
      match subP, old_closest subP p with
      | [], _ => ([], Some ValueError)
      | _, (None, _) => ([], Some UnboundLocalError)
      | _, (Some q, minvalue) =>
        let mins := old_min_indices subP q minvalue in
        match old_indices subP q (((0,.) <$> mins) ++ ((λ i, (1, Datatypes.S i)) <$> mins)) [] with
        | Err e => ([], Some e)
        | Ok [] => old_extend fuel' subP (Some q)
        | Ok [i] => old_extend fuel' (np_insert subP i q) (Some q)
        | Ok is => ((λ i, np_insert subP i q) <$> is, None)
        end
      end
    else ([subP], None)
  end.

(** /repo/causetpermutations.py:121-134: the loop over the stack P_extensions, top first.  [fuel] bounds
    its passes and those of each extension. *)
Fixpoint old_drive (fuel : nat) (stack : list yields) : yields :=
  match fuel with
  | O => ([], Some OutOfFuel)
  | Datatypes.S fuel' =>
    match stack with
    | [] => ([], None)
    | ([], None) :: stack' => old_drive fuel' stack'
    | ([], Some e) :: _ => ([], Some e)
    | (P :: Ps, e) :: stack' =>
      if decide (length P = c)
      then let '(ys, o) := old_drive fuel' ((Ps, e) :: stack') in
           (((λ i, events !!! i) <$> P) :: ys, o)
      else old_drive fuel' (old_extend fuel' P None :: (Ps, e) :: stack')
    end
  end.
End extend.

(** /repo/causetpermutations.py:112-120: the index of the first event with the largest ConeCard. *)
Definition old_start (h : heap) (events : list nat) : list nat :=
  snd (foldl (λ '(card, P) i,
      if decide (card < Z.of_nat (ConeCard h (events !!! i)))%Z
      then (Z.of_nat (ConeCard h (events !!! i)), [i]) else (card, P))
    ((-1)%Z, []) (seq 0 (length events))).
(** /repo/causetpermutations.py:33-134 (AntichainPermutations_old). *)
Definition AntichainPermutations_old (fuel : nat) (h : heap) (C S : gset nat) (pastLayer : list nat)
    : yields :=
  match sortedByLabels it argsort h S false with
  | Err e => ([], Some e)
  | Ok events =>
    old_drive h (length events) (old_dist h C S events) events pastLayer fuel
      [([old_start h events], None)]
  end.
End model.
