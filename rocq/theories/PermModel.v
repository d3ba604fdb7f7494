(** Model of /repo/causetpermutations.py (new development, lines 432-545):
    __perm_layeredsubset, __perm_jointsubset, __perm_disjointsubsets and permuted. *)
From Verif Require Import Base EventModel CausetModel.

(** Python's range(a, b) for natural numbers; empty if b <= a.
    (/repo/causetpermutations.py:432-531) *)
Definition py_range (a b : nat) : list nat := seq a (b - a).

(** list.sort(key=len, reverse=True): stable, also with reverse=True (equal keys keep their
    order).  [x] stands before all of the list it is inserted in.
    (/repo/causetpermutations.py:510-531) *)
Fixpoint insert_desc (x : gset nat) (l : list (gset nat)) : list (gset nat) :=
  match l with
  | [] => [x]
  | y :: l' => if decide (size y ≤ size x) then x :: l else y :: insert_desc x l'
  end.
(** /repo/causetpermutations.py:510-531 *)
Definition sort_desc (l : list (gset nat)) : list (gset nat) := foldr insert_desc [] l.

(** /repo/causetpermutations.py:486-491: [while len(Inf) == 1], the past side.  Returns
    L_start and the remaining E.  Inf.pop() of a one-element set is that element. *)
Fixpoint strip_past (fuel : nat) (h : heap) (E : gset nat) (L_start : list nat)
    : res (list nat * gset nat) :=
  match fuel with
  | O => Err OutOfFuel
  | S fuel' =>
    match elements (PastInfOf h E) with
    | [e] => strip_past fuel' h (E ∖ {[e]}) (L_start ++ [e])
    | _ => Ok (L_start, E)
    end
  end.
(** /repo/causetpermutations.py:492-497: the future side; L_end.insert(0, e). *)
Fixpoint strip_future (fuel : nat) (h : heap) (E : gset nat) (L_end : list nat)
    : res (list nat * gset nat) :=
  match fuel with
  | O => Err OutOfFuel
  | S fuel' =>
    match elements (FutureInfOf h E) with
    | [e] => strip_future fuel' h (E ∖ {[e]}) (e :: L_end)
    | _ => Ok (L_end, E)
    end
  end.

(** /repo/causetpermutations.py:432-465 (__perm_layeredsubset).  The key function of the first
    sort calls [e.Future()]; Future is a property that returns a set, so the call raises
    TypeError as soon as PInf has an element.  For an empty PInf, [PInf_sorted[0]] raises
    IndexError. *)
Definition perm_layeredsubset (h : heap) (E : gset nat) : res (list nat * list nat) :=
  if decide (PastInfOf h E = ∅) then Err IndexError else Err TypeError.

(** /repo/causetpermutations.py:510-531 (__perm_disjointsubsets).  [joint] is
    __perm_jointsubset; it also returns what is left of its argument set, which it changes in
    place, because [s + len(subset)] is computed after the call. *)
Fixpoint perm_disjoint_loop (joint : gset nat → nat → res (list nat * list nat * gset nat))
    (subsets : list (gset nat)) (s : nat) (L P : list nat) : res (list nat * list nat) :=
  match subsets with
  | [] => Ok (L, P)
  | T :: subsets' =>
    res_bind (joint T s) (λ '(T_L, T_P, T'),
      perm_disjoint_loop joint subsets' (s + size T') (L ++ T_L) (T_P ++ P))
  end.
(** /repo/causetpermutations.py:510-531 *)
Definition perm_disjointsubsets (joint : gset nat → nat → res (list nat * list nat * gset nat))
    (subsets : list (gset nat)) (s : nat) : res (list nat * list nat) :=
  perm_disjoint_loop joint (sort_desc subsets) s [] [].

Section model.
Context (it : oracle).

(** /repo/causetpermutations.py:468-507 (__perm_jointsubset).  Fuel: the depth of the
    recursion, at most the number of events. *)
Fixpoint perm_jointsubset (fuel : nat) (h : heap) (E : gset nat) (s : nat)
    : res (list nat * list nat * gset nat) :=
  match fuel with
  | O => Err OutOfFuel
  | S fuel' =>
    res_bind (strip_past (S (size E)) h E []) (λ '(L_start, E1),
    res_bind (strip_future (S (size E1)) h E1 []) (λ '(L_end, E2),
    res_bind (disjoint_ it h E2) (λ central,
      let start_len := length L_start in
      let end_len := length L_end in
      res_bind
        (if decide (length central = 1) then perm_layeredsubset h E2
         else perm_disjointsubsets (perm_jointsubset fuel' h) central (s + start_len))
        (λ '(L, P),
          Ok (L_start ++ L ++ L_end,
              py_range s start_len ++ P ++ py_range (size E - end_len + 1) end_len,
              E2)))))
  end.

(** /repo/causetpermutations.py:534-545 (permuted).  The default of eventSet is the whole
    causet. *)
Definition permuted (h : heap) (eventSet : gset nat) : res (list nat * list nat) :=
  res_bind (disjoint_ it h eventSet) (λ subsets,
    perm_disjointsubsets (perm_jointsubset (S (size eventSet)) h) subsets 1).
End model.
