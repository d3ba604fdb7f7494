(** Model of the older functions of /repo/causetpermutations.py: AntichainPermutations,
    layeredPermutations, permuted_old (lines 15-30 and 137-290) and findClosedFences
    (lines 295-429).  AntichainPermutations_old (lines 33-134) is in OldAntichainModel. *)
From Verif Require Import Base EventModel CausetModel DistModel.

(** np.max of a non-empty l x l matrix. (/repo/causetpermutations.py:15-30) *)
Definition zmax (l : nat) (D : zmat) : Z :=
  foldl Z.max (D 0 0) ((λ '(i, j), D i j) <$> pairs (seq 0 l) (seq 0 l)).

(** /repo/causetpermutations.py:23-30: the loop over the pairs (i, j), in the row order of
    np.where.  [prev] is the variable ac_perm, unbound at first; the inner loop leaves the
    last path in it.  An exception of Antipaths ends the generator. *)
Fixpoint ap_loop (paths : nat → nat → yields) (ijs : list (nat * nat)) (prev : option (list nat))
    : yields :=
  match ijs with
  | [] => ([], None)
  | (i, j) :: ijs' =>
    match paths i j with
    | (_, Some e) => ([], Some e)
    | (ps, None) =>
      match (match last ps with Some p => Some p | None => prev end) with
      | None => ([], Some UnboundLocalError)
      | Some p => let '(ys, e) := ap_loop paths ijs' (Some p) in (p :: ys, e)
      end
    end
  end.

Section model.
Context (it : oracle).

(** /repo/causetpermutations.py:15-30 (AntichainPermutations); the parameters orientationLayer
    and includeLocalSymmetries are not used by the code.  [limit] is Python's recursion limit.
    np.max of an empty matrix raises ValueError. *)
Definition AntichainPermutations (limit : nat) (h : heap) (C antichain : gset nat)
    (includeGlobalSymmetry : bool) : yields :=
  let ac_list := it 50 antichain in
  match DistanceMatrix h C ac_list "intersection" true with
  | Err e => ([], Some e)
  | Ok M =>
    let l := length ac_list in
    let D := zget M in
    if decide (l = 0) then ([], Some ValueError)
    else
      ap_loop (λ i j, Antipaths limit h C (ac_list !!! i) (ac_list !!! j) ac_list (Some D))
        (filter (λ '(i, j), D i j = zmax l D ∧ (includeGlobalSymmetry = true ∨ i < j))
           (pairs (seq 0 l) (seq 0 l))) None
  end.

(** next() of a generator inside another generator: a StopIteration becomes RuntimeError
    (PEP 479). (/repo/causetpermutations.py:137-170) *)
Definition gen_next (y : yields) : res (list nat * yields) :=
  match y with
  | (p :: ps, e) => Ok (p, (ps, e))
  | ([], Some e) => Err e
  | ([], None) => Err RuntimeError
  end.

(** /repo/causetpermutations.py:151-154 and 166-170: start a fresh iterator for each of the
    given layers, in order, and take its first value. *)
Fixpoint gen_start (fresh : list yields) : res (list (list nat) * list yields) :=
  match fresh with
  | [] => Ok ([], [])
  | y :: fresh' =>
    res_bind (gen_next y) (λ '(p, y'),
      res_bind (gen_start fresh') (λ '(ps, ys'), Ok (p :: ps, y' :: ys')))
  end.

(** /repo/causetpermutations.py:159-170: after a yield, advance the last layer that has another
    value and restart the layers behind it.  [None]: the generator ends.  The layers come
    as triples of lists (fresh iterators, current values, current iterators), first layer
    first; the result for a suffix of the layers is [Ok None] if each of its iterators is
    exhausted. *)
Fixpoint gen_advance (fresh : list yields) (cur : list (list nat)) (its : list yields)
    : res (option (list (list nat) * list yields)) :=
  match fresh, cur, its with
  | _ :: fresh', p :: cur', y :: its' =>
    res_bind (gen_advance fresh' cur' its') (λ r,
      match r with
      | Some (ps, ys) => Ok (Some (p :: ps, y :: ys))
      | None =>
        match y with
        | (q :: qs, e) =>
          res_bind (gen_start fresh') (λ '(ps, ys), Ok (Some (q :: ps, (qs, e) :: ys)))
        | ([], Some e) => Err e
        | ([], None) => Ok None
        end
      end)
  | _, _, _ => Ok None
  end.

(** State of the generator layeredPermutations: not started, or suspended at its yield.
    (/repo/causetpermutations.py:137-170) *)
Inductive lp_state : Type :=
| LpNew
| LpAt (cur : list (list nat)) (its : list yields).

(** next() of layeredPermutations (/repo/causetpermutations.py:137-170); [None]: StopIteration.
    Without any layer the variable l of line 167 is unbound after the first yield. *)
Definition lp_next (fresh : list yields) (st : lp_state)
    : res (option (list (list nat) * lp_state)) :=
  match st with
  | LpNew => res_map (λ '(ps, ys), Some (ps, LpAt ps ys)) (gen_start fresh)
  | LpAt cur its =>
    match fresh with
    | [] => Err UnboundLocalError
    | _ =>
      res_map (λ r, match r with Some (ps, ys) => Some (ps, LpAt ps ys) | None => None end)
        (gen_advance fresh cur its)
    end
  end.
(** /repo/causetpermutations.py:145-154 *)
Definition layer_iterators (limit : nat) (h : heap) (C eventSet : gset nat) : res (list yields) :=
  res_map (fmap (λ T, AntichainPermutations limit h C T false)) (layered h eventSet false).

(** The value of the (k+1)-th call of next() on the generator; [None]: it or an earlier call
    raised StopIteration. (/repo/causetpermutations.py:156-170) *)
Fixpoint lp_nth (fresh : list yields) (st : lp_state) (k : nat) : res (option (list (list nat))) :=
  res_bind (lp_next fresh st) (λ r,
    match r with
    | None => Ok None
    | Some (layers, st') => match k with O => Ok (Some layers) | S k' => lp_nth fresh st' k' end
    end).
(** /repo/causetpermutations.py:137-170: the (k+1)-th value of layeredPermutations(C, eventSet). *)
Definition layeredPermutations (limit : nat) (h : heap) (C eventSet : gset nat) (k : nat)
    : res (option (list (list nat))) :=
  res_bind (layer_iterators limit h C eventSet) (λ fresh, lp_nth fresh LpNew k).

(** /repo/causetpermutations.py:217-223 and 239-245: the first and the last index of an event
    with the property [p]; [None] stands for i_first = 0, i_last = -1. *)
Definition first_last (p : nat → bool) (l : list nat) : option (nat * nat) :=
  match filter (λ i, p (l !!! i) = true) (seq 0 (length l)) with
  | [] => None
  | i :: is => Some (i, List.last is i)
  end.
(** The events at the indices i_first to i_last. (/repo/causetpermutations.py:208-228) *)
Definition between (p : nat → bool) (l : list nat) : list nat :=
  match first_last p l with
  | None => []
  | Some (i, j) => take (S j - i) (drop i l)
  end.
(** ext.add(b); ext.update(exts[b]) for each b of a list; a missing key raises KeyError.
    (/repo/causetpermutations.py:208-256) *)
Fixpoint add_all (exts : gmap nat (gset nat)) (ext : gset nat) (bs : list nat) : res (gset nat) :=
  match bs with
  | [] => Ok ext
  | b :: bs' =>
    match exts !! b with
    | None => Err KeyError
    | Some s => add_all exts (ext ∪ {[b]} ∪ s) bs'
    end
  end.

(** A for loop whose body may raise. (/repo/causetpermutations.py:203-280) *)
Fixpoint for_res {A S : Type} (f : S → A → res S) (l : list A) (s : S) : res S :=
  match l with
  | [] => Ok s
  | x :: l' => res_bind (f s x) (for_res f l')
  end.

(** /repo/causetpermutations.py:208-228: ext_futures.  [layers] is the list of the layers from
    l on. *)
Definition ext_future_of (h : heap) (S : gset nat) (layers : list (list nat))
    (exts : gmap nat (gset nat)) (a : nat) : res (gmap nat (gset nat)) :=
  res_map (λ s, <[a := s]> exts)
    (for_res (λ ext layer, add_all exts ext (between (ev_lt h a) layer)) layers
       (Future h a ∩ S)).
(** /repo/causetpermutations.py:208-228 *)
Fixpoint ext_futures (h : heap) (S : gset nat) (layers : list (list nat))
    : res (gmap nat (gset nat)) :=
  match layers with
  | [] => Ok ∅
  | layer :: layers' =>
    res_bind (ext_futures h S layers') (λ exts,
      for_res (ext_future_of h S layers) layer exts)
  end.

(** /repo/causetpermutations.py:235-256: ext_past of one event b of a layer; [below] is the list
    of the layers below, next one first; [first] says j == 0.  The state is ext_past and
    right. *)
Definition ext_past_layer (h : heap) (extF extP : gmap nat (gset nat)) (first : bool) (b : nat)
    (st : gset nat * gset nat) (past_layer : list nat) : res (gset nat * gset nat) :=
  let '(ext_past, rgt) := st in
  let p a := ev_lt h a b in
  res_bind (add_all extP ext_past (between p past_layer)) (λ ext_past',
    let i_first := match first_last p past_layer with Some (i, _) => i | None => 0 end in
    if first && bool_decide (0 < i_first)
    then res_map (λ rgt', (ext_past', rgt')) (add_all extF rgt (take i_first past_layer))
    else Ok (ext_past', rgt)).
(** /repo/causetpermutations.py:235-256 *)
Definition ext_past_of (h : heap) (S : gset nat) (extF : gmap nat (gset nat))
    (below : list (list nat)) (st : gmap nat (gset nat) * gset nat * bool) (b : nat)
    : res (gmap nat (gset nat) * gset nat * bool) :=
  let '(extP, rgt, first) := st in
  res_map (λ '(ext_past, rgt'), (<[b := ext_past]> extP, rgt', false))
    (for_res (ext_past_layer h extF extP first b) below (Past h b ∩ S, rgt)).

(** /repo/causetpermutations.py:257-272: place one event e.  [L], [P] are the lists L_this and
    P_this; an index beyond their end raises IndexError. *)
Definition place_event (S : gset nat) (extF extP : gmap nat (gset nat))
    (st : list (option nat) * list nat * gset nat) (e : nat)
    : res (list (option nat) * list nat * gset nat) :=
  let '(L, P, rgt) := st in
  match extP !! e, extF !! e with
  | Some p, Some f =>
    let ext_cone := p ∪ f ∪ {[e]} in
    let rgt1 := rgt ∖ ext_cone in
    let lft := S ∖ rgt1 ∖ ext_cone in
    let u := size p + size lft + 1 in
    let v := size p + size rgt1 in
    if decide (v < length L)
    then Ok (<[v := Some e]> L, <[v := u]> P, rgt1 ∪ ext_cone)
    else Err IndexError
  | _, _ => Err KeyError
  end.

(** /repo/causetpermutations.py:229-272: the loop over the layers; [below] are the layers
    already done, last one first. *)
Fixpoint place_layers (h : heap) (S : gset nat) (extF : gmap nat (gset nat))
    (layers below : list (list nat)) (extP : gmap nat (gset nat))
    (L : list (option nat)) (P : list nat) : res (list (option nat) * list nat) :=
  match layers with
  | [] => Ok (L, P)
  | layer :: layers' =>
    res_bind (for_res (ext_past_of h S extF below) layer (extP, ∅, true)) (λ '(extP', rgt, _),
      res_bind (for_res (place_event S extF extP') layer (L, P, rgt)) (λ '(L', P', _),
        place_layers h S extF layers' (layer :: below) extP' L' P'))
  end.

(** /repo/causetpermutations.py:279-280: the number of extended causal relations. *)
Definition extended_causals (h : heap) (S : gset nat) (extF : gmap nat (gset nat)) : res nat :=
  for_res (λ n e, match extF !! e with
                  | Some f => Ok (n + size (f ∖ Future h e))
                  | None => Err KeyError
                  end) (it 51 S) 0.

(** /repo/causetpermutations.py:203-280: one pass of the loop for given layers; [None] is
    [continue] after an IndexError or a zero left in P_this.  L_this is filled with a dummy
    event at first, here [None]. *)
Definition try_layers (h : heap) (S : gset nat) (layers : list (list nat))
    : res (option (list (option nat) * list nat * nat)) :=
  res_bind (ext_futures h S layers) (λ extF,
    match place_layers h S extF layers [] ∅ (replicate (size S) None) (replicate (size S) 0) with
    | Err IndexError => Ok None
    | Err e => Err e
    | Ok (L, P) =>
      if decide (0 ∈ P) then Ok None
      else res_map (λ n, Some (L, P, n)) (extended_causals h S extF)
    end).

(** /repo/causetpermutations.py:173-290 (permuted_old): the loop over layeredPermutations.
    [n] is maxIterations - iteration; [best] is (L, P, extension_degree), [None] for
    extension_degree = -1. *)
Definition best_t : Type := option (list (option nat) * list nat * nat).
(** /repo/causetpermutations.py:281-290 *)
Definition best_result (best : best_t) : list (option nat) * list nat :=
  match best with None => ([], []) | Some (L, P, _) => (L, P) end.
(** /repo/causetpermutations.py:200-290 *)
Fixpoint po_loop (n : nat) (h : heap) (S : gset nat) (fresh : list yields) (st : lp_state)
    (best : best_t) : res (list (option nat) * list nat) :=
  res_bind (lp_next fresh st) (λ r,
    match r with
    | None => Ok (best_result best)
    | Some (layers, st') =>
      match n with
      | O => match best with None => Err ValueError | Some _ => Ok (best_result best) end
      | Datatypes.S n' =>
        res_bind (try_layers h S layers) (λ t,
          match t with
          | None => po_loop n' h S fresh st' best
          | Some (L, P, d) =>
            let better := match best with None => true | Some (_, _, d') => bool_decide (d < d') end in
            let best' := if better then Some (L, P, d) else best in
            match best' with
            | Some (_, _, 0) => Ok (best_result best')
            | _ => po_loop n' h S fresh st' best'
            end
          end)
      end
    end).
(** /repo/causetpermutations.py:173-290 *)
Definition permuted_old (limit : nat) (h : heap) (C eventSet : gset nat) (maxIterations : nat)
    : res (list (option nat) * list nat) :=
  res_bind (layer_iterators limit h C eventSet) (λ fresh,
    po_loop maxIterations h eventSet fresh LpNew None).
End model.

(** * findClosedFences *)

(** The comparison [s & set(l) == {x, y}] of lines 356-376.
    (/repo/causetpermutations.py:355-376) *)
Definition meets_in (s : gset nat) (l xs : list nat) : bool :=
  bool_decide (s ∩ list_to_set l = list_to_set xs).

(** /repo/causetpermutations.py:355-365 and 366-376: the test for one of the two shapes; [A] is the
    list with at least as many events, [B] the other one, [rel b] is b.Past or b.Future.
    Returns (isStartShape, isClosedFence).  [B[-1]] of an empty list raises IndexError; the
    other accesses are in range because they are made only for a valid start. *)
Definition fence_shape (rel : nat → gset nat) (valid : bool) (A B : list nat)
    : res (bool * bool) :=
  let zigzag := valid &&
    forallb (λ i, meets_in (rel (B !!! i)) A [A !!! i; A !!! S i]) (seq 0 (length A - 1)) in
  if decide (length A = length B) then
    match last B, last A, A with
    | Some b, Some a, a0 :: _ =>
      let closed := bool_decide (1 < length A) && meets_in (rel b) A [a; a0] in
      Ok (zigzag && (closed || meets_in (rel b) A [a]), closed)
    | _, _, _ => Err IndexError
    end
  else Ok (zigzag, false).

(** /repo/causetpermutations.py:396-429: the search loop.  Neither PFenceXIndex nor FFenceXIndex
    is ever assigned, so [while] never ends by its condition; FFenceX stays empty because 0
    exceeds no length, so [FFenceX[-1]] raises IndexError; [FFence.pop(FFenceLen)] raises
    IndexError; the two TODO branches do nothing. *)
Fixpoint fence_loop (fuel : nat) (N V : bool) (PFence FFence : list nat)
    : res (list (list nat * list nat * Z)) :=
  match fuel with
  | O => Err OutOfFuel
  | S fuel' =>
    let P := length PFence in
    let F := length FFence in
    let canP := V && bool_decide (F < P) in
    let canF := N && bool_decide (P < F) in
    if negb canP && canF then Err IndexError
    else if canP || (N && bool_decide (P = F)) then fence_loop fuel' N V PFence FFence
    else if canF || (V && bool_decide (F = P)) then Err IndexError
    else fence_loop fuel' N V PFence FFence
  end.

(** /repo/causetpermutations.py:295-429 (findClosedFences). *)
Definition findClosedFences (fuel : nat) (h : heap) (PStart FStart : list nat)
    (PAchain FAchain : gset nat) : res (list (list nat * list nat * Z)) :=
  let np := length PStart in
  let nf := length FStart in
  let valid := (bool_decide (0 < np) || bool_decide (0 < nf)) &&
    (bool_decide (np ≤ S nf) && bool_decide (nf ≤ S np)) &&
    bool_decide (list_to_set PStart ⊆ PAchain) && bool_decide (list_to_set FStart ⊆ FAchain) in
  res_bind (if decide (nf ≤ np) then fence_shape (Past h) valid PStart FStart
            else Ok (false, false)) (λ '(N, closedN),
  res_bind (if decide (np ≤ nf) then fence_shape (Future h) valid FStart PStart
            else Ok (false, false)) (λ '(V, closedV),
    if (N && closedN) || (V && closedV) then Ok [(PStart, FStart, if N then (-1)%Z else 1%Z)]
    else if negb N && negb V then Ok []
    else fence_loop fuel N V PStart FStart)).
