(** Model of /repo/causetevent.py (class CausetEvent), method by method.
    [h] is the object store, [x] (Python: self) an instance. *)
From Verif Require Import Base.

Section model.
Context (it : oracle).

(** /repo/causetevent.py:276-281 (Past), 284-289 (Future), 292-297 (Cone),
    300-305 (PresentOrPast), 308-313 (PresentOrFuture). *)
Definition Past (h : heap) (x : nat) : gset nat := prec h x.
(** /repo/causetevent.py:284-289 *)
Definition Future (h : heap) (x : nat) : gset nat := succ h x.
(** /repo/causetevent.py:292-297 *)
Definition Cone (h : heap) (x : nat) : gset nat := prec h x ∪ {[x]} ∪ succ h x.
(** /repo/causetevent.py:300-305 *)
Definition PresentOrPast (h : heap) (x : nat) : gset nat := prec h x ∪ {[x]}.
(** /repo/causetevent.py:308-313 *)
Definition PresentOrFuture (h : heap) (x : nat) : gset nat := succ h x ∪ {[x]}.

(** /repo/causetevent.py:315-320 (Spacelike). *)
Definition Spacelike (h : heap) (x : nat) (S : gset nat) : gset nat := S ∖ Cone h x.

(** /repo/causetevent.py:323-327, 330-334, 337-342 (PastCard, FutureCard, ConeCard). *)
Definition PastCard (h : heap) (x : nat) : nat := size (prec h x).
(** /repo/causetevent.py:330-334 *)
Definition FutureCard (h : heap) (x : nat) : nat := size (succ h x).
(** /repo/causetevent.py:337-342 *)
Definition ConeCard (h : heap) (x : nat) : nat := size (prec h x) + size (succ h x) + 1.

(** /repo/causetevent.py:344-352 (SpacelikeCard).  Python int subtraction is modelled in Z. *)
Definition SpacelikeCard (h : heap) (x : nat) (S : gset nat) : Z :=
  if decide (x ∈ S)
  then (Z.of_nat (size (S ∖ prec h x ∖ succ h x)) - 1)%Z
  else Z.of_nat (size (S ∖ prec h x ∖ succ h x)).

(** /repo/causetevent.py:187-197 (__lt__, __le__, __gt__, __ge__). *)
Definition ev_lt (h : heap) (a b : nat) : bool := bool_decide (a ∈ prec h b).
(** /repo/causetevent.py:190-191 *)
Definition ev_le (h : heap) (a b : nat) : bool :=
  bool_decide (a = b) || bool_decide (a ∈ prec h b).
(** /repo/causetevent.py:193-194 *)
Definition ev_gt (h : heap) (a b : nat) : bool := bool_decide (b ∈ prec h a).
(** /repo/causetevent.py:196-197 *)
Definition ev_ge (h : heap) (a b : nat) : bool :=
  bool_decide (a = b) || bool_decide (b ∈ prec h a).

(** /repo/causetevent.py:252-256 (isCausalTo), 264-269 (isSpacelikeTo). *)
Definition isCausalTo (h : heap) (a b : nat) : bool := ev_le h a b || ev_gt h a b.
(** /repo/causetevent.py:264-269 *)
Definition isSpacelikeTo (h : heap) (a b : nat) : bool :=
  negb (bool_decide (b = a)) && negb (bool_decide (b ∈ prec h a)) &&
  negb (bool_decide (b ∈ succ h a)).

(** /repo/causetevent.py:69-74 (hasBeenLinked). *)
Definition hasBeenLinked (h : heap) (x : nat) : bool :=
  match lprec h x, lsucc h x with Some _, Some _ => true | _, _ => false end.

(** /repo/causetevent.py:221-230 (isLink): not (a._succ & b._prec). *)
Definition isLink (h : heap) (a b : nat) : bool := bool_decide (succ h a ∩ prec h b = ∅).

(** /repo/causetevent.py:76-89 (_addToPast). *)
Definition addToPast (h : heap) (x other : nat) : heap * bool :=
  if decide (other ∈ prec h x) then (h, false)
  else
    let h1 :=
      if hasBeenLinked h x && isLink h other x
      then upd (λ e, set_lprec ((λ s, (s ∖ prec h other) ∪ {[other]}) <$> ev_lprec e) e) x h
      else h in
    (upd (λ e, set_prec (ev_prec e ∪ {[other]}) e) x h1, true).

(** /repo/causetevent.py:91-104 (_addToFuture). *)
Definition addToFuture (h : heap) (x other : nat) : heap * bool :=
  if decide (other ∈ succ h x) then (h, false)
  else
    let h1 :=
      if hasBeenLinked h x && isLink h x other
      then upd (λ e, set_lsucc ((λ s, (s ∖ succ h other) ∪ {[other]}) <$> ev_lsucc e) e) x h
      else h in
    (upd (λ e, set_succ (ev_succ e ∪ {[other]}) e) x h1, true).

(** /repo/causetevent.py:106-126 (_discard). *)
Definition discard_ev (h : heap) (x other : nat) : heap * bool :=
  if decide (other ∈ prec h x) then
    let h1 :=
      if hasBeenLinked h x && bool_decide (other ∈ default ∅ (lprec h x))
      then upd (λ e, set_lprec
             ((λ s, (s ∪ filter (λ c, isLink h c x = true) (prec h other)) ∖ {[other]})
                <$> ev_lprec e) e) x h
      else h in
    (upd (λ e, set_prec (ev_prec e ∖ {[other]}) e) x h1, true)
  else if decide (other ∈ succ h x) then
    let h1 :=
      if hasBeenLinked h x && bool_decide (other ∈ default ∅ (lsucc h x))
      then upd (λ e, set_lsucc
             ((λ s, (s ∪ filter (λ c, isLink h x c = true) (succ h other)) ∖ {[other]})
                <$> ev_lsucc e) e) x h
      else h in
    (upd (λ e, set_succ (ev_succ e ∖ {[other]}) e) x h1, true)
  else (h, false).

(** /repo/causetevent.py:34-67 (__init__), lines 54-62: the new instance before it is added
    to its relatives.  The arguments past and future are given as sets of instances (the
    order of an iterable does not matter for [set.update]); label, coordinates and position
    default to None, [] and []. *)
Definition past_closure (h : heap) (P : gset nat) : gset nat :=
  ⋃ ((λ e, PresentOrPast h e) <$> elements P).
(** /repo/causetevent.py:34-67 *)
Definition future_closure (h : heap) (F : gset nat) : gset nat :=
  ⋃ ((λ e, PresentOrFuture h e) <$> elements F).

(** /repo/causetevent.py:63-67: the two notification loops. *)
Definition notify_past (l : list nat) (x : nat) (h : heap) : heap :=
  foldl (λ h e, fst (addToFuture h e x)) h l.
(** /repo/causetevent.py:63-67 *)
Definition notify_future (l : list nat) (x : nat) (h : heap) : heap :=
  foldl (λ h e, fst (addToPast h e x)) h l.

(** /repo/causetevent.py:34-67 (__init__), complete.  Returns the new store and instance. *)
Definition new_event (l : label) (P F : gset nat) (cs ps : list Q) (h : heap) : heap * nat :=
  let x := new_id h in
  let P' := past_closure h P in
  let F' := future_closure h F in
  let h0 := <[x := Event l P' F' None None (Some cs) ps]> h in
  let h1 := notify_past (it 0 P') x h0 in
  let h2 := notify_future (it 1 F') x h1 in
  (h2, x).

(** /repo/causetevent.py:199-211 (link). *)
Definition link_past_set (h : heap) (x : nat) : gset nat :=
  filter (λ e, isLink h e x = true) (prec h x).
(** /repo/causetevent.py:199-211 *)
Definition link_future_set (h : heap) (x : nat) : gset nat :=
  filter (λ e, isLink h x e = true) (succ h x).
(** /repo/causetevent.py:199-211 *)
Definition link (h : heap) (x : nat) : heap :=
  let h1 := upd (set_lprec (Some (link_past_set h x))) x h in
  upd (set_lsucc (Some (link_future_set h1 x))) x h1.

(** /repo/causetevent.py:213-218 (unlink): delattr raises AttributeError when the attribute
    is missing; the first deletion is kept when the second one raises. *)
Definition unlink (h : heap) (x : nat) : heap * res unit :=
  match lprec h x with
  | None => (h, Err AttributeError)
  | Some _ =>
    let h1 := upd (set_lprec None) x h in
    match lsucc h1 x with
    | None => (h1, Err AttributeError)
    | Some _ => (upd (set_lsucc None) x h1, Ok tt)
    end
  end.

(** /repo/causetevent.py:128-139 (disjoin). *)
Definition disjoin_loop (l : list nat) (x : nat) (h : heap) : heap :=
  foldl (λ h e, fst (discard_ev h e x)) h l.
(** /repo/causetevent.py:128-139 *)
Definition disjoin (h : heap) (x : nat) : heap * res unit :=
  match unlink h x with
  | (h1, Err e) => (h1, Err e)
  | (h1, Ok _) =>
    let h2 := disjoin_loop (it 2 (Cone h1 x)) x h1 in
    let h3 := upd (set_prec ∅) x h2 in
    let h4 := disjoin_loop (it 3 (Cone h3 x)) x h3 in
    (upd (set_succ ∅) x h4, Ok tt)
  end.

(** /repo/causetevent.py:355-364 (LinkPast), 367-376 (LinkFuture), 379-388 (LinkCone):
    return the cache; on AttributeError call link() first.  The returned set is read
    after link(), so [default] never applies. *)
Definition get_LinkPast (h : heap) (x : nat) : heap * gset nat :=
  match lprec h x with
  | Some s => (h, s)
  | None => let h1 := link h x in (h1, default ∅ (lprec h1 x))
  end.
(** /repo/causetevent.py:367-376 *)
Definition get_LinkFuture (h : heap) (x : nat) : heap * gset nat :=
  match lsucc h x with
  | Some s => (h, s)
  | None => let h1 := link h x in (h1, default ∅ (lsucc h1 x))
  end.
(** /repo/causetevent.py:379-388 *)
Definition get_LinkCone (h : heap) (x : nat) : heap * gset nat :=
  match lprec h x, lsucc h x with
  | Some s, Some t => (h, s ∪ t)
  | _, _ => let h1 := link h x in (h1, default ∅ (lprec h1 x) ∪ default ∅ (lsucc h1 x))
  end.

(** /repo/causetevent.py:232-240 (isPastLink), 242-250 (isFutureLink),
    258-262 (isLinkedTo: [or] evaluates the second call only if the first is False). *)
Definition isPastLink (h : heap) (x other : nat) : heap * bool :=
  let '(h1, s) := get_LinkPast h x in (h1, bool_decide (other ∈ s)).
(** /repo/causetevent.py:242-250 *)
Definition isFutureLink (h : heap) (x other : nat) : heap * bool :=
  let '(h1, s) := get_LinkFuture h x in (h1, bool_decide (other ∈ s)).
(** /repo/causetevent.py:258-262 *)
Definition isLinkedTo (h : heap) (x other : nat) : heap * bool :=
  let '(h1, b) := isPastLink h x other in
  if b then (h1, true) else isFutureLink h1 x other.

(** /repo/causetevent.py:391-399, 402-410 (LinkPastCard, LinkFutureCard),
    413-422 (LinkConeCard: the code writes [&] between the two ints). *)
Definition get_LinkPastCard (h : heap) (x : nat) : heap * nat :=
  let '(h1, s) := get_LinkPast h x in (h1, size s).
(** /repo/causetevent.py:402-410 *)
Definition get_LinkFutureCard (h : heap) (x : nat) : heap * nat :=
  let '(h1, s) := get_LinkFuture h x in (h1, size s).
(** /repo/causetevent.py:413-422 *)
Definition get_LinkConeCard (h : heap) (x : nat) : heap * nat :=
  match lprec h x, lsucc h x with
  | Some s, Some t => (h, Nat.land (size s) (size t))
  | _, _ =>
    let h1 := link h x in
    (h1, Nat.land (size (default ∅ (lprec h1 x))) (size (default ∅ (lsucc h1 x))))
  end.

(** The value of the getters without their effect on the cache, used by the recursive
    read-only functions (Rank, Paths, ...).  [get_LinkPast_value] in EventFacts shows that the
    getter returns exactly this value and that its effect changes no later value.
    (/repo/causetevent.py:355-364) *)
Definition LinkPast (h : heap) (x : nat) : gset nat :=
  match lprec h x with Some s => s | None => link_past_set h x end.
(** /repo/causetevent.py:367-376 *)
Definition LinkFuture (h : heap) (x : nat) : gset nat :=
  match lsucc h x with Some s => s | None => link_future_set h x end.
(** /repo/causetevent.py:379-388 *)
Definition LinkCone (h : heap) (x : nat) : gset nat := snd (get_LinkCone h x).

(** /repo/causetevent.py:271-273 (LinkCountOf), read-only form. *)
Definition LinkCountOf (h : heap) (S : gset nat) : nat :=
  sum_list ((λ e, size (LinkPast h e ∩ S)) <$> elements S).

(** /repo/causetevent.py:424-439 (copy).  str labels are copied by f'{label}' (identity on
    str).  The relations are copied without notifying the relatives. *)
Definition copy_event (h : heap) (x : nat) : heap * nat :=
  let '(h1, y) := new_event (lab h x) ∅ ∅ [] [] h in
  let h2 := upd (set_prec (prec h x)) y h1 in
  let h3 := upd (set_succ (succ h x)) y h2 in
  if hasBeenLinked h x
  then (upd (set_lsucc (lsucc h x)) y (upd (set_lprec (lprec h x)) y h3), y)
  else (h3, y).

(** /repo/causetevent.py:441-463 (Rank).  [None] is math.inf, [Some n] the float n.
    The loop over a_linked x b_linked is one loop over the list of pairs in the order of the
    nested for statements. *)
Definition omin (a b : option nat) : option nat :=
  match a, b with
  | None, _ => b
  | _, None => a
  | Some x, Some y => Some (min x y)
  end.
(** /repo/causetevent.py:441-463 *)
Definition oplus (n : nat) (a : option nat) : option nat := (λ x, x + n) <$> a.

(** /repo/causetevent.py:441-463 *)
Fixpoint rank_loop (rec : nat → nat → res (option nat)) (ps : list (nat * nat))
    (r : option nat) : res (option nat) :=
  match ps with
  | [] => Ok r
  | (s, p) :: ps' =>
    match rec s p with
    | Err e => Err e
    | Ok q =>
      let r' := omin r (oplus 2 q) in
      if decide (r' = Some 3) then Ok (Some 3) else rank_loop rec ps' r'
    end
  end.

(** /repo/causetevent.py:441-463 itertools.product *)
Definition pairs (l k : list nat) : list (nat * nat) :=
  a ← l; b ← k; [(a, b)].

(** /repo/causetevent.py:441-463 *)
Fixpoint rank_fuel (fuel : nat) (h : heap) (a b : nat) : res (option nat) :=
  match fuel with
  | O => Err OutOfFuel
  | S fuel' =>
    if negb (ev_le h a b) then Ok None
    else if decide (a = b) then Ok (Some 0)
    else if decide (b ∈ LinkFuture h a) then Ok (Some 1)
    else
      let a_linked := LinkFuture h a in
      let b_linked := LinkPast h b in
      if decide (a_linked ∩ b_linked ≠ ∅) then Ok (Some 2)
      else rank_loop (rank_fuel fuel' h) (pairs (it 4 a_linked) (it 5 b_linked)) None
  end.

(** Fuel: the recursion descends into the past of [b]; Rank_terminates (RankFacts) shows that
    this amount is never exhausted on an ordered heap. (/repo/causetevent.py:441-463) *)
Definition Rank (h : heap) (a b : nat) : res (option nat) :=
  rank_fuel (S (size (prec h b))) h a b.

(** /repo/causetevent.py:465-484 (Position and its setter). *)
Definition get_Position (h : heap) (x : nat) : list Q := pos h x.
(** /repo/causetevent.py:475-484 *)
Definition set_Position (h : heap) (x : nat) (v : list Q) : heap * res unit :=
  if decide (length v = 2) then (upd (set_pos v) x h, Ok tt) else (h, Err ValueError).

(** /repo/causetevent.py:486-533 (isEmbedded, embed, disembed, Coordinates, CoordinatesDim). *)
Definition isEmbedded (h : heap) (x : nat) : bool := bool_decide (is_Some (coords h x)).
(** /repo/causetevent.py:493-504 *)
Definition embed (h : heap) (x : nat) (c : list Q) (reembed : bool) : heap * res unit :=
  if negb reembed && isEmbedded h x then (h, Err AttributeError)
  else (upd (set_coords (Some c)) x h, Ok tt).
(** /repo/causetevent.py:506-510 *)
Definition disembed (h : heap) (x : nat) : heap * res unit :=
  match coords h x with
  | Some _ => (upd (set_coords None) x h, Ok tt)
  | None => (h, Err AttributeError)
  end.
(** /repo/causetevent.py:513-523 *)
Definition Coordinates (h : heap) (x : nat) : res (list Q) :=
  match coords h x with Some c => Ok c | None => Err AttributeError end.
(** /repo/causetevent.py:526-533 *)
Definition CoordinatesDim (h : heap) (x : nat) : nat :=
  match coords h x with Some c => length c | None => 0 end.

End model.
