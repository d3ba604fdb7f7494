(** Further theorems about /repo/causetevent.py: C67 (what reading links leaves behind), C68
    (what _addToPast, _addToFuture and _discard return). *)
From Verif Require Import Base Spec EventModel EventFacts EventProps Prop_Event.

(** ** C67 *)
(** The queries that compute links on demand, by what they leave in the store. *)
Inductive link_query : Type :=
| QLinkPast | QLinkFuture | QLinkCone | QisPastLink (y : nat) | QisFutureLink (y : nat) | QisLinkedTo (y : nat)
| QLinkPastCard | QLinkFutureCard | QLinkConeCard.
Definition after (q : link_query) (h : heap) (x : nat) : heap :=
  match q with
  | QLinkPast => fst (get_LinkPast h x)
  | QLinkFuture => fst (get_LinkFuture h x)
  | QLinkCone => fst (get_LinkCone h x)
  | QisPastLink y => fst (isPastLink h x y)
  | QisFutureLink y => fst (isFutureLink h x y)
  | QisLinkedTo y => fst (isLinkedTo h x y)
  | QLinkPastCard => fst (get_LinkPastCard h x)
  | QLinkFutureCard => fst (get_LinkFutureCard h x)
  | QLinkConeCard => fst (get_LinkConeCard h x)
  end.
Lemma after_cases q h x : link_paired h →
  after q h x = if hasBeenLinked h x then h else link h x.
Proof.
  intros HP. specialize (HP x). unfold hasBeenLinked.
  assert (HL : lprec (link h x) x ≠ None ∧ lsucc (link h x) x ≠ None).
  { unfold lprec, lsucc. rewrite link_lookup. destruct (decide (x = x)); [|done]. done. }
  destruct (lprec h x) as [lp|] eqn:E1, (lsucc h x) as [ls|] eqn:E2;
    try (exfalso; by destruct HP as [H1 H2]; first [specialize (H1 eq_refl); discriminate H1|specialize (H2 eq_refl); discriminate H2]);
    destruct q; cbn [after];
    unfold isLinkedTo, isPastLink, isFutureLink, get_LinkPastCard, get_LinkFutureCard, get_LinkConeCard,
      get_LinkPast, get_LinkFuture, get_LinkCone; rewrite ?E1, ?E2; cbn [fst]; try done.
  - destruct (bool_decide (y ∈ lp)); done.
  - destruct (bool_decide _); [done|]. destruct (lsucc (link h x) x) eqn:E; [done|]. by destruct HL.
Qed.
(** Afterwards the event is linked, and nothing else has changed - neither any other event nor
    the past, future, label, coordinates and position of this one. An event that was linked
    before is not touched. *)
Theorem C67_reading_links (q : link_query) (h : heap) (x : nat) : link_paired h →
  let h' := after q h x in
  hasBeenLinked h' x = true ∧
  (hasBeenLinked h x = true → h' = h) ∧
  (∀ y, y ≠ x → h' !!! y = h !!! y) ∧
  Past h' x = Past h x ∧ Future h' x = Future h x ∧ lab h' x = lab h x ∧
  coords h' x = coords h x ∧ pos h' x = pos h x ∧
  link_paired h'.
Proof.
  intros HP. cbn zeta. rewrite after_cases by done. destruct (hasBeenLinked h x) eqn:E; [by split_and!|].
  assert (Hx : link h x !!! x = _) by (rewrite link_lookup; destruct (decide (x = x)); [reflexivity|done]).
  assert (Hy : ∀ y, y ≠ x → link h x !!! y = h !!! y).
  { intros y Hy. rewrite link_lookup. by destruct (decide (y = x)). }
  split. { unfold hasBeenLinked, lprec, lsucc. by rewrite Hx. }
  split; [done|]. split; [done|].
  unfold Past, Future, lab, coords, pos, prec, succ. rewrite Hx. cbn. split_and!; try done.
  intros y. unfold lprec, lsucc. destruct (decide (y = x)) as [->|Hn]; [by rewrite Hx|]. rewrite (Hy y Hn). apply HP.
Qed.
Print Assumptions C67_reading_links.

(** ** C68 *)
(** _addToPast, _addToFuture: True exactly if the event was not there; afterwards it is there. *)
Theorem C68_add (h : heap) (x other : nat) :
  (snd (addToPast h x other) = true ↔ other ∉ Past h x) ∧
  Past (fst (addToPast h x other)) x = Past h x ∪ {[other]} ∧
  Future (fst (addToPast h x other)) x = Future h x ∧
  (snd (addToPast h x other) = false → fst (addToPast h x other) = h) ∧
  (snd (addToFuture h x other) = true ↔ other ∉ Future h x) ∧
  Future (fst (addToFuture h x other)) x = Future h x ∪ {[other]} ∧
  Past (fst (addToFuture h x other)) x = Past h x ∧
  (snd (addToFuture h x other) = false → fst (addToFuture h x other) = h) ∧
  (∀ y, y ≠ x → fst (addToPast h x other) !!! y = h !!! y ∧ fst (addToFuture h x other) !!! y = h !!! y).
Proof.
  unfold Past, Future, addToPast, addToFuture.
  split; [destruct (decide (other ∈ prec h x)); cbn; done|].
  split. { destruct (decide (other ∈ prec h x)) as [Hi|Hi]; cbn [fst]; [set_solver|].
    unfold prec at 1. rewrite upd_same. cbn. destruct (_ && _); [by rewrite upd_same|done]. }
  split. { destruct (decide (other ∈ prec h x)) as [Hi|Hi]; cbn [fst]; [done|].
    unfold succ at 1. rewrite upd_same. cbn. destruct (_ && _); [by rewrite upd_same|done]. }
  split; [by destruct (decide (other ∈ prec h x))|].
  split; [destruct (decide (other ∈ succ h x)); cbn; done|].
  split. { destruct (decide (other ∈ succ h x)) as [Hi|Hi]; cbn [fst]; [set_solver|].
    unfold succ at 1. rewrite upd_same. cbn. destruct (_ && _); [by rewrite upd_same|done]. }
  split. { destruct (decide (other ∈ succ h x)) as [Hi|Hi]; cbn [fst]; [done|].
    unfold prec at 1. rewrite upd_same. cbn. destruct (_ && _); [by rewrite upd_same|done]. }
  split; [by destruct (decide (other ∈ succ h x))|].
  intros y Hy. split.
  - destruct (decide (other ∈ prec h x)) as [Hi|Hi]; cbn [fst]; [done|]. rewrite upd_other by done.
    destruct (_ && _); [by rewrite upd_other|done].
  - destruct (decide (other ∈ succ h x)) as [Hi|Hi]; cbn [fst]; [done|]. rewrite upd_other by done.
    destruct (_ && _); [by rewrite upd_other|done].
Qed.
Print Assumptions C68_add.
(** _discard: True exactly if the event was in the past or in the future; it is removed from
    the past, and from the future only if it was not in the past. *)
Theorem C68_discard (h : heap) (x other : nat) :
  (snd (discard_ev h x other) = true ↔ other ∈ Past h x ∨ other ∈ Future h x) ∧
  (snd (discard_ev h x other) = false → fst (discard_ev h x other) = h) ∧
  Past (fst (discard_ev h x other)) x = Past h x ∖ {[other]} ∧
  (other ∉ Past h x → Future (fst (discard_ev h x other)) x = Future h x ∖ {[other]}) ∧
  (other ∈ Past h x → Future (fst (discard_ev h x other)) x = Future h x) ∧
  (∀ y, y ≠ x → fst (discard_ev h x other) !!! y = h !!! y).
Proof.
  unfold Past, Future, discard_ev.
  destruct (decide (other ∈ prec h x)) as [Hi|Hi]; [|destruct (decide (other ∈ succ h x)) as [Hj|Hj]]; cbn [fst snd].
  - split; [tauto|]. split; [done|].
    split. { unfold prec at 1. rewrite upd_same. cbn. destruct (_ && _); [by rewrite upd_same|done]. }
    split; [done|]. split.
    { intros _. unfold succ at 1. rewrite upd_same. cbn. destruct (_ && _); [by rewrite upd_same|done]. }
    intros y Hy. rewrite upd_other by done. destruct (_ && _); [by rewrite upd_other|done].
  - split; [tauto|]. split; [done|].
    split. { transitivity (prec h x); [|set_solver].
      unfold prec at 1. rewrite upd_same. cbn. destruct (_ && _); [by rewrite upd_same|done]. }
    split; [|split; [done|]].
    { intros _. unfold succ at 1. rewrite upd_same. cbn. destruct (_ && _); [by rewrite upd_same|done]. }
    intros y Hy. rewrite upd_other by done. destruct (_ && _); [by rewrite upd_other|done].
  - split; [split; [done|tauto]|]. split; [done|]. split; [set_solver|]. split; [set_solver|]. split; [done|done].
Qed.
Print Assumptions C68_discard.
Example C67_nonvacuous : link_paired demo ∧ 3 ∈ dom demo ∧ hasBeenLinked demo 3 = false ∧
  hasBeenLinked (after (QisLinkedTo 1) demo 3) 3 = true.
Proof.
  assert (HP : link_paired demo) by (apply link_inv_paired, demo_link). split; [done|]. split; [decide_vm|]. split; decide_vm.
Qed.
(** Event 1 is after 0 and before 2, not related to 3. *)
Example C68_nonvacuous :
  snd (addToPast demo 1 0) = false ∧ snd (addToPast demo 1 3) = true ∧ snd (addToFuture demo 1 2) = false ∧
  snd (addToFuture demo 1 3) = true ∧ snd (discard_ev demo 1 0) = true ∧ snd (discard_ev demo 1 3) = false.
Proof. split_and!; decide_vm. Qed.
