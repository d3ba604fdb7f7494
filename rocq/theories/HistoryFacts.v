From Verif Require Import Base Spec EventModel EventFacts DisjoinFacts History.

Lemma same_order_upd f x h :
  (∀ e, ev_prec (f e) = ev_prec e ∧ ev_succ (f e) = ev_succ e) → same_order h (upd f x h).
Proof.
  intros Hf y. unfold prec, succ. destruct (decide (x = y)) as [<-|].
  - rewrite upd_same. apply Hf.
  - by rewrite upd_other.
Qed.
Lemma link_inv_upd f x h :
  (∀ e, ev_prec (f e) = ev_prec e ∧ ev_succ (f e) = ev_succ e ∧
        ev_lprec (f e) = ev_lprec e ∧ ev_lsucc (f e) = ev_lsucc e) →
  link_inv h → link_inv (upd f x h).
Proof.
  intros Hf HL y.
  assert (Hs : same_order h (upd f x h)).
  { apply same_order_upd. intros e. destruct (Hf e) as (?&?&_). done. }
  assert (El : lprec (upd f x h) y = lprec h y ∧ lsucc (upd f x h) y = lsucc h y).
  { unfold lprec, lsucc. destruct (decide (x = y)) as [<-|].
    - rewrite upd_same. split; apply Hf.
    - by rewrite upd_other. }
  destruct El as [-> ->]. destruct (HL y) as [?|(lp'&ls'&H1'&H2'&H3'&H4')]; [by left|right].
  exists lp', ls'. split; [done|]. split; [done|]. split; intros z.
  - rewrite (same_order_covers _ _ _ _ Hs). apply H3'.
  - rewrite (same_order_covers _ _ _ _ Hs). apply H4'.
Qed.

(** Each getter leaves the heap alone or links its event. *)
Lemma getter_cases h x :
  (fst (get_LinkPast h x) = h ∨ fst (get_LinkPast h x) = link h x) ∧
  (fst (get_LinkFuture h x) = h ∨ fst (get_LinkFuture h x) = link h x) ∧
  (fst (get_LinkCone h x) = h ∨ fst (get_LinkCone h x) = link h x) ∧
  (fst (get_LinkConeCard h x) = h ∨ fst (get_LinkConeCard h x) = link h x).
Proof.
  unfold get_LinkPast, get_LinkFuture, get_LinkCone, get_LinkConeCard.
  destruct (lprec h x), (lsucc h x); cbn; auto.
Qed.

Definition linkish (h h' : heap) : Prop := ∃ xs, (∀ x, x ∈ xs → x ∈ dom h) ∧ h' = foldl link h xs.

Lemma linkish_step h o it :
  admissible h o →
  match o with
  | OLink _ | OLinkPast _ | OLinkFuture _ | OLinkCone _ | OIsPastLink _ _
  | OIsFutureLink _ _ | OIsLinkedTo _ _ | OLinkPastCard _ | OLinkFutureCard _
  | OLinkConeCard _ => linkish h (step it h o)
  | _ => True
  end.
Proof.
  assert (H0 : linkish h h) by (exists []; split; [set_solver|done]).
  assert (H1 : ∀ x, x ∈ dom h → linkish h (link h x)).
  { intros x Hx. exists [x]. split; [set_solver|done]. }
  assert (H2 : ∀ x y, x ∈ dom h → y ∈ dom h → linkish h (link (link h x) y)).
  { intros x y Hx Hy. exists [x; y]. split; [set_solver|done]. }
  destruct o; cbn [admissible step]; try done; intros Hx.
  - by apply H1.
  - destruct (getter_cases h x) as ([->| ->]&_); auto.
  - destruct (getter_cases h x) as (_&[->| ->]&_); auto.
  - destruct (getter_cases h x) as (_&_&[->| ->]&_); auto.
  - unfold isPastLink. rewrite (surjective_pairing (get_LinkPast h x)). cbn.
    destruct (getter_cases h x) as ([->| ->]&_); auto.
  - unfold isFutureLink. rewrite (surjective_pairing (get_LinkFuture h x)). cbn.
    destruct (getter_cases h x) as (_&[->| ->]&_); auto.
  - unfold isLinkedTo, isPastLink. rewrite (surjective_pairing (get_LinkPast h x)). cbn.
    set (h1 := fst (get_LinkPast h x)).
    assert (Hc : h1 = h ∨ h1 = link h x) by apply (getter_cases h x).
    destruct (bool_decide _); cbn; [destruct Hc as [->| ->]; auto|].
    unfold isFutureLink. rewrite (surjective_pairing (get_LinkFuture h1 x)). cbn.
    destruct (getter_cases h1 x) as (_&[->| ->]&_); destruct Hc as [->| ->]; auto.
  - unfold get_LinkPastCard. rewrite (surjective_pairing (get_LinkPast h x)). cbn.
    destruct (getter_cases h x) as ([->| ->]&_); auto.
  - unfold get_LinkFutureCard. rewrite (surjective_pairing (get_LinkFuture h x)). cbn.
    destruct (getter_cases h x) as (_&[->| ->]&_); auto.
  - destruct (getter_cases h x) as (_&_&_&[->| ->]); auto.
Qed.

Lemma linkish_same_order h h' : linkish h h' → same_order h h'.
Proof.
  intros (xs & Hd & ->). clear Hd. revert h. induction xs as [|x xs IH]; intros h; [done|].
  cbn. eapply same_order_trans; [|apply IH]. apply link_same_order.
Qed.
Lemma linkish_link_inv h h' : linkish h h' → order_inv h → link_inv h → link_inv h'.
Proof.
  intros (xs & Hd & ->). clear Hd. revert h.
  induction xs as [|x xs IH]; intros h HO HL; [done|].
  cbn. apply IH; [|by apply link_inv_link].
  eapply same_order_inv; [apply link_same_order|done].
Qed.
Lemma linkish_dom h h' : linkish h h' → dom h' = dom h.
Proof.
  intros (xs & Hd & ->). revert h Hd. induction xs as [|x xs IH]; intros h Hd; [done|].
  cbn. rewrite IH; [apply link_dom; set_solver|].
  intros y Hy. rewrite link_dom by set_solver. set_solver.
Qed.

Lemma adm_compatible h l P F cs ps :
  order_inv h → admissible h (ONew l P F cs ps) → compatible h P F.
Proof.
  intros HO (_ & _ & H) a b. rewrite past_closure_spec, future_closure_spec.
  intros (e & He & Ha) (f & Hf & Hb). apply H.
  - destruct Ha as [->|Ha]; [by left|right; eauto].
  - destruct Hb as [->|Hb]; [by left|right]. exists f. split; [done|].
    by apply (oi_conv h HO).
Qed.

Lemma step_order it h o :
  iter_ok it → admissible h o → order_inv h → order_inv (step it h o).
Proof.
  intros Hit Ha HO. pose proof (linkish_step h o it Ha) as Hl.
  destruct o; cbn [step];
    try (eapply same_order_inv; [apply linkish_same_order; exact Hl|done]).
  - apply new_event_order; [done|done|apply Ha|apply Ha|by eapply adm_compatible].
  - eapply same_order_inv; [apply unlink_same_order|done].
  - destruct (lprec h x) eqn:E1.
    + destruct (lsucc h x) eqn:E2.
      * by eapply disjoin_order_inv.
      * unfold disjoin, unlink. rewrite E1.
        assert (Hn : lsucc (upd (set_lprec None) x h) x = None)
          by (unfold lsucc; by rewrite upd_same).
        rewrite Hn. cbn. eapply same_order_inv; [|done]. by apply same_order_upd.
    + unfold disjoin. by rewrite unlink_unlinked.
  - unfold embed. destruct (_ && _); cbn; [done|].
    eapply same_order_inv; [|done]. by apply same_order_upd.
  - unfold disembed. destruct (coords h x); cbn; [|done].
    eapply same_order_inv; [|done]. by apply same_order_upd.
  - unfold set_Position. destruct (decide _); cbn; [|done].
    eapply same_order_inv; [|done]. by apply same_order_upd.
Qed.

Lemma step_link it h o :
  iter_ok it → admissible h o → is_disjoin o = false →
  order_inv h → link_inv h → link_inv (step it h o).
Proof.
  intros Hit Ha Hd HO HL. pose proof (linkish_step h o it Ha) as Hl.
  destruct o; cbn [step]; try (by eapply linkish_link_inv).
  - apply new_event_link_inv; [done|done|apply Ha|apply Ha|by eapply adm_compatible|done].
  - by apply unlink_link_inv.
  - unfold embed. destruct (_ && _); cbn; [done|]. by apply link_inv_upd.
  - unfold disembed. destruct (coords h x); cbn; [|done]. by apply link_inv_upd.
  - unfold set_Position. destruct (decide _); cbn; [|done]. by apply link_inv_upd.
Qed.

Lemma run_order h hist :
  admissible_history h hist → order_inv h → order_inv (run h hist).
Proof.
  revert h. induction hist as [|[it o] hist IH]; intros h Ha HO; [done|].
  destruct Ha as (Hit & Ha & Hh). cbn. apply IH; [done|]. by apply step_order.
Qed.
Lemma run_link h hist :
  admissible_history h hist → no_disjoin hist →
  order_inv h → link_inv h → link_inv (run h hist).
Proof.
  revert h. induction hist as [|[it o] hist IH]; intros h Ha Hn HO HL; [done|].
  destruct Ha as (Hit & Ha & Hh). apply Forall_cons in Hn as [Hn1 Hn2].
  cbn. apply IH; [done|done|by apply step_order|by apply step_link].
Qed.

Lemma order_inv_empty : order_inv ∅.
Proof.
  assert (H : ∀ x, prec ∅ x = ∅ ∧ succ ∅ x = ∅).
  { intros x. unfold prec, succ. by rewrite (lookup_total_notin ∅ x) by set_solver. }
  split; [|split]; unfold before.
  - intros a b. destruct (H b) as [-> _], (H a) as [_ ->]. set_solver.
  - intros a. destruct (H a) as [-> _]. set_solver.
  - intros a b c. destruct (H b) as [-> _]. set_solver.
Qed.
Lemma link_inv_empty : link_inv ∅.
Proof. intros x. left. unfold lprec, lsucc. by rewrite (lookup_total_notin ∅ x) by set_solver. Qed.
