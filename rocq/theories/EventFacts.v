(** Lemmas about the event-level model (EventModel.v). *)
From Verif Require Import Base Spec EventModel.

(** * Consequences of the order invariant *)

Lemma prec_dom_r (h : heap) a b : a ∈ prec h b → b ∈ dom h.
Proof.
  intros Hab. destruct (decide (b ∈ dom h)) as [|Hn]; [done|].
  unfold prec in Hab. rewrite (lookup_total_notin _ _ Hn) in Hab. set_solver.
Qed.
Lemma succ_dom_r (h : heap) a b : b ∈ succ h a → a ∈ dom h.
Proof.
  intros Hab. destruct (decide (a ∈ dom h)) as [|Hn]; [done|].
  unfold succ in Hab. rewrite (lookup_total_notin _ _ Hn) in Hab. set_solver.
Qed.

Section order.
Context (h : heap) (HO : order_inv h).

Lemma oi_irr a : a ∉ prec h a.
Proof. exact (proj1 (oi_order h HO) a). Qed.
Lemma oi_irr' a : a ∉ succ h a.
Proof. rewrite <- (oi_conv h HO). apply oi_irr. Qed.
Lemma oi_trans a b c : a ∈ prec h b → b ∈ prec h c → a ∈ prec h c.
Proof. exact (proj2 (oi_order h HO) a b c). Qed.
Lemma oi_trans' a b c : b ∈ succ h a → c ∈ succ h b → c ∈ succ h a.
Proof. rewrite <- !(oi_conv h HO). apply oi_trans. Qed.
Lemma oi_asym a b : a ∈ prec h b → b ∈ prec h a → False.
Proof. intros H1 H2. exact (oi_irr a (oi_trans _ _ _ H1 H2)). Qed.

Lemma prec_dom_l a b : a ∈ prec h b → a ∈ dom h.
Proof. rewrite (oi_conv h HO). apply succ_dom_r. Qed.
Lemma succ_dom_l a b : b ∈ succ h a → b ∈ dom h.
Proof. rewrite <- (oi_conv h HO). apply prec_dom_r. Qed.
Lemma prec_sub_dom x : prec h x ⊆ dom h.
Proof. intros y Hy. by eapply prec_dom_l. Qed.
Lemma succ_sub_dom x : succ h x ⊆ dom h.
Proof. intros y Hy. by eapply succ_dom_l. Qed.

Lemma isLink_covers a b : a ∈ prec h b → isLink h a b = true ↔ covers (before h) a b.
Proof.
  intros Hab. unfold isLink, covers, before. rewrite bool_decide_eq_true.
  split.
  - intros He. split; [done|]. intros (c & H1 & H2). apply (oi_conv h HO) in H1.
    set_solver.
  - intros [_ Hn]. apply set_eq. intros c. split; [|set_solver].
    intros Hc. exfalso. apply Hn. exists c. rewrite (oi_conv h HO). set_solver.
Qed.

Lemma link_past_set_spec x y : y ∈ link_past_set h x ↔ covers (before h) y x.
Proof.
  unfold link_past_set. rewrite elem_of_filter. split.
  - intros [Hl Hp]. by apply isLink_covers.
  - intros Hc. split; [|apply Hc]. apply isLink_covers; [apply Hc|done].
Qed.
Lemma link_future_set_spec x y : y ∈ link_future_set h x ↔ covers (before h) x y.
Proof.
  unfold link_future_set. rewrite elem_of_filter. split.
  - intros [Hl Hp]. apply (oi_conv h HO) in Hp. by apply isLink_covers.
  - intros Hc. split; [|apply (oi_conv h HO), Hc]. apply isLink_covers; [apply Hc|done].
Qed.

Context (HL : link_inv h).

Lemma LinkPast_spec x y : y ∈ LinkPast h x ↔ covers (before h) y x.
Proof.
  unfold LinkPast. destruct (HL x) as [[-> _]|(lp & ls & -> & _ & H1 & _)].
  - apply link_past_set_spec.
  - apply H1.
Qed.
Lemma LinkFuture_spec x y : y ∈ LinkFuture h x ↔ covers (before h) x y.
Proof.
  unfold LinkFuture. destruct (HL x) as [[_ ->]|(lp & ls & _ & -> & _ & H1)].
  - apply link_future_set_spec.
  - apply H1.
Qed.
Lemma link_inv_paired : link_paired h.
Proof. intros x. destruct (HL x) as [[-> ->]|(?&?&->&->&_)]; done. Qed.
End order.

(** * The relation of two heaps with the same order *)

Definition same_order (h h' : heap) : Prop :=
  ∀ x, prec h' x = prec h x ∧ succ h' x = succ h x.

Lemma same_order_inv h h' : same_order h h' → order_inv h → order_inv h'.
Proof.
  intros Hs HO. split.
  - intros a b. destruct (Hs a) as [_ ->], (Hs b) as [-> _]. apply (oi_conv h HO).
  - split.
    + intros a. unfold before. destruct (Hs a) as [-> _]. by apply oi_irr.
    + intros a b c. unfold before. destruct (Hs b) as [-> _], (Hs c) as [-> _].
      by apply oi_trans.
Qed.
Lemma same_order_before h h' a b : same_order h h' → before h' a b ↔ before h a b.
Proof. intros Hs. unfold before. by destruct (Hs b) as [-> _]. Qed.
Lemma covers_ext (R R' : nat → nat → Prop) a b :
  (∀ x y, R x y ↔ R' x y) → covers R a b ↔ covers R' a b.
Proof. intros HR. unfold covers. setoid_rewrite HR. done. Qed.
Lemma same_order_covers h h' a b :
  same_order h h' → covers (before h') a b ↔ covers (before h) a b.
Proof. intros Hs. apply covers_ext. intros x y. by apply same_order_before. Qed.
Lemma same_order_refl h : same_order h h.
Proof. done. Qed.
Lemma same_order_trans h1 h2 h3 :
  same_order h1 h2 → same_order h2 h3 → same_order h1 h3.
Proof. intros H1 H2 x. destruct (H1 x), (H2 x). split; congruence. Qed.

(** * link, unlink and the getters *)

Lemma link_lookup h x y :
  link h x !!! y =
    if decide (y = x)
    then set_lsucc (Some (link_future_set h x)) (set_lprec (Some (link_past_set h x)) (h !!! x))
    else h !!! y.
Proof.
  unfold link. destruct (decide (y = x)) as [->|Hn].
  - rewrite !upd_same. f_equal. f_equal. unfold link_future_set, isLink.
    assert (Hs : ∀ z, succ (upd (set_lprec (Some (link_past_set h x))) x h) z = succ h z ∧
                      prec (upd (set_lprec (Some (link_past_set h x))) x h) z = prec h z).
    { intros z. unfold succ, prec. destruct (decide (x = z)) as [<-|].
      - by rewrite upd_same.
      - by rewrite upd_other by done. }
    apply set_eq. intros z. rewrite !elem_of_filter.
    destruct (Hs x) as [-> _]. destruct (Hs z) as [_ ->]. done.
  - rewrite !upd_other by done. done.
Qed.
Lemma link_same_order h x : same_order h (link h x).
Proof.
  intros y. unfold prec, succ. rewrite link_lookup.
  destruct (decide (y = x)) as [->|]; done.
Qed.
Lemma link_inv_link h x : order_inv h → link_inv h → link_inv (link h x).
Proof.
  intros HO HL y. pose proof (link_same_order h x) as Hs.
  unfold lprec, lsucc. rewrite link_lookup. destruct (decide (y = x)) as [->|Hn].
  - right. eexists _, _. split; [done|]. split; [done|]. split; intros z.
    + rewrite (same_order_covers _ _ _ _ Hs). by apply link_past_set_spec.
    + rewrite (same_order_covers _ _ _ _ Hs). by apply link_future_set_spec.
  - destruct (HL y) as [?|(lp&ls&H1&H2&H3&H4)]; [by left|right].
    exists lp, ls. split; [done|]. split; [done|]. split; intros z.
    + rewrite (same_order_covers _ _ _ _ Hs). apply H3.
    + rewrite (same_order_covers _ _ _ _ Hs). apply H4.
Qed.
Lemma link_dom h x : x ∈ dom h → dom (link h x) = dom h.
Proof.
  intros Hx. unfold link. rewrite upd_dom; [by rewrite upd_dom|].
  by rewrite upd_dom.
Qed.

(** The getters return the values [LinkPast], [LinkFuture]; their write is invisible to later
    reads of the same values. *)
Lemma get_LinkPast_value h x : snd (get_LinkPast h x) = LinkPast h x.
Proof.
  unfold get_LinkPast, LinkPast. destruct (lprec h x) eqn:E; [done|].
  cbn. unfold lprec. rewrite link_lookup. by rewrite decide_True by done.
Qed.
Lemma get_LinkFuture_value h x : snd (get_LinkFuture h x) = LinkFuture h x.
Proof.
  unfold get_LinkFuture, LinkFuture. destruct (lsucc h x) eqn:E; [done|].
  cbn. unfold lsucc. rewrite link_lookup. by rewrite decide_True by done.
Qed.
Lemma link_past_set_same h h' x : same_order h h' → link_past_set h' x = link_past_set h x.
Proof.
  intros Hs. apply set_eq. intros y. unfold link_past_set, isLink. rewrite !elem_of_filter.
  destruct (Hs x) as [-> _]. destruct (Hs y) as [_ ->]. done.
Qed.
Lemma link_future_set_same h h' x :
  same_order h h' → link_future_set h' x = link_future_set h x.
Proof.
  intros Hs. apply set_eq. intros y. unfold link_future_set, isLink. rewrite !elem_of_filter.
  destruct (Hs x) as [_ ->]. destruct (Hs y) as [-> _]. done.
Qed.
Lemma link_transparent h x y :
  link_inv h → order_inv h →
  LinkPast (link h x) y = LinkPast h y ∧ LinkFuture (link h x) y = LinkFuture h y.
Proof.
  intros HL HO. pose proof (link_inv_link h x HO HL) as HL'.
  pose proof (same_order_inv _ _ (link_same_order h x) HO) as HO'.
  split; apply set_eq; intros z.
  - rewrite !LinkPast_spec by done. apply same_order_covers, link_same_order.
  - rewrite !LinkFuture_spec by done. apply same_order_covers, link_same_order.
Qed.

Lemma unlink_same_order h x : same_order h (fst (unlink h x)).
Proof.
  unfold unlink. destruct (lprec h x); [|done].
  assert (H : same_order h (upd (set_lprec None) x h)).
  { intros y. unfold prec, succ. destruct (decide (x = y)) as [<-|].
    - by rewrite upd_same. - by rewrite upd_other. }
  destruct (lsucc _ x); [|done]. cbn. eapply same_order_trans; [done|].
  intros y. unfold prec, succ. destruct (decide (x = y)) as [<-|].
  - by rewrite (upd_same (set_lsucc None)). - by rewrite (upd_other (set_lsucc None)).
Qed.

(** The effect of unlink() in full. *)
Lemma unlink_linked h x lp ls :
  lprec h x = Some lp → lsucc h x = Some ls →
  snd (unlink h x) = Ok tt ∧
  ∀ y, fst (unlink h x) !!! y =
    if decide (y = x) then set_lsucc None (set_lprec None (h !!! x)) else h !!! y.
Proof.
  intros H1 H2. unfold unlink. rewrite H1.
  assert (Hls : lsucc (upd (set_lprec None) x h) x = Some ls).
  { unfold lsucc. by rewrite upd_same. }
  rewrite Hls. split; [done|]. intros y. cbn. destruct (decide (y = x)) as [->|].
  - by rewrite !upd_same.
  - by rewrite !upd_other by done.
Qed.
Lemma unlink_unlinked h x : lprec h x = None → unlink h x = (h, Err AttributeError).
Proof. intros H. unfold unlink. by rewrite H. Qed.
Lemma unlink_dom h x : x ∈ dom h → dom (fst (unlink h x)) = dom h.
Proof.
  intros Hx. unfold unlink. destruct (lprec h x); [|done].
  destruct (lsucc _ x); cbn; rewrite ?upd_dom; try done; by rewrite ?upd_dom.
Qed.

Lemma unlink_link_inv h x : link_inv h → link_inv (fst (unlink h x)).
Proof.
  intros HL. pose proof (unlink_same_order h x) as Hs.
  destruct (HL x) as [[H1 _]|(lp&ls&H1&H2&_)].
  { by rewrite unlink_unlinked. }
  destruct (unlink_linked h x lp ls H1 H2) as [_ Hlk].
  intros y. unfold lprec, lsucc. rewrite !Hlk. destruct (decide (y = x)) as [->|Hn].
  - by left.
  - destruct (HL y) as [?|(lp'&ls'&H1'&H2'&H3'&H4')]; [by left|right].
    exists lp', ls'. split; [done|]. split; [done|]. split; intros z.
    + rewrite (same_order_covers _ _ _ _ Hs). apply H3'.
    + rewrite (same_order_covers _ _ _ _ Hs). apply H4'.
Qed.

(** * The constructor *)

(** What [_addToFuture]/[_addToPast] do to the receiving event. *)
Definition linked_ev (e : event) : bool :=
  match ev_lprec e, ev_lsucc e with Some _, Some _ => true | _, _ => false end.
Definition addF (o : nat) (P S : gset nat) (e : event) : event :=
  if decide (o ∈ ev_succ e) then e else
  set_succ (ev_succ e ∪ {[o]})
    (if linked_ev e && bool_decide (ev_succ e ∩ P = ∅)
     then set_lsucc ((λ s, (s ∖ S) ∪ {[o]}) <$> ev_lsucc e) e else e).
Definition addP (o : nat) (P S : gset nat) (e : event) : event :=
  if decide (o ∈ ev_prec e) then e else
  set_prec (ev_prec e ∪ {[o]})
    (if linked_ev e && bool_decide (S ∩ ev_prec e = ∅)
     then set_lprec ((λ s, (s ∖ P) ∪ {[o]}) <$> ev_lprec e) e else e).

Lemma addToFuture_lookup h x o y :
  fst (addToFuture h x o) !!! y =
    if decide (y = x) then addF o (prec h o) (succ h o) (h !!! x) else h !!! y.
Proof.
  unfold addToFuture, addF. change (ev_succ (h !!! x)) with (succ h x).
  destruct (decide (o ∈ succ h x)) as [Hin|Hin].
  { cbn. destruct (decide (y = x)) as [->|]; done. }
  cbn. change (hasBeenLinked h x) with (linked_ev (h !!! x)).
  change (isLink h x o) with (bool_decide (succ h x ∩ prec h o = ∅)).
  destruct (linked_ev (h !!! x) && bool_decide (succ h x ∩ prec h o = ∅)).
  - destruct (decide (y = x)) as [->|Hn]; [by rewrite !upd_same|by rewrite !upd_other].
  - destruct (decide (y = x)) as [->|Hn]; [by rewrite !upd_same|by rewrite !upd_other].
Qed.
Lemma addToPast_lookup h x o y :
  fst (addToPast h x o) !!! y =
    if decide (y = x) then addP o (prec h o) (succ h o) (h !!! x) else h !!! y.
Proof.
  unfold addToPast, addP. change (ev_prec (h !!! x)) with (prec h x).
  destruct (decide (o ∈ prec h x)) as [Hin|Hin].
  { cbn. destruct (decide (y = x)) as [->|]; done. }
  cbn. change (hasBeenLinked h x) with (linked_ev (h !!! x)).
  change (isLink h o x) with (bool_decide (succ h o ∩ prec h x = ∅)).
  destruct (linked_ev (h !!! x) && bool_decide (succ h o ∩ prec h x = ∅)).
  - destruct (decide (y = x)) as [->|Hn]; [by rewrite !upd_same|by rewrite !upd_other].
  - destruct (decide (y = x)) as [->|Hn]; [by rewrite !upd_same|by rewrite !upd_other].
Qed.
Lemma addToFuture_dom h x o : x ∈ dom h → dom (fst (addToFuture h x o)) = dom h.
Proof.
  intros Hx. unfold addToFuture. destruct (decide _); [done|]. cbn.
  destruct (_ && _); rewrite ?upd_dom; try done; by rewrite ?upd_dom.
Qed.
Lemma addToPast_dom h x o : x ∈ dom h → dom (fst (addToPast h x o)) = dom h.
Proof.
  intros Hx. unfold addToPast. destruct (decide _); [done|]. cbn.
  destruct (_ && _); rewrite ?upd_dom; try done; by rewrite ?upd_dom.
Qed.

Lemma notify_past_lookup l n h y :
  NoDup l → n ∉ l →
  notify_past l n h !!! y =
    if decide (y ∈ l) then addF n (prec h n) (succ h n) (h !!! y) else h !!! y.
Proof.
  revert h. induction l as [|x l IH]; intros h Hnd Hn; [done|].
  apply NoDup_cons in Hnd as [Hx Hnd].
  assert (Hn1 : n ≠ x) by set_solver. assert (Hn2 : n ∉ l) by set_solver.
  cbn [notify_past foldl]. fold (notify_past l n (fst (addToFuture h x n))).
  rewrite IH by done.
  assert (Hnn : fst (addToFuture h x n) !!! n = h !!! n).
  { rewrite addToFuture_lookup. by rewrite decide_False. }
  unfold prec, succ. rewrite Hnn. rewrite addToFuture_lookup.
  destruct (decide (y ∈ l)) as [Hy|Hy].
  - rewrite decide_False by (intros ->; done). rewrite decide_True by set_solver. done.
  - destruct (decide (y = x)) as [->|Hyx].
    + rewrite decide_True by set_solver. done.
    + rewrite decide_False by set_solver. done.
Qed.
Lemma notify_future_lookup l n h y :
  NoDup l → n ∉ l →
  notify_future l n h !!! y =
    if decide (y ∈ l) then addP n (prec h n) (succ h n) (h !!! y) else h !!! y.
Proof.
  revert h. induction l as [|x l IH]; intros h Hnd Hn; [done|].
  apply NoDup_cons in Hnd as [Hx Hnd].
  assert (Hn1 : n ≠ x) by set_solver. assert (Hn2 : n ∉ l) by set_solver.
  cbn [notify_future foldl]. fold (notify_future l n (fst (addToPast h x n))).
  rewrite IH by done.
  assert (Hnn : fst (addToPast h x n) !!! n = h !!! n).
  { rewrite addToPast_lookup. by rewrite decide_False. }
  unfold prec, succ. rewrite Hnn. rewrite addToPast_lookup.
  destruct (decide (y ∈ l)) as [Hy|Hy].
  - rewrite decide_False by (intros ->; done). rewrite decide_True by set_solver. done.
  - destruct (decide (y = x)) as [->|Hyx].
    + rewrite decide_True by set_solver. done.
    + rewrite decide_False by set_solver. done.
Qed.
Lemma notify_past_dom l n h : (∀ x, x ∈ l → x ∈ dom h) → dom (notify_past l n h) = dom h.
Proof.
  revert h. induction l as [|x l IH]; intros h Hl; [done|].
  cbn [notify_past foldl]. fold (notify_past l n (fst (addToFuture h x n))).
  assert (Hd : dom (fst (addToFuture h x n)) = dom h) by (apply addToFuture_dom; set_solver).
  rewrite IH; [done|]. rewrite Hd. set_solver.
Qed.
Lemma notify_future_dom l n h : (∀ x, x ∈ l → x ∈ dom h) → dom (notify_future l n h) = dom h.
Proof.
  revert h. induction l as [|x l IH]; intros h Hl; [done|].
  cbn [notify_future foldl]. fold (notify_future l n (fst (addToPast h x n))).
  assert (Hd : dom (fst (addToPast h x n)) = dom h) by (apply addToPast_dom; set_solver).
  rewrite IH; [done|]. rewrite Hd. set_solver.
Qed.

Lemma past_closure_spec h P y :
  y ∈ past_closure h P ↔ ∃ e, e ∈ P ∧ (y = e ∨ y ∈ prec h e).
Proof.
  unfold past_closure, PresentOrPast. rewrite elem_of_union_list. split.
  - intros (X & HX & Hy). apply elem_of_list_fmap in HX as (e & -> & He).
    exists e. set_solver.
  - intros (e & He & Hy). exists (prec h e ∪ {[e]}). split; [|set_solver].
    apply elem_of_list_fmap. exists e. set_solver.
Qed.
Lemma future_closure_spec h P y :
  y ∈ future_closure h P ↔ ∃ e, e ∈ P ∧ (y = e ∨ y ∈ succ h e).
Proof.
  unfold future_closure, PresentOrFuture. rewrite elem_of_union_list. split.
  - intros (X & HX & Hy). apply elem_of_list_fmap in HX as (e & -> & He).
    exists e. set_solver.
  - intros (e & He & Hy). exists (succ h e ∪ {[e]}). split; [|set_solver].
    apply elem_of_list_fmap. exists e. set_solver.
Qed.

Section ctor.
Context (it : oracle) (Hit : iter_ok it).
Context (h : heap) (HO : order_inv h).
Context (P F : gset nat) (HP : P ⊆ dom h) (HF : F ⊆ dom h).

Local Notation nw := (new_id h).
Local Notation P' := (past_closure h P).
Local Notation F' := (future_closure h F).

Lemma past_closure_dom : P' ⊆ dom h.
Proof.
  intros y (e & He & [->|Hy])%past_closure_spec; [set_solver|by eapply prec_dom_l].
Qed.
Lemma future_closure_dom : F' ⊆ dom h.
Proof.
  intros y (e & He & [->|Hy])%future_closure_spec; [set_solver|by eapply succ_dom_l].
Qed.
Lemma n_notin_P' : nw ∉ P'.
Proof. pose proof (new_id_fresh h). pose proof past_closure_dom. set_solver. Qed.
Lemma n_notin_F' : nw ∉ F'.
Proof. pose proof (new_id_fresh h). pose proof future_closure_dom. set_solver. Qed.

Lemma new_event_lookup l cs ps y :
  fst (new_event it l P F cs ps h) !!! y =
    if decide (y = nw) then Event l P' F' None None (Some cs) ps
    else (if decide (y ∈ F') then addP nw P' F' else id)
           ((if decide (y ∈ P') then addF nw P' F' else id) (h !!! y)).
Proof.
  unfold new_event. cbn [fst].
  set (h0 := <[nw:=Event l P' F' None None (Some cs) ps]> h).
  assert (Hn0 : h0 !!! nw = Event l P' F' None None (Some cs) ps).
  { unfold h0. apply lookup_total_insert. }
  assert (Hy0 : ∀ z, z ≠ nw → h0 !!! z = h !!! z).
  { intros z Hz. unfold h0. by apply lookup_total_insert_ne. }
  assert (H1n : nw ∉ it 0 P') by (rewrite iter_elem by done; apply n_notin_P').
  assert (H2n : nw ∉ it 1 F') by (rewrite iter_elem by done; apply n_notin_F').
  rewrite notify_future_lookup by (done || by apply iter_nodup).
  assert (Hn1 : notify_past (it 0 P') nw h0 !!! nw = h0 !!! nw).
  { rewrite notify_past_lookup by (done || by apply iter_nodup).
    by rewrite decide_False. }
  unfold prec, succ. rewrite Hn1, Hn0. cbn [ev_prec ev_succ].
  rewrite notify_past_lookup by (done || by apply iter_nodup).
  unfold prec, succ. rewrite Hn0. cbn [ev_prec ev_succ].
  destruct (decide (y = nw)) as [->|Hyn].
  - rewrite !decide_False by done. done.
  - rewrite (Hy0 y Hyn).
    destruct (decide (y ∈ it 1 F')) as [Hy1|Hy1]; rewrite iter_elem in Hy1 by done;
    destruct (decide (y ∈ it 0 P')) as [Hy2|Hy2]; rewrite iter_elem in Hy2 by done.
    + rewrite !decide_True by done. done.
    + rewrite decide_True, decide_False by done. done.
    + rewrite decide_False, decide_True by done. done.
    + rewrite !decide_False by done. done.
Qed.

Lemma new_event_dom l cs ps : dom (fst (new_event it l P F cs ps h)) = {[nw]} ∪ dom h.
Proof.
  unfold new_event. cbn [fst].
  rewrite notify_future_dom.
  - rewrite notify_past_dom; [by rewrite dom_insert_L|].
    intros x Hx. rewrite iter_elem in Hx by done. rewrite dom_insert_L.
    pose proof past_closure_dom. set_solver.
  - intros x Hx. rewrite iter_elem in Hx by done. rewrite notify_past_dom.
    + rewrite dom_insert_L. pose proof future_closure_dom. set_solver.
    + intros z Hz. rewrite iter_elem in Hz by done. rewrite dom_insert_L.
      pose proof past_closure_dom. set_solver.
Qed.

Lemma n_notin_sets y : nw ∉ prec h y ∧ nw ∉ succ h y.
Proof.
  pose proof (new_id_fresh h).
  pose proof (prec_sub_dom h HO y). pose proof (succ_sub_dom h HO y). set_solver.
Qed.

Lemma addF_prec o A B e : ev_prec (addF o A B e) = ev_prec e.
Proof. unfold addF. destruct (decide _); [done|]. cbn. by destruct (_ && _). Qed.
Lemma addF_succ o A B e : ev_succ (addF o A B e) = ev_succ e ∪ {[o]}.
Proof.
  unfold addF. destruct (decide _); [set_solver|]. cbn. done.
Qed.
Lemma addP_succ o A B e : ev_succ (addP o A B e) = ev_succ e.
Proof. unfold addP. destruct (decide _); [done|]. cbn. by destruct (_ && _). Qed.
Lemma addP_prec o A B e : ev_prec (addP o A B e) = ev_prec e ∪ {[o]}.
Proof.
  unfold addP. destruct (decide _); [set_solver|]. cbn. done.
Qed.
Lemma addF_rest o A B e :
  ev_label (addF o A B e) = ev_label e ∧ ev_coords (addF o A B e) = ev_coords e ∧
  ev_pos (addF o A B e) = ev_pos e ∧ ev_lprec (addF o A B e) = ev_lprec e.
Proof. unfold addF. destruct (decide _); [done|]. cbn. by destruct (_ && _). Qed.
Lemma addP_rest o A B e :
  ev_label (addP o A B e) = ev_label e ∧ ev_coords (addP o A B e) = ev_coords e ∧
  ev_pos (addP o A B e) = ev_pos e ∧ ev_lsucc (addP o A B e) = ev_lsucc e.
Proof. unfold addP. destruct (decide _); [done|]. cbn. by destruct (_ && _). Qed.

(** Relations after the constructor, as sets. *)
Lemma new_event_prec l cs ps y :
  prec (fst (new_event it l P F cs ps h)) y =
    if decide (y = nw) then P' else if decide (y ∈ F') then prec h y ∪ {[nw]} else prec h y.
Proof.
  unfold prec at 1. rewrite new_event_lookup. destruct (decide (y = nw)); [done|].
  destruct (decide (y ∈ F')).
  - rewrite addP_prec. destruct (decide (y ∈ P')); cbn; by rewrite ?addF_prec.
  - destruct (decide (y ∈ P')); cbn; by rewrite ?addF_prec.
Qed.
Lemma new_event_succ l cs ps y :
  succ (fst (new_event it l P F cs ps h)) y =
    if decide (y = nw) then F' else if decide (y ∈ P') then succ h y ∪ {[nw]} else succ h y.
Proof.
  unfold succ at 1. rewrite new_event_lookup. destruct (decide (y = nw)); [done|].
  destruct (decide (y ∈ F')).
  - rewrite addP_succ. destruct (decide (y ∈ P')); cbn; by rewrite ?addF_succ.
  - destruct (decide (y ∈ P')); cbn; by rewrite ?addF_succ.
Qed.
Lemma new_event_rest l cs ps y :
  y ≠ nw →
  lab (fst (new_event it l P F cs ps h)) y = lab h y ∧
  coords (fst (new_event it l P F cs ps h)) y = coords h y ∧
  pos (fst (new_event it l P F cs ps h)) y = pos h y.
Proof.
  intros Hy. unfold lab, coords, pos. rewrite new_event_lookup.
  rewrite decide_False by done.
  destruct (decide (y ∈ F')), (decide (y ∈ P')); cbn;
    repeat match goal with
    | |- context [addP ?o ?a ?b ?e] =>
        destruct (addP_rest o a b e) as (->&->&->&_)
    | |- context [addF ?o ?a ?b ?e] =>
        destruct (addF_rest o a b e) as (->&->&->&_)
    end; done.
Qed.

(** P' is closed downwards, F' upwards. *)
Lemma P'_down a b : b ∈ P' → a ∈ prec h b → a ∈ P'.
Proof.
  rewrite !past_closure_spec. intros (e & He & Hb) Ha. exists e. split; [done|]. right.
  destruct Hb as [->|Hb]; [done|]. by eapply oi_trans.
Qed.
Lemma F'_up a b : a ∈ F' → b ∈ succ h a → b ∈ F'.
Proof.
  rewrite !future_closure_spec. intros (e & He & Hb) Ha. exists e. split; [done|]. right.
  destruct Hb as [->|Hb]; [done|]. by eapply oi_trans'.
Qed.

(** The condition under which the constructor keeps the order transitive. *)
Definition compatible (h : heap) (P F : gset nat) : Prop :=
  ∀ a b, a ∈ past_closure h P → b ∈ future_closure h F → a ∈ prec h b.

Lemma new_event_conv l cs ps a b :
  a ∈ prec (fst (new_event it l P F cs ps h)) b ↔
  b ∈ succ (fst (new_event it l P F cs ps h)) a.
Proof.
  rewrite new_event_prec, new_event_succ.
  pose proof n_notin_P'. pose proof n_notin_F'.
  pose proof (n_notin_sets a). pose proof (n_notin_sets b).
  pose proof (oi_conv h HO a b).
  destruct (decide (b = nw)) as [->|]; destruct (decide (a = nw)) as [->|].
  - set_solver.
  - destruct (decide (a ∈ P')); set_solver.
  - destruct (decide (b ∈ F')); set_solver.
  - destruct (decide (a ∈ P')), (decide (b ∈ F')); set_solver.
Qed.

Lemma new_event_order l cs ps :
  compatible h P F → order_inv (fst (new_event it l P F cs ps h)).
Proof.
  intros Hc. split; [apply new_event_conv|].
  pose proof n_notin_P' as HnP. pose proof n_notin_F' as HnF.
  split; unfold before.
  - intros a. rewrite new_event_prec. pose proof (oi_irr h HO a).
    destruct (decide (a = nw)) as [->|]; [done|].
    destruct (decide (a ∈ F')); set_solver.
  - intros a b c. rewrite !new_event_prec.
    pose proof (n_notin_sets a) as [Ha1 Ha2]. pose proof (n_notin_sets b) as [Hb1 Hb2].
    pose proof (n_notin_sets c) as [Hc1 Hc2].
    destruct (decide (b = nw)) as [->|Hbn]; destruct (decide (c = nw)) as [->|Hcn].
    + done.
    + intros Ha Hn. destruct (decide (c ∈ F')) as [Hcf|]; [|done].
      apply elem_of_union_l. by apply Hc.
    + intros Ha Hb. destruct (decide (b ∈ F')) as [Hbf|Hbf].
      * exfalso. apply (oi_irr h HO b). by apply Hc.
      * by eapply P'_down.
    + intros Ha Hb.
      destruct (decide (c ∈ F')) as [Hcf|Hcf].
      * apply elem_of_union in Hb as [Hb|Hb]; [|set_solver].
        destruct (decide (b ∈ F')) as [Hbf|Hbf].
        -- apply elem_of_union in Ha as [Ha|Ha]; [|set_solver].
           apply elem_of_union_l. by eapply oi_trans.
        -- apply elem_of_union_l. by eapply oi_trans.
      * destruct (decide (b ∈ F')) as [Hbf|Hbf].
        -- exfalso. apply Hcf. eapply F'_up; [done|]. by apply (oi_conv h HO).
        -- by eapply oi_trans.
Qed.

(** Conversely the constructor breaks transitivity unless the arguments are compatible. *)
Lemma new_event_order_inv l cs ps :
  order_inv (fst (new_event it l P F cs ps h)) → compatible h P F.
Proof.
  intros HO' a b Ha Hb.
  assert (Han : a ≠ nw) by (intros ->; by apply n_notin_P').
  assert (Hbn : b ≠ nw) by (intros ->; by apply n_notin_F').
  assert (H1 : a ∈ prec (fst (new_event it l P F cs ps h)) nw).
  { rewrite new_event_prec. by rewrite decide_True. }
  assert (H2 : nw ∈ prec (fst (new_event it l P F cs ps h)) b).
  { rewrite new_event_prec. rewrite decide_False, decide_True by done. set_solver. }
  pose proof (oi_trans _ HO' _ _ _ H1 H2) as H3.
  rewrite new_event_prec in H3. rewrite decide_False, decide_True in H3 by done. set_solver.
Qed.

Lemma before_new_old l cs ps a b :
  a ≠ nw → b ≠ nw → before (fst (new_event it l P F cs ps h)) a b ↔ before h a b.
Proof.
  intros Ha Hb. unfold before. rewrite new_event_prec. rewrite decide_False by done.
  destruct (decide _); set_solver.
Qed.

(** Links after the constructor. *)
Lemma new_event_covers l cs ps a b :
  compatible h P F → a ≠ nw → b ≠ nw →
  covers (before (fst (new_event it l P F cs ps h))) a b ↔
  covers (before h) a b ∧ ¬ (a ∈ P' ∧ b ∈ F').
Proof.
  intros Hc Ha Hb. set (h' := fst (new_event it l P F cs ps h)). unfold covers.
  assert (Hold : ∀ x y, x ≠ nw → y ≠ nw → before h' x y ↔ before h x y).
  { intros. by apply before_new_old. }
  assert (H1 : before h' a nw ↔ a ∈ P').
  { unfold before, h'. rewrite new_event_prec. by rewrite decide_True. }
  assert (H2 : before h' nw b ↔ b ∈ F').
  { unfold before, h'. rewrite new_event_prec. rewrite decide_False by done.
    pose proof (n_notin_sets b). destruct (decide (b ∈ F')); set_solver. }
  split.
  - intros [Hab Hno]. apply Hold in Hab; [|done..]. split; [split; [done|]|].
    + intros (c & Hac & Hcb). apply Hno. exists c.
      assert (c ≠ nw).
      { intros ->. unfold before in Hac. pose proof (new_id_fresh h).
        apply prec_dom_r in Hac. done. }
      by rewrite !Hold.
    + intros [Haf Hbf]. apply Hno. exists nw. by rewrite H1, H2.
  - intros [[Hab Hno] Hnn]. split; [by apply Hold|]. intros (c & Hac & Hcb).
    destruct (decide (c = nw)) as [->|Hcn].
    + apply Hnn. by rewrite <- H1, <- H2.
    + apply Hno. exists c. by rewrite <- !Hold.
Qed.

Lemma new_event_covers_to l cs ps a :
  compatible h P F → a ≠ nw →
  covers (before (fst (new_event it l P F cs ps h))) a nw ↔ a ∈ P' ∧ succ h a ∩ P' = ∅.
Proof.
  intros Hc Ha. set (h' := fst (new_event it l P F cs ps h)). unfold covers.
  assert (H1 : ∀ x, before h' x nw ↔ x ∈ P').
  { intros x. unfold before, h'. rewrite new_event_prec. by rewrite decide_True. }
  rewrite H1. split.
  - intros [HaP Hno]. split; [done|]. apply set_eq. intros c. split; [|set_solver].
    intros [Hc1 Hc2]%elem_of_intersection. exfalso. apply Hno. exists c. rewrite H1.
    split; [|done]. apply before_new_old; [done| |by apply (oi_conv h HO)].
    intros ->. by apply n_notin_P'.
  - intros [HaP He]. split; [done|]. intros (c & Hac & HcP). rewrite H1 in HcP.
    assert (c ≠ nw) by (intros ->; by apply n_notin_P').
    apply before_new_old in Hac; [|done..]. apply (oi_conv h HO) in Hac. set_solver.
Qed.

Lemma new_event_covers_from l cs ps b :
  compatible h P F → b ≠ nw →
  covers (before (fst (new_event it l P F cs ps h))) nw b ↔ b ∈ F' ∧ F' ∩ prec h b = ∅.
Proof.
  intros Hc Hb. set (h' := fst (new_event it l P F cs ps h)). unfold covers.
  assert (H1 : ∀ x, x ≠ nw → before h' nw x ↔ x ∈ F').
  { intros x Hx. unfold before, h'. rewrite new_event_prec. rewrite decide_False by done.
    pose proof (n_notin_sets x). destruct (decide (x ∈ F')); set_solver. }
  assert (Hnn : ¬ before h' nw nw).
  { unfold before, h'. rewrite new_event_prec. rewrite decide_True by done.
    apply n_notin_P'. }
  rewrite H1 by done. split.
  - intros [HaP Hno]. split; [done|]. apply set_eq. intros c. split; [|set_solver].
    intros [Hc1 Hc2]%elem_of_intersection. exfalso. apply Hno. exists c.
    assert (c ≠ nw) by (intros ->; by apply n_notin_F').
    rewrite H1 by done. split; [done|]. by apply before_new_old.
  - intros [HaP He]. split; [done|]. intros (c & Hac & HcP).
    assert (Hcn : c ≠ nw) by (intros ->; done).
    rewrite H1 in Hac by done.
    apply before_new_old in HcP; [|done..]. unfold before in HcP. set_solver.
Qed.

Lemma new_event_link_inv l cs ps :
  compatible h P F → link_inv h → link_inv (fst (new_event it l P F cs ps h)).
Proof.
  intros Hc HL y.
  pose proof n_notin_P' as HnP. pose proof n_notin_F' as HnF.
  assert (HPF : ∀ z, z ∈ P' → z ∈ F' → False).
  { intros z H1 H2. apply (oi_irr h HO z). by apply Hc. }
  destruct (decide (y = nw)) as [->|Hyn].
  { left. unfold lprec, lsucc. rewrite new_event_lookup. by rewrite decide_True. }
  unfold lprec, lsucc. rewrite new_event_lookup. rewrite decide_False by done.
  destruct (HL y) as [[H1 H2]|(lp&ls&H1&H2&H3&H4)];
    unfold lprec in H1; unfold lsucc in H2.
  - left. destruct (decide (y ∈ F')) as [HyF|HyF]; destruct (decide (y ∈ P')) as [HyP|HyP].
    + by exfalso; eapply HPF.
    + unfold addP, linked_ev. cbn. rewrite ?H1, ?H2. destruct (decide _); cbn; by rewrite ?H1, ?H2.
    + unfold addF, linked_ev. cbn. rewrite ?H1, ?H2. destruct (decide _); cbn; by rewrite ?H1, ?H2.
    + cbn. done.
  - right. destruct (decide (y ∈ F')) as [HyF|HyF]; destruct (decide (y ∈ P')) as [HyP|HyP].
    + by exfalso; eapply HPF.
    + (* y in the future of nw: past links change *)
      cbn [id]. exists (if bool_decide (F' ∩ prec h y = ∅) then (lp ∖ P') ∪ {[nw]} else lp), ls.
      assert (Hnotin : nw ∉ ev_prec (h !!! y)) by apply n_notin_sets.
      split; [|split].
      * unfold addP. rewrite decide_False by done. unfold linked_ev. rewrite H1, H2. cbn.
        change (ev_prec (h !!! y)) with (prec h y).
        destruct (bool_decide _); cbn; by rewrite ?H1.
      * destruct (addP_rest nw P' F' (h !!! y)) as (_&_&_&->). done.
      * split; intros z.
        -- destruct (decide (z = nw)) as [->|Hzn].
           ++ rewrite new_event_covers_from by done.
              destruct (bool_decide_reflect (F' ∩ prec h y = ∅)) as [He|He].
              ** set_solver.
              ** split; [|by intros [_ ?]]. intros Hz. apply H3 in Hz. destruct Hz as [Hz _].
                 exfalso. revert Hz. apply n_notin_sets.
           ++ rewrite new_event_covers by done.
              destruct (bool_decide_reflect (F' ∩ prec h y = ∅)) as [He|He].
              ** rewrite elem_of_union, elem_of_difference, H3. set_solver.
              ** rewrite H3. split; [|by intros [? _]]. intros Hz. split; [done|].
                 intros [HzP _]. destruct Hz as [_ Hno].
                 apply set_choose_L in He as [w Hw].
                 apply Hno. exists w. split; [|set_solver].
                 apply Hc; [done|set_solver].
        -- destruct (decide (z = nw)) as [->|Hzn].
           ++ split.
              ** intros Hz. apply H4 in Hz. destruct Hz as [Hz _]. exfalso.
                 apply (oi_conv h HO) in Hz. revert Hz. apply n_notin_sets.
              ** intros [Hz _]. unfold before in Hz. rewrite new_event_prec in Hz.
                 by rewrite decide_True in Hz.
           ++ rewrite new_event_covers by done. rewrite H4. set_solver.
    + (* y in the past of nw: future links change *)
      cbn [id]. exists lp, (if bool_decide (succ h y ∩ P' = ∅) then (ls ∖ F') ∪ {[nw]} else ls).
      assert (Hnotin : nw ∉ ev_succ (h !!! y)) by apply n_notin_sets.
      split; [|split].
      * destruct (addF_rest nw P' F' (h !!! y)) as (_&_&_&->). done.
      * unfold addF. rewrite decide_False by done. unfold linked_ev. rewrite H1, H2. cbn.
        change (ev_succ (h !!! y)) with (succ h y).
        destruct (bool_decide _); cbn; by rewrite ?H2.
      * split; intros z.
        -- destruct (decide (z = nw)) as [->|Hzn].
           ++ split.
              ** intros Hz. apply H3 in Hz. destruct Hz as [Hz _]. exfalso.
                 revert Hz. apply n_notin_sets.
              ** intros [Hz _]. unfold before in Hz. rewrite new_event_prec in Hz.
                 rewrite !decide_False in Hz by done. exfalso. revert Hz. apply n_notin_sets.
           ++ rewrite new_event_covers by done. rewrite H3. set_solver.
        -- destruct (decide (z = nw)) as [->|Hzn].
           ++ rewrite new_event_covers_to by done.
              destruct (bool_decide_reflect (succ h y ∩ P' = ∅)) as [He|He].
              ** set_solver.
              ** split; [|by intros [_ ?]]. intros Hz. apply H4 in Hz. destruct Hz as [Hz _].
                 exfalso. apply (oi_conv h HO) in Hz. revert Hz. apply n_notin_sets.
           ++ rewrite new_event_covers by done.
              destruct (bool_decide_reflect (succ h y ∩ P' = ∅)) as [He|He].
              ** rewrite elem_of_union, elem_of_difference, H4. set_solver.
              ** rewrite H4. split; [|by intros [? _]]. intros Hz. split; [done|].
                 intros [_ HzF]. destruct Hz as [_ Hno].
                 apply set_choose_L in He as [w Hw].
                 apply Hno. exists w. split; [|apply Hc; set_solver].
                 apply (oi_conv h HO). set_solver.
    + (* unrelated to nw *)
      cbn [id]. exists lp, ls. split; [done|]. split; [done|]. split; intros z.
      * destruct (decide (z = nw)) as [->|Hzn].
        -- split.
           ++ intros Hz. apply H3 in Hz. destruct Hz as [Hz _]. exfalso.
              revert Hz. apply n_notin_sets.
           ++ intros [Hz _]. unfold before in Hz. rewrite new_event_prec in Hz.
              rewrite !decide_False in Hz by done. exfalso. revert Hz. apply n_notin_sets.
        -- rewrite new_event_covers by done. rewrite H3. set_solver.
      * destruct (decide (z = nw)) as [->|Hzn].
        -- split.
           ++ intros Hz. apply H4 in Hz. destruct Hz as [Hz _]. exfalso.
              apply (oi_conv h HO) in Hz. revert Hz. apply n_notin_sets.
           ++ intros [Hz _]. unfold before in Hz. rewrite new_event_prec in Hz.
              by rewrite decide_True in Hz.
        -- rewrite new_event_covers by done. rewrite H4. set_solver.
Qed.

End ctor.
