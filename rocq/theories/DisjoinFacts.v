(** Lemmas about CausetEvent.disjoin. *)
From Verif Require Import Base Spec EventModel EventFacts.

(** [_discard] changes only the receiving event. *)
Lemma discard_other h e x y : y ≠ e → fst (discard_ev h e x) !!! y = h !!! y.
Proof.
  intros Hy. unfold discard_ev. destruct (decide _).
  { cbn. destruct (_ && _); rewrite !upd_other by done; done. }
  destruct (decide _); [|done].
  cbn. destruct (_ && _); rewrite !upd_other by done; done.
Qed.
Lemma discard_prec h e x y :
  ¬ (x ∈ prec h y ∧ x ∈ succ h y) →
  prec (fst (discard_ev h e x)) y = if decide (y = e) then prec h y ∖ {[x]} else prec h y.
Proof.
  intros Hn. destruct (decide (y = e)) as [->|Hy].
  - unfold discard_ev. destruct (decide (x ∈ prec h e)) as [H1|H1].
    { cbn. unfold prec at 1. rewrite upd_same. cbn.
      destruct (_ && _); [by rewrite upd_same|done]. }
    destruct (decide (x ∈ succ h e)) as [H2|H2].
    { cbn. unfold prec at 1. rewrite upd_same. cbn.
      destruct (_ && _); rewrite ?upd_same; cbn; unfold prec in *; set_solver. }
    cbn. set_solver.
  - unfold prec. by rewrite discard_other.
Qed.
Lemma discard_succ h e x y :
  ¬ (x ∈ prec h y ∧ x ∈ succ h y) →
  succ (fst (discard_ev h e x)) y = if decide (y = e) then succ h y ∖ {[x]} else succ h y.
Proof.
  intros Hn. destruct (decide (y = e)) as [->|Hy].
  - unfold discard_ev. destruct (decide (x ∈ prec h e)) as [H1|H1].
    { cbn. unfold succ at 1. rewrite upd_same. cbn.
      destruct (_ && _); rewrite ?upd_same; cbn; unfold succ in *; set_solver. }
    destruct (decide (x ∈ succ h e)) as [H2|H2].
    { cbn. unfold succ at 1. rewrite upd_same. cbn.
      destruct (_ && _); [by rewrite upd_same|done]. }
    cbn. set_solver.
  - unfold succ. by rewrite discard_other.
Qed.
Lemma discard_rest h e x y :
  lab (fst (discard_ev h e x)) y = lab h y ∧
  coords (fst (discard_ev h e x)) y = coords h y ∧
  pos (fst (discard_ev h e x)) y = pos h y.
Proof.
  destruct (decide (y = e)) as [->|Hy].
  - unfold discard_ev, lab, coords, pos. destruct (decide _).
    { cbn. rewrite upd_same. cbn. destruct (_ && _); by rewrite ?upd_same. }
    destruct (decide _); [|done].
    cbn. rewrite upd_same. cbn. destruct (_ && _); by rewrite ?upd_same.
  - unfold lab, coords, pos. by rewrite discard_other.
Qed.
Lemma discard_dom h e x : e ∈ dom h → dom (fst (discard_ev h e x)) = dom h.
Proof.
  intros He. unfold discard_ev. destruct (decide _).
  { cbn. destruct (_ && _); rewrite ?upd_dom; try done; by rewrite ?upd_dom. }
  destruct (decide _); [|done].
  cbn. destruct (_ && _); rewrite ?upd_dom; try done; by rewrite ?upd_dom.
Qed.
(** No effect when the event is unrelated. *)
Lemma discard_noop h e x : x ∉ prec h e → x ∉ succ h e → fst (discard_ev h e x) = h.
Proof. intros H1 H2. unfold discard_ev. by rewrite !decide_False. Qed.

Lemma disjoin_loop_other l x h y : y ∉ l → disjoin_loop l x h !!! y = h !!! y.
Proof.
  revert h. induction l as [|e l IH]; intros h Hy; [done|].
  cbn [disjoin_loop foldl]. fold (disjoin_loop l x (fst (discard_ev h e x))).
  rewrite IH by set_solver. apply discard_other. set_solver.
Qed.

Lemma disjoin_loop_order l x h y :
  (∀ z, ¬ (x ∈ prec h z ∧ x ∈ succ h z)) →
  prec (disjoin_loop l x h) y = (if decide (y ∈ l) then prec h y ∖ {[x]} else prec h y) ∧
  succ (disjoin_loop l x h) y = (if decide (y ∈ l) then succ h y ∖ {[x]} else succ h y).
Proof.
  revert h. induction l as [|e l IH]; intros h Hn; [done|].
  cbn [disjoin_loop foldl]. fold (disjoin_loop l x (fst (discard_ev h e x))).
  destruct (IH (fst (discard_ev h e x))) as [-> ->].
  { intros z. rewrite discard_prec, discard_succ by apply Hn.
    specialize (Hn z). destruct (decide (z = e)); set_solver. }
  rewrite discard_prec, discard_succ by apply Hn.
  destruct (decide (y ∈ l)), (decide (y = e)) as [->|].
  - rewrite !decide_True by set_solver. split; apply set_eq; intros w; rewrite !elem_of_difference; tauto.
  - rewrite !decide_True by set_solver. done.
  - rewrite !decide_True by set_solver. done.
  - rewrite !decide_False by set_solver. done.
Qed.
Lemma disjoin_loop_rest l x h y :
  lab (disjoin_loop l x h) y = lab h y ∧ coords (disjoin_loop l x h) y = coords h y ∧
  pos (disjoin_loop l x h) y = pos h y.
Proof.
  revert h. induction l as [|e l IH]; intros h; [done|].
  cbn [disjoin_loop foldl]. fold (disjoin_loop l x (fst (discard_ev h e x))).
  destruct (IH (fst (discard_ev h e x))) as (->&->&->). apply discard_rest.
Qed.
Lemma disjoin_loop_dom l x h : (∀ y, y ∈ l → y ∈ dom h) → dom (disjoin_loop l x h) = dom h.
Proof.
  revert h. induction l as [|e l IH]; intros h Hl; [done|].
  cbn [disjoin_loop foldl]. fold (disjoin_loop l x (fst (discard_ev h e x))).
  assert (Hd : dom (fst (discard_ev h e x)) = dom h) by (apply discard_dom; set_solver).
  rewrite IH; [done|]. rewrite Hd. set_solver.
Qed.
(** A loop in which no receiver is related does nothing. *)
Lemma disjoin_loop_noop l x h :
  (∀ y, y ∈ l → x ∉ prec h y ∧ x ∉ succ h y) → disjoin_loop l x h = h.
Proof.
  revert h. induction l as [|e l IH]; intros h Hl; [done|].
  cbn [disjoin_loop foldl]. fold (disjoin_loop l x (fst (discard_ev h e x))).
  rewrite discard_noop by (apply Hl; set_solver). apply IH. set_solver.
Qed.

Section disjoin.
Context (it : oracle) (Hit : iter_ok it).
Context (h : heap) (HO : order_inv h) (x : nat) (Hx : x ∈ dom h).
Context (lp ls : gset nat) (Hlp : lprec h x = Some lp) (Hls : lsucc h x = Some ls).

Let h1 := fst (unlink h x).
Let l := it 2 (Cone h1 x).
Let h2 := disjoin_loop l x h1.

Local Lemma h1_order : same_order h h1.
Proof. apply unlink_same_order. Qed.
Local Lemma h1_inv : order_inv h1.
Proof. eapply same_order_inv; [apply h1_order|done]. Qed.
Local Lemma h1_lookup y :
  h1 !!! y = if decide (y = x) then set_lsucc None (set_lprec None (h !!! x)) else h !!! y.
Proof. apply (unlink_linked h x lp ls); done. Qed.
Local Lemma l_elem y : y ∈ l ↔ y = x ∨ y ∈ prec h x ∨ y ∈ succ h x.
Proof.
  unfold l. rewrite iter_elem by done. unfold Cone.
  destruct (h1_order x) as [-> ->]. set_solver.
Qed.

Lemma disjoin_loop1_order y :
  prec h2 y = prec h y ∖ {[x]} ∧ succ h2 y = succ h y ∖ {[x]}.
Proof.
  unfold h2. destruct (disjoin_loop_order l x h1 y) as [-> ->].
  { intros z [H1 H2]. apply (oi_conv h1 h1_inv) in H2.
    by eapply oi_asym; [apply h1_inv|exact H1|]. }
  destruct (h1_order y) as [-> ->].
  pose proof (oi_conv h HO x y) as C1. pose proof (oi_conv h HO y x) as C2.
  destruct (decide (y ∈ l)) as [|Hn]; [done|]. rewrite l_elem in Hn.
  clear -Hn C1 C2. split; apply set_eq; intros w; rewrite elem_of_difference, elem_of_singleton;
    split; try tauto; intros Hw; split; try done; intros ->; tauto.
Qed.

Lemma disjoin_final :
  disjoin it h x = (upd (set_succ ∅) x (upd (set_prec ∅) x h2), Ok tt).
Proof.
  unfold disjoin. destruct (unlink_linked h x lp ls Hlp Hls) as [Hok _].
  rewrite (surjective_pairing (unlink h x)), Hok.
  fold h1. fold l. fold h2. f_equal. f_equal.
  apply disjoin_loop_noop. intros y _.
  destruct (disjoin_loop1_order y) as [H1 H2].
  destruct (decide (y = x)) as [->|Hn].
  - unfold prec, succ. rewrite upd_same. cbn. fold (succ h2 x). rewrite H2. set_solver.
  - unfold prec, succ. rewrite upd_other by done. fold (succ h2 y) (prec h2 y).
    rewrite H1, H2. set_solver.
Qed.

Lemma disjoin_order y :
  prec (fst (disjoin it h x)) y = (if decide (y = x) then ∅ else prec h y ∖ {[x]}) ∧
  succ (fst (disjoin it h x)) y = (if decide (y = x) then ∅ else succ h y ∖ {[x]}).
Proof.
  rewrite disjoin_final. cbn [fst]. unfold prec at 1, succ at 1.
  destruct (decide (y = x)) as [->|Hn].
  - rewrite !upd_same. done.
  - rewrite !upd_other by done. apply disjoin_loop1_order.
Qed.
Lemma disjoin_rest y :
  lab (fst (disjoin it h x)) y = lab h y ∧ coords (fst (disjoin it h x)) y = coords h y ∧
  pos (fst (disjoin it h x)) y = pos h y.
Proof.
  rewrite disjoin_final. cbn [fst]. unfold lab at 1, coords at 1, pos at 1.
  assert (Hr : lab h2 y = lab h y ∧ coords h2 y = coords h y ∧ pos h2 y = pos h y).
  { unfold h2. destruct (disjoin_loop_rest l x h1 y) as (->&->&->).
    unfold lab, coords, pos. rewrite h1_lookup. by destruct (decide (y = x)) as [->|]. }
  destruct (decide (y = x)) as [->|Hn].
  - rewrite !upd_same. cbn. apply Hr.
  - rewrite !upd_other by done. apply Hr.
Qed.
Lemma disjoin_dom : dom (fst (disjoin it h x)) = dom h.
Proof.
  rewrite disjoin_final. cbn [fst].
  assert (Hd : dom h2 = dom h).
  { unfold h2. rewrite disjoin_loop_dom.
    - by apply unlink_dom.
    - intros y Hy. apply l_elem in Hy. unfold h1. rewrite unlink_dom by done.
      destruct Hy as [->|[Hy|Hy]]; [done|by eapply prec_dom_l|by eapply succ_dom_l]. }
  rewrite !upd_dom; rewrite ?upd_dom; by rewrite ?Hd.
Qed.

Lemma disjoin_order_inv : order_inv (fst (disjoin it h x)).
Proof.
  set (h' := fst (disjoin it h x)).
  assert (Hp : ∀ y, prec h' y = if decide (y = x) then ∅ else prec h y ∖ {[x]})
    by apply disjoin_order.
  assert (Hs : ∀ y, succ h' y = if decide (y = x) then ∅ else succ h y ∖ {[x]})
    by apply disjoin_order.
  split; [|split]; unfold before.
  - intros a b. rewrite Hp, Hs. pose proof (oi_conv h HO a b).
    destruct (decide (b = x)), (decide (a = x)); set_solver.
  - intros a. rewrite Hp. pose proof (oi_irr h HO a). destruct (decide (a = x)); set_solver.
  - intros a b c. rewrite !Hp. pose proof (oi_trans h HO a b c).
    destruct (decide (b = x)), (decide (c = x)); set_solver.
Qed.

(** Which caches go stale: of two neighbours a, b of x on either side that become linked, the
    one visited first misses the new link. *)
Lemma discard_first_past hh a b :
  (* receiver a in the past of x; b in the future of x and still related to x *)
  x ∈ succ hh a → x ∉ prec hh a → x ∈ prec hh b → b ∉ default ∅ (lsucc hh a) →
  b ∉ default ∅ (lsucc (fst (discard_ev hh a x)) a).
Proof.
  intros H1 H2 H3 H4. unfold discard_ev. rewrite decide_False, decide_True by done.
  cbn. unfold lsucc at 1. rewrite upd_same. cbn.
  destruct (_ && _) eqn:E; [|done].
  rewrite upd_same. cbn. unfold lsucc in *. destruct (ev_lsucc (hh !!! a)) as [s|]; [|done].
  cbn in *. rewrite elem_of_difference, elem_of_union, elem_of_filter.
  intros [[Hb|[Hl Hb]] _]; [done|].
  apply bool_decide_eq_true in Hl. set_solver.
Qed.
Lemma discard_first_future hh a b :
  x ∈ prec hh b → x ∈ succ hh a → a ∉ default ∅ (lprec hh b) →
  a ∉ default ∅ (lprec (fst (discard_ev hh b x)) b).
Proof.
  intros H1 H2 H4. unfold discard_ev. rewrite decide_True by done.
  cbn. unfold lprec at 1. rewrite upd_same. cbn.
  destruct (_ && _) eqn:E; [|done].
  rewrite upd_same. cbn. unfold lprec in *. destruct (ev_lprec (hh !!! b)) as [s|]; [|done].
  cbn in *. rewrite elem_of_difference, elem_of_union, elem_of_filter.
  intros [[Hb|[Hl Hb]] _]; [done|].
  apply bool_decide_eq_true in Hl. set_solver.
Qed.

Lemma discard_cached hh e y :
  (is_Some (lprec hh y) → is_Some (lprec (fst (discard_ev hh e x)) y)) ∧
  (is_Some (lsucc hh y) → is_Some (lsucc (fst (discard_ev hh e x)) y)).
Proof.
  destruct (decide (y = e)) as [->|Hy].
  - unfold discard_ev, lprec, lsucc. destruct (decide _).
    { cbn. rewrite upd_same. cbn.
      destruct (_ && _); rewrite ?upd_same; cbn; split; try done; by rewrite fmap_is_Some. }
    destruct (decide _); [|done].
    cbn. rewrite upd_same. cbn.
    destruct (_ && _); rewrite ?upd_same; cbn; split; try done; by rewrite fmap_is_Some.
  - unfold lprec, lsucc. by rewrite discard_other.
Qed.
Lemma disjoin_loop_cached k hh y :
  (is_Some (lprec hh y) → is_Some (lprec (disjoin_loop k x hh) y)) ∧
  (is_Some (lsucc hh y) → is_Some (lsucc (disjoin_loop k x hh) y)).
Proof.
  revert hh. induction k as [|e k IH]; intros hh; [done|].
  cbn [disjoin_loop foldl]. fold (disjoin_loop k x (fst (discard_ev hh e x))).
  destruct (IH (fst (discard_ev hh e x))) as [H1 H2].
  destruct (discard_cached hh e y) as [H3 H4]. split; auto.
Qed.

Context (HL : link_inv h).
Context (a b : nat) (Hax : before h a x) (Hxb : before h x b).
Context (Hca : is_Some (lprec h a)) (Hcb : is_Some (lprec h b)).

Lemma disjoin_stale :
  b ∉ LinkFuture (fst (disjoin it h x)) a ∨ a ∉ LinkPast (fst (disjoin it h x)) b.
Proof.
  assert (Hab : before h a b) by (eapply oi_trans; eauto).
  assert (Hnx : a ≠ x ∧ b ≠ x ∧ a ≠ b).
  { split_and!; intros ->; by eapply oi_irr. }
  destruct Hnx as (Hnax & Hnbx & Hnab).
  assert (Hla : a ∈ l) by (apply l_elem; auto).
  assert (Hlb : b ∈ l) by (apply l_elem; right; right; by apply (oi_conv h HO)).
  assert (Hnd : NoDup l) by (apply iter_nodup; done).
  assert (Hnc : ¬ covers (before h) a b) by (intros [_ Hn]; apply Hn; exists x; done).
  assert (Hh1a : h1 !!! a = h !!! a) by (rewrite h1_lookup, decide_False; done).
  assert (Hh1b : h1 !!! b = h !!! b) by (rewrite h1_lookup, decide_False; done).
  assert (Hasome : ∃ pa sa, lprec h a = Some pa ∧ lsucc h a = Some sa ∧ b ∉ sa).
  { destruct (HL a) as [[E _]|(pa&sa&E1&E2&_&E3)].
    - rewrite E in Hca. by destruct Hca.
    - exists pa, sa. split; [done|]. split; [done|]. by rewrite E3. }
  assert (Hbsome : ∃ pb sb, lprec h b = Some pb ∧ lsucc h b = Some sb ∧ a ∉ pb).
  { destruct (HL b) as [[E _]|(pb&sb&E1&E2&E3&_)].
    - rewrite E in Hcb. by destruct Hcb.
    - exists pb, sb. split; [done|]. split; [done|]. by rewrite E3. }
  destruct Hasome as (pa&sa&Epa&Esa&Hbsa). destruct Hbsome as (pb&sb&Epb&Esb&Hapb).
  (* position of a and b in the visiting order *)
  apply elem_of_list_split in Hla as (l1 & l2 & El).
  rewrite El in Hnd. apply NoDup_app in Hnd as (Hnd1 & Hnd12 & Hnd2).
  apply NoDup_cons in Hnd2 as [Hal2 Hnd2].
  assert (Hal1 : a ∉ l1) by (intros H; apply (Hnd12 a H); set_solver).
  assert (Hfin : ∀ y, y ≠ x → fst (disjoin it h x) !!! y = h2 !!! y).
  { intros y Hy. rewrite disjoin_final. cbn [fst]. by rewrite !upd_other. }
  assert (Hsplit : ∀ k1 k2 e hh, disjoin_loop (k1 ++ e :: k2) x hh =
            disjoin_loop k2 x (fst (discard_ev (disjoin_loop k1 x hh) e x))).
  { intros k1 k2 e hh. unfold disjoin_loop. by rewrite foldl_app. }
  assert (Hord : ∀ k y, y ∉ k → disjoin_loop k x h1 !!! y = h1 !!! y).
  { intros. by apply disjoin_loop_other. }
  rewrite El in Hlb. apply elem_of_app in Hlb as [Hb1|Hb2].
  - (* b first *)
    right. unfold LinkPast.
    apply elem_of_list_split in Hb1 as (k1 & k2 & Ek). subst l1.
    assert (Hbk : b ∉ k1 ∧ b ∉ k2 ++ a :: l2).
    { apply NoDup_app in Hnd1 as (H1 & H2 & H3). apply NoDup_cons in H3 as [H3 H4]. split.
      - intros H. apply (H2 b H). set_solver.
      - rewrite elem_of_app. intros [H|H]; [done|]. apply (Hnd12 b); [set_solver|done]. }
    assert (Hh2b : h2 !!! b = fst (discard_ev (disjoin_loop k1 x h1) b x) !!! b).
    { unfold h2. rewrite El, <- app_assoc. cbn [app]. rewrite Hsplit.
      apply disjoin_loop_other. apply Hbk. }
    assert (Ha1 : a ∉ default ∅ (lprec (fst (discard_ev (disjoin_loop k1 x h1) b x)) b)).
    { apply discard_first_future.
      - unfold prec. rewrite Hord by apply Hbk. rewrite Hh1b. done.
      - unfold succ. rewrite Hord by set_solver. rewrite Hh1a. by apply (oi_conv h HO).
      - unfold lprec. rewrite Hord by apply Hbk. rewrite Hh1b. fold (lprec h b).
        by rewrite Epb. }
    unfold lprec. rewrite Hfin, Hh2b by done.
    fold (lprec (fst (discard_ev (disjoin_loop k1 x h1) b x)) b).
    assert (Hsm : is_Some (lprec (fst (discard_ev (disjoin_loop k1 x h1) b x)) b)).
    { apply discard_cached. unfold lprec. rewrite Hord by apply Hbk. rewrite Hh1b. eauto. }
    destruct Hsm as [s Es]. rewrite Es in *. done.
  - (* a first *)
    apply elem_of_cons in Hb2 as [->|Hb2]; [done|].
    left. unfold LinkFuture.
    assert (Hbl1 : b ∉ l1) by (intros H; apply (Hnd12 b H); set_solver).
    assert (Hh2a : h2 !!! a = fst (discard_ev (disjoin_loop l1 x h1) a x) !!! a).
    { unfold h2. rewrite El, Hsplit. by apply disjoin_loop_other. }
    assert (Ha1 : b ∉ default ∅ (lsucc (fst (discard_ev (disjoin_loop l1 x h1) a x)) a)).
    { apply discard_first_past.
      - unfold succ. rewrite Hord by done. rewrite Hh1a. by apply (oi_conv h HO).
      - unfold prec. rewrite Hord by done. rewrite Hh1a. intros H. by eapply oi_asym.
      - unfold prec. rewrite Hord by done. rewrite Hh1b. done.
      - unfold lsucc. rewrite Hord by done. rewrite Hh1a. fold (lsucc h a).
        by rewrite Esa. }
    unfold lsucc. rewrite Hfin, Hh2a by done.
    fold (lsucc (fst (discard_ev (disjoin_loop l1 x h1) a x)) a).
    assert (Hsm : is_Some (lsucc (fst (discard_ev (disjoin_loop l1 x h1) a x)) a)).
    { apply discard_cached. unfold lsucc. rewrite Hord by done. rewrite Hh1a. eauto. }
    destruct Hsm as [s Es]. rewrite Es in *. done.
Qed.

End disjoin.
