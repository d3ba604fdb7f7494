(** Lemmas behind the theorems of Prop_Event.v. *)
From Verif Require Import Base Spec EventModel EventFacts DisjoinFacts History HistoryFacts
  PathFacts RankFacts.

(** * A checker for admissible histories (used for examples only) *)
Definition admb (h : heap) (o : op) : bool :=
  match o with
  | ONew _ P F _ _ =>
    bool_decide (P ⊆ dom h) && bool_decide (F ⊆ dom h) &&
    forallb (λ p, forallb (λ f,
      implb ((bool_decide (p ∈ P) || existsb (λ e, ev_lt h p e) (elements P)) &&
             (bool_decide (f ∈ F) || existsb (λ e, ev_lt h e f) (elements F)))
            (ev_lt h p f)) (elements (dom h))) (elements (dom h))
  | OLink x | OUnlink x | OLinkPast x | OLinkFuture x | OLinkCone x
  | OIsPastLink x _ | OIsFutureLink x _ | OIsLinkedTo x _
  | OLinkPastCard x | OLinkFutureCard x | OLinkConeCard x | ODisjoin x
  | OEmbed x _ _ | ODisembed x | OSetPosition x _ => bool_decide (x ∈ dom h)
  end.
Fixpoint adm_histb (it : oracle) (h : heap) (os : list op) : bool :=
  match os with
  | [] => true
  | o :: os' => admb h o && adm_histb it (step it h o) os'
  end.

Lemma admb_sound h o : order_inv h → admb h o = true → admissible h o.
Proof.
  intros HO. destruct o; cbn [admb admissible]; try (by intros ?%bool_decide_eq_true).
  intros [[H1%bool_decide_eq_true H2%bool_decide_eq_true]%andb_prop H3]%andb_prop.
  split_and!; [done|done|]. intros p f Hp Hf.
  assert (Hpd : p ∈ dom h).
  { destruct Hp as [Hp|(e & He & Hp)]; [set_solver|]. by eapply prec_dom_l. }
  assert (Hfd : f ∈ dom h).
  { destruct Hf as [Hf|(e & He & Hf)]; [set_solver|]. by eapply prec_dom_r. }
  rewrite forallb_forall in H3.
  specialize (H3 p). rewrite <- elem_of_list_In, elem_of_elements in H3.
  specialize (H3 Hpd). rewrite forallb_forall in H3.
  specialize (H3 f). rewrite <- elem_of_list_In, elem_of_elements in H3.
  specialize (H3 Hfd).
  assert (Ep : bool_decide (p ∈ P) || existsb (λ e, ev_lt h p e) (elements P) = true).
  { apply orb_true_iff. destruct Hp as [Hp|(e & He & Hp)].
    - left. by apply bool_decide_eq_true.
    - right. apply existsb_exists. exists e. rewrite <- elem_of_list_In, elem_of_elements.
      split; [done|]. by apply bool_decide_eq_true. }
  assert (Ef : bool_decide (f ∈ F) || existsb (λ e, ev_lt h e f) (elements F) = true).
  { apply orb_true_iff. destruct Hf as [Hf|(e & He & Hf)].
    - left. by apply bool_decide_eq_true.
    - right. apply existsb_exists. exists e. rewrite <- elem_of_list_In, elem_of_elements.
      split; [done|]. by apply bool_decide_eq_true. }
  rewrite Ep, Ef in H3. by apply bool_decide_eq_true in H3.
Qed.
Lemma adm_histb_sound it h os :
  iter_ok it → order_inv h → adm_histb it h os = true →
  admissible_history h ((λ o, (it, o)) <$> os).
Proof.
  intros Hit. revert h. induction os as [|o os IH]; intros h HO Hb; [done|].
  cbn in Hb. apply andb_prop in Hb as [H1 H2]. apply admb_sound in H1; [|done].
  cbn. split_and!; [done|done|]. apply IH; [by apply step_order|done].
Qed.

(** * Link caches come in pairs over every history *)
Lemma linked_pair_addF o A B e :
  (ev_lprec e = None ↔ ev_lsucc e = None) →
  (ev_lprec (addF o A B e) = None ↔ ev_lsucc (addF o A B e) = None).
Proof.
  intros H. unfold addF. destruct (decide _); [done|]. cbn.
  destruct (_ && _); [|done]. cbn. by rewrite fmap_None.
Qed.
Lemma linked_pair_addP o A B e :
  (ev_lprec e = None ↔ ev_lsucc e = None) →
  (ev_lprec (addP o A B e) = None ↔ ev_lsucc (addP o A B e) = None).
Proof.
  intros H. unfold addP. destruct (decide _); [done|]. cbn.
  destruct (_ && _); [|done]. cbn. by rewrite fmap_None.
Qed.
Lemma linkish_paired h h' : linkish h h' → link_paired h → link_paired h'.
Proof.
  intros (xs & Hd & ->). clear Hd. revert h. induction xs as [|x xs IH]; intros h HP; [done|].
  cbn. apply IH. intros y. unfold lprec, lsucc. rewrite link_lookup.
  destruct (decide (y = x)); [done|]. apply HP.
Qed.
Lemma paired_upd f x h :
  (∀ e, ev_lprec (f e) = ev_lprec e ∧ ev_lsucc (f e) = ev_lsucc e) →
  link_paired h → link_paired (upd f x h).
Proof.
  intros Hf HP y. unfold lprec, lsucc. destruct (decide (x = y)) as [<-|].
  - rewrite upd_same. destruct (Hf (h !!! x)) as [-> ->]. apply HP.
  - rewrite upd_other by done. apply HP.
Qed.
Lemma paired_discard h e x : link_paired h → link_paired (fst (discard_ev h e x)).
Proof.
  intros HP y. destruct (decide (y = e)) as [->|Hy].
  2: { unfold lprec, lsucc. rewrite discard_other by done. apply HP. }
  specialize (HP e). unfold discard_ev, lprec, lsucc in *.
  destruct (decide _).
  { cbn. rewrite upd_same. cbn. destruct (_ && _); rewrite ?upd_same; cbn; [|done].
    by rewrite fmap_None. }
  destruct (decide _); [|done].
  cbn. rewrite upd_same. cbn. destruct (_ && _); rewrite ?upd_same; cbn; [|done].
  by rewrite fmap_None.
Qed.
Lemma paired_disjoin_loop l x h : link_paired h → link_paired (disjoin_loop l x h).
Proof.
  revert h. induction l as [|e l IH]; intros h HP; [done|].
  cbn [disjoin_loop foldl]. apply IH. by apply paired_discard.
Qed.
Lemma paired_unlink h x : link_paired h → link_paired (fst (unlink h x)).
Proof.
  intros HP. destruct (lprec h x) as [lp|] eqn:E1; [|by rewrite unlink_unlinked].
  destruct (lsucc h x) as [ls|] eqn:E2; [|apply HP in E2; congruence].
  destruct (unlink_linked h x lp ls E1 E2) as [_ Hl].
  intros y. unfold lprec, lsucc. rewrite !Hl. destruct (decide _); [done|]. apply HP.
Qed.
Lemma step_paired it h o :
  iter_ok it → admissible h o → order_inv h → link_paired h → link_paired (step it h o).
Proof.
  intros Hit Ha HO HP. pose proof (linkish_step h o it Ha) as Hl.
  destruct o; cbn [step]; try (by eapply linkish_paired).
  - intros y. unfold lprec, lsucc.
    rewrite !new_event_lookup; [|done|done|apply Ha|apply Ha].
    destruct (decide (y = _)); [done|].
    destruct (decide _), (decide _); cbn [id];
      repeat (apply linked_pair_addP || apply linked_pair_addF); apply HP.
  - by apply paired_unlink.
  - unfold disjoin. pose proof (paired_unlink h x HP) as Hu.
    destruct (unlink h x) as [h1 [u|e]]; cbn; [|done]. cbn in Hu.
    apply paired_upd; [done|]. apply paired_disjoin_loop.
    apply paired_upd; [done|]. by apply paired_disjoin_loop.
  - unfold embed. destruct (_ && _); cbn; [done|]. by apply paired_upd.
  - unfold disembed. destruct (coords h x); cbn; [|done]. by apply paired_upd.
  - unfold set_Position. destruct (decide _); cbn; [|done]. by apply paired_upd.
Qed.
Lemma run_paired h hist :
  admissible_history h hist → order_inv h → link_paired h → link_paired (run h hist).
Proof.
  revert h. induction hist as [|[it o] hist IH]; intros h Ha HO HP; [done|].
  destruct Ha as (Hit & Ha & Hh). cbn.
  apply IH; [done|by apply step_order|by apply step_paired].
Qed.
Lemma link_paired_empty : link_paired ∅.
Proof. apply link_inv_paired, link_inv_empty. Qed.

(** * Constructor: exact condition for transitivity *)
Lemma new_event_trans_iff it h l P F cs ps :
  iter_ok it → order_inv h → P ⊆ dom h → F ⊆ dom h →
  (∀ a b c, let h' := fst (new_event it l P F cs ps h) in
            ev_lt h' a b = true → ev_lt h' b c = true → ev_lt h' a c = true) ↔
  (∀ p f, (p ∈ P ∨ ∃ e, e ∈ P ∧ ev_lt h p e = true) →
          (f ∈ F ∨ ∃ e, e ∈ F ∧ ev_lt h e f = true) → ev_lt h p f = true).
Proof.
  intros Hit HO HP HF. cbn zeta. unfold ev_lt. setoid_rewrite bool_decide_eq_true. split.
  - intros Ht p f Hp Hf.
    assert (Hp' : p ∈ past_closure h P).
    { apply past_closure_spec. destruct Hp as [Hp|(e & He & Hp)]; eauto. }
    assert (Hf' : f ∈ future_closure h F).
    { apply future_closure_spec. destruct Hf as [Hf|(e & He & Hf)]; [eauto|].
      exists e. rewrite <- (oi_conv h HO). auto. }
    specialize (Ht p (new_id h) f). rewrite !new_event_prec in Ht by done.
    assert (Hn : new_id h ∉ future_closure h F) by (by eapply n_notin_F').
    rewrite decide_True in Ht by done.
    rewrite decide_False in Ht by (intros ->; done). rewrite decide_True in Ht by done.
    specialize (Ht Hp'). apply elem_of_union in Ht; [|set_solver].
    destruct Ht as [Ht|Ht]; [done|]. apply elem_of_singleton in Ht. subst p.
    exfalso. revert Hp'. by eapply n_notin_P'.
  - intros Hc. apply (new_event_order it Hit h HO P F HP HF l cs ps).
    intros a b. rewrite past_closure_spec, future_closure_spec.
    intros (e & He & Ha) (f & Hf & Hb). apply Hc.
    + destruct Ha as [->|Ha]; eauto.
    + destruct Hb as [->|Hb]; [by left|right]. exists f. by rewrite (oi_conv h HO).
Qed.

(** * Getters *)
Lemma get_LinkCone_value h x :
  link_paired h → snd (get_LinkCone h x) = LinkPast h x ∪ LinkFuture h x.
Proof.
  intros HP. specialize (HP x). unfold get_LinkCone, LinkPast, LinkFuture.
  destruct (lprec h x) as [lp|] eqn:E1, (lsucc h x) as [ls|] eqn:E2; cbn; try done.
  - by destruct HP as [_ HP]; specialize (HP eq_refl).
  - by destruct HP as [HP _]; specialize (HP eq_refl).
  - unfold lprec, lsucc. rewrite link_lookup. rewrite decide_True by done. done.
Qed.
Lemma get_LinkPast_fst_paired h x : link_inv h → order_inv h →
  ∀ y, LinkFuture (fst (get_LinkPast h x)) y = LinkFuture h y ∧
       LinkPast (fst (get_LinkPast h x)) y = LinkPast h y.
Proof.
  intros HL HO y. destruct (getter_cases h x) as ([->| ->]&_); [done|].
  destruct (link_transparent h x y HL HO). done.
Qed.

Lemma queries_covers h x y :
  order_inv h → link_inv h →
  (y ∈ snd (get_LinkPast h x) ↔ covers (before h) y x) ∧
  (y ∈ snd (get_LinkFuture h x) ↔ covers (before h) x y) ∧
  (y ∈ snd (get_LinkCone h x) ↔ covers (before h) y x ∨ covers (before h) x y) ∧
  (snd (isPastLink h x y) = true ↔ covers (before h) y x) ∧
  (snd (isFutureLink h x y) = true ↔ covers (before h) x y) ∧
  (snd (isLinkedTo h x y) = true ↔ covers (before h) y x ∨ covers (before h) x y).
Proof.
  intros HO HL.
  assert (HPl : snd (isPastLink h x y) = true ↔ covers (before h) y x).
  { unfold isPastLink. rewrite (surjective_pairing (get_LinkPast h x)). cbn.
    rewrite get_LinkPast_value, bool_decide_eq_true. by apply LinkPast_spec. }
  assert (HFl : ∀ h', h' = fst (get_LinkPast h x) ∨ h' = h →
            snd (isFutureLink h' x y) = true ↔ covers (before h) x y).
  { intros h' Hh'. unfold isFutureLink. rewrite (surjective_pairing (get_LinkFuture h' x)). cbn.
    rewrite get_LinkFuture_value, bool_decide_eq_true.
    destruct Hh' as [->| ->]; [|by apply LinkFuture_spec].
    destruct (get_LinkPast_fst_paired h x HL HO x) as [-> _]. by apply LinkFuture_spec. }
  split_and!.
  - rewrite get_LinkPast_value. by apply LinkPast_spec.
  - rewrite get_LinkFuture_value. by apply LinkFuture_spec.
  - rewrite get_LinkCone_value by by apply link_inv_paired.
    rewrite elem_of_union, LinkPast_spec, LinkFuture_spec by done. done.
  - done.
  - apply HFl. by right.
  - unfold isLinkedTo. rewrite (surjective_pairing (isPastLink h x y)).
    destruct (snd (isPastLink h x y)) eqn:E; cbn [snd].
    + split; [|done]. intros _. left. by apply HPl.
    + rewrite HFl.
      * split; [by right|]. intros [H|H]; [|done]. apply HPl in H. congruence.
      * left. unfold isPastLink. by rewrite (surjective_pairing (get_LinkPast h x)).
Qed.

(** The heap effect of a query never changes what a later query sees. *)
Lemma LinkPast_LinkFuture_disjoint h x :
  order_inv h → link_inv h → LinkPast h x ## LinkFuture h x.
Proof.
  intros HO HL. apply elem_of_disjoint. intros y H1 H2.
  rewrite LinkPast_spec in H1 by done. rewrite LinkFuture_spec in H2 by done.
  destruct H1 as [H1 _], H2 as [H2 _]. by eapply oi_asym.
Qed.

(** * Cardinalities *)
Lemma LinkConeCard_value h x :
  order_inv h → link_inv h →
  snd (get_LinkConeCard h x) = Nat.land (size (LinkPast h x)) (size (LinkFuture h x)).
Proof.
  intros HO HL. pose proof (link_inv_paired h HL x) as HP.
  unfold get_LinkConeCard, LinkPast, LinkFuture.
  destruct (lprec h x) as [lp|] eqn:E1, (lsucc h x) as [ls|] eqn:E2; cbn; try done.
  - by destruct HP as [_ HP]; specialize (HP eq_refl).
  - by destruct HP as [HP _]; specialize (HP eq_refl).
  - unfold lprec, lsucc. rewrite link_lookup. rewrite decide_True by done. done.
Qed.
Lemma land_le_l a b : Nat.land a b ≤ a.
Proof.
  revert b. induction a as [a IH] using lt_wf_ind. intros b.
  destruct a as [|a]; [by rewrite Nat.land_0_l|].
  assert (Hd : S a = 2 * Nat.div2 (S a) + Nat.b2n (Nat.odd (S a))) by apply Nat.div2_odd.
  assert (Hb : b = 2 * Nat.div2 b + Nat.b2n (Nat.odd b)) by apply Nat.div2_odd.
  assert (Hl : Nat.land (S a) b =
     2 * Nat.div2 (Nat.land (S a) b) + Nat.b2n (Nat.odd (Nat.land (S a) b)))
    by apply Nat.div2_odd.
  assert (Ho : Nat.odd (Nat.land (S a) b) = Nat.odd (S a) && Nat.odd b).
  { rewrite <- !Nat.bit0_odd. apply Nat.land_spec. }
  rewrite Ho in Hl.
  assert (Hdl : Nat.div2 (Nat.land (S a) b) = Nat.land (Nat.div2 (S a)) (Nat.div2 b)).
  { rewrite !Nat.div2_spec. apply Nat.shiftr_land. }
  rewrite Hdl in Hl.
  assert (Hi : Nat.land (Nat.div2 (S a)) (Nat.div2 b) ≤ Nat.div2 (S a)).
  { apply IH. apply Nat.lt_div2. lia. }
  destruct (Nat.odd (S a)), (Nat.odd b); cbn in *; lia.
Qed.
Lemma land_eq_sum a b : Nat.land a b = a + b ↔ a = 0 ∧ b = 0.
Proof.
  split; [|by intros [-> ->]]. intros H.
  pose proof (land_le_l a b). pose proof (land_le_l b a).
  rewrite Nat.land_comm in H1. lia.
Qed.
Lemma LinkCone_size h x :
  order_inv h → link_inv h →
  size (snd (get_LinkCone h x)) = size (LinkPast h x) + size (LinkFuture h x).
Proof.
  intros HO HL. rewrite get_LinkCone_value by by apply link_inv_paired.
  apply size_union. by apply LinkPast_LinkFuture_disjoint.
Qed.

Section cards.
Context (h : heap) (HO : order_inv h).
Lemma past_future_disjoint x :
  Past h x ## Future h x ∧ x ∉ Past h x ∧ x ∉ Future h x.
Proof.
  split_and!.
  - apply elem_of_disjoint. intros y H1 H2. apply (oi_conv h HO) in H2. by eapply oi_asym.
  - by apply oi_irr.
  - by apply oi_irr'.
Qed.
Lemma ConeCard_size x : ConeCard h x = size (Cone h x).
Proof.
  unfold ConeCard, Cone. destruct (past_future_disjoint x) as (H1 & H2 & H3).
  unfold Past, Future in *. rewrite !size_union; [|set_solver..]. rewrite size_singleton. lia.
Qed.
Lemma SpacelikeCard_size x T : SpacelikeCard h x T = Z.of_nat (size (Spacelike h x T)).
Proof.
  unfold SpacelikeCard, Spacelike. destruct (past_future_disjoint x) as (H1 & H2 & H3).
  unfold Past, Future in *. destruct (decide (x ∈ T)) as [Hx|Hx].
  - assert (E : T ∖ prec h x ∖ succ h x = {[x]} ∪ T ∖ Cone h x).
    { apply set_eq. intros y. unfold Cone.
      rewrite elem_of_union, !elem_of_difference, !elem_of_union, !elem_of_singleton.
      destruct (decide (y = x)) as [->|]; [tauto|tauto]. }
    rewrite E. rewrite size_union; [|unfold Cone; set_solver].
    rewrite size_singleton. lia.
  - f_equal. f_equal. apply set_eq. intros y. unfold Cone.
    rewrite !elem_of_difference, !elem_of_union, elem_of_singleton.
    destruct (decide (y = x)) as [->|]; [tauto|tauto].
Qed.
Lemma Spacelike_spec x y T :
  y ∈ Spacelike h x T ↔ y ∈ T ∧ spacelike (before h) x y.
Proof.
  unfold Spacelike, Cone, spacelike, before.
  rewrite elem_of_difference, !elem_of_union, elem_of_singleton, <- (oi_conv h HO).
  destruct (decide (y = x)) as [->|]; [tauto|]. split; [|tauto].
  intros [? H]. split; [done|]. split_and!; [done| |]; tauto.
Qed.
End cards.

(** * copy *)
Lemma copy_lookup it h x y :
  iter_ok it → order_inv h →
  fst (copy_event it h x) !!! y =
    if decide (y = new_id h)
    then Event (lab h x) (prec h x) (succ h x)
           (if hasBeenLinked h x then lprec h x else None)
           (if hasBeenLinked h x then lsucc h x else None) (Some []) []
    else h !!! y.
Proof.
  intros Hit HO. unfold copy_event.
  rewrite (surjective_pairing (new_event it (lab h x) ∅ ∅ [] [] h)).
  change (snd (new_event it (lab h x) ∅ ∅ [] [] h)) with (new_id h).
  assert (Hlk := new_event_lookup it Hit h HO ∅ ∅ (empty_subseteq _) (empty_subseteq _)
                   (lab h x) [] []).
  assert (HP : past_closure h ∅ = ∅).
  { apply set_eq. intros z. rewrite past_closure_spec. set_solver. }
  assert (HF : future_closure h ∅ = ∅).
  { apply set_eq. intros z. rewrite future_closure_spec. set_solver. }
  rewrite HP, HF in Hlk.
  destruct (hasBeenLinked h x); cbn [fst]; destruct (decide (y = new_id h)) as [->|Hn].
  - rewrite !upd_same. rewrite Hlk. rewrite decide_True by done. done.
  - rewrite !upd_other by done. rewrite Hlk. rewrite decide_False by done.
    rewrite !decide_False by set_solver. done.
  - rewrite !upd_same. rewrite Hlk. rewrite decide_True by done. done.
  - rewrite !upd_other by done. rewrite Hlk. rewrite decide_False by done.
    rewrite !decide_False by set_solver. done.
Qed.

(** * Embedding state machine *)
Inductive eop : Type := EEmbed (c : list Q) (reembed : bool) | EDisembed | ECoordinates | EDim.
Inductive eout : Type :=
| EUnit (r : res unit) | ECoords (r : res (list Q)) | ENat (n : nat).

Definition estep (x : nat) (h : heap) (o : eop) : heap * eout :=
  match o with
  | EEmbed c r => let '(h', o) := embed h x c r in (h', EUnit o)
  | EDisembed => let '(h', o) := disembed h x in (h', EUnit o)
  | ECoordinates => (h, ECoords (Coordinates h x))
  | EDim => (h, ENat (CoordinatesDim h x))
  end.
Fixpoint erun (x : nat) (h : heap) (os : list eop) : heap * list eout :=
  match os with
  | [] => (h, [])
  | o :: os' =>
    let '(h1, r) := estep x h o in let '(h2, rs) := erun x h1 os' in (h2, r :: rs)
  end.
(** Specification: an event is not embedded ([None]) or embedded at a coordinate list. *)
Definition aspec (s : option (list Q)) (o : eop) : option (list Q) * eout :=
  match o, s with
  | EEmbed c false, Some c0 => (s, EUnit (Err AttributeError))
  | EEmbed c _, _ => (Some c, EUnit (Ok tt))
  | EDisembed, Some _ => (None, EUnit (Ok tt))
  | EDisembed, None => (None, EUnit (Err AttributeError))
  | ECoordinates, Some c => (s, ECoords (Ok c))
  | ECoordinates, None => (s, ECoords (Err AttributeError))
  | EDim, Some c => (s, ENat (length c))
  | EDim, None => (s, ENat 0)
  end.
Fixpoint arun (s : option (list Q)) (os : list eop) : option (list Q) * list eout :=
  match os with
  | [] => (s, [])
  | o :: os' => let '(s1, r) := aspec s o in let '(s2, rs) := arun s1 os' in (s2, r :: rs)
  end.
Lemma estep_spec x h o :
  coords (fst (estep x h o)) x = fst (aspec (coords h x) o) ∧
  snd (estep x h o) = snd (aspec (coords h x) o).
Proof.
  destruct o as [c r| | |]; cbn.
  - unfold embed, isEmbedded. destruct r, (coords h x) as [c0|] eqn:E; cbn;
      rewrite ?E; cbn; try done; unfold coords; rewrite ?upd_same; done.
  - unfold disembed. destruct (coords h x) as [c0|] eqn:E; cbn; [|done].
    unfold coords. by rewrite upd_same.
  - unfold Coordinates. destruct (coords h x) eqn:E; by rewrite ?E.
  - unfold CoordinatesDim. destruct (coords h x) eqn:E; by rewrite ?E.
Qed.
Lemma erun_spec x h os :
  coords (fst (erun x h os)) x = fst (arun (coords h x) os) ∧
  snd (erun x h os) = snd (arun (coords h x) os).
Proof.
  revert h. induction os as [|o os IH]; intros h; [done|].
  cbn. destruct (estep_spec x h o) as [H1 H2].
  destruct (estep x h o) as [h1 r]. destruct (aspec (coords h x) o) as [s1 r'].
  cbn in *. subst r' s1. destruct (IH h1) as [H3 H4].
  destruct (erun x h1 os) as [h2 rs]. destruct (arun (coords h1 x) os) as [s2 rs'].
  cbn in *. by subst.
Qed.
