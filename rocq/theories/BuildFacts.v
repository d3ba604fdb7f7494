(** Facts about sequences of constructor calls CausetEvent(past=...). *)
From Verif Require Import Base Spec EventModel EventFacts CausetModel CausetFacts BuildModel.
From Verif Require Export SpecBuild.

Lemma sub_ok it k : iter_ok it → iter_ok (sub it k).
Proof. intros H s S. apply H. Qed.

Lemma addF_nolink o A B e :
  ev_lprec e = None → ev_lsucc e = None →
  ev_lprec (addF o A B e) = None ∧ ev_lsucc (addF o A B e) = None.
Proof.
  intros H1 H2. unfold addF, linked_ev. destruct (decide _); [done|]. rewrite H1. cbn. done.
Qed.

Lemma fresh_causet_nil h : order_inv h → link_inv h → fresh_causet h h [].
Proof.
  intros HO HL. split; try done; try (by apply NoDup_nil); intros x Hx;
    try (by apply elem_of_nil in Hx).
Qed.

Lemma fresh_causet_ok h h' evs :
  fresh_causet h h' evs → causet h' (list_to_set evs) = Ok (list_to_set evs).
Proof. intros H. apply causet_closed; [by eapply in_store_order, fc_order|apply (fc_closed _ _ _ H)]. Qed.

Lemma alloc_spec it h0 h evs l P :
  iter_ok it → fresh_causet h0 h evs → (∀ p, p ∈ P → p ∈ evs) →
  let h' := fst (alloc it l P h) in
  let x := snd (alloc it l P h) in
  fresh_causet h0 h' (evs ++ [x]) ∧ x ∉ dom h ∧ dom h' = {[x]} ∪ dom h ∧
  lab h' x = l ∧
  (∀ y, y ≠ x → prec h' y = prec h y ∧ lab h' y = lab h y ∧ coords h' y = coords h y) ∧
  (∀ y, y ∈ prec h' x ↔ ∃ p, p ∈ P ∧ (y = p ∨ y ∈ prec h p)) ∧
  (∀ y, y ∈ evs → y ≠ x) ∧ coords h' x = Some [].
Proof.
  intros Hit Hf HP. unfold alloc.
  assert (Hit' := sub_ok it (new_id h) Hit). set (it' := sub it (new_id h)) in *.
  assert (HO := fc_order _ _ _ Hf).
  assert (HPd : P ⊆ dom h) by (intros p Hp; apply (fc_in _ _ _ Hf); auto).
  assert (Hc : compatible h P ∅).
  { intros a b Ha Hb. apply future_closure_spec in Hb as (e & He & _). by apply elem_of_empty in He. }
  assert (HF : (∅ : gset nat) ⊆ dom h) by apply empty_subseteq.
  assert (HF0 : ∀ y, y ∉ future_closure h ∅).
  { intros y (e & He & _)%future_closure_spec. by apply elem_of_empty in He. }
  cbn zeta. set (x := snd (new_event it' l P ∅ [] [] h)).
  assert (Ex : x = new_id h) by done.
  set (h' := fst (new_event it' l P ∅ [] [] h)).
  assert (Hlk := new_event_lookup it' Hit' h HO P ∅ HPd HF l [] []). fold h' in Hlk.
  assert (Hpr := new_event_prec it' Hit' h HO P ∅ HPd HF l [] []). fold h' in Hpr.
  assert (Hsu := new_event_succ it' Hit' h HO P ∅ HPd HF l [] []). fold h' in Hsu.
  assert (Hrest := new_event_rest it' Hit' h HO P ∅ HPd HF l [] []). fold h' in Hrest.
  assert (Hdom := new_event_dom it' Hit' h HO P ∅ HPd HF l [] []). fold h' in Hdom.
  assert (Hxn : x ∉ dom h) by (rewrite Ex; apply new_id_fresh).
  assert (Hxe : ∀ y, y ∈ evs → y ≠ x).
  { intros y Hy ->. apply Hxn. by apply (fc_in _ _ _ Hf). }
  assert (HPc : ∀ y, y ∈ past_closure h P → y ∈ evs).
  { intros y (e & He & [->|Hy])%past_closure_spec; [auto|].
    destruct (fc_closed _ _ _ Hf e) as [H1 _]; [by apply elem_of_list_to_set, HP|].
    apply H1, elem_of_list_to_set in Hy. done. }
  assert (HO' : order_inv h').
  { split; [|apply (new_event_order it' Hit' h HO P ∅ HPd HF l [] [] Hc)].
    intros a b. apply (new_event_conv it' Hit' h HO P ∅ HPd HF l [] []). }
  assert (Hpx : prec h' x = past_closure h P) by (rewrite Hpr, decide_True; done).
  split_and!.
  - split.
    + apply NoDup_app. split_and!; [apply (fc_nodup _ _ _ Hf)| |apply NoDup_singleton].
      intros y Hy Hyx%elem_of_list_singleton. by eapply Hxe.
    + intros y [Hy| ->%elem_of_list_singleton]%elem_of_app; [by apply (fc_fresh _ _ _ Hf)|].
      intros Hx. apply Hxn. by apply (fc_dom _ _ _ Hf).
    + intros y. rewrite Hdom. intros [Hy| ->%elem_of_list_singleton]%elem_of_app.
      * apply elem_of_union_r. by apply (fc_in _ _ _ Hf).
      * rewrite Ex. set_solver.
    + rewrite Hdom. pose proof (fc_dom _ _ _ Hf). set_solver.
    + intros y Hy. rewrite <- (fc_old _ _ _ Hf y Hy).
      assert (Hyx : y ≠ new_id h).
      { intros ->. apply Hxn. rewrite Ex. by apply (fc_dom _ _ _ Hf). }
      rewrite Hlk, decide_False by done. rewrite decide_False by apply HF0.
      rewrite decide_False; [done|]. intros Hp%HPc. by apply (fc_fresh _ _ _ Hf y Hp).
    + done.
    + apply (new_event_link_inv it' Hit' h HO P ∅ HPd HF l [] [] Hc), (fc_link _ _ _ Hf).
    + intros y Hy. rewrite elem_of_list_to_set, elem_of_app, elem_of_list_singleton in Hy.
      assert (Hcl := fc_closed _ _ _ Hf y). rewrite elem_of_list_to_set in Hcl.
      rewrite list_to_set_app_L, list_to_set_singleton. rewrite Hpr, Hsu. rewrite <- Ex.
      destruct (decide (y = x)) as [->|Hyx].
      * split; intros z Hz; [|by apply HF0 in Hz].
        apply elem_of_union_l, elem_of_list_to_set. by apply HPc.
      * destruct Hy as [Hy|?]; [|done]. destruct (Hcl Hy) as [H1 H2].
        rewrite decide_False by apply HF0. clear -H1 H2. destruct (decide _); set_solver.
    + intros y [Hy| ->%elem_of_list_singleton]%elem_of_app; unfold lprec, lsucc; rewrite Hlk.
      * assert (Hyx : y ≠ new_id h) by (rewrite <- Ex; by apply Hxe).
        rewrite (decide_False (P := y = new_id h)) by done.
        rewrite (decide_False (P := y ∈ future_closure h ∅)) by apply HF0.
        destruct (fc_nolink _ _ _ Hf y Hy) as [N1 N2].
        destruct (decide (y ∈ past_closure h P)); [by apply addF_nolink|done].
      * by rewrite decide_True.
  - done.
  - rewrite Hdom, Ex. done.
  - unfold lab. rewrite Hlk, decide_True by done. done.
  - intros y Hyx. rewrite Hpr, decide_False by (by rewrite <- Ex).
    rewrite decide_False by apply HF0. destruct (Hrest y) as (-> & -> & _); [by rewrite <- Ex|]. done.
  - intros y. rewrite Hpx, past_closure_spec. done.
  - done.
  - unfold coords. rewrite Hlk, decide_True by done. done.
Qed.

Lemma fresh_causet_sub h h' : ∀ evs, fresh_causet h h' evs → fresh_causet h h' [].
Proof.
  intros evs [H1 H2 H3 H4 H5 H6 H7 H8 H9].
  split; try done; try (by apply NoDup_nil); intros x Hx; by apply elem_of_nil in Hx.
Qed.

(** * list.index *)
Lemma py_index_Some P u v :
  py_index P u = Some v ↔ P !! v = Some u ∧ ∀ j, j < v → P !! j ≠ Some u.
Proof.
  unfold py_index. rewrite fmap_Some. split.
  - intros ([v' x] & Hf & ->). apply list_find_Some in Hf as (H1 & -> & H3). cbn. split; [done|].
    intros j Hj He. by apply (H3 j u).
  - intros [H1 H2]. exists (v, u). split; [|done]. apply list_find_Some. split_and!; [done|done|].
    intros j y Hj Hlt ->. by apply (H2 j).
Qed.
Lemma py_index_None P u : py_index P u = None ↔ u ∉ P.
Proof.
  unfold py_index. rewrite fmap_None, list_find_None, Forall_forall. split.
  - intros H Hu. by apply (H u Hu).
  - intros H x Hx ->. done.
Qed.
Lemma py_index_nodup P u v : NoDup P → P !! v = Some u → py_index P u = Some v.
Proof.
  intros Hn Hv. apply py_index_Some. split; [done|]. intros j Hj Hu.
  assert (j = v) by (by eapply NoDup_lookup). lia.
Qed.

(** * FromPermutation *)
Section perm.
Context (it : oracle) (Hit : iter_ok it) (fmt : label_format) (P : list Z) (ix : nat → nat).
Context (Hix : ∀ j, j < length P → py_index P (Z.of_nat j + 1) = Some (ix j)).

Lemma fromperm_loop_spec h0 e0 k : ∀ i new h,
  i + k = length P → length new = i → fresh_causet h0 h new →
  (∀ j x, new !! j = Some x → lab h x = fmt_label fmt (Z.of_nat j + 1)) →
  (∀ j j' x y, new !! j = Some x → new !! j' = Some y → before h x y ↔ j < j' ∧ ix j < ix j') →
  ∃ h' evs, fromperm_loop it fmt P (seq i k) (new ++ replicate k e0) h = (h', Ok evs) ∧
    fresh_causet h0 h' evs ∧ length evs = length P ∧
    (∀ j x, evs !! j = Some x → lab h' x = fmt_label fmt (Z.of_nat j + 1)) ∧
    (∀ j j' x y, evs !! j = Some x → evs !! j' = Some y → before h' x y ↔ j < j' ∧ ix j < ix j').
Proof using Hit Hix.
  induction k as [|k IH]; intros i new h Hi Hlen Hf Hlab Hord.
  { cbn. rewrite app_nil_r. exists h, new. split_and!; try done. lia. }
  cbn [seq fromperm_loop replicate]. rewrite Hix by lia.
  set (evs := new ++ e0 :: replicate k e0).
  set (past := list_to_set ((λ j, evs !!! j) <$> filter (λ j, index_lt P j (ix i) = true) (seq 0 i)) : gset nat).
  assert (Hpast : ∀ p, p ∈ past ↔ ∃ j, new !! j = Some p ∧ ix j < ix i).
  { intros p. unfold past. rewrite elem_of_list_to_set, elem_of_list_fmap. split.
    - intros (j & -> & Hj). apply elem_of_list_filter in Hj as [Hlt Hj%elem_of_seq].
      unfold index_lt in Hlt. rewrite Hix in Hlt by lia. apply bool_decide_eq_true in Hlt.
      exists j. split; [|done]. unfold evs. rewrite lookup_total_app_l by lia.
      apply list_lookup_lookup_total_lt. lia.
    - intros (j & Hj & Hlt). pose proof (lookup_lt_Some _ _ _ Hj) as Hjl. exists j. split.
      + unfold evs. rewrite lookup_total_app_l by lia. symmetry. by apply list_lookup_total_correct.
      + apply elem_of_list_filter. split; [|apply elem_of_seq; lia].
        unfold index_lt. rewrite Hix by lia. by apply bool_decide_eq_true. }
  destruct (alloc it (fmt_label fmt (Z.of_nat i + 1)) past h) as [h1 x] eqn:Ea.
  destruct (alloc_spec it h0 h new (fmt_label fmt (Z.of_nat i + 1)) past Hit Hf) as
    (Hf' & Hxn & Hdom & Hlx & Hrest & Hpx & Hne & _).
  { intros p (j & Hj & _)%Hpast. by eapply elem_of_list_lookup_2. }
  rewrite Ea in *. cbn [fst snd] in *.
  assert (Eins : <[i:=x]> evs = (new ++ [x]) ++ replicate k e0).
  { unfold evs. rewrite <- Hlen, <- (Nat.add_0_r (length new)), insert_app_r. cbn.
    by rewrite <- app_assoc. }
  rewrite Eins. apply IH; [lia|rewrite app_length; cbn; lia|done| |].
  - intros j y Hj. apply lookup_app_Some in Hj as [Hj|[Hge Hj]].
    + destruct (Hrest y) as (_ & -> & _); [|by apply Hlab]. apply Hne. by eapply elem_of_list_lookup_2.
    + apply list_lookup_singleton_Some in Hj as [Hj0 <-]. rewrite Hlx. f_equal. lia.
  - intros j j' y z Hj Hj'.
    apply lookup_app_Some in Hj as [Hj|[Hge Hj]]; apply lookup_app_Some in Hj' as [Hj'|[Hge' Hj']].
    + unfold before. destruct (Hrest z) as (-> & _ & _); [|by apply Hord].
      apply Hne. by eapply elem_of_list_lookup_2.
    + apply list_lookup_singleton_Some in Hj' as [Hj0 <-]. unfold before. rewrite Hpx.
      pose proof (lookup_lt_Some _ _ _ Hj) as Hjl. assert (j' = i) as -> by lia. split.
      * intros (p & (m & Hm & Hlt)%Hpast & Hp). split; [lia|]. destruct Hp as [->|Hp].
        -- assert (m = j) as ->; [|done]. eapply NoDup_lookup; [apply (fc_nodup _ _ _ Hf)|done|done].
        -- apply (Hord j m y p Hj Hm) in Hp. lia.
      * intros [_ Hlt]. exists y. split; [|by left]. apply Hpast. eauto.
    + apply list_lookup_singleton_Some in Hj as [Hj0 <-].
      pose proof (lookup_lt_Some _ _ _ Hj') as Hjl. unfold before.
      destruct (Hrest z) as (-> & _ & _); [apply Hne; by eapply elem_of_list_lookup_2|].
      split; [|lia]. intros Hx. exfalso. apply Hxn.
      by apply (prec_dom_l h (fc_order _ _ _ Hf) x z).
    + apply list_lookup_singleton_Some in Hj as [Hj0 <-].
      apply list_lookup_singleton_Some in Hj' as [Hj0' <-]. split; [|lia].
      intros Hx. exfalso. by apply (oi_irr h1 (fc_order _ _ _ Hf') x).
Qed.
End perm.

Lemma FromPermutation_spec it fmt P ix h :
  iter_ok it → order_inv h → link_inv h →
  (∀ j, j < length P → py_index P (Z.of_nat j + 1) = Some (ix j)) →
  ∃ h' evs, FromPermutation it fmt P h = (h', Ok (list_to_set evs)) ∧
    fresh_causet h h' evs ∧ length evs = length P ∧
    (∀ j x, evs !! j = Some x → lab h' x = fmt_label fmt (Z.of_nat j + 1)) ∧
    (∀ j j' x y, evs !! j = Some x → evs !! j' = Some y → before h' x y ↔ j < j' ∧ ix j < ix j').
Proof.
  intros Hit HO HL Hix. unfold FromPermutation.
  destruct (alloc it LNone ∅ h) as [h0 e0] eqn:Ea.
  destruct (alloc_spec it h h [] LNone ∅ Hit (fresh_causet_nil h HO HL)) as (Hf & _).
  { intros p Hp. by apply elem_of_empty in Hp. }
  rewrite Ea in Hf. cbn [fst snd app] in Hf. apply fresh_causet_sub in Hf.
  destruct (fromperm_loop_spec it Hit fmt P ix Hix h e0 (length P) 0 [] h0) as
    (h' & evs & He & H1 & H2 & H3 & H4); try done.
  cbn [app] in He. rewrite He. exists h', evs. split_and!; try done. f_equal.
  by eapply fresh_causet_ok.
Qed.

Lemma fromperm_loop_err it fmt P u : ∀ is evs h,
  (∀ i, i ∈ is → i < length P) → u ∈ is → (Z.of_nat u + 1)%Z ∉ P →
  ∃ h', fromperm_loop it fmt P is evs h = (h', Err ValueError).
Proof.
  induction is as [|i is IH]; intros evs h Hb Hu Hn; [by apply elem_of_nil in Hu|].
  cbn [fromperm_loop]. destruct (py_index P (Z.of_nat i + 1)) as [v|] eqn:Ev; [|by eauto].
  destruct (alloc _ _ _ h) as [h1 x]. apply IH; [| |done].
  - intros j Hj. apply Hb. by apply elem_of_list_further.
  - apply elem_of_cons in Hu as [->|Hu]; [|done]. exfalso. apply py_index_None in Hn. congruence.
Qed.
Lemma FromPermutation_err it fmt P h u :
  1 ≤ u ≤ length P → Z.of_nat u ∉ P →
  ∃ h', FromPermutation it fmt P h = (h', Err ValueError).
Proof.
  intros Hu Hn. unfold FromPermutation. destruct (alloc it LNone ∅ h) as [h0 e0].
  destruct (fromperm_loop_err it fmt P (u - 1) (seq 0 (length P)) (replicate (length P) e0) h0) as [h' ->].
  - intros i Hi%elem_of_seq. lia.
  - apply elem_of_seq. lia.
  - by replace (Z.of_nat (u - 1) + 1)%Z with (Z.of_nat u) by lia.
  - eauto.
Qed.
