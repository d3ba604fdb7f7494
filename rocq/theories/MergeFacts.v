(** Facts about Causet.merge, Causet.link, Causet.unlink, Causet.add and Causet.discard. *)
From Verif Require Import Base Spec EventModel EventFacts CausetModel CausetFacts BuildModel
  BuildFacts.

(** * merge *)
Lemma addF_prec o A B e : ev_prec (addF o A B e) = ev_prec e.
Proof. unfold addF. destruct (decide _); [done|]. cbn. by destruct (_ && _). Qed.
Lemma addF_succ o A B e : ev_succ (addF o A B e) = ev_succ e ∪ {[o]}.
Proof. unfold addF. destruct (decide _); [set_solver|]. cbn. done. Qed.
Lemma addP_succ o A B e : ev_succ (addP o A B e) = ev_succ e.
Proof. unfold addP. destruct (decide _); [done|]. cbn. by destruct (_ && _). Qed.
Lemma addP_prec o A B e : ev_prec (addP o A B e) = ev_prec e ∪ {[o]}.
Proof. unfold addP. destruct (decide _); [set_solver|]. cbn. done. Qed.
Lemma addF_rest o A B e :
  ev_label (addF o A B e) = ev_label e ∧ ev_coords (addF o A B e) = ev_coords e ∧
  ev_pos (addF o A B e) = ev_pos e.
Proof. unfold addF. destruct (decide _); [done|]. cbn. by destruct (_ && _). Qed.
Lemma addP_rest o A B e :
  ev_label (addP o A B e) = ev_label e ∧ ev_coords (addP o A B e) = ev_coords e ∧
  ev_pos (addP o A B e) = ev_pos e.
Proof. unfold addP. destruct (decide _); [done|]. cbn. by destruct (_ && _). Qed.
Lemma merge_pair_prec p h f y z :
  z ∈ prec (merge_pair p h f) y ↔ z ∈ prec h y ∨ (y = f ∧ z = p).
Proof.
  unfold merge_pair. set (h1 := fst (addToFuture h p f)).
  assert (H1 : ∀ y, prec h1 y = prec h y).
  { intros w. unfold h1, prec. rewrite addToFuture_lookup. destruct (decide _) as [->|]; [apply addF_prec|done]. }
  unfold prec at 1. rewrite addToPast_lookup. destruct (decide (y = f)) as [->|Hn].
  - rewrite addP_prec. change (ev_prec (h1 !!! f)) with (prec h1 f). rewrite H1, elem_of_union, elem_of_singleton. tauto.
  - change (ev_prec (h1 !!! y)) with (prec h1 y). rewrite H1. tauto.
Qed.
Lemma merge_pair_succ p h f y z :
  z ∈ succ (merge_pair p h f) y ↔ z ∈ succ h y ∨ (y = p ∧ z = f).
Proof.
  unfold merge_pair. set (h1 := fst (addToFuture h p f)).
  assert (E : succ (fst (addToPast h1 f p)) y = succ h1 y).
  { unfold succ. rewrite addToPast_lookup. destruct (decide _) as [->|]; [apply addP_succ|done]. }
  rewrite E. unfold h1, succ at 1. rewrite addToFuture_lookup. destruct (decide (y = p)) as [->|Hn].
  - rewrite addF_succ. change (ev_succ (h !!! p)) with (succ h p). rewrite elem_of_union, elem_of_singleton. tauto.
  - change (ev_succ (h !!! y)) with (succ h y). tauto.
Qed.
Lemma merge_pair_dom p h f : p ∈ dom h → f ∈ dom h → dom (merge_pair p h f) = dom h.
Proof.
  intros Hp Hf. unfold merge_pair. rewrite addToPast_dom; [by apply addToFuture_dom|].
  by rewrite addToFuture_dom.
Qed.
Lemma addP_nolink o A B e :
  ev_lprec e = None → ev_lsucc e = None →
  ev_lprec (addP o A B e) = None ∧ ev_lsucc (addP o A B e) = None.
Proof. intros H1 H2. unfold addP, linked_ev. destruct (decide _); [done|]. rewrite H1. cbn. done. Qed.
Lemma merge_pair_nolink p h f y :
  lprec h y = None → lsucc h y = None →
  lprec (merge_pair p h f) y = None ∧ lsucc (merge_pair p h f) y = None.
Proof.
  intros H1 H2. unfold merge_pair, lprec, lsucc. rewrite addToPast_lookup.
  destruct (decide (y = f)) as [->|]; [apply addP_nolink|]; rewrite addToFuture_lookup;
    destruct (decide _) as [->|]; try done; by apply addF_nolink.
Qed.
Lemma merge_pair_rest p h f y :
  lab (merge_pair p h f) y = lab h y ∧ coords (merge_pair p h f) y = coords h y ∧
  pos (merge_pair p h f) y = pos h y.
Proof.
  unfold merge_pair, lab, coords, pos. rewrite addToPast_lookup.
  destruct (decide (y = f)) as [->|].
  - destruct (addP_rest p (prec (fst (addToFuture h p f)) p) (succ (fst (addToFuture h p f)) p)
      (fst (addToFuture h p f) !!! f)) as (E1 & E2 & E3).
    rewrite E1, E2, E3. rewrite addToFuture_lookup. destruct (decide _) as [->|]; [|done]. apply addF_rest.
  - rewrite addToFuture_lookup. destruct (decide _) as [->|]; [|done]. apply addF_rest.
Qed.
Lemma merge_pair_other p h f y : y ≠ p → y ≠ f → merge_pair p h f !!! y = h !!! y.
Proof.
  intros H1 H2. unfold merge_pair. rewrite addToPast_lookup, decide_False by done.
  by rewrite addToFuture_lookup, decide_False.
Qed.

Record merged (h h' : heap) (A B : list nat) : Prop := Merged {
  mg_prec : ∀ y z, z ∈ prec h' y ↔ z ∈ prec h y ∨ (y ∈ B ∧ z ∈ A);
  mg_succ : ∀ y z, z ∈ succ h' y ↔ z ∈ succ h y ∨ (y ∈ A ∧ z ∈ B);
  mg_dom : dom h' = dom h;
  mg_nolink : ∀ y, lprec h y = None → lsucc h y = None → lprec h' y = None ∧ lsucc h' y = None;
  mg_rest : ∀ y, lab h' y = lab h y ∧ coords h' y = coords h y ∧ pos h' y = pos h y;
  mg_other : ∀ y, y ∉ A → y ∉ B → h' !!! y = h !!! y
}.
Lemma merge_inner p B : ∀ h, p ∈ dom h → (∀ f, f ∈ B → f ∈ dom h) →
  merged h (foldl (merge_pair p) h B) [p] B.
Proof.
  induction B as [|f B IH]; intros h Hp HB.
  { split; try done.
    - intros y z. rewrite elem_of_nil. tauto. - intros y z. rewrite elem_of_nil. tauto. }
  cbn [foldl]. assert (Hd : dom (merge_pair p h f) = dom h).
  { apply merge_pair_dom; [done|apply HB, elem_of_list_here]. }
  destruct (IH (merge_pair p h f)) as [H1 H2 H3 H4 H5 H6].
  { by rewrite Hd. } { intros g Hg. rewrite Hd. apply HB. by apply elem_of_list_further. }
  split.
  - intros y z. rewrite H1, merge_pair_prec, elem_of_list_singleton, elem_of_cons. tauto.
  - intros y z. rewrite H2, merge_pair_succ, elem_of_list_singleton, elem_of_cons. tauto.
  - congruence.
  - intros y Hy1 Hy2. destruct (merge_pair_nolink p h f y Hy1 Hy2) as [G1 G2]. by apply H4.
  - intros y. destruct (H5 y) as (-> & -> & ->). apply merge_pair_rest.
  - intros y Hy1 Hy2. apply not_elem_of_cons in Hy2 as [Hy2 Hy3]. rewrite H6 by done.
    apply merge_pair_other; [|done]. intros ->. by apply Hy1, elem_of_list_here.
Qed.
Lemma merge_loop_merged it A B : ∀ h, iter_ok it → A ⊆ dom h → B ⊆ dom h →
  merged h (merge_loop it A B h) (it 20 A) (it 21 B).
Proof.
  intros h0 Hit HA0 HB0. unfold merge_loop.
  assert (HB : ∀ f, f ∈ it 21 B → f ∈ dom h0) by (intros f Hf; apply HB0; by rewrite iter_elem in Hf).
  assert (HA : ∀ f, f ∈ it 20 A → f ∈ dom h0) by (intros f Hf; apply HA0; by rewrite iter_elem in Hf).
  clear HA0 HB0. revert h0 HB HA. generalize (it 20 A) as As, (it 21 B) as Bs. clear A B.
  intros As Bs. induction As as [|p As IH]; intros h HB HA.
  { split; try done.
    - intros y z. rewrite elem_of_nil. tauto. - intros y z. rewrite elem_of_nil. tauto. }
  cbn [foldl]. destruct (merge_inner p Bs h) as [G1 G2 G3 G4 G5 G6]; [apply HA, elem_of_list_here|done|].
  set (h1 := foldl (merge_pair p) h Bs) in *.
  destruct (IH h1) as [H1 H2 H3 H4 H5 H6].
  { rewrite G3. done. } { intros g Hg. rewrite G3. apply HA. by apply elem_of_list_further. }
  split.
  - intros y z. rewrite H1, G1, elem_of_list_singleton, elem_of_cons. tauto.
  - intros y z. rewrite H2, G2, elem_of_list_singleton, elem_of_cons. tauto.
  - congruence.
  - intros y Hy1 Hy2. destruct (G4 y Hy1 Hy2) as [K1 K2]. by apply H4.
  - intros y. destruct (H5 y) as (-> & -> & ->). apply G5.
  - intros y Hy1 Hy2. apply not_elem_of_cons in Hy1 as [Hy1 Hy3]. rewrite H6 by done.
    apply G6; [|done]. by intros ->%elem_of_list_singleton.
Qed.

Section merge.
Context (it : oracle) (h : heap) (A B : gset nat).
Context (Hit : iter_ok it) (HO : order_inv h) (HA : A ⊆ dom h) (HB : B ⊆ dom h).
Notation h' := (merge_loop it A B h).

Lemma merge_before a b : before h' a b ↔ before h a b ∨ (a ∈ A ∧ b ∈ B).
Proof using Hit HA HB.
  clear HO. unfold before. rewrite (mg_prec _ _ _ _ (merge_loop_merged it A B h Hit HA HB)).
  rewrite !iter_elem by done. tauto.
Qed.
Lemma merge_succ a b : b ∈ succ h' a ↔ b ∈ succ h a ∨ (a ∈ A ∧ b ∈ B).
Proof using Hit HA HB.
  clear HO. rewrite (mg_succ _ _ _ _ (merge_loop_merged it A B h Hit HA HB)).
  rewrite !iter_elem by done. tauto.
Qed.

Context (Hdisj : A ## B) (Hdown : ∀ a b, before h a b → b ∈ A → a ∈ A)
        (Hup : ∀ a b, before h a b → a ∈ B → b ∈ B).
Lemma merge_order : order_inv h'.
Proof using All.
  split.
  - intros a b. change (a ∈ prec h' b) with (before h' a b). rewrite merge_before, merge_succ.
    unfold before. by rewrite (oi_conv h HO).
  - split.
    + intros a. rewrite merge_before. intros [H|[H1 H2]]; [by apply (oi_irr h HO a)|]. by apply (Hdisj a).
    + intros a b c. rewrite !merge_before. intros [H1|[H1 H1']] [H2|[H2 H2']].
      * left. exact (oi_trans h HO _ _ _ H1 H2).
      * right. split; [by apply (Hdown a b)|done].
      * right. split; [done|by apply (Hup b c)].
      * exfalso. by apply (Hdisj b).
Qed.
Lemma merge_link_inv :
  (∀ x, x ∈ A ∪ B → lprec h x = None ∧ lsucc h x = None) → link_inv h → link_inv h'.
Proof using All.
  intros Hno HL x.
  destruct (decide (x ∈ A ∪ B)) as [Hx|Hx].
  { left. destruct (Hno x Hx). by apply (mg_nolink _ _ _ _ (merge_loop_merged it A B h Hit HA HB)). }
  assert (HxA : x ∉ A) by (intros ?; apply Hx; by apply elem_of_union_l).
  assert (HxB : x ∉ B) by (intros ?; apply Hx; by apply elem_of_union_r).
  assert (E : h' !!! x = h !!! x).
  { apply (mg_other _ _ _ _ (merge_loop_merged it A B h Hit HA HB)); by rewrite iter_elem. }
  unfold lprec, lsucc. rewrite E. destruct (HL x) as [?|(lp & ls & H1 & H2 & H3 & H4)]; [by left|right].
  exists lp, ls. split_and!; [done|done| |].
  - intros y. rewrite H3. unfold covers. split.
    + intros [Hyx Hn]. split; [rewrite merge_before; by left|]. intros (c & Hyc & Hcx). apply Hn. exists c.
      apply merge_before in Hyc, Hcx. destruct Hcx as [Hcx|[_ ?]]; [|done].
      destruct Hyc as [Hyc|[_ Hc]]; [done|]. exfalso. apply HxB. by apply (Hup c x).
    + intros [Hyx Hn]. apply merge_before in Hyx as [Hyx|[_ ?]]; [|done]. split; [done|].
      intros (c & Hyc & Hcx). apply Hn. exists c. rewrite !merge_before. auto.
  - intros y. rewrite H4. unfold covers. split.
    + intros [Hyx Hn]. split; [rewrite merge_before; by left|]. intros (c & Hyc & Hcx). apply Hn. exists c.
      apply merge_before in Hyc, Hcx. destruct Hyc as [Hyc|[? _]]; [|done].
      destruct Hcx as [Hcx|[Hc _]]; [done|]. exfalso. apply HxA. by apply (Hdown x c).
    + intros [Hyx Hn]. apply merge_before in Hyx as [Hyx|[? _]]; [|done]. split; [done|].
      intros (c & Hyc & Hcx). apply Hn. exists c. rewrite !merge_before. auto.
Qed.
End merge.

(** * link *)
Lemma add_lsucc_ok b l : ∀ h,
  NoDup l → (∀ a, a ∈ l → ∃ s, lsucc h a = Some s) → (∀ a, a ∈ l → a ∈ dom h) →
  ∃ h', add_lsucc b l h = (h', Ok tt) ∧ dom h' = dom h ∧
    ∀ y, h' !!! y = if decide (y ∈ l) then set_lsucc ((λ s, s ∪ {[b]}) <$> lsucc h y) (h !!! y) else h !!! y.
Proof.
  induction l as [|a l IH]; intros h Hnd Hs Hd; [by eexists|].
  apply NoDup_cons in Hnd as [Ha Hnd]. cbn [add_lsucc].
  destruct (Hs a) as [s Es]; [apply elem_of_list_here|]. rewrite Es.
  set (h1 := upd _ a h).
  assert (Hd1 : dom h1 = dom h) by (apply upd_dom, Hd, elem_of_list_here).
  assert (Ho : ∀ y, y ≠ a → h1 !!! y = h !!! y) by (intros; by apply upd_other).
  destruct (IH h1 Hnd) as (h' & E & Hd' & H).
  - intros x Hx. destruct (Hs x) as [t Et]; [by apply elem_of_list_further|]. exists t.
    unfold lsucc. rewrite Ho; [done|]. by intros ->.
  - intros x Hx. rewrite Hd1. apply Hd. by apply elem_of_list_further.
  - exists h'. split_and!; [done|congruence|]. intros y. rewrite H.
    destruct (decide (y ∈ l)) as [Hy|Hy].
    + rewrite decide_True by (by apply elem_of_list_further). unfold lsucc. rewrite Ho; [done|]. by intros ->.
    + destruct (decide (y ∈ a :: l)) as [Hy'|Hy'].
      * apply elem_of_cons in Hy' as [->|?]; [|done]. unfold h1. rewrite upd_same. by rewrite Es.
      * apply Ho. intros ->. apply Hy', elem_of_list_here.
Qed.
Lemma add_lsucc_err b l : ∀ h,
  NoDup l → (∃ a, a ∈ l ∧ lsucc h a = None) →
  ∃ h', add_lsucc b l h = (h', Err AttributeError).
Proof.
  induction l as [|a l IH]; intros h Hnd (x & Hx & Hs); [by apply elem_of_nil in Hx|].
  apply NoDup_cons in Hnd as [Ha Hnd]. cbn [add_lsucc].
  destruct (lsucc h a) as [s|] eqn:Es; [|by eauto]. apply IH; [done|].
  apply elem_of_cons in Hx as [->|Hx]; [congruence|]. exists x. split; [done|].
  unfold lsucc. rewrite upd_other; [done|]. by intros ->.
Qed.

Lemma init_lsucc l : ∀ h, (∀ a, a ∈ l → a ∈ dom h) →
  dom (foldl (λ h e, upd (set_lsucc (Some ∅)) e h) h l) = dom h ∧
  ∀ y, foldl (λ h e, upd (set_lsucc (Some ∅)) e h) h l !!! y =
    if decide (y ∈ l) then set_lsucc (Some ∅) (h !!! y) else h !!! y.
Proof.
  induction l as [|a l IH]; intros h Hd; [done|]. cbn [foldl].
  assert (Hd1 : dom (upd (set_lsucc (Some ∅)) a h) = dom h) by (apply upd_dom, Hd, elem_of_list_here).
  destruct (IH (upd (set_lsucc (Some ∅)) a h)) as [H1 H2].
  { intros x Hx. rewrite Hd1. apply Hd. by apply elem_of_list_further. }
  split; [congruence|]. intros y. rewrite H2. destruct (decide (y = a)) as [->|Hn].
  - rewrite upd_same. rewrite (decide_True (P := a ∈ a :: l)) by apply elem_of_list_here. by destruct (decide _).
  - rewrite upd_other by done. destruct (decide (y ∈ l)) as [Hy|Hy].
    + by rewrite decide_True by (by apply elem_of_list_further).
    + rewrite decide_False; [done|]. by intros [?|?]%elem_of_cons.
Qed.

(** Past and Future are mutually converse (nothing is said about order). *)
Definition conv_inv (h : heap) : Prop := ∀ a b, a ∈ prec h b ↔ b ∈ succ h a.
Lemma conv_prec_dom h a b : conv_inv h → a ∈ prec h b → a ∈ dom h.
Proof. intros H Hab. apply H in Hab. by eapply succ_dom_r. Qed.
Lemma link_past_set_conv h x y : conv_inv h → y ∈ link_past_set h x ↔ covers (before h) y x.
Proof.
  intros HC. unfold link_past_set, isLink, covers, before. rewrite elem_of_filter, bool_decide_eq_true. split.
  - intros [He Hp]. split; [done|]. intros (c & H1 & H2). apply HC in H1. set_solver.
  - intros [Hp Hn]. split; [|done]. apply set_eq. intros c. split; [|set_solver].
    intros Hc. exfalso. apply Hn. exists c. rewrite (HC y c). set_solver.
Qed.
Lemma link_future_set_conv h x y : conv_inv h → y ∈ link_future_set h x ↔ covers (before h) x y.
Proof.
  intros HC. unfold link_future_set, isLink, covers, before. rewrite elem_of_filter, bool_decide_eq_true. split.
  - intros [He Hp]. apply HC in Hp. split; [done|]. intros (c & H1 & H2). apply HC in H1. set_solver.
  - intros [Hp Hn]. split; [|by apply HC]. apply set_eq. intros c. split; [|set_solver].
    intros Hc. exfalso. apply Hn. exists c. rewrite (HC x c). set_solver.
Qed.
Lemma same_order_conv h h' : same_order h h' → conv_inv h → conv_inv h'.
Proof. intros Hs HC a b. destruct (Hs a) as [_ ->], (Hs b) as [-> _]. apply HC. Qed.
Lemma link_loop_ok it l : ∀ h,
  iter_ok it → conv_inv h → NoDup l → (∀ b, b ∈ l → b ∈ dom h) →
  (∀ b a, b ∈ l → a ∈ link_past_set h b → ∃ s, lsucc h a = Some s) →
  ∃ h', link_loop it l h = (h', Ok tt) ∧ dom h' = dom h ∧ same_order h h' ∧
    (∀ y, lprec h' y = if decide (y ∈ l) then Some (link_past_set h y) else lprec h y) ∧
    (∀ y, lsucc h' y = (λ s, s ∪ filter (λ b, y ∈ link_past_set h b) (list_to_set l)) <$> lsucc h y) ∧
    (∀ y, lab h' y = lab h y ∧ coords h' y = coords h y ∧ pos h' y = pos h y).
Proof.
  induction l as [|b l IH]; intros h Hit HO Hnd Hd Hs.
  { exists h. split_and!; try done. intros y. destruct (lsucc h y) as [s|]; [|done]. cbn. f_equal.
    apply set_eq. intros z. rewrite elem_of_union, elem_of_filter. set_solver. }
  apply NoDup_cons in Hnd as [Hb Hnd]. cbn [link_loop].
  set (lp := link_past_set h b). set (h1 := upd (set_lprec (Some lp)) b h).
  assert (Hbd : b ∈ dom h) by apply Hd, elem_of_list_here.
  assert (Hd1 : dom h1 = dom h) by by apply upd_dom.
  assert (H1 : ∀ y, h1 !!! y = if decide (y = b) then set_lprec (Some lp) (h !!! b) else h !!! y).
  { intros y. unfold h1. destruct (decide (y = b)) as [->|]; [by rewrite upd_same|by rewrite upd_other]. }
  assert (Hls1 : ∀ y, lsucc h1 y = lsucc h y).
  { intros y. unfold lsucc. rewrite H1. by destruct (decide (y = b)) as [->|]. }
  destruct (add_lsucc_ok b (it 23 lp) h1) as (h2 & -> & Hd2 & H2).
  { by apply iter_nodup. }
  { intros a Ha. rewrite iter_elem in Ha by done. rewrite Hls1. apply (Hs b); [apply elem_of_list_here|done]. }
  { intros a Ha. rewrite iter_elem in Ha by done. rewrite Hd1.
    apply link_past_set_conv in Ha as [Ha _]; [|done]. by eapply conv_prec_dom. }
  assert (Hso : same_order h h2).
  { intros y. unfold prec, succ. rewrite !H2. destruct (decide _); rewrite !H1; by destruct (decide (y = b)) as [->|]. }
  assert (Hls2 : ∀ y, lsucc h2 y = if decide (y ∈ lp) then (λ s, s ∪ {[b]}) <$> lsucc h y else lsucc h y).
  { intros y. unfold lsucc at 1. rewrite H2. destruct (decide (y ∈ it 23 lp)) as [Hy|Hy]; rewrite iter_elem in Hy by done.
    - rewrite decide_True by done. cbn. by rewrite Hls1.
    - rewrite decide_False by done. apply Hls1. }
  assert (Hlp2 : ∀ y, lprec h2 y = if decide (y = b) then Some lp else lprec h y).
  { intros y. unfold lprec. rewrite !H2. destruct (decide (y ∈ _)); rewrite !H1; by destruct (decide (y = b)) as [->|]. }
  assert (Hpast : ∀ y, link_past_set h2 y = link_past_set h y) by (intros; by apply link_past_set_same).
  destruct (IH h2 Hit) as (h' & E & Hd' & Hso' & Hlp' & Hls' & Hr').
  { by eapply same_order_conv. } { done. }
  { intros x Hx. rewrite Hd2, Hd1. apply Hd. by apply elem_of_list_further. }
  { intros x a Hx Ha. rewrite Hpast in Ha. rewrite Hls2.
    destruct (Hs x a) as [s Es]; [by apply elem_of_list_further|done|]. rewrite Es.
    destruct (decide _); eauto. }
  exists h'. split_and!; [done|congruence|by eapply same_order_trans| | |].
  - intros y. rewrite Hlp', Hlp2, Hpast. destruct (decide (y = b)) as [->|Hn].
    + rewrite (decide_True (P := b ∈ b :: l)) by apply elem_of_list_here. by destruct (decide _).
    + destruct (decide (y ∈ l)) as [Hy|Hy].
      * by rewrite decide_True by (by apply elem_of_list_further).
      * rewrite decide_False; [done|]. by intros [?|?]%elem_of_cons.
  - intros y. rewrite Hls', Hls2. destruct (lsucc h y) as [s|]; [|by destruct (decide _)].
    destruct (decide (y ∈ lp)) as [Hy|Hy]; cbn; f_equal; apply set_eq; intros z;
      rewrite !elem_of_union, !elem_of_filter, ?elem_of_union, !elem_of_list_to_set, ?elem_of_cons, ?elem_of_singleton, !Hpast.
    + split; [intros [[?| -> ]|?]; [by left|right; by split; [|left]|right; tauto]|].
      intros [?|[? [->|?]]]; [by left; left|by left; right|by right].
    + split; [intros [?|?]; [by left|right; tauto]|]. intros [?|[G [->|?]]]; [by left|done|by right].
  - intros y. destruct (Hr' y) as (-> & -> & ->). unfold lab, coords, pos. rewrite !H2.
    destruct (decide (y ∈ _)); rewrite !H1; by destruct (decide (y = b)) as [->|].
Qed.
Lemma link_loop_err it l : ∀ h,
  iter_ok it → order_inv h → NoDup l → (∀ b, b ∈ l → b ∈ dom h) →
  (∃ b a, b ∈ l ∧ a ∈ link_past_set h b ∧ lsucc h a = None) →
  ∃ h', link_loop it l h = (h', Err AttributeError).
Proof.
  induction l as [|b l IH]; intros h Hit HO Hnd Hd (b' & a & Hb' & Ha & Hn); [by apply elem_of_nil in Hb'|].
  apply NoDup_cons in Hnd as [Hb Hnd]. cbn [link_loop].
  set (lp := link_past_set h b). set (h1 := upd (set_lprec (Some lp)) b h).
  assert (Hbd : b ∈ dom h) by apply Hd, elem_of_list_here.
  assert (Hd1 : dom h1 = dom h) by by apply upd_dom.
  assert (H1 : ∀ y, h1 !!! y = if decide (y = b) then set_lprec (Some lp) (h !!! b) else h !!! y).
  { intros y. unfold h1. destruct (decide (y = b)) as [->|]; [by rewrite upd_same|by rewrite upd_other]. }
  assert (Hls1 : ∀ y, lsucc h1 y = lsucc h y).
  { intros y. unfold lsucc. rewrite H1. by destruct (decide (y = b)) as [->|]. }
  assert (Hdec : (∃ a, a ∈ it 23 lp ∧ lsucc h1 a = None) ∨ (∀ a, a ∈ it 23 lp → ∃ s, lsucc h1 a = Some s)).
  { clear. induction (it 23 lp) as [|x xs IHx]; [right; intros a Ha; by apply elem_of_nil in Ha|].
    destruct (lsucc h1 x) as [s|] eqn:Ex; [|left; exists x; split; [apply elem_of_list_here|done]].
    destruct IHx as [(a & Ha & Hn)|Hall]; [left; exists a; split; [by apply elem_of_list_further|done]|].
    right. intros a [->|Ha]%elem_of_cons; eauto. }
  destruct Hdec as [Hex|Hall].
  { destruct (add_lsucc_err b (it 23 lp) h1) as [h2 ->]; [by apply iter_nodup|done|]. eauto. }
  destruct (add_lsucc_ok b (it 23 lp) h1) as (h2 & -> & Hd2 & H2).
  { by apply iter_nodup. } { done. }
  { intros x Hx. rewrite iter_elem in Hx by done. rewrite Hd1.
    apply link_past_set_spec in Hx as [Hx _]; [|done]. by eapply prec_dom_l. }
  assert (Hso : same_order h h2).
  { intros y. unfold prec, succ. rewrite !H2. destruct (decide _); rewrite !H1; by destruct (decide (y = b)) as [->|]. }
  apply IH; [done|by eapply same_order_inv|done| |].
  - intros x Hx. rewrite Hd2, Hd1. apply Hd. by apply elem_of_list_further.
  - exists b', a. rewrite (link_past_set_same h h2) by done. split_and!; [|done|].
    + apply elem_of_cons in Hb' as [->|?]; [|done]. exfalso.
      destruct (Hall a) as [s Es]; [by rewrite iter_elem|]. rewrite Hls1 in Es. congruence.
    + unfold lsucc. rewrite H2. destruct (decide _); [|change (lsucc h1 a = None); by rewrite Hls1].
      cbn. rewrite Hls1. by rewrite Hn.
Qed.

Lemma link_causet_ok it h C :
  iter_ok it → conv_inv h → C ⊆ dom h →
  (∀ b a, b ∈ C → covers (before h) a b → a ∈ C ∨ ∃ s, lsucc h a = Some s) →
  ∃ h', link_causet it C h = (h', Ok tt) ∧ dom h' = dom h ∧ same_order h h' ∧
    (∀ y, y ∈ C → lprec h' y = Some (link_past_set h y) ∧
                  lsucc h' y = Some (filter (λ b, y ∈ link_past_set h b) C)) ∧
    (∀ y, y ∉ C → lprec h' y = lprec h y ∧
                  lsucc h' y = (λ s, s ∪ filter (λ b, y ∈ link_past_set h b) C) <$> lsucc h y) ∧
    (∀ y, lab h' y = lab h y ∧ coords h' y = coords h y ∧ pos h' y = pos h y).
Proof.
  intros Hit HO HC Hs. unfold link_causet.
  destruct (init_lsucc (it 22 C) h) as [Hd1 H1].
  { intros a Ha. rewrite iter_elem in Ha by done. by apply HC. }
  set (h1 := foldl _ h (it 22 C)) in *.
  assert (Hso : same_order h h1).
  { intros y. unfold prec, succ. rewrite !H1. by destruct (decide _). }
  assert (Hpast : ∀ y, link_past_set h1 y = link_past_set h y) by (intros; by apply link_past_set_same).
  assert (Hset : list_to_set (it 22 C) = C).
  { apply set_eq. intros x. rewrite elem_of_list_to_set. by apply iter_elem. }
  destruct (link_loop_ok it (it 22 C) h1) as (h' & E & Hd' & Hso' & Hlp & Hls & Hr); [done|by eapply same_order_conv|by apply iter_nodup| | |].
  { intros b Hb. rewrite iter_elem in Hb by done. rewrite Hd1. by apply HC. }
  { intros b a Hb Ha. rewrite iter_elem in Hb by done. rewrite Hpast in Ha.
    apply link_past_set_conv in Ha; [|done]. unfold lsucc. rewrite H1.
    destruct (decide (a ∈ it 22 C)) as [Hin|Hin]; [by eexists|]. rewrite iter_elem in Hin by done.
    destruct (Hs b a Hb Ha) as [?|?]; [done|done]. }
  exists h'. rewrite Hset in Hls. split_and!; [done|congruence|by eapply same_order_trans| | |].
  - intros y Hy. rewrite Hlp, Hls, Hpast.
    rewrite decide_True by (by rewrite iter_elem). split; [done|].
    unfold lsucc. rewrite H1, decide_True by (by rewrite iter_elem). cbn. f_equal.
    apply set_eq. intros z. rewrite elem_of_union, !elem_of_filter, Hpast. set_solver.
  - intros y Hy. rewrite Hlp, Hls.
    rewrite decide_False by (by rewrite iter_elem).
    unfold lsucc, lprec. rewrite H1, decide_False by (by rewrite iter_elem). split; [done|].
    destruct (ev_lsucc _); [|done]. cbn. f_equal. f_equal. apply set_eq. intros z. by rewrite !elem_of_filter, Hpast.
  - intros y. destruct (Hr y) as (-> & -> & ->). unfold lab, coords, pos. rewrite !H1. by destruct (decide _).
Qed.
Lemma link_causet_err it h C :
  iter_ok it → order_inv h → C ⊆ dom h →
  (∃ b a, b ∈ C ∧ covers (before h) a b ∧ a ∉ C ∧ lsucc h a = None) →
  ∃ h', link_causet it C h = (h', Err AttributeError).
Proof.
  intros Hit HO HC (b & a & Hb & Hab & Ha & Hn). unfold link_causet.
  destruct (init_lsucc (it 22 C) h) as [Hd1 H1].
  { intros x Hx. rewrite iter_elem in Hx by done. by apply HC. }
  set (h1 := foldl _ h (it 22 C)) in *.
  assert (Hso : same_order h h1).
  { intros y. unfold prec, succ. rewrite !H1. by destruct (decide _). }
  apply link_loop_err; [done|by eapply same_order_inv|by apply iter_nodup| |].
  { intros x Hx. rewrite iter_elem in Hx by done. rewrite Hd1. by apply HC. }
  exists b, a. rewrite iter_elem by done. split_and!; [done| |].
  - rewrite (link_past_set_same h h1) by done. by apply link_past_set_spec.
  - unfold lsucc. rewrite H1, decide_False by (by rewrite iter_elem). done.
Qed.

(** * unlink, add, discard *)
Lemma unlink_linked_loop_spec l : ∀ h, NoDup l →
  ∃ h', unlink_linked_loop l h = (h', Ok tt) ∧
    ∀ y, h' !!! y = if decide (y ∈ l ∧ hasBeenLinked h y = true)
                    then set_lsucc None (set_lprec None (h !!! y)) else h !!! y.
Proof.
  induction l as [|x l IH]; intros h Hnd.
  { exists h. split; [done|]. intros y. rewrite decide_False; [done|]. by intros [?%elem_of_nil _]. }
  apply NoDup_cons in Hnd as [Hx Hnd]. cbn [unlink_linked_loop].
  destruct (hasBeenLinked h x) eqn:El.
  - assert (∃ lp ls, lprec h x = Some lp ∧ lsucc h x = Some ls) as (lp & ls & E1 & E2).
    { unfold hasBeenLinked in El. destruct (lprec h x), (lsucc h x); try done. eauto. }
    destruct (unlink_linked h x lp ls E1 E2) as [Hok Hlk].
    destruct (EventModel.unlink h x) as [h1 r]. cbn in Hok, Hlk. subst r.
    destruct (IH h1 Hnd) as (h' & -> & H). exists h'. split; [done|]. intros y. rewrite H, Hlk.
    destruct (decide (y = x)) as [->|Hn].
    + rewrite decide_False by (by intros [? _]). rewrite decide_True; [done|]. split; [apply elem_of_list_here|done].
    + unfold hasBeenLinked, lprec, lsucc. rewrite Hlk. destruct (decide (y = x)); [done|].
      destruct (decide (y ∈ l ∧ _)) as [[G1 G2]|G].
      * rewrite decide_True; [done|]. split; [by apply elem_of_list_further|done].
      * rewrite decide_False; [done|]. intros [[->|G1]%elem_of_cons G2]; [done|]. by apply G.
  - destruct (IH h Hnd) as (h' & -> & H). exists h'. split; [done|]. intros y. rewrite H.
    destruct (decide (y ∈ l ∧ _)) as [[G1 G2]|G].
    + rewrite decide_True; [done|]. split; [by apply elem_of_list_further|done].
    + rewrite decide_False; [done|]. intros [[->|G1]%elem_of_cons G2]; [congruence|]. by apply G.
Qed.

Lemma unlink_loop_spec l : ∀ h, NoDup l → link_paired h →
  same_order h (fst (unlink_loop l h)) ∧
  ((∃ x, x ∈ l ∧ lprec h x = None) → snd (unlink_loop l h) = Err AttributeError) ∧
  ((∀ x, x ∈ l → lprec h x ≠ None) → snd (unlink_loop l h) = Ok tt ∧
     ∀ y, fst (unlink_loop l h) !!! y =
       if decide (y ∈ l) then set_lsucc None (set_lprec None (h !!! y)) else h !!! y).
Proof.
  induction l as [|x l IH]; intros h Hnd HP.
  { split; [done|]. split; [|done]. by intros (x & Hx%elem_of_nil & _). }
  apply NoDup_cons in Hnd as [Hx Hnd]. cbn [unlink_loop].
  pose proof (unlink_same_order h x) as Hso.
  destruct (lprec h x) as [lp|] eqn:E1.
  - destruct (lsucc h x) as [ls|] eqn:E2; [|exfalso; apply HP in E2; congruence].
    destruct (unlink_linked h x lp ls E1 E2) as [Hok Hlk].
    destruct (EventModel.unlink h x) as [h1 r]. cbn in Hok, Hlk, Hso. subst r.
    assert (HP1 : link_paired h1).
    { intros y. unfold lprec, lsucc. rewrite !Hlk. destruct (decide _); [done|]. apply HP. }
    destruct (IH h1 Hnd HP1) as (H1 & H2 & H3). split_and!.
    + by eapply same_order_trans.
    + intros (y & Hy & Hn). apply H2. apply elem_of_cons in Hy as [->|Hy]; [congruence|].
      exists y. split; [done|]. unfold lprec. rewrite Hlk. by destruct (decide _).
    + intros Hall. destruct H3 as [G1 G2].
      { intros y Hy. unfold lprec. rewrite Hlk. destruct (decide _) as [->|]; [done|]. apply Hall.
        by apply elem_of_list_further. }
      split; [done|]. intros y. rewrite G2, Hlk. destruct (decide (y = x)) as [->|Hn].
      * rewrite decide_False by done. rewrite decide_True; [done|]. apply elem_of_list_here.
      * destruct (decide (y ∈ l)) as [Hy|Hy].
        -- by rewrite decide_True by (by apply elem_of_list_further).
        -- rewrite decide_False; [done|]. by intros [?|?]%elem_of_cons.
  - rewrite unlink_unlinked by done. cbn. split_and!; [done|done|].
    intros Hall. exfalso. by apply (Hall x); [apply elem_of_list_here|].
Qed.

Lemma unlink_linked_loop_dom l : ∀ h, dom (fst (unlink_linked_loop l h)) = dom h.
Proof.
  induction l as [|x l IH]; intros h; cbn [unlink_linked_loop]; [done|].
  destruct (hasBeenLinked h x) eqn:El; [|apply IH]. unfold EventModel.unlink.
  unfold hasBeenLinked in El. destruct (lprec h x) as [lp|] eqn:E1; [|done].
  destruct (lsucc h x) as [ls|] eqn:E2; [|done].
  assert (Hx : x ∈ dom h).
  { destruct (decide (x ∈ dom h)) as [|Hn]; [done|]. unfold lprec in E1. by rewrite lookup_total_notin in E1. }
  assert (Hd : dom (upd (set_lprec None) x h) = dom h) by by apply upd_dom.
  assert (E3 : lsucc (upd (set_lprec None) x h) x = Some ls).
  { unfold lsucc. by rewrite upd_same. }
  rewrite E3. rewrite IH, upd_dom by (by rewrite Hd). done.
Qed.
