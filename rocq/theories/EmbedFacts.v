(** Facts about relate, create and relabel of EmbeddedCauset. *)
From Verif Require Import Base Spec EventModel EventFacts CausetModel CausetFacts SpecBuild BuildModel
  BuildFacts MergeFacts SpacetimeModel ShapeModel EmbedModel.
From stdpp Require Import sorting.
#[local] Open Scope nat_scope.

(** Everything but the relations of an event is unchanged. *)
Definition same_rest (h h' : heap) : Prop :=
  ∀ y, lab h' y = lab h y ∧ Base.coords h' y = Base.coords h y ∧ pos h' y = pos h y ∧
       lprec h' y = lprec h y ∧ lsucc h' y = lsucc h y.
Lemma same_rest_refl h : same_rest h h.
Proof. done. Qed.
Lemma same_rest_trans h1 h2 h3 : same_rest h1 h2 → same_rest h2 h3 → same_rest h1 h3.
Proof. intros H1 H2 y. destruct (H1 y) as (<- & <- & <- & <- & <-). apply H2. Qed.

Lemma relate_reset_spec l : ∀ h, (∀ x, x ∈ l → x ∈ dom h) →
  let h' := relate_reset l h in
  dom h' = dom h ∧ same_rest h h' ∧
  ∀ y, prec h' y = (if decide (y ∈ l) then ∅ else prec h y) ∧
       succ h' y = (if decide (y ∈ l) then ∅ else succ h y).
Proof.
  induction l as [|a l IH]; intros h Hd; [done|]. cbn.
  set (h1 := upd _ a h). assert (Hd1 : dom h1 = dom h) by (apply upd_dom, Hd, elem_of_list_here).
  destruct (IH h1) as (H1 & H2 & H3).
  { intros x Hx. rewrite Hd1. apply Hd. by apply elem_of_list_further. }
  unfold relate_reset in *. split_and!; [congruence| |].
  - eapply same_rest_trans; [|done]. intros y. unfold lab, Base.coords, pos, lprec, lsucc, h1.
    destruct (decide (a = y)) as [->|Hn]; [by rewrite upd_same|by rewrite upd_other].
  - intros y. destruct (H3 y) as [-> ->]. destruct (decide (y ∈ l)) as [Hy|Hy].
    + destruct (decide (y ∈ a :: l)) as [|Hn]; [done|]. exfalso. apply Hn. by apply elem_of_list_further.
    + unfold prec, succ, h1. destruct (decide (a = y)) as [->|Hn].
      * rewrite upd_same. destruct (decide (y ∈ y :: l)) as [|Hn]; [done|]. exfalso. apply Hn, elem_of_list_here.
      * rewrite upd_other by done. destruct (decide (y ∈ a :: l)) as [[->|?]%elem_of_cons|]; done.
Qed.

Lemma relate_add_spec a b h : a ∈ dom h → b ∈ dom h →
  let h' := relate_add a b h in
  dom h' = dom h ∧ same_rest h h' ∧
  (∀ x y, x ∈ prec h' y ↔ x ∈ prec h y ∨ (x = a ∧ y = b)) ∧
  (∀ x y, y ∈ succ h' x ↔ y ∈ succ h x ∨ (x = a ∧ y = b)).
Proof.
  intros Ha Hb. unfold relate_add. cbn zeta. set (h1 := upd _ a h).
  assert (Hd1 : dom h1 = dom h) by by apply upd_dom.
  split_and!.
  - rewrite upd_dom; [done|by rewrite Hd1].
  - intros y. unfold lab, Base.coords, pos, lprec, lsucc.
    destruct (decide (b = y)) as [<-|Hn]; [rewrite upd_same|rewrite upd_other by done]; unfold h1.
    + destruct (decide (a = b)) as [->|Hn']; [by rewrite upd_same|by rewrite upd_other].
    + destruct (decide (a = y)) as [<-|Hn']; [by rewrite upd_same|by rewrite upd_other].
  - intros x y. unfold prec. destruct (decide (b = y)) as [<-|Hn]; [rewrite upd_same|rewrite upd_other by done]; unfold h1.
    + cbn. rewrite elem_of_union, elem_of_singleton.
      destruct (decide (a = b)) as [->|Hn']; [rewrite upd_same|rewrite upd_other by done]; cbn; intuition.
    + destruct (decide (a = y)) as [<-|Hn']; [rewrite upd_same|rewrite upd_other by done]; cbn; intuition congruence.
  - intros x y. unfold succ. destruct (decide (b = x)) as [<-|Hn]; [rewrite upd_same|rewrite upd_other by done]; unfold h1.
    + cbn. destruct (decide (a = b)) as [->|Hn']; [rewrite upd_same|rewrite upd_other by done]; cbn;
        rewrite ?elem_of_union, ?elem_of_singleton; intuition congruence.
    + destruct (decide (a = x)) as [<-|Hn']; [rewrite upd_same|rewrite upd_other by done]; cbn;
        rewrite ?elem_of_union, ?elem_of_singleton; intuition congruence.
Qed.

Section relate.
Context (caus : causality_fn) (crd : nat → list Q).

(** The pairs related by the double loop over [l]. *)
Fixpoint related (l : list nat) (x y : nat) : Prop :=
  match l with
  | [] => False
  | a :: l' =>
    (x = a ∧ y ∈ l' ∧ (caus (crd a) (crd y)).1 = true) ∨
    (y = a ∧ x ∈ l' ∧ (caus (crd a) (crd x)).2 = true) ∨
    related l' x y
  end.
Lemma related_in l x y : related l x y → x ∈ l ∧ y ∈ l.
Proof.
  induction l as [|a l IH]; cbn; [done|]. rewrite !elem_of_cons.
  intros [(-> & ? & _)|[(-> & ? & _)|[? ?]%IH]]; auto.
Qed.
(** In terms of positions in the list. *)
Lemma related_pos l x y : NoDup l →
  related l x y ↔ ∃ i j, l !! i = Some x ∧ l !! j = Some y ∧
    ((i < j ∧ (caus (crd x) (crd y)).1 = true) ∨ (j < i ∧ (caus (crd y) (crd x)).2 = true)).
Proof.
  induction l as [|a l IH]; intros Hnd; cbn.
  { split; [done|]. by intros (i & j & ? & _). }
  apply NoDup_cons in Hnd as [Ha Hnd]. rewrite (IH Hnd). split.
  - intros [(-> & Hy & Hc)|[(-> & Hx & Hc)|(i & j & Hi & Hj & Hc)]].
    + apply elem_of_list_lookup in Hy as [j Hj]. exists 0, (S j). split_and!; [done|done|left; split; [lia|done]].
    + apply elem_of_list_lookup in Hx as [i Hi]. exists (S i), 0. split_and!; [done|done|right; split; [lia|done]].
    + exists (S i), (S j). split_and!; [done|done|]. destruct Hc as [[? ?]|[? ?]]; [left|right]; (split; [lia|done]).
  - intros (i & j & Hi & Hj & Hc). destruct i as [|i], j as [|j]; cbn in Hi, Hj.
    + destruct Hc as [[? _]|[? _]]; lia.
    + injection Hi as <-. left. destruct Hc as [[_ Hc]|[? _]]; [|lia].
      split_and!; [done|by eapply elem_of_list_lookup_2|done].
    + injection Hj as <-. right; left. destruct Hc as [[? _]|[_ Hc]]; [lia|].
      split_and!; [done|by eapply elem_of_list_lookup_2|done].
    + right; right. exists i, j. split_and!; [done|done|]. destruct Hc as [[? ?]|[? ?]]; [left|right]; (split; [lia|done]).
Qed.

Definition has_crd (h : heap) (l : list nat) : Prop := ∀ x, x ∈ l → Base.coords h x = Some (crd x).
Record rel_step (h h' : heap) (Q : nat → nat → Prop) : Prop := RelStep {
  rs_dom : dom h' = dom h;
  rs_rest : same_rest h h';
  rs_prec : ∀ x y, x ∈ prec h' y ↔ x ∈ prec h y ∨ Q x y;
  rs_succ : ∀ x y, y ∈ succ h' x ↔ y ∈ succ h x ∨ Q x y
}.
Lemma rel_step_refl h : rel_step h h (λ _ _, False).
Proof. split; [done|done| |]; intuition. Qed.
Lemma rel_step_trans h1 h2 h3 Q1 Q2 :
  rel_step h1 h2 Q1 → rel_step h2 h3 Q2 → rel_step h1 h3 (λ x y, Q1 x y ∨ Q2 x y).
Proof.
  intros [A1 A2 A3 A4] [B1 B2 B3 B4]. split.
  - congruence. - by eapply same_rest_trans.
  - intros x y. rewrite B3, A3. tauto.
  - intros x y. rewrite B4, A4. tauto.
Qed.
Lemma rel_step_ext h h' Q1 Q2 : (∀ x y, Q1 x y ↔ Q2 x y) → rel_step h h' Q1 → rel_step h h' Q2.
Proof. intros H [A1 A2 A3 A4]. split; [done|done| |]; intros x y; rewrite <- H; auto. Qed.
Lemma has_crd_rest h h' l : same_rest h h' → has_crd h l → has_crd h' l.
Proof. intros Hr H x Hx. destruct (Hr x) as (_ & -> & _). by apply H. Qed.

Lemma relate_pair_ok a b h : a ∈ dom h → b ∈ dom h →
  Base.coords h a = Some (crd a) → Base.coords h b = Some (crd b) →
  ∃ h', relate_pair caus a b h = (h', Ok tt) ∧
    rel_step h h' (λ x y, (x = a ∧ y = b ∧ (caus (crd a) (crd b)).1 = true) ∨
                          (y = a ∧ x = b ∧ (caus (crd a) (crd b)).2 = true)).
Proof.
  intros Ha Hb Ea Eb. unfold relate_pair, Coordinates. rewrite Ea, Eb.
  destruct (caus (crd a) (crd b)) as [ab ba]. cbn. eexists. split; [done|].
  set (h1 := if ab then relate_add a b h else h).
  assert (H1 : rel_step h h1 (λ x y, x = a ∧ y = b ∧ ab = true)).
  { unfold h1. destruct ab.
    - destruct (relate_add_spec a b h Ha Hb) as (? & ? & H3 & H4). split; [done|done| |]; intros x y; [rewrite H3|rewrite H4]; tauto.
    - eapply rel_step_ext; [|apply rel_step_refl]. intuition congruence. }
  assert (H2 : rel_step h1 (if ba then relate_add b a h1 else h1) (λ x y, y = a ∧ x = b ∧ ba = true)).
  { assert (Hd := rs_dom _ _ _ H1). destruct ba.
    - destruct (relate_add_spec b a h1) as (? & ? & H3 & H4); [by rewrite Hd|by rewrite Hd|].
      split; [done|done| |]; intros x y; [rewrite H3|rewrite H4]; tauto.
    - eapply rel_step_ext; [|apply rel_step_refl]. intuition congruence. }
  exact (rel_step_trans _ _ _ _ _ H1 H2).
Qed.
Lemma relate_row_ok a bs : ∀ h, a ∈ dom h → (∀ b, b ∈ bs → b ∈ dom h) → has_crd h (a :: bs) →
  ∃ h', relate_row caus a bs h = (h', Ok tt) ∧
    rel_step h h' (λ x y, (x = a ∧ y ∈ bs ∧ (caus (crd a) (crd y)).1 = true) ∨
                          (y = a ∧ x ∈ bs ∧ (caus (crd a) (crd x)).2 = true)).
Proof.
  induction bs as [|b bs IH]; intros h Ha Hb Hc; cbn.
  { exists h. split; [done|]. eapply rel_step_ext; [|apply rel_step_refl]. intros x y. rewrite !elem_of_nil. tauto. }
  destruct (relate_pair_ok a b h) as (h1 & -> & H1); [done|apply Hb, elem_of_list_here|apply Hc, elem_of_list_here|
    apply Hc, elem_of_list_further, elem_of_list_here|].
  assert (Hd := rs_dom _ _ _ H1).
  destruct (IH h1) as (h2 & E & H2).
  { by rewrite Hd. } { intros x Hx. rewrite Hd. apply Hb. by apply elem_of_list_further. }
  { eapply has_crd_rest; [apply H1|]. intros x Hx. apply Hc. apply elem_of_cons in Hx as [->|Hx]; [apply elem_of_list_here|].
    by apply elem_of_list_further, elem_of_list_further. }
  exists h2. split; [done|]. eapply rel_step_ext; [|exact (rel_step_trans _ _ _ _ _ H1 H2)].
  intros x y. cbn. rewrite !elem_of_cons. split.
  - intros [[(-> & -> & ?)|(-> & -> & ?)]|[(-> & ? & ?)|(-> & ? & ?)]]; tauto.
  - intros [(-> & [->|?] & ?)|(-> & [->|?] & ?)]; tauto.
Qed.
Lemma relate_loop_ok l : ∀ h, (∀ b, b ∈ l → b ∈ dom h) → has_crd h l →
  ∃ h', relate_loop caus l h = (h', Ok tt) ∧ rel_step h h' (related l).
Proof.
  induction l as [|a l IH]; intros h Hd Hc; cbn.
  { exists h. split; [done|]. apply rel_step_refl. }
  destruct (relate_row_ok a l h) as (h1 & -> & H1); [apply Hd, elem_of_list_here| |done|].
  { intros b Hb. apply Hd. by apply elem_of_list_further. }
  destruct (IH h1) as (h2 & E & H2).
  { intros x Hx. rewrite (rs_dom _ _ _ H1). apply Hd. by apply elem_of_list_further. }
  { eapply has_crd_rest; [apply H1|]. intros x Hx. apply Hc. by apply elem_of_list_further. }
  exists h2. split; [done|]. eapply rel_step_ext; [|exact (rel_step_trans _ _ _ _ _ H1 H2)].
  intros x y. cbn. tauto.
Qed.
End relate.

(** relate before the link caches are dealt with. *)
Lemma relate_core caus crd it h C : iter_ok it → C ⊆ dom h → has_crd crd h (elements C) →
  ∃ h2, relate_loop caus (it 31 C) (relate_reset (it 30 C) h) = (h2, Ok tt) ∧
    dom h2 = dom h ∧ same_rest h h2 ∧
    (∀ x y, x ∈ prec h2 y ↔ (y ∉ C ∧ x ∈ prec h y) ∨ related caus crd (it 31 C) x y) ∧
    (∀ x y, y ∈ succ h2 x ↔ (x ∉ C ∧ y ∈ succ h x) ∨ related caus crd (it 31 C) x y).
Proof.
  intros Hit HC Hcrd.
  destruct (relate_reset_spec (it 30 C) h) as (Hd1 & Hr1 & H1).
  { intros x Hx. rewrite iter_elem in Hx by done. by apply HC. }
  set (h1 := relate_reset (it 30 C) h) in *.
  destruct (relate_loop_ok caus crd (it 31 C) h1) as (h2 & E & H2).
  { intros x Hx. rewrite iter_elem in Hx by done. rewrite Hd1. by apply HC. }
  { eapply has_crd_rest; [done|]. intros x Hx. rewrite iter_elem in Hx by done. apply Hcrd. by apply elem_of_elements. }
  exists h2. split_and!; [done|by rewrite (rs_dom _ _ _ H2)|eapply same_rest_trans; [done|apply H2]| |].
  - intros x y. rewrite (rs_prec _ _ _ H2). destruct (H1 y) as [-> _].
    destruct (decide (y ∈ it 30 C)) as [Hy|Hy]; rewrite iter_elem in Hy by done; set_solver.
  - intros x y. rewrite (rs_succ _ _ _ H2). destruct (H1 x) as [_ ->].
    destruct (decide (x ∈ it 30 C)) as [Hy|Hy]; rewrite iter_elem in Hy by done; set_solver.
Qed.

(** ** create *)
Lemma new_event_plain it l cs ps h : iter_ok it →
  new_event it l ∅ ∅ cs ps h = (<[new_id h := Event l ∅ ∅ None None (Some cs) ps]> h, new_id h).
Proof.
  intros Hit. unfold new_event.
  assert (Hp : past_closure h ∅ = ∅).
  { apply set_eq. intros y. rewrite past_closure_spec. split; [|intros Hy; by apply elem_of_empty in Hy].
    intros (e & He & _). by apply elem_of_empty in He. }
  assert (Hf : future_closure h ∅ = ∅).
  { apply set_eq. intros y. rewrite future_closure_spec. split; [|intros Hy; by apply elem_of_empty in Hy].
    intros (e & He & _). by apply elem_of_empty in He. }
  rewrite Hp, Hf.
  assert (Hn : ∀ s, it s ∅ = []).
  { intros s. apply Permutation_nil. rewrite (Hit s ∅), elements_empty. done. }
  by rewrite !Hn.
Qed.
Lemma create_events_spec it fmt rows : ∀ u h, iter_ok it →
  let h' := fst (create_events it fmt u rows h) in
  let xs := snd (create_events it fmt u rows h) in
  length xs = length rows ∧ NoDup xs ∧ (∀ x, x ∈ xs → x ∉ dom h) ∧
  dom h' = dom h ∪ list_to_set xs ∧
  (∀ y, y ∉ xs → h' !!! y = h !!! y) ∧
  (∀ i x c, xs !! i = Some x → rows !! i = Some c →
     h' !!! x = Event (emb_label fmt (u + Z.of_nat i)) ∅ ∅ None None (Some c) []).
Proof.
  induction rows as [|c rows IH]; intros u h Hit; cbn [create_events].
  { cbn. split_and!; [done|apply NoDup_nil_2|intros x Hx; by apply elem_of_nil in Hx|set_solver|done|]. by intros i x c Hi. }
  rewrite new_event_plain by by apply sub_ok.
  set (n := new_id h). set (h1 := <[n := _]> h).
  assert (Hn : n ∉ dom h) by apply new_id_fresh.
  specialize (IH (u + 1)%Z h1 Hit). destruct (create_events it fmt (u + 1) rows h1) as [h2 xs]. cbn in *.
  destruct IH as (I1 & I2 & I3 & I4 & I5 & I6).
  assert (Hd1 : dom h1 = {[n]} ∪ dom h) by (unfold h1; by rewrite dom_insert_L).
  assert (Hnx : n ∉ xs). { intros Hx. apply (I3 n Hx). rewrite Hd1. set_solver. }
  split_and!.
  - by rewrite I1.
  - by apply NoDup_cons.
  - intros x [-> |Hx]%elem_of_cons; [done|]. intros Hd. apply (I3 x Hx). rewrite Hd1. set_solver.
  - rewrite I4, Hd1. set_solver.
  - intros y Hy. rewrite not_elem_of_cons in Hy. destruct Hy as [Hy1 Hy2]. rewrite I5 by done.
    unfold h1. by rewrite lookup_total_insert_ne.
  - intros [|i] x c' Hi Hc; cbn in Hi, Hc.
    + injection Hi as <-. injection Hc as <-. rewrite I5 by done. unfold h1. rewrite lookup_total_insert.
      by rewrite Z.add_0_r.
    + rewrite (I6 i x c' Hi Hc). do 2 f_equal. lia.
Qed.
(** The new events are isolated. *)
Lemma isolated_order h h' (xs : list nat) : order_inv h → link_inv h →
  (∀ x, x ∈ xs → x ∉ dom h) → (∀ y, y ∉ xs → h' !!! y = h !!! y) →
  (∀ x, x ∈ xs → prec h' x = ∅ ∧ succ h' x = ∅ ∧ lprec h' x = None ∧ lsucc h' x = None) →
  (∀ a b, before h' a b ↔ before h a b) ∧ order_inv h' ∧ link_inv h'.
Proof.
  intros HO HL Hfr Hold Hnew.
  assert (Hb : ∀ a b, before h' a b ↔ before h a b).
  { intros a b. unfold before. destruct (decide (b ∈ xs)) as [Hx|Hx].
    - destruct (Hnew b Hx) as [-> _]. split; [intros Ha; by apply elem_of_empty in Ha|].
      intros Ha. exfalso. apply (Hfr b Hx). by eapply prec_dom_r.
    - unfold prec. by rewrite Hold. }
  assert (HO' : order_inv h').
  { split.
    - intros a b. change (a ∈ prec h' b) with (before h' a b). rewrite Hb. unfold before.
      rewrite (oi_conv h HO a b). unfold succ. destruct (decide (a ∈ xs)) as [Hx|Hx].
      + destruct (Hnew a Hx) as (_ & E & _). unfold succ in E. rewrite E. split; [|intros Hi; by apply elem_of_empty in Hi].
        intros Hi. exfalso. apply (Hfr a Hx). change (b ∈ succ h a) in Hi. apply (oi_conv h HO) in Hi.
        by eapply prec_dom_l.
      + by rewrite Hold.
    - split.
      + intros a Ha. apply Hb in Ha. by apply (oi_irr h HO a).
      + intros a b c H1 H2. apply Hb in H1, H2. apply Hb. exact (oi_trans h HO a b c H1 H2). }
  split_and!; [done|done|].
  intros x. destruct (decide (x ∈ xs)) as [Hx|Hx].
  - left. by destruct (Hnew x Hx) as (_ & _ & ? & ?).
  - assert (Hc : ∀ a b, covers (before h') a b ↔ covers (before h) a b).
    { intros a b. unfold covers. rewrite Hb. split; (intros [? Hn]; split; [done|]); intros (c & Hc); apply Hn; exists c.
      - by rewrite !Hb. - by rewrite <- !Hb. }
    destruct (HL x) as [[N1 N2]|(lp & ls & H1 & H2 & H3 & H4)]; unfold lprec, lsucc in *; rewrite !(Hold x Hx); [by left|right].
    exists lp, ls. split_and!; [done|done| |]; intros y; rewrite Hc; auto.
Qed.
