(** Theorems about /repo/embeddedcauset.py: C50 - C52, C64 (Density and LengthScale), C65 (the
    constructor). *)
From Verif Require Import Base Spec EventModel EventFacts CausetModel CausetFacts SpecBuild BuildModel
  BuildFacts MergeFacts Prop_Build.
From stdpp Require Import sorting.
From Coq Require Import Reals Qreals Lra.
From Verif Require Import HistoryFacts.
From Verif Require Import SpacetimeModel SpacetimeFacts TrigFacts Prop_Spacetime ShapeModel SpecShape Prop_Shape
  EmbedModel EmbedFacts.
#[local] Open Scope nat_scope.

(** ** C50 *)
(** The events of [C] are embedded with the coordinates [crd]. *)
Definition embedded (h : heap) (C : gset nat) (crd : nat → list Q) : Prop :=
  ∀ x, x ∈ C → Coordinates h x = Ok (crd x).
Lemma embedded_has_crd h C crd : embedded h C crd → has_crd crd h (elements C).
Proof.
  intros H x Hx. apply elem_of_elements in Hx. specialize (H x Hx). unfold Coordinates in H.
  destruct (Base.coords h x); congruence.
Qed.
Lemma related_outside caus crd it C x y : iter_ok it → related caus crd (it 31 C) x y → x ∈ C ∧ y ∈ C.
Proof. intros Hit [Hx Hy]%related_in. by rewrite !iter_elem in * by done. Qed.

Theorem C50_relate (it : oracle) (caus : causality_fn) (link : bool) (h : heap) (C : gset nat)
    (crd : nat → list Q) :
  iter_ok it → (∀ a b, a ∈ Past h b ↔ b ∈ Future h a) → link_paired h →
  C ⊆ dom h → closed h C → embedded h C crd →
  ∃ h', relate it caus link C h = (h', Ok tt) ∧ dom h' = dom h ∧
    (∀ i j a b, it 31 C !! i = Some a → it 31 C !! j = Some b → i < j →
       (ev_lt h' a b = true ↔ (caus (crd a) (crd b)).1 = true) ∧
       (ev_lt h' b a = true ↔ (caus (crd a) (crd b)).2 = true)) ∧
    (∀ a, a ∈ C → ev_lt h' a a = false) ∧
    (∀ a b, a ∈ Past h' b ↔ b ∈ Future h' a) ∧
    closed h' C ∧
    (∀ x y, x ∈ C → (y ∈ LinkPast h' x ↔ covers (before h') y x) ∧
                    (y ∈ LinkFuture h' x ↔ covers (before h') x y)) ∧
    (∀ x, x ∈ C → hasBeenLinked h' x = link) ∧ link_paired h' ∧
    (∀ x, x ∉ C → h' !!! x = h !!! x) ∧
    (∀ x, lab h' x = lab h x ∧ Base.coords h' x = Base.coords h x ∧ Base.pos h' x = Base.pos h x).
Proof.
  intros Hit Hconv HP HC Hcl Hemb. unfold relate.
  destruct (relate_core caus crd it h C Hit HC (embedded_has_crd h C crd Hemb))
    as (h2 & -> & Hd2 & Hr2 & Hp2 & Hs2).
  set (rel := related caus crd (it 31 C)) in *.
  assert (Hin : ∀ x y, rel x y → x ∈ C ∧ y ∈ C) by (intros x y; by apply related_outside).
  assert (Hconv2 : conv_inv h2).
  { intros a b. rewrite Hp2, Hs2. split.
    - intros [[Hb Hab]|?]; [left|by right]. apply Hconv in Hab. split; [|done].
      intros Ha. apply Hb. exact (proj2 (Hcl a Ha) b Hab).
    - intros [[Ha Hab]|?]; [left|by right]. apply Hconv in Hab. split; [|done].
      intros Hb. apply Ha. exact (proj1 (Hcl b Hb) a Hab). }
  assert (Hcl2 : closed h2 C).
  { intros x Hx. split; intros y Hy; [apply Hp2 in Hy|apply Hs2 in Hy]; (destruct Hy as [[? _]|Hy]; [done|]);
      apply Hin in Hy; tauto. }
  assert (Hbef : ∀ i j a b, it 31 C !! i = Some a → it 31 C !! j = Some b → i < j →
    (rel a b ↔ (caus (crd a) (crd b)).1 = true) ∧ (rel b a ↔ (caus (crd a) (crd b)).2 = true)).
  { assert (Hnd := iter_nodup it 31 C Hit). intros i j a b Hi Hj Hij. unfold rel. rewrite !related_pos by done. split; split.
    - intros (i' & j' & Hi' & Hj' & Hc).
      assert (i' = i) as -> by (by eapply NoDup_lookup). assert (j' = j) as -> by (by eapply NoDup_lookup).
      destruct Hc as [[_ ?]|[? _]]; [done|lia].
    - intros Hc. exists i, j. split_and!; [done|done|by left].
    - intros (i' & j' & Hi' & Hj' & Hc).
      assert (i' = j) as -> by (by eapply NoDup_lookup). assert (j' = i) as -> by (by eapply NoDup_lookup).
      destruct Hc as [[? _]|[_ ?]]; [lia|done].
    - intros Hc. exists j, i. split_and!; [done|done|by right]. }
  assert (Hirr : ∀ a, ¬ rel a a).
  { assert (Hnd := iter_nodup it 31 C Hit). intros a. unfold rel. rewrite related_pos by done.
    intros (i & j & Hi & Hj & Hc). assert (i = j) by (by eapply NoDup_lookup). lia. }
  assert (Hinit : ∀ i a, it 31 C !! i = Some a → a ∈ C).
  { intros i a Hi. rewrite <- (iter_elem it 31 C a Hit). by eapply elem_of_list_lookup_2. }
  assert (Hlt2 : ∀ h', same_order h2 h' → ∀ a b, b ∈ C → ev_lt h' a b = true ↔ rel a b).
  { intros h' Hso a b Hb. unfold ev_lt. rewrite bool_decide_eq_true. destruct (Hso b) as [-> _]. rewrite Hp2. tauto. }
  assert (Hout2 : ∀ x, x ∉ C → h2 !!! x = h !!! x).
  { intros x Hx. assert (Ep : prec h2 x = prec h x).
    { apply set_eq. intros y. rewrite Hp2. split; [intros [?|Hr]; [tauto|apply Hin in Hr; tauto]|tauto]. }
    assert (Es : succ h2 x = succ h x).
    { apply set_eq. intros y. rewrite Hs2. split; [intros [?|Hr]; [tauto|apply Hin in Hr; tauto]|tauto]. }
    destruct (Hr2 x) as (E1 & E2 & E3 & E4 & E5).
    unfold prec, succ, lab, Base.coords, Base.pos, lprec, lsucc in *.
    destruct (h2 !!! x), (h !!! x); cbn in *; congruence. }
  destruct link.
  - destruct (link_causet_ok it h2 C Hit Hconv2) as (h' & -> & Hd' & Hso & Hlin & Hlout & Hrest).
    { by rewrite Hd2. } { intros b a Hb [Hab _]. left. exact (proj1 (Hcl2 b Hb) a Hab). }
    assert (Hfut : ∀ x y, x ∈ C → y ∈ filter (λ b, x ∈ link_past_set h2 b) C ↔ covers (before h2) x y).
    { intros x y Hx. rewrite elem_of_filter, link_past_set_conv by done. split; [tauto|]. intros Hc.
      split; [done|]. destruct (Hcl2 x Hx) as [_ H]. apply H. apply Hconv2. apply Hc. }
    exists h'. split_and!; [done|congruence| | | | | | | | |].
    + intros i j a b Hi Hj Hij. rewrite !(Hlt2 h' Hso) by eauto. eauto.
    + intros a Ha. apply not_true_is_false. rewrite (Hlt2 h' Hso) by done. auto.
    + intros a b. unfold Past, Future. destruct (Hso a) as [_ ->], (Hso b) as [-> _]. apply Hconv2.
    + intros x Hx. destruct (Hso x) as [-> ->]. by apply Hcl2.
    + intros x y Hx. unfold LinkPast, LinkFuture. destruct (Hlin x Hx) as [-> ->].
      rewrite !(same_order_covers h2 h') by done. split; [by apply link_past_set_conv|by apply Hfut].
    + intros x Hx. unfold hasBeenLinked. by destruct (Hlin x Hx) as [-> ->].
    + intros x. destruct (decide (x ∈ C)) as [Hx|Hx].
      * by destruct (Hlin x Hx) as [-> ->].
      * destruct (Hlout x Hx) as [-> ->]. destruct (Hr2 x) as (_ & _ & _ & -> & ->).
        pose proof (HP x) as Hp. destruct (lsucc h x); cbn; [|done]. split; [intros E; by apply Hp in E|done].
    + intros x Hx. rewrite <- (Hout2 x Hx). destruct (Hlout x Hx) as [E1 E2]. destruct (Hso x) as [E3 E4].
      assert (He : filter (λ b, x ∈ link_past_set h2 b) C = ∅).
      { apply set_eq. intros b. split; [|intros Hb; by apply elem_of_empty in Hb].
        rewrite elem_of_filter, link_past_set_conv by done. intros [[Hc _] Hb]. exfalso. apply Hx.
        exact (proj1 (Hcl2 b Hb) x Hc). }
      rewrite He in E2. assert (E2' : lsucc h' x = lsucc h2 x).
      { rewrite E2. destruct (lsucc h2 x); [|done]. cbn. by rewrite union_empty_r_L. }
      destruct (Hrest x) as (E5 & E6 & E7). clear E2.
      unfold prec, succ, lab, Base.coords, Base.pos, lprec, lsucc in *.
      destruct (h' !!! x), (h2 !!! x); cbn in *; congruence.
    + intros x. destruct (Hrest x) as (-> & -> & ->). destruct (Hr2 x) as (-> & -> & -> & _). done.
  - unfold unlink_causet. destruct (unlink_linked_loop_spec (it 25 C) h2) as (h' & Eu & H'); [by apply iter_nodup|]. rewrite Eu.
    assert (Hso : same_order h2 h').
    { intros x. unfold prec, succ. rewrite H'. by destruct (decide _). }
    assert (HP2 : ∀ x, lprec h2 x = None ↔ lsucc h2 x = None).
    { intros x. destruct (Hr2 x) as (_ & _ & _ & -> & ->). apply HP. }
    assert (Hno : ∀ x, x ∈ C → lprec h' x = None ∧ lsucc h' x = None).
    { intros x Hx. unfold lprec, lsucc. rewrite H'. destruct (decide _) as [?|Hn]; [done|].
      assert (Hx' : x ∈ it 25 C) by by apply iter_elem.
      assert (Hl : hasBeenLinked h2 x ≠ true) by tauto.
      unfold hasBeenLinked in Hl. pose proof (HP2 x) as Hp. unfold lprec, lsucc in *.
      destruct (ev_lprec (h2 !!! x)), (ev_lsucc (h2 !!! x)); try done.
      + by destruct Hp as [_ ->]. + by destruct Hp as [-> _]. }
    assert (Hconv' : conv_inv h') by by eapply same_order_conv.
    exists h'. split_and!; [done| | | | | | | | | |].
    + rewrite <- Hd2. replace h' with (fst (unlink_linked_loop (it 25 C) h2)) by by rewrite Eu. apply unlink_linked_loop_dom.
    + intros i j a b Hi Hj Hij. rewrite !(Hlt2 h' Hso) by eauto. eauto.
    + intros a Ha. apply not_true_is_false. rewrite (Hlt2 h' Hso) by done. auto.
    + exact Hconv'.
    + intros x Hx. destruct (Hso x) as [-> ->]. by apply Hcl2.
    + intros x y Hx. unfold LinkPast, LinkFuture. destruct (Hno x Hx) as [-> ->].
      split; [by apply link_past_set_conv|by apply link_future_set_conv].
    + intros x Hx. unfold hasBeenLinked. by destruct (Hno x Hx) as [-> _].
    + intros x. destruct (decide (x ∈ C)) as [Hx|Hx]; [by destruct (Hno x Hx) as [-> ->]|].
      pose proof (HP2 x) as Hp. unfold lprec, lsucc in *. rewrite H'. by destruct (decide _).
    + intros x Hx. rewrite H', decide_False; [by apply Hout2|]. rewrite iter_elem by done. tauto.
    + intros x. destruct (Hr2 x) as (E1 & E2 & E3 & _). unfold lab, Base.coords, Base.pos in *.
      rewrite !H'. by destruct (decide _).
Qed.
Print Assumptions C50_relate.
(** Relating needs all coordinates: an event that is not embedded raises. *)
Lemma relate_row_err caus a bs : ∀ h, bs ≠ [] →
  (Base.coords h a = None ∨ ∃ b, b ∈ bs ∧ Base.coords h b = None) → a ∈ dom h → (∀ b, b ∈ bs → b ∈ dom h) →
  ∃ h', relate_row caus a bs h = (h', Err AttributeError).
Proof.
  induction bs as [|b bs IH]; intros h Hne Hno Ha Hb; [done|]. cbn [relate_row]. unfold relate_pair, Coordinates.
  destruct (Base.coords h a) as [x|] eqn:Ea; [|eauto].
  destruct (Base.coords h b) as [y|] eqn:Eb; [|eauto].
  destruct Hno as [?|(c & Hc & Ec)]; [done|].
  apply elem_of_cons in Hc as [->|Hc]; [congruence|].
  assert (Hbs : bs ≠ []) by (intros ->; by apply elem_of_nil in Hc).
  set (crd := λ z, default [] (Base.coords h z)).
  destruct (relate_pair_ok caus crd a b h) as (h1 & E1 & H1); [done|apply Hb, elem_of_list_here|unfold crd; by rewrite Ea|unfold crd; by rewrite Eb|].
  unfold relate_pair, Coordinates in E1. rewrite Ea, Eb in E1. destruct (caus x y) as [ab ba].
  injection E1 as ->. apply IH; [done| | |].
  - right. exists c. split; [done|]. by destruct (rs_rest _ _ _ H1 c) as (_ & -> & _).
  - by rewrite (rs_dom _ _ _ H1).
  - intros z Hz. rewrite (rs_dom _ _ _ H1). apply Hb. by apply elem_of_list_further.
Qed.
Lemma relate_loop_err caus l : ∀ h, 2 ≤ length l → (∃ b, b ∈ l ∧ Base.coords h b = None) → (∀ b, b ∈ l → b ∈ dom h) →
  ∃ h', relate_loop caus l h = (h', Err AttributeError).
Proof.
  intros h Hl (c & Hc & Ec) Hd. destruct l as [|a [|b l]]; [cbn in Hl; lia|cbn in Hl; lia|]. cbn [relate_loop].
  destruct (relate_row_err caus a (b :: l) h) as [h' ->]; [done| | | |eauto].
  - apply elem_of_cons in Hc as [->|Hc]; [by left|]. right. eauto.
  - apply Hd, elem_of_list_here.
  - intros z Hz. apply Hd. by apply elem_of_list_further.
Qed.
Theorem C50_not_embedded (it : oracle) (caus : causality_fn) (link : bool) (h : heap) (C : gset nat) (x : nat) :
  iter_ok it → C ⊆ dom h → 2 ≤ Card C → x ∈ C → isEmbedded h x = false →
  ∃ h', relate it caus link C h = (h', Err AttributeError).
Proof.
  intros Hit HC H2 Hx Hn. unfold relate.
  destruct (relate_reset_spec (it 30 C) h) as (Hd1 & Hr1 & _).
  { intros y Hy. rewrite iter_elem in Hy by done. by apply HC. }
  destruct (relate_loop_err caus (it 31 C) (relate_reset (it 30 C) h)) as [h' ->]; [| | |eauto].
  - rewrite (Hit 31 C). exact H2.
  - exists x. rewrite iter_elem by done. split; [done|]. destruct (Hr1 x) as (_ & -> & _).
    unfold isEmbedded in Hn. apply bool_decide_eq_false in Hn. by apply eq_None_not_Some.
  - intros y Hy. rewrite iter_elem in Hy by done. rewrite Hd1. by apply HC.
Qed.
Print Assumptions C50_not_embedded.

(** For a causality function that decides a transitive relation - the first component "x is not after
    y", the second "y strictly before x" - relate always produces a strict partial order; only
    events that are related in both directions are ordered by the iteration order. *)
Definition decides (caus : causality_fn) (le : list Q → list Q → Prop) (x y : list Q) : Prop :=
  ((caus x y).1 = true ↔ le x y) ∧ ((caus x y).2 = true ↔ le y x ∧ ¬ le x y).
Definition earlier (l : list nat) (a b : nat) : Prop :=
  ∃ i j, l !! i = Some a ∧ l !! j = Some b ∧ i < j.
Lemma relate_order (it : oracle) (caus : causality_fn) (link : bool) (h : heap) (C : gset nat)
    (crd : nat → list Q) (le : list Q → list Q → Prop) :
  iter_ok it → order_inv h → link_paired h → C ⊆ dom h → closed h C → embedded h C crd →
  (∀ a b c, a ∈ C → b ∈ C → c ∈ C → le (crd a) (crd b) → le (crd b) (crd c) → le (crd a) (crd c)) →
  (∀ a b, a ∈ C → b ∈ C → decides caus le (crd a) (crd b)) →
  ∃ h', relate it caus link C h = (h', Ok tt) ∧ order_inv h' ∧ link_paired h' ∧ dom h' = dom h ∧ (∀ x, x ∉ C → h' !!! x = h !!! x) ∧
    (∀ a b, a ∈ C → b ∈ C →
       ev_lt h' a b = true ↔
         le (crd a) (crd b) ∧ (¬ le (crd b) (crd a) ∨ earlier (it 31 C) a b)).
Proof.
  intros Hit HO HL HC Hcl Hemb Htr Hdec.
  destruct (C50_relate it caus link h C crd Hit (oi_conv h HO) HL HC Hcl Hemb)
    as (h' & E & Hd & Hrel & Hirr & Hconv & Hcl' & Hlk & Hhl & HP' & Hout & Hrest).
  exists h'. split; [done|].
  assert (Hnd := iter_nodup it 31 C Hit).
  assert (Hlt : ∀ a b, a ∈ C → b ∈ C → ev_lt h' a b = true ↔
         le (crd a) (crd b) ∧ (¬ le (crd b) (crd a) ∨ earlier (it 31 C) a b)).
  { intros a b Ha Hb.
    assert (Ha' : a ∈ it 31 C) by by apply iter_elem. assert (Hb' : b ∈ it 31 C) by by apply iter_elem.
    apply elem_of_list_lookup in Ha' as [i Hi]. apply elem_of_list_lookup in Hb' as [j Hj].
    assert (He : earlier (it 31 C) a b ↔ i < j).
    { split; [|intros; exists i, j; done]. intros (i' & j' & Hi' & Hj' & ?).
      assert (i' = i) as -> by (by eapply NoDup_lookup). assert (j' = j) as -> by (by eapply NoDup_lookup). done. }
    rewrite He. destruct (lt_eq_lt_dec i j) as [[Hij|Hij]|Hij].
    - destruct (Hrel i j a b Hi Hj Hij) as [-> _]. destruct (Hdec a b Ha Hb) as [-> _]. tauto.
    - subst j. assert (a = b) as <- by congruence. rewrite (Hirr a Ha). split; [done|].
      intros [Hl [Hn|?]]; [|lia]. exfalso. exact (Hn Hl).
    - destruct (Hrel j i b a Hj Hi Hij) as [_ ->]. destruct (Hdec b a Hb Ha) as [_ ->].
      split; [tauto|]. intros [? [?|?]]; [tauto|lia]. }
  assert (Hbef : ∀ a b, before h' a b → (a ∈ C ∧ b ∈ C ∧ ev_lt h' a b = true) ∨ (a ∉ C ∧ b ∉ C ∧ before h a b)).
  { intros a b Hab. destruct (decide (b ∈ C)) as [Hb|Hb].
    - left. split_and!; [exact (proj1 (Hcl' b Hb) a Hab)|done|]. unfold ev_lt. by rewrite bool_decide_eq_true.
    - right. split_and!; [|done|].
      + intros Ha. apply Hb. apply Hconv in Hab. exact (proj2 (Hcl' a Ha) b Hab).
      + unfold before, prec in *. by rewrite <- (Hout b Hb). }
  assert (Hearl : ∀ a b c, earlier (it 31 C) a b → earlier (it 31 C) b c → earlier (it 31 C) a c).
  { intros a b c (i & j & Hi & Hj & ?) (j' & k & Hj' & Hk & ?).
    assert (j' = j) as -> by (by eapply NoDup_lookup). exists i, k. split_and!; [done|done|lia]. }
  assert (HO' : order_inv h').
  { split; [done|]. split.
    - intros a Haa. destruct (Hbef a a Haa) as [(Ha & _ & Hlt')|(_ & _ & ?)].
      + by rewrite (Hirr a Ha) in Hlt'.
      + by apply (oi_irr h HO a).
    - intros a b c Hab Hbc. destruct (Hbef a b Hab) as [(Ha & Hb & H1)|(Ha & Hb & H1)];
        destruct (Hbef b c Hbc) as [(Hb' & Hc & H2)|(Hb' & Hc & H2)]; try done.
      + apply (Hlt a b Ha Hb) in H1 as [L1 E1]. apply (Hlt b c Hb Hc) in H2 as [L2 E2].
        assert (H3 : ev_lt h' a c = true).
        { apply (Hlt a c Ha Hc). split; [by apply (Htr a b c)|].
          destruct E1 as [N1|E1].
          - left. intros Hca. apply N1. by apply (Htr b c a).
          - destruct E2 as [N2|E2]; [|right; by eapply Hearl].
            left. intros Hca. apply N2. by apply (Htr c a b). }
        unfold ev_lt in H3. by rewrite bool_decide_eq_true in H3.
      + unfold before, prec. rewrite (Hout c Hc). exact (oi_trans h HO a b c H1 H2). }
  split_and!; done.
Qed.
Theorem C50_partial_order (it : oracle) (caus : causality_fn) (link : bool) (h : heap) (C : gset nat)
    (crd : nat → list Q) (le : list Q → list Q → Prop) :
  iter_ok it → order_inv h → link_inv h → C ⊆ dom h → closed h C → embedded h C crd →
  (∀ a b c, a ∈ C → b ∈ C → c ∈ C → le (crd a) (crd b) → le (crd b) (crd c) → le (crd a) (crd c)) →
  (∀ a b, a ∈ C → b ∈ C → decides caus le (crd a) (crd b)) →
  ∃ h', relate it caus link C h = (h', Ok tt) ∧ order_inv h' ∧ link_inv h' ∧
    (∀ a b, a ∈ C → b ∈ C →
       ev_lt h' a b = true ↔
         le (crd a) (crd b) ∧ (¬ le (crd b) (crd a) ∨ earlier (it 31 C) a b)).
Proof.
  intros Hit HO HL HC Hcl Hemb Htr Hdec.
  destruct (C50_relate it caus link h C crd Hit (oi_conv h HO) (link_inv_paired h HL) HC Hcl Hemb)
    as (h' & E & Hd & Hrel & Hirr & Hconv & Hcl' & Hlk & Hhl & HP' & Hout & Hrest).
  destruct (relate_order it caus link h C crd le Hit HO (link_inv_paired h HL) HC Hcl Hemb Htr Hdec)
    as (h'' & E'' & HO' & _ & _ & _ & Hlt). rewrite E in E''. injection E'' as <-.
  exists h'. split; [done|].
  split_and!; [done| |done].
  intros x. destruct (decide (x ∈ C)) as [Hx|Hx].
  - specialize (Hhl x Hx). destruct link.
    + right. unfold hasBeenLinked in Hhl. destruct (lprec h' x) as [lp|] eqn:E1; [|done].
      destruct (lsucc h' x) as [ls|] eqn:E2; [|done]. exists lp, ls. split_and!; [done|done| |]; intros y;
      destruct (Hlk x y Hx) as [K1 K2]; unfold LinkPast, LinkFuture in *; rewrite E1 in K1; rewrite E2 in K2; done.
    + left. unfold hasBeenLinked in Hhl. pose proof (HP' x) as Hp.
      destruct (lprec h' x), (lsucc h' x); try done.
      * by destruct Hp as [_ ->]. * by destruct Hp as [-> _].
  - destruct (HL x) as [[N1 N2]|(lp & ls & H1 & H2 & H3 & H4)]; unfold lprec, lsucc in *; rewrite !(Hout x Hx); [by left|right].
    assert (Hbo : ∀ a b, a ∉ C ∨ b ∉ C → before h' a b ↔ before h a b).
    { intros a b Hn. destruct (decide (b ∈ C)) as [Hb|Hb].
      - split; intros Hab; exfalso.
        + destruct Hn as [Ha|?]; [|done]. apply Ha. exact (proj1 (Hcl' b Hb) a Hab).
        + destruct Hn as [Ha|?]; [|done]. apply Ha. exact (proj1 (Hcl b Hb) a Hab).
      - unfold before, prec. by rewrite (Hout b Hb). }
    assert (Hcov : ∀ a b, a ∉ C ∨ b ∉ C → covers (before h') a b ↔ covers (before h) a b).
    { intros a b Hn. unfold covers. rewrite (Hbo a b Hn). split; (intros [Hab Hno]; split; [done|]);
        intros (c & Hac & Hcb); apply Hno; exists c.
      - assert (Hc : c ∉ C).
        { intros Hc. destruct Hn as [Ha|Hb].
          - apply Ha. exact (proj1 (Hcl c Hc) a Hac).
          - apply Hb. apply (oi_conv h HO) in Hcb. exact (proj2 (Hcl c Hc) b Hcb). }
        rewrite !Hbo by tauto. done.
      - assert (Hc : c ∉ C).
        { intros Hc. destruct Hn as [Ha|Hb].
          - apply Ha. exact (proj1 (Hcl' c Hc) a Hac).
          - apply Hb. apply Hconv in Hcb. exact (proj2 (Hcl' c Hc) b Hcb). }
        rewrite <- !Hbo by tauto. done. }
    exists lp, ls. split_and!; [done|done| |]; intros y; rewrite Hcov by tauto; auto.
Qed.
Print Assumptions C50_partial_order.

(** ** C52 *)
Lemma create_full (it : oracle) (caus : causality_fn) (rows : list (list Q)) (fmt : label_format)
    (rel : bool) (h : heap) (C : gset nat) :
  iter_ok it → order_inv h → link_inv h → C ⊆ dom h → closed h C →
  (∀ x, x ∈ C → isEmbedded h x = true) →
  let xs := snd (create_events it fmt (Z.of_nat (size C) + 1)%Z rows h) in
  ∃ h', create it caus rows fmt rel C h = (h', C ∪ list_to_set xs, Ok (list_to_set xs)) ∧
    length xs = length rows ∧ NoDup xs ∧ (∀ x, x ∈ xs → x ∉ dom h) ∧ dom h' = dom h ∪ list_to_set xs ∧
    (∀ i x c, xs !! i = Some x → rows !! i = Some c →
       lab h' x = (match fmt with
                   | FmtNone => LInt (Z.of_nat (Card C + 1 + i))
                   | FmtEmpty => LStr ""
                   | FmtStr f => LStr (f (Z.of_nat (Card C + 1 + i)))
                   end) ∧ Coordinates h' x = Ok c) ∧
    (∀ x, x ∈ dom h → lab h' x = lab h x ∧ Coordinates h' x = Coordinates h x) ∧
    (∀ x, x ∈ dom h → x ∉ C → h' !!! x = h !!! x) ∧
    closed h' (C ∪ list_to_set xs) ∧
    (rel = false → order_inv h' ∧ link_inv h' ∧ ∀ a b, before h' a b ↔ before h a b) ∧
    (rel = true →
      (∀ i j a b ca cb, it 31 (C ∪ list_to_set xs) !! i = Some a → it 31 (C ∪ list_to_set xs) !! j = Some b →
         i < j → Coordinates h' a = Ok ca → Coordinates h' b = Ok cb →
         (ev_lt h' a b = true ↔ (caus ca cb).1 = true) ∧ (ev_lt h' b a = true ↔ (caus ca cb).2 = true)) ∧
      (∀ x, x ∈ C ∪ list_to_set xs → ev_lt h' x x = false ∧ hasBeenLinked h' x = true) ∧
      (∀ a b, a ∈ Past h' b ↔ b ∈ Future h' a) ∧
      (∀ (crd : nat → list Q) (le : list Q → list Q → Prop), let C' := C ∪ list_to_set xs in
         embedded h' C' crd →
         (∀ a b c, a ∈ C' → b ∈ C' → c ∈ C' → le (crd a) (crd b) → le (crd b) (crd c) → le (crd a) (crd c)) →
         (∀ a b, a ∈ C' → b ∈ C' → decides caus le (crd a) (crd b)) →
         order_inv h' ∧ link_inv h' ∧
         (∀ a b, a ∈ C' → b ∈ C' →
            ev_lt h' a b = true ↔ le (crd a) (crd b) ∧ (¬ le (crd b) (crd a) ∨ earlier (it 31 C') a b)))).
Proof.
  intros Hit HO HL HC Hcl Hemb. cbv zeta. unfold create.
  pose proof (create_events_spec it fmt rows (Z.of_nat (size C) + 1)%Z h Hit) as Hce.
  destruct (create_events it fmt (Z.of_nat (size C) + 1)%Z rows h) as [h1 xs]. cbn [fst snd] in *.
  destruct Hce as (Hlen & Hnd & Hfr & Hdom & Hold & Hnew).
  assert (Hnew' : ∀ x, x ∈ xs → ∃ i c, xs !! i = Some x ∧ rows !! i = Some c).
  { intros x Hx. apply elem_of_list_lookup in Hx as [i Hi]. exists i.
    destruct (lookup_lt_is_Some_2 rows i) as [c Hc]; [|eauto].
    rewrite <- Hlen. by eapply lookup_lt_Some. }
  assert (Hiso : ∀ x, x ∈ xs → prec h1 x = ∅ ∧ succ h1 x = ∅ ∧ lprec h1 x = None ∧ lsucc h1 x = None).
  { intros x Hx. destruct (Hnew' x Hx) as (i & c & Hi & Hc). unfold prec, succ, lprec, lsucc.
    by rewrite (Hnew i x c Hi Hc). }
  destruct (isolated_order h h1 xs HO HL Hfr Hold Hiso) as (Hb & HO1 & HL1).
  set (C' := C ∪ list_to_set xs).
  assert (Hxs : ∀ x, x ∈ dom h → x ∉ xs) by (intros x H1 H2; exact (Hfr x H2 H1)).
  assert (Hcl1 : closed h1 C').
  { intros x Hx. unfold C' in *. destruct (decide (x ∈ xs)) as [Hx'|Hx'].
    - destruct (Hiso x Hx') as (-> & -> & _). split; apply empty_subseteq.
    - unfold prec, succ. rewrite (Hold x Hx'). rewrite elem_of_union, elem_of_list_to_set in Hx.
      destruct Hx as [Hx|?]; [|done]. destruct (Hcl x Hx) as [H1 H2]. unfold prec, succ in *. set_solver. }
  assert (HC1 : C' ⊆ dom h1).
  { rewrite Hdom. intros x Hx. unfold C' in Hx. rewrite elem_of_union in *. destruct Hx; [left; by apply HC|by right]. }
  set (crd := λ x, default [] (Base.coords h1 x)).
  assert (Hemb1 : embedded h1 C' crd).
  { intros x Hx. unfold C' in Hx. rewrite elem_of_union, elem_of_list_to_set in Hx.
    unfold Coordinates, crd, Base.coords. destruct (decide (x ∈ xs)) as [Hx'|Hx'].
    - destruct (Hnew' x Hx') as (i & c & Hi & Hc). by rewrite (Hnew i x c Hi Hc).
    - rewrite (Hold x Hx'). destruct Hx as [Hx|?]; [|done]. specialize (Hemb x Hx). unfold isEmbedded, Base.coords in Hemb.
      by destruct (ev_coords (h !!! x)). }
  assert (Hlab1 : ∀ i x c, xs !! i = Some x → rows !! i = Some c →
       lab h1 x = (match fmt with
                   | FmtNone => LInt (Z.of_nat (Card C + 1 + i))
                   | FmtEmpty => LStr ""
                   | FmtStr f => LStr (f (Z.of_nat (Card C + 1 + i)))
                   end) ∧ Base.coords h1 x = Some c).
  { intros i x c Hi Hc. unfold lab, Base.coords. rewrite (Hnew i x c Hi Hc). cbn. split; [|done]. unfold emb_label, Card.
    replace (Z.of_nat (size C) + 1 + Z.of_nat i)%Z with (Z.of_nat (size C + 1 + i)) by lia. by destruct fmt. }
  destruct rel.
  - destruct (C50_relate it caus true h1 C' crd Hit (oi_conv h1 HO1) (link_inv_paired h1 HL1) HC1 Hcl1 Hemb1)
      as (h' & E & Hd & Hrel & Hirr & Hconv & Hcl' & Hlk & Hhl & HP' & Hout & Hrest).
    rewrite E. exists h'. fold C'. split_and!.
    + done. + done. + done. + done. + congruence.
    + intros i x c Hi Hc. unfold Coordinates. destruct (Hrest x) as (-> & -> & _).
      destruct (Hlab1 i x c Hi Hc) as [-> ->]. done.
    + intros x Hx. unfold Coordinates. destruct (Hrest x) as (-> & -> & _). unfold lab, Base.coords. by rewrite (Hold x (Hxs x Hx)).
    + intros x Hx Hn. rewrite Hout; [apply Hold; by apply Hxs|]. unfold C'. rewrite elem_of_union, elem_of_list_to_set.
      intros [?|Hx']; [done|]. exact (Hxs x Hx Hx').
    + done.
    + done.
    + intros _. split_and!.
      * intros i j a b ca cb Hi Hj Hij Ha Hb'.
        assert (Hca : ∀ k z cz, it 31 C' !! k = Some z → Coordinates h' z = Ok cz → crd z = cz).
        { intros k z cz Hk Hz. assert (Hz' : z ∈ C').
          { rewrite <- (iter_elem it 31 C' z Hit). by eapply elem_of_list_lookup_2. }
          specialize (Hemb1 z Hz'). unfold Coordinates in *. destruct (Hrest z) as (_ & Ez & _). rewrite Ez in Hz.
          destruct (Base.coords h1 z); congruence. }
        rewrite <- (Hca i a ca Hi Ha), <- (Hca j b cb Hj Hb'). by apply (Hrel i j).
      * intros x Hx. split; [by apply Hirr|by apply Hhl].
      * done.
      * intros crd' le Hemb' Htr Hdec. fold C' in Hemb', Htr, Hdec.
        destruct (C50_partial_order it caus true h1 C' crd' le Hit HO1 HL1 HC1 Hcl1) as (h'' & E'' & G); [|done|done|].
        { intros x Hx. rewrite <- (Hemb' x Hx). unfold Coordinates. by destruct (Hrest x) as (_ & -> & _). }
        rewrite E in E''. injection E'' as <-. exact G.
  - exists h1. fold C'. split_and!.
    + done. + done. + done. + done. + done.
    + intros i x c Hi Hc. unfold Coordinates. destruct (Hlab1 i x c Hi Hc) as [-> ->]. done.
    + intros x Hx. unfold Coordinates, lab, Base.coords. by rewrite (Hold x (Hxs x Hx)).
    + intros x Hx _. apply Hold. by apply Hxs.
    + done.
    + done.
    + done.
Qed.
Theorem C52_create (it : oracle) (caus : causality_fn) (rows : list (list Q)) (fmt : label_format)
    (rel : bool) (h : heap) (C : gset nat) :
  iter_ok it → order_inv h → link_inv h → C ⊆ dom h → closed h C →
  (∀ x, x ∈ C → isEmbedded h x = true) →
  ∃ h' xs, create it caus rows fmt rel C h = (h', C ∪ list_to_set xs, Ok (list_to_set xs)) ∧
    length xs = length rows ∧ NoDup xs ∧ (∀ x, x ∈ xs → x ∉ dom h) ∧ dom h' = dom h ∪ list_to_set xs ∧
    (∀ i x c, xs !! i = Some x → rows !! i = Some c →
       lab h' x = (match fmt with
                   | FmtNone => LInt (Z.of_nat (Card C + 1 + i))
                   | FmtEmpty => LStr ""
                   | FmtStr f => LStr (f (Z.of_nat (Card C + 1 + i)))
                   end) ∧ Coordinates h' x = Ok c) ∧
    (∀ x, x ∈ dom h → lab h' x = lab h x ∧ Coordinates h' x = Coordinates h x) ∧
    (∀ x, x ∈ dom h → x ∉ C → h' !!! x = h !!! x) ∧
    closed h' (C ∪ list_to_set xs) ∧
    (rel = false → order_inv h' ∧ link_inv h' ∧ ∀ a b, before h' a b ↔ before h a b) ∧
    (rel = true →
      (∀ i j a b ca cb, it 31 (C ∪ list_to_set xs) !! i = Some a → it 31 (C ∪ list_to_set xs) !! j = Some b →
         i < j → Coordinates h' a = Ok ca → Coordinates h' b = Ok cb →
         (ev_lt h' a b = true ↔ (caus ca cb).1 = true) ∧ (ev_lt h' b a = true ↔ (caus ca cb).2 = true)) ∧
      (∀ x, x ∈ C ∪ list_to_set xs → ev_lt h' x x = false ∧ hasBeenLinked h' x = true) ∧
      (∀ a b, a ∈ Past h' b ↔ b ∈ Future h' a) ∧
      (∀ (crd : nat → list Q) (le : list Q → list Q → Prop), let C' := C ∪ list_to_set xs in
         embedded h' C' crd →
         (∀ a b c, a ∈ C' → b ∈ C' → c ∈ C' → le (crd a) (crd b) → le (crd b) (crd c) → le (crd a) (crd c)) →
         (∀ a b, a ∈ C' → b ∈ C' → decides caus le (crd a) (crd b)) →
         order_inv h' ∧ link_inv h' ∧
         (∀ a b, a ∈ C' → b ∈ C' →
            ev_lt h' a b = true ↔ le (crd a) (crd b) ∧ (¬ le (crd b) (crd a) ∨ earlier (it 31 C') a b)))).
Proof.
  intros Hit HO HL HC Hcl Hemb.
  destruct (create_full it caus rows fmt rel h C Hit HO HL HC Hcl Hemb) as (h' & H).
  exists h'. eexists. exact H.
Qed.
Print Assumptions C52_create.
(** What numpy.argsort guarantees for a list of numbers. *)
Definition argsort_num_ok (argsort : argsort_num) : Prop :=
  ∀ vs, argsort vs ≡ₚ seq 0 (length vs) ∧
    ∀ i j a b va vb, argsort vs !! i = Some a → argsort vs !! j = Some b → i < j →
      vs !! a = Some va → vs !! b = Some vb → (va <= vb)%Q.
Lemma dim_values_ok h (dim : nat) (crd : nat → list Q) l :
  (∀ e, e ∈ l → Coordinates h e = Ok (crd e) ∧ dim < length (crd e)) →
  dim_values h (Z.of_nat dim) l = Ok ((λ e, nth dim (crd e) 0%Q) <$> l).
Proof.
  induction l as [|e l IH]; intros Hl; [done|]. cbn [dim_values].
  destruct (Hl e) as [-> Hd]; [apply elem_of_list_here|]. cbn [res_bind]. unfold py_nth.
  destruct (decide (Z.of_nat dim < 0)%Z); [lia|]. cbn zeta. destruct (decide (Z.of_nat dim < 0)%Z); [lia|].
  rewrite Nat2Z.id. destruct (lookup_lt_is_Some_2 (crd e) dim Hd) as [v Hv]. rewrite Hv. cbn [res_bind].
  rewrite IH by (intros; apply Hl; by apply elem_of_list_further). cbn. by rewrite (nth_lookup_Some _ _ _ _ Hv).
Qed.
Lemma set_labels_spec l : ∀ u h, NoDup l → (∀ x, x ∈ l → x ∈ dom h) →
  let h' := set_labels u l h in
  dom h' = dom h ∧ (∀ y, y ∉ l → h' !!! y = h !!! y) ∧
  (∀ i x, l !! i = Some x → h' !!! x = set_label (LInt (u + Z.of_nat i)) (h !!! x)).
Proof.
  induction l as [|a l IH]; intros u h Hnd Hd; cbn [set_labels]; [done|]. cbn zeta.
  apply NoDup_cons in Hnd as [Ha Hnd].
  set (h1 := upd _ a h). assert (Hd1 : dom h1 = dom h) by (apply upd_dom, Hd, elem_of_list_here).
  destruct (IH (u + 1)%Z h1 Hnd) as (I1 & I2 & I3).
  { intros x Hx. rewrite Hd1. apply Hd. by apply elem_of_list_further. }
  split_and!.
  - congruence.
  - intros y [Hy1 Hy2]%not_elem_of_cons. rewrite I2 by done. unfold h1. by rewrite upd_other by done.
  - intros [|i] x Hi; cbn in Hi.
    + injection Hi as <-. rewrite I2 by done. unfold h1. rewrite upd_same. by rewrite Z.add_0_r.
    + assert (a ≠ x) by (intros ->; apply Ha; by eapply elem_of_list_lookup_2).
      rewrite (I3 i x Hi). unfold h1. rewrite upd_other by done. do 2 f_equal. lia.
Qed.
Theorem C52_relabel (it : oracle) (argsort : argsort_num) (dim : nat) (descending : bool) (h : heap) (C : gset nat)
    (crd : nat → list Q) :
  iter_ok it → argsort_num_ok argsort → C ⊆ dom h → embedded h C crd →
  (∀ x, x ∈ C → dim < length (crd x)) →
  ∃ h' (number : nat → nat), relabel it argsort (Z.of_nat dim) descending C h = (h', Ok tt) ∧
    (∀ x, x ∈ C → lab h' x = LInt (Z.of_nat (number x)) ∧ 1 ≤ number x ≤ Card C) ∧
    (∀ x y, x ∈ C → y ∈ C → number x = number y → x = y) ∧
    (∀ x y, x ∈ C → y ∈ C → number x < number y →
       let vx := nth dim (crd x) 0%Q in let vy := nth dim (crd y) 0%Q in
       if descending then (vy <= vx)%Q else (vx <= vy)%Q) ∧
    (∀ x, x ∉ C → h' !!! x = h !!! x) ∧ dom h' = dom h ∧
    (∀ x, prec h' x = prec h x ∧ succ h' x = succ h x ∧ lprec h' x = lprec h x ∧ lsucc h' x = lsucc h x ∧
          Base.coords h' x = Base.coords h x ∧ Base.pos h' x = Base.pos h x).
Proof.
  intros Hit Has HC Hemb Hdim. unfold relabel.
  set (l := it 32 C). assert (Hl : ∀ x, x ∈ l ↔ x ∈ C) by (intros x; by apply iter_elem).
  assert (Hnd : NoDup l) by by apply iter_nodup.
  assert (Hlen : length l = Card C) by (unfold l, Card; rewrite (Hit 32 C); done).
  rewrite (dim_values_ok h dim crd l) by (intros e He; apply Hl in He; auto).
  set (vs := (λ e, nth dim (crd e) 0%Q) <$> l).
  assert (Hvl : length vs = length l) by apply fmap_length.
  destruct (Has vs) as [Hperm Hsort].
  set (idx := if descending then reverse (argsort vs) else argsort vs).
  assert (Hperm' : idx ≡ₚ seq 0 (length l)).
  { unfold idx. rewrite <- Hvl, <- Hperm. destruct descending; [apply reverse_Permutation|done]. }
  assert (Hidl : length idx = length l) by (rewrite Hperm'; apply seq_length).
  assert (Hidlt : ∀ i k, idx !! i = Some k → k < length l).
  { intros i k Hk. assert (Hin : k ∈ idx) by by eapply elem_of_list_lookup_2. rewrite Hperm' in Hin.
    apply elem_of_seq in Hin. lia. }
  assert (Hidnd : NoDup idx) by (rewrite Hperm'; apply NoDup_seq).
  set (L := (λ i, l !!! i) <$> idx).
  assert (HLl : L ≡ₚ l).
  { unfold L. rewrite Hperm'. clear. induction l as [|a l IH]; [done|]. cbn. f_equiv.
    rewrite <- seq_shift, <- list_fmap_compose. exact IH. }
  assert (HLnd : NoDup L) by by rewrite HLl.
  destruct (set_labels_spec L 1 h HLnd) as (I1 & I2 & I3).
  { intros x Hx. rewrite HLl in Hx. apply HC. by apply Hl. }
  set (h' := set_labels 1 L h) in *.
  assert (Hpos : ∀ x, x ∈ C → ∃ i, L !! i = Some x).
  { intros x Hx. apply elem_of_list_lookup. rewrite HLl. by apply Hl. }
  set (number := λ x, match list_find (λ y, y = x) L with Some (i, _) => S i | None => 0 end).
  assert (Hnum : ∀ i x, L !! i = Some x → number x = S i).
  { intros i x Hi. unfold number. destruct (list_find (λ y, y = x) L) as [[j y]|] eqn:Ef.
    - apply list_find_Some in Ef as (Hj & -> & _). f_equal. by eapply NoDup_lookup.
    - exfalso. apply list_find_None in Ef. rewrite Forall_forall in Ef. apply (Ef x); [|done]. by eapply elem_of_list_lookup_2. }
  exists h', number. split_and!.
  - done.
  - intros x Hx. destruct (Hpos x Hx) as [i Hi]. rewrite (Hnum i x Hi). unfold lab. rewrite (I3 i x Hi). cbn. split.
    + f_equal. lia.
    + apply lookup_lt_Some in Hi. unfold L in Hi. rewrite fmap_length in Hi. lia.
  - intros x y Hx Hy. destruct (Hpos x Hx) as [i Hi], (Hpos y Hy) as [j Hj].
    rewrite (Hnum i x Hi), (Hnum j y Hj). intros E. injection E as ->. congruence.
  - intros x y Hx Hy. destruct (Hpos x Hx) as [i Hi], (Hpos y Hy) as [j Hj].
    rewrite (Hnum i x Hi), (Hnum j y Hj). intros Hij. cbn zeta.
    unfold L in Hi, Hj. rewrite list_lookup_fmap in Hi, Hj.
    destruct (idx !! i) as [ki|] eqn:Eki; [|done]. destruct (idx !! j) as [kj|] eqn:Ekj; [|done].
    cbn in Hi, Hj. injection Hi as Hi. injection Hj as Hj.
    assert (Hki : vs !! ki = Some (nth dim (crd x) 0%Q)).
    { unfold vs. rewrite list_lookup_fmap. rewrite (list_lookup_lookup_total_lt l ki) by by eapply Hidlt. cbn. by rewrite Hi. }
    assert (Hkj : vs !! kj = Some (nth dim (crd y) 0%Q)).
    { unfold vs. rewrite list_lookup_fmap. rewrite (list_lookup_lookup_total_lt l kj) by by eapply Hidlt. cbn. by rewrite Hj. }
    unfold idx in Eki, Ekj. destruct descending.
    + assert (Hal : length (argsort vs) = length l) by (rewrite Hperm, seq_length; done).
      pose proof (lookup_lt_Some _ _ _ Eki) as Hil. pose proof (lookup_lt_Some _ _ _ Ekj) as Hjl.
      rewrite reverse_length in Hil, Hjl. rewrite reverse_lookup in Eki, Ekj by lia.
      apply (Hsort (length (argsort vs) - S j) (length (argsort vs) - S i) kj ki); (done || lia).
    + apply (Hsort i j ki kj); (done || lia).
  - intros x Hx. apply I2. rewrite HLl. by rewrite Hl.
  - done.
  - intros x. destruct (decide (x ∈ L)) as [Hx|Hx].
    + apply elem_of_list_lookup in Hx as [i Hi]. unfold prec, succ, lprec, lsucc, Base.coords, Base.pos.
      rewrite (I3 i x Hi). done.
    + unfold prec, succ, lprec, lsucc, Base.coords, Base.pos. rewrite (I2 x Hx). done.
Qed.
Print Assumptions C52_relabel.
Theorem C52_relabel_errors (it : oracle) (argsort : argsort_num) (dim : Z) (descending : bool) (h : heap) (C : gset nat) (x : nat) :
  iter_ok it → x ∈ C →
  ((∀ y, y ∈ C → isEmbedded h y = false) → relabel it argsort dim descending C h = (h, Err AttributeError)) ∧
  ((∀ y, y ∈ C → ∃ c, Coordinates h y = Ok c ∧ (Z.of_nat (length c) <= dim ∨ dim < - Z.of_nat (length c))%Z) →
     relabel it argsort dim descending C h = (h, Err IndexError)).
Proof.
  intros Hit Hx. unfold relabel. destruct (it 32 C) as [|e l] eqn:El.
  { exfalso. assert (Hx' : x ∈ it 32 C) by by apply iter_elem. rewrite El in Hx'. by apply elem_of_nil in Hx'. }
  assert (He : e ∈ C) by (rewrite <- (iter_elem it 32 C e Hit), El; apply elem_of_list_here).
  cbn [dim_values]. split; intros Hall; specialize (Hall e He).
  - unfold isEmbedded in Hall. unfold Coordinates. apply bool_decide_eq_false in Hall.
    by rewrite (proj2 (eq_None_not_Some (Base.coords h e)) Hall).
  - destruct Hall as (c & -> & Hc). cbn [res_bind]. unfold py_nth. cbn zeta.
    assert (Hp : (if decide ((if decide (dim < 0)%Z then (dim + Z.of_nat (length c))%Z else dim) < 0)%Z
       then Err IndexError
       else match c !! Z.to_nat (if decide (dim < 0)%Z then (dim + Z.of_nat (length c))%Z else dim) with
            | Some v => Ok v | None => Err IndexError end) = Err IndexError :> res Q); [|by rewrite Hp].
    destruct (decide (dim < 0)%Z).
    + destruct (decide (dim + Z.of_nat (length c) < 0)%Z); [done|lia].
    + destruct (decide (dim < 0)%Z); [lia|]. rewrite lookup_ge_None_2; [done|lia].
Qed.
Print Assumptions C52_relabel_errors.

(** ** C50 for the spacetimes of the package (tolerance 0) *)
(** Where the causality of a spacetime is transitive: everywhere, within one period of a
    periodic flat spacetime, in the diamond of the 2-dimensional Anti-de Sitter spacetime. *)
Definition ordered_region (st : spacetime) (X : SpacetimeModel.coords → Prop) : Prop :=
  match st with
  | Flat _ (Some ps) => ∀ x y, X x → X y → within_period ps x y
  | AntiDeSitter 2 a => ∀ x, X x → AdS_diamond a (cget x 0) (cget x 1)
  | AntiDeSitter _ _ => False
  | _ => True
  end.
Lemma causality_decides eps st x y : constructed st →
  decides (caus_of eps st) (λ a b, (caus_of eps st a b).1 = true) x y.
Proof.
  intros Hst. unfold decides, caus_of. split; [done|].
  set (a := Q2R <$> x). set (b := Q2R <$> y).
  pose proof (C46_exclusive eps st a b) as He.
  destruct (C46_swap eps st a b Hst) as [E|(E1 & E2 & _)].
  - rewrite E. cbn. destruct (Causality eps st a b) as [[] []]; cbn in *; try done; intuition congruence.
  - rewrite E1, E2. cbn. intuition congruence.
Qed.
Lemma constructed_pos st : constructed st →
  match st with
  | Generic => True
  | Flat d _ => 1 ≤ d
  | DeSitter d a | AntiDeSitter d a => 2 ≤ d ∧ (0 < a)%R
  | BlackHole r _ => (0 < r)%R
  end.
Proof.
  intros H. pose proof H as H0.
  destruct H as [?|[(? & p & H)|[(? & ? & H)|[(? & ? & H)|(? & ? & ? & H)]]]]; subst; try done.
  - unfold FlatSpacetime in H. case_decide; [done|]. destruct p; try done; repeat (case_decide; try done);
      injection H as <-; lia.
  - unfold deSitterSpacetime in H. repeat (case_decide; try done). injection H as <-. split; [lia|lra].
  - unfold AntideSitterSpacetime in H. repeat (case_decide; try done). injection H as <-. split; [lia|lra].
  - unfold BlackHoleSpacetime in H. repeat (case_decide; try done); injection H as <-; lra.
Qed.
Lemma causality_transitive st X x y z : constructed st → ordered_region st X → X x → X y → X z →
  length x = Dim st → length y = Dim st → length z = Dim st →
  (Causality 0 st x y).1 = true → (Causality 0 st y z).1 = true → (Causality 0 st x z).1 = true.
Proof.
  intros Hst HR X1 X2 X3 L1 L2 L3. pose proof (constructed_pos st Hst) as Hp.
  destruct st as [|dim ps|dim a|dim a|r schw].
  - cbn. rewrite !bool_decide_eq_true. lra.
  - cbn [Dim] in *. destruct (decide (dim = 1)) as [->|Hd].
    { rewrite !C47_one_dimension. lra. }
    destruct ps as [ps|].
    + apply (C47_periodic dim ps x y z); [lia|done|done|done|by apply HR..].
    + apply (C47_flat dim x y z); [lia|done..].
  - cbn [Dim] in *. destruct Hp. apply (C48_deSitter dim a x y z); [done..|lia].
  - destruct dim as [|[|[|dim]]]; try done. cbn [Dim] in *. destruct Hp as [_ Ha].
    destruct x as [|x0 [|x1 [|? ?]]]; try done. destruct y as [|y0 [|y1 [|? ?]]]; try done.
    destruct z as [|z0 [|z1 [|? ?]]]; try done.
    specialize (HR _ X1) as D1. specialize (HR _ X2) as D2. specialize (HR _ X3) as D3.
    unfold cget in D1, D2, D3. cbn in D1, D2, D3.
    rewrite !C48_AntideSitter_light_rays by done. intros H1 H2.
    pose proof (Rabs_triang (atan (z1 / a) - atan (y1 / a)) (atan (y1 / a) - atan (x1 / a))) as Ht.
    replace (atan (z1 / a) - atan (y1 / a) + (atan (y1 / a) - atan (x1 / a)))%R
      with (atan (z1 / a) - atan (x1 / a))%R in Ht by lra. lra.
  - cbn [Dim] in *. apply (C49_transitive r schw x y z); done.
Qed.
Theorem C50_spacetimes (it : oracle) (st : spacetime) (link : bool) (h : heap) (C : gset nat) (crd : nat → list Q) :
  iter_ok it → order_inv h → link_inv h → C ⊆ dom h → closed h C → embedded h C crd → constructed st →
  (∀ x, x ∈ C → length (crd x) = Dim st) →
  ordered_region st (λ p, ∃ x, x ∈ C ∧ p = Q2R <$> crd x) →
  let le a b := (Causality 0 st (Q2R <$> crd a) (Q2R <$> crd b)).1 = true in
  ∃ h', relate it (caus_of 0 st) link C h = (h', Ok tt) ∧ order_inv h' ∧ link_inv h' ∧
    (∀ a b, a ∈ C → b ∈ C → ev_lt h' a b = true ↔ le a b ∧ (¬ le b a ∨ earlier (it 31 C) a b)).
Proof.
  intros Hit HO HL HC Hcl Hemb Hst Hlen HR le.
  apply (C50_partial_order it (caus_of 0 st) link h C crd (λ a b, (caus_of 0 st a b).1 = true)); try done.
  - intros a b c Ha Hb Hc. unfold caus_of.
    eapply (causality_transitive st _ _ _ _ Hst HR); [by exists a|by exists b|by exists c|rewrite fmap_length; auto..].
  - intros a b Ha Hb. by apply causality_decides.
Qed.
Print Assumptions C50_spacetimes.
(** Minkowski spacetime: exactly the causal order of the coordinates; only events at the same
    point are ordered by the iteration order of the set. *)
Theorem C50_minkowski (it : oracle) (dim : nat) (link : bool) (h : heap) (C : gset nat) (crd : nat → list Q) :
  iter_ok it → order_inv h → link_inv h → C ⊆ dom h → closed h C → embedded h C crd → 2 ≤ dim →
  (∀ x, x ∈ C → length (crd x) = dim) →
  ∃ h', relate it (caus_of 0 (Flat dim None)) link C h = (h', Ok tt) ∧ order_inv h' ∧ link_inv h' ∧
    (∀ a b, a ∈ C → b ∈ C →
       let x := Q2R <$> crd a in let y := Q2R <$> crd b in
       (x ≠ y → ev_lt h' a b = true ↔ minkowski_future dim x y) ∧
       (x = y → ev_lt h' a b = true ↔ earlier (it 31 C) a b)).
Proof.
  intros Hit HO HL HC Hcl Hemb Hd Hlen.
  assert (Hst : constructed (Flat dim None)).
  { right; left. exists (Z.of_nat dim), (PFloat 0). unfold FlatSpacetime.
    destruct (decide (Z.of_nat dim < 1)%Z); [lia|]. destruct (decide (0 < 0)%R) as [?|_]; [lra|]. by rewrite Nat2Z.id. }
  destruct (C50_spacetimes it (Flat dim None) link h C crd Hit HO HL HC Hcl Hemb Hst Hlen I)
    as (h' & E & HO' & HL' & Hlt). exists h'. split_and!; [done..|].
  intros a b Ha Hb x y. specialize (Hlt a b Ha Hb). cbn zeta in Hlt. fold x y in Hlt.
  assert (Lx : length x = dim) by (unfold x; rewrite fmap_length; auto).
  assert (Ly : length y = dim) by (unfold y; rewrite fmap_length; auto).
  destruct (C47_flat dim x y x) as (F1 & F2 & _ & F4); [lia|done..|]. cbn zeta in *.
  split.
  - intros Hn. rewrite Hlt, <- F1. split; [tauto|]. intros Hle. split; [done|]. left. intros Hle'. by apply Hn, F4.
  - intros Heq. rewrite Hlt. rewrite <- Heq. split; [intros [_ [?|?]]; done|]. intros Hea. split; [done|by right].
Qed.
Print Assumptions C50_minkowski.

(** ** C50: what goes wrong *)
Definition it_sorted : oracle := λ _ s, merge_sort le (elements s).
Lemma it_sorted_ok : iter_ok it_sorted.
Proof. intros k s. apply merge_sort_Permutation. Qed.
Definition it_sorted_down : oracle := λ k s, reverse (it_sorted k s).
Lemma it_sorted_down_ok : iter_ok it_sorted_down.
Proof. intros k s. unfold it_sorted_down. rewrite reverse_Permutation. apply it_sorted_ok. Qed.
Lemma empty_inv : order_inv ∅ ∧ link_inv ∅ ∧ closed ∅ ∅.
Proof. split_and!; [apply order_inv_empty|apply link_inv_empty|]. intros x Hx. by apply elem_of_empty in Hx. Qed.

(** Two events at the same point are related, and in which direction is decided by the order
    in which the Python set of events is iterated. *)
Theorem C50_same_point_refuted (eps : R) : (0 <= eps)%R →
  ∃ it1 it2 h1 h2 C a b, iter_ok it1 ∧ iter_ok it2 ∧ a ∈ C ∧ b ∈ C ∧
    let rows := [[0; 0]; [0; 0]]%Q in
    create it1 (caus_of eps (Flat 2 None)) rows FmtNone true ∅ ∅ = (h1, C, Ok C) ∧
    create it2 (caus_of eps (Flat 2 None)) rows FmtNone true ∅ ∅ = (h2, C, Ok C) ∧
    ev_lt h1 a b = true ∧ ev_lt h1 b a = false ∧ ev_lt h2 b a = true ∧ ev_lt h2 a b = false.
Proof.
  intros He. set (rows := [[0; 0]; [0; 0]]%Q). destruct empty_inv as (HO & HL & Hcl).
  assert (Hc : caus_of eps (Flat 2 None) [0; 0]%Q [0; 0]%Q = (true, false)).
  { unfold caus_of. change (Causality eps (Flat 2 None)) with (isCausal_flat2D eps).
    unfold isCausal_flat2D, cget, by_sign. cbn [fmap list_fmap nth].
    replace (Q2R 0 - Q2R 0)%R with 0%R by lra. rewrite Rabs_R0. rewrite !bool_decide_true by lra. by rewrite bool_decide_false by lra. }
  assert (Hone : ∀ it a b, iter_ok it → snd (create_events it FmtNone 1 rows ∅) = [0; 1] →
     it 31 (∅ ∪ {[0; 1]}) = [a; b] → 
     ∃ h', create it (caus_of eps (Flat 2 None)) rows FmtNone true ∅ ∅ = (h', {[0; 1]}, Ok {[0; 1]}) ∧
       ev_lt h' a b = true ∧ ev_lt h' b a = false).
  { intros it a b Hit Hids Hl.
    destruct (create_full it (caus_of eps (Flat 2 None)) rows FmtNone true ∅ ∅ Hit HO HL)
      as (h' & E & _ & _ & _ & _ & Hnew & _ & _ & _ & _ & Hrel); [set_solver|done| |].
    { intros x Hx. by apply elem_of_empty in Hx. }
    change (Z.of_nat (size (∅ : gset nat)) + 1)%Z with 1%Z in *. rewrite Hids in *.
    assert (Es : list_to_set [0; 1] = ({[0; 1]} : gset nat)) by (cbn; by rewrite union_empty_r_L).
    rewrite Es in *. rewrite union_empty_l_L in E. exists h'. split; [done|].
    destruct (Hrel eq_refl) as (Hpair & _).
    assert (Hcrd : ∀ x, x ∈ [0; 1] → Coordinates h' x = Ok [0; 0]%Q).
    { intros x Hx. apply elem_of_list_lookup in Hx as [i Hi]. assert (rows !! i = Some [0; 0]%Q).
      { destruct i as [|[|i]]; done. } by apply (Hnew i x). }
    assert (Hin : ∀ x, x ∈ [a; b] → x ∈ [0; 1]).
    { intros x Hx. rewrite <- Hl in Hx. rewrite iter_elem in Hx by done. clear -Hx. set_solver. }
    destruct (Hpair 0 1 a b [0; 0]%Q [0; 0]%Q) as [P1 P2]; [by rewrite Hl|by rewrite Hl|lia|
      apply Hcrd, Hin, elem_of_list_here|apply Hcrd, Hin, elem_of_list_further, elem_of_list_here|].
    rewrite Hc in P1, P2. cbn in P1, P2. split; [by apply P1|]. apply not_true_is_false. intros H. by apply P2 in H. }
  destruct (Hone it_sorted 0 1 it_sorted_ok) as (h1 & E1 & A1 & A2); [vm_compute; reflexivity..|].
  destruct (Hone it_sorted_down 1 0 it_sorted_down_ok) as (h2 & E2 & B1 & B2); [vm_compute; reflexivity..|].
  exists it_sorted, it_sorted_down, h1, h2, {[0; 1]}, 0, 1.
  split_and!; [apply it_sorted_ok|apply it_sorted_down_ok|set_solver|set_solver|done..].
Qed.
Print Assumptions C50_same_point_refuted.
(** With the tolerance of the code the created "order" need not be transitive. *)
Theorem C50_tolerance_refuted :
  ∃ it h C a b c, iter_ok it ∧ a ∈ C ∧ b ∈ C ∧ c ∈ C ∧
    create it (caus_of causality_eps (Flat 2 None))
      [[0; 0]; [0; 1 # 10 ^ 12]; [0; 2 # 10 ^ 12]]%Q FmtNone true ∅ ∅ = (h, C, Ok C) ∧
    ev_lt h a b = true ∧ ev_lt h b c = true ∧ ev_lt h a c = false.
Proof.
  destruct empty_inv as (HO & HL & Hcl).
  set (rows := [[0; 0]; [0; 1 # 10 ^ 12]; [0; 2 # 10 ^ 12]]%Q).
  destruct (create_full it_sorted (caus_of causality_eps (Flat 2 None)) rows FmtNone true ∅ ∅ it_sorted_ok HO HL)
      as (h' & E & _ & _ & _ & _ & Hnew & _ & _ & _ & _ & Hrel); [set_solver|done| |].
  { intros x Hx. by apply elem_of_empty in Hx. }
  assert (Hids : snd (create_events it_sorted FmtNone (Z.of_nat (size (∅ : gset nat)) + 1)%Z rows ∅) = [0; 1; 2])
    by (vm_compute; reflexivity).
  rewrite Hids in *.
  destruct (Hrel eq_refl) as (Hpair & _). clear Hrel.
  assert (Hl : it_sorted 31 (∅ ∪ list_to_set [0; 1; 2]) = [0; 1; 2]) by (vm_compute; reflexivity).
  rewrite Hl in Hpair. rewrite union_empty_l_L in E.
  destruct (Hnew 0 0 _ eq_refl eq_refl) as [_ C0]. destruct (Hnew 1 1 _ eq_refl eq_refl) as [_ C1].
  destruct (Hnew 2 2 _ eq_refl eq_refl) as [_ C2].
  exists it_sorted, h', (list_to_set [0; 1; 2]), 0, 1, 2.
  assert (Hcaus : ∀ p q, (caus_of causality_eps (Flat 2 None) [0; p]%Q [0; q]%Q).1 = true ↔
            (Rabs (Q2R q - Q2R p) <= causality_eps)%R).
  { intros p q. unfold caus_of. change (Causality causality_eps (Flat 2 None)) with (isCausal_flat2D causality_eps).
    unfold isCausal_flat2D, cget, by_sign. cbn [fmap list_fmap nth fst].
    replace (Q2R 0 - Q2R 0)%R with 0%R by lra. rewrite Rabs_R0. rewrite bool_decide_true by lra. cbn.
    rewrite bool_decide_eq_true. lra. }
  assert (Q1 : Q2R (1 # 10 ^ 12) = causality_eps).
  { unfold Q2R, causality_eps. cbn [Qnum Qden]. change (10 ^ 12)%positive with (1000000000000)%positive.
    replace (10 ^ 12)%R with 1000000000000%R by (cbn; lra). lra. }
  assert (Q2 : Q2R (2 # 10 ^ 12) = (2 * causality_eps)%R).
  { rewrite <- Q1. unfold Q2R. cbn [Qnum Qden]. lra. }
  assert (Hpos : (0 < causality_eps)%R).
  { unfold causality_eps. apply Rinv_0_lt_compat. apply pow_lt. lra. }
  split_and!; [apply it_sorted_ok|set_solver|set_solver|set_solver|done| | |].
  - apply (Hpair 0 1 0 1 _ _ eq_refl eq_refl ltac:(lia) C0 C1). apply Hcaus. rewrite Q1, RMicromega.Q2R_0.
    rewrite Rabs_pos_eq; lra.
  - apply (Hpair 1 2 1 2 _ _ eq_refl eq_refl ltac:(lia) C1 C2). apply Hcaus. rewrite Q1, Q2.
    rewrite Rabs_pos_eq; lra.
  - apply not_true_is_false. intros H. apply (Hpair 0 2 0 2 _ _ eq_refl eq_refl ltac:(lia) C0 C2) in H.
    apply Hcaus in H. rewrite Q2, RMicromega.Q2R_0 in H. rewrite Rabs_pos_eq in H; lra.
Qed.
Print Assumptions C50_tolerance_refuted.

(** ** C51 *)
Lemma perm_rows_spec radius count : ∀ P k rows, length rows = count → NoDup P →
  (∀ p, p ∈ P → (1 <= p <= Z.of_nat count)%Z) →
  ∃ rows', perm_rows radius count k P rows = Ok rows' ∧ length rows' = count ∧
    (∀ i p, P !! i = Some p → rows' !! Z.to_nat (p - 1) = Some (perm_coord radius count (k + i) p)) ∧
    (∀ j, Z.of_nat j + 1 ∉ P → rows' !! j = rows !! j)%Z.
Proof.
  induction P as [|p P IH]; intros k rows Hl Hnd HP; cbn [perm_rows].
  { exists rows. done. }
  apply NoDup_cons in Hnd as [Hp Hnd]. cbn zeta.
  assert (Hr : (1 <= p <= Z.of_nat count)%Z) by apply HP, elem_of_list_here.
  destruct (decide (p - 1 < 0)%Z); [lia|]. destruct (decide (0 <= p - 1 < Z.of_nat count)%Z); [|lia].
  destruct (IH (S k) (<[Z.to_nat (p - 1) := perm_coord radius count k p]> rows)) as (rows' & -> & L' & H1 & H2).
  { by rewrite insert_length. } { done. } { intros q Hq. apply HP. by apply elem_of_list_further. }
  exists rows'. split_and!; [done|done| |].
  - intros [|i] q Hi; cbn in Hi.
    + injection Hi as <-. rewrite H2; [|by replace (Z.of_nat (Z.to_nat (p - 1)) + 1)%Z with p by lia].
      rewrite list_lookup_insert by lia. by rewrite Nat.add_0_r.
    + rewrite (H1 i q Hi). do 2 f_equal. lia.
  - intros j [Hj1 Hj2]%not_elem_of_cons. rewrite H2 by done. rewrite list_lookup_insert_ne; [done|]. lia.
Qed.
Lemma Q2R_perm_coord radius (n u i : nat) : n ≠ 0 →
  let c := (Q2R radius / INR n)%R in
  Q2R <$> perm_coord radius n i (Z.of_nat u + 1) =
    [((INR u + / 2) * c + (INR i + / 2) * c - Q2R radius)%R; ((INR u + / 2) * c - (INR i + / 2) * c)%R].
Proof.
  intros Hn c. unfold perm_coord. cbn [fmap list_fmap].
  assert (HZ : ∀ k : Z, Q2R (inject_Z k) = IZR k).
  { intros k. unfold Q2R, inject_Z. cbn. lra. }
  assert (Hc : Q2R (radius / inject_Z (Z.of_nat n)) = c).
  { unfold Qdiv. rewrite Q2R_mult, Q2R_inv.
    - rewrite HZ, <- INR_IZR_INZ. done.
    - intros E. apply Qeq_eqR in E. rewrite HZ, RMicromega.Q2R_0, <- INR_IZR_INZ in E. by apply (not_0_INR n). }
  assert (H12 : Q2R (1 # 2) = (/ 2)%R) by (unfold Q2R; cbn; lra).
  rewrite !Q2R_minus, !Q2R_plus, !Q2R_mult, !Q2R_minus, !Q2R_plus, !Hc, !HZ, !H12, plus_IZR, <- !INR_IZR_INZ.
  f_equal; [lra|]. f_equal. lra.
Qed.
(** The causality of two cells of the grid. *)
Lemma grid_causality eps c r a b a' b' : (0 < c)%R → (0 <= eps < 2 * c)%R →
  ((a = a' ∧ b = b') ∨ (a ≠ a' ∧ b ≠ b')) →
  let pt (u i : nat) := [((INR u + / 2) * c + (INR i + / 2) * c - r)%R; ((INR u + / 2) * c - (INR i + / 2) * c)%R] in
  ((isCausal_flat2D eps (pt a b) (pt a' b')).1 = true ↔ a ≤ a' ∧ b ≤ b') ∧
  ((isCausal_flat2D eps (pt a b) (pt a' b')).2 = true ↔ a' < a ∧ b' < b).
Proof.
  intros Hc He Hab pt. unfold isCausal_flat2D, pt, cget. cbn [nth].
  rewrite by_sign_fst, by_sign_snd, bool_decide_eq_true.
  set (A := (INR a' - INR a)%R). set (B := (INR b' - INR b)%R).
  replace ((INR a' + / 2) * c + (INR b' + / 2) * c - r - ((INR a + / 2) * c + (INR b + / 2) * c - r))%R
    with ((A + B) * c)%R by (unfold A, B; lra).
  replace ((INR a' + / 2) * c - (INR b' + / 2) * c - ((INR a + / 2) * c - (INR b + / 2) * c))%R
    with ((A - B) * c)%R by (unfold A, B; lra).
  rewrite !Rabs_mult, (Rabs_pos_eq c) by lra.
  assert (Hint : ∀ x y : nat, x < y → (1 <= INR y - INR x)%R).
  { intros x y Hxy. apply Nat.le_succ_l, le_INR in Hxy. rewrite S_INR in Hxy. lra. }
  destruct (lt_eq_lt_dec a a') as [[Ha|Ha]|Ha]; destruct (lt_eq_lt_dec b b') as [[Hb|Hb]|Hb]; try lia.
  - assert (1 <= A)%R by by apply Hint. assert (1 <= B)%R by by apply Hint.
    assert (0 < (A + B) * c)%R by (apply Rmult_lt_0_compat; lra).
    assert (Hab' : (Rabs (A - B) <= A + B)%R) by (unfold Rabs; destruct (Rcase_abs (A - B)); lra).
    rewrite (Rabs_pos_eq (A + B)) by lra.
    assert (Rabs (A - B) * c <= (A + B) * c)%R by (apply Rmult_le_compat_r; lra).
    split; split; intros [? ?]; try lia; try lra; split; (lia || lra).
  - assert (1 <= A)%R by by apply Hint. assert (B <= -1)%R by (pose proof (Hint b' b Hb); unfold B; lra).
    assert (Hm : (Rabs (A + B) + 2 <= Rabs (A - B))%R).
    { rewrite (Rabs_pos_eq (A - B)) by lra. unfold Rabs. destruct (Rcase_abs (A + B)); lra. }
    apply (Rmult_le_compat_r c) in Hm; [|lra]. rewrite Rmult_plus_distr_r in Hm.
    split; split; intros [? ?]; (lia || lra).
  - subst a' b'. assert (A = 0%R) as -> by (unfold A; lra). assert (B = 0%R) as -> by (unfold B; lra).
    replace (0 + 0)%R with 0%R by lra. replace (0 - 0)%R with 0%R by lra. rewrite Rabs_R0.
    split; split; intros [? ?]; try lia; try lra; split; (lia || lra).
  - assert (1 <= B)%R by by apply Hint. assert (A <= -1)%R by (pose proof (Hint a' a Ha); unfold A; lra).
    assert (Hm : (Rabs (A + B) + 2 <= Rabs (A - B))%R).
    { rewrite (Rabs_left (A - B)) by lra. unfold Rabs. destruct (Rcase_abs (A + B)); lra. }
    apply (Rmult_le_compat_r c) in Hm; [|lra]. rewrite Rmult_plus_distr_r in Hm.
    split; split; intros [? ?]; (lia || lra).
  - assert (A <= -1)%R by (pose proof (Hint a' a Ha); unfold A; lra).
    assert (B <= -1)%R by (pose proof (Hint b' b Hb); unfold B; lra).
    assert (0 < (- (A + B)) * c)%R by (apply Rmult_lt_0_compat; lra).
    assert (Hab' : (Rabs (A - B) <= - (A + B))%R) by (unfold Rabs; destruct (Rcase_abs (A - B)); lra).
    rewrite (Rabs_left (A + B)) by lra.
    assert (Rabs (A - B) * c <= (- (A + B)) * c)%R by (apply Rmult_le_compat_r; lra).
    split; split; intros [? ?]; try lia; try lra; split; (lia || lra).
Qed.
(** The rounding to single precision keeps the default parameters of shapes valid. *)
Definition f32_sane (f32 : R → R) : Prop :=
  (0 < f32 1)%R ∧ (0 <= f32 0 < 1)%R ∧ (0 < f32 (2 * f32 1))%R.
Lemma FlatSpacetime_default (n : nat) : 1 ≤ n → FlatSpacetime (Z.of_nat n) (PFloat 0) = Ok (Flat n None).
Proof.
  intros Hn. unfold FlatSpacetime. destruct (decide (Z.of_nat n < 1)%Z); [lia|].
  destruct (decide (0 < 0)%R) as [?|_]; [lra|]. by rewrite Nat2Z.id.
Qed.
Lemma ball_shape_ok f32 (n : nat) name radius : 1 ≤ n → ball_like name → name ≠ "cylinder" →
  (0 <= f32 0 < 1)%R → (0 < f32 (default 1 radius))%R →
  ∃ s, CoordinateShape f32 (Z.of_nat n) name (ShapeArgs None radius None None None None) = Ok s ∧ sh_dim s = n ∧
    sh_radius s = Some (f32 (default 1%R radius)) ∧ sh_name s = (if decide (name = "diamond") then "bicone" else name).
Proof.
  intros Hn Hb Hc H0 Hr.
  destruct (proj1 (C55_validation f32 (Z.of_nat n) name (ShapeArgs None radius None None None None)))
    as (s & E & Hd & Hnm & _ & Hball & _).
  - split; cbn; try done.
    + lia. + by left.
    + intros ->. by destruct Hb as [|[|[|]]].
    + intros ->. by destruct Hb as [|[|[|]]].
  - exists s. split_and!; [done|lia|by apply Hball|done].
Qed.
Lemma EmbeddedCauset_shape f32 eps it h s : f32_sane f32 → sh_dim s = 2 →
  EmbeddedCauset f32 eps it StNone (ShObj s) CoNone (-1) h = (h, Ok (ECauset (Flat 2 None) s ∅)).
Proof.
  intros (H1 & H0 & _) Hs. unfold EmbeddedCauset, init_dim, init_spacetime, DefaultShape.
  destruct (decide (-1 <= 0)%Z); [|lia]. cbn [res_bind]. rewrite Hs, FlatSpacetime_default by lia. cbn [res_bind Dim].
  destruct (decide _) as [_|?]; [|done].
  destruct (ball_shape_ok f32 2 "diamond" None) as (s0 & E0 & D0 & _); [lia|by right; right; left|done|done|done|].
  change (DefaultShape_name (Flat 2 None)) with "diamond".
  unfold no_args in *. rewrite E0. cbn [res_bind]. rewrite D0. by destruct (decide _) as [_|?].
Qed.
Definition perm_causet (h h' : heap) (evs : list nat) (P : list Z) (n : nat) (fmt : label_format) : Prop :=
  NoDup evs ∧ length evs = n ∧ (∀ x, x ∈ evs → x ∉ dom h) ∧ closed h' (list_to_set evs) ∧
  (∀ u x, evs !! u = Some x →
     lab h' x = match fmt with
                | FmtNone => LInt (Z.of_nat u + 1)
                | FmtEmpty => LStr ""
                | FmtStr f => LStr (f (Z.of_nat u + 1)%Z)
                end ∧ hasBeenLinked h' x = true) ∧
  (∀ x, x ∈ dom h → h' !!! x = h !!! x).
Lemma EmbFromPermutation_create f32 eps it junk P fmt radius h n :
  iter_ok it → order_inv h → link_inv h → P ≡ₚ upto n → f32_sane f32 → (0 < f32 (Q2R radius))%R →
  ∃ h' evs s, EmbFromPermutation f32 eps it junk P fmt radius h
      = (h', Ok (ECauset (Flat 2 None) s (list_to_set evs))) ∧
    sh_name s = "bicone" ∧ sh_radius s = Some (f32 (Q2R radius)) ∧ perm_causet h h' evs P n fmt ∧
    (∀ u x i, evs !! u = Some x → P !! i = Some (Z.of_nat u + 1)%Z →
       Coordinates h' x = Ok (perm_coord radius n i (Z.of_nat u + 1))) ∧
    (∀ i j a b ca cb, it 31 (list_to_set evs) !! i = Some a → it 31 (list_to_set evs) !! j = Some b →
         i < j → Coordinates h' a = Ok ca → Coordinates h' b = Ok cb →
         (ev_lt h' a b = true ↔ (caus_of eps (Flat 2 None) ca cb).1 = true) ∧
         (ev_lt h' b a = true ↔ (caus_of eps (Flat 2 None) ca cb).2 = true)) ∧
    (∀ (crd : nat → list Q) (le : list Q → list Q → Prop), let C' := list_to_set evs in
         embedded h' C' crd →
         (∀ a b c, a ∈ C' → b ∈ C' → c ∈ C' → le (crd a) (crd b) → le (crd b) (crd c) → le (crd a) (crd c)) →
         (∀ a b, a ∈ C' → b ∈ C' → decides (caus_of eps (Flat 2 None)) le (crd a) (crd b)) →
         order_inv h' ∧ link_inv h' ∧
         (∀ a b, a ∈ C' → b ∈ C' →
            ev_lt h' a b = true ↔ le (crd a) (crd b) ∧ (¬ le (crd b) (crd a) ∨ earlier (it 31 C') a b))).
Proof.
  intros Hit HO HL HP Hf Hr. unfold EmbFromPermutation.
  destruct (ball_shape_ok f32 2 "diamond" (Some (Q2R radius))) as (s & Es & Ds & Rs & Ns);
    [lia|by right; right; left|done|apply Hf|done|]. change (Z.of_nat 2) with 2%Z in Es. rewrite Es.
  rewrite (EmbeddedCauset_shape f32 eps it h s Hf Ds). cbn [ec_spacetime ec_events ec_shape].
  assert (Hn : length P = n) by (rewrite HP; apply upto_length).
  unfold Permutation_Coords. rewrite Hn.
  destruct (perm_rows_spec radius n P 0 (junk <$> seq 0 n)) as (rows & -> & Lr & Hrows & _).
  { by rewrite fmap_length, seq_length. } { rewrite HP. apply upto_nodup. }
  { intros p Hp. rewrite HP in Hp. apply elem_of_upto in Hp as (u & ? & ->). lia. }
  destruct (C52_create it (caus_of eps (Flat 2 None)) rows fmt true h ∅ Hit HO HL)
    as (h' & xs & E & L & Hnd & Hfr & Hd & Hnew & Hold & Hold' & Hcl & _ & Hrel).
  { apply empty_subseteq. } { intros x Hx. by apply elem_of_empty in Hx. } { intros x Hx. by apply elem_of_empty in Hx. }
  rewrite E. rewrite union_empty_l_L in *. cbn [res_map]. destruct (Hrel eq_refl) as (R1 & R2 & R3 & R4).
  exists h', xs, s.
  assert (Hx : ∀ u x, xs !! u = Some x → ∃ c, rows !! u = Some c).
  { intros u x Hu. apply lookup_lt_is_Some_2. rewrite <- L. by eapply lookup_lt_Some. }
  split_and!; [done|exact Ns|exact Rs| | |exact R1|exact R4].
  - unfold perm_causet. split_and!; [done|lia|done|done| |].
    + intros u x Hu. destruct (Hx u x Hu) as [c Hc]. destruct (Hnew u x c Hu Hc) as [-> _].
      replace (Z.of_nat (Card ∅ + 1 + u)) with (Z.of_nat u + 1)%Z by (unfold Card; rewrite size_empty; lia).
      split; [by destruct fmt|]. apply R2. apply elem_of_list_to_set. by eapply elem_of_list_lookup_2.
    + intros x Hdx. apply Hold'; [done|]. apply not_elem_of_empty.
  - intros u x i Hu Hi. destruct (Hx u x Hu) as [c Hc]. destruct (Hnew u x c Hu Hc) as [_ ->].
    specialize (Hrows i _ Hi). replace (Z.to_nat (Z.of_nat u + 1 - 1)) with u in Hrows by lia. cbn in Hrows. congruence.
Qed.
Theorem C51_FromPermutation (f32 : R → R) (eps : R) (it : oracle) (junk : nat → list Q) (P : list Z)
    (fmt : label_format) (radius : Q) (h : heap) (n : nat) :
  iter_ok it → order_inv h → link_inv h → P ≡ₚ upto n → f32_sane f32 → (0 < f32 (Q2R radius))%R →
  (0 < Q2R radius)%R → (0 <= eps)%R → (eps * INR n < 2 * Q2R radius)%R →
  ∃ h' evs s, EmbFromPermutation f32 eps it junk P fmt radius h
      = (h', Ok (ECauset (Flat 2 None) s (list_to_set evs))) ∧
    sh_name s = "bicone" ∧ sh_radius s = Some (f32 (Q2R radius)) ∧ perm_causet h h' evs P n fmt ∧
    order_inv h' ∧ link_inv h' ∧
    (∀ u w x y i j, evs !! u = Some x → evs !! w = Some y →
       P !! i = Some (Z.of_nat u + 1)%Z → P !! j = Some (Z.of_nat w + 1)%Z →
       before h' x y ↔ u < w ∧ i < j).
Proof.
  intros Hit HO HL HP Hf Hr Hrad He0 He.
  destruct (EmbFromPermutation_create f32 eps it junk P fmt radius h n Hit HO HL HP Hf Hr)
    as (h' & evs & s & E & Ns & Rs & Hpc & Hcrd & _ & Hord).
  exists h', evs, s.
  assert (Hevs : ∀ x, x ∈ (list_to_set evs : gset nat) → ∃ u i, evs !! u = Some x ∧ P !! i = Some (Z.of_nat u + 1)%Z ∧
      n ≠ 0 ∧ Coordinates h' x = Ok (perm_coord radius n i (Z.of_nat u + 1))).
  { intros x Hx. apply elem_of_list_to_set, elem_of_list_lookup in Hx as [u Hu].
    assert (Hlt : u < n). { destruct Hpc as (_ & <- & _). by eapply lookup_lt_Some. }
    assert (Hin : (Z.of_nat u + 1)%Z ∈ P) by (rewrite HP; apply elem_of_upto; eauto).
    apply elem_of_list_lookup in Hin as [i Hi]. exists u, i. split_and!; [done|done|lia|by apply Hcrd]. }
  assert (HPnd : NoDup P) by (rewrite HP; apply upto_nodup).
  assert (Hnd : NoDup evs) by apply Hpc.
  set (crd := λ x, default [] (Base.coords h' x)).
  assert (Hemb : embedded h' (list_to_set evs) crd).
  { intros x Hx. destruct (Hevs x Hx) as (u & i & _ & _ & _ & Hc). revert Hc. unfold Coordinates, crd.
    by destruct (Base.coords h' x). }
  assert (Hgrid : ∀ e a b, (0 <= e)%R → (e * INR n < 2 * Q2R radius)%R → 
     ∀ u w i j, evs !! u = Some a → evs !! w = Some b →
       P !! i = Some (Z.of_nat u + 1)%Z → P !! j = Some (Z.of_nat w + 1)%Z →
       ((caus_of e (Flat 2 None) (crd a) (crd b)).1 = true ↔ u ≤ w ∧ i ≤ j) ∧
       ((caus_of e (Flat 2 None) (crd a) (crd b)).2 = true ↔ w < u ∧ j < i)).
  { intros e a b E0 E1 u w i j Ha Hb Hi Hj.
    assert (Hn0 : n ≠ 0). { destruct Hpc as (_ & Hl & _). apply lookup_lt_Some in Ha. lia. }
    assert (Ca : crd a = perm_coord radius n i (Z.of_nat u + 1)).
    { specialize (Hcrd u a i Ha Hi). unfold Coordinates, crd in *. destruct (Base.coords h' a); [cbn; congruence|done]. }
    assert (Cb : crd b = perm_coord radius n j (Z.of_nat w + 1)).
    { specialize (Hcrd w b j Hb Hj). unfold Coordinates, crd in *. destruct (Base.coords h' b); [cbn; congruence|done]. }
    unfold caus_of. rewrite Ca, Cb, !Q2R_perm_coord by done.
    change (Causality e (Flat 2 None)) with (isCausal_flat2D e).
    assert (Hnpos : (0 < INR n)%R) by (apply lt_0_INR; lia).
    assert (Hcpos : (0 < Q2R radius / INR n)%R) by (apply Rdiv_lt_0_compat; lra).
    apply grid_causality; [done| |].
    - split; [done|]. apply (Rmult_lt_reg_r (INR n)); [done|].
      replace (2 * (Q2R radius / INR n) * INR n)%R with (2 * Q2R radius)%R by (field; lra). done.
    - destruct (decide (u = w)) as [->|Hn].
      + left. split; [done|]. exact (NoDup_lookup P i j _ HPnd Hi Hj).
      + right. split; [done|]. intros ->. rewrite Hi in Hj. injection Hj as Hj. lia. }
  set (le := λ a b, (caus_of 0 (Flat 2 None) a b).1 = true).
  assert (H0 : (0 * INR n < 2 * Q2R radius)%R) by lra.
  destruct (Hord crd le Hemb) as (HO' & HL' & Hlt).
  { intros a b c Ha Hb Hc. destruct (Hevs a Ha) as (u & i & Hu & Hi & _), (Hevs b Hb) as (w & j & Hw & Hj & _),
      (Hevs c Hc) as (v & k & Hv & Hk & _). unfold le.
    rewrite (proj1 (Hgrid 0%R a b ltac:(lra) H0 u w i j Hu Hw Hi Hj)).
    rewrite (proj1 (Hgrid 0%R b c ltac:(lra) H0 w v j k Hw Hv Hj Hk)).
    rewrite (proj1 (Hgrid 0%R a c ltac:(lra) H0 u v i k Hu Hv Hi Hk)). lia. }
  { intros a b Ha Hb. destruct (Hevs a Ha) as (u & i & Hu & Hi & _), (Hevs b Hb) as (w & j & Hw & Hj & _).
    unfold decides, le.
    rewrite (proj1 (Hgrid eps a b He0 He u w i j Hu Hw Hi Hj)), (proj2 (Hgrid eps a b He0 He u w i j Hu Hw Hi Hj)).
    rewrite (proj1 (Hgrid 0%R a b ltac:(lra) H0 u w i j Hu Hw Hi Hj)).
    rewrite (proj1 (Hgrid 0%R b a ltac:(lra) H0 w u j i Hw Hu Hj Hi)).
    assert (u = w ↔ i = j).
    { split; [intros ->; exact (NoDup_lookup P i j _ HPnd Hi Hj)|intros ->; rewrite Hi in Hj; injection Hj as Hj; lia]. } lia. }
  split_and!; [done|done|done|done|done|done|].
  intros u w x y i j Hu Hw Hi Hj.
  assert (Hx : x ∈ (list_to_set evs : gset nat)) by (apply elem_of_list_to_set; by eapply elem_of_list_lookup_2).
  assert (Hy : y ∈ (list_to_set evs : gset nat)) by (apply elem_of_list_to_set; by eapply elem_of_list_lookup_2).
  specialize (Hlt x y Hx Hy). unfold ev_lt in Hlt. rewrite bool_decide_eq_true in Hlt. unfold before. rewrite Hlt. unfold le.
  rewrite (proj1 (Hgrid 0%R x y ltac:(lra) H0 u w i j Hu Hw Hi Hj)).
  rewrite (proj1 (Hgrid 0%R y x ltac:(lra) H0 w u j i Hw Hu Hj Hi)).
  assert (u = w ↔ i = j).
  { split; [intros ->; exact (NoDup_lookup P i j _ HPnd Hi Hj)|intros ->; rewrite Hi in Hj; injection Hj as Hj; lia]. }
  split.
  - intros [H1 [H2|H2]]; [lia|]. destruct (decide (u = w)) as [->|]; [|lia]. exfalso.
    assert (x = y) as <- by congruence. destruct H2 as (k & l & Hk & Hl & Hkl).
    assert (k = l); [|lia]. eapply NoDup_lookup; [apply (iter_nodup it 31 (list_to_set evs) Hit)|done|done].
  - intros. split; [lia|left; lia].
Qed.
Print Assumptions C51_FromPermutation.
(** A radius below the tolerance: the antichain [2, 1] becomes related. *)
Theorem C51_small_radius_refuted (f32 : R → R) (eps : R) (it : oracle) (junk : nat → list Q)
    (radius : Q) (h : heap) :
  iter_ok it → order_inv h → link_inv h → f32_sane f32 → (0 < f32 (Q2R radius))%R →
  (0 < Q2R radius <= eps)%R →
  ∃ h' x y s, EmbFromPermutation f32 eps it junk [2; 1]%Z FmtNone radius h
      = (h', Ok (ECauset (Flat 2 None) s {[x; y]})) ∧
    x ≠ y ∧ (ev_lt h' x y = true ∨ ev_lt h' y x = true).
Proof.
  intros Hit HO HL Hf Hr Hrad.
  assert (HP : [2; 1]%Z ≡ₚ upto 2) by (unfold upto; cbn; apply Permutation_swap).
  destruct (EmbFromPermutation_create f32 eps it junk [2; 1]%Z FmtNone radius h 2 Hit HO HL HP Hf Hr)
    as (h' & evs & s & E & Ns & Rs & Hpc & Hcrd & Hpair & _).
  destruct Hpc as (Hnd & Hl & _). destruct evs as [|x [|y [|? ?]]]; try done. clear Hl.
  exists h', x, y, s. assert (Hxy : x ≠ y) by (apply NoDup_cons in Hnd as [Hn _]; intros ->; apply Hn, elem_of_list_here).
  assert (Es : list_to_set [x; y] = ({[x; y]} : gset nat)) by (cbn; by rewrite union_empty_r_L).
  rewrite Es in *. split_and!; [done|done|].
  pose proof (Hcrd 0 x 1 eq_refl eq_refl) as Cx. pose proof (Hcrd 1 y 0 eq_refl eq_refl) as Cy.
  assert (Hin : ∀ z, z ∈ it 31 {[x; y]} ↔ z = x ∨ z = y).
  { intros z. rewrite iter_elem by done. clear. set_solver. }
  destruct (proj1 (elem_of_list_lookup (it 31 {[x; y]}) x)) as [i Hi]; [apply Hin; by left|].
  destruct (proj1 (elem_of_list_lookup (it 31 {[x; y]}) y)) as [j Hj]; [apply Hin; by right|].
  assert (Hcaus : ∀ (u i w j : nat), (u + i = w + j) → (Rabs (INR w - INR j - (INR u - INR i)) <= 2)%R →
     (caus_of eps (Flat 2 None) (perm_coord radius 2 i (Z.of_nat u + 1)) (perm_coord radius 2 j (Z.of_nat w + 1))).1 = true).
  { intros u k w l Hsum Hab. apply (f_equal INR) in Hsum. rewrite !plus_INR in Hsum.
    unfold caus_of. rewrite !Q2R_perm_coord by done.
    change (Causality eps (Flat 2 None)) with (isCausal_flat2D eps). unfold isCausal_flat2D, cget. cbn [nth].
    change (INR 2) with (1 + 1)%R. rewrite by_sign_fst, bool_decide_eq_true.
    set (c := (Q2R radius / (1 + 1))%R). assert (Hc : (Q2R radius = 2 * c)%R) by (unfold c; lra).
    match goal with |- (0 <= ?t)%R ∧ _ => assert (Ht : t = 0%R) by nra end. rewrite Ht. split; [lra|].
    match goal with |- (Rabs ?d - _ <= _)%R => replace d with ((INR w - INR l - (INR u - INR k)) * c)%R by lra end.
    rewrite Rabs_mult, (Rabs_pos_eq c), Rabs_R0 by lra.
    apply (Rmult_le_compat_r c) in Hab; lra. }
  destruct (lt_eq_lt_dec i j) as [[Hij|Hij]|Hij].
  - left. apply (Hpair i j x y _ _ Hi Hj Hij Cx Cy).
    change 0%Z with (Z.of_nat 0). apply (Hcaus 0 1 1 0); [done|]. cbn [INR]. unfold Rabs. destruct (Rcase_abs _); lra.
  - exfalso. apply Hxy. subst j. congruence.
  - right. apply (Hpair j i y x _ _ Hj Hi Hij Cy Cx).
    apply (Hcaus 1 0 0 1); [done|]. cbn [INR]. unfold Rabs. destruct (Rcase_abs _); lra.
Qed.
Print Assumptions C51_small_radius_refuted.

(** ** C64: Density and LengthScale *)
Theorem C64_Density (C : ecauset) : constructed_shape (ec_shape C) →
  ¬ (sh_name (ec_shape C) = "cylinder" ∧ sh_dim (ec_shape C) = 1 ∧ (0 < default 0 (sh_hollow (ec_shape C)))%R) →
  (Density C * snd (Volume (ec_shape C)) = INR (Card (ec_events C)))%R ∧
  (0 <= Density C)%R ∧ (Density C = 0%R ↔ ec_events C = ∅).
Proof.
  intros Hs Hn. pose proof (proj2 (C56_volume_positive (ec_shape C) Hs) Hn) as Hv.
  unfold Density, Card. set (V := snd (Volume (ec_shape C))) in *. split_and!.
  - field. lra.
  - apply Rmult_le_pos; [apply pos_INR|]. apply Rlt_le, Rinv_0_lt_compat. done.
  - split.
    + intros E. apply Rmult_integral in E as [E|E].
      * apply leibniz_equiv, size_empty_inv. destruct (size (ec_events C)) eqn:Es; [done|]. exfalso. by apply (not_0_INR (S n)).
      * exfalso. assert (0 < / V)%R by by apply Rinv_0_lt_compat. lra.
    + intros ->. rewrite size_empty. cbn. unfold Rdiv. lra.
Qed.
Print Assumptions C64_Density.
Lemma Rpower_root x n : (0 < x)%R → n ≠ 0 → (Rpower x (1 / INR n) ^ n = x)%R.
Proof.
  intros Hx Hn. assert (0 < INR n)%R by (apply lt_0_INR; lia).
  rewrite <- Rpower_pow by apply exp_pos. rewrite Rpower_mult.
  replace (1 / INR n * INR n)%R with 1%R by (field; lra). by apply Rpower_1.
Qed.
(** LengthScale is the d-th root of the density, so it grows with the number of events; the
    documented inverse d-th root is the inverse of it. *)
Theorem C64_LengthScale (C : ecauset) :
  constructed_shape (ec_shape C) → (0 < snd (Volume (ec_shape C)))%R → 
  (ec_events C = ∅ → LengthScale C = 0%R) ∧
  (ec_events C ≠ ∅ → (0 < LengthScale C)%R ∧ (LengthScale C ^ sh_dim (ec_shape C) = Density C)%R).
Proof.
  intros Hs Hv. unfold LengthScale. split.
  - intros ->. rewrite size_empty. by destruct (decide (0 = 0)).
  - intros Hne. destruct (decide (size (ec_events C) = 0)) as [E|E].
    { exfalso. apply Hne. apply leibniz_equiv. by apply size_empty_inv. }
    split; [apply exp_pos|]. apply Rpower_root.
    + unfold Density. apply Rdiv_lt_0_compat; [|done]. apply lt_0_INR. lia.
    + destruct (constructed_wf _ Hs). lia.
Qed.
Print Assumptions C64_LengthScale.
Theorem C64_inverse_root_refuted (C : ecauset) :
  constructed_shape (ec_shape C) → (0 < snd (Volume (ec_shape C)))%R → ec_events C ≠ ∅ →
  (LengthScale C ^ sh_dim (ec_shape C) = / Density C)%R ↔ Density C = 1%R.
Proof.
  intros Hs Hv Hne. destruct (proj2 (C64_LengthScale C Hs Hv) Hne) as [_ ->].
  assert (Hd : (0 < Density C)%R).
  { unfold Density. apply Rdiv_lt_0_compat; [|done]. apply lt_0_INR.
    destruct (size (ec_events C)) eqn:E; [|lia]. exfalso. apply Hne. apply leibniz_equiv. by apply size_empty_inv. }
  split; [|intros ->; lra]. intros E. assert (Density C * Density C = 1)%R by (rewrite E at 1; apply Rinv_l; lra). nra.
Qed.
Print Assumptions C64_inverse_root_refuted.

(** ** C65: the constructor *)
Lemma CoordinateShape_dim f32 dim name args s : CoordinateShape f32 dim name args = Ok s → Z.of_nat (sh_dim s) = dim.
Proof.
  intros E. destruct (C55_validation f32 dim name args) as [H1 H2].
  destruct (Classical_Prop.classic (valid_args f32 dim name args)) as [V|V].
  - destruct (H1 V) as (s' & E' & Hd & _). congruence.
  - rewrite (H2 V) in E. done.
Qed.
Lemma DefaultShape_ok f32 st : f32_sane f32 → 1 ≤ Dim st → ∃ s, DefaultShape f32 st = Ok s ∧ sh_dim s = Dim st.
Proof.
  intros (H1 & H0 & H2) Hd. unfold DefaultShape.
  destruct (proj1 (C55_validation f32 (Z.of_nat (Dim st)) (DefaultShape_name st) no_args)) as (s & E & Hs & _).
  - assert (Hn : DefaultShape_name st = "cube" ∨ DefaultShape_name st = "diamond" ∨ DefaultShape_name st = "cylinder").
    { destruct st as [|? [|]| | |]; cbn; tauto. }
    split; cbn; try done.
    + lia.
    + unfold ball_like. tauto.
  - exists s. split; [done|]. lia.
Qed.
Theorem C65_result (f32 : R → R) (eps : R) (it : oracle) (sta : spacetime_arg) (sha : shape_arg)
    (coa : coords_arg) (dim : Z) (h h' : heap) (C : ecauset) :
  iter_ok it → order_inv h → link_inv h →
  EmbeddedCauset f32 eps it sta sha coa dim h = (h', Ok C) →
  Dim (ec_spacetime C) = sh_dim (ec_shape C) ∧
  ((0 < dim)%Z → Z.of_nat (Dim (ec_spacetime C)) = dim) ∧
  (∀ st, sta = StObj st → ec_spacetime C = st) ∧
  (∀ s, sha = ShObj s → ec_shape C = s) ∧
  (sha = ShNone → DefaultShape f32 (ec_spacetime C) = Ok (ec_shape C)) ∧
  (sta = StNone → ec_spacetime C = Flat (Dim (ec_spacetime C)) None) ∧
  match coa with
  | CoNone => ec_events C = ∅ ∧ h' = h
  | CoList rows | CoArray _ rows =>
    ∃ xs, ec_events C = list_to_set xs ∧ NoDup xs ∧ length xs = length rows ∧ (∀ x, x ∈ xs → x ∉ dom h) ∧
      ∀ i x c, xs !! i = Some x → rows !! i = Some c →
        lab h' x = LInt (Z.of_nat (1 + i)) ∧ Coordinates h' x = Ok c
  end.
Proof.
  intros Hit HO HL. unfold EmbeddedCauset.
  destruct (init_dim dim sta sha coa) as [d|e] eqn:Ed; [|done]. cbn [res_bind].
  destruct (init_spacetime d sta) as [M|e] eqn:EM; [|done]. cbn [res_bind].
  destruct (decide (Z.of_nat (Dim M) = d)) as [HdM|]; [|done].
  destruct (DefaultShape f32 M) as [ds|e] eqn:Eds; [|done]. cbn [res_bind].
  destruct (match sha with ShNone => Ok ds | ShObj s => Ok s | ShName name => CoordinateShape f32 d name no_args end)
    as [s|e] eqn:Es; [|done]. cbn [res_bind].
  destruct (decide (sh_dim s = sh_dim ds)) as [Hsd|]; [|done].
  assert (Hds : sh_dim ds = Dim M) by (apply CoordinateShape_dim in Eds; lia).
  intros E.
  assert (HC : ec_spacetime C = M ∧ ec_shape C = s ∧
    match coa with
    | CoNone => ec_events C = ∅ ∧ h' = h
    | CoList rows | CoArray _ rows =>
      ∃ xs, ec_events C = list_to_set xs ∧ NoDup xs ∧ length xs = length rows ∧ (∀ x, x ∈ xs → x ∉ dom h) ∧
      ∀ i x c, xs !! i = Some x → rows !! i = Some c →
        lab h' x = LInt (Z.of_nat (1 + i)) ∧ Coordinates h' x = Ok c
    end).
  { assert (Hmk : ∀ rows, (let '(h1, C0, r) := create it (caus_of eps M) rows FmtNone true ∅ h in
                            (h1, res_map (λ _ : gset nat, ECauset M s C0) r)) = (h', Ok C) →
      ec_spacetime C = M ∧ ec_shape C = s ∧
      ∃ xs, ec_events C = list_to_set xs ∧ NoDup xs ∧ length xs = length rows ∧ (∀ x, x ∈ xs → x ∉ dom h) ∧
      ∀ i x c, xs !! i = Some x → rows !! i = Some c →
        lab h' x = LInt (Z.of_nat (1 + i)) ∧ Coordinates h' x = Ok c).
    { intros rows.
      destruct (C52_create it (caus_of eps M) rows FmtNone true h ∅ Hit HO HL)
        as (h1 & xs & E1 & L & Hnd & Hfr & _ & Hnew & _).
      { apply empty_subseteq. } { intros x Hx. by apply elem_of_empty in Hx. } { intros x Hx. by apply elem_of_empty in Hx. }
      rewrite E1, union_empty_l_L. cbn. intros E2. injection E2 as <- <-. split_and!; [done|done|].
      exists xs. split_and!; [done|done|done|done|]. intros i x c Hi Hc. exact (Hnew i x c Hi Hc). }
    destruct coa as [|rows|cols rows].
    - injection E as <- <-. done.
    - by apply Hmk.
    - destruct (decide (cols = sh_dim s)); [by apply Hmk|done]. }
  clear E. destruct HC as (-> & -> & HC). split_and!.
  - congruence.
  - intros Hp. rewrite HdM. unfold init_dim in Ed. destruct (decide (dim <= 0)%Z); [lia|]. congruence.
  - intros st ->. cbn in EM. congruence.
  - intros s' ->. congruence.
  - intros ->. congruence.
  - intros ->. cbn in EM. unfold FlatSpacetime in EM. destruct (decide (d < 1)%Z); [done|].
    destruct (decide (0 < 0)%R) as [?|_]; [lra|]. by injection EM as <-.
  - exact HC.
Qed.
Print Assumptions C65_result.
Theorem C65_default (f32 : R → R) (eps : R) (it : oracle) (h : heap) (dim : Z) :
  f32_sane f32 →
  ∃ s, EmbeddedCauset f32 eps it StNone ShNone CoNone dim h =
       (h, Ok (ECauset (Flat (if decide (dim <= 0)%Z then 2 else Z.to_nat dim) None) s ∅)) ∧ sh_name s = "bicone".
Proof.
  intros Hf. set (n := if decide (dim <= 0)%Z then 2 else Z.to_nat dim).
  assert (Hn : 1 ≤ n) by (unfold n; destruct (decide (dim <= 0)%Z); lia).
  unfold EmbeddedCauset.
  assert (Ed : init_dim dim StNone ShNone CoNone = Ok (Z.of_nat n)).
  { unfold init_dim, n. destruct (decide (dim <= 0)%Z); [done|]. f_equal. lia. }
  rewrite Ed. cbn [res_bind init_spacetime]. rewrite FlatSpacetime_default by done. cbn [res_bind Dim]. clearbody n.
  destruct (decide (Z.of_nat n = Z.of_nat n)) as [_|?]; [|done].
  destruct (ball_shape_ok f32 n "diamond" None) as (s & E & D & _ & N);
    [done|by right; right; left|done|apply Hf|apply Hf|].
  unfold DefaultShape. cbn [Dim]. change (DefaultShape_name (Flat n None)) with "diamond".
  unfold no_args in *. rewrite E. cbn [res_bind]. destruct (decide (sh_dim s = sh_dim s)) as [_|?]; [|done]. exists s. done.
Qed.
Print Assumptions C65_default.
(** The spacetime that a name stands for, and the dimension if none is given: the one of the spacetime
    object, else the one of the shape object, else the number of coordinates of the first event,
    else 2. *)
Theorem C65_chosen (f32 : R → R) (eps : R) (it : oracle) (sta : spacetime_arg) (sha : shape_arg)
    (coa : coords_arg) (dim : Z) (h h' : heap) (C : ecauset) :
  EmbeddedCauset f32 eps it sta sha coa dim h = (h', Ok C) →
  let n := Dim (ec_spacetime C) in
  (∀ name, sta = StName name →
     (name = "flat" ∨ name = "Minkowski" → ec_spacetime C = Flat n None) ∧
     (name = "dS" ∨ name = "de Sitter" → ec_spacetime C = DeSitter n 1) ∧
     (name = "AdS" ∨ name = "Anti-de Sitter" → ec_spacetime C = AntiDeSitter n (1 / 2)) ∧
     (name = "black hole" ∨ name = "Schwarzschild" → ec_spacetime C = BlackHole (1 / 2) false)) ∧
  ((dim <= 0)%Z → (∀ st, sta ≠ StObj st) →
     (∀ s, sha = ShObj s → n = sh_dim s) ∧
     ((∀ s, sha ≠ ShObj s) → match coa with
        | CoNone => n = 2
        | CoList rows | CoArray _ rows => ∃ row rest, rows = row :: rest ∧ n = length row
        end)).
Proof.
  unfold EmbeddedCauset.
  destruct (init_dim dim sta sha coa) as [d|e] eqn:Ed; [|done]. cbn [res_bind].
  destruct (init_spacetime d sta) as [M|e] eqn:EM; [|done]. cbn [res_bind].
  destruct (decide (Z.of_nat (Dim M) = d)) as [HdM|]; [|done].
  destruct (DefaultShape f32 M) as [ds|e] eqn:Eds; [|done]. cbn [res_bind].
  destruct (match sha with ShNone => Ok ds | ShObj s => Ok s | ShName name => CoordinateShape f32 d name no_args end)
    as [s|e] eqn:Es; [|done]. cbn [res_bind].
  destruct (decide (sh_dim s = sh_dim ds)) as [Hsd|]; [|done].
  intros E.
  assert (HC : ec_spacetime C = M).
  { assert (Hmk : ∀ rows, (let '(h1, C0, r) := create it (caus_of eps M) rows FmtNone true ∅ h in
                            (h1, res_map (λ _ : gset nat, ECauset M s C0) r)) = (h', Ok C) → ec_spacetime C = M).
    { intros rows. destruct (create it (caus_of eps M) rows FmtNone true ∅ h) as [[h1 C0] [|]]; cbn; intros E2; [|done].
      by injection E2 as <- <-. }
    destruct coa as [|rows|cols rows].
    - by injection E as <- <-.
    - by eapply Hmk.
    - destruct (decide (cols = sh_dim s)); [by eapply Hmk|done]. }
  clear E. rewrite HC. cbn zeta. split.
  - intros name ->. cbn [init_spacetime] in EM. split_and!; intros Hnm.
    + rewrite decide_True in EM by done. unfold FlatSpacetime in EM. destruct (decide (d < 1)%Z); [done|].
      destruct (decide (0 < 0)%R) as [?|_]; [lra|]. by injection EM as <-.
    + rewrite decide_False in EM by (destruct Hnm as [-> | ->]; intros [?|?]; congruence).
      rewrite decide_True in EM by done. unfold deSitterSpacetime in EM. destruct (decide (d < 2)%Z); [done|].
      destruct (decide (0 < 1)%R) as [?|?]; [|lra]. by injection EM as <-.
    + rewrite decide_False in EM by (destruct Hnm as [-> | ->]; intros [?|?]; congruence).
      rewrite decide_False in EM by (destruct Hnm as [-> | ->]; intros [?|?]; congruence).
      rewrite decide_True in EM by done. unfold AntideSitterSpacetime in EM. destruct (decide (d < 2)%Z); [done|].
      destruct (decide (0 < / 2)%R) as [?|?]; [|lra]. injection EM as <-. cbn. f_equal. lra.
    + rewrite decide_False in EM by (destruct Hnm as [-> | ->]; intros [?|?]; congruence).
      rewrite decide_False in EM by (destruct Hnm as [-> | ->]; intros [?|?]; congruence).
      rewrite decide_False in EM by (destruct Hnm as [-> | ->]; intros [?|?]; congruence).
      rewrite decide_True in EM by done. unfold BlackHoleSpacetime in EM. destruct (decide (d < 2)%Z); [done|].
      destruct (decide (2 < d)%Z); [done|].
      destruct (decide ("Eddington-Finkelstein" = "Eddington-Finkelstein" ∨ "Eddington-Finkelstein" = "Schwarzschild")); [|tauto].
      destruct (decide (0 < / 2)%R) as [?|?]; [|lra]. injection EM as <-. unfold Rdiv. by rewrite Rmult_1_l.
  - intros Hd Hst. unfold init_dim in Ed. destruct (decide (dim <= 0)%Z); [|lia].
    destruct sta as [|st|name]; [|by exfalso; eapply Hst|].
    all: split; [intros s' ->; injection Ed as <-; lia|intros Hsh].
    all: destruct sha as [|s'|nm]; [|by exfalso; eapply Hsh|].
    all: destruct coa as [|[|row rest]|cols [|row rest]]; try done; injection Ed as <-; try lia; exists row, rest; (split; [done|lia]).
Qed.
Print Assumptions C65_chosen.
(** No dimension, no spacetime or shape object, and an empty list (or array) of coordinates. *)
Theorem C65_empty_coordinates (f32 : R → R) (eps : R) (it : oracle) (sta : spacetime_arg) (sha : shape_arg)
    (cols : nat) (dim : Z) (h : heap) :
  (dim <= 0)%Z → (∀ st, sta ≠ StObj st) → (∀ s, sha ≠ ShObj s) →
  EmbeddedCauset f32 eps it sta sha (CoList []) dim h = (h, Err IndexError) ∧
  EmbeddedCauset f32 eps it sta sha (CoArray cols []) dim h = (h, Err IndexError).
Proof.
  intros Hd Hst Hsh. unfold EmbeddedCauset, init_dim. destruct (decide (dim <= 0)%Z); [|lia].
  destruct sta as [|st|name]; [|by exfalso; eapply Hst|]; (destruct sha as [|s'|nm]; [|by exfalso; eapply Hsh|]; done).
Qed.
Print Assumptions C65_empty_coordinates.
(** Incompatible arguments. *)
Theorem C65_ValueError (f32 : R → R) (eps : R) (it : oracle) (sta : spacetime_arg) (sha : shape_arg)
    (coa : coords_arg) (dim : Z) (h : heap) : f32_sane f32 →
  (∀ st, sta = StObj st → (0 < dim)%Z → Z.of_nat (Dim st) ≠ dim →
     EmbeddedCauset f32 eps it sta sha coa dim h = (h, Err ValueError)) ∧
  (∀ st s, sta = StObj st → sha = ShObj s → 1 ≤ Dim st → sh_dim s ≠ Dim st →
     EmbeddedCauset f32 eps it sta sha coa dim h = (h, Err ValueError)) ∧
  (∀ st cols rows, sta = StObj st → sha = ShNone → coa = CoArray cols rows → 1 ≤ Dim st → cols ≠ Dim st →
     EmbeddedCauset f32 eps it sta sha coa dim h = (h, Err ValueError)) ∧
  (∀ name, sta = StName name → coa = CoNone →
     name ∉ ["flat"; "Minkowski"; "dS"; "de Sitter"; "AdS"; "Anti-de Sitter"; "black hole"; "Schwarzschild"] →
     EmbeddedCauset f32 eps it sta sha coa dim h = (h, Err ValueError)) ∧
  (∀ name, sta = StName name → name = "black hole" ∨ name = "Schwarzschild" → (0 < dim)%Z → dim ≠ 2%Z →
     EmbeddedCauset f32 eps it sta sha coa dim h = (h, Err ValueError)).
Proof.
  intros Hf. unfold EmbeddedCauset.
  assert (Hd0 : ∀ st, init_dim dim (StObj st) sha coa = Ok (if decide (dim <= 0)%Z then Z.of_nat (Dim st) else dim)).
  { intros st. unfold init_dim. by destruct (decide (dim <= 0)%Z). }
  split_and!.
  - intros st -> Hp Hn. rewrite Hd0. destruct (decide (dim <= 0)%Z); [lia|]. cbn [res_bind init_spacetime].
    by destruct (decide (Z.of_nat (Dim st) = dim)).
  - intros st s -> -> H1 Hn. rewrite Hd0. cbn [res_bind init_spacetime].
    set (d := if decide (dim <= 0)%Z then Z.of_nat (Dim st) else dim). destruct (decide (Z.of_nat (Dim st) = d)) as [_|?]; [|done].
    destruct (DefaultShape_ok f32 st Hf H1) as (ds & -> & Hds). cbn [res_bind].
    destruct (decide (sh_dim s = sh_dim ds)); [congruence|done].
  - intros st cols rows -> -> -> H1 Hn. rewrite Hd0. cbn [res_bind init_spacetime].
    set (d := if decide (dim <= 0)%Z then Z.of_nat (Dim st) else dim). destruct (decide (Z.of_nat (Dim st) = d)) as [_|?]; [|done].
    destruct (DefaultShape_ok f32 st Hf H1) as (ds & -> & Hds). cbn [res_bind]. destruct (decide (sh_dim ds = sh_dim ds)); [|done].
    destruct (decide (cols = sh_dim ds)); [congruence|done].
  - intros name -> -> Hn.
    assert (Hd : ∃ d, init_dim dim (StName name) sha CoNone = Ok d).
    { unfold init_dim. destruct (decide (dim <= 0)%Z); [|eauto]. destruct sha; eauto. }
    destruct Hd as [d ->]. cbn [res_bind init_spacetime].
    rewrite !not_elem_of_cons in Hn. destruct Hn as (N1 & N2 & N3 & N4 & N5 & N6 & N7 & N8 & _).
    destruct (decide (name = "flat" ∨ name = "Minkowski")); [tauto|].
    destruct (decide (name = "dS" ∨ name = "de Sitter")); [tauto|].
    destruct (decide (name = "AdS" ∨ name = "Anti-de Sitter")); [tauto|].
    destruct (decide (name = "black hole" ∨ name = "Schwarzschild")); [tauto|]. done.
  - intros name -> Hnm Hp Hn. unfold init_dim. destruct (decide (dim <= 0)%Z); [lia|]. cbn [res_bind init_spacetime].
    destruct (decide (name = "flat" ∨ name = "Minkowski")) as [[->| ->]|]; [destruct Hnm; congruence..|].
    destruct (decide (name = "dS" ∨ name = "de Sitter")) as [[->| ->]|]; [destruct Hnm; congruence..|].
    destruct (decide (name = "AdS" ∨ name = "Anti-de Sitter")) as [[->| ->]|]; [destruct Hnm; congruence..|].
    destruct (decide (name = "black hole" ∨ name = "Schwarzschild")); [|tauto].
    unfold BlackHoleSpacetime. destruct (decide (dim < 2)%Z); [done|]. destruct (decide (2 < dim)%Z); [done|lia].
Qed.
Print Assumptions C65_ValueError.
Lemma BH_half name : name = "Eddington-Finkelstein" ∨ name = "Schwarzschild" →
  BlackHoleSpacetime 2 (/ 2) name = Ok (BlackHole (/ 2) (bool_decide (name = "Schwarzschild"))).
Proof.
  intros Hn. unfold BlackHoleSpacetime. destruct (decide (2 < 2)%Z); [lia|]. destruct (decide (2 < 2)%Z); [lia|].
  destruct (decide (name = "Eddington-Finkelstein" ∨ name = "Schwarzschild")); [|tauto].
  destruct (decide (0 < / 2)%R); [done|lra].
Qed.
(** The name 'Schwarzschild' selects the metric in Eddington-Finkelstein coordinates. *)
Theorem C65_Schwarzschild_refuted (f32 : R → R) (eps : R) (it : oracle) (h : heap) :
  f32_sane f32 →
  ∃ s, EmbeddedCauset f32 eps it (StName "Schwarzschild") ShNone CoNone 2 h =
       (h, Ok (ECauset (BlackHole (/ 2) false) s ∅)) ∧
  BlackHoleSpacetime 2 (/ 2) "Schwarzschild" = Ok (BlackHole (/ 2) true).
Proof.
  intros Hf. destruct (DefaultShape_ok f32 (BlackHole (/ 2) false) Hf) as (ds & E & Hds); [cbn; lia|].
  exists ds. unfold EmbeddedCauset, init_dim. destruct (decide (2 <= 0)%Z); [lia|]. cbn [res_bind].
  assert (E1 : init_spacetime 2 (StName "Schwarzschild") = Ok (BlackHole (/ 2) false)).
  { cbn [init_spacetime].
    destruct (decide ("Schwarzschild" = "flat" ∨ "Schwarzschild" = "Minkowski")) as [[?|?]|_]; [done..|].
    destruct (decide ("Schwarzschild" = "dS" ∨ "Schwarzschild" = "de Sitter")) as [[?|?]|_]; [done..|].
    destruct (decide ("Schwarzschild" = "AdS" ∨ "Schwarzschild" = "Anti-de Sitter")) as [[?|?]|_]; [done..|].
    destruct (decide ("Schwarzschild" = "black hole" ∨ "Schwarzschild" = "Schwarzschild")) as [_|?]; [|tauto].
    apply BH_half. by left. }
  rewrite E1. cbn [res_bind]. destruct (decide (Z.of_nat (Dim (BlackHole (/ 2) false)) = 2%Z)) as [_|?]; [|done].
  rewrite E. cbn [res_bind]. destruct (decide (sh_dim ds = sh_dim ds)) as [_|?]; [|done]. split; [done|].
  apply BH_half. by right.
Qed.
Print Assumptions C65_Schwarzschild_refuted.
(** Lists of rows are not checked: a row with three coordinates in a two-dimensional spacetime. *)
Theorem C65_list_not_checked_refuted (f32 : R → R) (eps : R) (it : oracle) (h : heap) :
  iter_ok it → order_inv h → link_inv h → f32_sane f32 →
  ∃ h' C x, EmbeddedCauset f32 eps it StNone ShNone (CoList [[0; 0; 0]%Q]) 2 h = (h', Ok C) ∧
    ec_events C = {[x]} ∧ Coordinates h' x = Ok [0; 0; 0]%Q ∧ Dim (ec_spacetime C) = 2.
Proof.
  intros Hit HO HL Hf. destruct (C65_default f32 eps it h 2 Hf) as (s & E0 & _).
  unfold EmbeddedCauset in *.
  assert (Ed : ∀ coa, init_dim 2 StNone ShNone coa = Ok 2%Z).
  { intros coa. unfold init_dim. destruct (decide (2 <= 0)%Z); [lia|done]. }
  rewrite Ed in *. cbn [res_bind] in *.
  destruct (init_spacetime 2 StNone) as [M|]; [|done]. cbn [res_bind] in *.
  destruct (decide (Z.of_nat (Dim M) = 2%Z)) as [HM|]; [|done].
  destruct (DefaultShape f32 M) as [ds|]; [|done]. cbn [res_bind] in *.
  destruct (decide (sh_dim ds = sh_dim ds)) as [_|?]; [|done].
  destruct (C52_create it (caus_of eps M) [[0; 0; 0]%Q] FmtNone true h ∅ Hit HO HL)
    as (h1 & xs & E1 & L & Hnd & Hfr & _ & Hnew & _).
  { apply empty_subseteq. } { intros x Hx. by apply elem_of_empty in Hx. } { intros x Hx. by apply elem_of_empty in Hx. }
  destruct xs as [|x [|? ?]]; try done.
  rewrite E1, union_empty_l_L. cbn [res_map]. eexists _, _, x. split_and!; [done| | |].
  - cbn. by rewrite union_empty_r_L.
  - by destruct (Hnew 0 x [0; 0; 0]%Q eq_refl eq_refl).
  - cbn. lia.
Qed.
Print Assumptions C65_list_not_checked_refuted.

(** The dimension asked for: the argument if positive, else that of the spacetime object, of the
    shape object, of the first event, or 2. *)
Definition asked_dim (sta : spacetime_arg) (sha : shape_arg) (coa : coords_arg) (dim n : Z) : Prop :=
  ((0 < dim)%Z ∧ n = dim) ∨
  ((dim <= 0)%Z ∧
    match sta, sha with
    | StObj st, _ => n = Z.of_nat (Dim st)
    | _, ShObj s => n = Z.of_nat (sh_dim s)
    | _, _ => match coa with
              | CoNone => n = 2%Z
              | CoList rows | CoArray _ rows => ∃ row rest, rows = row :: rest ∧ n = Z.of_nat (length row)
              end
    end).
(** The arguments fit to the dimension [n]. *)
Definition fitting (sta : spacetime_arg) (sha : shape_arg) (coa : coords_arg) (n : Z) : Prop :=
  match sta with
  | StNone => (1 <= n)%Z
  | StObj st => n = Z.of_nat (Dim st)
  | StName name =>
      (name ∈ ["flat"; "Minkowski"] ∧ (1 <= n)%Z) ∨
      (name ∈ ["dS"; "de Sitter"; "AdS"; "Anti-de Sitter"] ∧ (2 <= n)%Z) ∨
      (name ∈ ["black hole"; "Schwarzschild"] ∧ n = 2%Z)
  end ∧
  match sha with
  | ShNone => True
  | ShObj s => n = Z.of_nat (sh_dim s)
  | ShName name => name ∈ ["diamond"; "bicone"; "ball"; "cylinder"; "cube"; "cuboid"]
  end ∧
  match coa with CoArray cols _ => n = Z.of_nat cols | _ => True end.
Lemma name_shape_ok f32 (n : Z) name : f32_sane f32 → (1 <= n)%Z →
  (name ∈ ["diamond"; "bicone"; "ball"; "cylinder"; "cube"; "cuboid"] →
     ∃ s, CoordinateShape f32 n name no_args = Ok s ∧ Z.of_nat (sh_dim s) = n) ∧
  (name ∉ ["diamond"; "bicone"; "ball"; "cylinder"; "cube"; "cuboid"] → CoordinateShape f32 n name no_args = Err ValueError).
Proof.
  intros (H1 & H0 & H2) Hn. split; intros Hin.
  - destruct (proj1 (C55_validation f32 n name no_args)) as (s & E & Hs & _); [|by exists s].
    rewrite !elem_of_cons, elem_of_nil in Hin. split; cbn; try done; unfold ball_like; tauto.
  - apply (proj2 (C55_validation f32 n name no_args)). intros [_ Hv _ _ _ _ _]. apply Hin.
    rewrite !elem_of_cons. unfold ball_like in Hv. tauto.
Qed.
(** The constructor succeeds exactly if there is a dimension to which all arguments fit; otherwise
    it raises ValueError (IndexError if the dimension has to be read from an empty list), and the
    events in memory are unchanged. *)
Theorem C65_succeeds (f32 : R → R) (eps : R) (it : oracle) (sta : spacetime_arg) (sha : shape_arg)
    (coa : coords_arg) (dim : Z) (h : heap) :
  f32_sane f32 → iter_ok it → order_inv h → link_inv h → (∀ st, sta = StObj st → 1 ≤ Dim st) →
  ((∃ h' C, EmbeddedCauset f32 eps it sta sha coa dim h = (h', Ok C)) ↔
     ∃ n, asked_dim sta sha coa dim n ∧ fitting sta sha coa n) ∧
  (∀ h' e, EmbeddedCauset f32 eps it sta sha coa dim h = (h', Err e) →
     h' = h ∧ (((∃ n, asked_dim sta sha coa dim n) ∧ e = ValueError) ∨
               ((¬ ∃ n, asked_dim sta sha coa dim n) ∧ e = IndexError))).
Proof.
  intros Hf Hit HO HL Hst1.
  assert (Hasked : (∃ n, init_dim dim sta sha coa = Ok n ∧ ∀ m, asked_dim sta sha coa dim m ↔ m = n) ∨
                   (init_dim dim sta sha coa = Err IndexError ∧ ¬ ∃ n, asked_dim sta sha coa dim n)).
  { unfold init_dim, asked_dim. destruct (decide (dim <= 0)%Z) as [Hd|Hd].
    2: { left. exists dim. split; [done|]. intros m. split; [intros [[? ?]|[? ?]]; [done|lia]|intros ->; left; lia]. }
    destruct sta as [|st|nm]; destruct sha as [|s|nm']; try (left; eexists; split; [reflexivity|]; intros m; split; [intros [[? ?]|[_ ?]]; [lia|done]|intros ->; right; done]);
      destruct coa as [|[|r rows]|cols [|r rows]];
      try (right; split; [done|]; intros [n [[? ?]|[_ (row & rest & E & _)]]]; [lia|done]);
      left; eexists; (split; [reflexivity|]); intros m; (split; [intros [[? ?]|[_ Hm]]; [lia|]|intros ->; right; split; [done|]]); try done;
      try (destruct Hm as (row & rest & E & ->); by injection E as <- <-); eauto. }
  unfold EmbeddedCauset. destruct Hasked as [(n & En & Hn)|[En Hn]]; rewrite En; cbn [res_bind].
  2: { split.
       - split; [intros (? & ? & ?); done|]. intros (n & Ha & _). exfalso. apply Hn. by exists n.
       - intros h' e E. injection E as <- <-. split; [done|]. right. split; [done|done]. }
  assert (Ha : asked_dim sta sha coa dim n) by by apply Hn.
  assert (Hfit : (∃ m, asked_dim sta sha coa dim m ∧ fitting sta sha coa m) ↔ fitting sta sha coa n).
  { split; [intros (m & Hm%Hn & ?); by subst m|intros; by exists n]. }
  rewrite Hfit.
  assert (Hex : ∃ m, asked_dim sta sha coa dim m) by by exists n.
  assert (Hfail : ∀ r : heap * res ecauset, r = (h, Err ValueError) → ¬ fitting sta sha coa n →
    ((∃ h' C, r = (h', Ok C)) ↔ fitting sta sha coa n) ∧
    (∀ h' e, r = (h', Err e) → h' = h ∧ (((∃ n, asked_dim sta sha coa dim n) ∧ e = ValueError) ∨
               ((¬ ∃ n, asked_dim sta sha coa dim n) ∧ e = IndexError)))).
  { intros r -> Hnf. split; [split; [intros (? & ? & ?); done|done]|]. intros h' e E. injection E as <- <-. split; [done|]. by left. }
  (* the spacetime *)
  assert (Hsp : (∃ M, init_spacetime n sta = Ok M ∧ 1 ≤ Dim M ∧
      (Z.of_nat (Dim M) = n ↔ match sta with
         | StNone => (1 <= n)%Z | StObj st => n = Z.of_nat (Dim st)
         | StName name => (name ∈ ["flat"; "Minkowski"] ∧ (1 <= n)%Z) ∨
             (name ∈ ["dS"; "de Sitter"; "AdS"; "Anti-de Sitter"] ∧ (2 <= n)%Z) ∨
             (name ∈ ["black hole"; "Schwarzschild"] ∧ n = 2%Z) end)) ∨
    (init_spacetime n sta = Err ValueError ∧ ¬ fitting sta sha coa n)).
  { unfold fitting. destruct sta as [|st|name]; cbn [init_spacetime].
    - unfold FlatSpacetime. destruct (decide (n < 1)%Z); [right; split; [done|]; intros [? _]; lia|].
      destruct (decide (0 < 0)%R); [lra|]. left. eexists. split; [reflexivity|]. cbn. lia.
    - left. exists st. split; [done|]. split; [by apply Hst1|]. lia.
    - assert (I1 : name ∈ ["flat"; "Minkowski"] ↔ name = "flat" ∨ name = "Minkowski") by (rewrite !elem_of_cons, elem_of_nil; tauto).
      assert (I2 : name ∈ ["dS"; "de Sitter"; "AdS"; "Anti-de Sitter"] ↔ (name = "dS" ∨ name = "de Sitter") ∨ name = "AdS" ∨ name = "Anti-de Sitter")
        by (rewrite !elem_of_cons, elem_of_nil; tauto).
      assert (I3 : name ∈ ["black hole"; "Schwarzschild"] ↔ name = "black hole" ∨ name = "Schwarzschild") by (rewrite !elem_of_cons, elem_of_nil; tauto).
      destruct (decide (name = "flat" ∨ name = "Minkowski")) as [Hn1|Hn1].
      { assert (Hno : ¬ (name = "dS" ∨ name = "de Sitter" ∨ name = "AdS" ∨ name = "Anti-de Sitter") ∧
                      ¬ (name = "black hole" ∨ name = "Schwarzschild")).
        { destruct Hn1 as [-> | ->]; split; intros H; repeat destruct H as [H|H]; discriminate H. }
        unfold FlatSpacetime. destruct (decide (n < 1)%Z); [right; split; [done|]; intros [? _]; naive_solver lia|].
        destruct (decide (0 < 0)%R); [lra|]. left. eexists. split; [reflexivity|]. cbn.
        split; [lia|]. split; [intros _; left; split; [first [apply I1|apply I2|apply I3]; tauto|lia]|lia]. }
            destruct (decide (name = "dS" ∨ name = "de Sitter")) as [Hn2|Hn2].
      { assert (Hno : ¬ (name = "black hole" ∨ name = "Schwarzschild")) by (destruct Hn2 as [-> | ->]; intros ?; naive_solver).
        unfold deSitterSpacetime. destruct (decide (n < 2)%Z); [right; split; [done|]; intros [? _]; naive_solver lia|].
        destruct (decide (0 < 1)%R); [|lra]. left. eexists. split; [reflexivity|]. cbn.
        split; [lia|]. split; [intros _; right; left; split; [first [apply I1|apply I2|apply I3]; tauto|lia]|lia]. }
      destruct (decide (name = "AdS" ∨ name = "Anti-de Sitter")) as [Hn3|Hn3].
      { assert (Hno : ¬ (name = "black hole" ∨ name = "Schwarzschild")) by (destruct Hn3 as [-> | ->]; intros ?; naive_solver).
        unfold AntideSitterSpacetime. destruct (decide (n < 2)%Z); [right; split; [done|]; intros [? _]; naive_solver lia|].
        destruct (decide (0 < / 2)%R); [|lra]. left. eexists. split; [reflexivity|]. cbn.
        split; [lia|]. split; [intros _; right; left; split; [first [apply I1|apply I2|apply I3]; tauto|lia]|lia]. }
            destruct (decide (name = "black hole" ∨ name = "Schwarzschild")) as [Hn4|Hn4].
      { unfold BlackHoleSpacetime. destruct (decide (n < 2)%Z); [right; split; [done|]; intros [? _]; naive_solver lia|].
        destruct (decide (2 < n)%Z); [right; split; [done|]; intros [? _]; naive_solver lia|].
        destruct (decide (_ ∨ _)) as [_|[]]; [|by left]. destruct (decide (0 < / 2)%R); [|lra].
        left. eexists. split; [reflexivity|]. cbn. split; [lia|]. split; [intros _; right; right; split; [first [apply I1|apply I2|apply I3]; tauto|lia]|lia]. }
      right. split; [done|]. intros [? _]. naive_solver. }
  destruct Hsp as [(M & EM & HM1 & HM)|[EM HM]]; rewrite EM; cbn [res_bind]; [|by apply Hfail].
  destruct (decide (Z.of_nat (Dim M) = n)) as [HMn|HMn].
  2: { apply Hfail; [done|]. intros [Hx _]. apply HMn, HM. done. }
  destruct (DefaultShape_ok f32 M Hf HM1) as (ds & Eds & Hds). rewrite Eds. cbn [res_bind].
  assert (Hfst := proj1 HM HMn). clear HM.
  assert (Hsh : ∀ s, (sha = ShNone ∧ s = ds) ∨ (∃ s', sha = ShObj s' ∧ s' = s) ∨
       (∃ name, sha = ShName name ∧ CoordinateShape f32 n name no_args = Ok s ∧
          name ∈ ["diamond"; "bicone"; "ball"; "cylinder"; "cube"; "cuboid"] ∧ Z.of_nat (sh_dim s) = n) →
       let r := match (if decide (sh_dim s = sh_dim ds) then Ok (M, s) else Err ValueError) with
         | Err e => (h, Err e)
         | Ok (M, s) =>
           let make rows := let '(h1, C, r) := create it (caus_of eps M) rows FmtNone true ∅ h in (h1, res_map (λ _, ECauset M s C) r) in
           match coa with
           | CoNone => (h, Ok (ECauset M s ∅)) | CoList rows => make rows
           | CoArray cols rows => if decide (cols = sh_dim s) then make rows else (h, Err ValueError)
           end end in
       ((∃ h' C, r = (h', Ok C)) ↔ fitting sta sha coa n) ∧
       (∀ h' e, r = (h', Err e) → h' = h ∧ (((∃ n, asked_dim sta sha coa dim n) ∧ e = ValueError) ∨
               ((¬ ∃ n, asked_dim sta sha coa dim n) ∧ e = IndexError)))).
  { intros s Hs. cbn zeta. destruct (decide (sh_dim s = sh_dim ds)) as [Hsd|Hsd].
    2: { apply Hfail; [done|]. intros (_ & Hx & _). apply Hsd.
         destruct Hs as [[-> ->]|[(s' & -> & ->)|(name & -> & _ & _ & Hz)]]; [done|lia|lia]. }
    assert (Hshape : match sha with ShNone => True | ShObj s => n = Z.of_nat (sh_dim s)
       | ShName name => name ∈ ["diamond"; "bicone"; "ball"; "cylinder"; "cube"; "cuboid"] end).
    { destruct Hs as [[-> ->]|[(s' & -> & ->)|(name & -> & _ & Hx & _)]]; [done|lia|done]. }
    assert (Hmake : ∀ rows, ∃ h1 xs, create it (caus_of eps M) rows FmtNone true ∅ h = (h1, ∅ ∪ xs, Ok xs)).
    { intros rows. destruct (C52_create it (caus_of eps M) rows FmtNone true h ∅ Hit HO HL) as (h1 & xs & E & _); [| | |by eexists _, _].
      - apply empty_subseteq.
      - intros x Hx. by apply elem_of_empty in Hx.
      - intros x Hx. by apply elem_of_empty in Hx. }
    destruct coa as [|rows|cols rows].
    - split; [|done]. split; [intros _; split_and!; done|intros _; by eexists _, _].
    - destruct (Hmake rows) as (h1 & xs & ->). split; [|done]. split; [intros _; split_and!; done|intros _; by eexists _, _].
    - destruct (decide (cols = sh_dim s)) as [Hc|Hc].
      + destruct (Hmake rows) as (h1 & xs & ->). split; [|done]. split; [intros _; split_and!; [done|done|lia]|intros _; by eexists _, _].
      + apply Hfail; [done|]. intros (_ & _ & Hx). apply Hc. lia. }
  destruct sha as [|s|name].
  - cbn [res_bind]. apply Hsh. by left.
  - cbn [res_bind]. apply Hsh. right. left. by exists s.
  - assert (Hn1 : (1 <= n)%Z) by lia. destruct (name_shape_ok f32 n name Hf Hn1) as [Hyes Hno].
    destruct (decide (name ∈ ["diamond"; "bicone"; "ball"; "cylinder"; "cube"; "cuboid"])) as [Hin|Hin].
    + destruct (Hyes Hin) as (s & E & Hz). rewrite E. cbn [res_bind]. apply Hsh. right. right. by exists name.
    + rewrite Hno by done. cbn [res_bind]. apply Hfail; [done|]. intros (_ & Hx & _). done.
Qed.
Print Assumptions C65_succeeds.

(** ** Concrete cases *)
Definition qidx_le (vs : list Q) (i j : nat) : Prop := (nth i vs 0 <= nth j vs 0)%Q.
#[global] Instance qidx_le_dec vs i j : Decision (qidx_le vs i j).
Proof. unfold qidx_le. destruct (Qlt_le_dec (nth j vs 0%Q) (nth i vs 0%Q)); [right|left; done]. by apply Qlt_not_le. Defined.
#[global] Instance qidx_le_total vs : Total (qidx_le vs).
Proof. intros i j. unfold qidx_le. destruct (Qlt_le_dec (nth j vs 0%Q) (nth i vs 0%Q)); [right; by apply Qlt_le_weak|by left]. Qed.
#[global] Instance qidx_le_trans vs : Transitive (qidx_le vs).
Proof. intros i j k. unfold qidx_le. apply Qle_trans. Qed.
Definition demo_argsort_num : argsort_num := λ vs, merge_sort (qidx_le vs) (seq 0 (length vs)).
Lemma demo_argsort_num_ok : argsort_num_ok demo_argsort_num.
Proof.
  intros vs. unfold demo_argsort_num. split; [apply merge_sort_Permutation|].
  assert (Hs : Sorted (qidx_le vs) (merge_sort (qidx_le vs) (seq 0 (length vs)))) by (apply Sorted_merge_sort; apply _).
  apply Sorted_StronglySorted in Hs; [|apply _].
  intros i j a b va vb Hi Hj Hij Ha Hb.
  assert (Hq : qidx_le vs a b).
  { revert i j Hi Hj Hij. induction Hs as [|x l Hs IH Hall]; intros i j Hi Hj Hij; [done|].
    destruct j as [|j]; [lia|]. destruct i as [|i]; cbn in Hi, Hj.
    - injection Hi as <-. rewrite Forall_forall in Hall. apply Hall. by eapply elem_of_list_lookup_2.
    - by apply (IH i j); [..|lia]. }
  unfold qidx_le in Hq. by rewrite (nth_lookup_Some _ _ _ _ Ha), (nth_lookup_Some _ _ _ _ Hb) in Hq.
Qed.
(** Three embedded events: (0, 0), (2, 1) and (1, 3). *)
Definition emb3 : heap :=
  fst (create_events it_sorted FmtNone 1 [[0; 0]; [2; 1]; [1; 3]]%Q ∅).
Definition crd3 (x : nat) : list Q := match x with 0 => [0; 0]%Q | 1 => [2; 1]%Q | _ => [1; 3]%Q end.
Lemma emb3_ok : dom emb3 = {[0; 1; 2]} ∧ order_inv emb3 ∧ link_inv emb3 ∧ closed emb3 {[0; 1; 2]} ∧
  embedded emb3 {[0; 1; 2]} crd3.
Proof.
  destruct (create_events_spec it_sorted FmtNone [[0; 0]; [2; 1]; [1; 3]]%Q 1 ∅ it_sorted_ok)
    as (_ & _ & Hfr & Hd & Hold & Hnew).
  fold emb3 in Hd, Hold, Hnew.
  assert (Hids : snd (create_events it_sorted FmtNone 1 [[0; 0]; [2; 1]; [1; 3]]%Q ∅) = [0; 1; 2]) by (vm_compute; reflexivity).
  rewrite Hids in *.
  pose proof (Hnew 0 0 _ eq_refl eq_refl) as E0. pose proof (Hnew 1 1 _ eq_refl eq_refl) as E1.
  pose proof (Hnew 2 2 _ eq_refl eq_refl) as E2. clear Hnew.
  assert (Hin : ∀ x, x ∈ ({[0; 1; 2]} : gset nat) → x = 0 ∨ x = 1 ∨ x = 2).
  { intros x. clear. set_solver. }
  assert (Hin' : ∀ x, x ∈ [0; 1; 2] → x = 0 ∨ x = 1 ∨ x = 2).
  { intros x. clear. set_solver. }
  destruct empty_inv as (HO & HL & _).
  destruct (isolated_order ∅ emb3 [0; 1; 2] HO HL Hfr Hold) as (_ & HO' & HL').
  { intros x Hx. unfold prec, succ, lprec, lsucc. destruct (Hin' x Hx) as [->|[->| ->]]; rewrite ?E0, ?E1, ?E2; done. }
  split_and!.
  - rewrite Hd, dom_empty_L. clear. set_solver.
  - done.
  - done.
  - intros x Hx. unfold prec, succ. destruct (Hin x Hx) as [->|[->| ->]]; rewrite ?E0, ?E1, ?E2; cbn; split; apply empty_subseteq.
  - intros x Hx. unfold Coordinates, Base.coords. destruct (Hin x Hx) as [->|[->| ->]]; rewrite ?E0, ?E1, ?E2; done.
Qed.
Example C50_nonvacuous : ∃ h', relate it_sorted (caus_of 0 (Flat 2 None)) true {[0; 1; 2]} emb3 = (h', Ok tt) ∧
  order_inv h' ∧ link_inv h' ∧ ev_lt h' 0 1 = true ∧ ev_lt h' 1 0 = false ∧ ev_lt h' 0 2 = false.
Proof.
  destruct emb3_ok as (Hd & HO & HL & Hcl & Hemb).
  destruct (C50_minkowski it_sorted 2 true emb3 {[0; 1; 2]} crd3 it_sorted_ok HO HL) as (h' & E & HO' & HL' & H);
    [by rewrite Hd|done|done|lia| |].
  { intros x _. by destruct x as [|[|?]]. }
  exists h'. split_and!; [done|done|done| | |].
  - destruct (H 0 1 ltac:(set_solver) ltac:(set_solver)) as [H1 _]. cbn zeta in H1. apply H1.
    + cbn. rewrite RMicromega.Q2R_0. unfold Q2R. cbn. intros Hq. injection Hq. lra.
    + unfold minkowski_future, distance2, cget, rsum, crd3, Q2R. cbn. lra.
  - destruct (H 1 0 ltac:(set_solver) ltac:(set_solver)) as [H1 _]. cbn zeta in H1. apply not_true_is_false. rewrite H1.
    + unfold minkowski_future, distance2, cget, rsum, crd3, Q2R. cbn. lra.
    + cbn. rewrite RMicromega.Q2R_0. unfold Q2R. cbn. intros Hq. injection Hq. lra.
  - destruct (H 0 2 ltac:(set_solver) ltac:(set_solver)) as [H1 _]. cbn zeta in H1. apply not_true_is_false. rewrite H1.
    + unfold minkowski_future, distance2, cget, rsum, crd3, Q2R. cbn. lra.
    + cbn. rewrite RMicromega.Q2R_0. unfold Q2R. cbn. intros Hq. injection Hq. lra.
Qed.
Lemma f32_id_sane : f32_sane (λ x, x).
Proof. unfold f32_sane. lra. Qed.
Example C51_nonvacuous : ∃ h' x y z s,
  EmbFromPermutation (λ x, x) causality_eps it_sorted (λ _, []) [2; 3; 1]%Z FmtNone 1 ∅
    = (h', Ok (ECauset (Flat 2 None) s {[x; y; z]})) ∧
  lab h' x = LInt 1 ∧ lab h' y = LInt 2 ∧ lab h' z = LInt 3 ∧ before h' y z ∧ ¬ before h' x z.
Proof.
  destruct empty_inv as (HO & HL & _).
  assert (HP : [2; 3; 1]%Z ≡ₚ upto 3) by decide_vm.
  assert (Q1 : Q2R 1 = 1%R) by (unfold Q2R; cbn; lra).
  assert (He : (0 <= causality_eps <= / 10)%R).
  { unfold causality_eps. split; [apply Rlt_le, Rinv_0_lt_compat, pow_lt; lra|].
    apply Rinv_le_contravar; [lra|]. cbn. lra. }
  destruct (C51_FromPermutation (λ x, x) causality_eps it_sorted (λ _, []) [2; 3; 1]%Z FmtNone 1 ∅ 3
    it_sorted_ok HO HL HP f32_id_sane) as (h' & evs & s & E & _ & _ & Hpc & _ & _ & Hb).
  { rewrite Q1. lra. } { rewrite Q1. lra. } { lra. } { rewrite Q1. cbn [INR]. lra. }
  destruct Hpc as (_ & Hl & _ & _ & Hlab & _). destruct evs as [|x [|y [|z [|? ?]]]]; try done.
  exists h', x, y, z, s. split_and!.
  - rewrite E. do 3 f_equal. cbn. by rewrite union_empty_r_L, assoc_L by apply _.
  - apply (Hlab 0 x eq_refl). - apply (Hlab 1 y eq_refl). - apply (Hlab 2 z eq_refl).
  - apply (Hb 1 2 y z 0 1); [done..|lia].
  - rewrite (Hb 0 2 x z 2 1); [lia|done..].
Qed.
Example C52_nonvacuous : iter_ok it_sorted ∧ argsort_num_ok demo_argsort_num ∧
  dim_values emb3 0 (it_sorted 32 {[0; 1; 2]}) = Ok [0; 2; 1]%Q ∧
  lab (fst (relabel it_sorted demo_argsort_num 0 false {[0; 1; 2]} emb3)) 1 = LInt 3 ∧
  lab (fst (relabel it_sorted demo_argsort_num 0 true {[0; 1; 2]} emb3)) 1 = LInt 1.
Proof.
  split; [apply it_sorted_ok|]. split; [apply demo_argsort_num_ok|]. split_and!; vm_compute; reflexivity.
Qed.
Definition four : gset nat := {[0; 1; 2; 3]}.
Example C64_nonvacuous : ∃ s, CoordinateShape (λ x, x) 2 "cube" no_args = Ok s ∧ snd (Volume s) = 1%R ∧
  Density (ECauset Generic s four) = 4%R ∧ (LengthScale (ECauset Generic s four) ^ 2 = 4)%R.
Proof.
  destruct (proj1 (C55_validation (λ x, x) 2 "cube" no_args)) as (s & E & Hd & Hn & _ & _ & _ & He & _).
  { split; cbn; try done; intros; try lra; try tauto; destruct H as [|[|[|]]]; done. }
  specialize (He eq_refl). cbn in He.
  assert (Hc : constructed_shape s) by by exists (λ x, x), 2%Z, "cube", no_args.
  assert (Hv : snd (Volume s) = 1%R).
  { destruct (C56_volume s _ Hc eq_refl) as (_ & _ & _ & V & _). rewrite V by exact Hn.
    rewrite He. assert (sh_dim s = 2) as -> by lia. unfold box_volume. cbn. lra. }
  exists s. assert (Hden : Density (ECauset Generic s four) = 4%R).
  { unfold Density. cbn [ec_shape ec_events]. rewrite Hv.
    assert (Hsz : size four = 4) by (vm_compute; reflexivity). rewrite Hsz. cbn. lra. }
  split_and!; [done|done|done|].
  destruct (C64_LengthScale (ECauset Generic s four) Hc) as [_ HL]; [cbn; lra|].
  destruct HL as [_ HL]; [cbn; intros Hq; by apply (f_equal size) in Hq|]. cbn [ec_shape] in HL. assert (Hd2 : sh_dim s = 2) by lia. rewrite Hd2, Hden in HL. done.
Qed.
Example C65_nonvacuous : ∃ h' C, f32_sane (λ x, x) ∧
  EmbeddedCauset (λ x, x) causality_eps it_sorted StNone ShNone (CoList [[0; 0; 0]%Q]) 2 ∅ = (h', Ok C).
Proof.
  destruct empty_inv as (HO & HL & _).
  destruct (C65_list_not_checked_refuted (λ x, x) causality_eps it_sorted ∅ it_sorted_ok HO HL f32_id_sane)
    as (h' & C & x & E & _). exists h', C. split; [apply f32_id_sane|done].
Qed.
(** A black hole in three dimensions, an unknown shape and an array with the wrong number of
    columns are refused; a ball in three-dimensional de Sitter spacetime is not. *)
Example C65_succeeds_nonvacuous :
  f32_sane (λ x, x) ∧ iter_ok it_sorted ∧ order_inv ∅ ∧ link_inv ∅ ∧
  (∃ n, asked_dim (StName "dS") (ShName "ball") CoNone 3 n ∧ fitting (StName "dS") (ShName "ball") CoNone n) ∧
  (¬ ∃ n, asked_dim (StName "black hole") ShNone CoNone 3 n ∧ fitting (StName "black hole") ShNone CoNone n) ∧
  (¬ ∃ n, asked_dim StNone (ShName "sphere") CoNone 2 n ∧ fitting StNone (ShName "sphere") CoNone n) ∧
  (¬ ∃ n, asked_dim StNone ShNone (CoArray 3 [[0; 0; 0]%Q]) 2 n ∧ fitting StNone ShNone (CoArray 3 [[0; 0; 0]%Q]) n).
Proof.
  split_and!; [apply f32_id_sane|apply it_sorted_ok|apply empty_inv|apply empty_inv|..].
  - exists 3%Z. split; [by left|]. split_and!; [right; left; split; [decide_vm|lia]|decide_vm|done].
  - intros (n & [[_ ->]|[? _]] & Hf & _); [|lia]. destruct Hf as [[Hf _]|[[Hf _]|[_ ?]]]; [revert Hf; decide_vm..|lia].
  - intros (n & [[_ ->]|[? _]] & _ & Hf & _); [|lia]. revert Hf. decide_vm.
  - intros (n & [[_ ->]|[? _]] & _ & _ & Hf); [|lia]. lia.
Qed.
