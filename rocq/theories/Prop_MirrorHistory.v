(** Theorem about whole programs: the program with past and future exchanged builds the mirrored order (C97). *)
From Verif Require Import Base Spec EventModel EventFacts DisjoinFacts History HistoryFacts EventProps Prop_Event CausetModel CausetFacts
  LayerFacts SeedOrder Prop_Dual.

(** The call with past and future exchanged. *)
Definition mirrored (o : op) : op :=
  match o with
  | ONew l P F cs ps => ONew l F P cs ps
  | OLinkPast x => OLinkFuture x
  | OLinkFuture x => OLinkPast x
  | OIsPastLink x y => OIsFutureLink x y
  | OIsFutureLink x y => OIsPastLink x y
  | OLinkPastCard x => OLinkFutureCard x
  | OLinkFutureCard x => OLinkPastCard x
  | _ => o
  end.

Lemma dual_alike h1 h2 : alike h1 h2 → alike (dual h1) (dual h2).
Proof.
  intros HA. apply alike_of; [unfold dual; by rewrite !dom_fmap_L, (proj1 HA)|]. intros x.
  destruct (alike_attr h1 h2 x HA) as (E1 & E2 & E3 & E4 & E5). rewrite !dual_prec, !dual_succ.
  unfold lab, Base.coords, Base.pos in *. rewrite !dual_lookup. done.
Qed.
Lemma dual_dom_eq h : dom (dual h) = dom h.
Proof. unfold dual. by rewrite dom_fmap_L. Qed.
Lemma dual_upd f x h : (∀ e, dual_ev (f e) = f (dual_ev e)) → dual (upd f x h) = upd f x (dual h).
Proof. intros Hf. unfold upd. rewrite dual_lookup, <- Hf. unfold dual. by rewrite fmap_insert. Qed.

Lemma mirrored_admissible h o : order_inv h → admissible h o → admissible (dual h) (mirrored o).
Proof.
  intros HO Ha. destruct o; cbn [admissible mirrored] in *; try by rewrite dual_dom_eq.
  destruct Ha as (HP & HF & Hc). rewrite dual_dom_eq. split; [done|]. split; [done|].
  intros p f Hp Hf. rewrite dual_before by done. apply Hc.
  - destruct Hf as [?|(e & He & Hf)]; [by left|right]. exists e. split; [done|]. by apply dual_before.
  - destruct Hp as [?|(e & He & Hp)]; [by left|right]. exists e. split; [done|]. by apply dual_before.
Qed.

(** One call on the mirrored store. *)
Lemma mirrored_step it h o : iter_ok it → order_inv h → admissible h o → is_disjoin o = false →
  alike (dual (step it h o)) (step it (dual h) (mirrored o)).
Proof.
  intros Hit HO Ha Hd. pose proof (mirrored_admissible h o HO Ha) as Ha2. assert (HOd := dual_order h HO).
  pose proof (linkish_step h o it Ha) as L1. pose proof (linkish_step (dual h) (mirrored o) it Ha2) as L2.
  destruct o; try done; cbn [step mirrored] in *;
    try (apply linkish_alike in L1, L2; eapply alike_trans; [apply alike_sym, dual_alike; exact L1|exact L2]).
  - pose proof Ha as (HP & HF & _). assert (HP' := HP). assert (HF' := HF). rewrite <- dual_dom_eq in HP', HF'.
    destruct (C03_ctor_effect it h l P F cs ps Hit HO HP HF) as (_ & D1 & A1 & A2 & A3 & A4 & A5 & A6 & A7 & A8 & A9 & _).
    destruct (C03_ctor_effect it (dual h) l F P cs ps Hit HOd HF' HP') as (_ & D2 & B1 & B2 & B3 & B4 & B5 & B6 & B7 & B8 & B9 & _).
    assert (Ex : snd (new_event it l F P cs ps (dual h)) = snd (new_event it l P F cs ps h)).
    { unfold new_event. cbn [snd]. unfold new_id. by rewrite dual_dom_eq. }
    rewrite Ex in *. set (x := snd (new_event it l P F cs ps h)) in *.
    assert (Hirr : ∀ h' z, order_inv h' → z ∉ Past h' z ∧ z ∉ Future h' z).
    { intros h' z HO'. assert (N := oi_irr h' HO' z). split; [exact N|]. intros Hz. apply N. unfold before. by apply (oi_conv h' HO'). }
    pose proof (step_order it h (ONew l P F cs ps) Hit Ha HO) as HO1. cbn [step] in HO1.
    pose proof (step_order it (dual h) (ONew l F P cs ps) Hit Ha2 HOd) as HO2. cbn [step] in HO2.
    set (h1 := fst (new_event it l P F cs ps h)) in *. set (h2 := fst (new_event it l F P cs ps (dual h))) in *.
    clearbody x h1 h2.
    assert (EP : ∀ y, PresentOrPast (dual h) y = PresentOrFuture h y) by (intros y; unfold PresentOrPast, PresentOrFuture, Past, Future; by rewrite dual_prec).
    assert (EF : ∀ y, PresentOrFuture (dual h) y = PresentOrPast h y) by (intros y; unfold PresentOrPast, PresentOrFuture, Past, Future; by rewrite dual_succ).
    assert (Nx : ∀ a, a ∈ Future h1 x ↔ a ∈ Past h2 x) by (intros a; rewrite A2, B1; by setoid_rewrite EP).
    assert (Px : ∀ a, a ∈ Past h1 x ↔ a ∈ Future h2 x) by (intros a; rewrite A1, B2; by setoid_rewrite EF).
    apply alike_of.
    + by rewrite dual_dom_eq, D1, D2, dual_dom_eq.
    + intros y. rewrite dual_prec, dual_succ.
      assert (E : lab h1 y = lab h2 y ∧ Base.coords h1 y = Base.coords h2 y ∧ Base.pos h1 y = Base.pos h2 y).
      { destruct (decide (y = x)) as [->|Hy].
        - rewrite A7, B7. change (pos h1 x) with (get_Position h1 x). change (pos h2 x) with (get_Position h2 x). rewrite A9, B9.
          unfold Coordinates in A8, B8. destruct (coords h1 x), (coords h2 x); try done. by rewrite <- A8 in B8; injection B8 as ->.
        - destruct (A6 y Hy) as (-> & -> & ->). destruct (B6 y Hy) as (-> & -> & ->).
          unfold lab, Base.coords, Base.pos. by rewrite !dual_lookup. }
      assert (S : succ h1 y = prec h2 y ∧ prec h1 y = succ h2 y).
      { change (succ h1 y) with (Future h1 y). change (prec h1 y) with (Past h1 y). change (succ h2 y) with (Future h2 y). change (prec h2 y) with (Past h2 y).
        destruct (decide (y = x)) as [->|Hy]; [split; apply set_eq; auto|].
        split; apply set_eq; intros a; (destruct (decide (a = x)) as [->|Ha']).
        - rewrite A3, B4. apply Px.
        - destruct (A5 a y Ha' Hy) as [_ ->], (B5 a y Ha' Hy) as [-> _]. unfold Past, Future. by rewrite dual_prec.
        - rewrite A4, B3. apply Nx.
        - destruct (A5 a y Ha' Hy) as [-> _], (B5 a y Ha' Hy) as [_ ->]. unfold Past, Future. by rewrite dual_succ. }
      destruct S as [S1 S2], E as (E1 & E2 & E3). rewrite S1, S2.
      unfold lab, Base.coords, Base.pos in *. rewrite !dual_lookup. done.
  - eapply alike_trans; [apply alike_sym, dual_alike, unlink_alike, Ha|]. apply unlink_alike, Ha2.
  - unfold embed, isEmbedded, Base.coords. rewrite dual_lookup. cbn [dual_ev ev_coords].
    destruct (negb reembed && _); cbn [fst]; [done|]. by rewrite dual_upd.
  - unfold disembed, Base.coords. rewrite dual_lookup. cbn [dual_ev ev_coords].
    destruct (ev_coords (h !!! x)); cbn [fst]; [|done]. by rewrite dual_upd.
  - unfold set_Position. destruct (decide _); cbn [fst]; [|done]. by rewrite dual_upd.
Qed.

Lemma mirrored_no_disjoin o : is_disjoin (mirrored o) = is_disjoin o.
Proof. by destruct o. Qed.

(** Two programs, the second with past and future exchanged in every call: the events, their labels,
    coordinates and positions agree, past and future and the links are exchanged. *)
Theorem C97_mirrored_program (hist1 hist2 : list (oracle * op)) :
  hist2.*2 = mirrored <$> hist1.*2 → (∀ it, it ∈ hist2.*1 → iter_ok it) →
  admissible_history ∅ hist1 → no_disjoin hist1 →
  let h1 := run ∅ hist1 in let h2 := run ∅ hist2 in
  dom h1 = dom h2 ∧
  ∀ x, Past h2 x = Future h1 x ∧ Future h2 x = Past h1 x ∧
       lab h2 x = lab h1 x ∧ Coordinates h2 x = Coordinates h1 x ∧ get_Position h2 x = get_Position h1 x ∧
       snd (get_LinkPast h2 x) = snd (get_LinkFuture h1 x) ∧ snd (get_LinkFuture h2 x) = snd (get_LinkPast h1 x).
Proof.
  intros E Hok Ha Hn h1 h2.
  assert (HG : ∀ v1 v2, order_inv v1 → order_inv v2 → alike (dual v1) v2 → admissible_history v1 hist1 →
    alike (dual (run v1 hist1)) (run v2 hist2) ∧ admissible_history v2 hist2 ∧ no_disjoin hist2).
  { clear h1 h2 Ha. revert hist2 E Hok Hn. induction hist1 as [|[it1 o] hist1 IH]; intros [|[it2 o2] hist2] E Hok Hn v1 v2 HO1 HO2 HA Ha; try done.
    cbn [fmap list_fmap fst snd] in E, Hok. injection E as -> E. destruct Ha as (H1 & Ha & Ha').
    apply Forall_cons in Hn as [Hn Hn']. cbn [snd] in Hn.
    assert (H2 : iter_ok it2) by (apply Hok, elem_of_list_here).
    assert (Ha2 : admissible v2 (mirrored o)) by (eapply admissible_alike; [exact HA|by apply mirrored_admissible]).
    assert (HS : alike (dual (step it1 v1 o)) (step it2 v2 (mirrored o))).
    { eapply alike_trans; [by apply mirrored_step|]. apply step_alike; [done|done|by apply dual_order|done|by apply mirrored_admissible|by rewrite mirrored_no_disjoin]. }
    destruct (IH hist2 E (λ it Hit, Hok it (elem_of_list_further _ _ _ Hit)) Hn' (step it1 v1 o) (step it2 v2 (mirrored o))) as (R1 & R2 & R3);
      [by apply step_order|by apply step_order|done|done|].
    split; [exact R1|]. split; [done|]. apply Forall_cons. split; [cbn [snd]; by rewrite mirrored_no_disjoin|done]. }
  destruct (HG ∅ ∅) as (HA & Ha2 & Hn2); [apply order_inv_empty|apply order_inv_empty|by unfold dual; rewrite fmap_empty|done|].
  fold h1 h2 in HA.
  assert (HO1 : order_inv h1) by exact (run_order ∅ hist1 Ha order_inv_empty).
  split; [rewrite <- (proj1 HA); by rewrite dual_dom_eq|]. intros x.
  pose proof (Coordinates_alike _ _ x HA) as EC. destruct (alike_attr _ _ x HA) as (Q1 & Q2 & Q3 & Q4 & Q5).
  rewrite dual_prec in Q2. rewrite dual_succ in Q3.
  assert (HB : ∀ a b, before h2 a b ↔ before h1 b a).
  { intros a b. unfold before. destruct (alike_attr _ _ b HA) as (_ & R & _). rewrite <- R, dual_prec. symmetry. apply (oi_conv h1 HO1). }
  assert (HC : ∀ a b, covers (before h2) a b ↔ covers (before h1) b a).
  { intros a b. unfold covers. rewrite HB. setoid_rewrite HB. naive_solver. }
  split; [done|]. split; [done|]. split; [unfold lab in *; rewrite dual_lookup in Q1; done|].
  split; [rewrite <- EC; unfold Coordinates, Base.coords; by rewrite dual_lookup|].
  split; [unfold get_Position; rewrite <- Q5; unfold Base.pos; by rewrite dual_lookup|].
  split; apply set_eq; intros y.
  - destruct (C04_link_queries hist2 Ha2 Hn2 x y) as (R1 & _). destruct (C04_link_queries hist1 Ha Hn x y) as (_ & R2 & _).
    fold h2 in R1. fold h1 in R2. by rewrite R1, R2, HC.
  - destruct (C04_link_queries hist2 Ha2 Hn2 x y) as (_ & R1 & _). destruct (C04_link_queries hist1 Ha Hn x y) as (R2 & _).
    fold h2 in R1. fold h1 in R2. by rewrite R1, R2, HC.
Qed.
Print Assumptions C97_mirrored_program.
Example C97_nonvacuous :
  let hist2 := (λ p, (it_reverse, mirrored (snd p))) <$> demo_hist in
  hist2.*2 = mirrored <$> demo_hist.*2 ∧ (∀ it, it ∈ hist2.*1 → iter_ok it) ∧ admissible_history ∅ demo_hist ∧ no_disjoin demo_hist ∧
  Past demo 2 = {[0; 1; 3]} ∧ Future (run ∅ hist2) 2 = {[0; 1; 3]} ∧ Past (run ∅ hist2) 2 = ∅.
Proof.
  cbn zeta. split; [by rewrite <- !list_fmap_compose|]. split.
  - intros it Hit. apply elem_of_list_fmap in Hit as (p & -> & Hp). apply elem_of_list_fmap in Hp as (q & -> & _). apply it_reverse_ok.
  - split; [apply demo_adm|]. split; [unfold no_disjoin, demo_hist, demo_ops; repeat constructor|]. split_and!; decide_vm.
Qed.
