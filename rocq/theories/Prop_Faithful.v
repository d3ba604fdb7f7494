(** C89: the order of an embedded causet is the causality of its coordinates, throughout every
    history of sprinkling, creating, relating and discarding. *)
From Verif Require Import Base Spec EventModel EventFacts CausetModel CausetFacts SpecBuild BuildModel
  BuildFacts MergeFacts SpacetimeModel SpacetimeFacts ShapeModel EmbedModel EmbedFacts SprinkledModel
  Prop_Spacetime Prop_Embed Prop_Shape Prop_Sprinkled Prop_Tolerance.
From Coq Require Import Reals Qreals Lra.
#[local] Open Scope nat_scope.

(** ** Specification *)
(** What the spacetime answers for the places of two events. *)
Definition answers (eps : R) (st : spacetime) (ca cb : list Q) : Prop :=
  (Causality eps st (Q2R <$> ca) (Q2R <$> cb)).1 = true.
(** All events of the causet have coordinates; an event precedes another one only if the
    spacetime says so for their coordinates; if the spacetime says so, the two events are
    related; no two events precede each other, no event itself. *)
Record faithful (eps : R) (st : spacetime) (h : heap) (C : gset nat) : Prop := Faithful {
  fa_coords : ∀ a, a ∈ C → ∃ c, Coordinates h a = Ok c;
  fa_only : ∀ a b ca cb, a ∈ C → b ∈ C → Coordinates h a = Ok ca → Coordinates h b = Ok cb →
    ev_lt h a b = true → answers eps st ca cb;
  fa_all : ∀ a b ca cb, a ∈ C → b ∈ C → Coordinates h a = Ok ca → Coordinates h b = Ok cb →
    a ≠ b → answers eps st ca cb → ev_lt h a b = true ∨ ev_lt h b a = true;
  fa_one : ∀ a b, a ∈ C → b ∈ C → ev_lt h a b = true → ev_lt h b a = false;
  fa_conv : ∀ a b, a ∈ C → b ∈ C → a ∈ Past h b ↔ b ∈ Future h a
}.
Definition w_faithful (eps : R) (w : world) : Prop :=
  faithful eps (ec_spacetime (sp_causet (w_causet w))) (fst (fst w)) (sp_events (w_causet w)).

(** The calls that grow or shrink a causet and relate what they create. *)
Definition grows_or_shrinks (c : call) : Prop :=
  match c with
  | CallSprinkle _ _ | CallIntensify _ _ | CallDiscard _ _ => True
  | CallCreate _ _ rel => rel = true
  | CallAdd _ _ => False
  end.
(** A history of such calls, each with its own iteration orders and random numbers, whether it
    returns or raises. *)
Inductive history (eps : R) (rnd : R → Q) : world → list call → world → Prop :=
| history_nil w : history eps rnd w [] w
| history_cons it g junk w c w1 r cs w2 :
    iter_ok it → grows_or_shrinks c → perform eps it g junk rnd c w = (w1, r) →
    history eps rnd w1 cs w2 → history eps rnd w (c :: cs) w2.

(** ** The link caches do not matter *)
Definition keeps (h h' : heap) : Prop :=
  ∀ y, prec h' y = prec h y ∧ succ h' y = succ h y ∧ Base.coords h' y = Base.coords h y.
Lemma keeps_refl h : keeps h h.
Proof. done. Qed.
Lemma keeps_trans h1 h2 h3 : keeps h1 h2 → keeps h2 h3 → keeps h1 h3.
Proof. intros H1 H2 y. destruct (H1 y) as (<- & <- & <-). apply H2. Qed.
Lemma keeps_upd (f : event → event) e h :
  (∀ v, ev_prec (f v) = ev_prec v ∧ ev_succ (f v) = ev_succ v ∧ ev_coords (f v) = ev_coords v) →
  keeps h (upd f e h).
Proof.
  intros Hf y. unfold prec, succ, Base.coords. destruct (decide (e = y)) as [->|Hn].
  - rewrite upd_same. apply Hf.
  - by rewrite upd_other.
Qed.
Lemma add_lsucc_keeps b l : ∀ h, keeps h (fst (add_lsucc b l h)).
Proof.
  induction l as [|a l IH]; intros h; cbn [add_lsucc]; [done|].
  destruct (lsucc h a); [|done]. eapply keeps_trans; [|apply IH]. by apply keeps_upd.
Qed.
Lemma link_loop_keeps it l : ∀ h, keeps h (fst (link_loop it l h)).
Proof.
  induction l as [|b l IH]; intros h; cbn [link_loop]; [done|]. cbn zeta.
  pose proof (add_lsucc_keeps b (it 23 (link_past_set h b)) (upd (set_lprec (Some (link_past_set h b))) b h)) as H.
  destruct (add_lsucc _ _ _) as [h2 [u|e]]; cbn [fst] in *.
  - eapply keeps_trans; [|apply IH]. eapply keeps_trans; [|exact H]. by apply keeps_upd.
  - eapply keeps_trans; [|exact H]. by apply keeps_upd.
Qed.
Lemma link_causet_keeps it C h : keeps h (fst (link_causet it C h)).
Proof.
  unfold link_causet. eapply keeps_trans; [|apply link_loop_keeps].
  generalize (it 22 C). intros l. revert h. induction l as [|a l IH]; intros h; cbn [foldl]; [done|].
  eapply keeps_trans; [|apply IH]. by apply keeps_upd.
Qed.
Lemma unlink_keeps h e : keeps h (fst (EventModel.unlink h e)).
Proof.
  unfold EventModel.unlink. destruct (lprec h e); [|done]. cbn zeta.
  destruct (lsucc _ e); cbn [fst]; [|by apply keeps_upd].
  eapply keeps_trans; [by apply (keeps_upd (set_lprec None) e)|by apply (keeps_upd (set_lsucc None) e)].
Qed.
Lemma unlink_linked_loop_keeps l : ∀ h, keeps h (fst (unlink_linked_loop l h)).
Proof.
  induction l as [|a l IH]; intros h; cbn [unlink_linked_loop]; [done|].
  destruct (hasBeenLinked h a); [|done].
  pose proof (unlink_keeps h a) as H. destruct (EventModel.unlink h a) as [h1 [u|e]]; [|done].
  eapply keeps_trans; [exact H|apply IH].
Qed.
Lemma unlink_loop_keeps l : ∀ h, keeps h (fst (unlink_loop l h)).
Proof.
  induction l as [|a l IH]; intros h; cbn [unlink_loop]; [done|].
  pose proof (unlink_keeps h a) as H. destruct (EventModel.unlink h a) as [h1 [u|e]]; [|done].
  eapply keeps_trans; [exact H|apply IH].
Qed.
Lemma keeps_faithful eps st h h' C : keeps h h' → faithful eps st h C → faithful eps st h' C.
Proof.
  intros Hk [H1 H2 H3 H4 H5].
  assert (Hc : ∀ a, Coordinates h' a = Coordinates h a).
  { intros a. unfold Coordinates. by destruct (Hk a) as (_ & _ & ->). }
  assert (Hl : ∀ a b, ev_lt h' a b = ev_lt h a b).
  { intros a b. unfold ev_lt. by destruct (Hk b) as (-> & _). }
  split.
  - intros a Ha. rewrite Hc. auto.
  - intros a b ca cb. rewrite !Hc, Hl. apply H2.
  - intros a b ca cb. rewrite !Hc, !Hl. apply H3.
  - intros a b. rewrite !Hl. apply H4.
  - intros a b Ha Hb. unfold Past, Future. destruct (Hk b) as (-> & _). destruct (Hk a) as (_ & -> & _). by apply H5.
Qed.
Lemma faithful_subset eps st h C D : D ⊆ C → faithful eps st h C → faithful eps st h D.
Proof.
  intros HD [H1 H2 H3 H4 H5]. split.
  - auto.
  - intros a b ca cb Ha Hb. apply H2; auto.
  - intros a b ca cb Ha Hb. apply H3; auto.
  - intros a b Ha Hb. apply H4; auto.
  - intros a b Ha Hb. apply H5; auto.
Qed.

(** ** relate *)
(** Whatever the events of the causet were related to before, and even if linking fails. *)
Theorem C89_relate (it : oracle) (eps : R) (st : spacetime) (link : bool) (h h' : heap) (C : gset nat) (r : res unit) :
  iter_ok it → constructed st → C ⊆ dom h → (∀ a, a ∈ C → ∃ c, Coordinates h a = Ok c) →
  relate it (caus_of eps st) link C h = (h', r) →
  faithful eps st h' C ∧ (∀ x, Coordinates h' x = Coordinates h x).
Proof.
  intros Hit Hst HC Hemb E.
  set (crd := λ x, default [] (Base.coords h x)).
  assert (Hcrd : has_crd crd h (elements C)).
  { intros x Hx. apply elem_of_elements in Hx. destruct (Hemb x Hx) as [c Hc]. unfold crd, Coordinates in *.
    by destruct (Base.coords h x). }
  unfold relate in E.
  destruct (relate_core (caus_of eps st) crd it h C Hit HC Hcrd) as (h2 & E2 & Hd2 & Hr2 & Hp2 & Hs2).
  rewrite E2 in E.
  assert (Hk : keeps h2 h').
  { destruct link.
    - pose proof (link_causet_keeps it C h2) as H. by rewrite E in H.
    - unfold unlink_causet in E. pose proof (unlink_linked_loop_keeps (it 25 C) h2) as H.
      destruct (unlink_linked_loop (it 25 C) h2) as [h3 r3]. by injection E as -> _. }
  assert (Hco : ∀ x, Coordinates h2 x = Coordinates h x).
  { intros x. unfold Coordinates. by destruct (Hr2 x) as (_ & -> & _). }
  split; [|intros x; rewrite <- Hco; unfold Coordinates; by destruct (Hk x) as (_ & _ & ->)].
  apply (keeps_faithful _ _ _ _ _ Hk).
  set (rel := related (caus_of eps st) crd (it 31 C)) in *.
  assert (Hlt : ∀ a b, b ∈ C → ev_lt h2 a b = true ↔ rel a b).
  { intros a b Hb. unfold ev_lt. rewrite bool_decide_eq_true, Hp2. tauto. }
  assert (Hnd := iter_nodup it 31 C Hit).
  assert (Hpos : ∀ a, a ∈ C → ∃ i, it 31 C !! i = Some a).
  { intros a Ha. apply elem_of_list_lookup. by rewrite iter_elem. }
  assert (Hcc : ∀ a c, Coordinates h2 a = Ok c → crd a = c).
  { intros a c Hc. rewrite Hco in Hc. unfold crd, Coordinates in *. destruct (Base.coords h a); [|done].
    cbn. congruence. }
  assert (Hdec := λ x y, causality_decides eps st x y Hst). unfold decides in Hdec.
  split.
  - intros a Ha. rewrite Hco. auto.
  - intros a b ca cb Ha Hb Ca Cb Hab. apply Hlt in Hab; [|done]. unfold rel in Hab.
    rewrite related_pos in Hab by done. destruct Hab as (i & j & _ & _ & [[_ Hc]|[_ Hc]]);
      rewrite (Hcc a ca Ca), (Hcc b cb Cb) in Hc; [done|].
    apply (proj2 (Hdec cb ca)) in Hc. apply Hc.
  - intros a b ca cb Ha Hb Ca Cb Hne Hans. rewrite !Hlt by done. unfold rel.
    rewrite !related_pos by done. destruct (Hpos a Ha) as [i Hi]. destruct (Hpos b Hb) as [j Hj].
    assert (i ≠ j) by (intros ->; congruence).
    destruct (decide (i < j)).
    + left. exists i, j. rewrite (Hcc a ca Ca), (Hcc b cb Cb). split_and!; [done|done|left]. done.
    + assert (j < i) by lia. destruct (caus_of eps st cb ca).1 eqn:Eba.
      * right. exists j, i. rewrite (Hcc a ca Ca), (Hcc b cb Cb). split_and!; [done|done|left]. done.
      * left. exists i, j. rewrite (Hcc a ca Ca), (Hcc b cb Cb). split_and!; [done|done|right].
        split; [done|]. apply (proj2 (Hdec cb ca)). split; [done|]. by rewrite Eba.
  - intros a b Ha Hb Hab. apply not_true_is_false. rewrite Hlt by done. apply Hlt in Hab; [|done].
    unfold rel in *. rewrite related_pos in * by done.
    destruct Hab as (i & j & Hi & Hj & Hc). intros (j' & i' & Hj' & Hi' & Hc').
    assert (i' = i) as -> by (by eapply NoDup_lookup). assert (j' = j) as -> by (by eapply NoDup_lookup).
    pose proof (C46_exclusive eps st (Q2R <$> crd a) (Q2R <$> crd b)) as X1.
    pose proof (C46_exclusive eps st (Q2R <$> crd b) (Q2R <$> crd a)) as X2.
    unfold caus_of in Hc, Hc'.
    destruct Hc as [[? Hc]|[? Hc]], Hc' as [[? Hc']|[? Hc']]; try lia.
    + destruct (Causality _ _ (Q2R <$> crd a) _) as [[] []]; done.
    + destruct (Causality _ _ (Q2R <$> crd b) _) as [[] []]; done.
  - intros a b Ha Hb. unfold Past, Future. rewrite Hp2, Hs2. tauto.
Qed.
Print Assumptions C89_relate.

(** create with relate=True, in every store. *)
Theorem C89_create (it : oracle) (eps : R) (st : spacetime) (rows : list (list Q)) (fmt : label_format)
    (h : heap) (C : gset nat) (h' : heap) (C' : gset nat) (r : res (gset nat)) :
  iter_ok it → constructed st → C ⊆ dom h → (∀ a, a ∈ C → ∃ c, Coordinates h a = Ok c) →
  create it (caus_of eps st) rows fmt true C h = (h', C', r) → faithful eps st h' C'.
Proof.
  intros Hit Hst HC Hemb. unfold create.
  pose proof (create_events_spec it fmt rows (Z.of_nat (size C) + 1)%Z h Hit) as Hce.
  destruct (create_events it fmt (Z.of_nat (size C) + 1)%Z rows h) as [h1 xs]. cbn [fst snd] in *.
  destruct Hce as (Hlen & Hnd & Hfr & Hdom & Hold & Hnew). cbn zeta.
  destruct (relate it (caus_of eps st) true (C ∪ list_to_set xs) h1) as [h2 r2] eqn:E.
  intros Er. assert (h' = h2 ∧ C' = C ∪ list_to_set xs) as [-> ->].
  { destruct r2; by injection Er as <- <- _. }
  refine (proj1 (C89_relate it eps st true h1 h2 _ r2 Hit Hst _ _ E)).
  - rewrite Hdom. set_solver.
  - intros a Ha. unfold Coordinates, Base.coords. destruct (decide (a ∈ xs)) as [Hx|Hx].
    + apply elem_of_list_lookup in Hx as [i Hi].
      destruct (lookup_lt_is_Some_2 rows i) as [c Hc]; [rewrite <- Hlen; by eapply lookup_lt_Some|].
      rewrite (Hnew i a c Hi Hc). by exists c.
    + rewrite (Hold a Hx). apply elem_of_union in Ha as [Ha|Ha]; [|by rewrite elem_of_list_to_set in Ha].
      exact (Hemb a Ha).
Qed.

(** ** Constructors and histories *)
Theorem C89_EmbeddedCauset (f32 : R → R) (eps : R) (it : oracle) (sta : spacetime_arg) (sha : shape_arg)
    (coa : coords_arg) (dim : Z) (h h' : heap) (C : ecauset) :
  iter_ok it → (∀ st, sta = StObj st → constructed st) →
  EmbeddedCauset f32 eps it sta sha coa dim h = (h', Ok C) →
  constructed (ec_spacetime C) ∧ faithful eps (ec_spacetime C) h' (ec_events C).
Proof.
  intros Hit Hsta E. unfold EmbeddedCauset in E.
  destruct (init_dim dim sta sha coa) as [n|e]; [|done]. cbn [res_bind] in E.
  destruct (init_spacetime n sta) as [M|e] eqn:EM; [|done]. cbn [res_bind] in E.
  assert (HM : constructed M).
  { destruct sta as [|st|name]; cbn in EM.
    - right; left. by exists n, (PFloat 0).
    - injection EM as <-. by apply Hsta.
    - destruct (decide _); [right; left; by exists n, (PFloat 0)|].
      destruct (decide _); [right; right; left; by exists n, 1%R|].
      destruct (decide _); [right; right; right; left; by exists n, (/ 2)%R|].
      destruct (decide _); [|done]. right; right; right; right. by exists n, (/ 2)%R, "Eddington-Finkelstein". }
  destruct (decide _); [|done]. destruct (DefaultShape f32 M) as [ds|?]; [|done]. cbn [res_bind] in E.
  destruct (match sha with ShNone => _ | ShObj s => _ | ShName _ => _ end) as [s|?]; [|done].
  cbn [res_bind] in E. destruct (decide (sh_dim s = sh_dim ds)); [|done].
  assert (Hmake : ∀ rows, (let '(h1, C, r) := create it (caus_of eps M) rows FmtNone true ∅ h in
      (h1, res_map (λ _, ECauset M s C) r)) = (h', Ok C) →
    constructed (ec_spacetime C) ∧ faithful eps (ec_spacetime C) h' (ec_events C)).
  { intros rows Er. destruct (create it (caus_of eps M) rows FmtNone true ∅ h) as [[h1 C1] r1] eqn:Ec.
    destruct r1 as [S1|e1]; [|done]. injection Er as <- <-. cbn. split; [done|].
    eapply C89_create; [done|done| | |exact Ec]; [apply empty_subseteq|].
    intros a Ha. by apply elem_of_empty in Ha. }
  destruct coa as [|rows|cols rows].
  - injection E as <- <-. cbn. split; [done|]. split; intros a; intros; exfalso; by apply (not_elem_of_empty (C := gset nat) a).
  - by apply (Hmake rows).
  - destruct (decide _); [|done]. by apply (Hmake rows).
Qed.
Print Assumptions C89_EmbeddedCauset.

Lemma perform_faithful eps it g junk rnd c w w1 r :
  iter_ok it → constructed (ec_spacetime (sp_causet (w_causet w))) → in_store w → w_faithful eps w →
  grows_or_shrinks c → perform eps it g junk rnd c w = (w1, r) →
  ec_spacetime (sp_causet (w_causet w1)) = ec_spacetime (sp_causet (w_causet w)) ∧ in_store w1 ∧ w_faithful eps w1.
Proof.
  intros Hit Hst Hin Hfa Hc E.
  assert (Hin1 : in_store w1).
  { destruct (perform_store eps it g junk rnd Hit c w) as [H _]; [by destruct c|done|]. by rewrite E in H. }
  assert (ec_spacetime (sp_causet (w_causet w1)) = ec_spacetime (sp_causet (w_causet w)) ∧ w_faithful eps w1) as [? ?]; [|done].
  clear Hin1.
  destruct w as [[h k] C]. unfold w_faithful, in_store, w_causet in *. cbn [fst snd] in *.
  set (st := ec_spacetime (sp_causet C)) in *.
  assert (Hcr : ∀ rows fmt C0 h1 C1 r1, ec_spacetime (sp_causet C0) = st → sp_events C0 = sp_events C →
    super_create eps it rows fmt true C0 h = (h1, C1, r1) →
    ec_spacetime (sp_causet C1) = st ∧ faithful eps st h1 (sp_events C1)).
  { intros rows fmt C0 h1 C1 r1 E1 E2 Es. unfold super_create in Es. rewrite E1, E2 in Es.
    destruct (EmbedModel.create _ _ _ _ _ _ _) as [[h2 C2] r2] eqn:Ec. injection Es as -> <- _.
    split; [done|]. eapply C89_create; [done|done|exact Hin|apply Hfa|exact Ec]. }
  assert (Hsi : ∀ n sh k0 C0 w2 r2, ec_spacetime (sp_causet C0) = st → sp_events C0 = sp_events C →
    sprinkle_into eps it g junk rnd n sh (h, k0, C0) = (w2, r2) →
    ec_spacetime (sp_causet (snd w2)) = st ∧ faithful eps st (fst (fst w2)) (sp_events (snd w2))).
  { intros n sh k0 C0 w2 r2 E1 E2 Es. unfold sprinkle_into in Es.
    destruct (sprinkle_coords _ _ _ _ _ _) as [k1 [rows|e]].
    - destruct (super_create _ _ _ _ _ _ _) as [[h1 C1] r1] eqn:Ec. injection Es as <- _. cbn [fst snd].
      by eapply Hcr.
    - injection Es as <- _. cbn [fst snd]. by rewrite E1, E2. }
  destruct c as [n sh|lam sh|rows fmt rel|A u|A u]; cbn [perform grows_or_shrinks] in *; [| | |done|].
  - unfold forget, sprinkle in E. destruct (decide (n < 0)%Z).
    { by injection E as <- _. }
    destruct (sprinkle_into _ _ _ _ _ _ _ _) as [w2 r2] eqn:Es. injection E as <- _. cbn [fst].
    edestruct Hsi as [-> ?]; [| |exact Es|done]; done.
  - unfold forget, intensify in E. destruct (decide (lam < 0)%R).
    { by injection E as <- _. }
    destruct (sprinkle_into _ _ _ _ _ _ _ _) as [w2 r2] eqn:Es. injection E as <- _. cbn [fst].
    edestruct Hsi as [-> ?]; [| |exact Es|done]; done.
  - subst rel. unfold forget, sp_create in E.
    destruct (super_create _ _ _ _ _ _ _) as [[h1 C1] r1] eqn:Ec.
    destruct (Hcr _ _ _ _ _ _ eq_refl eq_refl Ec) as [E1 ?].
    destruct r1; injection E as <- _; cbn [fst snd]; cbn; by rewrite E1.
  - unfold sp_discard in E. destruct (BuildModel.discard _ _ _ _ _) as [[h1 evs] r1] eqn:Ed.
    assert (keeps h h1 ∧ evs ⊆ sp_events C) as [Hk Hsub].
    { unfold BuildModel.discard in Ed. assert (discard_events (sp_events C) A ⊆ sp_events C) by (unfold discard_events; set_solver).
      destruct u; [|by injection Ed as <- <- _]. 
      pose proof (unlink_loop_keeps (it 24 (discard_events (sp_events C) A)) h) as H'.
      destruct (unlink_loop _ _) as [h2 r2]. by injection Ed as <- <- _. }
    assert (faithful eps st h1 evs) by (eapply keeps_faithful; [exact Hk|]; by eapply faithful_subset).
    destruct r1; [destruct (decide _)|]; injection E as <- _; done.
Qed.

(** Every history of sprinkle, intensify, create and discard calls, whatever raises. *)
Theorem C89_history (eps : R) (rnd : R → Q) (w w' : world) (cs : list call) :
  constructed (ec_spacetime (sp_causet (w_causet w))) → in_store w → w_faithful eps w →
  history eps rnd w cs w' →
  ec_spacetime (sp_causet (w_causet w')) = ec_spacetime (sp_causet (w_causet w)) ∧ w_faithful eps w'.
Proof.
  intros Hst Hin Hfa H. induction H as [w|it g junk w c w1 r cs w2 Hit Hc E H IH]; [done|].
  destruct (perform_faithful eps it g junk rnd c w w1 r Hit Hst Hin Hfa Hc E) as (E1 & Hin1 & Hf1).
  rewrite <- E1. apply IH; [by rewrite E1|done|done].
Qed.
Print Assumptions C89_history.

(** ... starting from the constructor, in every store. *)
Theorem C89_SprinkledCauset (f32 : R → R) (eps : R) (it : oracle) (g : rng) (junk : nat → nat → R) (rnd : R → Q)
    (card : Z) (lam : R) (dim : Z) (sta : spacetime_arg) (sha : shape_arg) (h h' : heap) (k k' : nat) (C : sprinkled)
    (cs : list call) (w' : world) :
  iter_ok it → (∀ st, sta = StObj st → constructed st) →
  SprinkledCauset f32 eps it g junk rnd card lam dim sta sha h k = (h', k', Ok C) →
  history eps rnd (h', k', C) cs w' →
  ec_spacetime (sp_causet (w_causet w')) = ec_spacetime (sp_causet C) ∧
  constructed (ec_spacetime (sp_causet C)) ∧ w_faithful eps w'.
Proof.
  intros Hit Hsta E Hh. unfold SprinkledCauset in E.
  destruct (EmbeddedCauset f32 eps it sta sha CoNone dim h) as [h1 [E0|e]] eqn:EE; [|done].
  destruct (C89_EmbeddedCauset f32 eps it sta sha CoNone dim h h1 E0 Hit Hsta EE) as [Hst Hfa].
  assert (Hev : ec_events E0 = ∅).
  { unfold EmbeddedCauset in EE.
    destruct (init_dim dim sta sha CoNone) as [n|e]; [|done]. cbn [res_bind] in EE.
    destruct (init_spacetime n sta) as [M|e]; [|done]. cbn [res_bind] in EE.
    destruct (decide _); [|done]. destruct (DefaultShape f32 M) as [ds|?]; [|done]. cbn [res_bind] in EE.
    destruct (match sha with ShNone => _ | ShObj s => _ | ShName _ => _ end) as [s|?]; [|done].
    cbn [res_bind] in EE. destruct (decide (sh_dim s = sh_dim ds)); [|done]. by injection EE as _ <-. }
  set (w0 := (h1, k, Sprinkled E0 0%R) : world).
  assert (Hin0 : in_store w0).
  { unfold in_store, w0, w_causet, sp_events. cbn. rewrite Hev. apply empty_subseteq. }
  assert (∃ c r, grows_or_shrinks c ∧ perform eps it g junk rnd c w0 = ((h', k', C), r)) as (c & r & Hc & Ep).
  { destruct (decide (0 < card)%Z).
    - fold w0 in E. destruct (sprinkle eps it g junk rnd card None w0) as [[[h2 k2] C2] [evs|e]] eqn:Es; [|done].
      injection E as <- <- <-. exists (CallSprinkle card None), (Ok tt). split; [done|]. cbn [perform]. by rewrite Es.
    - fold w0 in E. destruct (intensify eps it g junk rnd lam None w0) as [[[h2 k2] C2] [evs|e]] eqn:Es; [|done].
      injection E as <- <- <-. exists (CallIntensify lam None), (Ok tt). split; [done|]. cbn [perform]. by rewrite Es. }
  destruct (perform_faithful eps it g junk rnd c w0 _ r Hit Hst Hin0 Hfa Hc Ep) as (E1 & Hin1 & Hf1).
  destruct (C89_history eps rnd (h', k', C) w' cs) as [E2 Hf2]; [by rewrite E1|done|done|done|].
  split; [done|]. split; [|done]. change (sp_causet C) with (sp_causet (w_causet (h', k', C))). by rewrite E1.
Qed.
Print Assumptions C89_SprinkledCauset.

(** ** What faithful means in flat spacetime *)
(** For the tolerance of the code: a timelike or lightlike later event is always after the
    earlier one; related events are causal up to the delay. *)
Theorem C89_flat (eps : R) (dim : nat) (h : heap) (C : gset nat) (a b : nat) (ca cb : list Q) :
  (0 <= eps)%R → dim ≥ 2 → faithful eps (Flat dim None) h C → a ∈ C → b ∈ C →
  Coordinates h a = Ok ca → Coordinates h b = Ok cb → length ca = dim → length cb = dim →
  let x := Q2R <$> ca in
  let y := Q2R <$> cb in
  (minkowski_future dim x y → (cget x 0 < cget y 0)%R → ev_lt h a b = true ∧ ev_lt h b a = false) ∧
  (ev_lt h a b = true → minkowski_future dim x (later (delay eps dim) y)) ∧
  (eps = 0%R → x ≠ y → (ev_lt h a b = true ↔ minkowski_future dim x y)).
Proof.
  intros He Hd Hfa Ha Hb Ca Cb La Lb x y.
  assert (Lx : length x = dim) by (unfold x; by rewrite fmap_length).
  assert (Ly : length y = dim) by (unfold y; by rewrite fmap_length).
  destruct (C47_tolerance eps dim x y [] He Hd Lx Ly ltac:(constructor)) as (T1 & T2 & T3 & _).
  destruct (C47_tolerance eps dim y x [] He Hd Ly Lx ltac:(constructor)) as (S1 & S2 & S3 & _).
  cbn zeta in *. fold (answers eps (Flat dim None) ca cb) in T1, T2, T3.
  fold (answers eps (Flat dim None) cb ca) in S1, S2, S3.
  split_and!.
  - intros Hm Ht. assert (Hab : ev_lt h a b = true).
    { destruct (fa_all _ _ _ _ Hfa a b ca cb Ha Hb Ca Cb) as [H|H]; [| |done|].
      - intros ->. assert (ca = cb) as -> by congruence. unfold x, y in Ht. lra.
      - by apply T2.
      - apply (fa_only _ _ _ _ Hfa b a cb ca Hb Ha Cb Ca), S1 in H as [H _]. lra. }
    split; [done|]. by apply (fa_one _ _ _ _ Hfa a b).
  - intros Hab. apply T3. by apply (fa_only _ _ _ _ Hfa a b).
  - intros -> Hne.
    assert (Hex : answers 0 (Flat dim None) ca cb ↔ minkowski_future dim x y).
    { exact (proj1 (C47_flat dim x y x Hd Lx Ly Lx)). }
    rewrite <- Hex. split; [by apply (fa_only _ _ _ _ Hfa a b)|].
    intros Hans. destruct (fa_all _ _ _ _ Hfa a b ca cb Ha Hb Ca Cb) as [H|H]; [|done|done|].
    { intros ->. assert (ca = cb) as E by congruence. apply Hne. unfold x, y. by rewrite E. }
    exfalso. apply Hne. apply (fa_only _ _ _ _ Hfa b a cb ca Hb Ha Cb Ca) in H.
    exact (proj2 (proj2 (proj2 (C47_flat dim x y x Hd Lx Ly Lx))) Hans H).
Qed.
Print Assumptions C89_flat.

(** With tolerance 0 and events at different places the causet is a partial order. *)
Theorem C89_flat_order (dim : nat) (h : heap) (C : gset nat) (crd : nat → list Q) :
  dim ≥ 2 → faithful 0 (Flat dim None) h C → embedded h C crd → (∀ x, x ∈ C → length (crd x) = dim) →
  (∀ x y, x ∈ C → y ∈ C → x ≠ y → Q2R <$> crd x ≠ Q2R <$> crd y) →
  ∀ a b c, a ∈ C → b ∈ C → c ∈ C → ev_lt h a b = true → ev_lt h b c = true → ev_lt h a c = true.
Proof.
  intros Hd Hfa Hemb Hlen Hdist a b c Ha Hb Hc Hab Hbc.
  assert (Hlt : ∀ x y, x ∈ C → y ∈ C → ev_lt h x y = true → answers 0 (Flat dim None) (crd x) (crd y)).
  { intros x y Hx Hy. apply (fa_only _ _ _ _ Hfa x y); auto. }
  assert (Hne : a ≠ c).
  { intros ->. rewrite (fa_one _ _ _ _ Hfa c b Hc Hb Hab) in Hbc. done. }
  assert (L : ∀ x, x ∈ C → length (Q2R <$> crd x) = dim) by (intros x Hx; rewrite fmap_length; auto).
  pose proof (C47_flat dim (Q2R <$> crd a) (Q2R <$> crd b) (Q2R <$> crd c) Hd (L a Ha) (L b Hb) (L c Hc)) as (_ & _ & Htr & _).
  pose proof (Htr (Hlt a b Ha Hb Hab) (Hlt b c Hb Hc Hbc)) as Hac.
  destruct (C47_flat dim (Q2R <$> crd a) (Q2R <$> crd c) (Q2R <$> crd c) Hd (L a Ha) (L c Hc) (L c Hc)) as (Fac & _ & _ & _).
  destruct (C89_flat 0 dim h C a c (crd a) (crd c) ltac:(lra) Hd Hfa Ha Hc (Hemb a Ha) (Hemb c Hc) (Hlen a Ha) (Hlen c Hc))
    as (_ & _ & H). apply H; [done|by apply Hdist|]. by apply Fac.
Qed.
Print Assumptions C89_flat_order.

(** ** Concrete case *)
(** A causet with three events created in two calls, the first of them discarded at the end:
    the two others are related. *)
Example C89_nonvacuous (s : shape) :
  ∃ w w' x y z, history 0 (λ _, 0%Q) w
      [CallCreate [[0; 0]; [2; 1]]%Q FmtNone true; CallCreate [[5; 0]]%Q FmtNone true; CallDiscard {[x]} false] w' ∧
    constructed (ec_spacetime (sp_causet (w_causet w))) ∧ in_store w ∧ w_faithful 0 w ∧
    x ≠ y ∧ y ≠ z ∧ x ≠ z ∧ sp_events (w_causet w') = {[y; z]} ∧ ev_lt (fst (fst w')) y z = true.
Proof.
  set (C0 := Sprinkled (ECauset (Flat 2 None) s ∅) 0%R).
  set (w0 := (∅, 0, C0) : world).
  assert (Hst : constructed (Flat 2 None)).
  { right; left. exists 2%Z, (PFloat 0). unfold FlatSpacetime. rewrite decide_False by lia.
    by rewrite decide_False by lra. }
  assert (Hin : in_store w0) by apply empty_subseteq.
  assert (Hfa : w_faithful 0 w0).
  { split; intros a; intros; exfalso; by apply (not_elem_of_empty (C := gset nat) a). }
  assert (Hg0 : grown ∅ ∅) by (apply grown_empty; apply demo_conv).
  destruct (create_grow it_sorted (caus_of 0 (Flat 2 None)) [[0; 0]; [2; 1]]%Q FmtNone true ∅ ∅ it_sorted_ok Hg0)
    as (h1 & xs & E1 & Hl1 & Hnd1 & Hfr1 & Hg1 & Hn1 & Ho1).
  destruct xs as [|x [|y [|]]]; try done.
  destruct (create_grow it_sorted (caus_of 0 (Flat 2 None)) [[5; 0]]%Q FmtNone true h1 _ it_sorted_ok Hg1)
    as (h2 & zs & E2 & Hl2 & Hnd2 & Hfr2 & Hg2 & Hn2 & Ho2).
  destruct zs as [|z [|]]; try done.
  assert (Hxy : x ≠ y). { apply NoDup_cons in Hnd1 as [H _]. intros ->. apply H, elem_of_list_here. }
  assert (Hz : x ≠ z ∧ y ≠ z).
  { pose proof (Hfr2 z ltac:(apply elem_of_list_here)) as Hz. pose proof (gr_dom _ _ Hg1) as Hd.
    clear -Hz Hd. split; intros <-; apply Hz, Hd; cbn; clear; set_solver. }
  set (g0 := Rng (λ _, 0%R) (λ _, 0%R) (λ _ _, 0)).
  destruct (perform 0 it_sorted g0 (λ _ _, 0%R) (λ _, 0%Q) (CallCreate [[0; 0]; [2; 1]]%Q FmtNone true) w0)
    as [w1 r1] eqn:P1.
  destruct (perform 0 it_sorted g0 (λ _ _, 0%R) (λ _, 0%Q) (CallCreate [[5; 0]]%Q FmtNone true) w1)
    as [w2 r2] eqn:P2.
  destruct (perform 0 it_sorted g0 (λ _ _, 0%R) (λ _, 0%Q) (CallDiscard {[x]} false) w2)
    as [w3 r3] eqn:P3.
  assert (Hh : history 0 (λ _, 0%Q) w0
     [CallCreate [[0; 0]; [2; 1]]%Q FmtNone true; CallCreate [[5; 0]]%Q FmtNone true; CallDiscard {[x]} false] w3).
  { eapply history_cons; [apply it_sorted_ok|done|exact P1|].
    eapply history_cons; [apply it_sorted_ok|done|exact P2|].
    eapply history_cons; [apply it_sorted_ok|done|exact P3|]. constructor. }
  assert (fst (fst w1) = h1 ∧ sp_events (w_causet w1) = ∅ ∪ list_to_set [x; y] ∧
          ec_spacetime (sp_causet (w_causet w1)) = Flat 2 None) as (W1 & W1' & W1'').
  { cbn [perform] in P1. unfold forget, sp_create, super_create, w0 in P1.
    change (ec_spacetime (sp_causet C0)) with (Flat 2 None) in P1.
    change (sp_events C0) with (∅ : gset nat) in P1. rewrite E1 in P1. by injection P1 as <- _. }
  assert (fst (fst w2) = h2 ∧ sp_events (w_causet w2) = ∅ ∪ list_to_set [x; y] ∪ list_to_set [z]) as (W2 & W2').
  { destruct w1 as [[h1' k1] C1]. cbn [fst w_causet snd] in *. subst h1'. cbn [perform] in P2. 
    unfold forget, sp_create, super_create in P2. rewrite W1', W1'' in P2. rewrite E2 in P2. by injection P2 as <- _. }
  assert (fst (fst w3) = h2 ∧ sp_events (w_causet w3) = (∅ ∪ list_to_set [x; y] ∪ list_to_set [z]) ∖ {[x]}) as (W3 & W3').
  { destruct w2 as [[h2' k2] C2]. cbn [fst w_causet snd] in *. subst h2'. cbn [perform] in P3.
    unfold sp_discard, BuildModel.discard in P3. rewrite W2' in P3.
    destruct (decide _); injection P3 as <- _; done. }
  exists w0, w3, x, y, z. split; [exact Hh|].
  destruct Hz as [Hxz Hyz].
  assert (Hev : sp_events (w_causet w3) = {[y; z]}).
  { rewrite W3'. clear -Hxy Hxz Hyz. apply set_eq. intros u. cbn [list_to_set].
    rewrite elem_of_difference, !elem_of_union, !elem_of_singleton, !elem_of_empty. split; [tauto|].
    intros [-> | ->]; split; try tauto; congruence. }
  split; [done|]. split; [done|]. split; [done|]. split; [done|]. split; [done|]. split; [done|]. split; [done|].
  destruct (C89_history 0 (λ _, 0%Q) w0 w3 _ Hst Hin Hfa Hh) as [Est Hf3].
  unfold w_faithful in Hf3. rewrite Est, Hev, W3 in Hf3. rewrite W3.
  assert (Cy : Coordinates h2 y = Ok [2; 1]%Q).
  { rewrite Ho2; [by apply (Hn1 1)|]. apply (gr_dom _ _ Hg1). cbn. clear. set_solver. }
  assert (Cz : Coordinates h2 z = Ok [5; 0]%Q) by by apply (Hn2 0).
  assert (Hyi : y ∈ ({[y; z]} : gset nat)) by (clear; set_solver).
  assert (Hzi : z ∈ ({[y; z]} : gset nat)) by (clear; set_solver).
  destruct (C89_flat 0 2 h2 _ y z [2; 1]%Q [5; 0]%Q ltac:(lra) ltac:(lia) Hf3 Hyi Hzi Cy Cz eq_refl eq_refl)
    as (H & _ & _).
  apply H.
  - unfold minkowski_future, distance2, cget. cbn. unfold Q2R. cbn. unfold rsum. cbn. split; lra.
  - unfold cget. cbn. unfold Q2R. cbn. lra.
Qed.
