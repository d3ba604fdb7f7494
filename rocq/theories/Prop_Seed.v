(** Theorems about the iteration orders of Python sets: C88. *)
From Verif Require Import Base Spec EventModel EventFacts DisjoinFacts History HistoryFacts EventProps Prop_Event CausetModel CausetFacts
  PyStr SpecBuild BuildModel BuildFacts MatrixFacts MergeFacts Prop_Build.
From Coq Require Import Reals Qreals Qabs Lqa Lra.
From Verif Require Import SpacetimeModel SpacetimeFacts Prop_Spacetime ShapeModel EmbedModel EmbedFacts Prop_Embed LibHistory LibFacts Prop_Library
  SeedFacts SeedOrder.
#[local] Open Scope nat_scope.

(** ** Specification: calls whose effect is determined *)
(** Two sets of coordinates that are causally related in both directions ("ties"); the code then
    relates the events in the order of the iteration (C50_same_point_refuted). *)
Definition tied (caus : causality_fn) (a b : list Q) : Prop := (caus a b).1 = true ∧ (caus b a).1 = true.
(** - no two different events to be related have tied coordinates;
    - relabel: numpy.argsort sorts, and no two different events have the same value in the
      dimension that is used;
    - add and discard with unlink=True: all events of the new set have been linked (the call
      raises AttributeError otherwise). *)
Definition determined (w : lib_state) (o : lib_op) : Prop :=
  let h := lib_heap w in
  match o with
  | LAdd i E true => ∀ x, x ∈ nth_causet w i ∪ E → hasBeenLinked h x = true
  | LDiscard i E true => ∀ x, x ∈ nth_causet w i ∖ E → hasBeenLinked h x = true
  | LCreate i caus rows _ true =>
    (∀ a b ca cb, a ∈ nth_causet w i → b ∈ nth_causet w i → a ≠ b →
       Coordinates h a = Ok ca → Coordinates h b = Ok cb → ¬ tied caus ca cb) ∧
    (∀ a ca c, a ∈ nth_causet w i → Coordinates h a = Ok ca → c ∈ rows → ¬ tied caus ca c) ∧
    (∀ j k c d, rows !! j = Some c → rows !! k = Some d → j ≠ k → ¬ tied caus c d)
  | LRelate i caus _ =>
    ∀ a b ca cb, a ∈ nth_causet w i → b ∈ nth_causet w i → a ≠ b →
      Coordinates h a = Ok ca → Coordinates h b = Ok cb → ¬ tied caus ca cb
  | LRelabel i argsort dim _ =>
    argsort_num_ok argsort ∧
    ∀ a b ca cb va vb, a ∈ nth_causet w i → b ∈ nth_causet w i → a ≠ b →
      Coordinates h a = Ok ca → Coordinates h b = Ok cb → py_nth ca dim = Ok va → py_nth cb dim = Ok vb → ¬ (va == vb)%Q
  | _ => True
  end.
Fixpoint determined_history (w : lib_state) (hist : list (oracle * lib_op)) : Prop :=
  match hist with
  | [] => True
  | (it, o) :: hist' => determined w o ∧ determined_history (lib_step it w o) hist'
  end.

Lemma step_seed it1 it2 h o : iter_ok it1 → iter_ok it2 → order_inv h → admissible h o → is_disjoin o = false → step it1 h o = step it2 h o.
Proof.
  intros H1 H2 HO Ha Hd. destruct o; try done. cbn [step]. destruct Ha as (HP & HF & _). by rewrite (new_event_seed it1 it2).
Qed.
Lemma create_seed it1 it2 caus rows fmt rel C h : iter_ok it1 → iter_ok it2 → order_inv h → link_inv h → C ⊆ dom h →
  (rel = true → closed h C ∧ (∀ x, x ∈ C → isEmbedded h x = true) ∧ ordering caus (λ c, coordinates_of h C c ∨ c ∈ rows)) →
  (rel = true → (∀ a b ca cb, a ∈ C → b ∈ C → a ≠ b → Coordinates h a = Ok ca → Coordinates h b = Ok cb → ¬ tied caus ca cb) ∧
    (∀ a ca c, a ∈ C → Coordinates h a = Ok ca → c ∈ rows → ¬ tied caus ca c) ∧
    (∀ j k c d, rows !! j = Some c → rows !! k = Some d → j ≠ k → ¬ tied caus c d)) →
  create it1 caus rows fmt rel C h = create it2 caus rows fmt rel C h.
Proof.
  intros H1 H2 HO HL HC Hrel Htie. unfold create. rewrite (create_events_seed it1 it2) by done.
  pose proof (create_events_spec it2 fmt rows (Z.of_nat (size C) + 1)%Z h H2) as HS.
  pose proof (create_events_grows it2 fmt rows (Z.of_nat (size C) + 1)%Z h H2 HO) as G.
  destruct (create_events it2 fmt (Z.of_nat (size C) + 1) rows h) as [h1 xs]. cbn [fst snd] in *.
  destruct HS as (Hl & Hnd & Hfr & Hd & Hold & Hnew). destruct (G HO) as (HO1 & Hd1 & HP1 & HL1).
  destruct rel; [|done]. destruct (Hrel eq_refl) as (Hcl & Hemb & Hord). destruct (Htie eq_refl) as (T1 & T2 & T3).
  assert (HC1 : C ∪ list_to_set xs ⊆ dom h1) by (rewrite Hd; set_solver).
  assert (Hxc : ∀ x, x ∈ xs → ∃ i c, xs !! i = Some x ∧ rows !! i = Some c ∧ h1 !!! x = Event (ev_label (h1 !!! x)) ∅ ∅ None None (Some c) []).
  { intros x Hx. apply elem_of_list_lookup in Hx as [i Hi]. destruct (lookup_lt_is_Some_2 rows i) as [c Hc]; [rewrite <- Hl; by eapply lookup_lt_Some|].
    exists i, c. split; [done|]. split; [done|]. rewrite (Hnew i x c Hi Hc). done. }
  assert (Hcx : ∀ x, x ∈ C → x ∉ xs) by (intros x Hx Hx'; apply (Hfr x Hx'); by apply HC).
  assert (HE : relate it1 caus true (C ∪ list_to_set xs) h1 = relate it2 caus true (C ∪ list_to_set xs) h1); [|by rewrite HE].
  assert (HX : ∀ x c, x ∈ C ∪ list_to_set xs → Coordinates h1 x = Ok c →
     (x ∈ C ∧ Coordinates h x = Ok c) ∨ (∃ i, xs !! i = Some x ∧ rows !! i = Some c)).
  { intros x c Hx Hcc. apply elem_of_union in Hx as [Hx|Hx%elem_of_list_to_set]; unfold Coordinates, Base.coords in *.
    - rewrite (Hold x (Hcx x Hx)) in Hcc. by left.
    - right. destruct (Hxc x Hx) as (i & c' & Hi & Hc' & E). rewrite E in Hcc. cbn in Hcc. injection Hcc as <-. by exists i. }
  apply relate_seed; [done|done|done|by apply HL1|done| | | |].
  - intros x [Hx|Hx%elem_of_list_to_set]%elem_of_union.
    + unfold prec, succ. rewrite (Hold x (Hcx x Hx)). destruct (Hcl x Hx). split; apply union_subseteq_l'; done.
    + destruct (Hxc x Hx) as (i & c & _ & _ & E). unfold prec, succ. rewrite E. cbn [ev_prec ev_succ]. split; apply empty_subseteq.
  - intros x [Hx|Hx%elem_of_list_to_set]%elem_of_union; unfold isEmbedded, Base.coords.
    + rewrite (Hold x (Hcx x Hx)). by apply Hemb.
    + destruct (Hxc x Hx) as (i & c & _ & _ & E). rewrite E. apply bool_decide_eq_true. cbn. eauto.
  - destruct Hord as (le & Htr & Hdec).
    assert (HX' : ∀ c, coordinates_of h1 (C ∪ list_to_set xs) c → coordinates_of h C c ∨ c ∈ rows).
    { intros c (x & Hx & Hcc). destruct (HX x c Hx Hcc) as [[? ?]|(i & _ & Hi)]; [left; by exists x|right; by eapply elem_of_list_lookup_2]. }
    exists le. split; [intros a b c Ha Hb Hc; apply Htr; auto|intros a b Ha Hb; apply Hdec; auto].
  - intros a b ca cb Ha Hb Hab Hca Hcb Ht.
    destruct (HX a ca Ha Hca) as [[Ha' Hca']|(i & Hi & Hri)], (HX b cb Hb Hcb) as [[Hb' Hcb']|(j & Hj & Hrj)].
    + by apply (T1 a b ca cb).
    + apply (T2 a ca cb Ha' Hca'); [by eapply elem_of_list_lookup_2|done].
    + apply (T2 b cb ca Hb' Hcb'); [by eapply elem_of_list_lookup_2|]. destruct Ht. by split.
    + apply (T3 i j ca cb Hri Hrj); [|done]. intros ->. congruence.
Qed.
Lemma lib_step_seed it1 it2 w o : iter_ok it1 → iter_ok it2 → lib_inv w → link_inv (lib_heap w) →
  lib_admissible w o → lib_keeps_links w o → determined w o → lib_step it1 w o = lib_step it2 w o.
Proof.
  intros H1 H2 HI HL Ha Hk Hdet. assert (HO := li_order w HI). assert (HP := li_paired w HI).
  set (h := lib_heap w) in *.
  destruct o; cbn [lib_step lib_admissible lib_keeps_links determined] in *; fold h in Ha, Hk, Hdet |- *.
  - by rewrite (step_seed it1 it2).
  - done.
  - by rewrite (FromPermutation_seed it1 it2).
  - unfold NewChain. by rewrite (FromPermutation_seed it1 it2).
  - unfold NewAntichain. by rewrite (FromPermutation_seed it1 it2).
  - by rewrite (NewSimplex_seed it1 it2).
  - by rewrite (NewFence_seed it1 it2).
  - unfold NewCrown. by rewrite (NewFence_seed it1 it2).
  - by rewrite (FromPastMatrix_seed it1 it2).
  - unfold FromFutureMatrix. by rewrite (FromPastMatrix_seed it1 it2).
  - by rewrite (FromTextFile_seed it1 it2).
  - destruct Ha as (Hi & Hj & Hd). rewrite (merge_seed it1 it2); [done|done|done|done|by apply nth_sub|by apply nth_sub|].
    intros ->. exact Hk.
  - destruct Ha as [Hi HE]. unfold add. destruct unlink; [|done].
    rewrite (unlink_loop_seed (it1 24 (add_events (nth_causet w i) S)) (it2 24 (add_events (nth_causet w i) S))); [done|by apply iter_nodup|by apply iter_nodup| |done| |].
    + intros x. by rewrite !iter_elem.
    + intros x Hx. rewrite iter_elem in Hx by done. unfold add_events in Hx. apply elem_of_union in Hx as [Hx|Hx]; [by apply (nth_sub w i HI Hi)|by apply HE].
    + intros x Hx. rewrite iter_elem in Hx by done. by apply Hdet.
  - unfold discard. destruct unlink; [|done].
    rewrite (unlink_loop_seed (it1 24 (discard_events (nth_causet w i) S)) (it2 24 (discard_events (nth_causet w i) S))); [done|by apply iter_nodup|by apply iter_nodup| |done| |].
    + intros x. by rewrite !iter_elem.
    + intros x Hx. rewrite iter_elem in Hx by done. unfold discard_events in Hx. apply elem_of_difference in Hx as [Hx _]. by apply (nth_sub w i HI Ha).
    + intros x Hx. rewrite iter_elem in Hx by done. by apply Hdet.
  - destruct Ha as [Hi Hcl]. rewrite (link_causet_seed it1 it2); [done|done|done|done|by apply nth_sub|done].
  - by rewrite (unlink_causet_seed it1 it2).
  - destruct Ha as [Hi Hr]. rewrite (create_seed it1 it2); [done|done|done|done|done|by apply nth_sub|done|].
    intros ->. exact Hdet.
  - destruct Ha as (Hi & Hcl & Hemb & Hord). rewrite (relate_seed it1 it2); [done|done|done|done|done|by apply nth_sub|done|done|done|].
    exact Hdet.
  - destruct Ha as [Hi Has]. destruct Hdet as [Hok Hdis]. rewrite (relabel_seed it1 it2); [done|done|done|done|].
    intros a b va vb Ha' Hb Hab Va Vb. unfold value_at in Va, Vb.
    destruct (Coordinates h a) as [ca|] eqn:Ea; [|done]. destruct (Coordinates h b) as [cb|] eqn:Eb; [|done].
    by apply (Hdis a b ca cb).
Qed.

(** ** C88 *)
(** Two runs of the same calls, with any iteration orders of the Python sets, end in the same
    state: the same events, with the same order, the same link caches, labels, coordinates and
    positions, and the same causets. *)
Theorem C88_same_state (hist1 hist2 : list (oracle * lib_op)) :
  hist1.*2 = hist2.*2 → (∀ it, it ∈ hist2.*1 → iter_ok it) →
  lib_admissible_history (Lib ∅ []) hist1 → lib_keeps_links_history (Lib ∅ []) hist1 → determined_history (Lib ∅ []) hist1 →
  lib_run (Lib ∅ []) hist1 = lib_run (Lib ∅ []) hist2.
Proof.
  assert (HG : ∀ w, lib_inv w → link_inv (lib_heap w) → hist1.*2 = hist2.*2 → (∀ it, it ∈ hist2.*1 → iter_ok it) →
    lib_admissible_history w hist1 → lib_keeps_links_history w hist1 → determined_history w hist1 → lib_run w hist1 = lib_run w hist2).
  2:{ apply HG; [apply lib_inv_empty|apply link_inv_empty]. }
  revert hist2. induction hist1 as [|[it1 o] hist1 IH]; intros [|[it2 o2] hist2] w HI HL E Hok Ha Hk Hd; try done.
  cbn [fmap list_fmap fst snd] in E, Hok. injection E as <- E. destruct Ha as (H1 & Ha & Ha'). destruct Hk as [Hk Hk']. destruct Hd as [Hd Hd'].
  assert (H2 : iter_ok it2) by (apply Hok, elem_of_list_here).
  destruct (lib_step_inv it1 w o H1 HI Ha) as [HI' HL'].
  change (lib_run (lib_step it1 w o) hist1 = lib_run (lib_step it2 w o) hist2).
  rewrite <- (lib_step_seed it1 it2 w o H1 H2 HI HL Ha Hk Hd).
  apply IH; [done|by apply HL'|done| |done|done|done]. intros it Hit. apply Hok. by apply elem_of_list_further.
Qed.
Print Assumptions C88_same_state.

(** *** The order alone *)
Definition lib_alike (w1 w2 : lib_state) : Prop := alike (lib_heap w1) (lib_heap w2) ∧ lib_causets w1 = lib_causets w2.
Lemma nth_alike w1 w2 i : lib_alike w1 w2 → nth_causet w1 i = nth_causet w2 i.
Proof. intros [_ E]. unfold nth_causet. by rewrite E. Qed.
Lemma lib_admissible_alike w1 w2 o : lib_alike w1 w2 → lib_admissible w1 o → lib_admissible w2 o.
Proof.
  intros HW. pose proof HW as [HA HC]. unfold lib_admissible.
  assert (HN := λ i, nth_alike w1 w2 i HW).
  assert (Hcl : ∀ E, closed (lib_heap w1) E → closed (lib_heap w2) E).
  { intros E H x Hx. destruct (alike_attr _ _ x HA) as (_ & <- & <- & _). by apply H. }
  assert (Hemb : ∀ E : gset nat, (∀ x, x ∈ E → isEmbedded (lib_heap w1) x = true) → ∀ x, x ∈ E → isEmbedded (lib_heap w2) x = true).
  { intros E H x Hx. rewrite <- (H x Hx). unfold isEmbedded. by destruct (alike_attr _ _ x HA) as (_ & _ & _ & -> & _). }
  assert (Hco : ∀ E c, coordinates_of (lib_heap w2) E c → coordinates_of (lib_heap w1) E c).
  { intros E c (x & Hx & H). exists x. split; [done|]. by rewrite (Coordinates_alike _ _ x HA). }
  assert (Hord : ∀ caus (X Y : list Q → Prop), (∀ c, Y c → X c) → ordering caus X → ordering caus Y).
  { intros caus X Y HXY (le & H1 & H2). exists le. split; [intros a b c Ha Hb Hc'; apply H1; auto|intros a b Ha Hb; apply H2; auto]. }
  destruct o; rewrite <- ?HC, <- ?HN, <- ?(proj1 HA); try done.
  - by apply admissible_alike.
  - intros (Hi & Hj & H). split; [done|]. split; [done|]. intros E. destruct (H E) as (Hd & H1 & H2). split; [done|]. split.
    + intros x Hx. unfold Past. destruct (alike_attr _ _ x HA) as (_ & <- & _). by apply H1.
    + intros x Hx. unfold Future. destruct (alike_attr _ _ x HA) as (_ & _ & <- & _). by apply H2.
  - intros [Hi H]. split; [done|]. by apply Hcl.
  - intros [Hi H]. split; [done|]. intros E. destruct (H E) as (H1 & H2 & H3). split; [by apply Hcl|]. split; [by apply Hemb|].
    eapply Hord; [|exact H3]. intros c [Hc|Hc]; [left; by apply Hco|by right].
  - intros (Hi & H1 & H2 & H3). split; [done|]. split; [by apply Hcl|]. split; [by apply Hemb|]. eapply Hord; [|exact H3]. apply Hco.
Qed.
(** The calls for which the order, the labels and the coordinates are determined. *)
Definition determined_order (w : lib_state) (o : lib_op) : Prop :=
  match o with LAdd _ _ _ | LDiscard _ _ _ => True | _ => determined w o end.
Fixpoint determined_order_history (w : lib_state) (hist : list (oracle * lib_op)) : Prop :=
  match hist with
  | [] => True
  | (it, o) :: hist' => determined_order w o ∧ determined_order_history (lib_step it w o) hist'
  end.
(** Whenever disjoin is called, the event has been linked in both runs or in none (the call raises
    AttributeError if it has not). *)
Fixpoint disjoins_agree (w1 w2 : lib_state) (hist1 hist2 : list (oracle * lib_op)) : Prop :=
  match hist1, hist2 with
  | (it1, o1) :: hist1', (it2, o2) :: hist2' =>
    (∀ x, o1 = LEvent (ODisjoin x) → hasBeenLinked (lib_heap w1) x = hasBeenLinked (lib_heap w2) x) ∧
    disjoins_agree (lib_step it1 w1 o1) (lib_step it2 w2 o2) hist1' hist2'
  | _, _ => True
  end.
Lemma returned_alike cs p q : alike_res p q → lib_alike (returned cs p) (returned cs q).
Proof. destruct p as [h1 r1], q as [h2 r2]. intros [A B]. cbn [fst snd] in *. subst r2. destruct r1; by split. Qed.
Lemma create_alike it1 it2 caus rows fmt rel C h1 h2 : iter_ok it1 → iter_ok it2 → order_inv h1 → link_paired h1 → link_paired h2 → alike h1 h2 → C ⊆ dom h1 →
  (rel = true → closed h1 C ∧ (∀ x, x ∈ C → isEmbedded h1 x = true) ∧ ordering caus (λ c, coordinates_of h1 C c ∨ c ∈ rows)) →
  (rel = true → (∀ a b ca cb, a ∈ C → b ∈ C → a ≠ b → Coordinates h1 a = Ok ca → Coordinates h1 b = Ok cb → ¬ tied caus ca cb) ∧
    (∀ a ca c, a ∈ C → Coordinates h1 a = Ok ca → c ∈ rows → ¬ tied caus ca c) ∧
    (∀ j k c d, rows !! j = Some c → rows !! k = Some d → j ≠ k → ¬ tied caus c d)) →
  alike (create it1 caus rows fmt rel C h1).1.1 (create it2 caus rows fmt rel C h2).1.1 ∧
  (create it1 caus rows fmt rel C h1).1.2 = (create it2 caus rows fmt rel C h2).1.2.
Proof.
  intros H1 H2 HO HP HP2 HA HC Hrel Htie. unfold create.
  assert (HO2 : order_inv h2) by (eapply same_order_inv; [by apply alike_same_order|done]).
  destruct (create_events_alike it1 it2 fmt rows H1 H2 (Z.of_nat (size C) + 1)%Z h1 h2 HA) as [A1 A2].
  pose proof (create_events_spec it1 fmt rows (Z.of_nat (size C) + 1)%Z h1 H1) as HS.
  pose proof (create_events_grows it1 fmt rows (Z.of_nat (size C) + 1)%Z h1 H1 HO) as G.
  pose proof (create_events_grows it2 fmt rows (Z.of_nat (size C) + 1)%Z h2 H2 HO2) as G2.
  destruct (create_events it1 fmt (Z.of_nat (size C) + 1) rows h1) as [k1 xs], (create_events it2 fmt (Z.of_nat (size C) + 1) rows h2) as [k2 xs2].
  cbn [fst snd] in *. subst xs2.
  destruct HS as (Hl & Hnd & Hfr & Hd & Hold & Hnew). destruct (G HO) as (HO1 & Hd1 & HP1 & HL1). destruct (G2 HO2) as (_ & _ & HPk2 & _).
  destruct rel; [|by split]. destruct (Hrel eq_refl) as (Hcl & Hemb & Hord). destruct (Htie eq_refl) as (T1 & T2 & T3).
  assert (HC1 : C ∪ list_to_set xs ⊆ dom k1) by (rewrite Hd; set_solver).
  assert (Hxc : ∀ x, x ∈ xs → ∃ i c, xs !! i = Some x ∧ rows !! i = Some c ∧ k1 !!! x = Event (ev_label (k1 !!! x)) ∅ ∅ None None (Some c) []).
  { intros x Hx. apply elem_of_list_lookup in Hx as [i Hi]. destruct (lookup_lt_is_Some_2 rows i) as [c Hc]; [rewrite <- Hl; by eapply lookup_lt_Some|].
    exists i, c. split; [done|]. split; [done|]. rewrite (Hnew i x c Hi Hc). done. }
  assert (Hcx : ∀ x, x ∈ C → x ∉ xs) by (intros x Hx Hx'; apply (Hfr x Hx'); by apply HC).
  assert (HX : ∀ x c, x ∈ C ∪ list_to_set xs → Coordinates k1 x = Ok c →
     (x ∈ C ∧ Coordinates h1 x = Ok c) ∨ (∃ i, xs !! i = Some x ∧ rows !! i = Some c)).
  { intros x c Hx Hcc. apply elem_of_union in Hx as [Hx|Hx%elem_of_list_to_set]; unfold Coordinates, Base.coords in *.
    - rewrite (Hold x (Hcx x Hx)) in Hcc. by left.
    - right. destruct (Hxc x Hx) as (i & c' & Hi & Hc' & E). rewrite E in Hcc. cbn in Hcc. injection Hcc as <-. by exists i. }
  assert (HR : alike_res (relate it1 caus true (C ∪ list_to_set xs) k1) (relate it2 caus true (C ∪ list_to_set xs) k2)).
  { apply relate_alike; [done|done|done|by apply HP1|by apply HPk2|done|done| | | |].
    - intros x [Hx|Hx%elem_of_list_to_set]%elem_of_union.
      + unfold prec, succ. rewrite (Hold x (Hcx x Hx)). destruct (Hcl x Hx). split; apply union_subseteq_l'; done.
      + destruct (Hxc x Hx) as (i & c & _ & _ & E). unfold prec, succ. rewrite E. cbn [ev_prec ev_succ]. split; apply empty_subseteq.
    - intros x [Hx|Hx%elem_of_list_to_set]%elem_of_union; unfold isEmbedded, Base.coords.
      + rewrite (Hold x (Hcx x Hx)). by apply Hemb.
      + destruct (Hxc x Hx) as (i & c & _ & _ & E). rewrite E. apply bool_decide_eq_true. cbn. eauto.
    - destruct Hord as (le & Htr & Hdec).
      assert (HX' : ∀ c, coordinates_of k1 (C ∪ list_to_set xs) c → coordinates_of h1 C c ∨ c ∈ rows).
      { intros c (x & Hx & Hcc). destruct (HX x c Hx Hcc) as [[? ?]|(i & _ & Hi)]; [left; by exists x|right; by eapply elem_of_list_lookup_2]. }
      exists le. split; [intros a b c Ha Hb Hc; apply Htr; auto|intros a b Ha Hb; apply Hdec; auto].
    - intros a b ca cb Ha Hb Hab Hca Hcb Ht.
      destruct (HX a ca Ha Hca) as [[Ha' Hca']|(i & Hi & Hri)], (HX b cb Hb Hcb) as [[Hb' Hcb']|(j & Hj & Hrj)].
      + by apply (T1 a b ca cb).
      + apply (T2 a ca cb Ha' Hca'); [by eapply elem_of_list_lookup_2|done].
      + apply (T2 b cb ca Hb' Hcb'); [by eapply elem_of_list_lookup_2|]. destruct Ht. by split.
      + apply (T3 i j ca cb Hri Hrj); [|done]. intros ->. congruence. }
  destruct HR as [R1 R2].
  destruct (relate it1 caus true (C ∪ list_to_set xs) k1) as [m1 r1], (relate it2 caus true (C ∪ list_to_set xs) k2) as [m2 r2]. cbn [fst snd] in *. subst r2.
  by destruct r1; split.
Qed.
Lemma lib_step_alike it1 it2 w1 w2 o : iter_ok it1 → iter_ok it2 → lib_inv w1 → lib_inv w2 → lib_alike w1 w2 →
  lib_admissible w1 o → (∀ x, o = LEvent (ODisjoin x) → hasBeenLinked (lib_heap w1) x = hasBeenLinked (lib_heap w2) x) → determined_order w1 o → lib_alike (lib_step it1 w1 o) (lib_step it2 w2 o).
Proof.
  intros H1 H2 HI HI2 HW Ha Hk Hdet. assert (HO := li_order w1 HI). assert (HP := li_paired w1 HI).
  assert (HO2 := li_order w2 HI2). assert (HP2 := li_paired w2 HI2).
  pose proof HW as [HA HC]. pose proof (lib_admissible_alike w1 w2 o HW Ha) as Ha2.
  assert (HN := λ i, nth_alike w1 w2 i HW).
  set (h1 := lib_heap w1) in *. set (h2 := lib_heap w2) in *.
  destruct o; cbn [lib_step lib_admissible determined_order determined] in *; fold h1 h2 in Ha, Ha2, Hdet |- *; rewrite <- ?HC; rewrite <- ?HN in *;
    try apply returned_alike.
  - split; [|done]. cbn [lib_heap]. destruct (is_disjoin o) eqn:Ed; [|by apply step_alike].
    destruct o; try done. cbn [step]. apply disjoin_alike; try done. by apply Hk.
  - split; cbn; [done|]. by apply causet_alike.
  - by apply FromPermutation_alike.
  - by apply FromPermutation_alike.
  - by apply FromPermutation_alike.
  - by apply NewSimplex_alike.
  - by apply NewFence_alike.
  - by apply NewFence_alike.
  - by apply FromPastMatrix_alike.
  - by apply FromPastMatrix_alike.
  - unfold FromTextFile. destruct (genfromtxt text) as [[| |M]|]; try by split.
    destruct isPastMatrix; by apply FromPastMatrix_alike.
  - destruct Ha as (Hi & Hj & _). apply merge_alike; [done|done|done|by apply nth_sub|by apply nth_sub].
  - destruct Ha as [Hi HE]. unfold add. destruct unlink; [|by split].
    assert (HD : ∀ it, iter_ok it → ∀ x, x ∈ it 24 (add_events (nth_causet w1 i) S) → x ∈ dom h1).
    { intros it Hit x Hx. rewrite iter_elem in Hx by done. unfold add_events in Hx. apply elem_of_union in Hx as [Hx|Hx]; [by apply (nth_sub w1 i HI Hi)|by apply HE]. }
    pose proof (unlink_loop_alike _ h1 (HD it1 H1)) as U1. pose proof (HD it2 H2) as HD2. rewrite (proj1 HA) in HD2.
    pose proof (unlink_loop_alike _ h2 HD2) as U2.
    destruct (unlink_loop _ h1), (unlink_loop _ h2). split; cbn [fst snd lib_heap lib_causets] in *; [|done].
    eapply alike_trans; [apply alike_sym; exact U1|]. eapply alike_trans; [exact HA|exact U2].
  - unfold discard. destruct unlink; [|by split].
    assert (HD : ∀ it, iter_ok it → ∀ x, x ∈ it 24 (discard_events (nth_causet w1 i) S) → x ∈ dom h1).
    { intros it Hit x Hx. rewrite iter_elem in Hx by done. unfold discard_events in Hx. apply elem_of_difference in Hx as [Hx _]. by apply (nth_sub w1 i HI Ha). }
    pose proof (unlink_loop_alike _ h1 (HD it1 H1)) as U1. pose proof (HD it2 H2) as HD2. rewrite (proj1 HA) in HD2.
    pose proof (unlink_loop_alike _ h2 HD2) as U2.
    destruct (unlink_loop _ h1), (unlink_loop _ h2). split; cbn [fst snd lib_heap lib_causets] in *; [|done].
    eapply alike_trans; [apply alike_sym; exact U1|]. eapply alike_trans; [exact HA|exact U2].
  - destruct Ha as [Hi Hcl]. destruct Ha2 as [Hi2 Hcl2]. split; [|done]. cbn [lib_heap].
    pose proof (nth_sub w1 i HI Hi) as Hs. pose proof (nth_sub w2 i HI2 Hi2) as Hs2. rewrite <- HN in Hs2.
    eapply alike_trans; [apply alike_sym; by apply (link_causet_alike it1)|]. eapply alike_trans; [exact HA|by apply link_causet_alike].
  - split; [|done]. cbn [lib_heap]. unfold unlink_causet.
    assert (HD : ∀ it, iter_ok it → ∀ x, x ∈ it 25 (nth_causet w1 i) → x ∈ dom h1).
    { intros it Hit x Hx. rewrite iter_elem in Hx by done. by apply (nth_sub w1 i HI Ha). }
    eapply alike_trans; [apply alike_sym; apply unlink_linked_alike, (HD it1 H1)|]. eapply alike_trans; [exact HA|].
    apply unlink_linked_alike. rewrite <- (proj1 HA). apply (HD it2 H2).
  - destruct Ha as [Hi Hr]. destruct (create_alike it1 it2 caus rows fmt rel (nth_causet w1 i) h1 h2) as [A1 A2]; try done; [by apply nth_sub|by intros ->|].
    destruct (create it1 caus rows fmt rel (nth_causet w1 i) h1) as [[? ?] ?], (create it2 caus rows fmt rel (nth_causet w1 i) h2) as [[? ?] ?].
    cbn [fst snd] in *. subst. by split.
  - destruct Ha as (Hi & Hcl & Hemb & Hord). split; [|done]. cbn [lib_heap]. apply relate_alike; try done. by apply nth_sub.
  - destruct Ha as [Hi Has]. destruct Hdet as [Hok Hdis]. split; [|done]. cbn [lib_heap].
    rewrite (relabel_seed it1 it2); [by apply relabel_alike|done|done|done|].
    intros a b va vb Ha' Hb Hab Va Vb. unfold value_at in Va, Vb.
    destruct (Coordinates h1 a) as [ca|] eqn:Ea; [|done]. destruct (Coordinates h1 b) as [cb|] eqn:Eb; [|done].
    by apply (Hdis a b ca cb).
Qed.
(** The same for all calls, whatever the link caches hold and wherever a loop that
    unlinks raises: the existing events, their order, labels, coordinates and positions and the
    causets are the same in both runs. *)
Theorem C88_same_order (hist1 hist2 : list (oracle * lib_op)) :
  hist1.*2 = hist2.*2 → (∀ it, it ∈ hist2.*1 → iter_ok it) →
  disjoins_agree (Lib ∅ []) (Lib ∅ []) hist1 hist2 →
  lib_admissible_history (Lib ∅ []) hist1 → determined_order_history (Lib ∅ []) hist1 →
  let w1 := lib_run (Lib ∅ []) hist1 in let w2 := lib_run (Lib ∅ []) hist2 in
  let h1 := lib_heap w1 in let h2 := lib_heap w2 in
  lib_causets w1 = lib_causets w2 ∧ dom h1 = dom h2 ∧
  ∀ x, Past h1 x = Past h2 x ∧ Future h1 x = Future h2 x ∧ lab h1 x = lab h2 x ∧
       Coordinates h1 x = Coordinates h2 x ∧ get_Position h1 x = get_Position h2 x.
Proof.
  intros E Hok Hnd Ha Hd w1 w2 h1 h2.
  assert (HG : ∀ v1 v2, lib_inv v1 → lib_inv v2 → lib_alike v1 v2 → disjoins_agree v1 v2 hist1 hist2 →
    lib_admissible_history v1 hist1 → determined_order_history v1 hist1 →
    lib_alike (lib_run v1 hist1) (lib_run v2 hist2)).
  { clear Hnd Ha Hd w1 w2 h1 h2.
    revert hist2 E Hok. induction hist1 as [|[it1 o] hist1 IH]; intros [|[it2 o2] hist2] E Hok v1 v2 HI HI2 HW Hnd Ha Hd; try done.
    cbn [fmap list_fmap fst snd] in E, Hok. injection E as <- E. destruct Ha as (H1 & Ha & Ha'). destruct Hd as [Hd Hd'].
    destruct Hnd as [Hn Hn'].
    assert (H2 : iter_ok it2) by (apply Hok, elem_of_list_here).
    change (lib_alike (lib_run (lib_step it1 v1 o) hist1) (lib_run (lib_step it2 v2 o) hist2)).
    apply IH; [done| | | | |done|done|done].
    - intros it Hit. apply Hok. by apply elem_of_list_further.
    - by apply lib_step_inv.
    - apply lib_step_inv; [done|done|]. by eapply lib_admissible_alike.
    - by apply lib_step_alike. }
  destruct (HG (Lib ∅ []) (Lib ∅ []) lib_inv_empty lib_inv_empty) as [HA HC]; [done|done|done|done|].
  change (alike h1 h2) in HA. split; [done|]. split; [apply HA|]. intros x. pose proof (Coordinates_alike h1 h2 x HA) as EC.
  destruct (alike_attr h1 h2 x HA) as (Q1 & Q2 & Q3 & Q4 & Q5). done.
Qed.
Print Assumptions C88_same_order.

(** ** What goes wrong otherwise *)
(** disjoin: events 0 < 1 < 2, all linked; after disjoin of 1 the future links of 0 and the past
    links of 2 depend on the order in which the set of the relatives is iterated. *)
Definition dj0 : heap := (new_event it_sorted LNone ∅ ∅ [] [] ∅).1.
Definition dj1 : heap := (new_event it_sorted LNone {[0]} ∅ [] [] dj0).1.
Definition dj2 : heap := (new_event it_sorted LNone {[1]} ∅ [] [] dj1).1.
Definition dj3 : heap := link (link (link dj2 0) 1) 2.
Theorem C88_disjoin_refuted :
  ∃ it1 it2 : oracle, iter_ok it1 ∧ iter_ok it2 ∧
    (∀ x y, x ∈ [0; 1; 2] → y ∈ [0; 1; 2] →
       (y ∈ LinkPast dj3 x ↔ covers (before dj3) y x) ∧ (y ∈ LinkFuture dj3 x ↔ covers (before dj3) x y)) ∧
    (∃ h1, disjoin it1 dj3 1 = (h1, Ok tt) ∧ ev_lt h1 0 2 = true ∧ elements (LinkPast h1 2) = [0] ∧ elements (LinkFuture h1 0) = []) ∧
    (∃ h2, disjoin it2 dj3 1 = (h2, Ok tt) ∧ ev_lt h2 0 2 = true ∧ elements (LinkPast h2 2) = [] ∧ elements (LinkFuture h2 0) = [2]).
Proof.
  exists it_sorted, it_sorted_down. split; [apply it_sorted_ok|]. split; [apply it_sorted_down_ok|].
  assert (HN : ∀ h P, P ⊆ dom h → order_inv h ∧ link_inv h →
    order_inv (new_event it_sorted LNone P ∅ [] [] h).1 ∧ link_inv (new_event it_sorted LNone P ∅ [] [] h).1).
  { intros h P HP [A B]. assert (Ha : admissible h (ONew LNone P ∅ [] [])).
    { split; [done|]. split; [apply empty_subseteq|]. intros p f _ [Hf|(e & He & _)]; [by apply elem_of_empty in Hf|by apply elem_of_empty in He]. }
    split; [apply (step_order it_sorted h _ it_sorted_ok Ha A)|apply (step_link it_sorted h _ it_sorted_ok Ha eq_refl A B)]. }
  assert (O1 : order_inv dj0 ∧ link_inv dj0).
  { apply (HN ∅ ∅); [decide_vm|]. split; [apply order_inv_empty|apply link_inv_empty]. }
  assert (O2 : order_inv dj1 ∧ link_inv dj1) by (apply (HN dj0 {[0]}); [decide_vm|exact O1]).
  assert (O3 : order_inv dj2 ∧ link_inv dj2) by (apply (HN dj1 {[1]}); [decide_vm|exact O2]).
  assert (O4 : ∀ h x, order_inv h ∧ link_inv h → order_inv (link h x) ∧ link_inv (link h x)).
  { intros h x [A B]. split; [|by apply link_inv_link]. eapply same_order_inv; [apply link_same_order|done]. }
  destruct (O4 _ 2 (O4 _ 1 (O4 _ 0 O3))) as [A B]. change (order_inv dj3) in A. change (link_inv dj3) in B.
  split; [|split].
  - intros x y _ _. by rewrite LinkPast_spec, LinkFuture_spec by done.
  - exists (disjoin it_sorted dj3 1).1. split; [|split; [decide_vm|split; decide_vm]].
    assert (E : (disjoin it_sorted dj3 1).2 = Ok tt) by decide_vm. rewrite <- E. apply surjective_pairing.
  - exists (disjoin it_sorted_down dj3 1).1. split; [|split; [decide_vm|split; decide_vm]].
    assert (E : (disjoin it_sorted_down dj3 1).2 = Ok tt) by decide_vm. rewrite <- E. apply surjective_pairing.
Qed.
Print Assumptions C88_disjoin_refuted.
(** add with unlink=True on a causet with some linked and some unlinked events raises
    AttributeError; which events are unlinked then depends on the order of the iteration. *)
Definition pl0 : heap := (new_event it_sorted LNone ∅ ∅ [] [] ∅).1.
Definition pl1 : heap := link (new_event it_sorted LNone ∅ ∅ [] [] pl0).1 0.
Theorem C88_add_unlink_refuted :
  ∃ it1 it2 : oracle, iter_ok it1 ∧ iter_ok it2 ∧ hasBeenLinked pl1 0 = true ∧ hasBeenLinked pl1 1 = false ∧
    (∃ h1 C, add it1 {[0]} {[1]} true pl1 = (h1, C, Err AttributeError) ∧ hasBeenLinked h1 0 = false) ∧
    (∃ h2 C, add it2 {[0]} {[1]} true pl1 = (h2, C, Err AttributeError) ∧ hasBeenLinked h2 0 = true).
Proof.
  exists it_sorted, it_sorted_down. split; [apply it_sorted_ok|]. split; [apply it_sorted_down_ok|].
  split; [decide_vm|]. split; [decide_vm|].
  assert (HS : ∀ (p : heap * gset nat * res unit) r, p.2 = r → p = (p.1.1, p.1.2, r)) by (intros [[h' C'] r'] r; cbn; by intros ->).
  split.
  - exists (add it_sorted {[0]} {[1]} true pl1).1.1, (add it_sorted {[0]} {[1]} true pl1).1.2. split; [apply HS; decide_vm|decide_vm].
  - exists (add it_sorted_down {[0]} {[1]} true pl1).1.1, (add it_sorted_down {[0]} {[1]} true pl1).1.2. split; [apply HS; decide_vm|decide_vm].
Qed.
Print Assumptions C88_add_unlink_refuted.
(** merge of linked causets: event 0, and events 1 < 2; after the merge the past links of 2 are
    right or wrong, depending on the order in which the second causet is iterated. *)
Definition mg0 : heap := (new_event it_sorted LNone ∅ ∅ [] [] ∅).1.
Definition mg1 : heap := (new_event it_sorted LNone ∅ ∅ [] [] mg0).1.
Definition mg2 : heap := link (link (link (new_event it_sorted LNone {[1]} ∅ [] [] mg1).1 0) 1) 2.
Theorem C88_merge_refuted :
  ∃ it1 it2 : oracle, iter_ok it1 ∧ iter_ok it2 ∧ ev_lt mg2 1 2 = true ∧
    elements (LinkPast (merge it1 {[0]} {[1; 2]} false mg2).1 2) = [1] ∧
    elements (LinkPast (merge it2 {[0]} {[1; 2]} false mg2).1 2) = [0; 1].
Proof.
  exists it_sorted, it_sorted_down. split; [apply it_sorted_ok|]. split; [apply it_sorted_down_ok|].
  split; [decide_vm|split; decide_vm].
Qed.
Print Assumptions C88_merge_refuted.

(** ** A history that meets the hypotheses of C88_same_state, and a different one with the same calls *)
Lemma det_cons it w o hist w' : w' = lib_step it w o → determined w o →
  determined_history w' hist → determined_history w ((it, o) :: hist).
Proof. intros ->. cbn [determined_history]. by split. Qed.
Definition other_example : list (oracle * lib_op) := (λ p, (it_sorted, snd p)) <$> lib_example.
Lemma ex_rows (j k : nat) c d : [[0; 0]; [2; 1]; [1; 3]]%Q !! j = Some c → [[0; 0]; [2; 1]; [1; 3]]%Q !! k = Some d → j ≠ k → ¬ tied q_caus c d.
Proof.
  intros Hj Hk Hjk. unfold tied. intros [T1 T2].
  destruct j as [|[|[|j]]]; [..|by destruct j]; (destruct k as [|[|[|k]]]; [..|by destruct k]); try congruence;
    injection Hj as <-; injection Hk as <-; vm_compute in T1, T2; congruence.
Qed.
Lemma ex_det6 : determined ex6 (LCreate 3 q_caus [[0; 0]; [2; 1]; [1; 3]]%Q FmtNone true).
Proof.
  assert (E : nth_causet ex6 3 = ∅) by decide_vm. cbn [determined]. rewrite E.
  split; [intros a b ca cb Ha; exfalso; exact (not_elem_of_empty a Ha)|].
  split; [intros a ca c Ha; exfalso; exact (not_elem_of_empty a Ha)|].
  exact ex_rows.
Qed.
Example C88_nonvacuous :
  lib_example.*2 = other_example.*2 ∧ (∀ it, it ∈ other_example.*1 → iter_ok it) ∧
  lib_admissible_history ex0 lib_example ∧ lib_keeps_links_history ex0 lib_example ∧ determined_history ex0 lib_example ∧
  lib_example.*1 ≠ other_example.*1.
Proof.
  split; [reflexivity|]. split.
  { intros it Hit. unfold other_example in Hit. rewrite <- list_fmap_compose in Hit. apply elem_of_list_fmap in Hit as (p & -> & _). cbn. apply it_sorted_ok. }
  destruct C87_nonvacuous as (HA & HK & _). split; [exact HA|]. split; [exact HK|]. split.
  - unfold lib_example.
    apply (det_cons _ _ _ _ ex1 eq_refl I). apply (det_cons _ _ _ _ ex2 eq_refl I). apply (det_cons _ _ _ _ ex3 eq_refl I).
    apply (det_cons _ _ _ _ ex4 eq_refl I). apply (det_cons _ _ _ _ ex5 eq_refl I). apply (det_cons _ _ _ _ ex6 eq_refl I).
    apply (det_cons _ _ _ _ ex7 eq_refl ex_det6). apply (det_cons _ _ _ _ ex8 eq_refl I). apply (det_cons _ _ _ _ ex9 eq_refl I). exact I.
  - intros E. assert (E0 : it_reverse = it_sorted) by (injection E; done).
    assert (E1 : it_reverse 0 {[0; 1]} = it_sorted 0 {[0; 1]}) by by rewrite E0. vm_compute in E1. done.
Qed.
(** A history for C88_same_order that merges linked causets and adds events with unlink=True. *)
Definition mx1 : lib_state := lib_step it_reverse ex0 (LNewChain 2 FmtNone).
Definition mx2 : lib_state := lib_step it_elements mx1 (LLink 0).
Definition mx3 : lib_state := lib_step it_reverse mx2 (LNewChain 2 FmtNone).
Definition mx4 : lib_state := lib_step it_reverse mx3 (LLink 1).
Definition mx5 : lib_state := lib_step it_reverse mx4 (LMerge 0 1 false).
Definition mx6 : lib_state := lib_step it_reverse mx5 (LEvent (OUnlink 1)).
Definition mx7 : lib_state := lib_step it_reverse mx6 (LAdd 0 ∅ true).
Definition merge_example : list (oracle * lib_op) :=
  [(it_reverse, LNewChain 2 FmtNone); (it_elements, LLink 0); (it_reverse, LNewChain 2 FmtNone); (it_reverse, LLink 1);
   (it_reverse, LMerge 0 1 false); (it_reverse, LEvent (OUnlink 1)); (it_reverse, LAdd 0 ∅ true)].
Lemma mx_closed1 : closed (lib_heap mx1) (nth_causet mx1 0).
Proof. assert (H : closedq (lib_heap mx1) (nth_causet mx1 0)) by decide_vm. intros x Hx. exact (H x Hx). Qed.
Lemma mx_closed3 : closed (lib_heap mx3) (nth_causet mx3 1).
Proof. assert (H : closedq (lib_heap mx3) (nth_causet mx3 1)) by decide_vm. intros x Hx. exact (H x Hx). Qed.
Lemma mx_adm4 : lib_admissible mx4 (LMerge 0 1 false).
Proof.
  assert (H1 : set_Forall (λ x, Past (lib_heap mx4) x ⊆ nth_causet mx4 0) (nth_causet mx4 0)) by decide_vm.
  assert (H2 : set_Forall (λ x, Future (lib_heap mx4) x ⊆ nth_causet mx4 1) (nth_causet mx4 1)) by decide_vm.
  split; [decide_vm|]. split; [decide_vm|]. intros _. split; [decide_vm|]. split; [exact H1|exact H2].
Qed.
Lemma det_order_cons it w o hist w' : w' = lib_step it w o → determined_order w o →
  determined_order_history w' hist → determined_order_history w ((it, o) :: hist).
Proof. intros ->. cbn [determined_order_history]. by split. Qed.
(** Histories without disjoin meet the condition; so does a call right after the links were read. *)
Lemma no_disjoin_agrees hist1 hist2 : (∀ x, LEvent (ODisjoin x) ∉ hist1.*2) → ∀ w1 w2, disjoins_agree w1 w2 hist1 hist2.
Proof.
  revert hist2. induction hist1 as [|[it1 o1] hist1 IH]; intros [|[it2 o2] hist2] Hn w1 w2; try done.
  cbn [disjoins_agree]. cbn [fmap list_fmap snd] in Hn. split.
  - intros x ->. exfalso. apply (Hn x). apply elem_of_list_here.
  - apply IH. intros x Hx. apply (Hn x). by apply elem_of_list_further.
Qed.
Example C88_disjoin_nonvacuous it1 it2 w1 w2 x : x ∈ dom (lib_heap w1) → x ∈ dom (lib_heap w2) →
  disjoins_agree w1 w2 [(it1, LEvent (OLink x)); (it1, LEvent (ODisjoin x))] [(it2, LEvent (OLink x)); (it2, LEvent (ODisjoin x))].
Proof.
  intros H1 H2. split; [intros y; discriminate|]. split; [|done]. intros y [= <-]. cbn [lib_step lib_heap step].
  assert (HL : ∀ h, hasBeenLinked (link h x) x = true).
  { intros h. unfold hasBeenLinked, link, lprec, lsucc. rewrite !upd_same. done. }
  by rewrite !HL.
Qed.
Example C88_order_nonvacuous :
  lib_admissible_history ex0 merge_example ∧ determined_order_history ex0 merge_example ∧
  (∀ x, LEvent (ODisjoin x) ∉ merge_example.*2) ∧ hasBeenLinked (lib_heap mx4) 1 = true ∧ hasBeenLinked (lib_heap mx4) 4 = true ∧
  ev_lt (lib_heap mx5) 1 5 = true ∧ hasBeenLinked (lib_heap mx6) 1 = false ∧ hasBeenLinked (lib_heap mx6) 2 = true.
Proof.
  split; [|split; [|split]].
  - unfold merge_example.
    apply (adm_cons _ _ _ _ mx1 eq_refl it_reverse_ok I).
    apply (adm_cons _ _ _ _ mx2 eq_refl it_elements_ok); [split; [decide_vm|exact mx_closed1]|].
    apply (adm_cons _ _ _ _ mx3 eq_refl it_reverse_ok I).
    apply (adm_cons _ _ _ _ mx4 eq_refl it_reverse_ok); [split; [decide_vm|exact mx_closed3]|].
    apply (adm_cons _ _ _ _ mx5 eq_refl it_reverse_ok mx_adm4).
    apply (adm_cons _ _ _ _ mx6 eq_refl it_reverse_ok); [cbn [lib_admissible admissible]; decide_vm|].
    apply (adm_cons _ _ _ _ mx7 eq_refl it_reverse_ok); [cbn [lib_admissible]; split; decide_vm|exact I].
  - unfold merge_example.
    apply (det_order_cons _ _ _ _ mx1 eq_refl I). apply (det_order_cons _ _ _ _ mx2 eq_refl I). apply (det_order_cons _ _ _ _ mx3 eq_refl I).
    apply (det_order_cons _ _ _ _ mx4 eq_refl I). apply (det_order_cons _ _ _ _ mx5 eq_refl I). apply (det_order_cons _ _ _ _ mx6 eq_refl I).
    apply (det_order_cons _ _ _ _ mx7 eq_refl I). exact I.
  - intros x. unfold merge_example. cbn [fmap list_fmap snd]. rewrite !elem_of_cons, elem_of_nil. intros H.
    repeat destruct H as [H|H]; congruence.
  - split; [decide_vm|]. split; [decide_vm|]. split; [decide_vm|]. split; decide_vm.
Qed.
