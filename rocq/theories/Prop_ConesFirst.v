(** Plots with causal cones, and plots without links (C57, C70). *)
From Verif Require Import Base Spec EventModel EventFacts EventProps CausetModel ColorModel.
From Coq Require Import Reals Qreals Lra.
From Verif Require Import SpacetimeModel ShapeModel EmbedModel SprinkledModel PlotModel SpecPlot PlotFacts Prop_Plot Prop_PlotMore
  Prop_Dynamic.
#[local] Open Scope nat_scope.
#[local] Open Scope string_scope.

(** ** C57: without links, only markers and labels *)
Theorem C57_no_links (g : scheme) (dc : dict pyval) (it : oracle) (slice : list R → R → res bool)
    (E : plot_arg) (st : option spacetime) (time : time_arg) (kw : kwargs) (pl : plotting) (h : heap) (ax : list artist) :
  order_inv h → link_inv h →
  NoDup g.*1 → plot_parameters g dc kw = Ok pl →
  kw_timedepth kw = None → pl_pastcones pl = None → pl_futurecones pl = None → pl_axislim pl ≠ Some AxShape →
  kw_links kw = Some (Switch false) →
  let events := match E with PEvent e => [e] | PList l => l | PCauset C => it 40 (ec_events C) end in
  let emb := match E with PCauset _ => true | _ => bool_decide (is_Some st) end in
  let pt := point emb (pl_dims pl) h in
  (∀ a, a ∈ events → plottable emb (pl_dims pl) h a) →
  ∃ hs evs lbls,
    plot g dc it slice E st time kw (h, ax) = ((h, ax ++ evs ++ lbls)%list, Ok hs) ∧
    ha_links hs = None ∧ ha_pastcones hs = None ∧ ha_futurecones hs = None ∧
    (match pl_events pl with
     | Some p => ha_events hs = Some (Some <$> evs) ∧ evs = (λ a, ALine [pt a] p None None None) <$> events
     | None => ha_events hs = None ∧ evs = [] end) ∧
    (match pl_labels pl with
     | Some p => ha_labels hs = Some (Some <$> lbls) ∧ lbls = (λ a, AText (pt a) (lab h a) p) <$> events
     | None => ha_labels hs = None ∧ lbls = [] end).
Proof.
  intros HO HL Hg Hpl Hdyn Hpc Hfc Hax Hlk events emb pt Hev.
  destruct (plot_parameters_inv g dc kw pl Hpl) as (_ & _ & _ & _ & _ & _ & _ & _ & _ & _ & Hd1 & _).
  rewrite Hdyn in Hd1. cbn in Hd1.
  destruct (plot_static_run h HO HL g dc it slice E st time kw pl Hpl Hd1 Hpc Hfc Hev h ax) as (h' & arts & r & Hv & Hrun & HQ);
    [by apply same_view_refl|].
  pose proof (C57_no_links_untouched g dc it slice E st time kw h ax Hg Hlk) as Hh. rewrite Hrun in Hh. cbn in Hh. subst h'.
  fold events in HQ. fold emb in HQ. unfold static_post in HQ. cbn zeta in HQ.
  destruct (params_nonempty g dc kw pl Hpl Hg) as [[Hn _]|(p & _ & _ & ?)]; [by rewrite Hlk| |done].
  rewrite Hn in HQ. cbn [truthy] in HQ.
  assert (Hlim : ∃ lim, set_limits pl = Ok lim).
  { unfold set_limits. destruct (pl_axislim pl) as [[|d]|]; [done| |eauto]. destruct (dget d "xlim"), (dget d "ylim"); eauto. }
  destruct Hlim as [lim Hlim]. rewrite Hlim in HQ. cbn [res_map] in HQ.
  destruct HQ as [-> ->]. eexists _, _, _. split; [exact Hrun|]. split; [done|]. split; [done|]. split; [done|].
  split; [destruct (pl_events pl); done|destruct (pl_labels pl); done].
Qed.
Print Assumptions C57_no_links.

(** ** C70: a plot with cones is the cones followed by the same plot without cones *)
(** The same call with the cones switched off. *)
Definition without_cones (kw : kwargs) : kwargs :=
  Kwargs (kw_dims kw) (kw_axislim kw) (kw_shape kw) (kw_conetimefade kw) (kw_conetimedepth kw)
    (kw_timedepth kw) (kw_timefade kw) (Some (Switch false)) (Some (Switch false)) (kw_links kw)
    (kw_linkgapsize kw) (kw_events kw) (kw_labels kw).
Lemma without_cones_parameters g dc kw pl : plot_parameters g dc kw = Ok pl →
  plot_parameters g dc (without_cones kw) =
  Ok (Plotting (pl_dims pl) (pl_axislim pl) (pl_timeaxis pl) (pl_conetimefade pl) (pl_conetimedepth pl)
        (pl_dynamic pl) None None (pl_links pl) (pl_linkgaps pl) (pl_events pl) (pl_labels pl)).
Proof.
  unfold plot_parameters, without_cones. cbn [kw_dims kw_axislim kw_shape kw_conetimefade kw_conetimedepth kw_timedepth
    kw_timefade kw_pastcones kw_futurecones kw_links kw_linkgapsize kw_events kw_labels].
  destruct (decide _); [done|]. destruct (axis_limits _ _ _) as [lim|]; [|done]. cbn [res_bind].
  destruct (param_block _ _ (kw_pastcones kw) _ _) as [pc|]; [|done]. cbn [res_bind].
  destruct (param_block _ _ (kw_futurecones kw) _ _) as [fc|]; [|done]. cbn [res_bind].
  cbn zeta. change (param_block g (default_cones dc _) (Some (Switch false)) false []) with (@Ok (option (dict pyval)) None).
  cbn [res_bind].
  destruct (param_block _ _ (kw_links kw) _ _) as [lk|]; [|done]. cbn [res_bind].
  destruct (param_block _ _ (kw_events kw) _ _) as [ev|]; [|done]. cbn [res_bind].
  destruct (param_block _ _ (kw_labels kw) _ _) as [lb|]; [|done]. cbn [res_bind].
  intros [= <-]. done.
Qed.
Lemma ro_cones emb events slice o1 o2 t0 t1 : reads_only (cones emb events slice o1 o2 t0 t1).
Proof.
  unfold cones. apply ro_each. intros a [ps fs]. apply ro_bind; [apply ro_attr|]. intros c.
  apply ro_bind; [destruct o1 as [[]|]; [apply ro_cone|apply ro_ret]|]. intros p.
  apply ro_bind; [destruct o2 as [[]|]; [apply ro_cone|apply ro_ret]|]. intros f. apply ro_ret.
Qed.
Theorem C70_cones_first (g : scheme) (dc : dict pyval) (it : oracle) (slice : list R → R → res bool)
    (E : plot_arg) (st : option spacetime) (time : time_arg) (kw : kwargs) (pl : plotting) (h : heap) (ax : list artist) :
  order_inv h → link_inv h → plot_parameters g dc kw = Ok pl →
  default "intensity" (kw_conetimefade kw) ∈ ["linear"; "exponential"; "intensity"] →
  let events := match E with PEvent e => [e] | PList l => l | PCauset C => it 40 (ec_events C) end in
  let emb := match E with PCauset _ => true | _ => bool_decide (is_Some st) end in
  let pc := plot_coords emb h in
  (∀ a, a ∈ events → (emb = true → is_Some (Base.coords h a)) ∧ 0 < length (pc a)) →
  (∀ a t, a ∈ events → ∃ b, slice (pc a) t = Ok b) →
  ∃ past_cones future_cones drawn,
    drawn ≡ₚ (default [] past_cones ++ default [] future_cones)%list ∧
    (past_cones = None ↔ pl_pastcones pl = None) ∧ (future_cones = None ↔ pl_futurecones pl = None) ∧
    match plot g dc it slice E st time (without_cones kw) (h, (ax ++ drawn)%list) with
    | (s, Ok hs) =>
        plot g dc it slice E st time kw (h, ax) =
          (s, Ok (Handles past_cones future_cones (ha_links hs) (ha_events hs) (ha_labels hs) (ha_limits hs))) ∧
        ha_pastcones hs = None ∧ ha_futurecones hs = None
    | (_, Err e) => snd (plot g dc it slice E st time kw (h, ax)) = Err e
    end.
Proof.
  intros HO HL Hpl Hfade events emb pc Hco Hs.
  pose proof (without_cones_parameters g dc kw pl Hpl) as Hpl0.
  destruct (plot_parameters_inv g dc kw pl Hpl) as (Hd & D1 & _ & _ & _ & _ & _ & _ & _ & _ & _ & HF & HDp).
  assert (Hca : ∀ o, ∃ o', cone_alpha pl o = Ok o' ∧ (∀ p, o' ≠ Some (None, p)) ∧ (o' = None ↔ o = None)).
  { intros [p|]; [|by exists None]. cbn [cone_alpha]. rewrite HF.
    destruct (decide (default "intensity" (kw_conetimefade kw) = "")) as [Hx|_].
    { exfalso. rewrite Hx in Hfade. rewrite !elem_of_cons, elem_of_nil in Hfade. by destruct Hfade as [?|[?|[?|?]]]. }
    destruct (dynamic_parameter (default "intensity" (kw_conetimefade kw)) (dim pl) (Rabs (pl_conetimedepth pl))
                (default 1%R (num_of (dget p "alpha")))) as [f|] eqn:Ef.
    - eexists. split; [reflexivity|]. split; [congruence|done].
    - apply C61_other_names in Ef. rewrite !elem_of_cons, elem_of_nil in Hfade. tauto. }
  destruct (Hca (pl_pastcones pl)) as (o1 & E1 & N1 & P1). destruct (Hca (pl_futurecones pl)) as (o2 & E2 & N2 & P2). clear Hca.
  (* the state in which the cones are drawn *)
  destruct (link_count_run h HO HL it pl events (λ _ _, True)) with (h := h) (ax := ax) as (hL & arts & r & Hv & Er & _);
    [done|by apply same_view_refl|].
  assert (Hlc : ∃ hL n, same_view h hL ∧ ∀ ax, link_count it pl events (h, ax) = ((hL, ax), Ok n)).
  { exists hL. unfold link_count in Er |- *. destruct (pl_links pl).
    - eexists. split; [done|]. intros ax'. injection Er as <- _ _. done.
    - exists 0. split; [done|]. injection Er as <- _ _. done. }
  clear hL arts r Hv Er. destruct Hlc as (hL & n & Hv & Elc).
  assert (Hcn : ∃ drawn ps fs, drawn ≡ₚ (ps ++ fs)%list ∧ (o1 = None → ps = []) ∧ (o2 = None → fs = []) ∧
    (match o1, o2 with None, None => ret ([], []) | _, _ => cones emb events slice o1 o2 (times time).1 (times time).2 end)
       (hL, ax) = ((hL, (ax ++ drawn)%list), Ok (ps, fs))).
  { assert (Hc : ∃ drawn ps fs, drawn ≡ₚ (ps ++ fs)%list ∧ (o1 = None → ps = []) ∧ (o2 = None → fs = []) ∧
      cones emb events slice o1 o2 (times time).1 (times time).2 (hL, ax) = ((hL, (ax ++ drawn)%list), Ok (ps, fs))).
    { destruct (cones_run h HO HL emb slice o1 o2 (times time).1 (times time).2 events Hco Hs N1 N2 hL ax Hv)
        as (h4 & drawn & r4 & _ & Er4 & -> & Hperm).
      pose proof (ro_cones emb events slice o1 o2 (times time).1 (times time).2 (hL, ax)) as Hro.
      rewrite Er4 in Hro. cbn [fst] in Hro. subst h4. eexists drawn, _, _. split; [exact Hperm|].
      split; [by intros ->|]. split; [by intros ->|]. exact Er4. }
    destruct o1, o2; [exact Hc|exact Hc|exact Hc|].
    exists [], [], []. split; [done|]. split; [done|]. split; [done|]. unfold ret. by rewrite app_nil_r. }
  destruct Hcn as (drawn & ps & fs & Hperm & Q1 & Q2 & Ecn).
  exists (match o1 with Some _ => Some ps | None => None end), (match o2 with Some _ => Some fs | None => None end), drawn.
  split. { destruct o1, o2; cbn; rewrite ?(Q1 eq_refl), ?(Q2 eq_refl) in Hperm; by rewrite ?app_nil_r in Hperm |- *. }
  split. { rewrite <- P1. by destruct o1. } split. { rewrite <- P2. by destruct o2. }
  set (pl0 := Plotting _ _ _ _ _ _ None None _ _ _ _) in Hpl0.
  assert (EP : Plotter g dc it E st kw (h, ax) =
    match dynamic_setup pl with
    | Ok dyn => ((hL, ax), Ok (Prepared pl events emb n o1 o2 dyn)) | Err e => ((hL, ax), Err e) end).
  { unfold Plotter. unfold bind at 1. unfold lift at 1. rewrite Hpl. unfold bind at 1.
    change (plot_events it E) with events. rewrite Elc. unfold bind, lift, ret. rewrite E1, E2.
    change (is_embedded E st) with emb. by destruct (dynamic_setup pl). }
  assert (EP0 : ∀ ax, Plotter g dc it E st (without_cones kw) (h, ax) =
    match dynamic_setup pl with
    | Ok dyn => ((hL, ax), Ok (Prepared pl0 events emb n None None dyn)) | Err e => ((hL, ax), Err e) end).
  { intros ax'. unfold Plotter. unfold bind at 1. unfold lift at 1. rewrite Hpl0. unfold bind at 1.
    change (plot_events it E) with events. change (link_count it pl0) with (link_count it pl). rewrite Elc.
    change (cone_alpha pl0 (pl_pastcones pl0)) with (@Ok (option (option (R → R) * dict pyval)) None).
    change (cone_alpha pl0 (pl_futurecones pl0)) with (@Ok (option (option (R → R) * dict pyval)) None).
    change (dynamic_setup pl0) with (dynamic_setup pl). unfold bind, lift, ret.
    change (is_embedded E st) with emb. by destruct (dynamic_setup pl). }
  unfold plot. unfold bind at 1 2 3. rewrite EP, EP0. destruct (dynamic_setup pl) as [dyn|e]; [|done].
  assert (Hts : ∃ m : M (list (option artist) * list (option artist) * list (option artist)),
    ∀ q o1 o2, q = pl ∨ q = pl0 →
      timeslice slice (Prepared q events emb n o1 o2 dyn) (times time).1 (times time).2 =
      bind (match o1, o2 with None, None => ret ([], [])
            | _, _ => cones emb events slice o1 o2 (times time).1 (times time).2 end) (λ '(ps, fs),
      bind m (λ '(lk, evs, lbls),
      bind (lift (set_limits pl)) (λ lim,
      ret (Handles (match o1 with Some _ => Some ps | None => None end) (match o2 with Some _ => Some fs | None => None end)
             (match pl_links pl with Some _ => Some lk | None => None end)
             (match pl_events pl with Some _ => Some evs | None => None end)
             (match pl_labels pl with Some _ => Some lbls | None => None end) lim))))).
  { eexists. intros q o1' o2' [-> | ->]; unfold timeslice;
      cbn [pr_pl pr_pc pr_fc pr_dyn pr_links pr_events pr_embedded]; reflexivity. }
  destruct Hts as [m Hts]. rewrite (Hts pl0 None None) by (by right). rewrite (Hts pl o1 o2) by (by left).
  unfold bind at 1. unfold ret at 1. unfold bind at 3 6. rewrite Ecn. unfold bind, lift, ret.
  destruct (m (hL, (ax ++ drawn)%list)) as [s [[[lk evs] lbls]|e]]; [|done].
  destruct (set_limits pl); done.
Qed.
Print Assumptions C70_cones_first.
(** The hypotheses are met by the diagram of C57 with past cones of its events. *)
Definition cone_kw : kwargs :=
  Kwargs None None None None None None None (Some (Switch true)) None None None None None.
Example C70_cones_first_nonvacuous :
  order_inv diagram ∧ link_inv diagram ∧
  (∃ pl p, plot_parameters scheme_matplotlib default_colors0 cone_kw = Ok pl ∧ pl_pastcones pl = Some p ∧
           pl_futurecones pl = None) ∧
  default "intensity" (kw_conetimefade cone_kw) ∈ ["linear"; "exponential"; "intensity"] ∧
  (∀ a, a ∈ [0; 1; 2] → 0 < length (plot_coords false diagram a)).
Proof.
  split; [apply diagram_order|]. split; [apply diagram_link|]. split; [|split].
  - eexists _, _. split; [reflexivity|]. split; reflexivity.
  - cbn. rewrite !elem_of_cons. tauto.
  - intros a Ha. unfold plot_coords. rewrite fmap_length. rewrite !elem_of_cons, elem_of_nil in Ha.
    destruct Ha as [->|[->|[->|[]]]]; vm_compute; lia.
Qed.
Definition no_link_kw : kwargs :=
  Kwargs None None None None None None None None None (Some (Switch false)) None None None.
Example C57_no_links_nonvacuous :
  order_inv diagram ∧ link_inv diagram ∧ NoDup scheme_matplotlib.*1 ∧
  (∃ pl p, plot_parameters scheme_matplotlib default_colors0 no_link_kw = Ok pl ∧ pl_links pl = None ∧
           pl_events pl = Some p ∧ pl_pastcones pl = None ∧ pl_axislim pl = None ∧ pl_dims pl = [1; 0]) ∧
  (∀ a, a ∈ [0; 1; 2] → plottable false [1; 0] diagram a).
Proof.
  split; [apply diagram_order|]. split; [apply diagram_link|]. split; [apply (bool_decide_unpack _); by vm_compute|]. split.
  - eexists _, _. split_and!; reflexivity.
  - apply diagram_plottable.
Qed.
