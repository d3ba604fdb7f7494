(** Theorems about positions of events, plotDiagram and the fading: C58, C61, C71. *)
From Verif Require Import Base Spec EventModel EventFacts EventProps CausetModel ColorModel.
From Coq Require Import Reals Qreals Lra.
From Verif Require Import Prop_Build SpacetimeModel ShapeModel EmbedModel Prop_Embed SprinkledModel PlotModel SpecPlot PlotFacts Prop_Plot.
#[local] Open Scope nat_scope.
#[local] Open Scope string_scope.

(** ** C71: Position *)
(** Two stores that agree except for the drawing position of [x]. *)
Definition same_but_position (h h' : heap) (x : nat) : Prop :=
  (∀ y, y ≠ x → h' !!! y = h !!! y) ∧
  lab h' x = lab h x ∧ prec h' x = prec h x ∧ succ h' x = succ h x ∧
  lprec h' x = lprec h x ∧ lsucc h' x = lsucc h x ∧ Base.coords h' x = Base.coords h x.
Theorem C71_Position (h : heap) (x : nat) (v : list Q) :
  (length v = 2 →
     ∃ h', set_Position h x v = (h', Ok tt) ∧ get_Position h' x = v ∧ same_but_position h h' x ∧
       (∀ y, y ≠ x → get_Position h' y = get_Position h y)) ∧
  (length v ≠ 2 → set_Position h x v = (h, Err ValueError)).
Proof.
  split.
  - intros Hv. unfold set_Position. destruct (decide (length v = 2)); [|done].
    eexists. split; [reflexivity|]. unfold get_Position, Base.pos. rewrite upd_same. split; [done|].
    split; [|intros y Hy; by rewrite upd_other].
    unfold same_but_position, lab, prec, succ, lprec, lsucc, Base.coords. rewrite upd_same. split; [|done].
    intros y Hy. by rewrite upd_other.
  - intros Hv. unfold set_Position. by destruct (decide (length v = 2)).
Qed.
Print Assumptions C71_Position.
(** The constructor stores any position without a check. *)
Theorem C71_new (it : oracle) (h : heap) (l : label) (P F : gset nat) (cs ps : list Q) :
  iter_ok it → order_inv h → P ⊆ dom h → F ⊆ dom h →
  let '(h', x) := new_event it l P F cs ps h in
  get_Position h' x = ps ∧ ∀ y, y ≠ x → get_Position h' y = get_Position h y.
Proof.
  intros Hit HO HP HF. destruct (new_event it l P F cs ps h) as [h' x] eqn:E.
  assert (Ex : x = new_id h) by (unfold new_event in E; by injection E as _ <-). subst x.
  assert (Eh : h' = fst (new_event it l P F cs ps h)) by (by rewrite E). subst h'.
  split.
  - unfold get_Position, Base.pos. rewrite (new_event_lookup it Hit h HO P F HP HF). by destruct (decide _).
  - intros y Hy. by apply (new_event_rest it Hit h HO P F HP HF l cs ps y Hy).
Qed.
Print Assumptions C71_new.
(** An event that was made without a position has none (not the origin, as the fallback of
    the property suggests): its diagram cannot be drawn. *)
Theorem C71_unset_refuted (g : scheme) (dc : dict pyval) (it : oracle) (slice : list R → R → res bool)
    (x : nat) (time : time_arg) (kw : kwargs) (pl : plotting) (h : heap) (ax : list artist) :
  get_Position h x = [] → plot_parameters g dc kw = Ok pl →
  kw_timedepth kw = None → pl_pastcones pl = None → pl_futurecones pl = None → pl_events pl ≠ None →
  get_Position h x ≠ [0; 0]%Q ∧ snd (plot g dc it slice (PEvent x) None time kw (h, ax)) = Err IndexError.
Proof.
  intros Hx Hpl Hdyn Hpc Hfc Hev. rewrite Hx. split; [done|].
  destruct (plot_parameters_inv g dc kw pl Hpl) as (Hd & D1 & _ & _ & _ & _ & _ & _ & _ & _ & Hd1 & _).
  rewrite Hdyn in Hd1. cbn in Hd1.
  destruct (pl_events pl) as [p|] eqn:Ep; [clear Hev|done].
  unfold plot, Plotter, bind at 1 2, lift. rewrite Hpl. unfold bind at 1.
  assert (Hlc : ∃ h' n, link_count it pl (plot_events it (PEvent x)) (h, ax) = ((h', ax), Ok n) ∧ get_Position h' x = []).
  { unfold link_count, plot_events. destruct (pl_links pl); [|by eexists _, _].
    eexists _, _. split; [reflexivity|].
    assert (Hg : ∀ (l : list nat) h, get_Position h x = [] → get_Position (foldl (λ h e, fst (get_LinkPast h e)) h l) x = []).
    { induction l as [|e l IH]; [done|]. intros h1 H1. cbn [foldl]. apply IH. unfold get_LinkPast.
      destruct (lprec h1 e); [done|]. unfold link, get_Position, Base.pos in *. cbn [fst].
      destruct (decide (x = e)) as [->|Hn]; [by rewrite !upd_same|by rewrite !upd_other]. }
    by apply Hg. }
  destruct Hlc as (h' & n & -> & Hx'). unfold cone_alpha, dynamic_setup. rewrite Hpc, Hfc, Hd1.
  unfold bind, ret, timeslice. cbn [pr_pl pr_pc pr_fc pr_dyn pr_links pr_events pr_embedded].
  unfold bind, ret, plot_events, is_embedded. rewrite Ep.
  assert (Hl : ∀ p n, static_links pl false [x] p [x] (n, 0) (h', ax) = ((h', ax), Ok (n, 0))) by done.
  assert (Hse : ∀ p, static_events pl false [x] p (h', ax) = ((h', ax), Err IndexError)).
  { intros p'. unfold static_events, for_each, bind, get_attr, attr_of, lift. rewrite Hx'. cbn [fmap list_fmap].
    destruct (pl_dims pl) as [|d ds]; [destruct Hd as [Hd|Hd]; rewrite <- D1 in Hd; done|]. by destruct d. }
  change (bool_decide (is_Some None)) with false.
  destruct (truthy (pl_links pl)) as [q|]; [rewrite (Hl q _)|]; unfold bind; by rewrite Hse.
Qed.
Print Assumptions C71_unset_refuted.

(** ** C58: plotDiagram *)
(** The centre of the cell (p, q), 1 <= p, q <= n, of a grid of n x n cells in the light-cone
    coordinates u, v of a diamond of radius 1: t = u + v - 1, x = u - v. *)
Definition diagram_place (n : nat) (p q : Z) : list R :=
  let u := ((IZR p - / 2) / INR n)%R in let v := ((IZR q - / 2) / INR n)%R in
  [u + v - 1; u - v]%R.
Lemma perm_coord_place n i p : 0 < n →
  Q2R <$> perm_coord 1 n i p = diagram_place n p (Z.of_nat i + 1).
Proof.
  intros Hn. unfold perm_coord, diagram_place. cbn [fmap list_fmap].
  assert (Hn' : (INR n ≠ 0)%R) by (apply not_0_INR; lia).
  assert (Hi : Q2R (inject_Z (Z.of_nat n)) = INR n).
  { unfold Q2R, inject_Z. cbn. rewrite <- INR_IZR_INZ. lra. }
  assert (Hc : Q2R (1 / inject_Z (Z.of_nat n)) = (/ INR n)%R).
  { rewrite Qreals.Q2R_div, Hi; [rewrite RMicromega.Q2R_1; field; done|].
    intros H. apply Qreals.Qeq_eqR in H. rewrite Hi, RMicromega.Q2R_0 in H. done. }
  assert (Hh : Q2R (1 # 2) = (/ 2)%R) by (unfold Q2R; cbn; lra).
  assert (Hz : ∀ z, Q2R (inject_Z z) = IZR z) by (intros z; unfold Q2R, inject_Z; cbn; lra).
  assert (Hone : Q2R 1 = 1%R) by apply RMicromega.Q2R_1.
  rewrite Qreals.Q2R_minus, Qreals.Q2R_plus, Qreals.Q2R_minus, !Qreals.Q2R_mult, Qreals.Q2R_minus, Qreals.Q2R_plus, !Hz, Hc, Hh, Hone.
  rewrite plus_IZR. f_equal; [|f_equal]; field; done.
Qed.
Lemma set_positions_run : ∀ (E : list nat) (rows : list (list Q)) h, NoDup E → length rows = length E →
  (∀ r, r ∈ rows → length r = 2) →
  ∃ h', set_positions E rows h = (h', Ok tt) ∧
    (∀ u e r, E !! u = Some e → rows !! u = Some r → Base.pos h' e = r) ∧
    (∀ y, y ∉ E → h' !!! y = h !!! y) ∧
    (∀ y, lab h' y = lab h y ∧ prec h' y = prec h y ∧ succ h' y = succ h y ∧
          lprec h' y = lprec h y ∧ lsucc h' y = lsucc h y ∧ Base.coords h' y = Base.coords h y) ∧
    ((∀ e, e ∈ E → e ∈ dom h) → dom h' = dom h).
Proof.
  induction E as [|e E IH]; intros [|r rows] h Hnd Hl Hr; try done; cbn [set_positions].
  { exists h. by split_and!. }
  apply NoDup_cons in Hnd as [He Hnd]. injection Hl as Hl.
  unfold set_Position. destruct (decide (length r = 2)) as [_|Hn]; [|by destruct Hn; apply Hr, elem_of_list_here].
  destruct (IH rows (upd (set_pos r) e h) Hnd Hl) as (h' & Hrun & H1 & H2 & H3 & H4).
  { intros r' Hr'. by apply Hr, elem_of_list_further. }
  exists h'. split; [done|]. split_and!.
  - intros [|u] x r' Hu Hr'; cbn in Hu, Hr'.
    + injection Hu as <-. injection Hr' as <-. unfold Base.pos. rewrite H2 by done. by rewrite upd_same.
    + by eapply H1.
  - intros y Hy. rewrite not_elem_of_cons in Hy. destruct Hy as [Hye Hy]. rewrite H2 by done. by rewrite upd_other.
  - intros y. destruct (H3 y) as (-> & -> & -> & -> & -> & ->).
    unfold lab, prec, succ, lprec, lsucc, Base.coords.
    destruct (decide (y = e)) as [->|Hn]; [by rewrite upd_same|by rewrite upd_other].
  - intros Hd. rewrite H4.
    + apply upd_dom. apply Hd, elem_of_list_here.
    + intros x Hx. rewrite upd_dom by (apply Hd, elem_of_list_here). by apply Hd, elem_of_list_further.
Qed.
Lemma perm_place P n u : P ≡ₚ upto n → u < n → ∃ i, P !! i = Some (Z.of_nat u + 1)%Z.
Proof.
  intros HP Hu. apply elem_of_list_lookup. rewrite HP. apply elem_of_upto. by exists u.
Qed.
(** The call is the plot of the events after their positions are set; the event that is number
    p in the list (from 1) is put at (p, q) where q is the place of p in the permutation;
    nothing else is changed.  Without a permutation of the same length the positions are kept. *)
Theorem C58_positions (g : scheme) (dc : dict pyval) (it : oracle) (slice : list R → R → res bool)
    (junk : nat → list Q) (E : list nat) (P : list Z) (time : time_arg) (kw : kwargs) (h : heap) (ax : list artist) :
  NoDup E → (∀ e, e ∈ E → e ∈ dom h) →
  (P ≡ₚ upto (length E) →
   ∃ h1,
    plotDiagram g dc it slice junk E P time kw (h, ax) = plot g dc it slice (PList E) None time kw (h1, ax) ∧
    (∀ u q e, E !! u = Some e → P !! q = Some (Z.of_nat u + 1)%Z →
       plot_coords false h1 e = diagram_place (length E) (Z.of_nat u + 1) (Z.of_nat q + 1)) ∧
    (∀ y, y ∉ E → h1 !!! y = h !!! y) ∧
    (∀ y, lab h1 y = lab h y ∧ prec h1 y = prec h y ∧ succ h1 y = succ h y ∧
          lprec h1 y = lprec h y ∧ lsucc h1 y = lsucc h y ∧ Base.coords h1 y = Base.coords h y) ∧
    dom h1 = dom h) ∧
  (length P ≠ length E →
    plotDiagram g dc it slice junk E P time kw (h, ax) = plot g dc it slice (PList E) None time kw (h, ax)).
Proof.
  intros Hnd Hdom. split.
  2:{ intros Hl. unfold plotDiagram. destruct (decide (length P = length E)); done. }
  intros HP. assert (Hl : length P = length E) by (rewrite HP; apply upto_length).
  unfold plotDiagram. destruct (decide (length P = length E)) as [_|?]; [|done]. unfold Permutation_Coords. rewrite Hl.
  destruct (perm_rows_spec 1 (length E) P 0 (junk <$> seq 0 (length E))) as (rows & Er & Lr & Hrows & _).
  { by rewrite fmap_length, seq_length. } { rewrite HP. apply upto_nodup. }
  { intros p Hp. rewrite HP in Hp. apply elem_of_upto in Hp as (u & ? & ->). lia. }
  assert (Hrow : ∀ u, u < length E → ∃ i, P !! i = Some (Z.of_nat u + 1)%Z ∧
            rows !! u = Some (perm_coord 1 (length E) i (Z.of_nat u + 1))).
  { intros u Hu. destruct (perm_place P (length E) u HP Hu) as [i Hi]. exists i. split; [done|].
    specialize (Hrows i _ Hi). rewrite Nat.add_0_l in Hrows. by replace (Z.to_nat (Z.of_nat u + 1 - 1)) with u in Hrows by lia. }
  destruct (set_positions_run E rows h Hnd Lr) as (h1 & Es & H1 & H2 & H3 & H4).
  { intros r Hr. apply elem_of_list_lookup in Hr as [u Hu].
    destruct (Hrow u) as (i & _ & Hi); [rewrite <- Lr; by eapply lookup_lt_Some|].
    rewrite Hu in Hi. injection Hi as ->. done. }
  exists h1. split_and!; [| |done|done|by apply H4].
  - unfold bind at 1 2, lift. rewrite Er. rewrite Es. done.
  - intros u q e Hu Hq. assert (Hlu : u < length E) by (by eapply lookup_lt_Some).
    destruct (Hrow u Hlu) as (i & Hi & Hr).
    assert (i = q) as ->.
    { eapply NoDup_lookup; [|exact Hi|exact Hq]. rewrite HP. apply upto_nodup. }
    unfold plot_coords. rewrite (H1 u e _ Hu Hr). apply perm_coord_place. lia.
Qed.
Print Assumptions C58_positions.
Lemma diagram_place_inj n p q p' q' : 0 < n → diagram_place n p q = diagram_place n p' q' → p = p' ∧ q = q'.
Proof.
  intros Hn. unfold diagram_place. cbn zeta. intros [= H1 H2].
  assert (Hn' : (0 < / INR n)%R) by (apply Rinv_0_lt_compat, lt_0_INR; lia).
  assert (Ha : ((IZR p - / 2) / INR n = (IZR p' - / 2) / INR n)%R) by lra.
  assert (Hb : ((IZR q - / 2) / INR n = (IZR q' - / 2) / INR n)%R) by lra.
  unfold Rdiv in Ha, Hb. apply Rmult_eq_reg_r in Ha; [|lra]. apply Rmult_eq_reg_r in Hb; [|lra].
  split; apply eq_IZR; lra.
Qed.
(** The documentation says: the i-th event is put at (i, permutation[i]).  This is so exactly
    if the permutation is its own inverse. *)
Theorem C58_documented (n : nat) (g : scheme) (dc : dict pyval) (it : oracle) (slice : list R → R → res bool)
    (junk : nat → list Q) (E : list nat) (P : list Z) (time : time_arg) (kw : kwargs) (h : heap) (ax : list artist) :
  NoDup E → length E = n → (∀ e, e ∈ E → e ∈ dom h) → P ≡ₚ upto n →
  ∃ h1,
    plotDiagram g dc it slice junk E P time kw (h, ax) = plot g dc it slice (PList E) None time kw (h1, ax) ∧
    ((∀ i e p, E !! i = Some e → P !! i = Some p → plot_coords false h1 e = diagram_place n (Z.of_nat i + 1) p) ↔
     (∀ i j, P !! i = Some (Z.of_nat j + 1)%Z → P !! j = Some (Z.of_nat i + 1)%Z)).
Proof.
  intros Hnd <- Hdom HP.
  destruct (C58_positions g dc it slice junk E P time kw h ax Hnd Hdom) as [(h1 & Eq & Hc & _) _]; [done|].
  exists h1. split; [done|].
  assert (Hl : length P = length E) by (rewrite HP; apply upto_length).
  assert (HPnd : NoDup P) by (rewrite HP; apply upto_nodup).
  assert (Hin : ∀ i p, P !! i = Some p → ∃ j, j < length E ∧ p = (Z.of_nat j + 1)%Z).
  { intros i p Hp. apply elem_of_list_lookup_2 in Hp. rewrite HP in Hp. apply elem_of_upto in Hp as (j & Hj & ->). eauto. }
  split.
  - intros Hdoc i j Hij. destruct (Hin i _ Hij) as (j' & Hj' & Ej). assert (j' = j) as -> by lia. clear Ej.
    destruct (lookup_lt_is_Some_2 E j) as [e He]; [done|].
    destruct (lookup_lt_is_Some_2 P j) as [p Hp]; [lia|].
    specialize (Hdoc j e p He Hp). rewrite (Hc j i e He Hij) in Hdoc.
    apply diagram_place_inj in Hdoc as [_ Hq]; [|lia]. by subst p.
  - intros Hinv i e p He Hp. destruct (Hin i p Hp) as (j & Hj & ->).
    specialize (Hinv i j Hp). by rewrite (Hc i j e He Hinv).
Qed.
Print Assumptions C58_documented.
(** The cyclic permutation of three events contradicts the documentation. *)
Theorem C58_refuted (g : scheme) (dc : dict pyval) (it : oracle) (slice : list R → R → res bool)
    (junk : nat → list Q) (time : time_arg) (kw : kwargs) (h : heap) (ax : list artist) (a b c : nat) :
  NoDup [a; b; c] → (∀ e, e ∈ [a; b; c] → e ∈ dom h) →
  ∃ h1,
    plotDiagram g dc it slice junk [a; b; c] [2; 3; 1]%Z time kw (h, ax) = plot g dc it slice (PList [a; b; c]) None time kw (h1, ax) ∧
    plot_coords false h1 a = diagram_place 3 1 3 ∧ diagram_place 3 1 3 ≠ diagram_place 3 1 2.
Proof.
  intros Hnd Hdom.
  destruct (C58_positions g dc it slice junk [a; b; c] [2; 3; 1]%Z time kw h ax Hnd Hdom) as [(h1 & Eq & Hc & _) _].
  { change (upto (length [a; b; c])) with [1; 2; 3]%Z. apply (bool_decide_unpack _). by vm_compute. }
  exists h1. split; [done|]. split; [exact (Hc 0 2 a eq_refl eq_refl)|].
  intros H. apply diagram_place_inj in H as [_ H]; [done|lia].
Qed.
Print Assumptions C58_refuted.

(** ** C61: fading *)
Lemma heaviside_pos x : (0 <= x)%R → heaviside x 1 = 1%R.
Proof. intros H. unfold heaviside. destruct (decide (x < 0)%R); [lra|]. by destruct (decide (x = 0%R)). Qed.
Lemma heaviside_neg x : (x < 0)%R → heaviside x 1 = 0%R.
Proof. intros H. unfold heaviside. destruct (decide (x < 0)%R); [done|lra]. Qed.
Lemma np_sign_pos x : (0 < x)%R → np_sign x = 1%R.
Proof. intros H. unfold np_sign. destruct (decide (x < 0)%R); [lra|]. destruct (decide (0 < x)%R); [done|lra]. Qed.
Lemma np_sign_neg x : (x < 0)%R → np_sign x = (-1)%R.
Proof. intros H. unfold np_sign. destruct (decide (x < 0)%R); [done|]. lra. Qed.
(** The documented fading, for values to the future of the slice. *)
Definition fade_linear (depth alpha v : R) : R := (alpha * (1 - v / depth))%R.
Definition fade_exponential (depth alpha v : R) : R := (alpha * exp (- v / depth))%R.
Definition fade_intensity (dim : nat) (alpha v : R) : R := (alpha / (v + 1) ^ (dim - 1))%R.
Theorem C61_fading (dim : nat) (depth alpha : R) : (0 < depth)%R →
  ∃ lin ex int : R → R,
    dynamic_parameter "linear" dim depth alpha = Some lin ∧
    dynamic_parameter "exponential" dim depth alpha = Some ex ∧
    dynamic_parameter "intensity" dim depth alpha = Some int ∧
    (∀ v, (v < 0)%R → lin v = 0%R ∧ ex v = 0%R ∧ int v = 0%R) ∧
    (∀ v, (0 <= v)%R → lin v = fade_linear depth alpha v ∧ ex v = fade_exponential depth alpha v ∧
                       int v = fade_intensity dim alpha v) ∧
    lin 0%R = alpha ∧ ex 0%R = alpha ∧ int 0%R = alpha ∧
    lin depth = 0%R ∧ ex (depth * ln 2)%R = (alpha / 2)%R ∧
    ((0 <= alpha)%R → ∀ v, (lin v <= alpha)%R ∧ (0 <= ex v <= alpha)%R ∧ (0 <= int v <= alpha)%R) ∧
    ((0 < alpha)%R → ∀ v, ((0 < lin v)%R ↔ (0 <= v < depth)%R) ∧ ((0 < ex v)%R ↔ (0 <= v)%R) ∧
                          ((0 < int v)%R ↔ (0 <= v)%R)) ∧
    ((0 <= alpha)%R → ∀ v w, (0 <= v <= w)%R → (lin w <= lin v)%R ∧ (ex w <= ex v)%R ∧ (int w <= int v)%R).
Proof.
  intros Hd. unfold dynamic_parameter. destruct (decide (depth = 0%R)); [lra|]. rewrite (np_sign_pos _ Hd).
  cbn [decide]. destruct (decide ("linear" = "linear")); [|done].
  destruct (decide ("exponential" = "linear")); [done|]. destruct (decide ("exponential" = "exponential")); [|done].
  destruct (decide ("intensity" = "linear")); [done|]. destruct (decide ("intensity" = "exponential")); [done|].
  destruct (decide ("intensity" = "intensity")); [|done].
  eexists _, _, _. split; [reflexivity|]. split; [reflexivity|]. split; [reflexivity|]. cbv beta.
  set (k := (- 1 / depth)%R).
  assert (Hk : ∀ v, (k * v = - v / depth)%R) by (intros v; unfold k; field; lra).
  assert (Hneg : ∀ v, (v < 0)%R → heaviside (1 * v) 1 = 0%R) by (intros v Hv; apply heaviside_neg; lra).
  assert (Hpos : ∀ v, (0 <= v)%R → heaviside (1 * v) 1 = 1%R) by (intros v Hv; apply heaviside_pos; lra).
  assert (Hvals : ∀ v, (0 <= v)%R → 
     (heaviside (1 * v) 1 * alpha * (k * v + 1))%R = fade_linear depth alpha v ∧
     (heaviside (1 * v) 1 * alpha * exp (k * v))%R = fade_exponential depth alpha v ∧
     (heaviside (1 * v) 1 * alpha / (Rmax v 0 + 1) ^ (dim - 1))%R = fade_intensity dim alpha v).
  { intros v Hv. rewrite (Hpos v Hv), Hk. unfold fade_linear, fade_exponential, fade_intensity.
    split; [field; lra|]. split; [f_equal; lra|]. rewrite Rmax_left by lra. unfold Rdiv. lra. }
  assert (Hpow : ∀ v, (0 <= v)%R → (1 <= (v + 1) ^ (dim - 1))%R) by (intros v Hv; apply pow_R1_Rle; lra).
  assert (Hdiv : ∀ v, (0 <= v)%R → (0 <= v / depth)%R).
  { intros v Hv. apply Rmult_le_pos; [done|]. apply Rlt_le. by apply Rinv_0_lt_compat. }
  assert (Hexp : ∀ v, (0 <= v)%R → (exp (- v / depth) <= 1)%R).
  { intros v Hv. rewrite <- exp_0. specialize (Hdiv v Hv). replace (- v / depth)%R with (- (v / depth))%R by (field; lra).
    destruct (Rle_lt_or_eq_dec 0 (v / depth) Hdiv) as [Hlt|Heq]; [apply Rlt_le, exp_increasing; lra|rewrite <- Heq, Ropp_0; lra]. }
  split; [intros v Hv; rewrite (Hneg v Hv); unfold Rdiv; lra|].
  split; [exact Hvals|].
  assert (H00 : (0 <= 0)%R) by lra. destruct (Hvals 0%R H00) as (V1 & V2 & V3).
  split; [rewrite V1; unfold fade_linear; field; lra|].
  split; [rewrite V2; unfold fade_exponential; replace (- 0 / depth)%R with 0%R by (field; lra); rewrite exp_0; lra|].
  split; [rewrite V3; unfold fade_intensity; replace (0 + 1)%R with 1%R by lra; rewrite pow1; field|].
  destruct (Hvals depth ltac:(lra)) as (V4 & _ & _).
  split; [rewrite V4; unfold fade_linear; field; lra|].
  assert (Hln : (0 < ln 2)%R) by (rewrite <- ln_1; apply ln_increasing; lra).
  assert (Hdl : (0 <= depth * ln 2)%R) by (apply Rmult_le_pos; lra).
  destruct (Hvals (depth * ln 2)%R Hdl) as (_ & V5 & _).
  split.
  { rewrite V5. unfold fade_exponential. replace (- (depth * ln 2) / depth)%R with (- ln 2)%R by (field; lra).
    rewrite exp_Ropp, exp_ln; lra. }
  split; [|split].
  - intros Ha v. destruct (Rlt_le_dec v 0) as [Hv|Hv].
    { rewrite (Hneg v Hv). unfold Rdiv. lra. }
    destruct (Hvals v Hv) as (-> & -> & ->). specialize (Hdiv v Hv). specialize (Hexp v Hv). specialize (Hpow v Hv).
    unfold fade_linear, fade_exponential, fade_intensity. pose proof (exp_pos (- v / depth)).
    split; [|split; split].
    + assert (0 <= alpha * (v / depth))%R by (by apply Rmult_le_pos). lra.
    + apply Rmult_le_pos; lra.
    + rewrite <- (Rmult_1_r alpha) at 2. apply Rmult_le_compat_l; lra.
    + apply Rmult_le_pos; [done|]. apply Rlt_le, Rinv_0_lt_compat. lra.
    + rewrite <- (Rmult_1_r alpha) at 2. apply Rmult_le_compat_l; [lra|]. apply (Rle_trans _ (/ 1)); [apply Rinv_le_contravar; lra|lra].
  - intros Ha v. destruct (Rlt_le_dec v 0) as [Hv|Hv].
    { rewrite (Hneg v Hv). unfold Rdiv. split; [split; lra|split; split; lra]. }
    destruct (Hvals v Hv) as (-> & -> & ->). specialize (Hdiv v Hv). specialize (Hpow v Hv).
    unfold fade_linear, fade_exponential, fade_intensity. pose proof (exp_pos (- v / depth)).
    assert (0 < alpha * exp (- v / depth))%R by (apply Rmult_lt_0_compat; lra).
    assert (0 < alpha / (v + 1) ^ (dim - 1))%R by (apply Rdiv_lt_0_compat; lra).
    split; [|split; split; done].
    assert (Heq : (v = (v / depth) * depth)%R) by (field; lra). split.
    + intros Hl. split; [done|]. assert (0 < 1 - v / depth)%R.
      { apply (Rmult_lt_reg_l alpha); [done|]. lra. }
      assert (v / depth * depth < 1 * depth)%R by (apply Rmult_lt_compat_r; lra). lra.
    + intros [_ Hl]. apply Rmult_lt_0_compat; [done|].
      assert (v / depth < 1)%R; [|lra]. apply (Rmult_lt_reg_r depth); lra.
  - intros Ha v w [Hv Hvw]. destruct (Hvals v Hv) as (-> & -> & ->). destruct (Hvals w ltac:(lra)) as (-> & -> & ->).
    unfold fade_linear, fade_exponential, fade_intensity.
    assert (Hq : (v / depth <= w / depth)%R).
    { apply Rmult_le_compat_r; [|done]. apply Rlt_le. by apply Rinv_0_lt_compat. }
    split_and!.
    + apply Rmult_le_compat_l; lra.
    + apply Rmult_le_compat_l; [done|].
      replace (- w / depth)%R with (- (w / depth))%R by (field; lra). replace (- v / depth)%R with (- (v / depth))%R by (field; lra).
      destruct (Rle_lt_or_eq_dec _ _ Hq) as [Hlt|Heq]; [apply Rlt_le, exp_increasing; lra|rewrite Heq; lra].
    + apply Rmult_le_compat_l; [done|]. apply Rinv_le_contravar; [specialize (Hpow v Hv); lra|]. apply pow_incr. lra.
Qed.
Print Assumptions C61_fading.
(** The documentation calls timedepth the half-time of the exponential fading; the value at the
    time depth is alpha / e. *)
Theorem C61_half_time_refuted (dim : nat) (depth alpha : R) : (0 < depth)%R → (0 < alpha)%R →
  ∃ ex, dynamic_parameter "exponential" dim depth alpha = Some ex ∧
    ex depth = (alpha * exp (- 1))%R ∧ ex depth ≠ (alpha / 2)%R.
Proof.
  intros Hd Ha. destruct (C61_fading dim depth alpha Hd) as (lin & ex & int & _ & E & _ & _ & Hv & _).
  exists ex. split; [done|]. destruct (Hv depth ltac:(lra)) as (_ & -> & _). unfold fade_exponential.
  replace (- depth / depth)%R with (-1)%R by (field; lra). split; [done|]. intros H.
  assert (He : (exp (-1) = / 2)%R).
  { apply (Rmult_eq_reg_l alpha); [|lra]. rewrite H. field. }
  replace (-1)%R with (- (1))%R in He by lra. rewrite exp_Ropp in He. apply (f_equal Rinv) in He. rewrite !Rinv_inv in He.
  assert (H2 : (2 < exp 1)%R); [|lra].
  pose proof (exp_ineq1 (1/2) ltac:(lra)) as Hh. replace 1%R with (1 / 2 + 1 / 2)%R by lra. rewrite exp_plus.
  assert (3 / 2 * (3 / 2) < exp (1 / 2) * exp (1 / 2))%R by (apply Rmult_gt_0_lt_compat; lra). lra.
Qed.
Print Assumptions C61_half_time_refuted.
(** A negative depth mirrors the linear and the exponential fading; the fading 'intensity' has
    the same value for all times in the past of the slice. *)
Theorem C61_negative_depth (dim : nat) (depth alpha : R) : (0 < depth)%R →
  (∀ name, name = "linear" ∨ name = "exponential" →
     ∃ f g, dynamic_parameter name dim depth alpha = Some f ∧ dynamic_parameter name dim (- depth) alpha = Some g ∧
       ∀ v, g v = f (- v)%R) ∧
  ∃ g, dynamic_parameter "intensity" dim (- depth) alpha = Some g ∧
    (∀ v, (v <= 0)%R → g v = alpha) ∧ (∀ v, (0 < v)%R → g v = 0%R).
Proof.
  intros Hd. unfold dynamic_parameter. destruct (decide (depth = 0%R)); [lra|]. destruct (decide ((- depth)%R = 0%R)); [lra|].
  rewrite (np_sign_pos _ Hd), (np_sign_neg (- depth)%R) by lra. split.
  - intros name [-> | ->].
    + destruct (decide ("linear" = "linear")); [|done]. eexists _, _. split; [reflexivity|]. split; [reflexivity|].
      intros v. cbv beta. replace (1 * - v)%R with (-1 * v)%R by lra. f_equal. field. lra.
    + destruct (decide ("exponential" = "linear")); [done|]. destruct (decide ("exponential" = "exponential")); [|done].
      eexists _, _. split; [reflexivity|]. split; [reflexivity|].
      intros v. cbv beta. replace (1 * - v)%R with (-1 * v)%R by lra. f_equal. f_equal. field. lra.
  - destruct (decide ("intensity" = "linear")); [done|]. destruct (decide ("intensity" = "exponential")); [done|].
    destruct (decide ("intensity" = "intensity")); [|done]. eexists. split; [reflexivity|]. cbv beta. split.
    + intros v Hv. rewrite heaviside_pos by lra. rewrite Rmax_right by lra. replace (0 + 1)%R with 1%R by lra. rewrite pow1. field.
    + intros v Hv. rewrite heaviside_neg by lra. unfold Rdiv. lra.
Qed.
Print Assumptions C61_negative_depth.
(** With depth 0 (the default of conetimedepth) the value before the slice exceeds alpha. *)
Theorem C61_zero_depth_refuted (dim : nat) (alpha : R) : (0 < alpha)%R →
  ∃ f g, dynamic_parameter "linear" dim 0 alpha = Some f ∧ dynamic_parameter "exponential" dim 0 alpha = Some g ∧
    ∀ v, (v < 0)%R → (alpha < f v)%R ∧ (alpha < g v)%R.
Proof.
  intros Ha. unfold dynamic_parameter. destruct (decide (0 = 0)%R); [|done].
  destruct (decide ("linear" = "linear")); [|done]. destruct (decide ("exponential" = "linear")); [done|].
  destruct (decide ("exponential" = "exponential")); [|done].
  eexists _, _. split; [reflexivity|]. split; [reflexivity|]. intros v Hv. cbv beta.
  assert (np_sign 0 = 0%R) as ->. { unfold np_sign. destruct (decide (0 < 0)%R); [lra|]. done. }
  rewrite heaviside_pos by lra. assert (0 < - 10 ^ 10 * v)%R.
  { assert (0 < 10 ^ 10)%R by (apply pow_lt; lra). assert (0 < 10 ^ 10 * (- v))%R by (apply Rmult_lt_0_compat; lra). lra. }
  split.
  - rewrite Rmult_1_l. rewrite <- (Rmult_1_r alpha) at 1. apply Rmult_lt_compat_l; lra.
  - rewrite Rmult_1_l. rewrite <- (Rmult_1_r alpha) at 1. apply Rmult_lt_compat_l; [done|].
    rewrite <- exp_0. by apply exp_increasing.
Qed.
Print Assumptions C61_zero_depth_refuted.
(** Any other name gives no function; with the documented name '' no cone can be plotted. *)
Theorem C61_other_names (function : string) (dim : nat) (depth alpha : R) :
  dynamic_parameter function dim depth alpha = None ↔
  function ≠ "linear" ∧ function ≠ "exponential" ∧ function ≠ "intensity".
Proof.
  unfold dynamic_parameter. destruct (decide (function = "linear")); [naive_solver|].
  destruct (decide (function = "exponential")); [naive_solver|]. destruct (decide (function = "intensity")); naive_solver.
Qed.
Print Assumptions C61_other_names.
Theorem C61_no_fading_refuted (g : scheme) (dc : dict pyval) (it : oracle) (slice : list R → R → res bool)
    (E : plot_arg) (st : option spacetime) (time : time_arg) (kw : kwargs) (pl : plotting) (h : heap) (ax : list artist) :
  plot_parameters g dc kw = Ok pl → kw_conetimefade kw = Some "" →
  pl_pastcones pl ≠ None ∨ pl_futurecones pl ≠ None →
  snd (plot g dc it slice E st time kw (h, ax)) = Err UnboundLocalError.
Proof.
  intros Hpl Hc Hcones. 
  assert (Hf : pl_conetimefade pl = "").
  { clear -Hpl Hc. unfold plot_parameters in Hpl. destruct (decide _); [done|].
    repeat (match type of Hpl with context [res_bind ?a _] => destruct a as [?|?] end; cbn [res_bind] in Hpl; [|done]).
    injection Hpl as <-. cbn. by rewrite Hc. }
  unfold plot, Plotter, bind, lift. rewrite Hpl. unfold link_count, cone_alpha. rewrite Hf.
  destruct (decide ("" = "")); [|done].
  destruct (pl_links pl); destruct (pl_pastcones pl); try done; destruct (pl_futurecones pl); try done; naive_solver.
Qed.
Print Assumptions C61_no_fading_refuted.
(** The hypotheses are met: a diagram of three events with the cyclic permutation. *)
Example C58_nonvacuous :
  NoDup [0; 1; 2] ∧ (∀ e, e ∈ [0; 1; 2] → e ∈ dom diagram) ∧ [2; 3; 1]%Z ≡ₚ upto 3 ∧
  get_Position diagram 1 = [2; 2]%Q.
Proof.
  split; [apply (bool_decide_unpack _); by vm_compute|]. split.
  { intros e He. rewrite !elem_of_cons, elem_of_nil in He.
    destruct He as [->|[->|[->|[]]]]; apply (bool_decide_unpack _); by vm_compute. }
  split; [apply (bool_decide_unpack _); by vm_compute|by vm_compute].
Qed.
Example C71_nonvacuous :
  let h := fst (new_event it_elements (LInt 3) {[1]} ∅ [] [] diagram) in
  {[1]} ⊆ dom diagram ∧ get_Position h (new_id diagram) = [] ∧ order_inv diagram.
Proof.
  split; [apply (bool_decide_unpack _); by vm_compute|]. split; [by vm_compute|apply diagram_order].
Qed.
Example C61_nonvacuous : ∃ pl, 
  plot_parameters scheme_matplotlib default_colors0
    (Kwargs None None None (Some "") None None None (Some (Switch true)) None None None None None) = Ok pl ∧
  pl_pastcones pl ≠ None.
Proof. eexists. split; [reflexivity|]. done. Qed.
