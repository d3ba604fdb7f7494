(** Theorems about dynamic plots and cones: C70. *)
From Verif Require Import Base Spec EventModel EventFacts EventProps CausetModel ColorModel.
From Coq Require Import Reals Qreals Lra.
From Verif Require Import SpacetimeModel ShapeModel EmbedModel SprinkledModel PlotModel SpecPlot PlotFacts Prop_Plot Prop_PlotMore.
#[local] Open Scope nat_scope.
#[local] Open Scope string_scope.

(** ** What a dynamic plot should show *)
(** [t]: the time of an event, measured from the slice. *)
Definition visible (fade : string) (depth t : R) : Prop :=
  (0 <= t / depth)%R ∧ (fade = "linear" → t / depth < 1)%R.
Definition behind (depth t : R) : Prop := (depth * t < 0)%R.
Definition ahead (depth t : R) : Prop := (0 < depth * t)%R.
(** The point at which coordinates are drawn. *)
Definition drawn_at (dims : list nat) (c : list R) : list R := (λ d, nth d c 0%R) <$> dims.
(** The line of a link between [a] and [b]: it starts at a visible event; it ends at the other
    event if that is visible too, and otherwise where it crosses the slice. *)
Definition dynamic_line (pc : nat → list R) (dims : list nat) (tm : nat → R) (t0 : R) (vis beh : nat → Prop)
    (opacity width : R → R) (params : dict pyval) (a b : nat) (line : artist) : Prop :=
  ∃ out inn target marks, ((out = a ∧ inn = b) ∨ (out = b ∧ inn = a)) ∧ vis out ∧
    line = ALine [drawn_at dims (pc out); drawn_at dims target] params
             (Some (opacity (tm out))) (Some (width (tm out))) (Some marks) ∧
    (0 < opacity (tm out))%R ∧ (0 < width (tm out))%R ∧
    ((vis inn ∧ (Rabs (tm inn) <= Rabs (tm out))%R ∧ target = pc inn ∧ marks = []) ∨
     (beh inn ∧ ¬ vis inn ∧ on_segment (pc out) target (pc inn) ∧ nth 0 target 0%R = t0 ∧ marks = [1])).

(** The artists in a list of slots. *)
Definition present (l : list (option artist)) : list artist := omap (λ o, o) l.

(** ** The fading functions *)
Lemma fade_visible fade dim depth alpha :
  fade ∈ ["linear"; "exponential"; "intensity"] → (depth ≠ 0)%R → (0 < alpha)%R →
  ∃ f, dynamic_parameter fade dim depth alpha = Some f ∧ ∀ t, (0 < f t)%R ↔ visible fade depth t.
Proof.
  intros Hf Hd Ha.
  assert (Hpos : ∀ d t, (0 < d)%R → ((0 <= t / d)%R ↔ (0 <= t)%R) ∧ ((t / d < 1)%R ↔ (t < d)%R)).
  { intros d t Hd0. assert (Hi : (0 < / d)%R) by by apply Rinv_0_lt_compat.
    assert (Ht : (t = t / d * d)%R) by (field; lra). split; split; intros H.
    - rewrite Ht. apply Rmult_le_pos; lra.
    - apply Rmult_le_pos; lra.
    - apply (Rmult_lt_compat_r d) in H; lra.
    - apply (Rmult_lt_reg_r d); lra. }
  destruct (Rtotal_order depth 0) as [Hneg|[?|Hp]]; [|lra|].
  - destruct (C61_negative_depth dim (- depth) alpha ltac:(lra)) as (H1 & H2).
    destruct (C61_fading dim (- depth) alpha ltac:(lra)) as (lin & ex & int & E1 & E2 & E3 & _ & _ & _ & _ & _ & _ & _ & _ & Hv & _).
    specialize (Hv Ha). rewrite Ropp_involutive in *.
    assert (Hq : ∀ t, (t / depth = (- t) / (- depth))%R) by (intros t; field; lra).
    rewrite !elem_of_cons, elem_of_nil in Hf. destruct Hf as [->|[->|[->|[]]]].
    + destruct (H1 "linear") as (f & g & Ef & Eg & Hfg); [by left|]. rewrite E1 in Ef. injection Ef as <-.
      exists g. split; [done|]. intros t. rewrite Hfg. destruct (Hv (- t)%R) as (-> & _ & _).
      unfold visible. rewrite Hq. destruct (Hpos (- depth)%R (- t)%R ltac:(lra)) as [K1 K2]. rewrite K1, K2. tauto.
    + destruct (H1 "exponential") as (f & g & Ef & Eg & Hfg); [by right|]. rewrite E2 in Ef. injection Ef as <-.
      exists g. split; [done|]. intros t. rewrite Hfg. destruct (Hv (- t)%R) as (_ & -> & _).
      unfold visible. rewrite Hq. destruct (Hpos (- depth)%R (- t)%R ltac:(lra)) as [K1 K2]. rewrite K1. naive_solver.
    + destruct H2 as (g & Eg & G1 & G2). exists g. split; [done|]. intros t.
      unfold visible. rewrite Hq. destruct (Hpos (- depth)%R (- t)%R ltac:(lra)) as [K1 K2]. rewrite K1.
      destruct (Rle_lt_dec t 0) as [Ht|Ht]; [rewrite (G1 t Ht)|rewrite (G2 t Ht)]; split; intros; try lra; (split; [lra|done]).
  - destruct (C61_fading dim depth alpha Hp) as (lin & ex & int & E1 & E2 & E3 & _ & _ & _ & _ & _ & _ & _ & _ & Hv & _).
    specialize (Hv Ha).
    rewrite !elem_of_cons, elem_of_nil in Hf. destruct Hf as [->|[->|[->|[]]]].
    + exists lin. split; [done|]. intros t. destruct (Hv t) as (-> & _ & _). unfold visible.
      destruct (Hpos depth t Hp) as [K1 K2]. rewrite K1, K2. tauto.
    + exists ex. split; [done|]. intros t. destruct (Hv t) as (_ & -> & _). unfold visible.
      destruct (Hpos depth t Hp) as [K1 K2]. rewrite K1. naive_solver.
    + exists int. split; [done|]. intros t. destruct (Hv t) as (_ & _ & ->). unfold visible.
      destruct (Hpos depth t Hp) as [K1 K2]. rewrite K1. naive_solver.
Qed.
Lemma visible_0 fade depth : visible fade depth 0.
Proof. unfold visible, Rdiv. rewrite Rmult_0_l. split; [lra|intros; lra]. Qed.
Lemma visible_side fade depth t : (depth ≠ 0)%R → visible fade depth t → (0 <= depth * t)%R.
Proof.
  intros Hd [H _]. replace (depth * t)%R with ((t / depth) * (depth * depth))%R by (field; lra).
  apply Rmult_le_pos; [done|]. apply Rle_0_sqr.
Qed.

(** ** Running a dynamic plot *)
Section dyn.
Context (h0 : heap) (HO : order_inv h0) (HL : link_inv h0).
Context (pl : plotting) (emb : bool) (events : list nat) (N : nat).
Local Notation pc := (plot_coords emb h0).
Local Notation pt := (point emb (pl_dims pl) h0).
Context (HN : 0 < N).
Context (Hco : ∀ a, a ∈ events → (emb = true → is_Some (Base.coords h0 a)) ∧ length (pc a) = N).
Context (Hdm : ∀ d, d ∈ pl_dims pl → d < N).
Context (depth t0 : R) (dl de : R → R).
Definition tm (a : nat) : R := (nth 0 (pc a) 0 - t0)%R.
Definition shown (params : dict pyval) (p : nat * nat) : option artist :=
  match link_cut depth (tm p.1) (tm p.2) (de (tm p.1)) (de (tm p.2)) with
  | None => None
  | Some (i_out, tau, mark) =>
    let out := if i_out then p.1 else p.2 in
    let inn := if i_out then p.2 else p.1 in
    if decide (0 < dl (tm out))%R then
      Some (ALine [pt out; drawn_at (pl_dims pl) (between tau (pc out) (pc inn))] params
              (Some (de (tm out))) (Some (dl (tm out))) (Some (if mark then [1] else [])))
    else None
  end.
Lemma dyn_plottable a : a ∈ events → plottable emb (pl_dims pl) h0 a.
Proof using Hco Hdm HN. intros Ha. destruct (Hco a Ha) as [H1 H2]. split; [done|]. rewrite H2. done. Qed.
Lemma hoare_time a : a ∈ events → time_of (pc a) = Ok (nth 0 (pc a) 0%R).
Proof using Hco Hdm HN. intros Ha. destruct (Hco a Ha) as [_ H2]. destruct (pc a); [cbn in H2; lia|done]. Qed.
Lemma between_length tau c c' : length c = length c' → length (between tau c c') = length c.
Proof. intros H. unfold between. rewrite zip_with_length. lia. Qed.
Lemma dynamic_link_run params a b l slots (Q : res (list (option artist)) → list artist → Prop) :
  a ∈ events → b ∈ events → l < length slots →
  Q (Ok (match shown params (a, b) with None => slots | Some ar => <[l := Some ar]> slots end)) (option_list (shown params (a, b))) →
  hoare h0 (dynamic_link pl depth dl params (pc a) (pc b) (tm a) (tm b) (de (tm a)) (de (tm b)) l slots) Q.
Proof using Hco Hdm HN.
  intros Ha Hb Hl HQ. unfold dynamic_link. unfold shown in HQ. cbn [fst snd] in HQ.
  destruct (link_cut depth (tm a) (tm b) (de (tm a)) (de (tm b))) as [[[i_out tau] mark]|]; [|by apply hoare_ret].
  assert (E1 : (if i_out then pc a else pc b) = pc (if i_out then a else b)) by by destruct i_out.
  assert (E2 : (if i_out then pc b else pc a) = pc (if i_out then b else a)) by by destruct i_out.
  assert (E3 : (if i_out then tm a else tm b) = tm (if i_out then a else b)) by by destruct i_out.
  assert (E4 : (if i_out then de (tm a) else de (tm b)) = de (tm (if i_out then a else b))) by by destruct i_out.
  rewrite E1, E2, E3, E4.
  assert (Ho : (if i_out then a else b) ∈ events) by by destruct i_out.
  assert (Hi : (if i_out then b else a) ∈ events) by by destruct i_out.
  set (out := if i_out then a else b) in *. set (inn := if i_out then b else a) in *. clearbody out inn.
  destruct (decide (0 < dl (tm out))%R); [|by apply hoare_ret].
  eapply hoare_bind_lift; [apply project_plottable; by apply dyn_plottable|].
  eapply hoare_bind_lift; [apply project_ok|].
  { intros d Hd. rewrite between_length; [|by rewrite (proj2 (Hco out Ho)), (proj2 (Hco inn Hi))].
    rewrite (proj2 (Hco out Ho)). by apply Hdm. }
  apply hoare_bind, hoare_draw. apply hoare_lift. unfold store. destruct (decide (l < length slots)); [|lia]. done.
Qed.
Definition dfill (done : list (option artist)) (k : nat) : list (option artist) * nat :=
  ((done ++ replicate k None)%list, length done).
Lemma dfill_step (done : list (option artist)) k (o : option artist) :
  (match o with None => done ++ replicate (S k) None | Some ar => <[length done := Some ar]> (done ++ replicate (S k) None) end, S (length done))%list
  = dfill (done ++ [o]) k.
Proof.
  unfold dfill. rewrite app_length. cbn [length]. rewrite Nat.add_1_r. f_equal. rewrite <- app_assoc. cbn [app replicate].
  destruct o; [|done]. rewrite <- (Nat.add_0_r (length done)) at 1. by rewrite insert_app_r.
Qed.
Lemma dynamic_row_run params a bs done k : a ∈ events → (∀ b, b ∈ bs → b ∈ events) →
  let ps := lpairs h0 ((λ b : nat, (a, b)) <$> bs) in
  length ps ≤ k →
  hoare h0 (dynamic_row pl emb depth dl de t0 params a (pc a) (tm a) (de (tm a)) bs (dfill done k))
    (λ r arts, r = Ok (dfill (done ++ (shown params <$> ps)) (k - length ps)) ∧ arts = present (shown params <$> ps)).
Proof using HO HL Hco Hdm HN.
  intros Ha. revert done k. induction bs as [|b bs IH]; intros done k Hbs ps Hk.
  - unfold dynamic_row. cbn [for_each]. apply hoare_ret. cbn. rewrite app_nil_r, Nat.sub_0_r. done.
  - unfold dynamic_row. cbn [for_each]. apply hoare_bind. unfold dfill at 1. apply hoare_bind, hoare_is_linked; [done|done|].
    unfold ps, lpairs in *. rewrite fmap_cons, filter_cons in *. cbn [fst snd] in *. destruct (linkedb h0 a b) eqn:E.
    + destruct (decide (true = true)); [|done].
      destruct k as [|k]; [cbn in Hk; lia|].
      eapply hoare_attr; [apply dyn_plottable, Hbs; by left|].
      eapply hoare_bind_lift; [apply hoare_time, Hbs; by left|].
      change (nth 0 (pc b) 0 - t0)%R with (tm b). cbv zeta.
      apply hoare_bind. apply dynamic_link_run; [done|apply Hbs; by left|rewrite app_length, replicate_length; lia|].
      apply hoare_ret. rewrite dfill_step. fold (dynamic_row pl emb depth dl de t0 params a (pc a) (tm a) (de (tm a)) bs (dfill (done ++ [shown params (a, b)]) k)).
      eapply hoare_cons; [apply (IH (done ++ [shown params (a, b)])%list k); [intros; apply Hbs; by right|cbn [length] in Hk; lia]|].
      cbv beta. intros r arts [-> ->]. rewrite fmap_cons. cbn [length]. rewrite <- app_assoc. split; [done|].
      rewrite app_nil_r. unfold present. cbn [omap list_omap]. by destruct (shown params (a, b)).
    + destruct (decide (false = true)); [done|]. apply hoare_ret. cbn [app].
      fold (dynamic_row pl emb depth dl de t0 params a (pc a) (tm a) (de (tm a)) bs (dfill done k)).
      apply IH; [intros; apply Hbs; by right|done].
Qed.
Definition event_shown (a : nat) : option artist :=
  match truthy (pl_events pl) with
  | Some p => if decide (de (tm a) <= 0)%R then None else Some (ALine [pt a] p (Some (de (tm a))) None None)
  | None => None
  end.
Definition label_shown (a : nat) : option artist :=
  match truthy (pl_labels pl) with
  | Some p => if decide (de (tm a) <= 0)%R then None else Some (AText (pt a) (lab h0 a) p)
  | None => None
  end.
Lemma event_run a (Q : res (option artist) → list artist → Prop) : a ∈ events →
  Q (Ok (event_shown a)) (option_list (event_shown a)) →
  hoare h0 (match truthy (pl_events pl) with Some p => dynamic_event pl p (pc a) (de (tm a)) | None => ret None end) Q.
Proof using Hco Hdm HN.
  intros Ha. unfold event_shown, dynamic_event. destruct (truthy (pl_events pl)); [|by apply hoare_ret].
  destruct (decide _); [by apply hoare_ret|]. intros HQ. eapply hoare_bind_lift; [by apply project_plottable, dyn_plottable|].
  apply hoare_bind, hoare_draw, hoare_ret. done.
Qed.
Lemma label_run a (Q : res (option artist) → list artist → Prop) : a ∈ events →
  Q (Ok (label_shown a)) (option_list (label_shown a)) →
  hoare h0 (match truthy (pl_labels pl) with Some p => dynamic_label pl p a (pc a) (de (tm a)) | None => ret None end) Q.
Proof using Hco Hdm HN.
  intros Ha. unfold label_shown, dynamic_label. destruct (truthy (pl_labels pl)); [|by apply hoare_ret].
  destruct (decide _); [by apply hoare_ret|]. intros HQ. eapply hoare_bind_lift; [by apply project_plottable, dyn_plottable|].
  apply hoare_bind, hoare_lab, hoare_bind, hoare_draw, hoare_ret. done.
Qed.
Lemma dynamic_loop_run params rest : ∀ done k evs lbls, truthy (pl_links pl) = Some params →
  (∀ b, b ∈ rest → b ∈ events) →
  let ps := lpairs h0 (pairs_of rest) in
  length ps ≤ k →
  hoare h0 (dynamic_loop pl emb depth dl de t0 rest (dfill done k) evs lbls)
    (λ r arts, r = Ok (dfill (done ++ (shown params <$> ps)) (k - length ps), (evs ++ (event_shown <$> rest))%list, (lbls ++ (label_shown <$> rest))%list) ∧
       arts ≡ₚ (present (shown params <$> ps) ++ present (event_shown <$> rest) ++ present (label_shown <$> rest))%list).
Proof using HO HL Hco Hdm HN.
  induction rest as [|a rest IH]; intros done k evs lbls Ht Hr ps Hk; cbn [dynamic_loop].
  { apply hoare_ret. unfold ps. cbn. rewrite !app_nil_r, Nat.sub_0_r. done. }
  assert (Ha : a ∈ events) by (apply Hr; by left).
  eapply hoare_attr; [by apply dyn_plottable|]. eapply hoare_bind_lift; [by apply hoare_time|].
  change (nth 0 (pc a) 0 - t0)%R with (tm a). cbv zeta. rewrite Ht.
  unfold ps in *. cbn [pairs_of] in *. unfold lpairs in *. rewrite filter_app, app_length in *.
  fold (lpairs h0 ((λ b, (a, b)) <$> rest)) (lpairs h0 (pairs_of rest)) in *.
  apply hoare_bind. eapply hoare_cons; [apply dynamic_row_run; [done|intros; apply Hr; by right|lia]|].
  cbv beta. intros r arts [-> ->]. apply hoare_bind, event_run; [done|]. apply hoare_bind, label_run; [done|].
  eapply hoare_cons; [apply IH; [done|intros; apply Hr; by right|lia]|].
  cbv beta. intros r arts2 [-> Hp]. unfold present at 2. rewrite <- !app_assoc, fmap_app, omap_app, Nat.sub_add_distr. fold (present (shown params <$> lpairs h0 ((λ b, (a, b)) <$> rest))) (present (shown params <$> lpairs h0 (pairs_of rest))). split; [by rewrite !fmap_cons|].
  rewrite <- app_assoc. apply Permutation_app_head. rewrite Hp, !fmap_cons.
  assert (Hom : ∀ (o : option artist) l, present (o :: l) = (option_list o ++ present l)%list) by by intros [].
  rewrite !Hom. rewrite <- !app_assoc. solve_Permutation.
Qed.
End dyn.
Lemma np_sign_eq x y : np_sign x = np_sign y ↔ ((x < 0 ∧ y < 0) ∨ (0 < x ∧ 0 < y) ∨ (x = 0 ∧ y = 0))%R.
Proof.
  unfold np_sign. destruct (decide (x < 0)%R), (decide (y < 0)%R), (decide (0 < x)%R), (decide (0 < y)%R); split; intros; lra.
Qed.
Lemma side_pos depth t : (0 < depth)%R → ((0 < depth * t)%R ↔ (0 < t)%R) ∧ ((depth * t < 0)%R ↔ (t < 0)%R).
Proof. intros Hd. split; split; intros H; nra. Qed.
Lemma side_neg depth t : (depth < 0)%R → ((0 < depth * t)%R ↔ (t < 0)%R) ∧ ((depth * t < 0)%R ↔ (0 < t)%R).
Proof. intros Hd. split; split; intros H; nra. Qed.
(** One formulation for both signs of the depth: which sides the events are on. *)
Lemma sides depth x y : (depth ≠ 0)%R →
  (np_sign x ≠ np_sign y ↔
     (0 < depth * x ∧ depth * y <= 0) ∨ (depth * x < 0 ∧ 0 <= depth * y) ∨ (depth * x = 0 ∧ depth * y ≠ 0))%R.
Proof.
  intros Hd. rewrite np_sign_eq.
  assert (Hz : ∀ t, (depth * t = 0)%R ↔ (t = 0)%R).
  { intros t. split; [|intros ->; lra]. intros H. apply Rmult_integral in H as [?|?]; lra. }
  pose proof (Hz x) as Zx. pose proof (Hz y) as Zy.
  destruct (Rtotal_order depth 0) as [Hn|[?|Hp]]; [|lra|].
  - destruct (side_neg depth x Hn) as [X1 X2]. destruct (side_neg depth y Hn) as [Y1 Y2].
    destruct (Rtotal_order x 0) as [?|[?|?]], (Rtotal_order y 0) as [?|[?|?]];
      repeat match goal with H : (_ ↔ _) |- _ => destruct H end;
      split; intros; try (exfalso; intuition lra); try intuition lra.
  - destruct (side_pos depth x Hp) as [X1 X2]. destruct (side_pos depth y Hp) as [Y1 Y2].
    destruct (Rtotal_order x 0) as [?|[?|?]], (Rtotal_order y 0) as [?|[?|?]];
      repeat match goal with H : (_ ↔ _) |- _ => destruct H end;
      split; intros; try (exfalso; intuition lra); try intuition lra.
Qed.
Lemma between_1 (c c' : list R) : length c = length c' → between 1 c c' = c'.
Proof.
  revert c'. induction c as [|x c IH]; intros [|y c'] Hl; try done. unfold between. cbn. f_equal; [lra|].
  apply IH. by injection Hl.
Qed.
Lemma between_time tau (c c' : list R) : 0 < length c → length c = length c' →
  nth 0 (between tau c c') 0%R = ((1 - tau) * nth 0 c 0 + tau * nth 0 c' 0)%R.
Proof. destruct c, c'; cbn; try done; intros; lia. Qed.
Section shown.
Context (h0 : heap) (pl : plotting) (emb : bool) (N : nat) (HN : 0 < N).
Context (depth t0 : R) (dl de : R → R) (fade : string).
Local Notation pc := (plot_coords emb h0).
Local Notation T := (tm h0 emb t0).
Context (Hd0 : (depth ≠ 0)%R).
Context (Hde : ∀ t, (0 < de t)%R ↔ visible fade depth t).
Context (Hdl : ∀ t, (0 < dl t)%R ↔ visible fade depth t).
Lemma shown_spec params a b : length (pc a) = N → length (pc b) = N →
  match shown h0 pl emb depth t0 dl de params (a, b) with
  | Some line =>
      dynamic_line pc (pl_dims pl) T t0 (λ x, visible fade depth (T x)) (λ x, behind depth (T x)) de dl params a b line
  | None => ¬ (visible fade depth (T a) ∧ visible fade depth (T b)) ∧
            ¬ (visible fade depth (T a) ∧ ahead depth (T a) ∧ behind depth (T b)) ∧
            ¬ (visible fade depth (T b) ∧ behind depth (T a))
  end.
Proof using HN Hd0 Hde Hdl.
  intros La Lb. unfold shown. cbn [fst snd]. unfold link_cut.
  pose proof (visible_side fade depth (T a) Hd0) as Sa. pose proof (visible_side fade depth (T b) Hd0) as Sb.
  assert (Va : (0 < de (T a))%R ↔ visible fade depth (T a)) by apply Hde.
  assert (Vb : (0 < de (T b))%R ↔ visible fade depth (T b)) by apply Hde.
  assert (Wa : (0 < dl (T a))%R ↔ visible fade depth (T a)) by apply Hdl.
  assert (Wb : (0 < dl (T b))%R ↔ visible fade depth (T b)) by apply Hdl.
  assert (Z : ∀ x, (depth * T x = 0)%R → visible fade depth (T x)).
  { intros x H. apply Rmult_integral in H as [?|H]; [done|]. rewrite H. apply visible_0. }
  pose proof (Z a) as Za. pose proof (Z b) as Zb. clear Z.
  destruct (decide (0 < de (T a) ∧ 0 < de (T b))%R) as [[Ha Hb]|Hn].
  - apply Va in Ha as Ha'. apply Vb in Hb as Hb'. case_bool_decide as Hc.
    + destruct (decide (0 < dl (T a))%R) as [Hw|Hw]; [|by apply Wa in Ha'].
      exists a, b, (pc b), []. split; [by left|]. split; [done|]. rewrite between_1 by lia.
      split; [done|]. split; [done|]. split; [done|]. left. split; [done|]. split; [lra|done].
    + destruct (decide (0 < dl (T b))%R) as [Hw|Hw]; [|by apply Wb in Hb'].
      exists b, a, (pc a), []. split; [by right|]. split; [done|]. rewrite between_1 by lia.
      split; [done|]. split; [done|]. split; [done|]. left. split; [done|]. split; [lra|done].
  - assert (Hn' : ¬ (visible fade depth (T a) ∧ visible fade depth (T b))) by tauto.
    (* the point where the segment from [out] to [inn] crosses the slice *)
    assert (Hcut : ∀ out inn, (0 <= depth * T out)%R → (depth * T inn < 0)%R → length (pc out) = N → length (pc inn) = N →
      let tau := (T out / (T out - T inn))%R in
      (0 <= tau <= 1)%R ∧ nth 0 (between tau (pc out) (pc inn)) 0%R = t0).
    { intros out inn Ho Hi Lo Li tau. 
      assert (Hdd : (T out - T inn ≠ 0)%R) by (intros H; assert (T out = T inn) by lra; nra).
      assert (Ht : (tau * (T out - T inn) = T out)%R) by (unfold tau; field; done). split.
      - assert (Hx : (tau * (depth * T out - depth * T inn) = depth * T out)%R) by (rewrite <- Ht at 2; ring). 
        split.
        + destruct (Rle_lt_dec 0 tau); [done|]. nra.
        + destruct (Rle_lt_dec tau 1); [done|]. nra.
      - rewrite between_time by lia. unfold tm in Ht. lra. }
    destruct (decide (_ ∧ _)) as [[Hv Hs]|Hn2].
    + apply (sides depth) in Hs; [|done]. case_bool_decide as Hc.
      * destruct (decide (0 < dl (T a))%R) as [Hw|Hw].
        -- apply Wa in Hw as Ha. assert (Hb : (depth * T b < 0)%R).
           { destruct (Rtotal_order (depth * T b) 0) as [?|[?|?]]; [done|exfalso; tauto|exfalso; lra]. }
           replace (Rabs (T a / (T a - T b))) with (T a / (T a - T b))%R.
           2:{ symmetry. apply Rabs_pos_eq. by apply (Hcut a b); [lra| | |]. }
           destruct (Hcut a b) as [Ht Hnt]; [lra|done|done|done|].
           exists a, b, (between (T a / (T a - T b)) (pc a) (pc b)), [1]. split; [by left|]. split; [done|].
           split; [done|]. split; [by apply Va|]. split; [done|]. right. split; [done|]. split; [tauto|].
           split; [|done]. by exists (T a / (T a - T b))%R.
        -- split; [done|]. split; [|intros [Hb Hba]; unfold behind in Hba; lra].
           intros (Ha & _ & _). by apply Wa in Ha.
      * destruct (decide (0 < dl (T b))%R) as [Hw|Hw].
        -- apply Wb in Hw as Hb. assert (Ha : (depth * T a < 0)%R).
           { destruct (Rtotal_order (depth * T a) 0) as [?|[?|?]]; [done|exfalso; tauto|exfalso; lra]. }
           replace (Rabs (T b / (T a - T b))) with (T b / (T b - T a))%R.
           2:{ rewrite <- (Rabs_pos_eq (T b / (T b - T a))) by (by apply (Hcut b a); [apply Sb| | |]).
               replace (T b / (T a - T b))%R with (- (T b / (T b - T a)))%R; [by rewrite Rabs_Ropp|]. specialize (Sb Hb).
               field. split; intros H; assert (T a = T b) as E by lra; rewrite E in Ha; lra. }
           destruct (Hcut b a) as [Ht Hnt]; [by apply Sb|done|done|done|].
           exists b, a, (between (T b / (T b - T a)) (pc b) (pc a)), [1]. split; [by right|]. split; [done|].
           split; [done|]. split; [by apply Vb|]. split; [done|]. right. split; [done|]. split; [tauto|].
           split; [|done]. by exists (T b / (T b - T a))%R.
        -- split; [done|]. split; [intros (_ & Haa & _); unfold ahead in Haa; lra|].
           intros [Hb _]. by apply Wb in Hb.
    + split; [done|]. split; [intros (Ha & Haa & Hb)|intros (Hb & Ha)].
      * apply Hn2. split; [by left; apply Va|]. apply (sides depth); [done|]. left. unfold ahead, behind in *. lra.
      * apply Hn2. split; [by right; apply Vb|]. apply (sides depth); [done|]. right. left. unfold ahead, behind in *.
        split; [done|]. by apply Sb.
Qed.
End shown.
Lemma block_truthy g defaults arg on result : NoDup g.*1 → NoDup defaults.*1 → 0 < length defaults → arg_wf arg →
  param_block g defaults arg on [] = Ok result → truthy result = result.
Proof.
  intros Hg Hd Hl Hw E. destruct (param_block_spec g defaults arg on [] Hg Hd) as [(r & E' & _ & Hlen & _)|[E' _]];
    [constructor|done| |congruence].
  rewrite E in E'. injection E' as ->. destruct r as [[|p d]|]; [|done|done]. specialize (Hlen [] eq_refl). cbn in Hlen. lia.
Qed.
Lemma dynamic_run (g : scheme) (dc : dict pyval) (it : oracle) (slice : list R → R → res bool)
    (E : plot_arg) (st : option spacetime) (time : time_arg) (kw : kwargs) (pl : plotting) (h : heap) (ax : list artist)
    (depth : R) (fade : string) (params : dict pyval) (w : Q) (N : nat) :
  order_inv h → link_inv h →
  NoDup g.*1 → arg_wf (kw_links kw) → arg_wf (kw_events kw) → arg_wf (kw_labels kw) → plot_parameters g dc kw = Ok pl →
  kw_timedepth kw = Some depth → depth ≠ 0%R →
  default "linear" (kw_timefade kw) = fade → fade ∈ ["linear"; "exponential"; "intensity"] →
  pl_pastcones pl = None → pl_futurecones pl = None → pl_axislim pl ≠ Some AxShape →
  pl_links pl = Some params → dget params "linewidth" = Some (VNum w) → (0 < Q2R w)%R →
  let alpha := default 1%R (num_of (dget (default [] (pl_events pl)) "alpha")) in (0 < alpha)%R →
  let events := plot_events it E in
  let emb := is_embedded E st in
  let pc := plot_coords emb h in
  let t0 := fst (times time) in
  let tm a := (nth 0 (pc a) 0 - t0)%R in
  let vis a := visible fade depth (tm a) in
  NoDup events → 0 < N →
  (∀ a, a ∈ events → (emb = true → is_Some (Base.coords h a)) ∧ length (pc a) = N) →
  (∀ d, d ∈ pl_dims pl → d < N) →
  ∃ h' hs arts ps lines evs lbls opacity width,
    plot g dc it slice E st time kw (h, ax) = ((h', ax ++ arts)%list, Ok hs) ∧
    same_view h h' ∧
    dynamic_parameter fade (length (pl_dims pl)) depth alpha = Some opacity ∧
    dynamic_parameter fade (length (pl_dims pl)) depth (Q2R w) = Some width ∧
    links_of h events ps ∧
    ha_links hs = Some lines ∧ length lines = LinkCountOf h (list_to_set events) ∧
    Forall2 (λ '(a, b) slot,
      match slot with
      | Some line => dynamic_line pc (pl_dims pl) tm t0 vis (λ x, behind depth (tm x)) opacity width params a b line
      | None => ¬ (vis a ∧ vis b) ∧ ¬ (vis a ∧ ahead depth (tm a) ∧ behind depth (tm b)) ∧ ¬ (vis b ∧ behind depth (tm a))
      end) ps lines ∧
    (match pl_events pl with
     | Some p => ha_events hs = Some evs ∧
         Forall2 (λ a slot, (vis a ∧ slot = Some (ALine [drawn_at (pl_dims pl) (pc a)] p (Some (opacity (tm a))) None None)) ∨
                            (¬ vis a ∧ slot = None)) events evs
     | None => ha_events hs = None ∧ evs = [] end) ∧
    (match pl_labels pl with
     | Some p => ha_labels hs = Some lbls ∧
         Forall2 (λ a slot, (vis a ∧ slot = Some (AText (drawn_at (pl_dims pl) (pc a)) (lab h a) p)) ∨
                            (¬ vis a ∧ slot = None)) events lbls
     | None => ha_labels hs = None ∧ lbls = [] end) ∧
    arts ≡ₚ (present lines ++ present evs ++ present lbls)%list.
Proof.
  intros HO HL Hg Hw1 Hw2 Hw3 Hpl Htd Hd0 Hfd Hfade Hpc Hfc Hax Hlk Hlw Hw alpha Hal events emb pc t0 tm' vis Hnd HN Hco Hdm.
  destruct (plot_parameters_inv g dc kw pl Hpl) as (Hd & D1 & _ & _ & _ & _ & _ & PE & PL & _ & Hd1 & _).
  rewrite Htd in Hd1. cbn in Hd1. rewrite Hfd in Hd1.
  assert (TE : truthy (pl_events pl) = pl_events pl).
  { eapply block_truthy; [exact Hg| | |exact Hw2|exact PE]; [apply (bool_decide_unpack _); by vm_compute|vm_compute; lia]. }
  assert (TL : truthy (pl_labels pl) = pl_labels pl).
  { eapply block_truthy; [exact Hg| | |exact Hw3|exact PL]; [apply (bool_decide_unpack _); by vm_compute|vm_compute; lia]. }
  destruct (params_nonempty g dc kw pl Hpl Hg Hw1) as [[? _]|(p & Hp & Ht & _)]; [congruence|].
  assert (p = params) as -> by congruence. rewrite Hlk in Ht.
  assert (Hdim : dim pl = length (pl_dims pl)).
  { unfold dim, is3d. rewrite D1. case_bool_decide; destruct Hd; lia. }
  destruct (fade_visible fade (length (pl_dims pl)) depth alpha Hfade Hd0 Hal) as (opacity & Eo & Ho).
  destruct (fade_visible fade (length (pl_dims pl)) depth (Q2R w) Hfade Hd0 Hw) as (width & Ew & Hwd).
  assert (Hlim : ∃ lim, set_limits pl = Ok lim).
  { unfold set_limits. destruct (pl_axislim pl) as [[|d]|]; [done| |eauto]. destruct (dget d "xlim"), (dget d "ylim"); eauto. }
  destruct Hlim as [lim Hlim].
  set (ps := lpairs h (pairs_of events)).
  set (lines := shown h pl emb depth t0 width opacity params <$> ps).
  set (evs := event_shown h pl emb t0 opacity <$> events).
  set (lbls := label_shown h pl emb t0 opacity <$> events).
  assert (Hlen : length ps = LinkCountOf h (list_to_set events)) by (unfold ps; by rewrite lpairs_length, (lcount_nodup h HO HL)).
  assert (Hrun : hoare h (plot g dc it slice E st time kw)
    (λ r arts, r = Ok (Handles None None (Some lines) ((λ _, evs) <$> pl_events pl) ((λ _, lbls) <$> pl_labels pl) lim) ∧
       arts ≡ₚ (present lines ++ present evs ++ present lbls)%list)).
  { unfold plot, Plotter. fold events. fold emb. fold t0. apply hoare_bind. eapply hoare_bind_lift; [exact Hpl|].
    apply hoare_bind, link_count_run; [done|done|]. unfold cone_alpha, dynamic_setup. rewrite Hpc, Hfc, Hd1, Hlk.
    eapply hoare_bind_lift; [done|]. eapply hoare_bind_lift; [done|]. cbn [default]. unfold Datatypes.id at 1. rewrite Hlw, Hdim.
    eapply hoare_bind_lift; [reflexivity|].
    apply hoare_ret. cbn [app]. unfold timeslice. cbn [pr_pl pr_pc pr_fc pr_dyn pr_links pr_events pr_embedded].
    apply hoare_bind, hoare_ret. cbn [num_of default]. unfold Datatypes.id at 1. fold alpha. rewrite Eo, Ew. rewrite <- Hlen.
    apply hoare_bind.
    assert (Hend : hoare h (ret (replicate (length ps) None ++ [], [], []))%list
       (λ r arts, r = Ok (lines, evs, lbls) ∧ arts ≡ₚ (present lines ++ present evs ++ present lbls)%list) ∨ events ≠ []).
    { destruct events; [|by right]. left. by apply hoare_ret. }
    assert (Hmid : hoare h
       (match events with
        | [] => ret (replicate (length ps) None, [], [])
        | _ => bind (dynamic_loop pl emb depth width opacity t0 events (replicate (length ps) None, 0) [] [])
                 (λ '(lk, evs, lbls), ret (fst lk, evs, lbls))
        end) (λ r arts, r = Ok (lines, evs, lbls) ∧ arts ≡ₚ (present lines ++ present evs ++ present lbls)%list)).
    { clear Hend. assert (Hloop : hoare h (bind (dynamic_loop pl emb depth width opacity t0 events (replicate (length ps) None, 0) [] [])
                 (λ '(lk, evs, lbls), ret (fst lk, evs, lbls)))
          (λ r arts, r = Ok (lines, evs, lbls) ∧ arts ≡ₚ (present lines ++ present evs ++ present lbls)%list)).
      { apply hoare_bind. eapply hoare_cons.
        - apply (dynamic_loop_run h HO HL pl emb events N HN Hco Hdm depth t0 width opacity params events [] (length ps) [] []);
            [by rewrite Hlk|done|done].
        - cbv beta. intros r arts [-> Hp']. apply hoare_ret. rewrite app_nil_r. fold ps in Hp' |- *. fold lines evs lbls in Hp' |- *.
          split; [|done]. unfold dfill. cbn [fst app]. fold ps. rewrite Nat.sub_diag. cbn [replicate]. by rewrite app_nil_r. }
      destruct events; [by apply hoare_ret|exact Hloop]. }
    eapply hoare_cons; [exact Hmid|]. cbv beta. intros r arts [-> Hp']. 
    eapply hoare_bind_lift; [exact Hlim|]. apply hoare_ret. rewrite app_nil_r. split; [|done].
    rewrite Hlk. by destruct (pl_events pl), (pl_labels pl). }
  destruct (Hrun h ax (same_view_refl h HO HL)) as (h' & arts & r & Hv & Er & -> & Hp').
  exists h', (Handles None None (Some lines) ((λ _, evs) <$> pl_events pl) ((λ _, lbls) <$> pl_labels pl) lim), arts, ps, lines,
    (match pl_events pl with Some _ => evs | None => [] end), (match pl_labels pl with Some _ => lbls | None => [] end), opacity, width.
  split; [done|]. split; [done|]. split; [done|]. split; [done|].
  split; [by apply lpairs_links_of|]. split; [done|]. split; [unfold lines; by rewrite fmap_length|].
  split.
  { assert (Hin : ∀ a b, (a, b) ∈ ps → a ∈ events ∧ b ∈ events).
    { intros a b Hab. apply elem_of_list_filter in Hab as [_ Hab]. by apply pairs_of_elem. }
    unfold lines. clearbody ps. clear -Hin HN Hd0 Ho Hwd Hco. induction ps as [|[a b] ps IH]; [constructor|]. rewrite fmap_cons. constructor.
    - destruct (Hin a b) as [Ha Hb]; [by left|].
      pose proof (shown_spec h pl emb N HN depth t0 width opacity fade Hd0 Ho Hwd params a b) as H.
      specialize (H (proj2 (Hco a Ha)) (proj2 (Hco b Hb))). destruct (shown h pl emb depth t0 width opacity params (a, b)); exact H.
    - apply IH. intros x y Hxy. apply Hin. by right. }
  assert (Hnv : ∀ a, (opacity (tm' a) <= 0)%R ↔ ¬ vis a).
  { intros a. unfold vis. rewrite <- Ho. fold (tm' a). split; intros; lra. }
  split.
  { destruct (pl_events pl) as [pe|] eqn:Ee; [|done]. split; [done|]. unfold evs, event_shown. rewrite Ee, TE.
    clear -Hnv Ho. induction events as [|a l IH]; constructor; [|done]. fold (tm' a). unfold tm. fold pc.
    change (nth 0 (pc a) 0 - t0)%R with (tm' a).
    destruct (decide (opacity (tm' a) <= 0)%R) as [H|H]; [right; split; [by apply Hnv|done]|left].
    split; [|done]. apply Ho. change (nth 0 (pc a) 0 - t0)%R with (tm' a). lra. }
  split.
  { destruct (pl_labels pl) as [pe|] eqn:Ee; [|done]. split; [done|]. unfold lbls, label_shown. rewrite Ee, TL.
    clear -Hnv Ho. induction events as [|a l IH]; constructor; [|done]. fold (tm' a). unfold tm. fold pc.
    change (nth 0 (pc a) 0 - t0)%R with (tm' a).
    destruct (decide (opacity (tm' a) <= 0)%R) as [H|H]; [right; split; [by apply Hnv|done]|left].
    split; [|done]. apply Ho. change (nth 0 (pc a) 0 - t0)%R with (tm' a). lra. }
  rewrite Hp'. apply Permutation_app_head.
  assert (Pe : present evs = present (match pl_events pl with Some _ => evs | None => [] end)).
  { destruct (pl_events pl) eqn:Ee; [done|]. unfold evs, event_shown. rewrite Ee. clear. induction events; [done|]. done. }
  assert (Pl : present lbls = present (match pl_labels pl with Some _ => lbls | None => [] end)).
  { destruct (pl_labels pl) eqn:Ee; [done|]. unfold lbls, label_shown. rewrite Ee. clear. induction events; [done|]. done. }
  by rewrite Pe, Pl.
Qed.
(** A dynamic plot of distinct events, with any of the three kinds of fading: it returns; event
    [a] and its label are drawn exactly if [a] is visible, with the faded opacity; slot i is
    for the i-th link of the events; it is filled if both events are visible, or one is visible
    and the other behind the slice, and then the line is as documented; nothing else is drawn.
    (If one event is exactly at the time of the slice, the line has length 0: it is drawn only
    if that event is the second one of the pair.) *)
Theorem C70_dynamic (g : scheme) (dc : dict pyval) (it : oracle) (slice : list R → R → res bool)
    (E : plot_arg) (st : option spacetime) (time : time_arg) (kw : kwargs) (pl : plotting) (h : heap) (ax : list artist)
    (depth : R) (fade : string) (params : dict pyval) (w : Q) (N : nat) :
  order_inv h → link_inv h →
  NoDup g.*1 → arg_wf (kw_links kw) → arg_wf (kw_events kw) → arg_wf (kw_labels kw) → plot_parameters g dc kw = Ok pl →
  kw_timedepth kw = Some depth → depth ≠ 0%R →
  default "linear" (kw_timefade kw) = fade → fade ∈ ["linear"; "exponential"; "intensity"] →
  pl_pastcones pl = None → pl_futurecones pl = None → pl_axislim pl ≠ Some AxShape →
  pl_links pl = Some params → dget params "linewidth" = Some (VNum w) → (0 < Q2R w)%R →
  let alpha := default 1%R (match dget (default [] (pl_events pl)) "alpha" with Some (VNum q) => Some (Q2R q) | _ => None end) in (0 < alpha)%R →
  let events := match E with PEvent e => [e] | PList l => l | PCauset C => it 40 (ec_events C) end in
  let emb := match E with PCauset _ => true | _ => bool_decide (is_Some st) end in
  let pc := plot_coords emb h in
  let t0 := fst (match time with TNone => (0, 0) | TOne t => (t, t) | TTwo t0 t1 => (t0, t1) end)%R in
  let tm a := (nth 0 (pc a) 0 - t0)%R in
  let vis a := visible fade depth (tm a) in
  NoDup events → 0 < N →
  (∀ a, a ∈ events → (emb = true → is_Some (Base.coords h a)) ∧ length (pc a) = N) →
  (∀ d, d ∈ pl_dims pl → d < N) →
  ∃ h' hs arts ps lines evs lbls opacity width,
    plot g dc it slice E st time kw (h, ax) = ((h', ax ++ arts)%list, Ok hs) ∧
    same_view h h' ∧
    dynamic_parameter fade (length (pl_dims pl)) depth alpha = Some opacity ∧
    dynamic_parameter fade (length (pl_dims pl)) depth (Q2R w) = Some width ∧
    links_of h events ps ∧
    ha_links hs = Some lines ∧ length lines = LinkCountOf h (list_to_set events) ∧
    Forall2 (λ '(a, b) slot,
      match slot with
      | Some line => dynamic_line pc (pl_dims pl) tm t0 vis (λ x, behind depth (tm x)) opacity width params a b line
      | None => ¬ (vis a ∧ vis b) ∧ ¬ (vis a ∧ ahead depth (tm a) ∧ behind depth (tm b)) ∧ ¬ (vis b ∧ behind depth (tm a))
      end) ps lines ∧
    (match pl_events pl with
     | Some p => ha_events hs = Some evs ∧
         Forall2 (λ a slot, (vis a ∧ slot = Some (ALine [drawn_at (pl_dims pl) (pc a)] p (Some (opacity (tm a))) None None)) ∨
                            (¬ vis a ∧ slot = None)) events evs
     | None => ha_events hs = None ∧ evs = [] end) ∧
    (match pl_labels pl with
     | Some p => ha_labels hs = Some lbls ∧
         Forall2 (λ a slot, (vis a ∧ slot = Some (AText (drawn_at (pl_dims pl) (pc a)) (lab h a) p)) ∨
                            (¬ vis a ∧ slot = None)) events lbls
     | None => ha_labels hs = None ∧ lbls = [] end) ∧
    arts ≡ₚ (present lines ++ present evs ++ present lbls)%list.
Proof. exact (dynamic_run g dc it slice E st time kw pl h ax depth fade params w N). Qed.
Print Assumptions C70_dynamic.
(** Switching the links off in a dynamic plot: KeyError. *)
Theorem C70_links_off_refuted (g : scheme) (dc : dict pyval) (it : oracle) (slice : list R → R → res bool)
    (E : plot_arg) (st : option spacetime) (time : time_arg) (kw : kwargs) (pl : plotting) (h : heap) (ax : list artist) (depth : R) :
  plot_parameters g dc kw = Ok pl → kw_timedepth kw = Some depth → kw_links kw = Some (Switch false) →
  pl_pastcones pl = None → pl_futurecones pl = None →
  snd (plot g dc it slice E st time kw (h, ax)) = Err KeyError.
Proof.
  intros Hpl Htd Hlk Hpc Hfc.
  destruct (plot_parameters_inv g dc kw pl Hpl) as (_ & _ & _ & _ & _ & _ & PK & _ & _ & _ & Hd1 & _).
  rewrite Htd in Hd1. cbn in Hd1. rewrite Hlk in PK. cbn in PK. injection PK as PK.
  unfold plot, Plotter, bind, lift. rewrite Hpl. unfold link_count, cone_alpha, dynamic_setup. rewrite <- PK, Hpc, Hfc, Hd1. done.
Qed.
Print Assumptions C70_links_off_refuted.

(** ** Cones *)
Lemma bind_Ok {A B} (m : M A) (f : A → M B) s s' b : bind m f s = (s', Ok b) →
  ∃ s1 a, m s = (s1, Ok a) ∧ f a s1 = (s', Ok b).
Proof. unfold bind. destruct (m s) as [s1 [a|e]] eqn:E; [|done]. intros H. by exists s1, a. Qed.
(** The cone of [a] is drawn: its tip is beyond the slice at time [t], the opacity is positive
    and the spacetime has a boundary of the cone. *)
Definition cone_drawn (past : bool) (slice : list R → R → res bool) (opacity : R → R) (pc : nat → list R) (t : R) (a : nat) : Prop :=
  let r := if past then (nth 0 (pc a) 0 - t)%R else (t - nth 0 (pc a) 0)%R in
  (0 < r)%R ∧ (0 < opacity r)%R ∧ slice (pc a) t = Ok true.
#[global] Instance res_bool_eq_dec : EqDecision (res bool).
Proof. intros [[]|e] [[]|e']; try (by right); try (by left). destruct (decide (e = e')) as [->|Hn]; [by left|right; congruence]. Defined.
#[global] Instance cone_drawn_dec past slice opacity pc t a : Decision (cone_drawn past slice opacity pc t a).
Proof. unfold cone_drawn. apply _. Defined.
Definition cone_of (past : bool) (opacity : R → R) (params : dict pyval) (pc : nat → list R) (t : R) (a : nat) : artist :=
  ACone past (pc a) t params (opacity (if past then (nth 0 (pc a) 0 - t)%R else (t - nth 0 (pc a) 0)%R)).
Section cones.
Context (h0 : heap) (HO : order_inv h0) (HL : link_inv h0).
Context (emb : bool) (slice : list R → R → res bool).
Local Notation pc := (plot_coords emb h0).
Lemma cone_run past f params c t (Q : res (option artist) → list artist → Prop) :
  0 < length c → (∀ t, ∃ b, slice c t = Ok b) →
  Q (Ok (if decide (cone_drawn past slice f (λ _, c) t 0) then Some (cone_of past f params (λ _, c) t 0) else None))
    (if decide (cone_drawn past slice f (λ _, c) t 0) then [cone_of past f params (λ _, c) t 0] else []) →
  hoare h0 (cone past slice (Some f) params c t) Q.
Proof using HO HL.
  intros Hc Hs HQ. unfold cone. destruct c as [|tc c]; [cbn in Hc; lia|]. eapply hoare_bind_lift; [reflexivity|].
  set (r := if past then (tc - t)%R else (t - tc)%R).
  assert (Hdr : cone_drawn past slice f (λ _, tc :: c) t 0 ↔ (0 < r)%R ∧ (0 < f r)%R ∧ slice (tc :: c) t = Ok true) by done.
  unfold cone_of in HQ. cbn [nth] in HQ. fold r in HQ. cbv zeta. fold r. clearbody r.
  destruct (decide (cone_drawn past slice f (λ _, tc :: c) t 0)) as [Hy|Hn].
  - apply Hdr in Hy as (Y1 & Y2 & Y3). destruct (decide (r <= 0)%R); [lra|]. destruct (decide (f r <= 0)%R); [lra|].
    eapply hoare_bind_lift; [exact Y3|]. by apply hoare_bind, hoare_draw, hoare_ret.
  - destruct (decide (r <= 0)%R); [by apply hoare_ret|]. destruct (decide (f r <= 0)%R); [by apply hoare_ret|].
    destruct (Hs t) as [b Hb]. eapply hoare_bind_lift; [exact Hb|]. destruct b; [|by apply hoare_ret].
    destruct Hn. apply Hdr. split; [lra|]. split; [lra|done].
Qed.
Definition all_cones (past : bool) (o : option (option (R → R) * dict pyval)) (t : R) (l : list nat) : list artist :=
  match o with
  | Some (Some f, p) => cone_of past f p pc t <$> filter (cone_drawn past slice f pc t) l
  | _ => []
  end.
Lemma all_cones_cons past o t a l : all_cones past o t (a :: l) = (all_cones past o t [a] ++ all_cones past o t l)%list.
Proof. unfold all_cones. destruct o as [[[f|] p]|]; [|done|done]. rewrite !filter_cons. cbn. destruct (decide _); done. Qed.
Lemma cones_run o1 o2 t0 t1 events :
  (∀ a, a ∈ events → (emb = true → is_Some (Base.coords h0 a)) ∧ 0 < length (pc a)) →
  (∀ a t, a ∈ events → ∃ b, slice (pc a) t = Ok b) →
  (∀ p, o1 ≠ Some (None, p)) → (∀ p, o2 ≠ Some (None, p)) →
  hoare h0 (cones emb events slice o1 o2 t0 t1)
    (λ r arts, r = Ok (all_cones true o1 t0 events, all_cones false o2 t1 events) ∧
       arts ≡ₚ (all_cones true o1 t0 events ++ all_cones false o2 t1 events)%list).
Proof using HO HL.
  intros Hco Hs H1 H2. unfold cones.
  assert (G : ∀ ps fs, hoare h0 (for_each events (ps, fs) (λ a '(ps, fs),
    bind (get_attr emb a) (λ c,
    bind (match o1 with Some (al, p) => cone true slice al p c t0 | None => ret None end) (λ p,
    bind (match o2 with Some (al, p) => cone false slice al p c t1 | None => ret None end) (λ f,
    ret (push p ps, push f fs))))))
    (λ r arts, r = Ok ((ps ++ all_cones true o1 t0 events)%list, (fs ++ all_cones false o2 t1 events)%list) ∧
       arts ≡ₚ (all_cones true o1 t0 events ++ all_cones false o2 t1 events)%list)).
  2:{ apply G. }
  induction events as [|a l IH]; intros ps fs; cbn [for_each].
  { apply hoare_ret. destruct o1 as [[[]]|], o2 as [[[]]|]; cbn; by rewrite !app_nil_r. }
  destruct (Hco a) as [Ha Hl]; [by left|].
  apply hoare_bind. apply hoare_bind, hoare_get_attr.
  assert (Eat : attr_of emb h0 a = Ok (pc a)).
  { apply (attr_plottable h0 emb [] a). split; [done|]. intros d Hd. by apply elem_of_nil in Hd. }
  rewrite Eat.
  assert (Hone : ∀ past o t (Q : res (option artist) → list artist → Prop), (∀ p, o ≠ Some (None, p)) →
    (∀ oa, all_cones past o t [a] = option_list oa → Q (Ok oa) (option_list oa)) →
    hoare h0 (match o with Some (al, p) => cone past slice al p (pc a) t | None => ret None end) Q).
  { intros past o t Q Hno HQ. destruct o as [[[f|] p]|]; [|by destruct (Hno p)|by apply hoare_ret, (HQ None)].
    apply cone_run; [done|intros t'; apply Hs; by left|].
    unfold all_cones in HQ. rewrite filter_cons in HQ.
    change (cone_drawn past slice f (λ _, pc a) t 0) with (cone_drawn past slice f pc t a).
    change (cone_of past f p (λ _, pc a) t 0) with (cone_of past f p pc t a).
    destruct (decide (cone_drawn past slice f pc t a)) as [Hd|Hd].
    - destruct (decide (cone_drawn past slice f (λ _, pc a) t 0)) as [_|Hn]; [|done]. by apply (HQ (Some _)).
    - destruct (decide (cone_drawn past slice f (λ _, pc a) t 0)) as [Hn|_]; [done|]. by apply (HQ None). }
  apply hoare_bind, Hone; [done|]. intros oa Eoa. apply hoare_bind, Hone; [done|]. intros ob Eob. apply hoare_ret.
  eapply hoare_cons; [apply IH|].
  { intros x Hx. apply Hco. by right. } { intros x t Hx. apply Hs. by right. }
  cbv beta. intros r arts [-> Hp]. rewrite (all_cones_cons true), (all_cones_cons false), Eoa, Eob.
  assert (Hpush : ∀ o (l : list artist), push o l = (l ++ option_list o)%list) by (intros [] k; cbn; by rewrite ?app_nil_r).
  rewrite !Hpush, <- !app_assoc. split; [done|]. rewrite Hp. cbn [app]. solve_Permutation.
Qed.
End cones.
Lemma cones_plot_run (g : scheme) (dc : dict pyval) (it : oracle) (slice : list R → R → res bool)
    (E : plot_arg) (st : option spacetime) (time : time_arg) (kw : kwargs) (pl : plotting) (h h' : heap) (ax ax' : list artist)
    (hs : handles) :
  order_inv h → link_inv h → plot_parameters g dc kw = Ok pl →
  let fade := default "intensity" (kw_conetimefade kw) in
  fade ∈ ["linear"; "exponential"; "intensity"] →
  let events := plot_events it E in
  let emb := is_embedded E st in
  let pc := plot_coords emb h in
  let alpha p := default 1%R (num_of (dget p "alpha")) in
  let depth := Rabs (default 0%R (kw_conetimedepth kw)) in
  (∀ a, a ∈ events → (emb = true → is_Some (Base.coords h a)) ∧ 0 < length (pc a)) →
  (∀ a t, a ∈ events → ∃ b, slice (pc a) t = Ok b) →
  plot g dc it slice E st time kw (h, ax) = ((h', ax'), Ok hs) →
  (∀ p, pl_pastcones pl = Some p → ∃ f, dynamic_parameter fade (length (pl_dims pl)) depth (alpha p) = Some f ∧
     let t := fst (times time) in
     ha_pastcones hs = Some (cone_of true f p pc t <$> filter (cone_drawn true slice f pc t) events)) ∧
  (∀ p, pl_futurecones pl = Some p → ∃ f, dynamic_parameter fade (length (pl_dims pl)) depth (alpha p) = Some f ∧
     let t := snd (times time) in
     ha_futurecones hs = Some (cone_of false f p pc t <$> filter (cone_drawn false slice f pc t) events)) ∧
  (pl_pastcones pl = None → ha_pastcones hs = None) ∧
  (pl_futurecones pl = None → ha_futurecones hs = None).
Proof.
  intros HO HL Hpl fade Hfade events emb pc alpha depth Hco Hs Hrun.
  destruct (plot_parameters_inv g dc kw pl Hpl) as (Hd & D1 & _ & _ & _ & _ & _ & _ & _ & _ & _ & HF & HDp).
  fold fade in HF. assert (Hdp : depth = Rabs (pl_conetimedepth pl)) by (by rewrite HDp).
  assert (Hdim : dim pl = length (pl_dims pl)).
  { unfold dim, is3d. rewrite D1. case_bool_decide; destruct Hd; lia. }
  assert (Hne : fade ≠ "").
  { intros Hx. rewrite Hx in Hfade. rewrite !elem_of_cons, elem_of_nil in Hfade. by destruct Hfade as [?|[?|[?|?]]]. }
  assert (Hdyn : ∀ al, ∃ f, dynamic_parameter fade (dim pl) (Rabs (pl_conetimedepth pl)) al = Some f).
  { intros al. destruct (dynamic_parameter fade (dim pl) (Rabs (pl_conetimedepth pl)) al) as [f|] eqn:Ef; [by exists f|].
    apply C61_other_names in Ef. rewrite !elem_of_cons, elem_of_nil in Hfade. tauto. }
  assert (Hca : ∀ o, ∃ o', cone_alpha pl o = Ok o' ∧ (∀ p, o' ≠ Some (None, p)) ∧
     match o with
     | None => o' = None
     | Some p => ∃ f, dynamic_parameter fade (length (pl_dims pl)) depth (alpha p) = Some f ∧ o' = Some (Some f, p)
     end).
  { intros [p|]; cbn; [|by exists None]. rewrite HF. destruct (decide (fade = "")); [done|].
    destruct (Hdyn (alpha p)) as [f Ef]. unfold alpha in Ef. rewrite Ef. eexists. split; [reflexivity|]. split; [done|].
    exists f. split; [|done]. by rewrite Hdp, <- Hdim. }
  unfold plot, Plotter in Hrun. apply bind_Ok in Hrun as (s1 & pr & Hrun & Hts).
  apply bind_Ok in Hrun as (s2 & pl' & Hl & Hrun). unfold lift in Hl. rewrite Hpl in Hl. injection Hl as <- <-.
  apply bind_Ok in Hrun as (s3 & n & Hlc & Hrun).
  destruct (link_count_run h HO HL it pl events (λ _ _, True)) with (h := h) (ax := ax) as (h3 & arts & r & Hv & Er & _); [done|by apply same_view_refl|].
  fold events in Hlc. rewrite Er in Hlc. injection Hlc as <- ->.
  destruct (Hca (pl_pastcones pl)) as (o1 & E1 & N1 & P1). destruct (Hca (pl_futurecones pl)) as (o2 & E2 & N2 & P2).
  apply bind_Ok in Hrun as (s4 & pc' & Hl & Hrun). unfold lift in Hl. rewrite E1 in Hl. injection Hl as <- <-.
  apply bind_Ok in Hrun as (s5 & fc' & Hl & Hrun). unfold lift in Hl. rewrite E2 in Hl. injection Hl as <- <-.
  apply bind_Ok in Hrun as (s6 & dyn & Hl & Hrun). unfold lift in Hl. injection Hl as <- _.
  unfold ret in Hrun. injection Hrun as <- <-. fold events emb in Hts.
  unfold timeslice in Hts. cbn [pr_pl pr_pc pr_fc pr_dyn pr_links pr_events pr_embedded] in Hts.
  apply bind_Ok in Hts as (s7 & [psl fsl] & Hcn & Hts).
  apply bind_Ok in Hts as (s8 & [[lk evs] lbls] & _ & Hts).
  apply bind_Ok in Hts as (s9 & lim & Hl & Hts). unfold ret in Hts. injection Hts as _ <-. cbn [ha_pastcones ha_futurecones].
  assert (Hlists : (o1 ≠ None ∨ o2 ≠ None) → psl = all_cones h emb slice true o1 (times time).1 events ∧ fsl = all_cones h emb slice false o2 (times time).2 events).
  { intros Hor.
    destruct (cones_run h HO HL emb slice o1 o2 (times time).1 (times time).2 events Hco Hs N1 N2 h3 (ax ++ arts)%list Hv)
      as (h4 & arts4 & r4 & _ & Er4 & -> & _).
    assert (Hm : cones emb events slice o1 o2 (times time).1 (times time).2 (h3, (ax ++ arts)%list) = (s7, Ok (psl, fsl))).
    { destruct o1, o2; [exact Hcn|exact Hcn|exact Hcn|by destruct Hor]. }
    rewrite Er4 in Hm. injection Hm as _ <- <-. done. }
  split_and!.
  - intros p Ep. rewrite Ep in P1. destruct P1 as (f & Ef & ->). exists f. split; [done|].
    destruct Hlists as [-> _]; [by left|]. done.
  - intros p Ep. rewrite Ep in P2. destruct P2 as (f & Ef & ->). exists f. split; [done|].
    destruct Hlists as [_ ->]; [by right|]. done.
  - intros Ep. rewrite Ep in P1. by rewrite P1.
  - intros Ep. rewrite Ep in P2. by rewrite P2.
Qed.
Theorem C70_cones (g : scheme) (dc : dict pyval) (it : oracle) (slice : list R → R → res bool)
    (E : plot_arg) (st : option spacetime) (time : time_arg) (kw : kwargs) (pl : plotting) (h h' : heap) (ax ax' : list artist)
    (hs : handles) :
  order_inv h → link_inv h → plot_parameters g dc kw = Ok pl →
  let fade := default "intensity" (kw_conetimefade kw) in
  fade ∈ ["linear"; "exponential"; "intensity"] →
  let events := match E with PEvent e => [e] | PList l => l | PCauset C => it 40 (ec_events C) end in
  let emb := match E with PCauset _ => true | _ => bool_decide (is_Some st) end in
  let pc := plot_coords emb h in
  let alpha p := default 1%R (match dget p "alpha" with Some (VNum q) => Some (Q2R q) | _ => None end) in
  let depth := Rabs (default 0%R (kw_conetimedepth kw)) in
  (∀ a, a ∈ events → (emb = true → is_Some (Base.coords h a)) ∧ 0 < length (pc a)) →
  (∀ a t, a ∈ events → ∃ b, slice (pc a) t = Ok b) →
  plot g dc it slice E st time kw (h, ax) = ((h', ax'), Ok hs) →
  (∀ p, pl_pastcones pl = Some p → ∃ f, dynamic_parameter fade (length (pl_dims pl)) depth (alpha p) = Some f ∧
     let t := fst (match time with TNone => (0, 0) | TOne t => (t, t) | TTwo t0 t1 => (t0, t1) end)%R in
     ha_pastcones hs = Some (cone_of true f p pc t <$> filter (cone_drawn true slice f pc t) events)) ∧
  (∀ p, pl_futurecones pl = Some p → ∃ f, dynamic_parameter fade (length (pl_dims pl)) depth (alpha p) = Some f ∧
     let t := snd (match time with TNone => (0, 0) | TOne t => (t, t) | TTwo t0 t1 => (t0, t1) end)%R in
     ha_futurecones hs = Some (cone_of false f p pc t <$> filter (cone_drawn false slice f pc t) events)) ∧
  (pl_pastcones pl = None → ha_pastcones hs = None) ∧
  (pl_futurecones pl = None → ha_futurecones hs = None).
Proof. exact (cones_plot_run g dc it slice E st time kw pl h h' ax ax' hs). Qed.
Print Assumptions C70_cones.
(** The hypotheses are met by the diagram of C57, sliced at time 1 (event 1 is visible at
    distance 1, event 0 is behind, event 2 is on the slice). *)
Definition dyn_kw : kwargs := Kwargs None None None None None (Some 3%R) None None None None None None None.
Example C70_nonvacuous :
  order_inv diagram ∧ link_inv diagram ∧
  (∃ pl params, plot_parameters scheme_matplotlib default_colors0 dyn_kw = Ok pl ∧ pl_links pl = Some params ∧
     dget params "linewidth" = Some (VNum 2) ∧ (0 < Q2R 2)%R ∧ pl_dims pl = [1; 0] ∧
     default 1%R (num_of (dget (default [] (pl_events pl)) "alpha")) = 1%R ∧ pl_pastcones pl = None) ∧
  (∀ a, a ∈ [0; 1; 2] → length (plot_coords false diagram a) = 2) ∧
  linked diagram 0 1 ∧
  visible "linear" 3 (nth 0 (plot_coords false diagram 1) 0%R - 1)%R ∧
  behind 3 (nth 0 (plot_coords false diagram 0) 0%R - 1)%R ∧
  visible "linear" 3 (nth 0 (plot_coords false diagram 2) 0%R - 1)%R.
Proof.
  split; [apply diagram_order|]. split; [apply diagram_link|]. split.
  { eexists _, _. split; [reflexivity|]. split; [reflexivity|]. split; [reflexivity|].
    split; [unfold Q2R; cbn; lra|]. done. }
  split. { intros a Ha. unfold plot_coords. rewrite fmap_length. rewrite !elem_of_cons, elem_of_nil in Ha. destruct Ha as [->|[->|[->|[]]]]; by vm_compute. }
  split. { apply (linkedb_spec diagram diagram_order diagram_link). by vm_compute. }
  assert (E0 : Base.pos diagram 0 = [0; 0]%Q) by (by vm_compute). assert (E1 : Base.pos diagram 1 = [2; 2]%Q) by (by vm_compute).
  assert (E2 : Base.pos diagram 2 = [1; 1]%Q) by (by vm_compute).
  unfold plot_coords. rewrite E0, E1, E2. unfold visible, behind. cbn. unfold Q2R. cbn. repeat split; try intros _; lra.
Qed.
Example C70_cones_nonvacuous :
  let slice := (λ (_ : list R) (_ : R), Ok true) in
  cone_drawn true slice (λ _, 1%R) (plot_coords false diagram) 1 1 ∧
  ¬ cone_drawn true slice (λ _, 1%R) (plot_coords false diagram) 1 0.
Proof.
  assert (E0 : Base.pos diagram 0 = [0; 0]%Q) by (by vm_compute). assert (E1 : Base.pos diagram 1 = [2; 2]%Q) by (by vm_compute).
  unfold cone_drawn, plot_coords. rewrite E0, E1. cbn. unfold Q2R. cbn. split; [repeat split; lra|]. intros [? _]. lra.
Qed.
