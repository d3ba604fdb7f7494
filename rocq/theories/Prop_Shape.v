(** Theorems about /repo/shapes.py: C55 (validation), C56 (limits, volume, edges). *)
From Verif Require Import Base SpacetimeModel SpacetimeFacts ShapeModel SpecShape.
From Coq Require Import Reals Lra Lia.
#[local] Open Scope nat_scope.

(** ** Specification: the documented ranges (/repo/shapes.py:36-66) *)
Definition ball_like (name : string) : Prop :=
  name = "ball" ∨ name = "bicone" ∨ name = "diamond" ∨ name = "cylinder".
(** The arguments after conversion by [f32], with the documented default values. *)
Record valid_args (f32 : R → R) (dim : Z) (name : string) (args : shape_args) : Prop := ValidArgs {
  va_dim : (1 <= dim)%Z;
  va_name : ball_like name ∨ name = "cube" ∨ name = "cuboid";
  va_center : ∀ c, a_center args = Some c → Z.of_nat (length c) = dim;
  va_ball : ball_like name →
    (0 < f32 (default 1 (a_radius args)))%R ∧
    (0 <= f32 (default 0 (a_hollow args)) < 1)%R;
  va_duration : name = "cylinder" →
    (0 < f32 (default (2 * f32 (default 1 (a_radius args))) (a_duration args)))%R;
  va_edge : name = "cube" → (0 < f32 (default 1 (a_edge args)))%R;
  va_edges : name = "cuboid" →
    match a_edges args with
    | Some es => Z.of_nat (length es) = dim ∧ ∀ x, x ∈ es → (0 < f32 x)%R
    | None => (0 < f32 1)%R
    end
}.

Lemma rangecheck_pos v : rangecheck v None false = if decide (0 < v)%R then Ok tt else Err ValueError.
Proof.
  unfold rangecheck. cbn. destruct (decide (0 < v)%R) as [H|H].
  - rewrite bool_decide_false; [done|lra].
  - rewrite bool_decide_true; [done|lra].
Qed.
Lemma rangecheck_unit v :
  rangecheck v (Some 1%R) true = if decide (0 <= v < 1)%R then Ok tt else Err ValueError.
Proof.
  unfold rangecheck. cbn. destruct (decide (0 <= v < 1)%R) as [H|H].
  - rewrite !bool_decide_false; [done|lra|lra].
  - destruct (bool_decide (v < 0)%R) eqn:E1; [done|]. destruct (bool_decide (1 <= v)%R) eqn:E2; [done|].
    apply bool_decide_eq_false in E1, E2. exfalso. lra.
Qed.

(** ** C55 *)
Theorem C55_validation (f32 : R → R) (dim : Z) (name : string) (args : shape_args) :
  (valid_args f32 dim name args →
    ∃ s, CoordinateShape f32 dim name args = Ok s ∧
      Z.of_nat (sh_dim s) = dim ∧
      sh_name s = (if decide (name = "diamond") then "bicone" else name) ∧
      sh_center s = match a_center args with
                    | Some c => f32 <$> c | None => replicate (Z.to_nat dim) 0%R end ∧
      (ball_like name →
         sh_radius s = Some (f32 (default 1%R (a_radius args))) ∧
         sh_hollow s = Some (f32 (default 0%R (a_hollow args)))) ∧
      (name = "cylinder" →
         sh_duration s = Some (f32 (default (2 * f32 (default 1%R (a_radius args)))%R (a_duration args)))) ∧
      (name = "cube" → sh_edge s = Some (f32 (default 1%R (a_edge args)))) ∧
      (name = "cuboid" → sh_edges s = Some (f32 <$> default (replicate (Z.to_nat dim) 1%R) (a_edges args)))) ∧
  (¬ valid_args f32 dim name args → CoordinateShape f32 dim name args = Err ValueError).
Proof.
  unfold CoordinateShape. destruct (decide (dim < 1)%Z) as [Hd|Hd].
  { split; [intros [H _ _ _ _ _ _]; lia|done]. }
  destruct (decide (_ ∈ _)) as [Hn|Hn]; cycle 1.
  { split; [|done]. intros [_ H _ _ _ _ _]. exfalso. apply Hn. unfold ball_like in H.
    destruct H as [[-> |[-> |[-> | ->]]]|[-> | ->]]; decide_vm. }
  assert (Hname : name = "diamond" ∨ name = "ball" ∨ name = "bicone" ∨ name = "cylinder" ∨ name = "cube" ∨ name = "cuboid").
  { destruct (decide (name = "diamond")); [by left|right].
    repeat (apply elem_of_cons in Hn as [Hn|Hn]; [tauto|]). by apply elem_of_nil in Hn. }
  clear Hn.
  assert (Hcd : match a_center args with Some c => length c = Z.to_nat dim | None => True end ∨
    ¬ match a_center args with Some c => length c = Z.to_nat dim | None => True end).
  { destruct (a_center args) as [c|]; [|by left]. destruct (decide (length c = Z.to_nat dim)); tauto. }
  destruct Hcd as [Hc|Hc]; cycle 1.
  { unfold init_center. destruct (a_center args) as [c|] eqn:Ec; [|done]. rewrite decide_False by done. cbn.
    split; [|done]. intros [_ _ H _ _ _ _]. rewrite Ec in H. specialize (H c eq_refl). exfalso. apply Hc. lia. }
  assert (Ec : init_center f32 (Z.to_nat dim) (a_center args) =
    Ok (match a_center args with Some c => f32 <$> c | None => replicate (Z.to_nat dim) 0%R end)).
  { unfold init_center. destruct (a_center args) as [c|]; [|done]. by rewrite decide_True. }
  rewrite Ec. cbn [res_bind].
  assert (Hc' : ∀ c, a_center args = Some c → Z.of_nat (length c) = dim).
  { intros c E. rewrite E in Hc. lia. }
  clear Hc Ec.
  rewrite !rangecheck_pos, rangecheck_unit.
  assert (Hlen : length (f32 <$> default (replicate (Z.to_nat dim) 1%R) (a_edges args)) = Z.to_nat dim ↔
    match a_edges args with Some es => Z.of_nat (length es) = dim | None => True end).
  { rewrite fmap_length. destruct (a_edges args); cbn; [lia|]. rewrite replicate_length. done. }
  assert (Hpos : ¬ Exists (λ x, x <= 0)%R (f32 <$> default (replicate (Z.to_nat dim) 1%R) (a_edges args)) ↔
    match a_edges args with Some es => ∀ x, x ∈ es → (0 < f32 x)%R | None => (0 < f32 1)%R end).
  { rewrite Exists_exists. split.
    - intros H. destruct (a_edges args) as [es|]; cbn in H.
      + intros x Hx. destruct (Rlt_dec 0 (f32 x)); [done|]. exfalso. apply H. exists (f32 x).
        split; [by apply elem_of_list_fmap_1|lra].
      + destruct (Rlt_dec 0 (f32 1%R)); [done|]. exfalso. apply H. exists (f32 1%R). split; [|lra].
        apply elem_of_list_fmap_1. apply elem_of_replicate. split; [done|lia].
    - intros H (x & (y & -> & Hy)%elem_of_list_fmap & Hx). destruct (a_edges args) as [es|]; cbn in Hy.
      + specialize (H y Hy). lra.
      + apply elem_of_replicate in Hy as [-> _]. lra. }
  destruct Hname as [-> |[-> |[-> |[-> |[-> | ->]]]]];
    repeat (match goal with
    | |- context [decide (String _ _ = _)] => destruct (decide (String _ _ = _)) as [D|D]; [try discriminate D|try (exfalso; apply D; reflexivity)]
    | |- context [decide (String _ _ = _ ∨ _)] => destruct (decide (String _ _ = _ ∨ _)) as [D|D]; [try (exfalso; clear -D; intuition discriminate)|try (exfalso; apply D; tauto)]
    end; try clear D); cbn [res_bind].
  1,2,3: destruct (decide (0 < _)%R) as [Hr|Hr]; cbn [res_bind];
    [|split; [intros [_ _ _ H _ _ _]; destruct H as [H _]; [unfold ball_like; tauto|]; tauto|done]];
    destruct (decide (0 <= _ < 1)%R) as [Hh|Hh]; cbn [res_bind];
    [|split; [intros [_ _ _ H _ _ _]; destruct H as [_ H]; [unfold ball_like; tauto|]; tauto|done]];
    (split; [intros _; eexists; split; [reflexivity|]; cbn; split_and!; [lia|done|done|done|discriminate|discriminate|discriminate]|
      intros Hn; exfalso; apply Hn; unfold ball_like; split; [lia|unfold ball_like; tauto|done|done|discriminate|discriminate|discriminate]]).
  - destruct (decide (0 < f32 (default 1 _))%R) as [Hr|Hr]; cbn [res_bind];
    [|split; [intros [_ _ _ H _ _ _]; destruct H as [H _]; [unfold ball_like; tauto|]; tauto|done]].
    destruct (decide (0 <= _ < 1)%R) as [Hh|Hh]; cbn [res_bind];
    [|split; [intros [_ _ _ H _ _ _]; destruct H as [_ H]; [unfold ball_like; tauto|]; tauto|done]].
    destruct (decide (0 < _)%R) as [Ht|Ht]; cbn [res_bind]; [|split; [intros [_ _ _ _ H _ _]; specialize (H eq_refl); tauto|done]].
    split; [intros _; eexists; split; [reflexivity|]; cbn; split_and!; [lia|done|done|done|done|discriminate|discriminate]|].
    intros Hn; exfalso; apply Hn; split; [lia|unfold ball_like; tauto|done|done|done|discriminate|discriminate].
  - destruct (decide (0 < _)%R) as [Ht|Ht]; cbn [res_bind]; [|split; [intros [_ _ _ _ _ H _]; specialize (H eq_refl); tauto|done]].
    split; [intros _; eexists; split; [reflexivity|]; cbn; split_and!; [lia|done|done| |done|done|done]|].
    { unfold ball_like. intuition discriminate. }
    intros Hn; exfalso; apply Hn; split; [lia|unfold ball_like; tauto|done| |done|done|discriminate].
    unfold ball_like. intuition discriminate.
  - destruct (decide (length _ = _)) as [Hl|Hl]; cycle 1.
    { split; [|done]. intros [_ _ _ _ _ _ H]. specialize (H eq_refl). exfalso. apply Hl, Hlen.
      destruct (a_edges args); tauto. }
    destruct (decide (Exists _ _)) as [He|He].
    { split; [|done]. intros [_ _ _ _ _ _ H]. specialize (H eq_refl). exfalso. apply Hpos; [|done].
      destruct (a_edges args); tauto. }
    split; [intros _; eexists; split; [reflexivity|]; cbn; split_and!; [lia|done|done| |done|done|done]|].
    { unfold ball_like. intuition discriminate. }
    intros Hn; exfalso; apply Hn; split; [lia|unfold ball_like; tauto|done| |done|done|].
    { unfold ball_like. intuition discriminate. }
    intros _. apply Hlen in Hl. apply Hpos in He. destruct (a_edges args); tauto.
Qed.
Print Assumptions C55_validation.

(** ** C56 *)
Definition constructed_shape (s : shape) : Prop :=
  ∃ f32 dim name args, CoordinateShape f32 dim name args = Ok s.
Record shape_wf (s : shape) : Prop := ShapeWf {
  wf_dim : 1 ≤ sh_dim s;
  wf_center : length (sh_center s) = sh_dim s;
  wf_cases :
    ((sh_name s = "ball" ∨ sh_name s = "bicone") ∧
       ∃ r h, sh_radius s = Some r ∧ sh_hollow s = Some h ∧ (0 < r)%R ∧ (0 <= h < 1)%R) ∨
    (sh_name s = "cylinder" ∧
       ∃ r h T, sh_radius s = Some r ∧ sh_hollow s = Some h ∧ sh_duration s = Some T ∧
         (0 < r)%R ∧ (0 <= h < 1)%R ∧ (0 < T)%R) ∨
    (sh_name s = "cube" ∧ ∃ e, sh_edge s = Some e ∧ (0 < e)%R) ∨
    (sh_name s = "cuboid" ∧ ∃ es, sh_edges s = Some es ∧ length es = sh_dim s ∧
       ∀ x, x ∈ es → (0 < x)%R)
}.
Lemma valid_dec f32 dim name args s : CoordinateShape f32 dim name args = Ok s → valid_args f32 dim name args.
Proof.
  intros E. apply Classical_Prop.NNPP. intros Hn. apply (proj2 (C55_validation f32 dim name args)) in Hn. congruence.
Qed.
Lemma constructed_wf s : constructed_shape s → shape_wf s.
Proof.
  intros (f32 & dim & name & args & E). assert (Hv := valid_dec _ _ _ _ _ E).
  destruct (proj1 (C55_validation f32 dim name args) Hv) as (s' & E' & Hd & Hn & Hc & Hb & Ht & He & Hes).
  rewrite E in E'. injection E' as <-. destruct Hv as [V1 V2 V3 V4 V5 V6 V7]. split.
  - lia.
  - rewrite Hc. destruct (a_center args) as [c|]; [|by rewrite replicate_length; lia].
    rewrite fmap_length. specialize (V3 c eq_refl). lia.
  - destruct V2 as [[-> |[-> |[-> | ->]]]|[-> | ->]]; unfold ball_like in *; rewrite Hn.
    1,2,3: left; split; [cbn; tauto|]; destruct V4 as [? ?]; [tauto|]; destruct Hb as [-> ->]; [tauto|]; eauto 10.
    + right; left. split; [done|]. destruct V4 as [? ?]; [tauto|]; destruct Hb as [-> ->]; [tauto|].
      rewrite (Ht eq_refl). eexists _, _, _. split_and!; eauto; tauto.
    + right; right; left. split; [done|]. rewrite (He eq_refl). eauto.
    + right; right; right. split; [done|]. rewrite (Hes eq_refl). eexists. split; [done|].
      specialize (V7 eq_refl). rewrite fmap_length. destruct (a_edges args) as [es|]; cbn.
      * split; [lia|]. intros x (y & -> & Hy)%elem_of_list_fmap. by apply V7.
      * rewrite replicate_length. split; [lia|].
        intros x (y & -> & Hy)%elem_of_list_fmap. apply elem_of_replicate in Hy as [-> _]. done.
Qed.

(** Decide closed equations between strings. *)
Ltac str_decide := repeat (match goal with
    | |- context [decide (String ?a ?b = ?c)] =>
      let D := fresh "D" in
      destruct (decide (String a b = c)) as [D|D]; [try discriminate D|try (exfalso; apply D; reflexivity)]; clear D
    | |- context [decide (String ?a ?b = ?c ∨ ?q)] =>
      let D := fresh "D" in
      destruct (decide (String a b = c ∨ q)) as [D|D];
        [try (exfalso; clear -D; intuition discriminate)|try (exfalso; apply D; tauto)]; clear D
    end).
(** *** Volume *)
Lemma gamma_half_pos n : 1 ≤ n → (0 < gamma_half n)%R.
Proof.
  induction (lt_wf n) as [n _ IH]. intros Hn. destruct n as [|[|[|m]]]; [lia| | |].
  - cbn. apply sqrt_lt_R0, PI_RGT_0.
  - cbn. lra.
  - change (0 < INR (S m) / 2 * gamma_half (S m))%R. apply Rmult_lt_0_compat; [|apply IH; lia].
    apply Rdiv_lt_0_compat; [|lra]. apply lt_0_INR. lia.
Qed.
(** pi^(d/2) / Γ(d/2 + 1) is the volume of the unit ball. *)
Lemma unit_ball_gamma d : (Rpower PI (INR d / 2) / gamma_half (d + 2) = unit_ball d)%R.
Proof.
  assert (HP := PI_RGT_0).
  induction (lt_wf d) as [d _ IH]. destruct d as [|[|k]].
  - cbn. replace (0 / 2)%R with 0%R by lra. rewrite Rpower_O by done. field.
  - cbn. replace (1 / 2)%R with (/ 2)%R by lra. rewrite Rpower_sqrt by done.
    assert (sqrt PI ≠ 0)%R by (apply Rgt_not_eq, sqrt_lt_R0; done). field. done.
  - assert (Hk := IH k ltac:(lia)). clear IH.
    change (unit_ball (S (S k))) with (2 * PI / INR (S (S k)) * unit_ball k)%R. rewrite <- Hk.
    replace (gamma_half (S (S k) + 2)) with (INR (S (S k)) / 2 * gamma_half (k + 2))%R.
    2: { replace (S (S k) + 2) with (S (S (S (S k)))) by lia. replace (k + 2) with (S (S k)) by lia. done. }
    replace (INR (S (S k)) / 2)%R with (1 + INR k / 2)%R by (rewrite !S_INR; lra).
    rewrite Rpower_plus, Rpower_1 by done.
    assert (gamma_half (k + 2) ≠ 0)%R by (apply Rgt_not_eq, gamma_half_pos; lia).
    assert (INR k + 2 ≠ 0)%R by (pose proof (pos_INR k); lra).
    rewrite !S_INR. replace (INR k + 1 + 1)%R with (INR k + 2)%R by lra.
    assert (1 + INR k / 2 ≠ 0)%R by (pose proof (pos_INR k); lra). field. repeat split; try done; pose proof (pos_INR k); lra.
Qed.
Lemma unit_ball_pos d : (0 < unit_ball d)%R.
Proof.
  assert (HP := PI_RGT_0). induction (lt_wf d) as [d _ IH]. destruct d as [|[|k]]; [cbn; lra|cbn; lra|].
  change (0 < 2 * PI / INR (S (S k)) * unit_ball k)%R. apply Rmult_lt_0_compat; [|apply IH; lia].
  apply Rdiv_lt_0_compat; [lra|]. apply lt_0_INR. lia.
Qed.
Lemma unit_ball_gamma_base d : 1 ≤ d →
  (Rpower PI (INR d / 2 - / 2) / gamma_half (d + 1) = unit_ball (d - 1))%R.
Proof.
  intros Hd. rewrite <- unit_ball_gamma. replace (d - 1 + 2) with (d + 1) by lia.
  replace (INR (d - 1)) with (INR d - 1)%R; [|rewrite minus_INR by lia; cbn; lra].
  do 2 f_equal. lra.
Qed.
Lemma foldl_Rmult a l : foldl Rmult a l = (a * foldr Rmult 1 l)%R.
Proof. revert a. induction l as [|x l IH]; intros a; cbn; [lra|]. rewrite IH. lra. Qed.

(** The volume is that of the outer body minus that of the hollow inner body. *)
Theorem C56_volume (s : shape) (v : R) :
  constructed_shape s → snd (Volume s) = v →
  let d := sh_dim s in
  let r := default 0%R (sh_radius s) in
  let h := default 0%R (sh_hollow s) in
  let T := default 0%R (sh_duration s) in
  (sh_name s = "ball" → v = ball_volume d r - (if decide (h = 0) then 0 else ball_volume d (h * r)))%R ∧
  (sh_name s = "bicone" → v = bicone_volume d r - (if decide (h = 0) then 0 else bicone_volume d (h * r)))%R ∧
  (sh_name s = "cylinder" →
     v = cylinder_volume d r T - (if decide (h = 0) then 0 else cylinder_volume d (h * r) T))%R ∧
  (sh_name s = "cube" → v = box_volume (replicate d (default 0%R (sh_edge s)))) ∧
  (sh_name s = "cuboid" → v = box_volume (default [] (sh_edges s))).
Proof.
  intros Hs Hv. assert (Hwf := constructed_wf s Hs). destruct Hwf as [Hd Hc Hcases].
  assert (Hnone : sh_volume s = None).
  { destruct Hs as (f32 & dim & name & args & E). revert E. unfold CoordinateShape, init_center.
    repeat (match goal with
      | |- context [decide ?P] => destruct (decide P); cbn [res_bind]
      | |- context [rangecheck ?a ?b ?c] => destruct (rangecheck a b c); cbn [res_bind]
      | |- context [match a_center args with _ => _ end] => destruct (a_center args); cbn [res_bind]
      end; try discriminate); intros E; injection E as <-; reflexivity. }
  unfold Volume in Hv. rewrite Hnone in Hv. cbn in Hv. subst v. cbn zeta.
  unfold compute_volume.
  assert (HINR : (INR (sh_dim s) ≠ 0)%R) by (apply not_0_INR; lia).
  assert (Hpow : ∀ r : R, (r ^ sh_dim s = r * r ^ (sh_dim s - 1))%R).
  { intros r. destruct (sh_dim s) as [|k]; [lia|]. cbn. by rewrite Nat.sub_0_r. }
  split_and!; intros En; rewrite En; cbn zeta; str_decide;
    destruct Hcases as [[Hn Hr]|[[Hn Hr]|[[Hn Hr]|[Hn Hr]]]]; try (rewrite En in Hn; (destruct Hn; discriminate) || discriminate Hn).
  - destruct Hr as (r & h & -> & -> & Hr & Hh). cbn. rewrite unit_ball_gamma. unfold ball_volume.
    destruct (decide (0 < h)%R), (decide (h = 0)%R); try (exfalso; lra); cbn; ring.
  - destruct Hr as (r & h & -> & -> & Hr & Hh). cbn. rewrite unit_ball_gamma_base by done.
    unfold bicone_volume, ball_volume. rewrite (Hpow r), (Hpow (h * r)%R).
    destruct (decide (0 < h)%R), (decide (h = 0)%R); try (exfalso; lra); cbn; field; done.
  - destruct Hr as (r & h & T & -> & -> & -> & Hr & Hh & HT). cbn. rewrite unit_ball_gamma_base by done.
    unfold cylinder_volume, ball_volume.
    destruct (decide (0 < h)%R), (decide (h = 0)%R); try (exfalso; lra); cbn; ring.
  - destruct Hr as (e & -> & He). cbn. clear. unfold box_volume. induction (sh_dim s) as [|n IH]; cbn; [done|]. by rewrite IH.
  - destruct Hr as (es & -> & _). cbn. rewrite foldl_Rmult. unfold box_volume. lra.
Qed.
Print Assumptions C56_volume.
Lemma box_volume_pos es : (∀ x, x ∈ es → (0 < x)%R) → (0 < box_volume es)%R.
Proof.
  unfold box_volume. induction es as [|e es IH]; intros H; cbn; [lra|]. apply Rmult_lt_0_compat.
  - apply H, elem_of_list_here.
  - apply IH. intros x Hx. apply H. by apply elem_of_list_further.
Qed.
Lemma pow_shrink n h r : 1 ≤ n → (0 <= h < 1)%R → (0 < r)%R → ((h * r) ^ n < r ^ n)%R.
Proof.
  intros Hn Hh Hr. rewrite Rpow_mult_distr.
  assert (Hr' : (0 < r ^ n)%R) by by apply pow_lt.
  assert (Hh' : (h ^ n < 1)%R).
  { destruct n as [|n]; [lia|]. cbn. assert (h ^ n <= 1)%R.
    { replace 1%R with (1 ^ n)%R by apply pow1. apply pow_incr. lra. }
    assert (0 <= h ^ n)%R by (apply pow_le; lra). nra. }
  nra.
Qed.
(** The volume is positive - except for a hollow cylinder in one dimension, whose volume 0
    makes Density a division by zero. *)
Theorem C56_volume_positive (s : shape) :
  constructed_shape s →
  ((sh_name s = "cylinder" ∧ sh_dim s = 1 ∧ (0 < default 0 (sh_hollow s))%R) → snd (Volume s) = 0%R) ∧
  (¬ (sh_name s = "cylinder" ∧ sh_dim s = 1 ∧ (0 < default 0 (sh_hollow s))%R) → (0 < snd (Volume s))%R).
Proof.
  intros Hs. destruct (C56_volume s _ Hs eq_refl) as (V1 & V2 & V3 & V4 & V5).
  destruct (constructed_wf s Hs) as [Hd _ Hcases]. set (v := snd (Volume s)) in *. clearbody v.
  split.
  - intros (En & Ed & Hh). rewrite (V3 En), Ed. unfold cylinder_volume, ball_volume. cbn.
    destruct (decide (default 0 (sh_hollow s) = 0)%R); lra.
  - intros Hn. assert (HP := unit_ball_pos (sh_dim s)). assert (HP' := unit_ball_pos (sh_dim s - 1)).
    assert (HI : (0 < INR (sh_dim s))%R) by (apply lt_0_INR; lia).
    destruct Hcases as [[[En|En] (r & h & Er & Eh & Hr & Hh)]|[[En (r & h & T & Er & Eh & ET & Hr & Hh & HT)]|[[En (e & Ee & He)]|[En (es & Ees & _ & He)]]]].
    + rewrite (V1 En), Er, Eh. cbn. unfold ball_volume. pose proof (pow_shrink (sh_dim s) h r Hd Hh Hr).
      assert (0 < r ^ sh_dim s)%R by by apply pow_lt. destruct (decide (h = 0%R)).
      * rewrite Rminus_0_r. by apply Rmult_lt_0_compat.
      * rewrite <- Rmult_minus_distr_l. apply Rmult_lt_0_compat; [done|lra].
    + rewrite (V2 En), Er, Eh. cbn. unfold bicone_volume, ball_volume.
      pose proof (pow_shrink (sh_dim s) h r Hd Hh Hr).
      assert (Hpow : ∀ r : R, (r * (unit_ball (sh_dim s - 1) * r ^ (sh_dim s - 1)) = unit_ball (sh_dim s - 1) * r ^ sh_dim s)%R).
      { intros q. destruct (sh_dim s) as [|k]; [lia|]. cbn. rewrite Nat.sub_0_r. ring. }
      rewrite !Hpow. assert (0 < r ^ sh_dim s)%R by by apply pow_lt.
      assert (0 < / INR (sh_dim s))%R by by apply Rinv_0_lt_compat.
      replace (2 * (unit_ball (sh_dim s - 1) * r ^ sh_dim s / INR (sh_dim s)) -
        (if decide (h = 0%R) then 0 else 2 * (unit_ball (sh_dim s - 1) * (h * r) ^ sh_dim s / INR (sh_dim s))))%R
        with (2 * / INR (sh_dim s) * (unit_ball (sh_dim s - 1) * (r ^ sh_dim s - if decide (h = 0%R) then 0 else (h * r) ^ sh_dim s)))%R.
      2: { destruct (decide (h = 0%R)); field; lra. }
      apply Rmult_lt_0_compat; [lra|]. apply Rmult_lt_0_compat; [done|]. destruct (decide (h = 0%R)); lra.
    + rewrite (V3 En), Er, Eh, ET. cbn. rewrite En, Eh in Hn. cbn in Hn. unfold cylinder_volume, ball_volume.
      assert (0 < r ^ (sh_dim s - 1))%R by by apply pow_lt.
      destruct (decide (h = 0%R)) as [->|Hz]; [|].
      * rewrite Rminus_0_r. repeat apply Rmult_lt_0_compat; done.
      * assert (Hd2 : 1 ≤ sh_dim s - 1).
        { destruct (decide (sh_dim s = 1)) as [E|]; [|lia]. exfalso. apply Hn. split_and!; [done|done|lra]. }
        pose proof (pow_shrink (sh_dim s - 1) h r Hd2 Hh Hr).
        replace (unit_ball (sh_dim s - 1) * r ^ (sh_dim s - 1) * T - unit_ball (sh_dim s - 1) * (h * r) ^ (sh_dim s - 1) * T)%R
          with (unit_ball (sh_dim s - 1) * T * (r ^ (sh_dim s - 1) - (h * r) ^ (sh_dim s - 1)))%R by ring.
        apply Rmult_lt_0_compat; [by apply Rmult_lt_0_compat|lra].
    + rewrite (V4 En), Ee. cbn. apply box_volume_pos. intros x [-> _]%elem_of_replicate. done.
    + rewrite (V5 En), Ees. cbn. by apply box_volume_pos.
Qed.
Print Assumptions C56_volume_positive.
(** Later readings return the value of the first one and leave the object alone. *)
Theorem C56_volume_cached (s : shape) :
  let s1 := fst (Volume s) in
  Volume s1 = (s1, snd (Volume s)) ∧
  sh_dim s1 = sh_dim s ∧ sh_name s1 = sh_name s ∧ sh_center s1 = sh_center s ∧
  sh_radius s1 = sh_radius s ∧ sh_hollow s1 = sh_hollow s ∧ sh_duration s1 = sh_duration s ∧
  sh_edge s1 = sh_edge s ∧ sh_edges s1 = sh_edges s.
Proof. unfold Volume. destruct (sh_volume s) eqn:E; cbn; [rewrite E|]; done. Qed.
Print Assumptions C56_volume_cached.

(** *** Limits *)
Lemma offset_le_dist2 s x k i : i ≤ k < sh_dim s → (offset s x k * offset s x k <= dist2_from s x i)%R.
Proof.
  intros Hk. unfold dist2_from. assert (Hin : k ∈ seq i (sh_dim s - i)) by (apply elem_of_seq; lia).
  induction (seq i (sh_dim s - i)) as [|a l IH]; [by apply elem_of_nil in Hin|].
  rewrite fmap_cons, rsum_cons. assert (Hl : (0 <= rsum ((λ k, offset s x k * offset s x k)%R <$> l))%R).
  { clear. induction l as [|b l IH]; [cbn; lra|]. rewrite fmap_cons, rsum_cons. pose proof (Rle_0_sqr (offset s x b)) as H. unfold Rsqr in H. lra. }
  apply elem_of_cons in Hin as [<-|Hin]; [lra|]. specialize (IH Hin).
  pose proof (Rle_0_sqr (offset s x a)) as H. unfold Rsqr in H. lra.
Qed.
Lemma offset_le_dist s x k i : i ≤ k < sh_dim s → (Rabs (offset s x k) <= sqrt (dist2_from s x i))%R.
Proof.
  intros Hk. rewrite <- (sqrt_Rsqr_abs (offset s x k)). apply sqrt_le_1_alt. by apply offset_le_dist2.
Qed.
(** A point given by its offsets from the centre. *)
Definition point_at (s : shape) (f : nat → R) : list R :=
  (λ i, nth i (sh_center s) 0 + f i)%R <$> seq 0 (sh_dim s).
Lemma point_at_nth s f i : i < sh_dim s → nth i (point_at s f) 0%R = (nth i (sh_center s) 0 + f i)%R.
Proof.
  intros Hi. unfold point_at. rewrite nth_lookup, list_lookup_fmap, lookup_seq_lt by done. done.
Qed.
Lemma point_at_offset s f i : i < sh_dim s → offset s (point_at s f) i = f i.
Proof. intros Hi. unfold offset. rewrite point_at_nth by done. lra. Qed.
Lemma rsum_single (g : nat → R) l k : NoDup l → k ∈ l → (∀ i, i ∈ l → i ≠ k → g i = 0%R) →
  rsum (g <$> l) = g k.
Proof.
  induction l as [|a l IH]; intros Hnd Hk Hz; [by apply elem_of_nil in Hk|].
  apply NoDup_cons in Hnd as [Ha Hnd]. rewrite fmap_cons, rsum_cons. apply elem_of_cons in Hk as [->|Hk].
  - assert (E : rsum (g <$> l) = 0%R); [|lra].
    assert (Hz' : ∀ i, i ∈ l → g i = 0%R) by (intros i Hi; apply Hz; [by apply elem_of_list_further|by intros ->]).
    clear -Hz'. induction l as [|b l IH]; [done|]. rewrite fmap_cons, rsum_cons, IH, Hz'; [lra|apply elem_of_list_here|].
    intros i Hi. apply Hz'. by apply elem_of_list_further.
  - rewrite IH, Hz; [lra|apply elem_of_list_here|by intros ->|done|done|].
    intros i Hi Hn. apply Hz; [by apply elem_of_list_further|done].
Qed.
Lemma rsum_zero (g : nat → R) l : (∀ i, i ∈ l → g i = 0%R) → rsum (g <$> l) = 0%R.
Proof.
  induction l as [|b l IH]; intros Hz; [done|]. rewrite fmap_cons, rsum_cons, IH, Hz; [lra|apply elem_of_list_here|].
  intros i Hi. apply Hz. by apply elem_of_list_further.
Qed.
Lemma point_dist_single s f i k : i ≤ k < sh_dim s → (∀ j, i ≤ j → j ≠ k → f j = 0%R) →
  sqrt (dist2_from s (point_at s f) i) = Rabs (f k).
Proof.
  intros Hk Hz. unfold dist2_from. rewrite (rsum_single _ _ k).
  - rewrite point_at_offset by lia. apply sqrt_Rsqr_abs.
  - apply NoDup_seq.
  - apply elem_of_seq. lia.
  - intros j Hj Hn. apply elem_of_seq in Hj. rewrite point_at_offset, Hz by lia. lra.
Qed.
Lemma point_dist_zero s f i : (∀ j, i ≤ j → f j = 0%R) → sqrt (dist2_from s (point_at s f) i) = 0%R.
Proof.
  intros Hz. unfold dist2_from. rewrite rsum_zero; [apply sqrt_0|].
  intros j Hj. apply elem_of_seq in Hj. rewrite point_at_offset, Hz by lia. lra.
Qed.
Lemma point_at_length s f : length (point_at s f) = sh_dim s.
Proof. unfold point_at. by rewrite fmap_length, seq_length. Qed.

(** The half extent of a shape along a dimension. *)
Definition half_extent (s : shape) (d : nat) : R :=
  if decide (sh_name s = "cylinder" ∧ d = 0) then (default 0 (sh_duration s) / 2)%R
  else if decide (sh_name s = "cube") then (default 0 (sh_edge s) / 2)%R
  else if decide (sh_name s = "cuboid") then (nth d (default [] (sh_edges s)) 0 / 2)%R
  else default 0%R (sh_radius s).
Definition empty_cylinder (s : shape) : Prop :=
  sh_name s = "cylinder" ∧ sh_dim s = 1 ∧ (0 < default 0 (sh_hollow s))%R.

Lemma half_extent_pos s d : shape_wf s → d < sh_dim s → (0 < half_extent s d)%R.
Proof.
  intros [Hd _ Hc] Hlt. unfold half_extent.
  destruct Hc as [[[En|En] (r & h & Er & Eh & Hr & Hh)]|[[En (r & h & T & Er & Eh & ET & Hr & Hh & HT)]|[[En (e & Ee & He)]|[En (es & Ees & Hl & He)]]]]; rewrite En.
  1,2: rewrite decide_False by (by intros [? _]); str_decide; rewrite Er; cbn; lra.
  - destruct (decide ("cylinder" = "cylinder" ∧ d = 0)) as [[_ ->]|Hn]; [rewrite ET; cbn; lra|].
    str_decide. rewrite Er. cbn. lra.
  - rewrite decide_False by (by intros [? _]). str_decide. rewrite Ee. cbn. lra.
  - rewrite decide_False by (by intros [? _]). str_decide. rewrite Ees. cbn.
    enough (0 < nth d es 0)%R by lra. apply He. rewrite nth_lookup.
    destruct (lookup_lt_is_Some_2 es d) as [x Hx]; [lia|]. rewrite Hx. cbn. by eapply elem_of_list_lookup_2.
Qed.
(** No point of the shape is further from the centre than the half extent. *)
Lemma region_bound s x d : shape_wf s → d < sh_dim s → in_shape s x →
  (Rabs (offset s x d) <= half_extent s d)%R.
Proof.
  intros [Hd _ Hc] Hlt [_ (H1 & H2 & H3 & H4 & H5)]. unfold half_extent.
  destruct Hc as [[[En|En] (r & h & Er & Eh & Hr & Hh)]|[[En (r & h & T & Er & Eh & ET & Hr & Hh & HT)]|[[En (e & Ee & He)]|[En (es & Ees & Hl & He)]]]]; rewrite En.
  - rewrite decide_False by (by intros [? _]); str_decide. specialize (H1 En). unfold dist_all in H1.
    pose proof (offset_le_dist s x d 0 ltac:(lia)). lra.
  - rewrite decide_False by (by intros [? _]); str_decide. specialize (H2 En). unfold dist_space in H2.
    pose proof (sqrt_pos (dist2_from s x 1)). pose proof (Rabs_pos (offset s x 0)).
    destruct d as [|d]; [lra|]. pose proof (offset_le_dist s x (S d) 1 ltac:(lia)). lra.
  - specialize (H3 En). unfold dist_space in H3.
    destruct (decide ("cylinder" = "cylinder" ∧ d = 0)) as [[_ ->]|Hn]; [lra|]. str_decide.
    pose proof (offset_le_dist s x d 1). destruct d as [|d]; [exfalso; by apply Hn|].
    pose proof (offset_le_dist s x (S d) 1 ltac:(lia)). lra.
  - rewrite decide_False by (by intros [? _]); str_decide. by apply H4.
  - rewrite decide_False by (by intros [? _]); str_decide. by apply H5.
Qed.
(** The half extent is attained in both directions. *)
Lemma region_attained s d (sgn : R) : shape_wf s → d < sh_dim s → ¬ empty_cylinder s → (sgn = 1 ∨ sgn = -1)%R →
  ∃ x, in_shape s x ∧ offset s x d = (sgn * half_extent s d)%R.
Proof.
  intros Hwf Hlt Hne Hsgn. assert (Hpos := half_extent_pos s d Hwf Hlt). destruct Hwf as [Hd _ Hc].
  assert (Habs : (Rabs (sgn * half_extent s d) = half_extent s d)%R).
  { rewrite Rabs_mult, (Rabs_right (half_extent s d)) by lra.
    destruct Hsgn as [-> | ->]; [rewrite Rabs_R1|rewrite Rabs_left by lra]; lra. }
  set (f := λ i : nat, if decide (i = d) then (sgn * half_extent s d)%R
            else if decide (sh_name s = "cylinder" ∧ d = 0 ∧ i = 1) then default 0%R (sh_radius s) else 0%R).
  assert (Ef : f d = (sgn * half_extent s d)%R) by (unfold f; by rewrite decide_True).
  exists (point_at s f). split; [split; [apply point_at_length|]|by rewrite point_at_offset].
  destruct Hc as [[[En|En] (r & h & Er & Eh & Hr & Hh)]|[[En (r & h & T & Er & Eh & ET & Hr & Hh & HT)]|[[En (e & Ee & He)]|[En (es & Ees & Hl & He)]]]];
    unfold in_region; split_and!; intros En'; try (rewrite En in En'; discriminate En'); clear En'.
  - assert (Eh' : half_extent s d = r).
    { unfold half_extent. rewrite En, decide_False by (by intros [? _]). str_decide. by rewrite Er. }
    rewrite Er, Eh. cbn. unfold dist_all. rewrite (point_dist_single s f 0 d), Ef, Habs, Eh'; [nra|lia|].
    intros j _ Hj. unfold f. rewrite decide_False by done. rewrite En, decide_False by (by intros [? _]). done.
  - assert (Eh' : half_extent s d = r).
    { unfold half_extent. rewrite En, decide_False by (by intros [? _]). str_decide. by rewrite Er. }
    rewrite Er, Eh. cbn. unfold dist_space.
    assert (Hz : ∀ j, j ≠ d → f j = 0%R).
    { intros j Hj. unfold f. rewrite decide_False by done. rewrite En, decide_False by (by intros [? _]). done. }
    rewrite point_at_offset by lia. destruct d as [|d].
    + rewrite Ef, Habs, Eh', point_dist_zero; [nra|]. intros j Hj. apply Hz. lia.
    + rewrite (Hz 0) by lia. rewrite Rabs_R0, (point_dist_single s f 1 (S d)), Ef, Habs, Eh'; [nra|lia|].
      intros j _ Hj. by apply Hz.
  - split.
    { rewrite ET. cbn. rewrite point_at_offset by lia. destruct (decide (d = 0)) as [->|Hn].
    + assert (Eh' : half_extent s 0 = (T / 2)%R).
      { unfold half_extent. rewrite En, decide_True by done. by rewrite ET. }
      rewrite Ef, Habs, Eh'. lra.
    + unfold f. rewrite decide_False by done. rewrite decide_False by (intros (_ & ? & _); done). rewrite Rabs_R0. lra. }
    rewrite Er, Eh. cbn. unfold dist_space. destruct (decide (d = 0)) as [->|Hn].
    + destruct (decide (sh_dim s = 1)) as [E1|E1].
      * assert (h = 0)%R as ->.
        { destruct (Rlt_dec 0 h); [|lra]. exfalso. apply Hne. unfold empty_cylinder. rewrite Eh. cbn. done. }
        unfold dist2_from. rewrite E1. cbn. rewrite sqrt_0. lra.
      * assert (E1' : f 1 = r).
        { unfold f. rewrite decide_False by done. rewrite decide_True by done. by rewrite Er. }
        rewrite (point_dist_single s f 1 1), E1', Rabs_right; [nra|lra|lia|].
        intros j Hj Hj1. unfold f. rewrite decide_False by lia. rewrite decide_False; [done|]. intros (_ & _ & ?). done.
    + assert (Eh' : half_extent s d = r).
      { unfold half_extent. rewrite En, decide_False by (by intros [_ ?]). str_decide. by rewrite Er. }
      rewrite (point_dist_single s f 1 d), Ef, Habs, Eh'; [nra|lia|].
      intros j _ Hj. unfold f. rewrite decide_False by done. rewrite decide_False; [done|]. intros (_ & ? & _). done.
  - intros i Hi. rewrite point_at_offset by done. rewrite Ee. cbn.
    assert (Eh' : half_extent s d = (e / 2)%R).
    { unfold half_extent. rewrite En, decide_False by (by intros [? _]). str_decide. by rewrite Ee. }
    unfold f. destruct (decide (i = d)) as [->|Hn]; [rewrite Habs; lra|].
    rewrite En, decide_False by (by intros [? _]). rewrite Rabs_R0. lra.
  - intros i Hi. rewrite point_at_offset by done. rewrite Ees. cbn.
    assert (Eh' : half_extent s d = (nth d es 0 / 2)%R).
    { unfold half_extent. rewrite En, decide_False by (by intros [? _]). str_decide. by rewrite Ees. }
    unfold f. destruct (decide (i = d)) as [->|Hn]; [rewrite Habs; lra|].
    rewrite En, decide_False by (by intros [? _]). rewrite Rabs_R0.
    enough (0 < nth i es 0)%R by lra. apply He. rewrite nth_lookup.
    destruct (lookup_lt_is_Some_2 es i) as [x Hx]; [lia|]. rewrite Hx. cbn. by eapply elem_of_list_lookup_2.
Qed.
Lemma Limits_eq s d : d < sh_dim s →
  Limits s (Z.of_nat d) = Ok (- half_extent s d + nth d (sh_center s) 0, half_extent s d + nth d (sh_center s) 0)%R.
Proof.
  intros Hd. unfold Limits. rewrite decide_False by lia. rewrite Nat2Z.id.
  assert (E : ∀ l l' : R, l = l' → Ok (- l + nth d (sh_center s) 0, l + nth d (sh_center s) 0)%R =
    Ok (- l' + nth d (sh_center s) 0, l' + nth d (sh_center s) 0)%R) by by intros ?? ->.
  apply E. unfold half_extent.
  destruct (decide (Z.of_nat d = 0%Z ∧ _)) as [[H1 H2]|Hn], (decide (_ = "cylinder" ∧ d = 0)) as [[H3 H4]|Hn']; try done.
  - exfalso. apply Hn'. split; [done|lia].
  - exfalso. apply Hn. split; [lia|done].
Qed.

(** Limits(d) is the exact range of coordinate d over the points of the shape. *)
Theorem C56_Limits (s : shape) (d : Z) :
  constructed_shape s →
  ((0 <= d < Z.of_nat (sh_dim s))%Z →
     ∃ lo hi, Limits s d = Ok (lo, hi) ∧ (lo < hi)%R ∧
       ((lo + hi) / 2 = nth (Z.to_nat d) (sh_center s) 0)%R ∧
       (∀ x, in_shape s x → lo <= nth (Z.to_nat d) x 0 <= hi)%R ∧
       (¬ (sh_name s = "cylinder" ∧ sh_dim s = 1 ∧ (0 < default 0 (sh_hollow s))%R) →
          ∃ x y, in_shape s x ∧ in_shape s y ∧ nth (Z.to_nat d) x 0%R = lo ∧ nth (Z.to_nat d) y 0%R = hi)) ∧
  (¬ (0 <= d < Z.of_nat (sh_dim s))%Z → Limits s d = Err ValueError).
Proof.
  intros Hs. assert (Hwf := constructed_wf s Hs). split.
  - intros Hd. assert (Hlt : Z.to_nat d < sh_dim s) by lia.
    assert (E := Limits_eq s (Z.to_nat d) Hlt). rewrite Z2Nat.id in E by lia.
    assert (Hpos := half_extent_pos s _ Hwf Hlt).
    eexists _, _. split; [exact E|]. split_and!; [lra|lra| |].
    + intros x Hx. pose proof (region_bound s x _ Hwf Hlt Hx) as Hb. unfold offset in Hb.
      revert Hb. unfold Rabs. destruct (Rcase_abs _); lra.
    + intros Hne. destruct (region_attained s (Z.to_nat d) (-1) Hwf Hlt Hne) as (x & Hx & Ex); [by right|].
      destruct (region_attained s (Z.to_nat d) 1 Hwf Hlt Hne) as (y & Hy & Ey); [by left|].
      exists x, y. unfold offset in Ex, Ey. split_and!; [done|done|lra|lra].
  - intros Hd. unfold Limits. rewrite decide_True; [done|]. lia.
Qed.
Print Assumptions C56_Limits.

(** *** MaxEdgeHalf *)
Lemma foldl_Rmax_ge l : ∀ v, (v <= foldl Rmax v l)%R ∧ (∀ x, x ∈ l → x <= foldl Rmax v l)%R ∧
  (foldl Rmax v l = v ∨ foldl Rmax v l ∈ l).
Proof.
  induction l as [|a l IH]; intros v; cbn.
  { split_and!; [lra| |by left]. intros x Hx. by apply elem_of_nil in Hx. }
  destruct (IH (Rmax v a)) as (H1 & H2 & H3). pose proof (Rmax_l v a). pose proof (Rmax_r v a). split_and!.
  - lra.
  - intros x [->|Hx]%elem_of_cons; [lra|by apply H2].
  - destruct H3 as [->|H3]; [|right; by apply elem_of_list_further].
    destruct (Rmax_case v a (λ m, m = v ∨ m = a)) as [->| ->]; [by left|by right|by left|right; apply elem_of_list_here].
Qed.
Lemma np_take_ok l dims : (∀ i, i ∈ dims → 0 <= i < Z.of_nat (length l))%Z →
  np_take l dims = Ok ((λ i, nth (Z.to_nat i) l 0%R) <$> dims).
Proof.
  induction dims as [|i dims IH]; intros H; cbn; [done|].
  assert (Hi := H i ltac:(apply elem_of_list_here)). unfold np_index. rewrite (decide_False (P := (i < 0)%Z)) by lia.
  rewrite decide_False by lia. destruct (lookup_lt_is_Some_2 l (Z.to_nat i)) as [x Hx]; [lia|]. rewrite Hx. cbn.
  rewrite IH; [|intros j Hj; apply H; by apply elem_of_list_further]. cbn. by rewrite nth_lookup, Hx.
Qed.
(** The value bounds the half extent along every listed dimension, and is one of them -
    except for a cylinder when the time dimension is listed and no space dimension is: then
    the radius is counted although it is not asked for. *)
Theorem C56_MaxEdgeHalf (s : shape) (dims : list Z) :
  constructed_shape s → dims ≠ [] → (∀ d, d ∈ dims → (0 <= d < Z.of_nat (sh_dim s))%Z) →
  ∃ m, MaxEdgeHalf s dims = Ok m ∧
    (∀ d lo hi, d ∈ dims → Limits s d = Ok (lo, hi) → ((hi - lo) / 2 <= m)%R) ∧
    ((sh_name s = "cylinder" → ∃ d, d ∈ dims ∧ d ≠ 0%Z) →
       ∃ d lo hi, d ∈ dims ∧ Limits s d = Ok (lo, hi) ∧ ((hi - lo) / 2 = m)%R).
Proof.
  intros Hs Hne Hdims. destruct (constructed_wf s Hs) as [Hd _ Hc].
  assert (HL : ∀ d, d ∈ dims → Limits s d = Ok (- half_extent s (Z.to_nat d) + nth (Z.to_nat d) (sh_center s) 0,
    half_extent s (Z.to_nat d) + nth (Z.to_nat d) (sh_center s) 0)%R).
  { intros d Hin. specialize (Hdims d Hin). rewrite <- Limits_eq by lia. by rewrite Z2Nat.id by lia. }
  enough (∃ m, MaxEdgeHalf s dims = Ok m ∧ (∀ d, d ∈ dims → (half_extent s (Z.to_nat d) <= m)%R) ∧
    ((sh_name s = "cylinder" → ∃ d, d ∈ dims ∧ d ≠ 0%Z) → ∃ d, d ∈ dims ∧ half_extent s (Z.to_nat d) = m)) as (m & Hm & H1 & H2).
  { exists m. split_and!; [done| |].
    - intros d lo hi Hin E. rewrite (HL d Hin) in E. injection E as <- <-. specialize (H1 d Hin). lra.
    - intros H. destruct (H2 H) as (d & Hin & E). eexists d, _, _. split_and!; [done|by apply HL|]. lra. }
  destruct dims as [|d0 ds] eqn:Edims; [done|]. rewrite <- Edims in *.
  assert (Hd0 : d0 ∈ dims) by (rewrite Edims; apply elem_of_list_here).
  unfold MaxEdgeHalf.
  destruct Hc as [[[En|En] (r & h & Er & Eh & Hr & Hh)]|[[En (r & h & T & Er & Eh & ET & Hr & Hh & HT)]|[[En (e & Ee & He)]|[En (es & Ees & Hl & He)]]]]; rewrite En; str_decide.
  1,2: assert (Eh' : ∀ d, half_extent s d = r) by (intros d; unfold half_extent; rewrite En, decide_False by (by intros [? _]); str_decide; by rewrite Er);
    exists r; rewrite Er; split_and!; [done|intros d _; rewrite Eh'; lra|]; intros _; exists d0; by rewrite Eh'.
  - assert (Eh' : ∀ d, half_extent s d = if decide (d = 0) then (T / 2)%R else r).
    { intros d. unfold half_extent. rewrite En. destruct (decide (d = 0)) as [->|Hn].
      - rewrite decide_True by done. by rewrite ET.
      - rewrite decide_False by (by intros [_ ?]). str_decide. by rewrite Er. }
    rewrite Er, ET. cbn. destruct (decide (0%Z ∈ dims)) as [Hin|Hin].
    + exists (Rmax r (T / 2)). pose proof (Rmax_l r (T / 2)). pose proof (Rmax_r r (T / 2)). split_and!; [done| |].
      * intros d _. rewrite Eh'. destruct (decide _); lra.
      * intros H'. destruct (H' eq_refl) as (d & Hdin & Hd'). specialize (Hdims d Hdin).
        destruct (Rle_dec r (T / 2)).
        -- exists 0%Z. rewrite Eh'. cbn. rewrite Rmax_right; done.
        -- exists d. rewrite Eh', decide_False by lia. rewrite Rmax_left; [done|lra].
    + exists r. split_and!; [done| |].
      * intros d Hdin. rewrite Eh'. specialize (Hdims d Hdin). destruct (decide _) as [E0|]; [|lra]. exfalso. apply Hin.
        by replace 0%Z with d by lia.
      * intros _. exists d0. split; [done|]. rewrite Eh'. specialize (Hdims d0 Hd0). destruct (decide _) as [E0|]; [|done].
        exfalso. apply Hin. by replace 0%Z with d0 by lia.
  - assert (Eh' : ∀ d, half_extent s d = (e / 2)%R).
    { intros d. unfold half_extent. rewrite En, decide_False by (by intros [? _]). str_decide. by rewrite Ee. }
    exists (e / 2)%R. rewrite Ee. split_and!; [done|intros d _; rewrite Eh'; lra|]. intros _. exists d0. by rewrite Eh'.
  - assert (Eh' : ∀ d, half_extent s d = (nth d es 0 / 2)%R).
    { intros d. unfold half_extent. rewrite En, decide_False by (by intros [? _]). str_decide. by rewrite Ees. }
    rewrite Ees. change (default [] (Some es)) with es.
    rewrite np_take_ok by (intros i Hi; rewrite Hl; by apply Hdims). cbn [res_bind]. rewrite Edims.
    rewrite fmap_cons. cbn [py_max res_map].
    set (l := (λ i : Z, nth (Z.to_nat i) es 0%R) <$> ds). set (v := nth (Z.to_nat d0) es 0%R).
    destruct (foldl_Rmax_ge l v) as (H1 & H2 & H3). eexists. split_and!; [done| |].
    + intros d [-> |Hin]%elem_of_cons; rewrite Eh'; [fold v; lra|].
      assert (nth (Z.to_nat d) es 0 <= foldl Rmax v l)%R; [|lra]. apply H2. unfold l.
      apply elem_of_list_fmap. by exists d.
    + intros _. destruct H3 as [E|Hin].
      * exists d0. split; [apply elem_of_list_here|]. rewrite Eh'. fold v. by rewrite E.
      * apply elem_of_list_fmap in Hin as (d & E & Hin). exists d. split; [by apply elem_of_list_further|].
        rewrite Eh'. by rewrite <- E.
Qed.
Print Assumptions C56_MaxEdgeHalf.

(** Non-vacuity: a hollow cylinder, and the exceptional shape. *)
Example C55_nonvacuous :
  valid_args (λ x, x) 3 "cylinder" (ShapeArgs (Some [1; 2; 3])%R (Some 2%R) (Some (1 / 2)%R) None None None).
Proof.
  split; cbn; try done; try lra.
  - left. unfold ball_like. auto.
  - intros c [= <-]. done.
Qed.
Example C56_nonvacuous : ∃ s, constructed_shape s ∧ sh_name s = "cylinder" ∧ sh_dim s = 3 ∧
  in_shape s (point_at s (λ i, if decide (i = 1) then 2%R else 0%R)) ∧ snd (Volume s) = (12 * PI)%R.
Proof.
  destruct (proj1 (C55_validation _ _ _ _) C55_nonvacuous) as (s & E & Hd & Hn & Hc & Hb & Ht & _ & _).
  assert (Hs : constructed_shape s) by (by eexists _, _, _, _).
  destruct Hb as [Er Eh]; [unfold ball_like; auto|]. specialize (Ht eq_refl).
  cbn in Hd, Hn, Er, Eh, Ht. exists s. split_and!; [done|done|lia| |].
  - split; [apply point_at_length|]. unfold in_region.
    split_and!; intros En; rewrite Hn in En; try discriminate En.
    rewrite Er, Eh, Ht. unfold dist_space. rewrite point_at_offset by lia. cbn [default from_option id].
    rewrite (point_dist_single _ _ 1 1).
    + rewrite decide_False by done. rewrite decide_True by done. rewrite Rabs_R0, (Rabs_right 2) by lra. unfold Datatypes.id. lra.
    + lia.
    + intros j _ Hj. by rewrite decide_False.
  - destruct (C56_volume s _ Hs eq_refl) as (_ & _ & V & _). rewrite (V Hn), Er, Eh, Ht.
    replace (sh_dim s) with 3 by lia. cbn [default from_option id].
    unfold Datatypes.id. rewrite decide_False by lra. unfold cylinder_volume, ball_volume. cbn. field.
Qed.
