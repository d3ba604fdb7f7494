(** Lemmas about the causal structure of de Sitter spacetime and the ellipses that light from
    a point reaches. *)
From Verif Require Import Base SpacetimeModel SpacetimeFacts TrigFacts Prop_Spacetime ShapeModel OutlineModel SpecOutline SpecSurface OutlineFacts SurfaceFacts ConeModel SpecCone.
From Coq Require Import Reals Rtrigo_def Ratan Lra Lia Psatz.
#[local] Open Scope nat_scope.

(** ** The causal cone in closed form *)
Lemma sqsum_vsub x y : length x = length y → sqsum (vsub y x) = (sqsum y + sqsum x - 2 * dot x y)%R.
Proof.
  revert y. induction x as [|a x IH]; intros [|b y] Hl; try done.
  - rewrite !sqsum_nil. unfold vsub, dot. cbn. unfold sqsum, rsum. cbn. lra.
  - unfold vsub in *. cbn [zip_with]. rewrite !sqsum_cons, dot_cons. rewrite IH by (cbn in Hl; lia). ring.
Qed.
Lemma sinh_opp x : (sinh (- x) = - sinh x)%R.
Proof. unfold sinh. rewrite Ropp_involutive. lra. Qed.
Section causal.
Context (alpha A B s t D : R).
Hypothesis HA : (0 < A)%R.
Hypothesis HB : (0 < B)%R.
Lemma ambient_order :
  (D * D + (B * cosh t - A * cosh s) * (B * cosh t - A * cosh s) <= (B * sinh t - A * sinh s) * (B * sinh t - A * sinh s))%R →
  (0 <= B * sinh t - A * sinh s ↔ 0 <= t - s)%R.
Proof using HA HB.
  intros H. set (d0 := (B * sinh t - A * sinh s)%R) in *. set (d1 := (B * cosh t - A * cosh s)%R) in *.
  assert (Hd : (d1 * d1 <= d0 * d0)%R) by (pose proof (Rle_0_sqr D) as HD; unfold Rsqr in HD; lra).
  assert (E1 : (d1 + d0 = B * exp t - A * exp s)%R) by (unfold d0, d1, cosh, sinh; field).
  assert (E2 : (d1 - d0 = B * exp (- t) - A * exp (- s))%R) by (unfold d0, d1, cosh, sinh; field).
  pose proof (exp_pos t) as Pt. pose proof (exp_pos s) as Ps. pose proof (exp_pos (- t)) as Pt'. pose proof (exp_pos (- s)) as Ps'.
  pose proof (exp_opp_mul t) as Mt. pose proof (exp_opp_mul s) as Ms.
  split; intros H0.
  - assert (Hab : (- d0 <= d1 <= d0)%R) by (split; nra).
    assert (F1 : (A * exp s <= B * exp t)%R) by lra. assert (F2 : (B * exp (- t) <= A * exp (- s))%R) by lra.
    apply Rnot_lt_le. intros Hlt. pose proof (exp_increasing t s ltac:(lra)) as G1. pose proof (exp_increasing (- s) (- t) ltac:(lra)) as G2.
    assert (A < B)%R.
    { apply Rmult_lt_reg_r with (exp t); [done|]. apply Rlt_le_trans with (A * exp s)%R; [apply Rmult_lt_compat_l; lra|lra]. }
    assert (B < A)%R; [|lra]. apply Rmult_lt_reg_r with (exp (- s)); [done|].
    apply Rlt_le_trans with (B * exp (- t))%R; [apply Rmult_lt_compat_l; lra|lra].
  - apply Rnot_lt_le. intros Hlt. assert (Hab : (d0 <= d1 <= - d0)%R) by (split; nra).
    assert (F1 : (B * exp t <= A * exp s)%R) by lra. assert (F2 : (A * exp (- s) <= B * exp (- t))%R) by lra.
    assert (G1 : (exp s <= exp t)%R) by (destruct (Rle_lt_or_eq_dec 0 (t - s) H0) as [Hx|Hx]; [left; apply exp_increasing; lra|replace t with s by lra; lra]).
    assert (G2 : (exp (- t) <= exp (- s))%R) by (destruct (Rle_lt_or_eq_dec 0 (t - s) H0) as [Hx|Hx]; [left; apply exp_increasing; lra|replace t with s by lra; lra]).
    assert (HBA : (B <= A)%R).
    { apply Rmult_le_reg_r with (exp s); [done|]. apply Rle_trans with (B * exp t)%R; [apply Rmult_le_compat_l; lra|lra]. }
    assert (HAB : (A <= B)%R).
    { apply Rmult_le_reg_r with (exp (- t)); [done|]. apply Rle_trans with (A * exp (- s))%R; [apply Rmult_le_compat_l; lra|lra]. }
    assert (EAB : A = B) by lra. assert (0 <= d0)%R; [|lra].
    unfold d0. rewrite EAB. replace (B * sinh t - B * sinh s)%R with (B * (sinh t - sinh s))%R by ring. apply Rmult_le_pos; [lra|].
    pose proof (sinh_mono s t ltac:(lra)). lra.
Qed.
End causal.
(** The amplitude of a point: its distance to the horizon. *)
Definition amp (alpha : R) (x : list R) : R := sqrt (alpha * alpha - sqsum (tail x)).
Lemma amp_pos alpha x : inside_horizon alpha x → (0 < amp alpha x)%R.
Proof. intros H. apply sqrt_lt_R0. unfold inside_horizon in H. lra. Qed.
Lemma amp_sq alpha x : inside_horizon alpha x → (amp alpha x * amp alpha x = alpha * alpha - sqsum (tail x))%R.
Proof. intros H. apply sqrt_sqrt. unfold inside_horizon in H. lra. Qed.
Lemma tail_length (x : list R) : length (tail x) = length x - 1.
Proof. destruct x; cbn; lia. Qed.
Lemma causal_dS dim alpha x y : (0 < alpha)%R → length x = length y →
  (Causality 0 (DeSitter dim alpha) x y).1 = true ↔
  inside_horizon alpha x ∧ inside_horizon alpha y ∧ (0 <= cget y 0 - cget x 0)%R ∧
  (alpha * alpha - dot (tail x) (tail y) <= amp alpha x * amp alpha y * cosh ((cget y 0 - cget x 0) / alpha))%R.
Proof.
  intros Ha Hl. cbn [Causality]. rewrite isCausal_dS_eq. unfold inside_horizon.
  destruct (decide _) as [[Hx Hy]|Hn]; [|split; [done|intros (? & ? & _); tauto]].
  rewrite isCausal_flat_fst. unfold flat_prec, dS_ambient, space_delta. fold (amp alpha x) (amp alpha y). unfold cget at 1 2 3 4. cbn [nth tail].
  change (cget ((amp alpha y * sinh (cget y 0 / alpha))%R :: (amp alpha y * cosh (cget y 0 / alpha))%R :: tail y) 0) with (amp alpha y * sinh (cget y 0 / alpha))%R.
  change (cget ((amp alpha x * sinh (cget x 0 / alpha))%R :: (amp alpha x * cosh (cget x 0 / alpha))%R :: tail x) 0) with (amp alpha x * sinh (cget x 0 / alpha))%R.
  unfold vsub. cbn [zip_with]. rewrite sqsum_cons. fold (vsub (tail y) (tail x)). rewrite sqsum_vsub by (rewrite !tail_length; lia).
  fold (cget x 0) (cget y 0).
  pose proof (amp_pos alpha x Hx) as HA. pose proof (amp_pos alpha y Hy) as HB. pose proof (amp_sq alpha x Hx) as EA. pose proof (amp_sq alpha y Hy) as EB.
  set (A := amp alpha x) in *. set (B := amp alpha y) in *. set (s := (cget x 0 / alpha)%R). set (t := (cget y 0 / alpha)%R).
  replace ((cget y 0 - cget x 0) / alpha)%R with (t - s)%R by (unfold t, s; field; lra).
  assert (Ets : (0 <= cget y 0 - cget x 0 ↔ 0 <= t - s)%R).
  { replace (t - s)%R with ((cget y 0 - cget x 0) * / alpha)%R by (unfold t, s; field; lra). assert (0 < / alpha)%R by (by apply Rinv_0_lt_compat). split; intros; nra. }
  rewrite Ets. rewrite cosh_minus. pose proof (cosh_sq s) as Cs. pose proof (cosh_sq t) as Ct.
  set (S := (sqsum (tail y) + sqsum (tail x) - 2 * dot (tail x) (tail y))%R).
  assert (HS : (0 <= S)%R) by (unfold S; rewrite <- sqsum_vsub by (rewrite !tail_length; lia); apply sqsum_nonneg).
  pose proof (ambient_order A B s t (sqrt S) HA HB) as HO. rewrite sqrt_sqrt in HO by done.
  assert (HI : ((B * cosh t - A * cosh s) * (B * cosh t - A * cosh s) + S <= (B * sinh t - A * sinh s) * (B * sinh t - A * sinh s) ↔
     alpha * alpha - dot (tail x) (tail y) <= A * B * (cosh t * cosh s - sinh t * sinh s))%R).
  { assert (E : ((B * cosh t - A * cosh s) * (B * cosh t - A * cosh s) + S - (B * sinh t - A * sinh s) * (B * sinh t - A * sinh s) =
      2 * (alpha * alpha - dot (tail x) (tail y) - A * B * (cosh t * cosh s - sinh t * sinh s)))%R).
    { unfold S. replace (sqsum (tail x)) with (alpha * alpha - A * A)%R by lra. replace (sqsum (tail y)) with (alpha * alpha - B * B)%R by lra.
      transitivity (B * B * (cosh t * cosh t - sinh t * sinh t - 1) + A * A * (cosh s * cosh s - sinh s * sinh s - 1) +
        2 * (alpha * alpha - dot (tail x) (tail y) - A * B * (cosh t * cosh s - sinh t * sinh s)))%R; [ring|]. rewrite Cs, Ct. ring. }
    lra. }
  split.
  - intros [H1 H2]. split; [done|]. split; [done|]. split; [apply HO; [lra|done]|]. by apply HI.
  - intros (_ & _ & H1 & H2). apply HI in H2. split; [apply HO; [lra|done]|done].
Qed.
Lemma dot_sym u v : dot u v = dot v u.
Proof.
  revert v. induction u as [|a u IH]; intros [|b v]; try done. rewrite !dot_cons, IH. ring.
Qed.
Lemma in_cone_dS dim alpha past o y : (0 < alpha)%R → length o = length y →
  in_cone (DeSitter dim alpha) past o y ↔
  inside_horizon alpha o ∧ inside_horizon alpha y ∧ (0 <= sign past * (cget y 0 - cget o 0))%R ∧
  (alpha * alpha - dot (tail o) (tail y) <= amp alpha o * amp alpha y * cosh ((cget y 0 - cget o 0) / alpha))%R.
Proof.
  intros Ha Hl. unfold in_cone. destruct past; cbn [sign]; rewrite causal_dS by done.
  - replace ((cget o 0 - cget y 0) / alpha)%R with (- ((cget y 0 - cget o 0) / alpha))%R by (field; lra). rewrite cosh_even, dot_sym, (Rmult_comm (amp alpha y)).
    split; intros (H1 & H2 & H3 & H4); repeat (split; [done || lra|]); done.
  - rewrite Rmult_1_l. done.
Qed.

(** ** The light cone *)
Lemma amp_dot alpha o y : inside_horizon alpha o → inside_horizon alpha y → length o = length y →
  (amp alpha o * amp alpha y <= alpha * alpha - dot (tail o) (tail y))%R.
Proof.
  intros Ho Hy Hl. pose proof (amp_sq alpha o Ho) as EA. pose proof (amp_sq alpha y Hy) as EB.
  set (A := amp alpha o) in *. set (B := amp alpha y) in *.
  assert (HS : (0 <= sqsum (tail y) + sqsum (tail o) - 2 * dot (tail o) (tail y))%R) by (rewrite <- sqsum_vsub by (rewrite !tail_length; lia); apply sqsum_nonneg).
  pose proof (Rle_0_sqr (A - B)) as H. unfold Rsqr in H. lra.
Qed.
Lemma set_time (y : list R) t : 1 ≤ length y → cget (<[0 := t]> y) 0 = t ∧ tail (<[0 := t]> y) = tail y ∧ length (<[0 := t]> y) = length y.
Proof. destruct y as [|a y]; cbn; [lia|done]. Qed.
Lemma time_abs past d : (0 <= sign past * d)%R → Rabs d = (sign past * d)%R.
Proof. destruct past; cbn; intros H; destruct (Rabs_cases d) as [[? ->]|[? ->]]; lra. Qed.
Lemma first_light_dS dim alpha past o y : (0 < alpha)%R → 1 ≤ length o → length o = length y →
  first_light (DeSitter dim alpha) past o y ↔
  inside_horizon alpha o ∧ inside_horizon alpha y ∧ (0 <= sign past * (cget y 0 - cget o 0))%R ∧
  (alpha * alpha - dot (tail o) (tail y) = amp alpha o * amp alpha y * cosh ((cget y 0 - cget o 0) / alpha))%R.
Proof.
  intros Ha H1 Hl. unfold first_light. rewrite in_cone_dS by done.
  assert (HT : ∀ t, in_cone (DeSitter dim alpha) past o (<[0 := t]> y) ↔
    inside_horizon alpha o ∧ inside_horizon alpha y ∧ (0 <= sign past * (t - cget o 0))%R ∧
    (alpha * alpha - dot (tail o) (tail y) <= amp alpha o * amp alpha y * cosh ((t - cget o 0) / alpha))%R).
  { intros t. destruct (set_time y t ltac:(lia)) as (E0 & Et & El). rewrite in_cone_dS by (done || lia). unfold inside_horizon, amp. rewrite E0, Et. done. }
  setoid_rewrite HT. clear HT.
  assert (Eab : ∀ d, (0 <= sign past * d)%R → cosh (d / alpha) = cosh (sign past * d / alpha)).
  { intros d Hd. rewrite <- (cosh_abs (d / alpha)). f_equal. unfold Rdiv. rewrite Rabs_mult, (time_abs past d Hd). f_equal. apply Rabs_pos_eq. left. by apply Rinv_0_lt_compat. }
  set (d := (cget y 0 - cget o 0)%R). set (c := (alpha * alpha - dot (tail o) (tail y))%R). split.
  - intros [(Ho & Hy & Hd & Hc) HF]. split; [done|]. split; [done|]. split; [done|].
    pose proof (amp_pos alpha o Ho) as HA. pose proof (amp_pos alpha y Hy) as HB. pose proof (amp_dot alpha o y Ho Hy Hl) as HC. fold c in HC.
    set (k := (amp alpha o * amp alpha y)%R) in *. assert (Hk : (0 < k)%R) by (by apply Rmult_lt_0_compat).
    apply Rle_antisym; [done|]. apply Rnot_lt_le. intros Hlt. rewrite (Eab d Hd) in *. set (z1 := (sign past * d / alpha)%R) in *.
    assert (Hz1 : (0 <= z1)%R) by (apply Rmult_le_pos; [done|left; by apply Rinv_0_lt_compat]).
    assert (HIVT : ∃ z, (0 <= z <= z1)%R ∧ (k * cosh z - c = 0)%R).
    { assert (Hcont : continuity (λ z, k * cosh z - c)%R) by (apply continuity_minus; [apply continuity_scal; apply derivable_continuous, derivable_cosh|apply continuity_const; intros ? ?; done]).
      destruct (IVT_cor (λ z, k * cosh z - c)%R 0 z1 Hcont Hz1) as (z & Hz & Ez).
      - assert (E0 : cosh 0 = 1%R) by apply cosh_0. rewrite E0. assert (k * 1 - c <= 0)%R by lra. assert (0 < k * cosh z1 - c)%R by lra. nra.
      - exists z. done. }
    destruct HIVT as (z & Hz & Ez). assert (Hz' : (z < z1)%R) by (destruct (Rle_lt_or_eq_dec z z1) as [|E]; [lra|done|rewrite E in Ez; lra]).
    set (t := (cget o 0 + sign past * (alpha * z))%R). assert (Et : (t - cget o 0 = sign past * (alpha * z))%R) by (unfold t; ring).
    assert (Es : (sign past * (t - cget o 0) = alpha * z)%R) by (rewrite Et; destruct past; cbn; ring).
    apply (HF t).
    + rewrite Es. replace (sign past * d)%R with (alpha * z1)%R by (unfold z1; field; lra). apply Rmult_lt_compat_l; lra.
    + split; [done|]. split; [done|]. assert (0 <= sign past * (t - cget o 0))%R by (rewrite Es; apply Rmult_le_pos; lra). split; [done|].
      rewrite (Eab _ H). rewrite Es. replace (alpha * z / alpha)%R with z by (field; lra). lra.
  - intros (Ho & Hy & Hd & Hc). split; [split_and!; (done || lra)|]. intros t Ht (_ & _ & H0 & Hc').
    pose proof (amp_pos alpha o Ho) as HA. pose proof (amp_pos alpha y Hy) as HB.
    set (k := (amp alpha o * amp alpha y)%R) in *. assert (Hk : (0 < k)%R) by (by apply Rmult_lt_0_compat).
    rewrite (Eab d Hd) in Hc. rewrite (Eab _ H0) in Hc'. assert (Hi : (0 < / alpha)%R) by (by apply Rinv_0_lt_compat).
    pose proof (cosh_increasing (sign past * (t - cget o 0) / alpha) (sign past * d / alpha)) as HCi.
    assert (cosh (sign past * (t - cget o 0) / alpha) < cosh (sign past * d / alpha))%R.
    { apply HCi; unfold Rdiv; [apply Rmult_le_pos; lra|apply Rmult_lt_compat_r; done]. }
    assert (k * cosh (sign past * (t - cget o 0) / alpha) < k * cosh (sign past * d / alpha))%R by (by apply Rmult_lt_compat_l). lra.
Qed.

(** ** The ellipse *)
Lemma cosh_plus a b : cosh (a + b) = (cosh a * cosh b + sinh a * sinh b)%R.
Proof. replace (a + b)%R with (a - - b)%R by ring. rewrite cosh_minus, cosh_even, sinh_opp. ring. Qed.
Lemma tanh_bound x : (-1 < tanh x < 1)%R.
Proof.
  unfold tanh. pose proof (cosh_ge_1 x) as Hc. assert (H : (- cosh x < sinh x < cosh x)%R) by (unfold cosh, sinh; pose proof (exp_pos x); pose proof (exp_pos (- x)); lra).
  split; apply Rmult_lt_reg_r with (cosh x); try lra; unfold Rdiv; rewrite ?Rmult_assoc, ?Rinv_l by lra; lra.
Qed.
Lemma tanh_plus a b : tanh (a + b) = ((tanh a + tanh b) / (1 + tanh a * tanh b))%R.
Proof.
  pose proof (tanh_bound a) as Ba. pose proof (tanh_bound b) as Bb. pose proof (cosh_ge_1 a). pose proof (cosh_ge_1 b). pose proof (cosh_ge_1 (a + b)) as Hc.
  assert (Hp : (0 < 1 + tanh a * tanh b)%R) by nra.
  unfold tanh in *. rewrite sinh_plus. rewrite cosh_plus in *. 
  assert (Hd : (1 + sinh a / cosh a * (sinh b / cosh b) = (cosh a * cosh b + sinh a * sinh b) / (cosh a * cosh b))%R) by (field; lra).
  rewrite Hd. field. lra.
Qed.
Lemma tanh_opp x : tanh (- x) = (- tanh x)%R.
Proof. unfold tanh. rewrite sinh_opp, cosh_even. pose proof (cosh_ge_1 x). field. lra. Qed.
Lemma tanh_minus a b : tanh (a - b) = ((tanh a - tanh b) / (1 - tanh a * tanh b))%R.
Proof. replace (a - b)%R with (a + - b)%R by ring. rewrite tanh_plus, tanh_opp. unfold Rdiv. f_equal. f_equal. ring. Qed.
Lemma tanh_0 : tanh 0 = 0%R.
Proof. unfold tanh. rewrite sinh_0. field. rewrite cosh_0. lra. Qed.
Lemma tanh_pos x : (0 < x)%R → (0 < tanh x)%R.
Proof. intros Hx. unfold tanh. apply Rdiv_lt_0_compat; [|pose proof (cosh_ge_1 x); lra]. rewrite <- sinh_0. by apply sinh_increasing. Qed.
Lemma cosh_tanh x : (cosh x * cosh x * (1 - tanh x * tanh x) = 1)%R.
Proof.
  pose proof (cosh_ge_1 x). unfold tanh. replace (cosh x * cosh x * (1 - sinh x / cosh x * (sinh x / cosh x)))%R with (cosh x * cosh x - sinh x * sinh x)%R by (field; lra). apply cosh_sq.
Qed.
Lemma atan_polar y x : (0 < x)%R → (sqrt (x * x + y * y) * cos (atan (y / x)) = x)%R ∧ (sqrt (x * x + y * y) * sin (atan (y / x)) = y)%R.
Proof.
  intros Hx. set (z := (y / x)%R). assert (Ey : y = (x * z)%R) by (unfold z; field; lra).
  assert (Hz : (0 < 1 + z²)%R) by (pose proof (Rle_0_sqr z); lra). pose proof (sqrt_lt_R0 _ Hz) as Hs.
  assert (E : sqrt (x * x + y * y) = (x * sqrt (1 + z²))%R).
  { rewrite <- (sqrt_square x) at 3 by lra. rewrite <- sqrt_mult by nra. f_equal. rewrite Ey. unfold Rsqr. ring. }
  rewrite E, cos_atan, sin_atan. split; [field; lra|]. rewrite Ey at 1. clear E. field. lra.
Qed.
(** The centre and the radii in closed form, with T = tanh(delta). *)
Lemma ellipse_formula alpha q d : (0 < alpha)%R → (0 <= q < 1)%R → (0 <= d)%R →
  let T := tanh d in
  ellipse_center_radii alpha q d =
    (alpha * (sqrt q * (1 - T * T) / (1 - q * (T * T))), alpha * (T * (1 - q) / (1 - q * (T * T))),
     alpha * (T * sqrt ((1 - q) / (1 - q * (T * T)))))%R.
Proof.
  intros Ha Hq Hd T. unfold ellipse_center_radii.
  assert (Hr : (0 <= sqrt q)%R) by apply sqrt_pos. assert (Er : (sqrt q * sqrt q = q)%R) by (apply sqrt_sqrt; lra).
  assert (Hr1 : (sqrt q < 1)%R) by (rewrite <- sqrt_1; apply sqrt_lt_1; lra).
  change arctanh with TrigFacts.atanh. rewrite tanh_minus, tanh_plus, !tanh_atanh by lra. fold T.
  set (r := sqrt q) in *. pose proof (tanh_bound d) as HT. fold T in HT.
  assert (HT0 : (0 <= T)%R). { destruct (Rle_lt_or_eq_dec 0 d Hd) as [H|H]; [left; by apply tanh_pos|]. unfold T. rewrite <- H, tanh_0. lra. }
  assert (HTT : (0 <= T * T < 1)%R) by nra. assert (HqT : (0 < 1 - q * (T * T))%R) by nra.
  assert (HrT : (0 <= r * T < 1)%R) by nra.
  replace (1 / 2 * (alpha * ((r + T) / (1 + r * T)) + alpha * ((r - T) / (1 - r * T))))%R with (alpha * (r * (1 - T * T) / (1 - q * (T * T))))%R.
  2:{ rewrite <- Er. field. repeat split; nra. }
  replace (1 / 2 * (alpha * ((r + T) / (1 + r * T)) - alpha * ((r - T) / (1 - r * T))))%R with (alpha * (T * (1 - q) / (1 - q * (T * T))))%R.
  2:{ rewrite <- Er. field. repeat split; nra. }
  set (xc := (r * (1 - T * T) / (1 - q * (T * T)))%R). set (a := (T * (1 - q) / (1 - q * (T * T)))%R).
  f_equal.
  assert (Ha0 : (0 <= a)%R) by (unfold a; apply Rmult_le_pos; [nra|left; by apply Rinv_0_lt_compat]).
  assert (Hs : (0 <= sqrt ((1 - q) / (1 - q * (T * T))))%R) by apply sqrt_pos.
  destruct (decide (0 < r ∧ 0 < alpha * a)%R) as [[Hr0 Haa]|Hn].
  - cbv zeta. fold T. destruct (atan_polar (sqrt (1 - q) * T) r Hr0) as [E1 E2].
    assert (Es : ((1 - q) * (T * T) + q = r * r + sqrt (1 - q) * T * (sqrt (1 - q) * T))%R).
    { replace (sqrt (1 - q) * T * (sqrt (1 - q) * T))%R with (sqrt (1 - q) * sqrt (1 - q) * (T * T))%R by ring. rewrite sqrt_sqrt, Er by lra. ring. }
    rewrite Es. set (w := sqrt (r * r + sqrt (1 - q) * T * (sqrt (1 - q) * T))) in *. set (g := atan (sqrt (1 - q) * T / r)) in *.
    replace (alpha * w * cos g)%R with (alpha * r)%R by (rewrite <- E1 at 1; ring).
    replace (alpha * w * sin g)%R with (alpha * (sqrt (1 - q) * T))%R by (rewrite <- E2; ring).
    assert (HT1 : (0 < T)%R). { destruct (Rle_lt_or_eq_dec 0 T HT0) as [|E]; [done|]. exfalso. unfold a in Haa. rewrite <- E in Haa. unfold Rdiv in Haa. rewrite !Rmult_0_l, Rmult_0_r in Haa. lra. }
    replace ((alpha * r - alpha * xc) / (alpha * a))%R with (r * T)%R.
    2:{ unfold xc, a. rewrite <- Er in *. field. repeat split; nra. }
    replace (alpha * (sqrt (1 - q) * T) * (alpha * (sqrt (1 - q) * T)) / (1 - r * T * (r * T)))%R
      with ((alpha * T) * (alpha * T) * ((1 - q) / (1 - q * (T * T))))%R.
    2:{ replace (1 - r * T * (r * T))%R with (1 - q * (T * T))%R by (rewrite <- Er; ring).
        rewrite <- (sqrt_sqrt (1 - q)) at 1 by lra. field. lra. }
    rewrite sqrt_mult; [|nra|apply Rmult_le_pos; [lra|left; by apply Rinv_0_lt_compat]]. rewrite sqrt_square by nra. ring.
  - f_equal. destruct (Rle_lt_or_eq_dec 0 T HT0) as [HT1|E].
    + assert (r = 0)%R.
      { destruct (Rle_lt_or_eq_dec 0 r Hr) as [Hr0|]; [|done]. exfalso. apply Hn. split; [done|]. apply Rmult_lt_0_compat; [done|].
        unfold a. apply Rdiv_lt_0_compat; [|done]. apply Rmult_lt_0_compat; lra. }
      assert (Eq : q = 0%R) by nra. unfold a. rewrite Eq. replace ((1 - 0) / (1 - 0 * (T * T)))%R with 1%R by field. rewrite sqrt_1. field.
    + unfold a. rewrite <- E. unfold Rdiv. ring.
Qed.
