(** Facts about surfaces: boundaries of sets given by gauges, angles, nodes. *)
From Verif Require Import Base SpacetimeModel SpacetimeFacts ShapeModel OutlineModel SpecOutline OutlineFacts SpecSurface.
From Coq Require Import Reals Lra Lia.
#[local] Open Scope nat_scope.

(** ** Norms *)
Definition N2 (x y : R) : R := sqrt (x * x + y * y)%R.
Definition N3 (x y z : R) : R := sqrt (x * x + y * y + z * z)%R.
Lemma sqrt_step x y a : (0 <= a)%R → (sqrt (y * y + a) <= sqrt (x * x + a) + Rabs (x - y))%R.
Proof.
  intros Ha. assert (Hs : (Rabs x <= sqrt (x * x + a))%R).
  { rewrite <- (sqrt_Rsqr_abs x). apply sqrt_le_1_alt. unfold Rsqr. lra. }
  pose proof (sqrt_pos (x * x + a)). pose proof (Rabs_pos (x - y)).
  rewrite <- (sqrt_square (sqrt (x * x + a) + Rabs (x - y))) by lra. apply sqrt_le_1_alt.
  assert (E : (sqrt (x * x + a) * sqrt (x * x + a) = x * x + a)%R) by (apply sqrt_sqrt; nra).
  assert (E2 : (Rabs (x - y) * Rabs (x - y) = (x - y) * (x - y))%R) by (rewrite <- Rabs_mult; apply Rabs_right, Rle_ge, Rle_0_sqr).
  assert (H1 : (- (x * (x - y)) <= sqrt (x * x + a) * Rabs (x - y))%R).
  { apply Rle_trans with (Rabs x * Rabs (x - y))%R; [|by apply Rmult_le_compat_r].
    rewrite <- Rabs_mult, <- Rabs_Ropp. apply Rle_abs. }
  clear -E E2 H1. set (D := Rabs (x - y)) in *. set (q := sqrt (x * x + a)) in *. clearbody D q.
  replace ((q + D) * (q + D))%R with (q * q + 2 * (q * D) + D * D)%R by ring. rewrite E, E2.
  replace (y * y)%R with (x * x + 2 * - (x * (x - y)) + (x - y) * (x - y))%R by ring. lra.
Qed.
Lemma N2_step x y x' y' eps : (Rabs (x - x') <= eps)%R → (Rabs (y - y') <= eps)%R → (N2 x' y' <= N2 x y + 2 * eps)%R.
Proof.
  intros Hx Hy. unfold N2.
  pose proof (sqrt_step x x' (y * y) ltac:(nra)). pose proof (sqrt_step y y' (x' * x') ltac:(nra)) as H2.
  rewrite (Rplus_comm (y' * y')), (Rplus_comm (y * y)) in H2. lra.
Qed.
Lemma N3_step x y z x' y' z' eps : (Rabs (x - x') <= eps)%R → (Rabs (y - y') <= eps)%R → (Rabs (z - z') <= eps)%R →
  (N3 x' y' z' <= N3 x y z + 3 * eps)%R.
Proof.
  intros Hx Hy Hz. unfold N3.
  pose proof (sqrt_step x x' (y * y + z * z) ltac:(nra)) as H1. pose proof (sqrt_step y y' (x' * x' + z * z) ltac:(nra)) as H2.
  pose proof (sqrt_step z z' (x' * x' + y' * y') ltac:(nra)) as H3.
  replace (x' * x' + (y * y + z * z))%R with (y * y + (x' * x' + z * z))%R in H1 by ring.
  replace (y' * y' + (x' * x' + z * z))%R with (z * z + (x' * x' + y' * y'))%R in H2 by ring.
  replace (x' * x' + y' * y' + z' * z')%R with (z' * z' + (x' * x' + y' * y'))%R by ring.
  replace (x * x + y * y + z * z)%R with (x * x + (y * y + z * z))%R by ring. lra.
Qed.
Lemma sqrt_scale k a : (0 <= k)%R → (0 <= a)%R → sqrt (k * k * a) = (k * sqrt a)%R.
Proof. intros Hk Ha. rewrite sqrt_mult by nra. by rewrite sqrt_square. Qed.
Lemma N2_scale k x y : (0 <= k)%R → N2 (k * x) (k * y) = (k * N2 x y)%R.
Proof. intros Hk. unfold N2. rewrite <- sqrt_scale by nra. f_equal. ring. Qed.
Lemma N3_scale k x y z : (0 <= k)%R → N3 (k * x) (k * y) (k * z) = (k * N3 x y z)%R.
Proof. intros Hk. unfold N3. rewrite <- sqrt_scale by nra. f_equal. ring. Qed.
Lemma N2_pos x y : (0 <= N2 x y)%R. Proof. apply sqrt_pos. Qed.
Lemma N3_pos x y z : (0 <= N3 x y z)%R. Proof. apply sqrt_pos. Qed.
Lemma Rabs_scale k x : (0 <= k)%R → Rabs (k * x) = (k * Rabs x)%R.
Proof. intros Hk. rewrite Rabs_mult. by rewrite (Rabs_right k) by lra. Qed.
Lemma Rabs_step x x' eps : (Rabs (x - x') <= eps)%R → (Rabs x' <= Rabs x + eps)%R.
Proof. intros H. destruct (Rabs_cases (x - x')), (Rabs_cases x), (Rabs_cases x'); lra. Qed.

(** ** Gauges: sets described by inequalities *)
Definition gauge (g : R → R → R → R) : Prop :=
  (∃ K, (0 < K)%R ∧ ∀ eps x y z x' y' z', (Rabs (x - x') <= eps)%R → (Rabs (y - y') <= eps)%R → (Rabs (z - z') <= eps)%R →
     (g x' y' z' <= g x y z + K * eps)%R) ∧
  (∀ k x y z, (0 <= k)%R → g (k * x)%R (k * y)%R (k * z)%R = (k * g x y z)%R).
Definition apply_at (o q : point3) (g : R → R → R → R) : R := g (q.1.1 - o.1.1)%R (q.1.2 - o.1.2)%R (q.2 - o.2)%R.
Lemma close_offset eps o q q' : close eps q q' →
  (Rabs (q.1.1 - o.1.1 - (q'.1.1 - o.1.1)) <= eps)%R ∧ (Rabs (q.1.2 - o.1.2 - (q'.1.2 - o.1.2)) <= eps)%R ∧ (Rabs (q.2 - o.2 - (q'.2 - o.2)) <= eps)%R.
Proof.
  intros (H1 & H2 & H3). split_and!;
  [replace (q.1.1 - o.1.1 - (q'.1.1 - o.1.1))%R with (q.1.1 - q'.1.1)%R by ring
  |replace (q.1.2 - o.1.2 - (q'.1.2 - o.1.2))%R with (q.1.2 - q'.1.2)%R by ring
  |replace (q.2 - o.2 - (q'.2 - o.2))%R with (q.2 - q'.2)%R by ring]; done.
Qed.
Lemma strict_interior (o q : point3) (L : list ((R → R → R → R) * R)) :
  (∀ gc, gc ∈ L → gauge gc.1 ∧ (apply_at o q gc.1 < gc.2)%R) →
  ∃ eps, (0 < eps)%R ∧ ∀ q', close eps q q' → ∀ gc, gc ∈ L → (apply_at o q' gc.1 <= gc.2)%R.
Proof.
  induction L as [|gc L IH]; intros H.
  { exists 1%R. split; [lra|]. intros q' _ gc Hg. by apply elem_of_nil in Hg. }
  destruct IH as (e1 & He1 & H1). { intros g Hg. apply H. by apply elem_of_list_further. }
  destruct (H gc) as [[(K & HK & HL) _] Hlt]; [apply elem_of_list_here|].
  set (e2 := ((gc.2 - apply_at o q gc.1) / K)%R).
  assert (He2 : (0 < e2)%R) by (apply Rdiv_lt_0_compat; lra).
  assert (EK : (K * e2 = gc.2 - apply_at o q gc.1)%R) by (unfold e2; field; lra).
  exists (Rmin e1 e2). split; [by apply Rmin_glb_lt|]. intros q' Hq' g Hg.
  assert (Hmono : ∀ e, (Rmin e1 e2 <= e)%R → close e q q').
  { intros e He. destruct Hq' as (A & B & C). unfold close. lra. }
  apply elem_of_cons in Hg as [->|Hg].
  - destruct (close_offset e2 o q q') as (A & B & C); [apply Hmono, Rmin_r|].
    pose proof (HL _ _ _ _ _ _ _ A B C) as HH. unfold apply_at in *. lra.
  - apply H1; [|done]. apply Hmono, Rmin_l.
Qed.
Lemma boundary_gauges (o : point3) (L : list ((R → R → R → R) * R)) (A : point3 → Prop) (q : point3) :
  (∀ gc, gc ∈ L → gauge gc.1 ∧ gc.2 ≠ 0%R) →
  (∀ q, A q ↔ ∀ gc, gc ∈ L → (apply_at o q gc.1 <= gc.2)%R) →
  boundary A q ↔ A q ∧ ∃ gc, gc ∈ L ∧ apply_at o q gc.1 = gc.2.
Proof.
  intros HL HA. split.
  - intros [Hq HB]. split; [done|].
    destruct (decide (Exists (λ gc : (R → R → R → R) * R, apply_at o q gc.1 = gc.2) L)) as [HE|HE].
    { apply Exists_exists in HE as (gc & ? & ?). eauto. }
    exfalso. destruct (strict_interior o q L) as (eps & He & Hin).
    { intros gc Hg. split; [by apply HL|]. assert (apply_at o q gc.1 <= gc.2)%R by (by apply HA).
      assert (apply_at o q gc.1 ≠ gc.2) by (intros E; apply HE, Exists_exists; eauto). lra. }
    destruct (HB eps He) as (q' & Hc & Hn). apply Hn, HA. intros gc Hg. by apply Hin.
  - intros (Hq & gc & Hg & E). split; [done|]. intros eps He. destruct (HL gc Hg) as [[_ Hh] Hne].
    set (x := (q.1.1 - o.1.1)%R) in *. set (y := (q.1.2 - o.1.2)%R) in *. set (z := (q.2 - o.2)%R) in *.
    set (M := (1 + Rabs x + Rabs y + Rabs z)%R).
    assert (HM : (1 <= M)%R) by (unfold M; pose proof (Rabs_pos x); pose proof (Rabs_pos y); pose proof (Rabs_pos z); lra).
    set (d := (Rmin eps 1 / M)%R).
    assert (Hd : (0 < d)%R) by (apply Rdiv_lt_0_compat; [apply Rmin_glb_lt; lra|lra]).
    assert (EdM : (d * M = Rmin eps 1)%R) by (unfold d; field; lra).
    assert (Hd1 : (d <= 1)%R) by (pose proof (Rmin_r eps 1); nra).
    assert (HdM : (d * M <= eps)%R) by (rewrite EdM; apply Rmin_l).
    set (k := (if decide (0 < gc.2)%R then 1 + d else 1 - d)%R).
    assert (Hk : (0 <= k)%R) by (unfold k; case_decide; lra).
    assert (Hkd : (Rabs (1 - k) = d)%R).
    { unfold k. case_decide; [replace (1 - (1 + d))%R with (- d)%R by ring; rewrite Rabs_Ropp|replace (1 - (1 - d))%R with d by ring]; apply Rabs_right; lra. }
    exists (o.1.1 + k * x, o.1.2 + k * y, o.2 + k * z)%R. split.
    + assert (HX : ∀ a b c, (a - b = c → Rabs c <= M → Rabs (a - (b + k * c)) <= eps)%R).
      { intros a b c Ec Hc. replace (a - (b + k * c))%R with ((1 - k) * c)%R by (rewrite <- Ec; ring).
        rewrite Rabs_mult, Hkd. assert (d * Rabs c <= d * M)%R by (apply Rmult_le_compat_l; lra). lra. }
      pose proof (Rabs_pos x); pose proof (Rabs_pos y); pose proof (Rabs_pos z).
      unfold close. cbn [fst snd]. split_and!; apply HX; (reflexivity || (unfold M; lra)).
    + rewrite HA. intros Hall. specialize (Hall gc Hg). unfold apply_at in Hall. cbn [fst snd] in Hall.
      replace (o.1.1 + k * x - o.1.1)%R with (k * x)%R in Hall by ring.
      replace (o.1.2 + k * y - o.1.2)%R with (k * y)%R in Hall by ring.
      replace (o.2 + k * z - o.2)%R with (k * z)%R in Hall by ring.
      rewrite Hh in Hall by done. change (gc.1 x y z) with (apply_at o q gc.1) in Hall. rewrite E in Hall.
      unfold k in Hall. destruct (decide (0 < gc.2)%R); [nra|].
      assert (gc.2 < 0)%R by lra. nra.
Qed.
Lemma gauge_N3 : gauge N3.
Proof. split; [exists 3%R; split; [lra|]; intros; by apply N3_step|]. intros. by apply N3_scale. Qed.
Lemma N3_step_neg x y z x' y' z' eps : (Rabs (x - x') <= eps)%R → (Rabs (y - y') <= eps)%R → (Rabs (z - z') <= eps)%R →
  (- N3 x' y' z' <= - N3 x y z + 3 * eps)%R.
Proof.
  intros H1 H2 H3. rewrite Rabs_minus_sym in H1, H2, H3. pose proof (N3_step _ _ _ _ _ _ _ H1 H2 H3). lra.
Qed.
Lemma gauge_neg g : gauge g → gauge (λ x y z, - g x y z)%R.
Proof.
  intros [(K & HK & H) Hh]. split.
  - exists K. split; [done|]. intros eps x y z x' y' z' H1 H2 H3. rewrite Rabs_minus_sym in H1, H2, H3.
    specialize (H eps x' y' z' x y z H1 H2 H3). lra.
  - intros. rewrite Hh by done. ring.
Qed.
Lemma gauge_N2 : gauge (λ x y _, N2 x y).
Proof. split; [exists 2%R; split; [lra|]; intros; by apply N2_step|]. intros. by apply N2_scale. Qed.
Lemma gauge_abs_x : gauge (λ x _ _, Rabs x).
Proof. split; [exists 1%R; split; [lra|]; intros; rewrite Rmult_1_l; by apply Rabs_step|]. intros. by apply Rabs_scale. Qed.
Lemma gauge_abs_y : gauge (λ _ y _, Rabs y).
Proof. split; [exists 1%R; split; [lra|]; intros; rewrite Rmult_1_l; by apply Rabs_step|]. intros. by apply Rabs_scale. Qed.
Lemma gauge_abs_z : gauge (λ _ _ z, Rabs z).
Proof. split; [exists 1%R; split; [lra|]; intros; rewrite Rmult_1_l; by apply Rabs_step|]. intros. by apply Rabs_scale. Qed.
Lemma gauge_add g1 g2 : gauge g1 → gauge g2 → gauge (λ x y z, g1 x y z + g2 x y z)%R.
Proof.
  intros [(K1 & HK1 & H1) Hh1] [(K2 & HK2 & H2) Hh2]. split.
  - exists (K1 + K2)%R. split; [lra|]. intros eps x y z x' y' z' A B C.
    specialize (H1 eps x y z x' y' z' A B C). specialize (H2 eps x y z x' y' z' A B C). lra.
  - intros. rewrite Hh1, Hh2 by done. ring.
Qed.

(** ** Angles *)
Lemma sin_le x : (0 <= x)%R → (Rabs (sin x) <= x)%R.
Proof.
  intros Hx. destruct (Rle_lt_or_eq_dec _ _ Hx) as [Hp|<-]; [|rewrite sin_0, Rabs_R0; lra].
  destruct (Rle_dec 1 x) as [H1|H1].
  - apply Rle_trans with 1%R; [|done]. apply Rabs_le, SIN_bound.
  - pose proof PI2_3_2. pose proof (sin_lt_x x Hp). assert (0 <= sin x)%R by (apply sin_ge_0; lra).
    rewrite Rabs_right by lra. lra.
Qed.
Lemma sin_Rabs x : (Rabs (sin x) <= Rabs x)%R.
Proof.
  destruct (Rle_dec 0 x) as [H|H]; [rewrite (Rabs_right x) by lra; by apply sin_le|].
  rewrite (Rabs_left x) by lra. rewrite <- Rabs_Ropp, <- sin_neg. apply sin_le. lra.
Qed.
Lemma sin_close a b : (Rabs (sin a - sin b) <= Rabs (a - b))%R.
Proof.
  rewrite form4. pose proof (sin_Rabs ((a - b) / 2)) as H. pose proof (Rabs_le _ _ (COS_bound ((a + b) / 2))) as Hc.
  rewrite !Rabs_mult. rewrite (Rabs_right 2) by lra.
  assert (E : (Rabs (a - b) = 2 * Rabs ((a - b) / 2))%R).
  { transitivity (Rabs (2 * ((a - b) / 2))); [f_equal; field|]. rewrite Rabs_mult. by rewrite (Rabs_right 2) by lra. }
  rewrite E. pose proof (Rabs_pos (sin ((a - b) / 2))). 
  assert (Rabs (cos ((a + b) / 2)) * Rabs (sin ((a - b) / 2)) <= 1 * Rabs (sin ((a - b) / 2)))%R by (by apply Rmult_le_compat_r).
  lra.
Qed.
Lemma cos_close a b : (Rabs (cos a - cos b) <= Rabs (a - b))%R.
Proof.
  rewrite !cos_sin. replace (a - b)%R with (PI / 2 + a - (PI / 2 + b))%R by ring. apply sin_close.
Qed.
(** Polar coordinates. *)
Lemma polar x y : ∃ t, (0 <= t <= 2 * PI)%R ∧ x = (N2 x y * cos t)%R ∧ y = (N2 x y * sin t)%R.
Proof.
  pose proof PI_RGT_0. set (r := N2 x y). assert (Hr : (0 <= r)%R) by apply N2_pos.
  assert (Er : (r * r = x * x + y * y)%R) by (apply sqrt_sqrt; nra).
  destruct (Req_dec r 0) as [E|Hne].
  { exists 0%R. split; [lra|]. rewrite E in *. split; nra. }
  set (c := (x / r)%R). assert (Ex : x = (r * c)%R) by (unfold c; field; done).
  assert (Hc : (-1 <= c <= 1)%R).
  { clearbody c r. pose proof (Rle_0_sqr y) as Hy. unfold Rsqr in Hy. subst x.
    assert (Hrr : (0 < r * r)%R) by (apply Rmult_lt_0_compat; lra).
    assert (r * r * (c * c) <= r * r * 1)%R by lra. assert (c * c <= 1)%R by (by apply Rmult_le_reg_l with (r * r)%R). nra. }
  destruct (acos_bound c) as [B1 B2].
  assert (Es : ((r * sin (acos c)) * (r * sin (acos c)) = y * y)%R).
  { pose proof (sin2_cos2 (acos c)) as E2. unfold Rsqr in E2. rewrite cos_acos in E2 by done.
    transitivity (r * r - (r * c) * (r * c))%R; [nra|]. rewrite <- Ex. lra. }
  assert (H0 : (0 <= sin (acos c))%R) by (apply sin_ge_0; lra).
  assert (H0r : (0 <= r * sin (acos c))%R) by nra.
  destruct (Rle_dec 0 y) as [Hy|Hy].
  - exists (acos c). rewrite cos_acos by done. split; [lra|]. split; [done|]. nra.
  - exists (2 * PI - acos c)%R. replace (2 * PI - acos c)%R with (- acos c + 2 * INR 1 * PI)%R by (cbn; ring).
    rewrite cos_period, sin_period, cos_neg, sin_neg, cos_acos by done. cbn [INR]. split; [lra|]. split; [done|]. nra.
Qed.
(** Spherical coordinates. *)
Lemma spherical x y z : ∃ t p, (0 <= t <= PI)%R ∧ (0 <= p <= 2 * PI)%R ∧
  x = (N3 x y z * (cos p * sin t))%R ∧ y = (N3 x y z * (sin p * sin t))%R ∧ z = (N3 x y z * cos t)%R.
Proof.
  pose proof PI_RGT_0.
  destruct (polar x y) as (p & Hp & Ex & Ey). destruct (polar z (N2 x y)) as (t & Ht & Ez & En).
  assert (EN : N2 z (N2 x y) = N3 x y z).
  { unfold N3. unfold N2 at 1. f_equal. assert (N2 x y * N2 x y = x * x + y * y)%R as -> by (apply sqrt_sqrt; nra). ring. }
  rewrite EN in Ez, En. destruct (Req_dec (N3 x y z) 0) as [E|Hne].
  { exists 0%R, 0%R. rewrite E in *. rewrite !Rmult_0_l in *. rewrite En in Ex, Ey. rewrite !Rmult_0_l in Ex, Ey. split_and!; lra. }
  pose proof (N3_pos x y z). pose proof (N2_pos x y).
  assert (Hs : (0 <= sin t)%R) by nra.
  destruct (Rle_dec t PI) as [Ht2|Ht2].
  - exists t, p. split; [lra|]. split; [lra|]. split_and!; [rewrite Ex at 1; rewrite En; ring|rewrite Ey at 1; rewrite En; ring|done].
  - assert (sin t = 0%R) as Es.
    { assert (sin t <= 0)%R by (destruct (Req_dec t (2 * PI)) as [-> |]; [rewrite sin_2PI; lra|apply Rlt_le, sin_lt_0; lra]). lra. }
    rewrite Es, Rmult_0_r in En. rewrite En, Rmult_0_l in Ex, Ey. rewrite Ex, Ey in *. clear Ex Ey.
    assert (Ht3 : t = (2 * PI)%R).
    { destruct (Req_dec t (2 * PI)) as [|Hn]; [done|]. exfalso. assert (sin t < 0)%R by (apply sin_lt_0; lra). lra. }
    exists 0%R, 0%R. rewrite sin_0, cos_0. rewrite Ht3, cos_2PI in Ez. split; [lra|]. split; [lra|]. split_and!; [ring|ring|lra].
Qed.
(** The angle of a sample that is at most one step away. *)
Lemma floor_nat n t : 1 ≤ n → (0 <= t <= INR n)%R → ∃ b, b < n ∧ (INR b <= t <= INR b + 1)%R.
Proof.
  induction n as [|n IH]; [lia|]. intros _ Ht. rewrite S_INR in Ht. destruct (Rle_dec (INR n) t) as [H|H].
  - exists n. split; [lia|lra].
  - destruct n as [|n]; [cbn in H; lra|]. destruct IH as (b & Hb & Hbt); [lia|lra|]. exists b. split; [lia|done].
Qed.
Lemma sample_angle n (A t : R) : 1 ≤ n → (0 < A)%R → (0 <= t <= A)%R →
  ∃ b, b < n ∧ (Rabs (t - A * INR b / INR n) <= A / INR n)%R.
Proof.
  intros Hn HA Ht. assert (Hp : (0 < INR n)%R) by (apply lt_0_INR; lia).
  destruct (floor_nat n (t * INR n / A) Hn) as (b & Hb & Hbt).
  { split; [apply Rmult_le_pos; [nra|]; left; by apply Rinv_0_lt_compat|].
    apply Rmult_le_reg_r with A; [done|]. replace (t * INR n / A * A)%R with (t * INR n)%R by (field; lra). nra. }
  exists b. split; [done|].
  assert (E : (t = A * (t * INR n / A) / INR n)%R) by (field; lra).
  rewrite E at 1. set (w := (t * INR n / A)%R) in *.
  replace (A * w / INR n - A * INR b / INR n)%R with (A / INR n * (w - INR b))%R by (field; lra).
  assert (0 < A / INR n)%R by (by apply Rdiv_lt_0_compat).
  rewrite Rabs_mult, (Rabs_right (A / INR n)), (Rabs_right (w - INR b)) by lra. nra.
Qed.

(** ** Nodes *)
Lemma nth_fmap {A} (f : A → R) (l : list A) i d : i < length l → nth i (f <$> l) 0%R = f (nth i l d).
Proof.
  revert i. induction l as [|a l IH]; intros i Hi; [cbn in Hi; lia|]. destruct i as [|i]; [done|]. cbn. apply IH. cbn in Hi. lia.
Qed.
Lemma nth_fmap_row {A} (f : A → list R) (l : list A) i d : i < length l → nth i (f <$> l) [] = f (nth i l d).
Proof.
  revert i. induction l as [|a l IH]; intros i Hi; [cbn in Hi; lia|]. destruct i as [|i]; [done|]. cbn. apply IH. cbn in Hi. lia.
Qed.
Lemma rows_mouter a b k x : rows (madd (mouter a b k) x) = length a.
Proof. unfold rows, madd, mouter. by rewrite !fmap_length. Qed.
Lemma columns_mouter a b k x : 0 < length a → columns (madd (mouter a b k) x) = length b.
Proof. intros Ha. unfold columns, madd, mouter. destruct a as [|a0 a]; [cbn in Ha; lia|]. cbn. by rewrite !fmap_length. Qed.
Lemma entry_mouter a b k x i j : i < length a → j < length b →
  entry (madd (mouter a b k) x) i j = (nth i a 0 * nth j b 0 * k + x)%R.
Proof.
  intros Hi Hj. unfold entry. rewrite rows_mouter, columns_mouter by lia.
  assert (E1 : (if decide (length a = 1) then 0 else i) = i) by (destruct (decide (length a = 1)); lia).
  assert (E2 : (if decide (length b = 1) then 0 else j) = j) by (destruct (decide (length b = 1)); lia).
  rewrite E1, E2. unfold madd, mouter.
  rewrite (nth_fmap_row _ _ i []) by (by rewrite fmap_length).
  rewrite (nth_fmap_row _ a i 0%R) by done.
  rewrite (nth_fmap _ _ j 0%R) by (by rewrite fmap_length). by rewrite (nth_fmap _ b j 0%R) by done.
Qed.
Lemma linspace_length a b n : length (linspace a b n) = n.
Proof. unfold linspace. by rewrite fmap_length, seq_length. Qed.
Lemma nth_linspace (f : R → R) a b n i : i < n → nth i (f <$> linspace a b n) 0%R = f (a + INR i * ((b - a) / INR (n - 1)))%R.
Proof.
  intros Hi. rewrite (nth_fmap _ _ i 0%R) by (by rewrite linspace_length). unfold linspace.
  rewrite (nth_fmap _ _ i 0%nat) by (by rewrite seq_length). by rewrite seq_nth by done.
Qed.
Lemma nth_ones n i : i < n → nth i (replicate n 1%R) 0%R = 1%R.
Proof. intros Hi. revert n Hi. induction i as [|i IH]; intros [|n] Hi; try lia; cbn; (done || (apply IH; lia)). Qed.
