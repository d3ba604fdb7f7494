(** C82: causal cones of de Sitter spacetime show its light cones. *)
From Verif Require Import Base SpacetimeModel SpacetimeFacts TrigFacts Prop_Spacetime ShapeModel SpecShape Prop_Shape Prop_SpacetimeMore OutlineModel SpecOutline OutlineFacts PolygonFacts Prop_Outline SpecSurface SurfaceFacts Prop_Surface ConeModel SpecCone ConeFacts Prop_Cone EllipseFacts DeSitterFacts.
From Coq Require Import Reals Rtrigo_def Ratan Lra Lia Psatz.
#[local] Open Scope nat_scope.

(** ** Scalar products of coordinates *)
Lemma dot_nth (v w : list R) : length v = length w → dot v w = rsum ((λ m, cget v m * cget w m)%R <$> seq 0 (length v)).
Proof.
  revert w. induction v as [|a v IH]; intros [|b w] Hl; try done.
  rewrite dot_cons, IH by (cbn in Hl; lia). cbn [length seq]. rewrite fmap_cons, rsum_cons. unfold cget at 3 4. cbn [nth]. f_equal.
  rewrite <- fmap_S_seq, <- list_fmap_compose. done.
Qed.
Lemma dot_tail (o y : list R) dim : length o = dim → length y = dim →
  dot (tail o) (tail y) = rsum ((λ m, cget o m * cget y m)%R <$> seq 1 (dim - 1)).
Proof.
  intros Ho Hy. rewrite dot_nth by (rewrite !tail_length; lia). rewrite tail_length, Ho.
  destruct o as [|a o], y as [|b y]; cbn in Ho, Hy; subst dim; try lia; [done|].
  replace (S (length o) - 1) with (length o) by lia. rewrite <- fmap_S_seq, <- list_fmap_compose. done.
Qed.
Lemma sqsum_dot v : sqsum v = dot v v.
Proof. induction v as [|a v IH]; [done|]. rewrite sqsum_cons, dot_cons, IH. done. Qed.
Lemma dot_support (o y : list R) dim (ks : list nat) : length o = dim → length y = dim → NoDup ks → (∀ k, k ∈ ks → 1 ≤ k < dim) →
  (∀ m, 1 ≤ m < dim → m ∉ ks → cget o m = 0%R) →
  dot (tail o) (tail y) = rsum ((λ m, cget o m * cget y m)%R <$> ks).
Proof.
  intros Ho Hy Hnd Hks Hz. rewrite (dot_tail o y dim) by done. apply rsum_support; [apply NoDup_seq|done| |].
  - intros k Hk. apply elem_of_seq. specialize (Hks k Hk). lia.
  - intros k Hk%elem_of_seq Hn. rewrite Hz by (lia || done). ring.
Qed.

(** ** The causal cone as a quadratic inequality *)
Definition light (alpha so sy d dt : R) : R :=
  ((1 - so / (alpha * alpha)) * (1 - sy / (alpha * alpha)) * (cosh dt * cosh dt) - (1 - d / (alpha * alpha)) * (1 - d / (alpha * alpha)))%R.
Lemma light_scaled alpha so sy d dt : (0 < alpha)%R →
  ((alpha * alpha) * (alpha * alpha) * light alpha so sy d dt =
   (alpha * alpha - so) * (alpha * alpha - sy) * (cosh dt * cosh dt) - (alpha * alpha - d) * (alpha * alpha - d))%R.
Proof. intros Ha. unfold light. field. lra. Qed.
Lemma dot_inside alpha (o y : list R) : length o = length y → inside_horizon alpha o → (sqsum (tail y) <= alpha * alpha)%R →
  (dot (tail o) (tail y) < alpha * alpha)%R.
Proof.
  intros Hl Ho Hy. assert (HS : (0 <= sqsum (tail y) + sqsum (tail o) - 2 * dot (tail o) (tail y))%R) by (rewrite <- sqsum_vsub by (rewrite !tail_length; lia); apply sqsum_nonneg).
  unfold inside_horizon in Ho. lra.
Qed.
Lemma light_inside alpha o y dt : (0 < alpha)%R → length o = length y → inside_horizon alpha o →
  (0 <= light alpha (sqsum (tail o)) (sqsum (tail y)) (dot (tail o) (tail y)) dt)%R → inside_horizon alpha y.
Proof.
  intros Ha Hl Ho HG. pose proof (light_scaled alpha (sqsum (tail o)) (sqsum (tail y)) (dot (tail o) (tail y)) dt Ha) as E.
  assert (HA : (0 < alpha * alpha)%R) by nra. set (AA := (alpha * alpha)%R) in *.
  assert (H0 : (0 <= (AA - sqsum (tail o)) * (AA - sqsum (tail y)) * (cosh dt * cosh dt) - (AA - dot (tail o) (tail y)) * (AA - dot (tail o) (tail y)))%R).
  { rewrite <- E. apply Rmult_le_pos; [nra|done]. }
  unfold inside_horizon in *. fold AA in Ho |- *. set (so := sqsum (tail o)) in *. set (sy := sqsum (tail y)) in *. set (d := dot (tail o) (tail y)) in *.
  pose proof (Rle_0_sqr (AA - d)) as Hd. unfold Rsqr in Hd. pose proof (cosh_ge_1 dt) as Hc.
  apply Rnot_le_lt. intros Hle. assert (Hm : ((AA - so) * (AA - sy) * (cosh dt * cosh dt) <= 0)%R).
  { assert ((AA - so) * (AA - sy) <= 0)%R by nra. assert (0 <= cosh dt * cosh dt)%R by nra. nra. }
  assert (Hdd : ((AA - d) * (AA - d) = 0)%R) by lra. assert (Ed : (d = AA)%R) by nra.
  assert (Hs : (sy <= AA)%R). { apply Rnot_lt_le. intros Hlt. assert ((AA - so) * (AA - sy) < 0)%R by nra. assert (1 <= cosh dt * cosh dt)%R by nra. assert ((AA - so) * (AA - sy) * (cosh dt * cosh dt) < 0)%R by nra. lra. }
  pose proof (dot_inside alpha o y Hl Ho Hs) as H. fold d AA in H. lra.
Qed.
Lemma light_iff alpha o y dt : (0 < alpha)%R → length o = length y → inside_horizon alpha o → inside_horizon alpha y →
  (0 <= light alpha (sqsum (tail o)) (sqsum (tail y)) (dot (tail o) (tail y)) dt ↔
   alpha * alpha - dot (tail o) (tail y) <= amp alpha o * amp alpha y * cosh dt)%R ∧
  (light alpha (sqsum (tail o)) (sqsum (tail y)) (dot (tail o) (tail y)) dt = 0 ↔
   alpha * alpha - dot (tail o) (tail y) = amp alpha o * amp alpha y * cosh dt)%R.
Proof.
  intros Ha Hl Ho Hy. pose proof (light_scaled alpha (sqsum (tail o)) (sqsum (tail y)) (dot (tail o) (tail y)) dt Ha) as E.
  pose proof (dot_inside alpha o y Hl Ho ltac:(unfold inside_horizon in Hy; lra)) as Hd. pose proof (amp_pos _ _ Ho) as HA. pose proof (amp_pos _ _ Hy) as HB.
  rewrite <- (amp_sq _ _ Ho), <- (amp_sq _ _ Hy) in E. pose proof (cosh_ge_1 dt) as Hc.
  set (G := light _ _ _ _ _) in *. set (D := (alpha * alpha - dot (tail o) (tail y))%R) in *. assert (HD : (0 < D)%R) by (unfold D; lra).
  set (A := amp alpha o) in *. set (B := amp alpha y) in *. set (M := (A * B * cosh dt)%R). assert (HM : (0 < M)%R) by (unfold M; apply Rmult_lt_0_compat; [by apply Rmult_lt_0_compat|lra]).
  replace (A * A * (B * B) * (cosh dt * cosh dt) - D * D)%R with (M * M - D * D)%R in E by (unfold M; ring).
  assert (HP : (0 < alpha * alpha * (alpha * alpha))%R) by (repeat apply Rmult_lt_0_compat; done). set (P := (alpha * alpha * (alpha * alpha))%R) in *. split; split; intros H.
  - apply Rnot_lt_le. intros Hlt. assert (0 <= P * G)%R by (apply Rmult_le_pos; lra). assert (M * M < D * D)%R by (apply Rmult_le_0_lt_compat; lra). lra.
  - apply Rnot_lt_le. intros Hlt. assert (0 < P * - G)%R by (apply Rmult_lt_0_compat; lra). assert (D * D <= M * M)%R by (apply Rmult_le_compat; lra). lra.
  - rewrite H, Rmult_0_r in E. destruct (Rtotal_order D M) as [Hlt|[Heq|Hlt]]; [|done|].
    + assert (D * D < M * M)%R by (apply Rmult_le_0_lt_compat; lra). lra.
    + assert (M * M < D * D)%R by (apply Rmult_le_0_lt_compat; lra). lra.
  - rewrite H in E. replace (M * M - M * M)%R with 0%R in E by ring. apply Rmult_integral in E. lra.
Qed.
Lemma in_cone_light dim alpha past o y : (0 < alpha)%R → length o = length y →
  in_cone (DeSitter dim alpha) past o y ↔
  inside_horizon alpha o ∧ (0 <= sign past * (cget y 0 - cget o 0))%R ∧
  (0 <= light alpha (sqsum (tail o)) (sqsum (tail y)) (dot (tail o) (tail y)) ((cget y 0 - cget o 0) / alpha))%R.
Proof.
  intros Ha Hl. rewrite in_cone_dS by done. split.
  - intros (Ho & Hy & Ht & H). split; [done|]. split; [done|]. by apply (light_iff alpha o y).
  - intros (Ho & Ht & H). pose proof (light_inside alpha o y _ Ha Hl Ho H) as Hy. split; [done|]. split; [done|]. split; [done|]. by apply (light_iff alpha o y).
Qed.
Lemma first_light_light dim alpha past o y : (0 < alpha)%R → 1 ≤ length o → length o = length y →
  first_light (DeSitter dim alpha) past o y ↔
  inside_horizon alpha o ∧ (0 <= sign past * (cget y 0 - cget o 0))%R ∧
  (light alpha (sqsum (tail o)) (sqsum (tail y)) (dot (tail o) (tail y)) ((cget y 0 - cget o 0) / alpha) = 0)%R.
Proof.
  intros Ha H1 Hl. rewrite first_light_dS by done. split.
  - intros (Ho & Hy & Ht & H). split; [done|]. split; [done|]. by apply (light_iff alpha o y).
  - intros (Ho & Ht & H). pose proof (light_inside alpha o y ((cget y 0 - cget o 0) / alpha) Ha Hl Ho ltac:(lra)) as Hy. split; [done|]. split; [done|]. split; [done|]. by apply (light_iff alpha o y).
Qed.

(** ** The ellipse *)
Lemma ellipse_identity q r d b X Y : (r * r = q)%R → (0 <= q < 1)%R →
  let T := tanh d in
  (b * b = T * T * ((1 - q) / (1 - q * (T * T))))%R →
  let x := (r * (1 - T * T) / (1 - q * (T * T)) + T * (1 - q) / (1 - q * (T * T)) * X)%R in
  ((1 - q) * (1 - (x * x + (b * Y) * (b * Y))) * (cosh d * cosh d) - (1 - r * x) * (1 - r * x) =
   T * T * ((1 - q) * (1 - q)) / ((1 - T * T) * (1 - q * (T * T))) * (1 - (X * X + Y * Y)))%R.
Proof.
  intros Hr Hq T Hb x. pose proof (tanh_bound d) as HT. fold T in HT. assert (HTT : (0 <= T * T < 1)%R) by nra.
  assert (HqT : (0 < 1 - q * (T * T))%R) by nra. pose proof (cosh_tanh d) as Hc. fold T in Hc.
  assert (EC : (cosh d * cosh d = 1 / (1 - T * T))%R).
  { apply (Rmult_eq_reg_r (1 - T * T)); [|lra]. rewrite Hc. field. lra. }
  rewrite EC. replace (b * Y * (b * Y))%R with (T * T * ((1 - q) / (1 - q * (T * T))) * (Y * Y))%R by (rewrite <- Hb; ring).
  unfold x. clear x EC Hc Hb. rewrite <- Hr in *. field. split; lra.
Qed.
Lemma arctan2_polar y x : (N2 x y * cos (arctan2 y x) = x)%R ∧ (N2 x y * sin (arctan2 y x) = y)%R.
Proof.
  unfold arctan2. destruct (decide (0 < x)%R) as [H|H]; [by apply atan_polar|].
  destruct (decide (x < 0)%R) as [H'|H'].
  - destruct (atan_polar (- y) (- x)) as [E1 E2]; [lra|]. replace (- y / - x)%R with (y / x)%R in E1, E2 by (field; lra).
    replace (- x * - x + - y * - y)%R with (x * x + y * y)%R in E1, E2 by ring. unfold N2.
    destruct (decide (0 <= y)%R).
    + rewrite neg_cos, neg_sin. lra.
    + rewrite cos_minus, sin_minus, cos_PI, sin_PI. lra.
  - assert (x = 0%R) as -> by lra. unfold N2. replace (0 * 0 + y * y)%R with (y * y)%R by ring.
    destruct (decide (0 < y)%R) as [Hy|Hy].
    + rewrite cos_PI2, sin_PI2, sqrt_square by lra. lra.
    + destruct (decide (y < 0)%R) as [Hy'|Hy'].
      * rewrite cos_neg, sin_neg, cos_PI2, sin_PI2. replace (y * y)%R with (- y * - y)%R by ring. rewrite sqrt_square by lra. lra.
      * assert (y = 0%R) as -> by lra. rewrite cos_0, sin_0. replace (0 * 0)%R with 0%R by ring. rewrite sqrt_0. lra.
Qed.
(** The centre and radii of the slice, in units of alpha. *)
Definition el_c (r d : R) : R := (r * (1 - tanh d * tanh d) / (1 - r * r * (tanh d * tanh d)))%R.
Definition el_a (r d : R) : R := (tanh d * (1 - r * r) / (1 - r * r * (tanh d * tanh d)))%R.
Definition el_b (r d : R) : R := (tanh d * sqrt ((1 - r * r) / (1 - r * r * (tanh d * tanh d))))%R.
Lemma tanh_nonneg d : (0 <= d)%R → (0 <= tanh d < 1)%R.
Proof.
  intros Hd. pose proof (tanh_bound d). split; [|lra]. destruct (Rle_lt_or_eq_dec 0 d Hd) as [Hp|<-]; [left; by apply tanh_pos|rewrite tanh_0; lra].
Qed.
Lemma el_denom r d : (0 <= r < 1)%R → (0 <= d)%R → (0 < 1 - r * r * (tanh d * tanh d))%R ∧ (1 - r * r <= 1 - r * r * (tanh d * tanh d))%R.
Proof. intros Hr Hd. pose proof (tanh_nonneg d Hd) as HT. assert (0 <= r * r < 1)%R by nra. assert (0 <= tanh d * tanh d < 1)%R by nra. split; nra. Qed.
Lemma el_bb r d : (0 <= r < 1)%R → (0 <= d)%R →
  (el_b r d * el_b r d = tanh d * tanh d * ((1 - r * r) / (1 - r * r * (tanh d * tanh d))))%R.
Proof.
  intros Hr Hd. destruct (el_denom r d Hr Hd) as [H1 H2]. unfold el_b.
  set (z := ((1 - r * r) / (1 - r * r * (tanh d * tanh d)))%R). assert (Hz : (0 <= z)%R) by (apply Rmult_le_pos; [nra|left; by apply Rinv_0_lt_compat]).
  transitivity (tanh d * tanh d * (sqrt z * sqrt z))%R; [ring|]. by rewrite sqrt_sqrt.
Qed.
Lemma unit_prod a b : (0 <= a < 1)%R → (0 <= b <= 1)%R → (0 <= a * b < 1)%R.
Proof. intros. split; [apply Rmult_le_pos; lra|]. apply Rle_lt_trans with (a * 1)%R; [apply Rmult_le_compat_l; lra|lra]. Qed.
Lemma el_bounds r d : (0 <= r < 1)%R → (0 <= d)%R → (0 <= el_a r d < 1)%R ∧ (0 <= el_b r d < 1)%R ∧ ((0 < d)%R → (0 < el_a r d)%R ∧ (0 < el_b r d)%R).
Proof.
  intros Hr Hd. destruct (el_denom r d Hr Hd) as [H1 H2]. pose proof (tanh_nonneg d Hd) as HT. assert (Hq : (0 < 1 - r * r)%R) by nra.
  set (D := (1 - r * r * (tanh d * tanh d))%R) in *. assert (HI : (0 < / D)%R) by (by apply Rinv_0_lt_compat).
  assert (Hz : (0 < (1 - r * r) / D <= 1)%R). { split; [by apply Rdiv_lt_0_compat|]. apply (Rmult_le_reg_r D); [done|]. unfold Rdiv. rewrite Rmult_assoc, Rinv_l by lra. lra. }
  assert (Hs : (0 < sqrt ((1 - r * r) / D) <= 1)%R). { clear -Hz. set (z := ((1 - r * r) / D)%R) in *. clearbody z. split; [apply sqrt_lt_R0; lra|]. rewrite <- sqrt_1. apply sqrt_le_1_alt. lra. }
  unfold el_a, el_b. fold D. replace (tanh d * (1 - r * r) / D)%R with (tanh d * ((1 - r * r) / D))%R by (unfold Rdiv; ring). split; [apply unit_prod; lra|]. split; [apply unit_prod; lra|].
  intros Hp. pose proof (tanh_pos d Hp). split; apply Rmult_lt_0_compat; lra.
Qed.
Lemma ellipse_radii alpha r d : (0 < alpha)%R → (0 <= r < 1)%R → (0 <= d)%R →
  ellipse_center_radii alpha (r * r) d = (alpha * el_c r d, alpha * el_a r d, alpha * el_b r d)%R.
Proof.
  intros Ha Hr Hd. rewrite ellipse_formula by (done || nra). unfold el_c, el_a, el_b. by rewrite sqrt_square by lra.
Qed.
(** The map from the unit disc to the slice. *)
Definition slice_map (alpha r d phi : R) : point → point :=
  affine (cos phi * (alpha * el_c r d), sin phi * (alpha * el_c r d))%R (cos phi * (alpha * el_a r d)) (- sin phi * (alpha * el_b r d))
    (sin phi * (alpha * el_a r d)) (cos phi * (alpha * el_b r d)).
Definition slice_polygon (alpha r d phi : R) : list point :=
  affine_polygon (cos phi * (alpha * el_c r d), sin phi * (alpha * el_c r d))%R (cos phi * (alpha * el_a r d)) (- sin phi * (alpha * el_b r d))
    (sin phi * (alpha * el_a r d)) (cos phi * (alpha * el_b r d)) 128.
Lemma slice_polygon_eq alpha r d phi : slice_polygon alpha r d phi = (λ i, slice_map alpha r d phi (cos (angle 128 i), sin (angle 128 i))) <$> seq 0 129.
Proof.
  unfold slice_polygon. rewrite affine_polygon_eq. apply list_fmap_ext. intros k i _. unfold slice_map. f_equal. unfold vertex. cbn [fst snd]. f_equal; ring.
Qed.
Lemma slice_rows_eq (junk : nat → point) alpha r d phi :
  rotate_rows phi (EllipseEdge junk [alpha * el_c r d; 0]%R [alpha * el_a r d; alpha * el_b r d]%R 0 (-1)) = Some <$> slice_polygon alpha r d phi.
Proof.
  rewrite slice_polygon_eq. unfold EllipseEdge. rewrite decide_True by done. assert (Es : sampling (-1) = 128) by (rewrite edge_count_sampling; done). rewrite Es.
  unfold arc, linspace, rotate_rows. rewrite <- !list_fmap_compose. apply list_fmap_ext. intros k i _. cbn -[INR cos sin]. unfold slice_map, affine, angle, step, cget. cbn -[INR cos sin].
  replace (128 - 0) with 128 by lia. replace (0 + INR i * ((2 * PI - 0) / INR 128))%R with (INR i * (2 * PI / INR 128))%R by (unfold Rdiv; ring).
  set (c := cos (INR i * (2 * PI / INR 128))). set (s := sin (INR i * (2 * PI / INR 128))). do 2 f_equal; ring.
Qed.

(** ** One slice *)
Section plane.
Context (dim : nat) (alpha : R) (o : list R) (i j : nat).
Hypothesis Ha : (0 < alpha)%R.
Hypothesis Ho : length o = dim.
Hypothesis Hi : 1 ≤ i < dim.
Hypothesis Hj : 1 ≤ j < dim.
Hypothesis Hij : i ≠ j.
Hypothesis Hin : inside_horizon alpha o.
Hypothesis Hz : ∀ m, 1 ≤ m < dim → m ≠ i → m ≠ j → cget o m = 0%R.
Let r : R := (N2 (cget o i) (cget o j) / alpha)%R.
Let phi : R := arctan2 (cget o j) (cget o i).
Lemma plane_dot (x y : list R) : length x = dim → length y = dim → (∀ m, 1 ≤ m < dim → m ≠ i → m ≠ j → cget x m = 0%R) →
  dot (tail x) (tail y) = (cget x i * cget y i + cget x j * cget y j)%R.
Proof using Ho Hi Hj Hij.
  intros Hx Hy Hxz. rewrite (dot_support x y dim [i; j]); [|done|done| | |].
  - cbn [fmap list_fmap]. unfold rsum. cbn [foldl]. ring.
  - apply NoDup_cons. split; [|apply NoDup_singleton]. by rewrite elem_of_list_singleton.
  - intros k Hk. rewrite !elem_of_cons, elem_of_nil in Hk. destruct Hk as [-> |[-> |[]]]; lia.
  - intros m Hm Hn. rewrite !elem_of_cons, elem_of_nil in Hn. apply Hxz; tauto.
Qed.
Lemma plane_r : (alpha * alpha * (r * r) = sqsum (tail o))%R ∧ (0 <= r < 1)%R.
Proof using Ha Ho Hi Hj Hij Hin Hz.
  assert (E : (alpha * alpha * (r * r) = sqsum (tail o))%R).
  { rewrite sqsum_dot, (plane_dot o o) by done. unfold r. transitivity (N2 (cget o i) (cget o j) * N2 (cget o i) (cget o j))%R; [field; lra|]. unfold N2. apply sqrt_sqrt. nra. }
  assert (H0 : (0 <= r)%R) by (apply Rmult_le_pos; [apply N2_pos|left; by apply Rinv_0_lt_compat]).
  split; [done|]. split; [done|]. unfold inside_horizon in Hin. rewrite <- E in Hin. clear -Ha Hin H0. assert (HA : (0 < alpha * alpha)%R) by nra. apply Rnot_le_lt. intros H1. assert (1 <= r * r)%R by nra. assert (alpha * alpha * 1 <= alpha * alpha * (r * r))%R by (apply Rmult_le_compat_l; lra). lra.
Qed.
Lemma plane_origin : (alpha * r * cos phi = cget o i)%R ∧ (alpha * r * sin phi = cget o j)%R.
Proof using Ha.
  destruct (arctan2_polar (cget o j) (cget o i)) as [E1 E2]. fold phi in E1, E2.
  assert (Er : (alpha * r = N2 (cget o i) (cget o j))%R) by (unfold r; field; lra). rewrite Er. done.
Qed.
Lemma plane_slice (junk : nat → point) t :
  dS_XY_slice junk alpha t o (Z.of_nat i, Z.of_nat j) = Ok (Some (Some <$> slice_polygon alpha r (Rabs (t - cget o 0) / alpha) phi)).
Proof using Ha Ho Hi Hj Hij Hin Hz.
  unfold dS_XY_slice. destruct plane_r as [Er Hr].
  assert (Eq : (sqsum (tail o) / (alpha * alpha) = r * r)%R) by (rewrite <- Er; field; lra). rewrite Eq.
  rewrite decide_False by nra. cbn [fst snd].
  assert (Hg : ∀ m, m < dim → np_index o (Z.of_nat m) = Ok (cget o m)).
  { intros m Hm. apply np_index_ok. exists m. unfold cget. rewrite nth_lookup. destruct (lookup_lt_is_Some_2 o m) as [v Hv]; [lia|]. rewrite Hv. auto. }
  rewrite !Hg by lia. cbn [res_bind]. fold phi. rewrite ellipse_radii; [|done|done|apply Rmult_le_pos; [apply Rabs_pos|left; by apply Rinv_0_lt_compat]].
  by rewrite slice_rows_eq.
Qed.
Definition slice_weight (d : R) : R :=
  (tanh d * tanh d * ((1 - r * r) * (1 - r * r)) / ((1 - tanh d * tanh d) * (1 - r * r * (tanh d * tanh d))))%R.
Lemma slice_weight_pos d : (0 < d)%R → (0 < slice_weight d)%R.
Proof using Ha Ho Hi Hj Hij Hin Hz.
  intros Hd. destruct plane_r as [_ Hr]. pose proof (tanh_pos d Hd) as HT. pose proof (tanh_bound d). destruct (el_denom r d Hr ltac:(lra)) as [H1 _].
  assert (0 < 1 - r * r)%R by nra. assert (0 < 1 - tanh d * tanh d)%R by nra. unfold slice_weight. set (T := tanh d) in *. clearbody T. apply Rdiv_lt_0_compat; repeat apply Rmult_lt_0_compat; done.
Qed.
Lemma plane_light (y : list R) (P : point) (d : R) : length y = dim → (∀ m, 1 ≤ m < dim → m ≠ i → m ≠ j → cget y m = 0%R) →
  d = (Rabs (cget y 0 - cget o 0) / alpha)%R → (cget y i, cget y j) = slice_map alpha r d phi P →
  light alpha (sqsum (tail o)) (sqsum (tail y)) (dot (tail o) (tail y)) ((cget y 0 - cget o 0) / alpha) =
    (slice_weight d * (1 - (P.1 * P.1 + P.2 * P.2)))%R.
Proof using Ha Ho Hi Hj Hij Hin Hz.
  intros Hy Hyz Ed E. destruct plane_r as [Er Hr]. destruct plane_origin as [Ei Ej].
  assert (Hd : (0 <= d)%R) by (rewrite Ed; apply Rmult_le_pos; [apply Rabs_pos|left; by apply Rinv_0_lt_compat]).
  unfold slice_map, affine in E. cbn [fst snd] in E. injection E as E1 E2. set (X := P.1) in *. set (Y := P.2) in *.
  set (x := (el_c r d + el_a r d * X)%R). set (v := (el_b r d * Y)%R).
  assert (F1 : cget y i = (alpha * (cos phi * x - sin phi * v))%R) by (rewrite E1; unfold x, v; ring).
  assert (F2 : cget y j = (alpha * (sin phi * x + cos phi * v))%R) by (rewrite E2; unfold x, v; ring).
  pose proof (sin2_cos2 phi) as Hsc. unfold Rsqr in Hsc.
  rewrite (sqsum_dot (tail y)), (plane_dot y y), (plane_dot o y) by done. rewrite <- Er, <- Ei, <- Ej, F1, F2.
  assert (Ec : cosh ((cget y 0 - cget o 0) / alpha) = cosh d).
  { rewrite Ed. rewrite <- (cosh_abs ((cget y 0 - cget o 0) / alpha)). f_equal. unfold Rdiv. rewrite Rabs_mult. f_equal. apply Rabs_pos_eq. left. by apply Rinv_0_lt_compat. }
  unfold light. rewrite Ec.
  replace (alpha * alpha * (r * r) / (alpha * alpha))%R with (r * r)%R by (field; lra).
  replace ((alpha * (cos phi * x - sin phi * v) * (alpha * (cos phi * x - sin phi * v)) + alpha * (sin phi * x + cos phi * v) * (alpha * (sin phi * x + cos phi * v))) / (alpha * alpha))%R with (x * x + v * v)%R.
  2:{ transitivity ((x * x + v * v) * (sin phi * sin phi + cos phi * cos phi))%R; [rewrite Hsc; ring|field; lra]. }
  replace ((alpha * r * cos phi * (alpha * (cos phi * x - sin phi * v)) + alpha * r * sin phi * (alpha * (sin phi * x + cos phi * v))) / (alpha * alpha))%R with (r * x)%R.
  2:{ transitivity (r * x * (sin phi * sin phi + cos phi * cos phi))%R; [rewrite Hsc; ring|field; lra]. }
  exact (ellipse_identity (r * r) r d (el_b r d) X Y eq_refl ltac:(nra) (el_bb r d Hr Hd)).
Qed.
Lemma slice_det d : (0 < d)%R → (0 < cos phi * (alpha * el_a r d) * (cos phi * (alpha * el_b r d)) - - sin phi * (alpha * el_b r d) * (sin phi * (alpha * el_a r d)))%R.
Proof using Ha Ho Hi Hj Hij Hin Hz.
  intros Hd. destruct plane_r as [_ Hr]. destruct (el_bounds r d Hr ltac:(lra)) as (_ & _ & H). destruct (H Hd) as [H1 H2].
  replace (cos phi * (alpha * el_a r d) * (cos phi * (alpha * el_b r d)) - - sin phi * (alpha * el_b r d) * (sin phi * (alpha * el_a r d)))%R
    with (alpha * alpha * (el_a r d * el_b r d) * ((sin phi)² + (cos phi)²))%R by (unfold Rsqr; ring).
  rewrite sin2_cos2, Rmult_1_r. apply Rmult_lt_0_compat; by apply Rmult_lt_0_compat.
Qed.
End plane.

Lemma DeSitter_constructed dim alpha : constructed (DeSitter dim alpha) → 2 ≤ dim ∧ (0 < alpha)%R.
Proof.
  intros [?|[(d & p & H)|[(d & a & H)|[(? & ? & H)|(? & ? & ? & H)]]]]; try done.
  - unfold FlatSpacetime in H. case_decide as Hd; [done|]. destruct p as [p|ps|]; try done; repeat (case_decide; try done).
  - unfold deSitterSpacetime in H. repeat (case_decide; try done). injection H as <- <-. split; [lia|done].
  - unfold AntideSitterSpacetime in H. repeat (case_decide; try done).
  - unfold BlackHoleSpacetime in H. repeat (case_decide; try done).
Qed.
Lemma place3 (o : list R) dim i j t x z : length o = dim → 1 ≤ i < dim → 1 ≤ j < dim → i ≠ j →
  let y := place o [(0, t); (i, x); (j, z)] in
  length y = dim ∧ cget y 0 = t ∧ cget y i = x ∧ cget y j = z ∧ (∀ m, 1 ≤ m → m ≠ i → m ≠ j → cget y m = cget o m).
Proof.
  intros Ho Hi Hj Hij y. split; [unfold y; by rewrite place_length|]. unfold y. rewrite !place_cons by (rewrite ?place_length; lia). split.
  { by rewrite decide_True. } split.
  { rewrite decide_False by lia. by rewrite decide_True. } split.
  { rewrite decide_False by lia. rewrite decide_False by lia. by rewrite decide_True. }
  intros m Hm H1 H2. rewrite !place_cons by (rewrite ?place_length; lia). rewrite !decide_False by lia. done.
Qed.
Lemma sqdist_0 (P : point) : sqdist P (0, 0)%R = (P.1 * P.1 + P.2 * P.2)%R.
Proof. unfold sqdist. cbn [fst snd]. ring. Qed.
Lemma cos_128 : cos (step 128 / 2) = cos (PI / 128) ∧ (0 < cos (PI / 128) < 1)%R.
Proof.
  assert (E : (step 128 / 2 = PI / 128)%R) by (unfold step; rewrite INR_IZR_INZ; change (IZR (Z.of_nat 128)) with 128%R; field).
  rewrite E. split; [done|]. pose proof PI_RGT_0. split; [apply cos_gt_0; lra|]. rewrite <- cos_0. apply cos_decreasing_1; lra.
Qed.
(** The linear part of the map of the unit disc does not stretch by more than alpha M. *)
Lemma slice_stretch alpha r d phi M (P Q : point) : (0 <= alpha)%R → (0 <= el_a r d <= M)%R → (0 <= el_b r d <= M)%R →
  let p := slice_map alpha r d phi P in let q := slice_map alpha r d phi Q in
  (N2 (q.1 - p.1) (q.2 - p.2) <= alpha * M * N2 (Q.1 - P.1) (Q.2 - P.2))%R.
Proof.
  intros Ha HA HB p q. unfold p, q, slice_map, affine. cbn [fst snd]. set (X := (Q.1 - P.1)%R). set (Y := (Q.2 - P.2)%R).
  set (a := el_a r d) in *. set (b := el_b r d) in *.
  assert (E : N2 (cos phi * (alpha * el_c r d) + (cos phi * (alpha * a) * Q.1 + - sin phi * (alpha * b) * Q.2) - (cos phi * (alpha * el_c r d) + (cos phi * (alpha * a) * P.1 + - sin phi * (alpha * b) * P.2)))
     (sin phi * (alpha * el_c r d) + (sin phi * (alpha * a) * Q.1 + cos phi * (alpha * b) * Q.2) - (sin phi * (alpha * el_c r d) + (sin phi * (alpha * a) * P.1 + cos phi * (alpha * b) * P.2)))
     = (alpha * N2 (a * X) (b * Y))%R).
  { rewrite <- N2_scale by done. unfold N2. f_equal. pose proof (sin2_cos2 phi) as Hsc. unfold Rsqr in Hsc.
    transitivity ((alpha * (a * X) * (alpha * (a * X)) + alpha * (b * Y) * (alpha * (b * Y))) * (sin phi * sin phi + cos phi * cos phi))%R; [unfold X, Y; ring|rewrite Hsc; ring]. }
  rewrite E, Rmult_assoc. apply Rmult_le_compat_l; [done|]. rewrite <- N2_scale by lra. unfold N2. apply sqrt_le_1_alt.
  assert (Hsq : ∀ c z, (0 <= c <= M)%R → (c * z * (c * z) <= M * z * (M * z))%R).
  { intros c z Hc. replace (c * z * (c * z))%R with ((c * c) * (z * z))%R by ring. replace (M * z * (M * z))%R with ((M * M) * (z * z))%R by ring.
    apply Rmult_le_compat_r; [apply Rle_0_sqr|]. apply Rmult_le_compat; lra. }
  pose proof (Hsq a X HA). pose proof (Hsq b Y HB). lra.
Qed.

(** *** Plots of two space dimensions *)
Theorem C82_space_plane (junk : nat → point) dim alpha past opac (n : Z) i j :
  let st := DeSitter dim alpha in
  constructed st → 1 ≤ i < dim → 1 ≤ j < dim → i ≠ j →
  ∃ h, ConePlotter junk st [Z.of_nat i; Z.of_nat j] (sign past) opac n = Ok h ∧
  ∀ o ts, length o = dim → ¬ not_drawn past opac o ts → inside_horizon alpha o →
  (∀ m, 1 ≤ m < dim → m ≠ i → m ≠ j → cget o m = 0%R) →
  let at_slice (p : point) := place o [(0, ts); (i, p.1); (j, p.2)] in
  ∃ rows, h o ts = Ok (Some (opacity past opac o ts, DPatch rows)) ∧
  (∀ p, painted (Polygon rows) p → in_cone st past o (at_slice p)) ∧
  (∀ p, (∀ q : point, (sqrt ((q.1 - p.1) * (q.1 - p.1) + (q.2 - p.2) * (q.2 - p.2)) <= alpha * (1 - cos (PI / 128)))%R →
           in_cone st past o (at_slice q)) → painted (Polygon rows) p).
Proof.
  intros st Hst Hi Hj Hij. apply DeSitter_constructed in Hst as [Hd2 Ha]. eexists. split; [reflexivity|]. intros o ts Ho Hd Hin Hz at_slice.
  destruct (cone_start_spec past opac o ts) as [_ Hs]. destruct (Hs Hd) as [Es Hr0]. clear Hs.
  unfold base_cone. rewrite Es. unfold is3d. rewrite bool_decide_false by done. rewrite time_axis_two by done.
  rewrite (decide_False (P := i = 0)), (decide_False (P := j = 0)) by lia. cbv zeta. destruct (decide (-1 < 0)%Z) as [_|Hbad]; [|lia]. destruct (decide (-1 = 0)%Z) as [Hbad|_]; [lia|].
  cbn [XY_slice st]. unfold dim_at. cbn [nth]. rewrite (plane_slice dim alpha o i j Ha Ho Hi Hj Hij Hin Hz). cbn [res_map fmap option_fmap option_map].
  eexists. split; [reflexivity|].
  set (r := (N2 (cget o i) (cget o j) / alpha)%R). set (phi := arctan2 (cget o j) (cget o i)). set (d := (Rabs (ts - cget o 0) / alpha)%R).
  destruct (plane_r dim alpha o i j Ha Ho Hi Hj Hij Hin Hz) as [_ Hr]. fold r in Hr.
  assert (Hd0 : (0 < d)%R).
  { apply Rmult_lt_0_compat; [|by apply Rinv_0_lt_compat]. apply Rabs_pos_lt. intros E. rewrite E, Rmult_0_r in Hr0. lra. }
  pose proof (slice_det dim alpha o i j Ha Ho Hi Hj Hij Hin Hz d Hd0) as Hdet. fold r phi in Hdet.
  pose proof (slice_weight_pos dim alpha o i j Ha Ho Hi Hj Hij Hin Hz d Hd0) as Hw.
  assert (HC : ∀ P, in_cone st past o (at_slice (slice_map alpha r d phi P)) ↔ (P.1 * P.1 + P.2 * P.2 <= 1)%R).
  { intros P. destruct (place3 o dim i j ts (slice_map alpha r d phi P).1 (slice_map alpha r d phi P).2 Ho Hi Hj Hij) as (Ly & Y0 & Yi & Yj & Yz).
    unfold at_slice. set (y := place o _) in *. unfold st. rewrite in_cone_light by (done || lia). 
    rewrite (plane_light dim alpha o i j Ha Ho Hi Hj Hij Hin Hz y P d); [|done| |by rewrite Y0|rewrite Yi, Yj; fold r phi; by destruct (slice_map alpha r d phi P)].
    2:{ intros m Hm H1 H2. rewrite Yz by lia. by apply Hz. }
    rewrite Y0. split.
    - intros (_ & _ & H). apply Rnot_lt_le. intros Hlt. set (w := slice_weight _ _ _ _ _) in *. assert (0 < w * (P.1 * P.1 + P.2 * P.2 - 1))%R by (apply Rmult_lt_0_compat; lra). lra.
    - intros H. split; [done|]. split; [lra|]. apply Rmult_le_pos; lra. }
  assert (H128 : 3 ≤ 128) by lia. destruct cos_128 as [E128 HK]. split.
  - intros p Hp. destruct (affine_onto (cos phi * (alpha * el_c r d), sin phi * (alpha * el_c r d))%R _ _ _ _ Hdet p) as [P EP]. fold (slice_map alpha r d phi P) in EP.
    rewrite <- EP in *. apply HC. apply (affine_outside _ _ _ _ _ Hdet 128 P H128) in Hp. rewrite sqdist_0 in Hp.
    apply Rnot_lt_le. intros Hlt. set (z := (P.1 * P.1 + P.2 * P.2)%R) in *. clearbody z. assert (sqrt 1 < sqrt z)%R by (apply sqrt_lt_1; lra). rewrite sqrt_1 in *. lra.
  - intros p Hp. destruct (affine_onto (cos phi * (alpha * el_c r d), sin phi * (alpha * el_c r d))%R _ _ _ _ Hdet p) as [P EP]. fold (slice_map alpha r d phi P) in EP.
    rewrite <- EP. destruct (Rlt_dec (sqrt (sqdist P (0, 0)%R)) (cos (step 128 / 2))) as [Hlt|Hge]; [by apply (affine_inside _ _ _ _ _ Hdet 128 P H128)|].
    exfalso. rewrite E128, sqdist_0 in Hge. set (m := sqrt (P.1 * P.1 + P.2 * P.2)) in *. set (K := cos (PI / 128)) in *.
    assert (Hm : (K <= m)%R) by lra. assert (Em : (m * m = P.1 * P.1 + P.2 * P.2)%R) by (apply sqrt_sqrt; nra).
    destruct (el_bounds r d Hr ltac:(lra)) as (Ba & Bb & Bp). destruct (Bp Hd0) as [Pa Pb].
    set (M := Rmax (el_a r d) (el_b r d)). assert (HM : (0 < M < 1)%R) by (unfold M; split; [apply Rlt_le_trans with (el_a r d); [done|apply Rmax_l]|apply Rmax_lub_lt; lra]).
    assert (HaM : (0 <= el_a r d <= M)%R) by (split; [lra|apply Rmax_l]). assert (HbM : (0 <= el_b r d <= M)%R) by (split; [lra|apply Rmax_r]).
    set (e := ((1 - K) / M)%R). assert (He : (1 - K < e)%R).
    { unfold e. apply (Rmult_lt_reg_r M); [lra|]. unfold Rdiv. rewrite Rmult_assoc, Rinv_l by lra. nra. }
    set (k := (1 + e / m)%R). set (Q := (P.1 * k, P.2 * k)%R : point).
    assert (Hin' : in_cone st past o (at_slice (slice_map alpha r d phi Q))).
    { apply Hp. rewrite <- EP. pose proof (slice_stretch alpha r d phi M P Q ltac:(lra) HaM HbM) as Hst. cbv zeta in Hst. unfold N2 in Hst at 1.
      apply Rle_trans with (alpha * M * N2 (Q.1 - P.1) (Q.2 - P.2))%R; [exact Hst|].
      assert (EQ : N2 (Q.1 - P.1) (Q.2 - P.2) = e).
      { unfold Q, k. cbn [fst snd]. replace (P.1 * (1 + e / m) - P.1)%R with ((e / m) * P.1)%R by ring. replace (P.2 * (1 + e / m) - P.2)%R with ((e / m) * P.2)%R by ring.
        rewrite N2_scale by (apply Rmult_le_pos; [lra|left; apply Rinv_0_lt_compat; lra]). change (N2 P.1 P.2) with m. field. lra. }
      rewrite EQ. right. unfold e. field. lra. }
    apply HC in Hin'. unfold Q in Hin'. cbn [fst snd] in Hin'.
    replace (P.1 * k * (P.1 * k) + P.2 * k * (P.2 * k))%R with ((P.1 * P.1 + P.2 * P.2) * (k * k))%R in Hin' by ring. rewrite <- Em in Hin'.
    replace (m * m * (k * k))%R with ((m + e) * (m + e))%R in Hin' by (unfold k; field; lra). nra.
Qed.
Print Assumptions C82_space_plane.

(** ** How fast the slices grow *)
Lemma lipschitz (f f' : R → R) : (∀ x, derivable_pt_lim f x (f' x)) → (∀ x, (-1 <= f' x <= 1)%R) → ∀ x y, (Rabs (f x - f y) <= Rabs (x - y))%R.
Proof.
  intros Hf Hb. assert (H : ∀ a b, (a < b)%R → (Rabs (f b - f a) <= b - a)%R).
  { intros a b Hab. destruct (MVT_cor2 f f' a b Hab) as (c & E & _); [intros; apply Hf|]. rewrite E. specialize (Hb c). apply Rabs_le. split; nra. }
  intros x y. destruct (Rtotal_order x y) as [Hlt|[-> |Hlt]].
  - rewrite (Rabs_minus_sym x y), (Rabs_minus_sym (f x)). rewrite (Rabs_right (y - x)) by lra. by apply H.
  - rewrite !Rminus_diag_eq by done. rewrite Rabs_R0. lra.
  - rewrite (Rabs_right (x - y)) by lra. by apply H.
Qed.
Lemma tanh_lipschitz x y : (Rabs (tanh x - tanh y) <= Rabs (x - y))%R.
Proof.
  apply (lipschitz tanh (λ x, (cosh x * cosh x - sinh x * sinh x) / Rsqr (cosh x))%R).
  - intros z. unfold tanh. apply (derivable_pt_lim_div sinh cosh); [apply derivable_pt_lim_sinh|apply derivable_pt_lim_cosh|pose proof (cosh_ge_1 z); lra].
  - intros z. pose proof (cosh_ge_1 z) as Hc. rewrite cosh_sq. assert (1 <= Rsqr (cosh z))%R by (unfold Rsqr; nra).
    assert (0 < 1 / Rsqr (cosh z) <= 1)%R; [|lra]. split; [apply Rdiv_lt_0_compat; lra|]. apply (Rmult_le_reg_r (Rsqr (cosh z))); [lra|]. unfold Rdiv. rewrite Rmult_assoc, Rinv_l by lra. lra.
Qed.
Lemma sin_atan_lipschitz s x y : (0 <= s <= 1)%R → (Rabs (sin (atan (s * sinh x)) - sin (atan (s * sinh y))) <= Rabs (x - y))%R.
Proof.
  intros Hs. apply (lipschitz (λ x, sin (atan (s * sinh x))) (λ x, cos (atan (s * sinh x)) * (/ (1 + Rsqr (s * sinh x)) * (s * cosh x)))%R).
  - intros z. apply (derivable_pt_lim_comp (λ x, atan (s * sinh x)) sin z); [|apply derivable_pt_lim_sin].
    apply (derivable_pt_lim_comp (λ x, (s * sinh x)%R) atan z); [|rewrite Rsqr_pow2; apply derivable_pt_lim_atan].
    apply (derivable_pt_lim_scal sinh s z). apply derivable_pt_lim_sinh.
  - intros z. rewrite cos_atan. set (u := (s * sinh z)%R). set (w := (1 + Rsqr u)%R). assert (Hw : (1 <= w)%R) by (unfold w; pose proof (Rle_0_sqr u); lra).
    pose proof (cosh_ge_1 z) as Hc. pose proof (cosh_sq z) as Ec.
    assert (Hsw : (1 <= sqrt w)%R) by (rewrite <- sqrt_1; apply sqrt_le_1_alt; done). assert (Esw : (sqrt w * sqrt w = w)%R) by (apply sqrt_sqrt; lra).
    assert (Hk : (0 <= s * cosh z <= sqrt w)%R).
    { split; [apply Rmult_le_pos; lra|]. apply (square_le _ _); [apply Rmult_le_pos; lra|lra|]. rewrite Esw. unfold w, u, Rsqr.
      replace (s * cosh z * (s * cosh z))%R with (s * s * (cosh z * cosh z))%R by ring. replace (cosh z * cosh z)%R with (1 + sinh z * sinh z)%R by lra. nra. }
    assert (HE : (1 / sqrt w * (/ w * (s * cosh z)) = (s * cosh z / sqrt w) * / w)%R) by (field; lra). rewrite HE.
    assert (H1 : (0 <= s * cosh z / sqrt w <= 1)%R).
    { split; [apply Rmult_le_pos; [lra|left; apply Rinv_0_lt_compat; lra]|]. apply (Rmult_le_reg_r (sqrt w)); [lra|]. unfold Rdiv. rewrite Rmult_assoc, Rinv_l by lra. lra. }
    assert (H2 : (0 < / w <= 1)%R) by (split; [apply Rinv_0_lt_compat; lra|rewrite <- Rinv_1; apply Rinv_le_contravar; lra]).
    set (A := (s * cosh z / sqrt w)%R) in *. clearbody A. nra.
Qed.
Lemma el_sum r d : (0 <= r < 1)%R → (0 <= d)%R →
  el_c r d = ((tanh (atanh r + d) + tanh (atanh r - d)) / 2)%R ∧ el_a r d = ((tanh (atanh r + d) - tanh (atanh r - d)) / 2)%R.
Proof.
  intros Hr Hd. rewrite tanh_plus, tanh_minus, tanh_atanh by lra. pose proof (tanh_nonneg d Hd) as HT. unfold el_c, el_a. set (T := tanh d) in *.
  assert (0 <= r * T < 1)%R by (split; [apply Rmult_le_pos; lra|nra]).
  assert (1 - r * r * (T * T) ≠ 0)%R by nra. split; field; repeat split; lra.
Qed.
Lemma el_b_sin r d : (0 <= r < 1)%R → (0 <= d)%R → el_b r d = sin (atan (sqrt (1 - r * r) * sinh d)).
Proof.
  intros Hr Hd. rewrite sin_atan. destruct (el_denom r d Hr Hd) as [H1 _]. pose proof (cosh_ge_1 d) as Hc. pose proof (cosh_sq d) as Ec.
  assert (Hq : (0 < 1 - r * r)%R) by nra. unfold el_b.
  assert (E1 : (1 + (sqrt (1 - r * r) * sinh d)² = cosh d * cosh d * (1 - r * r * (tanh d * tanh d)))%R).
  { unfold Rsqr. replace (sqrt (1 - r * r) * sinh d * (sqrt (1 - r * r) * sinh d))%R with (sqrt (1 - r * r) * sqrt (1 - r * r) * (sinh d * sinh d))%R by ring.
    rewrite sqrt_sqrt by lra. unfold tanh. transitivity (cosh d * cosh d - r * r * (sinh d * sinh d))%R; [|field; lra]. lra. }
  rewrite E1. rewrite sqrt_mult by nra. rewrite sqrt_square by lra. rewrite sqrt_div by lra.
  assert (0 < sqrt (1 - r * r * (tanh d * tanh d)))%R by (by apply sqrt_lt_R0). unfold tanh at 1. field. split; lra.
Qed.
Lemma slice_grow alpha r d d' phi (P : point) : (0 < alpha)%R → (0 <= r < 1)%R → (0 <= d)%R → (0 <= d')%R → (-1 <= P.1 <= 1)%R → (-1 <= P.2 <= 1)%R →
  let p := slice_map alpha r d phi P in let p' := slice_map alpha r d' phi P in
  (Rabs (p.1 - p'.1) <= alpha * (2 * Rabs (d - d')))%R ∧ (Rabs (p.2 - p'.2) <= alpha * (2 * Rabs (d - d')))%R.
Proof.
  intros Ha Hr Hd Hd' HX HY p p'. unfold p, p', slice_map, affine. cbn [fst snd]. set (X := P.1) in *. set (Y := P.2) in *.
  assert (Hq : (0 <= sqrt (1 - r * r) <= 1)%R). { split; [apply sqrt_pos|]. assert (H1 : (1 - r * r <= 1)%R) by nra. apply sqrt_le_1_alt in H1. by rewrite sqrt_1 in H1. }
  assert (HB : (Rabs (el_b r d - el_b r d') <= Rabs (d - d'))%R) by (rewrite !el_b_sin by done; by apply sin_atan_lipschitz).
  assert (HC : (Rabs ((el_c r d + el_a r d * X) - (el_c r d' + el_a r d' * X)) <= Rabs (d - d'))%R).
  { destruct (el_sum r d Hr Hd) as [-> ->]. destruct (el_sum r d' Hr Hd') as [-> ->].
    pose proof (tanh_lipschitz (atanh r + d) (atanh r + d')) as L1. pose proof (tanh_lipschitz (atanh r - d) (atanh r - d')) as L2.
    replace (atanh r + d - (atanh r + d'))%R with (d - d')%R in L1 by ring. replace (atanh r - d - (atanh r - d'))%R with (- (d - d'))%R in L2 by ring. rewrite Rabs_Ropp in L2.
    set (a1 := tanh (atanh r + d)) in *. set (a2 := tanh (atanh r + d')) in *. set (b1 := tanh (atanh r - d)) in *. set (b2 := tanh (atanh r - d')) in *.
    replace ((a1 + b1) / 2 + (a1 - b1) / 2 * X - ((a2 + b2) / 2 + (a2 - b2) / 2 * X))%R with ((1 + X) / 2 * (a1 - a2) + (1 - X) / 2 * (b1 - b2))%R by field.
    apply Rle_trans with (Rabs ((1 + X) / 2 * (a1 - a2)) + Rabs ((1 - X) / 2 * (b1 - b2)))%R; [apply Rabs_triang|].
    rewrite !Rabs_mult. rewrite (Rabs_right ((1 + X) / 2)), (Rabs_right ((1 - X) / 2)) by lra. nra. }
  assert (HBY : (Rabs (el_b r d * Y - el_b r d' * Y) <= Rabs (d - d'))%R).
  { replace (el_b r d * Y - el_b r d' * Y)%R with ((el_b r d - el_b r d') * Y)%R by ring. rewrite Rabs_mult. assert (Rabs Y <= 1)%R by (apply Rabs_le; lra). pose proof (Rabs_pos (el_b r d - el_b r d')). pose proof (Rabs_pos Y). nra. }
  set (U := ((el_c r d + el_a r d * X) - (el_c r d' + el_a r d' * X))%R) in *. set (V := (el_b r d * Y - el_b r d' * Y)%R) in *. set (D := Rabs (d - d')) in *.
  assert (Hrot : ∀ c s, (-1 <= c <= 1)%R → (-1 <= s <= 1)%R → (Rabs (alpha * (c * U + s * V)) <= alpha * (2 * D))%R).
  { intros c s Hc Hs. rewrite Rabs_mult, (Rabs_right alpha) by lra. apply Rmult_le_compat_l; [lra|].
    apply Rle_trans with (Rabs (c * U) + Rabs (s * V))%R; [apply Rabs_triang|]. rewrite !Rabs_mult. assert (Rabs c <= 1)%R by (apply Rabs_le; lra). assert (Rabs s <= 1)%R by (apply Rabs_le; lra).
    pose proof (Rabs_pos c). pose proof (Rabs_pos s). pose proof (Rabs_pos U). pose proof (Rabs_pos V). nra. }
  pose proof (COS_bound phi). pose proof (SIN_bound phi). split.
  - replace (cos phi * (alpha * el_c r d) + (cos phi * (alpha * el_a r d) * X + - sin phi * (alpha * el_b r d) * Y) - (cos phi * (alpha * el_c r d') + (cos phi * (alpha * el_a r d') * X + - sin phi * (alpha * el_b r d') * Y)))%R
      with (alpha * (cos phi * U + - sin phi * V))%R by (unfold U, V; ring). apply Hrot; lra.
  - replace (sin phi * (alpha * el_c r d) + (sin phi * (alpha * el_a r d) * X + cos phi * (alpha * el_b r d) * Y) - (sin phi * (alpha * el_c r d') + (sin phi * (alpha * el_a r d') * X + cos phi * (alpha * el_b r d') * Y)))%R
      with (alpha * (sin phi * U + cos phi * V))%R by (unfold U, V; ring). apply Hrot; lra.
Qed.

(** ** Plots of time and two space dimensions *)
Lemma slice_rows_spec (xy : R → res (option outline)) (V : R → list point) T :
  (∀ t, t ∈ T → xy t = Ok (Some (Some <$> V t))) →
  slice_rows xy T = Ok (Some ((λ t, fst <$> V t) <$> T, (λ t, snd <$> V t) <$> T, (λ t, replicate (length (V t)) t) <$> T)).
Proof.
  induction T as [|t T IH]; intros H; [done|]. cbn [slice_rows]. rewrite (H t) by left. cbn [res_bind]. rewrite IH by (intros; apply H; by right). cbn [res_map fmap option_fmap option_map].
  do 2 f_equal. rewrite !fmap_cons. apply (f_equal2 pair); [apply (f_equal2 pair)|].
  - f_equal. unfold first_column. rewrite <- list_fmap_compose. done.
  - f_equal. unfold first_column, swap_columns. rewrite <- !list_fmap_compose. done.
  - f_equal. by rewrite fmap_length.
Qed.
Lemma place_ext (x y : list R) : length x = length y → (∀ m, m < length x → cget x m = cget y m) → x = y.
Proof. intros Hl H. apply (nth_ext x y 0%R 0%R); done. Qed.
(** The surface made of slices. *)
Definition slice_surface (alpha r phi o0 : R) (T : list R) : surface :=
  let V t := slice_polygon alpha r (Rabs (t - o0) / alpha) phi in
  ((λ t, fst <$> V t) <$> T, (λ t, snd <$> V t) <$> T, (λ t, replicate (length (V t)) t) <$> T).
Lemma slice_polygon_length alpha r d phi : length (slice_polygon alpha r d phi) = 129.
Proof. rewrite slice_polygon_eq. by rewrite fmap_length, seq_length. Qed.
Lemma slice_surface_grid alpha r phi o0 T : T ≠ [] → grid (slice_surface alpha r phi o0 T) = (length T, 129).
Proof.
  intros HT. unfold grid, slice_surface, rows, columns. rewrite !fmap_length. destruct T as [|t T]; [done|]. cbn [fmap list_fmap lookup list_lookup default from_option].
  unfold Datatypes.id. rewrite !fmap_length, replicate_length, slice_polygon_length. apply (f_equal2 pair); lia.
Qed.
Lemma entry_rows (f : R → list R) T a b : (∀ t, length (f t) = 129) → a < length T → entry (f <$> T) a b = nth b (f (nth a T 0%R)) 0%R.
Proof.
  intros Hf Ha. unfold entry, rows, columns. rewrite fmap_length. destruct T as [|t T]; [cbn in Ha; lia|].
  rewrite (decide_False (P := length _ = 1)).
  - assert (E : (if decide (length (t :: T) = 1) then 0 else a) = a) by (destruct (decide (length (t :: T) = 1)); lia). rewrite E. rewrite (nth_fmap_row f (t :: T) a 0%R) by done. done.
  - cbn [fmap list_fmap lookup list_lookup default from_option]. unfold Datatypes.id. rewrite Hf. lia.
Qed.
Lemma slice_surface_node alpha r phi o0 T a b : a < length T → b < 129 →
  let t := nth a T 0%R in
  let p := slice_map alpha r (Rabs (t - o0) / alpha) phi (cos (angle 128 b), sin (angle 128 b)) in
  node (slice_surface alpha r phi o0 T) a b = (p.1, p.2, t).
Proof.
  intros Ha Hb t p. unfold node, slice_surface.
  assert (L1 : ∀ t, length (fst <$> slice_polygon alpha r (Rabs (t - o0) / alpha) phi) = 129) by (intros; by rewrite fmap_length, slice_polygon_length).
  assert (L2 : ∀ t, length (snd <$> slice_polygon alpha r (Rabs (t - o0) / alpha) phi) = 129) by (intros; by rewrite fmap_length, slice_polygon_length).
  assert (L3 : ∀ t, length (replicate (length (slice_polygon alpha r (Rabs (t - o0) / alpha) phi)) t) = 129) by (intros; by rewrite replicate_length, slice_polygon_length).
  rewrite (entry_rows _ T a b L1 Ha), (entry_rows _ T a b L2 Ha), (entry_rows _ T a b L3 Ha).
  fold t. rewrite slice_polygon_eq. rewrite <- !list_fmap_compose, fmap_length, seq_length.
  rewrite !(nth_fmap _ (seq 0 129) b 0) by (by rewrite seq_length). rewrite !seq_nth by done. rewrite nth_lookup, lookup_replicate_2 by done. done.
Qed.
Lemma node_on_surface F a b : S a < (grid F).1 → S b < (grid F).2 → on_surface F (node F a b).
Proof.
  intros Ha Hb. exists a, b, 0%R, 0%R. split; [done|]. split; [done|]. split; [lra|]. split; [lra|]. cbv zeta. unfold interpolate. split; [ring|]. split; ring.
Qed.
Lemma first_light_now dim alpha past o y : (0 < alpha)%R → 1 ≤ length o → length o = length y → cget y 0 = cget o 0 →
  first_light (DeSitter dim alpha) past o y → y = o.
Proof.
  intros Ha H1 Hl E0 H. apply first_light_dS in H as (Ho & Hy & _ & H); [|done|done|done].
  rewrite E0 in H. replace ((cget o 0 - cget o 0) / alpha)%R with 0%R in H by (field; lra). rewrite cosh_0, Rmult_1_r in H.
  pose proof (amp_sq alpha o Ho) as EA. pose proof (amp_sq alpha y Hy) as EB. set (A := amp alpha o) in *. set (B := amp alpha y) in *.
  assert (HS : sqsum (vsub (tail y) (tail o)) = 0%R).
  { rewrite sqsum_vsub by (rewrite !tail_length; lia). assert (HS : (0 <= sqsum (vsub (tail y) (tail o)))%R) by apply sqsum_nonneg. rewrite sqsum_vsub in HS by (rewrite !tail_length; lia).
    pose proof (Rle_0_sqr (A - B)) as Hs. unfold Rsqr in Hs. lra. }
  destruct o as [|a o], y as [|b y]; cbn in Hl, H1; try lia. unfold cget in E0. cbn [nth] in E0. subst b. f_equal. cbn [tail] in HS.
  apply Nat.succ_inj in Hl. clear -HS Hl. revert y Hl HS. induction o as [|a o IH]; intros [|b y] Hl HS; try done.
  unfold vsub in HS. cbn [zip_with] in HS. rewrite sqsum_cons in HS. pose proof (sqsum_nonneg (zip_with Rminus y o)) as Hp. pose proof (Rle_0_sqr (b - a)) as Hs. unfold Rsqr in Hs.
  assert (E1 : ((b - a) * (b - a) = 0)%R) by lra. assert (E2 : sqsum (zip_with Rminus y o) = 0%R) by lra. f_equal; [nra|]. apply IH; [cbn in Hl; lia|done].
Qed.
Section solid.
Context (dim : nat) (alpha : R) (o : list R) (i j : nat) (past : bool) (ts : R) (N : nat).
Hypothesis Ha : (0 < alpha)%R.
Hypothesis Ho : length o = dim.
Hypothesis Hi : 1 ≤ i < dim.
Hypothesis Hj : 1 ≤ j < dim.
Hypothesis Hij : i ≠ j.
Hypothesis Hin : inside_horizon alpha o.
Hypothesis Hz : ∀ m, 1 ≤ m < dim → m ≠ i → m ≠ j → cget o m = 0%R.
Hypothesis Hts : (0 < sign past * (ts - cget o 0))%R.
Hypothesis HN : 2 ≤ N.
Let r : R := (N2 (cget o i) (cget o j) / alpha)%R.
Let phi : R := arctan2 (cget o j) (cget o i).
Let st := DeSitter dim alpha.
Let y_of (q : point3) : list R := place o [(0, q.2); (i, q.1.1); (j, q.1.2)].
Let A (q : point3) : Prop := first_light st past o (y_of q) ∧ up_to past ts (y_of q).
Lemma solid_light (q : point3) (P : point) : (q.1.1, q.1.2) = slice_map alpha r (Rabs (q.2 - cget o 0) / alpha) phi P →
  A q ↔ (0 <= sign past * (q.2 - cget o 0) <= sign past * (ts - cget o 0))%R ∧
        (slice_weight alpha o i j (Rabs (q.2 - cget o 0) / alpha) * (1 - (P.1 * P.1 + P.2 * P.2)) = 0)%R.
Proof using Ha Ho Hi Hj Hij Hin Hz.
  clear HN Hts. intros E. destruct (place3 o dim i j q.2 q.1.1 q.1.2 Ho Hi Hj Hij) as (Ly & Y0 & Yi & Yj & Yz). unfold A. fold (y_of q) in *.
  rewrite (up_to_iff past ts o). unfold st. rewrite first_light_light by (done || lia). rewrite (plane_light dim alpha o i j Ha Ho Hi Hj Hij Hin Hz (y_of q) P (Rabs (q.2 - cget o 0) / alpha)).
  - rewrite Y0. clear -Hin. split; [intros [(_ & H1 & H2) H3]; done|]. intros [[H1 H3] H2]. done.
  - done.
  - intros m Hm H1 H2. rewrite Yz by lia. by apply Hz.
  - by rewrite Y0.
  - rewrite Yi, Yj. exact E.
Qed.
Lemma solid_param q : A q → (0 <= sign past * (q.2 - cget o 0) <= sign past * (ts - cget o 0))%R ∧
  ∃ P : point, (P.1 * P.1 + P.2 * P.2 = 1)%R ∧ (q.1.1, q.1.2) = slice_map alpha r (Rabs (q.2 - cget o 0) / alpha) phi P.
Proof using Ha Ho Hi Hj Hij Hin Hz.
  clear HN Hts. intros HA. destruct (Req_dec q.2 (cget o 0)) as [E|Hne].
  - assert (Ey : y_of q = o).
    { destruct HA as [H _]. apply (first_light_now dim alpha past); try (done || lia); [unfold y_of; by rewrite place_length|].
      destruct (place3 o dim i j q.2 q.1.1 q.1.2 Ho Hi Hj Hij) as (_ & Y0 & _). fold (y_of q) in Y0. by rewrite Y0. }
    destruct (place3 o dim i j q.2 q.1.1 q.1.2 Ho Hi Hj Hij) as (Ly & Y0 & Yi & Yj & Yz). fold (y_of q) in *. rewrite Ey in Yi, Yj, Y0.
    assert (Eq : (q.1.1, q.1.2) = slice_map alpha r (Rabs (q.2 - cget o 0) / alpha) phi (1, 0)%R).
    { rewrite E. replace (cget o 0 - cget o 0)%R with 0%R by ring. rewrite Rabs_R0. replace (0 / alpha)%R with 0%R by (field; lra).
      destruct (plane_origin alpha o i j Ha) as [E1 E2]. fold r phi in E1, E2. unfold slice_map, affine, el_c, el_a, el_b. rewrite tanh_0. cbn [fst snd].
      rewrite <- Yi, <- Yj, <- E1, <- E2. apply (f_equal2 pair); field. }
    split; [by apply (solid_light q _ Eq)|]. exists (1, 0)%R. cbn [fst snd]. split; [ring|done].
  - assert (Hd : (0 < Rabs (q.2 - cget o 0) / alpha)%R) by (apply Rdiv_lt_0_compat; [apply Rabs_pos_lt; lra|done]).
    pose proof (slice_det dim alpha o i j Ha Ho Hi Hj Hij Hin Hz _ Hd) as Hdet. fold r phi in Hdet.
    pose proof (slice_weight_pos dim alpha o i j Ha Ho Hi Hj Hij Hin Hz _ Hd) as Hw.
    destruct (affine_onto (cos phi * (alpha * el_c r (Rabs (q.2 - cget o 0) / alpha)), sin phi * (alpha * el_c r (Rabs (q.2 - cget o 0) / alpha)))%R _ _ _ _ Hdet (q.1.1, q.1.2)) as [P EP].
    fold (slice_map alpha r (Rabs (q.2 - cget o 0) / alpha) phi P) in EP. symmetry in EP. apply (solid_light q P EP) in HA as [HT HL]. split; [done|]. exists P. split; [|done].
    apply Rmult_integral in HL. lra.
Qed.
Lemma solid_draws : draws [slice_surface alpha r phi (cget o 0) (linspace (cget o 0) ts N)] A
  (2 * Rabs (ts - cget o 0) / INR (N - 1) + alpha * PI / 32).
Proof using Ha Ho Hi Hj Hij Hin Hz Hts HN.
  set (F := slice_surface alpha r phi (cget o 0) (linspace (cget o 0) ts N)).
  assert (HT : linspace (cget o 0) ts N ≠ []). { intros E. apply (f_equal length) in E. rewrite linspace_length in E. cbn in E. lia. }
  assert (HG : grid F = (N, 129)) by (unfold F; rewrite slice_surface_grid, linspace_length; done).
  assert (HM : (0 < INR (N - 1))%R) by (apply lt_0_INR; lia).
  assert (Er : Rabs (ts - cget o 0) = (sign past * (ts - cget o 0))%R) by (apply time_abs; lra).
  destruct (plane_r dim alpha o i j Ha Ho Hi Hj Hij Hin Hz) as [_ Hr]. fold r in Hr.
  assert (Hnode : ∀ a b, a < N → b < 129 → let t := (cget o 0 + INR a * ((ts - cget o 0) / INR (N - 1)))%R in
    let p := slice_map alpha r (Rabs (t - cget o 0) / alpha) phi (cos (angle 128 b), sin (angle 128 b)) in node F a b = (p.1, p.2, t)).
  { intros a b Haa Hbb t p. unfold F. rewrite slice_surface_node by (rewrite ?linspace_length; done). rewrite <- (list_fmap_id (linspace (cget o 0) ts N)), (nth_linspace (λ x, x)) by lia. done. }
  split.
  - intros F' a b HF. apply elem_of_list_singleton in HF as ->. rewrite HG. cbn [fst snd]. intros Haa Hbb. rewrite Hnode by done. cbv zeta.
    set (t := (cget o 0 + INR a * ((ts - cget o 0) / INR (N - 1)))%R). set (P := (cos (angle 128 b), sin (angle 128 b))).
    apply (solid_light _ P); cbn [fst snd]; [by destruct (slice_map _ _ _ _ _)|]. split.
    + replace (sign past * (t - cget o 0))%R with (INR a / INR (N - 1) * (sign past * (ts - cget o 0)))%R by (unfold t; field; lra).
      assert (Hfrac : (0 <= INR a / INR (N - 1) <= 1)%R).
      { split; [apply Rmult_le_pos; [apply pos_INR|left; by apply Rinv_0_lt_compat]|]. apply (Rmult_le_reg_r (INR (N - 1))); [done|]. unfold Rdiv. rewrite Rmult_assoc, Rinv_l by lra.
        rewrite Rmult_1_r, Rmult_1_l. apply le_INR. lia. }
      split; [apply Rmult_le_pos; lra|nra].
    + pose proof (sin2_cos2 (angle 128 b)) as Hsc. unfold Rsqr in Hsc. unfold P. cbn [fst snd]. replace (1 - (cos (angle 128 b) * cos (angle 128 b) + sin (angle 128 b) * sin (angle 128 b)))%R with 0%R by lra. ring.
  - intros q Hq. apply solid_param in Hq as [Ht (P & EP & Eq)].
    set (x := (sign past * (q.2 - cget o 0))%R) in *. set (L := (sign past * (ts - cget o 0))%R) in *.
    destruct (sample_angle (N - 1) L x) as (a & Haa & Hx); [lia|done|lra|].
    destruct (polar P.1 P.2) as (th & Hth & P1 & P2). assert (EN : N2 P.1 P.2 = 1%R) by (unfold N2; rewrite EP; apply sqrt_1). rewrite EN, Rmult_1_l in P1, P2.
    destruct (sample_angle 128 (2 * PI) th) as (b & Hbb & Hb); [lia|pose proof PI_RGT_0; lra|done|].
    exists F, (node F a b). split; [by apply elem_of_list_singleton|]. split.
    { apply node_on_surface; rewrite HG; cbn [fst snd]; lia. }
    rewrite Hnode by lia. cbv zeta. set (t := (cget o 0 + INR a * ((ts - cget o 0) / INR (N - 1)))%R). set (Pb := (cos (angle 128 b), sin (angle 128 b))).
    set (d := (Rabs (q.2 - cget o 0) / alpha)%R) in *. set (d' := (Rabs (t - cget o 0) / alpha)%R).
    assert (Ex : Rabs (q.2 - cget o 0) = x) by (apply time_abs; fold x; lra).
    assert (Et : (sign past * (t - cget o 0) = L * INR a / INR (N - 1))%R) by (unfold t, L; field; lra).
    assert (Ht0 : (0 <= L * INR a / INR (N - 1))%R) by (apply Rmult_le_pos; [apply Rmult_le_pos; [lra|apply pos_INR]|left; by apply Rinv_0_lt_compat]).
    assert (Ex' : Rabs (t - cget o 0) = (L * INR a / INR (N - 1))%R) by (rewrite <- Et; apply time_abs; lra).
    assert (Hd : (0 <= d)%R) by (apply Rmult_le_pos; [apply Rabs_pos|left; by apply Rinv_0_lt_compat]).
    assert (Hd' : (0 <= d')%R) by (apply Rmult_le_pos; [apply Rabs_pos|left; by apply Rinv_0_lt_compat]).
    assert (HD : (alpha * (2 * Rabs (d - d')) <= 2 * L / INR (N - 1))%R).
    { unfold d, d'. rewrite Ex, Ex'. replace (x / alpha - L * INR a / INR (N - 1) / alpha)%R with ((x - L * INR a / INR (N - 1)) * / alpha)%R by (field; lra).
      rewrite Rabs_mult, (Rabs_right (/ alpha)) by (apply Rle_ge; left; by apply Rinv_0_lt_compat).
      replace (alpha * (2 * (Rabs (x - L * INR a / INR (N - 1)) * / alpha)))%R with (2 * Rabs (x - L * INR a / INR (N - 1)))%R by (field; lra). replace (2 * L / INR (N - 1))%R with (2 * (L / INR (N - 1)))%R by (unfold Rdiv; ring). lra. }
    assert (HP1 : (-1 <= P.1 <= 1)%R) by (rewrite P1; apply COS_bound). assert (HP2 : (-1 <= P.2 <= 1)%R) by (rewrite P2; apply SIN_bound).
    destruct (slice_grow alpha r d d' phi P Ha Hr Hd Hd' HP1 HP2) as [G1 G2].
    destruct (el_bounds r d' Hr Hd') as (Ba & Bb & _).
    pose proof (slice_stretch alpha r d' phi 1 Pb P ltac:(lra) ltac:(lra) ltac:(lra)) as HS. cbv zeta in HS. rewrite Rmult_1_r in HS.
    assert (Hth' : (Rabs (th - angle 128 b) <= 2 * PI / 128)%R).
    { rewrite (INR_IZR_INZ 128) in Hb. change (IZR (Z.of_nat 128)) with 128%R in Hb. unfold angle, step. rewrite (INR_IZR_INZ 128). change (IZR (Z.of_nat 128)) with 128%R.
      replace (INR b * (2 * PI / 128))%R with (2 * PI * INR b / 128)%R by field. done. }
    assert (HNP : (N2 (P.1 - Pb.1) (P.2 - Pb.2) <= PI / 32)%R).
    { unfold Pb. cbn [fst snd]. rewrite P1, P2. pose proof (cos_close th (angle 128 b)) as C1. pose proof (sin_close th (angle 128 b)) as C2.
      pose proof (N2_step 0 0 (cos th - cos (angle 128 b)) (sin th - sin (angle 128 b)) (2 * PI / 128)) as H0. rewrite !Rminus_0_l, !Rabs_Ropp in H0.
      assert (E0 : N2 0 0 = 0%R) by (unfold N2; replace (0 * 0 + 0 * 0)%R with 0%R by ring; apply sqrt_0). rewrite E0 in H0. specialize (H0 ltac:(lra) ltac:(lra)). lra. }
    set (p := slice_map alpha r d phi P) in *. set (p' := slice_map alpha r d' phi P) in *. set (pb := slice_map alpha r d' phi Pb) in *.
    assert (HNp : (N2 (p'.1 - pb.1) (p'.2 - pb.2) <= alpha * PI / 32)%R).
    { apply Rle_trans with (alpha * N2 (P.1 - Pb.1) (P.2 - Pb.2))%R; [exact HS|]. replace (alpha * PI / 32)%R with (alpha * (PI / 32))%R by field. apply Rmult_le_compat_l; lra. }
    assert (K1 : (Rabs (p'.1 - pb.1) <= alpha * PI / 32)%R).
    { apply Rle_trans with (N2 (p'.1 - pb.1) (p'.2 - pb.2)); [|done]. rewrite <- (sqrt_Rsqr_abs (p'.1 - pb.1)). apply sqrt_le_1_alt. unfold Rsqr. pose proof (Rle_0_sqr (p'.2 - pb.2)) as Hs. unfold Rsqr in Hs. lra. }
    assert (K2 : (Rabs (p'.2 - pb.2) <= alpha * PI / 32)%R).
    { apply Rle_trans with (N2 (p'.1 - pb.1) (p'.2 - pb.2)); [|done]. rewrite <- (sqrt_Rsqr_abs (p'.2 - pb.2)). apply sqrt_le_1_alt. unfold Rsqr. pose proof (Rle_0_sqr (p'.1 - pb.1)) as Hs. unfold Rsqr in Hs. lra. }
    rewrite Er. fold L. assert (HPI : (0 <= alpha * PI / 32)%R) by (pose proof PI_RGT_0; apply Rmult_le_pos; [apply Rmult_le_pos; lra|lra]).
    assert (Q1 : q.1.1 = p.1 ∧ q.1.2 = p.2) by (rewrite <- Eq; done). destruct Q1 as [Q1 Q2]. unfold close. cbn [fst snd]. split_and!.
    + rewrite Q1. replace (p.1 - pb.1)%R with ((p.1 - p'.1) + (p'.1 - pb.1))%R by ring. eapply Rle_trans; [apply Rabs_triang|]. lra.
    + rewrite Q2. replace (p.2 - pb.2)%R with ((p.2 - p'.2) + (p'.2 - pb.2))%R by ring. eapply Rle_trans; [apply Rabs_triang|]. lra.
    + replace (q.2 - t)%R with (sign past * (x - L * INR a / INR (N - 1)))%R.
      2:{ rewrite <- Et. unfold x. rewrite <- Rmult_minus_distr_l, sign_sq. ring. }
      rewrite Rabs_mult. assert (Rabs (sign past) = 1)%R as -> by (destruct past; cbn; [rewrite Rabs_left by lra; ring|rewrite Rabs_right; lra]). rewrite Rmult_1_l.
      replace (2 * L / INR (N - 1))%R with (2 * (L / INR (N - 1)))%R by (unfold Rdiv; ring). assert (0 <= L / INR (N - 1))%R by (apply Rmult_le_pos; [lra|left; by apply Rinv_0_lt_compat]). lra.
Qed.
End solid.
Lemma draws_turned F A tol : draws [F] A tol → draws [turn_surface F] (λ q, A (turn (turn q))) tol.
Proof.
  intros [H1 H2]. split.
  - intros F' a b HF. apply elem_of_list_singleton in HF as ->. rewrite turn_grid, turn_node. intros Ha Hb. rewrite turn3.
    apply H1; [by apply elem_of_list_singleton|done|done].
  - intros q Hq. destruct (H2 _ Hq) as (F' & q' & HF & H3 & H4). apply elem_of_list_singleton in HF as ->.
    exists (turn_surface F), (turn q'). split; [by apply elem_of_list_singleton|]. split; [by apply on_turn|].
    rewrite close_turn, turn3 in H4. done.
Qed.
Lemma draws_iff Fs A B tol : (∀ q, A q ↔ B q) → draws Fs A tol → draws Fs B tol.
Proof.
  intros HE [H1 H2]. split; [intros; apply HE; by apply H1|]. intros q Hq%HE. by apply H2.
Qed.
(** The surface shows the light cone up to the time slice. *)
Theorem C82_time_space (junk : nat → point) dim alpha past opac (n : Z) i j k :
  let st := DeSitter dim alpha in
  constructed st → i < dim → j < dim → k < dim → i ≠ j → i ≠ k → j ≠ k → i = 0 ∨ j = 0 ∨ k = 0 → 2 ≤ edge_count n →
  ∃ h, ConePlotter junk st [Z.of_nat i; Z.of_nat j; Z.of_nat k] (sign past) opac n = Ok h ∧
  ∀ o ts, length o = dim → ¬ not_drawn past opac o ts → inside_horizon alpha o →
  (∀ m, 1 ≤ m < dim → m ≠ i → m ≠ j → m ≠ k → cget o m = 0%R) →
  ∃ Fs, h o ts = Ok (Some (opacity past opac o ts, DSurfaces Fs)) ∧
    draws Fs (λ q, let y := place o [(i, q.1.1); (j, q.1.2); (k, q.2)] in first_light st past o y ∧ up_to past ts y)
      (2 * Rabs (ts - cget o 0) / INR (edge_count n - 1) + alpha * PI / 32).
Proof.
  intros st Hst Hi Hj Hk Hij Hik Hjk H0 HN. apply DeSitter_constructed in Hst as [Hd2 Ha]. eexists. split; [reflexivity|]. intros o ts Ho Hd Hin Hz.
  destruct (cone_start_spec past opac o ts) as [_ Hs]. destruct (Hs Hd) as [Es Hr0]. clear Hs.
  assert (EP : ∀ (a b : nat) (q : point3), 1 ≤ a < dim → 1 ≤ b < dim → a ≠ b →
     (a = i ∧ b = j ∧ k = 0 ∨ a = j ∧ b = k ∧ i = 0 ∨ a = k ∧ b = i ∧ j = 0) →
     place o [(0, q.2); (a, q.1.1); (b, q.1.2)] =
     let p := if decide (k = 0) then q else if decide (i = 0) then turn q else turn (turn q) in place o [(i, p.1.1); (j, p.1.2); (k, p.2)]).
  { intros a b q H1 H2 H3 Hc. apply place_ext; [by rewrite !place_length|]. intros m Hm. rewrite place_length in Hm. cbv zeta; unfold turn.
    rewrite !place_cons by lia.
    destruct Hc as [(-> & -> & E)|[(-> & -> & E)|(-> & -> & E)]]; repeat case_decide; cbn [fst snd]; subst; try done; try lia. }
  unfold base_cone. rewrite Es. unfold is3d. rewrite bool_decide_true by done. rewrite time_axis_three by done. cbn [length]. cbv zeta.
  assert (EN : T_slice_sampling ts o (Z.of_nat (sampling n)) = linspace (cget o 0) ts (edge_count n)).
  { unfold T_slice_sampling. rewrite decide_True by lia. rewrite Nat2Z.id. by rewrite edge_count_sampling. }
  rewrite EN.
  assert (core : ∀ a b : nat, 1 ≤ a < dim → 1 ≤ b < dim → a ≠ b → (∀ m, 1 ≤ m < dim → m ≠ a → m ≠ b → cget o m = 0%R) →
    ∃ F, slice_rows (λ t, XY_slice junk st t o (Z.of_nat a, Z.of_nat b)) (linspace (cget o 0) ts (edge_count n)) = Ok (Some F) ∧
     draws [F] (λ q, let y := place o [(0, q.2); (a, q.1.1); (b, q.1.2)] in first_light st past o y ∧ up_to past ts y)
      (2 * Rabs (ts - cget o 0) / INR (edge_count n - 1) + alpha * PI / 32)).
  { intros a b H1 H2 H3 Hz'. eexists. split.
    - apply (slice_rows_spec _ (λ t, slice_polygon alpha (N2 (cget o a) (cget o b) / alpha) (Rabs (t - cget o 0) / alpha) (arctan2 (cget o b) (cget o a)))).
      intros t _. cbn [XY_slice st]. apply (plane_slice dim alpha o a b Ha Ho H1 H2 H3 Hin Hz').
    - apply (solid_draws dim alpha o a b past ts (edge_count n)); done. }
  destruct (decide (i = 0)) as [Ei|Ei]; [|destruct (decide (j = 0)) as [Ej|Ej]].
  - destruct (decide (0 < 0)%Z) as [?|_]; [lia|]. destruct (core j k) as (F & EF & HF); [lia..|done|intros; apply Hz; lia|].
    change (Z.to_nat ((0 + 1) mod Z.of_nat 3)) with 1. change (Z.to_nat ((0 + 2) mod Z.of_nat 3)) with 2. unfold dim_at. cbn [nth]. rewrite EF. cbn [res_map fmap option_fmap option_map].
    eexists. split; [reflexivity|]. rewrite rotate_0. eapply draws_iff; [|apply draws_turned, HF]. intros q. cbv beta. rewrite (EP j k) by (lia || tauto). cbv zeta.
    rewrite (decide_False (P := k = 0)) by lia. rewrite turn3. done.
  - destruct (decide (1 < 0)%Z) as [?|_]; [lia|]. destruct (core k i) as (F & EF & HF); [lia..|intros; apply Hz; lia|].
    change (Z.to_nat ((1 + 1) mod Z.of_nat 3)) with 2. change (Z.to_nat ((1 + 2) mod Z.of_nat 3)) with 0. unfold dim_at. cbn [nth]. rewrite EF. cbn [res_map fmap option_fmap option_map].
    eexists. split; [reflexivity|]. rewrite rotate_1. eapply draws_iff; [|apply draws_turned, draws_turned, HF]. intros q. cbv beta. rewrite turn3. rewrite (EP k i) by (lia || tauto). cbv zeta.
    rewrite (decide_False (P := k = 0)) by lia. rewrite turn3. done.
  - assert (Ek : k = 0) by lia. rewrite (decide_True (P := k = 0)) by done. destruct (decide (2 < 0)%Z) as [?|_]; [lia|]. destruct (core i j) as (F & EF & HF); [lia..|intros; apply Hz; lia|].
    change (Z.to_nat ((2 + 1) mod Z.of_nat 3)) with 0. change (Z.to_nat ((2 + 2) mod Z.of_nat 3)) with 1. unfold dim_at. cbn [nth]. rewrite EF. cbn [res_map fmap option_fmap option_map].
    eexists. split; [reflexivity|]. rewrite rotate_2. eapply draws_iff; [|exact HF]. intros q. cbv beta. rewrite (EP i j) by (lia || tauto). cbv zeta.
    rewrite (decide_True (P := k = 0)) by lia. done.
Qed.
Print Assumptions C82_time_space.
