(** Winding numbers of closed polygons inside a disc and of regular polygons. *)
From Verif Require Import Base SpacetimeModel ShapeModel OutlineModel SpecOutline OutlineFacts.
From Coq Require Import Reals Lra Lia.
#[local] Open Scope nat_scope.

Definition zsum (l : list Z) : Z := foldr Z.add 0%Z l.
Definition sqdist (p c : point) : R := ((p.1 - c.1) * (p.1 - c.1) + (p.2 - c.2) * (p.2 - c.2))%R.

(** ** Outlines without nan *)
Lemma segments_Some (V : list point) : segments (Some <$> V) = zip V (tail V).
Proof.
  induction V as [|a V IH]; [done|]. destruct V as [|b V]; [done|].
  change (segments (Some <$> a :: b :: V)) with ((a, b) :: segments (Some <$> b :: V)). by rewrite IH.
Qed.
Lemma zip_tail_fmap {A} (f : nat → A) k n :
  zip (f <$> seq k (S n)) (tail (f <$> seq k (S n))) = (λ i, (f i, f (S i))) <$> seq k n.
Proof.
  revert k. induction n as [|n IH]; intros k; [done|]. specialize (IH (S k)). cbn in *. by rewrite IH.
Qed.

(** ** A closed polygon inside a disc does not wind around points outside of it *)
Definition below (q y : R) : Z := if decide (y <= q)%R then 1%Z else 0%Z.
Lemma convex_disc (a b c : point) (t r2 : R) : (0 <= t <= 1)%R → (sqdist a c <= r2)%R → (sqdist b c <= r2)%R →
  (sqdist (a.1 + t * (b.1 - a.1), a.2 + t * (b.2 - a.2)) c <= r2)%R.
Proof.
  intros Ht Ha Hb. unfold sqdist in *. cbn.
  set (x := (a.1 - c.1)%R) in *. set (y := (a.2 - c.2)%R) in *. set (u := (b.1 - c.1)%R) in *. set (v := (b.2 - c.2)%R) in *.
  replace (a.1 + t * (b.1 - a.1) - c.1)%R with ((1 - t) * x + t * u)%R by (unfold x, u; ring).
  replace (a.2 + t * (b.2 - a.2) - c.2)%R with ((1 - t) * y + t * v)%R by (unfold y, v; ring).
  clearbody x y u v. clear -Ht Ha Hb.
  replace (((1 - t) * x + t * u) * ((1 - t) * x + t * u) + ((1 - t) * y + t * v) * ((1 - t) * y + t * v))%R
    with ((1 - t) * (x * x + y * y) + t * (u * u + v * v) - t * (1 - t) * ((x - u) * (x - u) + (y - v) * (y - v)))%R by ring.
  assert (H0 : (0 <= 1 - t)%R) by lra. assert (H1 : (0 <= t)%R) by lra.
  assert (H2 : (0 <= (x - u) * (x - u) + (y - v) * (y - v))%R).
  { apply Rplus_le_le_0_compat; apply Rle_0_sqr. }
  pose proof (Rmult_le_pos _ _ (Rmult_le_pos _ _ H1 H0) H2) as H3. pose proof (Rmult_le_compat_l _ _ _ H0 Ha) as H4.
  pose proof (Rmult_le_compat_l _ _ _ H1 Hb) as H5. lra.
Qed.
(** The point of the segment at the height of p. *)
Lemma crossing_point (a b c p : point) (r2 : R) : (sqdist a c <= r2)%R → (sqdist b c <= r2)%R →
  (a.2 <= p.2 < b.2 ∨ b.2 <= p.2 < a.2)%R →
  ∃ X, (sqdist (X, p.2) c <= r2)%R ∧ orientation a b p = ((b.2 - a.2) * (X - p.1))%R.
Proof.
  intros Ha Hb H. set (t := ((p.2 - a.2) / (b.2 - a.2))%R). assert (Hne : (b.2 - a.2 ≠ 0)%R) by lra.
  exists (a.1 + t * (b.1 - a.1))%R. split.
  - assert (Ht : (0 <= t <= 1)%R).
    { unfold t. destruct H as [H|H].
      - split; [apply Rle_mult_inv_pos; lra|apply unit_le; lra].
      - replace ((p.2 - a.2) / (b.2 - a.2))%R with ((a.2 - p.2) / (a.2 - b.2))%R by (field; lra).
        split; [apply Rle_mult_inv_pos; lra|apply unit_le; lra]. }
    replace p.2 with (a.2 + t * (b.2 - a.2))%R at 1 by (unfold t; field; lra). by apply convex_disc.
  - unfold orientation, t. field. lra.
Qed.
Lemma crossing_outside (a b c p : point) (r2 : R) : (sqdist a c <= r2)%R → (sqdist b c <= r2)%R → (r2 < sqdist p c)%R →
  crossing p (a, b) = if decide (c.1 <= p.1)%R then 0%Z else (below p.2 a.2 - below p.2 b.2)%Z.
Proof.
  intros Ha Hb Hp.
  assert (Hout : ∀ X, (sqdist (X, p.2) c <= r2)%R → ((c.1 <= p.1)%R → (X < p.1)%R) ∧ ((p.1 < c.1)%R → (p.1 < X)%R)).
  { intros X HX. unfold sqdist in *. cbn in HX. split; intros H; apply Rnot_le_lt; intros Hn.
    - assert ((p.1 - c.1) * (p.1 - c.1) <= (X - c.1) * (X - c.1))%R by (apply Rmult_le_compat; lra). lra.
    - assert ((p.1 - c.1) * (p.1 - c.1) <= (X - c.1) * (X - c.1))%R.
      { replace ((p.1 - c.1) * (p.1 - c.1))%R with ((c.1 - p.1) * (c.1 - p.1))%R by ring.
        replace ((X - c.1) * (X - c.1))%R with ((c.1 - X) * (c.1 - X))%R by ring. apply Rmult_le_compat; lra. }
      lra. }
  unfold crossing, below. destruct (decide (c.1 <= p.1)%R) as [Hc|Hc].
  - destruct (decide (a.2 <= p.2 ∧ p.2 < b.2 ∧ 0 < orientation a b p)%R) as [(H1 & H2 & H3)|_].
    { exfalso. destruct (crossing_point a b c p r2 Ha Hb) as (X & HX & E); [lra|]. rewrite E in H3.
      apply Hout in HX as [HX _]. specialize (HX Hc). nra. }
    destruct (decide (b.2 <= p.2 ∧ p.2 < a.2 ∧ orientation a b p < 0)%R) as [(H1 & H2 & H3)|_]; [|done].
    exfalso. destruct (crossing_point a b c p r2 Ha Hb) as (X & HX & E); [lra|]. rewrite E in H3.
    apply Hout in HX as [HX _]. specialize (HX Hc). nra.
  - assert (Hup : (a.2 <= p.2)%R → (p.2 < b.2)%R → (0 < orientation a b p)%R).
    { intros H1 H2. destruct (crossing_point a b c p r2 Ha Hb) as (X & HX & E); [lra|]. rewrite E.
      apply Hout in HX as [_ HX]. specialize (HX ltac:(lra)). nra. }
    assert (Hdn : (b.2 <= p.2)%R → (p.2 < a.2)%R → (orientation a b p < 0)%R).
    { intros H1 H2. destruct (crossing_point a b c p r2 Ha Hb) as (X & HX & E); [lra|]. rewrite E.
      apply Hout in HX as [_ HX]. specialize (HX ltac:(lra)). nra. }
    repeat case_decide; try done; exfalso; try lra.
    all: try match goal with H : ¬ (_ ∧ _ ∧ _) |- _ => apply H; split_and!; [lra|lra|]; first [apply Hup; lra|apply Hdn; lra] end.
    all: match goal with H : ¬ (_ ∧ _ ∧ _), H' : ¬ (_ ∧ _ ∧ _) |- _ =>
      first [apply H; split_and!; [lra|lra|]; first [apply Hup; lra|apply Hdn; lra]
            |apply H'; split_and!; [lra|lra|]; first [apply Hup; lra|apply Hdn; lra]] end.
Qed.
Lemma telescope (g : point → Z) (V : list point) d :
  zsum ((λ e : point * point, g e.1 - g e.2)%Z <$> zip V (tail V)) = (g (hd d V) - g (List.last V d))%Z.
Proof.
  induction V as [|a V IH]; cbn; [lia|]. destruct V as [|b V]; cbn; [lia|]. cbn in IH. rewrite IH. destruct V; lia.
Qed.
Lemma winding_outside (V : list point) (c p d : point) (r2 : R) :
  (∀ v, v ∈ V → (sqdist v c <= r2)%R) → (r2 < sqdist p c)%R → hd d V = List.last V d →
  winding (Some <$> V) p = 0%Z.
Proof.
  intros HV Hp Hcl. unfold winding. rewrite segments_Some.
  assert (Hin : ∀ e, e ∈ zip V (tail V) → (sqdist e.1 c <= r2)%R ∧ (sqdist e.2 c <= r2)%R).
  { intros [a b] He. apply elem_of_list_lookup in He as [i Hi].
    apply lookup_zip_with_Some in Hi as (x & y & [= -> ->] & Hx & Hy). cbn. split; apply HV.
    - by eapply elem_of_list_lookup_2.
    - rewrite lookup_tail in Hy. by eapply elem_of_list_lookup_2. }
  destruct (decide (c.1 <= p.1)%R) as [Hc|Hc].
  - assert (E : crossing p <$> zip V (tail V) = (λ _, 0%Z) <$> zip V (tail V)).
    { apply list_fmap_ext. intros i [a b] He. apply elem_of_list_lookup_2, Hin in He as [? ?].
      rewrite (crossing_outside a b c p r2) by done. by rewrite decide_True. }
    rewrite E. clear. induction (zip V (tail V)) as [|e l IH]; cbn; [done|by rewrite IH].
  - assert (E : crossing p <$> zip V (tail V) = (λ e : point * point, below p.2 e.1.2 - below p.2 e.2.2)%Z <$> zip V (tail V)).
    { apply list_fmap_ext. intros i [a b] He. apply elem_of_list_lookup_2, Hin in He as [? ?].
      rewrite (crossing_outside a b c p r2) by done. by rewrite decide_False. }
    rewrite E. change (foldr Z.add 0%Z) with zsum. rewrite (telescope (λ v, below p.2 v.2) V d). rewrite Hcl. lia.
Qed.

(** ** Regular polygons *)
Definition step (n : nat) : R := (2 * PI / INR n)%R.
Definition angle (n i : nat) : R := (INR i * step n)%R.
Definition zangle (n : nat) (a : Z) : R := (IZR a * step n)%R.
Lemma INR_pos n : 3 ≤ n → (3 <= INR n)%R.
Proof. intros Hn. apply le_INR in Hn. cbn in Hn. lra. Qed.
Lemma step_bounds n : 3 ≤ n → (0 < step n / 2)%R ∧ (step n / 2 < PI / 2)%R ∧ (INR n * step n = 2 * PI)%R.
Proof.
  intros Hn%INR_pos. pose proof PI_RGT_0. unfold step. split; [|split].
  - apply Rdiv_lt_0_compat; [|lra]. apply Rdiv_lt_0_compat; lra.
  - apply (Rmult_lt_reg_r (INR n)); [lra|]. replace (2 * PI / INR n / 2 * INR n)%R with PI by (field; lra). nra.
  - field. lra.
Qed.
Lemma apothem_pos n : 3 ≤ n → (0 < cos (step n / 2))%R ∧ (0 < sin (step n / 2))%R.
Proof.
  intros Hn. destruct (step_bounds n Hn) as (H1 & H2 & _). pose proof PI_RGT_0. split.
  - apply cos_gt_0; lra.
  - apply sin_gt_0; lra.
Qed.
Lemma angle_z n i : angle n i = zangle n (Z.of_nat i).
Proof. unfold angle, zangle. by rewrite INR_IZR_INZ. Qed.
Lemma zangle_S n a : zangle n (a + 1) = (zangle n a + step n)%R.
Proof. unfold zangle. rewrite plus_IZR. ring. Qed.
Lemma zangle_shift n a : 3 ≤ n → zangle n (a - Z.of_nat n) = (zangle n a - 2 * PI)%R.
Proof.
  intros Hn. destruct (step_bounds n Hn) as (_ & _ & H). unfold zangle. rewrite minus_IZR, <- INR_IZR_INZ, <- H. ring.
Qed.
Lemma sin_minus_2PI x : sin (x - 2 * PI) = sin x.
Proof. rewrite sin_minus, cos_2PI, sin_2PI. ring. Qed.
Lemma cos_minus_2PI x : cos (x - 2 * PI) = cos x.
Proof. rewrite cos_minus, cos_2PI, sin_2PI. ring. Qed.

(** The edges of the polygon that go up. *)
Lemma sin_diff n a : (sin (zangle n (a + 1)) - sin (zangle n a) = 2 * cos (zangle n a + step n / 2) * sin (step n / 2))%R.
Proof.
  rewrite form4, zangle_S. f_equal; [f_equal; f_equal|f_equal]; field.
Qed.
Lemma up_edge n i : 3 ≤ n → i < n → (sin (angle n i) < sin (angle n (S i)))%R →
  ∃ a : Z, (a = Z.of_nat i ∨ a = Z.of_nat i - Z.of_nat n)%Z ∧
    (- (PI / 2) < zangle n a + step n / 2 < PI / 2)%R ∧
    sin (angle n i) = sin (zangle n a) ∧ sin (angle n (S i)) = sin (zangle n (a + 1)).
Proof.
  intros Hn Hi H. destruct (step_bounds n Hn) as (H1 & H2 & H3). destruct (apothem_pos n Hn) as [_ Hs].
  rewrite !angle_z in *. replace (Z.of_nat (S i)) with (Z.of_nat i + 1)%Z in * by lia.
  pose proof (sin_diff n (Z.of_nat i)) as E. set (m := (zangle n (Z.of_nat i) + step n / 2)%R) in *.
  assert (Hm : (0 < cos m)%R) by nra. pose proof PI_RGT_0.
  assert (Hb : (0 < m < 2 * PI)%R).
  { unfold m, zangle. rewrite <- INR_IZR_INZ. pose proof (pos_INR i) as Hp. split; [nra|].
    assert (INR i + 1 <= INR n)%R by (rewrite <- S_INR; apply le_INR; lia). nra. }
  destruct (Rlt_le_dec m (PI / 2)) as [Hlt|Hge].
  - exists (Z.of_nat i). split; [by left|]. fold m. split; [lra|]. done.
  - destruct (Rle_lt_dec m (3 * (PI / 2))) as [Hle|Hgt]; [pose proof (cos_le_0 m Hge Hle); lra|].
    exists (Z.of_nat i - Z.of_nat n)%Z. split; [by right|].
    replace (Z.of_nat i - Z.of_nat n + 1)%Z with (Z.of_nat i + 1 - Z.of_nat n)%Z by lia.
    rewrite !zangle_shift, !sin_minus_2PI by done. split; [unfold m in *; lra|done].
Qed.
Lemma up_unique n (B : R → Prop) i j : 3 ≤ n → (∀ x y, (x <= y)%R → B y → B x) → i < n → j < n →
  B (sin (angle n i)) → ¬ B (sin (angle n (S i))) → B (sin (angle n j)) → ¬ B (sin (angle n (S j))) → i = j.
Proof.
  intros Hn HB Hi Hj B1 B2 B3 B4.
  assert (Hlt : ∀ x y, B x → ¬ B y → (x < y)%R) by (intros x y Hx Hy; apply Rnot_le_lt; intros Hle; apply Hy; eauto).
  destruct (up_edge n i Hn Hi (Hlt _ _ B1 B2)) as (a & Ha & Ma & Ea & Ea').
  destruct (up_edge n j Hn Hj (Hlt _ _ B3 B4)) as (b & Hb & Mb & Eb & Eb').
  destruct (step_bounds n Hn) as (S1 & S2 & _).
  assert (Hord : ∀ a b, (- (PI / 2) < zangle n a + step n / 2)%R → (zangle n b + step n / 2 < PI / 2)%R → (a < b)%Z →
    (sin (zangle n (a + 1)) <= sin (zangle n b))%R).
  { clear -S1 S2. intros a b H1 H2 Hab. assert (Hz : (zangle n (a + 1) <= zangle n b)%R).
    { unfold zangle. apply Rmult_le_compat_r; [lra|]. apply IZR_le. lia. }
    rewrite zangle_S in *. apply sin_incr_1; lra. }
  rewrite Ea in B1. rewrite Ea' in B2. rewrite Eb in B3. rewrite Eb' in B4.
  assert (a = b) as ->; [|lia]. destruct (Z.lt_trichotomy a b) as [Hab|[->|Hab]]; [|done|].
  - exfalso. apply B2. eapply HB; [|exact B3]. apply Hord; [apply Ma|apply Mb|done].
  - exfalso. apply B4. eapply HB; [|exact B1]. apply Hord; [apply Mb|apply Ma|done].
Qed.
(** A vertex close to the bottom and one close to the top. *)
Lemma bottom_top n : 3 ≤ n → ∃ i j, i ≤ n ∧ j ≤ n ∧
  (sin (angle n i) <= - cos (step n / 2))%R ∧ (cos (step n / 2) <= sin (angle n j))%R.
Proof.
  intros Hn. destruct (step_bounds n Hn) as (S1 & S2 & S3). pose proof PI_RGT_0.
  assert (Hclose : ∀ x, (- (step n / 2) <= x <= step n / 2)%R → (cos (step n / 2) <= cos x)%R).
  { intros x Hx. destruct (Rle_dec 0 x).
    - apply cos_decr_1; lra.
    - rewrite <- (cos_neg x). apply cos_decr_1; lra. }
  assert (Hd : ∀ i c, (4 * i ≤ c * n + 2) → c * n ≤ 4 * i + 2 → (- (step n / 2) <= angle n i - INR c * (PI / 2) <= step n / 2)%R).
  { intros i c Hu Hl. apply le_INR in Hu, Hl. rewrite !plus_INR, !mult_INR in Hu, Hl. cbn [INR] in Hu, Hl.
    unfold angle. replace (INR c * (PI / 2))%R with (INR c * INR n * (step n / 4))%R by (rewrite (Rmult_assoc), <- (Rmult_comm (step n / 4)); unfold Rdiv; lra || nra).
    nra. }
  exists ((3 * n + 2) / 4), ((n + 2) / 4).
  assert (D1 := Nat.div_mod (3 * n + 2) 4 ltac:(lia)). assert (M1 := Nat.mod_upper_bound (3 * n + 2) 4 ltac:(lia)).
  assert (D2 := Nat.div_mod (n + 2) 4 ltac:(lia)). assert (M2 := Nat.mod_upper_bound (n + 2) 4 ltac:(lia)).
  split; [lia|]. split; [lia|]. split.
  - assert (E := Hclose _ (Hd ((3 * n + 2) / 4) 3 ltac:(lia) ltac:(lia))).
    rewrite cos_minus in E. replace (INR 3 * (PI / 2))%R with (3 * (PI / 2))%R in E by (cbn; lra).
    rewrite cos_3PI2, sin_3PI2 in E. lra.
  - assert (E := Hclose _ (Hd ((n + 2) / 4) 1 ltac:(lia) ltac:(lia))).
    rewrite cos_minus in E. replace (INR 1 * (PI / 2))%R with (PI / 2)%R in E by (cbn; lra).
    rewrite cos_PI2, sin_PI2 in E. lra.
Qed.
Lemma first_up (B : nat → Prop) : (∀ i, Decision (B i)) → ∀ i j, i ≤ j → B i → ¬ B j → ∃ k, i ≤ k < j ∧ B k ∧ ¬ B (S k).
Proof.
  intros Hdec i j Hij Bi Bj. induction j as [|j IH]; [by replace i with 0 in Bi by lia|].
  destruct (decide (B j)) as [Hj|Hj].
  - destruct (decide (i = S j)) as [->|Hne]; [done|]. exists j. split; [lia|done].
  - destruct (decide (i = S j)) as [->|Hne]; [done|]. destruct IH as (k & Hk & ?); [lia|done|]. exists k. split; [lia|done].
Qed.
Lemma up_exists n (B : R → Prop) : 3 ≤ n → (∀ x, Decision (B x)) → (∀ x y, (x <= y)%R → B y → B x) →
  B (- cos (step n / 2))%R → ¬ B (cos (step n / 2)) →
  ∃ k, k < n ∧ B (sin (angle n k)) ∧ ¬ B (sin (angle n (S k))).
Proof.
  intros Hn Hdec HB B1 B2. destruct (bottom_top n Hn) as (i & j & Hi & Hj & Ei & Ej).
  assert (Bi : B (sin (angle n i))) by eauto. assert (Bj : ¬ B (sin (angle n j))) by eauto.
  set (P := λ k, B (sin (angle n k))). change (P i) in Bi. change (¬ P j) in Bj.
  assert (Hd : ∀ k, Decision (P k)) by (intros; apply Hdec).
  assert (Hc : P 0 ↔ P n).
  { unfold P. destruct (step_bounds n Hn) as (_ & _ & E). unfold angle. rewrite E. cbn [INR].
    rewrite Rmult_0_l, sin_0, sin_2PI. done. }
  destruct (decide (i ≤ j)).
  - destruct (first_up P Hd i j) as (k & Hk & ?); [done..|]. exists k. split; [lia|done].
  - destruct (decide (P n)) as [Hp|Hp].
    + destruct (first_up P Hd 0 j) as (k & Hk & ?); [lia|tauto|done|]. exists k. split; [lia|done].
    + destruct (first_up P Hd i n) as (k & Hk & ?); [lia|done|done|]. exists k. split; [lia|done].
Qed.
Lemma zsum_single (f : nat → Z) k m i : k ≤ i < k + m → (∀ j, k ≤ j < k + m → j ≠ i → f j = 0%Z) →
  zsum (f <$> seq k m) = f i.
Proof.
  revert k. induction m as [|m IH]; intros k Hi Hz; [lia|]. cbn. destruct (decide (i = k)) as [->|Hne].
  - enough (zsum (f <$> seq (S k) m) = 0%Z) as E by (unfold zsum in E; rewrite E; lia).
    assert (Hz' : ∀ j, S k ≤ j < S k + m → f j = 0%Z) by (intros j Hj; apply Hz; lia). clear -Hz'.
    revert Hz'. generalize (S k). clear k. induction m as [|m IH]; intros k Hz; cbn; [done|].
    rewrite (Hz k) by lia. change (foldr Z.add 0%Z) with zsum. rewrite (IH (S k)); [done|intros; apply Hz; lia].
  - rewrite (Hz k) by lia. change (foldr Z.add 0%Z) with zsum. rewrite (IH (S k)); [done|lia|intros; apply Hz; lia].
Qed.

(** Vertices, counterclockwise for [sg = 1] and clockwise for [sg = -1]. *)
Definition vertex (n : nat) (c : point) (r sg : R) (i : nat) : point :=
  (c.1 + r * cos (angle n i), c.2 + sg * (r * sin (angle n i)))%R.
Definition polygon (n : nat) (c : point) (r sg : R) : list point := vertex n c r sg <$> seq 0 (S n).
Lemma polygon_segments n c r sg : segments (Some <$> polygon n c r sg) = (λ i, (vertex n c r sg i, vertex n c r sg (S i))) <$> seq 0 n.
Proof. rewrite segments_Some. apply zip_tail_fmap. Qed.
Lemma vertex_dist n c r sg i : (sg * sg = 1)%R → sqdist (vertex n c r sg i) c = (r * r)%R.
Proof.
  intros Hs. unfold sqdist, vertex. cbn. pose proof (sin2_cos2 (angle n i)) as E. unfold Rsqr in E.
  replace (r * r)%R with (r * r * (sin (angle n i) * sin (angle n i) + cos (angle n i) * cos (angle n i)))%R by (rewrite E; ring).
  replace ((c.2 + sg * (r * sin (angle n i)) - c.2) * (c.2 + sg * (r * sin (angle n i)) - c.2))%R
    with (sg * sg * (r * r * (sin (angle n i) * sin (angle n i))))%R by ring. rewrite Hs. ring.
Qed.
Lemma polygon_closed n c r sg d : 3 ≤ n → hd d (polygon n c r sg) = List.last (polygon n c r sg) d.
Proof.
  intros Hn. unfold polygon. rewrite seq_S, fmap_app. cbn [fmap list_fmap]. rewrite last_last.
  destruct n as [|n]; [lia|]. cbn [seq fmap list_fmap app hd]. unfold vertex.
  destruct (step_bounds (S n) Hn) as (_ & _ & E). unfold angle. rewrite Nat.add_0_l, E. cbn [INR].
  rewrite Rmult_0_l, cos_0, sin_0, cos_2PI, sin_2PI. done.
Qed.
Lemma cauchy_circle (x y m : R) : (x * cos m + y * sin m <= sqrt (x * x + y * y))%R.
Proof.
  destruct (Rle_dec (x * cos m + y * sin m) 0) as [H|H].
  { pose proof (sqrt_pos (x * x + y * y)). lra. }
  rewrite <- (sqrt_square (x * cos m + y * sin m)) by lra. apply sqrt_le_1_alt.
  pose proof (sin2_cos2 m) as E. unfold Rsqr in E.
  replace (x * x + y * y)%R with ((x * x + y * y) * (sin m * sin m + cos m * cos m))%R by (rewrite E; ring).
  pose proof (Rle_0_sqr (x * sin m - y * cos m)) as H0. unfold Rsqr in H0. lra.
Qed.
Lemma edge_orientation n c r sg i p : (sg * sg = 1)%R →
  orientation (vertex n c r sg i) (vertex n c r sg (S i)) p =
    (sg * (2 * r * sin (step n / 2) * (r * cos (step n / 2)
      - ((p.1 - c.1) * cos (angle n i + step n / 2) + sg * (p.2 - c.2) * sin (angle n i + step n / 2)))))%R.
Proof.
  intros Hs. unfold orientation, vertex. cbn [fst snd]. set (m := (angle n i + step n / 2)%R).
  assert (E1 : angle n i = (m - step n / 2)%R) by (unfold m; ring).
  assert (E2 : angle n (S i) = (m + step n / 2)%R) by (unfold m, angle; rewrite S_INR; field).
  rewrite E1, E2. clearbody m. set (d := (step n / 2)%R). rewrite !cos_minus, !cos_plus, !sin_minus, !sin_plus.
  set (u := (p.1 - c.1)%R). set (v := (p.2 - c.2)%R).
  replace p.1 with (u + c.1)%R by (unfold u; ring). replace p.2 with (v + c.2)%R by (unfold v; ring). clearbody u v.
  pose proof (sin2_cos2 m) as E. unfold Rsqr in E.
  replace (sg * (2 * r * sin d * (r * cos d - (u * cos m + sg * v * sin m))))%R
    with (2 * r * sin d * (sg * (r * cos d * (sin m * sin m + cos m * cos m)) - (sg * u * cos m + (sg * sg) * v * sin m)))%R
    by (rewrite E; ring).
  rewrite Hs. ring.
Qed.
Lemma inside_edge n c r sg i p : 3 ≤ n → (sg * sg = 1)%R → (0 < r)%R →
  (sqrt (sqdist p c) < r * cos (step n / 2))%R →
  (0 < sg * orientation (vertex n c r sg i) (vertex n c r sg (S i)) p)%R.
Proof.
  intros Hn Hs Hr Hp. rewrite edge_orientation by done. destruct (apothem_pos n Hn) as [H1 H2].
  set (m := (angle n i + step n / 2)%R).
  pose proof (cauchy_circle (p.1 - c.1) (sg * (p.2 - c.2)) m) as Hc.
  replace ((p.1 - c.1) * (p.1 - c.1) + sg * (p.2 - c.2) * (sg * (p.2 - c.2)))%R with (sqdist p c) in Hc.
  2:{ unfold sqdist. replace (sg * (p.2 - c.2) * (sg * (p.2 - c.2)))%R with (sg * sg * ((p.2 - c.2) * (p.2 - c.2)))%R by ring. rewrite Hs. ring. }
  rewrite <- Rmult_assoc, Hs, Rmult_1_l. apply Rmult_lt_0_compat; [|lra]. apply Rmult_lt_0_compat; [lra|done].
Qed.
Lemma height_bound p c : (Rabs (p.2 - c.2) <= sqrt (sqdist p c))%R.
Proof.
  rewrite <- (sqrt_square (Rabs (p.2 - c.2))) by apply Rabs_pos. apply sqrt_le_1_alt. unfold sqdist.
  pose proof (Rle_0_sqr (p.1 - c.1)) as H. unfold Rsqr in H.
  rewrite <- Rabs_mult, Rabs_right; [lra|]. apply Rle_ge, Rle_0_sqr.
Qed.
Lemma polygon_inside n c r p : 3 ≤ n → (0 < r)%R → (sqrt (sqdist p c) < r * cos (step n / 2))%R →
  winding (Some <$> polygon n c r 1) p = 1%Z ∧ winding (Some <$> polygon n c r (-1)) p = (-1)%Z.
Proof.
  intros Hn Hr Hp. pose proof (height_bound p c) as Hh.
  assert (Hh' : (- (r * cos (step n / 2)) < p.2 - c.2 < r * cos (step n / 2))%R).
  { destruct (Rabs_cases (p.2 - c.2)) as [[? E]|[? E]]; rewrite E in Hh; lra. }
  unfold winding. rewrite !polygon_segments, <- !list_fmap_compose. change (foldr Z.add 0%Z) with zsum. split.
  - set (B := λ y, (c.2 + 1 * (r * y) <= p.2)%R).
    assert (HB : ∀ x y, (x <= y)%R → B y → B x) by (unfold B; intros; nra).
    assert (Hd : ∀ x, Decision (B x)) by (intros; unfold B; apply _).
    destruct (up_exists n B Hn Hd HB) as (k & Hk & B1 & B2); [unfold B; lra|unfold B; lra|].
    rewrite (zsum_single _ 0 n k); [|lia|].
    + cbn -[vertex]. rewrite decide_True; [done|]. split_and!.
      * exact B1.
      * apply Rnot_le_lt. exact B2.
      * pose proof (inside_edge n c r 1 k p Hn ltac:(lra) Hr Hp). lra.
    + intros j Hj Hne. cbn -[vertex].
      rewrite decide_False.
      * rewrite decide_False; [done|]. intros (_ & _ & H). pose proof (inside_edge n c r 1 j p Hn ltac:(lra) Hr Hp). lra.
      * intros (H1 & H2 & _). apply Hne. apply (up_unique n B); [done|done|lia|lia|exact H1| |exact B1|exact B2].
        intros H. exact (Rlt_not_le _ _ H2 H).
  - set (B := λ y, (p.2 < c.2 + -1 * (r * y))%R).
    assert (HB : ∀ x y, (x <= y)%R → B y → B x) by (unfold B; intros; nra).
    assert (Hd : ∀ x, Decision (B x)) by (intros; unfold B; apply _).
    destruct (up_exists n B Hn Hd HB) as (k & Hk & B1 & B2); [unfold B; lra|unfold B; lra|].
    rewrite (zsum_single _ 0 n k); [|lia|].
    + cbn -[vertex]. rewrite decide_False, decide_True; [done| |].
      * split_and!; [by apply Rnot_lt_le|exact B1|].
        pose proof (inside_edge n c r (-1) k p Hn ltac:(lra) Hr Hp). lra.
      * intros (_ & _ & H). pose proof (inside_edge n c r (-1) k p Hn ltac:(lra) Hr Hp). lra.
    + intros j Hj Hne. cbn -[vertex].
      rewrite decide_False.
      * rewrite decide_False; [done|]. intros (H1 & H2 & _). apply Hne.
        apply (up_unique n B); [done|done|lia|lia|exact H2| |exact B1|exact B2]. by apply Rle_not_lt.
      * intros (_ & _ & H). pose proof (inside_edge n c r (-1) j p Hn ltac:(lra) Hr Hp). lra.
Qed.
Lemma polygon_outside n c r sg p : 3 ≤ n → (sg * sg = 1)%R → (0 < r)%R → (r < sqrt (sqdist p c))%R →
  winding (Some <$> polygon n c r sg) p = 0%Z.
Proof.
  intros Hn Hs Hr Hp. apply (winding_outside _ c p c (r * r)).
  - intros v (i & -> & _)%elem_of_list_fmap. rewrite vertex_dist by done. lra.
  - rewrite <- (sqrt_def (sqdist p c)). { apply Rmult_le_0_lt_compat; lra. }
    unfold sqdist. apply Rplus_le_le_0_compat; apply Rle_0_sqr.
  - by apply polygon_closed.
Qed.
Lemma polygon_on n c r sg p : 3 ≤ n → (sg * sg = 1)%R → (0 < r)%R → on_outline (Some <$> polygon n c r sg) p →
  (r * cos (step n / 2) <= sqrt (sqdist p c) <= r)%R.
Proof.
  intros Hn Hs Hr (a & b & H & t & Ht & E1 & E2). rewrite polygon_segments in H.
  apply elem_of_list_fmap in H as (i & [= -> ->] & Hi). destruct p as [px py]. cbn in E1, E2. split.
  - apply Rnot_lt_le. intros Hlt. pose proof (inside_edge n c r sg i (px, py) Hn Hs Hr Hlt) as Ho.
    assert (E : orientation (vertex n c r sg i) (vertex n c r sg (S i)) (px, py) = 0%R).
    { unfold orientation, vertex. cbn [fst snd]. rewrite E1, E2. ring. }
    rewrite E in Ho. lra.
  - rewrite <- (sqrt_square r) by lra. apply sqrt_le_1_alt. rewrite E1, E2. apply (convex_disc (vertex n c r sg i) (vertex n c r sg (S i))); [done|rewrite vertex_dist by done; lra|].
    rewrite vertex_dist by done. lra.
Qed.
