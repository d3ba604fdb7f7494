(** Theorems about the 3D plots of shapes: C77 (surfaces), C78 (plot and the state of the
    shape). *)
From Verif Require Import Base SpacetimeModel SpacetimeFacts ShapeModel SpecShape Prop_Shape Prop_SpacetimeMore
  ColorModel OutlineModel SpecOutline OutlineFacts PolygonFacts SpecSurface SurfaceFacts Prop_Outline Prop_Color Prop_Plot.
From Coq Require Import Reals Lra Lia.
#[local] Open Scope nat_scope.

(** ** Boundaries of the regions *)
Lemma boundary_shell (g : R → R → R → R) (o : point3) (A : point3 → Prop) (r h : R) q :
  gauge g → (∀ x y z, (0 <= g x y z)%R) → (0 < r)%R → (0 <= h < 1)%R →
  (∀ q, A q ↔ (h * r <= apply_at o q g <= r)%R) →
  boundary A q ↔ apply_at o q g = r ∨ (0 < h ∧ apply_at o q g = h * r)%R.
Proof.
  intros Hg Hp Hr Hh HA.
  set (L := (g, r) :: if decide (0 < h)%R then [((λ x y z, - g x y z)%R, (- (h * r))%R)] else []).
  assert (HL : ∀ (P : (R → R → R → R) * R → Prop), (∀ gc, gc ∈ L → P gc) ↔ P (g, r) ∧ ((0 < h)%R → P ((λ x y z, - g x y z)%R, (- (h * r))%R))).
  { intros P. unfold L. split.
    - intros H. split; [apply H, elem_of_list_here|]. intros H0. apply H. rewrite decide_True by done. apply elem_of_list_further, elem_of_list_here.
    - intros [H1 H2] gc. rewrite elem_of_cons. intros [->|H]; [done|]. destruct (decide (0 < h)%R) as [H0|]; [|by apply elem_of_nil in H].
      apply elem_of_list_singleton in H as ->. by apply H2. }
  rewrite (boundary_gauges o L A q).
  - split.
    + intros (_ & gc & Hgc & E). unfold L in Hgc. apply elem_of_cons in Hgc as [-> |Hgc]; [by left|].
      destruct (decide (0 < h)%R); [|by apply elem_of_nil in Hgc]. apply elem_of_list_singleton in Hgc as ->.
      right. cbn in E. unfold apply_at in *. split; [done|]. lra.
    + intros [E|[H0 E]].
      * split; [apply HA; rewrite E; nra|]. exists (g, r). split; [apply elem_of_list_here|done].
      * split; [apply HA; rewrite E; nra|]. eexists (_, (- (h * r))%R). split.
        { unfold L. rewrite decide_True by done. apply elem_of_list_further, elem_of_list_here. }
        cbn. unfold apply_at in *. lra.
  - apply HL. cbn. split; [split; [done|lra]|]. intros H0. split; [by apply gauge_neg|]. assert (0 < h * r)%R by (by apply Rmult_lt_0_compat). lra.
  - intros q'. rewrite HA. rewrite HL. cbn. unfold apply_at. pose proof (Hp (q'.1.1 - o.1.1) (q'.1.2 - o.1.2) (q'.2 - o.2))%R.
    destruct (Rlt_dec 0 h); [|assert (h = 0%R) as -> by lra; rewrite Rmult_0_l].
    + split; [intros [H1 H2]; split; [done|]; intros _; lra|]. intros [H1 H2]. specialize (H2 r0). lra.
    + split; [intros [H1 H2]; split; [done|]; intros; lra|]. intros [H1 H2]. lra.
Qed.
Lemma boundary_cylinder (o : point3) (A : point3 → Prop) (r h T : R) q :
  (0 < r)%R → (0 < T)%R → (0 <= h < 1)%R →
  let n q := N2 (q.1.1 - o.1.1) (q.1.2 - o.1.2) in
  let z q := Rabs (q.2 - o.2) in
  (∀ q, A q ↔ (z q <= T / 2)%R ∧ (h * r <= n q <= r)%R) →
  boundary A q ↔ (z q <= T / 2)%R ∧ (h * r <= n q <= r)%R ∧ (z q = T / 2 ∨ n q = r ∨ 0 < h ∧ n q = h * r)%R.
Proof.
  intros Hr HT Hh n z HA.
  set (G1 := (λ _ _ z, Rabs z) : R → R → R → R). set (G2 := (λ x y _, N2 x y) : R → R → R → R).
  set (G3 := (λ x y z, - G2 x y z)%R).
  set (L := (G1, (T / 2)%R) :: (G2, r) :: if decide (0 < h)%R then [(G3, (- (h * r))%R)] else []).
  assert (HL : ∀ (P : (R → R → R → R) * R → Prop), (∀ gc, gc ∈ L → P gc) ↔ P (G1, T / 2)%R ∧ P (G2, r) ∧ ((0 < h)%R → P (G3, (- (h * r))%R))).
  { intros P. unfold L. split.
    - intros H. split; [apply H, elem_of_list_here|]. split; [apply H, elem_of_list_further, elem_of_list_here|].
      intros H0. apply H. rewrite decide_True by done. do 2 apply elem_of_list_further. apply elem_of_list_here.
    - intros (H1 & H2 & H3) gc. rewrite !elem_of_cons. intros [-> |[-> |H]]; [done|done|]. destruct (decide (0 < h)%R) as [H0|]; [|by apply elem_of_nil in H].
      apply elem_of_list_singleton in H as ->. by apply H3. }
  rewrite (boundary_gauges o L A q).
  - rewrite HA. split.
    + intros ([Hz Hn] & gc & Hgc & E). split; [done|]. split; [done|]. unfold L in Hgc. rewrite !elem_of_cons in Hgc.
      destruct Hgc as [-> |[-> |Hgc]]; [by left|by right; left|].
      destruct (decide (0 < h)%R); [|by apply elem_of_nil in Hgc]. apply elem_of_list_singleton in Hgc as ->.
      right; right. cbn in E. unfold apply_at, G3, G2 in *. split; [done|]. unfold n. lra.
    + intros (Hz & Hn & E). split; [done|]. destruct E as [E|[E|[H0 E]]].
      * exists (G1, T / 2)%R. split; [apply elem_of_list_here|done].
      * exists (G2, r)%R. split; [apply elem_of_list_further, elem_of_list_here|done].
      * exists (G3, - (h * r))%R. split.
        { unfold L. rewrite decide_True by done. do 2 apply elem_of_list_further. apply elem_of_list_here. }
        cbn. unfold apply_at, G3, G2. fold (n q). by rewrite E.
  - apply HL. cbn. split; [split; [apply gauge_abs_z|lra]|]. split; [split; [apply gauge_N2|lra]|].
    intros H0. split; [apply gauge_neg, gauge_N2|]. assert (0 < h * r)%R by (by apply Rmult_lt_0_compat). lra.
  - intros q'. rewrite HA. rewrite HL. cbn. unfold apply_at, G3, G2, G1. fold (n q') (z q'). pose proof (N2_pos (q'.1.1 - o.1.1) (q'.1.2 - o.1.2)) as Hn. fold (n q') in Hn.
    destruct (Rlt_dec 0 h); [|assert (h = 0%R) as -> by lra; rewrite Rmult_0_l].
    + split; [intros (H1 & H2 & H3); split; [done|]; split; [done|]; intros _; lra|]. intros (H1 & H2 & H3). specialize (H3 r0). lra.
    + split; [intros (H1 & H2 & H3); split; [done|]; split; [done|]; intros; lra|]. intros (H1 & H2 & H3). lra.
Qed.
Lemma boundary_box (o : point3) (A : point3 → Prop) (a b c : R) q :
  (0 < a)%R → (0 < b)%R → (0 < c)%R →
  let x q := Rabs (q.1.1 - o.1.1) in let y q := Rabs (q.1.2 - o.1.2) in let z q := Rabs (q.2 - o.2) in
  (∀ q, A q ↔ (x q <= a ∧ y q <= b ∧ z q <= c)%R) →
  boundary A q ↔ (x q <= a ∧ y q <= b ∧ z q <= c)%R ∧ (x q = a ∨ y q = b ∨ z q = c)%R.
Proof.
  intros Ha Hb Hc x y z HA.
  set (G1 := (λ x _ _, Rabs x) : R → R → R → R). set (G2 := (λ _ y _, Rabs y) : R → R → R → R). set (G3 := (λ _ _ z, Rabs z) : R → R → R → R).
  set (L := [(G1, a); (G2, b); (G3, c)]).
  assert (HL : ∀ (P : (R → R → R → R) * R → Prop), (∀ gc, gc ∈ L → P gc) ↔ P (G1, a) ∧ P (G2, b) ∧ P (G3, c)).
  { intros P. unfold L. split.
    - intros H. split_and!; apply H; rewrite !elem_of_cons; auto.
    - intros (H1 & H2 & H3) gc. rewrite !elem_of_cons, elem_of_nil. intros [-> |[-> |[-> |[]]]]; done. }
  rewrite (boundary_gauges o L A q).
  - rewrite HA. split.
    + intros (HH & gc & Hgc & E). split; [done|]. unfold L in Hgc. rewrite !elem_of_cons, elem_of_nil in Hgc.
      destruct Hgc as [-> |[-> |[-> |[]]]]; [by left|by right; left|by right; right].
    + intros (HH & E). split; [done|]. destruct E as [E|[E|E]].
      * exists (G1, a). split; [unfold L; rewrite !elem_of_cons; auto|done].
      * exists (G2, b). split; [unfold L; rewrite !elem_of_cons; auto|done].
      * exists (G3, c). split; [unfold L; rewrite !elem_of_cons; auto|done].
  - apply HL. cbn. split; [split; [apply gauge_abs_x|lra]|]. split; [split; [apply gauge_abs_y|lra]|split; [apply gauge_abs_z|lra]].
  - intros q'. rewrite HA. rewrite HL. done.
Qed.

(** ** Coordinates of a cut *)
Section cut3.
Context (s : shape) (Hc : length (sh_center s) = sh_dim s).
Notation c k := (nth k (sh_center s) 0%R).
Context (i j k : nat) (Hi : i < sh_dim s) (Hj : j < sh_dim s) (Hk : k < sh_dim s) (Hij : i ≠ j) (Hik : i ≠ k) (Hjk : j ≠ k).
Lemma cut3_length q : length (cut3 s i j k q) = sh_dim s.
Proof using Hc. unfold cut3. by rewrite !insert_length. Qed.
Lemma cut3_offset q m : offset s (cut3 s i j k q) m =
  if decide (m = i) then (q.1.1 - c i)%R else if decide (m = j) then (q.1.2 - c j)%R else if decide (m = k) then (q.2 - c k)%R else 0%R.
Proof using Hc Hi Hj Hk Hij Hik Hjk.
  unfold offset, cut3. rewrite !nth_lookup.
  destruct (decide (m = i)) as [->|Hmi].
  { rewrite list_lookup_insert by (rewrite !insert_length; lia). done. }
  rewrite list_lookup_insert_ne by done. destruct (decide (m = j)) as [->|Hmj].
  { rewrite list_lookup_insert by (rewrite !insert_length; lia). done. }
  rewrite list_lookup_insert_ne by done. destruct (decide (m = k)) as [->|Hmk].
  { rewrite list_lookup_insert by lia. done. }
  rewrite list_lookup_insert_ne by done. lra.
Qed.
Lemma cut3_offsets q : offset s (cut3 s i j k q) i = (q.1.1 - c i)%R ∧ offset s (cut3 s i j k q) j = (q.1.2 - c j)%R ∧
  offset s (cut3 s i j k q) k = (q.2 - c k)%R.
Proof using Hc Hi Hj Hk Hij Hik Hjk.
  split; [|split]; rewrite cut3_offset; repeat (first [rewrite decide_True by done | rewrite decide_False by done]); done.
Qed.
Lemma cut3_sum (m : nat) q : m ≤ i → m ≤ j → m ≤ k →
  sqrt (dist2_from s (cut3 s i j k q) m) = N3 (q.1.1 - c i) (q.1.2 - c j) (q.2 - c k).
Proof using Hc Hi Hj Hk Hij Hik Hjk.
  intros H1 H2 H3. unfold N3, dist2_from. f_equal. rewrite (rsum_support [i; j; k]).
  - cbn -[offset]. destruct (cut3_offsets q) as (-> & -> & ->). lra.
  - apply NoDup_seq.
  - apply NoDup_cons. split; [rewrite !elem_of_cons, elem_of_nil; tauto|]. apply NoDup_cons. split; [by rewrite elem_of_list_singleton|apply NoDup_singleton].
  - intros x Hx. rewrite !elem_of_cons, elem_of_nil in Hx. apply elem_of_seq. destruct Hx as [-> |[-> |[-> |[]]]]; lia.
  - intros x _ Hx. rewrite !elem_of_cons, elem_of_nil in Hx. rewrite cut3_offset. rewrite !decide_False by tauto. lra.
Qed.
Lemma cut3_dist_time q : k = 0 →
  offset s (cut3 s i j k q) 0 = (q.2 - c k)%R ∧ dist_space s (cut3 s i j k q) = N2 (q.1.1 - c i) (q.1.2 - c j).
Proof using Hc Hi Hj Hk Hij Hik Hjk.
  intros Ek. split.
  { pose proof (cut3_offsets q) as (_ & _ & E). by rewrite Ek in E |- *. }
  unfold dist_space, N2, dist2_from. f_equal. rewrite (rsum_support [i; j]).
  - cbn -[offset]. destruct (cut3_offsets q) as (-> & -> & _). lra.
  - apply NoDup_seq.
  - apply NoDup_cons. split; [by rewrite elem_of_list_singleton|apply NoDup_singleton].
  - intros x Hx. rewrite !elem_of_cons, elem_of_nil in Hx. apply elem_of_seq. destruct Hx as [-> |[-> |[]]]; lia.
  - intros x Hs Hx. rewrite !elem_of_cons, elem_of_nil in Hx. apply elem_of_seq in Hs. rewrite cut3_offset. rewrite !decide_False by (tauto || lia). lra.
Qed.
End cut3.
Lemma take_three l i j k : i < length l → j < length l → k < length l →
  np_take l [Z.of_nat i; Z.of_nat j; Z.of_nat k] = Ok [nth i l 0%R; nth j l 0%R; nth k l 0%R].
Proof.
  intros Hi Hj Hk. rewrite np_take_ok.
  - cbn. by rewrite !Nat2Z.id.
  - intros x Hx. rewrite !elem_of_cons, elem_of_nil in Hx. destruct Hx as [-> |[-> |[-> |[]]]]; lia.
Qed.
Lemma time_axis_three i j k : i ≠ j → i ≠ k → j ≠ k →
  time_axis [Z.of_nat i; Z.of_nat j; Z.of_nat k] =
    if decide (i = 0) then 0%Z else if decide (j = 0) then 1%Z else if decide (k = 0) then 2%Z else (-1)%Z.
Proof.
  intros H1 H2 H3. unfold time_axis. cbn [index_of_zero].
  destruct (decide (i = 0)) as [->|Hi]; [by rewrite decide_True|]. rewrite (decide_False (P := Z.of_nat i = 0%Z)) by lia.
  destruct (decide (j = 0)) as [->|Hj]; [by rewrite decide_True|]. rewrite (decide_False (P := Z.of_nat j = 0%Z)) by lia.
  destruct (decide (k = 0)) as [->|Hk]; [by rewrite decide_True|]. by rewrite (decide_False (P := Z.of_nat k = 0%Z)) by lia.
Qed.

(** ** Surfaces of revolution *)
Definition revolved (ra zs : list R) (r H : R) (n : nat) (cx cy cz : R) : surface :=
  (madd (mouter ra (cos <$> linspace 0 (2 * PI) (S n)) r) cx,
   madd (mouter ra (sin <$> linspace 0 (2 * PI) (S n)) r) cy,
   madd (mouter zs (replicate (S n) 1%R) H) cz).
Lemma linspace_angle n b : b ≤ n → (0 + INR b * ((2 * PI - 0) / INR (S n - 1)) = 2 * PI * INR b / INR n)%R.
Proof. intros. replace (S n - 1) with n by lia. unfold Rdiv. ring. Qed.
Lemma revolved_node ra zs r H n cx cy cz a b : length ra = length zs → a < length ra → b ≤ n →
  let t := (2 * PI * INR b / INR n)%R in
  node (revolved ra zs r H n cx cy cz) a b = (nth a ra 0 * cos t * r + cx, nth a ra 0 * sin t * r + cy, nth a zs 0 * H + cz)%R.
Proof.
  intros Hl Ha Hb t. unfold node, revolved.
  rewrite !entry_mouter by (rewrite ?fmap_length, ?linspace_length, ?replicate_length; lia).
  rewrite !nth_linspace, nth_ones by lia. rewrite !linspace_angle by done. fold t. f_equal. ring.
Qed.
Lemma revolved_grid ra zs r H n cx cy cz : length ra = length zs → 0 < length ra →
  grid (revolved ra zs r H n cx cy cz) = (length ra, S n).
Proof.
  intros Hl Ha. unfold grid, revolved. rewrite !rows_mouter, !columns_mouter by lia.
  rewrite !fmap_length, !linspace_length, !replicate_length, <- Hl. f_equal; lia.
Qed.
Lemma revolved_point ra zs r H n cx cy cz a u rho (q : point3) :
  length ra = length zs → S a < length ra → 1 ≤ n → (0 <= u <= 1)%R → (0 <= rho)%R →
  (rho = ((1 - u) * nth a ra 0 + u * nth (S a) ra 0) * r)%R →
  N2 (q.1.1 - cx) (q.1.2 - cy) = rho →
  (q.2 - cz = ((1 - u) * nth a zs 0 + u * nth (S a) zs 0) * H)%R →
  ∃ q', on_surface (revolved ra zs r H n cx cy cz) q' ∧ close (rho * (2 * PI / INR n)) q q'.
Proof.
  intros Hl Ha Hn Hu Hrho Erho EN Ez. pose proof PI_RGT_0 as HPI.
  destruct (polar (q.1.1 - cx) (q.1.2 - cy)) as (t & Ht & Ex & Ey). rewrite EN in Ex, Ey.
  destruct (sample_angle n (2 * PI) t Hn) as (b & Hb & Hd); [lra|done|].
  set (t' := (2 * PI * INR b / INR n)%R) in *.
  exists (cx + rho * cos t', cy + rho * sin t', q.2)%R. split.
  - exists a, b, u, 0%R. rewrite revolved_grid by lia. split; [done|]. split; [cbn; lia|]. split; [done|]. split; [lra|].
    rewrite !revolved_node by lia. cbv zeta. fold t'. cbn [fst snd]. unfold interpolate. split_and!.
    + rewrite Erho. ring.
    + rewrite Erho. ring.
    + replace (q.2) with (q.2 - cz + cz)%R by ring. rewrite Ez. ring.
  - unfold close. cbn [fst snd].
    assert (HB : ∀ x y, (Rabs (x - y) <= Rabs (t - t') → Rabs (rho * x - rho * y) <= rho * (2 * PI / INR n))%R).
    { intros x y Hxy. replace (rho * x - rho * y)%R with (rho * (x - y))%R by ring. rewrite Rabs_mult, (Rabs_right rho) by lra.
      apply Rmult_le_compat_l; [done|]. lra. }
    split_and!.
    + replace (q.1.1 - (cx + rho * cos t'))%R with (rho * cos t - rho * cos t')%R by (rewrite <- Ex; ring). apply HB, cos_close.
    + replace (q.1.2 - (cy + rho * sin t'))%R with (rho * sin t - rho * sin t')%R by (rewrite <- Ey; ring). apply HB, sin_close.
    + rewrite Rminus_diag_eq, Rabs_R0 by done. apply Rmult_le_pos; [done|]. apply Rmult_le_pos; [lra|]. left. apply Rinv_0_lt_compat, lt_0_INR. lia.
Qed.

(** ** Spheres *)
Definition sphere (n m : nat) (r cx cy cz : R) : surface :=
  (madd (mouter (cos <$> linspace 0 (2 * PI) (S n)) (sin <$> linspace 0 PI m) r) cx,
   madd (mouter (sin <$> linspace 0 (2 * PI) (S n)) (sin <$> linspace 0 PI m) r) cy,
   madd (mouter (replicate (S n) 1%R) (cos <$> linspace 0 PI m) r) cz).
Lemma sphere_node n m r cx cy cz a b : a ≤ n → b < m →
  let p := (2 * PI * INR a / INR n)%R in let t := (PI * INR b / INR (m - 1))%R in
  node (sphere n m r cx cy cz) a b = (cos p * sin t * r + cx, sin p * sin t * r + cy, cos t * r + cz)%R.
Proof.
  intros Ha Hb p t. unfold node, sphere.
  rewrite !entry_mouter by (rewrite ?fmap_length, ?linspace_length, ?replicate_length; lia).
  rewrite !nth_linspace, nth_ones by lia. rewrite !linspace_angle by done. fold p.
  replace (0 + INR b * ((PI - 0) / INR (m - 1)))%R with t by (unfold t, Rdiv; ring). f_equal. ring.
Qed.
Lemma sphere_grid n m r cx cy cz : grid (sphere n m r cx cy cz) = (S n, m).
Proof.
  unfold grid, sphere. rewrite !rows_mouter, !columns_mouter by (rewrite ?fmap_length, ?linspace_length, ?replicate_length; lia).
  rewrite !fmap_length, !linspace_length, !replicate_length. f_equal; lia.
Qed.
Lemma N3_sphere p t r : N3 (cos p * sin t * r) (sin p * sin t * r) (cos t * r) = Rabs r.
Proof.
  unfold N3. rewrite <- sqrt_Rsqr_abs. f_equal. unfold Rsqr.
  pose proof (sin2_cos2 p) as E1. pose proof (sin2_cos2 t) as E2. unfold Rsqr in E1, E2.
  transitivity (r * r * ((sin p * sin p + cos p * cos p) * (sin t * sin t) + cos t * cos t))%R; [ring|].
  rewrite E1, Rmult_1_l, E2. ring.
Qed.
Lemma N2_circle t r : N2 (r * cos t) (r * sin t) = Rabs r.
Proof.
  unfold N2. rewrite <- sqrt_Rsqr_abs. f_equal. unfold Rsqr. pose proof (sin2_cos2 t) as E. unfold Rsqr in E.
  transitivity (r * r * (sin t * sin t + cos t * cos t))%R; [ring|]. rewrite E. ring.
Qed.
Lemma sphere_point n m r cx cy cz (q : point3) : 1 ≤ n → 2 ≤ m → (0 <= r)%R →
  N3 (q.1.1 - cx) (q.1.2 - cy) (q.2 - cz) = r →
  ∃ q', on_surface (sphere n m r cx cy cz) q' ∧ close (r * (2 * PI / INR n + PI / INR (m - 1))) q q'.
Proof.
  intros Hn Hm Hr EN. pose proof PI_RGT_0 as HPI.
  destruct (spherical (q.1.1 - cx) (q.1.2 - cy) (q.2 - cz)) as (t & p & Ht & Hp & Ex & Ey & Ez). rewrite EN in Ex, Ey, Ez.
  destruct (sample_angle n (2 * PI) p Hn) as (a & Ha & Hda); [lra|done|].
  destruct (sample_angle (m - 1) PI t) as (b & Hb & Hdb); [lia|lra|done|].
  set (p' := (2 * PI * INR a / INR n)%R) in *. set (t' := (PI * INR b / INR (m - 1))%R) in *.
  exists (cos p' * sin t' * r + cx, sin p' * sin t' * r + cy, cos t' * r + cz)%R. split.
  - exists a, b, 0%R, 0%R. rewrite sphere_grid. cbn [fst snd]. split; [lia|]. split; [lia|]. split; [lra|]. split; [lra|].
    rewrite !sphere_node by lia. cbv zeta. fold p' t'. cbn [fst snd]. unfold interpolate. split_and!; ring.
  - unfold close. cbn [fst snd]. set (A := (2 * PI / INR n)%R) in *. set (B := (PI / INR (m - 1))%R) in *.
    assert (HA : (0 <= A)%R) by (pose proof (Rabs_pos (p - p')); lra).
    assert (HB : ∀ x y, (Rabs (x - y) <= A + B → Rabs (r * x - r * y) <= r * (A + B))%R).
    { intros x y Hxy. replace (r * x - r * y)%R with (r * (x - y))%R by ring. rewrite Rabs_mult, (Rabs_right r) by lra.
      by apply Rmult_le_compat_l. }
    assert (HP : ∀ f f', (Rabs (f - f') <= A)%R → (Rabs f <= 1)%R → (Rabs (f * sin t - f' * sin t') <= A + B)%R).
    { intros f f' H1 H2. replace (f * sin t - f' * sin t')%R with (f * (sin t - sin t') + (f - f') * sin t')%R by ring.
      eapply Rle_trans; [apply Rabs_triang|]. rewrite !Rabs_mult.
      pose proof (sin_close t t'). pose proof (Rabs_le _ _ (SIN_bound t')). pose proof (Rabs_pos (f - f')).
      pose proof (Rabs_pos (sin t - sin t')). pose proof (Rabs_pos (sin t')).
      assert (Rabs f * Rabs (sin t - sin t') <= 1 * Rabs (sin t - sin t'))%R by (by apply Rmult_le_compat_r).
      assert (Rabs (f - f') * Rabs (sin t') <= Rabs (f - f') * 1)%R by (by apply Rmult_le_compat_l). lra. }
    split_and!.
    + replace (q.1.1 - (cos p' * sin t' * r + cx))%R with (r * (cos p * sin t) - r * (cos p' * sin t'))%R by (rewrite <- Ex; ring).
      apply HB, HP; [pose proof (cos_close p p'); lra|apply Rabs_le, COS_bound].
    + replace (q.1.2 - (sin p' * sin t' * r + cy))%R with (r * (sin p * sin t) - r * (sin p' * sin t'))%R by (rewrite <- Ey; ring).
      apply HB, HP; [pose proof (sin_close p p'); lra|apply Rabs_le, SIN_bound].
    + replace (q.2 - (cos t' * r + cz))%R with (r * cos t - r * cos t')%R by (rewrite <- Ez; ring).
      apply HB. pose proof (cos_close t t'). lra.
Qed.

(** ** The surface functions *)
(** The matrices of a surface of revolution around the third axis: the node in row [a] and
    column [b]. *)
Definition around_z (c0 c1 : R) (n b : nat) (rho z : R) : point3 :=
  (c0 + rho * cos (2 * PI * INR b / INR n), c1 + rho * sin (2 * PI * INR b / INR n), z)%R.
(** A point with the third coordinate moved to the axis [zaxis], keeping the cyclic order. *)
Definition cyclic (zaxis : Z) (q : point3) : point3 :=
  if decide (zaxis = 0)%Z then (q.2, q.1.1, q.1.2) else if decide (zaxis = 1)%Z then (q.1.2, q.2, q.1.1) else q.
Lemma rotate_grid z ra zs r H n cx cy cz : length ra = length zs → 0 < length ra →
  grid (rotate z (revolved ra zs r H n cx cy cz)) = (length ra, S n).
Proof.
  intros Hl Ha. pose proof (revolved_grid ra zs r H n cx cy cz Hl Ha) as E. unfold revolved, rotate, grid in *.
  pose proof (f_equal fst E) as E1. pose proof (f_equal snd E) as E2. cbn [fst snd] in E1, E2. destruct (decide (z = 0)%Z); [apply (f_equal2 pair); lia|]. destruct (decide (z = 1)%Z); apply (f_equal2 pair); lia.
Qed.
Lemma rotate_node z F a b : node (rotate z F) a b = cyclic z (node F a b).
Proof.
  destruct F as [[X Y] Z]. unfold rotate, cyclic. destruct (decide (z = 0)%Z); [done|]. destruct (decide (z = 1)%Z); done.
Qed.
Theorem C77_functions (c : list R) (r h hollow : R) (zaxis samplingsize : Z) :
  let n := edge_count samplingsize in
  (∃ F, BallSurface c r samplingsize = [F] ∧ (grid F).1 = n + 1 ∧
     (Nat.Odd n → 2 * (grid F).2 = n + 1) ∧
     (Nat.Even n → Nat.Even (grid F).2 ∧ (2 * (grid F).2 = n ∨ 2 * (grid F).2 = n + 2)) ∧
     (∀ a b, a ≤ n → b < (grid F).2 →
       let p := (2 * PI * INR a / INR n)%R in let t := (PI * INR b / INR ((grid F).2 - 1))%R in
       node F a b = (cget c 0 + r * sin t * cos p, cget c 1 + r * sin t * sin p, cget c 2 + r * cos t)%R) ∧
     ∀ a b, a ≤ n → b < (grid F).2 →
       ((((node F a b).1.1 - cget c 0) ^ 2 + ((node F a b).1.2 - cget c 1) ^ 2 + ((node F a b).2 - cget c 2) ^ 2) = r ^ 2)%R) ∧
  (∃ F, CylinderSurface c r h hollow zaxis samplingsize = [F] ∧
     grid F = (if decide (hollow = 0%R) then 4 else 5, n + 1) ∧
     ∀ a b, a < (grid F).1 → b ≤ n →
       let rho := (match a with 1 | 2 => 1 | _ => hollow end * r)%R in
       let z := (match a with 2 | 3 => h / 2 | _ => - (h / 2) end)%R in
       node F a b = cyclic zaxis (around_z (cget c 0) (cget c 1) n b rho (cget c 2 + z)%R)) ∧
  (∃ F, OpenConeSurface c r h zaxis samplingsize = [F] ∧ grid F = (2, n + 1) ∧
     ∀ b, b ≤ n →
       node F 0 b = cyclic zaxis (cget c 0, cget c 1, cget c 2) ∧
       node F 1 b = cyclic zaxis (around_z (cget c 0) (cget c 1) n b r (cget c 2 + h)%R)).
Proof.
  intros n.
  assert (Hn : 1 ≤ n) by (unfold n, edge_count; case_decide; lia).
  split; [|split].
  - exists (sphere n (round_half (S n)) r (cget c 0) (cget c 1) (cget c 2)). split.
    { unfold BallSurface. rewrite edge_count_sampling. done. }
    rewrite sphere_grid. cbn [fst snd]. split; [lia|].
    assert (Hr : (Nat.Odd n → 2 * round_half (S n) = n + 1) ∧
                 (Nat.Even n → Nat.Even (round_half (S n)) ∧ (2 * round_half (S n) = n ∨ 2 * round_half (S n) = n + 2))).
    { unfold round_half. pose proof (Nat.div_mod_eq (S n) 4). pose proof (Nat.div_mod_eq (S n) 2).
      pose proof (Nat.mod_upper_bound (S n) 2). pose proof (Nat.mod_upper_bound (S n) 4).
      split; [intros [k ->]; case_decide; lia|]. intros [k ->]. split; [|case_decide; lia].
      case_decide; [exists (S (S (2 * k) / 4))|exists (S (2 * k) / 4)]; lia. }
    destruct Hr as [Hr1 Hr2]. split; [exact Hr1|]. split; [exact Hr2|]. clear Hr1 Hr2. split.
    { intros a b Ha Hb. rewrite sphere_node by lia. f_equal; [f_equal|]; ring. }
    intros a b Ha Hb. rewrite sphere_node by lia. cbn [fst snd].
    set (p := (2 * PI * INR a / INR n)%R). set (t := (PI * INR b / INR (round_half (S n) - 1))%R).
    pose proof (sin2_cos2 p) as E1. pose proof (sin2_cos2 t) as E2. unfold Rsqr in E1, E2.
    transitivity (r * r * ((sin p * sin p + cos p * cos p) * (sin t * sin t) + cos t * cos t))%R; [ring|].
    rewrite E1, Rmult_1_l, E2. ring.
  - unfold CylinderSurface. rewrite edge_count_sampling. fold n.
    set (ra := if decide (hollow = 0%R) then [0; 1; 1; 0]%R else [hollow; 1; 1; hollow; hollow]%R).
    set (zs := if decide (hollow = 0%R) then [-1; -1; 1; 1]%R else [-1; -1; 1; 1; -1]%R).
    assert (Hl : length ra = length zs) by (unfold ra, zs; case_decide; done).
    assert (Hlr : length ra = if decide (hollow = 0%R) then 4 else 5) by (unfold ra; case_decide; done).
    eexists. split; [done|]. change (rotate zaxis _) with (rotate zaxis (revolved ra zs r (h / 2) n (cget c 0) (cget c 1) (cget c 2))).
    assert (Hlp : 0 < length ra) by (rewrite Hlr; case_decide; lia).
    rewrite rotate_grid by done. cbn [fst]. split; [rewrite Hlr; f_equal; lia|].
    intros a b Ha Hb. rewrite rotate_node, revolved_node by done. f_equal. unfold around_z.
    set (rho := (match a with 1 | 2 => 1 | _ => hollow end * r)%R). set (z := (match a with 2 | 3 => h / 2 | _ => - (h / 2) end)%R).
    assert (E1 : (nth a ra 0 * r = rho)%R).
    { unfold ra, rho in *. destruct (decide (hollow = 0%R)) as [E|]; cbn in Ha; do 4 (destruct a as [|a]; [cbn; rewrite ?E; ring|]); try (exfalso; lia). destruct a as [|a]; [cbn; ring|exfalso; lia]. }
    assert (E2 : (nth a zs 0 * (h / 2) = z)%R).
    { unfold zs, z in *. rewrite Hl in Ha. unfold zs in Ha. destruct (decide (hollow = 0%R)) as [E|]; cbn in Ha; do 4 (destruct a as [|a]; [cbn; field|]); try (exfalso; lia). destruct a as [|a]; [cbn; field|exfalso; lia]. }
    rewrite <- E1, <- E2. f_equal; [f_equal|]; ring.
  - unfold OpenConeSurface. rewrite edge_count_sampling. fold n. eexists. split; [done|].
    change (rotate zaxis _) with (rotate zaxis (revolved [0; 1]%R [0; 1]%R r h n (cget c 0) (cget c 1) (cget c 2))).
    rewrite rotate_grid by (done || (cbn; lia)). split; [cbn; f_equal; lia|]. intros b Hb.
    rewrite !rotate_node, !revolved_node by (done || (cbn; lia)). unfold around_z. cbn [nth]. split; f_equal; f_equal; try ring; f_equal; ring.
Qed.
Print Assumptions C77_functions.

(** ** Boxes *)
Lemma interpolate_between u v a b c d lo hi : (0 <= u <= 1)%R → (0 <= v <= 1)%R →
  (lo <= a <= hi)%R → (lo <= b <= hi)%R → (lo <= c <= hi)%R → (lo <= d <= hi)%R → (lo <= interpolate u v a b c d <= hi)%R.
Proof.
  intros Hu Hv Ha Hb Hc Hd. unfold interpolate.
  assert (H1 : (0 <= (1 - u) * (1 - v))%R) by (apply Rmult_le_pos; lra).
  assert (H2 : (0 <= u * (1 - v))%R) by (apply Rmult_le_pos; lra).
  assert (H3 : (0 <= (1 - u) * v)%R) by (apply Rmult_le_pos; lra).
  assert (H4 : (0 <= u * v)%R) by (apply Rmult_le_pos; lra).
  set (w1 := ((1 - u) * (1 - v))%R) in *. set (w2 := (u * (1 - v))%R) in *. set (w3 := ((1 - u) * v)%R) in *. set (w4 := (u * v)%R) in *.
  assert (E : (w1 + w2 + w3 + w4 = 1)%R) by (unfold w1, w2, w3, w4; ring). clearbody w1 w2 w3 w4.
  assert (HW : ∀ w x, (0 <= w)%R → (lo <= x <= hi)%R → (w * lo <= w * x <= w * hi)%R).
  { intros w x Hw Hx. split; apply Rmult_le_compat_l; lra. }
  pose proof (HW _ _ H1 Ha). pose proof (HW _ _ H2 Hb). pose proof (HW _ _ H3 Hc). pose proof (HW _ _ H4 Hd).
  assert (lo = w1 * lo + w2 * lo + w3 * lo + w4 * lo)%R by (rewrite <- !Rmult_plus_distr_r, E; ring).
  assert (hi = w1 * hi + w2 * hi + w3 * hi + w4 * hi)%R by (rewrite <- !Rmult_plus_distr_r, E; ring).
  lra.
Qed.
Lemma interpolate_const u v a : interpolate u v a a a a = a.
Proof. unfold interpolate. ring. Qed.
Ltac fix_dec := cbn; repeat first [rewrite decide_True by done | rewrite decide_False by done]; cbn.
Section box.
Context (c0 c1 c2 e0 e1 e2 : R).
Let Fs := CuboidSurface [c0; c1; c2] [e0; e1; e2].
Lemma box_grid F : F ∈ Fs → grid F = (4, 4).
Proof using. unfold Fs, CuboidSurface. rewrite !elem_of_cons, elem_of_nil. intros [-> |[-> |[-> |[-> |[-> |[-> |[]]]]]]]; done. Qed.
Definition ends (lo e x : R) : Prop := x = lo ∨ x = (lo + e)%R.
Lemma box_node F a b : F ∈ Fs → a < 4 → b < 4 →
  ends (c0 - e0 / 2) e0 (node F a b).1.1 ∧ ends (c1 - e1 / 2) e1 (node F a b).1.2 ∧ ends (c2 - e2 / 2) e2 (node F a b).2.
Proof using.
  unfold Fs, CuboidSurface. cbn [cget nth]. set (x := (c0 - e0 / 2)%R). set (y := (c1 - e1 / 2)%R). set (z := (c2 - e2 / 2)%R). clearbody x y z.
  rewrite !elem_of_cons, elem_of_nil. intros HF Ha Hb. unfold ends.
  destruct HF as [-> |[-> |[-> |[-> |[-> |[-> |[]]]]]]];
    do 4 (destruct a as [|a]; [do 4 (destruct b as [|b]; [fix_dec; split_and!; first [left; ring|right; ring]|]); exfalso; lia|]); exfalso; lia.
Qed.
Lemma box_faces F : F ∈ Fs →
  (∃ v, ends (c0 - e0 / 2) e0 v ∧ ∀ a b, a < 4 → b < 4 → (node F a b).1.1 = v) ∨
  (∃ v, ends (c1 - e1 / 2) e1 v ∧ ∀ a b, a < 4 → b < 4 → (node F a b).1.2 = v) ∨
  (∃ v, ends (c2 - e2 / 2) e2 v ∧ ∀ a b, a < 4 → b < 4 → (node F a b).2 = v).
Proof using.
  unfold Fs, CuboidSurface. cbn [cget nth]. set (x := (c0 - e0 / 2)%R). set (y := (c1 - e1 / 2)%R). set (z := (c2 - e2 / 2)%R). clearbody x y z.
  rewrite !elem_of_cons, elem_of_nil. unfold ends. intros [-> |[-> |[-> |[-> |[-> |[-> |[]]]]]]].
  - left. exists (0 + x)%R. split; [left; ring|done].
  - right; left. exists (0 + y)%R. split; [left; ring|done].
  - right; right. exists (0 + z)%R. split; [left; ring|done].
  - left. exists (e0 + x)%R. split; [right; ring|done].
  - right; left. exists (e1 + y)%R. split; [right; ring|done].
  - right; right. exists (e2 + z)%R. split; [right; ring|done].
Qed.
Lemma ends_abs c e x : (0 < e)%R → ends (c - e / 2) e x → Rabs (x - c) = (e / 2)%R.
Proof using. intros He [-> | ->]; destruct (Rabs_cases (c - e / 2 - c)), (Rabs_cases (c - e / 2 + e - c)); lra. Qed.
Lemma abs_ends c e x : (0 < e)%R → Rabs (x - c) = (e / 2)%R → ends (c - e / 2) e x.
Proof using. intros He. unfold ends. destruct (Rabs_cases (x - c)) as [[? ->]|[? ->]]; intros E; [right|left]; lra. Qed.
Lemma unit_pos x e : (0 < e)%R → (0 <= x <= e)%R → (0 <= x / e <= 1)%R.
Proof using.
  intros He Hx. split.
  - apply Rmult_le_pos; [lra|]. left. by apply Rinv_0_lt_compat.
  - apply Rmult_le_reg_r with e; [done|]. replace (x / e * e)%R with x by (field; lra). lra.
Qed.
Lemma box_exact q : (0 < e0)%R → (0 < e1)%R → (0 < e2)%R →
  (∃ F, F ∈ Fs ∧ on_surface F q) ↔
  (Rabs (q.1.1 - c0) <= e0 / 2 ∧ Rabs (q.1.2 - c1) <= e1 / 2 ∧ Rabs (q.2 - c2) <= e2 / 2)%R ∧
  (Rabs (q.1.1 - c0) = e0 / 2 ∨ Rabs (q.1.2 - c1) = e1 / 2 ∨ Rabs (q.2 - c2) = e2 / 2)%R.
Proof using.
  intros H0 H1 H2. split.
  - intros (F & HF & a & b & u & v & Ha & Hb & Hu & Hv & E0 & E1 & E2). rewrite (box_grid F HF) in Ha, Hb. cbn [fst snd] in Ha, Hb.
    assert (HR : ∀ (P : point3 → R) c e, (0 < e)%R → (∀ a b, a < 4 → b < 4 → ends (c - e / 2) e (P (node F a b))) →
      (Rabs (interpolate u v (P (node F a b)) (P (node F (S a) b)) (P (node F a (S b))) (P (node F (S a) (S b))) - c) <= e / 2)%R).
    { intros P c e He HP. assert (HE : ∀ x, ends (c - e / 2) e x → (c - e / 2 <= x <= c + e / 2)%R) by (intros x [-> | ->]; lra).
      apply Rabs_le. pose proof (interpolate_between u v (P (node F a b)) (P (node F (S a) b)) (P (node F a (S b))) (P (node F (S a) (S b))) (c - e / 2) (c + e / 2) Hu Hv) as HI.
      destruct HI; [apply HE, HP; lia..|]. lra. }
    split.
    + rewrite E0, E1, E2. split; [|split].
      * apply (HR (λ n, n.1.1) c0 e0 H0). intros. by apply box_node.
      * apply (HR (λ n, n.1.2) c1 e1 H1). intros. by apply box_node.
      * apply (HR (λ n, n.2) c2 e2 H2). intros. by apply box_node.
    + destruct (box_faces F HF) as [(w & Hw & HN)|[(w & Hw & HN)|(w & Hw & HN)]].
      * left. rewrite E0, !HN, interpolate_const by lia. by apply ends_abs.
      * right; left. rewrite E1, !HN, interpolate_const by lia. by apply ends_abs.
      * right; right. rewrite E2, !HN, interpolate_const by lia. by apply ends_abs.
  - destruct q as [[qx qy] qz]. cbn [fst snd]. intros [(B0 & B1 & B2) HE].
    assert (U : ∀ c e x, (0 < e)%R → (Rabs (x - c) <= e / 2)%R → (0 <= (x - (c - e / 2)) / e <= 1)%R).
    { intros c e x He HB. apply unit_pos; [done|]. destruct (Rabs_cases (x - c)) as [[? Ea]|[? Ea]]; lra. }
    pose proof (U _ _ _ H0 B0) as U0. pose proof (U _ _ _ H1 B1) as U1. pose proof (U _ _ _ H2 B2) as U2.
    assert (V0 : (qx = c0 - e0 / 2 + (qx - (c0 - e0 / 2)) / e0 * e0)%R) by (field; lra).
    assert (V1 : (qy = c1 - e1 / 2 + (qy - (c1 - e1 / 2)) / e1 * e1)%R) by (field; lra).
    assert (V2 : (qz = c2 - e2 / 2 + (qz - (c2 - e2 / 2)) / e2 * e2)%R) by (field; lra).
    assert (HE' : ends (c0 - e0 / 2) e0 qx ∨ ends (c1 - e1 / 2) e1 qy ∨ ends (c2 - e2 / 2) e2 qz).
    { destruct HE as [E|[E|E]]; [left|right; left|right; right]; by apply abs_ends. }
    unfold Fs, CuboidSurface. cbn [cget nth].
    set (t0 := ((qx - (c0 - e0 / 2)) / e0)%R) in *. set (t1 := ((qy - (c1 - e1 / 2)) / e1)%R) in *. set (t2 := ((qz - (c2 - e2 / 2)) / e2)%R) in *.
    set (x := (c0 - e0 / 2)%R) in *. set (y := (c1 - e1 / 2)%R) in *. set (z := (c2 - e2 / 2)%R) in *.
    clearbody t0 t1 t2 x y z.
    destruct HE' as [[E|E]|[[E|E]|[E|E]]]; eexists; (split; [rewrite !elem_of_cons|]).
    + left; reflexivity.
    + exists 0, 1, t2, t1. split; [cbn; lia|]. split; [cbn; lia|]. split; [done|]. split; [done|]. fix_dec. unfold interpolate. rewrite E, V1, V2. split_and!; ring.
    + right; right; right; left; reflexivity.
    + exists 1, 0, t2, t1. split; [cbn; lia|]. split; [cbn; lia|]. split; [done|]. split; [done|]. fix_dec. unfold interpolate. rewrite E, V1, V2. split_and!; ring.
    + right; left; reflexivity.
    + exists 0, 1, t0, t2. split; [cbn; lia|]. split; [cbn; lia|]. split; [done|]. split; [done|]. fix_dec. unfold interpolate. rewrite E, V0, V2. split_and!; ring.
    + right; right; right; right; left; reflexivity.
    + exists 1, 0, t0, t2. split; [cbn; lia|]. split; [cbn; lia|]. split; [done|]. split; [done|]. fix_dec. unfold interpolate. rewrite E, V0, V2. split_and!; ring.
    + right; right; left; reflexivity.
    + exists 0, 1, t1, t0. split; [cbn; lia|]. split; [cbn; lia|]. split; [done|]. split; [done|]. fix_dec. unfold interpolate. rewrite E, V0, V1. split_and!; ring.
    + right; right; right; right; right; left; reflexivity.
    + exists 1, 0, t1, t0. split; [cbn; lia|]. split; [cbn; lia|]. split; [done|]. split; [done|]. fix_dec. unfold interpolate. rewrite E, V0, V1. split_and!; ring.
Qed.
End box.

(** ** C77: the surfaces are the boundary of the cut *)
(** All nodes of the surfaces are points of the boundary, and every point of the boundary is
    close to a point of the surfaces. *)
Definition draws_boundary (Fs : list surface) (A : point3 → Prop) (tol : R) : Prop :=
  (∀ F a b, F ∈ Fs → a < (grid F).1 → b < (grid F).2 → boundary A (node F a b)) ∧
  (∀ q, boundary A q → ∃ F q', F ∈ Fs ∧ on_surface F q' ∧ close tol q q').
Lemma close_mono e1 e2 p q : (e1 <= e2)%R → close e1 p q → close e2 p q.
Proof. unfold close. intros. lra. Qed.
Lemma ball_surface_eq c0 c1 c2 r : BallSurface [c0; c1; c2] r (-1) = [sphere 128 64 r c0 c1 c2].
Proof. unfold BallSurface, sampling, default_samplingsize, round_half. done. Qed.
Lemma cone_surface_eq c0 c1 c2 r H z : OpenConeSurface [c0; c1; c2] r H z (-1) = [rotate z (revolved [0; 1]%R [0; 1]%R r H 128 c0 c1 c2)].
Proof. done. Qed.
Lemma INR_128 : INR 128 = 128%R.
Proof. rewrite INR_IZR_INZ. done. Qed.
Lemma INR_63 : INR 63 = 63%R.
Proof. rewrite INR_IZR_INZ. done. Qed.
Lemma INR_64_1 : INR (64 - 1) = 63%R.
Proof. change (64 - 1) with 63. apply INR_63. Qed.
Lemma draw_spheres (A : point3 → Prop) c0 c1 c2 r h : (0 < r)%R → (0 <= h < 1)%R →
  (∀ q, A q ↔ (h * r <= N3 (q.1.1 - c0) (q.1.2 - c1) (q.2 - c2) <= r)%R) →
  draws_boundary (if decide (0 < h)%R then BallSurface [c0; c1; c2] (h * r) (-1) ++ BallSurface [c0; c1; c2] r (-1)
                  else BallSurface [c0; c1; c2] r (-1)) A (r / 7).
Proof.
  intros Hr Hh HA. rewrite !ball_surface_eq.
  assert (HB : ∀ q, boundary A q ↔ N3 (q.1.1 - c0) (q.1.2 - c1) (q.2 - c2) = r ∨ (0 < h ∧ N3 (q.1.1 - c0) (q.1.2 - c1) (q.2 - c2) = h * r)%R).
  { intros q. apply (boundary_shell N3 (c0, c1, c2) A r h q gauge_N3 N3_pos Hr Hh HA). }
  assert (HN : ∀ rho a b, (0 < rho)%R → a < (grid (sphere 128 64 rho c0 c1 c2)).1 → b < (grid (sphere 128 64 rho c0 c1 c2)).2 →
    let q := node (sphere 128 64 rho c0 c1 c2) a b in N3 (q.1.1 - c0) (q.1.2 - c1) (q.2 - c2) = rho).
  { intros rho a b Hp. rewrite sphere_grid. cbn [fst snd]. intros Ha Hb. rewrite sphere_node by lia. cbv zeta. cbn [fst snd].
    transitivity (Rabs rho); [|apply Rabs_right; lra].
    rewrite <- (N3_sphere (2 * PI * INR a / INR 128) (PI * INR b / INR (64 - 1)) rho). f_equal; ring. }
  assert (HP : ∀ rho q, (0 < rho <= r)%R → N3 (q.1.1 - c0) (q.1.2 - c1) (q.2 - c2) = rho →
    ∃ q', on_surface (sphere 128 64 rho c0 c1 c2) q' ∧ close (r / 7) q q').
  { intros rho q Hp E. destruct (sphere_point 128 64 rho c0 c1 c2 q) as (q' & H1 & H2); [lia|lia|lra|done|].
    exists q'. split; [done|]. eapply close_mono; [|done]. rewrite INR_128, INR_64_1. pose proof PI_4. pose proof PI_RGT_0.
    assert (2 * PI / 128 + PI / 63 <= 1 / 7)%R by lra.
    apply Rle_trans with (r * (1 / 7))%R; [|lra]. apply Rmult_le_compat; lra. }
  split.
  - intros F a b HF Ha Hb. apply HB. destruct (decide (0 < h)%R) as [H0|H0].
    + cbn in HF. rewrite !elem_of_cons, elem_of_nil in HF. destruct HF as [-> |[-> |[]]].
      * right. split; [done|]. apply HN; [by apply Rmult_lt_0_compat|done|done].
      * left. by apply HN.
    + apply elem_of_list_singleton in HF as ->. left. by apply HN.
  - intros q [E|[H0 E]]%HB.
    + destruct (HP r q) as (q' & H1 & H2); [lra|done|]. exists (sphere 128 64 r c0 c1 c2), q'. split; [|done].
      case_decide; cbn; rewrite !elem_of_cons; auto.
    + assert (0 < h * r)%R by (by apply Rmult_lt_0_compat).
      destruct (HP (h * r)%R q) as (q' & H1 & H2); [nra|done|]. exists (sphere 128 64 (h * r) c0 c1 c2), q'. split; [|done].
      rewrite decide_True by done. cbn. rewrite !elem_of_cons; auto.
Qed.
Lemma rotate_2 F : rotate 2 F = F.
Proof. by destruct F as [[X Y] Z]. Qed.
Lemma draw_cones (A : point3 → Prop) c0 c1 c2 r h : (0 < r)%R → (0 <= h < 1)%R →
  (∀ q, A q ↔ (h * r <= Rabs (q.2 - c2) + N2 (q.1.1 - c0) (q.1.2 - c1) <= r)%R) →
  let cones r := OpenConeSurface [c0; c1; c2 - r]%R r r 2 (-1) ++ OpenConeSurface [c0; c1; c2 + r]%R r (- r) 2 (-1) in
  draws_boundary (if decide (0 < h)%R then cones (h * r)%R ++ cones r else cones r) A (r / 7).
Proof.
  intros Hr Hh HA cones.
  set (lower := λ r, revolved [0; 1]%R [0; 1]%R r r 128 c0 c1 (c2 - r)). set (upper := λ r, revolved [0; 1]%R [0; 1]%R r (- r) 128 c0 c1 (c2 + r)).
  assert (Ec : ∀ r, cones r = [lower r; upper r]).
  { intros rho. unfold cones. rewrite !cone_surface_eq, !rotate_2. done. }
  set (g := (λ x y z, Rabs z + N2 x y)%R).
  assert (HB : ∀ q, boundary A q ↔ g (q.1.1 - c0)%R (q.1.2 - c1)%R (q.2 - c2)%R = r ∨ (0 < h ∧ g (q.1.1 - c0)%R (q.1.2 - c1)%R (q.2 - c2)%R = h * r)%R).
  { intros q. apply (boundary_shell g (c0, c1, c2) A r h q); [|  |done|done|exact HA].
    - apply (gauge_add (λ _ _ z, Rabs z) (λ x y _, N2 x y)); [apply gauge_abs_z|apply gauge_N2].
    - intros x y z. unfold g. pose proof (Rabs_pos z). pose proof (N2_pos x y). lra. }
  assert (HN : ∀ rho F a b, (0 < rho)%R → F ∈ cones rho → a < (grid F).1 → b < (grid F).2 →
    let q := node F a b in g (q.1.1 - c0)%R (q.1.2 - c1)%R (q.2 - c2)%R = rho).
  { intros rho F a b Hp HF. rewrite Ec, !elem_of_cons, elem_of_nil in HF.
    assert (EN : ∀ k t, N2 (k * cos t * rho + c0 - c0) (k * sin t * rho + c1 - c1) = Rabs (k * rho)).
    { intros k t. rewrite <- (N2_circle t). f_equal; ring. }
    destruct HF as [-> |[-> |[]]]; unfold lower, upper; rewrite revolved_grid by (done || (cbn; lia)); cbn [fst snd length]; intros Ha Hb;
      rewrite revolved_node by (done || (cbn; lia)); cbv zeta; cbn [fst snd]; unfold g; rewrite EN;
      destruct a as [|[|a]]; [| |lia| | |lia]; cbn [nth];
      [replace (0 * rho + (c2 - rho) - c2)%R with (- rho)%R by ring
      |replace (1 * rho + (c2 - rho) - c2)%R with 0%R by ring
      |replace (0 * - rho + (c2 + rho) - c2)%R with rho by ring
      |replace (1 * - rho + (c2 + rho) - c2)%R with 0%R by ring];
      rewrite ?Rmult_0_l, ?Rmult_1_l, ?Rabs_Ropp, ?Rabs_R0, ?(Rabs_right rho) by lra; ring. }
  assert (HP : ∀ rho q, (0 < rho <= r)%R → g (q.1.1 - c0)%R (q.1.2 - c1)%R (q.2 - c2)%R = rho →
    ∃ F q', F ∈ cones rho ∧ on_surface F q' ∧ close (r / 7) q q').
  { intros rho q Hp E. unfold g in E. set (n := N2 (q.1.1 - c0) (q.1.2 - c1)) in *.
    assert (Hn : (0 <= n)%R) by apply N2_pos. pose proof (Rabs_pos (q.2 - c2)) as Hz.
    assert (Hu : (0 <= n / rho <= 1)%R) by (apply unit_pos; lra).
    assert (En : (n = ((1 - n / rho) * 0 + n / rho * 1) * rho)%R) by (field; lra).
    pose proof PI_4. pose proof PI_RGT_0.
    assert (Htol : (n * (2 * PI / INR 128) <= r / 7)%R).
    { rewrite INR_128. apply Rle_trans with (r * (1 / 7))%R; [|lra]. apply Rmult_le_compat; lra. }
    destruct (Rabs_cases (q.2 - c2)) as [[Hs Ea]|[Hs Ea]].
    - exists (upper rho). destruct (revolved_point [0; 1]%R [0; 1]%R rho (- rho) 128 c0 c1 (c2 + rho) 0 (n / rho) n q) as (q' & H1 & H2);
        [done|cbn; lia|lia|done|done|exact En|done| |].
      { cbn [nth]. replace (((1 - n / rho) * 0 + n / rho * 1) * - rho)%R with (- n)%R by (field; lra). lra. }
      exists q'. split; [rewrite Ec, !elem_of_cons; auto|]. split; [done|]. by eapply close_mono.
    - exists (lower rho). destruct (revolved_point [0; 1]%R [0; 1]%R rho rho 128 c0 c1 (c2 - rho) 0 (n / rho) n q) as (q' & H1 & H2);
        [done|cbn; lia|lia|done|done|exact En|done| |].
      { cbn [nth]. replace (((1 - n / rho) * 0 + n / rho * 1) * rho)%R with n by (field; lra). lra. }
      exists q'. split; [rewrite Ec, !elem_of_cons; auto|]. split; [done|]. by eapply close_mono. }
  split.
  - intros F a b HF Ha Hb. apply HB. destruct (decide (0 < h)%R) as [H0|H0].
    + apply elem_of_app in HF as [HF|HF].
      * right. split; [done|]. apply HN; [by apply Rmult_lt_0_compat|done|done|done].
      * left. by apply HN.
    + left. by apply HN.
  - intros q [E|[H0 E]]%HB.
    + destruct (HP r q) as (F & q' & HF & H1); [lra|done|]. exists F, q'. split; [|done].
      case_decide; [apply elem_of_app; auto|done].
    + assert (0 < h * r)%R by (by apply Rmult_lt_0_compat).
      destruct (HP (h * r)%R q) as (F & q' & HF & H1); [nra|done|]. exists F, q'. split; [|done].
      rewrite decide_True by done. apply elem_of_app; auto.
Qed.
Lemma draw_cylinder (A : point3 → Prop) c0 c1 c2 r h T : (0 < r)%R → (0 < T)%R → (0 <= h < 1)%R →
  (∀ q, A q ↔ (Rabs (q.2 - c2) <= T / 2)%R ∧ (h * r <= N2 (q.1.1 - c0) (q.1.2 - c1) <= r)%R) →
  draws_boundary (CylinderSurface [c0; c1; c2] r T h 2 (-1)) A (r / 7).
Proof.
  intros Hr HT Hh HA.
  pose proof (λ q, boundary_cylinder (c0, c1, c2) A r h T q Hr HT Hh HA) as HB. cbv zeta in HB. cbn [fst snd] in HB.
  set (ra := if decide (h = 0%R) then [0; 1; 1; 0]%R else [h; 1; 1; h; h]%R).
  set (zs := if decide (h = 0%R) then [-1; -1; 1; 1]%R else [-1; -1; 1; 1; -1]%R).
  set (F := revolved ra zs r (T / 2) 128 c0 c1 c2).
  assert (EF : CylinderSurface [c0; c1; c2] r T h 2 (-1) = [F]) by (unfold CylinderSurface; by rewrite rotate_2).
  rewrite EF.
  assert (Hl : length ra = length zs) by (unfold ra, zs; case_decide; done).
  assert (Hlr : length ra = if decide (h = 0%R) then 4 else 5) by (unfold ra; case_decide; done).
  assert (Hlp : 0 < length ra) by (rewrite Hlr; case_decide; lia).
  assert (Hhr : (h * r < r)%R) by nra. assert (Hhr0 : (0 <= h * r)%R) by nra.
  split.
  - intros F' a b HF. apply elem_of_list_singleton in HF as ->. unfold F. rewrite revolved_grid by done. cbn [fst snd]. intros Ha Hb.
    apply HB. rewrite revolved_node by (done || lia). cbv zeta. cbn [fst snd].
    assert (EN : ∀ k t, N2 (k * cos t * r + c0 - c0) (k * sin t * r + c1 - c1) = Rabs (k * r)).
    { intros k t. rewrite <- (N2_circle t). f_equal; ring. }
    rewrite EN. assert (Ez : ∀ x, (x = 1 ∨ x = -1)%R → Rabs (x * (T / 2) + c2 - c2) = (T / 2)%R).
    { intros x Hx. replace (x * (T / 2) + c2 - c2)%R with (x * (T / 2))%R by ring. rewrite Rabs_mult, (Rabs_right (T / 2)) by lra.
      destruct Hx as [-> | ->]; [rewrite Rabs_right by lra; ring|]. rewrite (Rabs_left (-1)) by lra. ring. }
    rewrite Ez; cycle 1.
    { unfold zs. rewrite Hl in Ha. unfold zs in Ha. destruct (decide (h = 0%R)); cbn in Ha; do 4 (destruct a as [|a]; [cbn; auto|]); try (exfalso; lia);
        destruct a as [|a]; [cbn; auto|exfalso; lia]. }
    assert (Hra : ((nth a ra 0 = h ∨ nth a ra 0 = 1)%R)).
    { unfold ra in Ha |- *. destruct (decide (h = 0%R)) as [-> |]; cbn in Ha; do 4 (destruct a as [|a]; [cbn; auto|]); try (exfalso; lia);
        destruct a as [|a]; [cbn; auto|exfalso; lia]. }
    split; [lra|]. split; [|by left]. destruct Hra as [-> | ->]; rewrite Rabs_right by lra; lra.
  - intros q Hq%HB. destruct Hq as (Hz & Hn & Hcase).
    set (n := N2 (q.1.1 - c0) (q.1.2 - c1)) in *. set (z := (q.2 - c2)%R) in *.
    assert (Hn0 : (0 <= n)%R) by apply N2_pos. pose proof PI_4. pose proof PI_RGT_0.
    assert (Htol : (n * (2 * PI / INR 128) <= r / 7)%R).
    { rewrite INR_128. apply Rle_trans with (r * (1 / 7))%R; [|lra]. apply Rmult_le_compat; lra. }
    assert (HR : ∀ a u, S a < length ra → (0 <= u <= 1)%R → (n = ((1 - u) * nth a ra 0 + u * nth (S a) ra 0) * r)%R →
      (z = ((1 - u) * nth a zs 0 + u * nth (S a) zs 0) * (T / 2))%R → ∃ F' q', F' ∈ [F] ∧ on_surface F' q' ∧ close (r / 7) q q').
    { intros a u Ha Hu E1 E2. destruct (revolved_point ra zs r (T / 2) 128 c0 c1 c2 a u n q) as (q' & H1 & H2); [done|done|lia|done|done|done|done|done|].
      exists F, q'. split; [by apply elem_of_list_singleton|]. split; [done|]. by eapply close_mono. }
    assert (Er0 : nth 0 ra 0%R = h ∧ nth 1 ra 0%R = 1%R ∧ nth 2 ra 0%R = 1%R ∧ nth 3 ra 0%R = h).
    { unfold ra. destruct (decide (h = 0%R)) as [-> |]; done. }
    assert (Ez0 : (nth 0 zs 0 = -1 ∧ nth 1 zs 0 = -1 ∧ nth 2 zs 0 = 1 ∧ nth 3 zs 0 = 1)%R) by (unfold zs; case_decide; done).
    destruct Er0 as (R0 & R1 & R2 & R3), Ez0 as (Z0 & Z1 & Z2 & Z3).
    assert (Hlen : 4 ≤ length ra) by (rewrite Hlr; case_decide; lia).
    destruct Hcase as [E|[E|[Hh0 E]]].
    + set (u := ((n - h * r) / (r - h * r))%R).
      assert (Hu : (0 <= u <= 1)%R) by (apply unit_pos; lra).
      assert (En : (n = ((1 - u) * h + u * 1) * r)%R).
      { assert (u * (r - h * r) = n - h * r)%R by (unfold u; field; lra). lra. }
      destruct (Rabs_cases z) as [[Hs Ea]|[Hs Ea]].
      * apply (HR 2 (1 - u)%R); [lia|lra| |]; rewrite ?R2, ?R3, ?Z2, ?Z3; [rewrite En at 1; ring|]. lra.
      * apply (HR 0 u); [lia|lra| |]; rewrite ?R0, ?R1, ?Z0, ?Z1; [done|]. lra.
    + set (u := ((z - - (T / 2)) / T)%R).
      assert (Hu : (0 <= u <= 1)%R) by (apply unit_pos; [lra|]; destruct (Rabs_cases z) as [[Hs Ea]|[Hs Ea]]; lra).
      assert (u * T = z + T / 2)%R by (unfold u; field; lra).
      apply (HR 1 u); [lia|lra| |]; rewrite ?R1, ?R2, ?Z1, ?Z2; lra.
    + set (u := ((z - - (T / 2)) / T)%R).
      assert (Hu : (0 <= u <= 1)%R) by (apply unit_pos; [lra|]; destruct (Rabs_cases z) as [[Hs Ea]|[Hs Ea]]; lra).
      assert (u * T = z + T / 2)%R by (unfold u; field; lra).
      assert (Hne : h ≠ 0%R) by lra. rewrite decide_False in Hlr by done.
      assert (R4 : nth 4 ra 0%R = h) by (unfold ra; by rewrite decide_False by done).
      assert (Z4 : nth 4 zs 0%R = (-1)%R) by (unfold zs; by rewrite decide_False by done).
      apply (HR 3 (1 - u)%R); [lia|lra| |]; rewrite ?R3, ?R4, ?Z3, ?Z4; lra.
Qed.
Lemma draw_box (A : point3 → Prop) c0 c1 c2 e0 e1 e2 : (0 < e0)%R → (0 < e1)%R → (0 < e2)%R →
  (∀ q, A q ↔ (Rabs (q.1.1 - c0) <= e0 / 2 ∧ Rabs (q.1.2 - c1) <= e1 / 2 ∧ Rabs (q.2 - c2) <= e2 / 2)%R) →
  draws_boundary (CuboidSurface [c0; c1; c2] [e0; e1; e2]) A 0 ∧
  ∀ q, (∃ F, F ∈ CuboidSurface [c0; c1; c2] [e0; e1; e2] ∧ on_surface F q) ↔ boundary A q.
Proof.
  intros H0 H1 H2 HA.
  assert (HB : ∀ q, (∃ F, F ∈ CuboidSurface [c0; c1; c2] [e0; e1; e2] ∧ on_surface F q) ↔ boundary A q).
  { intros q. rewrite box_exact by done. symmetry. apply (boundary_box (c0, c1, c2)); (lra || exact HA). }
  split; [|done]. split.
  - intros F a b HF Ha Hb. rewrite (box_grid _ _ _ _ _ _ _ HF) in Ha, Hb. cbn [fst snd] in Ha, Hb.
    destruct (box_node _ _ _ _ _ _ F a b HF Ha Hb) as (N0 & N1 & N2).
    apply (boundary_box (c0, c1, c2) A (e0 / 2) (e1 / 2) (e2 / 2)); [lra|lra|lra|exact HA|].
    apply ends_abs in N0, N1, N2; [|done..]. cbn [fst snd]. split; [lra|by left].
  - intros q (F & HF & Hq)%HB. exists F, q. split; [done|]. split; [done|]. unfold close. rewrite !Rminus_diag_eq, Rabs_R0 by done. lra.
Qed.

(** The regions of the shapes in the coordinates of a cut. *)
Section regions.
Context (s : shape) (Hs : constructed_shape s) (i j k : nat).
Context (Hi : i < sh_dim s) (Hj : j < sh_dim s) (Hk : k < sh_dim s) (Hij : i ≠ j) (Hik : i ≠ k) (Hjk : j ≠ k).
Notation c m := (nth m (sh_center s) 0%R).
Notation A := (λ q, in_shape s (cut3 s i j k q)).
Lemma region_ball q r h : sh_name s = "ball" ∨ i ≠ 0 ∧ j ≠ 0 ∧ k ≠ 0 ∧ (sh_name s = "bicone" ∨ sh_name s = "cylinder") →
  sh_radius s = Some r → sh_hollow s = Some h → (sh_name s = "cylinder" → (0 <= default 0 (sh_duration s))%R) →
  A q ↔ (h * r <= N3 (q.1.1 - c i) (q.1.2 - c j) (q.2 - c k) <= r)%R.
Proof using Hs Hi Hj Hk Hij Hik Hjk.
  intros Hn Er Eh HT. destruct (constructed_wf s Hs) as [_ Hc _].
  unfold in_shape, in_region. rewrite cut3_length by done. rewrite Er, Eh. cbn [default from_option]. unfold Datatypes.id.
  destruct Hn as [En|(Hi0 & Hj0 & Hk0 & Hn)].
  - unfold dist_all. rewrite cut3_sum by (done || lia). rewrite En. split.
    + intros (_ & H1 & _). by apply H1.
    + intros H1. split; [done|]. split; [done|]. split_and!; intros E'; discriminate E'.
  - unfold dist_space. rewrite cut3_sum by (done || lia). rewrite cut3_offset by done. rewrite !decide_False by lia. rewrite Rabs_R0.
    destruct Hn as [E|E]; rewrite E.
    + split.
      * intros (_ & _ & H1 & _). specialize (H1 eq_refl). lra.
      * intros H1. split; [done|]. split; [intros E'; discriminate E'|]. split; [intros _; lra|]. split_and!; intros E'; discriminate E'.
    + split.
      * intros (_ & _ & _ & H1 & _). specialize (H1 eq_refl). lra.
      * intros H1. split; [done|]. split; [intros E'; discriminate E'|]. split; [intros E'; discriminate E'|].
        split; [|split; intros E'; discriminate E']. intros _. split; [|done]. specialize (HT E). cbn [default from_option] in HT. unfold Datatypes.id in HT. lra.
Qed.
Lemma region_bicone q r h : sh_name s = "bicone" → k = 0 → sh_radius s = Some r → sh_hollow s = Some h →
  A q ↔ (h * r <= Rabs (q.2 - c k) + N2 (q.1.1 - c i) (q.1.2 - c j) <= r)%R.
Proof using Hs Hi Hj Hk Hij Hik Hjk.
  intros En Ek Er Eh. destruct (constructed_wf s Hs) as [_ Hc _].
  unfold in_shape, in_region. rewrite cut3_length by done. rewrite Er, Eh, En. cbn [default from_option]. unfold Datatypes.id.
  destruct (cut3_dist_time s Hc i j k Hi Hj Hk Hij Hik Hjk q Ek) as [-> ->]. split.
  - intros (_ & _ & H1 & _). by apply H1.
  - intros H1. split; [done|]. split; [intros E'; discriminate E'|]. split; [done|]. split_and!; intros E'; discriminate E'.
Qed.
Lemma region_cylinder q r h T : sh_name s = "cylinder" → k = 0 → sh_radius s = Some r → sh_hollow s = Some h → sh_duration s = Some T →
  A q ↔ (Rabs (q.2 - c k) <= T / 2)%R ∧ (h * r <= N2 (q.1.1 - c i) (q.1.2 - c j) <= r)%R.
Proof using Hs Hi Hj Hk Hij Hik Hjk.
  intros En Ek Er Eh ET. destruct (constructed_wf s Hs) as [_ Hc _].
  unfold in_shape, in_region. rewrite cut3_length by done. rewrite Er, Eh, ET, En. cbn [default from_option]. unfold Datatypes.id.
  destruct (cut3_dist_time s Hc i j k Hi Hj Hk Hij Hik Hjk q Ek) as [-> ->]. split.
  - intros (_ & _ & _ & H1 & _). by apply H1.
  - intros H1. split; [done|]. split; [intros E'; discriminate E'|]. split; [intros E'; discriminate E'|]. split; [done|]. split_and!; intros E'; discriminate E'.
Qed.
Lemma region_box q (e : nat → R) : (∀ m, m < sh_dim s → (0 < e m)%R) →
  (sh_name s = "cube" ∧ (∀ m, m < sh_dim s → default 0%R (sh_edge s) = e m) ∨
   sh_name s = "cuboid" ∧ (∀ m, m < sh_dim s → nth m (default [] (sh_edges s)) 0%R = e m)) →
  A q ↔ (Rabs (q.1.1 - c i) <= e i / 2 ∧ Rabs (q.1.2 - c j) <= e j / 2 ∧ Rabs (q.2 - c k) <= e k / 2)%R.
Proof using Hs Hi Hj Hk Hij Hik Hjk.
  intros He Hn. destruct (constructed_wf s Hs) as [_ Hc _].
  assert (HB : (∀ m, m < sh_dim s → (Rabs (offset s (cut3 s i j k q) m) <= e m / 2)%R) ↔
    (Rabs (q.1.1 - c i) <= e i / 2 ∧ Rabs (q.1.2 - c j) <= e j / 2 ∧ Rabs (q.2 - c k) <= e k / 2)%R).
  { destruct (cut3_offsets s Hc i j k Hi Hj Hk Hij Hik Hjk q) as (E1 & E2 & E3). split.
    - intros H. rewrite <- E1, <- E2, <- E3. auto.
    - intros (H1 & H2 & H3) m Hm. rewrite cut3_offset by done.
      destruct (decide (m = i)) as [-> |]; [done|]. destruct (decide (m = j)) as [-> |]; [done|]. destruct (decide (m = k)) as [-> |]; [done|].
      rewrite Rabs_R0. specialize (He m Hm). lra. }
  rewrite <- HB. unfold in_shape, in_region. rewrite cut3_length by done. destruct Hn as [[En Ee]|[En Ee]]; rewrite En.
  - split.
    + intros (_ & _ & _ & _ & H & _) m Hm. rewrite <- (Ee m Hm). by apply H.
    + intros H. split; [done|]. split_and!; try (intros E'; discriminate E'). intros _ m Hm. rewrite (Ee m Hm). by apply H.
  - split.
    + intros (_ & _ & _ & _ & _ & H) m Hm. rewrite <- (Ee m Hm). by apply H.
    + intros H. split; [done|]. split_and!; try (intros E'; discriminate E'). intros _ m Hm. rewrite (Ee m Hm). by apply H.
Qed.
End regions.
Definition time_shape (s : shape) : Prop := sh_name s = "bicone" ∨ sh_name s = "cylinder".
(** Boxes are drawn exactly, other shapes up to a seventh of the radius (between samples). *)
Definition tolerance (s : shape) : R :=
  if decide (sh_name s = "cube" ∨ sh_name s = "cuboid") then 0%R else (radius_of s / 7)%R.
Theorem C77_cut (f32 : R → R) (s : shape) (i j k : nat) :
  constructed_shape s → i < sh_dim s → j < sh_dim s → k < sh_dim s → i ≠ j → i ≠ k → j ≠ k →
  (time_shape s → i ≠ 0 ∧ j ≠ 0) →
  f32 (radius_of s * hollow_of s)%R = (radius_of s * hollow_of s)%R →
  ∃ Fs, snd (plot_surfaces f32 s [Z.of_nat i; Z.of_nat j; Z.of_nat k]) = Ok Fs ∧
    draws_boundary Fs (λ q, in_shape s (cut3 s i j k q)) (tolerance s) ∧
    (sh_name s = "cube" ∨ sh_name s = "cuboid" →
       ∀ q, (∃ F, F ∈ Fs ∧ on_surface F q) ↔ boundary (λ q, in_shape s (cut3 s i j k q)) q).
Proof.
  intros Hs Hi Hj Hk Hij Hik Hjk Htime Hf. pose proof (constructed_wf s Hs) as [Hd Hc Hcase].
  unfold plot_surfaces. rewrite take_three by lia. rewrite time_axis_three by done. unfold tolerance, radius_of, hollow_of in *.
  destruct Hcase as [[Hn (r & h & Er & Eh & Hr & Hh)]|[[En (r & h & T & Er & Eh & ET & Hr & Hh & HT)]|[[En (e & Ee & He)]|[En (es & Ees & Hl & He)]]]].
  - rewrite Er, Eh in *. cbn [default from_option] in *. unfold Datatypes.id in *. destruct Hn as [En|En]; rewrite En; str_eq.
    + rewrite (decide_True (P := "ball" = "ball" ∨ _)) by (by left). rewrite (decide_False (P := "ball" = "cube" ∨ _)) by (intros [E|E]; discriminate E). cbn [snd]. eexists. split; [done|].
      split; [|intros [E|E]; discriminate E]. apply draw_spheres; [done|done|]. intros q.
      apply region_ball; (done || (by left) || idtac). intros E. congruence.
    + rewrite (decide_False (P := "bicone" = "cube" ∨ _)) by (intros [E|E]; discriminate E).
      destruct (decide ("bicone" = "ball" ∨ _)) as [[E|[Hta _]]|Hta]; [discriminate E| |].
      * assert (Hi0 : i ≠ 0) by (intros ->; rewrite decide_True in Hta by done; lia).
        assert (Hj0 : j ≠ 0) by (intros ->; rewrite decide_False, decide_True in Hta by done; lia).
        assert (Hk0 : k ≠ 0) by (intros ->; rewrite (decide_False (P := i = 0)), (decide_False (P := j = 0)), decide_True in Hta by done; lia).
        cbn [snd]. eexists. split; [done|]. split; [|intros [E|E]; discriminate E]. apply draw_spheres; [done|done|]. intros q.
        apply region_ball; (done || (right; by auto) || idtac). intros E. congruence.
      * destruct (Htime (or_introl En)) as [Hi0 Hj0].
        assert (Hk0 : k = 0).
        { destruct (decide (k = 0)); [done|]. exfalso. apply Hta. right. split; [|by left]. rewrite !decide_False by done. lia. }
        rewrite (decide_False (P := i = 0)), (decide_False (P := j = 0)), (decide_True (P := k = 0)) by done.
        change (Z.to_nat 2) with 2. unfold setc, cget. cbn [nth]. cbn -[OpenConeSurface].
        pose proof (draw_cones (λ q, in_shape s (cut3 s i j k q)) (nth i (sh_center s) 0%R) (nth j (sh_center s) 0%R) (nth k (sh_center s) 0%R) r h Hr Hh) as HD.
        cbv zeta in HD. rewrite Hf, (Rmult_comm r h). eexists. split; [|split; [apply HD|intros [E|E]; discriminate E]].
        { destruct (decide (0 < h)%R); done. }
        intros q. by apply region_bicone.
  - rewrite Er, Eh, ET in *. cbn [default from_option] in *. unfold Datatypes.id in *. rewrite En. str_eq.
    rewrite (decide_False (P := "cylinder" = "cube" ∨ _)) by (intros [E|E]; discriminate E).
    destruct (decide ("cylinder" = "ball" ∨ _)) as [[E|[Hta _]]|Hta]; [discriminate E| |].
    + assert (Hi0 : i ≠ 0) by (intros ->; rewrite decide_True in Hta by done; lia).
      assert (Hj0 : j ≠ 0) by (intros ->; rewrite decide_False, decide_True in Hta by done; lia).
      assert (Hk0 : k ≠ 0) by (intros ->; rewrite (decide_False (P := i = 0)), (decide_False (P := j = 0)), decide_True in Hta by done; lia).
      cbn [snd]. eexists. split; [done|]. split; [|intros [E|E]; discriminate E]. apply draw_spheres; [done|done|]. intros q.
      apply region_ball; (done || (right; by auto) || idtac). rewrite ET. cbn. unfold Datatypes.id. lra.
    + destruct (Htime (or_intror En)) as [Hi0 Hj0].
      assert (Hk0 : k = 0).
      { destruct (decide (k = 0)); [done|]. exfalso. apply Hta. right. split; [|by right]. rewrite !decide_False by done. lia. }
      rewrite (decide_False (P := i = 0)), (decide_False (P := j = 0)), (decide_True (P := k = 0)) by done.
      cbn [snd]. eexists. split; [done|]. split; [|intros [E|E]; discriminate E]. apply draw_cylinder; [done|done|done|]. intros q.
      by apply region_cylinder.
  - rewrite En. str_eq. rewrite (decide_True (P := "cube" = "cube" ∨ _)) by (by left). cbn [snd]. eexists. split; [done|]. rewrite Ee. cbn [default from_option]. unfold Datatypes.id, CubeSurface.
    destruct (draw_box (λ q, in_shape s (cut3 s i j k q)) (nth i (sh_center s) 0%R) (nth j (sh_center s) 0%R) (nth k (sh_center s) 0%R) e e e He He He) as [D1 D2].
    { intros q. apply (region_box s Hs i j k Hi Hj Hk Hij Hik Hjk q (λ _, e)); [done|]. left. rewrite Ee. done. }
    split; [done|]. intros _. done.
  - rewrite En. str_eq. rewrite (decide_True (P := "cuboid" = "cube" ∨ _)) by (by right).
    rewrite (decide_False (P := "cuboid" = "ball" ∨ _)) by (intros [E|[_ [E|E]]]; discriminate E).
    rewrite Ees. cbn [snd default from_option]. unfold Datatypes.id. rewrite take_three by lia. cbn [res_map]. eexists. split; [done|].
    assert (He' : ∀ m, m < sh_dim s → (0 < nth m es 0)%R) by (intros m Hm; apply He, elem_of_list_In, nth_In; lia).
    destruct (draw_box (λ q, in_shape s (cut3 s i j k q)) (nth i (sh_center s) 0%R) (nth j (sh_center s) 0%R) (nth k (sh_center s) 0%R)
      (nth i es 0%R) (nth j es 0%R) (nth k es 0%R)) as [D1 D2]; [by apply He'..| |].
    { intros q. apply (region_box s Hs i j k Hi Hj Hk Hij Hik Hjk q (λ m, nth m es 0%R)); [done|]. right. rewrite Ees. done. }
    split; [done|]. intros _. done.
Qed.
Print Assumptions C77_cut.

(** ** Surfaces with the time on the first or second axis *)
Lemma cut3_rotate s i j k q : i ≠ j → i ≠ k → j ≠ k → cut3 s i j k q = cut3 s j k i (q.1.2, q.2, q.1.1).
Proof.
  intros H1 H2 H3. unfold cut3. cbn [fst snd]. rewrite (list_insert_commute _ i j) by done. f_equal. by rewrite list_insert_commute by done.
Qed.
(** Moving the coordinates of space cyclically: q |-> (q3, q1, q2). *)
Definition turn (q : point3) : point3 := (q.2, q.1.1, q.1.2).
Lemma close_turn e p q : close e p q ↔ close e (turn p) (turn q).
Proof. unfold close, turn. cbn [fst snd]. tauto. Qed.
Lemma turn3 q : turn (turn (turn q)) = q.
Proof. by destruct q as [[x y] z]. Qed.
Lemma boundary_turn A q : boundary (λ q, A (turn q)) q ↔ boundary A (turn q).
Proof.
  unfold boundary. split; intros [H1 H2]; (split; [done|]); intros eps He; destruct (H2 eps He) as (q' & H3 & H4).
  - exists (turn q'). by rewrite <- close_turn.
  - exists (turn (turn q')). rewrite turn3. split; [|done]. rewrite close_turn, turn3. done.
Qed.
Lemma boundary_ext (A B : point3 → Prop) q : (∀ q, A q ↔ B q) → boundary A q ↔ boundary B q.
Proof. intros H. unfold boundary. rewrite H. setoid_rewrite H. done. Qed.
Lemma draws_ext Fs (A B : point3 → Prop) tol : (∀ q, A q ↔ B q) → draws_boundary Fs A tol → draws_boundary Fs B tol.
Proof.
  intros H [H1 H2]. split.
  - intros. apply (boundary_ext A B); [done|]. by apply H1.
  - intros q Hq. apply H2. by apply (boundary_ext A B).
Qed.
Definition turn_surface (F : surface) : surface := let '(X, Y, Z) := F in (Z, X, Y).
Lemma turn_node F a b : node (turn_surface F) a b = turn (node F a b).
Proof. by destruct F as [[X Y] Z]. Qed.
Lemma turn_grid F : grid (turn_surface F) = grid F.
Proof. destruct F as [[X Y] Z]. unfold turn_surface, grid. apply (f_equal2 pair); lia. Qed.
Lemma on_turn F q : on_surface F q → on_surface (turn_surface F) (turn q).
Proof.
  intros (a & b & u & v & H1 & H2 & H3 & H4 & E1 & E2 & E3). exists a, b, u, v. rewrite turn_grid. split; [done|]. split; [done|].
  split; [done|]. split; [done|]. cbv zeta in *. rewrite !turn_node. unfold turn. cbn [fst snd]. done.
Qed.
Lemma draws_turn F A tol : draws_boundary [F] A tol → draws_boundary [turn_surface F] (λ q, A (turn (turn q))) tol.
Proof.
  intros [H1 H2].
  assert (HB : ∀ q, boundary (λ q, A (turn (turn q))) q ↔ boundary A (turn (turn q))).
  { intros q. rewrite (boundary_turn (λ q, A (turn q)) q). apply boundary_turn. }
  split.
  - intros F' a b HF. apply elem_of_list_singleton in HF as ->. rewrite turn_grid, turn_node. intros Ha Hb. apply HB. rewrite turn3.
    apply H1; [by apply elem_of_list_singleton|done|done].
  - intros q Hq%HB. destruct (H2 _ Hq) as (F' & q' & HF & H3 & H4). apply elem_of_list_singleton in HF as ->.
    exists (turn_surface F), (turn q'). split; [by apply elem_of_list_singleton|]. split; [by apply on_turn|].
    rewrite close_turn, turn3 in H4. done.
Qed.
Lemma cylinder_rotated c r T h z n : CylinderSurface c r T h z n = rotate z <$> CylinderSurface c r T h 2 n.
Proof. unfold CylinderSurface. cbn [fmap list_fmap]. by rewrite rotate_2. Qed.
Lemma rotate_0 F : rotate 0 F = turn_surface F.
Proof. by destruct F as [[X Y] Z]. Qed.
Lemma rotate_1 F : rotate 1 F = turn_surface (turn_surface F).
Proof. by destruct F as [[X Y] Z]. Qed.
Definition shift (d q : point3) : point3 := (q.1.1 + d.1.1, q.1.2 + d.1.2, q.2 + d.2)%R.
Lemma N2_sym x y : N2 x y = N2 y x.
Proof. unfold N2. f_equal. ring. Qed.
(** The cylinder is drawn around the centre with cyclically permuted coordinates. *)
Theorem C77_cylinder_time (f32 : R → R) (s : shape) (i j k : nat) :
  constructed_shape s → sh_name s = "cylinder" → i < sh_dim s → j < sh_dim s → k < sh_dim s → i ≠ j → i ≠ k → j ≠ k →
  i = 0 ∨ j = 0 →
  let c m := nth m (sh_center s) 0%R in
  let A q := in_shape s (cut3 s i j k q) in
  let d := if decide (i = 0) then (c i - c k, c j - c i, c k - c j)%R else (c i - c j, c j - c k, c k - c i)%R in
  ∃ Fs, snd (plot_surfaces f32 s [Z.of_nat i; Z.of_nat j; Z.of_nat k]) = Ok Fs ∧
    draws_boundary Fs (λ q, A (shift d q)) (radius_of s / 7) ∧
    ((∀ F a b, F ∈ Fs → a < (grid F).1 → b < (grid F).2 → boundary A (node F a b)) ↔ c i = c j ∧ c j = c k).
Proof.
  intros Hs En Hi Hj Hk Hij Hik Hjk Htime c A d. pose proof (constructed_wf s Hs) as [Hd Hc Hcase].
  destruct Hcase as [[[?|?] _]|[[_ (r & h & T & Er & Eh & ET & Hr & Hh & HT)]|[[? _]|[? _]]]]; [congruence|congruence| |congruence|congruence].
  pose proof (draw_cylinder (λ q, (Rabs (q.2 - c k) <= T / 2)%R ∧ (h * r <= N2 (q.1.1 - c i) (q.1.2 - c j) <= r)%R) (c i) (c j) (c k) r h T Hr HT Hh (λ q, iff_refl _)) as HD.
  set (F := revolved (if decide (h = 0%R) then [0; 1; 1; 0]%R else [h; 1; 1; h; h]%R) (if decide (h = 0%R) then [-1; -1; 1; 1]%R else [-1; -1; 1; 1; -1]%R) r (T / 2) 128 (c i) (c j) (c k)).
  assert (EF : CylinderSurface [c i; c j; c k] r T h 2 (-1) = [F]) by (unfold CylinderSurface; by rewrite rotate_2).
  rewrite EF in HD. set (z := if decide (i = 0) then 0%Z else 1%Z).
  assert (EP : snd (plot_surfaces f32 s [Z.of_nat i; Z.of_nat j; Z.of_nat k]) = Ok [rotate z F]).
  { unfold plot_surfaces. rewrite take_three by lia. rewrite time_axis_three by done. rewrite Er, Eh, ET, En. str_eq. cbn [default from_option].
    unfold Datatypes.id. assert (Ez : (if decide (i = 0) then 0%Z else if decide (j = 0) then 1%Z else if decide (k = 0) then 2%Z else (-1)%Z) = z).
    { unfold z. destruct (decide (i = 0)); [done|]. rewrite decide_True by tauto. done. }
    rewrite Ez. rewrite (decide_False (P := "cylinder" = "ball" ∨ _)).
    2:{ intros [E|[E _]]; [discriminate E|]. unfold z in E. destruct (decide (i = 0)); lia. }
    cbn [snd]. fold (c i) (c j) (c k). rewrite cylinder_rotated, EF. done. }
  assert (HA : ∀ q, A (shift d q) ↔
    if decide (i = 0) then (Rabs (q.1.1 - c k) <= T / 2)%R ∧ (h * r <= N2 (q.1.2 - c i) (q.2 - c j) <= r)%R
    else (Rabs (q.1.2 - c k) <= T / 2)%R ∧ (h * r <= N2 (q.2 - c i) (q.1.1 - c j) <= r)%R).
  { intros q. unfold A. destruct (decide (i = 0)) as [Ei|Ei].
    - rewrite cut3_rotate by done. rewrite (region_cylinder s Hs j k i Hj Hk Hi Hjk (not_eq_sym Hij) (not_eq_sym Hik) _ r h T En Ei Er Eh ET).
      unfold shift, d. cbn [fst snd]. fold (c i) (c j) (c k).
      replace (q.1.1 + (c i - c k) - c i)%R with (q.1.1 - c k)%R by ring.
      replace (q.1.2 + (c j - c i) - c j)%R with (q.1.2 - c i)%R by ring.
      replace (q.2 + (c k - c j) - c k)%R with (q.2 - c j)%R by ring. done.
    - assert (Ej : j = 0) by tauto.
      rewrite cut3_rotate, cut3_rotate by done. rewrite (region_cylinder s Hs k i j Hk Hi Hj (not_eq_sym Hik) (not_eq_sym Hjk) Hij _ r h T En Ej Er Eh ET).
      unfold shift, d. cbn [fst snd]. fold (c i) (c j) (c k).
      replace (q.1.1 + (c i - c j) - c i)%R with (q.1.1 - c j)%R by ring.
      replace (q.1.2 + (c j - c k) - c j)%R with (q.1.2 - c k)%R by ring.
      replace (q.2 + (c k - c i) - c k)%R with (q.2 - c i)%R by ring. done. }
  assert (HDr : draws_boundary [rotate z F] (λ q, A (shift d q)) (r / 7)).
  { unfold z. destruct (decide (i = 0)) as [Ei|Ei].
    - rewrite rotate_0. eapply draws_ext; [|apply draws_turn, HD]. intros q. rewrite HA. unfold turn. cbn [fst snd]. done.
    - rewrite rotate_1. eapply draws_ext; [|apply draws_turn, draws_turn, HD]. intros q. rewrite HA. cbv beta. rewrite turn3. unfold turn. cbn [fst snd]. done. }
  exists [rotate z F]. split; [done|]. split; [unfold radius_of; by rewrite Er|].
  split; cycle 1.
  { intros [E1 E2] F' a b HF Ha Hb. assert (Ed : ∀ q, shift d q = q).
    { intros q. unfold shift, d. rewrite E1, E2. destruct q as [[x y] w]. destruct (decide (i = 0)); cbn [fst snd]; f_equal; [f_equal| |f_equal|]; ring. }
    apply (boundary_ext (λ q, A (shift d q))); [intros q; by rewrite Ed|]. by apply HDr. }
  intros HN.
  assert (Hl : ∀ a b, a < 4 → b ≤ 128 → let q := node (rotate z F) a b in
     if decide (i = 0) then (Rabs (q.1.1 - c i) <= T / 2)%R ∧ (N2 (q.1.2 - c j) (q.2 - c k) <= r)%R
     else (Rabs (q.1.2 - c j) <= T / 2)%R ∧ (N2 (q.2 - c k) (q.1.1 - c i) <= r)%R).
  { intros a b Ha Hb q. assert (HAq : A q).
    { apply HN; [by apply elem_of_list_singleton|..]; unfold F; rewrite rotate_grid by (destruct (decide (h = 0%R)); cbn; (done || lia)); cbn [fst snd]; [destruct (decide (h = 0%R)); cbn; lia|lia]. }
    unfold A in HAq. clearbody q. destruct (decide (i = 0)) as [Ei|Ei].
    - rewrite cut3_rotate in HAq by done. rewrite (region_cylinder s Hs j k i Hj Hk Hi Hjk (not_eq_sym Hij) (not_eq_sym Hik) _ r h T En Ei Er Eh ET) in HAq.
      cbn [fst snd] in HAq. unfold c. tauto.
    - assert (Ej : j = 0) by tauto.
      rewrite cut3_rotate, cut3_rotate in HAq by done. rewrite (region_cylinder s Hs k i j Hk Hi Hj (not_eq_sym Hik) (not_eq_sym Hjk) Hij _ r h T En Ej Er Eh ET) in HAq.
      cbn [fst snd] in HAq. unfold c. tauto. }
  assert (EN : ∀ a b, a < 4 → b ≤ 128 → let t := (2 * PI * INR b / INR 128)%R in
    node (rotate z F) a b = cyclic z (match a with 1 | 2 => 1 | _ => h end * cos t * r + c i, match a with 1 | 2 => 1 | _ => h end * sin t * r + c j,
       match a with 2 | 3 => 1 | _ => -1 end * (T / 2) + c k)%R).
  { intros a b Ha Hb t. rewrite rotate_node. unfold F. rewrite revolved_node by (destruct (decide (h = 0%R)); cbn; (done || lia)). fold t. f_equal.
    destruct (decide (h = 0%R)) as [-> |]; (destruct a as [|[|[|[|a]]]]; [done..|lia]). }
  assert (HC : ∀ w : R → R, w = cos ∨ w = sin → ∃ b1 b2, b1 ≤ 128 ∧ b2 ≤ 128 ∧ w (2 * PI * INR b1 / INR 128)%R = 1%R ∧ w (2 * PI * INR b2 / INR 128)%R = (-1)%R).
  { intros w [-> | ->].
    - exists 0, 64. split; [lia|]. split; [lia|]. rewrite INR_128. assert (I1 : INR 64 = 64%R) by (rewrite INR_IZR_INZ; done). rewrite I1. change (INR 0) with 0%R. split.
      + replace (2 * PI * 0 / 128)%R with 0%R by field. apply cos_0.
      + replace (2 * PI * 64 / 128)%R with PI by field. apply cos_PI.
    - exists 32, 96. split; [lia|]. split; [lia|]. rewrite INR_128. assert (I1 : INR 32 = 32%R) by (rewrite INR_IZR_INZ; done). assert (I2 : INR 96 = 96%R) by (rewrite INR_IZR_INZ; done). rewrite I1, I2. split.
      + replace (2 * PI * 32 / 128)%R with (PI / 2)%R by field. apply sin_PI2.
      + replace (2 * PI * 96 / 128)%R with (3 * (PI / 2))%R by field. apply sin_3PI2. }
  assert (HX : ∀ x y, (N2 x y <= r → Rabs x <= r)%R).
  { intros x y H. eapply Rle_trans; [|done]. unfold N2. rewrite <- sqrt_Rsqr_abs. apply sqrt_le_1_alt. unfold Rsqr. pose proof (Rle_0_sqr y) as Hy. unfold Rsqr in Hy. lra. }
  assert (HQ' : ∀ a e, (Rabs (1 * a + e) <= a → Rabs (-1 * a + e) <= a → e = 0)%R).
  { intros a e. destruct (Rabs_cases (1 * a + e)) as [[? ->]|[? ->]], (Rabs_cases (-1 * a + e)) as [[? ->]|[? ->]]; lra. }
  assert (Ht : (c k - (if decide (i = 0%nat) then c i else c j) = 0)%R).
  { apply (HQ' (T / 2)%R).
    - pose proof (Hl 2 0 ltac:(lia) ltac:(lia)) as H. rewrite EN in H by lia. cbv zeta in H. unfold z, cyclic in H.
      destruct (decide (i = 0)); cbn [decide fst snd] in H; rewrite ?decide_True in H by done.
      + cbn [fst snd] in H. destruct H as [H _]. eapply Rle_trans; [|exact H]. right. f_equal. ring.
      + rewrite decide_False, decide_True in H by done. cbn [fst snd] in H. destruct H as [H _]. eapply Rle_trans; [|exact H]. right. f_equal. ring.
    - pose proof (Hl 1 0 ltac:(lia) ltac:(lia)) as H. rewrite EN in H by lia. cbv zeta in H. unfold z, cyclic in H.
      destruct (decide (i = 0)); cbn [decide fst snd] in H; rewrite ?decide_True in H by done.
      + cbn [fst snd] in H. destruct H as [H _]. eapply Rle_trans; [|exact H]. right. f_equal. ring.
      + rewrite decide_False, decide_True in H by done. cbn [fst snd] in H. destruct H as [H _]. eapply Rle_trans; [|exact H]. right. f_equal. ring. }
  assert (Hx : (c i - (if decide (i = 0%nat) then c j else c k) = 0)%R).
  { destruct (HC cos (or_introl eq_refl)) as (b1 & b2 & Hb1 & Hb2 & W1 & W2). apply (HQ' r).
    - pose proof (Hl 1 b1 ltac:(lia) Hb1) as H. rewrite EN in H by lia. cbv zeta in H. rewrite W1 in H. unfold z, cyclic in H.
      destruct (decide (i = 0)); rewrite ?decide_True in H by done.
      + cbn [fst snd] in H. destruct H as [_ H%HX]. eapply Rle_trans; [|exact H]. right. f_equal. ring.
      + rewrite decide_False, decide_True in H by done. cbn [fst snd] in H. destruct H as [_ H%HX]. eapply Rle_trans; [|exact H]. right. f_equal. ring.
    - pose proof (Hl 1 b2 ltac:(lia) Hb2) as H. rewrite EN in H by lia. cbv zeta in H. rewrite W2 in H. unfold z, cyclic in H.
      destruct (decide (i = 0)); rewrite ?decide_True in H by done.
      + cbn [fst snd] in H. destruct H as [_ H%HX]. eapply Rle_trans; [|exact H]. right. f_equal. ring.
      + rewrite decide_False, decide_True in H by done. cbn [fst snd] in H. destruct H as [_ H%HX]. eapply Rle_trans; [|exact H]. right. f_equal. ring. }
  destruct (decide (i = 0)); lra.
Qed.
Print Assumptions C77_cylinder_time.
(** No bicone is drawn correctly with the time on the first or second axis: some node lies
    outside of the shape. *)
Theorem C77_bicone_time_refuted (f32 : R → R) (s : shape) (i j k : nat) :
  constructed_shape s → sh_name s = "bicone" → i < sh_dim s → j < sh_dim s → k < sh_dim s → i ≠ j → i ≠ k → j ≠ k →
  i = 0 ∨ j = 0 →
  ∃ Fs F a b, snd (plot_surfaces f32 s [Z.of_nat i; Z.of_nat j; Z.of_nat k]) = Ok Fs ∧
    F ∈ Fs ∧ a < (grid F).1 ∧ b < (grid F).2 ∧ ¬ in_shape s (cut3 s i j k (node F a b)).
Proof.
  intros Hs En Hi Hj Hk Hij Hik Hjk Htime. pose proof (constructed_wf s Hs) as [Hd Hc Hcase].
  destruct Hcase as [[_ (r & h & Er & Eh & Hr & Hh)]|[[? _]|[[? _]|[? _]]]]; [|congruence..].
  set (c m := nth m (sh_center s) 0%R).
  set (z := if decide (i = 0) then 0%Z else 1%Z).
  set (m := if decide (i = 0) then 0 else 1).
  set (lower := rotate z (revolved [0; 1]%R [0; 1]%R r r 128 (if decide (i = 0%nat) then c i - r else c i)%R (if decide (i = 0%nat) then c j else c j - r)%R (c k))).
  set (upper := rotate z (revolved [0; 1]%R [0; 1]%R r (- r) 128 (if decide (i = 0%nat) then c i + r else c i)%R (if decide (i = 0%nat) then c j else c j + r)%R (c k))).
  assert (EP : ∃ Fs, snd (plot_surfaces f32 s [Z.of_nat i; Z.of_nat j; Z.of_nat k]) = Ok Fs ∧ lower ∈ Fs ∧ upper ∈ Fs).
  { unfold plot_surfaces. rewrite take_three by lia. rewrite time_axis_three by done. rewrite Er, Eh, En. str_eq. cbn [default from_option].
    unfold Datatypes.id. assert (Ez : (if decide (i = 0) then 0%Z else if decide (j = 0) then 1%Z else if decide (k = 0) then 2%Z else (-1)%Z) = z).
    { unfold z. destruct (decide (i = 0)); [done|]. rewrite decide_True by tauto. done. }
    rewrite Ez. rewrite (decide_False (P := "bicone" = "ball" ∨ _)).
    2:{ intros [E|[E _]]; [discriminate E|]. unfold z in E. destruct (decide (i = 0)); lia. }
    fold (c i) (c j) (c k).
    assert (Econes : ∀ f, setc [c i; c j; c k] (Z.to_nat z) (f (cget [c i; c j; c k] (Z.to_nat z))) =
      [if decide (i = 0) then f (c i) else c i; if decide (i = 0) then c j else f (c j); c k]).
    { intros f. unfold z. destruct (decide (i = 0)); done. }
    set (cones := λ r, OpenConeSurface (setc [c i; c j; c k] (Z.to_nat z) (cget [c i; c j; c k] (Z.to_nat z) - r)%R) r r z (-1) ++
         OpenConeSurface (setc [c i; c j; c k] (Z.to_nat z) (cget [c i; c j; c k] (Z.to_nat z) + r)%R) r (- r) z (-1)).
    assert (E : cones r = [lower; upper]).
    { unfold cones. rewrite (Econes (λ x, x - r)%R), (Econes (λ x, x + r)%R), !cone_surface_eq. done. }
    destruct (decide (0 < h)%R); cbn [snd]; eexists; (split; [reflexivity|]).
    - fold (cones r). rewrite E. split; apply elem_of_app; right; rewrite !elem_of_cons; auto.
    - fold (cones r). rewrite E. rewrite !elem_of_cons; auto. }
  destruct EP as (Fs & EP & HL & HU).
  assert (HG : ∀ ra H cx cy cz, grid (rotate z (revolved [0; 1]%R [0; 1]%R ra H 128 cx cy cz)) = (2, 129)).
  { intros. by rewrite rotate_grid by (done || (cbn; lia)). }
  set (bl := if decide (i = 0) then 64 else 96). set (bu := if decide (i = 0) then 0 else 32).
  assert (Hbl : bl ≤ 128) by (unfold bl; destruct (decide _); lia). assert (Hbu : bu ≤ 128) by (unfold bu; destruct (decide _); lia).
  destruct (Classical_Prop.classic (in_shape s (cut3 s i j k (node lower 1 bl)))) as [H1|H1].
  2:{ exists Fs, lower, 1, bl. split; [done|]. split; [done|]. unfold lower. rewrite HG. cbn [fst snd]. split; [lia|]. split; [lia|]. done. }
  destruct (Classical_Prop.classic (in_shape s (cut3 s i j k (node upper 1 bu)))) as [H2|H2].
  2:{ exists Fs, upper, 1, bu. split; [done|]. split; [done|]. unfold upper. rewrite HG. cbn [fst snd]. split; [lia|]. split; [lia|]. done. }
  exfalso.
  assert (HX : ∀ x y, (Rabs x <= N2 x y)%R).
  { intros x y. unfold N2. rewrite <- sqrt_Rsqr_abs. apply sqrt_le_1_alt. unfold Rsqr. pose proof (Rle_0_sqr y) as Hy. unfold Rsqr in Hy. lra. }
  assert (I0 : INR 0 = 0%R) by done. assert (I32 : INR 32 = 32%R) by (rewrite INR_IZR_INZ; done).
  assert (I64 : INR 64 = 64%R) by (rewrite INR_IZR_INZ; done). assert (I96 : INR 96 = 96%R) by (rewrite INR_IZR_INZ; done).
  unfold lower, upper in H1, H2. rewrite rotate_node, revolved_node in H1, H2 by (done || (cbn; lia)). cbn [nth] in H1, H2.
  unfold bl, bu, z in H1, H2. clear EP HL HU HG lower upper Hbl Hbu bl bu m z. destruct (decide (i = 0)) as [Ei|Ei].
  - rewrite INR_128, I64 in H1. rewrite INR_128, I0 in H2.
    replace (2 * PI * 64 / 128)%R with PI in H1 by field. rewrite cos_PI in H1.
    replace (2 * PI * 0 / 128)%R with 0%R in H2 by field. rewrite cos_0 in H2.
    unfold cyclic in H1, H2. rewrite decide_True in H1, H2 by done. cbn [fst snd] in H1, H2.
    rewrite cut3_rotate in H1, H2 by done.
    apply (region_bicone s Hs j k i Hj Hk Hi Hjk (not_eq_sym Hij) (not_eq_sym Hik) _ r h En Ei Er Eh) in H1; apply (region_bicone s Hs j k i Hj Hk Hi Hjk (not_eq_sym Hij) (not_eq_sym Hik) _ r h En Ei Er Eh) in H2.
    cbn [fst snd] in H1, H2. fold (c i) (c j) (c k) in H1, H2.
    pose proof (HX (1 * -1 * r + (c i - r) - c j)%R (1 * sin PI * r + c j - c k)%R) as X1.
    pose proof (HX (1 * 1 * r + (c i + r) - c j)%R (1 * sin 0 * r + c j - c k)%R) as X2.
    destruct (Rabs_cases (1 * r + c k - c i)) as [[? A1]|[? A1]], (Rabs_cases (1 * - r + c k - c i)) as [[? A2]|[? A2]],
      (Rabs_cases (1 * -1 * r + (c i - r) - c j)) as [[? A3]|[? A3]], (Rabs_cases (1 * 1 * r + (c i + r) - c j)) as [[? A4]|[? A4]];
      rewrite A1 in H1; rewrite A2 in H2; lra.
  - assert (Ej : j = 0) by tauto.
    rewrite INR_128, I96 in H1. rewrite INR_128, I32 in H2.
    replace (2 * PI * 96 / 128)%R with (3 * (PI / 2))%R in H1 by field. rewrite sin_3PI2 in H1.
    replace (2 * PI * 32 / 128)%R with (PI / 2)%R in H2 by field. rewrite sin_PI2 in H2.
    unfold cyclic in H1, H2. rewrite decide_False, decide_True in H1, H2 by done. cbn [fst snd] in H1, H2.
    rewrite cut3_rotate, cut3_rotate in H1, H2 by done.
    apply (region_bicone s Hs k i j Hk Hi Hj (not_eq_sym Hik) (not_eq_sym Hjk) Hij _ r h En Ej Er Eh) in H1; apply (region_bicone s Hs k i j Hk Hi Hj (not_eq_sym Hik) (not_eq_sym Hjk) Hij _ r h En Ej Er Eh) in H2.
    cbn [fst snd] in H1, H2. fold (c i) (c j) (c k) in H1, H2.
    rewrite N2_sym in H1, H2.
    pose proof (HX (1 * -1 * r + (c j - r) - c i)%R (1 * cos (3 * (PI / 2)) * r + c i - c k)%R) as X1.
    pose proof (HX (1 * 1 * r + (c j + r) - c i)%R (1 * cos (PI / 2) * r + c i - c k)%R) as X2.
    destruct (Rabs_cases (1 * r + c k - c j)) as [[? A1]|[? A1]], (Rabs_cases (1 * - r + c k - c j)) as [[? A2]|[? A2]],
      (Rabs_cases (1 * -1 * r + (c j - r) - c i)) as [[? A3]|[? A3]], (Rabs_cases (1 * 1 * r + (c j + r) - c i)) as [[? A4]|[? A4]];
      rewrite A1 in H1; rewrite A2 in H2; lra.
Qed.
Print Assumptions C77_bicone_time_refuted.

(** ** C78: plot and the state of the shape *)
Definition same_but_radius (s s' : shape) : Prop :=
  sh_dim s' = sh_dim s ∧ sh_name s' = sh_name s ∧ sh_center s' = sh_center s ∧ sh_hollow s' = sh_hollow s ∧
  sh_duration s' = sh_duration s ∧ sh_edge s' = sh_edge s ∧ sh_edges s' = sh_edges s ∧ sh_volume s' = sh_volume s.
Lemma index_of_zero_spec dims : index_of_zero dims = None ↔ 0%Z ∉ dims.
Proof.
  induction dims as [|d dims IH]; cbn [index_of_zero]; [split; [intros _; apply not_elem_of_nil|done]|].
  rewrite elem_of_cons. destruct (decide (d = 0)%Z) as [-> |Hd]; [split; [done|tauto]|].
  destruct (index_of_zero dims); cbn; split; [done| |intros _ [E|E]; [done|by apply IH in E]|done].
  intros H. exfalso. apply H. right. apply dec_stable. intros Hn. by apply IH in Hn.
Qed.
Lemma time_axis_neg dims : (time_axis dims < 0)%Z ↔ 0%Z ∉ dims.
Proof.
  rewrite <- index_of_zero_spec. unfold time_axis. destruct (index_of_zero dims); (split; [intros; (done || lia)|intros; (done || lia)]).
Qed.
Lemma state_wf (f32 : R → R) (s : shape) (dims : list Z) :
  shape_wf s →
  let s' := fst (plot_surfaces f32 s dims) in
  let valid := ∀ d, d ∈ dims → (- Z.of_nat (sh_dim s) <= d < Z.of_nat (sh_dim s))%Z in
  (sh_name s = "bicone" ∧ (0 < hollow_of s)%R ∧ 0%Z ∈ dims ∧ valid →
     same_but_radius s s' ∧ sh_radius s' = Some (f32 (radius_of s * hollow_of s)%R)) ∧
  (¬ (sh_name s = "bicone" ∧ (0 < hollow_of s)%R ∧ 0%Z ∈ dims ∧ valid) → s' = s).
Proof.
  intros [Hd Hc Hcase] s' valid. unfold s', plot_surfaces, hollow_of, radius_of.
  destruct (np_take (sh_center s) dims) as [cs|e] eqn:Et; cycle 1.
  { split; [|done]. intros (_ & _ & _ & HV). exfalso. apply np_take_Err in Et as [_ (d & Hd' & E)]. apply np_index_err in E as [_ E].
    specialize (HV d Hd'). rewrite Hc in E. lia. }
  assert (HV : valid).
  { intros d Hd'. apply np_take_Ok in Et. apply elem_of_list_lookup in Hd' as [m Hm].
    destruct (Forall2_lookup_l _ _ _ _ _ Et Hm) as (v & _ & Ev). apply np_index_ok in Ev as (n & Hn & Hdn). apply lookup_lt_Some in Hn. lia. }
  destruct (decide (sh_name s = "cube")) as [En|En].
  { split; [|done]. intros (E & _). congruence. }
  destruct (decide (sh_name s = "ball" ∨ _)) as [Hb|Hb].
  { split; [|done]. intros (E & _ & H0 & _). exfalso. destruct Hb as [E'|[Ht _]]; [congruence|]. by apply time_axis_neg in Ht. }
  destruct (decide (sh_name s = "cylinder")) as [En'|En'].
  { split; [|done]. intros (E & _). congruence. }
  destruct (decide (sh_name s = "bicone")) as [Eb|Eb].
  - assert (H0 : 0%Z ∈ dims).
    { apply dec_stable. intros H0. apply Hb. right. split; [by apply time_axis_neg|by left]. }
    destruct (decide (0 < default 0 (sh_hollow s))%R) as [Hh|Hh]; cbn [fst].
    + split; [|intros Hn; exfalso; apply Hn; auto]. intros _. unfold same_but_radius, set_radius. cbn. done.
    + split; [|done]. intros (_ & Hh' & _). done.
  - cbn [fst]. split; [|done]. intros (E & _). congruence.
Qed.
(** Drawing a shape in 3D leaves the shape unchanged, except for hollow bicones drawn with the
    time axis: their radius is multiplied by the hollow parameter. *)
Theorem C78_state (f32 : R → R) (s : shape) (dims : list Z) :
  constructed_shape s →
  let s' := fst (plot_surfaces f32 s dims) in
  let valid := ∀ d, d ∈ dims → (- Z.of_nat (sh_dim s) <= d < Z.of_nat (sh_dim s))%Z in
  (sh_name s = "bicone" ∧ (0 < hollow_of s)%R ∧ 0%Z ∈ dims ∧ valid →
     same_but_radius s s' ∧ sh_radius s' = Some (f32 (radius_of s * hollow_of s)%R)) ∧
  (¬ (sh_name s = "bicone" ∧ (0 < hollow_of s)%R ∧ 0%Z ∈ dims ∧ valid) → s' = s).
Proof. intros Hs. apply state_wf. by apply constructed_wf. Qed.
Print Assumptions C78_state.
(** Consequently, a hollow bicone drawn with its time axis occupies a smaller region
    afterwards (if the products are not rounded): the point above the centre in the time
    direction at the distance of the radius does not belong to it any more; and after [n]
    drawings the radius is radius * hollow ^ n. *)
Theorem C78_shrinks (f32 : R → R) (s : shape) (dims : list Z) (n : nat) :
  constructed_shape s → sh_name s = "bicone" → (0 < hollow_of s)%R → 0%Z ∈ dims →
  (∀ d, d ∈ dims → (- Z.of_nat (sh_dim s) <= d < Z.of_nat (sh_dim s))%Z) →
  (∀ x, f32 x = x) →
  let s' := fst (plot_surfaces f32 s dims) in
  let top := <[0 := (nth 0 (sh_center s) 0 + radius_of s)%R]> (sh_center s) in
  (in_shape s top ∧ ¬ in_shape s' top) ∧
  sh_radius (Nat.iter n (λ s, fst (plot_surfaces f32 s dims)) s) = Some (radius_of s * hollow_of s ^ n)%R.
Proof.
  intros Hs En Hh H0 HV Hf s' top. pose proof (constructed_wf s Hs) as Hwf.
  destruct (proj1 (state_wf f32 s dims Hwf)) as [(E1 & E2 & E3 & E4 & _) Er']; [done|]. fold s' in E1, E2, E3, E4, Er'. rewrite Hf in Er'.
  destruct Hwf as [Hd Hc Hcase].
  destruct Hcase as [[_ (r & h & Er & Eh & Hr & Hh')]|[[? _]|[[? _]|[? _]]]]; [|congruence..].
  unfold hollow_of, radius_of in *. rewrite Er, Eh in *. cbn [default from_option] in *. unfold Datatypes.id in *.
  split.
  - assert (Ht : ∀ s1, sh_dim s1 = sh_dim s → sh_center s1 = sh_center s → sh_name s1 = "bicone" → sh_hollow s1 = Some h →
      in_shape s1 top ↔ (h * default 0 (sh_radius s1) <= r <= default 0 (sh_radius s1))%R).
    { intros s1 D1 C1 N1 H1. unfold in_shape, in_region. rewrite N1, H1, D1. cbn [default from_option]. unfold Datatypes.id at 1.
      assert (L : length top = sh_dim s) by (unfold top; by rewrite insert_length).
      assert (O : offset s1 top 0 = r).
      { unfold offset, top. rewrite C1, !nth_lookup. rewrite list_lookup_insert by lia. cbn [default from_option]. unfold Datatypes.id, radius_of. try rewrite Er. cbn. ring. }
      assert (D : dist_space s1 top = 0%R).
      { unfold dist_space, dist2_from. rewrite rsum_zero; [apply sqrt_0|]. intros m Hm. apply elem_of_seq in Hm.
        unfold offset, top. rewrite C1, !nth_lookup. rewrite list_lookup_insert_ne by lia. ring. }
      rewrite O, D, (Rabs_right r), Rplus_0_r by lra. split.
      - intros (_ & _ & H & _). by apply H.
      - intros H. split; [done|]. split; [intros E'; discriminate E'|]. split; [done|]. split_and!; intros E'; discriminate E'. }
    split.
    + apply Ht; [done..|]. rewrite Er. cbn. unfold Datatypes.id. nra.
    + rewrite Ht by congruence. rewrite Er'. cbn. unfold Datatypes.id. intros [_ H]. nra.
  - assert (HI : shape_wf (Nat.iter n (λ s, fst (plot_surfaces f32 s dims)) s) ∧
      same_but_radius s (Nat.iter n (λ s, fst (plot_surfaces f32 s dims)) s) ∧
      sh_radius (Nat.iter n (λ s, fst (plot_surfaces f32 s dims)) s) = Some (r * h ^ n)%R); [|tauto].
    induction n as [|n IH].
    { cbn. rewrite Rmult_1_r. split; [by apply constructed_wf|]. split; [by unfold same_but_radius|done]. }
    cbn [Nat.iter]. set (t := Nat.iter n _ s) in *. destruct IH as (W & (S1 & S2 & S3 & S4 & S5 & S6 & S7 & S8) & RR).
    destruct (proj1 (state_wf f32 t dims W)) as [(T1 & T2 & T3 & T4 & T5 & T6 & T7 & T8) TR].
    { split; [congruence|]. unfold hollow_of. rewrite S4, Eh. cbn. split; [done|]. split; [done|]. rewrite S1. done. }
    set (t' := fst (plot_surfaces f32 t dims)) in *.
    assert (ER : sh_radius t' = Some (r * h ^ S n)%R).
    { rewrite TR, Hf. unfold radius_of, hollow_of. rewrite RR, S4, Eh. cbn. unfold Datatypes.id. f_equal. ring. }
    change (Nat.iter (S n) (λ s0 : shape, fst (plot_surfaces f32 s0 dims)) s) with t'.
    split; [|split; [unfold same_but_radius; split_and!; congruence|done]].
    destruct W as [W1 W2 _]. split; [congruence|congruence|]. left. split; [right; congruence|]. eexists _, h. split; [done|]. split; [congruence|].
    split; [|done]. apply Rmult_lt_0_compat; [done|]. by apply pow_lt.
Qed.
Print Assumptions C78_shrinks.

(** ** C86: the plotting options *)
(** The documented defaults. *)
Definition documented_2d : dict (option pyval) :=
  [("edgecolor", Some (VStr "black")); ("facecolor", Some (VStr "black")); ("alpha", Some (VNum (1 # 20)))].
Definition documented_3d : dict (option pyval) :=
  [("edgecolor", None); ("color", Some (VStr "black")); ("alpha", Some (VNum (1 # 20)))].
(** [o] holds the values of [kwargs], and the values of [defaults] for all other keys. *)
Definition overwritten (defaults kwargs o : dict (option pyval)) : Prop :=
  NoDup o.*1 ∧ ∀ k v, (k, v) ∈ o ↔ (k, v) ∈ kwargs ∨ (k, v) ∈ defaults ∧ k ∉ kwargs.*1.

Lemma dupdate_overwritten (d e : dict (option pyval)) : NoDup d.*1 → NoDup e.*1 → overwritten d e (dupdate d e).
Proof.
  intros Hd He. assert (Ho : NoDup (dupdate d e).*1) by (by apply dupdate_nodup). split; [done|].
  intros k v. rewrite <- dget_Some, dget_dupdate by done. destruct (dget e k) as [w|] eqn:E.
  - pose proof (proj1 (dget_Some e k w He) E) as Hw. rewrite <- (dget_Some e k v He), E. split; [by left|].
    intros [H|[_ H]]; [done|]. exfalso. apply H. apply elem_of_list_fmap. by exists (k, w).
  - rewrite dget_Some by done. rewrite <- (dget_Some e k v He), E. split.
    + intros H. right. split; [done|]. intros Hk. apply elem_of_list_fmap in Hk as ([k' w] & -> & Hw). cbn in *.
      by apply (proj1 (dget_None e k') E w).
    + intros [H|[H _]]; done.
Qed.
Theorem C86_options (junk : nat → point) (f32 : R → R) (s : shape) (dims : list Z) (kwargs : dict (option pyval)) :
  NoDup kwargs.*1 →
  (length dims = 2 → match plot_patch junk s dims with
                     | Ok p => ∃ o, shape_plot junk f32 s dims kwargs = (s, Ok [PatchArtist p o]) ∧ overwritten documented_2d kwargs o
                     | Err e => shape_plot junk f32 s dims kwargs = (s, Err e)
                     end) ∧
  (length dims = 3 → match plot_surfaces f32 s dims with
                     | (s', Ok Fs) => ∃ o, shape_plot junk f32 s dims kwargs = (s', Ok ((λ F, SurfaceArtist F o) <$> Fs)) ∧
                                       overwritten documented_3d kwargs o
                     | (s', Err e) => shape_plot junk f32 s dims kwargs = (s', Err e)
                     end).
Proof.
  intros Hk. unfold shape_plot. split; intros Hl.
  - rewrite bool_decide_false by lia. destruct (plot_patch junk s dims) as [p|e]; [|done]. cbn [res_map].
    eexists. split; [done|]. apply dupdate_overwritten; [|done]. cbn. repeat constructor; set_solver.
  - rewrite bool_decide_true by done. destruct (plot_surfaces f32 s dims) as [s' [Fs|e]]; [|done]. cbn [res_map].
    eexists. split; [done|]. apply dupdate_overwritten; [|done]. cbn. repeat constructor; set_solver.
Qed.
Print Assumptions C86_options.
Example C86_nonvacuous : NoDup ([("alpha", Some (VNum 1)); ("label", Some (VStr "x"))] : dict (option pyval)).*1 ∧
  overwritten documented_2d [("alpha", Some (VNum 1)); ("label", Some (VStr "x"))]
    [("edgecolor", Some (VStr "black")); ("facecolor", Some (VStr "black")); ("alpha", Some (VNum 1)); ("label", Some (VStr "x"))].
Proof.
  assert (H : NoDup ([("alpha", Some (VNum 1)); ("label", Some (VStr "x"))] : dict (option pyval)).*1) by (cbn; repeat constructor; set_solver).
  split; [done|]. apply (dupdate_overwritten documented_2d); [|done]. cbn. repeat constructor; set_solver.
Qed.

(** ** Concrete cases *)
(** The hollow cylinder with centre (1, 2, 3): the hypotheses of C77_cut hold with the time
    last, and those of C77_cylinder_time with the time first (with different centre
    coordinates, so that the drawing is wrong). *)
Example C77_nonvacuous : ∃ s, constructed_shape s ∧ sh_name s = "cylinder" ∧ sh_dim s = 3 ∧ (0 < hollow_of s)%R ∧
  (time_shape s → 1 ≠ 0 ∧ 2 ≠ 0) ∧ nth 0 (sh_center s) 0%R ≠ nth 1 (sh_center s) 0%R ∧
  boundary (λ q, in_shape s (cut3 s 1 2 0 q)) (4, 3, 1)%R.
Proof.
  destruct (proj1 (C55_validation _ _ _ _) C55_nonvacuous) as (s & E & Hd & Hn & Hc & Hb & Ht & _ & _).
  assert (Hs : constructed_shape s) by (by eexists _, _, _, _).
  destruct Hb as [Er Eh]; [unfold ball_like; auto|]. specialize (Ht eq_refl). cbn in Hd, Hn, Hc, Er, Eh, Ht.
  exists s. split; [done|]. split; [done|]. split; [lia|]. split; [unfold hollow_of; rewrite Eh; cbn; unfold Datatypes.id; lra|].
  split; [done|]. split; [rewrite Hc; cbn; lra|].
  destruct (boundary_cylinder (2, 3, 1)%R (λ q, in_shape s (cut3 s 1 2 0 q)) 2 (1 / 2) 4 (4, 3, 1)%R) as [_ HB]; [lra|lra|lra| |].
  { intros q. rewrite (region_cylinder s Hs 1 2 0 ltac:(lia) ltac:(lia) ltac:(lia) ltac:(lia) ltac:(lia) ltac:(lia) q 2 (1 / 2) 4 Hn eq_refl); [|rewrite ?Er, ?Eh, ?Ht; f_equal; lra..].
    rewrite Hc. done. }
  apply HB. cbn [fst snd]. assert (EN : N2 (4 - 2) (3 - 3) = 2%R).
  { unfold N2. replace ((4 - 2) * (4 - 2) + (3 - 3) * (3 - 3))%R with (2 * 2)%R by ring. apply sqrt_square. lra. }
  rewrite EN. replace (1 - 1)%R with 0%R by ring. rewrite Rabs_R0. split; [lra|]. split; [lra|]. right; left. done.
Qed.
(** A hollow bicone: the hypotheses of C77_bicone_time_refuted and C78_shrinks. *)
Example C78_nonvacuous : ∃ s, constructed_shape s ∧ sh_name s = "bicone" ∧ sh_dim s = 3 ∧ (0 < hollow_of s)%R.
Proof.
  destruct (proj1 (C55_validation (λ x, x) 3 "bicone" (ShapeArgs None (Some 2%R) (Some (1 / 2)%R) None None None))) as (s & E & Hd & Hn & Hc & Hb & _).
  { split; cbn; try done; try (intros; lra); try lia; unfold ball_like; auto. }
  exists s. split; [by eexists _, _, _, _|]. split; [done|]. split; [lia|]. destruct Hb as [_ Eh]; [unfold ball_like; auto|].
  unfold hollow_of. rewrite Eh. cbn. unfold Datatypes.id. lra.
Qed.
