(** Theorems about the symmetries of the causality functions: C91. *)
From Verif Require Import Base SpacetimeModel SpacetimeFacts TrigFacts BlackHoleFacts DeSitterFacts Prop_Spacetime Prop_Tolerance.
From Coq Require Import Reals Rtrigo_def Lra Psatz.
#[local] Open Scope nat_scope.

(** ** Specification: motions of points *)
(** The point moved by the vector [a] (in space and time). *)
Definition moved (a x : coords) : coords := zip_with Rplus x a.
(** The point seen from a frame that moves along the first axis with rapidity [phi]. *)
Definition boosted (phi : R) (x : coords) : coords :=
  match x with
  | t :: r :: rest => (cosh phi * t + sinh phi * r)%R :: (sinh phi * t + cosh phi * r)%R :: rest
  | _ => x
  end.
(** The same place at the opposite time. *)
Definition reversed (x : coords) : coords := match x with t :: rest => (- t)%R :: rest | [] => [] end.
(** The opposite place at the same time. *)
Definition mirrored (x : coords) : coords := match x with t :: rest => t :: (Ropp <$> rest) | [] => [] end.
(** All lengths and times multiplied with [s]. *)
Definition scaled (s : R) (x : coords) : coords := Rmult s <$> x.
Definition scaled_spacetime (s : R) (st : spacetime) : spacetime :=
  match st with
  | Generic => Generic
  | Flat dim p => Flat dim ((fmap (M:=list) (Rmult s)) <$> p)
  | DeSitter dim alpha => DeSitter dim (s * alpha)
  | AntiDeSitter dim alpha => AntiDeSitter dim (s * alpha)
  | BlackHole r_S schw => BlackHole (s * r_S) schw
  end.
(** The place at the origin of space at time 0. *)
Definition origin (dim : nat) : coords := replicate dim 0%R.

(** ** Lemmas *)
Lemma by_sign_cond d c d' c' : (c = c') → (c = true → (0 <= d)%R ↔ (0 <= d')%R) → by_sign d c = by_sign d' c'.
Proof.
  intros <- H. unfold by_sign. destruct c; [|by rewrite !andb_false_r]. specialize (H eq_refl).
  assert (bool_decide (0 <= d)%R = bool_decide (0 <= d')%R) as E1 by (by apply bool_decide_ext).
  assert (bool_decide (d < 0)%R = bool_decide (d' < 0)%R) as E2.
  { apply bool_decide_ext. split; intros Hlt; apply Rnot_le_lt; intros Hle%H; lra. }
  by rewrite E1, E2.
Qed.
Lemma cget_moved a x i : length a = length x → cget (moved a x) i = (cget x i + cget a i)%R.
Proof.
  unfold cget, moved. revert a i. induction x as [|v x IH]; intros [|b a] i H; try done.
  - destruct i; cbn; lra.
  - destruct i; cbn; [done|]. apply IH. cbn in H. lia.
Qed.
Lemma length_moved a x : length a = length x → length (moved a x) = length x.
Proof. intros H. unfold moved. rewrite zip_with_length. lia. Qed.
Lemma distance2_ext dim x y x' y' : (∀ i, 1 ≤ i < dim → cget y' i - cget x' i = cget y i - cget x i)%R →
  distance2 dim x' y' = distance2 dim x y.
Proof.
  intros H. unfold distance2. f_equal. apply list_fmap_ext. intros k i Hi%lookup_seq. rewrite H by lia. done.
Qed.
Lemma Rabs_sq a b : (a * a = b * b)%R → Rabs a = Rabs b.
Proof. intros H. by apply Rsqr_eq_abs_0. Qed.
Lemma distance2_1 dim x y : dim = 2 → distance2 dim x y = ((cget y 1 - cget x 1) * (cget y 1 - cget x 1))%R.
Proof. intros ->. unfold distance2, rsum. cbn. lra. Qed.
Lemma radius_sqsum dim x : length x = dim → dim ≥ 1 → distance2 dim (origin dim) x = sqsum (tail x).
Proof.
  intros Hx Hd. rewrite <- (sqsum_distance2 dim) by (done || by unfold origin; rewrite replicate_length).
  unfold space_delta, origin. f_equal. destruct dim as [|d]; [lia|]. cbn [replicate tail]. apply vsub_zeros. destruct x; cbn in *; lia.
Qed.
(** A boost does not change the sign of the time difference of causal points. *)
Lemma boost_sign c s d r : (0 < c)%R → (c * c - s * s = 1)%R → (r * r <= d * d)%R → (0 <= d)%R ↔ (0 <= c * d + s * r)%R.
Proof.
  intros Hc Hcs Hr.
  assert (Hs : (Rabs s < c)%R).
  { rewrite <- (Rabs_pos_eq c) by lra. apply Rsqr_lt_abs_0. unfold Rsqr. lra. }
  assert (Hrd : (Rabs r <= Rabs d)%R) by (apply Rsqr_le_abs_0; unfold Rsqr; lra).
  assert (Hsr : (Rabs (s * r) <= c * Rabs d)%R).
  { rewrite Rabs_mult. apply Rmult_le_compat; [apply Rabs_pos|apply Rabs_pos|lra|lra]. }
  assert (Hsr2 : d ≠ 0%R → (Rabs (s * r) < c * Rabs d)%R).
  { intros Hd. rewrite Rabs_mult. pose proof (Rabs_pos_lt d Hd). pose proof (Rabs_pos s). pose proof (Rabs_pos r).
    apply Rle_lt_trans with (Rabs s * Rabs d)%R; [by apply Rmult_le_compat_l|by apply Rmult_lt_compat_r]. }
  pose proof (Rle_abs (s * r)). pose proof (Rle_abs (- (s * r))) as Hn. rewrite Rabs_Ropp in Hn. split.
  - intros Hd. rewrite (Rabs_pos_eq d) in Hsr by done. lra.
  - intros H0. destruct (Rle_or_lt 0 d) as [|Hd]; [done|]. exfalso. specialize (Hsr2 ltac:(lra)).
    rewrite (Rabs_left d) in Hsr2 by done. lra.
Qed.
Lemma flat2D_eq x y : length x = 2 → length y = 2 → isCausal_flat2D 0 x y = isCausal_flat 0 x y.
Proof.
  intros Hx Hy. unfold isCausal_flat2D, isCausal_flat. f_equal. apply bool_decide_ext.
  rewrite (sqsum_distance2 2), (distance2_1 2) by done. rewrite !Rminus_0_r. split.
  - intros H. apply Rsqr_le_abs_1 in H. by unfold Rsqr in H.
  - intros H. apply Rsqr_le_abs_0. done.
Qed.
Lemma flat_exact dim x y : dim ≥ 2 → length x = dim → length y = dim →
  Causality 0 (Flat dim None) x y = isCausal_flat 0 x y.
Proof.
  intros Hd Hx Hy. cbn [Causality]. rewrite decide_False by lia. destruct (decide (dim = 2)) as [->|]; [by apply flat2D_eq|done].
Qed.

(** ** C91 *)
(** In flat spacetime without periods the answer depends only on the difference of the times and
    on the distance; in (Anti-)de Sitter spacetime on the times, the distances from the origin
    and the distance.  So motions of space that keep these, such as rotations and
    reflections, do not matter. *)
Theorem C91_distance (eps : R) (st : spacetime) (dim : nat) (x y x' y' : coords) :
  dim ≥ 1 → length x = dim → length y = dim → length x' = dim → length y' = dim →
  distance2 dim x' y' = distance2 dim x y →
  (st = Flat dim None → (cget y' 0 - cget x' 0 = cget y 0 - cget x 0)%R → Causality eps st x' y' = Causality eps st x y) ∧
  (∀ alpha, st = DeSitter dim alpha ∨ st = AntiDeSitter dim alpha → cget x' 0 = cget x 0 → cget y' 0 = cget y 0 →
     distance2 dim (origin dim) x' = distance2 dim (origin dim) x →
     distance2 dim (origin dim) y' = distance2 dim (origin dim) y → Causality eps st x' y' = Causality eps st x y).
Proof.
  intros Hd Hx Hy Hx' Hy' HD. split.
  - intros -> Ht. cbn [Causality]. destruct (decide (dim = 1)); [by unfold isCausal_base; rewrite Ht|].
    destruct (decide (dim = 2)) as [E|].
    + unfold isCausal_flat2D. rewrite Ht. rewrite !(distance2_1 dim) in HD by done. by rewrite (Rabs_sq _ _ HD).
    + unfold isCausal_flat. by rewrite Ht, !(sqsum_distance2 dim), HD.
  - intros alpha Hst Ex Ey Rx Ry. rewrite !radius_sqsum in Rx, Ry by done. rewrite <- !(sqsum_distance2 dim) in HD by done.
    destruct Hst as [-> | ->]; cbn [Causality].
    + unfold isCausal_dS. by rewrite Rx, Ry, HD, Ex, Ey.
    + unfold isCausal_AdS. by rewrite Rx, Ry, HD, Ex, Ey.
Qed.
Print Assumptions C91_distance.

(** Translations, of periodic flat spacetime, too. *)
Theorem C91_translation (eps : R) (dim : nat) (p : option (list R)) (a x y : coords) :
  dim ≥ 1 → length a = dim → length x = dim → length y = dim →
  Causality eps (Flat dim p) (moved a x) (moved a y) = Causality eps (Flat dim p) x y.
Proof.
  intros Hd Ha Hx Hy.
  assert (Hdiff : ∀ i, (cget (moved a y) i - cget (moved a x) i = cget y i - cget x i)%R).
  { intros i. rewrite !cget_moved by lia. lra. }
  destruct p as [ps|].
  - cbn [Causality]. destruct (decide (dim = 1)); [unfold isCausal_base; by rewrite Hdiff|].
    assert (Hp : ∀ q i, period_delta q (cget (moved a x) i) (cget (moved a y) i) = period_delta q (cget x i) (cget y i)).
    { intros q i. unfold period_delta. by rewrite Hdiff. }
    destruct (decide (dim = 2)).
    + unfold isCausal_flat2Dperiodic. by rewrite Hdiff, Hp.
    + rewrite !isCausal_flatperiodic_eq, Hdiff.
      assert (circ_list dim ps (moved a x) (moved a y) = circ_list dim ps x y) as ->; [|done].
      unfold circ_list. apply list_fmap_ext. intros k i _. apply Hp.
  - apply (C91_distance eps (Flat dim None) dim x y); try done; try (by rewrite length_moved; lia).
    by apply distance2_ext.
Qed.
Print Assumptions C91_translation.

Lemma flat_boost phi x y : length x = length y → length x ≥ 2 →
  isCausal_flat 0 (boosted phi x) (boosted phi y) = isCausal_flat 0 x y.
Proof.
  intros Hl Hd. destruct x as [|t [|r x]], y as [|t' [|r' y]]; try (cbn in *; lia). cbn [boosted].
  unfold isCausal_flat, cget. cbn [nth]. unfold space_delta. cbn [tail].
  unfold vsub. cbn [zip_with]. rewrite !sqsum_cons. set (D := sqsum (zip_with Rminus y x)).
  pose proof (sqsum_nonneg (zip_with Rminus y x)) as HD. fold D in HD.
  pose proof (cosh_sinh_sq phi) as Hcs. pose proof (cosh_pos phi) as Hc.
  set (c := cosh phi) in *. set (s := sinh phi) in *. clearbody c s D.
  assert (Hinv : ((s * t' + c * r' - (s * t + c * r)) * (s * t' + c * r' - (s * t + c * r)) -
    (c * t' + s * r' - (c * t + s * r)) * (c * t' + s * r' - (c * t + s * r)) = (r' - r) * (r' - r) - (t' - t) * (t' - t))%R).
  { transitivity ((c * c - s * s) * ((r' - r) * (r' - r) - (t' - t) * (t' - t)))%R; [ring|rewrite Hcs; ring]. }
  apply by_sign_cond.
  - apply bool_decide_ext. split; intros; lra.
  - intros H. apply bool_decide_eq_true in H.
    replace (c * t' + s * r' - (c * t + s * r))%R with (c * (t' - t) + s * (r' - r))%R by lra.
    symmetry. apply boost_sign; [done|done|lra].
Qed.
(** Boosts; in the directions of the other axes by C91_distance. *)
Theorem C91_boost (dim : nat) (phi : R) (x y : coords) :
  dim ≥ 2 → length x = dim → length y = dim →
  Causality 0 (Flat dim None) (boosted phi x) (boosted phi y) = Causality 0 (Flat dim None) x y.
Proof.
  intros Hd Hx Hy. rewrite (flat_exact dim x y) by done. rewrite flat_exact.
  - by apply flat_boost; lia.
  - done.
  - by destruct x as [|? [|??]].
  - by destruct y as [|? [|??]].
Qed.
Print Assumptions C91_boost.

Lemma cget_later_0 a x : cget (later a x) 0 = (cget x 0 + a)%R.
Proof. done. Qed.
Lemma cget_later_S a x i : cget (later a x) (S i) = cget x (S i).
Proof. unfold cget, later. cbn [nth]. destruct x as [|? x]; cbn [tail nth]; [by destruct i|done]. Qed.
Lemma later_ambient alpha a x : dS_ambient alpha (later a x) = boosted (a / alpha) (dS_ambient alpha x).
Proof.
  unfold dS_ambient. rewrite cget_later_0. unfold later. cbn [tail boosted]. rewrite Rdiv_plus_distr, sinh_plus, cosh_plus.
  repeat f_equal; ring.
Qed.

(** Time translations of de Sitter spacetime and of the black hole (of flat spacetime: by
    C91_translation). *)
Theorem C91_time_translation (a : R) (st : spacetime) (x y : coords) :
  length x = Dim st → length y = Dim st →
  (∀ dim alpha, st = DeSitter dim alpha → Causality 0 st (later a x) (later a y) = Causality 0 st x y) ∧
  (∀ eps r_S schw, st = BlackHole r_S schw → Causality eps st (later a x) (later a y) = Causality eps st x y).
Proof.
  intros Hx Hy. split.
  - intros dim alpha ->. cbn [Causality Dim] in *. rewrite !isCausal_dS_eq, !later_ambient. unfold later at 1 2. cbn [tail].
    destruct (decide _); [|done]. apply flat_boost; unfold dS_ambient; cbn [length]; rewrite ?tail_length; lia.
  - intros eps r_S schw ->. cbn [Causality]. rewrite !isCausal_BH2D_eq, !cget_later_S, !cget_later_0.
    replace (cget y 0 + a - (cget x 0 + a))%R with (cget y 0 - cget x 0)%R by lra. done.
Qed.
Print Assumptions C91_time_translation.

(** In anti-de Sitter spacetime the answer depends on the origin of time. *)
Theorem C91_AdS_time_translation_refuted (eps alpha : R) (dim : nat) (place : list R) :
  (0 <= eps)%R → (0 < alpha)%R →
  let x := (alpha * (PI / 2))%R :: place in
  let y := (alpha * (3 * (PI / 2)))%R :: place in
  let a := (- (alpha * PI))%R in
  Causality eps (AntiDeSitter dim alpha) x y = (false, true) ∧
  Causality eps (AntiDeSitter dim alpha) (later a x) (later a y) = (true, false).
Proof.
  intros He Ha x y a. split; [by apply C48_AntideSitter_turning_point|].
  cbn [Causality]. unfold isCausal_AdS, space_delta, later, x, y, a, cget. cbn [nth tail].
  rewrite vsub_self.
  replace ((alpha * (PI / 2) + - (alpha * PI)) / alpha)%R with (- (PI / 2))%R by (field; lra).
  replace ((alpha * (3 * (PI / 2)) + - (alpha * PI)) / alpha)%R with (PI / 2)%R by (field; lra).
  rewrite sin_neg, cos_neg, sin_PI2, cos_PI2.
  set (A := sqrt (alpha * alpha + sqsum place)).
  assert (HA : (0 < A)%R). { apply sqrt_lt_R0. pose proof (sqsum_nonneg place). nra. }
  unfold by_sign. rewrite (bool_decide_true (0 <= _)%R) by lra. rewrite (bool_decide_false (_ < 0)%R) by lra.
  rewrite bool_decide_true; [done|]. nra.
Qed.
Print Assumptions C91_AdS_time_translation_refuted.

Lemma cget_reversed_0 x : cget (reversed x) 0 = (- cget x 0)%R.
Proof. unfold cget. destruct x; cbn; lra. Qed.
Lemma cget_reversed_S x i : cget (reversed x) (S i) = cget x (S i).
Proof. by destruct x. Qed.
Lemma tail_reversed x : tail (reversed x) = tail x.
Proof. by destruct x. Qed.
Lemma period_delta_sym p a b : period_delta p a b = period_delta p b a.
Proof. unfold period_delta. by rewrite Rabs_minus_sym. Qed.
Lemma sinh_odd x : sinh (- x) = (- sinh x)%R.
Proof. unfold sinh. rewrite Ropp_involutive. lra. Qed.
Lemma light_S_fin r_S r : (0 < r_S)%R → (r_S < r)%R → ∃ v, light_S_out r_S 0 0 r = Fin v.
Proof.
  intros Hs Hr. unfold light_S_out, fl_log_abs. rewrite decide_False; [by eexists|].
  assert (Hn : ((r - r_S) / (0 - r_S) * (0 - r_S) = r - r_S)%R) by (field; lra). intros E. rewrite E in Hn. lra.
Qed.

Lemma bh_cond_sym r_S a b t : (0 < r_S)%R → (r_S < a)%R → (r_S < b)%R → bh_cond true r_S a b t = bh_cond true r_S b a t.
Proof.
  intros Hs Ha Hb. unfold bh_cond. destruct (light_S_fin r_S a Hs Ha) as [u Eu]. destruct (light_S_fin r_S b Hs Hb) as [v Ev].
  rewrite Eu, Ev. cbn. repeat (match goal with |- context [if decide ?P then _ else _] => destruct (decide P) end); try (exfalso; lra);
    try (apply bool_decide_ext; split; intros; lra).
  - assert (a = b) by lra. subst. rewrite Eu in Ev. injection Ev as ->. done.
Qed.

(** Reversal of the time exchanges the roles of the two points; in the black hole spacetime for the
    Schwarzschild metric outside. *)
Theorem C91_time_reversal (eps : R) (st : spacetime) (x y : coords) :
  (∀ dim p, st = Flat dim p → Causality eps st (reversed y) (reversed x) = Causality eps st x y) ∧
  (∀ dim alpha, st = DeSitter dim alpha ∨ st = AntiDeSitter dim alpha →
     Causality eps st (reversed y) (reversed x) = Causality eps st x y) ∧
  (∀ r_S, st = BlackHole r_S true → (0 < r_S)%R → (r_S < Rabs (cget x 1))%R → (r_S < Rabs (cget y 1))%R →
     Causality eps st (reversed y) (reversed x) = Causality eps st x y).
Proof.
  assert (Ht : (cget (reversed x) 0 - cget (reversed y) 0 = cget y 0 - cget x 0)%R) by (rewrite !cget_reversed_0; lra).
  split_and!.
  - intros dim p ->. cbn [Causality]. destruct (decide (dim = 1)); [unfold isCausal_base; by rewrite Ht|].
    destruct p as [ps|]; destruct (decide (dim = 2)).
    + unfold isCausal_flat2Dperiodic. by rewrite Ht, !cget_reversed_S, period_delta_sym.
    + rewrite !isCausal_flatperiodic_eq, Ht.
      assert (circ_list dim ps (reversed y) (reversed x) = circ_list dim ps x y) as ->; [|done].
      unfold circ_list. apply list_fmap_ext. intros k i [-> Hi]%lookup_seq. cbn [plus]. by rewrite !cget_reversed_S, period_delta_sym.
    + unfold isCausal_flat2D. by rewrite Ht, !cget_reversed_S, Rabs_minus_sym.
    + unfold isCausal_flat, space_delta. by rewrite Ht, !tail_reversed, sqsum_vsub_sym.
  - intros dim alpha [-> | ->]; cbn [Causality].
    + unfold isCausal_dS, space_delta. rewrite !cget_reversed_0, !tail_reversed, sqsum_vsub_sym.
      destruct (decide _), (decide _); try done. unfold Rdiv. rewrite !Ropp_mult_distr_l_reverse, !sinh_odd, !cosh_even.
      f_equal; [ring|]. apply bool_decide_ext. split; intros; lra.
    + unfold isCausal_AdS, space_delta. rewrite !cget_reversed_0, !tail_reversed, sqsum_vsub_sym.
      unfold Rdiv. rewrite !Ropp_mult_distr_l_reverse, !sin_neg, !cos_neg.
      f_equal; [ring|]. apply bool_decide_ext. split; intros; lra.
  - intros r_S -> Hs Hx Hy. cbn [Causality]. rewrite !isCausal_BH2D_eq. rewrite Ht, !cget_reversed_S.
    rewrite (Rmult_comm (cget y 1)). destruct (decide _); [done|]. cbn zeta. unfold bh_swapped. cbn [andb].
    rewrite !(bool_decide_false (_ < r_S)%R) by lra. cbn [orb].
    by rewrite (bh_cond_sym r_S (Rabs (cget y 1)) (Rabs (cget x 1))), (bh_cond_sym r_S (Rabs (cget y 1)) (Rabs (cget x 1)) (- _)) by done.
Qed.
Print Assumptions C91_time_reversal.

(** The black hole spacetime is the same on both sides. *)
Theorem C91_mirror (eps r_S : R) (schw : bool) (x y : coords) :
  Causality eps (BlackHole r_S schw) (mirrored x) (mirrored y) = Causality eps (BlackHole r_S schw) x y.
Proof.
  assert (H0 : ∀ z, cget (mirrored z) 0 = cget z 0) by (intros []; done).
  assert (H1 : ∀ z, cget (mirrored z) 1 = (- cget z 1)%R) by (intros [|? []]; unfold cget; cbn; lra).
  cbn [Causality]. rewrite !isCausal_BH2D_eq, !H0, !H1, !Rabs_Ropp.
  by replace (- cget x 1 * - cget y 1)%R with (cget x 1 * cget y 1)%R by lra.
Qed.
Print Assumptions C91_mirror.

(** ** Scaling *)
(** The tolerance is a length in two-dimensional flat spacetime and a squared length elsewhere. *)
Definition scaled_tolerance (s : R) (st : spacetime) (eps : R) : R :=
  match st with Flat 2 _ => (s * eps)%R | _ => (s * s * eps)%R end.

Lemma cget_scaled s x i : cget (scaled s x) i = (s * cget x i)%R.
Proof.
  unfold cget, scaled. revert i. induction x as [|v x IH]; intros [|i]; cbn; try lra. apply IH.
Qed.
Lemma tail_scaled s x : tail (scaled s x) = scaled s (tail x).
Proof. by destruct x. Qed.
Lemma sqsum_scaled s x : sqsum (scaled s x) = (s * s * sqsum x)%R.
Proof.
  induction x as [|v x IH]; [change (scaled s []) with (@nil R); rewrite !sqsum_nil; lra|].
  change (scaled s (v :: x)) with ((s * v)%R :: scaled s x). rewrite !sqsum_cons, IH. lra.
Qed.
Lemma vsub_scaled s x y : vsub (scaled s x) (scaled s y) = scaled s (vsub x y).
Proof.
  unfold vsub, scaled. revert y. induction x as [|v x IH]; intros [|w y]; try done. cbn. f_equal; [lra|]. apply IH.
Qed.
Lemma by_sign_scaled s d c c' : (0 < s)%R → c = c' → by_sign (s * d) c = by_sign d c'.
Proof.
  intros Hs ->. unfold by_sign. f_equal; f_equal; apply bool_decide_ext; split; intros; nra.
Qed.
Lemma Rabs_scaled s d : (0 < s)%R → Rabs (s * d) = (s * Rabs d)%R.
Proof. intros Hs. by rewrite Rabs_mult, (Rabs_pos_eq s) by lra. Qed.
Lemma le_scaled s a b : (0 < s)%R → (s * a <= s * b ↔ a <= b)%R.
Proof. intros; split; intros; nra. Qed.
Lemma bd_scaled k a b a' b' : (0 < k)%R → a' = (k * a)%R → b' = (k * b)%R → bool_decide (a' <= b')%R = bool_decide (a <= b)%R.
Proof. intros Hk -> ->. apply bool_decide_ext. by apply le_scaled. Qed.
Lemma period_delta_scaled s p a b : (0 < s)%R → period_delta (s * p) (s * a) (s * b) = (s * period_delta p a b)%R.
Proof.
  intros Hs. unfold period_delta. rewrite <- Rmult_minus_distr_l, Rabs_scaled by done.
  destruct (decide (0 < p)%R); destruct (decide (0 < s * p)%R); try (exfalso; nra); [|done].
  rewrite <- Rmult_minus_distr_l. unfold Rmin. destruct (Rle_dec _ _), (Rle_dec _ _); try done; exfalso; nra.
Qed.
Lemma nth_scaled s l i : nth i (Rmult s <$> l) 0%R = (s * nth i l 0)%R.
Proof. revert i. induction l as [|v l IH]; intros [|i]; cbn; try lra. apply IH. Qed.
Lemma fl_ge_scaled s a b : (0 < s)%R → fl_ge (fl_scale s a) (fl_scale s b) = fl_ge a b.
Proof. intros Hs. destruct a, b; cbn; try done. apply bool_decide_ext. by apply le_scaled. Qed.
Lemma fl_neg_scaled s a : fl_neg (fl_scale s a) = fl_scale s (fl_neg a).
Proof. destruct a; cbn; try done. f_equal. lra. Qed.
Lemma fl_add_scaled s a b : fl_add (fl_scale s a) (fl_scale s b) = fl_scale s (fl_add a b).
Proof. destruct a, b; cbn; try done. f_equal. lra. Qed.
Lemma ratio_scaled s r_S r : (0 < s)%R → (0 < r_S)%R → ((s * r - s * r_S) / (0 - s * r_S) = (r - r_S) / (0 - r_S))%R.
Proof. intros. field. nra. Qed.
Lemma light_scaled (schw : bool) s r_S r : (0 < s)%R → (0 < r_S)%R →
  (if schw then light_S_out (s * r_S) 0 0 else light_EF_out (s * r_S) 0 0) (s * r)%R =
  fl_scale s ((if schw then light_S_out r_S 0 0 else light_EF_out r_S 0 0) r).
Proof.
  intros Hs Hr. destruct schw; unfold light_S_out, light_EF_out; rewrite ratio_scaled by done; rewrite <- fl_add_scaled; f_equal; cbn; try (f_equal; lra).
  - destruct (fl_log_abs _); cbn; try done. f_equal. lra.
  - destruct (fl_log_abs _); cbn; try done. f_equal. lra.
Qed.
Lemma bh_cond_scaled s schw r_S a b t : (0 < s)%R → (0 < r_S)%R →
  bh_cond schw (s * r_S) (s * a) (s * b) (s * t) = bh_cond schw r_S a b t.
Proof.
  intros Hs Hr. unfold bh_cond. rewrite !light_scaled by done.
  set (u := (if schw then _ else _) a). set (v := (if schw then _ else _) b). clearbody u v.
  unfold fl_sub. rewrite !fl_neg_scaled, fl_add_scaled, !fl_neg_scaled.
  assert (Hin : (if schw then fl_scale s (fl_neg (fl_add v (fl_neg u))) else Fin (s * a - s * b)) = fl_scale s (if schw then fl_neg (fl_add v (fl_neg u)) else Fin (a - b))).
  { destruct schw; [done|]. cbn. f_equal. lra. }
  rewrite Hin. change (Fin (s * t)) with (fl_scale s (Fin t)). rewrite !fl_ge_scaled by done.
  assert (E : ∀ u v, (s * u <= s * v ↔ u <= v)%R) by (intros; by apply le_scaled).
  rewrite (decide_ext (s * b <= s * a ∧ s * a <= s * r_S)%R (b <= a ∧ a <= r_S)%R) by (by rewrite !E).
  rewrite (decide_ext (s * r_S <= s * a ∧ s * b <= s * a)%R (r_S <= a ∧ b <= a)%R) by (by rewrite !E).
  rewrite (decide_ext (s * r_S <= s * a ∧ s * a <= s * b)%R (r_S <= a ∧ a <= b)%R) by (by rewrite !E).
  done.
Qed.

(** Length scales do not matter. *)
Theorem C91_scaling (s eps : R) (st : spacetime) (x y : coords) :
  (0 < s)%R → (∀ dim alpha, st = DeSitter dim alpha ∨ st = AntiDeSitter dim alpha → (0 < alpha)%R) →
  (∀ r_S schw, st = BlackHole r_S schw → (0 < r_S)%R) →
  Causality (scaled_tolerance s st eps) (scaled_spacetime s st) (scaled s x) (scaled s y) = Causality eps st x y.
Proof.
  intros Hs Ha Hb.
  assert (Hd : ∀ i, (cget (scaled s y) i - cget (scaled s x) i = s * (cget y i - cget x i))%R) by (intros i; rewrite !cget_scaled; lra).
  assert (Hq : sqsum (space_delta (scaled s x) (scaled s y)) = (s * s * sqsum (space_delta x y))%R).
  { unfold space_delta. by rewrite !tail_scaled, vsub_scaled, sqsum_scaled. }
  assert (Hss : (0 < s * s)%R) by nra.
  destruct st as [|dim p|dim alpha|dim alpha|r_S schw]; cbn [scaled_spacetime].
  - cbn [Causality]. unfold isCausal_base. rewrite Hd. f_equal; apply bool_decide_ext; split; intros; nra.
  - cbn [Causality]. destruct (decide (dim = 1)).
    { unfold isCausal_base. rewrite Hd. f_equal; apply bool_decide_ext; split; intros; nra. }
    assert (Htol : scaled_tolerance s (Flat dim p) eps = if decide (dim = 2) then (s * eps)%R else (s * s * eps)%R).
    { destruct (decide (dim = 2)) as [->|]; [done|]. by do 3 (destruct dim; try done). }
    rewrite Htol. destruct p as [ps|]; cbn [fmap option_fmap option_map]; destruct (decide (dim = 2)).
    + unfold isCausal_flat2Dperiodic. rewrite Hd. apply by_sign_scaled; [done|]. rewrite nth_scaled, !cget_scaled, period_delta_scaled by done.
      rewrite !Rabs_scaled by done. apply bool_decide_ext. rewrite <- Rmult_minus_distr_l. by apply le_scaled.
    + rewrite !isCausal_flatperiodic_eq, Hd. apply by_sign_scaled; [done|].
      assert (circ_list dim (Rmult s <$> ps) (scaled s x) (scaled s y) = scaled s (circ_list dim ps x y)) as ->.
      { unfold circ_list, scaled at 3. rewrite <- list_fmap_compose. apply list_fmap_ext. intros k i _. cbn.
        by rewrite nth_scaled, !cget_scaled, period_delta_scaled. }
      rewrite sqsum_scaled. apply (bd_scaled (s * s)); [done|ring|ring].
    + unfold isCausal_flat2D. rewrite !Hd. apply by_sign_scaled; [done|]. rewrite !Rabs_scaled by done.
      apply bool_decide_ext. rewrite <- Rmult_minus_distr_l. by apply le_scaled.
    + unfold isCausal_flat. rewrite Hd, Hq. apply by_sign_scaled; [done|]. apply (bd_scaled (s * s)); [done|ring|ring].
  - cbn [Causality scaled_tolerance]. specialize (Ha dim alpha ltac:(by left)). unfold isCausal_dS. rewrite Hq, !tail_scaled, !sqsum_scaled, !cget_scaled.
    rewrite (decide_ext (s * alpha * (s * alpha) <= _)%R (alpha * alpha <= sqsum (tail x))%R) by (rewrite <- (le_scaled (s * s) (alpha * alpha)) by done; split; intros; lra).
    destruct (decide _); [done|].
    rewrite (decide_ext (s * alpha * (s * alpha) <= _)%R (alpha * alpha <= sqsum (tail y))%R) by (rewrite <- (le_scaled (s * s) (alpha * alpha)) by done; split; intros; lra).
    destruct (decide _); [done|].
    assert (Hamp : ∀ q, sqrt (s * alpha * (s * alpha) - s * s * q) = (s * sqrt (alpha * alpha - q))%R).
    { intros q. replace (s * alpha * (s * alpha) - s * s * q)%R with (s * s * (alpha * alpha - q))%R by ring.
      rewrite sqrt_mult_alt by lra. by rewrite sqrt_square by lra. }
    assert (Hdiv : ∀ t, (s * t / (s * alpha) = t / alpha)%R) by (intros; field; lra).
    rewrite !Hamp, !Hdiv. rewrite !Rmult_assoc, <- !Rmult_minus_distr_l. apply by_sign_scaled; [done|].
    apply (bd_scaled (s * s)); [done|ring|ring].
  - cbn [Causality scaled_tolerance]. specialize (Ha dim alpha ltac:(by right)). unfold isCausal_AdS. rewrite Hq, !tail_scaled, !sqsum_scaled, !cget_scaled.
    assert (Hamp : ∀ q, sqrt (s * alpha * (s * alpha) + s * s * q) = (s * sqrt (alpha * alpha + q))%R).
    { intros q. replace (s * alpha * (s * alpha) + s * s * q)%R with (s * s * (alpha * alpha + q))%R by ring.
      rewrite sqrt_mult_alt by lra. by rewrite sqrt_square by lra. }
    assert (Hdiv : ∀ t, (s * t / (s * alpha) = t / alpha)%R) by (intros; field; lra).
    rewrite !Hamp, !Hdiv. rewrite !(Rmult_assoc s (sqrt _)), <- !Rmult_minus_distr_l. apply by_sign_scaled; [done|].
    apply (bd_scaled (s * s)); [done|ring|ring].
  - specialize (Hb r_S schw eq_refl). cbn [Causality]. rewrite !isCausal_BH2D_eq, Hd. rewrite !cget_scaled, !Rabs_scaled by done.
    destruct (decide (s * cget x 1 * (s * cget y 1) < 0)%R), (decide (cget x 1 * cget y 1 < 0)%R); try done; try (exfalso; nra).
    cbn zeta. rewrite Ropp_mult_distr_r, !bh_cond_scaled by done.
    assert (Hsw : ∀ a b t, bh_swapped schw (s * r_S) (s * a) (s * b) (s * t) = bh_swapped schw r_S a b t).
    { intros a b t. unfold bh_swapped. assert (∀ u v, bool_decide (s * u < s * v)%R = bool_decide (u < v)%R) as E.
      { intros u v. apply bool_decide_ext. split; intros; nra. }
      rewrite !E. pose proof (E t 0%R) as E0. rewrite Rmult_0_r in E0. by rewrite E0. }
    by rewrite Hsw.
Qed.
Print Assumptions C91_scaling.

(** ** The hypotheses hold for concrete points *)
Example C91_flat_nonvacuous :
  let x := [0; 0; 0]%R in let y := [2; 1; 1]%R in let z := [2; 2; 1]%R in
  (∀ phi, Causality 0 (Flat 3 None) (boosted phi x) (boosted phi y) = (true, false)) ∧
  (∀ phi, Causality 0 (Flat 3 None) (boosted phi x) (boosted phi z) = (false, false)) ∧
  (∀ a, length a = 3 → Causality 0 (Flat 3 None) (moved a y) (moved a x) = (false, true)) ∧
  (∀ s, (0 < s)%R → Causality (s * s * 0) (Flat 3 None) (scaled s x) (scaled s y) = (true, false)).
Proof.
  intros x y z.
  assert (Hxy : Causality 0 (Flat 3 None) x y = (true, false)).
  { rewrite (flat_exact 3) by (done || lia). unfold isCausal_flat, by_sign, sqsum, rsum, x, y, cget, space_delta. cbn.
    rewrite !bool_decide_true by lra. by rewrite bool_decide_false by lra. }
  split_and!.
  - intros phi. by rewrite (C91_boost 3) by (done || lia).
  - intros phi. rewrite (C91_boost 3) by (done || lia). rewrite (flat_exact 3) by (done || lia).
    unfold isCausal_flat, by_sign, sqsum, rsum, x, z, cget, space_delta. cbn.
    by rewrite (bool_decide_false (_ - 0 <= _)%R), !andb_false_r by lra.
  - intros a Ha. rewrite (C91_translation 0 3) by (done || lia). rewrite (flat_exact 3) by (done || lia).
    unfold isCausal_flat, by_sign, sqsum, rsum, x, y, cget, space_delta. cbn.
    rewrite (bool_decide_false (0 <= _)%R) by lra. by rewrite !bool_decide_true by lra.
  - intros s Hs. pose proof (C91_scaling s 0 (Flat 3 None) x y Hs) as H. cbn [scaled_tolerance scaled_spacetime fmap option_fmap option_map] in H.
    rewrite H; [done|by intros ?? [?|?]|done].
Qed.
Example C91_curved_nonvacuous :
  let x := [0; 0]%R in let y := [1; 0]%R in
  (∀ a, Causality 0 (DeSitter 2 1) (later a x) (later a y) = (true, false)) ∧
  (∀ s, (0 < s)%R → Causality (s * s * 0) (DeSitter 2 (s * 1)) (scaled s x) (scaled s y) = (true, false)) ∧
  Causality 0 (DeSitter 2 1) (reversed y) (reversed x) = (true, false).
Proof.
  intros x y.
  assert (Hxy : Causality 0 (DeSitter 2 1) x y = (true, false)).
  { cbn [Causality]. rewrite isCausal_dS_eq. unfold sqsum, rsum, x, y. cbn. rewrite decide_True by lra.
    unfold isCausal_flat, by_sign, dS_ambient, space_delta, sqsum, rsum, cget. cbn.
    match goal with |- context [sqrt ?u] => replace u with 1%R by lra end. rewrite sqrt_1.
    replace (0 / 1)%R with 0%R by field. replace (1 / 1)%R with 1%R by field. rewrite sinh_0, cosh_0.
    assert (Hs : (0 < sinh 1)%R) by (rewrite <- sinh_0; apply sinh_lt; lra).
    pose proof (cosh_sinh_sq 1) as Hcs. pose proof (cosh_ge_1 1) as Hc.
    rewrite !bool_decide_true by nra. by rewrite bool_decide_false by nra. }
  split_and!.
  - intros a. pose proof (C91_time_translation a (DeSitter 2 1) x y eq_refl eq_refl) as [H _]. by rewrite (H 2 1%R eq_refl).
  - intros s Hs. pose proof (C91_scaling s 0 (DeSitter 2 1) x y Hs) as H. cbn [scaled_tolerance scaled_spacetime] in H.
    rewrite H; [done| |done]. intros ? alpha [E|E]; [injection E as _ <-; lra|done].
  - pose proof (C91_time_reversal 0 (DeSitter 2 1) x y) as (_ & H & _). by rewrite (H 2 1%R (or_introl eq_refl)).
Qed.
Example C91_black_hole_nonvacuous :
  Causality 0 (BlackHole 1 true) [5; 2]%R [0; 2]%R = (false, true) ∧
  Causality 0 (BlackHole 1 true) (reversed [0; 2]%R) (reversed [5; 2]%R) = (false, true) ∧
  Causality 0 (BlackHole 1 true) (mirrored [5; 2]%R) (mirrored [0; 2]%R) = (false, true) ∧
  Causality (3 * 3 * 0) (BlackHole (3 * 1) true) (scaled 3 [5; 2]%R) (scaled 3 [0; 2]%R) = (false, true).
Proof.
  assert (H : Causality 0 (BlackHole 1 true) [5; 2]%R [0; 2]%R = (false, true)).
  { cbn [Causality]. rewrite isCausal_BH2D_eq. unfold cget. cbn [nth]. rewrite decide_False by lra. cbn zeta.
    rewrite Rabs_pos_eq by lra. unfold bh_swapped. rewrite !(bool_decide_false (2 < 1)%R) by lra. cbn [andb orb].
    rewrite bool_decide_true by lra. f_equal. unfold bh_cond.
    destruct (light_S_fin 1 2 ltac:(lra) ltac:(lra)) as [v ->]. cbn.
    rewrite decide_False by lra. rewrite decide_True by lra. apply bool_decide_true. lra. }
  split_and!; [done| | |].
  - pose proof (C91_time_reversal 0 (BlackHole 1 true) [5; 2]%R [0; 2]%R) as (_ & _ & Hr).
    rewrite (Hr 1%R eq_refl); [done|lra| |]; unfold cget; cbn [nth]; rewrite Rabs_pos_eq; lra.
  - by rewrite C91_mirror.
  - pose proof (C91_scaling 3 0 (BlackHole 1 true) [5; 2]%R [0; 2]%R ltac:(lra)) as Hr. cbn [scaled_tolerance scaled_spacetime] in Hr.
    rewrite Hr; [done|by intros ?? [?|?]|]. intros ?? E. injection E as <- _. lra.
Qed.
