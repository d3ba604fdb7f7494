(** de Sitter and Anti-de Sitter causality in two dimensions, in conformal coordinates. *)
From Verif Require Import Base SpacetimeModel SpacetimeFacts.
From Coq Require Import Reals Rtrigo_def Ratan Lra Psatz.
#[local] Open Scope nat_scope.
#[local] Open Scope R_scope.

(** ** Hyperbolic functions *)
Lemma exp_opp_mul x : exp x * exp (- x) = 1.
Proof. rewrite <- exp_plus. replace (x + - x) with 0 by lra. apply exp_0. Qed.
Lemma cosh_sq x : cosh x * cosh x - sinh x * sinh x = 1.
Proof. unfold cosh, sinh. pose proof (exp_opp_mul x). nra. Qed.
Lemma cosh_minus a b : cosh (a - b) = cosh a * cosh b - sinh a * sinh b.
Proof.
  unfold cosh, sinh. replace (- (a - b)) with (- a + b) by lra.
  replace (a - b) with (a + - b) by lra. rewrite !exp_plus. lra.
Qed.
Lemma sinh_plus a b : sinh (a + b) = sinh a * cosh b + cosh a * sinh b.
Proof.
  unfold cosh, sinh. replace (- (a + b)) with (- a + - b) by lra. rewrite !exp_plus. lra.
Qed.
Lemma sinh_minus a b : sinh (a - b) = sinh a * cosh b - cosh a * sinh b.
Proof.
  unfold cosh, sinh. replace (- (a - b)) with (- a + b) by lra.
  replace (a - b) with (a + - b) by lra. rewrite !exp_plus. lra.
Qed.
Lemma cosh_ge_1 x : 1 <= cosh x.
Proof.
  unfold cosh. pose proof (exp_opp_mul x). pose proof (exp_pos x). pose proof (exp_pos (- x)).
  assert (0 <= (exp x - exp (- x)) * (exp x - exp (- x))) by apply Rle_0_sqr. nra.
Qed.
Lemma sinh_increasing a b : a < b → sinh a < sinh b.
Proof.
  intros H. unfold sinh. pose proof (exp_increasing a b H).
  pose proof (exp_increasing (- b) (- a) ltac:(lra)). lra.
Qed.
Lemma sinh_mono a b : a <= b → sinh a <= sinh b.
Proof. intros [H| ->]; [left; by apply sinh_increasing|lra]. Qed.
Lemma cosh_even x : cosh (- x) = cosh x.
Proof. unfold cosh. rewrite Ropp_involutive. lra. Qed.
Lemma cosh_abs x : cosh (Rabs x) = cosh x.
Proof. unfold Rabs. destruct (Rcase_abs x); [apply cosh_even|done]. Qed.
Lemma cosh_increasing a b : 0 <= a → a < b → cosh a < cosh b.
Proof.
  intros H0 H. unfold cosh. pose proof (exp_increasing a b H) as Hi.
  pose proof (exp_opp_mul a) as Ea. pose proof (exp_opp_mul b) as Eb.
  pose proof (exp_pos a). pose proof (exp_pos b).
  assert (1 <= exp a) as Hone.
  { rewrite <- exp_0. destruct H0 as [H0| <-]; [left; by apply exp_increasing|lra]. }
  set (A := exp a) in *. set (B := exp b) in *. set (A' := exp (- a)) in *. set (B' := exp (- b)) in *.
  assert (0 < B') by apply exp_pos. assert (0 < A') by apply exp_pos.
  assert (A' - B' = (B - A) * (A' * B')) as Hd by nra.
  assert (A' <= 1) by nra. assert (B' < 1) by nra.
  assert (A' * B' < 1) by nra. nra.
Qed.
Lemma cosh_le_abs a b : cosh a <= cosh b ↔ Rabs a <= Rabs b.
Proof.
  rewrite <- (cosh_abs a), <- (cosh_abs b). split; intros H.
  - apply Rnot_lt_le. intros Hlt.
    pose proof (cosh_increasing (Rabs b) (Rabs a) (Rabs_pos _) Hlt). lra.
  - destruct H as [H|H]; [|rewrite H; lra]. left. apply cosh_increasing; [apply Rabs_pos|done].
Qed.

(** The area hyperbolic tangent. *)
Definition atanh (x : R) : R := ln ((1 + x) / (1 - x)) / 2.
Lemma exp_atanh x : -1 < x < 1 → exp (atanh x) = (1 + x) / sqrt (1 - x * x).
Proof.
  intros Hx. assert (0 < (1 + x) / (1 - x)) as Hq by (apply Rdiv_lt_0_compat; lra).
  assert (0 < 1 - x * x) as Hs by nra.
  assert (0 < sqrt (1 - x * x)) as Hsq by by apply sqrt_lt_R0.
  assert (exp (atanh x) * exp (atanh x) = (1 + x) / (1 - x)) as He.
  { rewrite <- exp_plus. unfold atanh.
    replace (ln ((1 + x) / (1 - x)) / 2 + ln ((1 + x) / (1 - x)) / 2)
      with (ln ((1 + x) / (1 - x))) by lra. by apply exp_ln. }
  assert ((1 + x) / sqrt (1 - x * x) * ((1 + x) / sqrt (1 - x * x)) = (1 + x) / (1 - x)) as He'.
  { transitivity ((1 + x) * (1 + x) / (sqrt (1 - x * x) * sqrt (1 - x * x))).
    - field. lra.
    - rewrite sqrt_sqrt by lra. field. split; nra. }
  pose proof (exp_pos (atanh x)) as Hp.
  assert (0 < (1 + x) / sqrt (1 - x * x)) as Hp' by (apply Rdiv_lt_0_compat; lra).
  set (a := exp (atanh x)) in *. set (b := (1 + x) / sqrt (1 - x * x)) in *.
  assert ((a - b) * (a + b) = 0) as Hz by lra.
  apply Rmult_integral in Hz. lra.
Qed.
Lemma cosh_sinh_atanh x : -1 < x < 1 →
  cosh (atanh x) = / sqrt (1 - x * x) ∧ sinh (atanh x) = x / sqrt (1 - x * x).
Proof.
  intros Hx. assert (0 < 1 - x * x) as Hs by nra.
  assert (0 < sqrt (1 - x * x)) as Hsq by by apply sqrt_lt_R0.
  assert (exp (- atanh x) = (1 - x) / sqrt (1 - x * x)) as He'.
  { pose proof (exp_opp_mul (atanh x)) as H. rewrite exp_atanh in H by done.
    apply (Rmult_eq_reg_l ((1 + x) / sqrt (1 - x * x))).
    - rewrite H. transitivity ((1 - x * x) / (sqrt (1 - x * x) * sqrt (1 - x * x))).
      + rewrite sqrt_sqrt by lra. field. lra.
      + field. lra.
    - apply Rgt_not_eq, Rdiv_lt_0_compat; lra. }
  unfold cosh, sinh. rewrite He', exp_atanh by done. split; field; lra.
Qed.

Lemma tanh_atanh x : -1 < x < 1 → tanh (atanh x) = x.
Proof.
  intros Hx. unfold tanh. destruct (cosh_sinh_atanh x Hx) as [-> ->].
  assert (0 < sqrt (1 - x * x)) by (apply sqrt_lt_R0; nra). field. lra.
Qed.

(** ** Two-dimensional de Sitter spacetime *)
Lemma ratio_bound a r : 0 < a → r * r < a * a → -1 < r / a < 1.
Proof.
  intros Ha Hr. assert (- a < r < a) as [H1 H2] by nra.
  split; apply (Rmult_lt_reg_r a); try done; unfold Rdiv; rewrite Rmult_assoc, Rinv_l; lra.
Qed.
Lemma sqrt_scale a r : 0 < a → r * r < a * a →
  sqrt (a * a - r * r) = a * sqrt (1 - r / a * (r / a)).
Proof.
  intros Ha Hr.
  replace (a * a - r * r) with (a * a * (1 - r / a * (r / a))) by (field; lra).
  rewrite sqrt_mult_alt by nra. rewrite sqrt_square by lra. done.
Qed.

Lemma dS_amp a r : 0 < a → r * r < a * a →
  sqrt (a * a - r * r) = a / cosh (atanh (r / a)) ∧
  r = a * sinh (atanh (r / a)) / cosh (atanh (r / a)).
Proof.
  intros Ha Hr. pose proof (ratio_bound a r Ha Hr) as Hb.
  destruct (cosh_sinh_atanh _ Hb) as [-> ->]. rewrite sqrt_scale by done.
  assert (0 < sqrt (1 - r / a * (r / a))) by (apply sqrt_lt_R0; nra).
  split; field; lra.
Qed.

Section dS2.
  Context (a u v s t : R).
  Hypothesis Ha : 0 < a.
  Definition dSA : R := a / cosh u.
  Definition dSB : R := a / cosh v.
  Definition dSr : R := a * sinh u / cosh u.
  Definition dSq : R := a * sinh v / cosh v.

  Lemma dS_interval :
    (dSq - dSr) * (dSq - dSr) + (dSB * cosh t - dSA * cosh s) * (dSB * cosh t - dSA * cosh s)
    <= (dSB * sinh t - dSA * sinh s) * (dSB * sinh t - dSA * sinh s)
    ↔ Rabs (v - u) <= Rabs (t - s).
  Proof using Ha.
    rewrite <- cosh_le_abs, !cosh_minus. unfold dSA, dSB, dSr, dSq.
    pose proof (cosh_ge_1 u) as Hu. pose proof (cosh_ge_1 v) as Hv.
    pose proof (cosh_sq u) as Eu. pose proof (cosh_sq v) as Ev.
    pose proof (cosh_sq s) as Es. pose proof (cosh_sq t) as Et.
    set (cu := cosh u) in *. set (su := sinh u) in *. set (cv := cosh v) in *. set (sv := sinh v) in *.
    set (cs := cosh s) in *. set (ss := sinh s) in *. set (ct := cosh t) in *. set (st := sinh t) in *.
    clearbody cu su cv sv cs ss ct st.
    assert ((a * sv / cv - a * su / cu) * (a * sv / cv - a * su / cu) +
      (a / cv * ct - a / cu * cs) * (a / cv * ct - a / cu * cs)
      - (a / cv * st - a / cu * ss) * (a / cv * st - a / cu * ss)
      = 2 * (a * a) / (cu * cv) * ((cv * cu - sv * su) - (ct * cs - st * ss))) as E.
    { assert (su * su = cu * cu - 1) as Eu' by lra. assert (sv * sv = cv * cv - 1) as Ev' by lra.
      assert (ss * ss = cs * cs - 1) as Es' by lra. assert (st * st = ct * ct - 1) as Et' by lra.
      transitivity (a * a * ((sv * sv + ct * ct - st * st) / (cv * cv)
        + (su * su + cs * cs - ss * ss) / (cu * cu)
        - 2 * (sv * su + ct * cs - st * ss) / (cu * cv))).
      { field. lra. }
      rewrite Eu', Ev', Es', Et'. field. lra. }
    assert (0 < 2 * (a * a) / (cu * cv)) as Hk.
    { apply Rdiv_lt_0_compat; nra. }
    split; intros H.
    - assert (2 * (a * a) / (cu * cv) * ((cv * cu - sv * su) - (ct * cs - st * ss)) <= 0) by lra. nra.
    - assert (2 * (a * a) / (cu * cv) * ((cv * cu - sv * su) - (ct * cs - st * ss)) <= 0) by nra. lra.
  Qed.
  Lemma dS_sign_eq :
    dSB * sinh t - dSA * sinh s =
    a / (cosh u * cosh v) / 2 * ((sinh (t + u) - sinh (s + v)) + (sinh (t - u) - sinh (s - v))).
  Proof using Ha.
    unfold dSA, dSB. rewrite !sinh_plus, !sinh_minus.
    pose proof (cosh_ge_1 u). pose proof (cosh_ge_1 v). field. lra.
  Qed.
  Lemma dS_sign :
    Rabs (v - u) <= Rabs (t - s) → (0 <= dSB * sinh t - dSA * sinh s ↔ 0 <= t - s).
  Proof using Ha.
    intros H. rewrite dS_sign_eq.
    pose proof (cosh_ge_1 u). pose proof (cosh_ge_1 v).
    assert (0 < a / (cosh u * cosh v) / 2) as Hk.
    { apply Rdiv_lt_0_compat; [|lra]. apply Rdiv_lt_0_compat; nra. }
    split; intros H'.
    - apply Rnot_lt_le. intros Hlt. rewrite (Rabs_left (t - s)) in H by done.
      assert (v - u <= - (t - s) ∧ - (v - u) <= - (t - s)) as [Hq1 Hq2].
      { revert H. unfold Rabs. destruct (Rcase_abs (v - u)); lra. }
      pose proof (sinh_mono (t + u) (s + v) ltac:(lra)).
      pose proof (sinh_mono (t - u) (s - v) ltac:(lra)).
      assert (sinh (t + u) < sinh (s + v) ∨ sinh (t - u) < sinh (s - v)) as [Hs|Hs].
      { destruct (Rle_dec (s + v) (t + u)).
        - right. apply sinh_increasing. lra.
        - left. apply sinh_increasing. lra. }
      all: nra.
    - rewrite (Rabs_pos_eq (t - s)) in H by done.
      assert (v - u <= t - s ∧ - (v - u) <= t - s) as [Hq1 Hq2].
      { revert H. unfold Rabs. destruct (Rcase_abs (v - u)); lra. }
      pose proof (sinh_mono (s + v) (t + u) ltac:(lra)).
      pose proof (sinh_mono (s - v) (t - u) ltac:(lra)). nra.
  Qed.
End dS2.

Lemma isCausal_dS_2D a t r t' r' :
  0 < a → r * r < a * a → r' * r' < a * a →
  (isCausal_dS 0 a [t; r] [t'; r']).1 = true ↔
  Rabs (atanh (r' / a) - atanh (r / a)) <= t' / a - t / a.
Proof.
  intros Ha Hr Hr'. rewrite isCausal_dS_eq. cbn [tail].
  rewrite !sqsum_cons, sqsum_nil, !Rplus_0_r.
  rewrite decide_True by done. rewrite isCausal_flat_fst.
  unfold flat_prec, dS_ambient, space_delta, cget. cbn [nth tail vsub zip_with].
  rewrite !sqsum_cons, sqsum_nil, !Rplus_0_r.
  destruct (dS_amp a r Ha Hr) as [E1 E2]. destruct (dS_amp a r' Ha Hr') as [E1' E2'].
  rewrite E1, E1'. set (u := atanh (r / a)) in *. set (v := atanh (r' / a)) in *.
  pose proof (dS_interval a u v (t / a) (t' / a) Ha) as HI.
  pose proof (dS_sign a u v (t / a) (t' / a) Ha) as HS.
  unfold dSA, dSB, dSr, dSq in HI, HS. rewrite E2, E2'.
  rewrite Rplus_comm, HI. split.
  - intros [H1 H2]. apply HS in H1; [|done]. by rewrite (Rabs_pos_eq (t' / a - t / a)) in H2.
  - intros H. assert (0 <= t' / a - t / a) as H0 by (pose proof (Rabs_pos (v - u)); lra).
    assert (Rabs (v - u) <= Rabs (t' / a - t / a)) as H' by by rewrite (Rabs_pos_eq (t' / a - t / a)).
    split; [by apply HS|done].
Qed.

(** ** Two-dimensional Anti-de Sitter spacetime *)
Lemma sqrt_scale_plus a r : 0 < a →
  sqrt (a * a + r * r) = a * sqrt (1 + r / a * (r / a)).
Proof.
  intros Ha.
  replace (a * a + r * r) with (a * a * (1 + r / a * (r / a))) by (field; lra).
  rewrite sqrt_mult_alt by nra. rewrite sqrt_square by lra. done.
Qed.
Lemma AdS_amp a r : 0 < a →
  0 < cos (atan (r / a)) ∧
  sqrt (a * a + r * r) = a / cos (atan (r / a)) ∧
  r = a * sin (atan (r / a)) / cos (atan (r / a)).
Proof.
  intros Ha. pose proof (atan_bound (r / a)) as Hb.
  assert (0 < cos (atan (r / a))) as Hc by (apply cos_gt_0; lra).
  assert (r / a = sin (atan (r / a)) / cos (atan (r / a))) as Ht.
  { rewrite <- (atan_right_inv (r / a)) at 1. done. }
  assert (0 < 1 + r / a * (r / a)) as Hp by nra.
  assert (cos (atan (r / a)) * sqrt (1 + r / a * (r / a)) = 1) as Hm.
  { assert (0 <= sqrt (1 + r / a * (r / a))) by apply sqrt_pos.
    set (c := cos (atan (r / a))) in *. set (s := sin (atan (r / a))) in *.
    assert (c * c + s * s = 1) as Hcs.
    { pose proof (sin2_cos2 (atan (r / a))) as H2. unfold Rsqr in H2. fold c s in H2. lra. }
    assert ((c * sqrt (1 + r / a * (r / a))) * (c * sqrt (1 + r / a * (r / a))) = 1) as Hsq.
    { transitivity (c * c * (sqrt (1 + r / a * (r / a)) * sqrt (1 + r / a * (r / a)))); [lra|].
      rewrite sqrt_sqrt by lra. rewrite Ht.
      replace (c * c * (1 + s / c * (s / c))) with (c * c + s * s) by (field; lra). done. }
    set (z := c * sqrt (1 + r / a * (r / a))) in *.
    assert (0 <= z) by (unfold z; nra).
    assert ((z - 1) * (z + 1) = 0) as Hz by lra. apply Rmult_integral in Hz. lra. }
  split_and!; [done| |].
  - rewrite sqrt_scale_plus by done.
    apply (Rmult_eq_reg_l (cos (atan (r / a)))); [|lra].
    transitivity (a * (cos (atan (r / a)) * sqrt (1 + r / a * (r / a)))); [lra|].
    rewrite Hm. field. lra.
  - unfold Rdiv at 1. rewrite Rmult_assoc.
    change (sin (atan (r / a)) * / cos (atan (r / a))) with (sin (atan (r / a)) / cos (atan (r / a))).
    rewrite <- Ht. field. lra.
Qed.

Lemma cos_abs x : cos (Rabs x) = cos x.
Proof. unfold Rabs. destruct (Rcase_abs x); [apply cos_neg|done]. Qed.
Lemma cos_le_abs p q : Rabs p <= PI → Rabs q <= PI → cos p <= cos q ↔ Rabs q <= Rabs p.
Proof.
  intros Hp Hq. rewrite <- (cos_abs p), <- (cos_abs q).
  pose proof (Rabs_pos p). pose proof (Rabs_pos q). split; intros H'.
  - apply Rnot_lt_le. intros Hlt.
    pose proof (cos_decreasing_1 (Rabs p) (Rabs q) ltac:(lra) ltac:(lra) ltac:(lra) ltac:(lra) Hlt). lra.
  - destruct H' as [H'|H'].
    + left. apply cos_decreasing_1; lra.
    + rewrite H'. lra.
Qed.

Lemma AdS_interval a u v s t :
  0 < a → 0 < cos u → 0 < cos v → Rabs (v - u) <= PI → Rabs (t - s) <= PI →
  (a * sin v / cos v - a * sin u / cos u) * (a * sin v / cos v - a * sin u / cos u)
  <= (a / cos v * sin t - a / cos u * sin s) * (a / cos v * sin t - a / cos u * sin s)
     + (a / cos v * cos t - a / cos u * cos s) * (a / cos v * cos t - a / cos u * cos s)
  ↔ Rabs (v - u) <= Rabs (t - s).
Proof.
  intros Ha Hu Hv Hvu Hts. rewrite <- (cos_le_abs (t - s) (v - u)) by done. rewrite !cos_minus.
  assert (∀ x, sin x * sin x = 1 - cos x * cos x) as Esq.
  { intros x. pose proof (sin2_cos2 x) as H. unfold Rsqr in H. lra. }
  pose proof (Esq u) as Eu. pose proof (Esq v) as Ev. pose proof (Esq s) as Es. pose proof (Esq t) as Et.
  set (cu := cos u) in *. set (su := sin u) in *. set (cv := cos v) in *. set (sv := sin v) in *.
  set (cs := cos s) in *. set (ss := sin s) in *. set (ct := cos t) in *. set (st := sin t) in *.
  clearbody cu su cv sv cs ss ct st.
  assert ((a * sv / cv - a * su / cu) * (a * sv / cv - a * su / cu)
    - (a / cv * st - a / cu * ss) * (a / cv * st - a / cu * ss)
    - (a / cv * ct - a / cu * cs) * (a / cv * ct - a / cu * cs)
    = 2 * (a * a) / (cu * cv) * ((ct * cs + st * ss) - (cv * cu + sv * su))) as E.
  { transitivity (a * a * ((sv * sv - ct * ct - st * st) / (cv * cv)
      + (su * su - cs * cs - ss * ss) / (cu * cu)
      - 2 * (sv * su - ct * cs - st * ss) / (cu * cv))).
    { field. lra. }
    rewrite Eu, Ev, Es, Et. field. lra. }
  assert (0 < 2 * (a * a) / (cu * cv)) as Hk by (apply Rdiv_lt_0_compat; nra).
  split; intros H.
  - assert (2 * (a * a) / (cu * cv) * ((ct * cs + st * ss) - (cv * cu + sv * su)) <= 0) by lra. nra.
  - assert (2 * (a * a) / (cu * cv) * ((ct * cs + st * ss) - (cv * cu + sv * su)) <= 0) by nra. lra.
Qed.

Lemma AdS_sign_eq a u v s t : 0 < cos u → 0 < cos v →
  a / cos v * sin t - a / cos u * sin s =
  a / (cos u * cos v) *
    (cos ((t + s + u + v) / 2) * sin ((t - s - (v - u)) / 2) +
     cos ((t + s - u - v) / 2) * sin ((t - s + (v - u)) / 2)).
Proof.
  intros Hu Hv.
  assert (2 * (cos ((t + s + u + v) / 2) * sin ((t - s - (v - u)) / 2))
          = sin (t + u) - sin (s + v)) as E1.
  { rewrite form4. replace ((t + u + (s + v)) / 2) with ((t + s + u + v) / 2) by lra.
    replace ((t + u - (s + v)) / 2) with ((t - s - (v - u)) / 2) by lra. lra. }
  assert (2 * (cos ((t + s - u - v) / 2) * sin ((t - s + (v - u)) / 2))
          = sin (t - u) - sin (s - v)) as E2.
  { rewrite form4. replace ((t - u + (s - v)) / 2) with ((t + s - u - v) / 2) by lra.
    replace ((t - u - (s - v)) / 2) with ((t - s + (v - u)) / 2) by lra. lra. }
  assert (cos ((t + s + u + v) / 2) * sin ((t - s - (v - u)) / 2) +
     cos ((t + s - u - v) / 2) * sin ((t - s + (v - u)) / 2) = sin t * cos u - sin s * cos v) as ->.
  { rewrite sin_plus, sin_plus in E1. rewrite sin_minus, sin_minus in E2. lra. }
  field. lra.
Qed.

(** The region between two null rays that meet at conformal time -pi/2 and pi/2. *)
Definition AdS_diamond (a t r : R) : Prop := Rabs (t / a) + Rabs (atan (r / a)) < PI / 2.

Lemma AdS_sign a u v s t :
  0 < a → Rabs s + Rabs u < PI / 2 → Rabs t + Rabs v < PI / 2 →
  Rabs (v - u) <= Rabs (t - s) →
  (0 <= a / cos v * sin t - a / cos u * sin s ↔ 0 <= t - s).
Proof.
  intros Ha H1 H2 H.
  assert (∀ z, - Rabs z <= z <= Rabs z) as Habs.
  { intros z. unfold Rabs. destruct (Rcase_abs z); lra. }
  pose proof (Habs u) as Au. pose proof (Habs v) as Av. pose proof (Habs s) as As. pose proof (Habs t) as At.
  pose proof (Rabs_pos s). pose proof (Rabs_pos t). pose proof (Rabs_pos u). pose proof (Rabs_pos v).
  assert (0 < cos u) as Hu by (apply cos_gt_0; lra).
  assert (0 < cos v) as Hv by (apply cos_gt_0; lra).
  rewrite AdS_sign_eq by done.
  assert (0 < a / (cos u * cos v)) as Hk by (apply Rdiv_lt_0_compat; nra).
  assert (0 < cos ((t + s + u + v) / 2)) as Hc1 by (apply cos_gt_0; lra).
  assert (0 < cos ((t + s - u - v) / 2)) as Hc2 by (apply cos_gt_0; lra).
  set (c1 := cos ((t + s + u + v) / 2)) in *. set (c2 := cos ((t + s - u - v) / 2)) in *.
  set (k := a / (cos u * cos v)) in *. clearbody c1 c2 k.
  pose proof (Habs (v - u)) as Avu.
  assert (∀ z, 0 <= z → z <= PI / 2 → 0 <= sin z) as Hsin.
  { intros z Hz1 Hz2. apply sin_ge_0; lra. }
  assert (∀ z, 0 < z → z <= PI / 2 → 0 < sin z) as Hsin'.
  { intros z Hz1 Hz2. apply sin_gt_0; lra. }
  split; intros H'.
  - apply Rnot_lt_le. intros Hlt. rewrite (Rabs_left (t - s)) in H by done.
    assert (sin ((t - s - (v - u)) / 2) = - sin (- ((t - s - (v - u)) / 2))) as E1 by (rewrite sin_neg; lra).
    assert (sin ((t - s + (v - u)) / 2) = - sin (- ((t - s + (v - u)) / 2))) as E2 by (rewrite sin_neg; lra).
    rewrite E1, E2 in H'.
    pose proof (Hsin (- ((t - s - (v - u)) / 2)) ltac:(lra) ltac:(lra)) as S1.
    pose proof (Hsin (- ((t - s + (v - u)) / 2)) ltac:(lra) ltac:(lra)) as S2.
    assert (0 < sin (- ((t - s - (v - u)) / 2)) ∨ 0 < sin (- ((t - s + (v - u)) / 2))) as Hor.
    { destruct (Rle_dec (v - u) 0); [right|left]; apply Hsin'; lra. }
    set (s1 := sin (- ((t - s - (v - u)) / 2))) in *. set (s2 := sin (- ((t - s + (v - u)) / 2))) in *.
    clearbody s1 s2.
    assert (0 < c1 * s1 + c2 * s2). { destruct Hor; nra. }
    nra.
  - rewrite (Rabs_pos_eq (t - s)) in H by done.
    pose proof (Hsin ((t - s - (v - u)) / 2) ltac:(lra) ltac:(lra)) as S1.
    pose proof (Hsin ((t - s + (v - u)) / 2) ltac:(lra) ltac:(lra)) as S2.
    set (s1 := sin ((t - s - (v - u)) / 2)) in *. set (s2 := sin ((t - s + (v - u)) / 2)) in *.
    clearbody s1 s2. assert (0 <= c1 * s1 + c2 * s2) by nra. nra.
Qed.

Lemma isCausal_AdS_2D a t r t' r' :
  0 < a → AdS_diamond a t r → AdS_diamond a t' r' →
  (isCausal_AdS 0 a [t; r] [t'; r']).1 = true ↔
  Rabs (atan (r' / a) - atan (r / a)) <= t' / a - t / a.
Proof.
  intros Ha D D'. unfold isCausal_AdS, space_delta, cget. cbn [nth tail vsub zip_with].
  rewrite by_sign_fst, bool_decide_eq_true.
  rewrite !sqsum_cons, sqsum_nil, !Rplus_0_r, Rminus_0_r.
  destruct (AdS_amp a r Ha) as (C1 & E1 & E2). destruct (AdS_amp a r' Ha) as (C1' & E1' & E2').
  unfold AdS_diamond in *. rewrite E1, E1'.
  set (u := atan (r / a)) in *. set (v := atan (r' / a)) in *.
  assert (∀ z, - Rabs z <= z <= Rabs z) as Habs.
  { intros z. unfold Rabs. destruct (Rcase_abs z); lra. }
  pose proof (Habs u) as Au. pose proof (Habs v) as Av.
  pose proof (Habs (t / a)) as As. pose proof (Habs (t' / a)) as At.
  pose proof (Rabs_pos (t / a)). pose proof (Rabs_pos (t' / a)). pose proof (Rabs_pos u). pose proof (Rabs_pos v).
  assert (Rabs (v - u) <= PI) as Bvu.
  { unfold Rabs at 1. destruct (Rcase_abs (v - u)); lra. }
  assert (Rabs (t' / a - t / a) <= PI) as Bts.
  { unfold Rabs at 1. destruct (Rcase_abs (t' / a - t / a)); lra. }
  pose proof (AdS_interval a u v (t / a) (t' / a) Ha C1 C1' Bvu Bts) as HI.
  pose proof (AdS_sign a u v (t / a) (t' / a) Ha D D') as HS.
  rewrite E2, E2', HI. split.
  - intros [G1 G2]. apply HS in G1; [|done]. by rewrite (Rabs_pos_eq (t' / a - t / a)) in G2.
  - intros H'. assert (0 <= t' / a - t / a) as G0 by (pose proof (Rabs_pos (v - u)); lra).
    assert (Rabs (v - u) <= Rabs (t' / a - t / a)) as H'' by by rewrite (Rabs_pos_eq (t' / a - t / a)).
    split; [by apply HS|done].
Qed.
