(** Real analysis behind the accuracy of the asymptotic harmonic numbers (C44).  No model
    definitions here.  [rest k u] is the correction 1/(2x) - 1/(12x^2) + 1/(120x^4) - k/(252x^6)
    at x = 1/u. *)
From Coq Require Import Reals Lra Lia.
From Coquelicot Require Import Coquelicot.
#[local] Open Scope R_scope.

Definition rest (k u : R) : R := u / 2 - u * u / 12 + u * u * (u * u) / 120 - k * (u * u * (u * u) * (u * u)) / 252.

Definition phi (k u : R) : R := u / (1 + u) - rest k (u / (1 + u)) + rest k u - ln (1 + u).

Definition dphi (k u : R) : R :=
  (1 - (1/2 - u/(1+u)/6 + (u/(1+u))^3/30 - k * (u/(1+u))^5/42)) / (1+u)^2
  + (1/2 - u/6 + u^3/30 - k * u^5/42) - 1/(1+u).

Lemma phi_derive k u : 0 <= u -> is_derive (phi k) u (dphi k u).
Proof.
  intros Hu. unfold phi, rest, dphi. auto_derive.
  - repeat split; lra.
  - field. lra.
Qed.

Lemma dphi0_pos u : 0 < u -> 0 < dphi 0 u.
Proof.
  intros Hu.
  replace (dphi 0 u) with
    ((u^6/6 + u^7/2 + 8*u^8/15 + 7*u^9/30 + u^10/30) * / (1+u)^7).
  - apply Rmult_lt_0_compat; [|apply Rinv_0_lt_compat, pow_lt; lra].
    pose proof (fun n => pow_lt u n Hu) as P.
    pose proof (P 6%nat). pose proof (P 7%nat). pose proof (P 8%nat). pose proof (P 9%nat).
    pose proof (P 10%nat). lra.
  - unfold dphi. field. lra.
Qed.
Lemma dphi1_neg u : 0 < u -> dphi 1 u < 0.
Proof.
  intros Hu.
  replace (dphi 1 u) with
    (- ((3*u^8/10 + 3*u^9/5 + 7*u^10/15 + u^11/6 + u^12/42) * / (1+u)^7)).
  - apply Ropp_lt_gt_0_contravar, Rmult_lt_0_compat; [|apply Rinv_0_lt_compat, pow_lt; lra].
    pose proof (fun n => pow_lt u n Hu) as P.
    pose proof (P 8%nat). pose proof (P 9%nat). pose proof (P 10%nat). pose proof (P 11%nat).
    pose proof (P 12%nat). lra.
  - unfold dphi. field. lra.
Qed.

Lemma phi_0 k : phi k 0 = 0.
Proof.
  unfold phi, rest. replace (1 + 0) with 1 by lra. rewrite ln_1. field.
Qed.
Lemma phi_mvt k u : 0 < u -> exists c, 0 < c < u /\ phi k u = dphi k c * u.
Proof.
  intros Hu. destruct (MVT_cor2 (phi k) (dphi k) 0 u Hu) as (c & E & Hc).
  - intros x [Hx _]. apply is_derive_Reals, phi_derive, Hx.
  - exists c. split; [exact Hc|]. rewrite phi_0 in E. lra.
Qed.
Lemma phi0_pos u : 0 < u -> 0 < phi 0 u.
Proof.
  intros Hu. destruct (phi_mvt 0 u Hu) as (c & Hc & ->).
  apply Rmult_lt_0_compat; [apply dphi0_pos|]; lra.
Qed.
Lemma phi1_neg u : 0 < u -> phi 1 u < 0.
Proof.
  intros Hu. destruct (phi_mvt 1 u Hu) as (c & Hc & ->).
  pose proof (dphi1_neg c). assert (0 < - dphi 1 c * u); [|lra].
  apply Rmult_lt_0_compat; lra.
Qed.

Section sequences.
  Variable H : nat -> R.
  Hypothesis H_S : forall n, H (S n) = H n + 1 / INR (S n).

  Definition gap (k : R) (n : nat) : R := H n - ln (INR n) - rest k (/ INR n).

  Lemma gap_step k n : (0 < n)%nat -> gap k (S n) = gap k n + phi k (/ INR n).
  Proof using H_S.
    intros Hn. pose proof (lt_0_INR n Hn) as P. unfold gap, phi. rewrite H_S, S_INR.
    replace (/ INR n / (1 + / INR n)) with (/ (INR n + 1)) by (field; lra).
    replace (ln (INR n + 1)) with (ln (INR n) + ln (1 + / INR n)).
    - lra.
    - rewrite <- ln_mult; [|exact P|pose proof (Rinv_0_lt_compat _ P); lra].
      f_equal. field. lra.
  Qed.
  Lemma gap0_mono n m : (0 < n)%nat -> (n <= m)%nat -> gap 0 n <= gap 0 m.
  Proof using H_S.
    intros Hn Hm. induction Hm as [|m Hm IH]; [lra|].
    rewrite gap_step by lia.
    pose proof (phi0_pos (/ INR m) (Rinv_0_lt_compat _ (lt_0_INR m ltac:(lia)))). lra.
  Qed.
  Lemma gap1_mono n m : (0 < n)%nat -> (n <= m)%nat -> gap 1 m <= gap 1 n.
  Proof using H_S.
    intros Hn Hm. induction Hm as [|m Hm IH]; [lra|].
    rewrite gap_step by lia.
    pose proof (phi1_neg (/ INR m) (Rinv_0_lt_compat _ (lt_0_INR m ltac:(lia)))). lra.
  Qed.
  Lemma gap_diff n : (0 < n)%nat -> gap 1 n = gap 0 n + / (252 * INR n ^ 6).
  Proof using.
    intros Hn. pose proof (lt_0_INR n Hn) as P. unfold gap, rest. field. lra.
  Qed.
  Lemma gap_le n : (0 < n)%nat -> gap 0 n <= gap 1 n.
  Proof using.
    intros Hn. rewrite gap_diff by exact Hn. pose proof (lt_0_INR n Hn) as P.
    assert (0 < 252 * INR n ^ 6) as Q by (pose proof (pow_lt _ 6 P); lra).
    pose proof (Rinv_0_lt_compat _ Q). lra.
  Qed.
  Lemma gap_cross n m : (0 < n)%nat -> (0 < m)%nat -> gap 0 n <= gap 1 m.
  Proof using H_S.
    intros Hn Hm. destruct (Nat.le_gt_cases n m) as [L|L].
    - pose proof (gap0_mono n m Hn L). pose proof (gap_le m Hm). lra.
    - pose proof (gap1_mono m n Hm ltac:(lia)). pose proof (gap_le n Hn). lra.
  Qed.

  Lemma rest_cv k : Un_cv (fun n => rest k (/ INR n)) 0.
  Proof using.
    assert (I : Un_cv (fun n => / INR n) 0).
    {
      intros eps Heps. destruct (archimed_cor1 eps Heps) as (N & HN & HN0). exists N.
      intros n Hn. unfold R_dist. rewrite Rminus_0_r, Rabs_pos_eq.
      - assert (0 < INR N) by (apply lt_0_INR; lia).
        assert (INR N <= INR n) by (apply le_INR; lia).
        apply Rle_lt_trans with (/ INR N); [apply Rinv_le_contravar; lra|lra].
      - apply Rlt_le, Rinv_0_lt_compat, lt_0_INR. lia. }
    assert (C : forall c, Un_cv (fun _ => c) c).
    { intros c eps Heps. exists 0%nat. intros n _. unfold R_dist. rewrite Rminus_diag_eq, Rabs_R0; lra. }
    pose proof (CV_mult _ _ _ _ I I) as I2. cbv beta in I2.
    pose proof (CV_mult _ _ _ _ I2 I2) as I4. cbv beta in I4.
    pose proof (CV_mult _ _ _ _ I4 I2) as I6. cbv beta in I6.
    pose proof (CV_minus _ _ _ _
      (CV_plus _ _ _ _ (CV_minus _ _ _ _ (CV_mult _ _ _ _ I (C (/2))) (CV_mult _ _ _ _ I2 (C (/12))))
         (CV_mult _ _ _ _ I4 (C (/120))))
      (CV_mult _ _ _ _ (CV_mult _ _ _ _ (C k) I6) (C (/252)))) as T.
    cbv beta in T. 
    replace 0 with (0 * / 2 - 0 * 0 * / 12 + 0 * 0 * (0 * 0) * / 120 - k * (0 * 0 * (0 * 0) * (0 * 0)) * / 252) by lra.
    exact T.
  Qed.

  Definition euler (g : R) : Prop := Un_cv (fun n => H n - ln (INR n)) g.

  Lemma euler_gap k g : euler g -> Un_cv (gap k) g.
  Proof using.
    intros E. pose proof (CV_minus _ _ _ _ E (rest_cv k)) as T.
    rewrite Rminus_0_r in T. exact T.
  Qed.
  Lemma euler_bounds g n : euler g -> (0 < n)%nat -> gap 0 n <= g <= gap 1 n.
  Proof using H_S.
    intros E Hn. split.
    - destruct (Rle_lt_dec (gap 0 n) g) as [L|L]; [exact L|exfalso].
      destruct (euler_gap 0 g E (gap 0 n - g) ltac:(lra)) as (N & HN).
      specialize (HN (N + n)%nat ltac:(lia)). pose proof (gap0_mono n (N + n) Hn ltac:(lia)).
      unfold R_dist in HN. apply Rabs_def2 in HN. lra.
    - destruct (Rle_lt_dec g (gap 1 n)) as [L|L]; [exact L|exfalso].
      destruct (euler_gap 1 g E (g - gap 1 n) ltac:(lra)) as (N & HN).
      specialize (HN (N + n)%nat ltac:(lia)). pose proof (gap1_mono n (N + n) Hn ltac:(lia)).
      unfold R_dist in HN. apply Rabs_def2 in HN. lra.
  Qed.
  Lemma euler_exists : exists g, euler g.
  Proof using H_S.
    assert (G : Un_growing (fun n => gap 0 (S n))).
    { intros n. apply gap0_mono; lia. }
    assert (B : has_ub (fun n => gap 0 (S n))).
    { exists (gap 1 1). intros x (n & ->). apply gap_cross; lia. }
    destruct (growing_cv _ G B) as (g & Hg). exists g.
    assert (Hg' : Un_cv (gap 0) g).
    { intros eps Heps. destruct (Hg eps Heps) as (N & HN). exists (S N). intros n Hn.
      destruct n as [|n]; [lia|]. apply HN. lia. }
    pose proof (CV_plus _ _ _ _ Hg' (rest_cv 0)) as T. rewrite Rplus_0_r in T.
    intros eps Heps. destruct (T eps Heps) as (N & HN). exists N. intros n Hn.
    specialize (HN n Hn). unfold R_dist in *. 
    replace (H n - ln (INR n) - g) with (gap 0 n + rest 0 (/ INR n) - g); [exact HN|].
    unfold gap. lra.
  Qed.
  Lemma euler_unique g g' : euler g -> euler g' -> g = g'.
  Proof using. apply UL_sequence. Qed.
End sequences.
