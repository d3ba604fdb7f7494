(** C44, the accuracy of the approximate harmonic numbers of /repo/calculations.py:14-50. *)
From Verif Require Import Base CalcModel Prop_Calc HarmonicFacts.
From Coq Require Import Reals Qreals Lra.
#[local] Open Scope nat_scope.

(** The Euler-Mascheroni constant is the limit of 1 + 1/2 + ... + 1/n - ln n. *)
Definition is_euler_gamma (g : R) : Prop :=
  Un_cv (λ n, Q2R (harmonic n) - ln (INR n))%R g.

Lemma harmonic_step n : Q2R (harmonic (S n)) = (Q2R (harmonic n) + 1 / INR (S n))%R.
Proof. apply harmonic_Q2R. Qed.

Lemma asymptotic_bounds g n : is_euler_gamma g → 0 < n →
  (Q2R (harmonic n) <= asymptotic g n <= Q2R (harmonic n) + / (252 * INR n ^ 6))%R.
Proof.
  intros Hg Hn. pose proof (lt_0_INR n Hn) as Pn.
  pose proof (euler_bounds (λ n, Q2R (harmonic n)) harmonic_step g n Hg Hn) as [L U].
  rewrite (gap_diff (λ n, Q2R (harmonic n))) in U by done.
  assert (E : asymptotic g n = (ln (INR n) + g + rest 0 (/ INR n))%R).
  { unfold asymptotic, rest. cbv zeta.
    replace 0.5%R with (1 / 2)%R by lra. replace 0.25%R with (1 / 4)%R by lra.
    replace 0.025%R with (1 / 40)%R by lra. field. lra. }
  rewrite E. unfold HarmonicFacts.gap in L, U. lra.
Qed.

(** The constant exists and is unique, and if the value used for it is off by at most [delta],
    every computed harmonic number is off by at most [delta] + 1/(252 k^6): below the threshold
    it is exact, at the default threshold 100 the formula's own error is below 4e-15.  With the
    exact constant the approximation is never too small. *)
Theorem C44_accuracy :
  (∃ g, is_euler_gamma g ∧ ∀ g', is_euler_gamma g' → g' = g) ∧
  ∀ (g gamma delta : R) (empty : nat → option R) (n approximate k : nat),
    is_euler_gamma g → (Rabs (gamma - g) <= delta)%R → 0 < k → k ≤ n →
    ∃ v, HarmonicNumber gamma k approximate = Ok v ∧
         HarmonicNumbers gamma empty n approximate !! k = Some (Some v) ∧
         (Rabs (v - Q2R (harmonic k)) <= delta + / (252 * INR k ^ 6))%R ∧
         (gamma = g → (Q2R (harmonic k) <= v)%R).
Proof.
  split.
  - destruct (euler_exists (λ n, Q2R (harmonic n)) harmonic_step) as (g & Hg).
    exists g. split; [exact Hg|]. intros g' Hg'.
    exact (euler_unique (λ n, Q2R (harmonic n)) g' g Hg' Hg).
  - intros g gamma delta empty n approximate k Hg Hd Hk Hkn.
    destruct (C44_numbers gamma empty n approximate) as [_ HN].
    destruct (HN k Hkn ltac:(lia)) as (v & E1 & E2 & E3). exists v.
    assert (P : (0 < / (252 * INR k ^ 6))%R).
    { apply Rinv_0_lt_compat. pose proof (pow_lt (INR k) 6 (lt_0_INR k Hk)). lra. }
    assert (Hd0 : (0 <= delta)%R) by (pose proof (Rabs_pos (gamma - g)); lra).
    split; [exact E2|]. split; [exact E1|].
    destruct (decide (k < approximate)) as [Hlt|Hge].
    + rewrite (E3 Hlt). split; [|lra]. rewrite Rminus_diag_eq, Rabs_R0; lra.
    + unfold HarmonicNumber in E2. rewrite decide_False in E2 by done.
      rewrite decide_False in E2 by lia. injection E2 as <-.
      pose proof (asymptotic_bounds g k Hg Hk) as [L U].
      assert (E : asymptotic gamma k = (asymptotic g k + (gamma - g))%R).
      { unfold asymptotic. cbv zeta. ring. }
      rewrite E. split.
      * apply Rabs_le. pose proof (Rcomplements.Rabs_le_between (gamma - g) delta) as [HB _].
        specialize (HB Hd). lra.
      * intros ->. lra.
Qed.
Print Assumptions C44_accuracy.

(** The default threshold: the formula's own error is below 4e-15 from 100 on. *)
Corollary C44_default_threshold (g : R) (empty : nat → option R) (n k : nat) :
  is_euler_gamma g → 0 < k → k ≤ n →
  ∃ v, HarmonicNumbers g empty n 100 !! k = Some (Some v) ∧
       (Rabs (v - Q2R (harmonic k)) < 4 / 10 ^ 15)%R.
Proof.
  intros Hg Hk Hkn.
  destruct (decide (k < 100)) as [Hlt|Hge].
  - destruct (C44_numbers g empty n 100) as [_ HN].
    destruct (HN k Hkn ltac:(lia)) as (v & E1 & _ & E3). exists v. split; [done|].
    rewrite (E3 Hlt), Rminus_diag_eq, Rabs_R0 by done. lra.
  - destruct C44_accuracy as [_ HA].
    destruct (HA g g 0%R empty n 100 k Hg) as (v & _ & E1 & E2 & _); try done.
    { rewrite Rminus_diag_eq, Rabs_R0; lra. }
    exists v. split; [done|].
    assert (L : (100 <= INR k)%R).
    { replace 100%R with (INR 100) by (cbn; lra). apply le_INR. lia. }
    assert ((100 ^ 6 <= INR k ^ 6)%R) by (apply pow_incr; lra).
    assert ((/ (252 * INR k ^ 6) <= / (252 * 100 ^ 6))%R) by (apply Rinv_le_contravar; lra).
    assert ((/ (252 * 100 ^ 6) < 4 / 10 ^ 15)%R); [|lra].
    lra.
Qed.
Print Assumptions C44_default_threshold.
