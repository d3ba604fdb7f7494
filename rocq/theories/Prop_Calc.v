(** Theorems about /repo/calculations.py: C44 (harmonic numbers), C45 (Newton's method). *)
From Verif Require Import Base CalcModel.
From Coq Require Import Reals Qreals Lra.
#[local] Open Scope nat_scope.

(** The n-th harmonic number 1 + 1/2 + ... + 1/n. *)
Fixpoint harmonic (n : nat) : Q :=
  match n with
  | O => 0%Q
  | S m => (harmonic m + (1 # Pos.of_nat (S m)))%Q
  end.

Lemma frac_foldl n : (foldl (λ s k, s + (1 # Pos.of_nat k)) 0 (seq 1 n) == harmonic n)%Q.
Proof.
  induction n as [|n IH]; [done|].
  rewrite seq_S, foldl_app. cbn [foldl harmonic].
  rewrite IH. done.
Qed.
Lemma fraction_loop_length ks t H : length (fraction_loop ks t H) = length H.
Proof. revert t H. induction ks as [|k ks IH]; intros t H; [done|]. cbn. by rewrite IH, insert_length. Qed.
Lemma fraction_loop_spec i m t H :
  i + m ≤ length H → (t == harmonic i)%Q →
  (∀ k, k < i → ∃ q, H !! k = Some q ∧ (q == harmonic k)%Q) →
  ∀ k, k < i + m → ∃ q, fraction_loop (seq i m) t H !! k = Some q ∧ (q == harmonic k)%Q.
Proof.
  revert i t H. induction m as [|m IH]; intros i t H Hlen Ht HH k Hk.
  - apply HH. lia.
  - cbn [seq fraction_loop]. apply (IH (S i)); [by rewrite insert_length; lia| | |lia].
    + cbn [harmonic]. rewrite Ht. by replace (i + 1) with (S i) by lia.
    + intros k' Hk'. destruct (decide (k' = i)) as [->|Hne].
      * exists t. split; [|done]. apply list_lookup_insert. lia.
      * destruct (HH k') as (q & Hq & E); [lia|]. exists q. split; [|done].
        by rewrite list_lookup_insert_ne by lia.
Qed.

(** ** C44: exact harmonic numbers *)
Theorem C44_fractions (n : nat) :
  (HarmonicNumberFraction n == harmonic n)%Q ∧
  length (HarmonicNumberFractions n) = n + 1 ∧
  ∀ k, k ≤ n → ∃ q, HarmonicNumberFractions n !! k = Some q ∧ (q == harmonic k)%Q.
Proof.
  split_and!.
  - unfold HarmonicNumberFraction. destruct (decide (n = 0)) as [->|]; [done|]. apply frac_foldl.
  - unfold HarmonicNumberFractions. by rewrite fraction_loop_length, replicate_length.
  - intros k Hk. apply (fraction_loop_spec 0 (n + 1)); [by rewrite replicate_length|done| |lia].
    intros k' Hk'. lia.
Qed.
Print Assumptions C44_fractions.

Lemma harmonic_Q2R n : Q2R (harmonic (S n)) = (Q2R (harmonic n) + 1 / INR (S n))%R.
Proof.
  cbn [harmonic]. rewrite Q2R_plus. f_equal. unfold Q2R. cbn [Qnum Qden].
  rewrite INR_IZR_INZ. replace (Z.pos (Pos.of_nat (S n))) with (Z.of_nat (S n)); [|lia].
  unfold Rdiv. done.
Qed.
Lemma sum_down_acc n a : foldl (λ s k, s + 1 / INR k)%R a (reverse (seq 1 n)) = (a + Q2R (harmonic n))%R.
Proof.
  revert a. induction n as [|n IH]; intros a.
  - cbn. unfold Q2R. cbn. lra.
  - rewrite seq_S, reverse_app. cbn [reverse rev_append app foldl].
    change (reverse [1 + n]) with [1 + n]. cbn [app foldl]. rewrite IH, harmonic_Q2R.
    change (1 + n) with (S n). lra.
Qed.
Lemma sum_down_harmonic n : sum_down n = Q2R (harmonic n).
Proof. unfold sum_down. rewrite sum_down_acc. lra. Qed.

Lemma harmonic_loop_length ks t H : length (harmonic_loop ks t H) = length H.
Proof. revert t H. induction ks as [|k ks IH]; intros t H; [done|]. cbn. by rewrite IH, insert_length. Qed.
Lemma harmonic_loop_spec i m t H :
  i + m ≤ length H → t = Q2R (harmonic i) →
  (∀ k, k < i → H !! k = Some (Some (Q2R (harmonic k)))) →
  ∀ k, k < i + m → harmonic_loop (seq i m) t H !! k = Some (Some (Q2R (harmonic k))).
Proof.
  revert i t H. induction m as [|m IH]; intros i t H Hlen Ht HH k Hk.
  - apply HH. lia.
  - cbn [seq harmonic_loop]. apply (IH (S i)); [by rewrite insert_length; lia| | |lia].
    + rewrite harmonic_Q2R, Ht. by replace (i + 1) with (S i) by lia.
    + intros k' Hk'. destruct (decide (k' = i)) as [->|Hne].
      * rewrite list_lookup_insert by lia. by rewrite Ht.
      * rewrite list_lookup_insert_ne by lia. apply HH. lia.
Qed.
Lemma foldl_set_length {A} (v : nat → A) ks (H : list A) :
  length (foldl (λ H k, <[k := v k]> H) H ks) = length H.
Proof. revert H. induction ks as [|k ks IH]; intros H; [done|]. cbn. by rewrite IH, insert_length. Qed.
Lemma foldl_set_spec {A} (v : nat → A) ks (H : list A) k :
  k < length H →
  foldl (λ H k, <[k := v k]> H) H ks !! k = if decide (k ∈ ks) then Some (v k) else H !! k.
Proof.
  revert H. induction ks as [|j ks IH]; intros H Hk.
  - by rewrite decide_False by (by intros ?%elem_of_nil).
  - cbn [foldl]. rewrite IH by (by rewrite insert_length).
    destruct (decide (k ∈ ks)) as [Hin|Hin].
    + rewrite decide_True; [done|]. by apply elem_of_list_further.
    + destruct (decide (k = j)) as [->|Hne].
      * rewrite list_lookup_insert by done. rewrite decide_True; [done|]. apply elem_of_list_here.
      * rewrite list_lookup_insert_ne by done. rewrite decide_False; [done|].
        by intros [->|?]%elem_of_cons.
Qed.

(** HarmonicNumbers(n, approximate)[k] is what HarmonicNumber(k, approximate) returns, and it is
    exact below the threshold. *)
Theorem C44_numbers (gamma : R) (empty : nat → option R) (n approximate : nat) :
  length (HarmonicNumbers gamma empty n approximate) = n + 1 ∧
  ∀ k, k ≤ n → 1 ≤ approximate ∨ 1 ≤ k →
    ∃ v, HarmonicNumbers gamma empty n approximate !! k = Some (Some v) ∧
         HarmonicNumber gamma k approximate = Ok v ∧
         (k < approximate → v = Q2R (harmonic k)).
Proof.
  unfold HarmonicNumbers.
  set (H := harmonic_loop (seq 0 (min (n + 1) approximate)) 0 (empty <$> seq 0 (n + 1))).
  assert (Hlen : length H = n + 1).
  { unfold H. by rewrite harmonic_loop_length, fmap_length, seq_length. }
  assert (HH : ∀ k, k < min (n + 1) approximate → H !! k = Some (Some (Q2R (harmonic k)))).
  { intros k Hk. unfold H. apply (harmonic_loop_spec 0 (min (n + 1) approximate)).
    - rewrite fmap_length, seq_length. lia.
    - unfold Q2R. cbn. lra.
    - lia.
    - lia. }
  clearbody H. split.
  - destruct (decide (approximate ≤ n)); [|done].
    by rewrite (foldl_set_length (λ k, if decide (k = 0) then None else Some (asymptotic gamma k))).
  - intros k Hk Hor. unfold HarmonicNumber. destruct (decide (k < approximate)) as [Hlt|Hge].
    + exists (Q2R (harmonic k)). rewrite sum_down_harmonic. split_and!; try done.
      destruct (decide (approximate ≤ n)); [|apply HH; lia].
      rewrite (foldl_set_spec (λ k, if decide (k = 0) then None else Some (asymptotic gamma k))) by lia.
      rewrite decide_False by (rewrite elem_of_seq; lia). apply HH. lia.
    + rewrite (decide_True (P := approximate ≤ n)) by lia.
      exists (asymptotic gamma k).
      rewrite (foldl_set_spec (λ k, if decide (k = 0) then None else Some (asymptotic gamma k))) by lia.
      rewrite decide_True by (rewrite elem_of_seq; lia).
      rewrite !(decide_False (P := k = 0)) by lia. split_and!; (done || lia).
Qed.
Print Assumptions C44_numbers.

(** The case left out: for the threshold 0 the two functions differ at k = 0. *)
Theorem C44_threshold_zero (gamma : R) (empty : nat → option R) (n : nat) :
  HarmonicNumber gamma 0 0 = Err ValueError ∧
  HarmonicNumbers gamma empty n 0 !! 0 = Some None.
Proof.
  split; [done|]. unfold HarmonicNumbers. rewrite decide_True by lia.
  rewrite (foldl_set_spec (λ k, if decide (k = 0) then None else Some (asymptotic gamma k))).
  - rewrite decide_True; [done|]. rewrite elem_of_seq. lia.
  - rewrite harmonic_loop_length, fmap_length, seq_length. lia.
Qed.
Print Assumptions C44_threshold_zero.

Example C44_nonvacuous :
  (HarmonicNumberFraction 4 == 25 # 12)%Q ∧
  (Forall2 Qeq (HarmonicNumberFractions 3) [0; 1; 3 # 2; 11 # 6])%Q.
Proof. split; [done|]. repeat constructor. Qed.

(** ** C45: Newton's method *)
Section newton.
Context (f fprime : R → R) (y : R) (xmin xmax : option R) (dflt precission : R).
Notation step := (newton_next f fprime y xmin xmax precission).

(** The documented iteration: the Newton step, replaced by xmin + precission (xmax -
    precission) if it falls below xmin (above xmax). *)
Lemma step_spec x :
  let x' := (x - (f x - y) / fprime x)%R in
  (∃ m, xmin = Some m ∧ (x' < m)%R ∧ step x = (m + precission)%R) ∨
  (∃ m, xmax = Some m ∧ (m < x')%R ∧ step x = (m - precission)%R) ∨
  (step x = x' ∧ (∀ m, xmin = Some m → (m <= x')%R) ∧ (∀ m, xmax = Some m → (x' <= m)%R)).
Proof using.
  cbn. unfold newton_next. set (x' := (x - (f x - y) / fprime x)%R). destruct xmin as [m|].
  - destruct (Rlt_dec x' m) as [Hlt|Hge]; [left; by exists m|]. destruct xmax as [M|].
    + destruct (Rlt_dec M x') as [Hlt|Hge'].
      * right; left. by exists M.
      * right; right. split_and!; [done| |]; intros ? [= <-]; lra.
    + right; right. split_and!; [done| |done]. intros ? [= <-]; lra.
  - destruct xmax as [M|].
    + destruct (Rlt_dec M x') as [Hlt|Hge'].
      * right; left. by exists M.
      * right; right. split_and!; [done|done|]. intros ? [= <-]; lra.
    + right; right. done.
Qed.
Definition in_range (x : R) : Prop :=
  (∀ m, xmin = Some m → (m <= x)%R) ∧ (∀ m, xmax = Some m → (x <= m)%R).

Lemma newton_loop_spec n x :
  newton_loop n f fprime y xmin xmax dflt precission x = dflt ∨
  ∃ k, k < n ∧
    let x_n := Nat.iter k step x in
    newton_loop n f fprime y xmin xmax dflt precission x = step x_n ∧
    (Rabs (x_n - step x_n) < precission)%R ∧ fprime x_n ≠ 0%R.
Proof using.
  revert x. induction n as [|n IH]; intros x; [by left|]. cbn [newton_loop].
  destruct (Req_EM_T (fprime x) 0) as [E|E]; [by left|].
  destruct (Rlt_dec (Rabs (x - step x)) precission) as [H|H].
  - right. exists 0. split; [lia|]. done.
  - destruct (IH (step x)) as [->|(k & Hk & H1 & H2)]; [by left|]. right.
    exists (S k). split; [lia|]. cbn zeta. rewrite Nat.iter_succ_r. done.
Qed.
End newton.

(** For every pair of functions, bounds (None is infinite), start value, precision and number
    of iterations. *)
Theorem C45_NewtonsMethod (f fprime : R → R) (x0 y : R) (xmin xmax : option R)
    (dflt precission : R) (maxIterations : nat) :
  (∀ m M, xmin = Some m → xmax = Some M → (m + precission <= M)%R) →
  let r := NewtonsMethod f fprime x0 y xmin xmax dflt precission maxIterations in
  r = dflt ∨
  (∀ m, xmin = Some m → (m <= r)%R) ∧ (∀ m, xmax = Some m → (r <= m)%R) ∧
  ∃ x_n, (Rabs (x_n - r) < precission)%R ∧
    (* an interior step solves the linearised equation *)
    ((∀ m, xmin = Some m → (m + precission < r)%R) → (∀ m, xmax = Some m → (r < m - precission)%R) →
     (Rabs (f x_n - y) < precission * Rabs (fprime x_n))%R).
Proof.
  intros Hb. cbn zeta. unfold NewtonsMethod.
  destruct (newton_loop_spec f fprime y xmin xmax dflt precission maxIterations x0)
    as [->|(k & _ & -> & Hlt & Hp)]; [by left|right].
  set (x_n := Nat.iter k (newton_next f fprime y xmin xmax precission) x0) in *. clearbody x_n.
  assert (Hpos : (0 < precission)%R).
  { eapply Rle_lt_trans; [|exact Hlt]. apply Rabs_pos. }
  destruct (step_spec f fprime y xmin xmax precission x_n) as [(m & Em & Hm & E)|[(M & EM & HM & E)|(E & Hm & HM)]];
    rewrite E in Hlt |- *.
  - split_and!.
    + intros m' [= <-]%(eq_trans (eq_sym Em)). lra.
    + intros M EM. apply (Hb m M Em EM).
    + exists x_n. split; [done|]. intros H1 _. specialize (H1 m Em). lra.
  - split_and!.
    + intros m Em. specialize (Hb m M Em EM). lra.
    + intros M' [= <-]%(eq_trans (eq_sym EM)). lra.
    + exists x_n. split; [done|]. intros _ H1. specialize (H1 M EM). lra.
  - split_and!; [done|done|]. exists x_n. split; [done|]. intros _ _.
    replace (x_n - (x_n - (f x_n - y) / fprime x_n))%R with ((f x_n - y) / fprime x_n)%R in Hlt by lra.
    unfold Rdiv in Hlt. rewrite Rabs_mult, Rabs_inv in Hlt.
    pose proof (Rabs_pos_lt _ Hp) as Hp'.
    apply (Rmult_lt_compat_r _ _ _ Hp') in Hlt.
    rewrite Rmult_assoc, Rinv_l, Rmult_1_r in Hlt by lra. done.
Qed.
Print Assumptions C45_NewtonsMethod.

(** The returned value is the end of at most maxIterations documented steps. *)
Theorem C45_iterations (f fprime : R → R) (x0 y : R) (xmin xmax : option R)
    (dflt precission : R) (maxIterations : nat) :
  let next x :=
    let x' := (x - (f x - y) / fprime x)%R in
    match xmin, xmax with
    | Some m, Some M => if Rlt_dec x' m then m + precission else if Rlt_dec M x' then M - precission else x'
    | Some m, None => if Rlt_dec x' m then m + precission else x'
    | None, Some M => if Rlt_dec M x' then M - precission else x'
    | None, None => x'
    end%R in
  let r := NewtonsMethod f fprime x0 y xmin xmax dflt precission maxIterations in
  r = dflt ∨ ∃ k, 1 ≤ k ≤ maxIterations ∧ r = Nat.iter k next x0 ∧
                  (Rabs (Nat.iter (k - 1) next x0 - r) < precission)%R.
Proof.
  intros next r.
  assert (Hn : ∀ x, newton_next f fprime y xmin xmax precission x = next x).
  { intros x. unfold next, newton_next. destruct xmin, xmax; cbn;
      repeat destruct (Rlt_dec _ _); try done; lra. }
  assert (Hi : ∀ k x, Nat.iter k (newton_next f fprime y xmin xmax precission) x = Nat.iter k next x).
  { intros k x. induction k as [|k IH]; [done|]. by rewrite !Nat.iter_succ, IH, Hn. }
  destruct (newton_loop_spec f fprime y xmin xmax dflt precission maxIterations x0)
    as [E|(k & Hk & E & Hlt & Hp)]; [by left|right].
  fold (NewtonsMethod f fprime x0 y xmin xmax dflt precission maxIterations) in E. fold r in E.
  exists (S k). split; [lia|]. replace (S k - 1) with k by lia.
  rewrite Hi, Hn in Hlt. rewrite Hi, Hn in E. rewrite E. done.
Qed.
Print Assumptions C45_iterations.

(** The documentation promises [xmin + precission, xmax - precission]; the code only clamps
    values beyond xmin and xmax. *)
Theorem C45_documented_interval_refuted :
  let r := NewtonsMethod (λ x, x - 1)%R (λ _, 1%R) 1 0 (Some 0%R) (Some 1%R) 0 (1/10) 50 in
  r = 1%R ∧ (1 - 1/10 < r)%R.
Proof.
  assert (E : NewtonsMethod (λ x, x - 1)%R (λ _, 1%R) 1 0 (Some 0%R) (Some 1%R) 0 (1/10) 50 = 1%R).
  { unfold NewtonsMethod. cbn [newton_loop].
    assert (En : newton_next (λ x, x - 1)%R (λ _, 1%R) 0 (Some 0%R) (Some 1%R) (1/10) 1 = 1%R).
    { unfold newton_next. cbn [default].
      replace (1 - (1 - 1 - 0) / 1)%R with 1%R by lra.
      destruct (Rlt_dec 1 0); [lra|]. destruct (Rlt_dec 1 1); [lra|done]. }
    rewrite En. destruct (Req_EM_T 1 0); [lra|]. destruct (Rlt_dec (Rabs (1 - 1)) (1/10)) as [|H]; [done|].
    destruct H. rewrite Rminus_diag_eq by done. rewrite Rabs_R0. lra. }
  cbn zeta. rewrite E. split; [done|lra].
Qed.
Print Assumptions C45_documented_interval_refuted.
(** The same run meets the hypothesis of C45_NewtonsMethod and does not return the default. *)
Example C45_nonvacuous :
  (∀ m M, Some 0%R = Some m → Some 1%R = Some M → (m + 1/10 <= M)%R) ∧ (1 ≠ 0)%R.
Proof. split; [intros m M [= <-] [= <-]; lra|lra]. Qed.
