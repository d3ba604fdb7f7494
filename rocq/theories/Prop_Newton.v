(** Convergence of Newton's method (C45) and where the light rays of black hole cones end (C83). *)
From Verif Require Import Base SpacetimeModel SpacetimeFacts BlackHoleFacts Prop_Spacetime ShapeModel OutlineModel SpecOutline Prop_Outline SurfaceFacts Prop_Calc CalcModel ConeModel SpecCone Prop_Cone BlackHoleConeModel SpecBlackHole BlackHoleConeFacts Prop_BlackHoleCone.
From Coq Require Import Reals Lra Psatz.
#[local] Open Scope nat_scope.

(** An error measure [E] that bounds the step and shrinks by the factor [q] in every step. *)
Lemma newton_shrinks f fd y xmin xmax dflt p q (I : R → Prop) (E : R → R) :
  (0 <= q <= 1)%R →
  (∀ x, I x → fd x ≠ 0%R ∧ let x' := (x - (f x - y) / fd x)%R in
     I x' ∧ (∀ m, xmin = Some m → (m <= x')%R) ∧ (∀ m, xmax = Some m → (x' <= m)%R) ∧ (Rabs (x - x') <= E x)%R ∧ (E x' <= q * E x)%R) →
  ∀ n x, I x → (q ^ n * E x < p)%R →
  let r := newton_loop (S n) f fd y xmin xmax dflt p x in
  ∃ z, I z ∧ r = (z - (f z - y) / fd z)%R ∧ (Rabs (z - r) < p)%R.
Proof.
  intros Hq HI n. induction n as [|n IH]; intros x Hx Hp r.
  - destruct (HI x Hx) as (Hd & Hx' & Hm & HM & Hs & _). unfold r. cbn [newton_loop]. destruct (Req_EM_T (fd x) 0) as [?|_]; [done|].
    assert (En : newton_next f fd y xmin xmax p x = (x - (f x - y) / fd x)%R).
    { destruct (step_spec f fd y xmin xmax p x) as [(m & Em & Hlt & _)|[(m & Em & Hlt & _)|(-> & _)]]; [|..|done].
      - specialize (Hm m Em). lra.
      - specialize (HM m Em). lra. }
    rewrite En. cbn [pow] in Hp. destruct (Rlt_dec _ p) as [Hl|Hl]; [by exists x|]. exfalso. lra.
  - destruct (HI x Hx) as (Hd & Hx' & Hm & HM & Hs & Hq').
    assert (En : newton_next f fd y xmin xmax p x = (x - (f x - y) / fd x)%R).
    { destruct (step_spec f fd y xmin xmax p x) as [(m & Em & Hlt & _)|[(m & Em & Hlt & _)|(-> & _)]]; [|..|done].
      - specialize (Hm m Em). lra.
      - specialize (HM m Em). lra. }
    assert (Er : r = if Rlt_dec (Rabs (x - (x - (f x - y) / fd x))) p then (x - (f x - y) / fd x)%R else newton_loop (S n) f fd y xmin xmax dflt p (x - (f x - y) / fd x)%R).
    { unfold r. change (newton_loop (S (S n)) f fd y xmin xmax dflt p x) with (if Req_EM_T (fd x) 0 then dflt else let x_next := newton_next f fd y xmin xmax p x in if Rlt_dec (Rabs (x - x_next)) p then x_next else newton_loop (S n) f fd y xmin xmax dflt p x_next).
      destruct (Req_EM_T (fd x) 0) as [?|_]; [done|]. cbv zeta. by rewrite En. }
    rewrite Er. destruct (Rlt_dec _ p) as [Hl|Hl]; [by exists x|]. apply IH; [done|].
    eapply Rle_lt_trans; [|exact Hp]. cbn [pow]. rewrite (Rmult_comm q), Rmult_assoc. apply Rmult_le_compat_l; [apply pow_le; lra|done].
Qed.

(** ** C45: convergence
    Let f (s = 1) or -f (s = -1) be increasing and concave between the start and the solution w
    above it, with slopes fprime.  Then NewtonsMethod ends below w, as close as stated, if the
    number of iterations is large enough for the ratio of the slopes. *)
Theorem C45_converges (f fprime : R → R) (s x0 w : R) (xmin xmax : option R) (dflt precission : R) (maxIterations : nat) :
  s = 1%R ∨ s = (-1)%R → (x0 <= w)%R → (0 < precission)%R → 1 ≤ maxIterations →
  (∀ m, xmin = Some m → (m <= x0)%R) → (∀ m, xmax = Some m → (w <= m)%R) →
  (∀ a, x0 <= a <= w → 0 < s * fprime a)%R →
  (∀ a b, x0 <= a → a <= b → b <= w → s * fprime b * (b - a) <= s * (f b - f a) <= s * fprime a * (b - a))%R →
  let q := (1 - fprime w / fprime x0)%R in
  (q ^ (maxIterations - 1) * (w - x0) < precission)%R →
  let r := NewtonsMethod f fprime x0 (f w) xmin xmax dflt precission maxIterations in
  (x0 <= r <= w)%R ∧ (w - r <= q / (1 - q) * precission)%R.
Proof.
  intros Hs Hxw Hp0 Hn Hmin Hmax Hpos Hcc q Hq r.
  assert (Hss : (s * s = 1)%R) by (destruct Hs as [-> | ->]; lra).
  assert (Hs0 : s ≠ 0%R) by (destruct Hs as [-> | ->]; lra).
  set (g := λ a, (s * fprime a)%R). assert (Hg : ∀ a, (x0 <= a <= w)%R → (0 < g a)%R) by (intros a Ha; by apply Hpos).
  assert (Hfd : ∀ a, (x0 <= a <= w)%R → fprime a ≠ 0%R). { intros a Ha E. specialize (Hg a Ha). unfold g in Hg. rewrite E in Hg. lra. }
  assert (Hmono : ∀ a, (x0 <= a <= w)%R → (g w <= g a <= g x0)%R).
  { assert (HM : ∀ a b, (x0 <= a)%R → (a <= b)%R → (b <= w)%R → (g b <= g a)%R).
    { intros a b Ha Hab Hb. destruct (Req_dec a b) as [->|Hne]; [lra|]. pose proof (Hcc a b Ha Hab Hb) as [H1 H2]. fold (g a) in H2. fold (g b) in H1.
      apply (Rmult_le_reg_r (b - a)); lra. }
    intros a Ha. split; apply HM; lra. }
  assert (Hratio : ∀ a b, (fprime a / fprime b = g a / g b)%R ∨ fprime b = 0%R).
  { intros a b. destruct (Req_dec (fprime b) 0) as [E|E]; [by right|left]. unfold g. field. done. }
  assert (Hx0 : (0 < g x0)%R) by (apply Hg; lra). assert (Hw : (0 < g w)%R) by (apply Hg; lra).
  assert (Eq : q = (1 - g w / g x0)%R). { unfold q. destruct (Hratio w x0) as [-> |E]; [done|]. exfalso. eapply Hfd; [|exact E]. lra. }
  assert (Hr01 : (0 < g w / g x0 <= 1)%R).
  { split; [by apply Rdiv_lt_0_compat|]. apply (Rmult_le_reg_r (g x0)); [done|]. unfold Rdiv. rewrite Rmult_assoc, Rinv_l by lra. destruct (Hmono x0); lra. }
  (* one step *)
  assert (Hstep : ∀ x, (x0 <= x <= w)%R → let x' := (x - (f x - f w) / fprime x)%R in
     (x <= x' <= w)%R ∧ ((1 - q) * (w - x) <= x' - x)%R ∧ (w - x' <= q * (w - x))%R).
  { intros x Hx x'. assert (Hgx : (0 < g x)%R) by (by apply Hg).
    assert (Ex : (x' = x + s * (f w - f x) / g x)%R).
    { unfold x', g. destruct Hs as [-> | ->]; field; by apply Hfd. }
    pose proof (Hcc x w ltac:(lra) ltac:(lra) ltac:(lra)) as [H1 H2]. fold (g x) in H2. fold (g w) in H1.
    assert (Hlow : ((1 - q) * (w - x) <= s * (f w - f x) / g x)%R).
    { rewrite Eq. apply (Rmult_le_reg_r (g x)); [done|]. unfold Rdiv at 2. rewrite (Rmult_assoc _ (/ g x)), Rinv_l, Rmult_1_r by lra.
      eapply Rle_trans; [|exact H1]. replace (1 - (1 - g w / g x0))%R with (g w / g x0)%R by ring.
      assert (HH : (g x / g x0 <= 1)%R). { apply (Rmult_le_reg_r (g x0)); [done|]. unfold Rdiv. rewrite Rmult_assoc, Rinv_l by lra. destruct (Hmono x Hx); lra. }
      replace (g w / g x0 * (w - x) * g x)%R with (g w * (w - x) * (g x / g x0))%R by (field; lra).
      rewrite <- (Rmult_1_r (g w * (w - x))) at 2. apply Rmult_le_compat_l; [apply Rmult_le_pos; lra|done]. }
    assert (Hhigh : (s * (f w - f x) / g x <= w - x)%R).
    { apply (Rmult_le_reg_r (g x)); [done|]. unfold Rdiv. rewrite Rmult_assoc, Rinv_l, Rmult_1_r by lra. lra. }
    assert (0 <= (1 - q) * (w - x))%R by (apply Rmult_le_pos; lra). rewrite Ex. split_and!; lra. }
  destruct (newton_shrinks f fprime (f w) xmin xmax dflt precission q (λ x, x0 <= x <= w)%R (λ x, w - x)%R) with (n := maxIterations - 1) (x := x0) as (z & Hz & Er & Hl); [lra| |lra|done|].
  { intros x Hx. split; [by apply Hfd|]. destruct (Hstep x Hx) as (H1 & H2 & H3). cbv zeta. set (x' := (x - (f x - f w) / fprime x)%R) in *. split; [lra|]. split; [|split; [|split]].
    - intros m Em. specialize (Hmin m Em). lra.
    - intros m Em. specialize (Hmax m Em). lra.
    - rewrite Rabs_left1; lra.
    - done. }
  replace (S (maxIterations - 1)) with maxIterations in Er, Hl by lia.
  change (newton_loop maxIterations f fprime (f w) xmin xmax dflt precission x0) with r in Er, Hl.
  destruct (Hstep z Hz) as (H1 & H2 & H3). cbv zeta in H1, H2, H3. rewrite <- Er in H1, H2, H3. split; [lra|].
  rewrite Rabs_left1 in Hl by lra.
  assert (Hz' : (w - z <= precission / (1 - q))%R).
  { apply (Rmult_le_reg_l (1 - q)); [lra|]. replace ((1 - q) * (precission / (1 - q)))%R with precission by (field; lra). lra. }
  eapply Rle_trans; [exact H3|]. replace (q / (1 - q) * precission)%R with (q * (precission / (1 - q)))%R by (field; lra).
  apply Rmult_le_compat_l; lra.
Qed.
Print Assumptions C45_converges.
(** A concave parabola: x (4 - x) = 3 from 0. *)
Example C45_converges_nonvacuous : let f x := (x * (4 - x))%R in let fd x := (4 - 2 * x)%R in
  (∀ a, 0 <= a <= 1 → 0 < 1 * fd a)%R ∧
  (∀ a b, 0 <= a → a <= b → b <= 1 → 1 * fd b * (b - a) <= 1 * (f b - f a) <= 1 * fd a * (b - a))%R ∧
  ((1 - fd 1 / fd 0) ^ (50 - 1) * (1 - 0) < 1 / 1000000)%R.
Proof.
  cbv zeta. split; [intros; lra|]. split; [intros a b; nra|].
  assert (E : (1 - (4 - 2 * 1) / (4 - 2 * 0) = / 2)%R) by field. rewrite E, pow_inv, Rminus_0_r, Rmult_1_r. change (50 - 1)%nat with (20 + 29)%nat. rewrite pow_add.
  assert (H1 : (1000000 < 2 ^ 20)%R) by (cbn [pow]; lra). assert (H2 : (1 <= 2 ^ 29)%R) by (apply pow_R1_Rle; lra).
  unfold Rdiv. rewrite Rmult_1_l. apply Rinv_lt_contravar; [apply Rmult_lt_0_compat; nra|nra].
Qed.

(** ** C83: the rays of a black hole outside the horizon *)
Section ray.
Context (c r_S : R) (Hc : (1 <= c)%R) (Hp : (0 < r_S)%R).
Notation ry := (ray c r_S).

Lemma ray_step x w : (r_S < x)%R → (x <= w)%R → let x' := (x + (ry w - ry x) / (1 + c * r_S / (x - r_S)))%R in
  (x <= x' <= w)%R ∧ ((w - x') / (x' - r_S) <= / 2 * ((w - x) / (x - r_S)))%R.
Proof using Hc Hp.
  intros Hx Hxw x'. set (u := (x - r_S)%R). set (W := (w - r_S)%R). set (k := (c * r_S)%R). assert (Hk : (0 < k)%R) by (unfold k; nra). assert (Hu : (0 < u)%R) by (unfold u; lra). assert (HW : (u <= W)%R) by (unfold u, W; lra).
  assert (Ed : (ry w - ry x = W - u + k * ln (W / u))%R).
  { rewrite ray_diff by lra. fold W u k. rewrite Rabs_right; [unfold W, u; ring|]. left. apply Rdiv_lt_0_compat; lra. }
  assert (Hl1 : (ln (W / u) <= (W - u) / u)%R).
  { assert (H : (0 < u / W)%R) by (apply Rdiv_lt_0_compat; lra). pose proof (ln_ge (u / W) H) as H1. replace (u / W)%R with (/ (W / u))%R in H1 by (field; lra). rewrite ln_Rinv, Rinv_inv in H1 by (apply Rdiv_lt_0_compat; lra).
    replace ((W - u) / u)%R with (W / u - 1)%R by (field; lra). lra. }
  assert (Hl2 : ((W - u) / W <= ln (W / u))%R).
  { assert (H : (0 < W / u)%R) by (apply Rdiv_lt_0_compat; lra). pose proof (ln_ge (W / u) H) as H1. replace (/ (W / u))%R with (u / W)%R in H1 by (field; lra). replace ((W - u) / W)%R with (1 - u / W)%R by (field; lra). lra. }
  assert (Ex : (x' - r_S = u + u * (W - u + k * ln (W / u)) / (u + k))%R).
  { unfold x'. rewrite Ed. fold u k. replace (x + (W - u + k * ln (W / u)) / (1 + k / u) - r_S)%R with (u + (W - u + k * ln (W / u)) / (1 + k / u))%R by (unfold u; ring). f_equal. field. lra. }
  set (u' := (x' - r_S)%R) in *. set (L := ln (W / u)) in *. clearbody L.
  assert (Hup : (u' <= W)%R).
  { rewrite Ex. assert (H : (u * (W - u + k * L) / (u + k) <= W - u)%R); [|lra]. apply (Rmult_le_reg_r (u + k)); [lra|]. unfold Rdiv. rewrite Rmult_assoc, Rinv_l, Rmult_1_r by lra.
    apply (Rmult_le_compat_l u) in Hl1; [|lra]. replace (u * ((W - u) / u))%R with (W - u)%R in Hl1 by (field; lra). nra. }
  assert (Hlo : (u * (2 * W - u) <= u' * W)%R).
  { rewrite Ex. assert (H : (u * (W - u) <= u * (W - u + k * L) / (u + k) * W)%R); [|nra]. apply (Rmult_le_reg_r (u + k)); [lra|].
    replace (u * (W - u + k * L) / (u + k) * W * (u + k))%R with (u * ((W - u) * W + k * (W * L)))%R by (field; lra).
    apply (Rmult_le_compat_l W) in Hl2; [|lra]. replace (W * ((W - u) / W))%R with (W - u)%R in Hl2 by (field; lra).
    rewrite Rmult_assoc. apply Rmult_le_compat_l; [lra|]. nra. }
  assert (Huu : (u <= u')%R) by (apply (Rmult_le_reg_r W); nra).
  split; [unfold u, u', W in *; lra|].
  replace (w - x')%R with (W - u')%R by (unfold W, u'; ring). replace (w - x)%R with (W - u)%R by (unfold W, u; ring).
  replace (/ 2 * ((W - u) / u))%R with ((W - u) / (2 * u))%R by (field; lra).
  apply (Rmult_le_reg_r (u' * (2 * u))); [nra|]. replace ((W - u') / u' * (u' * (2 * u)))%R with ((W - u') * (2 * u))%R by (field; lra). replace ((W - u) / (2 * u) * (u' * (2 * u)))%R with ((W - u) * u')%R by (field; lra).
  assert (H : (2 * u * W <= u' * (W + u))%R); [|lra]. apply (Rmult_le_reg_r W); [lra|]. nra.
Qed.

(** Newton's method for a ray, started between the horizon and the solution w: it does not
    fail and ends between the start and w. *)
Lemma Newton_up (s K : R) (f : R → fl) (fd : R → R) (x0 w : R) (n : nat) :
  s = 1%R ∨ s = (-1)%R →
  (∀ q, q ≠ r_S → fl_real (f q) = K + s * ry q)%R → (∀ q, fd q = s * (1 + c * r_S / (q - r_S)))%R →
  (r_S < x0)%R → (x0 <= w)%R → ((/ 2) ^ n * ((w - r_S) * ((w - x0) / (x0 - r_S))) < precission)%R →
  (x0 <= newton_loop (S n) (λ r, fl_real (f r)) fd (K + s * ry w) (Some r_S) None 0 precission x0 <= w)%R.
Proof using Hc Hp.
  intros Hs Hf Hfd H0 H0w Hn.
  assert (HD : ∀ x, (r_S < x)%R → (0 < 1 + c * r_S / (x - r_S))%R). { intros x Hx. assert (0 < c * r_S / (x - r_S))%R; [|lra]. apply Rdiv_lt_0_compat; [nra|lra]. }
  assert (Hstep : ∀ x, (r_S < x)%R → (x - (fl_real (f x) - (K + s * ry w)) / fd x = x + (ry w - ry x) / (1 + c * r_S / (x - r_S)))%R).
  { intros x Hx. rewrite Hf, Hfd by lra. specialize (HD x Hx). set (D := (1 + c * r_S / (x - r_S))%R) in *. clearbody D. destruct Hs as [-> | ->]; field; lra. }
  destruct (newton_shrinks (λ r, fl_real (f r)) fd (K + s * ry w) (Some r_S) None 0 precission (/ 2) (λ x, x0 <= x <= w)%R (λ x, (w - r_S) * ((w - x) / (x - r_S)))%R) with (n := n) (x := x0) as (z & Hz & Er & _); [lra| |lra|done|].
  - intros x Hx. split. { rewrite Hfd. specialize (HD x ltac:(lra)). destruct Hs as [-> | ->]; lra. }
    cbv zeta. rewrite Hstep by lra. destruct (ray_step x w ltac:(lra) ltac:(lra)) as [H1 H2]. set (x' := (x + (ry w - ry x) / (1 + c * r_S / (x - r_S)))%R) in *. clearbody x'.
    split; [lra|]. split; [intros m [= <-]; lra|]. split; [done|]. split.
    + rewrite Rabs_left1 by lra. assert (H : (1 <= (w - r_S) / (x - r_S))%R). { apply (Rmult_le_reg_r (x - r_S)); [lra|]. unfold Rdiv. rewrite Rmult_assoc, Rinv_l by lra. lra. }
      replace ((w - r_S) * ((w - x) / (x - r_S)))%R with ((w - x) * ((w - r_S) / (x - r_S)))%R by (field; lra). nra.
    + replace (/ 2 * ((w - r_S) * ((w - x) / (x - r_S))))%R with ((w - r_S) * (/ 2 * ((w - x) / (x - r_S))))%R by ring. apply Rmult_le_compat_l; [lra|done].
  - rewrite Er, Hstep by lra. destruct (ray_step z w ltac:(lra) ltac:(lra)) as [H1 _]. lra.
Qed.
(** The ray is continuous outside the horizon: it takes every time in between. *)
Lemma ray_root a b Y : (r_S < a)%R → (a <= b)%R → (ry a <= Y <= ry b)%R → ∃ w, (a <= w <= b)%R ∧ ry w = Y.
Proof using Hp.
  intros Ha Hab HY. destruct (Req_dec (ry a) Y) as [E|Hn1]; [exists a; split; [lra|done]|]. destruct (Req_dec (ry b) Y) as [E|Hn2]; [exists b; split; [lra|done]|].
  assert (a < b)%R. { destruct (Req_dec a b) as [E|]; [rewrite E in *; lra|lra]. }
  destruct (Ranalysis5.IVT_interv (λ r, ry r - Y)%R a b) as (z & Hz & E); [|lra|lra|lra|exists z; split; [done|lra]].
  intros x Hx. apply (continuity_pt_minus ry (fct_cte Y)); [|apply continuity_pt_const; done].
  apply (continuity_pt_plus (λ r, r) (λ r, c * r_S * ln (Rabs (r - r_S) / r_S))%R); [apply derivable_continuous_pt, derivable_pt_id|].
  apply (continuity_pt_scal (λ r, ln (Rabs (r - r_S) / r_S)) (c * r_S)).
  apply (continuity_pt_comp (λ r, Rabs (r - r_S) / r_S)%R ln).
  - apply (continuity_pt_mult (λ r, Rabs (r - r_S)) (fct_cte (/ r_S))); [|apply continuity_pt_const; done].
    apply (continuity_pt_comp (λ r, r - r_S)%R Rabs); [|apply Rcontinuity_abs].
    apply (continuity_pt_minus (λ r, r) (fct_cte r_S)); [apply derivable_continuous_pt, derivable_pt_id|apply continuity_pt_const; done].
  - apply derivable_continuous_pt. exists (/ (Rabs (x - r_S) / r_S))%R. apply derivable_pt_lim_ln. apply Rdiv_lt_0_compat; [|done]. apply Rabs_pos_lt. lra.
Qed.

(** Newton's method for a ray, started beyond the solution w: the first step goes below w (or
    next to the horizon, if it would cross it), then as in Newton_up. *)
Lemma Newton_down (s K : R) (f : R → fl) (fd : R → R) (x0 w : R) (n : nat) :
  let u := (x0 - r_S)%R in let L := (u + c * r_S)%R in let D := (ry x0 - ry w)%R in
  s = 1%R ∨ s = (-1)%R →
  (∀ q, q ≠ r_S → fl_real (f q) = K + s * ry q)%R → (∀ q, fd q = s * (1 + c * r_S / (q - r_S)))%R →
  (r_S + precission <= w)%R → (w < x0)%R → D ≠ L →
  (D < L → (/ 2) ^ n * (u * (D / (L - D))) < precission)%R →
  (L < D → (/ 2) ^ n * (u * u) < precission * precission)%R →
  (r_S < newton_loop (S (S n)) (λ r, fl_real (f r)) fd (K + s * ry w) (Some r_S) None 0 precission x0 <= w)%R.
Proof using Hc Hp.
  intros u L D Hs Hf Hfd Hw0 Hwx HDL Hc1 Hc2. assert (Hpp : (0 < precission)%R) by apply precission_pos. assert (Hu : (0 < u)%R) by (unfold u; lra).
  set (k := (c * r_S)%R) in *. assert (Hk : (0 < k)%R) by (unfold k; nra). assert (HL : (0 < L)%R) by (unfold L; lra).
  set (F := λ r, fl_real (f r)). set (y := (K + s * ry w)%R).
  assert (Hfd0 : fd x0 ≠ 0%R). { rewrite Hfd. fold u k. assert (0 < k / u)%R by (by apply Rdiv_lt_0_compat). destruct Hs as [-> | ->]; lra. }
  set (x1 := (x0 - (F x0 - y) / fd x0)%R).
  assert (E1 : (x1 - r_S = u * (1 - D / L))%R).
  { unfold x1, F, y. rewrite Hf, Hfd by lra. fold u k. assert (HLu : (1 + k / u = L / u)%R) by (unfold L; field; lra). rewrite HLu. unfold D.
    transitivity (u - (ry x0 - ry w) / (L / u))%R; [|field; lra]. unfold u at 2. destruct Hs as [-> | ->]; field; lra. }
  assert (H1w : (x1 <= w)%R).
  { pose proof (ray_tangent c r_S Hc Hp x0 w) as HT. assert (HS : same_side r_S x0 w) by (left; lra). specialize (HT HS). fold u k in HT.
    assert (HLu : (1 + k / u = L / u)%R) by (unfold L; field; lra). rewrite HLu in HT.
    assert (HD : (L / u * (x0 - w) <= D)%R) by (unfold D; lra). apply (Rmult_le_compat_l (u / L)) in HD; [|left; by apply Rdiv_lt_0_compat].
    replace (u / L * (L / u * (x0 - w)))%R with (x0 - w)%R in HD by (field; lra). assert (u * (1 - D / L) = u - u / L * D)%R by (field; lra). unfold u in E1 at 1. unfold u in *. lra. }
  assert (Hd0 : (0 < D)%R). { unfold D. pose proof (ray_outside c r_S w x0 Hp ltac:(lra) ltac:(lra) ltac:(lra)) as HO. lra. }
  assert (Hloop : newton_loop (S (S n)) F fd y (Some r_S) None 0 precission x0 = let x' := newton_next F fd y (Some r_S) None precission x0 in if Rlt_dec (Rabs (x0 - x')) precission then x' else newton_loop (S n) F fd y (Some r_S) None 0 precission x').
  { change (newton_loop (S (S n)) F fd y (Some r_S) None 0 precission x0) with (if Req_EM_T (fd x0) 0 then 0%R else let x' := newton_next F fd y (Some r_S) None precission x0 in if Rlt_dec (Rabs (x0 - x')) precission then x' else newton_loop (S n) F fd y (Some r_S) None 0 precission x').
    by destruct (Req_EM_T (fd x0) 0). }
  assert (Hup : ∀ z, (r_S < z)%R → (z <= w)%R → ((/ 2) ^ n * ((w - r_S) * ((w - z) / (z - r_S))) < precission)%R → (z <= newton_loop (S n) F fd y (Some r_S) None 0 precission z <= w)%R).
  { intros z Hz1 Hz2 Hz3. by apply Newton_up. }
  assert (Hpn : (0 < (/ 2) ^ n)%R) by (apply pow_lt; lra).
  rewrite Hloop. cbv zeta. destruct (Rtotal_order D L) as [HDl|[?|HDl]]; [|done|].
  - (* the first step stays outside *)
    assert (H01 : (0 < 1 - D / L)%R). { assert (D / L < 1)%R; [|lra]. apply (Rmult_lt_reg_r L); [done|]. unfold Rdiv. rewrite Rmult_assoc, Rinv_l by lra. lra. }
    assert (Hx1 : (r_S < x1)%R) by (assert (0 < u * (1 - D / L))%R by (by apply Rmult_lt_0_compat); lra).
    assert (En : newton_next F fd y (Some r_S) None precission x0 = x1).
    { destruct (step_spec F fd y (Some r_S) None precission x0) as [(m & [= <-] & Hlt & _)|[(m & Em & _)|(-> & _)]]; [|done|done]. fold x1 in Hlt. lra. }
    rewrite En. destruct (Rlt_dec _ precission) as [_|_]; [lra|].
    assert (Hgo : (x1 <= newton_loop (S n) F fd y (Some r_S) None 0 precission x1 <= w)%R); [|lra].
    apply Hup; [done|done|]. eapply Rle_lt_trans; [|by apply Hc1]. apply Rmult_le_compat_l; [lra|].
    assert (Ew : (D / (L - D) = (u - (x1 - r_S)) / (x1 - r_S))%R) by (rewrite E1; field; split; [lra|split; [lra|]]; nra). rewrite Ew.
    assert (Hi : (0 < / (x1 - r_S))%R) by (apply Rinv_0_lt_compat; lra).
    apply Rmult_le_compat; [lra|unfold Rdiv; apply Rmult_le_pos; lra|unfold u; lra|]. unfold Rdiv. apply Rmult_le_compat_r; [lra|]. unfold u. lra.
  - (* the first step would cross the horizon *)
    assert (Hx1 : (x1 < r_S)%R). { assert (1 < D / L)%R; [|nra]. apply (Rmult_lt_reg_r L); [done|]. unfold Rdiv. rewrite Rmult_assoc, Rinv_l by lra. lra. }
    assert (En : newton_next F fd y (Some r_S) None precission x0 = (r_S + precission)%R).
    { destruct (step_spec F fd y (Some r_S) None precission x0) as [(m & [= <-] & _ & ->)|[(m & Em & _)|(_ & Hm & _)]]; [done|done|]. specialize (Hm _ eq_refl). fold x1 in Hm. lra. }
    rewrite En. destruct (Rlt_dec _ precission) as [_|_]; [lra|].
    assert (Hgo : (r_S + precission <= newton_loop (S n) F fd y (Some r_S) None 0 precission (r_S + precission) <= w)%R); [|lra].
    apply Hup; [lra|done|]. replace (r_S + precission - r_S)%R with precission by ring.
    apply (Rmult_lt_reg_r precission); [done|]. eapply Rle_lt_trans; [|by apply Hc2].
    replace ((/ 2) ^ n * ((w - r_S) * ((w - (r_S + precission)) / precission)) * precission)%R with ((/ 2) ^ n * ((w - r_S) * (w - (r_S + precission))))%R by (field; lra).
    apply Rmult_le_compat_l; [lra|]. unfold u. apply Rmult_le_compat; lra.
Qed.
End ray.

Lemma half_pow n E p : (E < 2 ^ n * p → (/ 2) ^ n * E < p)%R.
Proof.
  intros H. assert (H2 : (0 < 2 ^ n)%R) by (apply pow_lt; lra). rewrite pow_inv. apply (Rmult_lt_reg_l (2 ^ n)); [done|]. rewrite <- Rmult_assoc, Rinv_r, Rmult_1_l by lra. done.
Qed.

Section schwarzschild.
Context (r_S t0 r0 : R) (Hp : (0 < r_S)%R) (H0 : (r_S < r0)%R).
Notation F := (ray 1 r_S).
Lemma S_out_real q : q ≠ r_S → (fl_real (light_S_out r_S t0 r0 q) = (t0 - F r0) + 1 * F q)%R.
Proof using Hp H0. intros Hq. rewrite S_out, decide_False by lra. cbn [fl_real]. rewrite !ray1. lra. Qed.
Lemma S_in_real q : q ≠ r_S → (fl_real (light_S_in r_S t0 r0 q) = (t0 + F r0) + (-1) * F q)%R.
Proof using Hp H0. intros Hq. rewrite S_in, decide_False by lra. cbn [fl_real]. rewrite !ray1. lra. Qed.

(** The ray that goes away from the black hole: to the later (earlier) time t0 + s D. *)
Lemma ends_away (s K D y : R) (f : R → fl) (fd : R → R) : s = 1%R ∨ s = (-1)%R → (0 <= D)%R →
  (∀ q, q ≠ r_S → fl_real (f q) = K + s * F q)%R → (∀ q, fd q = s * (1 + 1 * r_S / (q - r_S)))%R →
  y = (K + s * (F r0 + D))%R → (D * (1 + D / (r0 - r_S)) < 2 ^ 49 * precission)%R →
  (r0 <= Newton f fd r0 y (Some r_S) None)%R.
Proof using Hp H0.
  intros Hs HD Hf Hfd -> Hlong.
  assert (Hge : (F r0 + D <= F (r0 + D))%R) by (pose proof (ray_outside 1 r_S r0 (r0 + D) Hp ltac:(lra) H0 ltac:(lra)); lra).
  destruct (ray_root 1 r_S Hp r0 (r0 + D) (F r0 + D)) as (w & Hw & <-); [done|lra|lra|].
  apply (Newton_up 1 r_S ltac:(lra) Hp s K f fd r0 w 49 Hs Hf Hfd H0 ltac:(lra)).
  apply half_pow. eapply Rle_lt_trans; [|exact Hlong].
  assert (Hi : (0 < / (r0 - r_S))%R) by (apply Rinv_0_lt_compat; lra).
  replace (D * (1 + D / (r0 - r_S)))%R with ((r0 + D - r_S) * (D / (r0 - r_S)))%R by (field; lra).
  apply Rmult_le_compat; [lra|unfold Rdiv; apply Rmult_le_pos; lra|lra|]. unfold Rdiv. apply Rmult_le_compat_r; lra.
Qed.
(** The ray that goes towards the horizon. *)
Lemma ends_toward (s K D y : R) (f : R → fl) (fd : R → R) : s = 1%R ∨ s = (-1)%R → (0 < D)%R →
  (∀ q, q ≠ r_S → fl_real (f q) = K + s * F q)%R → (∀ q, fd q = s * (1 + 1 * r_S / (q - r_S)))%R →
  y = (K + s * (F r0 - D))%R → (F (r_S + precission) <= F r0 - D)%R →
  D ≠ r0 → (D < r0 → (r0 - r_S) * (D / (r0 - D)) < 2 ^ 48 * precission)%R →
  (r0 < D → (r0 - r_S) * (r0 - r_S) < 2 ^ 48 * (precission * precission))%R →
  (r_S < Newton f fd r0 y (Some r_S) None <= r0)%R.
Proof using Hp H0.
  intros Hs HD Hf Hfd -> Hpr Hne H1 H2. pose proof precission_pos as Hpp.
  assert (Hlt : (r_S + precission < r0)%R).
  { destruct (Rlt_le_dec (r_S + precission) r0) as [?|Hge]; [done|]. pose proof (ray_outside 1 r_S r0 (r_S + precission) Hp ltac:(lra) H0 Hge). lra. }
  destruct (ray_root 1 r_S Hp (r_S + precission) r0 (F r0 - D)) as (w & Hw & Ew); [lra|lra|lra|]. rewrite <- Ew.
  assert (Hw0 : (w < r0)%R). { destruct (Req_dec w r0) as [->|]; lra. }
  assert (Hgo : (r_S < newton_loop 50 (λ r, fl_real (f r)) fd (K + s * F w) (Some r_S) None 0 precission r0 <= w)%R).
  { apply (Newton_down 1 r_S ltac:(lra) Hp s K f fd r0 w 48 Hs Hf Hfd ltac:(lra) Hw0).
    - rewrite Ew. lra.
    - rewrite Ew. intros Hd. apply half_pow. replace (F r0 - (F r0 - D))%R with D by ring. replace (r0 - r_S + 1 * r_S - D)%R with (r0 - D)%R by ring. apply H1. lra.
    - rewrite Ew. intros Hd. apply half_pow. apply H2. lra. }
  unfold Newton, NewtonsMethod. lra.
Qed.
End schwarzschild.

(** ** Where the rays end
    An origin outside the horizon of the Schwarzschild metric, a time slice at the distance D
    from the origin (p: the precision of Newton's method; d: the distance to the horizon).
    If D (1 + D / d) < 2^49 p, the ray that leaves the black hole (the outgoing one in future
    cones, the ingoing one in past cones) goes on to larger radii and ends at the time slice.
    If the other ray is not within p of the horizon at the time slice, D is not exactly r0 and
    d is not too large, that ray ends outside the horizon at the time slice. *)
Theorem C83_rays_end (r_S t0 x0 ts : R) (n : Z) (past : bool) :
  let r0 := Rabs x0 in let N := edge_count n in let p := (1 / 1000000)%R in
  let D := Rabs (ts - t0) in let d := (r0 - r_S)%R in
  let t_out := S_outgoing r_S t0 r0 in let t_in := S_ingoing r_S t0 r0 in
  let t_away := if past then t_in else t_out in let t_toward := if past then t_out else t_in in
  (p <= r_S)%R → (r_S < r0)%R → 2 ≤ N → (0 < sign past * (ts - t0))%R →
  (D * (1 + D / d) < 2 ^ 49 * p)%R →
  ∃ r_out r_in out inn inner, BH_XT_slice true r_S ts [t0; x0] 1 n = Ok (out ++ inn ++ inner) ∧
    traces out N x0 r_S r0 r_out t_out ∧ traces inn N x0 r_S r_in r0 t_in ∧
    let away := if past then r_in else r_out in let toward := if past then r_out else r_in in
    (r0 <= away)%R ∧ (r_S + p < r0 → Rabs (t_away away - ts) <= accuracy 1 r_S away)%R ∧
    ((0 <= sign past * (t_toward (r_S + p) - ts))%R → D ≠ r0 →
     (D < r0 → d * (D / (r0 - D)) < 2 ^ 48 * p)%R → (r0 < D → d * d < 2 ^ 48 * (p * p))%R →
     (r_S < toward <= r0)%R ∧ (r_S + p < toward → Rabs (t_toward toward - ts) <= accuracy 1 r_S toward)%R).
Proof.
  intros r0 N p D d t_out t_in t_away t_toward Hpp Hout HN Hts Hlong. assert (Hp : (0 < r_S)%R) by (unfold p in Hpp; lra). assert (Hne : r0 ≠ r_S) by lra. assert (Hr0 : (0 <= r0)%R) by apply Rabs_pos.
  pose proof precission_pos as Hpp0. assert (Ep : p = precission) by done.
  unfold BH_XT_slice. assert (EI : np_index [t0; x0] 1 = Ok (A := R) x0) by done. rewrite EI. cbn [res_map]. rewrite edge_count_sampling. fold N.
  unfold S_XT_rows. fold r0. cbv zeta. unfold cget. cbn [nth]. rewrite decide_False by done. rewrite decide_False by lra.
  set (r_out := Newton (light_S_out r_S t0 r0) _ _ _ _ _). set (r_in := Newton (light_S_in r_S t0 r0) _ r0 _ _ _).
  assert (H1 : r_out = 0%R ∨ (r_S <= r_out)%R ∧ ((r_S + p < r_out)%R → (ts - accuracy 1 r_S r_out <= t_out r_out <= ts)%R)).
  { destruct (Newton_out r_S t0 r0 Hp Hne r0 ts (Some r_S) None) as [E|(A & _ & C)]; [done|by left|]. fold r_out in A, C. right. split; [by apply A|]. intros Hr. apply C; [|done|rewrite Rabs_right; lra].
    intros m [= <-]. lra. }
  assert (H2 : r_in = 0%R ∨ (r_S <= r_in)%R ∧ ((r_S + p < r_in)%R → (ts <= t_in r_in <= ts + accuracy 1 r_S r_in)%R)).
  { destruct (Newton_in r_S t0 r0 Hp Hne r0 ts (Some r_S) None) as [E|(A & _ & C)]; [done|by left|]. fold r_in in A, C. right. split; [by apply A|]. intros Hr. apply C; [|done|rewrite Rabs_right; lra].
    intros m [= <-]. lra. }
  assert (0 <= r_out)%R by lra. assert (0 <= r_in)%R by lra.
  assert (Hfo : ∀ q, (light_S_out_d1 r_S q = 1 * (1 + 1 * r_S / (q - r_S)))%R) by (intros q; unfold light_S_out_d1; rewrite !Rmult_1_l; done).
  assert (Hfi : ∀ q, (light_S_in_d1 r_S q = (-1) * (1 + 1 * r_S / (q - r_S)))%R) by (intros q; unfold light_S_in_d1; rewrite Rmult_1_l; ring).
  set (XT := ray_rows x0 (light_S_out r_S t0 r0) (linspace r0 r_out N) ++ ray_rows x0 (light_S_in r_S t0 r0) (linspace r_in r0 N)).
  match goal with |- ∃ _ _ _ _ _, Ok ?l = _ ∧ _ => assert (HX : ∃ inner, l = XT ++ inner) by (destruct (_ && _); [by eexists|exists []; by rewrite app_nil_r]) end.
  destruct HX as [inner ->]. exists r_out, r_in, (ray_rows x0 (light_S_out r_S t0 r0) (linspace r0 r_out N)), (ray_rows x0 (light_S_in r_S t0 r0) (linspace r_in r0 N)), inner.
  split; [unfold XT; by rewrite <- app_assoc|]. split; [by apply trace_out|]. split; [by apply trace_in|].
  assert (HD : (0 < D ∧ ts = t0 + (if past then - D else D))%R).
  { unfold D. destruct past; cbn [sign] in Hts; [rewrite Rabs_left by lra|rewrite Rabs_right by lra]; lra. }
  destruct HD as [HD0 Ets].
  assert (HO : ∀ q, q ≠ r_S → (fl_real (light_S_out r_S t0 r0 q) = (t0 - ray 1 r_S r0) + 1 * ray 1 r_S q)%R) by (intros; by apply S_out_real).
  assert (HI : ∀ q, q ≠ r_S → (fl_real (light_S_in r_S t0 r0 q) = (t0 + ray 1 r_S r0) + (-1) * ray 1 r_S q)%R) by (intros; by apply S_in_real).
  assert (Haccuracy : ∀ e r, (e <= 0 → - accuracy 1 r_S r <= e → Rabs e <= accuracy 1 r_S r)%R) by (intros e r A B; rewrite Rabs_left1; lra).
  assert (Haccuracy' : ∀ e r, (0 <= e → e <= accuracy 1 r_S r → Rabs e <= accuracy 1 r_S r)%R) by (intros e r A B; rewrite Rabs_right; lra).
  destruct past; cbn [sign] in *.
  - (* past *)
    assert (Haway : (r0 <= r_in)%R).
    { apply (ends_away r_S r0 Hp Hout (-1) (t0 + ray 1 r_S r0) D ts); try done; [by right|lra|lra]. }
    split; [done|]. split.
    { intros Hfar. destruct H2 as [E|[_ H2]]; [lra|]. specialize (H2 ltac:(lra)). unfold t_away. apply Haccuracy'; lra. }
    intros Htw HDne C1 C2. assert (Ht : (r_S < r_out <= r0)%R).
    { apply (ends_toward r_S r0 Hp Hout 1 (t0 - ray 1 r_S r0) D ts); try done; [by left|lra|]. unfold t_toward, t_out, S_outgoing in Htw. rewrite !ray1. rewrite Ep in Htw. lra. }
    split; [done|]. intros Hfar. destruct H1 as [E|[_ H1]]; [lra|]. specialize (H1 Hfar). unfold t_toward. apply Haccuracy; lra.
  - (* future *)
    assert (Haway : (r0 <= r_out)%R).
    { apply (ends_away r_S r0 Hp Hout 1 (t0 - ray 1 r_S r0) D ts); try done; [by left|lra|lra]. }
    split; [done|]. split.
    { intros Hfar. destruct H1 as [E|[_ H1]]; [lra|]. specialize (H1 ltac:(lra)). unfold t_away. apply Haccuracy; lra. }
    intros Htw HDne C1 C2. assert (Ht : (r_S < r_in <= r0)%R).
    { apply (ends_toward r_S r0 Hp Hout (-1) (t0 + ray 1 r_S r0) D ts); try done; [by right|lra|]. unfold t_toward, t_in, S_ingoing in Htw. rewrite !ray1. rewrite Ep in Htw. lra. }
    split; [done|]. intros Hfar. destruct H2 as [E|[_ H2]]; [lra|]. specialize (H2 Hfar). unfold t_toward. apply Haccuracy'; lra.
Qed.
Print Assumptions C83_rays_end.

(** The same for the outgoing ray in the Eddington-Finkelstein metric; Newton's method starts
    at 3/2 r_S, which the ray passes before or after the time slice. *)
Theorem C83_EF_ray_ends (r_S t0 x0 ts : R) (n : Z) :
  let r0 := Rabs x0 in let N := edge_count n in let p := (1 / 1000000)%R in
  let time r := (t0 + (outgoing r_S r - outgoing r_S r0))%R in
  let M := (r0 - r_S + Rmax 0 (ts - t0))%R in let D := (time (3 / 2 * r_S) - ts)%R in let L := (5 / 2 * r_S)%R in
  (0 < r_S)%R → (r_S < r0)%R → 2 ≤ N → (time (r_S + p) <= ts)%R →
  (D <= 0 → 2 * (M * M) < 2 ^ 49 * p * r_S)%R →
  D ≠ L → (0 < D < L → r_S / 2 * (D / (L - D)) < 2 ^ 48 * p)%R → (L < D → r_S / 2 * (r_S / 2) < 2 ^ 48 * (p * p))%R →
  ∃ r_out out rest, BH_XT_slice false r_S ts [t0; x0] 1 n = Ok (out ++ rest) ∧ traces out N x0 r_S r0 r_out time ∧
    (r_S < r_out)%R ∧ (r_S + p < r_out → Rabs (time r_out - ts) <= accuracy 2 r_S r_out)%R.
Proof.
  intros r0 N p time M D L Hp Hout HN Hclose C0 HDL C1 C2. assert (Hne : r0 ≠ r_S) by lra. assert (Hr0 : (0 <= r0)%R) by apply Rabs_pos.
  pose proof precission_pos as Hpp. assert (Ep : p = precission) by done.
  destruct (C83_EddingtonFinkelstein r_S t0 x0 ts n Hp Hne) as (_ & _ & _); [fold r0; lra|done|].
  unfold BH_XT_slice. assert (EI : np_index [t0; x0] 1 = Ok (A := R) x0) by done. rewrite EI. cbn [res_map]. rewrite edge_count_sampling. fold N.
  unfold EF_XT_rows. fold r0. cbv zeta. unfold cget. cbn [nth].
  rewrite !(decide_False (P := (r0 < r_S)%R)) by lra. rewrite (decide_False (P := r0 = r_S)) by done.
  set (r_out := Newton _ _ _ _ _ _).
  assert (Ef : ∀ r, light_EF_out r_S t0 r0 r = if decide (r = r_S) then NInf else Fin (time r)) by (intros r; by rewrite EF_out).
  assert (HF : ∀ q, q ≠ r_S → (fl_real (light_EF_out r_S t0 r0 q) = (t0 - ray 2 r_S r0) + 1 * ray 2 r_S q)%R).
  { intros q Hq. rewrite Ef, decide_False by done. cbn [fl_real]. unfold time. change (outgoing r_S) with (ray 2 r_S). ring. }
  assert (HFd : ∀ q, (light_EF_out_d1 r_S q = 1 * (1 + 2 * r_S / (q - r_S)))%R) by (intros q; unfold light_EF_out_d1; ring).
  assert (Hro : (r_S < r_out)%R).
  { assert (Hroot : ∃ w, (r_S + p <= w <= r0 + Rmax 0 (ts - t0))%R ∧ (ray 2 r_S w = ray 2 r_S r0 + (ts - t0))%R).
    { assert (Hmx : (0 <= Rmax 0 (ts - t0))%R) by apply Rmax_l. assert (Hmx' : (ts - t0 <= Rmax 0 (ts - t0))%R) by apply Rmax_r.
      pose proof (ray_outside 2 r_S r0 (r0 + Rmax 0 (ts - t0)) Hp ltac:(lra) Hout ltac:(lra)) as HB. unfold time in Hclose. change (outgoing r_S) with (ray 2 r_S) in Hclose.
      destruct (Rle_lt_dec (r_S + p) (r0 + Rmax 0 (ts - t0))) as [Hle|Hgt].
      - destruct (ray_root 2 r_S Hp (r_S + p) (r0 + Rmax 0 (ts - t0)) (ray 2 r_S r0 + (ts - t0))) as (w & Hw & Ew); [lra|done|lra|]. by exists w.
      - exfalso. pose proof (ray_outside 2 r_S (r0 + Rmax 0 (ts - t0)) (r_S + p) Hp ltac:(lra) ltac:(lra) ltac:(lra)). lra. }
    destruct Hroot as (w & Hw & Ew). assert (Ey : ts = (t0 - ray 2 r_S r0 + 1 * ray 2 r_S w)%R) by (rewrite Ew; ring).
    assert (ED : D = (ray 2 r_S (3 / 2 * r_S) - ray 2 r_S w)%R) by (unfold D, time; change (outgoing r_S) with (ray 2 r_S); rewrite Ew; ring).
    assert (Hgo : ∃ x, (r_S < x)%R ∧ (x <= newton_loop 50 (λ r, fl_real (light_EF_out r_S t0 r0 r)) (light_EF_out_d1 r_S) (t0 - ray 2 r_S r0 + 1 * ray 2 r_S w) (Some r_S) None 0 precission (3 / 2 * r_S))%R).
    { destruct (Rle_lt_dec (3 / 2 * r_S) w) as [Hs|Hs].
      - exists (3 / 2 * r_S)%R. split; [lra|]. apply (Newton_up 2 r_S ltac:(lra) Hp 1 _ _ _ (3 / 2 * r_S) w 49); try done; [by left|lra|]. apply half_pow.
        assert (HD0 : (D <= 0)%R). { pose proof (ray_outside 2 r_S (3 / 2 * r_S) w Hp ltac:(lra) ltac:(lra) Hs). lra. }
        specialize (C0 HD0). replace (3 / 2 * r_S - r_S)%R with (r_S / 2)%R by field. replace ((w - r_S) * ((w - 3 / 2 * r_S) / (r_S / 2)))%R with (2 * ((w - r_S) * (w - 3 / 2 * r_S)) / r_S)%R by (field; lra).
        apply (Rmult_lt_reg_r r_S); [done|]. replace (2 * ((w - r_S) * (w - 3 / 2 * r_S)) / r_S * r_S)%R with (2 * ((w - r_S) * (w - 3 / 2 * r_S)))%R by (field; lra).
        eapply Rle_lt_trans; [|exact C0]. apply Rmult_le_compat_l; [lra|]. unfold M. apply Rmult_le_compat; lra.
      - assert (HD0 : (0 < D)%R). { pose proof (ray_outside 2 r_S w (3 / 2 * r_S) Hp ltac:(lra) ltac:(lra) ltac:(lra)). lra. }
        pose proof (Newton_down 2 r_S ltac:(lra) Hp 1 (t0 - ray 2 r_S r0) (light_EF_out r_S t0 r0) (light_EF_out_d1 r_S) (3 / 2 * r_S) w 48) as HN'. cbv zeta in HN'. rewrite <- ED in HN'.
        replace (3 / 2 * r_S - r_S)%R with (r_S / 2)%R in HN' by field. replace (r_S / 2 + 2 * r_S)%R with L in HN' by (unfold L; field).
        destruct HN' as [H1 H2]; try done; [by left|lra|intros ?; apply half_pow; apply C1; lra|intros ?; apply half_pow; by apply C2|]. eexists. split; [exact H1|apply Rle_refl]. }
    destruct Hgo as (x & H1 & H2). rewrite <- Ey in H2. unfold r_out, Newton, NewtonsMethod. lra. }
  eexists r_out, _, _. split; [reflexivity|]. split; [|split; [done|]].
  - apply traces_ray; try done; [lra|intros r Hr; by rewrite Ef, decide_False|left; by rewrite Ef, decide_True].
  - intros Hfar. destruct (Newton_spec 2 r_S ltac:(lra) Hp 1 (t0 - ray 2 r_S r0) (light_EF_out r_S t0 r0) (light_EF_out_d1 r_S) (3 / 2 * r_S) ts (Some r_S) None) as [E|(_ & _ & H3)]; try done; [by left|fold r_out in E; lra|].
    fold r_out in H3. specialize (H3 ltac:(intros m [= <-]; lra) ltac:(done) ltac:(rewrite Rabs_right; lra)). rewrite Ef, decide_False in H3 by lra. cbn [fl_real] in H3. unfold newton_error in H3. unfold accuracy, precission in *. rewrite Rabs_left1; lra.
Qed.
Print Assumptions C83_EF_ray_ends.

(** ** Converged cones are causal: C83_EF_causal and C83_Schwarzschild_causal without the
    condition on the sampled radii. *)
Lemma traces_radius rows N x r_S a b time y t : traces rows N x r_S a b time → (r_S < a)%R → (r_S < b)%R → (0 < r_S)%R → 2 ≤ N →
  Some (Fin y, t) ∈ rows → (r_S < Rabs y)%R.
Proof.
  intros [HL HT] Ha Hb Hp HN Hin. apply elem_of_list_lookup in Hin as [k Hk]. assert (Hkl : k < N) by (rewrite <- HL; by eapply lookup_lt_Some).
  destruct (HT k Hkl) as (t' & E & _). destruct (sampled_between a b k N ltac:(lra) ltac:(lra) HN Hkl) as [Hr1 Hr2]. set (r := (a + INR k / INR (N - 1) * (b - a))%R) in *. clearbody r.
  assert (E' := eq_trans (eq_sym Hk) E). injection E' as -> ->. rewrite on_side_abs by done. assert (r_S < Rmin a b)%R by (by apply Rmin_glb_lt). lra.
Qed.
Theorem C83_EF_converged (r_S t0 x0 ts : R) (n : Z) (past : bool) rows :
  let r0 := Rabs x0 in let p := (1 / 1000000)%R in
  let time r := (t0 + (outgoing r_S r - outgoing r_S r0))%R in
  let M := (r0 - r_S + Rmax 0 (ts - t0))%R in let D := (time (3 / 2 * r_S) - ts)%R in let L := (5 / 2 * r_S)%R in
  (0 < r_S)%R → (r_S < r0)%R → 2 ≤ edge_count n → (0 < sign past * (ts - t0))%R → (time (r_S + p) <= ts)%R →
  (D <= 0 → 2 * (M * M) < 2 ^ 49 * p * r_S)%R →
  D ≠ L → (0 < D < L → r_S / 2 * (D / (L - D)) < 2 ^ 48 * p)%R → (L < D → r_S / 2 * (r_S / 2) < 2 ^ 48 * (p * p))%R →
  BH_XT_slice false r_S ts [t0; x0] 1 n = Ok rows →
  ∀ x t, vertex x t ∈ rows → (0 <= sign past * (t - t0))%R → in_cone (BlackHole r_S false) past [t0; x0] [t; x].
Proof.
  intros r0 p time M D L Hp Hout HN Hts Hclose C0 HDL C1 C2 Er x t Hv Ht.
  destruct (C83_EF_ray_ends r_S t0 x0 ts n Hp Hout HN Hclose C0 HDL C1 C2) as (r_out & out & rest & Er' & HT & Hro & _). fold r0 in HT.
  assert (Erows : rows = out ++ rest) by congruence.
  apply (C83_EF_causal r_S t0 x0 ts n past rows Hp); try done; fold r0; [lra|lra|].
  intros _ x' t' Hin. rewrite Erows in Hin. assert (HL : length out = edge_count n) by apply HT. rewrite take_app_alt in Hin by done.
  eapply (traces_radius out); [exact HT|exact Hout|exact Hro|exact Hp|exact HN|exact Hin].
Qed.
Print Assumptions C83_EF_converged.
Theorem C83_Schwarzschild_converged (r_S t0 x0 ts : R) (n : Z) (past : bool) rows :
  let r0 := Rabs x0 in let p := (1 / 1000000)%R in let D := Rabs (ts - t0) in let d := (r0 - r_S)%R in
  let t_toward := if past then S_outgoing r_S t0 r0 else S_ingoing r_S t0 r0 in
  (p <= r_S)%R → (r_S < r0)%R → 2 ≤ edge_count n → (0 < sign past * (ts - t0))%R →
  (D * (1 + D / d) < 2 ^ 49 * p)%R → (0 <= sign past * (t_toward (r_S + p) - ts))%R → D ≠ r0 →
  (D < r0 → d * (D / (r0 - D)) < 2 ^ 48 * p)%R → (r0 < D → d * d < 2 ^ 48 * (p * p))%R →
  BH_XT_slice true r_S ts [t0; x0] 1 n = Ok rows →
  ∀ x t, vertex x t ∈ rows → (r_S < Rabs x → 0 <= sign past * (t - t0))%R → in_cone (BlackHole r_S true) past [t0; x0] [t; x].
Proof.
  intros r0 p D d t_toward Hpp Hout HN Hts Hlong Htw HDne C1 C2 Er x t Hv Ht. assert (Hp : (0 < r_S)%R) by (unfold p in Hpp; lra).
  destruct (C83_rays_end r_S t0 x0 ts n past Hpp Hout HN Hts Hlong) as (r_out & r_in & out & inn & inner & Er' & T1 & T2 & Ha & _ & Htr). fold r0 in T1, T2, Ha, Htr.
  destruct Htr as [Htr _]; [by destruct past|done|done|done|].
  assert (Erows : rows = (out ++ inn) ++ inner) by (rewrite <- app_assoc; congruence).
  assert (Hoi : (r_S < r_out ∧ r_S < r_in)%R) by (destruct past; lra). destruct Hoi as [Ho Hi].
  apply (C83_Schwarzschild_causal r_S t0 x0 ts n past rows Hpp); try done; fold r0; [lra| |intros ?; lra].
  - intros _ x' t' Hin. rewrite Erows in Hin. assert (HL : length (out ++ inn) = 2 * edge_count n) by (rewrite app_length; destruct T1 as [-> _]; destruct T2 as [-> _]; lia). rewrite take_app_alt in Hin by done.
    apply elem_of_app in Hin as [Hin|Hin].
    + eapply (traces_radius out); [exact T1|exact Hout|exact Ho|exact Hp|exact HN|exact Hin].
    + eapply (traces_radius inn); [exact T2|exact Hi|exact Hout|exact Hp|exact HN|exact Hin].
Qed.
Print Assumptions C83_Schwarzschild_converged.

(** The event at radius 3 (r_S = 1) and a time slice one unit later or earlier meet the hypotheses. *)
Lemma pow48 : (10000000 * 1000000 < 2 ^ 48)%R.
Proof. change 48 with (24 + 24)%nat. rewrite pow_add. assert (H : (2 ^ 24 = 16777216)%R) by (cbn [pow]; lra). rewrite H. lra. Qed.
Lemma ln_small : (ln (1 / 1000000) < 0 ∧ 0 < ln 2 < 1)%R.
Proof.
  split; [|split; [rewrite <- ln_1; apply ln_increasing; lra|]].
  - rewrite <- ln_1. apply ln_increasing; lra.
  - rewrite <- (ln_exp 1). apply ln_increasing; [lra|]. pose proof (exp_ineq1 1 ltac:(lra)). lra.
Qed.
Example C83_converged_nonvacuous (past : bool) : let r0 := Rabs 3 in let ts := sign past in let p := (1 / 1000000)%R in let D := Rabs (ts - 0) in let d := (r0 - 1)%R in
  let t_toward := if past then S_outgoing 1 0 r0 else S_ingoing 1 0 r0 in
  (p <= 1)%R ∧ (1 < r0)%R ∧ 2 ≤ edge_count (-1) ∧ (0 < sign past * (ts - 0))%R ∧
  (D * (1 + D / d) < 2 ^ 49 * p)%R ∧ (0 <= sign past * (t_toward (1 + p) - ts))%R ∧ D ≠ r0 ∧
  (D < r0 → d * (D / (r0 - D)) < 2 ^ 48 * p)%R ∧ (r0 < D → d * d < 2 ^ 48 * (p * p))%R.
Proof.
  intros r0 ts p D d t_toward. assert (E0 : r0 = 3%R) by (unfold r0; apply Rabs_right; lra). assert (ED : D = 1%R) by (unfold D, ts; destruct past; cbn [sign]; [rewrite Rabs_left|rewrite Rabs_right]; lra).
  assert (Ed : d = 2%R) by (unfold d; lra). unfold t_toward. rewrite ED, Ed, E0. pose proof pow48 as H48. destruct ln_small as [Hl Hl2].
  assert (E1 : tortoise 1 (1 + p) = (1 + p + ln p)%R). { unfold tortoise. rewrite Rabs_right by (unfold p; lra). replace ((1 + p - 1) / 1)%R with p by field. ring. }
  assert (E2 : tortoise 1 3 = (3 + ln 2)%R). { unfold tortoise. rewrite Rabs_right by lra. replace ((3 - 1) / 1)%R with 2%R by field. ring. }
  fold p in Hl. split; [unfold p; lra|]. split; [lra|]. split; [unfold edge_count; rewrite decide_False by lia; lia|]. split; [unfold ts; destruct past; cbn [sign]; lra|].
  split; [change 49 with (S 48); cbn [pow]; unfold p; lra|]. split; [|split; [lra|split; [intros _; unfold p; lra|lra]]].
  unfold ts. destruct past; cbn [sign]; unfold S_outgoing, S_ingoing; rewrite E1, E2; unfold p in *; lra.
Qed.
Example C83_EF_converged_nonvacuous : let r0 := Rabs 3 in let p := (1 / 1000000)%R in let ts := 1%R in let t0 := 0%R in
  let time r := (t0 + (outgoing 1 r - outgoing 1 r0))%R in
  let M := (r0 - 1 + Rmax 0 (ts - t0))%R in let D := (time (3 / 2 * 1) - ts)%R in let L := (5 / 2 * 1)%R in
  (1 < r0)%R ∧ (0 < sign false * (ts - t0))%R ∧ (time (1 + p) <= ts)%R ∧ (D <= 0)%R ∧ (2 * (M * M) < 2 ^ 49 * p * 1)%R ∧ D ≠ L.
Proof.
  intros r0 p ts t0 time M D L. assert (E0 : r0 = 3%R) by (unfold r0; apply Rabs_right; lra). pose proof pow48 as H48. destruct ln_small as [Hl Hl2].
  assert (E1 : outgoing 1 (1 + p) = (1 + p + 2 * ln p)%R). { unfold outgoing. rewrite Rabs_right by (unfold p; lra). replace ((1 + p - 1) / 1)%R with p by field. ring. }
  assert (E2 : outgoing 1 3 = (3 + 2 * ln 2)%R). { unfold outgoing. rewrite Rabs_right by lra. replace ((3 - 1) / 1)%R with 2%R by field. ring. }
  assert (E3 : outgoing 1 (3 / 2 * 1) = (3 / 2 - 2 * ln 2)%R). { unfold outgoing. rewrite Rabs_right by lra. replace ((3 / 2 * 1 - 1) / 1)%R with (/ 2)%R by field. rewrite ln_Rinv by lra. lra. }
  fold p in Hl. assert (EM : M = 3%R) by (unfold M, ts, t0; rewrite E0, Rmax_right; lra).
  assert (HD : (D <= 0)%R) by (unfold D, time, t0, ts; rewrite E0, E3, E2; lra).
  split; [lra|]. split; [cbn [sign]; unfold ts, t0; lra|]. split; [unfold time, t0, ts; rewrite E0, E1, E2; unfold p in *; lra|]. split; [done|]. split; [|unfold L; lra].
  rewrite EM. change 49 with (S 48). cbn [pow]. unfold p. lra.
Qed.
