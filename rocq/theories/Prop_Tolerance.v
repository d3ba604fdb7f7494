(** C46 - C48 for the tolerance that the code really uses: how far the answers of
    [Causality] with a tolerance [eps] >= 0 (/repo/spacetimes.py:21) are from the exact order. *)
From Verif Require Import Base SpacetimeModel SpacetimeFacts Prop_Spacetime.
From Coq Require Import Reals Rtrigo_def Lra Psatz.
#[local] Open Scope nat_scope.

(** ** Specification *)
(** The same place, a time s later. *)
Definition later (s : R) (y : coords) : coords := (cget y 0 + s)%R :: tail y.
(** The delay that the tolerance amounts to: in two dimensions the code subtracts eps from the
    distance, in more dimensions from the squared distance. *)
Definition delay (eps : R) (dim : nat) : R := if decide (dim = 2) then eps else sqrt eps.
(** Every point of the list is reported to precede the next one. *)
Fixpoint reported_chain (le : coords → coords → Prop) (x : coords) (l : list coords) : Prop :=
  match l with [] => True | y :: l => le x y ∧ reported_chain le y l end.

(** ** Larger tolerances only add relations *)
Theorem C46_tolerance_monotone (eps eps' : R) (st : spacetime) (x y : coords) :
  (eps <= eps')%R →
  ((Causality eps st x y).1 = true → (Causality eps' st x y).1 = true) ∧
  ((Causality eps st x y).2 = true → (Causality eps' st x y).2 = true).
Proof.
  intros He.
  assert (∀ d a b : R,
    ((by_sign d (bool_decide (a - eps <= b)%R)).1 = true → (by_sign d (bool_decide (a - eps' <= b)%R)).1 = true) ∧
    ((by_sign d (bool_decide (a - eps <= b)%R)).2 = true → (by_sign d (bool_decide (a - eps' <= b)%R)).2 = true)) as Hg.
  { intros d a b. rewrite !by_sign_fst, !by_sign_snd, !bool_decide_eq_true.
    split; intros [? ?]; split; lra. }
  destruct st as [|dim [ps|]|dim alpha|dim alpha|r_S schw]; cbn [Causality]; [by split|..].
  - destruct (decide (dim = 1)); [by split|]. destruct (decide (dim = 2)); apply Hg.
  - destruct (decide (dim = 1)); [by split|]. destruct (decide (dim = 2)); apply Hg.
  - unfold isCausal_dS. destruct (decide _); [by split|]. destruct (decide _); [by split|]. apply Hg.
  - apply Hg.
  - by split.
Qed.

(** ** Flat causality within the tolerance *)
(** [flat_prec] up to a delay. *)
Definition near_prec (s : R) (x y : coords) : Prop :=
  (0 <= cget y 0 - cget x 0)%R ∧
  (sqsum (space_delta x y) <= (cget y 0 - cget x 0 + s) * (cget y 0 - cget x 0 + s))%R.

Lemma cget_later0 s y : cget (later s y) 0 = (cget y 0 + s)%R.
Proof. done. Qed.
Lemma near_prec_later s x y : (0 <= s)%R → near_prec s x y → flat_prec x (later s y).
Proof.
  intros Hs [H1 H2]. unfold flat_prec. rewrite !cget_later0.
  split; [lra|]. unfold space_delta, later. cbn [tail]. unfold space_delta in H2.
  replace (cget y 0 + s - cget x 0)%R with (cget y 0 - cget x 0 + s)%R by lra. exact H2.
Qed.
Lemma near_prec_trans s t x y z :
  length x = length y → length y = length z → (0 <= s)%R → (0 <= t)%R →
  near_prec s x y → near_prec t y z → near_prec (s + t) x z.
Proof.
  intros H1 H2 Hs Ht [Hxy Sxy] [Hyz Syz]. split; [lra|].
  unfold space_delta in *.
  assert (length (tail x) = length (tail y)) by (destruct x, y; cbn in *; lia).
  assert (length (tail y) = length (tail z)) by (destruct y, z; cbn in *; lia).
  rewrite (vsub_split _ (tail y)) by done.
  replace (cget z 0 - cget x 0 + (s + t))%R
    with ((cget y 0 - cget x 0 + s) + (cget z 0 - cget y 0 + t))%R by lra.
  apply minkowski; try done; [by rewrite !vsub_length|lra|lra].
Qed.
Lemma near_prec_refl x : near_prec 0 x x.
Proof. split; [lra|]. unfold space_delta. rewrite vsub_self. nra. Qed.
Lemma near_prec_chain (le : coords → coords → Prop) (s : R) (n : nat) :
  (0 <= s)%R →
  (∀ a b, length a = n → length b = n → le a b → near_prec s a b) →
  ∀ l x, length x = n → Forall (λ y, length y = n) l → reported_chain le x l →
  near_prec (INR (length l) * s) x (List.last l x).
Proof.
  intros Hs Hle l. induction l as [|y l IH]; intros x Hx Hl H.
  - cbn. rewrite Rmult_0_l. apply near_prec_refl.
  - apply Forall_cons in Hl as [Hy Hl]. destruct H as [H1 H2].
    specialize (IH y Hy Hl H2). specialize (Hle x y Hx Hy H1).
    replace (List.last (y :: l) x) with (List.last l y).
    2: { destruct l as [|z l]; [done|]. cbn [List.last].
         clear. revert z y. induction l as [|w l IH]; intros z y; [done|]. cbn [List.last]. apply IH. }
    change (length (y :: l)) with (S (length l)). rewrite S_INR.
    replace ((INR (length l) + 1) * s)%R with (s + INR (length l) * s)%R by lra.
    assert (length (List.last l y) = n).
    { clear - Hy Hl. revert y Hy. induction Hl as [|z l Hz Hl IH]; intros y Hy; [done|].
      destruct l as [|w l]; [done|]. apply (IH y Hy). }
    apply (near_prec_trans _ _ x y); try congruence.
    apply Rmult_le_pos; [apply pos_INR|done].
Qed.

Lemma flat_near eps dim x y :
  (0 <= eps)%R → dim ≥ 2 → length x = dim → length y = dim →
  (Causality eps (Flat dim None) x y).1 = true → near_prec (delay eps dim) x y.
Proof.
  intros He Hd Hx Hy. cbn [Causality]. rewrite decide_False by lia. unfold delay.
  destruct (decide (dim = 2)) as [->|Hn].
  - destruct x as [|x0 [|x1 []]]; try done. destruct y as [|y0 [|y1 []]]; try done.
    unfold isCausal_flat2D, near_prec, space_delta. rewrite by_sign_fst, bool_decide_eq_true.
    cbn [tail vsub zip_with]. rewrite sqsum_cons, sqsum_nil. unfold cget; cbn [nth].
    intros [H1 H2]. split; [done|]. rewrite Rplus_0_r. apply sq_le_abs; [lra|].
    rewrite (Rabs_pos_eq (y0 - x0)) in H2 by done. lra.
  - unfold isCausal_flat, near_prec. rewrite by_sign_fst, bool_decide_eq_true. intros [H1 H2].
    split; [done|]. pose proof (sqrt_pos eps). pose proof (sqrt_sqrt eps He). nra.
Qed.
Lemma delay_nonneg eps dim : (0 <= eps)%R → (0 <= delay eps dim)%R.
Proof. intros. unfold delay. case_decide; [done|apply sqrt_pos]. Qed.
Lemma length_later s y dim : dim ≥ 1 → length y = dim → length (later s y) = dim.
Proof. intros H1 H2. unfold later. destruct y; cbn in *; lia. Qed.

(** The exact answer for every tolerance: two points are reported causal iff the second is not
    earlier and its distance exceeds the time at most by eps (squared in more than two
    dimensions).  Everything that is causal is reported, and what is reported is causal after a
    delay of at most eps (or its square root); along a chain of n reported relations the delays
    add up to n times that. *)
Theorem C47_tolerance (eps : R) (dim : nat) (x y : coords) (l : list coords) :
  (0 <= eps)%R → dim ≥ 2 → length x = dim → length y = dim → Forall (λ z, length z = dim) l →
  let le a b := (Causality eps (Flat dim None) a b).1 = true in
  (le x y ↔ (cget x 0 <= cget y 0)%R ∧
     (if decide (dim = 2%nat) then Rabs (cget y 1 - cget x 1) <= cget y 0 - cget x 0 + eps
      else distance2 dim x y <= (cget y 0 - cget x 0) * (cget y 0 - cget x 0) + eps)%R) ∧
  (minkowski_future dim x y → le x y) ∧
  (le x y → minkowski_future dim x (later (delay eps dim) y)) ∧
  (reported_chain le x l →
     minkowski_future dim x (later (INR (length l) * delay eps dim) (List.last l x))).
Proof.
  intros He Hd Hx Hy Hl le.
  assert (le x y ↔ (cget x 0 <= cget y 0)%R ∧
     (if decide (dim = 2%nat) then Rabs (cget y 1 - cget x 1) <= cget y 0 - cget x 0 + eps
      else distance2 dim x y <= (cget y 0 - cget x 0) * (cget y 0 - cget x 0) + eps)%R) as Hle.
  { unfold le. cbn [Causality]. rewrite decide_False by lia. destruct (decide (dim = 2)) as [E|E].
    - unfold isCausal_flat2D. rewrite by_sign_fst, bool_decide_eq_true.
      split; intros [H1 H2]; (split; [lra|]); rewrite (Rabs_pos_eq (cget y 0 - cget x 0)) in * by lra; lra.
    - unfold isCausal_flat. rewrite by_sign_fst, bool_decide_eq_true.
      rewrite (sqsum_distance2 dim) by done. split; intros [H1 H2]; split; lra. }
  assert (∀ s z, length z = dim → (0 <= s)%R → near_prec s x z → minkowski_future dim x (later s z)) as Hn.
  { intros s z Hz Hs H. apply flat_prec_minkowski; [done|apply length_later; [lia|done]|].
    by apply near_prec_later. }
  split_and!.
  - exact Hle.
  - intros H. apply (proj1 (C47_flat dim x y y Hd Hx Hy Hy)) in H.
    unfold le. apply (proj1 (C46_tolerance_monotone 0 eps _ x y He) H).
  - intros H. apply Hn; [done|by apply delay_nonneg|]. by apply flat_near.
  - intros H. apply Hn.
    + assert (∀ z, length z = dim → length (List.last l z) = dim) as Hlast; [|by apply Hlast].
      intros z Hz. clear - Hl Hz. induction Hl as [|w l Hw Hl IH]; [done|].
      destruct l as [|v l]; [done|]. apply IH.
    + apply Rmult_le_pos; [apply pos_INR|by apply delay_nonneg].
    + apply (near_prec_chain le _ dim); try done; [by apply delay_nonneg|].
      intros a b Ha Hb. by apply flat_near.
Qed.

(** The same in a flat spacetime with periodic directions: "some image of y". *)
Theorem C47_tolerance_periodic (eps : R) (dim : nat) (ps : list R) (x y : coords) :
  (0 <= eps)%R → dim ≥ 2 → length x = dim → length y = dim → within_period ps x y →
  let le a b := (Causality eps (Flat dim (Some ps)) a b).1 = true in
  ((∃ k, windings ps k ∧ minkowski_future dim x (image_of dim ps k y)) → le x y) ∧
  (le x y → ∃ k, windings ps k ∧
     minkowski_future dim x (later (delay eps dim) (image_of dim ps k y))).
Proof.
  intros He Hd Hx Hy W le.
  assert (∀ z, tail z = tail y → within_period ps x z) as Wt.
  { intros z Hz i Hi Hp. rewrite <- (W i Hi Hp) at 1. right. do 2 f_equal.
    unfold cget. destruct i as [|i]; [lia|].
    destruct z as [|z0 z], y as [|y0 y]; cbn in *; try done; subst; try done.
    all: by destruct i. }
  assert (∀ z, tail z = tail y → length z = dim →
    (Causality 0 (Flat dim (Some ps)) x z).1 = true ↔
    ∃ k, windings ps k ∧ minkowski_future dim x (image_of dim ps k z)) as Hex.
  { intros z Hz Hlz. apply (C47_periodic dim ps x z z); try done; try by apply Wt.
    intros i Hi Hp. rewrite Rminus_eq_0, Rabs_R0. lra. }
  split.
  - intros H. apply Hex in H; [|done|done].
    unfold le. exact (proj1 (C46_tolerance_monotone 0 eps _ x y He) H).
  - intros H. set (s := delay eps dim).
    pose proof (delay_nonneg eps dim He) as Hs. fold s in Hs.
    assert ((Causality 0 (Flat dim (Some ps)) x (later s y)).1 = true) as H0.
    { unfold le in H. cbn [Causality] in H |- *. rewrite decide_False in H |- * by lia.
      assert (∀ i, i ≥ 1 → cget (later s y) i = cget y i) as Eg.
      { intros [|i] Hi; [lia|]. unfold cget, later. destruct y; [|done]. by destruct i. }
      unfold s, delay in *.
      destruct (decide (dim = 2)) as [->|Hn].
      - unfold isCausal_flat2Dperiodic in *. rewrite by_sign_fst, bool_decide_eq_true in *.
        rewrite (Eg 1) by lia. rewrite cget_later0. destruct H as [H1 H2].
        rewrite (Rabs_pos_eq (cget y 0 - cget x 0)) in H2 by lra.
        rewrite (Rabs_pos_eq (cget y 0 + eps - cget x 0)) by lra. split; lra.
      - rewrite isCausal_flatperiodic_eq in *. rewrite by_sign_fst, bool_decide_eq_true in *.
        rewrite cget_later0. destruct H as [H1 H2]. split; [lra|].
        assert (circ_list dim ps x (later (sqrt eps) y) = circ_list dim ps x y) as ->.
        { unfold circ_list. apply list_fmap_ext. intros j i Hi.
          apply lookup_seq in Hi as [-> ?]. by rewrite Eg by lia. }
        pose proof (sqrt_pos eps). pose proof (sqrt_sqrt eps He). nra. }
    apply Hex in H0; [|done|apply length_later; [lia|done]].
    destruct H0 as (k & Hk & H0). exists k. split; [done|].
    assert (image_of dim ps k (later s y) = later s (image_of dim ps k y)) as <-; [|done].
    unfold image_of, later. cbn [tail]. f_equal. apply list_fmap_ext.
    intros j i Hi. apply lookup_seq in Hi as [-> ?]. f_equal.
    unfold cget. cbn [Nat.add nth]. destruct y; [|done]. by destruct j.
Qed.

(** ** de Sitter spacetime in its ambient Minkowski spacetime *)
(** The point of the hyperboloid X_1^2 + ... - X_0^2 = alpha^2 with the static coordinates x. *)
Definition on_hyperboloid (alpha : R) (dim : nat) (x X : coords) : Prop :=
  length X = S dim ∧
  (∀ i, 1 <= i < dim → cget X (S i) = cget x i) ∧
  (distance2 (S dim) (replicate (S dim) 0%R) X - cget X 0 * cget X 0 = alpha * alpha)%R ∧
  (0 < cget X 1)%R ∧ (cget X 0 * cosh (cget x 0 / alpha) = cget X 1 * sinh (cget x 0 / alpha))%R.

Lemma cosh_sinh_sq t : (cosh t * cosh t - sinh t * sinh t = 1)%R.
Proof.
  unfold cosh, sinh. pose proof (exp_plus t (- t)) as E. rewrite Rplus_opp_r, exp_0 in E.
  unfold Rdiv. nra.
Qed.
Lemma cosh_pos t : (0 < cosh t)%R.
Proof. unfold cosh. pose proof (exp_pos t). pose proof (exp_pos (- t)). lra. Qed.
Lemma vsub_zeros n (v : list R) : length v = n → vsub v (replicate n 0%R) = v.
Proof.
  revert v. induction n as [|n IH]; intros [|a v] H; try done. cbn in *.
  f_equal; [lra|]. apply IH. lia.
Qed.
Lemma hyperboloid_point alpha dim x :
  (0 < alpha)%R → dim ≥ 2 → length x = dim → inside_horizon alpha x →
  on_hyperboloid alpha dim x (dS_ambient alpha x).
Proof.
  intros Ha Hd Hx Hin.
  assert (length (dS_ambient alpha x) = S dim) as Hlen.
  { unfold dS_ambient. cbn. destruct x; cbn in *; lia. }
  split; [done|]. unfold inside_horizon in Hin.
  assert (0 < alpha * alpha - sqsum (tail x))%R as Hp by lra.
  pose proof (sqrt_lt_R0 _ Hp) as Hsp.
  assert (cget (dS_ambient alpha x) 0 = sqrt (alpha * alpha - sqsum (tail x)) * sinh (cget x 0 / alpha))%R as A0 by done.
  assert (cget (dS_ambient alpha x) 1 = sqrt (alpha * alpha - sqsum (tail x)) * cosh (cget x 0 / alpha))%R as A1 by done.
  rewrite A0, A1. clear A1. split_and!.
  - intros i Hi. unfold dS_ambient, cget. cbn [nth]. destruct x; [cbn in *; lia|].
    destruct i; [lia|]. done.
  - rewrite <- (sqsum_distance2 (S dim)); [|by rewrite replicate_length|done].
    unfold space_delta. cbn [replicate tail].
    rewrite vsub_zeros by (unfold dS_ambient; cbn; destruct x; cbn in *; lia).
    unfold dS_ambient at 1. cbn [tail]. rewrite sqsum_cons.
    pose proof (cosh_sinh_sq (cget x 0 / alpha)) as E.
    pose proof (sqrt_sqrt (alpha * alpha - sqsum (tail x)) ltac:(lra)) as E2.
    set (q := sqrt _) in *. set (c := cosh _) in *. set (h := sinh _) in *.
    assert (q * q * (c * c - h * h) = q * q)%R by (rewrite E; lra). lra.
  - apply Rmult_lt_0_compat; [done|apply cosh_pos].
  - lra.
Qed.
(** The conditions determine the point. *)
Lemma hyperboloid_unique alpha dim x X Y :
  dim ≥ 2 → on_hyperboloid alpha dim x X → on_hyperboloid alpha dim x Y → X = Y.
Proof.
  intros Hd (HX & X1 & X2 & X3 & X4) (HY & Y1 & Y2 & Y3 & Y4).
  destruct X as [|X0 [|Xa X]]; cbn in HX; [lia|lia|].
  destruct Y as [|Y0 [|Ya Y]]; cbn in HY; [lia|lia|].
  assert (X = Y) as ->.
  { apply (list_eq_same_length _ _ (dim - 1)); [lia|lia|].
    intros i a b Hi Ha Hb.
    specialize (X1 (S i) ltac:(lia)). specialize (Y1 (S i) ltac:(lia)). unfold cget in X1, Y1.
    cbn [nth] in X1, Y1. apply (nth_lookup_Some _ _ 0%R) in Ha, Hb. cbn in X1, Y1. congruence. }
  rewrite <- (sqsum_distance2 (S dim)) in X2; [|by rewrite replicate_length|cbn; lia].
  rewrite <- (sqsum_distance2 (S dim)) in Y2; [|by rewrite replicate_length|cbn; lia].
  unfold space_delta in X2, Y2. cbn [replicate tail] in X2, Y2.
  rewrite vsub_zeros in X2, Y2 by (cbn; lia).
  rewrite sqsum_cons in X2, Y2.
  unfold cget in X2, Y2, X3, Y3, X4, Y4. cbn [nth] in X2, Y2, X3, Y3, X4, Y4.
  pose proof (cosh_pos (nth 0 x 0%R / alpha)) as Hc.
  pose proof (cosh_sinh_sq (nth 0 x 0%R / alpha)) as Hcs.
  set (c := cosh _) in *. set (h := sinh _) in *.
  assert (Xa * Xa - X0 * X0 = Ya * Ya - Y0 * Y0)%R as E by lra.
  assert (c * c * (Xa * Xa - X0 * X0) = Xa * Xa)%R as E1.
  { transitivity (c * c * (Xa * Xa) - (X0 * c) * (X0 * c))%R; [lra|]. rewrite X4.
    transitivity (Xa * Xa * (c * c - h * h))%R; [lra|]. rewrite Hcs. lra. }
  assert (c * c * (Ya * Ya - Y0 * Y0) = Ya * Ya)%R as E2.
  { transitivity (c * c * (Ya * Ya) - (Y0 * c) * (Y0 * c))%R; [lra|]. rewrite Y4.
    transitivity (Ya * Ya * (c * c - h * h))%R; [lra|]. rewrite Hcs. lra. }
  assert (Xa = Ya) as ->.
  { rewrite E in E1. rewrite E1 in E2. nra. }
  assert (X0 = Y0) as ->; [|done].
  apply (Rmult_eq_reg_r c); [lra|]. lra.
Qed.

Lemma hyperboloid_inside alpha dim x X :
  dim ≥ 2 → length x = dim → on_hyperboloid alpha dim x X → inside_horizon alpha x.
Proof.
  intros Hd Hx (HX & X1 & X2 & X3 & X4).
  destruct X as [|X0 [|Xa X]]; cbn in HX; [lia|lia|].
  assert (X = tail x) as ->.
  { apply (list_eq_same_length _ _ (dim - 1)); [destruct x; cbn in *; lia|lia|].
    intros i a b Hi Ha Hb.
    specialize (X1 (S i) ltac:(lia)). unfold cget in X1.
    apply (nth_lookup_Some _ _ 0%R) in Ha, Hb. destruct x as [|x0 x]; [cbn in *; lia|].
    cbn in X1, Ha, Hb. congruence. }
  rewrite <- (sqsum_distance2 (S dim)) in X2; [|by rewrite replicate_length|cbn; destruct x; cbn in *; lia].
  unfold space_delta in X2. cbn [replicate tail] in X2.
  rewrite vsub_zeros in X2 by (cbn; destruct x; cbn in *; lia).
  rewrite sqsum_cons in X2.
  unfold cget in X2, X3, X4. cbn [nth] in X2, X3, X4.
  pose proof (cosh_pos (nth 0 x 0%R / alpha)) as Hc.
  pose proof (cosh_sinh_sq (nth 0 x 0%R / alpha)) as Hcs.
  set (c := cosh _) in *. set (h := sinh _) in *. unfold inside_horizon.
  assert (c * c * (Xa * Xa - X0 * X0) = Xa * Xa)%R as E1.
  { transitivity (c * c * (Xa * Xa) - (X0 * c) * (X0 * c))%R; [lra|]. rewrite X4.
    transitivity (Xa * Xa * (c * c - h * h))%R; [lra|]. rewrite Hcs. lra. }
  assert (0 < Xa * Xa)%R by nra. assert (0 < c * c)%R by nra.
  assert (0 < Xa * Xa - X0 * X0)%R; [|lra].
  apply Rnot_le_lt. intros Hle. nra.
Qed.

(** The answer in de Sitter spacetime of any dimension: both points are inside the horizon and
    their places on the hyperboloid are causally related in the ambient Minkowski spacetime, up
    to the tolerance. *)
Theorem C48_tolerance (eps : R) (dim : nat) (alpha : R) (x y : coords) :
  (0 <= eps)%R → (0 < alpha)%R → dim ≥ 2 → length x = dim → length y = dim →
  let le := (Causality eps (DeSitter dim alpha) x y).1 = true in
  (inside_horizon alpha x ↔ ∃ X, on_hyperboloid alpha dim x X) ∧
  (∀ X X', on_hyperboloid alpha dim x X → on_hyperboloid alpha dim x X' → X = X') ∧
  (le ↔ ∃ X Y, on_hyperboloid alpha dim x X ∧ on_hyperboloid alpha dim y Y ∧
       (cget X 0 <= cget Y 0)%R ∧
       (distance2 (S dim) X Y <= (cget Y 0 - cget X 0) * (cget Y 0 - cget X 0) + eps)%R) ∧
  (∀ X Y, on_hyperboloid alpha dim x X → on_hyperboloid alpha dim y Y →
     (minkowski_future (S dim) X Y → le) ∧
     (le → minkowski_future (S dim) X (later (sqrt eps) Y)) ∧
     (eps = 0%R → (le ↔ minkowski_future (S dim) X Y))).
Proof.
  intros He Ha Hd Hx Hy le.
  assert (∀ X Y, on_hyperboloid alpha dim x X → on_hyperboloid alpha dim y Y →
    le ↔ (cget X 0 <= cget Y 0)%R ∧
         (distance2 (S dim) X Y <= (cget Y 0 - cget X 0) * (cget Y 0 - cget X 0) + eps)%R) as Hle.
  { intros X Y HX HY. unfold le. cbn [Causality]. rewrite isCausal_dS_eq.
    fold (inside_horizon alpha x) (inside_horizon alpha y).
    pose proof (hyperboloid_inside _ _ _ _ Hd Hx HX) as H1.
    pose proof (hyperboloid_inside _ _ _ _ Hd Hy HY) as H2.
    rewrite decide_True by done.
    pose proof (hyperboloid_point _ _ _ Ha Hd Hx H1) as PX.
    pose proof (hyperboloid_point _ _ _ Ha Hd Hy H2) as PY.
    rewrite (hyperboloid_unique _ _ _ _ _ Hd HX PX), (hyperboloid_unique _ _ _ _ _ Hd HY PY).
    unfold isCausal_flat. rewrite by_sign_fst, bool_decide_eq_true.
    rewrite (sqsum_distance2 (S dim)) by (first [apply PX|apply PY]).
    split; intros [? ?]; split; lra. }
  split; [split|]; [| |split; [|split; [split|]]].
  - intros H. exists (dS_ambient alpha x). by apply hyperboloid_point.
  - intros [X HX]. by eapply hyperboloid_inside.
  - intros X X'. by apply hyperboloid_unique.
  - intros H.
    assert (inside_horizon alpha x ∧ inside_horizon alpha y) as [H1 H2].
    { unfold le in H. cbn [Causality] in H. rewrite isCausal_dS_eq in H. by destruct (decide _). }
    pose proof (hyperboloid_point _ _ _ Ha Hd Hx H1) as PX.
    pose proof (hyperboloid_point _ _ _ Ha Hd Hy H2) as PY.
    exists (dS_ambient alpha x), (dS_ambient alpha y). split; [done|]. split; [done|].
    by apply (Hle _ _ PX PY).
  - intros (X & Y & HX & HY & H). by apply (Hle X Y).
  - intros X Y HX HY. rewrite (Hle X Y HX HY). unfold minkowski_future. split_and!.
    + intros [H1 H2]. split; lra.
    + intros [H1 H2].
      pose proof (sqrt_pos eps). pose proof (sqrt_sqrt eps He).
      split; [rewrite cget_later0; lra|]. rewrite cget_later0.
      assert (distance2 (S dim) X (later (sqrt eps) Y) = distance2 (S dim) X Y) as ->; [|nra].
      unfold distance2. f_equal. apply list_fmap_ext. intros j i Hi.
      apply lookup_seq in Hi as [-> ?].
      assert (cget (later (sqrt eps) Y) (1 + j) = cget Y (1 + j)) as ->; [|done].
      unfold cget, later. destruct Y; [|done]. cbn. by destruct j.
    + intros ->. split; intros [? ?]; split; lra.
Qed.

(** ** Anti-de Sitter spacetime in its ambient space *)
(** The point of the hyperboloid X_0^2 + X_1^2 - X_2^2 - ... = alpha^2 with the coordinates x;
    X_0 and X_1 are both timelike. *)
Definition on_AdS_hyperboloid (alpha : R) (dim : nat) (x X : coords) : Prop :=
  length X = S dim ∧
  (∀ i, 1 <= i < dim → cget X (S i) = cget x i) ∧
  ∃ r, (0 < r)%R ∧
    cget X 0 = (r * sin (cget x 0 / alpha))%R ∧ cget X 1 = (r * cos (cget x 0 / alpha))%R ∧
    (cget X 0 * cget X 0 + cget X 1 * cget X 1
     - distance2 dim (replicate dim 0%R) x = alpha * alpha)%R.

Theorem C48_AntideSitter_ambient (eps : R) (dim : nat) (alpha : R) (x y X Y : coords) :
  (0 < alpha)%R → dim ≥ 2 → length x = dim → length y = dim →
  (∃ X, on_AdS_hyperboloid alpha dim x X) ∧
  (on_AdS_hyperboloid alpha dim x X → on_AdS_hyperboloid alpha dim y Y →
   let causal :=
     (distance2 dim x y <= (cget Y 0 - cget X 0) * (cget Y 0 - cget X 0)
                           + (cget Y 1 - cget X 1) * (cget Y 1 - cget X 1) + eps)%R in
   ((Causality eps (AntiDeSitter dim alpha) x y).1 = true ↔ causal ∧ (cget X 0 <= cget Y 0)%R) ∧
   ((Causality eps (AntiDeSitter dim alpha) x y).2 = true ↔ causal ∧ (cget Y 0 < cget X 0)%R)).
Proof.
  intros Ha Hd Hx Hy.
  assert (∀ z, length z = dim → distance2 dim (replicate dim 0%R) z = sqsum (tail z)) as Hdist.
  { intros z Hz. rewrite <- (sqsum_distance2 dim); [|by rewrite replicate_length|done].
    unfold space_delta. destruct dim as [|n]; [lia|]. cbn [replicate tail].
    rewrite vsub_zeros; [done|]. destruct z; cbn in *; lia. }
  assert (∀ z, (0 < alpha * alpha + sqsum (tail z))%R) as Hpos.
  { intros z. pose proof (sqsum_nonneg (tail z)). nra. }
  assert (∀ z Z, length z = dim → on_AdS_hyperboloid alpha dim z Z →
    cget Z 0 = (sqrt (alpha * alpha + sqsum (tail z)) * sin (cget z 0 / alpha))%R ∧
    cget Z 1 = (sqrt (alpha * alpha + sqsum (tail z)) * cos (cget z 0 / alpha))%R) as Huniq.
  { intros z Z Hz (_ & _ & r & Hr & E0 & E1 & E2). rewrite Hdist in E2 by done.
    rewrite E0, E1 in E2.
    pose proof (sin2_cos2 (cget z 0 / alpha)) as Hsc. unfold Rsqr in Hsc.
    assert (r * r = alpha * alpha + sqsum (tail z))%R as Err.
    { transitivity (r * r * (sin (cget z 0 / alpha) * sin (cget z 0 / alpha)
                     + cos (cget z 0 / alpha) * cos (cget z 0 / alpha)))%R; [rewrite Hsc; lra|lra]. }
    assert (sqrt (alpha * alpha + sqsum (tail z)) = r) as ->; [|done].
    rewrite <- Err. apply sqrt_square. lra. }
  split.
  - exists ((sqrt (alpha * alpha + sqsum (tail x)) * sin (cget x 0 / alpha))%R
            :: (sqrt (alpha * alpha + sqsum (tail x)) * cos (cget x 0 / alpha))%R :: tail x).
    split; [destruct x; cbn in *; lia|]. split.
    { intros i Hi. unfold cget. cbn [nth]. destruct x; [cbn in *; lia|]. destruct i; [lia|]. done. }
    exists (sqrt (alpha * alpha + sqsum (tail x))). split; [by apply sqrt_lt_R0|].
    split; [done|]. split; [done|]. rewrite Hdist by done.
    unfold cget. cbn [nth]. fold (cget x 0).
    pose proof (sin2_cos2 (cget x 0 / alpha)) as Hsc. unfold Rsqr in Hsc.
    pose proof (sqrt_sqrt _ (Rlt_le _ _ (Hpos x))) as Hq.
    set (q := sqrt _) in *. set (c := cos _) in *. set (h := sin _) in *.
    assert (q * q * (h * h + c * c) = q * q)%R by (rewrite Hsc; lra). lra.
  - intros HX HY causal.
    destruct (Huniq x X Hx HX) as [X0 X1]. destruct (Huniq y Y Hy HY) as [Y0 Y1].
    cbn [Causality]. unfold isCausal_AdS. rewrite <- X0, <- X1, <- Y0, <- Y1.
    rewrite by_sign_fst, by_sign_snd, bool_decide_eq_true, (sqsum_distance2 dim) by done.
    unfold causal. split; split; intros [? ?]; split; lra.
Qed.

(** ** The hypotheses are met *)
(** With the tolerance of the code a point may be reported although it is spacelike, and it is
    not reported with tolerance 0. *)
Example C47_tolerance_nonvacuous :
  (0 <= causality_eps)%R ∧
  (Causality causality_eps (Flat 2 None) [0%R; 0%R] [1%R; (1 + causality_eps)%R]).1 = true ∧
  Causality 0 (Flat 2 None) [0%R; 0%R] [1%R; (1 + causality_eps)%R] = (false, false) ∧
  reported_chain (λ a b, (Causality causality_eps (Flat 2 None) a b).1 = true)
    [0%R; 0%R] [[1%R; (1 + causality_eps)%R]; [2%R; (2 + 2 * causality_eps)%R]].
Proof.
  assert (0 < causality_eps)%R as Hp.
  { unfold causality_eps. apply Rinv_0_lt_compat. apply pow_lt. lra. }
  change (Causality causality_eps (Flat 2 None)) with (isCausal_flat2D causality_eps).
  change (Causality 0 (Flat 2 None)) with (isCausal_flat2D 0).
  set (e := causality_eps) in *.
  assert (∀ a b d, (0 <= b)%R → (0 <= d)%R → (b <= d + e)%R →
    (isCausal_flat2D e [a; (a + a * e)%R] [(a + d)%R; (a + a * e + b)%R]).1 = true) as H.
  { intros a b d Hb Hd H. unfold isCausal_flat2D, cget. cbn [nth].
    rewrite by_sign_fst, bool_decide_eq_true.
    replace (a + a * e + b - (a + a * e))%R with b by lra.
    replace (a + d - a)%R with d by lra. rewrite !Rabs_pos_eq by lra. lra. }
  pose proof (H 0 (1 + e) 1 ltac:(lra) ltac:(lra) ltac:(lra))%R as H1.
  pose proof (H 1 (1 + e) 1 ltac:(lra) ltac:(lra) ltac:(lra))%R as H2.
  replace (0 + 0 * e)%R with 0%R in H1 by lra.
  replace (0 + 1)%R with 1%R in H1 by lra. replace (0 + (1 + e))%R with (1 + e)%R in H1 by lra.
  replace (1 + 1 * e + (1 + e))%R with (2 + 2 * e)%R in H2 by lra.
  replace (1 + 1 * e)%R with (1 + e)%R in H2 by lra.
  replace (1 + 1)%R with 2%R in H2 by lra.
  split_and!; [lra|done| |done].
  unfold isCausal_flat2D, cget. cbn [nth].
  rewrite (bool_decide_false (_ <= Rabs _)%R).
  - unfold by_sign. by rewrite !andb_false_r.
  - rewrite !Rabs_pos_eq by lra. lra.
Qed.
Example C48_tolerance_nonvacuous :
  ∃ X, on_hyperboloid 2 3 [0%R; 1%R; 1%R] X ∧ inside_horizon 2 [0%R; 1%R; 1%R] ∧
    (Causality causality_eps (DeSitter 3 2) [0%R; 1%R; 1%R] [0%R; 1%R; 1%R]).1 = true.
Proof.
  assert (inside_horizon 2 [0%R; 1%R; 1%R]) as Hi.
  { unfold inside_horizon. cbn [tail]. rewrite !sqsum_cons, sqsum_nil. lra. }
  exists (dS_ambient 2 [0%R; 1%R; 1%R]). split_and!.
  - apply hyperboloid_point; [lra|lia|done|done].
  - done.
  - apply (proj1 (C46_tolerance_monotone 0 causality_eps (DeSitter 3 2) _ _
      (proj1 C47_tolerance_nonvacuous))).
    refine (proj1 (C48_deSitter 3 2 [0%R; 1%R; 1%R] [0%R; 1%R; 1%R] [0%R; 1%R; 1%R] _ eq_refl eq_refl eq_refl _) Hi); [lra|lia].
Qed.

Print Assumptions C46_tolerance_monotone.
Print Assumptions C47_tolerance.
Print Assumptions C47_tolerance_periodic.
Print Assumptions C48_tolerance.
Print Assumptions C48_AntideSitter_ambient.
