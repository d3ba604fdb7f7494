(** Facts about the causality functions of /repo/spacetimes.py. *)
From Verif Require Import Base SpacetimeModel.
From Coq Require Import Reals Rtrigo_def Lra Psatz.
#[local] Open Scope nat_scope.

#[global] Instance Rle_Transitive : Transitive Rle := Rle_trans.

(** ** Sums of squares *)
Lemma foldl_Rplus a v : foldl Rplus a v = (a + rsum v)%R.
Proof.
  unfold rsum. revert a. induction v as [|b v IH]; intros a; cbn; [lra|].
  rewrite IH, (IH (0 + b)%R). lra.
Qed.
Lemma rsum_cons a v : rsum (a :: v) = (a + rsum v)%R.
Proof. unfold rsum at 1. cbn. rewrite foldl_Rplus. lra. Qed.
Lemma sqsum_nil : sqsum [] = 0%R.
Proof. done. Qed.
Lemma sqsum_cons a v : sqsum (a :: v) = (a * a + sqsum v)%R.
Proof. unfold sqsum. rewrite fmap_cons, rsum_cons. done. Qed.
Lemma sqsum_nonneg v : (0 <= sqsum v)%R.
Proof.
  induction v as [|a v IH]; [rewrite sqsum_nil; lra|].
  rewrite sqsum_cons. nra.
Qed.
Lemma sqsum_zero v : sqsum v = 0%R → ∀ a, a ∈ v → a = 0%R.
Proof.
  induction v as [|b v IH]; intros H a Ha; [by apply elem_of_nil in Ha|].
  rewrite sqsum_cons in H. pose proof (sqsum_nonneg v) as Hv.
  assert (b * b = 0)%R by nra. apply elem_of_cons in Ha as [-> | Ha]; [nra|].
  apply IH; [nra|done].
Qed.

Definition dot (u v : list R) : R := rsum (zip_with Rmult u v).
Lemma dot_cons a u b v : dot (a :: u) (b :: v) = (a * b + dot u v)%R.
Proof. unfold dot. cbn [zip_with]. by rewrite rsum_cons. Qed.

Lemma sqsum_add u v : length u = length v →
  sqsum (zip_with Rplus u v) = (sqsum u + 2 * dot u v + sqsum v)%R.
Proof.
  revert v. induction u as [|a u IH]; intros [|b v] H; try done.
  - unfold dot, sqsum, rsum. cbn. lra.
  - cbn [zip_with]. rewrite !sqsum_cons, dot_cons, IH by (cbn in H; lia). lra.
Qed.

Lemma cauchy_schwarz u v : length u = length v → (dot u v * dot u v <= sqsum u * sqsum v)%R.
Proof.
  revert v. induction u as [|a u IH]; intros [|b v] H; try done.
  - unfold dot, sqsum, rsum. cbn. lra.
  - rewrite !sqsum_cons, dot_cons. cbn in H. injection H as H. specialize (IH v H). clear H.
    pose proof (sqsum_nonneg u) as HA. pose proof (sqsum_nonneg v) as HB. revert IH HA HB.
    generalize (sqsum u) (sqsum v) (dot u v). intros A B D IH HA HB.
    assert (2 * (a * b * D) <= a * a * B + b * b * A)%R.
    { assert (0 <= a * a * B + b * b * A)%R by nra.
      apply Rnot_lt_le. intros Hlt.
      assert ((a * a * B + b * b * A) * (a * a * B + b * b * A)
              < (2 * (a * b * D)) * (2 * (a * b * D)))%R by nra.
      assert ((2 * (a * b * D)) * (2 * (a * b * D)) <= 4 * (a * a * (b * b) * (A * B)))%R.
      { replace ((2 * (a * b * D)) * (2 * (a * b * D)))%R
          with (4 * (a * a * (b * b) * (D * D)))%R by lra.
        assert (0 <= a * a * (b * b))%R by nra. nra. }
      assert (0 <= (a * a * B - b * b * A) * (a * a * B - b * b * A))%R by exact (Rle_0_sqr _). lra. }
    nra.
Qed.

(** The triangle inequality in the form in which the causality functions use it. *)
Lemma minkowski u v S T :
  length u = length v → (0 <= S)%R → (0 <= T)%R →
  (sqsum u <= S * S)%R → (sqsum v <= T * T)%R →
  (sqsum (zip_with Rplus u v) <= (S + T) * (S + T))%R.
Proof.
  intros Hlen HS HT Hu Hv. rewrite sqsum_add by done.
  pose proof (cauchy_schwarz u v Hlen) as Hcs.
  pose proof (sqsum_nonneg u). pose proof (sqsum_nonneg v).
  assert (dot u v <= S * T)%R.
  { apply Rnot_lt_le. intros Hlt. assert (0 <= S * T)%R by nra.
    assert (S * T * (S * T) < dot u v * dot u v)%R by nra.
    assert (sqsum u * sqsum v <= S * S * (T * T))%R by nra. nra. }
  nra.
Qed.

Lemma sqsum_mono u v :
  Forall2 (λ a b, Rabs a <= b)%R u v → (sqsum u <= sqsum v)%R.
Proof.
  induction 1 as [|a b u v Hab _ IH]; [lra|]. rewrite !sqsum_cons.
  assert (a * a <= b * b)%R; [|lra].
  assert (Rabs a * Rabs a = a * a)%R as <-.
  { rewrite <- Rabs_mult. apply Rabs_pos_eq. nra. }
  pose proof (Rabs_pos a). nra.
Qed.

Lemma vsub_split x y z : length x = length y → length y = length z →
  vsub z x = zip_with Rplus (vsub y x) (vsub z y).
Proof.
  revert y z. induction x as [|a x IH]; intros [|b y] [|c z] H1 H2; try done.
  cbn in *. f_equal; [lra|]. apply IH; lia.
Qed.
Lemma vsub_length x y : length x = length y → length (vsub y x) = length x.
Proof. intros H. unfold vsub. rewrite zip_with_length. lia. Qed.
Lemma vsub_self x : sqsum (vsub x x) = 0%R.
Proof. induction x as [|a x IH]; [done|]. cbn [vsub zip_with]. rewrite sqsum_cons.
  change (zip_with Rminus x x) with (vsub x x). rewrite IH. lra. Qed.
Lemma sqsum_vsub_sym x y : sqsum (vsub x y) = sqsum (vsub y x).
Proof.
  revert y. induction x as [|a x IH]; intros [|b y]; try done.
  cbn [vsub zip_with]. rewrite !sqsum_cons.
  change (zip_with Rminus x y) with (vsub x y). change (zip_with Rminus y x) with (vsub y x).
  rewrite IH. lra.
Qed.
Lemma vsub_zero x y : length x = length y → sqsum (vsub y x) = 0%R → x = y.
Proof.
  revert y. induction x as [|a x IH]; intros [|b y] Hl H; try done.
  cbn in Hl. cbn [vsub zip_with] in H. rewrite sqsum_cons in H.
  change (zip_with Rminus y x) with (vsub y x) in H.
  pose proof (sqsum_nonneg (vsub y x)). pose proof (Rle_0_sqr (b - a)) as Hq. unfold Rsqr in Hq.
  assert ((b - a) * (b - a) = 0)%R as Hz by lra.
  f_equal; [apply Rmult_integral in Hz; lra|]. apply IH; [lia|lra].
Qed.

(** ** by_sign *)
Lemma by_sign_exclusive d c : by_sign d c ≠ (true, true).
Proof.
  unfold by_sign. do 2 case_bool_decide; destruct c; cbn; try done. lra.
Qed.
Lemma by_sign_fst d c : (by_sign d c).1 = true ↔ (0 <= d)%R ∧ c = true.
Proof. unfold by_sign. cbn. rewrite andb_true_iff, bool_decide_eq_true. done. Qed.
Lemma by_sign_snd d c : (by_sign d c).2 = true ↔ (d < 0)%R ∧ c = true.
Proof. unfold by_sign. cbn. rewrite andb_true_iff, bool_decide_eq_true. done. Qed.
Lemma by_sign_neg d c : d ≠ 0%R → by_sign (- d) c = ((by_sign d c).2, (by_sign d c).1).
Proof.
  intros Hd. unfold by_sign. cbn. f_equal; f_equal; apply bool_decide_ext; lra.
Qed.
Lemma by_sign_neg_weak d c :
  match by_sign d c with
  | (true, _) => by_sign (- d) c = (false, true) ∨ by_sign (- d) c = (true, false)
  | (_, true) => by_sign (- d) c = (true, false)
  | (false, false) => by_sign (- d) c = (false, false)
  end.
Proof.
  unfold by_sign. destruct c; rewrite ?andb_false_r, ?andb_true_r; [|done].
  repeat case_bool_decide; try done; try lra; auto.
Qed.

(** ** Flat causality *)
Definition flat_prec (x y : coords) : Prop :=
  (0 <= cget y 0 - cget x 0)%R ∧
  (sqsum (space_delta x y) <= (cget y 0 - cget x 0) * (cget y 0 - cget x 0))%R.

Lemma flat_prec_trans x y z :
  length x = length y → length y = length z →
  flat_prec x y → flat_prec y z → flat_prec x z.
Proof.
  intros H1 H2 [Hxy Sxy] [Hyz Syz]. split; [lra|].
  unfold space_delta in *.
  assert (length (tail x) = length (tail y)) by (destruct x, y; cbn in *; lia).
  assert (length (tail y) = length (tail z)) by (destruct y, z; cbn in *; lia).
  rewrite (vsub_split _ (tail y)) by done.
  replace (cget z 0 - cget x 0)%R with ((cget y 0 - cget x 0) + (cget z 0 - cget y 0))%R by lra.
  apply minkowski; try done. by rewrite !vsub_length.
Qed.
Lemma flat_prec_antisym x y :
  length x = length y → flat_prec x y → flat_prec y x → x = y.
Proof.
  intros H1 [Hxy Sxy] [Hyx Syx].
  assert (cget y 0 - cget x 0 = 0)%R as Ht by lra.
  rewrite Ht in Sxy. pose proof (sqsum_nonneg (space_delta x y)).
  assert (tail x = tail y) as Htl.
  { apply vsub_zero; [destruct x, y; cbn in *; lia|]. unfold space_delta in *. lra. }
  destruct x as [|a x], y as [|b y]; cbn in *; try lia; [done|].
  unfold cget in Ht; cbn in Ht. f_equal; [lra|done].
Qed.
Lemma flat_prec_refl x : flat_prec x x.
Proof.
  split; [lra|]. unfold space_delta. rewrite vsub_self. nra.
Qed.

Lemma isCausal_flat_fst x y :
  (isCausal_flat 0 x y).1 = true ↔ flat_prec x y.
Proof.
  unfold isCausal_flat. rewrite by_sign_fst, bool_decide_eq_true. unfold flat_prec.
  split; intros [? ?]; split; lra.
Qed.
Lemma isCausal_flat_sym eps x y : 
  isCausal_flat eps y x =
  by_sign (- (cget y 0 - cget x 0))
    (bool_decide (sqsum (space_delta x y) - eps
                  <= (cget y 0 - cget x 0) * (cget y 0 - cget x 0))%R).
Proof.
  unfold isCausal_flat, space_delta. f_equal; [lra|].
  rewrite sqsum_vsub_sym. apply bool_decide_ext.
  replace ((cget x 0 - cget y 0) * (cget x 0 - cget y 0))%R
    with ((cget y 0 - cget x 0) * (cget y 0 - cget x 0))%R by lra. done.
Qed.

Lemma sq_le_abs a b : (0 <= b)%R → (a * a <= b * b)%R ↔ (Rabs a <= b)%R.
Proof.
  intros Hb. assert (Rabs a * Rabs a = a * a)%R as <-.
  { rewrite <- Rabs_mult. apply Rabs_pos_eq. nra. }
  pose proof (Rabs_pos a). split; intros; nra.
Qed.

Lemma isCausal_flat2D_fst x y :
  length x = 2 → length y = 2 →
  (isCausal_flat2D 0 x y).1 = true ↔ flat_prec x y.
Proof.
  intros Hx Hy. destruct x as [|x0 [|x1 []]]; try done. destruct y as [|y0 [|y1 []]]; try done.
  unfold isCausal_flat2D, flat_prec, space_delta. rewrite by_sign_fst, bool_decide_eq_true.
  cbn [tail vsub zip_with cget nth]. rewrite sqsum_cons, sqsum_nil. unfold cget; cbn [nth].
  rewrite Rminus_0_r, Rplus_0_r.
  split; intros [H1 H2]; (split; [done|]).
  - apply sq_le_abs; [done|]. rewrite (Rabs_pos_eq (y0 - x0)) in H2 by done. done.
  - rewrite (Rabs_pos_eq (y0 - x0)) by done. by apply sq_le_abs.
Qed.

(** ** Periodic directions *)
Definition circ (p a b : R) : R := Rabs (period_delta p a b).

Lemma period_delta_sym p a b : period_delta p a b = period_delta p b a.
Proof. unfold period_delta. by rewrite Rabs_minus_sym. Qed.
Lemma period_delta_refl p a : period_delta p a a = 0%R.
Proof.
  unfold period_delta. replace (a - a)%R with 0%R by lra. rewrite Rabs_R0.
  destruct (decide (0 < p)%R); [|done]. apply Rmin_left. lra.
Qed.

(** Within one period the distance is the distance to the nearest image. *)
Lemma circ_image p a b : ((0 < p)%R → (Rabs (b - a) <= p)%R) →
  ∃ k : Z, circ p a b = Rabs (b + IZR k * p - a) ∧ (¬ (0 < p)%R → k = 0%Z).
Proof.
  intros Hp. unfold circ, period_delta. destruct (decide (0 < p)%R) as [Hpos|Hn].
  - specialize (Hp Hpos). unfold Rmin. destruct (Rle_dec _ _).
    + exists 0%Z. split; [|done]. rewrite Rabs_Rabsolu. f_equal. lra.
    + destruct (Rle_dec 0 (b - a)) as [H0|H0].
      * exists (-1)%Z. split; [|done]. rewrite (Rabs_pos_eq (b - a)) by done.
        rewrite <- Rabs_Ropp. f_equal. lra.
      * exists 1%Z. split; [|done]. rewrite (Rabs_left1 (b - a)) by lra. f_equal. lra.
  - exists 0%Z. split; [|done]. rewrite Rabs_Rabsolu. f_equal. lra.
Qed.
Lemma circ_nearest p a b (k : Z) :
  ((0 < p)%R → (Rabs (b - a) <= p)%R) → (¬ (0 < p)%R → k = 0%Z) →
  (circ p a b <= Rabs (b + IZR k * p - a))%R.
Proof.
  intros Hp Hk. unfold circ, period_delta. destruct (decide (0 < p)%R) as [Hpos|Hn].
  - specialize (Hp Hpos).
    rewrite (Rabs_pos_eq (Rmin _ _)) by (apply Rmin_glb; [apply Rabs_pos|lra]).
    destruct (decide (k = 0%Z)) as [->|Hk0].
    { etransitivity; [apply Rmin_l|]. right. f_equal. lra. }
    etransitivity; [apply Rmin_r|].
    assert (p <= Rabs (IZR k * p))%R.
    { rewrite Rabs_mult, (Rabs_pos_eq p) by lra. assert (1 <= Rabs (IZR k))%R; [|nra].
      destruct (Z_lt_le_dec k 0).
      - rewrite Rabs_left by (apply IZR_lt; lia).
        assert (IZR k <= -1)%R by (apply IZR_le; lia). lra.
      - assert (1 <= IZR k)%R by (apply IZR_le; lia). rewrite Rabs_pos_eq; lra. }
    pose proof (Rabs_triang_inv (IZR k * p) (- (b - a))) as Ht.
    rewrite Rabs_Ropp in Ht.
    replace (IZR k * p - - (b - a))%R with (b + IZR k * p - a)%R in Ht by lra. lra.
  - rewrite Hk by done. rewrite Rabs_Rabsolu. right. f_equal. lra.
Qed.
Lemma circ_triangle p a b c :
  ((0 < p)%R → (Rabs (b - a) <= p)%R) → ((0 < p)%R → (Rabs (c - b) <= p)%R) →
  ((0 < p)%R → (Rabs (c - a) <= p)%R) →
  (circ p a c <= circ p a b + circ p b c)%R.
Proof.
  intros H1 H2 H3. destruct (circ_image p a b H1) as (k & -> & Hk).
  destruct (circ_image p b c H2) as (l & -> & Hl).
  etransitivity; [apply (circ_nearest p a c (k + l)%Z H3)|].
  - intros Hn. rewrite Hk, Hl by done. done.
  - etransitivity; [|apply Rabs_triang]. right. f_equal. rewrite plus_IZR. lra.
Qed.

Definition circ_list (dim : nat) (ps : list R) (x y : coords) : list R :=
  (λ i, period_delta (nth (i - 1) ps 0%R) (cget x i) (cget y i)) <$> seq 1 (dim - 1).
Lemma foldl_sq (f : nat → R) l a :
  foldl (λ r2 i, r2 + f i * f i)%R a l = (a + sqsum (f <$> l))%R.
Proof.
  revert a. induction l as [|i l IH]; intros a; cbn [foldl].
  - change (f <$> []) with (@nil R). rewrite sqsum_nil. lra.
  - rewrite IH, fmap_cons, sqsum_cons. lra.
Qed.
Lemma isCausal_flatperiodic_eq eps dim ps x y :
  isCausal_flatperiodic eps dim ps x y =
  by_sign (cget y 0 - cget x 0)
    (bool_decide (sqsum (circ_list dim ps x y) - eps
                  <= (cget y 0 - cget x 0) * (cget y 0 - cget x 0))%R).
Proof.
  unfold isCausal_flatperiodic. f_equal. unfold circ_list.
  rewrite (foldl_sq (λ i, period_delta (nth (i - 1) ps 0%R) (cget x i) (cget y i))).
  by rewrite Rplus_0_l.
Qed.
Lemma circ_list_sym dim ps x y : circ_list dim ps x y = circ_list dim ps y x.
Proof. unfold circ_list. apply list_fmap_ext. intros i j _. apply period_delta_sym. Qed.

(** The difference of two points is within one period in every periodic direction. *)
Definition within_period (ps : list R) (x y : coords) : Prop :=
  ∀ i, i ≥ 1 → (0 < nth (i - 1) ps 0)%R → (Rabs (cget y i - cget x i) <= nth (i - 1) ps 0)%R.

Lemma sqsum_Rabs l : sqsum (Rabs <$> l) = sqsum l.
Proof.
  induction l as [|a l IH]; [done|]. rewrite fmap_cons, !sqsum_cons, IH.
  f_equal. rewrite <- Rabs_mult. apply Rabs_pos_eq. nra.
Qed.
Definition periodic_prec (dim : nat) (ps : list R) (x y : coords) : Prop :=
  (0 <= cget y 0 - cget x 0)%R ∧
  (sqsum (circ_list dim ps x y) <= (cget y 0 - cget x 0) * (cget y 0 - cget x 0))%R.
Lemma periodic_prec_trans dim ps x y z :
  within_period ps x y → within_period ps y z → within_period ps x z →
  periodic_prec dim ps x y → periodic_prec dim ps y z → periodic_prec dim ps x z.
Proof.
  intros W1 W2 W3 [Hxy Sxy] [Hyz Syz]. split; [lra|].
  replace (cget z 0 - cget x 0)%R with ((cget y 0 - cget x 0) + (cget z 0 - cget y 0))%R by lra.
  etransitivity; [|apply (minkowski (Rabs <$> circ_list dim ps x y) (Rabs <$> circ_list dim ps y z));
    rewrite ?sqsum_Rabs; try done].
  - apply sqsum_mono. unfold circ_list.
    assert (Forall (λ i, i ≥ 1) (seq 1 (dim - 1))) as HF.
    { apply Forall_forall. intros i Hi. apply elem_of_seq in Hi. lia. }
    induction HF as [|i l Hi _ IH]; cbn; constructor; [|done].
    apply circ_triangle; intros Hp; [apply W1|apply W2|apply W3]; done.
  - unfold circ_list. by rewrite !fmap_length.
Qed.
Lemma periodic_prec_refl dim ps x : periodic_prec dim ps x x.
Proof.
  split; [lra|]. assert (sqsum (circ_list dim ps x x) = 0%R) as ->; [|nra].
  unfold circ_list. induction (seq 1 (dim - 1)) as [|i l IH]; [done|].
  rewrite fmap_cons, sqsum_cons, IH, period_delta_refl. lra.
Qed.
Lemma isCausal_flatperiodic_fst dim ps x y :
  (isCausal_flatperiodic 0 dim ps x y).1 = true ↔ periodic_prec dim ps x y.
Proof.
  rewrite isCausal_flatperiodic_eq, by_sign_fst, bool_decide_eq_true. unfold periodic_prec.
  split; intros [? ?]; split; lra.
Qed.
Lemma isCausal_flat2Dperiodic_fst ps x y :
  (isCausal_flat2Dperiodic 0 ps x y).1 = true ↔ periodic_prec 2 ps x y.
Proof.
  unfold isCausal_flat2Dperiodic, periodic_prec.
  rewrite by_sign_fst, bool_decide_eq_true.
  unfold circ_list. cbn [seq Nat.sub fmap list_fmap]. rewrite sqsum_cons, sqsum_nil.
  rewrite Rminus_0_r, Rplus_0_r.
  split; intros [H1 H2]; (split; [done|]).
  - apply sq_le_abs; [done|]. rewrite (Rabs_pos_eq (cget y 0 - cget x 0)) in H2 by done. done.
  - rewrite (Rabs_pos_eq (cget y 0 - cget x 0)) by done. by apply sq_le_abs.
Qed.

(** ** de Sitter: flat causality of the ambient space *)
Definition dS_ambient (alpha : R) (x : coords) : coords :=
  let amp := sqrt (alpha * alpha - sqsum (tail x)) in
  (amp * sinh (cget x 0 / alpha))%R :: (amp * cosh (cget x 0 / alpha))%R :: tail x.
Lemma isCausal_dS_eq eps alpha x y :
  isCausal_dS eps alpha x y =
  (if decide (sqsum (tail x) < alpha * alpha ∧ sqsum (tail y) < alpha * alpha)%R
   then isCausal_flat eps (dS_ambient alpha x) (dS_ambient alpha y) else (false, false)).
Proof.
  unfold isCausal_dS.
  destruct (decide (alpha * alpha <= sqsum (tail x))%R) as [H1|H1].
  { rewrite decide_False by (intros [? ?]; lra). done. }
  destruct (decide (alpha * alpha <= sqsum (tail y))%R) as [H2|H2].
  { rewrite decide_False by (intros [? ?]; lra). done. }
  rewrite decide_True by (split; lra).
  unfold isCausal_flat, dS_ambient, cget at 5 6 7 8. cbn [nth].
  f_equal. apply bool_decide_ext. unfold space_delta. cbn [tail].
  cbn [vsub zip_with]. rewrite sqsum_cons. unfold vsub, cget; cbn [nth].
  match goal with |- (?A <= ?B)%R ↔ (?C <= ?D)%R => 
    replace A with C by lra; replace B with D by lra end. done.
Qed.
