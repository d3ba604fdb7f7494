(** Theorems about /repo/spacetimes.py: C46 - C49 and C63 (constructors).
    Real numbers stand for floating point numbers; [eps] is the tolerance of the code. *)
From Verif Require Import Base SpacetimeModel SpacetimeFacts BlackHoleFacts TrigFacts.
From Coq Require Import Reals Rtrigo_def Ratan Lra Psatz.
#[local] Open Scope nat_scope.

(** ** Specification *)
(** A spacetime object that some constructor call returned. *)
Definition constructed (st : spacetime) : Prop :=
  st = Generic ∨
  (∃ dim p, FlatSpacetime dim p = Ok st) ∨
  (∃ dim r, deSitterSpacetime dim r = Ok st) ∨
  (∃ dim r, AntideSitterSpacetime dim r = Ok st) ∨
  (∃ dim r m, BlackHoleSpacetime dim r m = Ok st).

(** Sum of the squared differences of the spatial coordinates 1, ..., dim - 1. *)
Definition distance2 (dim : nat) (x y : coords) : R :=
  rsum ((λ i, (cget y i - cget x i) * (cget y i - cget x i))%R <$> seq 1 (dim - 1)).
(** y is in the future light cone of x (or equal to x) in Minkowski spacetime. *)
Definition minkowski_future (dim : nat) (x y : coords) : Prop :=
  (cget x 0 <= cget y 0)%R ∧
  (distance2 dim x y <= (cget y 0 - cget x 0) * (cget y 0 - cget x 0))%R.

(** The time used to order two points. *)
Definition order_time (st : spacetime) (x : coords) : R :=
  match st with
  | DeSitter _ a => (sqrt (a * a - sqsum (tail x)) * sinh (cget x 0 / a))%R
  | AntiDeSitter _ a => (sqrt (a * a + sqsum (tail x)) * sin (cget x 0 / a))%R
  | _ => cget x 0
  end.

Lemma sqsum_distance2 dim x y :
  length x = dim → length y = dim → sqsum (space_delta x y) = distance2 dim x y.
Proof.
  intros Hx Hy. unfold space_delta, distance2, sqsum. f_equal.
  destruct x as [|a x], y as [|b y]; cbn in Hx, Hy; subst dim; [done|lia..|].
  cbn [tail]. replace (S (length x) - 1) with (length x) by lia.
  injection Hy as Hy. unfold cget.
  rewrite <- seq_shift. rewrite <- list_fmap_compose.
  transitivity ((λ i, (nth i y 0 - nth i x 0) * (nth i y 0 - nth i x 0))%R <$> seq 0 (length x)); [|done].
  clear a b. revert y Hy. induction x as [|a x IH]; intros [|b y] Hy; try done.
  cbn [vsub zip_with fmap list_fmap seq length nth]. f_equal.
  rewrite <- seq_shift. rewrite <- list_fmap_compose. apply IH. cbn in Hy. lia.
Qed.
Lemma flat_prec_minkowski dim x y :
  length x = dim → length y = dim → flat_prec x y ↔ minkowski_future dim x y.
Proof.
  intros Hx Hy. unfold flat_prec, minkowski_future. rewrite (sqsum_distance2 dim) by done.
  split; intros [? ?]; split; lra.
Qed.

(** ** C46: never both ways, and the answer for exchanged arguments *)
Lemma BlackHole_constructed r_S schw : constructed (BlackHole r_S schw) → (0 < r_S)%R.
Proof.
  intros [?|[(? & p & H)|[(? & ? & H)|[(? & ? & H)|(? & ? & ? & H)]]]]; try done.
  - unfold FlatSpacetime in H. case_decide; [done|]. destruct p; try done; repeat (case_decide; try done).
  - unfold deSitterSpacetime in H. repeat (case_decide; try done).
  - unfold AntideSitterSpacetime in H. repeat (case_decide; try done).
  - unfold BlackHoleSpacetime in H. repeat (case_decide; try done). all: by injection H as <- _.
Qed.

Theorem C46_exclusive (eps : R) (st : spacetime) (x y : coords) :
  Causality eps st x y ≠ (true, true).
Proof.
  destruct st as [|dim ps|dim a|dim a|r_S schw]; cbn [Causality].
  - unfold isCausal_base. intros H. injection H as H1 H2.
    apply bool_decide_eq_true in H1, H2. lra.
  - destruct (decide (dim = 1)).
    { unfold isCausal_base. intros H. injection H as H1 H2.
      apply bool_decide_eq_true in H1, H2. lra. }
    destruct ps; destruct (decide (dim = 2)); apply by_sign_exclusive.
  - rewrite isCausal_dS_eq. destruct (decide _); [apply by_sign_exclusive|done].
  - apply by_sign_exclusive.
  - rewrite isCausal_BH2D_eq. destruct (decide _); [done|]. cbn zeta.
    destruct (bh_swapped _ _ _ _ _); [done|]. intros H. injection H as _ H. done.
Qed.

Lemma by_sign_swap d d' c c' :
  d' = (- d)%R → c' = c →
  by_sign d' c' = ((by_sign d c).2, (by_sign d c).1) ∨
  (by_sign d c = (true, false) ∧ by_sign d' c' = (true, false) ∧ d = 0%R).
Proof.
  intros -> ->. destruct (decide (d = 0)%R) as [->|Hd].
  - unfold by_sign. rewrite Ropp_0. rewrite bool_decide_true by lra.
    rewrite bool_decide_false by lra. destruct c; cbn; auto.
  - left. by apply by_sign_neg.
Qed.

Theorem C46_swap (eps : R) (st : spacetime) (x y : coords) :
  constructed st →
  let c := Causality eps st in
  c y x = ((c x y).2, (c x y).1) ∨
  (c x y = (true, false) ∧ c y x = (true, false) ∧ order_time st x = order_time st y).
Proof.
  intros Hst c.
  assert (Hbase : isCausal_base y x = ((isCausal_base x y).2, (isCausal_base x y).1) ∨
    (isCausal_base x y = (true, false) ∧ isCausal_base y x = (true, false) ∧ cget x 0 = cget y 0)).
  { unfold isCausal_base. cbn. destruct (decide (cget x 0 = cget y 0)) as [E|E].
    - right. rewrite E. rewrite bool_decide_true, bool_decide_false by lra. done.
    - left. f_equal; apply bool_decide_ext; lra. }
  destruct st as [|dim ps|dim a|dim a|r_S schw]; unfold c; cbn [Causality order_time].
  - done.
  - destruct (decide (dim = 1)); [done|].
    assert (∀ b b' : bool, b' = b →
       by_sign (cget x 0 - cget y 0) b' =
         ((by_sign (cget y 0 - cget x 0) b).2, (by_sign (cget y 0 - cget x 0) b).1) ∨
       (by_sign (cget y 0 - cget x 0) b = (true, false) ∧
        by_sign (cget x 0 - cget y 0) b' = (true, false) ∧ cget x 0 = cget y 0)) as Hs.
    { intros b b' E. destruct (by_sign_swap (cget y 0 - cget x 0) (cget x 0 - cget y 0) b b')
        as [?|(? & ? & ?)]; [lra|done|by left|right; split_and!; (done || lra)]. }
    destruct ps as [ps|]; destruct (decide (dim = 2)).
    + apply Hs. apply bool_decide_ext. rewrite (Rabs_minus_sym (cget x 0)).
      by rewrite period_delta_sym.
    + rewrite !isCausal_flatperiodic_eq. apply Hs. apply bool_decide_ext. rewrite circ_list_sym.
      replace ((cget x 0 - cget y 0) * (cget x 0 - cget y 0))%R
        with ((cget y 0 - cget x 0) * (cget y 0 - cget x 0))%R by lra. done.
    + apply Hs. apply bool_decide_ext. by rewrite (Rabs_minus_sym (cget x 0)), (Rabs_minus_sym (cget x 1)).
    + apply Hs. apply bool_decide_ext. unfold space_delta. rewrite sqsum_vsub_sym.
      replace ((cget x 0 - cget y 0) * (cget x 0 - cget y 0))%R
        with ((cget y 0 - cget x 0) * (cget y 0 - cget x 0))%R by lra. done.
  - rewrite !isCausal_dS_eq.
    destruct (decide (sqsum (tail y) < a * a ∧ sqsum (tail x) < a * a)%R) as [H1|H1].
    2:{ rewrite decide_False by tauto. by left. }
    rewrite decide_True by tauto.
    rewrite isCausal_flat_sym.
    unfold isCausal_flat.
    match goal with |- by_sign (- ?d) ?b = _ ∨ _ =>
      destruct (by_sign_swap d (- d)%R b b eq_refl eq_refl) as [E|(E1 & E2 & E3)] end.
    + left. exact E.
    + right. split_and!; [exact E1|exact E2|].
      unfold dS_ambient, cget in E3. cbn [nth] in E3. unfold cget. lra.
  - unfold isCausal_AdS.
    match goal with |- by_sign ?d' ?b' = ((by_sign ?d ?b).2, _) ∨ _ =>
      destruct (by_sign_swap d d' b b') as [E|(E1 & E2 & E3)] end.
    + lra.
    + apply bool_decide_ext. unfold space_delta. rewrite sqsum_vsub_sym.
      match goal with |- (_ <= ?A)%R ↔ (_ <= ?B)%R => replace A with B by lra end. done.
    + by left.
    + right. split_and!; [done|done|lra].
  - apply BlackHole_constructed in Hst.
    destruct (BH_swap schw r_S x y Hst) as [E|(E1 & E2 & E3 & _)]; [by left|right]. done.
Qed.

(** ** C47: flat spacetime with tolerance 0 *)
Theorem C47_flat (dim : nat) (x y z : coords) :
  dim ≥ 2 → length x = dim → length y = dim → length z = dim →
  let le a b := (Causality 0 (Flat dim None) a b).1 = true in
  (le x y ↔ minkowski_future dim x y) ∧
  le x x ∧ (le x y → le y z → le x z) ∧ (le x y → le y x → x = y).
Proof.
  intros Hd Hx Hy Hz le.
  assert (∀ a b, length a = dim → length b = dim → le a b ↔ flat_prec a b) as Hle.
  { intros a b Ha Hb. unfold le. cbn [Causality]. rewrite decide_False by lia.
    destruct (decide (dim = 2)) as [->|]; [by apply isCausal_flat2D_fst|apply isCausal_flat_fst]. }
  rewrite !Hle by done. split_and!.
  - by apply flat_prec_minkowski.
  - apply flat_prec_refl.
  - apply flat_prec_trans; congruence.
  - apply flat_prec_antisym; congruence.
Qed.
(** In one dimension only the time counts. *)
Theorem C47_one_dimension (eps : R) (p : option (list R)) (x y : coords) :
  (Causality eps (Flat 1 p) x y).1 = true ↔ (cget x 0 <= cget y 0)%R.
Proof.
  cbn [Causality]. rewrite decide_True by done. unfold isCausal_base. cbn [fst].
  rewrite bool_decide_eq_true. lra.
Qed.

(** y moved by k(i) periods along the i-th direction. *)
Definition image_of (dim : nat) (ps : list R) (k : nat → Z) (y : coords) : coords :=
  cget y 0 :: ((λ i, cget y i + IZR (k i) * nth (i - 1) ps 0)%R <$> seq 1 (dim - 1)).
(** The images are taken along the periodic directions only. *)
Definition windings (ps : list R) (k : nat → Z) : Prop :=
  ∀ i, ¬ (0 < nth (i - 1) ps 0)%R → k i = 0%Z.

Lemma cget_image dim ps k y i : i < dim → i ≥ 1 →
  cget (image_of dim ps k y) i = (cget y i + IZR (k i) * nth (i - 1) ps 0)%R.
Proof.
  intros H1 H2. unfold cget at 1, image_of. destruct i as [|i]; [lia|]. cbn [nth].
  apply nth_lookup_Some. rewrite list_lookup_fmap, lookup_seq_lt by lia. cbn. done.
Qed.
Lemma sqsum_list_le (f g : nat → R) l : (∀ i, i ∈ l → Rabs (f i) <= Rabs (g i))%R →
  (sqsum (f <$> l) <= sqsum (g <$> l))%R.
Proof.
  intros H. rewrite <- (sqsum_Rabs (g <$> l)). apply sqsum_mono.
  rewrite <- list_fmap_compose.
  induction l as [|i l IH]; [constructor|]. cbn. constructor; [apply (H i), elem_of_list_here|].
  apply IH. intros j Hj. apply H, elem_of_list_further, Hj.
Qed.
Lemma distance2_sqsum dim x y :
  distance2 dim x y = sqsum ((λ i, cget y i - cget x i)%R <$> seq 1 (dim - 1)).
Proof. unfold distance2, sqsum. by rewrite <- list_fmap_compose. Qed.

Theorem C47_periodic (dim : nat) (ps : list R) (x y z : coords) :
  dim ≥ 2 → length x = dim → length y = dim → length z = dim →
  within_period ps x y → within_period ps y z → within_period ps x z →
  let le a b := (Causality 0 (Flat dim (Some ps)) a b).1 = true in
  (le x y ↔ ∃ k, windings ps k ∧ minkowski_future dim x (image_of dim ps k y)) ∧
  le x x ∧ (le x y → le y z → le x z).
Proof.
  intros Hd Hx Hy Hz W1 W2 W3 le.
  assert (∀ a b, le a b ↔ periodic_prec dim ps a b) as Hle.
  { intros a b. unfold le. cbn [Causality]. rewrite decide_False by lia.
    destruct (decide (dim = 2)) as [->|].
    - apply isCausal_flat2Dperiodic_fst.
    - apply isCausal_flatperiodic_fst. }
  rewrite !Hle. split_and!.
  - assert (∀ i, i ≥ 1 → ∃ k : Z,
       circ (nth (i - 1) ps 0%R) (cget x i) (cget y i)
         = Rabs (cget y i + IZR k * nth (i - 1) ps 0 - cget x i)%R ∧
       (¬ (0 < nth (i - 1) ps 0)%R → k = 0%Z)) as Him.
    { intros i Hi. apply circ_image. intros Hp. by apply W1. }
    unfold periodic_prec, minkowski_future.
    split.
    + intros [H1 H2].
      assert (∃ k : nat → Z, ∀ i, i ∈ seq 1 (dim - 1) →
        circ (nth (i - 1) ps 0%R) (cget x i) (cget y i)
         = Rabs (cget y i + IZR (k i) * nth (i - 1) ps 0 - cget x i)%R ∧
        (¬ (0 < nth (i - 1) ps 0)%R → k i = 0%Z)) as [k Hk].
      { assert (∀ l, NoDup l → Forall (λ i, i ≥ 1) l → ∃ k : nat → Z, ∀ i, i ∈ l →
          circ (nth (i - 1) ps 0%R) (cget x i) (cget y i)
           = Rabs (cget y i + IZR (k i) * nth (i - 1) ps 0 - cget x i)%R ∧
          (¬ (0 < nth (i - 1) ps 0)%R → k i = 0%Z)) as Hall.
        { intros l Hnd HF. induction Hnd as [|j l Hj Hnd IH].
          - exists (λ _, 0%Z). intros i Hi. by apply elem_of_nil in Hi.
          - apply Forall_cons in HF as [Hj1 HF]. destruct (IH HF) as [k Hk].
            destruct (Him j Hj1) as (kj & E1 & E2).
            exists (λ i, if decide (i = j) then kj else k i). intros i Hi.
            destruct (decide (i = j)) as [->|Hne]; [done|].
            apply Hk. apply elem_of_cons in Hi as [?|?]; done. }
        apply Hall; [apply NoDup_seq|]. apply Forall_forall. intros i Hi.
        apply elem_of_seq in Hi. lia. }
      exists (λ i, if decide (0 < nth (i - 1) ps 0)%R then k i else 0%Z). split.
      { intros i Hi. by rewrite decide_False. }
      split; [unfold image_of, cget at 2; cbn [nth]; lra|].
      unfold image_of at 2 3. unfold cget at 1 3. cbn [nth].
      etransitivity; [|exact H2]. rewrite distance2_sqsum. unfold circ_list.
      apply sqsum_list_le. intros i Hi. right.
      destruct (Hk i Hi) as [E1 E2]. apply elem_of_seq in Hi.
      rewrite cget_image by lia. cbv beta. unfold circ in E1. rewrite E1.
      destruct (decide _) as [Hp|Hp]; [done|]. by rewrite E2.
    + intros (k & Hk & H1 & H2).
      unfold image_of in H1 at 1. unfold cget in H1 at 2. cbn [nth] in H1.
      unfold image_of in H2 at 2 3. unfold cget in H2 at 1 3. cbn [nth] in H2.
      split; [lra|]. etransitivity; [|exact H2]. rewrite distance2_sqsum.
      unfold circ_list. apply sqsum_list_le. intros i Hi. apply elem_of_seq in Hi.
      rewrite cget_image by lia. apply circ_nearest.
      * intros Hp. apply W1; [lia|done].
      * apply Hk.
  - apply periodic_prec_refl.
  - by apply periodic_prec_trans.
Qed.

(** Beyond one period the answer is wrong: the middle point is near both of the others, but
    these are reported unrelated. *)
Theorem C47_beyond_period_refuted :
  ∃ st x y z, FlatSpacetime 2 (PFloat 10) = Ok st ∧
  length x = 2 ∧ length y = 2 ∧ length z = 2 ∧
  Causality 0 st x y = (true, false) ∧ Causality 0 st y z = (true, false) ∧
  Causality 0 st x z = (false, false).
Proof.
  exists (Flat 2 (Some [10%R])), [0%R; 0%R], [2%R; 9%R], [4%R; 18%R].
  split_and!; try done.
  - unfold FlatSpacetime. rewrite decide_False by lia. by rewrite decide_True by lra.
  - change (Causality 0 (Flat 2 (Some [10%R]))) with (isCausal_flat2Dperiodic 0 [10%R]).
    unfold isCausal_flat2Dperiodic, period_delta, cget, by_sign. cbn [nth].
    rewrite decide_True by lra. rewrite !(Rabs_pos_eq (_ - 0)) by lra.
    rewrite Rmin_right by lra. rewrite Rabs_pos_eq by lra.
    rewrite bool_decide_true by lra. rewrite bool_decide_true by lra. by rewrite bool_decide_false by lra.
  - change (Causality 0 (Flat 2 (Some [10%R]))) with (isCausal_flat2Dperiodic 0 [10%R]).
    unfold isCausal_flat2Dperiodic, period_delta, cget, by_sign. cbn [nth].
    rewrite decide_True by lra. rewrite !(Rabs_pos_eq (_ - _)) by lra.
    rewrite Rmin_right by lra. rewrite Rabs_pos_eq by lra.
    rewrite bool_decide_true by lra. rewrite bool_decide_true by lra. by rewrite bool_decide_false by lra.
  - change (Causality 0 (Flat 2 (Some [10%R]))) with (isCausal_flat2Dperiodic 0 [10%R]).
    unfold isCausal_flat2Dperiodic, period_delta, cget, by_sign. cbn [nth].
    rewrite decide_True by lra. rewrite !(Rabs_pos_eq (_ - 0)) by lra.
    rewrite Rmin_right by lra. rewrite Rabs_left by lra.
    rewrite bool_decide_true by lra. rewrite bool_decide_false by lra. by rewrite bool_decide_false by lra.
Qed.

(** With a positive tolerance the relation is not transitive, in no dimension from 2 on. *)
Theorem C47_tolerance_not_transitive (eps : R) (dim : nat) :
  (0 < eps)%R → dim ≥ 2 →
  ∃ x y z, length x = dim ∧ length y = dim ∧ length z = dim ∧
    (Causality eps (Flat dim None) x y).1 = true ∧
    (Causality eps (Flat dim None) y z).1 = true ∧
    Causality eps (Flat dim None) x z = (false, false).
Proof.
  intros He Hd.
  assert (∃ d, (0 < d)%R ∧ (if decide (dim = 2) then d else (d * d)%R) = eps) as (d & Hd0 & Hdd).
  { destruct (decide (dim = 2)); [by exists eps|].
    exists (sqrt eps). split; [by apply sqrt_lt_R0|]. apply sqrt_sqrt. lra. }
  exists (0%R :: 0%R :: replicate (dim - 2) 0%R), (0%R :: d :: replicate (dim - 2) 0%R),
    (0%R :: (2 * d)%R :: replicate (dim - 2) 0%R).
  cbn [Causality]. rewrite decide_False by lia.
  assert (∀ a b, sqsum (space_delta (0%R :: a :: replicate (dim - 2) 0%R)
                                    (0%R :: b :: replicate (dim - 2) 0%R))
                 = ((b - a) * (b - a))%R) as Hsq.
  { intros a b. unfold space_delta. cbn [tail vsub zip_with]. rewrite sqsum_cons.
    fold (vsub (replicate (dim - 2) 0%R) (replicate (dim - 2) 0%R)).
    rewrite vsub_self. lra. }
  split_and!; [cbn; rewrite replicate_length; lia..| | |].
  - destruct (decide (dim = 2)).
    + unfold isCausal_flat2D, cget. cbn [nth]. rewrite by_sign_fst, bool_decide_eq_true.
      rewrite !Rabs_pos_eq by lra. lra.
    + unfold isCausal_flat. rewrite Hsq. unfold cget. cbn [nth].
      rewrite by_sign_fst, bool_decide_eq_true. lra.
  - destruct (decide (dim = 2)).
    + unfold isCausal_flat2D, cget. cbn [nth]. rewrite by_sign_fst, bool_decide_eq_true.
      rewrite !Rabs_pos_eq by lra. lra.
    + unfold isCausal_flat. rewrite Hsq. unfold cget. cbn [nth].
      rewrite by_sign_fst, bool_decide_eq_true. lra.
  - destruct (decide (dim = 2)).
    + unfold isCausal_flat2D, cget. cbn [nth]. rewrite (bool_decide_false (_ <= Rabs _)%R).
      * unfold by_sign. by rewrite !andb_false_r.
      * rewrite !Rabs_pos_eq by lra. lra.
    + unfold isCausal_flat. rewrite Hsq. unfold cget. cbn [nth].
      rewrite (bool_decide_false (_ - eps <= _)%R).
      * unfold by_sign. by rewrite !andb_false_r.
      * lra.
Qed.

(** ** C48: de Sitter and Anti-de Sitter spacetime *)
(** The point is inside the cosmological horizon. *)
Definition inside_horizon (alpha : R) (x : coords) : Prop := (sqsum (tail x) < alpha * alpha)%R.

Theorem C48_deSitter (dim : nat) (alpha : R) (x y z : coords) :
  (0 < alpha)%R → length x = dim → length y = dim → length z = dim → dim ≥ 2 →
  let le a b := (Causality 0 (DeSitter dim alpha) a b).1 = true in
  (inside_horizon alpha x → le x x) ∧
  (le x y → le y z → le x z) ∧
  (le x y → le y x → x = y) ∧
  (∀ eps, ¬ inside_horizon alpha x →
     Causality eps (DeSitter dim alpha) x y = (false, false) ∧
     Causality eps (DeSitter dim alpha) y x = (false, false)).
Proof.
  intros Ha Hx Hy Hz Hd le.
  assert (∀ a b, le a b ↔ inside_horizon alpha a ∧ inside_horizon alpha b ∧
                          flat_prec (dS_ambient alpha a) (dS_ambient alpha b)) as Hle.
  { intros a b. unfold le. cbn [Causality]. rewrite isCausal_dS_eq. unfold inside_horizon.
    destruct (decide _) as [H|H].
    - rewrite isCausal_flat_fst. tauto.
    - split; [done|]. intros (? & ? & _). tauto. }
  assert (∀ a b, length a = length b → length (dS_ambient alpha a) = length (dS_ambient alpha b)) as Hlen.
  { intros a b H. unfold dS_ambient. cbn. destruct a, b; cbn in *; lia. }
  rewrite !Hle. split_and!.
  - intros H. split_and!; [done|done|]. apply flat_prec_refl.
  - intros (? & ? & ?) (? & ? & ?). split_and!; [done|done|].
    apply (flat_prec_trans _ (dS_ambient alpha y)); try done; apply Hlen; congruence.
  - intros (H1 & H2 & H3) (_ & _ & H4).
    assert (dS_ambient alpha x = dS_ambient alpha y) as E.
    { apply flat_prec_antisym; try done. apply Hlen. congruence. }
    unfold dS_ambient in E. injection E as E1 E2 E3. rewrite E3 in E1.
    assert (0 < sqrt (alpha * alpha - sqsum (tail y)))%R as Hp.
    { apply sqrt_lt_R0. unfold inside_horizon in H2. lra. }
    assert (sinh (cget x 0 / alpha) = sinh (cget y 0 / alpha)) as Es.
    { apply (Rmult_eq_reg_l (sqrt (alpha * alpha - sqsum (tail y)))); lra. }
    assert (cget x 0 / alpha = cget y 0 / alpha)%R as Et.
    { destruct (Rtotal_order (cget x 0 / alpha) (cget y 0 / alpha)) as [H|[H|H]]; [|done|];
        apply sinh_increasing in H; lra. }
    assert (cget x 0 = cget y 0) as E0.
    { apply (Rmult_eq_reg_r (/ alpha)%R); [exact Et|]. apply Rinv_neq_0_compat. lra. }
    destruct x as [|a x], y as [|b y]; cbn in *; try lia. unfold cget in E0. cbn in E0. congruence.
  - intros eps H. unfold inside_horizon in H. cbn [Causality]. rewrite !isCausal_dS_eq.
    rewrite !decide_False by tauto. done.
Qed.

(** In two dimensions the answer is exactly the order given by the light rays, which move along
    x = alpha * tanh(const +- t / alpha). *)
Theorem C48_deSitter_light_rays (alpha t r t' r' : R) :
  (0 < alpha)%R → (r * r < alpha * alpha)%R → (r' * r' < alpha * alpha)%R →
  (Causality 0 (DeSitter 2 alpha) [t; r] [t'; r']).1 = true ↔
  (Rabs (atanh (r' / alpha) - atanh (r / alpha)) <= t' / alpha - t / alpha)%R.
Proof. apply isCausal_dS_2D. Qed.

(** Anti-de Sitter in two dimensions: right in the diamond |t/alpha| + |atan(x/alpha)| < pi/2 ... *)
Theorem C48_AntideSitter_light_rays (alpha t r t' r' : R) :
  (0 < alpha)%R → AdS_diamond alpha t r → AdS_diamond alpha t' r' →
  (Causality 0 (AntiDeSitter 2 alpha) [t; r] [t'; r']).1 = true ↔
  (Rabs (atan (r' / alpha) - atan (r / alpha)) <= t' / alpha - t / alpha)%R.
Proof. apply isCausal_AdS_2D. Qed.

(** ... and wrong outside of it: y is later and on the future light ray of x, but reported to be
    in the past. *)
Theorem C48_AntideSitter_reversed (eps alpha : R) :
  (0 <= eps)%R → (0 < alpha)%R →
  ∃ t r t' r', (0 < t)%R ∧ (t < t')%R ∧ (t' / alpha < PI / 2)%R ∧
  (Rabs (atan (r' / alpha) - atan (r / alpha)) = t' / alpha - t / alpha)%R ∧
  Causality eps (AntiDeSitter 2 alpha) [t; r] [t'; r'] = (false, true).
Proof.
  intros He Ha. pose proof PI_RGT_0 as Hpi.
  exists (alpha * (PI / 4))%R, (alpha * sqrt 3)%R, (alpha * (PI / 3))%R, alpha.
  assert (0 < sqrt 3)%R as H3 by (apply sqrt_lt_R0; lra).
  assert (sqrt 3 * sqrt 3 = 3)%R as H33 by (apply sqrt_sqrt; lra).
  assert (0 < sqrt 2)%R as H2 by (apply sqrt_lt_R0; lra).
  assert (sqrt 2 * sqrt 2 = 2)%R as H22 by (apply sqrt_sqrt; lra).
  assert (sqrt 3 < 2)%R as Hlt by nra.
  split_and!.
  - nra.
  - nra.
  - replace (alpha * (PI / 3) / alpha)%R with (PI / 3)%R by (field; lra). lra.
  - replace (alpha * (PI / 3) / alpha)%R with (PI / 3)%R by (field; lra).
    replace (alpha * (PI / 4) / alpha)%R with (PI / 4)%R by (field; lra).
    replace (alpha / alpha)%R with 1%R by (field; lra).
    replace (alpha * sqrt 3 / alpha)%R with (sqrt 3)%R by (field; lra).
    assert (atan (sqrt 3) = PI / 3)%R as ->.
    { rewrite <- tan_PI3. apply atan_tan. lra. }
    rewrite atan_1. rewrite Rabs_left by lra. lra.
  - cbn [Causality]. unfold isCausal_AdS, space_delta, cget. cbn [nth tail vsub zip_with].
    rewrite !sqsum_cons, sqsum_nil, !Rplus_0_r.
    replace (alpha * (PI / 3) / alpha)%R with (PI / 3)%R by (field; lra).
    replace (alpha * (PI / 4) / alpha)%R with (PI / 4)%R by (field; lra).
    rewrite sin_PI3, cos_PI3, sin_PI4, cos_PI4.
    assert (sqrt (alpha * alpha + alpha * sqrt 3 * (alpha * sqrt 3)) = 2 * alpha)%R as ->.
    { replace (alpha * alpha + alpha * sqrt 3 * (alpha * sqrt 3))%R
        with (alpha * alpha + alpha * alpha * (sqrt 3 * sqrt 3))%R by lra.
      rewrite H33. replace (alpha * alpha + alpha * alpha * 3)%R with ((2 * alpha) * (2 * alpha))%R by lra.
      apply sqrt_square. lra. }
    assert (sqrt (alpha * alpha + alpha * alpha) = sqrt 2 * alpha)%R as ->.
    { replace (alpha * alpha + alpha * alpha)%R with (2 * (alpha * alpha))%R by lra.
      rewrite sqrt_mult_alt by lra. rewrite sqrt_square by lra. done. }
    assert (/ sqrt 2 = sqrt 2 / 2)%R as Hi.
    { apply (Rmult_eq_reg_l (sqrt 2)); [|lra]. rewrite Rinv_r by lra. lra. }
    unfold Rdiv. rewrite Rmult_1_l, Hi.
    match goal with |- by_sign ?d (bool_decide ?P) = _ =>
      assert (d < 0)%R as Hd; [|assert P as HP] end.
    + assert (0 < sqrt 2 * alpha)%R by nra.
      replace (sqrt 2 * alpha * (sqrt 3 * / 2) - 2 * alpha * (sqrt 2 / 2))%R
        with (sqrt 2 * alpha * (sqrt 3 * / 2 - 1))%R by lra.
      nra.
    + match goal with |- (?L - eps <= ?Q)%R => assert (L = Q) as -> end; [|lra].
      set (w := sqrt 2) in *. set (v := sqrt 3) in *.
      transitivity (alpha * alpha * (v * v - 2 * v + 1))%R; [lra|].
      transitivity (alpha * alpha * ((w * w) * (v * v / 4 - v + 1 + 1 / 4)))%R; [rewrite H33, H22; lra|lra].
    + unfold by_sign. rewrite (bool_decide_true _ HP).
      rewrite bool_decide_false by lra. by rewrite bool_decide_true.
Qed.

(** Two events at the same place, half a period later: reported in reversed order. *)
Theorem C48_AntideSitter_turning_point (eps alpha : R) (dim : nat) (place : list R) :
  (0 <= eps)%R → (0 < alpha)%R →
  let x := (alpha * (PI / 2))%R :: place in
  let y := (alpha * (3 * (PI / 2)))%R :: place in
  (cget x 0 < cget y 0)%R ∧ Causality eps (AntiDeSitter dim alpha) x y = (false, true).
Proof.
  intros He Ha x y. pose proof PI_RGT_0 as Hpi. split; [unfold cget; cbn; nra|].
  cbn [Causality]. unfold isCausal_AdS, space_delta, x, y, cget. cbn [nth tail].
  rewrite vsub_self.
  replace (alpha * (PI / 2) / alpha)%R with (PI / 2)%R by (field; lra).
  replace (alpha * (3 * (PI / 2)) / alpha)%R with (3 * (PI / 2))%R by (field; lra).
  rewrite sin_PI2, sin_3PI2.
  assert (0 < sqrt (alpha * alpha + sqsum place))%R as Hp.
  { apply sqrt_lt_R0. pose proof (sqsum_nonneg place). nra. }
  set (q := sqrt (alpha * alpha + sqsum place)) in *.
  unfold by_sign. rewrite bool_decide_false by lra.
  cbn [andb]. rewrite bool_decide_true by lra. rewrite bool_decide_true; [done|].
  match goal with |- (_ <= ?a * ?a + ?b * ?b)%R =>
    pose proof (Rle_0_sqr a) as Q1; pose proof (Rle_0_sqr b) as Q2; unfold Rsqr in Q1, Q2 end.
  lra.
Qed.

(** ** C49: black hole spacetime *)
Theorem C49_transitive (r_S : R) (schw : bool) (x y z : coords) :
  (0 < r_S)%R → length x = 2 → length y = 2 → length z = 2 →
  let le a b := (Causality 0 (BlackHole r_S schw) a b).1 = true in
  (le x y → le y z → le x z) ∧
  (le x y → le y x → x = y) ∧
  (Rabs (cget x 1) ≠ r_S → le x x).
Proof.
  intros Hp Hx Hy Hz le.
  assert (∀ a b, le a b ↔ (0 <= cget a 1 * cget b 1)%R ∧
    BH_prec schw r_S (Rabs (cget a 1)) (Rabs (cget b 1)) (cget b 0 - cget a 0)) as Hle.
  { intros a b. unfold le. cbn [Causality]. by apply isCausal_BH2D_fst. }
  pose proof (Rabs_pos (cget x 1)) as P1. pose proof (Rabs_pos (cget y 1)) as P2.
  pose proof (Rabs_pos (cget z 1)) as P3.
  split_and!.
  - rewrite !Hle. intros [S1 B1] [S2 B2].
    assert (BH_prec schw r_S (Rabs (cget x 1)) (Rabs (cget z 1)) (cget z 0 - cget x 0)) as B.
    { replace (cget z 0 - cget x 0)%R with ((cget y 0 - cget x 0) + (cget z 0 - cget y 0))%R by lra.
      destruct schw; [apply (S_trans _ _ (Rabs (cget y 1)))|apply (EF_trans _ _ (Rabs (cget y 1)))]; done. }
    split; [|done].
    destruct (Req_dec (cget y 1) 0) as [H0|H0].
    + assert (cget z 1 = 0)%R as Hz0; [|rewrite Hz0; lra].
      rewrite H0, Rabs_R0 in B2.
      assert (Rabs (cget z 1) <= 0)%R as Hle0.
      { destruct schw; cbn [BH_prec] in B2.
        - unfold S_prec in B2. lra.
        - destruct B2 as [_ [(? & ?)|(? & ?)]]; lra. }
      revert Hle0. unfold Rabs. destruct (Rcase_abs _); lra.
    + assert (0 <= cget x 1 * cget z 1 * (cget y 1 * cget y 1))%R.
      { replace (cget x 1 * cget z 1 * (cget y 1 * cget y 1))%R
          with ((cget x 1 * cget y 1) * (cget y 1 * cget z 1))%R by lra. nra. }
      assert (0 < cget y 1 * cget y 1)%R by nra. nra.
  - intros L1 L2. assert (cget x 0 = cget y 0 ∧ cget x 1 = cget y 1) as [E0 E1].
    { unfold le in L1, L2. cbn [Causality] in L1, L2.
      destruct (BH_swap schw r_S x y Hp) as [E|(_ & _ & E)]; [|done].
      rewrite E in L2. cbn in L2. exfalso.
      apply (C46_exclusive 0 (BlackHole r_S schw) x y). cbn [Causality].
      destruct (isCausal_BH2D schw r_S x y) as [p q]. cbn in *. by subst. }
    destruct x as [|x0 [|x1 []]]; try done. destruct y as [|y0 [|y1 []]]; try done.
    unfold cget in E0, E1. cbn in E0, E1. congruence.
  - intros Hr. rewrite Hle. split; [nra|].
    replace (cget x 0 - cget x 0)%R with 0%R by lra.
    destruct schw; [by apply S_prec_refl|by apply EF_prec_refl].
Qed.

(** The radial coordinate along which light rays are straight lines (off the horizon). *)
Definition tortoise (r_S r : R) : R := (r + r_S * ln (Rabs (r - r_S) / r_S))%R.
(** Schwarzschild metric: y is in the future of x exactly if they are on the same side and, both
    outside, the time suffices for the light ray between them; from outside to inside, the
    time suffices for the ingoing ray; inside, the smaller radius is later. *)
Theorem C49_Schwarzschild (r_S t r t' r' : R) :
  (0 < r_S)%R → (0 <= r)%R → (0 <= r')%R → r ≠ r_S → r' ≠ r_S →
  (Causality 0 (BlackHole r_S true) [t; r] [t'; r']).1 = true ↔
  ((r_S < r)%R ∧ (r_S < r')%R ∧ (Rabs (tortoise r_S r' - tortoise r_S r) <= t' - t)%R)
  ∨ ((r_S < r)%R ∧ (r' < r_S)%R ∧ (tortoise r_S r - tortoise r_S r' <= t' - t)%R)
  ∨ ((r' <= r)%R ∧ (r < r_S)%R ∧ (Rabs (t' - t) <= tortoise r_S r' - tortoise r_S r)%R).
Proof.
  intros Hp Hr Hr' Hn Hn'. cbn [Causality]. rewrite isCausal_BH2D_fst by done.
  unfold cget. cbn [nth]. rewrite !Rabs_pos_eq by done. cbn [BH_prec].
  unfold S_prec. assert (∀ q, ray 1 r_S q = tortoise r_S q) as Et.
  { intros q. unfold ray, tortoise. by rewrite Rmult_1_l. }
  rewrite !Et, (Rabs_minus_sym (tortoise r_S r)).
  assert (0 <= r * r')%R by (by apply Rmult_le_pos).
  split.
  - intros [_ [?|[?|[[? _]|?]]]]; [tauto..|done|tauto].
  - intros [?|[?|?]]; tauto.
Qed.
(** Eddington-Finkelstein metric: ingoing rays have slope -1, outgoing rays follow
    r + 2 r_S ln|r - r_S|; inside the horizon both move inwards. *)
Definition outgoing (r_S r : R) : R := (r + 2 * r_S * ln (Rabs (r - r_S) / r_S))%R.
Theorem C49_EddingtonFinkelstein (r_S t r t' r' : R) :
  (0 < r_S)%R → (0 <= r)%R → (0 <= r')%R → r ≠ r_S →
  (Causality 0 (BlackHole r_S false) [t; r] [t'; r']).1 = true ↔
  (0 <= t' - t)%R ∧
  (((r' <= r)%R ∧ (r - r' <= t' - t)%R ∧
    ((r < r_S)%R → (t' - t <= outgoing r_S r' - outgoing r_S r)%R))
   ∨ ((r_S < r)%R ∧ (r < r')%R ∧ (outgoing r_S r' - outgoing r_S r <= t' - t)%R)).
Proof.
  intros Hp Hr Hr' Hn. cbn [Causality]. rewrite isCausal_BH2D_fst by done.
  unfold cget. cbn [nth]. rewrite !Rabs_pos_eq by done. cbn [BH_prec].
  unfold EF_prec. assert (∀ q, ray 2 r_S q = outgoing r_S q) as Et by done.
  rewrite !Et. assert (0 <= r * r')%R by (by apply Rmult_le_pos).
  split.
  - intros [_ [? [(? & ? & ? & ?)|?]]]; tauto.
  - intros [? [(? & ? & ?)|?]]; [|tauto].
    split; [done|]. split; [done|]. left. split_and!; [done|done| |done]. by intros [? _].
Qed.
(** On the horizon a point is not even before itself, nor before a later point at the same place
    (the outgoing light ray stays on the horizon). *)
Theorem C49_horizon (r_S : R) (schw : bool) (t t' : R) :
  (0 < r_S)%R → Causality 0 (BlackHole r_S schw) [t; r_S] [t'; r_S] = (false, false).
Proof.
  intros Hp. cbn [Causality].
  assert (∀ s s', (isCausal_BH2D schw r_S [s; r_S] [s'; r_S]).1 = false) as Hf.
  { intros s s'. apply not_true_iff_false. rewrite isCausal_BH2D_fst by done.
    unfold cget. cbn [nth]. rewrite !Rabs_pos_eq by lra. intros [_ H].
    destruct schw; cbn [BH_prec] in H.
    - unfold S_prec in H. lra.
    - destruct H as [_ [(_ & _ & H & _)|H]]; [by apply H|lra]. }
  destruct (BH_swap schw r_S [t; r_S] [t'; r_S] Hp) as [E|(E & _)].
  - pose proof (Hf t t') as H1. pose proof (Hf t' t) as H2. rewrite E in H2. cbn in H2.
    destruct (isCausal_BH2D schw r_S [t; r_S] [t'; r_S]). cbn in *. by subst.
  - pose proof (Hf t t') as H1. by rewrite E in H1.
Qed.

(** ** C63: which spacetimes can be constructed *)
Theorem C63_FlatSpacetime (dim : Z) (period : period_arg) :
  (∃ st, FlatSpacetime dim period = Ok st ∧ Z.of_nat (Dim st) = dim) ↔
  (1 <= dim)%Z ∧
  match period with
  | PFloat _ => True
  | PTuple ps => Z.of_nat (length ps) = (dim - 1)%Z
  | POther => False
  end.
Proof.
  unfold FlatSpacetime. destruct (decide (dim < 1)%Z) as [H|H].
  { split; [by intros (? & ? & _)|lia]. }
  split.
  - intros (st & E & Hd). split; [lia|]. destruct period as [p|ps|]; [done| |done].
    destruct (decide (length ps = _)) as [Hl|]; [lia|done].
  - intros [_ Hp]. destruct period as [p|ps|]; [| |done].
    + destruct (decide _); eexists; (split; [done|]); cbn; lia.
    + rewrite decide_True by lia. destruct (decide _); eexists; (split; [done|]); cbn; lia.
Qed.
Theorem C63_FlatSpacetime_error (dim : Z) (period : period_arg) (e : exn) :
  FlatSpacetime dim period = Err e → e = ValueError.
Proof.
  unfold FlatSpacetime. repeat case_decide; try congruence.
  destruct period; repeat case_decide; congruence.
Qed.
Theorem C63_curved (dim : Z) (r : R) (metric : string) :
  ((∃ st, deSitterSpacetime dim r = Ok st) ↔ (2 <= dim)%Z ∧ (0 < r)%R) ∧
  ((∃ st, AntideSitterSpacetime dim r = Ok st) ↔ (2 <= dim)%Z ∧ (0 < r)%R) ∧
  ((∃ st, BlackHoleSpacetime dim r metric = Ok st) ↔
     dim = 2%Z ∧ (0 < r)%R ∧ (metric = "Eddington-Finkelstein" ∨ metric = "Schwarzschild")).
Proof.
  unfold deSitterSpacetime, AntideSitterSpacetime, BlackHoleSpacetime. split_and!.
  - split.
    + intros [st H]. repeat (case_decide; try done). split; [lia|done].
    + intros [? ?]. rewrite decide_False by lia. rewrite decide_True by done. by eexists.
  - split.
    + intros [st H]. repeat (case_decide; try done). split; [lia|done].
    + intros [? ?]. rewrite decide_False by lia. rewrite decide_True by done. by eexists.
  - split.
    + intros [st H]. destruct (decide (dim < 2)%Z); [done|]. destruct (decide (2 < dim)%Z); [done|].
      destruct (decide (metric = _ ∨ _)); [|done]. destruct (decide (0 < r)%R); [|done].
      split_and!; [lia|done|done].
    + intros (-> & ? & ?). rewrite !decide_False by lia. rewrite !decide_True by done. by eexists.
Qed.
(** repr() of a flat spacetime without period - the default - raises KeyError. *)
Theorem C63_repr (dim : Z) (p : R) (st : spacetime) :
  FlatSpacetime dim (PFloat p) = Ok st →
  repr_ok st = if decide (0 < p)%R then Ok tt else Err KeyError.
Proof.
  unfold FlatSpacetime. case_decide; [done|]. destruct (decide (0 < p)%R); by intros [= <-].
Qed.

(** ** The hypotheses are met by concrete cases *)
Example C46_nonvacuous : constructed (Flat 3 None) ∧ constructed (BlackHole 1 true).
Proof.
  split.
  - right; left. exists 3%Z, (PFloat 0). unfold FlatSpacetime.
    rewrite decide_False by lia. by rewrite decide_False by lra.
  - do 4 right. exists 2%Z, 1%R, "Schwarzschild". unfold BlackHoleSpacetime.
    rewrite !decide_False by lia. rewrite decide_True by auto. by rewrite decide_True by lra.
Qed.
Example C47_nonvacuous :
  (Causality 0 (Flat 3 None) [0%R; 0%R; 0%R] [5%R; 3%R; 4%R]).1 = true ∧
  (Causality 0 (Flat 3 None) [0%R; 0%R; 0%R] [4%R; 3%R; 4%R]).1 = false.
Proof.
  split.
  - apply (C47_flat 3 _ _ [0%R; 0%R; 0%R]); [lia|done..|].
    unfold minkowski_future, distance2, cget, rsum; cbn; split; lra.
  - apply not_true_iff_false. intros H.
    apply (proj1 (C47_flat 3 [0%R; 0%R; 0%R] [4%R; 3%R; 4%R] [0%R; 0%R; 0%R]
      ltac:(lia) eq_refl eq_refl eq_refl)) in H. revert H.
    unfold minkowski_future, distance2, cget, rsum; cbn. lra.
Qed.
Example C47_periodic_nonvacuous :
  (Causality 0 (Flat 2 (Some [10%R])) [0%R; 0%R] [2%R; 9%R]).1 = true.
Proof.
  assert (within_period [10%R] [0%R; 0%R] [2%R; 9%R]) as W.
  { intros i Hi Hp. destruct i as [|[|i]]; [lia| |].
    - unfold cget; cbn. rewrite Rabs_pos_eq; lra.
    - cbn in Hp. destruct i; cbn in Hp; lra. }
  assert (within_period [10%R] [2%R; 9%R] [2%R; 9%R]) as W'.
  { intros i Hi Hp. replace (cget [2%R; 9%R] i - cget [2%R; 9%R] i)%R with 0%R by lra.
    rewrite Rabs_R0. lra. }
  apply (proj1 (C47_periodic 2 [10%R] [0%R; 0%R] [2%R; 9%R] [2%R; 9%R]
    ltac:(lia) eq_refl eq_refl eq_refl W W' W)).
  exists (λ i, match i with 1 => (-1)%Z | _ => 0%Z end). split.
  - intros i Hi. destruct i as [|[|i]]; [done|cbn in Hi; lra|done].
  - unfold minkowski_future, distance2, image_of, cget, rsum; cbn; split; lra.
Qed.
Example C48_nonvacuous : inside_horizon 2 [0%R; 1%R; 1%R] ∧ AdS_diamond 1 0 0.
Proof.
  split.
  - unfold inside_horizon. cbn [tail]. rewrite !sqsum_cons, sqsum_nil. lra.
  - unfold AdS_diamond. replace (0 / 1)%R with 0%R by lra. rewrite atan_0, Rabs_R0.
    pose proof PI_RGT_0. lra.
Qed.
Example C63_nonvacuous :
  (∃ st, FlatSpacetime 4 (PFloat 0) = Ok st) ∧ (∃ st, FlatSpacetime 3 (PTuple [1; 0]%R) = Ok st) ∧
  (∃ e, FlatSpacetime 3 (PTuple [1]%R) = Err e) ∧ (∃ e, FlatSpacetime 0 (PFloat 0) = Err e).
Proof.
  split; [|split; [|split]].
  - destruct (proj2 (C63_FlatSpacetime 4 (PFloat 0))) as (st & E & _); [split; [lia|done]|by exists st].
  - destruct (proj2 (C63_FlatSpacetime 3 (PTuple [1; 0]%R))) as (st & E & _); [split; [lia|done]|by exists st].
  - exists ValueError. by unfold FlatSpacetime.
  - exists ValueError. by unfold FlatSpacetime.
Qed.
Example C49_nonvacuous : (Causality 0 (BlackHole 1 false) [0%R; 3%R] [4%R; 0%R]).1 = true.
Proof.
  apply C49_EddingtonFinkelstein; [lra..|]. split; [lra|]. left. split_and!; [lra|lra|intros; lra].
Qed.

Print Assumptions C46_exclusive.
Print Assumptions C46_swap.
Print Assumptions C47_flat.
Print Assumptions C47_one_dimension.
Print Assumptions C47_periodic.
Print Assumptions C47_beyond_period_refuted.
Print Assumptions C47_tolerance_not_transitive.
Print Assumptions C48_deSitter.
Print Assumptions C48_deSitter_light_rays.
Print Assumptions C48_AntideSitter_light_rays.
Print Assumptions C48_AntideSitter_reversed.
Print Assumptions C48_AntideSitter_turning_point.
Print Assumptions C49_transitive.
Print Assumptions C49_Schwarzschild.
Print Assumptions C49_EddingtonFinkelstein.
Print Assumptions C49_horizon.
Print Assumptions C63_FlatSpacetime.
Print Assumptions C63_FlatSpacetime_error.
Print Assumptions C63_curved.
Print Assumptions C63_repr.
