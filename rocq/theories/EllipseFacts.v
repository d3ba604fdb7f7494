(** Winding numbers of closed polygons: a point to the left of all edges is painted, a point
    separated by a line from all vertices is not; the outline of a (rotated) ellipse. *)
From Verif Require Import Base SpacetimeModel ShapeModel OutlineModel SpecOutline OutlineFacts PolygonFacts.
From Coq Require Import Reals Lra Lia.
#[local] Open Scope nat_scope.

(** ** A point to the left of all edges *)
Section star.
Context (f : nat → point) (n : nat) (p : point).
Hypothesis Hn : 1 ≤ n.
Hypothesis Hcl : f n = f 0.
Hypothesis Hor : ∀ i, i < n → (0 < orientation (f i) (f (S i)) p)%R.
Let X (i : nat) : R := ((f i).1 - p.1)%R.
Let Y (i : nat) : R := ((f i).2 - p.2)%R.
Lemma star_cross i : i < n → (0 < X i * Y (S i) - Y i * X (S i))%R.
Proof using Hor. intros Hi. specialize (Hor i Hi). unfold orientation in Hor. unfold X, Y. lra. Qed.
Lemma star_ratio : (∀ i, i ≤ n → (0 < Y 0 * Y i)%R) → False.
Proof using Hor Hn Hcl.
  intros HY. assert (Hd : ∀ i, i < n → (X (S i) / Y (S i) < X i / Y i)%R).
  { intros i Hi. pose proof (HY i ltac:(lia)) as H1. pose proof (HY (S i) ltac:(lia)) as H2. pose proof (star_cross i Hi) as H3.
    assert (Hp : (0 < Y i * Y (S i))%R).
    { assert (Hq : (0 < (Y 0 * Y 0) * (Y i * Y (S i)))%R) by (replace (Y 0 * Y 0 * (Y i * Y (S i)))%R with ((Y 0 * Y i) * (Y 0 * Y (S i)))%R by ring; by apply Rmult_lt_0_compat).
      pose proof (Rle_0_sqr (Y 0)) as Hs. unfold Rsqr in Hs. apply Rnot_le_lt. intros Hle.
      assert (Y 0 * Y 0 * (Y i * Y (S i)) <= 0)%R; [|lra]. rewrite <- (Rmult_0_r (Y 0 * Y 0)). by apply Rmult_le_compat_l. }
    assert (Y i ≠ 0%R) by (intros E; rewrite E in Hp; lra). assert (Y (S i) ≠ 0%R) by (intros E; rewrite E in Hp; lra).
    apply Rminus_gt_0_lt. replace (X i / Y i - X (S i) / Y (S i))%R with ((X i * Y (S i) - Y i * X (S i)) * / (Y i * Y (S i)))%R by (field; done).
    apply Rmult_lt_0_compat; [done|by apply Rinv_0_lt_compat]. }
  assert (Hle : ∀ i, 1 ≤ i ≤ n → (X i / Y i < X 0 / Y 0)%R).
  { intros i. induction i as [|i IH]; intros Hi; [lia|]. specialize (Hd i ltac:(lia)). destruct i as [|i]; [done|]. specialize (IH ltac:(lia)). lra. }
  specialize (Hle n ltac:(lia)). unfold X, Y in Hle. rewrite Hcl in Hle. lra.
Qed.
Lemma star_neighbours i : i ≤ n → ∃ j k, j < n ∧ f (S j) = f i ∧ k < n ∧ f k = f i.
Proof using Hor Hn Hcl.
  intros Hi. destruct i as [|i].
  - exists (n - 1), 0. split; [lia|]. replace (S (n - 1)) with n by lia. auto with lia.
  - exists i, (if decide (S i = n) then 0 else S i). split; [lia|]. split; [done|]. destruct (decide (S i = n)) as [<-|]; auto with lia.
Qed.
Lemma star_above : ∃ i, i ≤ n ∧ (p.2 < (f i).2)%R.
Proof using Hor Hn Hcl.
  destruct (decide (Exists (λ i, (p.2 < (f i).2)%R) (seq 0 (S n)))) as [H|H].
  { apply Exists_exists in H as (i & Hi%elem_of_seq & ?). exists i. split; [lia|done]. }
  exfalso. rewrite <- Forall_Exists_neg in H. rewrite Forall_forall in H.
  assert (HY : ∀ i, i ≤ n → (Y i <= 0)%R) by (intros i Hi; unfold Y; assert (¬ (p.2 < (f i).2)%R) by (apply H; apply elem_of_seq; lia); lra).
  assert (HY' : ∀ i, i ≤ n → (Y i < 0)%R).
  { intros i Hi. destruct (Rle_lt_or_eq_dec _ _ (HY i Hi)) as [|E]; [done|]. exfalso.
    destruct (star_neighbours i Hi) as (j & k & Hj & Ej & Hk & Ek).
    assert (EXj : X (S j) = X i) by (unfold X; by rewrite Ej). assert (EYj : Y (S j) = Y i) by (unfold Y; by rewrite Ej).
    assert (EXk : X k = X i) by (unfold X; by rewrite Ek). assert (EYk : Y k = Y i) by (unfold Y; by rewrite Ek).
    pose proof (star_cross j Hj) as H1. pose proof (star_cross k Hk) as H2. rewrite EXj, EYj, E in H1. rewrite EXk, EYk, E in H2.
    pose proof (HY j ltac:(lia)). pose proof (HY (S k) ltac:(lia)). assert (0 < X i)%R by nra. nra. }
  apply star_ratio. intros i Hi. pose proof (HY' 0 ltac:(lia)). pose proof (HY' i Hi). nra.
Qed.
Lemma star_below : ∃ i, i ≤ n ∧ ((f i).2 <= p.2)%R.
Proof using Hor Hn Hcl.
  destruct (decide (Exists (λ i, ((f i).2 <= p.2)%R) (seq 0 (S n)))) as [H|H].
  { apply Exists_exists in H as (i & Hi%elem_of_seq & ?). exists i. split; [lia|done]. }
  exfalso. rewrite <- Forall_Exists_neg in H. rewrite Forall_forall in H.
  assert (HY : ∀ i, i ≤ n → (0 < Y i)%R) by (intros i Hi; unfold Y; assert (¬ ((f i).2 <= p.2)%R) by (apply H; apply elem_of_seq; lia); lra).
  apply star_ratio. intros i Hi. pose proof (HY 0 ltac:(lia)). pose proof (HY i Hi). nra.
Qed.
Lemma star_up : ∃ k, k < n ∧ ((f k).2 <= p.2)%R ∧ (p.2 < (f (S k)).2)%R.
Proof using Hor Hn Hcl.
  destruct star_above as (j & Hj & Aj). destruct star_below as (i & Hi & Bi).
  set (P := λ k, ((f k).2 <= p.2)%R). assert (Hd : ∀ k, Decision (P k)) by (intros; unfold P; apply _).
  assert (Bj : ¬ P j) by (unfold P; lra). change (P i) in Bi. assert (Hc : P 0 ↔ P n) by (unfold P; by rewrite Hcl).
  assert (∃ k, k < n ∧ P k ∧ ¬ P (S k)) as (k & Hk & Pk & Qk).
  { destruct (decide (i ≤ j)).
    - destruct (first_up P Hd i j) as (k & Hk & ?); [done..|]. exists k. split; [lia|done].
    - destruct (decide (P n)) as [Hp|Hp].
      + destruct (first_up P Hd 0 j) as (k & Hk & ?); [lia|tauto|done|]. exists k. split; [lia|done].
      + destruct (first_up P Hd i n) as (k & Hk & ?); [lia|done|done|]. exists k. split; [lia|done]. }
  exists k. split; [done|]. split; [done|]. by apply Rnot_le_lt.
Qed.
Lemma zsum_pos (l : list Z) z : (∀ a, a ∈ l → (0 <= a)%Z) → z ∈ l → (z <= zsum l)%Z.
Proof.
  clear. induction l as [|a l IH]; intros H Hz; [by apply elem_of_nil in Hz|]. cbn. fold (zsum l).
  assert (H0 : (0 <= a)%Z) by (apply H; left). assert (Hl : ∀ a, a ∈ l → (0 <= a)%Z) by (intros b Hb; apply H; by right).
  apply elem_of_cons in Hz as [-> |Hz]; [|specialize (IH Hl Hz); lia].
  assert (0 <= zsum l)%Z; [|lia]. clear -Hl. induction l as [|b l IH]; cbn; [lia|]. fold (zsum l).
  assert (0 <= b)%Z by (apply Hl; left). assert (0 <= zsum l)%Z by (apply IH; intros; apply Hl; by right). lia.
Qed.
Lemma star_winding : winding (Some <$> (f <$> seq 0 (S n))) p ≠ 0%Z.
Proof using Hor Hn Hcl.
  unfold winding. rewrite segments_Some, zip_tail_fmap, <- list_fmap_compose. change (foldr Z.add 0%Z) with zsum.
  destruct star_up as (k & Hk & H1 & H2).
  assert (HC : ∀ i, i < n → ((0 <= crossing p (f i, f (S i)))%Z)).
  { intros i Hi. specialize (Hor i Hi). unfold crossing. destruct (decide (_ ∧ _ ∧ 0 < _)%R); [lia|]. rewrite decide_False; [lia|]. intros (_ & _ & H). lra. }
  enough (1 <= zsum ((crossing p ∘ (λ i, (f i, f (S i)))) <$> seq 0 n))%Z by lia.
  apply zsum_pos.
  - intros a (i & -> & Hi%elem_of_seq)%elem_of_list_fmap. apply HC. lia.
  - apply elem_of_list_fmap. exists k. split; [|apply elem_of_seq; lia]. cbn [compose]. unfold compose, crossing. rewrite decide_True; [done|]. auto.
Qed.
End star.

(** ** A point separated from all vertices by a line *)
Section separated.
Context (p : point) (u v : R).
Let L (q : point) : R := (u * (q.1 - p.1) + v * (q.2 - p.2))%R.
Lemma sep_point (a b : point) : (L a < 0)%R → (L b < 0)%R → (a.2 <= p.2 < b.2 ∨ b.2 <= p.2 < a.2)%R →
  ∃ x, (u * (x - p.1) < 0)%R ∧ orientation a b p = ((b.2 - a.2) * (x - p.1))%R.
Proof.
  intros Ha Hb H. assert (Hne : (b.2 - a.2 ≠ 0)%R) by lra. set (t := ((p.2 - a.2) / (b.2 - a.2))%R). exists (a.1 + t * (b.1 - a.1))%R. split.
  - assert (Ht : (0 <= t <= 1)%R).
    { unfold t. destruct H as [H|H].
      - split; [apply Rle_mult_inv_pos; lra|apply unit_le; lra].
      - replace ((p.2 - a.2) / (b.2 - a.2))%R with ((a.2 - p.2) / (a.2 - b.2))%R by (field; lra).
        split; [apply Rle_mult_inv_pos; lra|apply unit_le; lra]. }
    assert (E : (u * (a.1 + t * (b.1 - a.1) - p.1) = (1 - t) * L a + t * L b)%R).
    { unfold L. transitivity (u * (a.1 + t * (b.1 - a.1) - p.1) + v * (a.2 + t * (b.2 - a.2) - p.2))%R; [|ring].
      replace (a.2 + t * (b.2 - a.2) - p.2)%R with 0%R by (unfold t; field; lra). ring. }
    rewrite E. destruct (decide (t = 0)%R) as [-> |]; [lra|]. assert (t * L b < 0)%R by nra. assert ((1 - t) * L a <= 0)%R by nra. lra.
  - unfold orientation, t. field. lra.
Qed.
Lemma sep_crossing (a b : point) : (L a < 0)%R → (L b < 0)%R →
  crossing p (a, b) = if decide (0 <= u)%R then 0%Z else (below p.2 a.2 - below p.2 b.2)%Z.
Proof.
  intros Ha Hb. unfold crossing, below. destruct (decide (0 <= u)%R) as [Hc|Hc].
  - destruct (decide (a.2 <= p.2 ∧ p.2 < b.2 ∧ 0 < orientation a b p)%R) as [(H1 & H2 & H3)|_].
    { exfalso. destruct (sep_point a b Ha Hb) as (x & Hx & E); [lra|]. rewrite E in H3. assert (x - p.1 < 0)%R by nra. nra. }
    destruct (decide (b.2 <= p.2 ∧ p.2 < a.2 ∧ orientation a b p < 0)%R) as [(H1 & H2 & H3)|_]; [|done].
    exfalso. destruct (sep_point a b Ha Hb) as (x & Hx & E); [lra|]. rewrite E in H3. assert (x - p.1 < 0)%R by nra. nra.
  - assert (Hup : (a.2 <= p.2)%R → (p.2 < b.2)%R → (0 < orientation a b p)%R).
    { intros H1 H2. destruct (sep_point a b Ha Hb) as (x & HX & E); [lra|]. rewrite E. assert (0 < x - p.1)%R by nra. nra. }
    assert (Hdn : (b.2 <= p.2)%R → (p.2 < a.2)%R → (orientation a b p < 0)%R).
    { intros H1 H2. destruct (sep_point a b Ha Hb) as (x & HX & E); [lra|]. rewrite E. assert (0 < x - p.1)%R by nra. nra. }
    repeat case_decide; try done; exfalso; try lra.
    all: try match goal with H : ¬ (_ ∧ _ ∧ _) |- _ => apply H; split_and!; [lra|lra|]; first [apply Hup; lra|apply Hdn; lra] end.
    all: match goal with H : ¬ (_ ∧ _ ∧ _), H' : ¬ (_ ∧ _ ∧ _) |- _ =>
      first [apply H; split_and!; [lra|lra|]; first [apply Hup; lra|apply Hdn; lra]
            |apply H'; split_and!; [lra|lra|]; first [apply Hup; lra|apply Hdn; lra]] end.
Qed.
Lemma sep_winding (V : list point) d : (∀ q, q ∈ V → (L q < 0)%R) → hd d V = List.last V d → winding (Some <$> V) p = 0%Z.
Proof.
  intros HV Hcl. unfold winding. rewrite segments_Some.
  assert (Hin : ∀ e, e ∈ zip V (tail V) → (L e.1 < 0)%R ∧ (L e.2 < 0)%R).
  { intros [a b] He. apply elem_of_list_lookup in He as [i Hi].
    apply lookup_zip_with_Some in Hi as (x & y & [= -> ->] & Hx & Hy). cbn. split; apply HV.
    - by eapply elem_of_list_lookup_2.
    - rewrite lookup_tail in Hy. by eapply elem_of_list_lookup_2. }
  destruct (decide (0 <= u)%R) as [Hc|Hc].
  - assert (E : crossing p <$> zip V (tail V) = (λ _, 0%Z) <$> zip V (tail V)).
    { apply list_fmap_ext. intros i [a b] He. apply elem_of_list_lookup_2, Hin in He as [? ?].
      rewrite (sep_crossing a b) by done. by rewrite decide_True. }
    rewrite E. clear. induction (zip V (tail V)) as [|e l IH]; cbn; [done|by rewrite IH].
  - assert (E : crossing p <$> zip V (tail V) = (λ e : point * point, below p.2 e.1.2 - below p.2 e.2.2)%Z <$> zip V (tail V)).
    { apply list_fmap_ext. intros i [a b] He. apply elem_of_list_lookup_2, Hin in He as [? ?].
      rewrite (sep_crossing a b) by done. by rewrite decide_False. }
    rewrite E. change (foldr Z.add 0%Z) with zsum. rewrite (telescope (λ w, below p.2 w.2) V d). rewrite Hcl. lia.
Qed.
End separated.

(** ** Affine images of regular polygons *)
Section affine.
Context (c : point) (m11 m12 m21 m22 : R).
Definition affine (q : point) : point := (c.1 + (m11 * q.1 + m12 * q.2), c.2 + (m21 * q.1 + m22 * q.2))%R.
Let det : R := (m11 * m22 - m12 * m21)%R.
Lemma affine_orientation a b q : orientation (affine a) (affine b) (affine q) = (det * orientation a b q)%R.
Proof. unfold orientation, affine, det. cbn [fst snd]. ring. Qed.
Definition affine_polygon (n : nat) : list point := affine <$> polygon n (0, 0)%R 1 1.
Lemma affine_polygon_eq n : affine_polygon n = (λ i, affine (vertex n (0, 0)%R 1 1 i)) <$> seq 0 (S n).
Proof. unfold affine_polygon, polygon. by rewrite <- list_fmap_compose. Qed.
Hypothesis Hdet : (0 < det)%R.
Lemma affine_inside n q : 3 ≤ n → (sqrt (sqdist q (0, 0)) < cos (step n / 2))%R →
  painted (Polygon (Some <$> affine_polygon n)) (affine q).
Proof using Hdet.
  intros Hn Hq. right. rewrite affine_polygon_eq. apply star_winding; [lia| |].
  - f_equal. unfold vertex. destruct (step_bounds n Hn) as (_ & _ & E). unfold angle. rewrite E. cbn [INR]. rewrite Rmult_0_l, cos_0, sin_0, cos_2PI, sin_2PI. done.
  - intros i Hi. rewrite affine_orientation. apply Rmult_lt_0_compat; [done|].
    pose proof (inside_edge n (0, 0)%R 1 1 i q Hn ltac:(lra) ltac:(lra)) as H. rewrite Rmult_1_l in H. specialize (H Hq). lra.
Qed.
Lemma affine_outside n q : 3 ≤ n → painted (Polygon (Some <$> affine_polygon n)) (affine q) → (sqrt (sqdist q (0, 0)) <= 1)%R.
Proof using Hdet.
  intros Hn [H|H].
  - destruct H as (a & b & Hs & t & Ht & E1 & E2). rewrite segments_Some, affine_polygon_eq, zip_tail_fmap in Hs.
    apply elem_of_list_fmap in Hs as (i & [= -> ->] & Hi). set (v := vertex n (0, 0)%R 1 1 i) in *. set (w := vertex n (0, 0)%R 1 1 (S i)) in *.
    assert (Eq : q = (v.1 + t * (w.1 - v.1), v.2 + t * (w.2 - v.2))%R).
    { unfold affine in E1, E2. cbn [fst snd] in E1, E2. set (x := (q.1 - (v.1 + t * (w.1 - v.1)))%R). set (y := (q.2 - (v.2 + t * (w.2 - v.2)))%R).
      assert (F1 : (m11 * x + m12 * y = 0)%R).
      { transitivity (c.1 + (m11 * q.1 + m12 * q.2) - (c.1 + (m11 * v.1 + m12 * v.2) + t * (c.1 + (m11 * w.1 + m12 * w.2) - (c.1 + (m11 * v.1 + m12 * v.2)))))%R; [unfold x, y; ring|rewrite E1; ring]. }
      assert (F2 : (m21 * x + m22 * y = 0)%R).
      { transitivity (c.2 + (m21 * q.1 + m22 * q.2) - (c.2 + (m21 * v.1 + m22 * v.2) + t * (c.2 + (m21 * w.1 + m22 * w.2) - (c.2 + (m21 * v.1 + m22 * v.2)))))%R; [unfold x, y; ring|rewrite E2; ring]. }
      assert (det * x = 0)%R by (unfold det; replace ((m11 * m22 - m12 * m21) * x)%R with (m22 * (m11 * x + m12 * y) - m12 * (m21 * x + m22 * y))%R by ring; rewrite F1, F2; ring).
      assert (det * y = 0)%R by (unfold det; replace ((m11 * m22 - m12 * m21) * y)%R with (m11 * (m21 * x + m22 * y) - m21 * (m11 * x + m12 * y))%R by ring; rewrite F1, F2; ring).
      assert (Ex : x = 0%R) by nra. assert (Ey : y = 0%R) by nra. unfold x in Ex. unfold y in Ey. destruct q as [qx qy]. cbn [fst snd] in *. apply (f_equal2 pair); lra. }
    rewrite Eq. rewrite <- sqrt_1. apply sqrt_le_1_alt. apply convex_disc; [done| |]; [unfold v|unfold w]; rewrite vertex_dist by lra; lra.
  - apply Rnot_lt_le. intros Hlt. apply H.
    assert (Hq : (1 < sqdist q (0, 0))%R).
    { apply Rnot_le_lt. intros Hle. apply sqrt_le_1_alt in Hle. rewrite sqrt_1 in Hle. lra. }
    set (L := λ z : point, ((q.1 * m22 - q.2 * m21) / det * (z.1 - (affine q).1) + (q.2 * m11 - q.1 * m12) / det * (z.2 - (affine q).2))%R).
    assert (EL : ∀ z, L (affine z) = (q.1 * z.1 + q.2 * z.2 - sqdist q (0, 0))%R).
    { intros z. unfold L, affine, sqdist. cbn [fst snd]. assert (det ≠ 0%R) by lra. unfold det in *. field. done. }
    apply (sep_winding (affine q) ((q.1 * m22 - q.2 * m21) / det) ((q.2 * m11 - q.1 * m12) / det) _ c).
    + intros z Hz. rewrite affine_polygon_eq in Hz. apply elem_of_list_fmap in Hz as (i & -> & _). change (L (affine (vertex n (0, 0)%R 1 1 i)) < 0)%R. rewrite EL.
      unfold vertex. cbn [fst snd]. pose proof (cauchy_circle q.1 q.2 (angle n i)) as Hc. unfold sqdist in *. cbn [fst snd] in *. rewrite !Rminus_0_r in *.
      set (s := (q.1 * q.1 + q.2 * q.2)%R) in *. assert (sqrt s < s)%R.
      { pose proof (sqrt_sqrt s ltac:(lra)) as Es. assert (1 < sqrt s)%R by (rewrite <- sqrt_1; apply sqrt_lt_1; lra). nra. }
      lra.
    + rewrite affine_polygon_eq. rewrite seq_S, fmap_app. cbn [fmap list_fmap]. rewrite last_last. destruct n as [|n]; [lia|]. cbn [seq fmap list_fmap app hd]. f_equal.
      unfold vertex. destruct (step_bounds (S n) Hn) as (_ & _ & E). unfold angle. rewrite Nat.add_0_l, E. cbn [INR]. rewrite Rmult_0_l, cos_0, sin_0, cos_2PI, sin_2PI. done.
Qed.
(** Every point of the plane is an image. *)
Lemma affine_onto p : ∃ q, affine q = p.
Proof using Hdet.
  exists ((m22 * (p.1 - c.1) - m12 * (p.2 - c.2)) / det, (m11 * (p.2 - c.2) - m21 * (p.1 - c.1)) / det)%R.
  destruct p as [x y]. unfold affine. cbn [fst snd]. assert (det ≠ 0%R) by lra. unfold det in *. f_equal; field; done.
Qed.
End affine.
