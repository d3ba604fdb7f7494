(** Facts about the drawings of causal cones. *)
From Verif Require Import Base SpacetimeModel ShapeModel OutlineModel SpecOutline OutlineFacts PolygonFacts ConeModel.
From Coq Require Import Reals Lra Lia.
#[local] Open Scope nat_scope.

(** The outline [o] paints the set [A], with winding numbers of the sign [sg] only. *)
Definition paints (sg : Z) (o : outline) (A : point → Prop) : Prop :=
  ∀ p, (A p ↔ on_outline o p ∨ winding o p ≠ 0%Z) ∧ (0 <= sg * winding o p)%Z.
Lemma paints_none sg o1 o2 A1 A2 : sg ≠ 0%Z → paints sg o1 A1 → paints sg o2 A2 → paints sg (o1 ++ None :: o2) (λ p, A1 p ∨ A2 p).
Proof.
  intros Hs H1 H2 p. destruct (H1 p) as [E1 W1], (H2 p) as [E2 W2]. rewrite on_outline_none, winding_none, E1, E2.
  assert (HW : (winding o1 p + winding o2 p)%Z ≠ 0%Z ↔ winding o1 p ≠ 0%Z ∨ winding o2 p ≠ 0%Z).
  { split; [lia|]. intros H. destruct (decide (winding o1 p = 0%Z)) as [Z1|Z1], (decide (winding o2 p = 0%Z)) as [Z2|Z2]; nia. }
  rewrite HW. split; [|lia]. clear. firstorder.
Qed.
Lemma foldl_paints sg o A (qs : list outline) (Bs : list (point → Prop)) : sg ≠ 0%Z → paints sg o A → Forall2 (paints sg) qs Bs →
  paints sg (foldl (λ o q, o ++ None :: q) o qs) (λ p, A p ∨ ∃ B, B ∈ Bs ∧ B p).
Proof.
  intros Hs Ho HF. revert o A Ho. induction HF as [|q B qs Bs Hq HF IH]; intros o A Ho; cbn [foldl].
  - intros p. destruct (Ho p) as [E W]. split; [|done]. rewrite <- E. split; [|tauto]. intros [H|(B & HB & _)]; [done|]. by apply elem_of_nil in HB.
  - intros p. destruct (IH _ _ (paints_none _ _ _ _ _ Hs Ho Hq) p) as [E W]. split; [|done]. rewrite <- E. setoid_rewrite elem_of_cons. split.
    + intros [H|(B' & [-> |HB] & HB')]; eauto.
    + intros [[H|H]|(B' & HB & HB')]; eauto.
Qed.
Lemma join_paints sg (parts : list outline) (Bs : list (point → Prop)) : sg ≠ 0%Z → parts ≠ [] → Forall2 (paints sg) parts Bs →
  paints sg (join parts) (λ p, ∃ B, B ∈ Bs ∧ B p).
Proof.
  intros Hs Hn HF. destruct HF as [|o A qs Bs Ho HF]; [done|]. cbn [join]. intros p.
  destruct (foldl_paints sg o A qs Bs Hs Ho HF p) as [E W]. split; [|done]. rewrite <- E. setoid_rewrite elem_of_cons. split.
  - intros (B & [-> |HB] & H); eauto.
  - intros [H|(B & HB & H)]; eauto.
Qed.

(** The triangle with the tip (x, t), which reaches from the time t to t + s r. *)
Definition wedge (x t s r : R) (p : R * R) : Prop := (Rabs (p.1 - x) <= s * (p.2 - t) ∧ s * (p.2 - t) <= r)%R.
Lemma on_list (l : list point) p : on_outline (Some <$> l) p ↔ ∃ a b, (a, b) ∈ segments (Some <$> l) ∧ on_segment a b p.
Proof. done. Qed.
Definition sgn (past : bool) : Z := if past then (-1)%Z else 1%Z.
Definition rsgn (past : bool) : R := if past then (-1)%R else 1%R.
Lemma wedge_up x t (past : bool) r : (0 < r)%R →
  paints (sgn past) (Some <$> [(x, t); (x + r, t + rsgn past * r); (x - r, t + rsgn past * r); (x, t)]%R) (wedge x t (rsgn past) r).
Proof.
  intros Hr p. destruct p as [px py]. unfold wedge. cbn [fst snd]. set (s := rsgn past). set (u := (px - x)%R). set (v := (s * (py - t))%R).
  assert (Hs : s = 1%R ∨ s = (-1)%R) by (unfold s; destruct past; cbn; auto).
  assert (Epx : px = (x + u)%R) by (unfold u; ring). assert (Epy : py = (t + s * v)%R) by (unfold v; destruct Hs as [-> | ->]; ring).
  assert (HO : on_outline (Some <$> [(x, t); (x + r, t + s * r); (x - r, t + s * r); (x, t)]%R) (px, py) ↔
    (Rabs u = v ∧ v <= r)%R ∨ (v = r ∧ Rabs u <= r)%R).
  { unfold on_outline. cbn [fmap list_fmap segments]. split.
    - intros (a & b & H & k & Hk & E1 & E2). cbn [fst snd] in E1, E2. rewrite !elem_of_cons, elem_of_nil in H.
      assert (Ev : v = (s * (s * v))%R) by (destruct Hs as [-> | ->]; ring).
      destruct H as [[= -> ->]|[[= -> ->]|[[= -> ->]|[]]]]; cbn [fst snd] in E1, E2.
      + left. assert (u = k * r)%R as -> by lra. assert (v = k * r)%R as ->. { rewrite Ev. replace (s * v)%R with (py - t)%R by lra. rewrite E2. destruct Hs as [-> | ->]; ring. }
        rewrite Rabs_right by nra. split; [done|nra].
      + right. assert (u = (1 - 2 * k) * r)%R as -> by lra. split.
        * rewrite Ev. replace (s * v)%R with (py - t)%R by lra. rewrite E2. destruct Hs as [-> | ->]; ring.
        * apply Rabs_le. nra.
      + left. assert (u = - ((1 - k) * r))%R as -> by lra. assert (v = (1 - k) * r)%R as ->. { rewrite Ev. replace (s * v)%R with (py - t)%R by lra. rewrite E2. destruct Hs as [-> | ->]; ring. }
        rewrite Rabs_Ropp, Rabs_right by nra. split; [done|nra].
    - intros [[Hu Hv]|[Hv Hu]].
      + destruct (Rabs_cases u) as [[H E]|[H E]]; rewrite E in Hu.
        * eexists _, _. split; [apply elem_of_list_here|]. exists (u / r)%R. cbn. split; [split; [apply Rle_mult_inv_pos; lra|apply unit_le; lra]|].
          rewrite Epx, Epy. split; [field; lra|]. rewrite <- Hu. field. lra.
        * eexists _, _. split; [do 2 apply elem_of_list_further; apply elem_of_list_here|]. exists (1 + u / r)%R. cbn.
          assert (0 <= - u / r <= 1)%R as Hur by (split; [apply Rle_mult_inv_pos; lra|apply unit_le; lra]).
          replace (- u / r)%R with (- (u / r))%R in Hur by (field; lra). split; [lra|]. rewrite Epx, Epy. split; [field; lra|]. rewrite <- Hu. field. lra.
      + eexists _, _. split; [apply elem_of_list_further; apply elem_of_list_here|]. exists ((r - u) / (2 * r))%R. cbn.
        assert (- r <= u <= r)%R by (destruct (Rabs_cases u) as [[H E]|[H E]]; lra).
        split; [split; [apply Rle_mult_inv_pos; lra|apply unit_le; lra]|]. rewrite Epx, Epy, Hv. split; [field; lra|ring]. }
  rewrite HO.
  assert (HW : winding (Some <$> [(x, t); (x + r, t + s * r); (x - r, t + s * r); (x, t)]%R) (px, py) =
    if past then (crossing (px, py) ((x, t), (x + r, t - r)%R) + crossing (px, py) ((x - r, t - r)%R, (x, t)))%Z
    else (crossing (px, py) ((x, t), (x + r, t + r)%R) + crossing (px, py) ((x - r, t + r)%R, (x, t)))%Z).
  { unfold winding, s. cbn [fmap list_fmap segments foldr]. destruct past; cbn [rsgn].
    - replace (t + -1 * r)%R with (t - r)%R by ring. rewrite (crossing_flat (x + r, t - r)%R) by done. lia.
    - replace (t + 1 * r)%R with (t + r)%R by ring. rewrite (crossing_flat (x + r, t + r)%R) by done. lia. }
  rewrite HW. unfold s in *. clear HW HO. destruct past; cbn [rsgn sgn] in *.
  - rewrite (crossing_scaled r (- v + u)%R (x, t) (x + r, t - r)%R) by (done || unfold orientation; cbn [fst snd]; rewrite Epx, Epy; ring).
    rewrite (crossing_scaled r (- v - u)%R (x - r, t - r)%R (x, t)) by (done || unfold orientation; cbn [fst snd]; rewrite Epx, Epy; ring).
    cbn [fst snd]. rewrite Epy. clearbody u v. clear px py Epx Epy. pose proof (Rabs_cases u) as Hu. generalize dependent (Rabs u). intros au Hu.
    repeat case_decide; (split; [|first [lia|exfalso; lra]]); (split; [intros [? ?]|intros [[[? ?]|[? ?]]|?]]);
      first [lra|lia|right; lia|left; destruct (Rlt_le_dec au v), (Rlt_le_dec v r); first [exfalso; lra|left; lra|right; lra]].
  - rewrite (crossing_scaled r (v - u)%R (x, t) (x + r, t + r)%R) by (done || unfold orientation; cbn [fst snd]; rewrite Epx, Epy; ring).
    rewrite (crossing_scaled r (v + u)%R (x - r, t + r)%R (x, t)) by (done || unfold orientation; cbn [fst snd]; rewrite Epx, Epy; ring).
    cbn [fst snd]. rewrite Epy. clearbody u v. clear px py Epx Epy. pose proof (Rabs_cases u) as Hu. generalize dependent (Rabs u). intros au Hu.
    repeat case_decide; (split; [|first [lia|exfalso; lra]]); (split; [intros [? ?]|intros [[[? ?]|[? ?]]|?]]);
      first [lra|lia|right; lia|left; destruct (Rlt_le_dec au v), (Rlt_le_dec v r); first [exfalso; lra|left; lra|right; lra]].
Qed.
Lemma wedge_right x t (past : bool) r : (0 < r)%R →
  paints (sgn past) (Some <$> [(t, x); (t + rsgn past * r, x - r); (t + rsgn past * r, x + r); (t, x)]%R)
    (λ p, wedge x t (rsgn past) r (p.2, p.1)).
Proof.
  intros Hr p. destruct p as [px py]. unfold wedge. cbn [fst snd]. set (s := rsgn past). set (u := (py - x)%R). set (v := (s * (px - t))%R).
  assert (Hs : s = 1%R ∨ s = (-1)%R) by (unfold s; destruct past; cbn; auto).
  assert (Epy : py = (x + u)%R) by (unfold u; ring). assert (Epx : px = (t + s * v)%R) by (unfold v; destruct Hs as [-> | ->]; ring).
  assert (HO : on_outline (Some <$> [(t, x); (t + s * r, x - r); (t + s * r, x + r); (t, x)]%R) (px, py) ↔
    (Rabs u = v ∧ v <= r)%R ∨ (v = r ∧ Rabs u <= r)%R).
  { unfold on_outline. cbn [fmap list_fmap segments]. split.
    - intros (a & b & H & k & Hk & E1 & E2). cbn [fst snd] in E1, E2. rewrite !elem_of_cons, elem_of_nil in H.
      assert (Ev : v = (s * (s * v))%R) by (destruct Hs as [-> | ->]; ring).
      destruct H as [[= -> ->]|[[= -> ->]|[[= -> ->]|[]]]]; cbn [fst snd] in E1, E2.
      + left. assert (u = - (k * r))%R as -> by lra. assert (v = k * r)%R as ->. { rewrite Ev. replace (s * v)%R with (px - t)%R by lra. rewrite E1. destruct Hs as [-> | ->]; ring. }
        rewrite Rabs_Ropp, Rabs_right by nra. split; [done|nra].
      + right. assert (u = (2 * k - 1) * r)%R as -> by lra. split.
        * rewrite Ev. replace (s * v)%R with (px - t)%R by lra. rewrite E1. destruct Hs as [-> | ->]; ring.
        * apply Rabs_le. nra.
      + left. assert (u = (1 - k) * r)%R as -> by lra. assert (v = (1 - k) * r)%R as ->. { rewrite Ev. replace (s * v)%R with (px - t)%R by lra. rewrite E1. destruct Hs as [-> | ->]; ring. }
        rewrite Rabs_right by nra. split; [done|nra].
    - intros [[Hu Hv]|[Hv Hu]].
      + destruct (Rabs_cases u) as [[H E]|[H E]]; rewrite E in Hu.
        * eexists _, _. split; [do 2 apply elem_of_list_further; apply elem_of_list_here|]. exists (1 - u / r)%R. cbn.
          assert (0 <= u / r <= 1)%R as Hur by (split; [apply Rle_mult_inv_pos; lra|apply unit_le; lra]).
          split; [lra|]. rewrite Epx, Epy. rewrite <- Hu. split; field; lra.
        * eexists _, _. split; [apply elem_of_list_here|]. exists (- u / r)%R. cbn.
          split; [split; [apply Rle_mult_inv_pos; lra|apply unit_le; lra]|]. rewrite Epx, Epy. rewrite <- Hu. split; field; lra.
      + eexists _, _. split; [apply elem_of_list_further; apply elem_of_list_here|]. exists ((r + u) / (2 * r))%R. cbn.
        assert (- r <= u <= r)%R by (destruct (Rabs_cases u) as [[H E]|[H E]]; lra).
        split; [split; [apply Rle_mult_inv_pos; lra|apply unit_le; lra]|]. rewrite Epx, Epy, Hv. split; [ring|field; lra]. }
  rewrite HO.
  assert (HW : winding (Some <$> [(t, x); (t + s * r, x - r); (t + s * r, x + r); (t, x)]%R) (px, py) =
    (crossing (px, py) ((t, x), (t + s * r, x - r)%R) + crossing (px, py) ((t + s * r, x - r)%R, (t + s * r, x + r)%R) + crossing (px, py) ((t + s * r, x + r)%R, (t, x)))%Z).
  { unfold winding. cbn [fmap list_fmap segments foldr]. lia. }
  rewrite HW. unfold s in *. clear HW HO. destruct past; cbn [rsgn sgn] in *.
  - rewrite (crossing_scaled r (- u - v)%R (t, x)) by (done || unfold orientation; cbn [fst snd]; rewrite Epx, Epy; ring).
    rewrite (crossing_scaled (2 * r) (v - r)%R (t + -1 * r, x - r)%R) by (lra || unfold orientation; cbn [fst snd]; rewrite Epx, Epy; ring).
    rewrite (crossing_scaled r (u - v)%R (t + -1 * r, x + r)%R) by (done || unfold orientation; cbn [fst snd]; rewrite Epx, Epy; ring).
    cbn [fst snd]. rewrite Epy. clearbody u v. clear px py Epx Epy. pose proof (Rabs_cases u) as Hu. generalize dependent (Rabs u). intros au Hu.
    repeat (case_decide; try (exfalso; lra)); (split; [|first [lia|exfalso; lra]]); (split; [intros [? ?]|intros [[[? ?]|[? ?]]|?]]);
      first [lra|lia|right; lia|left; destruct (Rlt_le_dec au v), (Rlt_le_dec v r); first [exfalso; lra|left; lra|right; lra]].
  - rewrite (crossing_scaled r (u + v)%R (t, x)) by (done || unfold orientation; cbn [fst snd]; rewrite Epx, Epy; ring).
    rewrite (crossing_scaled (2 * r) (r - v)%R (t + 1 * r, x - r)%R) by (lra || unfold orientation; cbn [fst snd]; rewrite Epx, Epy; ring).
    rewrite (crossing_scaled r (v - u)%R (t + 1 * r, x + r)%R) by (done || unfold orientation; cbn [fst snd]; rewrite Epx, Epy; ring).
    cbn [fst snd]. rewrite Epy. clearbody u v. clear px py Epx Epy. pose proof (Rabs_cases u) as Hu. generalize dependent (Rabs u). intros au Hu.
    repeat (case_decide; try (exfalso; lra)); (split; [|first [lia|exfalso; lra]]); (split; [intros [? ?]|intros [[[? ?]|[? ?]]|?]]);
      first [lra|lia|right; lia|left; destruct (Rlt_le_dec au v), (Rlt_le_dec v r); first [exfalso; lra|left; lra|right; lra]].
Qed.

(** *** Regular polygons never wind clockwise *)
Lemma vertex_inside n c r i j : 3 ≤ n → (0 < r)%R → i < n → j ≤ n →
  (0 <= orientation (vertex n c r 1 i) (vertex n c r 1 (S i)) (vertex n c r 1 j))%R.
Proof.
  intros Hn Hr Hi Hj. rewrite edge_orientation by lra. destruct (apothem_pos n Hn) as [H1 H2]. destruct (step_bounds n Hn) as (S1 & S2 & S3).
  unfold vertex. cbn [fst snd]. set (h := (step n / 2)%R) in *. set (m := (angle n i + h)%R).
  replace ((c.1 + r * cos (angle n j) - c.1) * cos m + 1 * (c.2 + 1 * (r * sin (angle n j)) - c.2) * sin m)%R
    with (r * (cos (angle n j) * cos m + sin (angle n j) * sin m))%R by ring.
  rewrite <- cos_minus. pose proof PI_RGT_0.
  assert (Hc : ∀ x, (h <= x <= 2 * PI - h)%R → (cos x <= cos h)%R).
  { intros x Hx. destruct (Rle_dec x PI) as [Hp|Hp]; [apply cos_decr_1; lra|].
    replace x with (- (2 * PI - x) + 2 * PI)%R by ring. rewrite cos_plus, cos_2PI, sin_2PI, cos_neg.
    rewrite Rmult_1_r, Rmult_0_r, Rminus_0_r. apply cos_decr_1; lra. }
  assert (Es : step n = (2 * h)%R) by (unfold h; field). assert (En : (INR n * h = PI)%R) by (rewrite Es in S3; lra).
  assert (HX : (cos (angle n j - m) <= cos h)%R).
  { unfold m, angle. rewrite Es. destruct (decide (i < j)) as [Hij|Hij].
    - apply Hc. assert (INR i + 1 <= INR j)%R by (rewrite <- S_INR; apply le_INR; lia).
      assert (INR j <= INR n)%R by (apply le_INR; lia). pose proof (pos_INR i). nra.
    - rewrite <- cos_neg. apply Hc. assert (INR j <= INR i)%R by (apply le_INR; lia).
      assert (INR i + 1 <= INR n)%R by (rewrite <- S_INR; apply le_INR; lia). pose proof (pos_INR j). nra. }
  assert (0 <= 2 * r * sin h * (r * cos h - r * cos (angle n j - m)))%R; [|lra].
  apply Rmult_le_pos; [|nra]. apply Rmult_le_pos; [lra|lra].
Qed.
Lemma orientation_affine a b p q t : orientation a b (p.1 + t * (q.1 - p.1), p.2 + t * (q.2 - p.2))%R =
  ((1 - t) * orientation a b p + t * orientation a b q)%R.
Proof. unfold orientation. cbn [fst snd]. ring. Qed.
Lemma zsum_le {A} (f g : A → Z) (l : list A) : (∀ x, x ∈ l → (f x <= g x)%Z) → (zsum (f <$> l) <= zsum (g <$> l))%Z.
Proof.
  induction l as [|x l IH]; intros H; cbn; [lia|]. change (foldr Z.add 0%Z) with zsum.
  specialize (H x (elem_of_list_here _ _)) as Hx. specialize (IH (λ y Hy, H y (elem_of_list_further _ _ _ Hy))). lia.
Qed.
Lemma zsum_nonneg l : (∀ x, x ∈ l → (0 <= x)%Z) → (0 <= zsum l)%Z.
Proof. intros H. induction l as [|x l IH]; cbn; [lia|]. change (foldr Z.add 0%Z) with zsum.
  specialize (H x (elem_of_list_here _ _)) as Hx. specialize (IH (λ y Hy, H y (elem_of_list_further _ _ _ Hy))). lia.
Qed.
Lemma cyclic_up (P : nat → Prop) n j : (∀ k, Decision (P k)) → (P 0 ↔ P n) → j < n → ¬ P j → P (S j) → ∃ k, k < n ∧ P k ∧ ¬ P (S k).
Proof.
  intros Hd Hc Hj H1 H2. destruct (decide (P n)) as [Hp|Hp].
  - destruct (first_up P Hd 0 j) as (k & Hk & ?); [lia|tauto|done|]. exists k. split; [lia|done].
  - destruct (first_up P Hd (S j) n) as (k & Hk & ?); [lia|done|done|]. exists k. split; [lia|done].
Qed.
Lemma polygon_nonneg n c r p : 3 ≤ n → (0 < r)%R → (0 <= winding (Some <$> polygon n c r 1) p)%Z.
Proof.
  intros Hn Hr. unfold winding. rewrite polygon_segments, <- list_fmap_compose. change (foldr Z.add 0%Z) with zsum.
  set (v := vertex n c r 1). set (f i := crossing p (v i, v (S i))).
  change (0 <= zsum (f <$> seq 0 n))%Z.
  set (g i := (below p.2 (v i).2 - below p.2 (v (S i)).2)%Z).
  assert (Eg : zsum (g <$> seq 0 n) = 0%Z).
  { pose proof (telescope (λ q : point, below p.2 q.2) (polygon n c r 1) c) as E. rewrite polygon_closed in E by done. rewrite Z.sub_diag in E.
    unfold polygon in E. rewrite zip_tail_fmap, <- list_fmap_compose in E. exact E. }
  set (P i := ((v i).2 <= p.2)%R).
  assert (Hd : ∀ k, Decision (P k)) by (intros; unfold P; apply _).
  assert (Hc : P 0 ↔ P n).
  { unfold P, v, vertex. cbn [snd]. destruct (step_bounds n Hn) as (_ & _ & E). unfold angle. rewrite E. cbn [INR].
    rewrite Rmult_0_l, sin_0, sin_2PI. done. }
  destruct (decide (Exists (λ i, (f i < 0)%Z) (seq 0 n))) as [HE|HE].
  2:{ apply zsum_nonneg. intros x (i & -> & Hi)%elem_of_list_fmap. destruct (decide (f i < 0)%Z); [|lia].
      exfalso. apply HE. apply Exists_exists. eauto. }
  apply Exists_exists in HE as (j & Hj & Hf). apply elem_of_seq in Hj.
  assert (Hjd : ((v (S j)).2 <= p.2)%R ∧ (p.2 < (v j).2)%R ∧ (orientation (v j) (v (S j)) p < 0)%R).
  { unfold f, crossing in Hf. destruct (decide (_ ∧ _ ∧ _)) in Hf; [lia|]. destruct (decide (_ ∧ _ ∧ _)) in Hf; [done|lia]. }
  destruct Hjd as (D1 & D2 & D3).
  assert (Hup : ∀ k, k < n → P k → ¬ P (S k) → (0 < orientation (v k) (v (S k)) p)%R).
  { intros k Hk P1 P2. unfold P in P1, P2. apply Rnot_le_lt in P2.
    set (t := ((p.2 - (v j).2) / ((v (S j)).2 - (v j).2))%R).
    assert (Ht : (0 <= t <= 1)%R).
    { unfold t. replace ((p.2 - (v j).2) / ((v (S j)).2 - (v j).2))%R with (((v j).2 - p.2) / ((v j).2 - (v (S j)).2))%R by (field; lra).
      split; [apply Rle_mult_inv_pos; lra|apply unit_le; lra]. }
    set (q := ((v j).1 + t * ((v (S j)).1 - (v j).1), (v j).2 + t * ((v (S j)).2 - (v j).2))%R).
    assert (Eq : q.2 = p.2) by (unfold q, t; cbn [snd]; field; lra).
    assert (Hq : (0 <= orientation (v k) (v (S k)) q)%R).
    { unfold q. rewrite orientation_affine. pose proof (vertex_inside n c r k j Hn Hr Hk ltac:(lia)). pose proof (vertex_inside n c r k (S j) Hn Hr Hk ltac:(lia)).
      fold v in H, H0. nra. }
    assert (Hp : (p.1 < q.1)%R).
    { assert (E : (orientation (v j) (v (S j)) p = (q.1 - p.1) * ((v (S j)).2 - (v j).2))%R).
      { unfold orientation, q, t. cbn [fst]. field. lra. }
      rewrite E in D3. nra. }
    assert (E : (orientation (v k) (v (S k)) p = orientation (v k) (v (S k)) q + (q.1 - p.1) * ((v (S k)).2 - (v k).2))%R).
    { unfold orientation. rewrite Eq. ring. }
    rewrite E. assert (0 < (q.1 - p.1) * ((v (S k)).2 - (v k).2))%R by (apply Rmult_lt_0_compat; lra). lra. }
  rewrite <- Eg. apply zsum_le. intros i Hi. apply elem_of_seq in Hi. unfold g, f, below, crossing.
  specialize (Hup i ltac:(lia)). unfold P in Hup.
  destruct (decide ((v i).2 <= p.2)%R) as [I1|I1], (decide ((v (S i)).2 <= p.2)%R) as [I2|I2].
  - repeat case_decide; lia || lra.
  - specialize (Hup I1 I2). rewrite decide_True by lra. lia.
  - repeat case_decide; lia || lra.
  - repeat case_decide; lia || lra.
Qed.
