(** C82, continued: plots of the time and one space dimension of de Sitter spacetime. *)
From Verif Require Import Base SpacetimeModel SpacetimeFacts TrigFacts Prop_Spacetime ShapeModel SpecShape Prop_Shape Prop_SpacetimeMore OutlineModel SpecOutline OutlineFacts PolygonFacts Prop_Outline SpecSurface SurfaceFacts Prop_Surface ConeModel SpecCone ConeFacts Prop_Cone EllipseFacts ChainFacts DeSitterFacts Prop_ConeMore.
From Coq Require Import Reals Rtrigo_def Ratan Lra Lia Psatz.
#[local] Open Scope nat_scope.

Lemma Rabs_le_inv x a : (Rabs x <= a)%R → (- a <= x <= a)%R.
Proof. intros H. destruct (Rabs_cases x) as [[? E]|[? E]]; rewrite E in H; lra. Qed.
(** ** The rows of the outline *)
Lemma nth_insert {A} (l : list A) i k x d : i < length l → nth k (<[i := x]> l) d = if decide (k = i) then x else nth k l d.
Proof.
  intros Hi. rewrite !nth_lookup. destruct (decide (k = i)) as [-> |Hk]; [by rewrite list_lookup_insert|by rewrite list_lookup_insert_ne].
Qed.
Lemma nth_fmap_any {A B} (f : A → B) (l : list A) i d d' : i < length l → nth i (f <$> l) d' = f (nth i l d).
Proof.
  revert i. induction l as [|a l IH]; intros i Hi; [cbn in Hi; lia|]. destruct i as [|i]; [done|]. cbn. apply IH. cbn in Hi. lia.
Qed.
Lemma set_rows_length XT i lo hi t : length (set_rows XT i lo hi t) = length XT.
Proof. unfold set_rows. by rewrite !insert_length. Qed.
Lemma XT_loop_spec (f : R → res (option (R * R))) (L H : R → R) d T : ∀ i XT, 1 ≤ i + length T → length XT = 2 * (i + length T) - 1 →
  (∀ t, t ∈ T → f t = Ok (Some (L t, H t))) →
  ∃ XT', XT_loop f T i XT = Ok (Some XT') ∧ length XT' = length XT ∧
  ∀ k, k < length XT → nth k XT' d =
    if decide (i ≤ k < i + length T) then (H (nth (k - i) T 0%R), nth (k - i) T 0%R)
    else if decide (i + length T ≤ k ∧ i ≤ length XT - k) then (L (nth (length XT - k - i) T 0%R), nth (length XT - k - i) T 0%R)
    else nth k XT d.
Proof.
  induction T as [|t T IH]; intros i XT H1 Hl Hf.
  - exists XT. split; [done|]. split; [done|]. intros k Hk. cbn [length] in *. rewrite decide_False by lia. rewrite decide_False by lia. done.
  - cbn [XT_loop]. rewrite Hf by left. cbn [res_bind]. cbn [length] in *.
    destruct (IH (S i) (set_rows XT i (L t) (H t) t)) as (XT' & E & El & Hn); [lia|rewrite set_rows_length; lia|intros; apply Hf; by right|].
    exists XT'. rewrite set_rows_length in El, Hn. split; [done|]. split; [done|]. intros k Hk. rewrite Hn by done.
    assert (Hi : i < length XT) by lia. assert (Hni : neg_index (length XT) i < length XT) by (unfold neg_index; destruct (decide (i = 0)); lia).
    destruct (decide (k = i)) as [-> |Hki].
    { rewrite decide_False by lia. rewrite (decide_True (P := i ≤ i < _)) by lia. rewrite Nat.sub_diag. cbn [nth].
      rewrite decide_False by lia. unfold set_rows. rewrite nth_insert by (rewrite insert_length; done). by rewrite decide_True. }
    destruct (decide (S i ≤ k < S i + length T)) as [Hk1|Hk1].
    { rewrite decide_True by lia. replace (k - i) with (S (k - S i)) by lia. done. }
    rewrite (decide_False (P := i ≤ k < _)) by lia.
    destruct (decide (S i + length T ≤ k ∧ S i ≤ length XT - k)) as [Hk2|Hk2].
    { rewrite decide_True by lia. replace (length XT - k - i) with (S (length XT - k - S i)) by lia. done. }
    unfold set_rows. rewrite nth_insert by (rewrite insert_length; done). rewrite decide_False by done. rewrite nth_insert by done.
    destruct (decide (k = neg_index (length XT) i)) as [Ek|Ek]; unfold neg_index in Ek; destruct (decide (i = 0)) as [-> |Hi0].
    + lia.
    + rewrite decide_True by lia. replace (length XT - k - i) with 0 by lia. done.
    + rewrite decide_False by lia. done.
    + rewrite decide_False by lia. done.
Qed.
(** The times of the sampling. *)
Definition sample (o0 ts : R) (N i : nat) : R := (o0 + INR i * ((ts - o0) / INR (N - 1)))%R.
Lemma linspace_sample o0 ts N : linspace o0 ts N = sample o0 ts N <$> seq 0 N.
Proof. done. Qed.
Lemma XT_rows f (L H : R → R) o0 ts N : 1 ≤ N →
  (∀ t, t ∈ linspace o0 ts N → f t = Ok (Some (L t, H t))) →
  XT_loop f (linspace o0 ts N) 0 (replicate (2 * length (linspace o0 ts N) - 1) (0, 0)%R) =
    Ok (Some (chain (sample o0 ts N) (H ∘ sample o0 ts N) (L ∘ sample o0 ts N) (N - 1) <$> seq 0 (2 * N - 1))).
Proof.
  intros HN Hf. destruct (XT_loop_spec f L H (0, 0)%R (linspace o0 ts N) 0 (replicate (2 * length (linspace o0 ts N) - 1) (0, 0)%R)) as (XT' & -> & El & Hn).
  - rewrite linspace_length. lia.
  - rewrite replicate_length. lia.
  - done.
  - do 2 f_equal. rewrite replicate_length, linspace_length in *. rewrite linspace_sample in Hn.
    apply (nth_ext _ _ (0, 0)%R (0, 0)%R); [by rewrite fmap_length, seq_length|]. intros k Hk. rewrite El in Hk. rewrite Hn by done.
    rewrite (nth_fmap_any _ (seq 0 (2 * N - 1)) k 0) by (by rewrite seq_length). rewrite seq_nth by done. replace (0 + k) with k by done. unfold chain.
    assert (Hs : ∀ m, m < N → nth m (sample o0 ts N <$> seq 0 N) 0%R = sample o0 ts N m).
    { intros m Hm. rewrite (nth_fmap _ (seq 0 N) m 0) by (by rewrite seq_length). by rewrite seq_nth. }
    destruct (decide (k ≤ N - 1)) as [Hk1|Hk1].
    + rewrite decide_True by lia. rewrite Nat.sub_0_r, Hs by lia. done.
    + rewrite decide_False by lia. rewrite decide_True by lia. rewrite Nat.sub_0_r, Hs by lia. replace (2 * (N - 1) + 1 - k) with (2 * N - 1 - k) by lia. done.
Qed.
Lemma closed_chain t hi lo M : 1 ≤ M → lo 0 = hi 0 → closed_path (Some <$> (chain t hi lo M <$> seq 0 (2 * M + 1))) = Some <$> chain_polygon t hi lo M.
Proof.
  intros HM E. unfold chain_polygon. replace (2 * M + 2) with (S (2 * M + 1)) by lia. rewrite seq_S, !fmap_app. rewrite Nat.add_0_l.
  assert (EL : chain t hi lo M (2 * M + 1) = chain t hi lo M 0).
  { unfold chain. rewrite decide_False by lia. rewrite decide_True by lia. rewrite Nat.sub_diag. by rewrite E. }
  cbn [fmap list_fmap]. rewrite EL. replace (2 * M + 1) with (S (2 * M)) by lia. done.
Qed.

(** ** The painted points *)
Section region.
Context (past : bool) (o0 ts : R) (N : nat) (L H : R → R).
Hypothesis HN : 2 ≤ N.
Hypothesis Hts : (0 < sign past * (ts - o0))%R.
Hypothesis HLH : ∀ t, (L t <= H t)%R.
Hypothesis H0 : L o0 = H o0.
Hypothesis LL : ∀ s t, (Rabs (L s - L t) <= Rabs (s - t))%R.
Hypothesis LH : ∀ s t, (Rabs (H s - H t) <= Rabs (s - t))%R.
Let T := sample o0 ts N.
Let V := chain_polygon T (H ∘ T) (L ∘ T) (N - 1).
Let tol := (Rabs (ts - o0) / INR (N - 1))%R.
Let D := ((ts - o0) / INR (N - 1))%R.
Lemma region_D : (0 < INR (N - 1))%R ∧ (0 < sign past * D)%R ∧ Rabs D = tol ∧ D ≠ 0%R ∧ (INR (N - 1) * D = ts - o0)%R.
Proof using HN Hts.
  assert (HI : (0 < INR (N - 1))%R) by (apply lt_0_INR; lia). split; [done|].
  assert (HD : (0 < sign past * D)%R). { unfold D. replace (sign past * ((ts - o0) / INR (N - 1)))%R with (sign past * (ts - o0) / INR (N - 1))%R by (unfold Rdiv; ring). by apply Rdiv_lt_0_compat. }
  split; [done|]. split; [unfold D, tol, Rdiv; rewrite Rabs_mult; f_equal; apply Rabs_right; left; by apply Rinv_0_lt_compat|].
  split; [intros E; rewrite E, Rmult_0_r in HD; lra|]. unfold D. field. lra.
Qed.
Lemma region_T i : T i = (o0 + INR i * D)%R.
Proof using. done. Qed.
Lemma region_up i : i < N - 1 → if negb past then (T i < T (S i))%R else (T (S i) < T i)%R.
Proof using HN Hts.
  intros _. destruct region_D as (_ & HD & _). rewrite !region_T, S_INR. destruct past; cbn in *; lra.
Qed.
Lemma region_0 : (L ∘ T) 0 = (H ∘ T) 0.
Proof using H0. unfold compose. rewrite region_T. cbn [INR]. by rewrite Rmult_0_l, Rplus_0_r. Qed.
Lemma region_painted p : painted (Polygon (Some <$> V)) p ↔ between_chains T (H ∘ T) (L ∘ T) (N - 1) p.
Proof using HN Hts HLH H0.
  unfold V. apply (chain_painted T (H ∘ T) (L ∘ T) (N - 1) (negb past)); [lia|apply region_up|apply region_0|]. intros; apply HLH.
Qed.
Lemma region_mid (f : R → R) i u : (∀ s t, (Rabs (f s - f t) <= Rabs (s - t))%R) → (0 <= u <= 1)%R →
  (Rabs (mid (f ∘ T) i u - f (mid T i u)) <= tol)%R.
Proof using HN Hts.
  intros Hf Hu. destruct region_D as (HI & HD & ED & _). unfold mid, compose.
  assert (E1 : (T i - (T i + u * (T (S i) - T i)) = - (u * D))%R) by (rewrite !region_T, S_INR; ring).
  assert (E2 : (T (S i) - (T i + u * (T (S i) - T i)) = (1 - u) * D)%R) by (rewrite !region_T, S_INR; ring).
  set (s := (T i + u * (T (S i) - T i))%R) in *. pose proof (Hf (T i) s) as A. pose proof (Hf (T (S i)) s) as B. rewrite E1, Rabs_Ropp, Rabs_mult, (Rabs_right u), ED in A by lra. rewrite E2, Rabs_mult, (Rabs_right (1 - u)), ED in B by lra.
  replace (f (T i) + u * (f (T (S i)) - f (T i)) - f s)%R with ((1 - u) * (f (T i) - f s) + u * (f (T (S i)) - f s))%R by ring.
  assert (Htol : (0 <= tol)%R) by (rewrite <- ED; apply Rabs_pos).
  eapply Rle_trans; [apply Rabs_triang|]. rewrite !Rabs_mult, (Rabs_right u), (Rabs_right (1 - u)) by lra.
  assert ((1 - u) * Rabs (f (T i) - f s) <= (1 - u) * (u * tol))%R by (apply Rmult_le_compat_l; lra).
  assert (u * Rabs (f (T (S i)) - f s) <= u * ((1 - u) * tol))%R by (apply Rmult_le_compat_l; lra).
  assert ((u * (1 - u)) * tol <= 1 / 2 * tol)%R; [|lra]. apply Rmult_le_compat_r; [done|]. nra.
Qed.
Lemma region_exact p k : k ≤ N - 1 → p.2 = T k → painted (Polygon (Some <$> V)) p ↔ (L p.2 <= p.1 <= H p.2)%R.
Proof using HN Hts HLH H0.
  intros Hk Ep. rewrite region_painted. destruct region_D as (HI & HD & ED & HD0 & _). split.
  - intros (i & u & Hi & Hu & E & Hx). rewrite Ep in E. unfold mid in E. rewrite !region_T, S_INR in E.
    assert (Ek : (INR k = INR i + u)%R). { apply (Rmult_eq_reg_r D); [|done]. lra. }
    assert (i ≤ k). { apply INR_le. lra. } assert (k ≤ S i). { apply INR_le. rewrite S_INR. lra. }
    assert (k = i ∨ k = S i) as [-> | ->] by lia.
    + assert (u = 0%R) as -> by lra. unfold mid, compose in Hx. rewrite Ep. lra.
    + assert (u = 1%R) as -> by (rewrite S_INR in Ek; lra). unfold mid, compose in Hx. rewrite Ep. lra.
  - intros Hx. destruct (decide (k = N - 1)) as [-> |Hne].
    + exists (N - 2), 1%R. replace (S (N - 2)) with (N - 1) by lia. unfold mid, compose. replace (S (N - 2)) with (N - 1) by lia. rewrite Ep in Hx. split; [lia|]. split; [lra|]. split; lra.
    + exists k, 0%R. unfold mid, compose. rewrite Ep in Hx. split; [lia|]. split; [lra|]. split; lra.
Qed.
Lemma region_outer p : painted (Polygon (Some <$> V)) p →
  (0 <= sign past * (p.2 - o0) <= sign past * (ts - o0))%R ∧ (L p.2 - tol <= p.1 <= H p.2 + tol)%R.
Proof using HN Hts HLH H0 LL LH.
  rewrite region_painted. intros (i & u & Hi & Hu & E & Hx). destruct region_D as (HI & HD & ED & HD0 & EN). split.
  - assert (Ep : (p.2 - o0 = (INR i + u) * D)%R) by (rewrite E; unfold mid; rewrite !region_T, S_INR; ring).
    assert (HiN : (INR i + 1 <= INR (N - 1))%R) by (rewrite <- S_INR; apply le_INR; lia). pose proof (pos_INR i).
    rewrite Ep, <- EN. replace (sign past * ((INR i + u) * D))%R with ((INR i + u) * (sign past * D))%R by ring. replace (sign past * (INR (N - 1) * D))%R with (INR (N - 1) * (sign past * D))%R by ring.
    split; [apply Rmult_le_pos; lra|]. apply Rmult_le_compat_r; lra.
  - pose proof (region_mid L i u LL Hu) as A. pose proof (region_mid H i u LH Hu) as B. rewrite <- E in A, B. apply Rabs_le_inv in A, B. lra.
Qed.
Lemma region_inner p : (0 <= sign past * (p.2 - o0) <= sign past * (ts - o0))%R → (L p.2 + tol <= p.1 <= H p.2 - tol)%R → painted (Polygon (Some <$> V)) p.
Proof using HN Hts HLH H0 LL LH.
  intros Ht Hx. rewrite region_painted. destruct region_D as (HI & HD & ED & HD0 & EN).
  set (x := ((p.2 - o0) / D)%R). assert (Ex : (p.2 - o0 = x * D)%R) by (unfold x; field; done).
  assert (Hs : ((p.2 - o0) * sign past = x * (sign past * D))%R) by (rewrite Ex; ring).
  assert (Hx0 : (0 <= x <= INR (N - 1))%R).
  { split.
    - apply (Rmult_le_reg_r (sign past * D)); [done|]. lra.
    - apply (Rmult_le_reg_r (sign past * D)); [done|]. rewrite <- Hs. replace (INR (N - 1) * (sign past * D))%R with (sign past * (INR (N - 1) * D))%R by ring. rewrite EN. lra. }
  destruct (floor_nat (N - 1) x) as (i & Hi & Hxi); [lia|done|]. exists i, (x - INR i)%R.
  assert (E : p.2 = mid T i (x - INR i)) by (unfold mid; rewrite !region_T, S_INR; lra).
  assert (Hu : (0 <= x - INR i <= 1)%R) by lra. split; [done|]. split; [done|]. split; [done|].
  pose proof (region_mid L i _ LL Hu) as A. pose proof (region_mid H i _ LH Hu) as B. rewrite <- E in A, B. apply Rabs_le_inv in A, B. lra.
Qed.
End region.

(** ** The light rays in a plane of time and space *)
Lemma tanh_le_iff x y : (tanh x <= tanh y)%R ↔ (x <= y)%R.
Proof.
  assert (Hd : ∀ x y, (x < y)%R → (tanh x < tanh y)%R).
  { intros a b Hab. pose proof (tanh_minus b a) as E. pose proof (tanh_bound a). pose proof (tanh_bound b). pose proof (tanh_pos (b - a) ltac:(lra)) as Hp.
    assert (HQ : (0 < 1 - tanh b * tanh a)%R) by nra. rewrite E in Hp. assert (0 < (tanh b - tanh a) / (1 - tanh b * tanh a) * (1 - tanh b * tanh a))%R by (by apply Rmult_lt_0_compat).
    unfold Rdiv in *. rewrite Rmult_assoc, Rinv_l in * by lra. lra. }
  split; intros Hxy.
  - destruct (Rle_lt_dec x y) as [|Hlt]; [done|]. specialize (Hd _ _ Hlt). lra.
  - destruct (Rle_lt_or_eq_dec x y Hxy) as [Hlt| ->]; [specialize (Hd _ _ Hlt); lra|lra].
Qed.
(** The positions of the light rays from (o0, x0) at the time t. *)
Definition ray_lo (alpha o0 x0 t : R) : R := (alpha * tanh (atanh (x0 / alpha) - Rabs (t - o0) / alpha))%R.
Definition ray_hi (alpha o0 x0 t : R) : R := (alpha * tanh (atanh (x0 / alpha) + Rabs (t - o0) / alpha))%R.
Lemma unit_ratio alpha x : (0 < alpha)%R → (x * x < alpha * alpha)%R ↔ (-1 < x / alpha < 1)%R.
Proof.
  intros Ha. assert (E : x = (x / alpha * alpha)%R) by (field; lra). set (v := (x / alpha)%R) in *. rewrite E. clearbody v. clear E x.
  replace (v * alpha * (v * alpha))%R with (v * v * (alpha * alpha))%R by ring. assert (HA : (0 < alpha * alpha)%R) by nra. split.
  - intros Hv. assert (v * v < 1)%R; [|nra]. apply (Rmult_lt_reg_r (alpha * alpha)); lra.
  - intros Hv. assert (v * v < 1)%R by nra. assert (v * v * (alpha * alpha) < 1 * (alpha * alpha))%R by (apply Rmult_lt_compat_r; lra). lra.
Qed.
Lemma rays_2D alpha past o0 x0 t x : (0 < alpha)%R → (x0 * x0 < alpha * alpha)%R →
  in_cone (DeSitter 2 alpha) past [o0; x0] [t; x] ↔ (0 <= sign past * (t - o0))%R ∧ (ray_lo alpha o0 x0 t <= x <= ray_hi alpha o0 x0 t)%R.
Proof.
  intros Ha H0. destruct (Rlt_dec (x * x) (alpha * alpha)) as [Hx|Hx].
  - apply unit_ratio in H0 as U0; [|done]. apply unit_ratio in Hx as U; [|done].
    assert (E : in_cone (DeSitter 2 alpha) past [o0; x0] [t; x] ↔ (Rabs (atanh (x / alpha) - atanh (x0 / alpha)) <= sign past * (t - o0) / alpha)%R).
    { unfold in_cone. destruct past; cbn [sign].
      - rewrite C48_deSitter_light_rays by done. rewrite Rabs_minus_sym. replace (-1 * (t - o0) / alpha)%R with (o0 / alpha - t / alpha)%R by (field; lra). done.
      - rewrite C48_deSitter_light_rays by done. replace (1 * (t - o0) / alpha)%R with (t / alpha - o0 / alpha)%R by (field; lra). done. }
    rewrite E. unfold ray_lo, ray_hi.
    assert (Ex : x = (alpha * tanh (atanh (x / alpha)))%R) by (rewrite tanh_atanh by done; field; lra).
    set (X := atanh (x / alpha)) in *. set (a := atanh (x0 / alpha)) in *. rewrite Ex.
    assert (HM : ∀ u v, (alpha * tanh u <= alpha * tanh v ↔ u <= v)%R).
    { intros u v. rewrite <- (tanh_le_iff u v). split; [intros HH; apply (Rmult_le_reg_l alpha (tanh u) (tanh v) Ha HH)|intros HH; apply (Rmult_le_compat_l alpha (tanh u) (tanh v)); [lra|exact HH]]. }
    rewrite !HM. assert (HS : ∀ z, (0 <= sign past * z)%R → Rabs z = (sign past * z)%R) by (intros z Hz; destruct past; cbn in *; [rewrite Rabs_left1; lra|rewrite Rabs_right; lra]).
    split.
    + intros HX. assert (H1 : (0 <= sign past * (t - o0) / alpha)%R) by (pose proof (Rabs_pos (X - a)); lra).
      assert (H2 : (0 <= sign past * (t - o0))%R). { replace (sign past * (t - o0))%R with (sign past * (t - o0) / alpha * alpha)%R by (field; lra). apply Rmult_le_pos; lra. }
      split; [done|]. rewrite HS by done. apply Rabs_le_inv in HX. lra.
    + intros [H2 HX]. rewrite HS in HX by done. apply Rabs_le. lra.
  - split.
    + intros HC. apply in_cone_dS in HC as (_ & HC & _); [|done|done]. unfold inside_horizon in HC. cbn [tail] in HC. rewrite sqsum_cons, sqsum_nil in HC. lra.
    + intros [_ HX]. exfalso. apply Hx. unfold ray_lo, ray_hi in HX. pose proof (tanh_bound (atanh (x0 / alpha) - Rabs (t - o0) / alpha)). pose proof (tanh_bound (atanh (x0 / alpha) + Rabs (t - o0) / alpha)).
      assert (- alpha < x < alpha)%R by nra. nra.
Qed.
Lemma ray_bounds alpha o0 x0 : (0 < alpha)%R → (x0 * x0 < alpha * alpha)%R →
  (∀ t, (ray_lo alpha o0 x0 t <= ray_hi alpha o0 x0 t)%R) ∧ ray_lo alpha o0 x0 o0 = ray_hi alpha o0 x0 o0 ∧
  (∀ s t, (Rabs (ray_lo alpha o0 x0 s - ray_lo alpha o0 x0 t) <= Rabs (s - t))%R) ∧
  (∀ s t, (Rabs (ray_hi alpha o0 x0 s - ray_hi alpha o0 x0 t) <= Rabs (s - t))%R).
Proof.
  intros Ha H0. split_and!.
  - intros t. unfold ray_lo, ray_hi. apply Rmult_le_compat_l; [lra|]. apply tanh_le_iff. assert (0 <= Rabs (t - o0) / alpha)%R by (apply Rmult_le_pos; [apply Rabs_pos|left; by apply Rinv_0_lt_compat]). lra.
  - unfold ray_lo, ray_hi. replace (o0 - o0)%R with 0%R by ring. rewrite Rabs_R0. f_equal. f_equal. field. lra.
  - intros s t. unfold ray_lo. rewrite <- Rmult_minus_distr_l, Rabs_mult, (Rabs_right alpha) by lra.
    apply Rle_trans with (alpha * (Rabs (s - t) / alpha))%R; [|right; field; lra]. apply Rmult_le_compat_l; [lra|]. eapply Rle_trans; [apply tanh_lipschitz|].
    replace (atanh (x0 / alpha) - Rabs (s - o0) / alpha - (atanh (x0 / alpha) - Rabs (t - o0) / alpha))%R with ((Rabs (t - o0) - Rabs (s - o0)) * / alpha)%R by (unfold Rdiv; ring).
    rewrite Rabs_mult, (Rabs_right (/ alpha)) by (left; by apply Rinv_0_lt_compat). apply Rmult_le_compat_r; [left; by apply Rinv_0_lt_compat|].
    eapply Rle_trans; [apply Rabs_triang_inv2|]. rewrite (Rabs_minus_sym s t). right. f_equal. ring.
  - intros s t. unfold ray_hi. rewrite <- Rmult_minus_distr_l, Rabs_mult, (Rabs_right alpha) by lra.
    apply Rle_trans with (alpha * (Rabs (s - t) / alpha))%R; [|right; field; lra]. apply Rmult_le_compat_l; [lra|]. eapply Rle_trans; [apply tanh_lipschitz|].
    replace (atanh (x0 / alpha) + Rabs (s - o0) / alpha - (atanh (x0 / alpha) + Rabs (t - o0) / alpha))%R with ((Rabs (s - o0) - Rabs (t - o0)) * / alpha)%R by (unfold Rdiv; ring).
    rewrite Rabs_mult, (Rabs_right (/ alpha)) by (left; by apply Rinv_0_lt_compat). apply Rmult_le_compat_r; [left; by apply Rinv_0_lt_compat|].
    eapply Rle_trans; [apply Rabs_triang_inv2|]. right. f_equal. ring.
Qed.
Lemma atanh_opp x : (-1 < x < 1)%R → atanh (- x) = (- atanh x)%R.
Proof.
  intros Hx. assert (E : tanh (atanh (- x)) = tanh (- atanh x)) by (rewrite tanh_opp, !tanh_atanh by lra; ring).
  apply Rle_antisym; apply tanh_le_iff; rewrite E; lra.
Qed.
(** The cone in a plane of the time and the coordinate k. *)
Lemma rays_plane dim alpha past o y k : (0 < alpha)%R → length o = dim → length y = dim → 1 ≤ k < dim → inside_horizon alpha o →
  (∀ m, 1 ≤ m < dim → m ≠ k → cget o m = 0%R) → (∀ m, 1 ≤ m < dim → m ≠ k → cget y m = 0%R) →
  in_cone (DeSitter dim alpha) past o y ↔
  (0 <= sign past * (cget y 0 - cget o 0))%R ∧ (ray_lo alpha (cget o 0) (cget o k) (cget y 0) <= cget y k <= ray_hi alpha (cget o 0) (cget o k) (cget y 0))%R.
Proof.
  intros Ha Ho Hy Hk Hin Hzo Hzy.
  assert (ED : ∀ u v : list R, length u = dim → length v = dim → (∀ m, 1 ≤ m < dim → m ≠ k → cget u m = 0%R) → dot (tail u) (tail v) = (cget u k * cget v k)%R).
  { intros u v Hu Hv Hz. rewrite (dot_support u v dim [k]); [|done|done|apply NoDup_singleton|intros j Hj%elem_of_list_singleton; lia|].
    - cbn [fmap list_fmap]. apply rsum_one.
    - intros m Hm Hn. rewrite elem_of_list_singleton in Hn. by apply Hz. }
  assert (EO : sqsum (tail o) = (cget o k * cget o k)%R) by (rewrite sqsum_dot; by apply ED).
  assert (EY : sqsum (tail y) = (cget y k * cget y k)%R) by (rewrite sqsum_dot; by apply ED).
  rewrite <- (rays_2D alpha past) by (done || (unfold inside_horizon in Hin; by rewrite EO in Hin)).
  rewrite !in_cone_light by (done || (by rewrite Ho, Hy)). unfold inside_horizon. rewrite (ED o y) by done. rewrite EO, EY.
  cbn [tail]. rewrite !sqsum_cons, !sqsum_nil, !dot_cons. unfold dot. cbn. rewrite !Rplus_0_r. done.
Qed.

(** ** The handle *)
Lemma minmax_rays alpha o0 x0 t : (0 < alpha)%R →
  let '(x, y) := XT_slice2 alpha t o0 (x0 / alpha) in Rmin x y = ray_lo alpha o0 x0 t ∧ Rmax x y = ray_hi alpha o0 x0 t.
Proof.
  intros Ha. unfold XT_slice2, ray_lo, ray_hi. change (arctanh (x0 / alpha)) with (atanh (x0 / alpha)). set (a := atanh (x0 / alpha)). clearbody a.
  assert (HM : ∀ u v, (u <= v)%R → (alpha * tanh u <= alpha * tanh v)%R) by (intros u v Huv; apply Rmult_le_compat_l; [lra|by apply tanh_le_iff]).
  assert (HI : (0 < / alpha)%R) by (by apply Rinv_0_lt_compat).
  destruct (Rabs_cases (t - o0)) as [[Ht ->]|[Ht ->]].
  - assert (H : (0 <= (t - o0) / alpha)%R) by (apply Rmult_le_pos; lra). rewrite Rmin_left, Rmax_right by (apply HM; lra). done.
  - assert (H : (0 <= - (t - o0) / alpha)%R) by (apply Rmult_le_pos; lra). assert (E : (- (t - o0) / alpha = - ((t - o0) / alpha))%R) by (field; lra). rewrite E in *.
    rewrite Rmin_right, Rmax_left by (apply HM; lra). split; f_equal; f_equal; ring.
Qed.
Lemma fold_min x l m : (m <= x)%R → (∀ a, a ∈ l → (m <= a)%R) → m = x ∨ m ∈ l → foldl Rmin x l = m.
Proof.
  revert x. induction l as [|a l IH]; intros x Hx Hl Hm; cbn [foldl].
  - destruct Hm as [-> |Hm]; [done|by apply elem_of_nil in Hm].
  - assert (Ha : (m <= a)%R) by (apply Hl; left). apply IH; [by apply Rmin_glb|intros b Hb; apply Hl; by right|].
    destruct Hm as [-> |[-> |Hm]%elem_of_cons]; [left; by rewrite Rmin_left|left; by rewrite Rmin_right|by right].
Qed.
Lemma fold_max x l m : (x <= m)%R → (∀ a, a ∈ l → (a <= m)%R) → m = x ∨ m ∈ l → foldl Rmax x l = m.
Proof.
  revert x. induction l as [|a l IH]; intros x Hx Hl Hm; cbn [foldl].
  - destruct Hm as [-> |Hm]; [done|by apply elem_of_nil in Hm].
  - assert (Ha : (a <= m)%R) by (apply Hl; left). apply IH; [by apply Rmax_lub|intros b Hb; apply Hl; by right|].
    destruct Hm as [-> |[-> |Hm]%elem_of_cons]; [left; by rewrite Rmax_left|left; by rewrite Rmax_right|by right].
Qed.
Lemma list_min_spec l m : m ∈ l → (∀ a, a ∈ l → (m <= a)%R) → list_min l = m.
Proof.
  intros Hm Hl. destruct l as [|x l]; [by apply elem_of_nil in Hm|]. cbn. apply fold_min; [apply Hl; left|intros; apply Hl; by right|by apply elem_of_cons in Hm].
Qed.
Lemma list_max_spec l m : m ∈ l → (∀ a, a ∈ l → (a <= m)%R) → list_max l = m.
Proof.
  intros Hm Hl. destruct l as [|x l]; [by apply elem_of_nil in Hm|]. cbn. apply fold_max; [apply Hl; left|intros; apply Hl; by right|by apply elem_of_cons in Hm].
Qed.
(** The first coordinates of a slice around an origin on the axis. *)
Lemma axis_slice alpha x0 d a : (0 < alpha)%R → (x0 * x0 < alpha * alpha)%R → (0 <= d)%R →
  let l := fst <$> slice_polygon alpha (N2 x0 0 / alpha) d (arctan2 0 x0) in
  let lo := (alpha * tanh (atanh (x0 / alpha) - d))%R in let hi := (alpha * tanh (atanh (x0 / alpha) + d))%R in
  lo ∈ l ∧ hi ∈ l ∧ (a ∈ l → (lo <= a <= hi)%R).
Proof.
  intros Ha Hx Hd l lo hi. apply unit_ratio in Hx as U; [|done].
  assert (EN : N2 x0 0 = Rabs x0) by (unfold N2; replace (x0 * x0 + 0 * 0)%R with (Rsqr x0) by (unfold Rsqr; ring); apply sqrt_Rsqr_abs).
  destruct (arctan2_polar 0 x0) as [E1 E2]. rewrite EN in E1, E2. set (phi := arctan2 0 x0) in *.
  set (r := (N2 x0 0 / alpha)%R) in *. assert (Er : r = Rabs (x0 / alpha)) by (unfold r; rewrite EN; unfold Rdiv; rewrite Rabs_mult; f_equal; symmetry; apply Rabs_right; left; by apply Rinv_0_lt_compat).
  assert (Hr : (0 <= r < 1)%R) by (rewrite Er; split; [apply Rabs_pos|apply Rabs_def1; lra]).
  assert (HS : sin phi = 0%R ∧ (cos phi = 1 ∧ r = x0 / alpha ∨ cos phi = -1 ∧ r = - (x0 / alpha))%R).
  { destruct (Req_dec x0 0) as [-> |Hne].
    - unfold phi, arctan2. rewrite !decide_False by lra. rewrite sin_0, cos_0. split; [done|]. left. split; [done|]. rewrite Er. replace (0 / alpha)%R with 0%R by (field; lra). apply Rabs_R0.
    - assert (HA : (Rabs x0 ≠ 0)%R) by (by apply Rabs_no_R0). split; [apply (Rmult_eq_reg_l (Rabs x0)); [lra|done]|].
      destruct (Rabs_cases x0) as [[H E]|[H E]]; rewrite E in E1.
      + left. split; [apply (Rmult_eq_reg_l x0); lra|]. rewrite Er. apply Rabs_right. apply Rle_ge, Rmult_le_pos; [lra|left; by apply Rinv_0_lt_compat].
      + right. split; [apply (Rmult_eq_reg_l x0); lra|]. rewrite Er. unfold Rdiv. rewrite Rabs_mult, E, (Rabs_right (/ alpha)) by (left; by apply Rinv_0_lt_compat). ring. }
  destruct HS as [HS HC].
  assert (El : l = (λ i, (cos phi * (alpha * (el_c r d + el_a r d * cos (angle 128 i)))))%R <$> seq 0 129).
  { unfold l. rewrite slice_polygon_eq, <- list_fmap_compose. apply list_fmap_ext. intros k i _. unfold compose, slice_map, affine. cbn [fst snd]. rewrite HS. ring. }
  rewrite El. clear El l. destruct (el_sum r d Hr Hd) as [Ec Ea]. destruct (el_bounds r d Hr Hd) as (Ba & _).
  set (c := el_c r d) in *. set (b := el_a r d) in *.
  assert (Ehi : (c + b = tanh (atanh r + d))%R) by lra. assert (Elo : (c - b = tanh (atanh r - d))%R) by lra. clearbody c b.
  assert (C0 : cos (angle 128 0) = 1%R) by (unfold angle; cbn [INR]; rewrite Rmult_0_l; apply cos_0).
  assert (C64 : cos (angle 128 64) = (-1)%R).
  { unfold angle, step. rewrite !INR_IZR_INZ. change (IZR (Z.of_nat 64)) with 64%R. change (IZR (Z.of_nat 128)) with 128%R. replace (64 * (2 * PI / 128))%R with PI by field. apply cos_PI. }
  assert (H0 : 0 ∈ seq 0 129) by (apply elem_of_seq; lia). assert (H64 : 64 ∈ seq 0 129) by (apply elem_of_seq; lia).
  set (g := λ i, (cos phi * (alpha * (c + b * cos (angle 128 i))))%R).
  assert (HB : ∀ i, (-1 <= cos (angle 128 i) <= 1)%R) by (intros; apply COS_bound).
  destruct HC as [[HC HR]|[HC HR]].
  - assert (F1 : lo = g 64) by (unfold g, lo; rewrite HC, C64, <- HR, <- Elo; ring). assert (F2 : hi = g 0) by (unfold g, hi; rewrite HC, C0, <- HR, <- Ehi; ring).
    split; [rewrite F1; by apply (elem_of_list_fmap_1 g)|]. split; [rewrite F2; by apply (elem_of_list_fmap_1 g)|].
    intros (i & -> & _)%elem_of_list_fmap. rewrite F1, F2. unfold g. rewrite HC, C0, C64, !Rmult_1_l. specialize (HB i).
    split; (apply Rmult_le_compat_l; [lra|]); nra.
  - assert (HR' : (x0 / alpha = - r)%R) by lra. unfold lo, hi. rewrite HR', atanh_opp by lra.
    assert (F1 : (alpha * tanh (- atanh r - d))%R = g 0). { unfold g. rewrite HC, C0. replace (- atanh r - d)%R with (- (atanh r + d))%R by ring. rewrite tanh_opp, <- Ehi. ring. }
    assert (F2 : (alpha * tanh (- atanh r + d))%R = g 64). { unfold g. rewrite HC, C64. replace (- atanh r + d)%R with (- (atanh r - d))%R by ring. rewrite tanh_opp, <- Elo. ring. }
    rewrite F1, F2. split; [by apply (elem_of_list_fmap_1 g)|]. split; [by apply (elem_of_list_fmap_1 g)|].
    intros (i & -> & _)%elem_of_list_fmap. unfold g. rewrite HC, C0, C64. specialize (HB i). assert (alpha * (b * cos (angle 128 i)) <= alpha * b)%R by (apply Rmult_le_compat_l; nra). assert (alpha * - b <= alpha * (b * cos (angle 128 i)))%R by (apply Rmult_le_compat_l; nra). lra.
Qed.
Lemma slice_columns_spec (xy : Z * Z → res (option outline)) (xdim : Z) (V : nat → list point) ydims acc :
  (∀ y, y ∈ ydims → Z.of_nat y ≠ xdim → xy (xdim, Z.of_nat y) = Ok (Some (Some <$> V y))) →
  slice_columns xy xdim ydims acc = Ok (Some (acc ++ flat_map (λ y, if decide (Z.of_nat y = xdim) then [] else fst <$> V y) ydims)).
Proof.
  revert acc. induction ydims as [|y ydims IH]; intros acc H; cbn [slice_columns flat_map]; [by rewrite app_nil_r|].
  destruct (decide (Z.of_nat y = xdim)) as [E|E].
  - apply IH. intros; apply H; [by right|done].
  - rewrite H by (done || left). cbn [res_bind]. rewrite IH by (intros; apply H; [by right|done]). rewrite <- app_assoc. unfold first_column. rewrite <- list_fmap_compose. done.
Qed.
(** The outline, for an origin on the axis. *)
Lemma XT_axis junk dim alpha o ts k (N : nat) : (0 < alpha)%R → length o = dim → 1 ≤ k < dim → inside_horizon alpha o →
  (∀ m, 1 ≤ m < dim → m ≠ k → cget o m = 0%R) → 1 ≤ N →
  let L := ray_lo alpha (cget o 0) (cget o k) in let H := ray_hi alpha (cget o 0) (cget o k) in let T := sample (cget o 0) ts N in
  XT_slice junk (DeSitter dim alpha) ts o (Z.of_nat k) (Z.of_nat N) = Ok (Some (Some <$> (chain T (H ∘ T) (L ∘ T) (N - 1) <$> seq 0 (2 * N - 1)))).
Proof.
  intros Ha Ho Hk Hin Hz HN L H T. unfold XT_slice, dS_XT_slice.
  assert (ET : T_slice_sampling ts o (Z.of_nat N) = linspace (cget o 0) ts N) by (unfold T_slice_sampling; rewrite decide_True by lia; by rewrite Nat2Z.id). rewrite ET.
  assert (Hxk : (cget o k * cget o k < alpha * alpha)%R).
  { unfold inside_horizon in Hin. rewrite sqsum_dot, (dot_support o o dim [k]) in Hin; [|done|done|apply NoDup_singleton|intros j Hj%elem_of_list_singleton; lia|].
    - cbn [fmap list_fmap] in Hin. by rewrite rsum_one in Hin.
    - intros m Hm Hn. rewrite elem_of_list_singleton in Hn. by apply Hz. }
  destruct (decide (length o = 2)) as [Hl|Hl].
  - assert (Ek : k = 1) by lia. rewrite decide_False.
    + rewrite (XT_rows _ L H); [done|done|]. intros t _. pose proof (minmax_rays alpha (cget o 0) (cget o 1) t Ha) as E. destruct (XT_slice2 _ _ _ _) as [x y]. destruct E as [-> ->]. unfold L, H. by rewrite Ek.
    + rewrite Ek in Hxk. apply unit_ratio in Hxk; [|done]. intros Hge. assert (Rabs (cget o 1 / alpha) < 1)%R by (apply Rabs_def1; lra). lra.
  - rewrite (XT_rows _ L H); [done|done|]. intros t _. cbn [XY_slice].
    set (P := slice_polygon alpha (N2 (cget o k) 0 / alpha) (Rabs (t - cget o 0) / alpha) (arctan2 0 (cget o k))).
    rewrite (slice_columns_spec _ _ (λ _, P)).
    + cbn [res_map fmap option_fmap option_map app]. set (l := flat_map _ _).
      assert (Hd : (0 <= Rabs (t - cget o 0) / alpha)%R) by (apply Rmult_le_pos; [apply Rabs_pos|left; by apply Rinv_0_lt_compat]).
      assert (HL : ∀ a, a ∈ l ↔ a ∈ fst <$> P).
      { intros a. unfold l. rewrite elem_of_list_In, in_flat_map. split.
        - intros (y & _ & Hy). destruct (decide _); [done|]. by apply elem_of_list_In.
        - intros Hy. assert (∃ y, 1 ≤ y < dim ∧ y ≠ k) as (y & Hy1 & Hy2) by (destruct (decide (k = 1)); [exists 2|exists 1]; lia).
          exists y. split; [apply in_seq; lia|]. rewrite decide_False by lia. by apply elem_of_list_In. }
      do 3 f_equal.
      * apply list_min_spec; [apply HL|intros a Ha'%HL]; eapply axis_slice; done.
      * apply list_max_spec; [apply HL|intros a Ha'%HL]; eapply axis_slice; done.
    + intros y Hy%elem_of_seq Hne. assert (Hyk : y ≠ k) by lia. unfold XY_slice. rewrite (plane_slice dim alpha o k y Ha Ho Hk ltac:(lia) (not_eq_sym Hyk) Hin).
      * rewrite (Hz y) by lia. done.
      * intros m Hm H1 H2. by apply Hz.
Qed.

(** *** C82: plots of the time and a space dimension *)
(** For an origin on the plotted axis (always in two dimensions), the patch paints exactly the
    cone at the times of the sampling, and between them it differs by at most the distance of
    two times of the sampling. *)
Theorem C82_time_plane (junk : nat → point) dim alpha past opac (n : Z) i j :
  let st := DeSitter dim alpha in
  constructed st → i < dim → j < dim → i ≠ j → i = 0 ∨ j = 0 → 2 ≤ edge_count n →
  ∃ h, ConePlotter junk st [Z.of_nat i; Z.of_nat j] (sign past) opac n = Ok h ∧
  ∀ o ts, length o = dim → ¬ not_drawn past opac o ts → inside_horizon alpha o →
  (∀ m, 1 ≤ m < dim → m ≠ i → m ≠ j → cget o m = 0%R) →
  let y (x t : R) := place o [(0, t); (i + j, x)] in
  let at_axes (x t : R) : point := if decide (i = 0) then (t, x) else (x, t) in
  let tol := (Rabs (ts - cget o 0) / INR (edge_count n - 1))%R in
  ∃ rows, h o ts = Ok (Some (opacity past opac o ts, DPatch rows)) ∧
  (∀ x k, k ≤ edge_count n - 1 → let t := (cget o 0 + INR k / INR (edge_count n - 1) * (ts - cget o 0))%R in
     painted (Polygon (closed_path rows)) (at_axes x t) ↔ in_cone st past o (y x t)) ∧
  (∀ x t, painted (Polygon (closed_path rows)) (at_axes x t) →
     ∃ x', (Rabs (x' - x) <= tol)%R ∧ in_cone st past o (y x' t) ∧ up_to past ts (y x' t)) ∧
  (∀ x t, (∀ x', (Rabs (x' - x) <= tol)%R → in_cone st past o (y x' t) ∧ up_to past ts (y x' t)) →
     painted (Polygon (closed_path rows)) (at_axes x t)).
Proof.
  intros st Hst Hi Hj Hij H0 HN. apply DeSitter_constructed in Hst as [Hd2 Ha]. eexists. split; [reflexivity|]. intros o ts Ho Hd Hin Hz y at_axes tol.
  destruct (cone_start_spec past opac o ts) as [_ Hs]. destruct (Hs Hd) as [Es Hr0]. clear Hs.
  set (k := i + j). assert (Hk : 1 ≤ k < dim) by (unfold k; lia). set (N := edge_count n) in *.
  assert (Hzk : ∀ m, 1 ≤ m < dim → m ≠ k → cget o m = 0%R) by (intros m Hm Hmk; apply Hz; unfold k in Hmk; lia).
  set (L := ray_lo alpha (cget o 0) (cget o k)). set (H := ray_hi alpha (cget o 0) (cget o k)). set (T := sample (cget o 0) ts N).
  set (V := chain_polygon T (H ∘ T) (L ∘ T) (N - 1)).
  pose proof (XT_axis junk dim alpha o ts k N Ha Ho Hk Hin Hzk ltac:(lia)) as EX. cbv zeta in EX. fold L H T in EX.
  assert (Hxk : (cget o k * cget o k < alpha * alpha)%R).
  { unfold inside_horizon in Hin. rewrite sqsum_dot, (dot_support o o dim [k]) in Hin; [|done|done|apply NoDup_singleton|intros m Hm%elem_of_list_singleton; lia|].
    - cbn [fmap list_fmap] in Hin. by rewrite rsum_one in Hin.
    - intros m Hm Hn. rewrite elem_of_list_singleton in Hn. by apply Hzk. }
  destruct (ray_bounds alpha (cget o 0) (cget o k) Ha Hxk) as (RLH & R0 & RL & RH). fold L in RLH, R0, RL. fold H in RLH, R0, RH.
  assert (EV : closed_path (Some <$> (chain T (H ∘ T) (L ∘ T) (N - 1) <$> seq 0 (2 * N - 1))) = Some <$> V).
  { replace (2 * N - 1) with (2 * (N - 1) + 1) by lia. apply closed_chain; [lia|]. apply (region_0 _ ts N L H). exact R0. }
  set (rows := if decide (i = 0) then swap_columns (Some <$> (chain T (H ∘ T) (L ∘ T) (N - 1) <$> seq 0 (2 * N - 1)))
     else Some <$> (chain T (H ∘ T) (L ∘ T) (N - 1) <$> seq 0 (2 * N - 1))).
  assert (HP : ∀ x t, painted (Polygon (closed_path rows)) (at_axes x t) ↔ painted (Polygon (Some <$> V)) (x, t)).
  { intros x t. unfold rows, at_axes. destruct (decide (i = 0)) as [E|E]; [|by rewrite EV].
    assert (ES : ∀ W, closed_path (swap_columns W) = swap_columns (closed_path W)).
    { intros [|w W]; [done|]. unfold closed_path, swap_columns. cbn [fmap list_fmap]. rewrite fmap_app. done. }
    rewrite ES, EV, flip_swap. rewrite (flip_painted V (0, 0)%R); [done|]. unfold V.
    apply (chain_closed T (H ∘ T) (L ∘ T) (N - 1) (negb past)); [lia|by apply region_up|by apply region_0|intros; apply RLH]. }
  assert (HC : ∀ x t, in_cone st past o (y x t) ↔ (0 <= sign past * (t - cget o 0))%R ∧ (L t <= x <= H t)%R).
  { intros x t. assert (Ly : length (y x t) = dim) by (unfold y; by rewrite place_length).
    assert (Y0 : cget (y x t) 0 = t) by (unfold y; rewrite place_cons by lia; by rewrite decide_True).
    assert (Yk : cget (y x t) k = x) by (unfold y; rewrite !place_cons by lia; fold k; rewrite decide_False by lia; by rewrite decide_True).
    unfold st. rewrite (rays_plane dim alpha past o (y x t) k Ha Ho Ly Hk Hin Hzk).
    - rewrite Y0, Yk. done.
    - intros m Hm Hmk. unfold y. rewrite !place_cons by lia. fold k. rewrite !decide_False by lia. by apply Hzk. }
  assert (HU : ∀ x t, up_to past ts (y x t) ↔ (sign past * (t - cget o 0) <= sign past * (ts - cget o 0))%R).
  { intros x t. rewrite (up_to_iff past ts o). unfold y. rewrite place_cons by lia. by rewrite decide_True. }
  assert (Htol : (0 <= tol)%R) by (apply Rmult_le_pos; [apply Rabs_pos|left; apply Rinv_0_lt_compat; apply lt_0_INR; lia]).
  exists rows. split; [|split; [|split]].
  - unfold base_cone. rewrite Es. unfold is3d. rewrite bool_decide_false by done. rewrite time_axis_two by done. cbn [length]. cbv zeta. rewrite edge_count_sampling. fold N.
    destruct (decide (i = 0)) as [Ei|Ei].
    + destruct (decide (0 < 0)%Z) as [?|_]; [lia|]. destruct (decide (0 = 0)%Z) as [_|?]; [|lia].
      change (Z.to_nat ((0 + 1) mod Z.of_nat 2)) with 1. unfold dim_at. cbn [nth]. assert (Ek : j = k) by (unfold k; lia). rewrite Ek. fold st in EX. rewrite EX. done.
    + rewrite (decide_True (P := j = 0)) by lia. destruct (decide (1 < 0)%Z) as [?|_]; [lia|]. destruct (decide (1 = 0)%Z) as [?|_]; [lia|].
      change (Z.to_nat ((1 + 1) mod Z.of_nat 2)) with 0. unfold dim_at. cbn [nth]. assert (Ek : i = k) by (unfold k; lia). rewrite Ek. fold st in EX. rewrite EX. done.
  - intros x m Hm t. rewrite HP, HC.
    assert (HI : (0 < INR (N - 1))%R) by (apply lt_0_INR; lia).
    assert (Et : t = T m) by (unfold t, T, sample; field; lra).
    etransitivity; [apply (region_exact past (cget o 0) ts N L H HN Hr0 RLH R0 (x, t) m Hm Et)|]. cbn [fst snd]. split; [|by intros [_ ?]].
    intros Hx. split; [|done]. unfold t. replace (sign past * (cget o 0 + INR m / INR (N - 1) * (ts - cget o 0) - cget o 0))%R with (INR m / INR (N - 1) * (sign past * (ts - cget o 0)))%R by ring.
    apply Rmult_le_pos; [|lra]. apply Rmult_le_pos; [apply pos_INR|left; by apply Rinv_0_lt_compat].
  - intros x t Hp%HP. apply (region_outer past (cget o 0) ts N L H HN Hr0 RLH R0 RL RH) in Hp as [Ht Hx]. cbn [fst snd] in *. fold tol in Hx. specialize (RLH t).
    assert (∃ x', (Rabs (x' - x) <= tol)%R ∧ (L t <= x' <= H t)%R) as (x' & Hx' & HL).
    { destruct (Rlt_dec x (L t)) as [Hl|Hl]; [exists (L t)|destruct (Rlt_dec (H t) x) as [Hh|Hh]; [exists (H t)|exists x]]; (split; [apply Rabs_le|]; lra). }
    exists x'. rewrite HC, HU. split; [done|]. split; [split; [lra|done]|lra].
  - intros x t Hall. apply HP. apply (region_inner past (cget o 0) ts N L H HN Hr0 RLH R0 RL RH). all: cbn [fst snd]; fold tol.
    + destruct (Hall x) as [H1 H2]; [rewrite Rminus_diag_eq by done; by rewrite Rabs_R0|]. apply HC in H1. apply HU in H2. lra.
    + destruct (Hall (x - tol)%R) as [H1 _]; [apply Rabs_le; lra|]. destruct (Hall (x + tol)%R) as [H2 _]; [apply Rabs_le; lra|]. apply HC in H1, H2. lra.
Qed.
Print Assumptions C82_time_plane.
(** If another space coordinate of the origin is not zero, the cone is not drawn correctly. *)
Theorem C82_off_plane_refuted (junk : nat → point) :
  let o := [0; 0; 0; 1 / 2]%R in
  ∃ h rows ts p, ConePlotter junk (DeSitter 4 1) [1; 2]%Z (sign false) None (-1) = Ok h ∧
    h o ts = Ok (Some (None, DPatch rows)) ∧ ¬ not_drawn false None o ts ∧ inside_horizon 1 o ∧
    painted (Polygon rows) p ∧ ¬ in_cone (DeSitter 4 1) false o (place o [(0, ts); (1, p.1); (2, p.2)]).
Proof.
  intros o. set (ts := atanh (1 / 2)). assert (HT : tanh ts = (1 / 2)%R) by (apply tanh_atanh; lra).
  assert (Hts : (0 < ts)%R). { destruct (Rlt_le_dec 0 ts) as [|Hn]; [done|]. apply tanh_le_iff in Hn. rewrite HT, tanh_0 in Hn. lra. }
  assert (ER : sqsum (tail o) = (1 / 2 * (1 / 2))%R) by (unfold o; cbn [tail]; rewrite !sqsum_cons, sqsum_nil; lra).
  assert (Hin : inside_horizon 1 o) by (unfold inside_horizon; rewrite ER; lra).
  assert (HD : ¬ not_drawn false None o ts).
  { intros [H|(f & H & _)]; [|done]. cbn [sign] in H. unfold o, cget in H. cbn [nth] in H. lra. }
  destruct (cone_start_spec false None o ts) as [_ Hs]. destruct (Hs HD) as [Es Hr0]. clear Hs.
  assert (Hr : (0 <= 1 / 2 < 1)%R) by lra.
  set (phi := arctan2 0 0). assert (Ephi : phi = 0%R) by (unfold phi, arctan2; rewrite !decide_False by lra; done).
  eexists _, (Some <$> slice_polygon 1 (1 / 2) ts phi), ts, (4 / 5, 0)%R. split; [reflexivity|]. split; [|split; [done|split; [done|split]]].
  - unfold base_cone. rewrite Es. unfold is3d. rewrite bool_decide_false by done. change (time_axis [1; 2]%Z) with (-1)%Z. cbv zeta.
    destruct (decide (-1 < 0)%Z) as [_|?]; [|lia]. destruct (decide (-1 = 0)%Z) as [?|_]; [lia|]. cbn [XY_slice]. unfold dim_at. cbn [nth].
    unfold dS_XY_slice. rewrite ER. replace (1 / 2 * (1 / 2) / (1 * 1))%R with (1 / 2 * (1 / 2))%R by field. rewrite decide_False by lra. cbn [fst snd].
    change (np_index o 2) with (Ok (A := R) 0%R). change (np_index o 1) with (Ok (A := R) 0%R). cbn [res_bind]. fold phi.
    assert (Ed : (Rabs (ts - cget o 0) / 1 = ts)%R) by (unfold o, cget; cbn [nth]; rewrite Rminus_0_r, Rabs_right by lra; field). rewrite Ed.
    rewrite ellipse_radii by lra. rewrite slice_rows_eq. done.
  - left. rewrite slice_polygon_eq.
    set (f := λ i, slice_map 1 (1 / 2) ts phi (cos (angle 128 i), sin (angle 128 i))). exists (f 0), (f 1). rewrite segments_Some, zip_tail_fmap. split; [apply elem_of_list_fmap; exists 0; split; [done|]; apply elem_of_seq; lia|].
    exists 0%R. split; [lra|]. rewrite !Rmult_0_l, !Rplus_0_r. unfold f, slice_map, affine. cbn [fst snd]. rewrite Ephi, cos_0, sin_0. unfold angle. cbn [INR]. rewrite Rmult_0_l, cos_0, sin_0.
    unfold el_c, el_a. rewrite HT. split; field.
  - change (place o _) with [ts; 4 / 5; 0; 1 / 2]%R. rewrite in_cone_dS; [|lra|done]. intros (_ & Hy & _ & H). unfold inside_horizon in Hy. revert H. unfold amp. rewrite ER.
    assert (EY : sqsum (tail [ts; 4 / 5; 0; 1 / 2]%R) = (89 / 100)%R) by (cbn [tail]; rewrite !sqsum_cons, sqsum_nil; lra). rewrite EY.
    assert (EDot : dot (tail o) (tail [ts; 4 / 5; 0; 1 / 2]%R) = (1 / 4)%R) by (unfold o; cbn [tail]; rewrite !dot_cons; unfold dot; cbn; lra). rewrite EDot.
    unfold cget, o. cbn [nth]. replace ((ts - 0) / 1)%R with ts by field. destruct (cosh_sinh_atanh (1 / 2)) as [EC _]; [lra|]. unfold ts. rewrite EC.
    replace (1 * 1 - 1 / 2 * (1 / 2))%R with (1 - 1 / 2 * (1 / 2))%R by ring. set (z := (1 - 1 / 2 * (1 / 2))%R). assert (0 < sqrt z)%R by (apply sqrt_lt_R0; unfold z; lra).
    replace (sqrt z * sqrt (1 * 1 - 89 / 100) * / sqrt z)%R with (sqrt (1 * 1 - 89 / 100)) by (field; lra). intros H1.
    assert (sqrt (1 * 1 - 89 / 100) <= sqrt (1 / 2 * (1 / 2)))%R by (apply sqrt_le_1_alt; lra). rewrite sqrt_square in * by lra. lra.
Qed.
Print Assumptions C82_off_plane_refuted.

(** The hypotheses are met. *)
Lemma DeSitter_is_constructed dim alpha : 2 ≤ dim → (0 < alpha)%R → constructed (DeSitter dim alpha).
Proof.
  intros Hd Ha. right; right; left. exists (Z.of_nat dim), alpha. unfold deSitterSpacetime. rewrite decide_False by lia. rewrite decide_True by done. by rewrite Nat2Z.id.
Qed.
Example C82_hypotheses : constructed (DeSitter 3 1) ∧ 2 ≤ edge_count (-1) ∧ inside_horizon 1 [0; 1 / 2; 1 / 3]%R ∧ ¬ not_drawn false None [0; 1 / 2; 1 / 3]%R 1%R ∧
  (∀ m, 1 ≤ m < 3 → m ≠ 1 → m ≠ 2 → cget [0; 1 / 2; 1 / 3]%R m = 0%R) ∧ in_cone (DeSitter 3 1) false [0; 1 / 2; 1 / 3]%R [1; 1 / 2; 1 / 3]%R.
Proof.
  split; [apply DeSitter_is_constructed; [lia|lra]|]. split; [unfold edge_count; rewrite decide_False by lia; lia|].
  assert (Hin : inside_horizon 1 [0; 1 / 2; 1 / 3]%R) by (unfold inside_horizon; cbn [tail]; rewrite !sqsum_cons, sqsum_nil; lra). split; [done|].
  split; [intros [H|(f & H & _)]; [cbn [sign] in H; unfold cget in H; cbn [nth] in H; lra|done]|]. split; [lia|].
  rewrite in_cone_dS; [|lra|done]. split; [done|]. split; [done|]. split; [cbn [sign]; unfold cget; cbn [nth]; lra|].
  assert (EA : amp 1 [0; 1 / 2; 1 / 3]%R = amp 1 [1; 1 / 2; 1 / 3]%R) by done. rewrite <- EA. rewrite amp_sq by done.
  assert (Ed : dot (tail [0; 1 / 2; 1 / 3]%R) (tail [1; 1 / 2; 1 / 3]%R) = sqsum (tail [0; 1 / 2; 1 / 3]%R)) by (rewrite sqsum_dot; done). rewrite Ed.
  pose proof (cosh_ge_1 ((cget [1; 1 / 2; 1 / 3]%R 0 - cget [0; 1 / 2; 1 / 3]%R 0) / 1)) as Hc. unfold inside_horizon in Hin. set (q := (1 * 1 - sqsum (tail [0; 1 / 2; 1 / 3]%R))%R). assert (0 < q)%R by (unfold q; lra). nra.
Qed.
