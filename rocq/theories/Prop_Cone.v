(** Theorems about the causal cones of flat spacetime: C79 - C81. *)
From Verif Require Import Base SpacetimeModel SpacetimeFacts ShapeModel Prop_Spacetime Prop_SpacetimeMore OutlineModel SpecOutline OutlineFacts
  PolygonFacts Prop_Outline SpecSurface SurfaceFacts Prop_Surface ConeModel SpecCone ConeFacts.
From Coq Require Import Reals Lra Lia.
#[local] Open Scope nat_scope.

(** ** Coordinates *)
Lemma place_length o xs : length (place o xs) = length o.
Proof. induction xs as [|[i x] xs IH]; [done|]. unfold place in *. cbn [foldr fst snd]. by rewrite insert_length. Qed.
Lemma place_cons o i x xs m : i < length o → cget (place o ((i, x) :: xs)) m = if decide (m = i) then x else cget (place o xs) m.
Proof.
  intros Hi. unfold cget. change (place o ((i, x) :: xs)) with (<[i := x]> (place o xs)). rewrite !nth_lookup. destruct (decide (m = i)) as [->|Hm].
  - rewrite list_lookup_insert; [done|]. rewrite (place_length o xs). done.
  - by rewrite list_lookup_insert_ne.
Qed.
Lemma place_nil o m : cget (place o []) m = cget o m.
Proof. done. Qed.

(** ** The cones in terms of coordinate differences *)
(** The distance of the coordinates m of two points (to the nearest image). *)
Definition gap (st : spacetime) (m : nat) (o y : coords) : R := circ (period_of st m) (cget o m) (cget y m).
Lemma gap_pos st m o y : (0 <= gap st m o y)%R.
Proof. apply Rabs_pos. Qed.
Lemma gap_refl st m o y : cget o m = cget y m → gap st m o y = 0%R.
Proof. intros E. unfold gap, circ. rewrite E, period_delta_refl. apply Rabs_R0. Qed.
Lemma gap_sym st m o y : gap st m o y = gap st m y o.
Proof. unfold gap, circ. by rewrite period_delta_sym. Qed.
Lemma Flat_constructed dim period : constructed (Flat dim period) → 1 ≤ dim ∧ (∀ ps, period = Some ps → length ps = dim - 1).
Proof.
  intros [?|[(d & p & H)|[(? & ? & H)|[(? & ? & H)|(? & ? & ? & H)]]]]; try done.
  - unfold FlatSpacetime in H. case_decide as Hd; [done|]. destruct p as [p|ps|]; try done; repeat (case_decide; try done); injection H as <- <-; (split; [lia|]); intros ? [= <-]; try (by rewrite replicate_length).
    done.
  - unfold deSitterSpacetime in H. repeat (case_decide; try done).
  - unfold AntideSitterSpacetime in H. repeat (case_decide; try done).
  - unfold BlackHoleSpacetime in H. repeat (case_decide; try done).
Qed.
Lemma rsum_ext {A} (f g : A → R) l : (∀ x, x ∈ l → f x = g x) → rsum (f <$> l) = rsum (g <$> l).
Proof. intros H. f_equal. apply list_fmap_ext. intros i x Hx. apply H. by eapply elem_of_list_lookup_2. Qed.
Lemma causal_flat dim period o y : 2 ≤ dim → length o = dim → length y = dim →
  (Causality 0 (Flat dim period) o y).1 = true ↔
  (0 <= cget y 0 - cget o 0)%R ∧
  (rsum ((λ m, gap (Flat dim period) m o y * gap (Flat dim period) m o y) <$> seq 1 (dim - 1)) <= (cget y 0 - cget o 0) * (cget y 0 - cget o 0))%R.
Proof.
  intros Hd Ho Hy. destruct period as [ps|].
  - cbn [Causality]. rewrite decide_False by lia.
    assert (HP : periodic_prec dim ps o y ↔ (0 <= cget y 0 - cget o 0)%R ∧
      (rsum ((λ m, gap (Flat dim (Some ps)) m o y * gap (Flat dim (Some ps)) m o y) <$> seq 1 (dim - 1)) <= (cget y 0 - cget o 0) * (cget y 0 - cget o 0))%R).
    { unfold periodic_prec. rewrite <- (sqsum_Rabs (circ_list dim ps o y)). unfold sqsum, circ_list. rewrite <- !list_fmap_compose.
      rewrite (rsum_ext _ (λ m, gap (Flat dim (Some ps)) m o y * gap (Flat dim (Some ps)) m o y)%R); [done|].
      intros m Hm. apply elem_of_seq in Hm. destruct m as [|m]; [lia|]. unfold gap, period_of. cbn [compose]. rewrite Nat.sub_succ, Nat.sub_0_r. done. }
    rewrite <- HP. destruct (decide (dim = 2)) as [->|]; [apply isCausal_flat2Dperiodic_fst|apply isCausal_flatperiodic_fst].
  - destruct (C47_flat dim o y y) as [E _]; [lia|done..|]. cbn zeta in E. rewrite E. unfold minkowski_future, distance2.
    rewrite (rsum_ext (λ m, gap (Flat dim None) m o y * gap (Flat dim None) m o y)%R (λ m, (cget y m - cget o m) * (cget y m - cget o m))%R).
    + split; intros [? ?]; split; lra.
    + intros m _. unfold gap, circ, period_delta, period_of. destruct m; rewrite decide_False by lra; rewrite Rabs_Rabsolu, <- Rabs_mult;
      apply Rabs_pos_eq; apply Rle_0_sqr.
Qed.
Lemma in_cone_flat dim period past o y : 2 ≤ dim → length o = dim → length y = dim →
  in_cone (Flat dim period) past o y ↔
  (0 <= sign past * (cget y 0 - cget o 0))%R ∧
  (rsum ((λ m, gap (Flat dim period) m o y * gap (Flat dim period) m o y) <$> seq 1 (dim - 1)) <= (cget y 0 - cget o 0) * (cget y 0 - cget o 0))%R.
Proof.
  intros Hd Ho Hy. unfold in_cone. destruct past; cbn [sign].
  - rewrite causal_flat by done. rewrite (rsum_ext (λ m, gap (Flat dim period) m y o * gap (Flat dim period) m y o)%R (λ m, gap (Flat dim period) m o y * gap (Flat dim period) m o y)%R) by (intros; by rewrite gap_sym).
    split; intros [? ?]; split; lra.
  - rewrite causal_flat by done. rewrite Rmult_1_l. done.
Qed.
(** ... if only the time and the coordinates [ks] differ. *)
Lemma in_cone_axes dim period past o y (ks : list nat) : 2 ≤ dim → length o = dim → length y = dim →
  NoDup ks → (∀ k, k ∈ ks → 1 ≤ k < dim) → (∀ m, 1 ≤ m → m ∉ ks → cget y m = cget o m) →
  in_cone (Flat dim period) past o y ↔
  (0 <= sign past * (cget y 0 - cget o 0))%R ∧
  (rsum ((λ m, gap (Flat dim period) m o y * gap (Flat dim period) m o y) <$> ks) <= (cget y 0 - cget o 0) * (cget y 0 - cget o 0))%R.
Proof.
  intros Hd Ho Hy Hnd Hks Hag. rewrite in_cone_flat by done. rewrite (rsum_support ks); [done|apply NoDup_seq|done| |].
  - intros k Hk. apply elem_of_seq. specialize (Hks k Hk). lia.
  - intros k Hk Hn. apply elem_of_seq in Hk. rewrite gap_refl by (rewrite Hag; [done|lia|done]). ring.
Qed.

(** *** Shifts by a period *)
Lemma shift_gap K a x : ((0 < K)%R → (Rabs (x - a) <= K)%R) →
  (∃ k, k ∈ axis_shifts K ∧ Rabs (x - (a - k)) = circ K a x) ∧ (∀ k, k ∈ axis_shifts K → (circ K a x <= Rabs (x - (a - k)))%R).
Proof.
  intros HK. unfold axis_shifts, circ, period_delta. destruct (decide (0 < K)%R) as [Hp|Hp].
  - specialize (HK Hp). assert (Em : Rabs (Rmin (Rabs (x - a)) (K - Rabs (x - a))) = Rmin (Rabs (x - a)) (K - Rabs (x - a))).
    { apply Rabs_pos_eq. apply Rmin_glb; [apply Rabs_pos|lra]. }
    rewrite Em. set (d := (x - a)%R) in *. split.
    + unfold Rmin. destruct (Rle_dec _ _) as [Hd|Hd].
      * exists 0%R. split; [set_solver|]. f_equal. unfold d. ring.
      * destruct (Rabs_cases d) as [[H E]|[H E]].
        -- exists (- K)%R. split; [set_solver|]. replace (x - (a - - K))%R with (- (K - d))%R by (unfold d; ring). rewrite Rabs_Ropp. rewrite E in *. apply Rabs_pos_eq. lra.
        -- exists K. split; [set_solver|]. replace (x - (a - K))%R with (K + d)%R by (unfold d; ring). rewrite E in *. rewrite Rabs_pos_eq; lra.
    + intros k Hk. rewrite !elem_of_cons, elem_of_nil in Hk. pose proof (Rmin_l (Rabs d) (K - Rabs d)) as H1. pose proof (Rmin_r (Rabs d) (K - Rabs d)) as H2.
      destruct Hk as [-> |[-> |[-> |[]]]].
      * replace (x - (a - - K))%R with (- (K - d))%R by (unfold d; ring). rewrite Rabs_Ropp.
        destruct (Rabs_cases d) as [[H E]|[H E]], (Rabs_cases (K - d)) as [[H' E']|[H' E']]; rewrite E, E' in *; lra.
      * replace (x - (a - 0))%R with d by (unfold d; ring). done.
      * replace (x - (a - K))%R with (K + d)%R by (unfold d; ring).
        destruct (Rabs_cases d) as [[H E]|[H E]], (Rabs_cases (K + d)) as [[H' E']|[H' E']]; rewrite E, E' in *; lra.
  - assert (E : ∀ k, k ∈ [0%R] → Rabs (x - (a - k)) = Rabs (Rabs (x - a))).
    { intros k Hk. apply elem_of_list_singleton in Hk as ->. rewrite Rabs_Rabsolu. f_equal. ring. }
    split; [exists 0%R; split; [set_solver|apply E; set_solver]|]. intros k Hk. rewrite E by done. lra.
Qed.

(** ** The handle *)
Lemma cone_start_spec past alpha o ts :
  (not_drawn past alpha o ts → cone_start (sign past) alpha o ts = None) ∧
  (¬ not_drawn past alpha o ts → cone_start (sign past) alpha o ts = Some ((sign past * (ts - cget o 0))%R, opacity past alpha o ts) ∧
     (0 < sign past * (ts - cget o 0))%R).
Proof.
  unfold not_drawn, cone_start, opacity. set (r := (sign past * (ts - cget o 0))%R). cbn zeta.
  destruct (decide (r <= 0)%R) as [Hr|Hr]; [split; [done|intros H; exfalso; apply H; by left]|].
  destruct alpha as [f|]; cbn [fmap option_fmap option_map].
  - destruct (decide (f r <= 0)%R) as [Hf|Hf].
    + split; [done|]. intros H. exfalso. apply H. right. eauto.
    + split; [|intros _; split; [done|lra]]. intros [?|(g & [= <-] & ?)]; done.
  - split; [|intros _; split; [done|lra]]. intros [?|(g & ? & ?)]; done.
Qed.
Lemma not_drawn_dec past alpha o ts : not_drawn past alpha o ts ∨ ¬ not_drawn past alpha o ts.
Proof. apply Classical_Prop.classic. Qed.

Lemma axis_shifts_0 : axis_shifts 0 = [0%R].
Proof. unfold axis_shifts. rewrite decide_False; [done|lra]. Qed.
Lemma period_at_per dim ps timeaxis a dims m : length ps = dim - 1 → dim_at dims a = Z.of_nat m → m < dim →
  (m = 0 ↔ timeaxis = Z.of_nat a) → period_at ps timeaxis a dims = Ok (period_of (Flat dim (Some ps)) m).
Proof.
  intros Hl Ed Hm Ht. unfold period_at. destruct m as [|m].
  - rewrite decide_True by tauto. done.
  - rewrite decide_False by (intros E; by apply Ht in E). rewrite Ed. apply np_index_ok. exists m. cbn [period_of]. rewrite nth_lookup.
    destruct (lookup_lt_is_Some_2 ps m) as [v Hv]; [lia|]. rewrite Hv. split; [done|]. left. lia.
Qed.
Lemma shifts_two dim period i j : constructed (Flat dim period) → i < dim → j < dim → i ≠ j →
  cone_shifts period [Z.of_nat i; Z.of_nat j] =
    Ok (flat_map (λ x, (λ y, [x; y]) <$> axis_shifts (period_of (Flat dim period) j)) (axis_shifts (period_of (Flat dim period) i))).
Proof.
  intros Hst Hi Hj Hij. apply Flat_constructed in Hst as [Hd Hl]. unfold cone_shifts. destruct period as [ps|].
  - specialize (Hl ps eq_refl). rewrite time_axis_two by done.
    rewrite (period_at_per dim ps _ 0 _ i), (period_at_per dim ps _ 1 _ j); [done|done|done|done| |done|done|done|].
    + destruct (decide (i = 0)), (decide (j = 0)); lia.
    + destruct (decide (i = 0)), (decide (j = 0)); lia.
  - unfold is3d. rewrite bool_decide_false by (cbn; lia). 
    assert (E : ∀ m, axis_shifts (period_of (Flat dim None) m) = [0%R]) by (intros [|m]; apply axis_shifts_0).
    rewrite !E. done.
Qed.

(** The parts of the outline. *)
Lemma Forall2_parts sg {A} (f : A → outline) (g : A → point → Prop) (l : list A) :
  (∀ s, s ∈ l → paints sg (f s) (g s)) → Forall2 (paints sg) (f <$> l) (g <$> l).
Proof.
  induction l as [|s l IH]; intros H; [constructor|]. constructor; [apply H; set_solver|]. apply IH. intros; apply H; set_solver.
Qed.
Lemma parts_painted sg {A} (f : A → outline) (g : A → point → Prop) (l : list A) p : sg ≠ 0%Z → l ≠ [] →
  (∀ s, s ∈ l → paints sg (f s) (g s)) → painted (Polygon (join (f <$> l))) p ↔ ∃ s, s ∈ l ∧ g s p.
Proof.
  intros Hs Hl H. destruct (join_paints sg (f <$> l) (g <$> l) Hs) with (p := p) as [E _].
  - destruct l; done.
  - by apply Forall2_parts.
  - cbn [painted]. rewrite <- E. split.
    + intros (B & HB & Hp). apply elem_of_list_fmap in HB as (s & -> & Hs'). eauto.
    + intros (s & Hs' & Hp). exists (g s). split; [by apply elem_of_list_fmap_1|done].
Qed.
Lemma shifts_in K1 K2 s : s ∈ flat_map (λ x, (λ y, [x; y]) <$> axis_shifts K2) (axis_shifts K1) ↔
  ∃ x y, x ∈ axis_shifts K1 ∧ y ∈ axis_shifts K2 ∧ s = [x; y].
Proof.
  rewrite elem_of_list_In, in_flat_map. setoid_rewrite <- elem_of_list_In. setoid_rewrite elem_of_list_fmap. clear. firstorder; subst; eauto 10.
Qed.
Lemma shifts_zero K : 0%R ∈ axis_shifts K.
Proof. unfold axis_shifts. destruct (decide _); set_solver. Qed.
Lemma shifts_ne K1 K2 : flat_map (λ x, (λ y, [x; y]) <$> axis_shifts K2) (axis_shifts K1) ≠ [].
Proof.
  intros E. assert (H : [0%R; 0%R] ∈ flat_map (λ x, (λ y, [x; y]) <$> axis_shifts K2) (axis_shifts K1)).
  { apply shifts_in. exists 0%R, 0%R. eauto using shifts_zero. }
  rewrite E in H. by apply elem_of_nil in H.
Qed.
(** The handle of a 2D plot. *)
Lemma handle_two junk dim period past alpha n i j : constructed (Flat dim period) → i < dim → j < dim → i ≠ j →
  ∃ h, ConePlotter junk (Flat dim period) [Z.of_nat i; Z.of_nat j] (sign past) alpha n = Ok h ∧
  ∀ o ts, length o = dim →
    (not_drawn past alpha o ts → h o ts = Ok None) ∧
    (¬ not_drawn past alpha o ts →
      let r := (sign past * (ts - cget o 0))%R in (0 < r)%R ∧
      h o ts = Ok (Some (opacity past alpha o ts, DPatch (join ((λ s,
        if decide (i = 0 ∨ j = 0) then cone_triangle (if decide (i = 0) then 0%Z else 1%Z) [cget o i; cget o j] s r ts
        else CircleEdge junk (vsub [cget o i; cget o j] s) r 0 (Z.of_nat (sampling n))) <$>
        flat_map (λ x, (λ y, [x; y]) <$> axis_shifts (period_of (Flat dim period) j)) (axis_shifts (period_of (Flat dim period) i))))))).
Proof.
  intros Hst Hi Hj Hij. eexists. split.
  { unfold ConePlotter. rewrite (shifts_two dim) by done. reflexivity. }
  intros o ts Ho. unfold flat_cone. destruct (cone_start_spec past alpha o ts) as [H1 H2]. split.
  - intros H. by rewrite H1.
  - intros H. destruct (H2 H) as [E Hr]. rewrite E. cbn zeta. split; [done|]. rewrite take_two by lia. cbn [res_bind].
    unfold is3d. rewrite bool_decide_false by (cbn; lia). do 5 f_equal. apply list_fmap_ext. intros k s _.
    rewrite time_axis_two by done. destruct (decide (i = 0)) as [Ei|Ei].
    + rewrite !decide_True by lia. done.
    + destruct (decide (j = 0)) as [Ej|Ej].
      * rewrite !decide_True by lia. done.
      * rewrite !decide_False by lia. done.
Qed.

(** ** 2D plots with a time axis *)
Lemma square_le a b : (0 <= a)%R → (0 <= b)%R → (a * a <= b * b ↔ a <= b)%R.
Proof.
  intros Ha Hb. split; intros H; [|nra]. destruct (Rle_dec a b) as [|Hn]; [done|]. nra.
Qed.
Lemma rsgn_sq past x : (rsgn past * (rsgn past * x))%R = x.
Proof. destruct past; cbn; ring. Qed.
Lemma triangle_up past o0 ox r ts x : r = (rsgn past * (ts - o0))%R → (0 < r)%R →
  paints (sgn past) (cone_triangle 1 [ox; o0] [x; 0%R] r ts) (wedge (ox - x) o0 (rsgn past) r).
Proof.
  intros Er Hr. unfold cone_triangle. rewrite decide_False by lia. unfold cget. cbn [nth fmap list_fmap fst snd].
  pose proof (wedge_up (ox - x) o0 past r Hr) as H. assert (Et : (rsgn past * r)%R = (ts - o0)%R) by (rewrite Er; apply rsgn_sq). rewrite Et in H. cbn [fmap list_fmap] in H.
  replace (ox + r - x)%R with (ox - x + r)%R by ring. replace (ox - r - x)%R with (ox - x - r)%R by ring.
  replace (ts - 0)%R with (o0 + (ts - o0))%R by ring. replace (o0 - 0)%R with o0 by ring. exact H.
Qed.
Lemma triangle_right past o0 ox r ts x : r = (rsgn past * (ts - o0))%R → (0 < r)%R →
  paints (sgn past) (cone_triangle 0 [o0; ox] [0%R; x] r ts) (λ p, wedge (ox - x) o0 (rsgn past) r (p.2, p.1)).
Proof.
  intros Er Hr. unfold cone_triangle. rewrite decide_True by lia. unfold cget. cbn [nth fmap list_fmap fst snd].
  pose proof (wedge_right (ox - x) o0 past r Hr) as H. assert (Et : (rsgn past * r)%R = (ts - o0)%R) by (rewrite Er; apply rsgn_sq). rewrite Et in H. cbn [fmap list_fmap] in H.
  replace (ox + r - x)%R with (ox - x + r)%R by ring. replace (ox - r - x)%R with (ox - x - r)%R by ring.
  replace (ts - 0)%R with (o0 + (ts - o0))%R by ring. replace (o0 - 0)%R with o0 by ring. exact H.
Qed.
Lemma sgn_ne past : sgn past ≠ 0%Z.
Proof. by destruct past. Qed.
(** The painted points, in terms of the shifts. *)
Lemma painted_time dim period past o ts i j : i ≠ j → i = 0 ∨ j = 0 →
  let k := i + j in
  let r := (sign past * (ts - cget o 0))%R in (0 < r)%R →
  ∀ (junk : nat → point) n p,
  let t := if decide (i = 0) then p.1 else p.2 in
  let x := if decide (i = 0) then p.2 else p.1 in
  painted (Polygon (join ((λ s,
        if decide (i = 0 ∨ j = 0) then cone_triangle (if decide (i = 0) then 0%Z else 1%Z) [cget o i; cget o j] s r ts
        else CircleEdge junk (vsub [cget o i; cget o j] s) r 0 (Z.of_nat (sampling n))) <$>
        flat_map (λ x, (λ y, [x; y]) <$> axis_shifts (period_of (Flat dim period) j)) (axis_shifts (period_of (Flat dim period) i))))) p ↔
  ∃ s, s ∈ axis_shifts (period_of (Flat dim period) k) ∧ wedge (cget o k - s) (cget o 0) (rsgn past) r (x, t).
Proof.
  intros Hij H0 k r Hr junk n p t x. set (st := Flat dim period).
  assert (E0 : axis_shifts (period_of st 0) = [0%R]) by apply axis_shifts_0.
  destruct (decide (i = 0)) as [Ei|Ei].
  - subst i. rewrite (parts_painted (sgn past) _ (λ s p, wedge (cget o j - cget s 1) (cget o 0) (rsgn past) r (p.2, p.1))).
    + unfold k, t, x. rewrite Nat.add_0_l. split.
      * intros (s & Hs & Hp). apply shifts_in in Hs as (a & b & Ha & Hb & ->). eauto.
      * intros (s & Hs & Hp). exists [0%R; s]. split; [|done]. apply shifts_in. exists 0%R, s. eauto using shifts_zero.
    + apply sgn_ne.
    + apply shifts_ne.
    + intros s Hs. apply shifts_in in Hs as (a & b & Ha & Hb & ->). fold st in Ha. rewrite E0 in Ha. apply elem_of_list_singleton in Ha as ->.
      rewrite decide_True by done. by apply triangle_right.
  - assert (j = 0) as -> by tauto. rewrite (parts_painted (sgn past) _ (λ s p, wedge (cget o i - cget s 0) (cget o 0) (rsgn past) r p)).
    + unfold k, t, x. rewrite Nat.add_0_r. split.
      * intros (s & Hs & Hp). apply shifts_in in Hs as (a & b & Ha & Hb & ->). destruct p. eauto.
      * intros (s & Hs & Hp). exists [s; 0%R]. split; [|by destruct p]. apply shifts_in. exists s, 0%R. eauto using shifts_zero.
    + apply sgn_ne.
    + apply shifts_ne.
    + intros s Hs. apply shifts_in in Hs as (a & b & Ha & Hb & ->). fold st in Hb. rewrite E0 in Hb. apply elem_of_list_singleton in Hb as ->.
      rewrite decide_True by done. by apply triangle_up.
Qed.
Lemma rsum_one a : rsum [a] = a.
Proof. unfold rsum. cbn. ring. Qed.
(** The cone on the plane of the time and the coordinate k. *)
Lemma in_cone_time dim period past o y k : length o = dim → length y = dim → 1 ≤ k < dim →
  (∀ m, 1 ≤ m → m ≠ k → cget y m = cget o m) →
  in_cone (Flat dim period) past o y ↔ (gap (Flat dim period) k o y <= sign past * (cget y 0 - cget o 0))%R.
Proof.
  intros Ho Hy Hk Hag. rewrite (in_cone_axes dim period past o y [k]); [|lia|done|done|apply NoDup_singleton|set_solver|set_solver].
  cbn [fmap list_fmap]. rewrite rsum_one. set (g := gap _ k o y). pose proof (gap_pos (Flat dim period) k o y) as Hg. fold g in Hg.
  set (d := (cget y 0 - cget o 0)%R). replace (d * d)%R with ((sign past * d) * (sign past * d))%R by (destruct past; cbn; ring).
  split.
  - intros [H1 H2]. by apply square_le.
  - intros H. split; [lra|]. apply square_le; lra.
Qed.
Lemma up_to_iff past ts o y : up_to past ts y ↔ (sign past * (cget y 0 - cget o 0) <= sign past * (ts - cget o 0))%R.
Proof. unfold up_to. destruct past; cbn; lra. Qed.
Lemma image_shift st m a b : image st m a b ↔ ∃ s, s ∈ axis_shifts (period_of st m) ∧ b = (a + s)%R.
Proof.
  unfold image, axis_shifts. destruct (decide _) as [H|H].
  - split.
    + intros [-> |[_ [-> | ->]]]; [exists 0%R|exists (- period_of st m)%R|exists (period_of st m)]; (split; [set_solver|ring]).
    + intros (s & Hs & ->). rewrite !elem_of_cons, elem_of_nil in Hs. destruct Hs as [-> |[-> |[-> |[]]]].
      * right. split; [done|]. left. ring.
      * left. ring.
      * right. split; [done|]. by right.
  - split.
    + intros [-> |[? _]]; [|done]. exists 0%R. split; [set_solver|ring].
    + intros (s & Hs & ->). apply elem_of_list_singleton in Hs as ->. left. ring.
Qed.

(** *** C80: 2D plots of cones in flat spacetime *)
(** With the time on one of the two axes, the patch paints exactly the cone up to the time
    slice, on the plane through the origin, at least up to one period from the origin. *)
Theorem C80_time_plane (junk : nat → point) dim period past alpha (n : Z) i j :
  let st := Flat dim period in
  constructed st → i < dim → j < dim → i ≠ j → i = 0 ∨ j = 0 →
  ∃ h, ConePlotter junk st [Z.of_nat i; Z.of_nat j] (sign past) alpha n = Ok h ∧
  ∀ o ts, length o = dim → ¬ not_drawn past alpha o ts →
  ∃ rows, h o ts = Ok (Some (opacity past alpha o ts, DPatch rows)) ∧
  ∀ p, let y := place o [(i, p.1); (j, p.2)] in one_period st o y →
    painted (Polygon rows) p ↔ in_cone st past o y ∧ up_to past ts y.
Proof.
  intros st Hst Hi Hj Hij H0. destruct (handle_two junk dim period past alpha n i j Hst Hi Hj Hij) as (h & Eh & Hh).
  exists h. split; [done|]. intros o ts Ho Hd. destruct (Hh o ts Ho) as [_ H]. destruct (H Hd) as [Hr E]. clear H Hh.
  eexists. split; [exact E|]. intros p y Hper. rewrite (painted_time dim period past o ts i j Hij H0 Hr junk n p). cbn zeta. set (k := i + j).
  assert (Hk : 1 ≤ k < dim) by (unfold k; lia).
  assert (Ly : length y = dim) by (unfold y; by rewrite place_length).
  assert (Ey0 : cget y 0 = if decide (i = 0) then p.1 else p.2).
  { unfold y. rewrite !place_cons by lia. destruct (decide (0 = i)), (decide (i = 0)), (decide (0 = j)); try done; lia. }
  assert (Eyk : cget y k = if decide (i = 0) then p.2 else p.1).
  { unfold y. rewrite !place_cons by lia. unfold k in *. destruct (decide (i + j = i)), (decide (i = 0)), (decide (i + j = j)); try done; lia. }
  unfold st in Hper |- *. fold st in Hper. rewrite (in_cone_time dim period past o y k Ho Ly Hk).
  - rewrite (up_to_iff past ts o y). rewrite <- Ey0, <- Eyk. unfold wedge. cbn [fst snd]. change (rsgn past) with (sign past).
    destruct (shift_gap (period_of st k) (cget o k) (cget y k)) as [(s & Hs & Es) Hall]; [apply Hper; lia|]. fold st. unfold gap.
    split.
    + intros (s' & Hs' & Hw & Ht). split; [|done]. specialize (Hall s' Hs'). lra.
    + intros [Hg Ht]. exists s. split; [done|]. rewrite Es. done.
  - intros m Hm Hmk. unfold y. rewrite !place_cons by lia. unfold k in *. destruct (decide (m = i)), (decide (m = j)); try done; lia.
Qed.
(** In general it paints the points with an image, at most one period away, in the cone of
    Minkowski spacetime. *)
Theorem C80_time_plane_images (junk : nat → point) dim period past alpha (n : Z) i j :
  let st := Flat dim period in
  constructed st → i < dim → j < dim → i ≠ j → i = 0 ∨ j = 0 →
  ∃ h, ConePlotter junk st [Z.of_nat i; Z.of_nat j] (sign past) alpha n = Ok h ∧
  ∀ o ts, length o = dim → ¬ not_drawn past alpha o ts →
  ∃ rows, h o ts = Ok (Some (opacity past alpha o ts, DPatch rows)) ∧
  ∀ p, painted (Polygon rows) p ↔
    ∃ q : point, image st i p.1 q.1 ∧ image st j p.2 q.2 ∧
      let y := place o [(i, q.1); (j, q.2)] in in_cone (Flat dim None) past o y ∧ up_to past ts y.
Proof.
  intros st Hst Hi Hj Hij H0. destruct (handle_two junk dim period past alpha n i j Hst Hi Hj Hij) as (h & Eh & Hh).
  exists h. split; [done|]. intros o ts Ho Hd. destruct (Hh o ts Ho) as [_ H]. destruct (H Hd) as [Hr E]. clear H Hh.
  eexists. split; [exact E|]. intros p. rewrite (painted_time dim period past o ts i j Hij H0 Hr junk n p). cbn zeta. set (k := i + j).
  assert (Hk : 1 ≤ k < dim) by (unfold k; lia).
  assert (HQ : ∀ q : point, let y := place o [(i, q.1); (j, q.2)] in in_cone (Flat dim None) past o y ∧ up_to past ts y ↔
     wedge (cget o k) (cget o 0) (rsgn past) (sign past * (ts - cget o 0)) (if decide (i = 0) then q.2 else q.1, if decide (i = 0) then q.1 else q.2)).
  { intros q y. assert (Ly : length y = dim) by (unfold y; by rewrite place_length).
    assert (Ey0 : cget y 0 = if decide (i = 0) then q.1 else q.2).
    { unfold y. rewrite !place_cons by lia. destruct (decide (0 = i)), (decide (i = 0)), (decide (0 = j)); try done; lia. }
    assert (Eyk : cget y k = if decide (i = 0) then q.2 else q.1).
    { unfold y. rewrite !place_cons by lia. unfold k in *. destruct (decide (i + j = i)), (decide (i = 0)), (decide (i + j = j)); try done; lia. }
    rewrite (in_cone_time dim None past o y k Ho Ly Hk).
    - rewrite (up_to_iff past ts o y). rewrite <- Ey0, <- Eyk. unfold wedge. cbn [fst snd]. change (rsgn past) with (sign past).
      unfold gap, circ, period_delta. assert (Ep : period_of (Flat dim None) k = 0%R) by (by destruct k). rewrite Ep, decide_False by lra. by rewrite Rabs_Rabsolu.
    - intros m Hm Hmk. unfold y. rewrite !place_cons by lia. unfold k in *. destruct (decide (m = i)), (decide (m = j)); try done; lia. }
  setoid_rewrite image_shift. setoid_rewrite HQ. clear HQ. unfold wedge. cbn [fst snd]. destruct (decide (i = 0)) as [Ei|Ei].
  - assert (Ek : k = j) by (unfold k; lia). rewrite Ek in *. subst i. split.
    + intros (s & Hs & Hw & Ht). exists (p.1, p.2 + s)%R. cbn [fst snd]. split; [exists 0%R; split; [apply shifts_zero|ring]|]. split; [eauto|].
      split; [|done]. replace (p.2 + s - cget o j)%R with (p.2 - (cget o j - s))%R by ring. done.
    + intros (q & (s0 & Hs0 & E0) & (s & Hs & E1) & Hw & Ht). assert (s0 = 0%R) as ->.
      { replace (period_of st 0) with 0%R in Hs0 by done. rewrite axis_shifts_0 in Hs0. by apply elem_of_list_singleton in Hs0. }
      rewrite E0, E1, Rplus_0_r in *. exists s. split; [done|]. replace (p.2 - (cget o j - s))%R with (p.2 + s - cget o j)%R by ring. done.
  - assert (j = 0) as -> by tauto. assert (Ek : k = i) by (unfold k; lia). rewrite Ek in *. split.
    + intros (s & Hs & Hw & Ht). exists (p.1 + s, p.2)%R. cbn [fst snd]. split; [eauto|]. split; [exists 0%R; split; [apply shifts_zero|ring]|].
      split; [|done]. replace (p.1 + s - cget o i)%R with (p.1 - (cget o i - s))%R by ring. done.
    + intros (q & (s & Hs & E1) & (s0 & Hs0 & E0) & Hw & Ht). assert (s0 = 0%R) as ->.
      { replace (period_of st 0) with 0%R in Hs0 by done. rewrite axis_shifts_0 in Hs0. by apply elem_of_list_singleton in Hs0. }
      rewrite E0, E1, Rplus_0_r in *. exists s. split; [done|]. replace (p.1 - (cget o i - s))%R with (p.1 + s - cget o i)%R by ring. done.
Qed.

(** ** 2D plots without a time axis *)
Lemma circle_paints junk c r (n : Z) : (3 <= n)%Z → (0 < r)%R →
  paints 1 (CircleEdge junk c r 0 n) (painted (Polygon (CircleEdge junk c r 0 n))).
Proof.
  intros Hn Hr p. split; [done|]. rewrite Z.mul_1_l. set (m := Z.to_nat n). assert (Hm : 3 ≤ m) by lia.
  unfold CircleEdge. rewrite decide_True by done. unfold sampling. rewrite decide_False by lia. fold m.
  rewrite arc_polygon by lia. by apply polygon_nonneg.
Qed.
Lemma in_cone_space dim period past o y i j : length o = dim → length y = dim → 1 ≤ i < dim → 1 ≤ j < dim → i ≠ j →
  (∀ m, 1 ≤ m → m ≠ i → m ≠ j → cget y m = cget o m) →
  in_cone (Flat dim period) past o y ↔
    (0 <= sign past * (cget y 0 - cget o 0))%R ∧
    (gap (Flat dim period) i o y * gap (Flat dim period) i o y + gap (Flat dim period) j o y * gap (Flat dim period) j o y
      <= (sign past * (cget y 0 - cget o 0)) * (sign past * (cget y 0 - cget o 0)))%R.
Proof.
  intros Ho Hy Hi Hj Hij Hag. rewrite (in_cone_axes dim period past o y [i; j]); [|lia|done|done| | |].
  - cbn [fmap list_fmap]. set (a := (gap _ i o y * _)%R). set (b := (gap _ j o y * _)%R).
    assert (E : rsum [a; b] = (a + b)%R) by (unfold rsum; cbn; ring). rewrite E. set (d := (cget y 0 - cget o 0)%R).
    replace ((sign past * d) * (sign past * d))%R with (d * d)%R by (destruct past; cbn; ring). done.
  - apply NoDup_cons. split; [rewrite elem_of_list_singleton; lia|apply NoDup_singleton].
  - intros k Hk. rewrite !elem_of_cons, elem_of_nil in Hk. destruct Hk as [-> |[-> |[]]]; done.
  - intros m Hm Hk. rewrite !elem_of_cons, elem_of_nil in Hk. apply Hag; [done|tauto|tauto].
Qed.
Lemma gap_None dim m o y : gap (Flat dim None) m o y = Rabs (cget y m - cget o m).
Proof. unfold gap, circ, period_delta. assert (E : period_of (Flat dim None) m = 0%R) by (by destruct m). rewrite E, decide_False by lra. apply Rabs_Rabsolu. Qed.
Lemma Rabs_sq x : (Rabs x * Rabs x)%R = (x * x)%R.
Proof. rewrite <- Rabs_mult. apply Rabs_pos_eq. apply Rle_0_sqr. Qed.
Lemma dist_lt a b c : (0 <= b)%R → (a <= b * b)%R → (0 <= a)%R → (b < c)%R → (sqrt a < c)%R.
Proof. intros Hb Ha H0 Hc. apply Rle_lt_trans with b; [|done]. apply sqrt_le_iff; done. Qed.
Lemma painted_space dim period past o ts i j (junk : nat → point) n p : 1 ≤ i → 1 ≤ j → 3 ≤ edge_count n →
  let r := (sign past * (ts - cget o 0))%R in (0 < r)%R →
  painted (Polygon (join ((λ s,
        if decide (i = 0 ∨ j = 0) then cone_triangle (if decide (i = 0) then 0%Z else 1%Z) [cget o i; cget o j] s r ts
        else CircleEdge junk (vsub [cget o i; cget o j] s) r 0 (Z.of_nat (sampling n))) <$>
        flat_map (λ x, (λ y, [x; y]) <$> axis_shifts (period_of (Flat dim period) j)) (axis_shifts (period_of (Flat dim period) i))))) p ↔
  ∃ a b, a ∈ axis_shifts (period_of (Flat dim period) i) ∧ b ∈ axis_shifts (period_of (Flat dim period) j) ∧
    painted (Polygon (CircleEdge junk [cget o i - a; cget o j - b]%R r 0 (Z.of_nat (edge_count n)))) p.
Proof.
  intros Hi Hj Hn r Hr. rewrite (parts_painted 1 _ (λ s, painted (Polygon (CircleEdge junk (vsub [cget o i; cget o j] s) r 0 (Z.of_nat (edge_count n)))))).
  - split.
    + intros (s & Hs & Hp). apply shifts_in in Hs as (a & b & Ha & Hb & ->). exists a, b. done.
    + intros (a & b & Ha & Hb & Hp). exists [a; b]. split; [|done]. apply shifts_in. eauto.
  - done.
  - apply shifts_ne.
  - intros s _. rewrite decide_False by lia. rewrite edge_count_sampling. apply circle_paints; [lia|done].
Qed.
(** Without the time on an axis, the patch shows the cone at the time slice: the disc (or its
    images) is drawn as a polygon, which lies in the cone and covers all points that were
    reached when the radius was cos(pi / n) times the final radius. *)
Theorem C80_space_plane (junk : nat → point) dim period past alpha (n : Z) i j :
  let st := Flat dim period in
  constructed st → 1 ≤ i < dim → 1 ≤ j < dim → i ≠ j → 3 ≤ edge_count n →
  ∃ h, ConePlotter junk st [Z.of_nat i; Z.of_nat j] (sign past) alpha n = Ok h ∧
  ∀ o ts, length o = dim → ¬ not_drawn past alpha o ts →
  ∃ rows, h o ts = Ok (Some (opacity past alpha o ts, DPatch rows)) ∧
  ∀ p : point, let at_time t := place o [(0, t); (i, p.1); (j, p.2)] in one_period st o (at_time ts) →
    (painted (Polygon rows) p → in_cone st past o (at_time ts)) ∧
    (∀ t, (sign past * (t - cget o 0) < cos (PI / INR (edge_count n)) * (sign past * (ts - cget o 0)))%R →
       in_cone st past o (at_time t) → painted (Polygon rows) p).
Proof.
  intros st Hst Hi Hj Hij Hn. destruct (handle_two junk dim period past alpha n i j Hst) as (h & Eh & Hh); [lia|lia|done|].
  exists h. split; [done|]. intros o ts Ho Hd. destruct (Hh o ts Ho) as [_ H]. destruct (H Hd) as [Hr E]. clear H Hh.
  eexists. split; [exact E|]. intros p at_time Hper. pose proof (painted_space dim period past o ts i j junk n p ltac:(lia) ltac:(lia) Hn Hr) as HP. cbn zeta in HP.
  match type of HP with ?A ↔ _ => set (painting := A) in * end. fold st in HP. set (r := (sign past * (ts - cget o 0))%R) in *.
  assert (La : ∀ t, length (at_time t) = dim) by (intros t; unfold at_time; by rewrite place_length).
  assert (Ea : ∀ t m, cget (at_time t) m = if decide (m = 0) then t else if decide (m = i) then p.1 else if decide (m = j) then p.2 else cget o m).
  { intros t m. unfold at_time. rewrite !place_cons by lia. done. }
  assert (HC : ∀ t, in_cone st past o (at_time t) ↔ (0 <= sign past * (t - cget o 0))%R ∧
    (circ (period_of st i) (cget o i) p.1 * circ (period_of st i) (cget o i) p.1 + circ (period_of st j) (cget o j) p.2 * circ (period_of st j) (cget o j) p.2
      <= (sign past * (t - cget o 0)) * (sign past * (t - cget o 0)))%R).
  { intros t. unfold st. rewrite (in_cone_space dim period past o (at_time t) i j); [|done|done|lia|lia|done|].
    - unfold gap. rewrite !Ea. destruct (decide (0 = 0)) as [_|?]; [|done]. destruct (decide (i = 0)), (decide (j = 0)); try lia.
      destruct (decide (i = i)) as [_|]; [|done]. destruct (decide (j = i)); [lia|]. destruct (decide (j = j)) as [_|]; [|done]. done.
    - intros m Hm Hmi Hmj. rewrite Ea. destruct (decide (m = 0)), (decide (m = i)), (decide (m = j)); try done; lia. }
  destruct (shift_gap (period_of st i) (cget o i) p.1) as [(a0 & Ha0 & Ea0) Halla].
  { intros Hp. specialize (Hper i ltac:(lia) Hp). rewrite Ea in Hper. destruct (decide (i = 0)); [lia|]. destruct (decide (i = i)); [|done]. done. }
  destruct (shift_gap (period_of st j) (cget o j) p.2) as [(b0 & Hb0 & Eb0) Hallb].
  { intros Hp. specialize (Hper j ltac:(lia) Hp). rewrite Ea in Hper. destruct (decide (j = 0)); [lia|]. destruct (decide (j = i)); [lia|]. destruct (decide (j = j)); [|done]. done. }
  assert (HK : (PI / IZR (Z.of_nat (edge_count n)))%R = (PI / INR (edge_count n))%R) by (by rewrite INR_IZR_INZ).
  set (gi := circ (period_of st i) (cget o i) p.1) in *. set (gj := circ (period_of st j) (cget o j) p.2) in *.
  assert (Gi : (0 <= gi)%R) by apply Rabs_pos. assert (Gj : (0 <= gj)%R) by apply Rabs_pos. split.
  - intros Hpt. apply HP in Hpt as (a & b & Ha & Hb & Hp). apply HC. split; [unfold r in Hr; lra|]. fold r.
    destruct (circle_painted junk [cget o i - a; cget o j - b]%R r (Z.of_nat (edge_count n)) p) as [H1 _]; [lia|done|]. specialize (H1 Hp).
    apply sqrt_le_iff in H1; [|unfold sqdist; apply Rplus_le_le_0_compat; apply Rle_0_sqr|lra]. unfold sqdist, cget in H1. cbn [fst snd nth] in H1. fold (cget o i) (cget o j) in H1.
    specialize (Halla a Ha). specialize (Hallb b Hb). rewrite <- (Rabs_sq (p.1 - _)), <- (Rabs_sq (p.2 - _)) in H1.
    pose proof (Rmult_le_compat gi _ gi _ Gi Gi Halla Halla). pose proof (Rmult_le_compat gj _ gj _ Gj Gj Hallb Hallb). lra.
  - intros t Ht Hc. apply HC in Hc as [Ht0 Hc]. apply HP. exists a0, b0. split; [done|]. split; [done|].
    destruct (circle_painted junk [cget o i - a0; cget o j - b0]%R r (Z.of_nat (edge_count n)) p) as [_ H1]; [lia|done|]. apply H1. clear H1.
    rewrite HK, Rmult_comm. apply (dist_lt _ (sign past * (t - cget o 0))%R); [done| | |done].
    + unfold sqdist, cget. cbn [fst snd nth]. fold (cget o i) (cget o j). rewrite <- (Rabs_sq (p.1 - _)), <- (Rabs_sq (p.2 - _)), Ea0, Eb0. done.
    + unfold sqdist. apply Rplus_le_le_0_compat; apply Rle_0_sqr.
Qed.

(** ** 3D plots *)
Lemma edge_count_pos n : 1 ≤ edge_count n.
Proof. unfold edge_count. case_decide; lia. Qed.
Lemma shifts_three dim period i j k : constructed (Flat dim period) → i < dim → j < dim → k < dim → i ≠ j → i ≠ k → j ≠ k →
  cone_shifts period [Z.of_nat i; Z.of_nat j; Z.of_nat k] =
    Ok (flat_map (λ x, flat_map (λ y, (λ z, [x; y; z]) <$> axis_shifts (period_of (Flat dim period) k)) (axis_shifts (period_of (Flat dim period) j)))
          (axis_shifts (period_of (Flat dim period) i))).
Proof.
  intros Hst Hi Hj Hk Hij Hik Hjk. apply Flat_constructed in Hst as [Hd Hl]. unfold cone_shifts. destruct period as [ps|].
  - specialize (Hl ps eq_refl). rewrite time_axis_three by done.
    rewrite (period_at_per dim ps _ 0 _ i), (period_at_per dim ps _ 1 _ j), (period_at_per dim ps _ 2 _ k); try done;
      destruct (decide (i = 0)), (decide (j = 0)), (decide (k = 0)); lia.
  - unfold is3d. rewrite bool_decide_true by done.
    assert (E : ∀ m, axis_shifts (period_of (Flat dim None) m) = [0%R]) by (intros [|m]; apply axis_shifts_0).
    rewrite !E. done.
Qed.
Lemma handle_three junk dim period past alpha n i j k : constructed (Flat dim period) → i < dim → j < dim → k < dim → i ≠ j → i ≠ k → j ≠ k →
  ∃ h, ConePlotter junk (Flat dim period) [Z.of_nat i; Z.of_nat j; Z.of_nat k] (sign past) alpha n = Ok h ∧
  ∀ o ts, length o = dim →
    (not_drawn past alpha o ts → h o ts = Ok None) ∧
    (¬ not_drawn past alpha o ts →
      let r := (sign past * (ts - cget o 0))%R in (0 < r)%R ∧
      let z := if decide (i = 0) then 0%Z else if decide (j = 0) then 1%Z else if decide (k = 0) then 2%Z else (-1)%Z in
      h o ts = Ok (Some (opacity past alpha o ts, DSurfaces (flat_map (λ s,
        if decide (z < 0)%Z then BallSurface (vsub [cget o i; cget o j; cget o k] s) r (Z.of_nat (edge_count n))
        else OpenConeSurface (vsub [cget o i; cget o j; cget o k] s) r (sign past * r) z (Z.of_nat (edge_count n)))
        (flat_map (λ x, flat_map (λ y, (λ z, [x; y; z]) <$> axis_shifts (period_of (Flat dim period) k)) (axis_shifts (period_of (Flat dim period) j)))
          (axis_shifts (period_of (Flat dim period) i))))))).
Proof.
  intros Hst Hi Hj Hk Hij Hik Hjk. eexists. split.
  { unfold ConePlotter. rewrite (shifts_three dim) by done. reflexivity. }
  intros o ts Ho. unfold flat_cone. destruct (cone_start_spec past alpha o ts) as [H1 H2]. split.
  - intros H. by rewrite H1.
  - intros H. destruct (H2 H) as [E Hr]. rewrite E. cbn zeta. split; [done|]. rewrite take_three by lia. cbn [res_bind].
    unfold is3d. rewrite bool_decide_true by done. rewrite time_axis_three by done. rewrite edge_count_sampling. done.
Qed.
Lemma shifts_in3 K1 K2 K3 s :
  s ∈ flat_map (λ x, flat_map (λ y, (λ z, [x; y; z]) <$> axis_shifts K3) (axis_shifts K2)) (axis_shifts K1) ↔
  ∃ x y z, x ∈ axis_shifts K1 ∧ y ∈ axis_shifts K2 ∧ z ∈ axis_shifts K3 ∧ s = [x; y; z].
Proof.
  rewrite elem_of_list_In, in_flat_map. setoid_rewrite in_flat_map. setoid_rewrite <- elem_of_list_In. setoid_rewrite elem_of_list_fmap.
  clear. firstorder; subst; eauto 12.
Qed.
Lemma in_flat {A B} (f : A → list B) (l : list A) x : x ∈ flat_map f l ↔ ∃ s, s ∈ l ∧ x ∈ f s.
Proof. rewrite elem_of_list_In, in_flat_map. setoid_rewrite <- elem_of_list_In. done. Qed.

(** *** One cone and one sphere *)
Definition on_cone (past : bool) (r c0 c1 c2 : R) (q : point3) : Prop :=
  (0 <= sign past * (q.2 - c2) <= r)%R ∧ N2 (q.1.1 - c0) (q.1.2 - c1) = (sign past * (q.2 - c2))%R.
Lemma sign_sq past x : (sign past * (sign past * x))%R = x.
Proof. destruct past; cbn; ring. Qed.
Lemma cone_draws past r c0 c1 c2 N : (0 < r)%R → 1 ≤ N →
  let F := revolved [0; 1]%R [0; 1]%R r (sign past * r) N c0 c1 c2 in
  (∀ a b, a < (grid F).1 → b < (grid F).2 → on_cone past r c0 c1 c2 (node F a b)) ∧
  (∀ q, on_cone past r c0 c1 c2 q → ∃ q', on_surface F q' ∧ close (r * (2 * PI / INR N)) q q').
Proof.
  intros Hr HN F. split.
  - intros a b. unfold F. rewrite revolved_grid by (done || (cbn; lia)). cbn [fst snd length]. intros Ha Hb.
    rewrite revolved_node by (done || (cbn; lia)). unfold on_cone. cbv zeta. cbn [fst snd].
    set (k := nth a [0; 1]%R 0%R). assert (Hk : (0 <= k <= 1)%R) by (unfold k; destruct a as [|[|a]]; cbn; lra || lia).
    replace (sign past * (k * (sign past * r) + c2 - c2))%R with (k * r)%R by (destruct past; cbn; ring).
    split; [nra|]. rewrite <- (Rabs_pos_eq (k * r)) by nra. rewrite <- (N2_circle (2 * PI * INR b / INR N) (k * r)). f_equal; ring.
  - intros q [Hq EN]. set (rho := (sign past * (q.2 - c2))%R) in *.
    destruct (revolved_point [0; 1]%R [0; 1]%R r (sign past * r) N c0 c1 c2 0 (rho / r) rho q) as (q' & H1 & H2).
    + done.
    + cbn; lia.
    + done.
    + apply unit_pos; lra.
    + lra.
    + cbn [nth]. field. lra.
    + done.
    + cbn [nth]. replace (((1 - rho / r) * 0 + rho / r * 1) * (sign past * r))%R with (sign past * rho)%R by (field; lra). unfold rho. by rewrite sign_sq.
    + exists q'. split; [done|]. eapply close_mono; [|done]. apply Rmult_le_compat_r; [|lra]. pose proof PI_RGT_0. apply Rmult_le_pos; [lra|].
      left. apply Rinv_0_lt_compat. apply lt_0_INR. lia.
Qed.
Lemma sphere_draws r c0 c1 c2 N : (0 < r)%R → 3 ≤ N →
  let F := sphere N (round_half (S N)) r c0 c1 c2 in
  (∀ a b, a < (grid F).1 → b < (grid F).2 → let q := node F a b in N3 (q.1.1 - c0) (q.1.2 - c1) (q.2 - c2) = r) ∧
  (∀ q, N3 (q.1.1 - c0) (q.1.2 - c1) (q.2 - c2) = r → ∃ q', on_surface F q' ∧ close (r * (2 * PI / INR N + 2 * PI / (INR N - 2))) q q').
Proof.
  intros Hr HN F. assert (Hm : N ≤ 2 * round_half (S N)).
  { unfold round_half. pose proof (Nat.div_mod_eq (S N) 4). pose proof (Nat.div_mod_eq (S N) 2). 
      pose proof (Nat.mod_upper_bound (S N) 2). pose proof (Nat.mod_upper_bound (S N) 4). case_decide; lia. }
  split.
  - intros a b. unfold F. rewrite sphere_grid. cbn [fst snd]. intros Ha Hb. rewrite sphere_node by lia. cbv zeta. cbn [fst snd].
    transitivity (Rabs r); [|apply Rabs_right; lra].
    rewrite <- (N3_sphere (2 * PI * INR a / INR N) (PI * INR b / INR (round_half (S N) - 1)) r). f_equal; ring.
  - intros q E. destruct (sphere_point N (round_half (S N)) r c0 c1 c2 q) as (q' & H1 & H2); [lia|lia|lra|done|].
    exists q'. split; [done|]. eapply close_mono; [|done]. apply Rmult_le_compat_l; [lra|]. apply Rplus_le_compat_l.
    assert (HI : (INR N - 2 <= 2 * INR (round_half (S N) - 1))%R).
    { rewrite minus_INR by lia. apply le_INR in Hm. rewrite mult_INR in Hm. change (INR 1) with 1%R. change (INR 2) with 2%R in Hm. lra. }
    assert (H3 : (3 <= INR N)%R) by (apply le_INR in HN; change (INR 3) with (1 + 1 + 1)%R in HN; lra). pose proof PI_RGT_0.
    set (m := INR (round_half (S N) - 1)) in *. set (x := INR N) in *.
    apply Rmult_le_reg_r with (m * (x - 2))%R; [apply Rmult_lt_0_compat; lra|].
    replace (PI / m * (m * (x - 2)))%R with (PI * (x - 2))%R by (field; lra). replace (2 * PI / (x - 2) * (m * (x - 2)))%R with (PI * (2 * m))%R by (field; lra).
    apply Rmult_le_compat_l; lra.
Qed.

(** *** The light cone in the coordinates of the plot *)
Lemma on_light_axes dim past o y (ks : list nat) : length y = dim → NoDup ks → (∀ k, k ∈ ks → 1 ≤ k < dim) →
  (∀ m, 1 ≤ m → m ∉ ks → cget y m = cget o m) →
  on_light_cone dim past o y ↔
  (0 <= sign past * (cget y 0 - cget o 0))%R ∧
  sqrt (rsum ((λ m, (cget y m - cget o m) * (cget y m - cget o m))%R <$> ks)) = (sign past * (cget y 0 - cget o 0))%R.
Proof.
  intros Hy Hnd Hks Hag. unfold on_light_cone. rewrite (rsum_support ks); [|apply NoDup_seq|done| |].
  - set (S0 := rsum _). set (d := (cget y 0 - cget o 0)%R).
    replace (d * d)%R with ((sign past * d) * (sign past * d))%R by (destruct past; cbn; ring). split.
    + intros [H1 H2]. split; [done|]. rewrite H2. by apply sqrt_square.
    + intros [H1 H2]. split; [done|]. rewrite <- H2. symmetry. apply sqrt_sqrt.
      unfold S0. clear. induction ks as [|k ks IH]; [unfold rsum; cbn; lra|]. cbn [fmap list_fmap]. rewrite rsum_cons. pose proof (Rle_0_sqr (cget y k - cget o k)) as H. unfold Rsqr in H. lra.
  - intros k Hk. apply elem_of_seq. specialize (Hks k Hk). lia.
  - intros k Hk Hn. apply elem_of_seq in Hk. rewrite Hag; [ring|lia|done].
Qed.
Lemma draws_flat {A} (f : A → surface) (l : list A) (B : A → point3 → Prop) (Fs : list surface) (C : point3 → Prop) tol :
  (∀ F, F ∈ Fs ↔ ∃ s, s ∈ l ∧ F = f s) →
  (∀ s, s ∈ l → (∀ a b, a < (grid (f s)).1 → b < (grid (f s)).2 → B s (node (f s) a b)) ∧
     (∀ q, B s q → ∃ q', on_surface (f s) q' ∧ close tol q q')) →
  (∀ q, C q ↔ ∃ s, s ∈ l ∧ B s q) → draws Fs C tol.
Proof.
  intros HF HB HC. split.
  - intros F a b (s & Hs & ->)%HF Ha Hb. apply HC. exists s. split; [done|]. by apply HB.
  - intros q (s & Hs & Hq)%HC. destruct (HB s Hs) as [_ H2]. destruct (H2 q Hq) as (q' & ? & ?). exists (f s), q'. split; [apply HF; eauto|done].
Qed.

(** *** C81: 3D plots of cones in flat spacetime *)
(** With the time on the third axis, the surfaces show the light cone (and its images) from
    the origin to the time slice; the number of edges of the circles is [edge_count n]. *)
Theorem C81_time_last (junk : nat → point) dim period past alpha (n : Z) i j :
  let st := Flat dim period in
  constructed st → 1 ≤ i < dim → 1 ≤ j < dim → i ≠ j →
  ∃ h, ConePlotter junk st [Z.of_nat i; Z.of_nat j; 0%Z] (sign past) alpha n = Ok h ∧
  ∀ o ts, length o = dim → ¬ not_drawn past alpha o ts →
  ∃ Fs, h o ts = Ok (Some (opacity past alpha o ts, DSurfaces Fs)) ∧
    draws Fs (λ q, ∃ q' : point3, image st i q.1.1 q'.1.1 ∧ image st j q.1.2 q'.1.2 ∧ q'.2 = q.2 ∧
        let y := place o [(i, q'.1.1); (j, q'.1.2); (0, q'.2)] in on_light_cone dim past o y ∧ up_to past ts y)
      (Rabs (ts - cget o 0) * (2 * PI / INR (edge_count n))).
Proof.
  intros st Hst Hi Hj Hij.
  destruct (handle_three junk dim period past alpha n i j 0 Hst) as (h & Eh & Hh); [lia..|].
  exists h. split; [done|]. intros o ts Ho Hd. destruct (Hh o ts Ho) as [_ H]. destruct (H Hd) as [Hr E]. clear H Hh.
  rewrite (decide_False (P := i = 0)), (decide_False (P := j = 0)) in E by lia. rewrite (decide_True (P := 0 = 0)) in E by done.
  cbv zeta in E. destruct (decide (2 < 0)%Z) as [Hbad|_]; [lia|]. eexists. split; [exact E|]. fold st.
  set (r := (sign past * (ts - cget o 0))%R) in *.
  assert (Er : Rabs (ts - cget o 0) = r).
  { unfold r in *. destruct past; cbn [sign] in *; destruct (Rabs_cases (ts - cget o 0)) as [[? ->]|[? ->]]; lra. }
  rewrite Er. assert (HN : 1 ≤ edge_count n) by apply edge_count_pos.
  assert (E0 : axis_shifts (period_of st 0) = [0%R]) by apply axis_shifts_0.
  apply (draws_flat (λ s, revolved [0; 1]%R [0; 1]%R r (sign past * r) (edge_count n) (cget o i - cget s 0) (cget o j - cget s 1) (cget o 0))
    (flat_map (λ x, flat_map (λ y, (λ z, [x; y; z]) <$> axis_shifts (period_of st 0)) (axis_shifts (period_of st j))) (axis_shifts (period_of st i)))
    (λ s, on_cone past r (cget o i - cget s 0) (cget o j - cget s 1) (cget o 0))).
  - intros F. rewrite in_flat. assert (HF : ∀ s, s ∈ (flat_map (λ x, flat_map (λ y, (λ z, [x; y; z]) <$> axis_shifts (period_of st 0)) (axis_shifts (period_of st j))) (axis_shifts (period_of st i))) →
      OpenConeSurface (vsub [cget o i; cget o j; cget o 0] s) r (sign past * r) 2 (Z.of_nat (edge_count n)) =
        [revolved [0; 1]%R [0; 1]%R r (sign past * r) (edge_count n) (cget o i - cget s 0) (cget o j - cget s 1) (cget o 0)]).
    { intros s Hs. apply shifts_in3 in Hs as (x & y & z & Hx & Hy & Hz & ->). rewrite E0 in Hz. apply elem_of_list_singleton in Hz as ->.
      unfold OpenConeSurface. rewrite rotate_2. unfold sampling. rewrite decide_False by lia. rewrite Nat2Z.id.
      unfold vsub. cbn [zip_with cget nth]. unfold cget. cbn [nth]. rewrite Rminus_0_r. done. }
    split; intros (s & Hs & H).
    + exists s. split; [done|]. rewrite HF in H by done. by apply elem_of_list_singleton in H.
    + exists s. split; [done|]. rewrite HF by done. by apply elem_of_list_singleton.
  - intros s Hs. by apply cone_draws.
  - intros q.
    assert (HQ : ∀ q' : point3, let y := place o [(i, q'.1.1); (j, q'.1.2); (0, q'.2)] in
      on_light_cone dim past o y ∧ up_to past ts y ↔ on_cone past r (cget o i) (cget o j) (cget o 0) q').
    { intros q' y. assert (Ey : ∀ m, cget y m = if decide (m = i) then q'.1.1 else if decide (m = j) then q'.1.2 else if decide (m = 0) then q'.2 else cget o m).
      { intros m. unfold y. rewrite !place_cons by lia. done. }
      assert (Ey0 : cget y 0 = q'.2). { rewrite Ey. repeat (case_decide; try lia). done. }
      rewrite (on_light_axes dim past o y [i; j]).
      - rewrite (up_to_iff past ts o y). cbn [fmap list_fmap]. assert (Es : ∀ a b, rsum [a; b] = (a + b)%R) by (intros; unfold rsum; cbn; ring). rewrite Es.
        rewrite Ey0, !Ey. rewrite (decide_True (P := i = i)), (decide_False (P := j = i)), (decide_True (P := j = j)) by done.
        unfold on_cone, N2. fold r. clear. tauto.
      - unfold y. by rewrite place_length.
      - apply NoDup_cons. split; [rewrite elem_of_list_singleton; lia|apply NoDup_singleton].
      - intros m Hm. rewrite !elem_of_cons, elem_of_nil in Hm. destruct Hm as [-> |[-> |[]]]; done.
      - intros m Hm Hn. rewrite !elem_of_cons, elem_of_nil in Hn. rewrite Ey. rewrite !decide_False by first [tauto|lia]. done. }
    setoid_rewrite HQ. setoid_rewrite image_shift. unfold on_cone. split.
    + intros ([[x y] z] & (a & Ha & Ea) & (b & Hb & Eb) & Ez & H1 & H2). cbn [fst snd] in *. exists [a; b; 0%R]. split; [apply shifts_in3; exists a, b, 0%R; eauto using shifts_zero|].
      unfold cget. cbn [nth]. fold (cget o i) (cget o j) (cget o 0). rewrite Ez, Ea, Eb in *. split; [done|]. rewrite <- H2. f_equal; ring.
    + intros (s & Hs & H1 & H2). apply shifts_in3 in Hs as (a & b & c & Ha & Hb & Hc & ->). exists (q.1.1 + a, q.1.2 + b, q.2)%R. cbn [fst snd].
      split; [eauto|]. split; [eauto|]. split; [done|]. split; [done|]. rewrite <- H2. unfold cget. cbn [nth]. fold (cget o i) (cget o j). f_equal; ring.
Qed.
(** Without the time, they show the points reached by light at the time slice. *)
Theorem C81_space (junk : nat → point) dim period past alpha (n : Z) i j k :
  let st := Flat dim period in
  constructed st → 1 ≤ i < dim → 1 ≤ j < dim → 1 ≤ k < dim → i ≠ j → i ≠ k → j ≠ k → 3 ≤ edge_count n →
  ∃ h, ConePlotter junk st [Z.of_nat i; Z.of_nat j; Z.of_nat k] (sign past) alpha n = Ok h ∧
  ∀ o ts, length o = dim → ¬ not_drawn past alpha o ts →
  ∃ Fs, h o ts = Ok (Some (opacity past alpha o ts, DSurfaces Fs)) ∧
    draws Fs (λ q, ∃ q' : point3, image st i q.1.1 q'.1.1 ∧ image st j q.1.2 q'.1.2 ∧ image st k q.2 q'.2 ∧
        on_light_cone dim past o (place o [(0, ts); (i, q'.1.1); (j, q'.1.2); (k, q'.2)]))
      (Rabs (ts - cget o 0) * (2 * PI / INR (edge_count n) + 2 * PI / (INR (edge_count n) - 2))).
Proof.
  intros st Hst Hi Hj Hk Hij Hik Hjk HN.
  destruct (handle_three junk dim period past alpha n i j k Hst) as (h & Eh & Hh); [lia..|].
  exists h. split; [done|]. intros o ts Ho Hd. destruct (Hh o ts Ho) as [_ H]. destruct (H Hd) as [Hr E]. clear H Hh.
  rewrite (decide_False (P := i = 0)), (decide_False (P := j = 0)), (decide_False (P := k = 0)) in E by lia.
  cbv zeta in E. destruct (decide (-1 < 0)%Z) as [_|Hbad]; [|lia]. eexists. split; [exact E|]. fold st.
  set (r := (sign past * (ts - cget o 0))%R) in *.
  assert (Er : Rabs (ts - cget o 0) = r).
  { unfold r in *. destruct past; cbn [sign] in *; destruct (Rabs_cases (ts - cget o 0)) as [[? ->]|[? ->]]; lra. }
  rewrite Er. set (N := edge_count n) in *.
  apply (draws_flat (λ s, sphere N (round_half (S N)) r (cget o i - cget s 0) (cget o j - cget s 1) (cget o k - cget s 2))
    (flat_map (λ x, flat_map (λ y, (λ z, [x; y; z]) <$> axis_shifts (period_of st k)) (axis_shifts (period_of st j))) (axis_shifts (period_of st i)))
    (λ s q, N3 (q.1.1 - (cget o i - cget s 0)) (q.1.2 - (cget o j - cget s 1)) (q.2 - (cget o k - cget s 2)) = r)).
  - intros F. rewrite in_flat. assert (HF : ∀ s, s ∈ (flat_map (λ x, flat_map (λ y, (λ z, [x; y; z]) <$> axis_shifts (period_of st k)) (axis_shifts (period_of st j))) (axis_shifts (period_of st i))) →
      BallSurface (vsub [cget o i; cget o j; cget o k] s) r (Z.of_nat N) =
        [sphere N (round_half (S N)) r (cget o i - cget s 0) (cget o j - cget s 1) (cget o k - cget s 2)]).
    { intros s Hs. apply shifts_in3 in Hs as (x & y & z & Hx & Hy & Hz & ->).
      unfold BallSurface. unfold sampling. rewrite decide_False by lia. rewrite Nat2Z.id. done. }
    split; intros (s & Hs & H).
    + exists s. split; [done|]. rewrite HF in H by done. by apply elem_of_list_singleton in H.
    + exists s. split; [done|]. rewrite HF by done. by apply elem_of_list_singleton.
  - intros s Hs. by apply sphere_draws.
  - intros q.
    assert (HQ : ∀ q' : point3, on_light_cone dim past o (place o [(0, ts); (i, q'.1.1); (j, q'.1.2); (k, q'.2)]) ↔
       N3 (q'.1.1 - cget o i) (q'.1.2 - cget o j) (q'.2 - cget o k) = r).
    { intros q'. set (y := place o [(0, ts); (i, q'.1.1); (j, q'.1.2); (k, q'.2)]).
      assert (Ey : ∀ m, cget y m = if decide (m = 0) then ts else if decide (m = i) then q'.1.1 else if decide (m = j) then q'.1.2 else if decide (m = k) then q'.2 else cget o m).
      { intros m. unfold y. rewrite !place_cons by lia. done. }
      assert (Ey0 : cget y 0 = ts). { rewrite Ey. done. }
      rewrite (on_light_axes dim past o y [i; j; k]).
      - cbn [fmap list_fmap]. assert (Es : ∀ a b c, rsum [a; b; c] = (a + b + c)%R) by (intros; unfold rsum; cbn; ring). rewrite Es.
        rewrite Ey0, !Ey. rewrite (decide_True (P := i = i)), (decide_True (P := j = j)), (decide_True (P := k = k)) by done.
        rewrite (decide_False (P := i = 0)), (decide_False (P := j = 0)), (decide_False (P := k = 0)), (decide_False (P := j = i)), (decide_False (P := k = i)), (decide_False (P := k = j)) by lia.
        unfold N3. fold r. split; [tauto|]. intros HE. split; [lra|done].
      - unfold y. by rewrite place_length.
      - apply NoDup_cons. split; [rewrite !elem_of_cons, elem_of_nil; tauto|]. apply NoDup_cons. split; [rewrite !elem_of_cons, elem_of_nil; tauto|apply NoDup_singleton].
      - intros m Hm. rewrite !elem_of_cons, elem_of_nil in Hm. destruct Hm as [-> |[-> |[-> |[]]]]; done.
      - intros m Hm Hn. rewrite !elem_of_cons, elem_of_nil in Hn. rewrite Ey. rewrite !decide_False by first [tauto|lia]. done. }
    setoid_rewrite HQ. setoid_rewrite image_shift. split.
    + intros ([[x y] z] & (a & Ha & Ea) & (b & Hb & Eb) & (c & Hc & Ec) & H2). cbn [fst snd] in *. exists [a; b; c]. split; [apply shifts_in3; eauto 10|].
      unfold cget. cbn [nth]. fold (cget o i) (cget o j) (cget o k). rewrite Ea, Eb, Ec in *. rewrite <- H2. f_equal; ring.
    + intros (s & Hs & H2). apply shifts_in3 in Hs as (a & b & c & Ha & Hb & Hc & ->). exists (q.1.1 + a, q.1.2 + b, q.2 + c)%R. cbn [fst snd].
      split; [eauto|]. split; [eauto|]. split; [eauto|]. rewrite <- H2. unfold cget. cbn [nth]. fold (cget o i) (cget o j) (cget o k). f_equal; ring.
Qed.
(** With the time on the first or second axis (and no periods), the cone is displaced: its tip
    is at the cyclically permuted coordinates of the origin. *)
Theorem C81_time_first (junk : nat → point) dim past alpha (n : Z) i j k :
  let st := Flat dim None in
  constructed st → i < dim → j < dim → 1 ≤ k < dim → i ≠ j → i ≠ k → j ≠ k → i = 0 ∨ j = 0 →
  ∃ h, ConePlotter junk st [Z.of_nat i; Z.of_nat j; Z.of_nat k] (sign past) alpha n = Ok h ∧
  ∀ o ts, length o = dim → ¬ not_drawn past alpha o ts →
  let d := if decide (i = 0) then (cget o i - cget o k, cget o j - cget o i, cget o k - cget o j)%R
           else (cget o i - cget o j, cget o j - cget o k, cget o k - cget o i)%R in
  ∃ Fs, h o ts = Ok (Some (opacity past alpha o ts, DSurfaces Fs)) ∧
    draws Fs (λ q, let q' := shift d q in
        let y := place o [(i, q'.1.1); (j, q'.1.2); (k, q'.2)] in on_light_cone dim past o y ∧ up_to past ts y)
      (Rabs (ts - cget o 0) * (2 * PI / INR (edge_count n))).
Proof.
  intros st Hst Hi Hj Hk Hij Hik Hjk H0.
  destruct (handle_three junk dim None past alpha n i j k Hst) as (h & Eh & Hh); [lia..|].
  exists h. split; [done|]. intros o ts Ho Hd d. destruct (Hh o ts Ho) as [_ H]. destruct (H Hd) as [Hr E]. clear H Hh.
  set (r := (sign past * (ts - cget o 0))%R) in *.
  assert (Er : Rabs (ts - cget o 0) = r).
  { unfold r in *. destruct past; cbn [sign] in *; destruct (Rabs_cases (ts - cget o 0)) as [[? ->]|[? ->]]; lra. }
  rewrite Er. assert (HN : 1 ≤ edge_count n) by apply edge_count_pos.
  assert (E0 : ∀ m, axis_shifts (period_of (Flat dim None) m) = [0%R]) by (intros [|m]; apply axis_shifts_0). rewrite !E0 in E. cbn [flat_map fmap list_fmap app] in E.
  set (F := revolved [0; 1]%R [0; 1]%R r (sign past * r) (edge_count n) (cget o i) (cget o j) (cget o k)).
  assert (ER : ∀ z, OpenConeSurface (vsub [cget o i; cget o j; cget o k] [0; 0; 0]%R) r (sign past * r) z (Z.of_nat (edge_count n)) = [rotate z F]).
  { intros z. unfold OpenConeSurface. unfold sampling. rewrite decide_False by lia. rewrite Nat2Z.id.
    unfold vsub. cbn [zip_with]. unfold cget. cbn [nth]. rewrite !Rminus_0_r. done. }
  destruct (cone_draws past r (cget o i) (cget o j) (cget o k) (edge_count n) Hr HN) as [D1 D2]. fold F in D1, D2.
  assert (HQ : ∀ q' : point3, let y := place o [(i, q'.1.1); (j, q'.1.2); (k, q'.2)] in
     on_light_cone dim past o y ∧ up_to past ts y ↔
     if decide (i = 0) then on_cone past r (cget o j) (cget o k) (cget o i) (q'.1.2, q'.2, q'.1.1) else on_cone past r (cget o k) (cget o i) (cget o j) (q'.2, q'.1.1, q'.1.2)).
  { intros q' y. assert (Ey : ∀ m, cget y m = if decide (m = i) then q'.1.1 else if decide (m = j) then q'.1.2 else if decide (m = k) then q'.2 else cget o m).
    { intros m. unfold y. rewrite !place_cons by lia. done. }
    assert (Ei : cget y i = q'.1.1) by (rewrite Ey; by rewrite decide_True).
    assert (Ej : cget y j = q'.1.2) by (rewrite Ey; rewrite decide_False by done; by rewrite decide_True).
    assert (Ek : cget y k = q'.2) by (rewrite Ey; rewrite !decide_False by done; by rewrite decide_True).
    assert (Es : ∀ a b, rsum [a; b] = (a + b)%R) by (intros; unfold rsum; cbn; ring).
    assert (Ly : length y = dim) by (unfold y; by rewrite place_length).
    rewrite (up_to_iff past ts o y). fold r. destruct (decide (i = 0)) as [Ei0|Ei0].
    - rewrite (on_light_axes dim past o y [j; k]).
      + cbn [fmap list_fmap]. rewrite Es, Ej, Ek. rewrite Ei0 in *. rewrite Ei. unfold on_cone, N2. cbn [fst snd]. clear. tauto.
      + done.
      + apply NoDup_cons. split; [rewrite elem_of_list_singleton; lia|apply NoDup_singleton].
      + intros m Hm. rewrite !elem_of_cons, elem_of_nil in Hm. destruct Hm as [-> |[-> |[]]]; lia.
      + intros m Hm Hn. rewrite !elem_of_cons, elem_of_nil in Hn. rewrite Ey. rewrite !decide_False by first [tauto|lia]. done.
    - assert (Ej0 : j = 0) by tauto. rewrite (on_light_axes dim past o y [k; i]).
      + cbn [fmap list_fmap]. rewrite Es, Ei, Ek. rewrite Ej0 in *. rewrite Ej. unfold on_cone, N2. cbn [fst snd]. clear. tauto.
      + done.
      + apply NoDup_cons. split; [rewrite elem_of_list_singleton; lia|apply NoDup_singleton].
      + intros m Hm. rewrite !elem_of_cons, elem_of_nil in Hm. destruct Hm as [-> |[-> |[]]]; lia.
      + intros m Hm Hn. rewrite !elem_of_cons, elem_of_nil in Hn. rewrite Ey. rewrite !decide_False by first [tauto|lia]. done. }
  destruct (decide (i = 0)) as [Ei0|Ei0].
  - cbv zeta in E. destruct (decide (0 < 0)%Z) as [Hbad|_]; [lia|]. rewrite ER in E. rewrite rotate_0 in E. exists [turn_surface F]. split; [exact E|]. split.
    + intros F' a b HF. apply elem_of_list_singleton in HF as ->. rewrite turn_grid, turn_node. intros Ha Hb. specialize (D1 a b Ha Hb).
      cbv zeta. apply HQ. unfold d, shift, turn. cbn [fst snd]. unfold on_cone in D1 |- *. cbn [fst snd].
      replace ((node F a b).2 + (cget o i - cget o k) - cget o i)%R with ((node F a b).2 - cget o k)%R by ring.
      replace ((node F a b).1.1 + (cget o j - cget o i) - cget o j)%R with ((node F a b).1.1 - cget o i)%R by ring.
      replace ((node F a b).1.2 + (cget o k - cget o j) - cget o k)%R with ((node F a b).1.2 - cget o j)%R by ring. done.
    + intros q Hq. cbv zeta in Hq. apply HQ in Hq. unfold d, shift in Hq. cbn [fst snd] in Hq. destruct (D2 (q.1.2, q.2, q.1.1)) as (q' & H1 & H2).
      { unfold on_cone in Hq |- *. cbn [fst snd] in *.
        replace (q.1.1 + (cget o i - cget o k) - cget o i)%R with (q.1.1 - cget o k)%R in Hq by ring.
        replace (q.1.2 + (cget o j - cget o i) - cget o j)%R with (q.1.2 - cget o i)%R in Hq by ring.
        replace (q.2 + (cget o k - cget o j) - cget o k)%R with (q.2 - cget o j)%R in Hq by ring. done. }
      exists (turn_surface F), (turn q'). split; [by apply elem_of_list_singleton|]. split; [by apply on_turn|]. apply close_turn in H2. by destruct q as [[? ?] ?].
  - assert (Ej0 : j = 0) by tauto. rewrite (decide_True (P := j = 0)) in E by done.
    cbv zeta in E. destruct (decide (1 < 0)%Z) as [Hbad|_]; [lia|]. rewrite ER in E. rewrite rotate_1 in E. exists [turn_surface (turn_surface F)]. split; [exact E|]. split.
    + intros F' a b HF. apply elem_of_list_singleton in HF as ->. rewrite !turn_grid, !turn_node. intros Ha Hb. specialize (D1 a b Ha Hb).
      cbv zeta. apply HQ. unfold d, shift, turn. cbn [fst snd]. unfold on_cone in D1 |- *. cbn [fst snd].
      replace ((node F a b).2 + (cget o j - cget o k) - cget o j)%R with ((node F a b).2 - cget o k)%R by ring.
      replace ((node F a b).1.1 + (cget o k - cget o i) - cget o k)%R with ((node F a b).1.1 - cget o i)%R by ring.
      replace ((node F a b).1.2 + (cget o i - cget o j) - cget o i)%R with ((node F a b).1.2 - cget o j)%R by ring. done.
    + intros q Hq. cbv zeta in Hq. apply HQ in Hq. unfold d, shift in Hq. cbn [fst snd] in Hq. destruct (D2 (q.2, q.1.1, q.1.2)) as (q' & H1 & H2).
      { unfold on_cone in Hq |- *. cbn [fst snd] in *.
        replace (q.1.2 + (cget o j - cget o k) - cget o j)%R with (q.1.2 - cget o k)%R in Hq by ring.
        replace (q.2 + (cget o k - cget o i) - cget o k)%R with (q.2 - cget o i)%R in Hq by ring.
        replace (q.1.1 + (cget o i - cget o j) - cget o i)%R with (q.1.1 - cget o j)%R in Hq by ring. done. }
      exists (turn_surface (turn_surface F)), (turn (turn q')). split; [by apply elem_of_list_singleton|]. split; [apply on_turn; by apply on_turn|].
      do 2 apply (proj1 (close_turn _ _ _)) in H2. by destruct q as [[? ?] ?].
Qed.
(** ... so that such plots do not show the light cone in general: in three dimensions, the
    cone of (0, 1, 0) is drawn from (0, 0, 1). *)
Theorem C81_time_first_refuted (junk : nat → point) :
  ∃ h F, ConePlotter junk (Flat 3 None) [0; 1; 2]%Z (sign false) None (-1) = Ok h ∧
    h [0; 1; 0]%R 1%R = Ok (Some (None, DSurfaces [F])) ∧
    node F 0 0 = (0, 0, 1)%R ∧ ¬ on_light_cone 3 false [0; 1; 0]%R [0; 0; 1]%R.
Proof.
  assert (Hst : constructed (Flat 3 None)).
  { right; left. exists 3%Z, (PFloat 0). unfold FlatSpacetime. rewrite decide_False by lia. rewrite decide_False by lra. done. }
  destruct (handle_three junk 3 None false None (-1) 0 1 2 Hst) as (h & Eh & Hh); [lia..|].
  destruct (Hh [0; 1; 0]%R 1%R eq_refl) as [_ H]. destruct H as [Hr E].
  { intros [H|(f & H & _)]; [|done]. cbn [sign] in H. unfold cget in H. cbn [nth] in H. lra. }
  assert (E0 : ∀ m, axis_shifts (period_of (Flat 3 None) m) = [0%R]) by (intros [|m]; apply axis_shifts_0). rewrite !E0 in E. cbn [flat_map fmap list_fmap app] in E.
  cbn [sign] in *. eexists h, _. split; [done|]. split; [exact E|]. split.
  - change (rotate _ _) with (rotate 0 (revolved [0; 1]%R [0; 1]%R (1 * (1 - 0)) (1 * (1 * (1 - 0))) 128 (0 - 0) (1 - 0) (0 - 0))).
    rewrite rotate_0, turn_node, revolved_node by (cbn; lia). unfold turn. cbn [nth fst snd]. apply (f_equal2 pair); [apply (f_equal2 pair)|]; ring.
  - unfold on_light_cone. cbn. unfold rsum, cget. cbn. lra.
Qed.
(** The cone is drawn correctly if the three coordinates of the origin are equal. *)
Corollary C81_time_first_equal (junk : nat → point) dim past alpha (n : Z) i j k :
  let st := Flat dim None in
  constructed st → i < dim → j < dim → 1 ≤ k < dim → i ≠ j → i ≠ k → j ≠ k → i = 0 ∨ j = 0 →
  ∃ h, ConePlotter junk st [Z.of_nat i; Z.of_nat j; Z.of_nat k] (sign past) alpha n = Ok h ∧
  ∀ o ts, length o = dim → ¬ not_drawn past alpha o ts → cget o i = cget o j → cget o j = cget o k →
  ∃ Fs, h o ts = Ok (Some (opacity past alpha o ts, DSurfaces Fs)) ∧
    draws Fs (λ q, let y := place o [(i, q.1.1); (j, q.1.2); (k, q.2)] in on_light_cone dim past o y ∧ up_to past ts y)
      (Rabs (ts - cget o 0) * (2 * PI / INR (edge_count n))).
Proof.
  intros st Hst Hi Hj Hk Hij Hik Hjk H0. destruct (C81_time_first junk dim past alpha n i j k Hst Hi Hj Hk Hij Hik Hjk H0) as (h & Eh & Hh).
  exists h. split; [done|]. intros o ts Ho Hd E1 E2. destruct (Hh o ts Ho Hd) as (Fs & EF & D1 & D2). exists Fs. split; [done|].
  assert (ES : ∀ q : point3, shift (if decide (i = 0) then (cget o i - cget o k, cget o j - cget o i, cget o k - cget o j)%R
           else (cget o i - cget o j, cget o j - cget o k, cget o k - cget o i)%R) q = q).
  { intros [[x y] z]. unfold shift. rewrite E1, E2. destruct (decide (i = 0)); cbn [fst snd]; apply (f_equal2 pair); [apply (f_equal2 pair)| |apply (f_equal2 pair)|]; ring. }
  split.
  - intros F a b HF Ha Hb. specialize (D1 F a b HF Ha Hb). cbv zeta in D1 |- *. by rewrite ES in D1.
  - intros q Hq. apply D2. cbv zeta in Hq |- *. by rewrite ES.
Qed.

(** ** C79: what the handles return *)
(** In flat spacetime the handle returns None exactly if the time slice is not in the time
    direction of the cone or the opacity is not positive.  Otherwise it returns a patch (two
    dimensions) or surfaces (three), with the opacity given by the radius. *)
Theorem C79_flat (junk : nat → point) dim period past alpha (n : Z) (dims : list nat) :
  let st := Flat dim period in
  constructed st → length dims = 2 ∨ length dims = 3 → NoDup dims → (∀ m, m ∈ dims → m < dim) →
  ∃ h, ConePlotter junk st (Z.of_nat <$> dims) (sign past) alpha n = Ok h ∧
  ∀ o ts, length o = dim →
    (not_drawn past alpha o ts → h o ts = Ok None) ∧
    (¬ not_drawn past alpha o ts →
       if decide (length dims = 2) then ∃ rows, h o ts = Ok (Some (opacity past alpha o ts, DPatch rows))
       else ∃ Fs, h o ts = Ok (Some (opacity past alpha o ts, DSurfaces Fs)) ∧ Fs ≠ []).
Proof.
  intros st Hst Hl Hnd Hm. destruct dims as [|i [|j [|k [|? ?]]]]; try (exfalso; cbn in Hl; lia); cbn [fmap list_fmap].
  - assert (Hij : i ≠ j) by (apply NoDup_cons in Hnd as [Hn _]; intros ->; apply Hn; set_solver).
    destruct (handle_two junk dim period past alpha n i j Hst) as (h & Eh & Hh); [apply Hm; set_solver|apply Hm; set_solver|done|].
    exists h. split; [done|]. intros o ts Ho. destruct (Hh o ts Ho) as [H1 H2]. split; [done|]. intros Hd. destruct (H2 Hd) as [_ E].
    rewrite decide_True by done. eauto.
  - apply NoDup_cons in Hnd as [Hn Hnd]. apply NoDup_cons in Hnd as [Hn' _]. rewrite !elem_of_cons, elem_of_nil in Hn. rewrite elem_of_list_singleton in Hn'.
    destruct (handle_three junk dim period past alpha n i j k Hst) as (h & Eh & Hh); [apply Hm; set_solver|apply Hm; set_solver|apply Hm; set_solver|tauto|tauto|tauto|].
    exists h. split; [done|]. intros o ts Ho. destruct (Hh o ts Ho) as [H1 H2]. split; [done|]. intros Hd. destruct (H2 Hd) as [_ E].
    rewrite decide_False by done. eexists. split; [exact E|]. cbv zeta. set (z := if decide (i = 0) then _ else _). clearbody z.
    assert (Hin : [0; 0; 0]%R ∈ flat_map (λ x, flat_map (λ y, (λ z, [x; y; z]) <$> axis_shifts (period_of (Flat dim period) k)) (axis_shifts (period_of (Flat dim period) j))) (axis_shifts (period_of (Flat dim period) i))).
    { apply shifts_in3. exists 0%R, 0%R, 0%R. auto using shifts_zero. }
    intros E'. match type of E' with flat_map ?f ?l = [] => assert (HF : ∃ F, F ∈ flat_map f l) end.
    { destruct (decide (z < 0)%Z); eexists; apply in_flat; exists [0; 0; 0]%R; (split; [done|]); unfold BallSurface, OpenConeSurface; by apply elem_of_list_singleton. }
    destruct HF as [F HF]. rewrite E' in HF. by apply elem_of_nil in HF.
Qed.

(** A case that meets the hypotheses: the future cone of (0, 0, 0) in a cylinder with a
    period 3 in the first direction, up to the time 1, fading with the radius. *)
Example C80_C81_nonvacuous :
  constructed (Flat 3 (Some [3; 0]%R)) ∧ ¬ not_drawn false (Some (λ r, 1 - r / 2)%R) [0; 0; 0]%R 1%R ∧
  one_period (Flat 3 (Some [3; 0]%R)) [0; 0; 0]%R (place [0; 0; 0]%R [(1, (5 / 2)%R); (0, 1%R)]) ∧
  in_cone (Flat 3 (Some [3; 0]%R)) false [0; 0; 0]%R (place [0; 0; 0]%R [(1, (5 / 2)%R); (0, 1%R)]) ∧
  ¬ in_cone (Flat 3 None) false [0; 0; 0]%R (place [0; 0; 0]%R [(1, (5 / 2)%R); (0, 1%R)]).
Proof.
  split.
  { right; left. exists 3%Z, (PTuple [3; 0]%R). unfold FlatSpacetime. rewrite decide_False by lia. rewrite decide_True by done.
    rewrite decide_True; [done|]. constructor. lra. }
  split.
  { intros [H|(f & [= <-] & H)]; cbn [sign] in H; unfold cget in H; cbn [nth] in H; lra. }
  split.
  { intros m Hm. destruct m as [|[|[|m]]]; cbn; unfold cget; cbn; intros; try lra; try (destruct m; lra).
    rewrite Rabs_pos_eq; lra. }
  assert (HL : length (place [0; 0; 0]%R [(1, (5 / 2)%R); (0, 1%R)]) = 3) by done.
  assert (HA : ∀ m, 1 ≤ m → m ≠ 1 → cget (place [0; 0; 0]%R [(1, (5 / 2)%R); (0, 1%R)]) m = cget [0; 0; 0]%R m).
  { intros m H1 H2. destruct m as [|[|m]]; [lia|lia|done]. }
  split.
  - apply (in_cone_time 3 (Some [3; 0]%R) false [0; 0; 0]%R _ 1 eq_refl HL); [lia|exact HA|]. unfold gap, circ, period_delta. cbn. unfold cget. cbn.
    rewrite decide_True by lra. rewrite (Rabs_pos_eq (5 / 2 - 0)) by lra. rewrite Rmin_right by lra. rewrite Rabs_pos_eq by lra. lra.
  - intros H. apply (in_cone_time 3 None false [0; 0; 0]%R _ 1 eq_refl HL) in H; [|lia|exact HA]. rewrite gap_None in H. cbn in H. unfold cget in H. cbn in H.
    rewrite Rabs_pos_eq in H by lra. lra.
Qed.

Print Assumptions C79_flat.
Print Assumptions C80_time_plane.
Print Assumptions C80_time_plane_images.
Print Assumptions C80_space_plane.
Print Assumptions C81_time_last.
Print Assumptions C81_space.
Print Assumptions C81_time_first.
Print Assumptions C81_time_first_refuted.
Print Assumptions C81_time_first_equal.
