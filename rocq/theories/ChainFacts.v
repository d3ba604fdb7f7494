(** Winding numbers: exchanging the axes of a closed polygon; the polygon between an upper
    and a lower chain of points. *)
From Verif Require Import Base SpacetimeModel ShapeModel OutlineModel SpecOutline OutlineFacts PolygonFacts EllipseFacts.
From Coq Require Import Reals Lra Lia Psatz.
#[local] Open Scope nat_scope.

(** ** Exchanging the axes *)
Definition flip (p : point) : point := (p.2, p.1).
Definition quadrant (p v : point) : Z := if decide (p.1 < v.1 ∧ p.2 < v.2)%R then 1%Z else 0%Z.
Lemma flip_orientation a b p : orientation (flip a) (flip b) (flip p) = (- orientation a b p)%R.
Proof. unfold orientation, flip. cbn. ring. Qed.
Lemma sign_cases x : (x < 0 ∨ x = 0 ∨ 0 < x)%R.
Proof. lra. Qed.
Lemma on_line (a b p : point) : orientation a b p = 0%R → (a.2 <= p.2 < b.2)%R → on_segment a b p.
Proof.
  intros H0 H. unfold orientation in H0. exists ((p.2 - a.2) / (b.2 - a.2))%R. split_and!.
  - apply Rmult_le_pos; [lra|]. left. apply Rinv_0_lt_compat. lra.
  - apply (Rmult_le_reg_r (b.2 - a.2)); [lra|]. unfold Rdiv. rewrite Rmult_assoc, Rinv_l by lra. lra.
  - apply (Rmult_eq_reg_r (b.2 - a.2)); [|lra]. transitivity (a.1 * (b.2 - a.2) + (p.2 - a.2) * (b.1 - a.1))%R; [lra|field; lra].
  - field. lra.
Qed.
Lemma on_segment_sym a b p : on_segment a b p → on_segment b a p.
Proof. intros (t & Ht & E1 & E2). exists (1 - t)%R. split; [lra|]. split; lra. Qed.
Lemma orientation_sym a b p : orientation b a p = (- orientation a b p)%R.
Proof. unfold orientation. ring. Qed.
Lemma flip_crossing p a b : ¬ on_segment a b p →
  (crossing p (a, b) + crossing (flip p) (flip a, flip b) = quadrant p b - quadrant p a)%Z.
Proof.
  intros Hn. unfold crossing. rewrite flip_orientation. unfold flip, quadrant. cbn [fst snd].
  assert (H1 : (a.2 <= p.2 < b.2)%R → orientation a b p ≠ 0%R) by (intros H E; apply Hn; by apply on_line).
  assert (H2 : (b.2 <= p.2 < a.2)%R → orientation a b p ≠ 0%R).
  { intros H E. apply Hn, on_segment_sym, on_line; [rewrite orientation_sym, E; ring|done]. }
  set (L := orientation a b p) in *.
  assert (EL : L = ((b.1 - a.1) * (p.2 - a.2) - (p.1 - a.1) * (b.2 - a.2))%R) by done.
  assert (EL' : L = ((b.1 - p.1) * (p.2 - a.2) + (p.1 - a.1) * (p.2 - b.2))%R) by (rewrite EL; ring). clear EL.
  clearbody L. destruct a as [a1 a2], b as [b1 b2], p as [p1 p2]. cbn [fst snd] in *.
  assert (Q1 : (p1 < a1 → p1 < b1 → a2 <= p2 → p2 < b2 → 0 < L)%R) by (clear -EL'; intros; nra).
  assert (Q2 : (a1 <= p1 → b1 <= p1 → a2 <= p2 → p2 < b2 → L <= 0)%R) by (clear -EL'; intros; nra).
  assert (Q3 : (p1 < a1 → p1 < b1 → b2 <= p2 → p2 < a2 → L < 0)%R) by (clear -EL'; intros; nra).
  assert (Q4 : (a1 <= p1 → b1 <= p1 → b2 <= p2 → p2 < a2 → 0 <= L)%R) by (clear -EL'; intros; nra).
  assert (Q5 : (p2 < a2 → p2 < b2 → a1 <= p1 → p1 < b1 → L < 0)%R) by (clear -EL'; intros; nra).
  assert (Q6 : (a2 <= p2 → b2 <= p2 → a1 <= p1 → p1 < b1 → 0 <= L)%R) by (clear -EL'; intros; nra).
  assert (Q7 : (p2 < a2 → p2 < b2 → b1 <= p1 → p1 < a1 → 0 < L)%R) by (clear -EL'; intros; nra).
  assert (Q8 : (a2 <= p2 → b2 <= p2 → b1 <= p1 → p1 < a1 → L <= 0)%R) by (clear -EL'; intros; nra).
  clear EL' Hn.
  destruct (Rle_lt_dec a1 p1) as [A1|A1], (Rle_lt_dec a2 p2) as [A2|A2], (Rle_lt_dec b1 p1) as [B1|B1], (Rle_lt_dec b2 p2) as [B2|B2].
  all: repeat match goal with H : ?P → _ |- _ => first [let Hp := fresh in assert (Hp : P) by (done || split; done); specialize (H Hp); clear Hp | clear H] end.
  all: repeat (case_decide; try (exfalso; lra)); try lia.
  all: exfalso; destruct (sign_cases L) as [HL|[HL|HL]]; try done; try lra.
Qed.
Lemma flip_segments (V : list point) : zip (flip <$> V) (tail (flip <$> V)) = (λ e : point * point, (flip e.1, flip e.2)) <$> zip V (tail V).
Proof.
  induction V as [|a V IH]; [done|]. destruct V as [|b V]; [done|]. cbn in *. by rewrite IH.
Qed.
Lemma zsum_plus {A} (f g : A → Z) (l : list A) : (zsum (f <$> l) + zsum (g <$> l) = zsum ((λ x, f x + g x)%Z <$> l))%Z.
Proof. induction l as [|x l IH]; cbn; [done|]. change (foldr Z.add 0%Z) with zsum in *. rewrite <- IH. unfold zsum. lia. Qed.
Lemma flip_winding (V : list point) d p : hd d V = List.last V d → ¬ on_outline (Some <$> V) p →
  winding (Some <$> (flip <$> V)) (flip p) = (- winding (Some <$> V) p)%Z.
Proof.
  intros Hcl Hn. unfold winding. rewrite !segments_Some, flip_segments, <- list_fmap_compose. change (foldr Z.add 0%Z) with zsum.
  enough (zsum (crossing p <$> zip V (tail V)) + zsum ((crossing (flip p) ∘ (λ e : point * point, (flip e.1, flip e.2))) <$> zip V (tail V)) = 0)%Z by lia.
  rewrite zsum_plus. transitivity (zsum ((λ e : point * point, - quadrant p e.1 - (- quadrant p e.2))%Z <$> zip V (tail V))).
  - f_equal. apply list_fmap_ext. intros i [a b] He. apply elem_of_list_lookup_2 in He. cbn [compose fst snd]. unfold compose. cbn [fst snd].
    rewrite flip_crossing; [lia|]. intros Hs. apply Hn. exists a, b. rewrite segments_Some. done.
  - rewrite (telescope (λ v, (- quadrant p v)%Z) V d). rewrite Hcl. lia.
Qed.
Lemma flip_flip p : flip (flip p) = p.
Proof. by destruct p. Qed.
Lemma flip_on (V : list point) p : on_outline (Some <$> (flip <$> V)) p ↔ on_outline (Some <$> V) (flip p).
Proof.
  unfold on_outline. rewrite !segments_Some, flip_segments. setoid_rewrite elem_of_list_fmap. split.
  - intros (a & b & ([a' b'] & [= -> ->] & He) & t & Ht & E1 & E2). exists a', b'. split; [done|]. exists t. cbn in *. done.
  - intros (a & b & He & t & Ht & E1 & E2). exists (flip a), (flip b). split; [by exists (a, b)|]. exists t. cbn in *. done.
Qed.
(** A closed polygon with exchanged axes paints the same points. *)
Lemma flip_painted (V : list point) d p : hd d V = List.last V d →
  painted (Polygon (Some <$> (flip <$> V))) p ↔ painted (Polygon (Some <$> V)) (flip p).
Proof.
  intros Hcl. cbn [painted]. rewrite flip_on. destruct (Classical_Prop.classic (on_outline (Some <$> V) (flip p))) as [Hon|Hon].
  - tauto.
  - pose proof (flip_winding V d (flip p) Hcl Hon) as E. rewrite flip_flip in E. rewrite E. split; (intros [H|H]; [done|right; lia]).
Qed.
Lemma flip_swap (V : list point) : swap_columns (Some <$> V) = Some <$> (flip <$> V).
Proof. unfold swap_columns. rewrite <- !list_fmap_compose. done. Qed.

(** ** The polygon between two chains *)
Lemma zsum_fold (g : nat → Z) a M :
  zsum (g <$> seq a (2 * M + 1)) = (g (a + M)%nat + zsum ((λ i, g (a + i)%nat + g (a + 2 * M - i)%nat)%Z <$> seq 0 M))%Z.
Proof.
  revert a. induction M as [|M IH]; intros a; [cbn; rewrite Nat.add_0_r; lia|].
  replace (2 * S M + 1) with (S (2 * M + 1 + 1)) by lia. cbn [seq]. rewrite seq_app. rewrite fmap_cons, fmap_app. cbn [zsum foldr]. change (foldr Z.add 0%Z) with zsum.
  assert (Ea : ∀ l1 l2, zsum (l1 ++ l2) = (zsum l1 + zsum l2)%Z) by (intros l1 l2; induction l1 as [|x l1 IHl]; cbn; [done|]; fold zsum; change (foldr Z.add 0%Z) with zsum; rewrite IHl; lia).
  rewrite Ea, IH. cbn [seq fmap list_fmap zsum foldr]. rewrite <- fmap_S_seq, <- list_fmap_compose. change (foldr Z.add 0%Z) with zsum.
  replace (S a + M) with (a + S M) by lia. replace (a + 2 * S M - 0) with (S a + (2 * M + 1)) by lia. rewrite Nat.add_0_r.
  assert (E : ((λ i, (g (a + i)%nat + g (a + 2 * S M - i)%nat)%Z) ∘ S) <$> seq 0 M = (λ i, (g (S a + i)%nat + g (S a + 2 * M - i)%nat)%Z) <$> seq 0 M).
  { apply list_fmap_ext. intros k x Hx. unfold compose. f_equal; f_equal; lia. }
  rewrite E. lia.
Qed.
Lemma mult_sign D x : (0 < D)%R → (0 < D * x ↔ 0 < x)%R ∧ (D * x < 0 ↔ x < 0)%R.
Proof.
  intros HD. destruct (sign_cases x) as [H|[-> |H]].
  - assert (0 < D * - x)%R by (apply Rmult_lt_0_compat; lra). split; lra.
  - rewrite Rmult_0_r. lra.
  - assert (0 < D * x)%R by (apply Rmult_lt_0_compat; lra). split; lra.
Qed.
Lemma mult_pos_signs D h l x : (0 < D)%R → (0 < D * (h - x) ↔ x < h)%R ∧ (D * (h - x) < 0 ↔ h < x)%R ∧ (0 < D * (x - l) ↔ l < x)%R ∧ (D * (x - l) < 0 ↔ x < l)%R.
Proof. intros HD. destruct (mult_sign D (h - x) HD) as [-> ->]. destruct (mult_sign D (x - l) HD) as [-> ->]. lra. Qed.
Lemma mult_neg_signs D h l x : (D < 0)%R → (0 < D * (h - x) ↔ h < x)%R ∧ (D * (h - x) < 0 ↔ x < h)%R ∧ (0 < D * (x - l) ↔ x < l)%R ∧ (D * (x - l) < 0 ↔ l < x)%R.
Proof.
  intros HD. assert (HD' : (0 < - D)%R) by lra. destruct (mult_sign (- D) (h - x) HD') as [E1 E2]. destruct (mult_sign (- D) (x - l) HD') as [E3 E4].
  replace (D * (h - x))%R with (- (- D * (h - x)))%R by ring. replace (D * (x - l))%R with (- (- D * (x - l)))%R by ring. split_and!; split; intros; lra.
Qed.
Section chain.
Context (t hi lo : nat → R) (M : nat) (up : bool).
Hypothesis HM : 1 ≤ M.
Hypothesis Ht : ∀ i, i < M → if up then (t i < t (S i))%R else (t (S i) < t i)%R.
Hypothesis H0 : lo 0 = hi 0.
Hypothesis Hle : ∀ i, i ≤ M → (lo i <= hi i)%R.
(** Upwards along hi, back along lo. *)
Definition chain (k : nat) : point := if decide (k ≤ M) then (hi k, t k) else (lo (2 * M + 1 - k), t (2 * M + 1 - k)).
Definition chain_polygon : list point := chain <$> seq 0 (2 * M + 2).
(** The value at a fraction u between two points of the chain. *)
Definition mid (f : nat → R) (i : nat) (u : R) : R := (f i + u * (f (S i) - f i))%R.
Definition between_chains (p : point) : Prop :=
  ∃ i u, i < M ∧ (0 <= u <= 1)%R ∧ p.2 = mid t i u ∧ (mid lo i u <= p.1 <= mid hi i u)%R.
Lemma chain_lo i : i ≤ M → i < M ∨ i = M → chain (2 * M + 1 - i) = (lo i, t i).
Proof using HM Ht H0 Hle.
  intros Hi _. unfold chain. rewrite decide_False by lia. by replace (2 * M + 1 - (2 * M + 1 - i)) with i by lia.
Qed.
Lemma chain_hi i : i ≤ M → chain i = (hi i, t i).
Proof using HM Ht H0 Hle. intros Hi. unfold chain. by rewrite decide_True. Qed.
Lemma chain_top : chain (S M) = (lo M, t M).
Proof using HM Ht H0 Hle. rewrite <- chain_lo by lia. f_equal. lia. Qed.
Lemma chain_back i : i < M → chain (2 * M - i) = (lo (S i), t (S i)) ∧ chain (S (2 * M - i)) = (lo i, t i).
Proof using HM Ht H0 Hle. intros Hi. rewrite <- !chain_lo by lia. split; f_equal; lia. Qed.
Lemma chain_segments : segments (Some <$> chain_polygon) = (λ k, (chain k, chain (S k))) <$> seq 0 (2 * M + 1).
Proof using HM Ht H0 Hle. rewrite segments_Some. unfold chain_polygon. replace (2 * M + 2) with (S (2 * M + 1)) by lia. apply zip_tail_fmap. Qed.
Lemma mid_le i u : i < M → (0 <= u <= 1)%R → (mid lo i u <= mid hi i u)%R.
Proof using HM Ht H0 Hle.
  intros Hi Hu. pose proof (Hle i ltac:(lia)) as A. pose proof (Hle (S i) ltac:(lia)) as B. unfold mid. nra.
Qed.
Definition at_step (i : nat) (y : R) : Prop := if up then (t i <= y ∧ y < t (S i))%R else (t (S i) <= y ∧ y < t i)%R.
#[local] Instance at_step_dec i y : Decision (at_step i y).
Proof using t up. clear HM Ht H0 Hle. unfold at_step. destruct up; apply _. Defined.
(** The contribution of the two segments between the times i and i + 1. *)
Lemma chain_term p i : i < M →
  let u := ((p.2 - t i) / (t (S i) - t i))%R in
  (crossing p ((hi i, t i), (hi (S i), t (S i))) + crossing p ((lo (S i), t (S i)), (lo i, t i)))%Z =
  if decide (at_step i p.2 ∧ (mid lo i u <= p.1)%R ∧ (p.1 < mid hi i u)%R)
  then (if up then 1 else -1)%Z else 0%Z.
Proof using HM Ht H0 Hle.
  intros Hi u. pose proof (Ht i Hi) as Hti. set (D := (t (S i) - t i)%R). assert (HD : D ≠ 0%R) by (unfold D; destruct up; lra).
  assert (O1 : orientation (hi i, t i) (hi (S i), t (S i)) p = (D * (mid hi i u - p.1))%R) by (unfold orientation, mid, u; fold D; cbn [fst snd]; fold D; field; done).
  assert (O2 : orientation (lo (S i), t (S i)) (lo i, t i) p = (D * (p.1 - mid lo i u))%R).
  { rewrite orientation_sym. unfold orientation, mid, u; fold D; cbn [fst snd]; fold D; field; done. }
  assert (Hu : at_step i p.2 → (0 <= u <= 1)%R).
  { intros H. unfold u. unfold at_step in H. destruct up.
    - split; [apply Rmult_le_pos; [lra|left; apply Rinv_0_lt_compat; lra]|]. apply (Rmult_le_reg_r (t (S i) - t i)); [lra|]. unfold Rdiv. rewrite Rmult_assoc, Rinv_l by lra. lra.
    - replace ((p.2 - t i) / (t (S i) - t i))%R with ((t i - p.2) / (t i - t (S i)))%R by (field; lra).
      split; [apply Rmult_le_pos; [lra|left; apply Rinv_0_lt_compat; lra]|]. apply (Rmult_le_reg_r (t i - t (S i))); [lra|]. unfold Rdiv. rewrite Rmult_assoc, Rinv_l by lra. lra. }
  assert (HL : (0 <= u <= 1)%R → (mid lo i u <= mid hi i u)%R) by (by apply mid_le).
  unfold crossing. rewrite O1, O2. cbn [fst snd]. clear O1 O2. set (h := mid hi i u) in *. set (l := mid lo i u) in *.
  assert (P1 : up = true → (0 < D * (h - p.1) ↔ p.1 < h)%R ∧ (D * (h - p.1) < 0 ↔ h < p.1)%R ∧ (0 < D * (p.1 - l) ↔ l < p.1)%R ∧ (D * (p.1 - l) < 0 ↔ p.1 < l)%R).
  { intros ->. assert (HDp : (0 < D)%R) by (unfold D; lra). by apply mult_pos_signs. }
  assert (P2 : up = false → (0 < D * (h - p.1) ↔ h < p.1)%R ∧ (D * (h - p.1) < 0 ↔ p.1 < h)%R ∧ (0 < D * (p.1 - l) ↔ p.1 < l)%R ∧ (D * (p.1 - l) < 0 ↔ l < p.1)%R).
  { intros ->. assert (HDn : (D < 0)%R) by (unfold D; lra). by apply mult_neg_signs. }
  clearbody h l D. destruct (decide (at_step i p.2 ∧ _)) as [Hc|Hc]; unfold at_step in *; destruct up.
  all: try (destruct (P1 eq_refl) as (E1 & E2 & E3 & E4)); try (destruct (P2 eq_refl) as (E1 & E2 & E3 & E4)); clear P1 P2.
  all: repeat case_decide; try done; exfalso; try lra; assert (l <= h)%R by (apply HL, Hu; lra); lra.
Qed.
Lemma chain_winding p : winding (Some <$> chain_polygon) p ≠ 0%Z ↔
  ∃ i, i < M ∧ at_step i p.2 ∧
    let u := ((p.2 - t i) / (t (S i) - t i))%R in (mid lo i u <= p.1)%R ∧ (p.1 < mid hi i u)%R.
Proof using HM Ht H0 Hle.
  unfold winding. rewrite chain_segments, <- list_fmap_compose. change (foldr Z.add 0%Z) with zsum. rewrite zsum_fold. rewrite Nat.add_0_l.
  assert (ET : (crossing p ∘ (λ k, (chain k, chain (S k)))) M = 0%Z).
  { unfold compose. apply crossing_flat. rewrite chain_hi by done. rewrite chain_top. done. }
  rewrite ET, Z.add_0_l.
  set (C := λ i : nat, if decide (at_step i p.2 ∧
     (mid lo i ((p.2 - t i) / (t (S i) - t i)) <= p.1)%R ∧ (p.1 < mid hi i ((p.2 - t i) / (t (S i) - t i)))%R) then (if up then 1 else -1)%Z else 0%Z).
  assert (E : (λ i, ((crossing p ∘ (λ k, (chain k, chain (S k)))) (0 + i)%nat + (crossing p ∘ (λ k, (chain k, chain (S k)))) (0 + 2 * M - i)%nat)%Z) <$> seq 0 M = C <$> seq 0 M).
  { apply list_fmap_ext. intros k i Hk. apply lookup_seq in Hk as [-> Hk]. rewrite Nat.add_0_l. unfold compose. unfold C. rewrite <- chain_term by done.
    rewrite !Nat.add_0_l. rewrite (chain_hi k), (chain_hi (S k)) by lia. destruct (chain_back k Hk) as [-> ->]. done. }
  rewrite E. clear E ET. split.
  - intros Hne. destruct (decide (Exists (λ i, C i ≠ 0%Z) (seq 0 M))) as [HE|HE].
    + apply Exists_exists in HE as (i & Hi%elem_of_seq & HC). unfold C in HC. case_decide as Hc; [|done]. exists i. split; [lia|]. done.
    + exfalso. apply Hne. assert (HZ : ∀ i, i ∈ seq 0 M → C i = 0%Z).
      { intros i Hi. destruct (decide (C i = 0%Z)) as [|Hc]; [done|]. exfalso. apply HE. apply Exists_exists. eauto. }
      clear -HZ. induction (seq 0 M) as [|i l IH]; [done|]. cbn. change (foldr Z.add 0%Z) with zsum. rewrite IH by (intros; apply HZ; by right). rewrite HZ by left. done.
  - intros (i & Hi & H1 & H2).
    assert (EC : C i = (if up then 1 else -1)%Z) by (unfold C; rewrite decide_True; done).
    assert (HCs : ∀ j, (if up then 0 <= C j else C j <= 0)%Z) by (intros j; unfold C; destruct up; case_decide; lia).
    assert (HI : i ∈ seq 0 M) by (apply elem_of_seq; lia). clearbody C. clear -EC HCs HI. destruct up.
    + enough (C i <= zsum (C <$> seq 0 M))%Z by lia. apply zsum_pos; [|by apply elem_of_list_fmap_1]. intros a (j & -> & _)%elem_of_list_fmap. apply HCs.
    + enough (- C i <= zsum ((λ j, - C j)%Z <$> seq 0 M))%Z.
      { assert (zsum (C <$> seq 0 M) + zsum ((λ j, - C j)%Z <$> seq 0 M) = 0)%Z; [|lia]. rewrite zsum_plus. clear. induction (seq 0 M) as [|x l IH]; [done|]. cbn. change (foldr Z.add 0%Z) with zsum. rewrite IH. lia. }
      apply zsum_pos; [|by apply (elem_of_list_fmap_1 (λ j, (- C j)%Z))]. intros a (j & -> & _)%elem_of_list_fmap. specialize (HCs j). lia.
Qed.
Lemma chain_on p : on_outline (Some <$> chain_polygon) p ↔
  (∃ i u, i < M ∧ (0 <= u <= 1)%R ∧ p.2 = mid t i u ∧ (p.1 = mid hi i u ∨ p.1 = mid lo i u)) ∨ (p.2 = t M ∧ lo M <= p.1 <= hi M)%R.
Proof using HM Ht H0 Hle.
  unfold on_outline. rewrite chain_segments. split.
  - intros (a & b & (k & [= -> ->] & Hk%elem_of_seq)%elem_of_list_fmap & u & Hu & E1 & E2).
    destruct (Nat.lt_trichotomy k M) as [Hlt|[-> |Hgt]].
    + left. exists k, u. rewrite !chain_hi in E1, E2 by lia. cbn [fst snd] in *. auto.
    + right. rewrite chain_top, chain_hi in E1, E2 by lia. cbn [fst snd] in *. pose proof (Hle M ltac:(lia)) as HlM. split; [lra|]. nra.
    + left. exists (2 * M - k), (1 - u)%R. destruct (chain_back (2 * M - k)) as [C1 C2]; [lia|]. replace (2 * M - (2 * M - k)) with k in C1, C2 by lia. rewrite C1, C2 in E1, E2. cbn [fst snd] in *. split; [lia|]. split; [lra|]. unfold mid. split; [lra|]. right. lra.
  - assert (HS : ∀ k, k < 2 * M + 1 → (chain k, chain (S k)) ∈ (λ k, (chain k, chain (S k))) <$> seq 0 (2 * M + 1)).
    { intros k Hk. apply elem_of_list_fmap. exists k. split; [done|]. apply elem_of_seq. lia. }
    intros [(i & u & Hi & Hu & E2 & [E1|E1])|[E2 E1]].
    + exists (chain i), (chain (S i)). split; [apply HS; lia|]. rewrite !chain_hi by lia. exists u. auto.
    + exists (chain (2 * M - i)), (chain (S (2 * M - i))). split; [apply HS; lia|]. destruct (chain_back i Hi) as [-> ->].
      exists (1 - u)%R. unfold mid in *. cbn [fst snd]. split; [lra|]. split; lra.
    + destruct (Req_dec (lo M) (hi M)) as [Eq|Hne].
      * exists (chain M), (chain (S M)). split; [apply HS; lia|]. rewrite chain_top, chain_hi by lia. exists 0%R. cbn [fst snd]. split; [lra|]. split; lra.
      * exists (chain M), (chain (S M)). split; [apply HS; lia|]. rewrite chain_top, chain_hi by lia.
        exists ((hi M - p.1) / (hi M - lo M))%R. cbn [fst snd]. split; [split|].
        -- apply Rmult_le_pos; [lra|]. left. apply Rinv_0_lt_compat. lra.
        -- apply (Rmult_le_reg_r (hi M - lo M)); [lra|]. unfold Rdiv. rewrite Rmult_assoc, Rinv_l by lra. lra.
        -- split; [field; lra|lra].
Qed.
Lemma chain_painted p : painted (Polygon (Some <$> chain_polygon)) p ↔ between_chains p.
Proof using HM Ht H0 Hle.
  cbn [painted]. rewrite chain_winding, chain_on. unfold between_chains. split.
  - intros [[(i & u & Hi & Hu & E2 & E1)|[E2 E1]]|(i & Hi & H1 & H2 & H3)].
    + exists i, u. split_and!; try done; try lra; pose proof (mid_le i u Hi Hu); destruct E1; lra.
    + exists (M - 1), 1%R. unfold mid. replace (S (M - 1)) with M by lia. split; [lia|]. split; [lra|]. split; lra.
    + unfold at_step in H1. set (u := ((p.2 - t i) / (t (S i) - t i))%R) in *. exists i, u. split; [done|].
      assert (E : p.2 = mid t i u) by (unfold mid, u; field; pose proof (Ht i Hi) as Hti; destruct up; lra). split; [|split; [done|lra]].
      pose proof (Ht i Hi) as Hti. unfold mid in E. destruct up; nra.
  - intros (i & u & Hi & Hu & E2 & E1). pose proof (Ht i Hi) as Hti.
    assert (Eu : ∀ i u, i < M → p.2 = mid t i u → ((p.2 - t i) / (t (S i) - t i))%R = u).
    { intros j v Hj Ev. pose proof (Ht j Hj) as Htj. rewrite Ev. unfold mid. field. destruct up; lra. }
    assert (core : ∀ i u, i < M → p.2 = mid t i u → (mid lo i u <= p.1 <= mid hi i u)%R → (if up then 0 <= u ∧ u < 1 else 0 < u ∧ u <= 1)%R →
      (∃ i u, i < M ∧ (0 <= u <= 1)%R ∧ p.2 = mid t i u ∧ (p.1 = mid hi i u ∨ p.1 = mid lo i u)) ∨
      ∃ i, i < M ∧ at_step i p.2 ∧
        let u := ((p.2 - t i) / (t (S i) - t i))%R in (mid lo i u <= p.1)%R ∧ (p.1 < mid hi i u)%R).
    { intros j v Hj Ev Ep Hv. destruct (Req_dec p.1 (mid hi j v)) as [E|E].
      - left. exists j, v. split; [done|]. split; [destruct up; lra|]. auto.
      - right. exists j. split; [done|]. cbv zeta. rewrite (Eu j v) by done. split; [|lra]. unfold at_step. rewrite Ev. unfold mid. pose proof (Ht j Hj) as Htj. destruct up; nra. }
    enough ((∃ i u, i < M ∧ (0 <= u <= 1)%R ∧ p.2 = mid t i u ∧ (p.1 = mid hi i u ∨ p.1 = mid lo i u)) ∨ (p.2 = t M ∧ lo M <= p.1 <= hi M)%R ∨
      ∃ i, i < M ∧ at_step i p.2 ∧
        let u := ((p.2 - t i) / (t (S i) - t i))%R in (mid lo i u <= p.1)%R ∧ (p.1 < mid hi i u)%R) as [?|[?|?]] by tauto.
    destruct up eqn:Eup.
    + destruct (Req_dec u 1) as [-> |Hne]; [|destruct (core i u) as [?|?]; try done; [lra|tauto|tauto]].
      assert (Es : p.2 = t (S i)) by (rewrite E2; unfold mid; ring). assert (El : (lo (S i) <= p.1 <= hi (S i))%R) by (unfold mid in E1; lra).
      destruct (decide (S i = M)) as [<-|Hne]; [tauto|].
      destruct (core (S i) 0%R) as [?|?]; [lia|unfold mid; lra|unfold mid; lra|lra|tauto|tauto].
    + destruct (Req_dec u 0) as [-> |Hne]; [|destruct (core i u) as [?|?]; try done; [lra|tauto|tauto]].
      assert (Es : p.2 = t i) by (rewrite E2; unfold mid; ring). assert (El : (lo i <= p.1 <= hi i)%R) by (unfold mid in E1; lra).
      destruct i as [|i].
      * left. exists 0, 0%R. split; [done|]. split; [lra|]. split; [done|]. left. unfold mid. lra.
      * destruct (core i 1%R) as [?|?]; [lia|unfold mid; lra|unfold mid; lra|lra|tauto|tauto].
Qed.
Lemma chain_closed d : hd d chain_polygon = List.last chain_polygon d.
Proof using HM Ht H0 Hle.
  unfold chain_polygon. replace (2 * M + 2) with (S (2 * M + 1)) by lia. rewrite seq_S, fmap_app. cbn [fmap list_fmap]. rewrite last_last. rewrite Nat.add_1_r. cbn [seq app fmap list_fmap hd].
  rewrite chain_hi by lia. rewrite Nat.add_0_l. replace (S (2 * M)) with (2 * M + 1 - 0) by lia. rewrite chain_lo by lia. by rewrite H0.
Qed.
End chain.
