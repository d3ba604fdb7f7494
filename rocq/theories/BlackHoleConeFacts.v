(** Facts about the light rays of black holes and Newton's method for them. *)
From Verif Require Import Base SpacetimeModel SpacetimeFacts BlackHoleFacts Prop_Spacetime ShapeModel OutlineModel SurfaceFacts Prop_Calc CalcModel ConeModel BlackHoleConeModel SpecBlackHole.
From Coq Require Import Reals Lra Psatz.
#[local] Open Scope nat_scope.

Section ray.
Context (c r_S : R) (Hc : (1 <= c)%R) (Hp : (0 < r_S)%R).
Notation ry := (ray c r_S).
(** Two radii on the same side of the horizon. *)
Definition same_side (a b : R) : Prop := (r_S < a ∧ r_S < b)%R ∨ (a < r_S ∧ b < r_S)%R.

Lemma ray_diff a b : a ≠ r_S → b ≠ r_S → (ry b - ry a = b - a + c * r_S * ln (Rabs ((b - r_S) / (a - r_S))))%R.
Proof using Hp.
  intros Ha Hb. unfold ray. unfold Rdiv at 3. rewrite Rabs_mult, Rabs_inv.
  assert (0 < Rabs (a - r_S))%R by (apply Rabs_pos_lt; lra). assert (0 < Rabs (b - r_S))%R by (apply Rabs_pos_lt; lra).
  assert (0 < / Rabs (a - r_S))%R by (by apply Rinv_0_lt_compat). assert (0 < / r_S)%R by (by apply Rinv_0_lt_compat).
  unfold Rdiv. rewrite !ln_mult by done. rewrite (ln_Rinv (Rabs (a - r_S))) by done. lra.
Qed.
Lemma light_ray t0 r0 r : r0 ≠ r_S →
  fl_add (Fin (r - r0 + t0)) (fl_scale (c * r_S) (fl_log_abs ((r - r_S) / (r0 - r_S)))) =
  if decide (r = r_S) then NInf else Fin (t0 + (ry r - ry r0)).
Proof using Hp.
  intros H0. unfold fl_log_abs. destruct (decide (r = r_S)) as [->|Hne].
  - rewrite decide_True; [done|]. unfold Rdiv. rewrite Rminus_diag_eq by done. lra.
  - rewrite decide_False.
    + cbn. f_equal. rewrite ray_diff by done. lra.
    + intros H. apply Rmult_integral in H as [H|H]; [lra|]. revert H. apply Rinv_neq_0_compat. lra.
Qed.
(** The tangents of the ray lie above it. *)
Lemma ray_tangent a b : same_side a b → (ry b - ry a <= (1 + c * r_S / (a - r_S)) * (b - a))%R.
Proof using Hc Hp.
  intros Hs. assert (a ≠ r_S ∧ b ≠ r_S) as [Ha Hb] by (destruct Hs; split; lra). rewrite ray_diff by done.
  assert (Hu : (0 < (b - r_S) / (a - r_S))%R).
  { destruct Hs as [[? ?]|[? ?]]; [apply Rdiv_lt_0_compat; lra|]. replace ((b - r_S) / (a - r_S))%R with ((r_S - b) / (r_S - a))%R by (field; lra). apply Rdiv_lt_0_compat; lra. }
  rewrite Rabs_right by lra. set (u := ((b - r_S) / (a - r_S))%R) in *.
  assert (Hl : (ln u <= u - 1)%R).
  { assert (0 < / u)%R by (by apply Rinv_0_lt_compat). pose proof (ln_ge (/ u) ltac:(done)) as H1. rewrite ln_Rinv, Rinv_inv in H1 by done. lra. }
  replace ((1 + c * r_S / (a - r_S)) * (b - a))%R with (b - a + c * r_S * (u - 1))%R by (unfold u; field; lra).
  assert (0 <= c * r_S)%R by (apply Rmult_le_pos; lra). apply Rplus_le_compat_l, Rmult_le_compat_l; done.
Qed.
(** One step of Newton's method from x to r. *)
Lemma newton_step f y x r p : same_side x r → (0 < p)%R →
  (∀ q, q ≠ r_S → f q = f x + (ry q - ry x))%R →
  r = (x - (f x - y) / (1 + c * r_S / (x - r_S)))%R → (1 + c * r_S / (x - r_S) ≠ 0)%R → (Rabs (x - r) < p)%R → (p < Rabs (r - r_S))%R →
  (y - c * r_S * (p * p) / (Rabs (r - r_S) * (Rabs (r - r_S) - p)) <= f r <= y)%R.
Proof using Hc Hp.
  intros Hs Hp0 Hf Er Hd Hxr Hrp. assert (x ≠ r_S ∧ r ≠ r_S) as [Hx Hr] by (destruct Hs; split; lra).
  assert (E : (f x + (1 + c * r_S / (x - r_S)) * (r - x) = y)%R) by (clear Hs Hxr Hrp Hf; set (D := (1 + c * r_S / (x - r_S))%R) in *; rewrite Er; field; done).
  rewrite (Hf r Hr). pose proof (ray_tangent x r Hs) as H1.
  assert (Hs' : same_side r x) by (unfold same_side in *; tauto). pose proof (ray_tangent r x Hs') as H2. split; [|lra].
  set (d := Rabs (r - r_S)) in *. set (k := (c * r_S)%R) in *. assert (Hk : (0 < k)%R) by (unfold k; apply Rmult_lt_0_compat; lra).
  assert (Hx' : (d - p < Rabs (x - r_S))%R).
  { unfold d. replace (r - r_S)%R with ((x - r_S) + - (x - r))%R by ring. pose proof (Rabs_triang (x - r_S) (- (x - r))) as HT. rewrite Rabs_Ropp in HT. lra. }
  assert (HE : ((1 + k / (x - r_S)) * (r - x) + (1 + k / (r - r_S)) * (x - r) = k * ((r - x) * (r - x)) / ((x - r_S) * (r - r_S)))%R) by (field; lra).
  assert (HP : ((x - r_S) * (r - r_S) = Rabs (x - r_S) * d)%R).
  { unfold d. rewrite <- Rabs_mult, Rabs_right; [done|]. destruct Hs as [[? ?]|[? ?]]; nra. }
  assert (HB : (k * ((r - x) * (r - x)) / ((x - r_S) * (r - r_S)) <= k * (p * p) / (d * (d - p)))%R).
  { rewrite HP. unfold Rdiv. apply Rmult_le_compat.
    - apply Rmult_le_pos; [left; exact Hk|apply Rle_0_sqr].
    - left. apply Rinv_0_lt_compat. apply Rmult_lt_0_compat; lra.
    - apply Rmult_le_compat_l; [lra|]. apply Rabs_def2 in Hxr. nra.
    - apply Rinv_le_contravar; [apply Rmult_lt_0_compat; lra|]. rewrite (Rmult_comm d). apply Rmult_le_compat_r; lra. }
  lra.
Qed.

(** Newton's method for a light ray (s = 1) or its negative (s = -1): the value at the result is
    below (above) the goal, by at most an error quadratic in the precision. *)
Definition newton_error (r : R) : R := (c * r_S * (precission * precission) / (Rabs (r - r_S) * (Rabs (r - r_S) - precission)))%R.
Lemma Newton_spec (s K : R) (f : R → fl) (fd : R → R) (x0 y : R) (xmin xmax : option R) :
  s = 1%R ∨ s = (-1)%R →
  (∀ q, q ≠ r_S → fl_real (f q) = K + s * ry q)%R → (∀ q, fd q = s * (1 + c * r_S / (q - r_S)))%R →
  (∀ m M, xmin = Some m → xmax = Some M → (m + precission <= M)%R) →
  let r := Newton f fd x0 y xmin xmax in
  r = 0%R ∨
  (∀ m, xmin = Some m → (m <= r)%R) ∧ (∀ m, xmax = Some m → (r <= m)%R) ∧
  ((∀ m, xmin = Some m → (m + precission < r)%R) → (∀ m, xmax = Some m → (r < m - precission)%R) → (precission < Rabs (r - r_S))%R →
   (0 <= s * (y - fl_real (f r)) <= newton_error r)%R).
Proof using Hc Hp.
  intros Hs Hf Hfd Hb r. assert (Hpr : (0 < precission)%R) by (unfold precission; lra).
  destruct (newton_loop_spec (λ r, fl_real (f r)) fd y xmin xmax 0 precission 50 x0) as [E|(k & _ & E & Hlt & Hp0)]; [left; exact E|right].
  change (r = newton_next (λ r, fl_real (f r)) fd y xmin xmax precission (Nat.iter k (newton_next (λ r, fl_real (f r)) fd y xmin xmax precission) x0)) in E.
  set (x := Nat.iter k _ x0) in *. clearbody x. rewrite <- E in Hlt. clearbody r.
  destruct (step_spec (λ r, fl_real (f r)) fd y xmin xmax precission x) as [(m & Em & Hm & Es)|[(m & Em & Hm & Es)|(Es & H1 & H2)]]; rewrite Es in E.
  - split; [|split].
    + rewrite Em. intros ? [= <-]. lra.
    + intros M EM. rewrite E. by apply Hb.
    + intros HN _ _. pose proof (HN m Em). lra.
  - split; [|split].
    + intros M EM. rewrite E. pose proof (Hb M m EM Em). lra.
    + rewrite Em. intros ? [= <-]. lra.
    + intros _ HN _. pose proof (HN m Em). lra.
  - split; [rewrite E; done|]. split; [rewrite E; done|]. intros _ _ Hrp.
    assert (HS : same_side x r).
    { unfold same_side. apply Rabs_def2 in Hlt as [L1 L2]. revert Hrp. unfold Rabs. destruct (Rcase_abs (r - r_S)); intros; [right|left]; split; lra. }
    assert (x ≠ r_S ∧ r ≠ r_S) as [Hx Hr] by (destruct HS; split; lra).
    rewrite Hfd in Hp0, E. set (F := λ q, (s * fl_real (f q))%R).
    assert (Hss : (s * s = 1)%R) by (destruct Hs as [-> | ->]; lra).
    pose proof (newton_step F (s * y) x r precission HS Hpr) as HN.
    assert (HF : ∀ q, q ≠ r_S → (F q = F x + (ry q - ry x))%R).
    { intros q Hq. unfold F. rewrite !Hf by done. transitivity (s * K + s * s * ry q)%R; [ring|]. rewrite Hss.
      transitivity (s * K + s * s * ry x + (ry q - ry x))%R; [rewrite Hss; ring|ring]. }
    specialize (HN HF).
    assert (HD : (1 + c * r_S / (x - r_S) ≠ 0)%R) by (intros H0; apply Hp0; rewrite H0; ring).
    assert (HE : r = (x - (F x - s * y) / (1 + c * r_S / (x - r_S)))%R).
    { rewrite E. unfold F. set (D := (1 + c * r_S / (x - r_S))%R) in *. f_equal. destruct Hs as [-> | ->]; field; done. }
    specialize (HN HE HD Hlt Hrp). unfold F in HN. unfold newton_error. lra.
Qed.
End ray.

(** The functions of the light rays *)
Lemma ray1 r_S q : ray 1 r_S q = tortoise r_S q.
Proof. unfold ray, tortoise. by rewrite Rmult_1_l. Qed.
Lemma ray2 r_S q : ray 2 r_S q = outgoing r_S q.
Proof. done. Qed.
Lemma EF_out r_S t0 r0 r : (0 < r_S)%R → r0 ≠ r_S →
  light_EF_out r_S t0 r0 r = if decide (r = r_S) then NInf else Fin (t0 + (outgoing r_S r - outgoing r_S r0)).
Proof. intros Hp H0. exact (light_ray 2 r_S Hp t0 r0 r H0). Qed.
Lemma S_out r_S t0 r0 r : (0 < r_S)%R → r0 ≠ r_S →
  light_S_out r_S t0 r0 r = if decide (r = r_S) then NInf else Fin (t0 + (tortoise r_S r - tortoise r_S r0)).
Proof. intros Hp H0. pose proof (light_ray 1 r_S Hp t0 r0 r H0) as E. rewrite Rmult_1_l, !ray1 in E. exact E. Qed.
Lemma S_in r_S t0 r0 r : (0 < r_S)%R → r0 ≠ r_S →
  light_S_in r_S t0 r0 r = if decide (r = r_S) then PInf else Fin (t0 + (tortoise r_S r0 - tortoise r_S r)).
Proof.
  intros Hp H0. pose proof (S_out r_S 0 r0 r Hp H0) as E. unfold light_S_out in E. unfold light_S_in.
  destruct (fl_scale r_S (fl_log_abs ((r - r_S) / (r0 - r_S)))) as [v| | |]; destruct (decide (r = r_S)); try discriminate E; try done.
  cbn [fl_add fl_neg] in *. injection E as E. f_equal. lra.
Qed.

(** The rows of a ray *)
Lemma on_side_copysign x r : (0 <= r)%R → copysign r x = on_side x r.
Proof. intros Hr. unfold copysign, on_side. by rewrite Rabs_right by lra. Qed.
Lemma sampled_between a b k N : (0 <= a)%R → (0 <= b)%R → 2 ≤ N → k < N → (0 <= a + INR k / INR (N - 1) * (b - a))%R ∧
  (Rmin a b <= a + INR k / INR (N - 1) * (b - a) <= Rmax a b)%R.
Proof.
  intros Ha Hb HN Hk. assert (HI : (0 < INR (N - 1))%R) by (apply lt_0_INR; lia).
  assert (Hq : (0 <= INR k / INR (N - 1) <= 1)%R).
  { split; [apply Rmult_le_pos; [apply pos_INR|left; by apply Rinv_0_lt_compat]|].
    apply (Rmult_le_reg_r (INR (N - 1))); [done|]. unfold Rdiv. rewrite Rmult_assoc, Rinv_l, Rmult_1_r, Rmult_1_l by lra. apply le_INR. lia. }
  set (q := (INR k / INR (N - 1))%R) in *. clearbody q.
  assert (Hm : (Rmin a b <= a + q * (b - a) <= Rmax a b)%R) by (unfold Rmin, Rmax; destruct (Rle_dec a b); nra).
  split; [|done]. assert (0 <= Rmin a b)%R by (by apply Rmin_glb). lra.
Qed.
Lemma traces_ray x r_S f time a b N : (0 <= a)%R → (0 <= b)%R → 2 ≤ N →
  (∀ r, r ≠ r_S → f r = Fin (time r)) → (f r_S = NInf ∨ f r_S = PInf) → traces (ray_rows x f (linspace a b N)) N x r_S a b time.
Proof.
  intros Ha Hb HN Hf HS. unfold ray_rows. split; [by rewrite fmap_length, linspace_length|]. intros k Hk r.
  destruct (sampled_between a b k N Ha Hb HN Hk) as [Hr _]. fold r in Hr. exists (f r). split; [|split; [apply Hf|by intros ->]].
  rewrite list_lookup_fmap. unfold linspace. rewrite list_lookup_fmap, lookup_seq_lt by done. cbn [fmap option_fmap option_map].
  replace (a + INR (0 + k) * ((b - a) / INR (N - 1)))%R with r.
  - by rewrite on_side_copysign.
  - unfold r. cbn [Nat.add]. field. apply not_0_INR. lia.
Qed.

(** Inside the horizon, rays of the Eddington-Finkelstein metric fall faster than light. *)
Lemma outgoing_inside r_S a b : (0 < r_S)%R → (0 <= a)%R → (a <= b)%R → (b < r_S)%R → (b - a <= outgoing r_S a - outgoing r_S b)%R.
Proof.
  intros Hp Ha Hab Hb. pose proof (ray_inside 1 r_S a b Hp ltac:(lra) Ha Hab Hb) as H1. unfold ray in H1. unfold outgoing. lra.
Qed.
Lemma outgoing_outside r_S a b : (0 < r_S)%R → (r_S < a)%R → (a <= b)%R → (b - a <= outgoing r_S b - outgoing r_S a)%R.
Proof. intros Hp Ha Hab. exact (ray_outside 2 r_S a b Hp ltac:(lra) Ha Hab). Qed.
Lemma tortoise_inside r_S a b : (0 < r_S)%R → (0 <= a)%R → (a <= b)%R → (b < r_S)%R → (tortoise r_S b <= tortoise r_S a)%R.
Proof. intros Hp Ha Hab Hb. rewrite <- !ray1. apply ray_inside; lra. Qed.
Lemma on_side_abs x r : (0 <= r)%R → Rabs (on_side x r) = r.
Proof. intros Hr. unfold on_side. case_decide; [rewrite Rabs_Ropp|]; rewrite Rabs_right; lra. Qed.
Lemma on_side_mul x r : (0 <= r)%R → (0 <= x * on_side x r)%R.
Proof. intros Hr. unfold on_side. case_decide; nra. Qed.
Lemma on_side_self x : on_side x (Rabs x) = x.
Proof. unfold on_side. case_decide; [rewrite Rabs_left|rewrite Rabs_right]; lra. Qed.
