(** Facts about SprinkledModel.v: the coordinates. *)
From Verif Require Import Base EventModel CausetModel BuildModel.
From Coq Require Import Reals Qreals Lra.
From Verif Require Import SpacetimeModel SpacetimeFacts ShapeModel SpecShape Prop_Shape EmbedModel SprinkledModel.
#[local] Open Scope nat_scope.

(** What is used of a random generator: random() lies in [0, 1). *)
Definition random_ok (g : rng) : Prop := ∀ k, (0 <= g_random g k < 1)%R.
(** No [b] consecutive normal draws are all zero (an event of probability zero, for which
    the code divides by zero). *)
Definition normal_ok (g : rng) (b : nat) : Prop := ∀ k, ∃ i, i < b ∧ g_normal g (k + i) ≠ 0%R.

Section facts.
Context (g : rng) (junk : nat → nat → R) (Hg : random_ok g).

Lemma uniform_range k lo hi : (lo <= hi)%R → (lo <= uniform g k lo hi <= hi)%R.
Proof using Hg.
  intros H. unfold uniform. pose proof (Hg k) as [H1 H2].
  assert (0 <= (hi - lo) * g_random g k)%R by (apply Rmult_le_pos; lra).
  assert ((hi - lo) * g_random g k <= (hi - lo) * 1)%R by (apply Rmult_le_compat_l; lra). lra.
Qed.
Lemma uniform_vec_length low : ∀ k high, length high = length low → length (uniform_vec g k low high) = length low.
Proof. induction low as [|l low IH]; intros k [|u high] H; cbn in *; try done. f_equal. apply IH. lia. Qed.

(** The b-th root. *)
Lemma py_root_spec x b : (0 <= x)%R → 1 ≤ b →
  let y := py_pow x (1 / INR b) in (0 <= y)%R ∧ (y ^ b = x)%R.
Proof.
  intros Hx Hb. cbn zeta. assert (HI : (0 < INR b)%R) by (apply lt_0_INR; lia).
  unfold py_pow. destruct (decide (x = 0%R)) as [->|Hn].
  - destruct (decide (1 / INR b = 0)%R) as [E|_].
    + exfalso. assert (0 < 1 / INR b)%R by (apply Rdiv_lt_0_compat; lra). lra.
    + split; [lra|]. apply pow_i. lia.
  - assert (0 < x)%R by lra. assert (Hp : (0 < Rpower x (1 / INR b))%R) by apply exp_pos. split; [lra|].
    rewrite <- Rpower_pow by done. rewrite Rpower_mult. replace (1 / INR b * INR b)%R with 1%R by (field; lra).
    by apply Rpower_1.
Qed.
Lemma pow_le_inv x y b : (0 <= y)%R → 1 ≤ b → (x ^ b <= y ^ b)%R → (x <= y)%R.
Proof.
  intros Hy Hb H. destruct (Rle_lt_dec x y) as [?|Hlt]; [done|]. exfalso.
  assert (y ^ b < x ^ b)%R; [|lra]. clear H. destruct b as [|b]; [lia|]. clear Hb.
  induction b as [|b IH]; cbn in *; [lra|].
  assert (0 <= y * y ^ b)%R by (apply Rmult_le_pos; [done|by apply pow_le]).
  apply Rmult_le_0_lt_compat; lra.
Qed.
Lemma py_root_range x b h : 1 ≤ b → (0 <= h)%R → (h ^ b <= x <= 1)%R →
  (h <= py_pow x (1 / INR b) <= 1)%R.
Proof.
  intros Hb Hh [H1 H2]. assert (0 <= h ^ b)%R by by apply pow_le.
  destruct (py_root_spec x b) as [Hy E]; [lra|done|]. split.
  - apply (pow_le_inv _ _ b); [done|done|lra].
  - apply (pow_le_inv _ _ b); [lra|done|]. rewrite pow1. lra.
Qed.

Lemma rsum_scale a (l : list R) : rsum ((λ x, a * x)%R <$> l) = (a * rsum l)%R.
Proof. induction l as [|x l IH]; [cbn; lra|]. rewrite fmap_cons, !rsum_cons, IH. lra. Qed.
Lemma sqsum_nonneg l : (0 <= sqsum l)%R.
Proof.
  unfold sqsum. induction l as [|x l IH]; [cbn; lra|]. rewrite fmap_cons, rsum_cons.
  pose proof (Rle_0_sqr x) as H. unfold Rsqr in H. lra.
Qed.
Lemma sqsum_pos l : (∃ x, x ∈ l ∧ x ≠ 0%R) → (0 < sqsum l)%R.
Proof.
  intros (x & Hx & Hn). induction l as [|y l IH]; [by apply elem_of_nil in Hx|].
  unfold sqsum in *. rewrite fmap_cons, rsum_cons. pose proof (Rle_0_sqr y) as H. unfold Rsqr in H.
  pose proof (sqsum_nonneg l) as H'. unfold sqsum in H'.
  apply elem_of_cons in Hx as [->|Hx]; [|specialize (IH Hx); lra].
  assert (0 < y * y)%R; [|lra]. pose proof (Rsqr_pos_lt y Hn) as Hp. done.
Qed.

(** The distance of the new point from the centre, in the coordinates from [start] on. *)
Lemma tail_dist s row start coord a :
  start ≤ sh_dim s → length coord = sh_dim s - start →
  (∀ i, i < sh_dim s - start → nth (start + i) row 0%R = (nth (start + i) (sh_center s) 0 + a * nth i coord 0)%R) →
  dist2_from s row start = (a * a * sqsum coord)%R.
Proof.
  intros Hs Hl Hrow. unfold dist2_from, sqsum. rewrite <- rsum_scale. f_equal.
  apply list_eq. intros i. rewrite !list_lookup_fmap.
  destruct (decide (i < sh_dim s - start)) as [Hi|Hi].
  - rewrite lookup_seq_lt by done. destruct (lookup_lt_is_Some_2 coord i) as [x Hx]; [lia|]. rewrite Hx. cbn. f_equal.
    unfold offset. rewrite Hrow by done. rewrite (nth_lookup_Some _ _ _ _ Hx). ring.
  - rewrite lookup_seq_ge by lia. rewrite (lookup_ge_None_2 coord) by lia. done.
Qed.
Lemma scaled_dist a q : (0 <= a)%R → (0 < q)%R → sqrt (a / sqrt q * (a / sqrt q) * q) = a.
Proof.
  intros Ha Hq. assert (Hs : (0 < sqrt q)%R) by by apply sqrt_lt_R0.
  replace (a / sqrt q * (a / sqrt q) * q)%R with (a * a)%R; [by apply sqrt_square|].
  rewrite <- (sqrt_sqrt q) at 3 by lra. field. lra.
Qed.
Lemma zip_nth (f : R → R → R) l1 : ∀ l2 i, length l1 = length l2 → i < length l1 →
  nth i (zip_with f l1 l2) 0%R = f (nth i l1 0%R) (nth i l2 0%R).
Proof.
  induction l1 as [|a l1 IH]; intros [|b l2] [|i] Hl Hi; cbn in *; try lia; [done|]. apply IH; lia.
Qed.
Lemma nth_drop (l : list R) n i : nth i (drop n l) 0%R = nth (n + i) l 0%R.
Proof. rewrite !nth_lookup, lookup_drop. done. Qed.

Definition direction (k b : nat) : list R := g_normal g <$> seq k b.
Lemma direction_pos k b : normal_ok g b → (0 < sqsum (direction k b))%R.
Proof.
  intros H. apply sqsum_pos. destruct (H k) as (i & Hi & Hn). exists (g_normal g (k + i)). split; [|done].
  apply elem_of_list_fmap_1, elem_of_seq. lia.
Qed.

(** One row of a ball ([start = 0]) or cylinder ([start = 1]): the distance from the centre is
    the radius times the b-th root of a uniform number of [h^b, 1]; the direction is that of
    the normal draws. *)
Lemma ball_row_spec s start k b_r h t :
  start = 0 ∨ start = 1 → 1 ≤ sh_dim s - start → length (sh_center s) = sh_dim s →
  (0 < b_r)%R → (0 <= h < 1)%R → normal_ok g (sh_dim s - start) →
  let b := sh_dim s - start in
  ∃ row, ball_row g false (sh_dim s) start k (sh_center s) b_r (h ^ b) t = (k + b + 1, Ok row) ∧
    length row = sh_dim s ∧ (start = 1 → nth 0 row 0%R = t) ∧
    sqrt (dist2_from s row start) = (py_pow (uniform g (k + b) (h ^ b) 1) (1 / INR b) * b_r)%R ∧
    ∃ a, (0 <= a)%R ∧ ∀ i, i < b → offset s row (start + i) = (a * g_normal g (k + i))%R.
Proof using Hg.
  intros Hstart Hb Hc Hr Hh Hno. cbn zeta. unfold ball_row. set (b := sh_dim s - start) in *.
  destruct (decide (b = 0)); [lia|]. cbn zeta.
  unfold assign_row. assert (Hdl : length (drop start (sh_center s)) = b) by (rewrite drop_length, Hc; done).
  destruct (decide (length (drop start (sh_center s)) = b)); [|done].
  fold (direction k b). set (dir := direction k b).
  assert (Hdir : length dir = b) by (unfold dir, direction; by rewrite fmap_length, seq_length).
  assert (Hq : (0 < sqsum dir)%R) by by apply direction_pos.
  set (sc := py_pow (uniform g (k + b) (h ^ b) 1) (1 / INR b)).
  assert (Hsc : (h <= sc <= 1)%R).
  { apply py_root_range; [done|lra|]. apply uniform_range. replace 1%R with (1 ^ b)%R by apply pow1. apply pow_incr. lra. }
  set (tl := zip_with _ _ _). assert (Htl : length tl = b) by (unfold tl; rewrite zip_with_length; lia).
  eexists. split; [reflexivity|].
  assert (Hnth : ∀ i, i < b → nth i tl 0%R = (nth (start + i) (sh_center s) 0 + sc * b_r / sqrt (sqsum dir) * nth i dir 0)%R).
  { intros i Hi. unfold tl. rewrite zip_nth by lia. by rewrite nth_drop. }
  assert (Hdist : ∀ row, (∀ i, i < b → nth (start + i) row 0%R = nth i tl 0%R) →
    sqrt (dist2_from s row start) = (sc * b_r)%R ∧
    ∃ a, (0 <= a)%R ∧ ∀ i, i < b → offset s row (start + i) = (a * g_normal g (k + i))%R).
  { intros row Hrow. split.
    - rewrite (tail_dist s row start dir (sc * b_r / sqrt (sqsum dir))).
      + rewrite scaled_dist; [done|apply Rmult_le_pos; lra|done].
      + lia. + done. + intros i Hi. by rewrite Hrow, Hnth.
    - exists (sc * b_r / sqrt (sqsum dir))%R. split.
      + assert (0 < sqrt (sqsum dir))%R by by apply sqrt_lt_R0. apply Rmult_le_pos; [apply Rmult_le_pos; lra|]. left. by apply Rinv_0_lt_compat.
      + intros i Hi. unfold offset. rewrite Hrow, Hnth by done.
        assert (E : nth i dir 0%R = g_normal g (k + i)); [|rewrite E; lra].
        unfold dir, direction. rewrite nth_lookup, list_lookup_fmap, lookup_seq_lt by done. done. }
  destruct Hstart as [-> | ->].
  - destruct (decide (0 = 0)); [|done]. split; [lia|split; [done|]]. apply Hdist. done.
  - destruct (decide (1 = 0)); [done|]. split; [cbn; lia|split; [done|]]. apply Hdist. done.
Qed.
Lemma ball_rows_spec s start b_r h :
  start = 0 ∨ start = 1 → 1 ≤ sh_dim s - start → length (sh_center s) = sh_dim s →
  (0 < b_r)%R → (0 <= h < 1)%R → normal_ok g (sh_dim s - start) → let b := sh_dim s - start in ∀ times k,
  ∃ rows, ball_rows g false (sh_dim s) start k (sh_center s) b_r (h ^ b) times =
           (k + length times * (b + 1), Ok rows) ∧
    length rows = length times ∧
    ∀ m row, rows !! m = Some row → length row = sh_dim s ∧ (start = 1 → times !! m = Some (nth 0 row 0%R)) ∧
      let k' := k + m * (b + 1) in
      sqrt (dist2_from s row start) = (py_pow (uniform g (k' + b) (h ^ b) 1) (1 / INR b) * b_r)%R ∧
      ∃ a, (0 <= a)%R ∧ ∀ i, i < b → offset s row (start + i) = (a * g_normal g (k' + i))%R.
Proof using Hg.
  intros Hstart Hb Hc Hr Hh Hno b. induction times as [|t times IH]; intros k; cbn [ball_rows].
  { exists []. split_and!; [f_equal; cbn; lia|done|]. intros m row H. by destruct m. }
  destruct (ball_row_spec s start k b_r h t Hstart Hb Hc Hr Hh Hno) as (row & E & Hl & Ht & Hd). fold b in E, Hd. rewrite E.
  destruct (IH (k + b + 1)) as (rows & E' & Hn & Hrows). rewrite E'. cbn [res_map].
  eexists. split_and!; [f_equal; cbn [length]; lia|cbn; congruence|].
  intros [|m] row' Hm; cbn in Hm.
  - injection Hm as <-. split; [done|split; [intros Hs; cbn; by rewrite (Ht Hs)|]]. cbn zeta. rewrite Nat.mul_0_l, Nat.add_0_r. exact Hd.
  - destruct (Hrows m row' Hm) as (R1 & R2 & R3). split; [done|split; [done|]]. cbn zeta in *.
    replace (k + S m * (b + 1)) with (k + b + 1 + m * (b + 1)) by lia. exact R3.
Qed.
Lemma scaled_range h b b_r k : 1 ≤ b → (0 < b_r)%R → (0 <= h < 1)%R →
  (h * b_r <= py_pow (uniform g k (h ^ b) 1) (1 / INR b) * b_r <= b_r)%R.
Proof using Hg.
  intros Hb Hr Hh. assert (Hsc : (h <= py_pow (uniform g k (h ^ b) 1) (1 / INR b) <= 1)%R).
  { apply py_root_range; [done|lra|]. apply uniform_range. replace 1%R with (1 ^ b)%R by apply pow1. apply pow_incr. lra. }
  split; [apply Rmult_le_compat_r; lra|].
  assert (py_pow (uniform g k (h ^ b) 1) (1 / INR b) * b_r <= 1 * b_r)%R by (apply Rmult_le_compat_r; lra). lra.
Qed.
(** The root of the uniform number is at most rho exactly if the random number is at most the
    share of the volume within rho. *)
Lemma root_cdf h b rho k : 1 ≤ b → (0 <= h < 1)%R → (0 <= rho)%R →
  (py_pow (uniform g k (h ^ b) 1) (1 / INR b) <= rho ↔ g_random g k <= (rho ^ b - h ^ b) / (1 - h ^ b))%R.
Proof using Hg.
  intros Hb Hh Hrho. assert (Hhb : (0 <= h ^ b)%R) by (apply pow_le; lra).
  assert (Hh1 : (h ^ b < 1)%R).
  { destruct b as [|b']; [lia|]. cbn. assert (h ^ b' <= 1)%R by (replace 1%R with (1 ^ b')%R by apply pow1; apply pow_incr; lra).
    assert (0 <= h ^ b')%R by (apply pow_le; lra). assert (h * h ^ b' <= h * 1)%R by (apply Rmult_le_compat_l; lra). lra. }
  destruct (py_root_spec (uniform g k (h ^ b) 1) b) as [Hy E]; [pose proof (uniform_range k (h ^ b) 1); lra|done|].
  set (y := py_pow _ _) in *. transitivity (uniform g k (h ^ b) 1 <= rho ^ b)%R.
  - rewrite <- E. split; [intros; by apply pow_incr|by apply pow_le_inv].
  - unfold uniform. set (u := g_random g k). split; intros H.
    + apply (Rmult_le_reg_r (1 - h ^ b)); [lra|]. unfold Rdiv. rewrite Rmult_assoc, Rinv_l by lra. lra.
    + apply (Rmult_le_compat_r (1 - h ^ b)) in H; [|lra]. unfold Rdiv in H. rewrite Rmult_assoc, Rinv_l in H by lra. lra.
Qed.
(** The exact values of a box row. *)
Lemma uniform_vec_exact low : ∀ k high i, length high = length low → i < length low →
  nth i (uniform_vec g k low high) 0%R = uniform g (k + i) (nth i low 0%R) (nth i high 0%R).
Proof.
  induction low as [|l low IH]; intros k [|u high] [|i] Hl Hi; cbn in *; try lia.
  - by rewrite Nat.add_0_r.
  - rewrite IH by lia. f_equal. lia.
Qed.
Lemma box_rows_exact d low high : length low = d → length high = d → ∀ n k,
  ∃ rows, box_rows g n d k low high = (k + n * d, Ok rows) ∧ length rows = n ∧
    ∀ m row, rows !! m = Some row → length row = d ∧
      ∀ i, i < d → nth i row 0%R = uniform g (k + m * d + i) (nth i low 0%R) (nth i high 0%R).
Proof.
  intros Hl Hh. induction n as [|n IH]; intros k; cbn [box_rows].
  { exists []. split_and!; [f_equal; lia|done|]. intros m row Hr. by destruct m. }
  assert (Hlen : length (uniform_vec g k low high) = d) by (rewrite uniform_vec_length; congruence).
  unfold assign_row. destruct (decide (length (uniform_vec g k low high) = d)); [|done].
  destruct (IH (k + length low)) as (rows & E & Hn & Hr). cbn zeta. rewrite E. cbn [res_map].
  eexists. split_and!; [f_equal; rewrite Hl; lia|cbn; congruence|].
  intros [|m] row Hm; cbn in Hm.
  - injection Hm as <-. split; [done|]. intros i Hi. rewrite uniform_vec_exact by lia. f_equal. lia.
  - destruct (Hr m row Hm) as [R1 R2]. split; [done|]. intros i Hi. rewrite R2 by done. f_equal. rewrite Hl. lia.
Qed.
End facts.
