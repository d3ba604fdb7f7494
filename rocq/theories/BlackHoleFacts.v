(** Facts about the black hole causality of /repo/spacetimes.py:748-788. *)
From Verif Require Import Base SpacetimeModel SpacetimeFacts.
From Coq Require Import Reals Rtrigo_def Lra Psatz.
#[local] Open Scope nat_scope.

(** The outgoing light ray through the origin, off the horizon; [c] is 1 for the Schwarzschild
    and 2 for the Eddington-Finkelstein metric. *)
Definition ray (c r_S r : R) : R := (r + c * r_S * ln (Rabs (r - r_S) / r_S))%R.

Lemma light_eq c r_S r : (0 < r_S)%R → (0 < c)%R →
  fl_add (Fin (r - 0 + 0)) (fl_scale (c * r_S) (fl_log_abs ((r - r_S) / (0 - r_S)))) =
  if decide (r = r_S) then NInf else Fin (ray c r_S r).
Proof.
  intros Hp Hc. unfold fl_log_abs. destruct (decide (r = r_S)) as [->|Hne].
  - rewrite decide_True; [done|]. unfold Rdiv. rewrite Rminus_diag_eq by done. lra.
  - rewrite decide_False.
    + cbn. f_equal. unfold ray. do 2 f_equal; [lra|]. do 2 f_equal.
      unfold Rdiv. rewrite Rabs_mult. f_equal.
      rewrite Rminus_0_l, Rabs_inv, Rabs_Ropp, Rabs_pos_eq; lra.
    + intros H. apply Rmult_integral in H as [H|H]; [lra|].
      revert H. apply Rinv_neq_0_compat. lra.
Qed.

Lemma ln_ge (u : R) : (0 < u)%R → (1 - / u <= ln u)%R.
Proof.
  intros Hu. destruct (Req_dec (/ u) 1) as [H1|H1].
  { assert (u = 1)%R as ->. { rewrite <- (Rinv_inv u), H1. apply Rinv_1. }
    rewrite ln_1, Rinv_1. lra. }
  assert (0 < / u)%R by by apply Rinv_0_lt_compat.
  assert (ln u = - ln (/ u))%R as -> by (rewrite ln_Rinv by done; lra).
  assert (ln (/ u) <> 0)%R as Hl.
  { intros H0. apply H1. rewrite <- (exp_ln (/ u)), H0 by done. apply exp_0. }
  pose proof (exp_ineq1 (ln (/ u)) Hl) as He. rewrite exp_ln in He by done. lra.
Qed.

Lemma ray_outside c r_S a b : (0 < r_S)%R → (0 < c)%R → (r_S < a)%R → (a <= b)%R →
  (b - a <= ray c r_S b - ray c r_S a)%R.
Proof.
  intros Hp Hc Ha Hab. unfold ray. rewrite !Rabs_pos_eq by lra.
  assert (ln ((a - r_S) / r_S) <= ln ((b - r_S) / r_S))%R.
  { assert (0 < (a - r_S) / r_S)%R by (apply Rdiv_lt_0_compat; lra).
    destruct (Req_dec a b) as [-> |Hne]; [lra|]. left. apply ln_increasing; [done|].
    apply Rmult_lt_compat_r; [by apply Rinv_0_lt_compat|lra]. }
  assert (0 < c * r_S)%R by nra. nra.
Qed.
Lemma ray_inside c r_S a b : (0 < r_S)%R → (1 <= c)%R → (0 <= a)%R → (a <= b)%R → (b < r_S)%R →
  (ray c r_S b <= ray c r_S a)%R.
Proof.
  intros Hp Hc Ha Hab Hb. unfold ray. rewrite !Rabs_left by lra.
  assert (0 < - (a - r_S) / r_S)%R by (apply Rdiv_lt_0_compat; lra).
  assert (0 < - (b - r_S) / r_S)%R by (apply Rdiv_lt_0_compat; lra).
  assert ((b - a) / r_S <= ln (- (a - r_S) / r_S) - ln (- (b - r_S) / r_S))%R as Hln.
  { assert (0 < (r_S - a) / (r_S - b))%R as Hu by (apply Rdiv_lt_0_compat; lra).
    replace (ln (- (a - r_S) / r_S) - ln (- (b - r_S) / r_S))%R with (ln ((r_S - a) / (r_S - b)))%R.
    2:{ assert ((r_S - a) / (r_S - b) = (- (a - r_S) / r_S) * / (- (b - r_S) / r_S))%R as ->.
        { field. lra. }
        rewrite ln_mult, ln_Rinv; [lra|done|done|by apply Rinv_0_lt_compat]. }
    etransitivity; [|by apply ln_ge].
    replace (1 - / ((r_S - a) / (r_S - b)))%R with ((b - a) / (r_S - a))%R by (field; lra).
    unfold Rdiv. apply Rmult_le_compat_l; [lra|]. apply Rinv_le_contravar; lra. }
  assert (b - a <= r_S * (ln (- (a - r_S) / r_S) - ln (- (b - r_S) / r_S)))%R.
  { replace (b - a)%R with (r_S * ((b - a) / r_S))%R by (field; lra).
    apply Rmult_le_compat_l; lra. }
  assert (b - a <= c * (r_S * (ln (- (a - r_S) / r_S) - ln (- (b - r_S) / r_S))))%R by nra.
  lra.
Qed.

(** ** The causality condition in terms of radii and the time difference *)
Definition bh_cond (schw : bool) (r_S r_x r_y t : R) : bool :=
  let f := if schw then light_S_out r_S 0 0 else light_EF_out r_S 0 0 in
  let t_out := fl_sub (f r_y) (f r_x) in
  let t_in := if schw then fl_neg t_out else Fin (r_x - r_y) in
  if decide (r_y <= r_x ∧ r_x <= r_S)%R then fl_ge t_out (Fin t) && fl_ge (Fin t) t_in
  else if decide (r_S <= r_x ∧ r_y <= r_x)%R then fl_ge (Fin t) t_in
  else if decide (r_S <= r_x ∧ r_x <= r_y)%R then fl_ge (Fin t) t_out
  else false.
Definition bh_swapped (schw : bool) (r_S r_x r_y t : R) : bool :=
  if schw && (bool_decide (r_x < r_S)%R || bool_decide (r_y < r_S)%R)
  then bool_decide (r_x < r_y)%R else bool_decide (t < 0)%R.
Lemma isCausal_BH2D_eq schw r_S x y :
  isCausal_BH2D schw r_S x y =
  if decide (cget x 1 * cget y 1 < 0)%R then (false, false)
  else
    let t := (cget y 0 - cget x 0)%R in
    let r_x := Rabs (cget x 1) in let r_y := Rabs (cget y 1) in
    if bh_swapped schw r_S r_x r_y t then (false, bh_cond schw r_S r_y r_x (- t))
    else (bh_cond schw r_S r_x r_y t, false).
Proof.
  unfold isCausal_BH2D, bh_swapped, bh_cond. destruct (decide _); [done|].
  cbn zeta.
  match goal with |- context [if ?b then (?p, ?q, ?r) else _] => destruct b end; done.
Qed.

Definition EF_prec (r_S r_x r_y t : R) : Prop :=
  (0 <= t)%R ∧
  (((r_y <= r_x)%R ∧ (r_x - r_y <= t)%R ∧ ¬ (r_x = r_S ∧ r_y = r_S) ∧
    ((r_x < r_S)%R → (t <= ray 2 r_S r_y - ray 2 r_S r_x)%R))
   ∨ ((r_S < r_x)%R ∧ (r_x < r_y)%R ∧ (ray 2 r_S r_y - ray 2 r_S r_x <= t)%R)).
Definition S_prec (r_S r_x r_y t : R) : Prop :=
  ((r_S < r_x)%R ∧ (r_S < r_y)%R ∧ (Rabs (ray 1 r_S r_x - ray 1 r_S r_y) <= t)%R)
  ∨ ((r_y < r_S)%R ∧ (r_S < r_x)%R ∧ (ray 1 r_S r_x - ray 1 r_S r_y <= t)%R)
  ∨ (r_x = r_S ∧ (r_y < r_S)%R)
  ∨ ((r_y <= r_x)%R ∧ (r_x < r_S)%R ∧ (Rabs t <= ray 1 r_S r_y - ray 1 r_S r_x)%R).

Lemma EF_char r_S r_x r_y t :
  (0 < r_S)%R → (0 <= r_x)%R → (0 <= r_y)%R →
  (bh_swapped false r_S r_x r_y t = false ∧ bh_cond false r_S r_x r_y t = true)
  ↔ EF_prec r_S r_x r_y t.
Proof.
  intros Hp Hx Hy. unfold bh_swapped, bh_cond, EF_prec. cbn [andb].
  rewrite bool_decide_eq_false.
  unfold light_EF_out. rewrite !(light_eq 2) by lra.
  assert (Hm : ∀ a b, (r_S < a)%R → (a <= b)%R → (b - a <= ray 2 r_S b - ray 2 r_S a)%R).
  { intros. apply ray_outside; lra. }
  pose proof (Hm r_x r_y) as M1. pose proof (Hm r_y r_x) as M2. clear Hm.
  destruct (decide (r_x = r_S)) as [Ex|Ex]; destruct (decide (r_y = r_S)) as [Ey|Ey];
  destruct (decide (r_y <= r_x ∧ r_x <= r_S)%R) as [[D1 D1']|D1]; try lra;
  try (destruct (decide (r_S <= r_x ∧ r_y <= r_x)%R) as [[D2 D2']|D2]; try lra);
  try (destruct (decide (r_S <= r_x ∧ r_x <= r_y)%R) as [[D3 D3']|D3]; try lra);
  cbn [fl_sub fl_add fl_neg fl_ge andb];
  rewrite ?andb_true_iff, ?bool_decide_eq_true.
  all: try (split; [intros [Ht Hc]|intros [Ht [(A & B & C & D)|(A & B & C)]]];
    first [discriminate | split; [lra|done] | idtac]).
  all: try (split; [lra|]).
  all: try solve [left; split_and!; intros; lra].
  all: try solve [right; split_and!; intros; lra].
  all: try solve [exfalso; lra].
  all: try solve [specialize (D ltac:(lra)); split; lra].
  all: try lra.
  all: try (exfalso; apply C; split; lra).
  all: try done.
Qed.

Lemma Rabs_le_iff a b : (Rabs a <= b)%R ↔ (a <= b)%R ∧ (- b <= a)%R.
Proof. unfold Rabs. destruct (Rcase_abs a); lra. Qed.

Lemma S_char r_S r_x r_y t :
  (0 < r_S)%R → (0 <= r_x)%R → (0 <= r_y)%R →
  (bh_swapped true r_S r_x r_y t = false ∧ bh_cond true r_S r_x r_y t = true)
  ↔ S_prec r_S r_x r_y t.
Proof.
  intros Hp Hx Hy. unfold bh_swapped, bh_cond, S_prec. cbn [andb].
  unfold light_S_out.
  assert (∀ r, fl_add (Fin (r - 0 + 0)) (fl_scale r_S (fl_log_abs ((r - r_S) / (0 - r_S)))) =
               if decide (r = r_S) then NInf else Fin (ray 1 r_S r)) as Hl.
  { intros r. rewrite <- (light_eq 1) by lra. by rewrite Rmult_1_l. }
  rewrite !Hl. clear Hl.
  assert (Hm : ∀ a b, (r_S < a)%R → (a <= b)%R → (b - a <= ray 1 r_S b - ray 1 r_S a)%R).
  { intros. apply ray_outside; lra. }
  pose proof (Hm r_x r_y) as M1. pose proof (Hm r_y r_x) as M2. clear Hm.
  assert (Hi : ∀ a b, (0 <= a)%R → (a <= b)%R → (b < r_S)%R → (ray 1 r_S b <= ray 1 r_S a)%R).
  { intros. apply ray_inside; lra. }
  pose proof (Hi r_x r_y) as I1. pose proof (Hi r_y r_x) as I2. clear Hi.
  rewrite !Rabs_le_iff.
  destruct (decide (r_x = r_S)) as [Ex|Ex]; destruct (decide (r_y = r_S)) as [Ey|Ey];
  (destruct (decide (r_x < r_S)%R) as [Lx|Lx];
   [rewrite (bool_decide_true (r_x < r_S)%R) by done
   |rewrite (bool_decide_false (r_x < r_S)%R) by done]); try lra;
  (destruct (decide (r_y < r_S)%R) as [Ly|Ly];
   [rewrite (bool_decide_true (r_y < r_S)%R) by done
   |rewrite (bool_decide_false (r_y < r_S)%R) by done]); try lra;
  cbn [orb]; rewrite ?bool_decide_eq_false;
  destruct (decide (r_y <= r_x ∧ r_x <= r_S)%R) as [[D1 D1']|D1]; try lra;
  try (destruct (decide (r_S <= r_x ∧ r_y <= r_x)%R) as [[D2 D2']|D2]; try lra);
  try (destruct (decide (r_S <= r_x ∧ r_x <= r_y)%R) as [[D3 D3']|D3]; try lra);
  cbn [fl_sub fl_add fl_neg fl_ge andb];
  rewrite ?andb_true_iff, ?bool_decide_eq_true; try lra.
  all: split; [intros [Ht Hc]; try discriminate|intros [(A & B & C)|[(A & B & C)|[(A & B)|(A & B & C)]]];
    try (exfalso; lra)].
  all: try (split; [lra|done]).
  all: lra.
Qed.

Lemma EF_trans r_S r_x r_y r_z s t :
  (0 < r_S)%R → (0 <= r_x)%R → (0 <= r_y)%R → (0 <= r_z)%R →
  EF_prec r_S r_x r_y s → EF_prec r_S r_y r_z t → EF_prec r_S r_x r_z (s + t).
Proof.
  intros Hp Hx Hy Hz [Hs H1] [Ht H2].
  assert (Hm : ∀ a b, (r_S < a)%R → (a <= b)%R → (b - a <= ray 2 r_S b - ray 2 r_S a)%R).
  { intros. apply ray_outside; lra. }
  split; [lra|].
  destruct H1 as [(A & B & C & D)|(A & B & C)], H2 as [(A' & B' & C' & D')|(A' & B' & C')].
  - left. split_and!; [lra|lra|intros [? ?]; apply C; split; lra|].
    intros Hlt. specialize (D Hlt). specialize (D' ltac:(lra)). lra.
  - destruct (Rle_dec r_z r_x).
    + left. pose proof (Hm r_y r_z ltac:(lra) ltac:(lra)).
      split_and!; [lra|lra|intros [? ?]; lra|lra].
    + right. pose proof (Hm r_y r_x ltac:(lra) ltac:(lra)). split_and!; lra.
  - pose proof (Hm r_x r_y ltac:(lra) ltac:(lra)). destruct (Rle_dec r_z r_x).
    + left. split_and!; [lra|lra|intros [? ?]; lra|lra].
    + right. pose proof (Hm r_z r_y ltac:(lra) ltac:(lra)). split_and!; lra.
  - right. split_and!; lra.
Qed.
Lemma S_trans r_S r_x r_y r_z s t :
  (0 < r_S)%R → (0 <= r_x)%R → (0 <= r_y)%R → (0 <= r_z)%R →
  S_prec r_S r_x r_y s → S_prec r_S r_y r_z t → S_prec r_S r_x r_z (s + t).
Proof.
  intros Hp Hx Hy Hz H1 H2. unfold S_prec in *. rewrite !Rabs_le_iff in *.
  destruct H1 as [(A & B & C)|[(A & B & C)|[(A & B)|(A & B & C)]]];
  destruct H2 as [(A' & B' & C')|[(A' & B' & C')|[(A' & B')|(A' & B' & C')]]]; try lra.
Qed.

(** ** Exchanging the arguments *)
(** Two points in both orders: they are the same point. *)
Lemma EF_prec_antisym r_S r_x r_y t :
  EF_prec r_S r_x r_y t → EF_prec r_S r_y r_x (- t) → r_x = r_y ∧ t = 0%R.
Proof.
  intros [H1 H2] [H3 H4]. assert (t = 0)%R as -> by lra.
  split; [|done].
  destruct H2 as [(A & B & C & D)|(A & B & C)], H4 as [(A' & B' & C' & D')|(A' & B' & C')]; lra.
Qed.
Lemma S_prec_antisym r_S r_x r_y t :
  (0 < r_S)%R → (0 <= r_x)%R → (0 <= r_y)%R →
  S_prec r_S r_x r_y t → S_prec r_S r_y r_x (- t) → r_x = r_y ∧ t = 0%R.
Proof.
  intros Hp Hx Hy H1 H2. unfold S_prec in *. rewrite !Rabs_le_iff in *.
  assert (Hm : ∀ a b, (r_S < a)%R → (a <= b)%R → (b - a <= ray 1 r_S b - ray 1 r_S a)%R).
  { intros. apply ray_outside; lra. }
  destruct H1 as [(A & B & C)|[(A & B & C)|[(A & B)|(A & B & C)]]];
  destruct H2 as [(A' & B' & C')|[(A' & B' & C')|[(A' & B')|(A' & B' & C')]]]; try lra.
  - assert (t = 0)%R as -> by lra. split; [|done].
    destruct (Rle_dec r_x r_y).
    + pose proof (Hm r_x r_y ltac:(lra) ltac:(lra)). lra.
    + pose proof (Hm r_y r_x ltac:(lra) ltac:(lra)). lra.
Qed.
Lemma EF_prec_refl r_S r : r ≠ r_S → (0 < r_S)%R → (0 <= r)%R → EF_prec r_S r r 0.
Proof.
  intros Hr Hp H0. split; [lra|]. left. split_and!; [lra|lra|intros [? ?]; done|intros; lra].
Qed.
Lemma S_prec_refl r_S r : r ≠ r_S → (0 < r_S)%R → (0 <= r)%R → S_prec r_S r r 0.
Proof.
  intros Hr Hp H0. unfold S_prec. rewrite !Rabs_le_iff.
  destruct (Rle_dec r r_S); [right; right; right|left]; split_and!; lra.
Qed.

Definition BH_prec (schw : bool) (r_S r_x r_y t : R) : Prop :=
  if schw then S_prec r_S r_x r_y t else EF_prec r_S r_x r_y t.
Lemma BH_char schw r_S r_x r_y t :
  (0 < r_S)%R → (0 <= r_x)%R → (0 <= r_y)%R →
  (bh_swapped schw r_S r_x r_y t = false ∧ bh_cond schw r_S r_x r_y t = true)
  ↔ BH_prec schw r_S r_x r_y t.
Proof. destruct schw; [apply S_char|apply EF_char]. Qed.

Lemma isCausal_BH2D_fst schw r_S x y : (0 < r_S)%R →
  (isCausal_BH2D schw r_S x y).1 = true ↔
  (0 <= cget x 1 * cget y 1)%R ∧
  BH_prec schw r_S (Rabs (cget x 1)) (Rabs (cget y 1)) (cget y 0 - cget x 0).
Proof.
  intros Hp. rewrite isCausal_BH2D_eq.
  rewrite <- BH_char by (try apply Rabs_pos; done).
  destruct (decide _) as [Hn|Hn]; [cbn; split; [done|intros [? ?]; lra]|]. cbn zeta.
  destruct (bh_swapped _ _ _ _ _); cbn; split; try done.
  - by intros (_ & ? & _).
  - intros ->. split; [lra|done].
  - by intros (_ & _ & ?).
Qed.
Lemma bh_swapped_anti schw r_S r_x r_y t :
  bh_swapped schw r_S r_x r_y t = true → bh_swapped schw r_S r_y r_x (- t) = false.
Proof.
  unfold bh_swapped. rewrite (orb_comm (bool_decide (r_y < r_S)%R)).
  destruct (schw && _); rewrite bool_decide_eq_true, bool_decide_eq_false; lra.
Qed.
Lemma BH_swap schw r_S x y :
  (0 < r_S)%R →
  isCausal_BH2D schw r_S y x =
    ((isCausal_BH2D schw r_S x y).2, (isCausal_BH2D schw r_S x y).1)
  ∨ (isCausal_BH2D schw r_S x y = (true, false) ∧ isCausal_BH2D schw r_S y x = (true, false) ∧
     cget x 0 = cget y 0 ∧ cget x 1 = cget y 1).
Proof.
  intros Hp. rewrite !isCausal_BH2D_eq, (Rmult_comm (cget y 1)).
  destruct (decide _) as [Hn|Hn]; [by left|]. cbn zeta.
  replace (cget x 0 - cget y 0)%R with (- (cget y 0 - cget x 0))%R by lra.
  set (t := (cget y 0 - cget x 0)%R).
  pose proof (Rabs_pos (cget x 1)) as P1. pose proof (Rabs_pos (cget y 1)) as P2.
  assert (Rabs (cget x 1) = Rabs (cget y 1) → cget x 1 = cget y 1) as Habs.
  { unfold Rabs. destruct (Rcase_abs _), (Rcase_abs _); nra. }
  set (r_x := Rabs (cget x 1)) in *. set (r_y := Rabs (cget y 1)) in *.
  destruct (bh_swapped schw r_S r_x r_y t) eqn:E1.
  - rewrite (bh_swapped_anti _ _ _ _ _ E1). by left.
  - destruct (bh_swapped schw r_S r_y r_x (- t)) eqn:E2.
    + left. by rewrite Ropp_involutive.
    + destruct (bh_cond schw r_S r_x r_y t) eqn:C1, (bh_cond schw r_S r_y r_x (- t)) eqn:C2;
        cbn; [right|right; exfalso|right; exfalso|by left].
      * assert (BH_prec schw r_S r_x r_y t) as B1 by by apply BH_char.
        assert (BH_prec schw r_S r_y r_x (- t)) as B2 by by apply BH_char.
        assert (r_x = r_y ∧ t = 0%R) as [Hr Ht].
        { destruct schw; [by eapply S_prec_antisym|by eapply EF_prec_antisym]. }
        split_and!; [done|done|unfold t in Ht; lra|by apply Habs].
      * assert (BH_prec schw r_S r_x r_y t) as B1 by by apply BH_char.
        assert (r_x = r_y ∧ t = 0%R ∧ r_x ≠ r_S) as (Hr & Ht & Hs).
        { clear Habs C1 C2. clearbody t r_x r_y. revert E1 E2 B1.
          unfold bh_swapped, BH_prec. destruct schw; cbn [andb].
          - unfold S_prec. rewrite !Rabs_le_iff.
            pose proof (λ a b H1 H2, ray_outside 1 r_S a b Hp ltac:(lra) H1 H2) as Hm.
            pose proof (Hm r_x r_y) as M1. pose proof (Hm r_y r_x) as M2. clear Hm.
            repeat case_bool_decide; cbn [orb]; rewrite ?bool_decide_eq_false; intros; try done; try lra.
            all: first [destruct (Rle_dec r_x r_y); lra | assert (r_x = r_y) as -> by lra; lra].
          - rewrite !bool_decide_eq_false. unfold EF_prec. intros ? ? [? HH].
            assert (t = 0)%R as -> by lra.
            pose proof (λ a b H1 H2, ray_outside 2 r_S a b Hp ltac:(lra) H1 H2) as Hm.
            pose proof (Hm r_x r_y) as M1. pose proof (Hm r_y r_x) as M2. clear Hm.
            destruct HH as [(? & ? & ? & ?)|(? & ? & ?)]; lra. }
        rewrite Hr, Ht, Ropp_0 in C2. rewrite Hr in Hs.
        assert (BH_prec schw r_S r_y r_y 0) as B.
        { destruct schw; [by apply S_prec_refl|by apply EF_prec_refl]. }
        apply BH_char in B as [_ B]; [|done..]. congruence.
      * assert (BH_prec schw r_S r_y r_x (- t)) as B1 by by apply BH_char.
        assert (r_x = r_y ∧ t = 0%R ∧ r_x ≠ r_S) as (Hr & Ht & Hs).
        { clear Habs C1 C2. clearbody t r_x r_y. revert E1 E2 B1.
          unfold bh_swapped, BH_prec. destruct schw; cbn [andb].
          - unfold S_prec. rewrite !Rabs_le_iff.
            pose proof (λ a b H1 H2, ray_outside 1 r_S a b Hp ltac:(lra) H1 H2) as Hm.
            pose proof (Hm r_x r_y) as M1. pose proof (Hm r_y r_x) as M2. clear Hm.
            repeat case_bool_decide; cbn [orb]; rewrite ?bool_decide_eq_false; intros; try done; try lra.
            all: first [destruct (Rle_dec r_x r_y); lra | assert (r_x = r_y) as -> by lra; lra].
          - rewrite !bool_decide_eq_false. unfold EF_prec. intros ? ? [? HH].
            assert (t = 0)%R as -> by lra.
            pose proof (λ a b H1 H2, ray_outside 2 r_S a b Hp ltac:(lra) H1 H2) as Hm.
            pose proof (Hm r_x r_y) as M1. pose proof (Hm r_y r_x) as M2. clear Hm.
            destruct HH as [(? & ? & ? & ?)|(? & ? & ?)]; lra. }
        rewrite Hr, Ht in C1. rewrite Hr in Hs.
        assert (BH_prec schw r_S r_y r_y 0) as B.
        { destruct schw; [by apply S_prec_refl|by apply EF_prec_refl]. }
        apply BH_char in B as [_ B]; [|done..]. congruence.
Qed.
