(** Causal cones of black holes (C83). *)
From Verif Require Import Base SpacetimeModel SpacetimeFacts BlackHoleFacts Prop_Spacetime ShapeModel OutlineModel SpecOutline Prop_Outline SurfaceFacts Prop_Calc CalcModel ConeModel SpecCone Prop_Cone BlackHoleConeModel SpecBlackHole BlackHoleConeFacts.
From Coq Require Import Reals Lra Psatz.
#[local] Open Scope nat_scope.

Lemma precission_pos : (0 < precission)%R.
Proof. unfold precission. lra. Qed.
(** Accuracy of the end of a ray with c = 1 (Schwarzschild) or 2 (Eddington-Finkelstein): at most
    c r_S p^2 / (d (d - p)), where p is the precision 10^-6 and d the distance to the horizon. *)
Definition accuracy (c r_S r : R) : R :=
  let p := (1 / 1000000)%R in let d := Rabs (r - r_S) in (c * r_S * (p * p) / (d * (d - p)))%R.

(** ** Eddington-Finkelstein metric *)
Theorem C83_EddingtonFinkelstein (r_S t0 x0 ts : R) (n : Z) :
  let r0 := Rabs x0 in let N := edge_count n in let p := (1 / 1000000)%R in
  (* the outgoing light ray of the origin *)
  let time r := (t0 + (outgoing r_S r - outgoing r_S r0))%R in
  (* inside the horizon the cone ends at the latest when the outgoing ray reaches the centre *)
  let t_end := if decide (r0 < r_S)%R then Rmin ts (time 0%R) else ts in
  (0 < r_S)%R → r0 ≠ r_S → (r0 < r_S → p <= r_S)%R → 2 ≤ N →
  ∃ r_out out, BH_XT_slice false r_S ts [t0; x0] 1 n =
      Ok (out ++ if decide (t0 + r0 < ts)%R then [vertex 0 t_end; vertex 0 (t0 + r0)]
                 else [vertex (on_side x0 (r0 - (ts - t0))) ts]) ∧
    traces out N x0 r_S r0 r_out time ∧
    (* the ray ends at the time slice, unless Newton's method failed *)
    (r_out = 0%R ∨
     (r_S < r0 → r_S <= r_out)%R ∧ (r0 < r_S → 0 <= r_out <= r_S)%R ∧
     ((p < Rabs (r_out - r_S))%R → (r0 < r_S → p < r_out)%R → (t_end - accuracy 2 r_S r_out <= time r_out <= t_end)%R)).
Proof.
  intros r0 N p time t_end Hp H0 Hsm HN. assert (Hr0 : (0 <= r0)%R) by apply Rabs_pos.
  unfold BH_XT_slice. assert (EI : np_index [t0; x0] 1 = Ok (A := R) x0) by done. rewrite EI. cbn [res_map]. rewrite edge_count_sampling. fold N.
  unfold EF_XT_rows. fold r0. cbv zeta. unfold cget. cbn [nth].
  assert (Ef : ∀ r, light_EF_out r_S t0 r0 r = if decide (r = r_S) then NInf else Fin (time r)) by (intros r; by rewrite EF_out).
  assert (E0 : light_EF_out r_S t0 r0 0 = Fin (time 0%R)) by (rewrite Ef, decide_False by lra; done). rewrite E0. cbn [fl_min].
  rewrite (decide_False (P := r0 = r_S)) by done.
  assert (Et : (if decide (r0 < r_S)%R then Rmin ts (time 0%R) else ts) = t_end) by done. rewrite Et.
  set (r_out := if decide (r0 < r_S)%R then Newton _ _ _ _ _ _ else Newton _ _ _ _ _ _).
  assert (HNt : r_out = 0%R ∨ (r_S < r0 → r_S <= r_out)%R ∧ (r0 < r_S → 0 <= r_out <= r_S)%R ∧
     ((p < Rabs (r_out - r_S))%R → (r0 < r_S → p < r_out)%R → (t_end - accuracy 2 r_S r_out <= time r_out <= t_end)%R)).
  { assert (HNS : ∀ xs xmin xmax, (∀ m M, xmin = Some m → xmax = Some M → (m + precission <= M)%R) →
      let r := Newton (light_EF_out r_S t0 r0) (light_EF_out_d1 r_S) xs t_end xmin xmax in
      r = 0%R ∨ (∀ m, xmin = Some m → (m <= r)%R) ∧ (∀ m, xmax = Some m → (r <= m)%R) ∧
      ((∀ m, xmin = Some m → (m + precission < r)%R) → (∀ m, xmax = Some m → (r < m - precission)%R) → (precission < Rabs (r - r_S))%R →
       (t_end - accuracy 2 r_S r <= time r <= t_end)%R)).
    { intros xs xmin xmax Hb r.
      destruct (Newton_spec 2 r_S ltac:(lra) Hp 1 (t0 - outgoing r_S r0) (light_EF_out r_S t0 r0) (light_EF_out_d1 r_S) xs t_end xmin xmax) as [E|(H1 & H2 & H3)]; [by left| | |done|by left|].
      - intros q Hq. rewrite Ef, decide_False by done. cbn [fl_real]. unfold time. unfold ray, outgoing. ring.
      - intros q. unfold light_EF_out_d1. ring.
      - right. fold r in H1, H2, H3. split; [done|]. split; [done|]. intros A B C. specialize (H3 A B C).
        assert (Hne : r ≠ r_S). { intros ->. rewrite Rminus_diag_eq, Rabs_R0 in C by done. pose proof precission_pos. lra. }
        rewrite Ef, decide_False in H3 by done. cbn [fl_real] in H3. unfold newton_error in H3. unfold accuracy. unfold precission in H3. lra. }
    unfold r_out. destruct (decide (r0 < r_S)%R) as [Hin|Hout].
    - destruct (HNS r0 (Some 0%R) (Some r_S)) as [E|(H1 & H2 & H3)]; [|by left|].
      + intros m M [= <-] [= <-]. specialize (Hsm Hin). unfold p in Hsm. unfold precission. lra.
      + right. specialize (H1 _ eq_refl). specialize (H2 _ eq_refl). split; [lra|]. split; [lra|]. intros A B. specialize (B Hin). unfold p in *. apply H3.
        * intros m [= <-]. unfold precission. lra.
        * intros m [= <-]. rewrite Rabs_left1 in A by lra. unfold precission. lra.
        * done.
    - destruct (HNS (3 / 2 * r_S)%R (Some r_S) None) as [E|(H1 & H2 & H3)]; [done|by left|].
      right. specialize (H1 _ eq_refl). split; [lra|]. split; [lra|]. intros A _. apply H3; [|done|done].
      intros m [= <-]. rewrite Rabs_right in A by lra. unfold p in A. unfold precission. lra. }
  assert (Hro : (0 <= r_out)%R) by (destruct HNt as [->|(H1 & H2 & _)]; [lra|destruct (Rle_lt_dec r_S r0); [destruct (Req_dec r0 r_S)|]; lra]).
  exists r_out, (ray_rows x0 (light_EF_out r_S t0 r0) (linspace r0 r_out N)). split; [|split; [|done]].
  - f_equal. f_equal. destruct (decide (t0 + r0 < ts)%R) as [Hs|Hs].
    + rewrite decide_True by lra. done.
    + rewrite decide_False by lra. f_equal. unfold fin_row, vertex. f_equal. f_equal.
      * f_equal. unfold copysign, on_side. rewrite Rabs_R1. destruct (decide (x0 < 0)%R); ring.
      * f_equal. unfold t_end. case_decide as Hin; [|done]. apply Rmin_left. unfold time.
        pose proof (outgoing_inside r_S 0 r0 Hp ltac:(lra) Hr0 Hin). lra.
  - apply traces_ray; try done.
    + intros r Hr. by rewrite Ef, decide_False.
    + left. by rewrite Ef, decide_True.
Qed.
Print Assumptions C83_EddingtonFinkelstein.

Lemma in_cone_BH schw r_S past t0 x0 t r : (0 < r_S)%R → (0 <= r)%R →
  in_cone (BlackHole r_S schw) past [t0; x0] [t; on_side x0 r] ↔
  if past then BH_prec schw r_S r (Rabs x0) (t0 - t) else BH_prec schw r_S (Rabs x0) r (t - t0).
Proof.
  intros Hp Hr. unfold in_cone. destruct past; cbn [Causality]; rewrite isCausal_BH2D_fst by done; unfold cget; cbn [nth]; rewrite on_side_abs by done.
  - rewrite Rmult_comm. pose proof (on_side_mul x0 r Hr). tauto.
  - pose proof (on_side_mul x0 r Hr). tauto.
Qed.
Lemma traces_elem rows N x r_S a b time y t : traces rows N x r_S a b time → (0 <= a)%R → (0 <= b)%R → 2 ≤ N → vertex y t ∈ rows →
  ∃ r, y = on_side x r ∧ t = time r ∧ r ≠ r_S ∧ (0 <= r)%R ∧ (Rmin a b <= r <= Rmax a b)%R.
Proof.
  intros [HL HT] Ha Hb HN Hin. apply elem_of_list_lookup in Hin as [k Hk]. assert (Hkl : k < N) by (rewrite <- HL; by eapply lookup_lt_Some).
  destruct (HT k Hkl) as (t' & E & H1 & H2). destruct (sampled_between a b k N Ha Hb HN Hkl) as [Hr1 Hr2]. set (r := (a + INR k / INR (N - 1) * (b - a))%R) in *.
  exists r. assert (E' := eq_trans (eq_sym Hk) E). unfold vertex in E'. injection E' as -> <-. destruct (Req_dec r r_S) as [He|He]; [destruct (H2 He); done|]. injection (H1 He) as ->. done.
Qed.

(** Every vertex in the time direction of the cone is causally related to the origin.  For an
    origin outside the horizon, Newton's method must not have failed: the sampled ray
    stays outside. *)
Theorem C83_EF_causal (r_S t0 x0 ts : R) (n : Z) (past : bool) rows :
  (0 < r_S)%R → Rabs x0 ≠ r_S → (Rabs x0 < r_S → 1 / 1000000 <= r_S)%R → 2 ≤ edge_count n → (0 < sign past * (ts - t0))%R →
  BH_XT_slice false r_S ts [t0; x0] 1 n = Ok rows →
  (r_S < Rabs x0 → ∀ x t, Some (Fin x, t) ∈ take (edge_count n) rows → r_S < Rabs x)%R →
  ∀ x t, vertex x t ∈ rows → (0 <= sign past * (t - t0))%R → in_cone (BlackHole r_S false) past [t0; x0] [t; x].
Proof.
  intros Hp H0 Hsm HN Hd E Hconv x t Hv Ht. destruct (C83_EddingtonFinkelstein r_S t0 x0 ts n Hp H0 Hsm HN) as (r_out & out & Er & HT & Hro).
  rewrite Er in E. injection E as <-. set (r0 := Rabs x0) in *. assert (Hr0 : (0 <= r0)%R) by apply Rabs_pos.
  assert (Hro' : (0 <= r_out)%R) by (destruct Hro as [->|(H1 & H2 & _)]; [lra|destruct (Rle_lt_dec r_S r0); [destruct (Req_dec r0 r_S)|]; lra]).
  assert (Htake : take (edge_count n) (out ++ if decide (t0 + r0 < ts)%R then [vertex 0 (if decide (r0 < r_S)%R then Rmin ts (t0 + (outgoing r_S 0 - outgoing r_S r0)) else ts); vertex 0 (t0 + r0)] else [vertex (on_side x0 (r0 - (ts - t0))) ts]) = out) by (destruct HT as [HL _]; rewrite <- HL; by rewrite take_app).
  rewrite Htake in Hconv. clear Htake. apply elem_of_app in Hv as [Hv|Hv].
  - destruct (traces_elem _ _ _ _ _ _ _ _ _ HT Hr0 Hro' HN Hv) as (r & -> & -> & Hne & Hr & Hmm).
    rewrite in_cone_BH by done. cbn [BH_prec]. fold r0. unfold EF_prec. change (ray 2) with outgoing.
    destruct (Rlt_le_dec r0 r_S) as [Hin|Hout].
    + assert (r_out <= r_S)%R by (destruct Hro as [->|(_ & H2 & _)]; [lra|by apply H2]).
      assert (r < r_S)%R. { assert (Rmax r0 r_out <= r_S)%R by (apply Rmax_lub; lra). lra. }
      destruct (Rle_lt_dec r r0) as [Hl|Hl].
      * pose proof (outgoing_inside r_S r r0 Hp Hr Hl Hin) as HI. destruct past; cbn [sign] in Ht.
        -- assert (r = r0) as -> by lra. split; [lra|]. left. split_and!; intros; lra.
        -- split; [lra|]. left. split_and!; intros; lra.
      * pose proof (outgoing_inside r_S r0 r Hp Hr0 ltac:(lra) ltac:(lra)) as HI. destruct past; cbn [sign] in Ht; [|lra].
        split; [lra|]. left. split_and!; intros; lra.
    + assert (r_S < r)%R. { rewrite <- (on_side_abs x0 r Hr). eapply Hconv; [lra|exact Hv]. }
      destruct (Rle_lt_dec r r0) as [Hl|Hl].
      * pose proof (outgoing_outside r_S r r0 Hp ltac:(lra) Hl) as HI. destruct past; cbn [sign] in Ht.
        -- split; [lra|]. destruct (Req_dec r r0) as [-> |]; [left; split_and!; intros; lra|right; split_and!; lra].
        -- assert (r = r0) as -> by lra. split; [lra|]. left. split_and!; intros; lra.
      * pose proof (outgoing_outside r_S r0 r Hp ltac:(lra) ltac:(lra)) as HI. destruct past; cbn [sign] in Ht; [lra|].
        split; [lra|]. right. split_and!; lra.
  - destruct (decide (t0 + r0 < ts)%R) as [Hs|Hs].
    + destruct past; cbn [sign] in Hd; [lra|]. cbn [sign] in Ht.
      assert (Hv' : x = on_side x0 0 ∧ (t = (if decide (r0 < r_S)%R then Rmin ts (t0 + (outgoing r_S 0 - outgoing r_S r0)) else ts)%R ∨ t = (t0 + r0)%R)).
      { assert (E0 : on_side x0 0 = 0%R) by (unfold on_side; destruct (decide (x0 < 0)%R); lra). rewrite E0.
        apply elem_of_cons in Hv as [E|Hv]; [injection E as -> ->; tauto|]. apply elem_of_list_singleton in Hv. injection Hv as -> ->. tauto. }
      destruct Hv' as [-> Hv']. rewrite in_cone_BH by lra. cbn [BH_prec]. fold r0. unfold EF_prec. change (ray 2) with outgoing.
      assert (Hk : (r0 <= t - t0)%R ∧ (r0 < r_S → t - t0 <= outgoing r_S 0 - outgoing r_S r0)%R).
      { destruct (decide (r0 < r_S)%R) as [Hin|Hout].
        - pose proof (outgoing_inside r_S 0 r0 Hp ltac:(lra) Hr0 Hin) as HI. destruct Hv' as [-> | ->]; [|lra].
          pose proof (Rmin_r ts (t0 + (outgoing r_S 0 - outgoing r_S r0))). assert (t0 + r0 <= Rmin ts (t0 + (outgoing r_S 0 - outgoing r_S r0)))%R by (apply Rmin_glb; lra). lra.
        - destruct Hv' as [-> | ->]; lra. }
      split; [lra|]. left. split_and!; [lra|lra| |tauto]. intros [? ?]. lra.
    + apply elem_of_list_singleton in Hv. injection Hv as -> ->. assert (0 <= r0 - (ts - t0))%R by lra.
      rewrite in_cone_BH by lra. cbn [BH_prec]. fold r0. unfold EF_prec. change (ray 2) with outgoing. destruct past; cbn [sign] in Ht, Hd.
      * split; [lra|]. left. split_and!; [lra|lra| |]; [intros [? ?]; lra|]. intros Hin.
        pose proof (outgoing_inside r_S r0 (r0 - (ts - t0)) Hp Hr0 ltac:(lra) ltac:(lra)). lra.
      * split; [lra|]. left. split_and!; [lra|lra| |]; [intros [? ?]; lra|]. intros Hin.
        pose proof (outgoing_inside r_S (r0 - (ts - t0)) r0 Hp ltac:(lra) ltac:(lra) Hin). lra.
Qed.
Print Assumptions C83_EF_causal.

(** ** Schwarzschild metric *)
Section schwarzschild.
Context (r_S t0 r0 : R) (Hp : (0 < r_S)%R) (H0 : r0 ≠ r_S).
Let t_out (r : R) : R := (t0 + (tortoise r_S r - tortoise r_S r0))%R.
Let t_in (r : R) : R := (t0 + (tortoise r_S r0 - tortoise r_S r))%R.
Lemma S_out_eq r : light_S_out r_S t0 r0 r = if decide (r = r_S) then NInf else Fin (t_out r).
Proof using Hp H0. by apply S_out. Qed.
Lemma S_in_eq r : light_S_in r_S t0 r0 r = if decide (r = r_S) then PInf else Fin (t_in r).
Proof using Hp H0. by apply S_in. Qed.
Lemma trace_out x a b N : (0 <= a)%R → (0 <= b)%R → 2 ≤ N → traces (ray_rows x (light_S_out r_S t0 r0) (linspace a b N)) N x r_S a b t_out.
Proof using Hp H0. intros. apply traces_ray; try done; [intros r Hr; by rewrite S_out_eq, decide_False|left; by rewrite S_out_eq, decide_True]. Qed.
Lemma trace_in x a b N : (0 <= a)%R → (0 <= b)%R → 2 ≤ N → traces (ray_rows x (light_S_in r_S t0 r0) (linspace a b N)) N x r_S a b t_in.
Proof using Hp H0. intros. apply traces_ray; try done; [intros r Hr; by rewrite S_in_eq, decide_False|right; by rewrite S_in_eq, decide_True]. Qed.
Lemma Newton_out xs y xmin xmax : (∀ m M, xmin = Some m → xmax = Some M → (m + precission <= M)%R) →
  let r := Newton (light_S_out r_S t0 r0) (light_S_out_d1 r_S) xs y xmin xmax in
  r = 0%R ∨ (∀ m, xmin = Some m → (m <= r)%R) ∧ (∀ m, xmax = Some m → (r <= m)%R) ∧
  ((∀ m, xmin = Some m → (m + precission < r)%R) → (∀ m, xmax = Some m → (r < m - precission)%R) → (precission < Rabs (r - r_S))%R →
   (y - accuracy 1 r_S r <= t_out r <= y)%R).
Proof using Hp H0.
  intros Hb r. destruct (Newton_spec 1 r_S ltac:(lra) Hp 1 (t0 - tortoise r_S r0) (light_S_out r_S t0 r0) (light_S_out_d1 r_S) xs y xmin xmax) as [E|(H1 & H2 & H3)]; [by left| | |done|by left|].
  - intros q Hq. rewrite S_out_eq, decide_False by done. cbn [fl_real]. unfold t_out. rewrite ray1. ring.
  - intros q. unfold light_S_out_d1. rewrite !Rmult_1_l. done.
  - right. fold r in H1, H2, H3. split; [done|]. split; [done|]. intros A B C. specialize (H3 A B C).
    assert (Hne : r ≠ r_S). { intros E. rewrite E, Rminus_diag_eq, Rabs_R0 in C by done. pose proof precission_pos. lra. }
    rewrite S_out_eq, decide_False in H3 by done. cbn [fl_real] in H3. unfold newton_error in H3. unfold accuracy. unfold precission in H3. lra.
Qed.
Lemma Newton_in xs y xmin xmax : (∀ m M, xmin = Some m → xmax = Some M → (m + precission <= M)%R) →
  let r := Newton (light_S_in r_S t0 r0) (light_S_in_d1 r_S) xs y xmin xmax in
  r = 0%R ∨ (∀ m, xmin = Some m → (m <= r)%R) ∧ (∀ m, xmax = Some m → (r <= m)%R) ∧
  ((∀ m, xmin = Some m → (m + precission < r)%R) → (∀ m, xmax = Some m → (r < m - precission)%R) → (precission < Rabs (r - r_S))%R →
   (y <= t_in r <= y + accuracy 1 r_S r)%R).
Proof using Hp H0.
  intros Hb r. destruct (Newton_spec 1 r_S ltac:(lra) Hp (-1) (t0 + tortoise r_S r0) (light_S_in r_S t0 r0) (light_S_in_d1 r_S) xs y xmin xmax) as [E|(H1 & H2 & H3)]; [by right| | |done|by left|].
  - intros q Hq. rewrite S_in_eq, decide_False by done. cbn [fl_real]. unfold t_in. rewrite ray1. ring.
  - intros q. unfold light_S_in_d1. rewrite !Rmult_1_l. ring.
  - right. fold r in H1, H2, H3. split; [done|]. split; [done|]. intros A B C. specialize (H3 A B C).
    assert (Hne : r ≠ r_S). { intros E. rewrite E, Rminus_diag_eq, Rabs_R0 in C by done. pose proof precission_pos. lra. }
    rewrite S_in_eq, decide_False in H3 by done. cbn [fl_real] in H3. unfold newton_error in H3. unfold accuracy. unfold precission in H3. lra.
Qed.
End schwarzschild.

(** The light rays of the origin. *)
Definition S_outgoing (r_S t0 r0 r : R) : R := (t0 + (tortoise r_S r - tortoise r_S r0))%R.
Definition S_ingoing (r_S t0 r0 r : R) : R := (t0 + (tortoise r_S r0 - tortoise r_S r))%R.

(** Origin outside the horizon: the outgoing ray, the ingoing ray, and the part of the
    ingoing ray inside the horizon if it reaches the centre before the time slice. *)
Theorem C83_Schwarzschild_outside (r_S t0 x0 ts : R) (n : Z) :
  let r0 := Rabs x0 in let N := edge_count n in let p := (1 / 1000000)%R in
  let t_out := S_outgoing r_S t0 r0 in let t_in := S_ingoing r_S t0 r0 in
  (p <= r_S)%R → (r_S < r0)%R → 2 ≤ N →
  ∃ r_out r_in out inn inner, BH_XT_slice true r_S ts [t0; x0] 1 n = Ok (out ++ inn ++ inner) ∧
    traces out N x0 r_S r0 r_out t_out ∧ traces inn N x0 r_S r_in r0 t_in ∧
    (r_out = 0%R ∨ (r_S <= r_out)%R ∧ ((r_S + p < r_out)%R → (ts - accuracy 1 r_S r_out <= t_out r_out <= ts)%R)) ∧
    (r_in = 0%R ∨ (r_S <= r_in)%R ∧ ((r_S + p < r_in)%R → (ts <= t_in r_in <= ts + accuracy 1 r_S r_in)%R)) ∧
    (if decide (t0 < ts ∧ t_in 0 < ts)%R then
       ∃ r_in' in', inner = None :: in' ++ [vertex 0 ts] ∧ traces in' N x0 r_S r_in' 0 t_in ∧ (0 <= r_in' <= r_S)%R ∧
         (r_in' = 0%R ∨ ((p < r_in' < r_S - p)%R → (ts <= t_in r_in' <= ts + accuracy 1 r_S r_in')%R))
     else inner = []).
Proof.
  intros r0 N p t_out t_in Hpp Hout HN. assert (Hp : (0 < r_S)%R) by (unfold p in Hpp; lra). assert (Hne : r0 ≠ r_S) by lra. assert (Hr0 : (0 <= r0)%R) by apply Rabs_pos.
  pose proof precission_pos as Hpp0. assert (Ep : p = precission) by done.
  unfold BH_XT_slice. assert (EI : np_index [t0; x0] 1 = Ok (A := R) x0) by done. rewrite EI. cbn [res_map]. rewrite edge_count_sampling. fold N.
  unfold S_XT_rows. fold r0. cbv zeta. unfold cget. cbn [nth]. rewrite decide_False by done. rewrite decide_False by lra.
  set (r_out := Newton (light_S_out r_S t0 r0) _ _ _ _ _). set (r_in := Newton (light_S_in r_S t0 r0) _ r0 _ _ _). set (r_in' := Newton (light_S_in r_S t0 r0) _ (r_S / 2) _ _ _).
  assert (H1 : r_out = 0%R ∨ (r_S <= r_out)%R ∧ ((r_S + p < r_out)%R → (ts - accuracy 1 r_S r_out <= t_out r_out <= ts)%R)).
  { destruct (Newton_out r_S t0 r0 Hp Hne r0 ts (Some r_S) None) as [E|(A & _ & C)]; [done|by left|]. fold r_out in A, C. right. split; [by apply A|]. intros Hr. apply C; [|done|rewrite Rabs_right; lra].
    intros m [= <-]. lra. }
  assert (H2 : r_in = 0%R ∨ (r_S <= r_in)%R ∧ ((r_S + p < r_in)%R → (ts <= t_in r_in <= ts + accuracy 1 r_S r_in)%R)).
  { destruct (Newton_in r_S t0 r0 Hp Hne r0 ts (Some r_S) None) as [E|(A & _ & C)]; [done|by left|]. fold r_in in A, C. right. split; [by apply A|]. intros Hr. apply C; [|done|rewrite Rabs_right; lra].
    intros m [= <-]. lra. }
  assert (H3 : r_in' = 0%R ∨ (0 <= r_in' <= r_S)%R ∧ ((p < r_in' < r_S - p)%R → (ts <= t_in r_in' <= ts + accuracy 1 r_S r_in')%R)).
  { destruct (Newton_in r_S t0 r0 Hp Hne (r_S / 2) ts (Some 0%R) (Some r_S)) as [E|(A & B & C)]; [intros m M [= <-] [= <-]; lra|by left|]. fold r_in' in A, B, C. right. split; [split; [by apply A|by apply B]|]. intros Hr.
    apply C; [intros m [= <-]; lra|intros m [= <-]; lra|rewrite Rabs_left; lra]. }
  assert (0 <= r_out)%R by lra. assert (0 <= r_in)%R by lra. assert (0 <= r_in')%R by lra.
  assert (E0 : light_S_in r_S t0 r0 0 = Fin (t_in 0%R)) by (rewrite S_in_eq, decide_False by lra; done). rewrite E0. cbn [fl_ge].
  eexists r_out, r_in, (ray_rows x0 (light_S_out r_S t0 r0) (linspace r0 r_out N)), (ray_rows x0 (light_S_in r_S t0 r0) (linspace r_in r0 N)), _.
  split; [|split; [by apply trace_out|split; [by apply trace_in|split; [done|split; [done|]]]]].
  - rewrite app_assoc. instantiate (1 := if decide (t0 < ts ∧ t_in 0 < ts)%R then _ else []).
    destruct (decide (t0 < ts ∧ t_in 0 < ts)%R) as [[A B]|Hn].
    + rewrite bool_decide_true by done. rewrite bool_decide_false by lra. cbn [andb negb]. reflexivity.
    + rewrite app_nil_r. destruct (bool_decide (t0 < ts)%R) eqn:Eb; [|done]. apply bool_decide_eq_true in Eb. rewrite bool_decide_true; [done|]. apply Rnot_lt_le. tauto.
  - destruct (decide (t0 < ts ∧ t_in 0 < ts)%R); [|done]. exists r_in', (ray_rows x0 (light_S_in r_S t0 r0) (linspace r_in' 0 N)). split; [done|]. split; [apply trace_in; try done; lra|]. split; [lra|]. tauto.
Qed.
Print Assumptions C83_Schwarzschild_outside.

(** Origin inside the horizon: all times are in the future (past) that both rays can reach. *)
Theorem C83_Schwarzschild_inside (r_S t0 x0 ts : R) (n : Z) :
  let r0 := Rabs x0 in let N := edge_count n in let p := (1 / 1000000)%R in
  let t_out := S_outgoing r_S t0 r0 in let t_in := S_ingoing r_S t0 r0 in
  (p <= r_S)%R → (r0 < r_S)%R → 2 ≤ N →
  (* future cones: both rays end in the centre *)
  ((t0 < ts)%R → ∃ out inn, BH_XT_slice true r_S ts [t0; x0] 1 n = Ok (out ++ inn) ∧
     traces out N x0 r_S r0 0 t_out ∧ traces inn N x0 r_S 0 r0 t_in) ∧
  (* past cones: one ray continues outside the horizon *)
  ((ts <= t0)%R → ∃ r_out r_in inn out, BH_XT_slice true r_S ts [t0; x0] 1 n = Ok (inn ++ out) ∧
     traces inn N x0 r_S r_out r0 t_in ∧ traces out N x0 r_S r0 r_in t_out ∧
     (r_out = 0%R ∨ (r_S <= r_out)%R ∧ ((r_S + p < r_out)%R → (ts <= t_in r_out <= ts + accuracy 1 r_S r_out)%R)) ∧
     (0 <= r_in <= r_S)%R ∧
     (r_in = 0%R ∨ ((p < r_in < r_S - p)%R → (ts - accuracy 1 r_S r_in <= t_out r_in <= ts)%R))).
Proof.
  intros r0 N p t_out t_in Hpp Hin HN. assert (Hp : (0 < r_S)%R) by (unfold p in Hpp; lra). assert (Hne : r0 ≠ r_S) by lra. assert (Hr0 : (0 <= r0)%R) by apply Rabs_pos.
  pose proof precission_pos as Hpp0. assert (Ep : p = precission) by done.
  unfold BH_XT_slice. assert (EI : np_index [t0; x0] 1 = Ok (A := R) x0) by done. rewrite EI. cbn [res_map]. rewrite edge_count_sampling. fold N.
  unfold S_XT_rows. fold r0. cbv zeta. unfold cget. cbn [nth]. rewrite (decide_False (P := r0 = r_S)) by done. rewrite (decide_True (P := (r0 < r_S)%R)) by lra.
  split; intros Ht.
  - rewrite decide_True by done. eexists _, _. split; [reflexivity|]. split; [apply trace_out; try done; lra|].
    assert (Erev : rev (linspace r0 0 N) = linspace 0 r0 N).
    { apply list_eq. intros k. destruct (decide (k < N)) as [Hk|Hk].
      - rewrite rev_alt. change (rev_append (linspace r0 0 N) []) with (reverse (linspace r0 0 N)). rewrite reverse_lookup by (by rewrite linspace_length). rewrite linspace_length. unfold linspace.
        rewrite !list_lookup_fmap, !lookup_seq_lt by lia. cbn [fmap option_fmap option_map]. f_equal. cbn [Nat.add].
        replace (N - S k) with (N - 1 - k) by lia. rewrite minus_INR by lia. field. apply not_0_INR. lia.
      - rewrite !lookup_ge_None_2; [done|rewrite linspace_length; lia|rewrite rev_length, linspace_length; lia]. }
    rewrite Erev. apply trace_in; try done; lra.
  - rewrite (decide_False (P := (t0 < ts)%R)) by lra.
    set (r_out := Newton (light_S_in r_S t0 r0) _ _ _ _ _). set (r_in := Newton (light_S_out r_S t0 r0) _ _ _ _ _).
    assert (H1 : r_out = 0%R ∨ (r_S <= r_out)%R ∧ ((r_S + p < r_out)%R → (ts <= t_in r_out <= ts + accuracy 1 r_S r_out)%R)).
    { destruct (Newton_in r_S t0 r0 Hp Hne r0 ts (Some r_S) None) as [E|(A & _ & C)]; [done|by left|]. fold r_out in A, C. right. split; [by apply A|]. intros Hr. apply C; [|done|rewrite Rabs_right; lra].
      intros m [= <-]. lra. }
    assert (H2 : r_in = 0%R ∨ (0 <= r_in <= r_S)%R ∧ ((p < r_in < r_S - p)%R → (ts - accuracy 1 r_S r_in <= t_out r_in <= ts)%R)).
    { destruct (Newton_out r_S t0 r0 Hp Hne r0 ts (Some 0%R) (Some r_S)) as [E|(A & B & C)]; [intros m M [= <-] [= <-]; lra|by left|]. fold r_in in A, B, C. right. split; [split; [by apply A|by apply B]|]. intros Hr.
      apply C; [intros m [= <-]; lra|intros m [= <-]; lra|rewrite Rabs_left; lra]. }
    eexists r_out, r_in, _, _. split; [reflexivity|]. split; [apply trace_in; try done; lra|]. split; [apply trace_out; try done; lra|]. split; [done|]. split; [lra|]. tauto.
Qed.
Print Assumptions C83_Schwarzschild_inside.

(** Every vertex off the horizon is causally related to the origin (vertices outside the
    horizon: if they are in the time direction of the cone), provided Newton's method did not fail:
    the two sampled rays stay outside (origins outside the horizon), or do not fall
    below the origin (past cones of origins inside). *)
Theorem C83_Schwarzschild_causal (r_S t0 x0 ts : R) (n : Z) (past : bool) rows :
  (1 / 1000000 <= r_S)%R → Rabs x0 ≠ r_S → 2 ≤ edge_count n → (0 < sign past * (ts - t0))%R →
  BH_XT_slice true r_S ts [t0; x0] 1 n = Ok rows →
  (r_S < Rabs x0 → ∀ x t, Some (Fin x, t) ∈ take (2 * edge_count n) rows → r_S < Rabs x)%R →
  (Rabs x0 < r_S → past = true → ∀ x t, Some (Fin x, t) ∈ rows → Rabs x0 <= Rabs x)%R →
  ∀ x t, vertex x t ∈ rows → (r_S < Rabs x0 → r_S < Rabs x → 0 <= sign past * (t - t0))%R →
  in_cone (BlackHole r_S true) past [t0; x0] [t; x].
Proof.
  intros Hpp H0 HN Hd E Hconv Hconv' x t Hv Ht. assert (Hp : (0 < r_S)%R) by lra. set (r0 := Rabs x0) in *. assert (Hr0 : (0 <= r0)%R) by apply Rabs_pos.
  destruct (Rlt_le_dec r0 r_S) as [Hin|Hout].
  - destruct (C83_Schwarzschild_inside r_S t0 x0 ts n Hpp Hin HN) as [HF HP]. fold r0 in HF, HP. destruct past; cbn [sign] in *.
    + destruct HP as (r_out & r_in & inn & out & Er & T1 & T2 & Ho & Hi & _); [lra|]. rewrite Er in E. injection E as <-.
      assert (Hx : (r0 <= Rabs x)%R) by (eapply (Hconv' Hin eq_refl); exact Hv).
      assert (HV : ∃ r, x = on_side x0 r ∧ r ≠ r_S ∧ (0 <= r)%R ∧ (t = S_ingoing r_S t0 r0 r ∨ t = S_outgoing r_S t0 r0 r ∧ (r < r_S)%R)).
      { apply elem_of_app in Hv as [Hv|Hv].
        - destruct (traces_elem _ _ _ _ _ _ _ x t T1) as (r & -> & -> & Hne & Hr & Hmm); [lra|done|done|done|]. exists r. tauto.
        - destruct (traces_elem _ _ _ _ _ _ _ x t T2) as (r & -> & -> & Hne & Hr & Hmm); [done|lra|done|done|].
          exists r. assert (Rmax r0 r_in <= r_S)%R by (apply Rmax_lub; lra). assert (r < r_S)%R by lra. tauto. }
      destruct HV as (r & -> & Hne & Hr & HV). rewrite on_side_abs in Hx by done. rewrite in_cone_BH by done. cbn [BH_prec]. fold r0. unfold S_prec. rewrite !ray1.
      destruct (Rlt_le_dec r r_S) as [Hrs|Hrs].
      * right; right; right. pose proof (tortoise_inside r_S r0 r Hp Hr0 Hx Hrs). split; [done|]. split; [done|]. unfold S_ingoing, S_outgoing in HV.
        destruct HV as [-> |[-> _]]; [rewrite Rabs_left1|rewrite Rabs_right]; lra.
      * right; left. unfold S_ingoing in HV. destruct HV as [-> |[_ ?]]; [|lra]. split_and!; lra.
    + destruct HF as (out & inn & Er & T1 & T2); [lra|]. rewrite Er in E. injection E as <-.
      assert (HV : ∃ r, x = on_side x0 r ∧ (0 <= r <= r0)%R ∧ (t = S_ingoing r_S t0 r0 r ∨ t = S_outgoing r_S t0 r0 r)).
      { apply elem_of_app in Hv as [Hv|Hv].
        - destruct (traces_elem _ _ _ _ _ _ _ x t T1) as (r & -> & -> & Hne & Hr & Hmm); [lra|lra|done|done|]. exists r. rewrite Rmax_left in Hmm by lra. split; [done|]. split; [lra|tauto].
        - destruct (traces_elem _ _ _ _ _ _ _ x t T2) as (r & -> & -> & Hne & Hr & Hmm); [lra|lra|done|done|]. exists r. rewrite Rmax_right in Hmm by lra. split; [done|]. split; [lra|tauto]. }
      destruct HV as (r & -> & Hr & HV). rewrite in_cone_BH by lra. cbn [BH_prec]. fold r0. unfold S_prec. rewrite !ray1.
      right; right; right. pose proof (tortoise_inside r_S r r0 Hp ltac:(lra) ltac:(lra) Hin). split; [lra|]. split; [done|]. unfold S_ingoing, S_outgoing in HV.
      destruct HV as [-> | ->]; [rewrite Rabs_left1|rewrite Rabs_right]; lra.
  - assert (Hgt : (r_S < r0)%R) by lra. destruct (C83_Schwarzschild_outside r_S t0 x0 ts n Hpp Hgt HN) as (r_out & r_in & out & inn & inner & Er & T1 & T2 & Ho & Hi & HI). fold r0 in T1, T2, Ho, Hi, HI.
    rewrite Er in E. injection E as <-.
    assert (Htake : take (2 * edge_count n) (out ++ inn ++ inner) = out ++ inn).
    { destruct T1 as [L1 _], T2 as [L2 _]. replace (2 * edge_count n) with (length (out ++ inn)) by (rewrite app_length; lia). rewrite app_assoc. by rewrite take_app. }
    rewrite Htake in Hconv. clear Htake. rewrite app_assoc in Hv. apply elem_of_app in Hv as [Hv|Hv].
    + assert (Hx : (r_S < Rabs x)%R) by (eapply (Hconv Hgt); exact Hv). specialize (Ht Hgt Hx).
      assert (HV : ∃ r, x = on_side x0 r ∧ (0 <= r)%R ∧ (t = S_ingoing r_S t0 r0 r ∨ t = S_outgoing r_S t0 r0 r)).
      { apply elem_of_app in Hv as [Hv|Hv].
        - destruct (traces_elem _ _ _ _ _ _ _ x t T1) as (r & -> & -> & Hne & Hr & Hmm); [lra|lra|done|done|]. exists r. tauto.
        - destruct (traces_elem _ _ _ _ _ _ _ x t T2) as (r & -> & -> & Hne & Hr & Hmm); [lra|lra|done|done|]. exists r. tauto. }
      destruct HV as (r & -> & Hr & HV). rewrite on_side_abs in Hx by done. rewrite in_cone_BH by lra. cbn [BH_prec]. fold r0. unfold S_prec. rewrite !ray1. unfold S_ingoing, S_outgoing in HV.
      destruct past; cbn [sign] in Ht; left; (split; [done|]); (split; [done|]); destruct HV as [-> | ->]; (first [rewrite Rabs_left1 by lra|rewrite Rabs_right by lra]); lra.
    + destruct (decide _) as [[Hts Hsing]|Hn]; [|rewrite HI in Hv; by apply elem_of_nil in Hv]. destruct past; cbn [sign] in Hd; [lra|].
      destruct HI as (r_in' & in' & -> & T3 & Hr' & _).
      assert (HV : ∃ r, x = on_side x0 r ∧ (0 <= r < r_S)%R ∧ (S_ingoing r_S t0 r0 r <= t)%R).
      { apply elem_of_cons in Hv as [Hv|Hv]; [done|]. apply elem_of_app in Hv as [Hv|Hv].
        - destruct (traces_elem _ _ _ _ _ _ _ x t T3) as (r & -> & -> & Hne & Hr & Hmm); [lra|lra|done|done|]. exists r. rewrite Rmax_left in Hmm by lra. split; [done|]. split; lra.
        - apply elem_of_list_singleton in Hv. injection Hv as -> ->. exists 0%R. split; [unfold on_side; destruct (decide (x0 < 0)%R); lra|]. split; lra. }
      destruct HV as (r & -> & Hr & HV). rewrite in_cone_BH by lra. cbn [BH_prec]. fold r0. unfold S_prec. rewrite !ray1. unfold S_ingoing in HV. right; left. split_and!; lra.
Qed.
Print Assumptions C83_Schwarzschild_causal.

(** ** Origins on the horizon *)
(** The drawn region is bounded by the horizon itself; the other vertices of a future cone (and
    of a past cone in the Eddington-Finkelstein metric) are causally related to the origin. *)
Theorem C83_horizon (r_S t0 x0 ts : R) (schw past : bool) (n : Z) :
  (0 < r_S)%R → Rabs x0 = r_S → (0 < sign past * (ts - t0))%R →
  ∃ rest, BH_XT_slice schw r_S ts [t0; x0] 1 n = Ok (vertex x0 t0 :: vertex x0 ts :: rest) ∧ rest ≠ [] ∧
    (past = false ∨ schw = false → ∀ row, row ∈ rest → ∃ x t, row = vertex x t ∧ in_cone (BlackHole r_S schw) past [t0; x0] [t; x]).
Proof.
  intros Hp H0 Hd. unfold BH_XT_slice. assert (EI : np_index [t0; x0] 1 = Ok (A := R) x0) by done. rewrite EI. cbn [res_map]. unfold cget. cbn [nth].
  assert (E0 : ∀ r, on_side x0 r = if decide (x0 < 0)%R then (- r)%R else r) by done. assert (E00 : on_side x0 0 = 0%R) by (rewrite E0; destruct (decide (x0 < 0)%R); lra).
  destruct schw.
  - unfold S_XT_rows. rewrite decide_True by done. eexists. split; [reflexivity|]. split; [done|]. intros Hps row Hr.
    destruct past; [destruct Hps; done|]. assert (Hv : ∃ t, row = vertex 0 t) by (apply elem_of_cons in Hr as [-> |Hr]; [by eexists|apply elem_of_list_singleton in Hr as ->; by eexists]).
    destruct Hv as [t ->]. exists 0%R, t. split; [done|]. rewrite <- E00. rewrite in_cone_BH by lra. cbn [BH_prec]. unfold S_prec. right; right; left. lra.
  - unfold EF_XT_rows. rewrite H0. cbv zeta. rewrite (decide_False (P := (r_S < r_S)%R)) by lra. rewrite decide_True by done. cbn [app]. eexists. split; [reflexivity|].
    destruct (decide (t0 - ts + r_S < 0)%R) as [Hs|Hs]; (split; [done|]); intros _ row Hr.
    + destruct past; cbn [sign] in Hd; [lra|]. assert (Hv : ∃ t, row = vertex 0 t ∧ (r_S <= t - t0)%R).
      { apply elem_of_cons in Hr as [-> |Hr]; [eexists; split; [done|lra]|apply elem_of_list_singleton in Hr as ->; eexists; split; [done|lra]]. }
      destruct Hv as (t & -> & Ht). exists 0%R, t. split; [done|]. rewrite <- E00. rewrite in_cone_BH by lra. cbn [BH_prec]. rewrite H0. unfold EF_prec.
      split; [lra|]. left. split_and!; [lra|lra|lra|lra].
    + apply elem_of_list_singleton in Hr as ->. exists (on_side x0 (t0 - ts + r_S)), ts. split.
      { unfold fin_row, vertex. do 3 f_equal. unfold copysign, on_side. rewrite Rabs_R1. destruct (decide (x0 < 0)%R); ring. }
      rewrite in_cone_BH by lra. rewrite H0. destruct past; cbn [BH_prec sign] in *; unfold EF_prec; (split; [lra|]); left; split_and!; lra.
Qed.
Print Assumptions C83_horizon.
(** In the Schwarzschild metric the past cone drawn for an event on the horizon is wrong: its
    vertices at the centre are not in the past of the event but in its future. *)
Theorem C83_horizon_past_refuted (r_S t0 ts : R) (n : Z) : (0 < r_S)%R → (ts < t0)%R →
  ∃ rows, BH_XT_slice true r_S ts [t0; r_S] 1 n = Ok rows ∧ vertex 0 ts ∈ rows ∧
    ¬ in_cone (BlackHole r_S true) true [t0; r_S] [ts; 0%R] ∧ in_cone (BlackHole r_S true) false [t0; r_S] [ts; 0%R].
Proof.
  intros Hp Ht. destruct (C83_horizon r_S t0 r_S ts true true n Hp) as (_ & _ & _); [apply Rabs_right; lra|cbn [sign]; lra|].
  unfold BH_XT_slice. assert (EI : np_index [t0; r_S] 1 = Ok (A := R) r_S) by done. rewrite EI. cbn [res_map]. unfold cget. cbn [nth].
  unfold S_XT_rows. rewrite Rabs_right by lra. rewrite decide_True by done. eexists. split; [reflexivity|]. split; [set_solver|].
  assert (E00 : on_side r_S 0 = 0%R) by (unfold on_side; rewrite decide_False; lra).
  split; rewrite <- E00, in_cone_BH by lra; cbn [BH_prec]; rewrite (Rabs_right r_S) by lra; unfold S_prec; [lra|].
  right; right; left. lra.
Qed.
Print Assumptions C83_horizon_past_refuted.

(** ** When and how the cone is drawn *)
Theorem C83_drawn (r_S : R) (schw past : bool) (alpha : option (R → R)) (n : Z) (dims : list Z) (t0 x0 ts : R) :
  let o := [t0; x0] in let cone := BH_cone schw r_S dims (sign past) alpha n o ts in
  dims = [0; 1]%Z ∨ dims = [1; 0]%Z →
  (not_drawn past alpha o ts → cone = Ok None) ∧
  (¬ not_drawn past alpha o ts → ∃ rows, BH_XT_slice schw r_S ts o 1 n = Ok rows ∧
     cone = Ok (Some (opacity past alpha o ts,
                      if decide (dims = [0; 1]%Z) then (λ row : bh_row, match row with Some (x, t) => Some (t, x) | None => None end) <$> rows else rows))).
Proof.
  intros o cone Hdims. unfold cone, BH_cone. destruct (cone_start_spec past alpha o ts) as [Hs1 Hs2]. split; [intros Hn; by rewrite Hs1|]. intros Hn. destruct (Hs2 Hn) as [Es _]. rewrite Es.
  assert (ES : sampling (Z.of_nat (sampling n)) = sampling n).
  { unfold sampling at 1. rewrite Nat2Z.id. case_decide as Hc; [|done]. rewrite edge_count_sampling in *. pose proof (edge_count_pos n). lia. }
  exists ((if schw then S_XT_rows else EF_XT_rows) r_S ts t0 x0 (sampling n)). split; [done|].
  destruct Hdims as [-> | ->].
  - change (time_axis [0; 1]%Z) with 0%Z. unfold is3d. rewrite bool_decide_false by done. destruct (decide (0 < 0)%Z) as [?|_]; [lia|]. destruct (decide (0 = 0)%Z) as [_|?]; [|done]. cbn [length].
    change (dim_at [0; 1]%Z (Z.to_nat ((0 + 1) mod Z.of_nat 2))) with 1%Z. unfold BH_XT_slice. assert (EI : np_index o 1 = Ok (A := R) x0) by done. rewrite EI, ES. cbn [res_map]. unfold o at 1, cget. cbn [nth].
    rewrite decide_True by done. do 3 f_equal. apply list_fmap_ext. by intros _ [[? ?]|] _.
  - change (time_axis [1; 0]%Z) with 1%Z. unfold is3d. rewrite bool_decide_false by done. destruct (decide (1 < 0)%Z) as [?|_]; [lia|]. destruct (decide (1 = 0)%Z) as [?|_]; [lia|]. cbn [length].
    change (dim_at [1; 0]%Z (Z.to_nat ((1 + 1) mod Z.of_nat 2))) with 1%Z. unfold BH_XT_slice. assert (EI : np_index o 1 = Ok (A := R) x0) by done. rewrite EI, ES. cbn [res_map]. unfold o at 1, cget. cbn [nth].
    rewrite decide_False by done. done.
Qed.
Print Assumptions C83_drawn.
(** Other slices: a plot of three axes, or one without the time axis, is not implemented, unless nothing is drawn. *)
Theorem C83_not_implemented (r_S : R) (schw past : bool) (alpha : option (R → R)) (n : Z) (dims : list Z) (o : SpacetimeModel.coords) (ts : R) :
  length dims = 3 ∨ ¬ (0%Z ∈ dims) →
  (not_drawn past alpha o ts → BH_cone schw r_S dims (sign past) alpha n o ts = Ok None) ∧
  (¬ not_drawn past alpha o ts → BH_cone schw r_S dims (sign past) alpha n o ts = Err NotImplementedError).
Proof.
  intros Hdims. unfold BH_cone. destruct (cone_start_spec past alpha o ts) as [Hs1 Hs2]. split; [intros Hn; by rewrite Hs1|].
  intros Hn. destruct (Hs2 Hn) as [Es _]. rewrite Es. unfold is3d. destruct (bool_decide (length dims = 3)) eqn:E3; [done|].
  apply bool_decide_eq_false in E3. destruct Hdims as [?|H0]; [done|]. unfold time_axis.
  assert (E : index_of_zero dims = None).
  { clear -H0. induction dims as [|d dims IH]; [done|]. cbn [index_of_zero]. destruct (decide (d = 0)%Z) as [->|Hd]; [destruct H0; apply elem_of_list_here|].
    rewrite IH; [done|]. intros H. apply H0. by apply elem_of_list_further. }
  rewrite E. by destruct (decide (-1 < 0)%Z).
Qed.
Print Assumptions C83_not_implemented.

(** The hypotheses are met: near the origin Newton's method needs one step. *)
Lemma Newton_one_step (f : R → fl) fd x0 y xmin xmax : fd x0 ≠ 0%R →
  let r := (x0 - (fl_real (f x0) - y) / fd x0)%R in
  (Rabs (x0 - r) < precission)%R → (∀ m, xmin = Some m → (m <= r)%R) → (∀ m, xmax = Some m → (r <= m)%R) →
  Newton f fd x0 y xmin xmax = r.
Proof.
  intros Hfd r Hr Hm HM. unfold Newton, NewtonsMethod. change 50 with (S 49). cbn [newton_loop]. destruct (Req_EM_T (fd x0) 0) as [?|_]; [done|].
  assert (E : newton_next (λ r, fl_real (f r)) fd y xmin xmax precission x0 = r).
  { destruct (step_spec (λ r, fl_real (f r)) fd y xmin xmax precission x0) as [(m & Em & Hlt & _)|[(m & Em & Hlt & _)|(-> & _)]]; [|..|done].
    - specialize (Hm m Em). fold r in Hlt. lra.
    - specialize (HM m Em). fold r in Hlt. lra. }
  rewrite E. by destruct (Rlt_dec (Rabs (x0 - r)) precission).
Qed.
Example C83_hypotheses_EF : let rows := BH_XT_slice false 1 (1 / 1000000) [0; 3 / 2]%R 1 (-1) in
  ∃ l, rows = Ok l ∧ (∀ x t, Some (Fin x, t) ∈ take (edge_count (-1)) l → 1 < Rabs x)%R ∧ vertex (3 / 2) 0 ∈ l.
Proof.
  assert (HA : Rabs (3 / 2) = (3 / 2)%R) by (apply Rabs_right; lra). assert (HN : edge_count (-1) = 128) by (unfold edge_count; by rewrite decide_False by lia).
  assert (HR : Newton (light_EF_out 1 0 (3 / 2)) (light_EF_out_d1 1) (3 / 2 * 1) (1 / 1000000) (Some 1%R) None = (3 / 2 + 1 / 5000000)%R).
  { assert (Ef : light_EF_out 1 0 (3 / 2) (3 / 2 * 1) = Fin 0). { rewrite EF_out by lra. rewrite decide_False by lra. f_equal. rewrite Rmult_1_r. lra. }
    rewrite Newton_one_step; [rewrite Ef; cbn [fl_real]; unfold light_EF_out_d1; field|unfold light_EF_out_d1; lra| | |done].
    - rewrite Ef. cbn [fl_real]. unfold light_EF_out_d1. apply Rabs_def1; unfold precission; lra.
    - intros m [= <-]. rewrite Ef. cbn [fl_real]. unfold light_EF_out_d1. lra. }
  cbv zeta. unfold BH_XT_slice. assert (EI : np_index [0; 3 / 2]%R 1 = Ok (A := R) (3 / 2)%R) by done. rewrite EI. cbn [res_map]. unfold cget. cbn [nth]. rewrite edge_count_sampling, HN.
  unfold EF_XT_rows. rewrite HA. cbv zeta. rewrite !(decide_False (P := (3 / 2 < 1)%R)) by lra. rewrite (decide_False (P := (3 / 2 = 1)%R)) by lra. rewrite HR.
  match goal with |- context [Ok (?a ++ ?b)] => set (out := a); set (rest := b); exists (out ++ rest) end. split; [done|]. pose proof (traces_ray (3 / 2) 1 (light_EF_out 1 0 (3 / 2)) (λ r, 0 + (outgoing 1 r - outgoing 1 (3 / 2)))%R (3 / 2) (3 / 2 + 1 / 5000000) 128) as HT. assert (Eo : out = ray_rows (3 / 2) (light_EF_out 1 0 (3 / 2)) (linspace (3 / 2) (3 / 2 + 1 / 5000000) 128)) by done. rewrite <- Eo in HT. clearbody out rest.
  destruct HT as [HL HT]; [lra|lra|lia|intros r Hr; by rewrite EF_out, decide_False by lra|left; by rewrite EF_out, decide_True by lra|]. split.
  - rewrite take_app_le by (rewrite HL; lia). intros x t Hx. rewrite take_ge in Hx by (rewrite HL; lia). apply elem_of_list_lookup in Hx as [k Hk].
    assert (Hkl : k < 128) by (rewrite <- HL; by eapply lookup_lt_Some). destruct (HT k Hkl) as (t' & E & _).
    destruct (sampled_between (3 / 2) (3 / 2 + 1 / 5000000) k 128) as [H1 H2]; [lra|lra|lia|lia|]. set (r := (3 / 2 + INR k / INR (128 - 1) * (3 / 2 + 1 / 5000000 - 3 / 2))%R) in *. clearbody r.
    assert (E' := eq_trans (eq_sym Hk) E). injection E' as -> ->. rewrite on_side_abs by done. rewrite Rmin_left in H2 by lra. lra.
  - apply elem_of_app. left. destruct (HT 0) as (t' & E & H1 & _); [lia|]. apply elem_of_list_lookup. exists 0. etransitivity; [exact E|]. change (INR 0) with 0%R. replace (3 / 2 + 0 / INR (128 - 1) * (3 / 2 + 1 / 5000000 - 3 / 2))%R with (3 / 2)%R by (unfold Rdiv; ring).
    unfold vertex. f_equal. f_equal. f_equal; [f_equal; unfold on_side; rewrite decide_False; lra|].
    change (INR 0) with 0%R in H1. replace (3 / 2 + 0 / INR (128 - 1) * (3 / 2 + 1 / 5000000 - 3 / 2))%R with (3 / 2)%R in H1 by (unfold Rdiv; ring). rewrite H1 by lra. f_equal. lra.
Qed.
Example C83_hypotheses : constructed (BlackHole 1 true) ∧ constructed (BlackHole 1 false) ∧ 2 ≤ edge_count (-1) ∧ (0 < sign false * (1 / 1000000 - 0))%R ∧ Rabs (3 / 2) ≠ 1%R.
Proof.
  split; [|split; [|split; [|split]]].
  - right; right; right; right. exists 2%Z, 1%R, "Schwarzschild"%string. unfold BlackHoleSpacetime. rewrite decide_False by lia. rewrite decide_False by lia. rewrite decide_True by auto. rewrite decide_True by lra. done.
  - right; right; right; right. exists 2%Z, 1%R, "Eddington-Finkelstein"%string. unfold BlackHoleSpacetime. rewrite decide_False by lia. rewrite decide_False by lia. rewrite decide_True by auto. rewrite decide_True by lra. done.
  - unfold edge_count. rewrite decide_False by lia. lia.
  - cbn [sign]. lra.
  - rewrite Rabs_right; lra.
Qed.
