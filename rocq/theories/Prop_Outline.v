(** Theorems about CoordinateShape.plot and the outlines of /repo/shapes.py:
    C75 (a 2D plot shows the cut through the centre), C76 (outlines). *)
From Verif Require Import Base SpacetimeModel SpacetimeFacts ShapeModel SpecShape Prop_Shape Prop_SpacetimeMore
  ColorModel OutlineModel SpecOutline OutlineFacts PolygonFacts.
From Coq Require Import Reals Lra Lia.
#[local] Open Scope nat_scope.

(** ** Coordinates of a cut *)
Lemma rsum_update (g : nat → R) l k : NoDup l → k ∈ l →
  rsum (g <$> l) = (g k + rsum ((λ i, if decide (i = k) then 0 else g i) <$> l))%R.
Proof.
  induction l as [|a l IH]; intros Hnd Hk; [by apply elem_of_nil in Hk|].
  apply NoDup_cons in Hnd as [Ha Hnd]. rewrite !fmap_cons, !rsum_cons. apply elem_of_cons in Hk as [->|Hk].
  - rewrite decide_True by done. assert (E : (λ i, if decide (i = a) then 0%R else g i) <$> l = g <$> l); [|rewrite E; lra].
    apply list_fmap_ext. intros j x Hx. rewrite decide_False; [done|]. intros ->. by apply Ha, elem_of_list_lookup_2 with j.
  - rewrite IH by done. rewrite decide_False by (by intros ->). lra.
Qed.
Lemma rsum_support (ks : list nat) (g : nat → R) l : NoDup l → NoDup ks → (∀ k, k ∈ ks → k ∈ l) →
  (∀ k, k ∈ l → k ∉ ks → g k = 0%R) → rsum (g <$> l) = rsum (g <$> ks).
Proof.
  intros Hnd. revert g. induction ks as [|k ks IH]; intros g Hks Hin Hz.
  { apply rsum_zero. intros i Hi. apply Hz; [done|]. apply not_elem_of_nil. }
  apply NoDup_cons in Hks as [Hk Hks]. rewrite (rsum_update g l k) by (done || apply Hin, elem_of_list_here).
  rewrite IH; [|done| |].
  - rewrite fmap_cons, rsum_cons. f_equal. f_equal. apply list_fmap_ext. intros j x Hx. rewrite decide_False; [done|].
    intros ->. by apply Hk, elem_of_list_lookup_2 with j.
  - intros i Hi. by apply Hin, elem_of_list_further.
  - intros i Hi Hn. destruct (decide (i = k)); [done|]. apply Hz; [done|]. rewrite elem_of_cons. tauto.
Qed.

Section cut.
Context (s : shape) (Hc : length (sh_center s) = sh_dim s).
Notation c k := (nth k (sh_center s) 0%R).
Lemma cut_length i j p : length (cut s i j p) = sh_dim s.
Proof using Hc. unfold cut. by rewrite !insert_length. Qed.
Lemma cut_offset i j p k : i < sh_dim s → j < sh_dim s →
  offset s (cut s i j p) k = if decide (k = i) then (p.1 - c i)%R else if decide (k = j) then (p.2 - c j)%R else 0%R.
Proof using Hc.
  intros Hi Hj. unfold offset, cut. rewrite !nth_lookup.
  destruct (decide (k = i)) as [->|Hki].
  - rewrite list_lookup_insert by (rewrite insert_length; lia). done.
  - rewrite list_lookup_insert_ne by done. destruct (decide (k = j)) as [->|Hkj].
    + rewrite list_lookup_insert by lia. done.
    + rewrite list_lookup_insert_ne by done. lra.
Qed.
Lemma cut_dist_all i j p : i < sh_dim s → j < sh_dim s → i ≠ j →
  dist_all s (cut s i j p) = sqrt (sqdist p (c i, c j)).
Proof using Hc.
  intros Hi Hj Hne. unfold dist_all, dist2_from. f_equal. rewrite (rsum_support [i; j]).
  - cbn -[offset]. rewrite !cut_offset by done. rewrite decide_True by done. rewrite decide_False by done. rewrite decide_True by done.
    unfold sqdist. cbn. lra.
  - apply NoDup_seq.
  - apply NoDup_cons. split; [|apply NoDup_singleton]. by rewrite elem_of_list_singleton.
  - intros k Hk. rewrite !elem_of_cons, elem_of_nil in Hk. apply elem_of_seq. destruct Hk as [-> |[-> |[]]]; lia.
  - intros k _ Hk. rewrite !elem_of_cons, elem_of_nil in Hk. rewrite cut_offset by done.
    rewrite !decide_False by tauto. lra.
Qed.
Lemma cut_dist_space i j p : i < sh_dim s → j < sh_dim s → i ≠ j → i ≠ 0 → j ≠ 0 →
  dist_space s (cut s i j p) = sqrt (sqdist p (c i, c j)).
Proof using Hc.
  intros Hi Hj Hne Hi0 Hj0. unfold dist_space, dist2_from. f_equal. rewrite (rsum_support [i; j]).
  - cbn -[offset]. rewrite !cut_offset by done. rewrite decide_True by done. rewrite decide_False by done. rewrite decide_True by done.
    unfold sqdist. cbn. lra.
  - apply NoDup_seq.
  - apply NoDup_cons. split; [|apply NoDup_singleton]. by rewrite elem_of_list_singleton.
  - intros k Hk. rewrite !elem_of_cons, elem_of_nil in Hk. apply elem_of_seq. destruct Hk as [-> |[-> |[]]]; lia.
  - intros k _ Hk. rewrite !elem_of_cons, elem_of_nil in Hk. rewrite cut_offset by done.
    rewrite !decide_False by tauto. lra.
Qed.
Lemma cut_dist_time1 j p : 0 < j < sh_dim s →
  offset s (cut s 0 j p) 0 = (p.1 - c 0)%R ∧ dist_space s (cut s 0 j p) = Rabs (p.2 - c j).
Proof using Hc.
  intros Hj. split.
  { rewrite cut_offset by lia. done. }
  unfold dist_space, dist2_from. rewrite (rsum_support [j]).
  - cbn -[offset]. rewrite !cut_offset by lia. rewrite decide_False by lia. rewrite decide_True by done.
    rewrite Rplus_0_l. apply sqrt_Rsqr_abs.
  - apply NoDup_seq.
  - apply NoDup_singleton.
  - intros k ->%elem_of_list_singleton. apply elem_of_seq. lia.
  - intros k Hk Hn. rewrite elem_of_list_singleton in Hn. apply elem_of_seq in Hk. rewrite cut_offset by lia.
    rewrite !decide_False by lia. lra.
Qed.
Lemma cut_dist_time2 i p : 0 < i < sh_dim s →
  offset s (cut s i 0 p) 0 = (p.2 - c 0)%R ∧ dist_space s (cut s i 0 p) = Rabs (p.1 - c i).
Proof using Hc.
  intros Hi. split.
  { rewrite cut_offset by lia. rewrite decide_False by lia. done. }
  unfold dist_space, dist2_from. rewrite (rsum_support [i]).
  - cbn -[offset]. rewrite !cut_offset by lia. rewrite decide_True by done.
    rewrite Rplus_0_l. apply sqrt_Rsqr_abs.
  - apply NoDup_seq.
  - apply NoDup_singleton.
  - intros k ->%elem_of_list_singleton. apply elem_of_seq. lia.
  - intros k Hk Hn. rewrite elem_of_list_singleton in Hn. apply elem_of_seq in Hk. rewrite cut_offset by lia.
    rewrite !decide_False by lia. lra.
Qed.
Lemma cut_offset_space i j p : i < sh_dim s → j < sh_dim s → i ≠ 0 → j ≠ 0 → offset s (cut s i j p) 0 = 0%R.
Proof using Hc. intros. rewrite cut_offset by done. by rewrite !decide_False by done. Qed.
End cut.

(** ** The painted sets *)
Lemma painted_rect x y w h p : (0 < w)%R → (0 < h)%R →
  painted (Polygon (RectangleEdge x y w h)) p ↔ (x <= p.1 <= x + w)%R ∧ (y <= p.2 <= y + h)%R.
Proof.
  intros Hw Hh. cbn [painted]. rewrite rect_edge by done. destruct (rect_winding x y w h p Hw Hh) as [H1 H2]. split.
  - intros [[? _]|H]; [done|]. apply Classical_Prop.NNPP. intros Hn. apply H, H2.
    destruct (Rlt_dec p.1 x); [tauto|]. destruct (Rlt_dec (x + w) p.1); [tauto|]. destruct (Rlt_dec p.2 y); [tauto|].
    destruct (Rlt_dec (y + h) p.2); [tauto|]. exfalso. apply Hn. lra.
  - intros Hp. destruct (Classical_Prop.classic ((x < p.1 < x + w)%R ∧ (y < p.2 < y + h)%R)) as [[Ha Hb]|Hn].
    + right. rewrite (H1 Ha Hb). done.
    + left. tauto.
Qed.
Lemma painted_two_rects x y w h x' w' p : (0 < w)%R → (0 < h)%R → (0 < w')%R → (x + w < x')%R →
  painted (Polygon (RectangleEdge x y w h ++ None :: RectangleEdge x' y w' h)) p ↔
  ((x <= p.1 <= x + w)%R ∨ (x' <= p.1 <= x' + w')%R) ∧ (y <= p.2 <= y + h)%R.
Proof.
  intros Hw Hh Hw' Hx. cbn [painted]. rewrite on_outline_none, winding_none.
  pose proof (painted_rect x y w h p Hw Hh) as P1. pose proof (painted_rect x' y w' h p Hw' Hh) as P2. cbn [painted] in P1, P2.
  destruct (rect_winding x y w h p Hw Hh) as [_ W1]. destruct (rect_winding x' y w' h p Hw' Hh) as [_ W2]. split.
  - intros [[H|H]|H].
    + assert (Hp := proj1 P1 (or_introl H)). tauto.
    + assert (Hp := proj1 P2 (or_introl H)). tauto.
    + destruct (decide (winding (RectangleEdge x y w h) p = 0%Z)) as [E|E].
      * rewrite E, Z.add_0_l in H. assert (Hp := proj1 P2 (or_intror H)). tauto.
      * assert (Hp := proj1 P1 (or_intror E)). tauto.
  - intros [[Ha|Ha] Hb].
    + destruct (proj2 P1 (conj Ha Hb)) as [H|H]; [tauto|]. right. rewrite W2 by lra. lia.
    + destruct (proj2 P2 (conj Ha Hb)) as [H|H]; [tauto|]. right. rewrite W1 by lra. lia.
Qed.
Lemma BiconeEdge_eq c r h : BiconeEdge c r h =
  if decide (0 < h)%R then diamond_ccw (cget c 0) (cget c 1) r ++ None :: diamond_cw (cget c 0) (cget c 1) (h * r)
  else diamond_ccw (cget c 0) (cget c 1) r.
Proof. reflexivity. Qed.
Lemma painted_bicone c r h p : (0 < r)%R → (0 <= h < 1)%R →
  painted (Polygon (BiconeEdge c r h)) p ↔ (h * r <= Rabs (p.1 - cget c 0) + Rabs (p.2 - cget c 1) <= r)%R.
Proof.
  intros Hr Hh. cbn [painted]. rewrite BiconeEdge_eq.
  set (x := cget c 0). set (y := cget c 1). set (d := (Rabs (p.1 - x) + Rabs (p.2 - y))%R).
  assert (H0 : (0 <= d)%R) by (unfold d; pose proof (Rabs_pos (p.1 - x)); pose proof (Rabs_pos (p.2 - y)); lra).
  destruct (diamond_winding x y r p Hr) as [W1 W2]. destruct (diamond_edge x y r p Hr) as [E1 _]. fold d in W1, W2, E1.
  destruct (decide (0 < h)%R) as [Hp|Hp].
  - rewrite on_outline_none, winding_none. assert (Hq : (0 < h * r)%R) by nra. assert (Hq' : (h * r < r)%R) by nra.
    destruct (diamond_winding x y (h * r) p Hq) as [V1 V2]. destruct (diamond_edge x y (h * r) p Hq) as [_ E2]. fold d in V1, V2, E2.
    rewrite E1, E2.
    destruct (Rtotal_order d (h * r)) as [Hd|[Hd|Hd]].
    + rewrite (proj1 (W1 ltac:(lra))), (proj2 (V1 Hd)). split; [|lra]. intros [[?|?]|?]; [lra|lra|done].
    + split; [lra|]. intros _. left. by right.
    + rewrite (proj2 (V2 Hd)). destruct (Rtotal_order d r) as [Hd'|[Hd'|Hd']].
      * rewrite (proj1 (W1 Hd')). split; [lra|]. intros _. by right.
      * split; [lra|]. intros _. left. by left.
      * rewrite (proj1 (W2 Hd')). split; [|lra]. intros [[?|?]|?]; [lra|lra|done].
  - assert (h = 0%R) as -> by lra. rewrite E1. rewrite Rmult_0_l. destruct (Rtotal_order d r) as [Hd'|[Hd'|Hd']].
    + rewrite (proj1 (W1 Hd')). split; [lra|]. intros _. by right.
    + split; [lra|]. intros _. by left.
    + rewrite (proj1 (W2 Hd')). split; [|lra]. intros [?|?]; [lra|done].
Qed.

(** ** C75 *)
(** Does the cut show a disc?  For a ball always, for the others if time is not shown. *)
Definition shows_disc (s : shape) (i j : nat) : Prop :=
  sh_name s = "ball" ∨ i ≠ 0 ∧ j ≠ 0 ∧ (sh_name s = "bicone" ∨ sh_name s = "cylinder").
Definition hollow_of (s : shape) : R := default 0%R (sh_hollow s).
Definition radius_of (s : shape) : R := default 0%R (sh_radius s).

Ltac str_eq := repeat (match goal with
    | |- context [decide (String ?a ?b = ?c)] =>
      let D := fresh "D" in
      destruct (decide (String a b = c)) as [D|D]; [try discriminate D|try (exfalso; apply D; reflexivity)]; clear D
    end).
Lemma take_two l i j : i < length l → j < length l →
  np_take l [Z.of_nat i; Z.of_nat j] = Ok [nth i l 0%R; nth j l 0%R].
Proof.
  intros Hi Hj. rewrite np_take_ok.
  - cbn. by rewrite !Nat2Z.id.
  - intros k Hk. rewrite !elem_of_cons, elem_of_nil in Hk. destruct Hk as [-> |[-> |[]]]; lia.
Qed.
Lemma time_axis_two i j : i ≠ j →
  time_axis [Z.of_nat i; Z.of_nat j] = if decide (i = 0) then 0%Z else if decide (j = 0) then 1%Z else (-1)%Z.
Proof.
  intros Hne. unfold time_axis. cbn [index_of_zero].
  destruct (decide (i = 0)) as [->|Hi]; [by rewrite decide_True|]. rewrite (decide_False (P := Z.of_nat i = 0%Z)) by lia.
  destruct (decide (j = 0)) as [->|Hj]; [by rewrite decide_True|]. by rewrite (decide_False (P := Z.of_nat j = 0%Z)) by lia.
Qed.
Lemma sqrt_le_iff a b : (0 <= a)%R → (0 <= b)%R → (sqrt a <= b ↔ a <= b * b)%R.
Proof.
  intros Ha Hb. split.
  - intros H. rewrite <- (sqrt_def a) by done. pose proof (sqrt_pos a). apply Rmult_le_compat; done.
  - intros H. rewrite <- (sqrt_square b) by done. by apply sqrt_le_1_alt.
Qed.
Lemma sqdist_pos p c : (0 <= sqdist p c)%R.
Proof. unfold sqdist. apply Rplus_le_le_0_compat; apply Rle_0_sqr. Qed.
Lemma hollow_region (r h a : R) : h = 0%R → (0 <= a)%R → (h * r <= a <= r ↔ a <= r)%R.
Proof. intros -> Ha. rewrite Rmult_0_l. lra. Qed.

(** The picture is exactly the cut through the centre: a point is painted if and only if the
    corresponding point of the cut belongs to the shape.  This covers every shape but the
    hollow discs, which are drawn as polygons (next theorem), and cylinders with the time on
    the first axis, which are drawn at a wrong place. *)
Theorem C75_cut (junk : nat → point) (s : shape) (i j : nat) :
  constructed_shape s → i < sh_dim s → j < sh_dim s → i ≠ j →
  (shows_disc s i j → hollow_of s = 0%R) → (sh_name s = "cylinder" → i ≠ 0) →
  ∃ pa, plot_patch junk s [Z.of_nat i; Z.of_nat j] = Ok pa ∧
    ∀ p, painted pa p ↔ in_shape s (cut s i j p).
Proof.
  intros Hs Hi Hj Hne Hdisc Hcyl. destruct (constructed_wf s Hs) as [Hd Hc Hcase].
  unfold plot_patch. rewrite take_two by lia. cbn [res_bind]. rewrite time_axis_two by done.
  assert (HL : ∀ p, length (cut s i j p) = sh_dim s) by (intros; by apply cut_length).
  assert (Hball : shows_disc s i j → ∃ r, sh_radius s = Some r ∧ (0 < r)%R ∧
    ∀ p, painted (Circle (nth i (sh_center s) 0%R, nth j (sh_center s) 0%R) r) p ↔ (sqrt (sqdist p (nth i (sh_center s) 0%R, nth j (sh_center s) 0%R)) <= r)%R).
  { intros Hdi. assert (∃ r, sh_radius s = Some r ∧ (0 < r)%R) as (r & Er & Hr).
    { destruct Hcase as [[_ (r & h & E1 & E2 & ? & ?)]|[[_ (r & h & T & E1 & E2 & E3 & ? & ? & ?)]|[[E _]|[E _]]]]; [by exists r..| |];
        exfalso; destruct Hdi as [?|(_ & _ & [?|?])]; congruence. }
    exists r. split; [done|]. split; [done|]. intros p. rewrite sqrt_le_iff by (apply sqdist_pos || lra). done. }
  destruct Hcase as [[Hn (r & h & Er & Eh & Hr & Hh)]|[[En (r & h & T & Er & Eh & ET & Hr & Hh & HT)]|[[En (e & Ee & He)]|[En (es & Ees & Hl & He)]]]].
  - (* ball and bicone *)
    destruct Hn as [En|En]; rewrite En; str_eq.
    + (* ball *)
      rewrite (decide_True (P := "ball" = "ball" ∨ _)) by (by left).
      assert (Hdi : shows_disc s i j) by (by left). specialize (Hdisc Hdi). unfold hollow_of in Hdisc. rewrite Hdisc.
      rewrite decide_True by done. destruct (Hball Hdi) as (r' & Er' & _ & Hp). rewrite Er'. cbn [default from_option cget nth Datatypes.id].
      eexists. split; [done|]. intros p. rewrite Hp. rewrite <- cut_dist_all by done.
      unfold in_shape, in_region. rewrite En, Er', Eh. cbn [default from_option]. rewrite Eh in Hdisc. cbn in Hdisc. unfold Datatypes.id in *.
      assert (0 <= dist_all s (cut s i j p))%R by apply sqrt_pos.
      assert (Hr' : r' = r) by congruence. subst r'.
      pose proof (hollow_region r h (dist_all s (cut s i j p)) Hdisc H) as HR. split.
      * intros H1. split; [done|]. split_and!; intros E; try discriminate E; tauto.
      * intros (_ & H1 & _). specialize (H1 eq_refl). tauto.
    + (* bicone *)
      destruct (decide ("bicone" = "ball" ∨ _)) as [[E|[Hta _]]|Hta]; [discriminate E| |].
      * assert (Hi0 : i ≠ 0) by (intros ->; rewrite decide_True in Hta by done; lia).
        assert (Hj0 : j ≠ 0) by (intros ->; rewrite decide_False, decide_True in Hta by done; lia).
        assert (Hdi : shows_disc s i j) by (right; auto). specialize (Hdisc Hdi). unfold hollow_of in Hdisc. rewrite Hdisc.
        rewrite decide_True by done. destruct (Hball Hdi) as (r' & Er' & _ & Hp). rewrite Er'. cbn [default from_option cget nth Datatypes.id].
        eexists. split; [done|]. intros p. rewrite Hp. rewrite <- cut_dist_space by done.
        unfold in_shape, in_region. rewrite En, Er', Eh. cbn [default from_option]. rewrite Eh in Hdisc. cbn in Hdisc. unfold Datatypes.id in *.
        rewrite cut_offset_space, Rabs_R0, Rplus_0_l by done.
        assert (0 <= dist_space s (cut s i j p))%R by apply sqrt_pos.
        assert (Hr' : r' = r) by congruence. subst r'.
        pose proof (hollow_region r h (dist_space s (cut s i j p)) Hdisc H) as HR. split.
        -- intros H1. split; [done|]. split_and!; intros E; try discriminate E; tauto.
        -- intros (_ & _ & H1 & _). specialize (H1 eq_refl). tauto.
      * rewrite Er, Eh. cbn [default from_option Datatypes.id]. eexists. split; [done|]. intros p. unfold Datatypes.id.
        rewrite painted_bicone by done. cbn [cget nth]. unfold in_shape, in_region. rewrite En, Er, Eh. cbn [default from_option]. unfold Datatypes.id.
        assert (Hz : i = 0 ∨ j = 0).
        { destruct (decide (i = 0)); [by left|]. destruct (decide (j = 0)); [by right|]. exfalso. apply Hta. right. split; [lia|by left]. }
        assert (HD : (Rabs (offset s (cut s i j p) 0) + dist_space s (cut s i j p) =
          Rabs (p.1 - nth i (sh_center s) 0) + Rabs (p.2 - nth j (sh_center s) 0))%R).
        { destruct Hz as [-> | ->].
          - destruct (cut_dist_time1 s Hc j p) as [-> ->]; [lia|done].
          - destruct (cut_dist_time2 s Hc i p) as [-> ->]; [lia|]. lra. }
        rewrite HD. split.
        -- intros H1. split; [done|]. split_and!; intros E; try discriminate E; tauto.
        -- intros (_ & _ & H1 & _). by apply H1.
  - (* cylinder *)
    rewrite En. str_eq. specialize (Hcyl En).
    destruct (decide ("cylinder" = "ball" ∨ _)) as [[E|[Hta _]]|Hta]; [discriminate E| |].
    + assert (Hj0 : j ≠ 0) by (intros ->; rewrite decide_False, decide_True in Hta by done; lia).
      assert (Hdi : shows_disc s i j) by (right; auto). specialize (Hdisc Hdi). unfold hollow_of in Hdisc. rewrite Hdisc.
      rewrite decide_True by done. destruct (Hball Hdi) as (r' & Er' & _ & Hp). rewrite Er'. cbn [default from_option cget nth Datatypes.id].
      eexists. split; [done|]. intros p. rewrite Hp. rewrite <- cut_dist_space by done.
      unfold in_shape, in_region. rewrite En, Er', Eh, ET. cbn [default from_option]. rewrite Eh in Hdisc. cbn in Hdisc. unfold Datatypes.id in *.
      rewrite cut_offset_space, Rabs_R0 by done.
      assert (0 <= dist_space s (cut s i j p))%R by apply sqrt_pos.
      assert (Hr' : r' = r) by congruence. subst r'.
      pose proof (hollow_region r h (dist_space s (cut s i j p)) Hdisc H) as HR. split.
      * intros H1. split; [done|]. split; [intros E; discriminate E|]. split; [intros E; discriminate E|].
        split; [intros _; split; [lra|tauto]|]. split; intros E; discriminate E.
      * intros (_ & _ & _ & H1 & _). specialize (H1 eq_refl). tauto.
    + assert (Hj0 : j = 0).
      { destruct (decide (j = 0)); [done|]. exfalso. apply Hta. right. rewrite decide_False by done. split; [lia|by right]. }
      subst j. rewrite (decide_False (P := i = 0)) by done. rewrite (decide_True (P := 0 = 0)) by done.
      rewrite (decide_False (P := 1%Z = 0%Z)) by done. rewrite Er, Eh, ET. cbn [default from_option]. eexists. split; [done|].
      intros p. unfold in_shape, in_region. rewrite En, Er, Eh, ET. cbn [default from_option]. unfold Datatypes.id.
      destruct (cut_dist_time2 s Hc i p) as [-> ->]; [lia|].
      assert (HR : painted (Polygon (CylinderCutEdge [nth i (sh_center s) 0%R; nth 0 (sh_center s) 0%R] r T h)) p ↔
        (Rabs (p.2 - nth 0 (sh_center s) 0) <= T / 2)%R ∧ (h * r <= Rabs (p.1 - nth i (sh_center s) 0) <= r)%R).
      { unfold CylinderCutEdge. cbn [cget nth]. set (x := nth i (sh_center s) 0%R). set (y := nth 0 (sh_center s) 0%R).
        destruct (decide (h = 0%R)) as [-> |Hh0].
        - rewrite painted_rect by lra. rewrite Rmult_0_l.
          destruct (Rabs_cases (p.1 - x)) as [[? E1]|[? E1]], (Rabs_cases (p.2 - y)) as [[? E2]|[? E2]]; rewrite E1, E2; lra.
        - assert (Hq : (0 < h * r)%R) by (apply Rmult_lt_0_compat; lra). assert (Hw : (0 < (1 - h) * r)%R) by (apply Rmult_lt_0_compat; lra).
          rewrite painted_two_rects by lra.
          destruct (Rabs_cases (p.1 - x)) as [[? E1]|[? E1]], (Rabs_cases (p.2 - y)) as [[? E2]|[? E2]]; rewrite E1, E2; lra. }
      rewrite HR. split.
      * intros H1. split; [done|]. split; [intros E; discriminate E|]. split; [intros E; discriminate E|].
        split; [done|]. split; intros E; discriminate E.
      * intros (_ & _ & _ & H1 & _). by apply H1.
  - (* cube *)
    rewrite En. str_eq. rewrite Ee. cbn [default from_option]. eexists. split; [done|]. intros p. unfold Datatypes.id. cbn [painted cget nth fst snd].
    unfold in_shape, in_region. rewrite En, Ee. cbn [default from_option]. unfold Datatypes.id.
    assert (HR : (∀ k, k < sh_dim s → (Rabs (offset s (cut s i j p) k) <= e / 2)%R) ↔
      (Rabs (p.1 - nth i (sh_center s) 0) <= e / 2)%R ∧ (Rabs (p.2 - nth j (sh_center s) 0) <= e / 2)%R).
    { split.
      - intros H. split; [specialize (H i Hi)|specialize (H j Hj)]; rewrite cut_offset in H by done.
        + by rewrite decide_True in H.
        + rewrite decide_False in H by done. by rewrite decide_True in H.
      - intros [H1 H2] k Hk. rewrite cut_offset by done. destruct (decide (k = i)) as [-> |]; [done|].
        destruct (decide (k = j)) as [-> |]; [done|]. rewrite Rabs_R0. lra. }
    rewrite HR. destruct (Rabs_cases (p.1 - nth i (sh_center s) 0)%R) as [[? E1]|[? E1]], (Rabs_cases (p.2 - nth j (sh_center s) 0)%R) as [[? E2]|[? E2]]; rewrite E1, E2.
    all: (split; [intros H1; split; [done|]; split_and!; intros E; try discriminate E; lra|intros (_ & _ & _ & _ & H1 & _); specialize (H1 eq_refl); lra]).
  - (* cuboid *)
    rewrite En. str_eq. rewrite decide_False by (intros [E|[_ [E|E]]]; discriminate E). rewrite Ees. change (default [] (Some es)) with es. rewrite take_two by lia. cbn [res_bind].
    eexists. split; [done|]. intros p. cbn [painted cget nth fst snd].
    unfold in_shape, in_region. rewrite En, Ees. change (default [] (Some es)) with es.
    assert (HR : (∀ k, k < sh_dim s → (Rabs (offset s (cut s i j p) k) <= nth k es 0 / 2)%R) ↔
      (Rabs (p.1 - nth i (sh_center s) 0) <= nth i es 0 / 2)%R ∧ (Rabs (p.2 - nth j (sh_center s) 0) <= nth j es 0 / 2)%R).
    { split.
      - intros H. split; [specialize (H i Hi)|specialize (H j Hj)]; rewrite cut_offset in H by done.
        + by rewrite decide_True in H.
        + rewrite decide_False in H by done. by rewrite decide_True in H.
      - intros [H1 H2] k Hk. rewrite cut_offset by done. destruct (decide (k = i)) as [-> |]; [done|].
        destruct (decide (k = j)) as [-> |]; [done|]. rewrite Rabs_R0.
        assert (0 < nth k es 0)%R; [|lra]. apply He. rewrite nth_lookup. destruct (lookup_lt_is_Some_2 es k) as [x Hx]; [lia|].
        rewrite Hx. by eapply elem_of_list_lookup_2. }
    rewrite HR. destruct (Rabs_cases (p.1 - nth i (sh_center s) 0)%R) as [[? E1]|[? E1]], (Rabs_cases (p.2 - nth j (sh_center s) 0)%R) as [[? E2]|[? E2]]; rewrite E1, E2.
    all: (split; [intros H1; split; [done|]; split_and!; intros E; try discriminate E; lra|intros (_ & _ & _ & _ & _ & H1); specialize (H1 eq_refl); lra]).
Qed.
Print Assumptions C75_cut.

(** *** Cylinders with the time on the first axis *)
Lemma painted_swap_cylinder x y r T h p : (0 < r)%R → (0 < T)%R → (0 <= h < 1)%R →
  painted (Polygon (swap_columns (CylinderCutEdge [x; y] r T h))) p ↔
  (Rabs (p.1 - y) <= T / 2)%R ∧ (h * r <= Rabs (p.2 - x) <= r)%R.
Proof.
  intros Hr HT Hh. cbn [painted]. unfold CylinderCutEdge. cbn [cget nth].
  assert (Hrect : ∀ l w, (0 < w)%R → let o := swap_columns (RectangleEdge l (y - T / 2) w T) in
    (on_outline o p ∨ winding o p ≠ 0%Z ↔ (l <= p.2 <= l + w)%R ∧ (y - T / 2 <= p.1 <= y - T / 2 + T)%R) ∧
    ((p.2 < l ∨ l + w < p.2)%R → winding o p = 0%Z)).
  { intros l w Hw o. unfold o. rewrite swap_on_outline, rect_edge by lra. cbn [fst snd].
    destruct (swap_rect_winding l (y - T / 2) w T p Hw HT) as [W1 W2]. split; [|intros; apply W2; tauto]. split.
    - intros [[? _]|H]; [done|]. apply Classical_Prop.NNPP. intros Hn. apply H, W2.
      destruct (Rlt_dec p.2 l); [tauto|]. destruct (Rlt_dec (l + w) p.2); [tauto|]. destruct (Rlt_dec p.1 (y - T / 2)); [tauto|].
      destruct (Rlt_dec (y - T / 2 + T) p.1); [tauto|]. exfalso. apply Hn. lra.
    - intros Hp. destruct (Classical_Prop.classic ((l < p.2 < l + w)%R ∧ (y - T / 2 < p.1 < y - T / 2 + T)%R)) as [[Ha Hb]|Hn].
      + right. by rewrite (W1 Ha Hb).
      + left. tauto. }
  destruct (decide (h = 0%R)) as [-> |Hh0].
  - destruct (Hrect (x - r)%R (2 * r)%R ltac:(lra)) as [H1 _]. cbv zeta in H1. rewrite H1. rewrite Rmult_0_l.
    destruct (Rabs_cases (p.2 - x)) as [[? E1]|[? E1]], (Rabs_cases (p.1 - y)) as [[? E2]|[? E2]]; rewrite E1, E2; lra.
  - assert (Hq : (0 < h * r)%R) by (apply Rmult_lt_0_compat; lra). assert (Hw : (0 < (1 - h) * r)%R) by (apply Rmult_lt_0_compat; lra).
    destruct (Hrect (x - r)%R ((1 - h) * r)%R Hw) as [P1 Z1]. destruct (Hrect (x + h * r)%R ((1 - h) * r)%R Hw) as [P2 Z2]. cbv zeta in P1, Z1, P2, Z2.
    unfold swap_columns at 1 2. rewrite fmap_app, fmap_cons. change (fmap (λ p : point, (p.2, p.1)) None) with (@None point).
    fold (swap_columns (RectangleEdge (x - r) (y - T / 2) ((1 - h) * r) T)).
    fold (swap_columns (RectangleEdge (x + h * r) (y - T / 2) ((1 - h) * r) T)).
    rewrite on_outline_none, winding_none.
    assert (HE : (Rabs (p.1 - y) <= T / 2)%R ∧ (h * r <= Rabs (p.2 - x) <= r)%R ↔
      ((x - r <= p.2 <= x - r + (1 - h) * r)%R ∧ (y - T / 2 <= p.1 <= y - T / 2 + T)%R) ∨
      ((x + h * r <= p.2 <= x + h * r + (1 - h) * r)%R ∧ (y - T / 2 <= p.1 <= y - T / 2 + T)%R)).
    { destruct (Rabs_cases (p.2 - x)) as [[? E1]|[? E1]], (Rabs_cases (p.1 - y)) as [[? E2]|[? E2]]; rewrite E1, E2; lra. }
    rewrite HE, <- P1, <- P2. split.
    + intros [[H|H]|H]; [tauto|tauto|].
      destruct (decide (winding (swap_columns (RectangleEdge (x - r) (y - T / 2) ((1 - h) * r) T)) p = 0%Z)) as [E|E]; [|tauto].
      rewrite E, Z.add_0_l in H. tauto.
    + intros [[H|H]|[H|H]]; [tauto| |tauto|].
      * right. rewrite Z2; [lia|]. assert (Hp := proj1 P1 (or_intror H)). lra.
      * right. rewrite Z1; [lia|]. assert (Hp := proj1 P2 (or_intror H)). lra.
Qed.
(** The cylinder is drawn displaced by the difference of the two coordinates of its centre. *)
Theorem C75_cylinder_time_first (junk : nat → point) (s : shape) (j : nat) :
  constructed_shape s → sh_name s = "cylinder" → 0 < j < sh_dim s →
  let c k := nth k (sh_center s) 0%R in
  ∃ pa, plot_patch junk s [0%Z; Z.of_nat j] = Ok pa ∧
    (∀ p, painted pa p ↔ in_shape s (cut s 0 j (p.1 + (c 0%nat - c j), p.2 + (c j - c 0%nat))%R)) ∧
    ((∀ p, painted pa p ↔ in_shape s (cut s 0 j p)) ↔ c 0 = c j).
Proof.
  intros Hs En Hj c. destruct (constructed_wf s Hs) as [Hd Hc Hcase].
  destruct Hcase as [[[E|E] _]|[[_ (r & h & T & Er & Eh & ET & Hr & Hh & HT)]|[[E _]|[E _]]]]; [congruence|congruence| |congruence|congruence].
  assert (Hin : ∀ p, in_shape s (cut s 0 j p) ↔ (Rabs (p.1 - c 0%nat) <= T / 2)%R ∧ (h * r <= Rabs (p.2 - c j) <= r)%R).
  { intros p. unfold in_shape, in_region. rewrite cut_length by done. rewrite En, Er, Eh, ET. cbn [default from_option]. unfold Datatypes.id.
    destruct (cut_dist_time1 s Hc j p) as [-> ->]; [lia|]. split.
    - intros (_ & _ & _ & H1 & _). by apply H1.
    - intros H1. split; [done|]. split; [intros E; discriminate E|]. split; [intros E; discriminate E|].
      split; [done|]. split; intros E; discriminate E. }
  exists (Polygon (swap_columns (CylinderCutEdge [c 0; c j] r T h))).
  assert (HP : ∀ p, painted (Polygon (swap_columns (CylinderCutEdge [c 0; c j] r T h))) p ↔
    in_shape s (cut s 0 j (p.1 + (c 0%nat - c j), p.2 + (c j - c 0%nat))%R)).
  { intros p. rewrite painted_swap_cylinder by done. rewrite Hin. cbn [fst snd].
    replace (p.1 + (c 0%nat - c j) - c 0%nat)%R with (p.1 - c j)%R by ring.
    replace (p.2 + (c j - c 0%nat) - c j)%R with (p.2 - c 0%nat)%R by ring. done. }
  split; [|split; [done|]].
  - unfold plot_patch. change [0%Z; Z.of_nat j] with [Z.of_nat 0; Z.of_nat j]. rewrite take_two by lia. cbn [res_bind].
    rewrite time_axis_two by lia. rewrite (decide_True (P := 0 = 0)) by done. rewrite En. str_eq.
    rewrite decide_False by (intros [E|[E _]]; [discriminate E|lia]). rewrite decide_True by done. by rewrite Er, Eh, ET.
  - split.
    + intros H. destruct (Rtotal_order (c 0%nat) (c j)) as [Hlt|[E|Hlt]]; [|done|].
      * exfalso. set (p := (c 0%nat - T / 2, c j + r)%R).
        assert (Hp : in_shape s (cut s 0 j p)).
        { apply Hin. cbn. replace (c 0%nat - T / 2 - c 0%nat)%R with (- (T / 2))%R by ring. replace (c j + r - c j)%R with r by ring.
          rewrite Rabs_Ropp, !Rabs_right by lra. nra. }
        apply H, HP, Hin in Hp. cbn in Hp. destruct Hp as [Hp _].
        replace (c 0%nat - T / 2 + (c 0%nat - c j) - c 0%nat)%R with (- (T / 2 + (c j - c 0%nat)))%R in Hp by ring.
        rewrite Rabs_Ropp, Rabs_right in Hp by lra. lra.
      * exfalso. set (p := (c 0%nat + T / 2, c j + r)%R).
        assert (Hp : in_shape s (cut s 0 j p)).
        { apply Hin. cbn. replace (c 0%nat + T / 2 - c 0%nat)%R with (T / 2)%R by ring. replace (c j + r - c j)%R with r by ring.
          rewrite !Rabs_right by lra. nra. }
        apply H, HP, Hin in Hp. cbn in Hp. destruct Hp as [Hp _].
        replace (c 0%nat + T / 2 + (c 0%nat - c j) - c 0%nat)%R with (T / 2 + (c 0%nat - c j))%R in Hp by ring.
        rewrite Rabs_right in Hp by lra. lra.
    + intros E p. rewrite HP. rewrite E. by replace (p.1 + (c j - c j), p.2 + (c j - c j))%R with p by (destruct p; cbn; f_equal; ring).
Qed.
Print Assumptions C75_cylinder_time_first.

(** *** Hollow discs *)
Lemma arc_polygon c r n : 1 ≤ n → arc c r r (linspace 0 (2 * PI) (S n)) = Some <$> polygon n (cget c 0, cget c 1) r 1.
Proof.
  intros Hn. unfold arc, linspace, polygon. rewrite <- !list_fmap_compose. apply list_fmap_ext. intros k i _. cbn -[INR].
  unfold vertex, angle, step. cbn [fst snd]. rewrite Nat.sub_0_r.
  replace (0 + INR i * ((2 * PI - 0) / INR n))%R with (INR i * (2 * PI / INR n))%R by (unfold Rdiv; ring).
  by rewrite Rmult_1_l.
Qed.
Lemma arc_polygon_cw c r n : 1 ≤ n → arc c r r (Ropp <$> linspace 0 (2 * PI) (S n)) = Some <$> polygon n (cget c 0, cget c 1) r (-1).
Proof.
  intros Hn. unfold arc, linspace, polygon. rewrite <- !list_fmap_compose. apply list_fmap_ext. intros k i _. cbn -[INR].
  unfold vertex, angle, step. cbn [fst snd]. rewrite Nat.sub_0_r.
  replace (0 + INR i * ((2 * PI - 0) / INR n))%R with (INR i * (2 * PI / INR n))%R by (unfold Rdiv; ring).
  rewrite cos_neg, sin_neg. do 3 f_equal. ring.
Qed.
(** The circle outline with [n] edges and no hole: between the disc of radius
    r cos(pi / n) and the disc of radius r. *)
Lemma circle_painted junk c r (n : Z) p : (3 <= n)%Z → (0 < r)%R →
  let d := sqrt (sqdist p (cget c 0, cget c 1)) in
  let K := cos (PI / IZR n) in
  (painted (Polygon (CircleEdge junk c r 0 n)) p → (d <= r)%R) ∧
  ((d < r * K)%R → painted (Polygon (CircleEdge junk c r 0 n)) p).
Proof.
  intros Hn Hr d K. set (m := Z.to_nat n). assert (Hm : 3 ≤ m) by lia.
  assert (EK : K = cos (step m / 2)).
  { unfold K, step, m. rewrite INR_IZR_INZ, Z2Nat.id by lia. f_equal. field. apply not_0_IZR. lia. }
  unfold CircleEdge. rewrite decide_True by done. unfold sampling. rewrite decide_False by lia. fold m.
  rewrite arc_polygon by lia. cbn [painted]. rewrite EK. split.
  - intros [H|H].
    + apply polygon_on in H; [|done|lra|done]. unfold d. lra.
    + apply Rnot_lt_le. intros Hlt. apply H. apply polygon_outside; [done|lra|done|done].
  - intros H. right. destruct (polygon_inside m _ r p Hm Hr H) as [-> _]. done.
Qed.
Lemma ring_painted junk c r h (n : Z) p : (3 <= n)%Z → (0 < r)%R → (0 < h < 1)%R →
  let d := sqrt (sqdist p (cget c 0, cget c 1)) in
  let K := cos (PI / IZR n) in
  (painted (Polygon (CircleEdge junk c r h n)) p → (h * r * K <= d <= r)%R) ∧
  ((h * r < d)%R → (d < r * K)%R → painted (Polygon (CircleEdge junk c r h n)) p).
Proof.
  intros Hn Hr Hh d K. set (m := Z.to_nat n). assert (Hm : 3 ≤ m) by lia.
  assert (EK : K = cos (step m / 2)).
  { unfold K, step, m. rewrite INR_IZR_INZ, Z2Nat.id by lia. f_equal. field. apply not_0_IZR. lia. }
  unfold CircleEdge. rewrite decide_False by lra. rewrite decide_True by lra. unfold sampling. rewrite decide_False by lia. fold m.
  rewrite arc_polygon, arc_polygon_cw by lia. cbn [painted]. rewrite EK. rewrite on_outline_none, winding_none.
  destruct (apothem_pos m Hm) as [HK _]. assert (HK1 : (cos (step m / 2) <= 1)%R) by apply COS_bound.
  assert (Hq : (0 < h * r)%R) by (apply Rmult_lt_0_compat; lra). assert (Hq' : (h * r < r)%R) by nra.
  assert (HqK : (h * r * cos (step m / 2) <= h * r)%R) by nra.
  assert (HqK' : (h * r * cos (step m / 2) <= r * cos (step m / 2))%R) by nra. split.
  - intros [[H|H]|H].
    + apply polygon_on in H; [|done|lra|done]. unfold d. lra.
    + apply polygon_on in H; [|done|lra|done]. unfold d. lra.
    + split; apply Rnot_lt_le; intros Hlt; apply H.
      * destruct (polygon_inside m (cget c 0, cget c 1) r p Hm Hr) as [-> _]; [fold d; lra|].
        destruct (polygon_inside m (cget c 0, cget c 1) (h * r) p Hm Hq) as [_ ->]; [fold d; lra|]. done.
      * rewrite !polygon_outside; [done|done|lra|done|fold d; lra|done|lra|done|fold d; lra].
  - intros H1 H2. right. destruct (polygon_inside m (cget c 0, cget c 1) r p Hm Hr) as [-> _]; [fold d; lra|].
    rewrite polygon_outside; [done|done|lra|done|fold d; lra].
Qed.
(** A hollow disc is drawn as a ring between two polygons with 128 edges: the painted set is
    the cut, up to the relative error 1 - cos(pi / 128) < 0.0004 in the radius. *)
Theorem C75_hollow_disc (junk : nat → point) (s : shape) (i j : nat) :
  constructed_shape s → i < sh_dim s → j < sh_dim s → i ≠ j → shows_disc s i j → (0 < hollow_of s)%R →
  let K := cos (PI / 128) in
  let d p := sqrt (sqdist p (nth i (sh_center s) 0%R, nth j (sh_center s) 0%R)) in
  ∃ pa, plot_patch junk s [Z.of_nat i; Z.of_nat j] = Ok pa ∧
    (∀ p, in_shape s (cut s i j p) ↔ (hollow_of s * radius_of s <= d p <= radius_of s)%R) ∧
    (∀ p, painted pa p → (hollow_of s * radius_of s * K <= d p <= radius_of s)%R) ∧
    (∀ p, (hollow_of s * radius_of s < d p)%R → (d p < radius_of s * K)%R → painted pa p).
Proof.
  intros Hs Hi Hj Hne Hdisc Hhol K d. destruct (constructed_wf s Hs) as [Hd Hc Hcase].
  assert (∃ r h, sh_radius s = Some r ∧ sh_hollow s = Some h ∧ (0 < r)%R ∧ (0 <= h < 1)%R) as (r & h & Er & Eh & Hr & Hh).
  { destruct Hcase as [[_ (r & h & E1 & E2 & ? & ?)]|[[_ (r & h & T & E1 & E2 & E3 & ? & ? & ?)]|[[E _]|[E _]]]]; [by exists r, h..| |];
      exfalso; destruct Hdisc as [?|(_ & _ & [?|?])]; congruence. }
  unfold hollow_of, radius_of in *. rewrite Er, Eh in *. cbn [default from_option] in *. unfold Datatypes.id in *.
  exists (Polygon (CircleEdge junk [nth i (sh_center s) 0%R; nth j (sh_center s) 0%R] r h 128)). split_and!.
  - unfold plot_patch. rewrite take_two by lia. cbn [res_bind]. rewrite time_axis_two by done. rewrite Er, Eh. cbn [default from_option]. unfold Datatypes.id.
    rewrite decide_False by (destruct Hdisc as [E|(_ & _ & [E|E])]; rewrite E; done).
    rewrite decide_True.
    2:{ destruct Hdisc as [E|(Hi0 & Hj0 & E)]; [by left|]. right. rewrite !decide_False by done. split; [lia|done]. }
    rewrite decide_False by lra. done.
  - intros p. unfold in_shape, in_region. rewrite cut_length by done. rewrite Er, Eh. cbn [default from_option]. unfold Datatypes.id.
    destruct Hdisc as [E|(Hi0 & Hj0 & E)].
    + rewrite cut_dist_all by done. rewrite E. split.
      * intros (_ & H1 & _). by apply H1.
      * intros H1. split; [done|]. split; [done|]. split_and!; intros E'; discriminate E'.
    + rewrite cut_dist_space, cut_offset_space, Rabs_R0 by done. destruct E as [E|E]; rewrite E.
      * split.
        -- intros (_ & _ & H1 & _). specialize (H1 eq_refl). fold (d p) in *. lra.
        -- intros H1. split; [done|]. split; [intros E'; discriminate E'|]. split; [intros _; fold (d p) in *; lra|]. split_and!; intros E'; discriminate E'.
      * assert (∃ T, sh_duration s = Some T ∧ (0 < T)%R) as (T & ET & HT).
        { destruct Hcase as [[[?|?] _]|[[_ (? & ? & T & _ & _ & ET & _ & _ & HT)]|[[? _]|[? _]]]]; [congruence..|by exists T|congruence|congruence]. }
        rewrite ET. cbn [default from_option]. split.
        -- intros (_ & _ & _ & H1 & _). specialize (H1 eq_refl). fold (d p) in *. lra.
        -- intros H1. split; [done|]. split; [intros E'; discriminate E'|]. split; [intros E'; discriminate E'|].
           split; [intros _; unfold Datatypes.id; fold (d p) in *; lra|]. split; intros E'; discriminate E'.
  - intros p Hp. apply (ring_painted junk _ r h 128 p) in Hp; [done|lia|done|lra].
  - intros p H1 H2. apply (ring_painted junk _ r h 128 p); [lia|done|lra|done|done].
Qed.
Print Assumptions C75_hollow_disc.
(** A dimension that the shape does not have is an IndexError, whatever the shape. *)
Theorem C75_index (junk : nat → point) (s : shape) (dims : list Z) :
  constructed_shape s → (∃ d, d ∈ dims ∧ (d < - Z.of_nat (sh_dim s) ∨ Z.of_nat (sh_dim s) <= d)%Z) →
  plot_patch junk s dims = Err IndexError.
Proof.
  intros Hs (d & Hd & Hr). destruct (constructed_wf s Hs) as [_ Hc _]. unfold plot_patch.
  destruct (np_take (sh_center s) dims) as [vs|e] eqn:E; cbn [res_bind].
  - exfalso. apply np_take_Ok in E. apply elem_of_list_lookup in Hd as [k Hk].
    destruct (Forall2_lookup_l _ _ _ _ _ E Hk) as (v & _ & Ev). apply np_index_ok in Ev as (m & Hm & Hd).
    apply lookup_lt_Some in Hm. lia.
  - by apply np_take_Err in E as [-> _].
Qed.
Print Assumptions C75_index.

(** ** C76: the outlines *)
Lemma pieces_Some l : pieces (Some <$> l) = [l].
Proof. induction l as [|p l IH]; [done|]. cbn. change (pieces (Some <$> l)) with (pieces (Some <$> l)). rewrite IH. done. Qed.
Lemma pieces_none l o : pieces ((Some <$> l) ++ None :: o) = l :: pieces o.
Proof. induction l as [|p l IH]; [done|]. cbn. cbn in IH. rewrite IH. done. Qed.
(** The k-th point of an ellipse outline with m edges. *)
Definition on_ellipse (c : list R) (a b : R) (m k : nat) : point :=
  (cget c 0 + a * cos (2 * PI * INR k / INR m), cget c 1 + b * sin (2 * PI * INR k / INR m))%R.
Lemma arc_points c a b n : arc c a b (linspace 0 (2 * PI) (S n)) = Some <$> (on_ellipse c a b n <$> seq 0 (S n)).
Proof.
  unfold arc, linspace. rewrite <- !list_fmap_compose. apply list_fmap_ext. intros k i _. cbn -[INR].
  unfold on_ellipse. rewrite Nat.sub_0_r.
  replace (0 + INR i * ((2 * PI - 0) / INR n))%R with (2 * PI * INR i / INR n)%R by (unfold Rdiv; ring). done.
Qed.
Lemma arc_points_neg c a b n : arc c a b (Ropp <$> linspace 0 (2 * PI) (S n)) = Some <$> (on_ellipse c a (- b) n <$> seq 0 (S n)).
Proof.
  unfold arc, linspace. rewrite <- !list_fmap_compose. apply list_fmap_ext. intros k i _. cbn -[INR].
  unfold on_ellipse. rewrite Nat.sub_0_r.
  replace (0 + INR i * ((2 * PI - 0) / INR n))%R with (2 * PI * INR i / INR n)%R by (unfold Rdiv; ring).
  rewrite cos_neg, sin_neg. do 2 f_equal. ring.
Qed.
Lemma ellipse_closed c a b n : 1 ≤ n → closed_piece (on_ellipse c a b n <$> seq 0 (S n)).
Proof.
  intros Hn. exists (on_ellipse c a b n 0). split; [done|]. rewrite seq_S, fmap_app. cbn [fmap list_fmap]. rewrite last_snoc.
  unfold on_ellipse. do 2 f_equal.
  - cbn [INR Nat.add]. f_equal. f_equal. replace (2 * PI * INR n / INR n)%R with (2 * PI)%R by (field; apply not_0_INR; lia).
    replace (2 * PI * 0 / INR n)%R with 0%R by (unfold Rdiv; ring). by rewrite cos_2PI, cos_0.
  - cbn [INR Nat.add]. f_equal. f_equal. replace (2 * PI * INR n / INR n)%R with (2 * PI)%R by (field; apply not_0_INR; lia).
    replace (2 * PI * 0 / INR n)%R with 0%R by (unfold Rdiv; ring). by rewrite sin_2PI, sin_0.
Qed.
(** The number of edges: the sampling size, or 128 if it is not positive. *)
Definition edge_count (samplingsize : Z) : nat := if decide (0 < samplingsize)%Z then Z.to_nat samplingsize else 128.
Lemma edge_count_sampling n : sampling n = edge_count n.
Proof. unfold sampling, edge_count. repeat case_decide; (lia || done). Qed.
Theorem C76_EllipseEdge (junk : nat → point) (c radii : list R) (hollow : R) (samplingsize : Z) :
  (0 <= hollow)%R →
  let m := edge_count samplingsize in
  let a := cget radii 0 in let b := cget radii 1 in
  let o := EllipseEdge junk c radii hollow samplingsize in
  let outer := on_ellipse c a b m <$> seq 0 (S m) in
  let inner := on_ellipse c (hollow * a) (- (hollow * b)) m <$> seq 0 (S m) in
  pieces o = (if decide (hollow = 0%R) then [outer] else [outer; inner]) ∧
  length o = (if decide (hollow = 0%R) then m + 1 else 2 * m + 3) ∧
  (∀ l, l ∈ pieces o → closed_piece l) ∧
  (∀ l p, l ∈ pieces o → p ∈ l → a ≠ 0%R → b ≠ 0%R →
     let k := (((p.1 - cget c 0) / a) ^ 2 + ((p.2 - cget c 1) / b) ^ 2)%R in k = 1%R ∨ k = (hollow ^ 2)%R) ∧
  CircleEdge junk c a hollow samplingsize = EllipseEdge junk c [a; a] hollow samplingsize.
Proof.
  intros Hh m a b o outer inner.
  assert (Hm : 1 ≤ m) by (unfold m, edge_count; case_decide; lia).
  assert (Eo : o = (if decide (hollow = 0%R) then Some <$> outer else (Some <$> outer) ++ None :: (Some <$> inner))).
  { unfold o, EllipseEdge. rewrite edge_count_sampling. fold m a b. rewrite arc_points, arc_points_neg.
    destruct (decide (hollow = 0%R)); [done|]. rewrite decide_True by lra. done. }
  assert (Ep : pieces o = (if decide (hollow = 0%R) then [outer] else [outer; inner])).
  { rewrite Eo. destruct (decide (hollow = 0%R)); [by rewrite pieces_Some|]. by rewrite pieces_none, pieces_Some. }
  assert (Hl : ∀ l, l ∈ pieces o → ∃ x y, l = on_ellipse c x y m <$> seq 0 (S m) ∧ (x = a ∧ y = b ∨ x = hollow * a ∧ y = - (hollow * b))%R).
  { intros l. rewrite Ep. destruct (decide (hollow = 0%R)).
    - intros ->%elem_of_list_singleton. eauto 10.
    - rewrite !elem_of_cons, elem_of_nil. intros [-> |[-> |[]]]; eauto 10. }
  split; [done|]. split; [|split; [|split]].
  - rewrite Eo. destruct (decide (hollow = 0%R)); [|rewrite app_length; cbn [length]]; unfold outer, inner; rewrite !fmap_length, !seq_length; lia.
  - intros l (x & y & -> & _)%Hl. by apply ellipse_closed.
  - intros l p (x & y & -> & Hxy)%Hl (k & -> & _)%elem_of_list_fmap Ha Hb. unfold on_ellipse. cbn [fst snd].
    set (t := (2 * PI * INR k / INR m)%R). pose proof (sin2_cos2 t) as E. unfold Rsqr in E.
    destruct Hxy as [[-> ->]|[-> ->]].
    + left. rewrite <- E. field. done.
    + right. transitivity (hollow ^ 2 * (sin t * sin t + cos t * cos t))%R; [field; done|]. rewrite E. ring.
  - reflexivity.
Qed.
Print Assumptions C76_EllipseEdge.
(** The filled outline of a circle approximates the disc (or ring) up to the factor
    cos(pi / n) in the radii. *)
Theorem C76_CircleEdge (junk : nat → point) (c : list R) (r hollow : R) (n : Z) (p : point) :
  (3 <= n)%Z → (0 < r)%R → (0 <= hollow < 1)%R →
  let d := sqrt ((p.1 - cget c 0) * (p.1 - cget c 0) + (p.2 - cget c 1) * (p.2 - cget c 1))%R in
  let K := cos (PI / IZR n) in
  (painted (Polygon (CircleEdge junk c r hollow n)) p → (hollow * r * K <= d <= r)%R) ∧
  ((hollow * r < d ∨ hollow = 0)%R → (d < r * K)%R → painted (Polygon (CircleEdge junk c r hollow n)) p).
Proof.
  intros Hn Hr Hh d K. destruct (decide (hollow = 0%R)) as [-> |Hne].
  - destruct (circle_painted junk c r n p Hn Hr) as [H1 H2]. cbv zeta in H1, H2.
    change (sqrt (sqdist p (cget c 0, cget c 1))) with d in H1, H2. fold K in H2. split.
    + intros H. split; [|by apply H1]. rewrite !Rmult_0_l. apply sqrt_pos.
    + intros _ H. by apply H2.
  - destruct (ring_painted junk c r hollow n p Hn Hr) as [H1 H2]; [lra|]. cbv zeta in H1, H2.
    change (sqrt (sqdist p (cget c 0, cget c 1))) with d in H1, H2. fold K in H1, H2. split; [done|].
    intros [H|H]; [|lra]. by apply H2.
Qed.
Print Assumptions C76_CircleEdge.
(** The outlines with straight edges are exact. *)
Theorem C76_straight (c : list R) (r h hollow l b w : R) (p : point) :
  (0 < r)%R → (0 < h)%R → (0 < w)%R → (0 <= hollow < 1)%R →
  let u := Rabs (p.1 - cget c 0) in let v := Rabs (p.2 - cget c 1) in
  (painted (Polygon (RectangleEdge l b w h)) p ↔ (l <= p.1 <= l + w)%R ∧ (b <= p.2 <= b + h)%R) ∧
  (painted (Polygon (BiconeEdge c r hollow)) p ↔ (hollow * r <= u + v <= r)%R) ∧
  (painted (Polygon (CylinderCutEdge c r h hollow)) p ↔ (hollow * r <= u <= r)%R ∧ (v <= h / 2)%R) ∧
  length (RectangleEdge l b w h) = 5 ∧
  length (BiconeEdge c r hollow) = (if decide (hollow = 0%R) then 5 else 11) ∧
  length (CylinderCutEdge c r h hollow) = (if decide (hollow = 0%R) then 5 else 11) ∧
  (∀ q, q ∈ pieces (RectangleEdge l b w h) ++ pieces (BiconeEdge c r hollow) ++ pieces (CylinderCutEdge c r h hollow) → closed_piece q).
Proof.
  intros Hr Hh Hw Hho u v. split; [by apply painted_rect|]. split; [by apply painted_bicone|]. split; [|split; [done|split; [|split]]].
  - unfold CylinderCutEdge, u, v. set (x := cget c 0). set (y := cget c 1). destruct (decide (hollow = 0%R)) as [-> |Hne].
    + rewrite painted_rect by lra. rewrite Rmult_0_l.
      destruct (Rabs_cases (p.1 - x)) as [[? E1]|[? E1]], (Rabs_cases (p.2 - y)) as [[? E2]|[? E2]]; rewrite E1, E2; lra.
    + assert (Hq : (0 < hollow * r)%R) by (apply Rmult_lt_0_compat; lra).
      assert (Hw' : (0 < (1 - hollow) * r)%R) by (apply Rmult_lt_0_compat; lra).
      rewrite painted_two_rects by lra.
      destruct (Rabs_cases (p.1 - x)) as [[? E1]|[? E1]], (Rabs_cases (p.2 - y)) as [[? E2]|[? E2]]; rewrite E1, E2; lra.
  - rewrite BiconeEdge_eq. destruct (decide (hollow = 0%R)); [rewrite decide_False by lra|rewrite decide_True by lra]; done.
  - unfold CylinderCutEdge. destruct (decide (hollow = 0%R)); done.
  - intros q. rewrite !elem_of_app.
    assert (HR : ∀ l b w h, closed_piece [(l, b); (l + w, b); (l + w, b + h); (l, b + h); (l, b)]%R) by (intros; eexists; done).
    intros [H|[H|H]].
    + unfold RectangleEdge in H. rewrite pieces_Some in H. apply elem_of_list_singleton in H as ->. apply HR.
    + rewrite BiconeEdge_eq in H. unfold diamond_ccw, diamond_cw in H. destruct (decide (0 < hollow)%R).
      * rewrite pieces_none, pieces_Some, !elem_of_cons, elem_of_nil in H. destruct H as [-> |[-> |[]]]; eexists; done.
      * rewrite pieces_Some in H. apply elem_of_list_singleton in H as ->. eexists; done.
    + unfold CylinderCutEdge, RectangleEdge in H. destruct (decide (hollow = 0%R)).
      * rewrite pieces_Some in H. apply elem_of_list_singleton in H as ->. apply HR.
      * rewrite pieces_none, pieces_Some, !elem_of_cons, elem_of_nil in H. destruct H as [-> |[-> |[]]]; apply HR.
Qed.
Print Assumptions C76_straight.

(** ** Concrete cases *)
(** The claim of the documentation ("plots a cut through the center of the shape") fails for a
    cylinder with centre (1, 2, 3) and the time on the first axis. *)
Theorem C75_cylinder_refuted : ∃ s pa p, constructed_shape s ∧ sh_name s = "cylinder" ∧ sh_dim s = 3 ∧
  plot_patch (λ _, (0, 0)%R) s [0; 1]%Z = Ok pa ∧ in_shape s (cut s 0 1 p) ∧ ¬ painted pa p.
Proof.
  destruct (proj1 (C55_validation _ _ _ _) C55_nonvacuous) as (s & E & Hd & Hn & Hc & Hb & Ht & _ & _).
  assert (Hs : constructed_shape s) by (by eexists _, _, _, _).
  destruct Hb as [Er Eh]; [unfold ball_like; auto|]. specialize (Ht eq_refl). cbn in Hd, Hn, Hc, Er, Eh, Ht.
  destruct (C75_cylinder_time_first (λ _, (0, 0)%R) s 1 Hs) as (pa & E1 & HP & _); [by rewrite Hn|lia|].
  exists s, pa, (-1, 4)%R. split; [done|]. split; [by rewrite Hn|]. split; [lia|]. split; [done|].
  assert (Hin : ∀ p, in_shape s (cut s 0 1 p) → (Rabs (p.1 - 1) <= 2)%R).
  { intros p (_ & _ & _ & H & _). specialize (H Hn) as [H _]. rewrite Ht in H. cbn in H.
    destruct (cut_dist_time1 s ltac:(rewrite Hc; cbn; lia) 1 p) as [E2 _]; [lia|]. rewrite E2, Hc in H. cbn in H. unfold Datatypes.id in H. lra. }
  split.
  - split; [apply cut_length; rewrite Hc; cbn; lia|]. unfold in_region. rewrite Hn, Er, Eh, Ht. cbn [default from_option]. unfold Datatypes.id.
    destruct (cut_dist_time1 s ltac:(rewrite Hc; cbn; lia) 1 (-1, 4)%R) as [-> ->]; [lia|]. rewrite Hc. cbn.
    split; [intros E'; discriminate E'|]. split; [intros E'; discriminate E'|]. split.
    + intros _. replace (-1 - 1)%R with (- (2))%R by lra. replace (4 - 2)%R with 2%R by lra. rewrite Rabs_Ropp, (Rabs_right 2) by lra. lra.
    + split; intros E'; discriminate E'.
  - intros Hp. apply HP, Hin in Hp. rewrite Hc in Hp. cbn in Hp. replace (-1 + (1 - 2) - 1)%R with (- (3))%R in Hp by lra.
    rewrite Rabs_Ropp, Rabs_right in Hp; lra.
Qed.
Print Assumptions C75_cylinder_refuted.
(** A point of the hollow bicone, a point of its hole and a point outside. *)
Example C76_nonvacuous (c : list R) : c = [1; 2]%R →
  painted (Polygon (BiconeEdge c 1 (1 / 2))) (1, 2 + 3 / 4)%R ∧
  ¬ painted (Polygon (BiconeEdge c 1 (1 / 2))) (1, 2 + 1 / 4)%R ∧
  ¬ painted (Polygon (BiconeEdge c 1 (1 / 2))) (2, 3)%R.
Proof.
  intros ->.
  assert (H : ∀ p, painted (Polygon (BiconeEdge [1; 2]%R 1 (1 / 2))) p ↔
    (1 / 2 * 1 <= Rabs (p.1 - 1) + Rabs (p.2 - 2) <= 1)%R).
  { intros p. destruct (C76_straight [1; 2]%R 1 1 (1 / 2) 0 0 1 p) as (_ & HB & _); [lra..|]. exact HB. }
  rewrite !H. cbn [fst snd].
  replace (1 - 1)%R with 0%R by lra. replace (2 + 3 / 4 - 2)%R with (3 / 4)%R by lra.
  replace (2 + 1 / 4 - 2)%R with (1 / 4)%R by lra. replace (2 - 1)%R with 1%R by lra. replace (3 - 2)%R with 1%R by lra.
  rewrite Rabs_R0. rewrite !Rabs_right by lra. split; [lra|]. split; lra.
Qed.
(** The hypotheses of C75_cut and C75_hollow_disc are met: the same hollow cylinder. *)
Example C75_nonvacuous : ∃ s, constructed_shape s ∧ (sh_name s = "cylinder" → 1 ≠ 0) ∧ ¬ shows_disc s 1 0 ∧
  shows_disc s 1 2 ∧ (0 < hollow_of s)%R ∧ in_shape s (cut s 1 0 (4, 3)%R).
Proof.
  destruct (proj1 (C55_validation _ _ _ _) C55_nonvacuous) as (s & E & Hd & Hn & Hc & Hb & Ht & _ & _).
  assert (Hs : constructed_shape s) by (by eexists _, _, _, _).
  destruct Hb as [Er Eh]; [unfold ball_like; auto|]. specialize (Ht eq_refl). cbn in Hd, Hn, Hc, Er, Eh, Ht.
  exists s. split; [done|]. split; [done|]. split.
  { intros [E1|(_ & E1 & _)]; [rewrite Hn in E1; discriminate E1|done]. }
  split; [right; rewrite Hn; auto|]. split; [unfold hollow_of; rewrite Eh; cbn; unfold Datatypes.id; lra|].
  split; [apply cut_length; rewrite Hc; cbn; lia|]. unfold in_region. rewrite Hn, Er, Eh, Ht. cbn [default from_option]. unfold Datatypes.id.
  destruct (cut_dist_time2 s ltac:(rewrite Hc; cbn; lia) 1 (4, 3)%R) as [-> ->]; [lia|]. rewrite Hc. cbn.
  split; [intros E'; discriminate E'|]. split; [intros E'; discriminate E'|]. split.
  - intros _. replace (3 - 1)%R with 2%R by lra. replace (4 - 2)%R with 2%R by lra. rewrite (Rabs_right 2) by lra. lra.
  - split; intros E'; discriminate E'.
Qed.
