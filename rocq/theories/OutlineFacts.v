(** Facts about outlines: winding numbers of rectangles and diamonds. *)
From Verif Require Import Base SpacetimeModel ShapeModel OutlineModel SpecOutline.
From Coq Require Import Reals Lra Lia.
#[local] Open Scope nat_scope.

Lemma segments_none o1 o2 : segments (o1 ++ None :: o2) = segments o1 ++ segments o2.
Proof.
  induction o1 as [|a o1 IH]; [done|]. destruct a as [a|].
  - destruct o1 as [|[b|] o1]; cbn in *; [done| |done]. by rewrite IH.
  - done.
Qed.
Lemma winding_none o1 o2 p : winding (o1 ++ None :: o2) p = (winding o1 p + winding o2 p)%Z.
Proof.
  unfold winding. rewrite segments_none, fmap_app. induction (crossing p <$> segments o1) as [|x l IH]; cbn; [done|].
  rewrite IH. lia.
Qed.
Lemma on_outline_none o1 o2 p : on_outline (o1 ++ None :: o2) p ↔ on_outline o1 p ∨ on_outline o2 p.
Proof.
  unfold on_outline. rewrite segments_none. setoid_rewrite elem_of_app. split.
  - intros (a & b & [H|H] & Hp); [left|right]; eauto.
  - intros [(a & b & H & Hp)|(a & b & H & Hp)]; eauto.
Qed.

(** The sign of the orientation when a positive factor can be taken out. *)
Lemma crossing_scaled k L a b p : (0 < k)%R → orientation a b p = (k * L)%R →
  crossing p (a, b) = if decide (a.2 <= p.2 ∧ p.2 < b.2 ∧ 0 < L)%R then 1%Z
    else if decide (b.2 <= p.2 ∧ p.2 < a.2 ∧ L < 0)%R then (-1)%Z else 0%Z.
Proof.
  intros Hk E. unfold crossing. rewrite E.
  assert (H1 : (0 < k * L)%R ↔ (0 < L)%R) by (split; intros; nra).
  assert (H2 : (k * L < 0)%R ↔ (L < 0)%R) by (split; intros; nra).
  repeat case_decide; try done; tauto.
Qed.
Lemma crossing_flat a b p : a.2 = b.2 → crossing p (a, b) = 0%Z.
Proof. intros E. unfold crossing. rewrite E. repeat case_decide; try done; lra. Qed.

Lemma unit_le a b : (a <= b)%R → (0 < b)%R → (a / b <= 1)%R.
Proof. intros H Hb. apply (Rmult_le_reg_r b); [done|]. unfold Rdiv. rewrite Rmult_assoc, Rinv_l by lra. lra. Qed.

(** *** Rectangles *)
Lemma rect_winding l b w h p : (0 < w)%R → (0 < h)%R →
  ((l < p.1 < l + w)%R → (b < p.2 < b + h)%R → winding (RectangleEdge l b w h) p = 1%Z) ∧
  ((p.1 < l ∨ l + w < p.1 ∨ p.2 < b ∨ b + h < p.2)%R → winding (RectangleEdge l b w h) p = 0%Z).
Proof.
  intros Hw Hh. unfold winding, RectangleEdge. cbn [fmap list_fmap segments foldr].
  rewrite (crossing_flat (l, b) (l + w, b)%R p) by done.
  rewrite (crossing_flat (l + w, b + h)%R (l, b + h)%R p) by done.
  rewrite (crossing_scaled h (l + w - p.1)%R (l + w, b)%R (l + w, b + h)%R) by (done || unfold orientation; cbn; ring).
  rewrite (crossing_scaled h (p.1 - l)%R (l, b + h)%R (l, b)%R) by (done || unfold orientation; cbn; ring).
  cbn [fst snd]. split.
  - intros H1 H2. repeat case_decide; try done; lra.
  - intros H1. repeat case_decide; try done; lra.
Qed.
Lemma rect_edge l b w h p : (0 < w)%R → (0 < h)%R →
  on_outline (RectangleEdge l b w h) p ↔
  ((l <= p.1 <= l + w)%R ∧ (b <= p.2 <= b + h)%R) ∧ ¬ ((l < p.1 < l + w)%R ∧ (b < p.2 < b + h)%R).
Proof.
  intros Hw Hh. unfold on_outline, RectangleEdge. cbn [fmap list_fmap segments]. split.
  - intros (a & c & H & t & Ht & E1 & E2). rewrite E1, E2.
    rewrite !elem_of_cons, elem_of_nil in H.
    assert (0 <= t * w <= w)%R by nra. assert (0 <= t * h <= h)%R by nra.
    destruct H as [[= -> ->]|[[= -> ->]|[[= -> ->]|[[= -> ->]|[]]]]]; cbn.
    + replace (l + t * (l + w - l))%R with (l + t * w)%R by ring. replace (b + t * (b - b))%R with b by ring. lra.
    + replace (b + t * (b + h - b))%R with (b + t * h)%R by ring.
      replace (l + w + t * (l + w - (l + w)))%R with (l + w)%R by ring. lra.
    + replace (l + w + t * (l - (l + w)))%R with (l + (w - t * w))%R by ring.
      replace (b + h + t * (b + h - (b + h)))%R with (b + h)%R by ring. lra.
    + replace (l + t * (l - l))%R with l by ring. replace (b + h + t * (b - (b + h)))%R with (b + (h - t * h))%R by ring. lra.
  - intros [[H1 H2] H3]. destruct p as [x y]; cbn in *.
    assert (Hd : (y = b ∨ x = l + w ∨ y = b + h ∨ x = l)%R).
    { destruct (Req_dec y b); [auto|]. destruct (Req_dec y (b + h)); [auto|]. destruct (Req_dec x (l + w)); [auto|].
      destruct (Req_dec x l); [auto|]. exfalso. apply H3. lra. }
    destruct Hd as [-> |[-> |[-> | ->]]].
    + eexists _, _. split; [apply elem_of_list_here|]. exists ((x - l) / w)%R. cbn.
      split; [split; [apply Rle_mult_inv_pos; lra|apply unit_le; lra]|]. split; field; lra.
    + eexists _, _. split; [apply elem_of_list_further, elem_of_list_here|]. exists ((y - b) / h)%R. cbn.
      split; [split; [apply Rle_mult_inv_pos; lra|apply unit_le; lra]|]. split; field; lra.
    + eexists _, _. split; [do 2 apply elem_of_list_further; apply elem_of_list_here|]. exists ((l + w - x) / w)%R. cbn.
      split; [split; [apply Rle_mult_inv_pos; lra|apply unit_le; lra]|]. split; field; lra.
    + eexists _, _. split; [do 3 apply elem_of_list_further; apply elem_of_list_here|]. exists ((b + h - y) / h)%R. cbn.
      split; [split; [apply Rle_mult_inv_pos; lra|apply unit_le; lra]|]. split; field; lra.
Qed.

(** The columns swapped: the orientation is reversed. *)
Lemma swap_segments o : segments (swap_columns o) = (λ e : point * point, ((e.1.2, e.1.1), (e.2.2, e.2.1))) <$> segments o.
Proof.
  induction o as [|a o IH]; [done|]. destruct a as [a|]; [|done]. destruct o as [|[b|] o]; [done| |done].
  change (segments (swap_columns (Some a :: Some b :: o))) with (((a.2, a.1), (b.2, b.1)) :: segments (swap_columns (Some b :: o))).
  by rewrite IH.
Qed.
Lemma swap_on_outline o p : on_outline (swap_columns o) p ↔ on_outline o (p.2, p.1).
Proof.
  unfold on_outline, on_segment. rewrite swap_segments. split.
  - intros (a & b & ([a' b'] & [= -> ->] & H)%elem_of_list_fmap & t & Ht & E1 & E2). exists a', b'. split; [done|]. exists t. done.
  - intros (a & b & H & t & Ht & E1 & E2). exists (a.2, a.1), (b.2, b.1). split; [|by exists t].
    apply elem_of_list_fmap. by exists (a, b).
Qed.
Lemma swap_rect_winding l b w h p : (0 < w)%R → (0 < h)%R →
  ((l < p.2 < l + w)%R → (b < p.1 < b + h)%R → winding (swap_columns (RectangleEdge l b w h)) p = (-1)%Z) ∧
  ((p.2 < l ∨ l + w < p.2 ∨ p.1 < b ∨ b + h < p.1)%R → winding (swap_columns (RectangleEdge l b w h)) p = 0%Z).
Proof.
  intros Hw Hh. unfold winding, RectangleEdge, swap_columns. cbn [fmap list_fmap option_fmap option_map segments foldr fst snd].
  rewrite (crossing_flat (b, l + w)%R (b + h, l + w)%R p) by done.
  rewrite (crossing_flat (b + h, l)%R (b, l)%R p) by done.
  rewrite (crossing_scaled w (b - p.1)%R (b, l)%R (b, l + w)%R) by (done || unfold orientation; cbn; ring).
  rewrite (crossing_scaled w (p.1 - b - h)%R (b + h, l + w)%R (b + h, l)%R) by (done || unfold orientation; cbn; ring).
  cbn [fst snd]. split.
  - intros H1 H2. repeat case_decide; try done; lra.
  - intros H1. repeat case_decide; try done; lra.
Qed.

(** *** Diamonds *)
Definition diamond_ccw (x y r : R) : outline :=
  Some <$> [(x, y + r); (x - r, y); (x, y - r); (x + r, y); (x, y + r)]%R.
Definition diamond_cw (x y r : R) : outline :=
  Some <$> [(x + r, y); (x, y - r); (x - r, y); (x, y + r); (x + r, y)]%R.
Lemma Rabs_cases a : (0 <= a ∧ Rabs a = a ∨ a < 0 ∧ Rabs a = - a)%R.
Proof. destruct (Rcase_abs a); [right; split; [lra|by apply Rabs_left]|left; split; [lra|by apply Rabs_right]]. Qed.
Lemma diamond_winding x y r p : (0 < r)%R →
  let d := (Rabs (p.1 - x) + Rabs (p.2 - y))%R in
  ((d < r)%R → winding (diamond_ccw x y r) p = 1%Z ∧ winding (diamond_cw x y r) p = (-1)%Z) ∧
  ((r < d)%R → winding (diamond_ccw x y r) p = 0%Z ∧ winding (diamond_cw x y r) p = 0%Z).
Proof.
  intros Hr d. unfold winding, diamond_ccw, diamond_cw. cbn [fmap list_fmap segments foldr].
  set (u := (p.1 - x)%R). set (v := (p.2 - y)%R).
  assert (Ed : d = (Rabs u + Rabs v)%R) by done. clearbody d.
  rewrite (crossing_scaled r (r + u - v)%R (x, y + r)%R (x - r, y)%R) by (done || unfold orientation, u, v; cbn; ring).
  rewrite (crossing_scaled r (r + u + v)%R (x - r, y)%R (x, y - r)%R) by (done || unfold orientation, u, v; cbn; ring).
  rewrite (crossing_scaled r (r - u + v)%R (x, y - r)%R (x + r, y)%R) by (done || unfold orientation, u, v; cbn; ring).
  rewrite (crossing_scaled r (r - u - v)%R (x + r, y)%R (x, y + r)%R) by (done || unfold orientation, u, v; cbn; ring).
  rewrite (crossing_scaled r (- (r - u + v))%R (x + r, y)%R (x, y - r)%R) by (done || unfold orientation, u, v; cbn; ring).
  rewrite (crossing_scaled r (- (r + u + v))%R (x, y - r)%R (x - r, y)%R) by (done || unfold orientation, u, v; cbn; ring).
  rewrite (crossing_scaled r (- (r + u - v))%R (x - r, y)%R (x, y + r)%R) by (done || unfold orientation, u, v; cbn; ring).
  rewrite (crossing_scaled r (- (r - u - v))%R (x, y + r)%R (x + r, y)%R) by (done || unfold orientation, u, v; cbn; ring).
  cbn [fst snd]. assert (Ev : p.2 = (v + y)%R) by (unfold v; ring). clearbody u v. rewrite Ev. clear Ev p.
  pose proof (Rabs_cases u) as Hu. pose proof (Rabs_cases v) as Hv. generalize dependent (Rabs u). generalize dependent (Rabs v).
  intros av Hv au Ed Hu. subst d. split; intros Hd; split.
  all: repeat (case_decide; try (exfalso; lra)); try done.
Qed.
Lemma diamond_edge x y r p : (0 < r)%R →
  (on_outline (diamond_ccw x y r) p ↔ (Rabs (p.1 - x) + Rabs (p.2 - y) = r)%R) ∧
  (on_outline (diamond_cw x y r) p ↔ (Rabs (p.1 - x) + Rabs (p.2 - y) = r)%R).
Proof.
  intros Hr. destruct p as [px py]. cbn [fst snd].
  assert (Hseg : ∀ a b, on_segment a b (px, py) → ∃ t, (0 <= t <= 1)%R ∧ px = (a.1 + t * (b.1 - a.1))%R ∧ py = (a.2 + t * (b.2 - a.2))%R) by done.
  assert (Hok : ∀ sx sy, (sx = 1 ∨ sx = -1)%R → (sy = 1 ∨ sy = -1)%R → ∀ t, (0 <= t <= 1)%R →
    (Rabs (sx * r * t) + Rabs (sy * r * (1 - t)) = r)%R).
  { intros sx sy Hx Hy t Ht. assert (Hs : ∀ s, (s = 1 ∨ s = -1)%R → Rabs s = 1%R).
    { intros s [-> | ->]; [apply Rabs_R1|rewrite Rabs_left; lra]. }
    rewrite !Rabs_mult, (Hs sx Hx), (Hs sy Hy), !(Rabs_right r) by lra. rewrite !Rabs_right by lra. ring. }
  assert (Hbk : (Rabs (px - x) + Rabs (py - y) = r)%R → ∃ sx sy t, (sx = 1 ∨ sx = -1)%R ∧ (sy = 1 ∨ sy = -1)%R ∧ (0 <= t <= 1)%R ∧
    px = (x + sx * r * t)%R ∧ py = (y + sy * r * (1 - t))%R).
  { intros H. destruct (Rabs_cases (px - x)) as [[H1 E1]|[H1 E1]], (Rabs_cases (py - y)) as [[H2 E2]|[H2 E2]]; rewrite E1, E2 in H.
    - exists 1%R, 1%R, ((px - x) / r)%R. split_and!; [by left|by left|apply Rle_mult_inv_pos; lra|apply unit_le; lra|field; lra|].
      replace r with (px - x + (py - y))%R by lra. field. lra.
    - exists 1%R, (-1)%R, ((px - x) / r)%R. split_and!; [by left|by right|apply Rle_mult_inv_pos; lra|apply unit_le; lra|field; lra|].
      replace r with (px - x - (py - y))%R by lra. field. lra.
    - exists (-1)%R, 1%R, (- (px - x) / r)%R. split_and!; [by right|by left|apply Rle_mult_inv_pos; lra|apply unit_le; lra|field; lra|].
      replace r with (-(px - x) + (py - y))%R by lra. field. lra.
    - exists (-1)%R, (-1)%R, (- (px - x) / r)%R. split_and!; [by right|by right|apply Rle_mult_inv_pos; lra|apply unit_le; lra|field; lra|].
      replace r with (-(px - x) - (py - y))%R by lra. field. lra. }
  unfold on_outline, diamond_ccw, diamond_cw. cbn [fmap list_fmap segments]. split; split.
  - intros (a & b & H & t & Ht & E1 & E2). cbn in E1, E2. rewrite !elem_of_cons, elem_of_nil in H.
    destruct H as [[= -> ->]|[[= -> ->]|[[= -> ->]|[[= -> ->]|[]]]]]; cbn in E1, E2.
    + rewrite <- (Hok (-1)%R 1%R (or_intror eq_refl) (or_introl eq_refl) t Ht). subst. f_equal; f_equal; ring.
    + rewrite <- (Hok (-1)%R (-1)%R (or_intror eq_refl) (or_intror eq_refl) (1 - t)%R ltac:(lra)). subst. f_equal; f_equal; ring.
    + rewrite <- (Hok 1%R (-1)%R (or_introl eq_refl) (or_intror eq_refl) t Ht). subst. f_equal; f_equal; ring.
    + rewrite <- (Hok 1%R 1%R (or_introl eq_refl) (or_introl eq_refl) (1 - t)%R ltac:(lra)). subst. f_equal; f_equal; ring.
  - intros (sx & sy & t & Hx & Hy & Ht & -> & ->)%Hbk.
    destruct Hx as [-> | ->], Hy as [-> | ->].
    + eexists _, _. split; [do 3 apply elem_of_list_further; apply elem_of_list_here|]. exists (1 - t)%R. cbn. split_and!; [lra|lra|ring|ring].
    + eexists _, _. split; [do 2 apply elem_of_list_further; apply elem_of_list_here|]. exists t. cbn. split_and!; [lra|lra|ring|ring].
    + eexists _, _. split; [apply elem_of_list_here|]. exists t. cbn. split_and!; [lra|lra|ring|ring].
    + eexists _, _. split; [do 1 apply elem_of_list_further; apply elem_of_list_here|]. exists (1 - t)%R. cbn. split_and!; [lra|lra|ring|ring].
  - intros (a & b & H & t & Ht & E1 & E2). cbn in E1, E2. rewrite !elem_of_cons, elem_of_nil in H.
    destruct H as [[= -> ->]|[[= -> ->]|[[= -> ->]|[[= -> ->]|[]]]]]; cbn in E1, E2.
    + rewrite <- (Hok 1%R (-1)%R (or_introl eq_refl) (or_intror eq_refl) (1 - t)%R ltac:(lra)). subst. f_equal; f_equal; ring.
    + rewrite <- (Hok (-1)%R (-1)%R (or_intror eq_refl) (or_intror eq_refl) t Ht). subst. f_equal; f_equal; ring.
    + rewrite <- (Hok (-1)%R 1%R (or_intror eq_refl) (or_introl eq_refl) (1 - t)%R ltac:(lra)). subst. f_equal; f_equal; ring.
    + rewrite <- (Hok 1%R 1%R (or_introl eq_refl) (or_introl eq_refl) t Ht). subst. f_equal; f_equal; ring.
  - intros (sx & sy & t & Hx & Hy & Ht & -> & ->)%Hbk.
    destruct Hx as [-> | ->], Hy as [-> | ->].
    + eexists _, _. split; [do 3 apply elem_of_list_further; apply elem_of_list_here|]. exists t. cbn. split_and!; [lra|lra|ring|ring].
    + eexists _, _. split; [apply elem_of_list_here|]. exists (1 - t)%R. cbn. split_and!; [lra|lra|ring|ring].
    + eexists _, _. split; [do 2 apply elem_of_list_further; apply elem_of_list_here|]. exists (1 - t)%R. cbn. split_and!; [lra|lra|ring|ring].
    + eexists _, _. split; [do 1 apply elem_of_list_further; apply elem_of_list_here|]. exists t. cbn. split_and!; [lra|lra|ring|ring].
Qed.
