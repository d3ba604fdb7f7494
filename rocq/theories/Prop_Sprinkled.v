(** Theorems about /repo/sprinkledcauset.py: C53 (intensity), C54 (coordinates), C66 (distribution
    of the coordinates). *)
From Verif Require Import Base Spec EventModel EventFacts CausetModel CausetFacts SpecBuild BuildModel
  BuildFacts MergeFacts Prop_Build.
From Coq Require Import Reals Qreals Lra.
From Verif Require Import HistoryFacts.
From Verif Require Import SpacetimeModel SpacetimeFacts ShapeModel SpecShape Prop_Shape
  EmbedModel EmbedFacts Prop_Embed SprinkledModel SprinkledFacts.
#[local] Open Scope nat_scope.

(** ** C54 *)
(** The directions drawn for a shape are not zero. *)
Definition directions_ok (g : rng) (s : shape) : Prop :=
  (sh_name s = "ball" → normal_ok g (sh_dim s)) ∧
  (sh_name s = "cylinder" → normal_ok g (sh_dim s - 1)).

(** The corners of a box. *)
Lemma box_corner s half i : length (sh_center s) = sh_dim s → length half = sh_dim s → i < sh_dim s →
  nth i (zip_with Rminus (sh_center s) half) 0%R = (nth i (sh_center s) 0 - nth i half 0)%R ∧
  nth i (zip_with Rplus (sh_center s) half) 0%R = (nth i (sh_center s) 0 + nth i half 0)%R.
Proof. intros H1 H2 Hi. rewrite !zip_nth by lia. done. Qed.
(** Half the edge length of a box along dimension [i]. *)
Definition half_edge (s : shape) (i : nat) : R :=
  if decide (sh_name s = "cube") then (default 0 (sh_edge s) / 2)%R
  else (nth i (default [] (sh_edges s)) 0 / 2)%R.

Lemma sprinkle_box g junk s (n k : nat) : constructed_shape s → sh_name s = "cube" ∨ sh_name s = "cuboid" →
  ∃ rows, sprinkle_coords g junk (sh_dim s) (Z.of_nat n) s k = (k + n * sh_dim s, Ok rows) ∧ length rows = n ∧
    ∀ m row, rows !! m = Some row → length row = sh_dim s ∧
      ∀ i, i < sh_dim s → offset s row i = (- half_edge s i + 2 * half_edge s i * g_random g (k + m * sh_dim s + i))%R.
Proof.
  intros Hs Hn. destruct (constructed_wf s Hs) as [Hd Hc Hcases]. unfold sprinkle_coords.
  destruct (decide (Z.of_nat n < 0)%Z); [lia|]. rewrite Nat2Z.id. cbn zeta.
  destruct (decide (sh_name s ∈ ["cube"; "cuboid"])) as [_|Hx]; [|exfalso; apply Hx; destruct Hn as [-> | ->]; decide_vm].
  set (half := if decide (sh_name s = "cuboid") then _ else _).
  assert (Hhalf : length half = sh_dim s ∧ ∀ i, i < sh_dim s → nth i half 0%R = half_edge s i).
  { unfold half, half_edge.
    destruct Hcases as [[[En|En] _]|[[En _]|[[En (e & Ee & He)]|[En (es & Ees & Hl & He)]]]]; rewrite En in Hn |- *;
      try (destruct Hn as [Hn|Hn]; discriminate Hn); str_decide.
    - rewrite replicate_length. split; [done|]. intros i Hi. rewrite Ee.
      rewrite nth_lookup, lookup_replicate_2 by lia. done.
    - rewrite Ees. cbn. rewrite fmap_length. split; [done|]. intros i Hi. rewrite !nth_lookup, list_lookup_fmap.
      destruct (lookup_lt_is_Some_2 es i) as [x Hx]; [lia|]. by rewrite Hx. }
  destruct Hhalf as [Hhl Hhn].
  destruct (box_rows_exact g (sh_dim s) (zip_with Rminus (sh_center s) half) (zip_with Rplus (sh_center s) half)) with (n := n) (k := k)
    as (rows & E & Hlen & Hrows); [rewrite zip_with_length; lia|rewrite zip_with_length; lia|].
  exists rows. split; [done|split; [done|]]. intros m row Hm. destruct (Hrows m row Hm) as [R1 R2]. split; [done|].
  intros i Hi. unfold offset. rewrite R2 by done. destruct (box_corner s half i) as [-> ->]; [done..|].
  rewrite Hhn by done. unfold uniform. ring.
Qed.
Definition round_start (s : shape) : nat := if decide (sh_name s = "ball") then 0 else 1.
Lemma sprinkle_round g junk s (n k : nat) : random_ok g → constructed_shape s → directions_ok g s →
  sh_name s = "ball" ∨ (sh_name s = "cylinder" ∧ sh_dim s ≠ 1) →
  let start := round_start s in
  let b := sh_dim s - start in
  let h := default 0%R (sh_hollow s) in
  let k1 := if decide (sh_name s = "ball") then k else k + n in
  ∃ rows, sprinkle_coords g junk (sh_dim s) (Z.of_nat n) s k = (k1 + n * (b + 1), Ok rows) ∧ length rows = n ∧
    ∀ m row, rows !! m = Some row → length row = sh_dim s ∧
      let k' := k1 + m * (b + 1) in
      sqrt (dist2_from s row start) = (py_pow (uniform g (k' + b) (h ^ b) 1) (1 / INR b) * default 0 (sh_radius s))%R ∧
      (∃ a, (0 <= a)%R ∧ ∀ i, i < b → offset s row (start + i) = (a * g_normal g (k' + i))%R) ∧
      (sh_name s = "cylinder" →
         let dur := default 0%R (sh_duration s) in
         offset s row 0 = (- (dur / 2) + dur * g_random g (k + m))%R).
Proof.
  intros Hg Hs Hdir Hn. destruct (constructed_wf s Hs) as [Hd Hc Hcases]. cbn zeta. unfold sprinkle_coords.
  destruct (decide (Z.of_nat n < 0)%Z); [lia|]. rewrite Nat2Z.id. cbn zeta.
  destruct (decide (sh_name s ∈ ["cube"; "cuboid"])) as [Hx|_].
  { exfalso. destruct Hn as [E|[E _]]; rewrite E in Hx; revert Hx; decide_vm. }
  destruct (decide (sh_name s ∈ ["ball"; "cylinder"; "diamond"])) as [_|Hx];
    [|exfalso; apply Hx; destruct Hn as [-> |[-> _]]; decide_vm].
  rewrite (bool_decide_false (sh_name s = "diamond")) by (destruct Hn as [-> |[-> _]]; discriminate).
  destruct (decide (sh_dim s = 2 ∧ false = true)) as [[_ ?]|_]; [done|].
  fold (round_start s). set (start := round_start s).
  destruct Hcases as [[[En|En] (r & h & Er & Eh & Hr & Hh)]|[[En (r & h & T & Er & Eh & ET & Hr & Hh & HT)]|[[En _]|[En _]]]];
    try (destruct Hn as [Hn|[Hn _]]; rewrite En in Hn; discriminate Hn).
  - assert (Es : start = 0) by (unfold start, round_start; rewrite En; done).
    rewrite (bool_decide_false (sh_name s = "cylinder")) by (rewrite En; discriminate).
    destruct (decide (sh_name s = "ball")) as [_|?]; [|done]. rewrite Er, Eh. cbn [default]. unfold Datatypes.id.
    destruct (ball_rows_spec g Hg s start r h) with (times := (λ i : nat, junk i 0) <$> seq 0 n) (k := k)
      as (rows & E & Hlen & Hrows); [by left|lia|done|done|done|rewrite Es, Nat.sub_0_r; by apply Hdir|].
    rewrite fmap_length, seq_length in *. exists rows. split; [done|split; [done|]]. intros m row Hm.
    destruct (Hrows m row Hm) as (R1 & _ & R2 & R3). split; [done|split; [done|split; [done|]]]. intros E'. rewrite En in E'. discriminate E'.
  - assert (Es : start = 1) by (unfold start, round_start; rewrite En; done).
    assert (Hd1 : sh_dim s ≠ 1) by (destruct Hn as [E|[_ ?]]; [rewrite En in E; discriminate E|done]).
    rewrite (bool_decide_true (sh_name s = "cylinder")) by done.
    destruct (decide (sh_name s = "ball")) as [E|_]; [rewrite En in E; discriminate E|]. rewrite Er, Eh, ET. cbn [default]. unfold Datatypes.id.
    set (times := (λ i : nat, uniform _ _ _ _) <$> seq 0 n).
    destruct (ball_rows_spec g Hg s start r h) with (times := times) (k := k + n)
      as (rows & E & Hlen & Hrows); [by right|lia|done|done|done|rewrite Es; by apply Hdir|].
    assert (Hlt : length times = n) by (unfold times; by rewrite fmap_length, seq_length). rewrite Hlt in *.
    exists rows. split; [done|split; [done|]]. intros m row Hm.
    destruct (Hrows m row Hm) as (R1 & Rt & R2 & R3). split; [done|split; [done|split; [done|]]]. intros _.
    specialize (Rt Es). unfold times in Rt. rewrite list_lookup_fmap in Rt.
    assert (Hmn : m < n) by (rewrite <- Hlen; by eapply lookup_lt_Some).
    rewrite lookup_seq_lt in Rt by done. cbn in Rt. injection Rt as Rt. unfold offset. rewrite <- Rt. unfold uniform, Datatypes.id. lra.
Qed.

(** Every sprinkled point lies in the shape, and thus within the limits of every dimension. *)
Theorem C54_in_shape (g : rng) (junk : nat → nat → R) (s : shape) (count : Z) (k : nat) :
  random_ok g → constructed_shape s → directions_ok g s → (0 <= count)%Z →
  sh_name s ≠ "bicone" → ¬ (sh_name s = "cylinder" ∧ sh_dim s = 1) →
  ∃ k' rows, sprinkle_coords g junk (sh_dim s) count s k = (k', Ok rows) ∧
    Z.of_nat (length rows) = count ∧
    ∀ row, row ∈ rows → in_shape s row ∧
      ∀ d lo hi, Limits s d = Ok (lo, hi) → (lo <= nth (Z.to_nat d) row 0 <= hi)%R.
Proof.
  intros Hg Hs Hdir Hcount Hnb Hnc.
  enough (∃ k' rows, sprinkle_coords g junk (sh_dim s) (Z.of_nat (Z.to_nat count)) s k = (k', Ok rows) ∧
    length rows = Z.to_nat count ∧ ∀ row, row ∈ rows → in_shape s row) as (k' & rows & E & Hl & Hr).
  { rewrite Z2Nat.id in E by done. exists k', rows. split; [done|split; [lia|]]. intros row Hrow. split; [auto|].
    intros d lo hi HL. destruct (C56_Limits s d Hs) as [L1 L2].
    destruct (decide (0 <= d < Z.of_nat (sh_dim s))%Z) as [Hd|Hd]; [|rewrite (L2 Hd) in HL; discriminate HL].
    destruct (L1 Hd) as (lo' & hi' & E' & _ & _ & Hin & _). rewrite E' in HL. injection HL as <- <-. apply Hin. auto. }
  set (n := Z.to_nat count). destruct (constructed_wf s Hs) as [Hd Hc Hcases].
  assert (Hcase : (sh_name s = "cube" ∨ sh_name s = "cuboid") ∨ (sh_name s = "ball" ∨ (sh_name s = "cylinder" ∧ sh_dim s ≠ 1))).
  { destruct Hcases as [[[En|En] _]|[[En _]|[[En _]|[En _]]]]; tauto. }
  destruct Hcase as [Hbox|Hround].
  - destruct (sprinkle_box g junk s n k Hs Hbox) as (rows & E & Hl & Hrows). do 2 eexists. split; [exact E|split; [done|]].
    intros row [m Hm]%elem_of_list_lookup. destruct (Hrows m row Hm) as [R1 R2]. split; [done|].
    assert (Hh : ∀ i, i < sh_dim s → (Rabs (offset s row i) <= half_edge s i)%R).
    { intros i Hi. rewrite R2 by done.
      assert (He : (0 <= half_edge s i)%R).
      { unfold half_edge.
        destruct Hcases as [[[En|En] _]|[[En _]|[[En (e & Ee & He)]|[En (es & Ees & Hl' & He)]]]]; rewrite En in Hbox |- *;
          try (destruct Hbox as [Hx|Hx]; discriminate Hx); str_decide; [rewrite Ee|rewrite Ees]; cbn; [lra|].
        enough (0 < nth i es 0)%R by lra. apply He. rewrite nth_lookup.
        destruct (lookup_lt_is_Some_2 es i) as [x Hx]; [lia|]. rewrite Hx. cbn. by eapply elem_of_list_lookup_2. }
      pose proof (Hg (k + m * sh_dim s + i)) as [G1 G2]. set (u := g_random g _) in *. set (e := half_edge s i) in *.
      assert (0 <= 2 * e * u)%R by (apply Rmult_le_pos; lra). assert (2 * e * u <= 2 * e * 1)%R by (apply Rmult_le_compat_l; lra).
      apply Rabs_le. lra. }
    unfold half_edge in Hh.
    destruct Hbox as [En|En]; rewrite En in Hh; unfold in_region; split_and!; intros En'; try (rewrite En in En'; discriminate En');
      intros i Hi; specialize (Hh i Hi); revert Hh; str_decide; done.
  - destruct (sprinkle_round g junk s n k Hg Hs Hdir Hround) as (rows & E & Hl & Hrows). do 2 eexists. split; [exact E|split; [done|]].
    intros row [m Hm]%elem_of_list_lookup. destruct (Hrows m row Hm) as (R1 & R2 & _ & R4). split; [done|].
    destruct Hcases as [[[En|En] (r & h & Er & Eh & Hr & Hh)]|[[En (r & h & T & Er & Eh & ET & Hr & Hh & HT)]|[[En _]|[En _]]]];
      try (destruct Hround as [Hx|[Hx _]]; rewrite En in Hx; discriminate Hx).
    + assert (Es : round_start s = 0) by (unfold round_start; rewrite En; done). rewrite Es in *. rewrite Nat.sub_0_r in *.
      unfold in_region; split_and!; intros En'; try (rewrite En in En'; discriminate En').
      unfold dist_all. rewrite R2. rewrite Er, Eh. cbn [default]. unfold Datatypes.id. apply scaled_range; [done|lia|done|done].
    + assert (Es : round_start s = 1) by (unfold round_start; rewrite En; done). rewrite Es in *.
      assert (Hd1 : sh_dim s ≠ 1) by (intros ?; by apply Hnc).
      unfold in_region; split_and!; intros En'; try (rewrite En in En'; discriminate En').
      split.
      * rewrite (R4 En). rewrite ET. cbn [default]. unfold Datatypes.id. pose proof (Hg (k + m)) as [G1 G2]. set (u := g_random g _) in *.
        assert (0 <= T * u)%R by (apply Rmult_le_pos; lra). assert (T * u <= T * 1)%R by (apply Rmult_le_compat_l; lra).
        apply Rabs_le. lra.
      * unfold dist_space. rewrite R2. rewrite Er, Eh. cbn [default]. unfold Datatypes.id. apply scaled_range; [done|lia|done|done].
Qed.
Print Assumptions C54_in_shape.

(** The branch of /repo/sprinkledcauset.py:85 tests the name 'diamond', but the name of such a
    shape is 'bicone': no coordinate is assigned, whatever the random generator; the result is
    the content of uninitialised memory, which may lie outside the shape. *)
Lemma sprinkle_bicone g junk s (n k : nat) : sh_name s = "bicone" →
  sprinkle_coords g junk (sh_dim s) (Z.of_nat n) s k = (k, Ok ((λ i, junk i <$> seq 0 (sh_dim s)) <$> seq 0 n)).
Proof.
  intros En. unfold sprinkle_coords. destruct (decide (Z.of_nat n < 0)%Z); [lia|]. rewrite Nat2Z.id, En. cbn zeta.
  destruct (decide ("bicone" ∈ ["cube"; "cuboid"])) as [H|_]; [exfalso; revert H; decide_vm|].
  destruct (decide ("bicone" ∈ ["ball"; "cylinder"; "diamond"])) as [H|_]; [exfalso; revert H; decide_vm|]. done.
Qed.
Theorem C54_bicone_refuted (s : shape) (count : Z) :
  constructed_shape s → sh_name s = "bicone" → (0 < count)%Z →
  (∀ g1 g2 junk k, snd (sprinkle_coords g1 junk (sh_dim s) count s k) = snd (sprinkle_coords g2 junk (sh_dim s) count s k)) ∧
  (∃ junk, ∀ g k, ∃ rows, sprinkle_coords g junk (sh_dim s) count s k = (k, Ok rows) ∧ rows ≠ [] ∧
     ∀ row, row ∈ rows → ¬ in_shape s row).
Proof.
  intros Hs En Hc. replace count with (Z.of_nat (Z.to_nat count)) by lia. set (n := Z.to_nat count).
  split; [intros g1 g2 junk k; by rewrite !sprinkle_bicone|].
  destruct (constructed_wf s Hs) as [Hd Hl Hcases].
  exists (λ _ _, nth 0 (sh_center s) 0 + default 0 (sh_radius s) + 1)%R. intros g k. eexists.
  split; [by apply sprinkle_bicone|]. split.
  { intros H. apply (f_equal length) in H. rewrite fmap_length, seq_length in H. cbn in H. lia. }
  intros row (i & -> & _)%elem_of_list_fmap [_ (_ & H & _)]. specialize (H En).
  assert (E : offset s ((λ _ : nat, nth 0 (sh_center s) 0 + default 0 (sh_radius s) + 1)%R <$> seq 0 (sh_dim s)) 0 = (default 0 (sh_radius s) + 1)%R).
  { unfold offset. rewrite (nth_lookup _ 0), list_lookup_fmap, lookup_seq_lt by lia. cbn. lra. }
  rewrite E in H. assert (Hp := sqrt_pos (dist2_from s ((λ _ : nat, nth 0 (sh_center s) 0 + default 0 (sh_radius s) + 1)%R <$> seq 0 (sh_dim s)) 1)).
  unfold dist_space in H.
  destruct Hcases as [[_ (r & h & Er & Eh & Hr & Hh)]|[[En' _]|[[En' _]|[En' _]]]];
    try (rewrite En in En'; discriminate En').
  rewrite Er in *. cbn in *. rewrite Rabs_right in H by lra. lra.
Qed.
Print Assumptions C54_bicone_refuted.
(** The name 'diamond' cannot occur: the constructor replaces it. *)
Theorem C54_diamond_branch_dead (s : shape) : constructed_shape s → sh_name s ≠ "diamond".
Proof.
  intros Hs E. destruct (constructed_wf s Hs) as [_ _ Hcases].
  destruct Hcases as [[[En|En] _]|[[En _]|[[En _]|[En _]]]]; rewrite E in En; discriminate En.
Qed.
Print Assumptions C54_diamond_branch_dead.
(** If the name were accepted, the branch would ignore the centre (and, in two dimensions, the
    hollow part): a two-dimensional diamond is then filled correctly exactly if it is solid
    and its time-space centre is the origin. *)
Theorem C54_diamond_branch (g : rng) (junk : nat → nat → R) (s : shape) (n k : nat) :
  random_ok g → sh_name s = "diamond" → sh_dim s = 2 → (0 < default 0 (sh_radius s))%R →
  sh_center s = [0%R; 0%R] →
  ∃ k' rows, sprinkle_coords g junk 2 (Z.of_nat n) s k = (k', Ok rows) ∧ length rows = n ∧
    ∀ row, row ∈ rows → length row = 2 ∧
      (Rabs (offset s row 0) + dist_space s row <= default 0 (sh_radius s))%R.
Proof.
  intros Hg En Hd Hr Hc. unfold sprinkle_coords. destruct (decide (Z.of_nat n < 0)%Z); [lia|]. rewrite Nat2Z.id. cbn zeta.
  destruct (decide (sh_name s ∈ ["cube"; "cuboid"])) as [H|_]; [exfalso; rewrite En in H; revert H; decide_vm|].
  destruct (decide (sh_name s ∈ ["ball"; "cylinder"; "diamond"])) as [_|H]; [|exfalso; apply H; rewrite En; decide_vm].
  rewrite (bool_decide_true (sh_name s = "diamond")) by done.
  destruct (decide (2 = 2 ∧ true = true)) as [_|H]; [|exfalso; by apply H].
  do 2 eexists. split; [reflexivity|split; [by rewrite fmap_length, seq_length|]].
  intros row (i & -> & _)%elem_of_list_fmap. split; [done|].
  set (r := default 0%R (sh_radius s)) in *. unfold dist_space, dist2_from, offset, diamond_row. rewrite Hd, Hc. cbn.
  set (u := uniform _ _ _ _). set (v := uniform _ _ _ _).
  assert (Hu : (-1 <= u <= 1)%R) by (apply uniform_range; [done|lra]).
  assert (Hv : (-1 <= v <= 1)%R) by (apply uniform_range; [done|lra]). clearbody u v r.
  unfold rsum. cbn. rewrite Rplus_0_l, !Rminus_0_r.
  replace (sqrt ((u - v) * (r / 2) * ((u - v) * (r / 2)))) with (Rabs ((u - v) * (r / 2))) by (symmetry; apply sqrt_Rsqr_abs).
  rewrite !Rabs_mult, (Rabs_right (r / 2)) by lra.
  assert (Rabs (u + v) + Rabs (u - v) <= 2)%R.
  { unfold Rabs. destruct (Rcase_abs (u + v)), (Rcase_abs (u - v)); lra. }
  replace (Rabs (u + v) * (r / 2) + Rabs (u - v) * (r / 2))%R with ((Rabs (u + v) + Rabs (u - v)) * (r / 2))%R by ring.
  assert ((Rabs (u + v) + Rabs (u - v)) * (r / 2) <= 2 * (r / 2))%R by (apply Rmult_le_compat_r; lra). lra.
Qed.
Print Assumptions C54_diamond_branch.
(** A cylinder of dimension 1 has no space coordinates: the exponent 1.0 / 0 raises. *)
Theorem C54_cylinder_dim1 (g : rng) (junk : nat → nat → R) (s : shape) (count : Z) (k : nat) :
  sh_name s = "cylinder" → sh_dim s = 1 → (0 < count)%Z →
  snd (sprinkle_coords g junk (sh_dim s) count s k) = Err ZeroDivisionError.
Proof.
  intros En Hd Hc. unfold sprinkle_coords. destruct (decide (count < 0)%Z); [lia|]. rewrite En. cbn zeta.
  destruct (decide ("cylinder" ∈ ["cube"; "cuboid"])) as [H|_]; [exfalso; revert H; decide_vm|].
  destruct (decide ("cylinder" ∈ ["ball"; "cylinder"; "diamond"])) as [_|H]; [|exfalso; apply H; decide_vm].
  rewrite (bool_decide_false ("cylinder" = "diamond")) by discriminate.
  destruct (decide (sh_dim s = 2 ∧ false = true)) as [[_ ?]|_]; [done|].
  destruct (Z.to_nat count) as [|n1] eqn:E; [lia|]. rewrite Hd. rewrite (bool_decide_true ("cylinder" = "cylinder")) by done.
  destruct (decide ("cylinder" = "ball")) as [?|_]; [done|]. done.
Qed.
Print Assumptions C54_cylinder_dim1.

(** A shape whose dimension differs from the one of the causet is not refused as such: with at
    least two coordinates (for a cylinder: at least two space coordinates, or none) more or
    fewer than needed the first row raises ValueError; a one-dimensional box is
    broadcast, so that every point has all coordinates equal; nothing is drawn for zero
    points. *)
Lemma assign_row_error (d : nat) (l : list R) : length l ≠ d → length l ≠ 1 → assign_row d l = Err ValueError.
Proof.
  intros H1 H2. unfold assign_row. destruct (decide (length l = d)) as [?|_]; [done|].
  destruct l as [|x [|y l]]; [done|by cbn in H2|done].
Qed.
Lemma uniform_vec_length g k low high : length low = length high → length (uniform_vec g k low high) = length low.
Proof.
  revert k high. induction low as [|x low IH]; intros k [|y high] H; [done..|]. cbn in *. f_equal. apply IH. lia.
Qed.
Theorem C54_other_dimension (g : rng) (junk : nat → nat → R) (s : shape) (d : nat) (count : Z) (k : nat) :
  constructed_shape s → d ≠ 0 → sh_dim s ≠ d → (0 < count)%Z →
  let outcome := snd (sprinkle_coords g junk d count s k) in
  (sh_name s ∈ ["cube"; "cuboid"; "ball"] → sh_dim s ≠ 1 → outcome = Err ValueError) ∧
  (sh_name s = "cylinder" → d ≠ 1 → sh_dim s ≠ 2 → outcome = Err ValueError) ∧
  (sh_name s = "cylinder" → d = 1 → outcome = Err ZeroDivisionError) ∧
  (sh_name s = "cube" ∨ sh_name s = "cuboid" → sh_dim s = 1 →
     ∃ rows, outcome = Ok rows ∧ Z.of_nat (length rows) = count ∧
       ∀ m row, rows !! m = Some row → row = replicate d (uniform g (k + m) (nth 0 (sh_center s) 0 - half_edge s 0)%R
                                                                    (nth 0 (sh_center s) 0 + half_edge s 0)%R)).
Proof.
  intros Hs Hd0 Hd Hc. cbn zeta. destruct (constructed_wf s Hs) as [Hd' Hcl Hcases].
  destruct (Z.to_nat count) as [|n] eqn:En; [lia|].
  set (half := if decide (sh_name s = "cuboid") then (λ x, x / 2)%R <$> default [] (sh_edges s)
               else replicate (length (sh_center s)) (default 0 (sh_edge s) / 2)%R).
  assert (Hhalf : sh_name s = "cube" ∨ sh_name s = "cuboid" → length half = sh_dim s).
  { unfold half. intros Hn.
    destruct Hcases as [[[En'|En'] _]|[[En' _]|[[En' (e & Ee & He)]|[En' (es & Ees & Hl & He)]]]]; rewrite En' in Hn |- *;
      try (destruct Hn as [Hn|Hn]; discriminate Hn); str_decide.
    - by rewrite replicate_length.
    - rewrite Ees. cbn. by rewrite fmap_length. }
  assert (Hbox : sh_name s = "cube" ∨ sh_name s = "cuboid" →
    sprinkle_coords g junk d count s k =
    box_rows g (S n) d k (zip_with Rminus (sh_center s) half) (zip_with Rplus (sh_center s) half)).
  { intros Hn. unfold sprinkle_coords. destruct (decide (count < 0)%Z); [lia|]. rewrite En. cbn zeta.
    destruct (decide (sh_name s ∈ ["cube"; "cuboid"])) as [_|Hx]; [done|exfalso; apply Hx; destruct Hn as [-> | ->]; decide_vm]. }
  assert (Hround : ∀ b, (sh_name s = "ball" ∧ b = 0) ∨ (sh_name s = "cylinder" ∧ b = 1) →
    ∃ isC times k1 r_low t, times = t :: isC ∧
      sprinkle_coords g junk d count s k = ball_rows g false d b k1 (sh_center s) (default 0%R (sh_radius s)) r_low times).
  { intros b Hb. unfold sprinkle_coords. destruct (decide (count < 0)%Z); [lia|]. rewrite En. cbn zeta.
    destruct (decide (sh_name s ∈ ["cube"; "cuboid"])) as [Hx|_].
    { exfalso. destruct Hb as [[E _]|[E _]]; rewrite E in Hx; revert Hx; decide_vm. }
    destruct (decide (sh_name s ∈ ["ball"; "cylinder"; "diamond"])) as [_|Hx];
      [|exfalso; apply Hx; destruct Hb as [[-> _]|[-> _]]; decide_vm].
    rewrite (bool_decide_false (sh_name s = "diamond")) by (destruct Hb as [[-> _]|[-> _]]; discriminate).
    destruct (decide (d = 2 ∧ false = true)) as [[_ ?]|_]; [done|].
    destruct Hb as [[E ->]|[E ->]]; rewrite E; str_decide; do 5 eexists; (split; [|reflexivity]); reflexivity. }
  split; [|split; [|split]].
  - intros Hn H1. rewrite !elem_of_cons, elem_of_nil in Hn.
    destruct (decide (sh_name s = "ball")) as [Eb|Hnb].
    + destruct (Hround 0) as (ts & times & k1 & r_low & t & -> & ->); [by left|].
      cbn [ball_rows]. unfold ball_row. rewrite Nat.sub_0_r. destruct (decide (d = 0)) as [?|_]; [done|].
      rewrite drop_0, assign_row_error by congruence. done.
    + rewrite Hbox by tauto. cbn [box_rows]. rewrite assign_row_error; [done|..];
        rewrite uniform_vec_length; rewrite !zip_with_length, Hhalf by tauto; lia.
  - intros E H1 H2. destruct (Hround 1) as (ts & times & k1 & r_low & t & -> & ->); [by right|].
    cbn [ball_rows]. unfold ball_row. destruct (decide (d - 1 = 0)) as [?|_]; [lia|].
    rewrite assign_row_error; [done|..]; rewrite drop_length, Hcl; lia.
  - intros E ->. destruct (Hround 1) as (ts & times & k1 & r_low & t & -> & ->); [by right|]. done.
  - intros Hn H1. rewrite Hbox by done.
    assert (Hh0 : nth 0 half 0%R = half_edge s 0).
    { unfold half, half_edge.
      destruct Hcases as [[[En'|En'] _]|[[En' _]|[[En' (e & Ee & He)]|[En' (es & Ees & Hl & He)]]]]; rewrite En' in Hn |- *;
        try (destruct Hn as [Hn|Hn]; discriminate Hn); str_decide.
      - rewrite Hcl, H1. done.
      - rewrite Ees. cbn. destruct es as [|e0 es]; [cbn in Hl; lia|]. done. }
    specialize (Hhalf Hn). rewrite H1 in Hcl, Hhalf. destruct (sh_center s) as [|c [|]]; [done| |done].
    destruct half as [|e [|]]; [done| |done]. cbn in Hh0 |- *. subst e.
    assert (Hgen : ∀ n k, ∃ rows, snd (box_rows g n d k [(c - half_edge s 0)%R] [(c + half_edge s 0)%R]) = Ok rows ∧ length rows = n ∧
      ∀ m row, rows !! m = Some row → row = replicate d (uniform g (k + m) (c - half_edge s 0) (c + half_edge s 0))).
    { clear. intros n. induction n as [|n IH]; intros k.
      { exists []. split; [done|split; [done|]]. intros m row H. by rewrite lookup_nil in H. }
      cbn [box_rows]. assert (E : assign_row d (uniform_vec g k [(c - half_edge s 0)%R] [(c + half_edge s 0)%R]) =
        Ok (replicate d (uniform g k (c - half_edge s 0) (c + half_edge s 0)))).
      { unfold assign_row. cbn. destruct (decide (1 = d)) as [<-|_]; done. }
      rewrite E. destruct (IH (k + length [(c - half_edge s 0)%R])) as (rows & E2 & Hl & Hr).
      destruct (box_rows g n d (k + length [(c - half_edge s 0)%R]) _ _) as [k2 r]. cbn in E2. subst r. cbn.
      eexists. split; [reflexivity|split; [cbn; by rewrite Hl|]]. intros [|m] row H; cbn in H.
      - injection H as <-. by rewrite Nat.add_0_r.
      - apply Hr in H. rewrite H. cbn. by rewrite <- Nat.add_assoc. }
    destruct (Hgen (S n) k) as (rows & E & Hl & Hr). cbn [box_rows] in E. exists rows. split; [exact E|split; [lia|done]].
Qed.
Print Assumptions C54_other_dimension.
(** A ball of dimension 1 and a cylinder of dimension 2 are accepted in every dimension: numpy
    repeats their only centre coordinate (of space), and the points are those of the ball
    (cylinder) of the causet's dimension with the same parameters and this centre. *)
Theorem C54_repeated_centre (g : rng) (junk : nat → nat → R) (s s' : shape) (count : Z) (k : nat) :
  constructed_shape s → constructed_shape s' →
  sh_name s' = sh_name s → sh_radius s' = sh_radius s → sh_hollow s' = sh_hollow s →
  (sh_name s = "cylinder" → sh_duration s' = sh_duration s) →
  (sh_name s = "ball" ∧ sh_dim s = 1 ∧ (∀ i, i < sh_dim s' → nth i (sh_center s') 0%R = nth 0 (sh_center s) 0%R)) ∨
  (sh_name s = "cylinder" ∧ sh_dim s = 2 ∧ 2 ≤ sh_dim s' ∧ nth 0 (sh_center s') 0%R = nth 0 (sh_center s) 0%R ∧
     (∀ i, 1 ≤ i < sh_dim s' → nth i (sh_center s') 0%R = nth 1 (sh_center s) 0%R)) →
  sprinkle_coords g junk (sh_dim s') count s k = sprinkle_coords g junk (sh_dim s') count s' k.
Proof.
  intros Hs Hs' En Er Eh Et Hcase. destruct (constructed_wf s Hs) as [_ Hc _]. destruct (constructed_wf s' Hs') as [Hd' Hc' _].
  assert (Hrep : ∀ (l : list R) (x : R), (∀ i, i < length l → nth i l 0%R = x) → l = replicate (length l) x).
  { clear. intros l x. induction l as [|y l IH]; intros H; [done|]. cbn. f_equal; [by apply (H 0); cbn; lia|].
    apply IH. intros i Hi. apply (H (S i)). cbn. lia. }
  assert (Hass : ∀ (d : nat) (x : R), assign_row d [x] = assign_row d (replicate d x)).
  { clear. intros d x. unfold assign_row. rewrite replicate_length. destruct (decide (d = d)); [|done].
    destruct (decide (length [x] = d)) as [E|]; [|done]. cbn in E. by subst d. }
  assert (Hrows : ∀ d start center center' r rl times k,
    assign_row (d - start) (drop start center) = assign_row (d - start) (drop start center') →
    ball_rows g false d start k center r rl times = ball_rows g false d start k center' r rl times).
  { clear. intros d start center center' r rl times. induction times as [|t times IH]; intros k H; [done|]. cbn [ball_rows].
    unfold ball_row. rewrite H. repeat (case_match; try done); simplify_eq; rewrite IH in * by done; congruence. }
  unfold sprinkle_coords. destruct (decide (count < 0)%Z); [done|]. cbn zeta. rewrite En, Er, Eh.
  destruct (decide (sh_name s ∈ ["cube"; "cuboid"])) as [Hx|_].
  { exfalso. destruct Hcase as [[E _]|[E _]]; rewrite E in Hx; revert Hx; decide_vm. }
  destruct (decide (sh_name s ∈ ["ball"; "cylinder"; "diamond"])) as [_|Hx];
    [|exfalso; apply Hx; destruct Hcase as [[-> _]|[-> _]]; decide_vm].
  rewrite (bool_decide_false (sh_name s = "diamond")) by (destruct Hcase as [[-> _]|[-> _]]; discriminate).
  destruct (decide (sh_dim s' = 2 ∧ false = true)) as [[_ ?]|_]; [done|].
  destruct Hcase as [(E & E1 & Hce)|(E & E2 & H2 & H0 & Hce)]; rewrite E; str_decide.
  - rewrite (bool_decide_false ("ball" = "cylinder")) by done. apply Hrows. rewrite Nat.sub_0_r, !drop_0.
    rewrite E1 in Hc. destruct (sh_center s) as [|c [|]]; [done| |done]. cbn in Hce.
    rewrite (Hrep (sh_center s') c), Hc' by (rewrite Hc'; done). apply Hass.
  - rewrite H0, (Et E). rewrite (bool_decide_true ("cylinder" = "cylinder")) by done. apply Hrows.
    rewrite E2 in Hc. destruct (sh_center s) as [|c0 [|c [|]]]; try done. cbn [drop nth] in *.
    rewrite Hass. f_equal.
    destruct (sh_center s') as [|c0' l]; [cbn in Hc'; lia|]. cbn [drop length] in Hc' |- *. rewrite ?drop_0. cbn [length] in Hc'.
    rewrite <- Hc'. replace (S (length l) - 1) with (length l) by lia. symmetry. apply Hrep.
    intros i Hi. apply (Hce (S i)). lia.
Qed.
Print Assumptions C54_repeated_centre.


(** ** C66 *)
Lemma mul_add_unique (c m1 m2 i1 i2 : nat) : i1 < c → i2 < c → m1 * c + i1 = m2 * c + i2 → m1 = m2 ∧ i1 = i2.
Proof.
  intros H1 H2 H. assert (m1 = m2); [|subst; lia].
  destruct (lt_eq_lt_dec m1 m2) as [[Hlt|]|Hlt]; [|done|].
  - assert ((m1 + 1) * c <= m2 * c) by (apply Nat.mul_le_mono_r; lia). lia.
  - assert ((m2 + 1) * c <= m1 * c) by (apply Nat.mul_le_mono_r; lia). lia.
Qed.
(** Boxes: coordinate [i] of point [m] lies within the share [t] of the edge exactly if the random
    number assigned to it is at most [t]; every coordinate uses a number of its own. *)
Theorem C66_box_uniform (g : rng) (junk : nat → nat → R) (s : shape) (n k : nat) :
  constructed_shape s → sh_name s = "cube" ∨ sh_name s = "cuboid" →
  ∃ k' rows (draw : nat → nat → nat), sprinkle_coords g junk (sh_dim s) (Z.of_nat n) s k = (k', Ok rows) ∧
    length rows = n ∧
    (∀ m1 i1 m2 i2, i1 < sh_dim s → i2 < sh_dim s → draw m1 i1 = draw m2 i2 → m1 = m2 ∧ i1 = i2) ∧
    (∀ m i, m < n → i < sh_dim s → k ≤ draw m i < k') ∧
    ∀ m row, rows !! m = Some row → ∀ i lo hi (t : R), i < sh_dim s → Limits s (Z.of_nat i) = Ok (lo, hi) →
      (nth i row 0 <= lo + t * (hi - lo) ↔ g_random g (draw m i) <= t)%R.
Proof.
  intros Hs Hn. destruct (sprinkle_box g junk s n k Hs Hn) as (rows & E & Hl & Hrows).
  exists (k + n * sh_dim s), rows, (λ m i, k + m * sh_dim s + i). split; [done|split; [done|split; [|split]]].
  - intros m1 i1 m2 i2 H1 H2 H. apply (mul_add_unique (sh_dim s)); lia.
  - intros m i Hm Hi. assert ((m + 1) * sh_dim s <= n * sh_dim s) by (apply Nat.mul_le_mono_r; lia). lia.
  - intros m row Hm i lo hi t Hi HL. destruct (Hrows m row Hm) as [_ R]. specialize (R i Hi). unfold offset in R.
    rewrite Limits_eq in HL by done. injection HL as <- <-.
    assert (Hpos := half_extent_pos s i (constructed_wf s Hs) Hi).
    assert (Hh : half_extent s i = half_edge s i).
    { unfold half_extent, half_edge. destruct (decide (sh_name s = "cylinder" ∧ i = 0)) as [[H _]|_].
      { destruct Hn as [Hn|Hn]; rewrite Hn in H; discriminate H. }
      destruct Hn as [-> | ->]; str_decide; done. }
    rewrite <- Hh in R. set (e := half_extent s i) in *. set (u := g_random g _) in *. set (c := nth i (sh_center s) 0%R) in *.
    set (x := nth i row 0%R) in *. assert (Hx : x = (c + (- e + 2 * e * u))%R) by lra. split; intros H.
    + assert (2 * e * u <= 2 * e * t)%R by lra. apply (Rmult_le_reg_l (2 * e)); lra.
    + assert (2 * e * u <= 2 * e * t)%R by (apply Rmult_le_compat_l; lra). lra.
Qed.
Print Assumptions C66_box_uniform.
(** Balls and cylinders: point [m] lies within the distance rho * radius of the centre (of the axis)
    exactly if the random number assigned to it is at most the share of the volume of the shape
    within this distance.  Its direction is that of a vector of standard normal numbers; for a
    cylinder, the time is uniform in the duration, with a further number. *)
Theorem C66_round_uniform (g : rng) (junk : nat → nat → R) (s : shape) (n k : nat) :
  random_ok g → constructed_shape s → directions_ok g s →
  sh_name s = "ball" ∨ (sh_name s = "cylinder" ∧ sh_dim s ≠ 1) →
  let start := if decide (sh_name s = "ball") then 0 else 1 in
  let b := sh_dim s - start in
  let r := default 0%R (sh_radius s) in
  let V (rho : R) := ball_volume b (rho * r) in
  let hollow := default 0%R (sh_hollow s) in
  ∃ k' rows (draw dir time : nat → nat), sprinkle_coords g junk (sh_dim s) (Z.of_nat n) s k = (k', Ok rows) ∧
    length rows = n ∧
    (∀ m1 m2, draw m1 = draw m2 → m1 = m2) ∧
    (∀ m1 m2 i, i < b → draw m1 ≠ dir m2 + i) ∧
    (∀ m1 m2 i1 i2, i1 < b → i2 < b → dir m1 + i1 = dir m2 + i2 → m1 = m2 ∧ i1 = i2) ∧
    (sh_name s = "cylinder" → (∀ m1 m2, time m1 = time m2 → m1 = m2) ∧
       ∀ m1 m2 i, m1 < n → i < b → time m1 ≠ draw m2 ∧ time m1 ≠ dir m2 + i) ∧
    ∀ m row, rows !! m = Some row →
      (∀ rho : R, (0 <= rho)%R →
        (sqrt (dist2_from s row start) <= rho * r ↔
         g_random g (draw m) <= (V rho - V hollow) / (V 1 - V hollow))%R) ∧
      (∃ a, (0 <= a)%R ∧ ∀ i, i < b → offset s row (start + i) = (a * g_normal g (dir m + i))%R) ∧
      (sh_name s = "cylinder" → ∀ lo hi (t : R), Limits s 0 = Ok (lo, hi) →
        (nth 0 row 0 <= lo + t * (hi - lo) ↔ g_random g (time m) <= t)%R).
Proof.
  intros Hg Hs Hdir Hn. destruct (sprinkle_round g junk s n k Hg Hs Hdir Hn) as (rows & E & Hl & Hrows). cbn zeta.
  fold (round_start s). set (start := round_start s) in *. set (b := sh_dim s - start) in *.
  set (k1 := if decide (sh_name s = "ball") then k else k + n) in *.
  destruct (constructed_wf s Hs) as [Hd Hc Hcases].
  assert (Hb : 1 ≤ b).
  { unfold b, start, round_start. destruct Hn as [E'|[E' ?]]; rewrite E'; str_decide; lia. }
  assert (Hr : (0 < default 0 (sh_radius s))%R ∧ (0 <= default 0 (sh_hollow s) < 1)%R).
  { destruct Hcases as [[[En|En] (r & h & Er & Eh & Hr & Hh)]|[[En (r & h & T & Er & Eh & ET & Hr & Hh & HT)]|[[En _]|[En _]]]];
      try (destruct Hn as [Hx|[Hx _]]; rewrite En in Hx; discriminate Hx); rewrite Er, Eh; done. }
  destruct Hr as [Hr Hh]. set (r := default 0%R (sh_radius s)) in *. set (h := default 0%R (sh_hollow s)) in *.
  exists (k1 + n * (b + 1)), rows, (λ m, k1 + m * (b + 1) + b), (λ m, k1 + m * (b + 1)),
    (λ m, k + m).
  split; [done|split; [done|]]. split_and!.
  - intros m1 m2 H. apply (mul_add_unique (b + 1) m1 m2 b b); lia.
  - intros m1 m2 i Hi H. destruct (mul_add_unique (b + 1) m1 m2 b i); lia.
  - intros m1 m2 i1 i2 H1 H2 H. apply (mul_add_unique (b + 1)); lia.
  - intros En. split; [lia|]. intros m1 m2 i Hm Hi. unfold k1.
    destruct (decide (sh_name s = "ball")) as [Hx|_]; [rewrite En in Hx; discriminate Hx|]. lia.
  - intros m row Hm. destruct (Hrows m row Hm) as (R1 & R2 & R3 & R4). split; [|split; [done|]].
    + intros rho Hrho. rewrite R2.
      transitivity (py_pow (uniform g (k1 + m * (b + 1) + b) (h ^ b) 1) (1 / INR b) <= rho)%R.
      { split; intros H; [by apply (Rmult_le_reg_r r)|apply Rmult_le_compat_r; lra]. }
      rewrite root_cdf by done. unfold ball_volume. rewrite !Rpow_mult_distr, pow1.
      assert (HV := unit_ball_pos b). assert (Hrb : (0 < r ^ b)%R) by by apply pow_lt.
      assert (Hhb : (h ^ b < 1)%R) by (pose proof (pow_shrink b h 1 Hb Hh ltac:(lra)) as H; rewrite Rmult_1_r, pow1 in H; done).
      assert (E1 : ((unit_ball b * (rho ^ b * r ^ b) - unit_ball b * (h ^ b * r ^ b)) /
        (unit_ball b * (1 * r ^ b) - unit_ball b * (h ^ b * r ^ b)) = (rho ^ b - h ^ b) / (1 - h ^ b))%R).
      { replace (unit_ball b * (rho ^ b * r ^ b) - unit_ball b * (h ^ b * r ^ b))%R
          with ((rho ^ b - h ^ b) * (unit_ball b * r ^ b))%R by ring.
        replace (unit_ball b * (1 * r ^ b) - unit_ball b * (h ^ b * r ^ b))%R
          with ((1 - h ^ b) * (unit_ball b * r ^ b))%R by ring.
        assert (0 < unit_ball b * r ^ b)%R by by apply Rmult_lt_0_compat. field. split; lra. }
      by rewrite E1.
    + intros En lo hi t HL. specialize (R4 En). unfold offset in R4.
      change 0%Z with (Z.of_nat 0) in HL. rewrite Limits_eq in HL by lia. injection HL as <- <-.
      assert (Hpos := half_extent_pos s 0 (constructed_wf s Hs) ltac:(lia)).
      unfold half_extent in *. destruct (decide (sh_name s = "cylinder" ∧ 0 = 0)) as [_|Hx]; [|exfalso; by apply Hx].
      set (T := default 0%R (sh_duration s)) in *. set (u := g_random g _) in *.
      set (c := nth 0 (sh_center s) 0%R) in *. set (x := nth 0 row 0%R) in *.
      assert (Hx : x = (c + (- (T / 2) + T * u))%R) by lra. split; intros H.
      * assert (T * u <= T * t)%R by lra. apply (Rmult_le_reg_l T); lra.
      * assert (T * u <= T * t)%R by (apply Rmult_le_compat_l; lra). lra.
Qed.
Print Assumptions C66_round_uniform.

(** ** C53 *)
(** What the sprinkling methods rely on and keep: the events of the causet exist, are embedded,
    and are related (consistently in both directions) only among themselves. *)
Record grown (h : heap) (C : gset nat) : Prop := Grown {
  gr_conv : ∀ a b, a ∈ Past h b ↔ b ∈ Future h a;
  gr_paired : link_paired h;
  gr_dom : C ⊆ dom h;
  gr_closed : closed h C;
  gr_embedded : ∀ x, x ∈ C → isEmbedded h x = true
}.
Lemma grown_empty h : (∀ a b, a ∈ Past h b ↔ b ∈ Future h a) → link_paired h → grown h ∅.
Proof.
  intros H1 H2. split; [done|done|apply empty_subseteq| |]; intros x Hx; by apply elem_of_empty in Hx.
Qed.
Lemma create_grow (it : oracle) (caus : causality_fn) (rows : list (list Q)) (fmt : label_format)
    (rel : bool) (h : heap) (C : gset nat) :
  iter_ok it → grown h C →
  ∃ h' xs, EmbedModel.create it caus rows fmt rel C h = (h', C ∪ list_to_set xs, Ok (list_to_set xs)) ∧
    length xs = length rows ∧ NoDup xs ∧ (∀ x, x ∈ xs → x ∉ dom h) ∧ grown h' (C ∪ list_to_set xs) ∧
    (∀ i x c, xs !! i = Some x → rows !! i = Some c → Coordinates h' x = Ok c) ∧
    (∀ x, x ∈ dom h → Coordinates h' x = Coordinates h x).
Proof.
  intros Hit [Hconv HP HC Hcl Hemb]. unfold EmbedModel.create.
  pose proof (create_events_spec it fmt rows (Z.of_nat (size C) + 1)%Z h Hit) as Hce.
  destruct (create_events it fmt (Z.of_nat (size C) + 1)%Z rows h) as [h1 xs]. cbn [fst snd] in *.
  destruct Hce as (Hlen & Hnd & Hfr & Hdom & Hold & Hnew).
  assert (Hnew' : ∀ x, x ∈ xs → ∃ i c, xs !! i = Some x ∧ rows !! i = Some c).
  { intros x Hx. apply elem_of_list_lookup in Hx as [i Hi]. exists i.
    destruct (lookup_lt_is_Some_2 rows i) as [c Hc]; [|eauto].
    rewrite <- Hlen. by eapply lookup_lt_Some. }
  assert (Hiso : ∀ x, x ∈ xs → prec h1 x = ∅ ∧ succ h1 x = ∅ ∧ lprec h1 x = None ∧ lsucc h1 x = None).
  { intros x Hx. destruct (Hnew' x Hx) as (i & c & Hi & Hc). unfold prec, succ, lprec, lsucc.
    by rewrite (Hnew i x c Hi Hc). }
  set (C' := C ∪ list_to_set xs).
  assert (Hxs : ∀ x, x ∈ dom h → x ∉ xs) by (intros x H1 H2; exact (Hfr x H2 H1)).
  assert (Hsame : ∀ x, x ∈ dom h → h1 !!! x = h !!! x) by (intros x Hx; apply Hold; by apply Hxs).
  assert (Hfar : ∀ x, x ∉ dom h → prec h x = ∅ ∧ succ h x = ∅).
  { intros x Hx. unfold prec, succ. rewrite lookup_total_alt, (not_elem_of_dom_1 h x Hx). done. }
  assert (Hconv1 : ∀ a b, a ∈ Past h1 b ↔ b ∈ Future h1 a).
  { intros a b. unfold Past, Future.
    assert (Hp : ∀ z, prec h1 z = prec h z ∧ succ h1 z = succ h z).
    { intros z. destruct (decide (z ∈ xs)) as [Hz|Hz].
      - destruct (Hiso z Hz) as (-> & -> & _). destruct (Hfar z (Hfr z Hz)) as [-> ->]. done.
      - unfold prec, succ. by rewrite (Hold z Hz). }
    destruct (Hp a) as [_ ->], (Hp b) as [-> _]. apply Hconv. }
  assert (HP1 : link_paired h1).
  { intros x. destruct (decide (x ∈ xs)) as [Hx|Hx].
    - destruct (Hiso x Hx) as (_ & _ & -> & ->). done.
    - unfold lprec, lsucc. rewrite (Hold x Hx). apply HP. }
  assert (Hcl1 : closed h1 C').
  { intros x Hx. unfold C' in *. destruct (decide (x ∈ xs)) as [Hx'|Hx'].
    - destruct (Hiso x Hx') as (-> & -> & _). split; apply empty_subseteq.
    - unfold prec, succ. rewrite (Hold x Hx'). rewrite elem_of_union, elem_of_list_to_set in Hx.
      destruct Hx as [Hx|?]; [|done]. destruct (Hcl x Hx) as [H1 H2]. unfold prec, succ in *. clear -H1 H2. set_solver. }
  assert (HC1 : C' ⊆ dom h1).
  { rewrite Hdom. intros x Hx. unfold C' in Hx. rewrite elem_of_union in *. destruct Hx; [left; by apply HC|by right]. }
  set (crd := λ x, default [] (Base.coords h1 x)).
  assert (Hemb1 : embedded h1 C' crd).
  { intros x Hx. unfold C' in Hx. rewrite elem_of_union, elem_of_list_to_set in Hx.
    unfold Coordinates, crd, Base.coords. destruct (decide (x ∈ xs)) as [Hx'|Hx'].
    - destruct (Hnew' x Hx') as (i & c & Hi & Hc). by rewrite (Hnew i x c Hi Hc).
    - rewrite (Hold x Hx'). destruct Hx as [Hx|?]; [|done]. specialize (Hemb x Hx). unfold isEmbedded, Base.coords in Hemb.
      by destruct (ev_coords (h !!! x)). }
  assert (Hcrd1 : ∀ i x c, xs !! i = Some x → rows !! i = Some c → Base.coords h1 x = Some c).
  { intros i x c Hi Hc. unfold Base.coords. by rewrite (Hnew i x c Hi Hc). }
  assert (HE : ∀ h', (∀ x, Base.coords h' x = Base.coords h1 x) → ∀ x, x ∈ C' → isEmbedded h' x = true).
  { intros h' Hc x Hx. specialize (Hemb1 x Hx). unfold Coordinates in Hemb1. unfold isEmbedded. rewrite Hc.
    by destruct (Base.coords h1 x). }
  assert (HN : ∀ h', (∀ x, Base.coords h' x = Base.coords h1 x) →
    (∀ i x c, xs !! i = Some x → rows !! i = Some c → Coordinates h' x = Ok c) ∧
    (∀ x, x ∈ dom h → Coordinates h' x = Coordinates h x)).
  { intros h' Hc. split.
    - intros i x c Hi Hc'. unfold Coordinates. by rewrite Hc, (Hcrd1 i x c Hi Hc').
    - intros x Hx. unfold Coordinates. rewrite Hc. unfold Base.coords. by rewrite (Hsame x Hx). }
  destruct rel.
  - destruct (C50_relate it caus true h1 C' crd Hit Hconv1 HP1 HC1 Hcl1 Hemb1)
      as (h' & E & Hd & Hrel & Hirr & Hconv' & Hcl' & Hlk & Hhl & HP' & Hout & Hrest).
    rewrite E. exists h', xs. fold C'. assert (Hc : ∀ x, Base.coords h' x = Base.coords h1 x) by (intros x; apply Hrest).
    split; [done|split; [done|split; [done|split; [done|split; [|by apply HN]]]]].
    split; [done|done|by rewrite Hd|done|by apply HE].
  - exists h1, xs. fold C'. split; [done|split; [done|split; [done|split; [done|split; [|by apply HN]]]]].
    split; [done|done|done|done|by apply HE].
Qed.

(** The state of a causet: its events are [grown]; and the shapes one may sprinkle into. *)
Definition world_ok (w : world) : Prop := let '(h, k, C) := w in grown h (sp_events C).
Definition w_causet (w : world) : sprinkled := snd w.
Definition w_Card (w : world) : nat := sp_Card (w_causet w).
Definition w_Intensity (w : world) : R := Intensity (w_causet w).
Definition w_dim (w : world) : nat := sh_dim (ec_shape (sp_causet (w_causet w))).
Definition sprinkle_shape (w : world) (sh : option shape) : shape :=
  match sh with Some s => s | None => ec_shape (sp_causet (w_causet w)) end.
Definition can_sprinkle (g : rng) (w : world) (sh : option shape) : Prop :=
  let s := sprinkle_shape w sh in
  constructed_shape s ∧ sh_dim s = w_dim w ∧ directions_ok g s ∧ ¬ (sh_name s = "cylinder" ∧ sh_dim s = 1).
Lemma list_to_set_disj (C : gset nat) (xs : list nat) : NoDup xs → (∀ x, x ∈ xs → x ∉ C) →
  size (C ∪ list_to_set xs) = size C + length xs.
Proof.
  intros Hnd Hd. rewrite size_union by (intros x H1 H2; rewrite elem_of_list_to_set in H2; exact (Hd x H2 H1)).
  by rewrite size_list_to_set.
Qed.

(** The common part of sprinkle and intensify. *)
Lemma sprinkle_into_ok eps it g junk rnd (n : nat) sh h k C :
  iter_ok it → random_ok g → world_ok (h, k, C) → can_sprinkle g (h, k, C) sh →
  ∃ h' k' evs rows, sprinkle_into eps it g junk rnd (Z.of_nat n) sh (h, k, C) =
      ((h', k', set_events (sp_events C ∪ evs) C), Ok evs) ∧
    size evs = n ∧ evs ∩ dom h = ∅ ∧ grown h' (sp_events C ∪ evs) ∧
    sprinkle_coords g junk (w_dim (h, k, C)) (Z.of_nat n) (sprinkle_shape (h, k, C) sh) k = (k', Ok rows) ∧
    length rows = n ∧
    (∀ row, row ∈ rows → ∃ x, x ∈ evs ∧ Coordinates h' x = Ok (map rnd row)) ∧
    (∀ x, x ∈ evs → ∃ row, row ∈ rows ∧ Coordinates h' x = Ok (map rnd row)) ∧
    (∀ x, x ∈ dom h → Coordinates h' x = Coordinates h x).
Proof.
  intros Hit Hg Hw (Hs & Hd & Hdir & Hn1). unfold sprinkle_into.
  change (default (ec_shape (sp_causet C)) sh) with (sprinkle_shape (h, k, C) sh).
  change (sh_dim (ec_shape (sp_causet C))) with (w_dim (h, k, C)).
  set (s := sprinkle_shape (h, k, C) sh) in *.
  assert (∃ k' rows, sprinkle_coords g junk (w_dim (h, k, C)) (Z.of_nat n) s k = (k', Ok rows) ∧ length rows = n)
    as (k' & rows & E & Hl).
  { rewrite <- Hd. destruct (decide (sh_name s = "bicone")) as [Eb|Hnb].
    - rewrite (sprinkle_bicone g junk s n k Eb). do 2 eexists. split; [reflexivity|]. by rewrite fmap_length, seq_length.
    - destruct (C54_in_shape g junk s (Z.of_nat n) k Hg Hs Hdir) as (k' & rows & E & Hl & _); [lia|done|done|].
      exists k', rows. split; [done|lia]. }
  rewrite E. unfold super_create.
  destruct (create_grow it (caus_of eps (ec_spacetime (sp_causet C))) (map (map rnd) rows) FmtNone true h (sp_events C) Hit Hw)
    as (h' & xs & -> & Hlx & Hnd & Hfr & Hgr & Hnew & Hold).
  rewrite map_length in Hlx.
  exists h', k', (list_to_set xs), rows. split; [done|].
  split; [rewrite size_list_to_set by done; lia|]. split; [|split; [done|split; [done|split; [done|]]]].
  { apply set_eq. intros x. split; [|intros Hx; by apply elem_of_empty in Hx].
    rewrite elem_of_intersection, elem_of_list_to_set. intros [H1 H2]. exfalso. exact (Hfr x H1 H2). }
  split; [|split; [|done]].
  - intros row [i Hi]%elem_of_list_lookup. destruct (lookup_lt_is_Some_2 xs i) as [x Hx].
    { rewrite Hlx. by eapply lookup_lt_Some. }
    exists x. split; [rewrite elem_of_list_to_set; by eapply elem_of_list_lookup_2|].
    apply (Hnew i x); [done|]. change (map (map rnd) rows) with (map rnd <$> rows). by rewrite list_lookup_fmap, Hi.
  - intros x Hx. rewrite elem_of_list_to_set in Hx. apply elem_of_list_lookup in Hx as [i Hi].
    destruct (lookup_lt_is_Some_2 rows i) as [row Hrow].
    { rewrite <- Hlx. by eapply lookup_lt_Some. }
    exists row. split; [by eapply elem_of_list_lookup_2|].
    apply (Hnew i x); [done|]. change (map (map rnd) rows) with (map rnd <$> rows). by rewrite list_lookup_fmap, Hrow.
Qed.
(** sprinkle(count, shape): exactly [count] new events, Intensity grows by count. *)
Theorem C53_sprinkle eps it g junk rnd (count : Z) sh h k C :
  iter_ok it → random_ok g → world_ok (h, k, C) → (0 <= count)%Z → can_sprinkle g (h, k, C) sh →
  ∃ w' evs, sprinkle eps it g junk rnd count sh (h, k, C) = (w', Ok evs) ∧ world_ok w' ∧
    Z.of_nat (size evs) = count ∧ evs ∩ dom h = ∅ ∧ sp_events (w_causet w') = sp_events C ∪ evs ∧
    Z.of_nat (w_Card w') = (Z.of_nat (sp_Card C) + count)%Z ∧
    w_Intensity w' = (Intensity C + IZR count)%R ∧
    ec_shape (sp_causet (w_causet w')) = ec_shape (sp_causet C) ∧
    ec_spacetime (sp_causet (w_causet w')) = ec_spacetime (sp_causet C).
Proof.
  intros Hit Hg Hw Hc Hs. unfold sprinkle. destruct (decide (count < 0)%Z); [lia|].
  set (C1 := set_intensity _ C).
  destruct (sprinkle_into_ok eps it g junk rnd (Z.to_nat count) sh h k C1 Hit Hg Hw Hs)
    as (h' & k' & evs & rows & E & Hsz & Hdj & Hgr & _). rewrite Z2Nat.id in E by done. rewrite E.
  exists (h', k', set_events (sp_events C1 ∪ evs) C1), evs. split; [done|].
  split; [exact Hgr|]. split; [lia|]. split; [done|]. split; [done|]. split; [|done].
  unfold w_Card, w_causet, sp_Card, sp_events. cbn. rewrite size_union; [unfold sp_events; lia|].
  intros x H1 H2. assert (x ∈ evs ∩ dom h) as Hx; [|rewrite Hdj in Hx; by apply elem_of_empty in Hx].
  apply elem_of_intersection. split; [done|]. by apply (gr_dom _ _ Hw).
Qed.
Print Assumptions C53_sprinkle.
(** intensify(intensity, shape): the Poisson number of new events, Intensity grows by intensity. *)
Theorem C53_intensify eps it g junk rnd (lam : R) sh h k C :
  iter_ok it → random_ok g → world_ok (h, k, C) → (0 <= lam)%R → can_sprinkle g (h, k, C) sh →
  ∃ w' evs, intensify eps it g junk rnd lam sh (h, k, C) = (w', Ok evs) ∧ world_ok w' ∧
    size evs = g_poisson g k lam ∧ evs ∩ dom h = ∅ ∧ sp_events (w_causet w') = sp_events C ∪ evs ∧
    w_Card w' = sp_Card C + g_poisson g k lam ∧
    w_Intensity w' = (Intensity C + lam)%R ∧
    ec_shape (sp_causet (w_causet w')) = ec_shape (sp_causet C) ∧
    ec_spacetime (sp_causet (w_causet w')) = ec_spacetime (sp_causet C).
Proof.
  intros Hit Hg Hw Hc Hs. unfold intensify. destruct (decide (lam < 0)%R); [lra|].
  set (C1 := set_intensity _ C). cbn zeta.
  destruct (sprinkle_into_ok eps it g junk rnd (g_poisson g k lam) sh h (k + 1) C1 Hit Hg Hw Hs)
    as (h' & k' & evs & rows & E & Hsz & Hdj & Hgr & _). rewrite E.
  exists (h', k', set_events (sp_events C1 ∪ evs) C1), evs. split; [done|].
  split; [exact Hgr|]. split; [lia|]. split; [done|]. split; [done|]. split; [|done].
  unfold w_Card, w_causet, sp_Card, sp_events. cbn. rewrite size_union; [unfold sp_events; lia|].
  intros x H1 H2. assert (x ∈ evs ∩ dom h) as Hx; [|rewrite Hdj in Hx; by apply elem_of_empty in Hx].
  apply elem_of_intersection. split; [done|]. by apply (gr_dom _ _ Hw).
Qed.
Print Assumptions C53_intensify.

(** *** Histories of calls *)
Lemma foldl_upd_mono {A} (f : heap → A → heap) l : (∀ h a, dom h ⊆ dom (f h a)) → ∀ h, dom h ⊆ dom (foldl f h l).
Proof.
  intros Hf. induction l as [|a l IH]; intros h; cbn; [done|]. etrans; [apply Hf|apply IH].
Qed.
Lemma relate_mono it caus link C h : dom h ⊆ dom (fst (EmbedModel.relate it caus link C h)).
Proof.
  assert (Hadd : ∀ a b h, dom h ⊆ dom (relate_add a b h)).
  { intros a b h0. unfold relate_add. etrans; [|apply upd_dom_sub]. apply upd_dom_sub. }
  assert (Hpair : ∀ a b h, dom h ⊆ dom (fst (relate_pair caus a b h))).
  { intros a b h0. unfold relate_pair. destruct (Coordinates h0 a); [|done]. destruct (Coordinates h0 b); [|done].
    destruct (caus _ _) as [[] []]; cbn; try done; (etrans; [|apply Hadd]); try done. }
  assert (Hrow : ∀ bs a h, dom h ⊆ dom (fst (relate_row caus a bs h))).
  { induction bs as [|b bs IH]; intros a h0; cbn [relate_row]; [done|].
    pose proof (Hpair a b h0) as Hp. destruct (relate_pair caus a b h0) as [h1 [?|?]]; cbn in *; [|done].
    etrans; [exact Hp|apply IH]. }
  assert (Hloop : ∀ l h, dom h ⊆ dom (fst (relate_loop caus l h))).
  { induction l as [|a l IH]; intros h0; cbn [relate_loop]; [done|].
    pose proof (Hrow l a h0) as Hp. destruct (relate_row caus a l h0) as [h1 [?|?]]; cbn in *; [|done].
    etrans; [exact Hp|apply IH]. }
  unfold EmbedModel.relate.
  assert (H1 : dom h ⊆ dom (relate_reset (it 30 C) h)) by (apply foldl_upd_mono; intros; apply upd_dom_sub).
  pose proof (Hloop (it 31 C) (relate_reset (it 30 C) h)) as H2.
  destruct (relate_loop caus (it 31 C) (relate_reset (it 30 C) h)) as [h2 [?|?]]; cbn in *; [|by etrans].
  etrans; [exact H1|]. etrans; [exact H2|]. destruct link.
  - unfold link_causet. set (h3 := foldl _ _ _). assert (H3 : dom h2 ⊆ dom h3) by (apply foldl_upd_mono; intros; apply upd_dom_sub).
    etrans; [exact H3|]. clearbody h3. clear H1 H2 H3.
    assert (Hls : ∀ l b h, dom h ⊆ dom (fst (add_lsucc b l h))).
    { induction l as [|a' l IH]; intros b h0; cbn [add_lsucc]; [done|]. destruct (lsucc h0 a'); [|done].
      etrans; [|apply IH]. apply upd_dom_sub. }
    revert h3. generalize (it 22 C) as l. induction l as [|b l IH]; intros h0; cbn [link_loop]; [done|]. cbn zeta.
    pose proof (Hls (it 23 (link_past_set h0 b)) b (upd (set_lprec (Some (link_past_set h0 b))) b h0)) as H4.
    destruct (add_lsucc _ _ _) as [h4 [?|?]]; cbn [fst] in *.
    + etrans; [|apply IH]. etrans; [|exact H4]. apply upd_dom_sub.
    + etrans; [|exact H4]. apply upd_dom_sub.
  - unfold unlink_causet. by rewrite unlink_linked_loop_dom.
Qed.
Lemma create_shape it caus rows fmt rel C h : iter_ok it → C ⊆ dom h →
  let '(h', C', r) := EmbedModel.create it caus rows fmt rel C h in
  dom h ⊆ dom h' ∧ C' ⊆ dom h' ∧ size C' = size C + length rows.
Proof.
  intros Hit HC. unfold EmbedModel.create.
  pose proof (create_events_spec it fmt rows (Z.of_nat (size C) + 1)%Z h Hit) as Hce.
  destruct (create_events it fmt (Z.of_nat (size C) + 1)%Z rows h) as [h1 xs]. cbn [fst snd] in *.
  destruct Hce as (Hlen & Hnd & Hfr & Hdom & _). set (C' := C ∪ list_to_set xs).
  assert (Hsz : size C' = size C + length rows).
  { unfold C'. rewrite list_to_set_disj; [lia|done|]. intros x Hx Hc. exact (Hfr x Hx (HC x Hc)). }
  assert (H1 : dom h ⊆ dom h1 ∧ C' ⊆ dom h1).
  { unfold C'. rewrite Hdom. clear -HC. set_solver. }
  destruct H1 as [H1 H2].
  destruct rel; [|done]. pose proof (relate_mono it caus true C' h1) as Hm.
  destruct (EmbedModel.relate it caus true C' h1) as [h2 [?|?]]; cbn [fst] in Hm;
    (split; [by etrans|split; [by etrans|done]]).
Qed.
Lemma sprinkle_coords_length g junk d count s k k' rows :
  sprinkle_coords g junk d count s k = (k', Ok rows) → Z.of_nat (length rows) = count.
Proof.
  unfold sprinkle_coords. destruct (decide (count < 0)%Z) as [|Hnn]; [done|]. cbn zeta.
  assert (Hbox : ∀ n d k low high k' rows, box_rows g n d k low high = (k', Ok rows) → length rows = n).
  { induction n as [|n IH]; intros d' k0 low high k0' rows'; cbn [box_rows]; [by intros [= <- <-]|]. cbn zeta.
    destruct (assign_row _ _); [|done]. destruct (box_rows g n _ _ _ _) as [k2 [r|e]] eqn:E; cbn [res_map]; [|done].
    intros [= <- <-]. cbn. f_equal. by eapply IH. }
  assert (Hball : ∀ times b d st k c br rl k' rows, ball_rows g b d st k c br rl times = (k', Ok rows) → length rows = length times).
  { induction times as [|t times IH]; intros b d' st k0 c br rl k0' rows'; cbn [ball_rows]; [by intros [= <- <-]|].
    destruct (ball_row _ _ _ _ _ _ _ _ _) as [k1 [row|e]]; [|done].
    destruct (ball_rows _ _ _ _ _ _ _ _ times) as [k2 [r|e]] eqn:E; cbn [res_map]; [|done].
    intros [= <- <-]. cbn. f_equal. by eapply IH. }
  destruct (decide (sh_name s ∈ ["cube"; "cuboid"])); [intros H%Hbox; lia|].
  destruct (decide (sh_name s ∈ ["ball"; "cylinder"; "diamond"])).
  - destruct (decide (d = 2 ∧ _)).
    + intros [= <- <-]. rewrite fmap_length, seq_length. lia.
    + intros H%Hball. rewrite H. destruct (bool_decide (sh_name s = "cylinder")); rewrite fmap_length, seq_length; lia.
  - intros [= <- <-]. rewrite fmap_length, seq_length. lia.
Qed.

(** The calls that change a SprinkledCauset. *)
Inductive call : Type :=
| CallSprinkle (count : Z) (sh : option shape)
| CallIntensify (lam : R) (sh : option shape)
| CallCreate (rows : list (list Q)) (fmt : label_format) (rel : bool)
| CallAdd (S : gset nat) (unlink : bool)
| CallDiscard (S : gset nat) (unlink : bool).
Section history.
Context (eps : R) (it : oracle) (g : rng) (junk : nat → nat → R) (rnd : R → Q).
Definition forget {A} (p : world * res A) : world * res unit := (fst p, res_map (λ _, tt) (snd p)).
Definition perform (c : call) (w : world) : world * res unit :=
  match c with
  | CallSprinkle n sh => forget (sprinkle eps it g junk rnd n sh w)
  | CallIntensify lam sh => forget (intensify eps it g junk rnd lam sh w)
  | CallCreate rows fmt rel => forget (sp_create eps it rows fmt rel w)
  | CallAdd evs u => sp_add it evs u w
  | CallDiscard evs u => sp_discard it evs u w
  end.
(** [runs P w cs w']: the calls [cs] lead from [w] to [w'], and each call, with the state before it
    and its result, satisfies [P].  Calls that raise are part of the history. *)
Inductive runs (P : world → call → res unit → Prop) : world → list call → world → Prop :=
| runs_nil w : runs P w [] w
| runs_cons w c w1 r cs w2 : perform c w = (w1, r) → P w c r → runs P w1 cs w2 → runs P w (c :: cs) w2.

(** Events that are added exist. *)
Definition existing (w : world) (c : call) : Prop :=
  match c with CallAdd evs _ => evs ⊆ dom (fst (fst w)) | _ => True end.
Definition in_store (w : world) : Prop := sp_events (w_causet w) ⊆ dom (fst (fst w)).

Lemma unlink_loop_mono l : ∀ h, dom h ⊆ dom (fst (unlink_loop l h)).
Proof.
  induction l as [|a l IH]; intros h; cbn [unlink_loop]; [done|]. unfold EventModel.unlink.
  destruct (lprec h a); [|done]. cbn zeta. destruct (lsucc _ a); cbn [fst]; [|apply upd_dom_sub].
  etrans; [|apply IH]. etrans; [|apply upd_dom_sub]. apply upd_dom_sub.
Qed.
Lemma perform_store (Hit : iter_ok it) c w : existing w c → in_store w → in_store (fst (perform c w)) ∧
  dom (fst (fst w)) ⊆ dom (fst (fst (fst (perform c w)))).
Proof using.
  destruct w as [[h k] C]. intros Hex Hin. unfold in_store in *. cbn [w_causet fst snd] in Hin.
  assert (Hsi : ∀ n sh k C, sp_events C ⊆ dom h →
    let w' := fst (forget (sprinkle_into eps it g junk rnd n sh (h, k, C))) in
    sp_events (w_causet w') ⊆ dom (fst (fst w')) ∧ dom h ⊆ dom (fst (fst w'))).
  { intros n sh k0 C0 H0. unfold sprinkle_into, super_create.
    destruct (sprinkle_coords _ _ _ _ _ _) as [k1 [rows|e]]; [|done].
    pose proof (create_shape it (caus_of eps (ec_spacetime (sp_causet C0))) (map (map rnd) rows) FmtNone true (sp_events C0) h Hit H0) as Hc.
    destruct (EmbedModel.create _ _ _ _ _ _ _) as [[h1 C1] r]. cbn. tauto. }
  destruct c as [n sh|lam sh|rows fmt rel|A u|A u]; cbn [perform].
  - unfold sprinkle. destruct (decide (n < 0)%Z); [done|]. by apply Hsi.
  - unfold intensify. destruct (decide (lam < 0)%R); [done|]. by apply Hsi.
  - unfold sp_create, super_create.
    pose proof (create_shape it (caus_of eps (ec_spacetime (sp_causet C))) rows fmt rel (sp_events C) h Hit Hin) as Hc.
    destruct (EmbedModel.create _ _ _ _ _ _ _) as [[h1 C1] [r|e]]; cbn; tauto.
  - unfold sp_add, BuildModel.add. cbn in Hex. destruct u.
    + pose proof (unlink_loop_mono (it 24 (add_events (sp_events C) A)) h) as Hm.
      destruct (unlink_loop _ h) as [h1 [?|?]]; cbn in *; unfold add_events; (split; [|done]); set_solver.
    + cbn. unfold add_events. split; [|done]. set_solver.
  - unfold sp_discard, BuildModel.discard. destruct u.
    + pose proof (unlink_loop_mono (it 24 (discard_events (sp_events C) A)) h) as Hm.
      destruct (unlink_loop _ h) as [h1 [?|?]]; cbn in *; [destruct (decide _)|]; cbn; unfold discard_events; (split; [|done]); set_solver.
    + cbn. destruct (decide _); cbn; unfold discard_events; (split; [|done]); set_solver.
Qed.

(** What each successful call adds to the intensity. *)
Definition amount (c : call) : R :=
  match c with
  | CallSprinkle n _ => IZR n
  | CallIntensify lam _ => lam
  | CallCreate rows _ _ => INR (length rows)
  | _ => 0%R
  end.
Definition sprinkles (c : call) : Prop :=
  match c with CallAdd _ _ | CallDiscard _ _ => False | _ => True end.
Definition intensifies (c : call) : Prop := match c with CallIntensify _ _ => True | _ => False end.

Lemma perform_intensity (Hit : iter_ok it) c w w' : in_store w → existing w c → perform c w = (w', Ok tt) →
  (sprinkles c → w_Intensity w' = (w_Intensity w + amount c)%R) ∧
  (¬ intensifies c → w_Intensity w = INR (w_Card w) → w_Intensity w' = INR (w_Card w')).
Proof using.
  destruct w as [[h k] C]. intros Hin Hex. unfold in_store in *. cbn [w_causet fst snd] in Hin.
  assert (Hsi : ∀ n sh k C evs, sp_events C ⊆ dom h →
    snd (sprinkle_into eps it g junk rnd n sh (h, k, C)) = Ok evs →
    let w' := fst (sprinkle_into eps it g junk rnd n sh (h, k, C)) in
    w_Intensity w' = sp_intensity C ∧ Z.of_nat (w_Card w') = (Z.of_nat (sp_Card C) + n)%Z).
  { intros n sh k0 C0 evs H0. unfold sprinkle_into, super_create.
    destruct (sprinkle_coords _ _ _ _ _ _) as [k1 [rows|e]] eqn:Er; [|done].
    apply sprinkle_coords_length in Er.
    pose proof (create_shape it (caus_of eps (ec_spacetime (sp_causet C0))) (map (map rnd) rows) FmtNone true (sp_events C0) h Hit H0) as Hc.
    destruct (EmbedModel.create _ _ _ _ _ _ _) as [[h1 C1] r]. cbn. intros _. split; [done|].
    destruct Hc as (_ & _ & Hc). rewrite map_length in Hc. unfold w_Card, sp_Card, sp_events in *. cbn. lia. }
  destruct c as [n sh|lam sh|rows fmt rel|A u|A u]; cbn [perform].
  - unfold sprinkle. destruct (decide (n < 0)%Z) as [|Hn]; [done|]. unfold forget.
    specialize (Hsi n sh k (set_intensity (sp_intensity C + IZR n) C)).
    destruct (sprinkle_into _ _ _ _ _ _ _ _) as [w1 [evs|e]]; cbn in *; [|done]. intros [= <-].
    destruct (Hsi evs Hin eq_refl) as [H1 H2]. split; [done|]. intros _ He. rewrite H1. unfold w_Intensity in He. cbn in He.
    unfold Intensity in He. rewrite He. unfold sp_Card, sp_events in *. cbn in *. rewrite !INR_IZR_INZ, H2, plus_IZR. done.
  - unfold intensify. destruct (decide (lam < 0)%R) as [|Hn]; [done|]. unfold forget. cbn zeta.
    specialize (Hsi (Z.of_nat (g_poisson g k lam)) sh (k + 1) (set_intensity (sp_intensity C + lam) C)).
    destruct (sprinkle_into _ _ _ _ _ _ _ _) as [w1 [evs|e]]; cbn in *; [|done]. intros [= <-].
    destruct (Hsi evs Hin eq_refl) as [H1 H2]. split; [done|]. intros Hc. by exfalso.
  - unfold sp_create, super_create.
    pose proof (create_shape it (caus_of eps (ec_spacetime (sp_causet C))) rows fmt rel (sp_events C) h Hit Hin) as Hc.
    destruct (EmbedModel.create _ _ _ _ _ _ _) as [[h1 C1] [r|e]]; cbn; [|done]. intros [= <-].
    destruct Hc as (_ & _ & Hc). unfold w_Intensity, w_Card, Intensity, sp_Card, sp_events in *. cbn in *.
    rewrite Hc, plus_INR. split; intros; lra.
  - unfold sp_add. destruct (BuildModel.add it (sp_events C) A u h) as [[h1 C1] [r|e]]; cbn; [|done].
    intros [= <-]. split; [by intros []|]. intros _. unfold w_Intensity, w_Card, Intensity, sp_Card, sp_events in *. cbn. lra.
  - unfold sp_discard. destruct (BuildModel.discard it (sp_events C) A u h) as [[h1 C1] [r|e]]; cbn; [|done].
    destruct (decide (INR (sp_Card C) = 0%R)) as [|Hz]; [done|].
    intros [= <-]. split; [by intros []|]. intros _. unfold w_Intensity, w_Card, Intensity, sp_Card, sp_events in *. cbn in *.
    intros ->. field. done.
Qed.

(** Intensity = Card is kept by every history of sprinkle, create, add and discard calls that
    return - and of sprinkle calls with a negative count, which raise before anything changes. *)
Definition returns_or_negative (w : world) (c : call) (r : res unit) : Prop :=
  existing w c ∧ ¬ intensifies c ∧
  (r = Ok tt ∨ ∃ n sh, c = CallSprinkle n sh ∧ (n < 0)%Z).
Theorem C53_intensity_is_card (w : world) (cs : list call) (w' : world) :
  iter_ok it → in_store w → w_Intensity w = INR (w_Card w) →
  runs returns_or_negative w cs w' → w_Intensity w' = INR (w_Card w').
Proof using.
  intros Hit Hin Heq Hr. induction Hr as [w|w c w1 r cs w2 E (Hex & Hni & Hok) Hr IH]; [done|].
  assert (Hin1 : in_store w1) by (destruct (perform_store Hit c w Hex Hin) as [H _]; rewrite E in H; done).
  apply IH; [done|]. destruct Hok as [-> |(n & sh & -> & Hn)].
  - by apply (perform_intensity Hit c w w1).
  - destruct w as [[h k] C]. cbn [perform] in E. unfold sprinkle in E. destruct (decide (n < 0)%Z) as [_|?]; [|lia].
    by injection E as <- _.
Qed.
(** Without add and discard the intensity is the sum of the requested numbers. *)
Theorem C53_intensity_sum (w : world) (cs : list call) (w' : world) :
  iter_ok it → in_store w →
  runs (λ _ c r, sprinkles c ∧ r = Ok tt) w cs w' →
  w_Intensity w' = (w_Intensity w + foldr (λ c s, amount c + s) 0 cs)%R.
Proof using.
  intros Hit Hin Hr. induction Hr as [w|w c w1 r cs w2 E (Hs & ->) Hr IH]; [cbn; lra|].
  assert (Hex : existing w c) by by destruct c.
  assert (Hin1 : in_store w1) by (destruct (perform_store Hit c w Hex Hin) as [H _]; rewrite E in H; done).
  rewrite (IH Hin1). cbn [foldr]. rewrite (proj1 (perform_intensity Hit c w w1 Hin Hex E) Hs). lra.
Qed.
(** The intensity is never negative, whatever is called and whatever raises. *)
Theorem C53_nonnegative (w : world) (cs : list call) (w' : world) :
  iter_ok it → in_store w → (0 <= w_Intensity w)%R →
  runs (λ w c _, existing w c) w cs w' → (0 <= w_Intensity w')%R.
Proof using.
  intros Hit Hin H0 Hr. induction Hr as [w|w c w1 r cs w2 E Hex Hr IH]; [done|].
  assert (Hin1 : in_store w1) by (destruct (perform_store Hit c w Hex Hin) as [H _]; rewrite E in H; done).
  apply IH; [done|]. clear IH Hr Hin1. destruct w as [[h k] C]. unfold w_Intensity, Intensity in *. cbn in H0.
  assert (Hsi : ∀ n sh k C, sp_intensity (w_causet (fst (sprinkle_into eps it g junk rnd n sh (h, k, C)))) = sp_intensity C).
  { intros n sh k0 C0. unfold sprinkle_into, super_create.
    destruct (sprinkle_coords _ _ _ _ _ _) as [k1 [rows|e]]; [|done].
    by destruct (EmbedModel.create _ _ _ _ _ _ _) as [[h1 C1] r0]. }
  destruct c as [n sh|lam sh|rows fmt rel|A u|A u]; cbn [perform] in E; unfold forget in E.
  - unfold sprinkle in E. destruct (decide (n < 0)%Z) as [|Hn]; [by injection E as <- _|].
    apply (f_equal fst) in E. cbn [fst] in E. rewrite <- E, Hsi. cbn. assert (0 <= IZR n)%R by (apply IZR_le; lia). lra.
  - unfold intensify in E. destruct (decide (lam < 0)%R) as [|Hn]; [by injection E as <- _|].
    apply (f_equal fst) in E. cbn [fst] in E. rewrite <- E, Hsi. cbn. lra.
  - unfold sp_create, super_create in E.
    pose proof (create_shape it (caus_of eps (ec_spacetime (sp_causet C))) rows fmt rel (sp_events C) h Hit Hin) as Hc.
    destruct (EmbedModel.create _ _ _ _ _ _ _) as [[h1 C1] [r1|e]]; injection E as <- _; cbn; [|done].
    destruct Hc as (_ & _ & Hc). unfold sp_Card, sp_events in *. cbn. rewrite Hc, plus_INR. pose proof (pos_INR (length rows)). lra.
  - unfold sp_add, BuildModel.add in E.
    assert (Hle : (INR (size (sp_events C)) <= INR (size (add_events (sp_events C) A)))%R).
    { apply le_INR. apply subseteq_size. unfold add_events. apply union_subseteq_l. }
    destruct u; [destruct (unlink_loop _ h) as [h1 [?|?]]|]; injection E as <- _; cbn; unfold sp_Card, sp_events in *; cbn in *; lra.
  - unfold sp_discard, BuildModel.discard in E.
    assert (Hp : (INR (sp_Card C) ≠ 0 → 0 <= sp_intensity C * (INR (size (discard_events (sp_events C) A)) / INR (sp_Card C)))%R).
    { intros Hn. pose proof (pos_INR (sp_Card C)). pose proof (pos_INR (size (discard_events (sp_events C) A))).
      apply Rmult_le_pos; [done|]. apply Rmult_le_pos; [done|]. left. apply Rinv_0_lt_compat. lra. }
    destruct u; [destruct (unlink_loop _ h) as [h1 [?|?]]|]; try destruct (decide (INR (sp_Card C) = 0%R)) as [|Hz];
      injection E as <- _; cbn; unfold sp_Card, sp_events in *; cbn in *; try done; by apply Hp.
Qed.
End history.
Print Assumptions C53_intensity_is_card.
Print Assumptions C53_intensity_sum.
Print Assumptions C53_nonnegative.

(** add and discard: the intensity changes by the number of new events, and in proportion to
    the remaining events. *)
Theorem C53_add_discard (it : oracle) (evs : gset nat) (unlink : bool) (w w' : world) :
  (sp_add it evs unlink w = (w', Ok tt) →
     sp_events (w_causet w') = sp_events (w_causet w) ∪ evs ∧
     w_Intensity w' = (w_Intensity w + (INR (w_Card w') - INR (w_Card w)))%R) ∧
  (sp_discard it evs unlink w = (w', Ok tt) →
     sp_events (w_causet w') = sp_events (w_causet w) ∖ evs ∧
     (w_Intensity w' * INR (w_Card w) = w_Intensity w * INR (w_Card w'))%R).
Proof.
  destruct w as [[h k] C]. split.
  - unfold sp_add, BuildModel.add. destruct unlink; [destruct (unlink_loop _ h) as [h1 [[]|e]]; [|done]|];
      intros [= <-]; (split; [|done]); done.
  - unfold sp_discard, BuildModel.discard. destruct unlink; [destruct (unlink_loop _ h) as [h1 [[]|e]]; [|done]|];
      (destruct (decide (INR (sp_Card C) = 0%R)) as [|Hz]; [done|]); intros [= <-];
      (split; [done|]);
      unfold w_Intensity, w_Card, Intensity in *; cbn; field; done.
Qed.
Print Assumptions C53_add_discard.

(** add, discard and create are those of the parent classes: the same events in the causet, the same
    changes of the events, the same result or exception (except that discard raises
    ZeroDivisionError for an empty causet); no random number is drawn, and the spacetime and the
    shape stay; if the parent's method raises, the intensity stays as well. *)
Theorem C53_parent eps (it : oracle) (h : heap) (k : nat) (C : sprinkled) :
  (∀ S unlink h1 evs1 r1, BuildModel.add it (sp_events C) S unlink h = (h1, evs1, r1) →
     ∃ C', sp_add it S unlink (h, k, C) = ((h1, k, C'), r1) ∧ sp_events C' = evs1 ∧
       ec_shape (sp_causet C') = ec_shape (sp_causet C) ∧
       ec_spacetime (sp_causet C') = ec_spacetime (sp_causet C) ∧
       (r1 ≠ Ok tt → Intensity C' = Intensity C)) ∧
  (∀ S unlink h1 evs1 r1, BuildModel.discard it (sp_events C) S unlink h = (h1, evs1, r1) →
     ∃ C' r, sp_discard it S unlink (h, k, C) = ((h1, k, C'), r) ∧ sp_events C' = evs1 ∧
       ec_shape (sp_causet C') = ec_shape (sp_causet C) ∧
       ec_spacetime (sp_causet C') = ec_spacetime (sp_causet C) ∧
       (sp_events C ≠ ∅ ∨ r1 ≠ Ok tt → r = r1) ∧ (r ≠ Ok tt → Intensity C' = Intensity C)) ∧
  (∀ rows fmt rel h1 evs1 r1,
     EmbedModel.create it (caus_of eps (ec_spacetime (sp_causet C))) rows fmt rel (sp_events C) h = (h1, evs1, r1) →
     ∃ C', sp_create eps it rows fmt rel (h, k, C) = ((h1, k, C'), r1) ∧ sp_events C' = evs1 ∧
       ec_shape (sp_causet C') = ec_shape (sp_causet C) ∧
       ec_spacetime (sp_causet C') = ec_spacetime (sp_causet C) ∧
       (∀ evs, r1 = Ok evs →
          Intensity C' = (Intensity C + (INR (size (sp_events C')) - INR (size (sp_events C))))%R) ∧
       (∀ e, r1 = Err e → Intensity C' = Intensity C)).
Proof.
  split; [|split].
  - intros S u h1 evs1 r1 E. unfold sp_add. rewrite E. destruct r1 as [[]|e]; eexists; (split; [reflexivity|]);
      (split; [done|split; [done|split; [done|]]]); intros H; done.
  - intros S u h1 evs1 r1 E. unfold sp_discard. rewrite E. destruct r1 as [[]|e].
    + destruct (decide (INR (sp_Card C) = 0%R)) as [Hz|Hz]; do 2 eexists; (split; [reflexivity|]);
        (split; [done|split; [done|split; [done|split]]]); try done.
      intros [Hne|?]; [|done]. exfalso. apply Hne. apply INR_eq with (m := 0) in Hz.
      unfold sp_Card in Hz. apply leibniz_equiv. by apply size_empty_inv.
    + do 2 eexists; (split; [reflexivity|]); (split; [done|split; [done|split; [done|split; done]]]).
  - intros rows fmt rel h1 evs1 r1 E. unfold sp_create, super_create. rewrite E.
    destruct r1 as [evs|e]; eexists; (split; [reflexivity|]);
      (split; [done|split; [done|split; [done|split; [|]]]]); done.
Qed.
Print Assumptions C53_parent.

(** The calls that raise. *)
Theorem C53_errors eps it g junk rnd (w : world) :
  (∀ count sh, (count < 0)%Z → sprinkle eps it g junk rnd count sh w = (w, Err ValueError)) ∧
  (∀ lam sh, (lam < 0)%R → intensify eps it g junk rnd lam sh w = (w, Err ValueError)) ∧
  (∀ evs, sp_events (w_causet w) = ∅ → iter_ok it → ∀ unlink,
     sp_discard it evs unlink w = (w, Err ZeroDivisionError)).
Proof.
  destruct w as [[h k] C]. split; [|split].
  - intros count sh Hc. unfold sprinkle. destruct (decide (count < 0)%Z); [done|lia].
  - intros lam sh Hc. unfold intensify. destruct (decide (lam < 0)%R); [done|lra].
  - intros evs He Hit unlink. cbn [w_causet snd] in He. unfold sp_discard, BuildModel.discard.
    assert (Hd : discard_events (sp_events C) evs = ∅).
    { unfold discard_events. rewrite He. apply set_eq. intros x. rewrite elem_of_difference.
      split; [by intros [? _]|]. intros Hx. by apply elem_of_empty in Hx. }
    rewrite Hd. assert (Hl : it 24 ∅ = []).
    { apply Permutation_nil. symmetry. rewrite (Hit 24 ∅). by rewrite elements_empty. }
    assert (Hset : set_events ∅ C = C).
    { unfold set_events. unfold sp_events in He. destruct C as [[st s e] i]. cbn in *. by subst. }
    assert (Hz : INR (sp_Card C) = 0%R) by (unfold sp_Card; rewrite He, size_empty; done).
    destruct unlink; [rewrite Hl; cbn [unlink_loop]|]; (destruct (decide (INR (sp_Card C) = 0%R)); [|done]); by rewrite Hset.
Qed.
Print Assumptions C53_errors.

(** A call that raises after the intensity was changed: sprinkling into a one-dimensional
    cylinder creates no event but counts them in the intensity. *)
Theorem C53_failed_call_refuted eps it g junk rnd (count : Z) (s : shape) (h : heap) (k : nat) (C : sprinkled) :
  sh_name s = "cylinder" → sh_dim s = 1 → sh_dim (ec_shape (sp_causet C)) = 1 → (0 < count)%Z →
  ∃ w', sprinkle eps it g junk rnd count (Some s) (h, k, C) = (w', Err ZeroDivisionError) ∧
    fst (fst w') = h ∧ sp_events (w_causet w') = sp_events C ∧
    w_Intensity w' = (Intensity C + IZR count)%R.
Proof.
  intros En Hd Hd' Hc. unfold sprinkle. destruct (decide (count < 0)%Z); [lia|]. unfold sprinkle_into. cbn [default].
  cbn [sp_causet set_intensity]. rewrite Hd'. unfold Datatypes.id. pose proof (C54_cylinder_dim1 g junk s count k En Hd Hc) as H. rewrite Hd in H.
  destruct (sprinkle_coords g junk 1 count s k) as [k1 [rows|e]]; cbn in H; [done|]. injection H as ->.
  eexists. split; [reflexivity|]. done.
Qed.
Print Assumptions C53_failed_call_refuted.

(** The constructor. *)
Lemma EmbeddedCauset_CoNone f32 eps it sta sha dim h h1 E :
  EmbeddedCauset f32 eps it sta sha CoNone dim h = (h1, Ok E) → h1 = h ∧ ec_events E = ∅.
Proof.
  unfold EmbeddedCauset. destruct (res_bind _ _) as [[M s]|e]; [|done]. by intros [= <- <-].
Qed.
Theorem C53_constructor f32 eps it g junk rnd (card : Z) (lam : R) (dim : Z) sta sha h k E :
  iter_ok it → random_ok g → (∀ a b, a ∈ Past h b ↔ b ∈ Future h a) → link_paired h →
  EmbeddedCauset f32 eps it sta sha CoNone dim h = (h, Ok E) →
  can_sprinkle g (h, k, Sprinkled E 0) None → (0 <= lam)%R →
  ∃ h' k' C, SprinkledCauset f32 eps it g junk rnd card lam dim sta sha h k = (h', k', Ok C) ∧
    world_ok (h', k', C) ∧
    ec_spacetime (sp_causet C) = ec_spacetime E ∧ ec_shape (sp_causet C) = ec_shape E ∧
    ((0 < card)%Z → Z.of_nat (sp_Card C) = card ∧ Intensity C = INR (sp_Card C)) ∧
    ((card <= 0)%Z → sp_Card C = g_poisson g k lam ∧ Intensity C = lam).
Proof.
  intros Hit Hg Hconv HP HE Hs Hlam. unfold SprinkledCauset. rewrite HE.
  destruct (EmbeddedCauset_CoNone _ _ _ _ _ _ _ _ _ HE) as [_ Hev].
  assert (Hw : world_ok (h, k, Sprinkled E 0)).
  { unfold world_ok, sp_events. cbn. rewrite Hev. by apply grown_empty. }
  assert (H0 : sp_Card (Sprinkled E 0) = 0) by (unfold sp_Card, sp_events; cbn; by rewrite Hev, size_empty).
  destruct (decide (0 < card)%Z) as [Hc|Hc].
  - destruct (C53_sprinkle eps it g junk rnd card None h k (Sprinkled E 0) Hit Hg Hw ltac:(lia) Hs)
      as ([[h' k'] C] & evs & -> & Hw' & _ & _ & _ & Hcard & Hint & Hsh & Hst).
    cbn in *. exists h', k', C. split; [done|split; [done|split; [done|split; [done|split; [|intros ?; lia]]]]]. intros _.
    unfold w_Card, w_Intensity, w_causet in *. cbn in *. rewrite H0 in Hcard. cbn in Hcard. split; [done|].
    rewrite Hint, INR_IZR_INZ, Hcard. unfold Intensity. change (Z.of_nat 0) with 0%Z. rewrite Z.add_0_l. apply Rplus_0_l.
  - destruct (C53_intensify eps it g junk rnd lam None h k (Sprinkled E 0) Hit Hg Hw Hlam Hs)
      as ([[h' k'] C] & evs & -> & Hw' & _ & _ & _ & Hcard & Hint & Hsh & Hst).
    cbn in *. exists h', k', C. split; [done|split; [done|split; [done|split; [done|split; [intros ?; lia|]]]]]. intros _.
    unfold w_Card, w_Intensity, w_causet in *. cbn in *. rewrite H0 in Hcard. split; [lia|].
    rewrite Hint. unfold Intensity. cbn [sp_intensity]. lra.
Qed.
Print Assumptions C53_constructor.

(** Density and LengthScale of a sprinkled causet: intensity per volume, and (unlike for
    EmbeddedCauset) the edge of a cube that holds one expected event. *)
Theorem C53_density (C : sprinkled) :
  constructed_shape (ec_shape (sp_causet C)) → (0 < snd (Volume (ec_shape (sp_causet C))))%R →
  (0 < Intensity C)%R →
  (sp_Density C * snd (Volume (ec_shape (sp_causet C))) = Intensity C)%R ∧
  (0 < sp_LengthScale C)%R ∧
  (sp_Density C * sp_LengthScale C ^ sh_dim (ec_shape (sp_causet C)) = 1)%R.
Proof.
  intros Hs HV Hi. unfold Intensity in Hi. unfold sp_Density, Intensity, sp_LengthScale.
  set (V := snd (Volume _)) in *. set (lam := sp_intensity C) in *.
  assert (Hq : (0 < V / lam)%R) by by apply Rdiv_lt_0_compat.
  assert (Hd : sh_dim (ec_shape (sp_causet C)) ≠ 0) by (destruct (constructed_wf _ Hs); lia).
  unfold py_pow. destruct (decide (V / lam = 0)%R); [lra|]. split; [field; lra|].
  split; [apply exp_pos|]. rewrite Rpower_root by done. field. lra.
Qed.
Print Assumptions C53_density.

(** ** C54: the new events *)
(** Their coordinates are the numbers stored for points of the shape; if storing changes a
    number by at most delta, they are within the limits up to delta. *)
Theorem C54_events eps it g junk rnd (count : Z) (sh : option shape) h k C :
  iter_ok it → random_ok g → world_ok (h, k, C) → (0 <= count)%Z → can_sprinkle g (h, k, C) sh →
  let s := sprinkle_shape (h, k, C) sh in
  sh_name s ≠ "bicone" →
  ∃ w' evs, sprinkle eps it g junk rnd count sh (h, k, C) = (w', Ok evs) ∧ Z.of_nat (size evs) = count ∧
    (∀ x, x ∈ evs → ∃ p, in_shape s p ∧ Coordinates (fst (fst w')) x = Ok (map rnd p)) ∧
    (∀ delta : R, (∀ x, Rabs (Q2R (rnd x) - x) <= delta)%R →
       ∀ x c d lo hi q, x ∈ evs → Coordinates (fst (fst w')) x = Ok c →
         Limits s d = Ok (lo, hi) → c !! Z.to_nat d = Some q → (lo - delta <= Q2R q <= hi + delta)%R) ∧
    (∀ x, x ∈ dom h → Coordinates (fst (fst w')) x = Coordinates h x).
Proof.
  intros Hit Hg Hw Hc Hcan s Hnb. unfold sprinkle. destruct (decide (count < 0)%Z); [lia|].
  set (C1 := set_intensity _ C).
  destruct (sprinkle_into_ok eps it g junk rnd (Z.to_nat count) sh h k C1 Hit Hg Hw Hcan)
    as (h' & k' & evs & rows & E & Hsz & _ & _ & Er & _ & _ & Hev & Hold). rewrite Z2Nat.id in E, Er by done. rewrite E.
  change (sprinkle_shape (h, k, C1) sh) with s in Er. change (w_dim (h, k, C1)) with (w_dim (h, k, C)) in Er.
  destruct Hcan as (Hs & Hd & Hdir & Hn1). fold s in Hs, Hd, Hdir, Hn1. rewrite <- Hd in Er.
  destruct (C54_in_shape g junk s count k Hg Hs Hdir Hc Hnb Hn1) as (k2 & rows2 & E2 & _ & Hin).
  rewrite Er in E2. injection E2 as <- <-.
  do 2 eexists. split; [reflexivity|]. split; [lia|]. cbn [fst]. split; [|split; [|done]].
  - intros x Hx. destruct (Hev x Hx) as (row & Hrow & Hco). exists row. split; [by apply Hin|done].
  - intros delta Hdel x c d lo hi q Hx Hco HL Hq. destruct (Hev x Hx) as (row & Hrow & Hco'). rewrite Hco in Hco'.
    injection Hco' as ->. destruct (Hin row Hrow) as [_ HB]. specialize (HB d lo hi HL).
    change (map rnd row) with (rnd <$> row) in Hq. rewrite list_lookup_fmap in Hq.
    destruct (row !! Z.to_nat d) as [y|] eqn:Ey; [|done]. injection Hq as <-.
    rewrite nth_lookup, Ey in HB. cbn [default] in HB. unfold Datatypes.id in HB. specialize (Hdel y).
    pose proof (Rle_abs (Q2R (rnd y) - y)). pose proof (Rle_abs (- (Q2R (rnd y) - y))) as Hneg. rewrite Rabs_Ropp in Hneg. lra.
Qed.
Print Assumptions C54_events.
(** SprinkledCauset(card=n) with the default spacetime and shape: no random number is drawn
    and every coordinate is the content of uninitialised memory. *)
Theorem C54_default_refuted f32 eps it g junk rnd (card dim : Z) (lam : R) h k :
  f32_sane f32 → iter_ok it → (∀ a b, a ∈ Past h b ↔ b ∈ Future h a) → link_paired h → (0 < card)%Z →
  let d := if decide (dim <= 0)%Z then 2 else Z.to_nat dim in
  ∃ h' C, SprinkledCauset f32 eps it g junk rnd card lam dim StNone ShNone h k = (h', k, Ok C) ∧
    Z.of_nat (sp_Card C) = card ∧
    ∀ x, x ∈ sp_events C → ∃ i, Coordinates h' x = Ok (map rnd (junk i <$> seq 0 d)).
Proof.
  intros Hf Hit Hconv HP Hc. cbn zeta. destruct (C65_default f32 eps it h dim Hf) as (s & HE & Hnm).
  set (d := if decide (dim <= 0)%Z then 2 else Z.to_nat dim) in *.
  assert (Hs : sh_dim s = d).
  { unfold EmbeddedCauset in HE.
    assert (Ed : init_dim dim StNone ShNone CoNone = Ok (Z.of_nat d)).
    { unfold init_dim, d. destruct (decide (dim <= 0)%Z); [done|]. f_equal. lia. }
    assert (Hd1 : 1 ≤ d) by (unfold d; destruct (decide (dim <= 0)%Z); lia).
    rewrite Ed in HE. cbn [res_bind init_spacetime] in HE. rewrite FlatSpacetime_default in HE by done. cbn [res_bind Dim] in HE.
    destruct (decide (Z.of_nat d = Z.of_nat d)) as [_|?]; [|done].
    destruct (DefaultShape f32 (Flat d None)) as [s0|e] eqn:Es; [|done]. cbn [res_bind] in HE.
    destruct (decide (sh_dim s0 = sh_dim s0)) as [_|?]; [|done]. injection HE as ->.
    unfold DefaultShape in Es. apply CoordinateShape_dim in Es. cbn [Dim] in Es. lia. }
  unfold SprinkledCauset. rewrite HE. destruct (decide (0 < card)%Z) as [_|?]; [|done]. unfold sprinkle.
  destruct (decide (card < 0)%Z) as [|_]; [lia|]. unfold sprinkle_into. cbn [default sp_causet ec_shape set_intensity].
  replace card with (Z.of_nat (Z.to_nat card)) by lia. rewrite sprinkle_bicone by done. set (n := Z.to_nat card).
  set (rows := (λ i, junk i <$> seq 0 (sh_dim s)) <$> seq 0 n). unfold super_create, sp_events. cbn [sp_causet ec_events ec_spacetime set_intensity sp_intensity].
  destruct (create_grow it (caus_of eps (Flat d None)) (map (map rnd) rows) FmtNone true h ∅ Hit (grown_empty h Hconv HP))
    as (h' & xs & -> & Hlx & Hnd & Hfr & Hgr & Hnew & Hold).
  cbn [res_map]. do 2 eexists. split; [reflexivity|]. unfold sp_Card, sp_events. cbn.
  rewrite map_length in Hlx. assert (Hl : length rows = n) by (unfold rows; by rewrite fmap_length, seq_length).
  split. { rewrite list_to_set_disj; [rewrite size_empty; lia|done|]. intros x _ Hx. by apply elem_of_empty in Hx. }
  intros x Hx. rewrite elem_of_union, elem_of_list_to_set in Hx. destruct Hx as [Hx|Hx]; [by apply elem_of_empty in Hx|].
  apply elem_of_list_lookup in Hx as [i Hi]. exists i. apply (Hnew i x); [done|].
  change (map (map rnd) rows) with (map rnd <$> rows). unfold rows. rewrite !list_lookup_fmap, lookup_seq_lt.
  - cbn. by rewrite Hs.
  - rewrite <- Hl, <- Hlx. by eapply lookup_lt_Some.
Qed.
Print Assumptions C54_default_refuted.

(** ** Non-vacuity *)
Definition demo_rng : rng := Rng (λ k, (/ 2)%R) (λ k, 1%R) (λ k lam, 3).
Lemma demo_rng_ok : random_ok demo_rng ∧ ∀ b, 1 ≤ b → normal_ok demo_rng b.
Proof.
  split; [intros k; cbn; lra|]. intros b Hb k. exists 0. split; [lia|]. cbn. lra.
Qed.
Lemma demo_can_sprinkle (st : spacetime) (evs : gset nat) (lam : R) (h : heap) (k : nat) :
  ∃ s, CoordinateShape (λ x, x) 2 "ball" no_args = Ok s ∧ sh_name s = "ball" ∧
    can_sprinkle demo_rng (h, k, Sprinkled (ECauset st s evs) lam) None.
Proof.
  destruct (ball_shape_ok (λ x, x) 2 "ball" None) as (s & E & Hd & _ & Hn); [lia|by left|done|lra|cbn; lra|].
  exists s. unfold no_args. split; [done|]. destruct (decide ("ball" = "diamond")) as [?|_]; [done|]. split; [done|].
  unfold can_sprinkle. cbn. split; [by do 4 eexists|]. split; [done|]. split.
  - split; [intros _; apply demo_rng_ok; lia|rewrite Hn; discriminate].
  - rewrite Hn. intros [? _]. discriminate.
Qed.
Lemma demo_conv : (∀ a b, a ∈ Past ∅ b ↔ b ∈ Future ∅ a) ∧ link_paired ∅.
Proof. split; [intros a b; unfold Past, Future; cbn; done|intros x; done]. Qed.
(** The hypotheses of C53_sprinkle, C53_constructor, C54_in_shape, C54_events hold for the unit ball. *)
Example C53_nonvacuous : ∃ s w', CoordinateShape (λ x, x) 2 "ball" no_args = Ok s ∧
  let w0 := ((∅ : heap), 0, Sprinkled (ECauset (Flat 2 None) s ∅) 0%R) in
  runs 0 it_sorted demo_rng (λ _ _, 0%R) (λ _, 0%Q) (returns_or_negative)
    w0 [CallSprinkle 3 None; CallSprinkle (-1) None; CallSprinkle 2 None; CallDiscard {[0]} false] w' ∧
  world_ok w0 ∧ can_sprinkle demo_rng w0 None ∧ in_store w0.
Proof.
  destruct (demo_can_sprinkle (Flat 2 None) ∅ 0 ∅ 0) as (s & Es & Hn & Hcan).
  set (w0 := ((∅ : heap), 0, Sprinkled (ECauset (Flat 2 None) s ∅) 0%R)).
  assert (Hw0 : world_ok w0) by (apply grown_empty; apply demo_conv).
  destruct (C53_sprinkle 0 it_sorted demo_rng (λ _ _, 0%R) (λ _, 0%Q) 3 None ∅ 0 (Sprinkled (ECauset (Flat 2 None) s ∅) 0%R)
    it_sorted_ok (proj1 demo_rng_ok) Hw0 ltac:(lia) Hcan) as ([[h1 k1] C1] & ev1 & E1 & Hw1 & _ & _ & _ & Hc1 & _ & Hs1 & _).
  assert (Hcan1 : can_sprinkle demo_rng (h1, k1, C1) None).
  { unfold can_sprinkle, sprinkle_shape, w_dim, w_causet in *. cbn in *. rewrite Hs1. exact Hcan. }
  destruct (C53_sprinkle 0 it_sorted demo_rng (λ _ _, 0%R) (λ _, 0%Q) 2 None h1 k1 C1
    it_sorted_ok (proj1 demo_rng_ok) Hw1 ltac:(lia) Hcan1) as ([[h2 k2] C2] & ev2 & E2 & Hw2 & _ & _ & _ & Hc2 & _ & Hs2 & _).
  assert (Hz : INR (sp_Card C2) ≠ 0%R).
  { unfold w_Card, w_causet in *. cbn in *. apply not_0_INR. lia. }
  assert (∃ w3, perform 0 it_sorted demo_rng (λ _ _, 0%R) (λ _, 0%Q) (CallDiscard {[0]} false) (h2, k2, C2) = (w3, Ok tt)) as [w3 E3].
  { cbn [perform]. unfold sp_discard, BuildModel.discard. destruct (decide (INR (sp_Card C2) = 0%R)); [done|]. by eexists. }
  exists s, w3. split; [exact Es|]. cbn zeta. fold w0. split; [|split; [done|split; [done|]]].
  - fold w0 in E1. eapply runs_cons; [cbn [perform]; unfold forget; rewrite E1; reflexivity|by repeat split; [intros []|left]|].
    assert (Hneg : perform 0 it_sorted demo_rng (λ _ _, 0%R) (λ _, 0%Q) (CallSprinkle (-1) None) (h1, k1, C1) = ((h1, k1, C1), Err ValueError)) by reflexivity.
    eapply runs_cons; [exact Hneg| |].
    { split; [done|split; [intros []|right]]. do 2 eexists. split; [done|lia]. }
    eapply runs_cons; [cbn [perform]; unfold forget; rewrite E2; reflexivity|by repeat split; [intros []|left]|].
    eapply runs_cons; [exact E3|by repeat split; [intros []|left]|apply runs_nil].
  - apply (gr_dom _ _ Hw0).
Qed.
Example C54_nonvacuous : ∃ s, constructed_shape s ∧ random_ok demo_rng ∧ directions_ok demo_rng s ∧ sh_name s = "ball".
Proof.
  destruct (demo_can_sprinkle (Flat 2 None) ∅ 0 ∅ 0) as (s & Es & Hn & (H1 & _ & H3 & _)). exists s.
  split; [exact H1|]. split; [apply demo_rng_ok|]. done.
Qed.
Example C66_nonvacuous :
  (∃ s, constructed_shape s ∧ random_ok demo_rng ∧ directions_ok demo_rng s ∧ sh_name s = "ball") ∧
  (∃ s, constructed_shape s ∧ sh_dim s = 2 ∧ sh_name s = "cube" ∧ ∃ lo hi, Limits s 1 = Ok (lo, hi) ∧ (lo < hi)%R).
Proof.
  split; [exact C54_nonvacuous|]. destruct (proj1 (C55_validation (λ x, x) 2 "cube" no_args)) as (s & E & Hd & Hn & H).
  { split; cbn; try done; intros; try lra; try tauto; destruct H as [|[|[|]]]; done. }
  assert (Hs : constructed_shape s) by (by eexists _, _, _, _). exists s. split; [done|]. split; [lia|]. split; [done|].
  destruct (C56_Limits s 1 Hs) as [H1 _]. destruct H1 as (lo & hi & E' & Hlt & _); [lia|]. by exists lo, hi.
Qed.
(** ... and those of C54_default_refuted hold for the empty store. *)
Example C54_default_nonvacuous : f32_sane (λ x, x) ∧ iter_ok it_sorted ∧ (∀ a b, a ∈ Past ∅ b ↔ b ∈ Future ∅ a) ∧ link_paired ∅.
Proof. split; [apply f32_id_sane|]. split; [apply it_sorted_ok|]. apply demo_conv. Qed.
(** A one-dimensional cube in a three-dimensional causet: every sprinkled point is on the
    diagonal; a two-dimensional cube in the same causet raises ValueError. *)
Example C54_other_dimension_nonvacuous :
  (∃ s, constructed_shape s ∧ sh_dim s = 1 ∧ sh_name s = "cube" ∧ ∃ rows,
     snd (sprinkle_coords demo_rng (λ _ _, 0%R) 3 1 s 0) = Ok rows ∧ length rows = 1 ∧ ∀ row, row ∈ rows → ∃ x, row = [x; x; x]) ∧
  (∃ s, constructed_shape s ∧ sh_dim s = 2 ∧ snd (sprinkle_coords demo_rng (λ _ _, 0%R) 3 1 s 0) = Err ValueError).
Proof.
  split.
  - destruct (proj1 (C55_validation (λ x, x) 1 "cube" no_args)) as (s & E & Hd & Hn & _).
    { split; cbn; try done; intros; try lra; try tauto; destruct H as [|[|[|]]]; done. }
    assert (Hs : constructed_shape s) by (by eexists _, _, _, _). cbn in Hn. exists s. split_and!; [done|lia|done|].
    destruct (C54_other_dimension demo_rng (λ _ _, 0%R) s 3 1 0 Hs) as (_ & _ & _ & H); [done|lia|lia|].
    destruct H as (rows & E' & Hl & Hr); [by left|lia|]. exists rows. split_and!; [done|lia|].
    intros row [m Hm]%elem_of_list_lookup. apply Hr in Hm. eexists. exact Hm.
  - destruct (proj1 (C55_validation (λ x, x) 2 "cube" no_args)) as (s & E & Hd & Hn & _).
    { split; cbn; try done; intros; try lra; try tauto; destruct H as [|[|[|]]]; done. }
    assert (Hs : constructed_shape s) by (by eexists _, _, _, _). cbn in Hn. exists s. split_and!; [done|lia|].
    destruct (C54_other_dimension demo_rng (λ _ _, 0%R) s 3 1 0 Hs) as (H & _); [done|lia|lia|].
    apply H; [rewrite Hn; decide_vm|lia].
Qed.
(** A one-dimensional ball at 3 in a two-dimensional causet: the disc around (3, 3). *)
Example C54_repeated_centre_nonvacuous :
  ∃ s s', constructed_shape s ∧ constructed_shape s' ∧ sh_name s = "ball" ∧ sh_dim s = 1 ∧ sh_dim s' = 2 ∧ sh_center s = [3%R] ∧
    sh_center s' = [3; 3]%R ∧ ∀ g junk count k, sprinkle_coords g junk 2 count s k = sprinkle_coords g junk 2 count s' k.
Proof.
  destruct (proj1 (C55_validation (λ x, x) 1 "ball" (ShapeArgs (Some [3%R]) None None None None None))) as (s & E & Hd & Hn & Hc & Hb & _).
  { split; cbn; try done; unfold ball_like; intros; try lra; try tauto. by simplify_eq. }
  destruct (proj1 (C55_validation (λ x, x) 2 "ball" (ShapeArgs (Some [3%R; 3%R]) None None None None None))) as (s' & E' & Hd' & Hn' & Hc' & Hb' & _).
  { split; cbn; try done; unfold ball_like; intros; try lra; try tauto. by simplify_eq. }
  assert (Hs : constructed_shape s) by (by eexists _, _, _, _). assert (Hs' : constructed_shape s') by (by eexists _, _, _, _).
  cbn in Hn, Hn', Hc, Hc'. destruct Hb as [Hr Hh]; [unfold ball_like; tauto|]. destruct Hb' as [Hr' Hh']; [unfold ball_like; tauto|].
  assert (Hd2 : sh_dim s' = 2) by lia.
  exists s, s'. split_and!; try done; [lia|]. intros g junk count k. rewrite <- Hd2.
  apply (C54_repeated_centre g junk s s' count k Hs Hs'); [congruence|cbn in Hr, Hr'; congruence|cbn in Hh, Hh'; congruence|intros Hcy; rewrite Hn in Hcy; discriminate Hcy|].
  left. split_and!; [done|lia|]. intros i Hi. rewrite Hc, Hc'. destruct i as [|[|]]; [done..|lia].
Qed.
