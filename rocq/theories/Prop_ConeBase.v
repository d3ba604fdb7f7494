(** When the cones of the curved spacetimes are drawn (C79). *)
From Verif Require Import Base SpacetimeModel SpacetimeFacts Prop_Spacetime ShapeModel Prop_SpacetimeMore OutlineModel SpecOutline Prop_Outline SpecSurface Prop_Surface ConeModel SpecCone Prop_Cone Prop_ConeMore Prop_ConeTime.
From Coq Require Import Reals Lra.
#[local] Open Scope nat_scope.

(** ** When the cones of curved spacetimes are drawn *)
Lemma XT_loop_some f T : (∀ t, t ∈ T → ∃ q, f t = Ok (Some q)) → ∀ i XT, ∃ l, XT_loop f T i XT = Ok (Some l).
Proof.
  induction T as [|t T IH]; intros Hf i XT; [by eexists|]. cbn [XT_loop].
  destruct (Hf t) as [[lo hi] ->]; [set_solver|]. cbn [res_bind]. apply IH. intros t' Ht. apply Hf. set_solver.
Qed.
Lemma slice_rows_some xy T : (∀ t, t ∈ T → ∃ q, xy t = Ok (Some q)) → ∃ F, slice_rows xy T = Ok (Some F).
Proof.
  induction T as [|t T IH]; intros Hf; [by eexists|]. cbn [slice_rows].
  destruct (Hf t) as [XY ->]; [set_solver|]. cbn [res_bind]. destruct IH as [[[X Y] Z] ->]; [intros t' Ht; apply Hf; set_solver|].
  cbn. by eexists.
Qed.
Lemma slice_columns_some xy xdim ys : (∀ y, y ∈ ys → ∃ q, xy (xdim, Z.of_nat y) = Ok (Some q)) → ∀ acc, ∃ l, slice_columns xy xdim ys acc = Ok (Some l).
Proof.
  induction ys as [|y ys IH]; intros Hf acc; [by eexists|]. cbn [slice_columns].
  assert (IH' := IH (λ y' Hy, Hf y' (elem_of_list_further _ _ _ Hy))). case_decide; [done|].
  destruct (Hf y) as [XY ->]; [set_solver|]. cbn [res_bind]. apply IH'.
Qed.
Lemma index_in_range dim (o : coords) i : length o = dim → i < dim → np_index o (Z.of_nat i) = Ok (cget o i).
Proof.
  intros Ho Hi. apply np_index_ok. exists i. split; [|by left]. unfold cget. destruct (lookup_lt_is_Some_2 o i) as [v Hv]; [lia|]. rewrite Hv.
  by rewrite (nth_lookup_Some _ _ _ _ Hv).
Qed.
Lemma dS_XY_slice_inside junk dim alpha t o i j : (0 < alpha)%R → length o = dim → i < dim → j < dim → inside_horizon alpha o →
  ∃ q, dS_XY_slice junk alpha t o (Z.of_nat i, Z.of_nat j) = Ok (Some q).
Proof.
  intros Ha Ho Hi Hj Hin. unfold dS_XY_slice. unfold inside_horizon in Hin.
  rewrite decide_False.
  2:{ intros H. apply Rmult_le_compat_r with (r := (alpha * alpha)%R) in H; [|nra]. unfold Rdiv in H. rewrite Rmult_assoc, Rinv_l, Rmult_1_l, Rmult_1_r in H by nra. lra. }
  cbn [fst snd]. rewrite !(index_in_range dim) by lia. cbn [res_bind]. destruct (ellipse_center_radii _ _ _) as [[x_c a] b]. by eexists.
Qed.
Lemma dS_XY_slice_outside junk alpha t o ij : (0 < alpha)%R → ¬ inside_horizon alpha o → dS_XY_slice junk alpha t o ij = Ok None.
Proof.
  intros Ha Hin. unfold dS_XY_slice. unfold inside_horizon in Hin. rewrite decide_True; [done|].
  apply Rmult_le_reg_r with (alpha * alpha)%R; [nra|]. unfold Rdiv. rewrite Rmult_assoc, Rinv_l, Rmult_1_l, Rmult_1_r by nra. lra.
Qed.

Lemma linspace_nil_not a b n : 1 ≤ n → linspace a b n ≠ [].
Proof. intros Hn. unfold linspace. by destruct n; [lia|]. Qed.

Theorem C79_deSitter (junk : nat → point) dim alpha past opac (n : Z) (dims : list nat) :
  let st := DeSitter dim alpha in
  constructed st → length dims = 2 ∨ length dims = 3 → NoDup dims → (∀ m, m ∈ dims → m < dim) →
  ∃ h, ConePlotter junk st (Z.of_nat <$> dims) (sign past) opac n = Ok h ∧
  ∀ o ts, length o = dim →
    (not_drawn past opac o ts → h o ts = Ok None) ∧
    (¬ not_drawn past opac o ts →
       (length dims = 3 → 0 ∉ dims → h o ts = Err NotImplementedError) ∧
       (length dims = 2 ∨ 0 ∈ dims →
          (¬ inside_horizon alpha o → h o ts = Ok None) ∧
          (inside_horizon alpha o →
             if decide (length dims = 2) then ∃ rows, h o ts = Ok (Some (opacity past opac o ts, DPatch rows))
             else ∃ F, h o ts = Ok (Some (opacity past opac o ts, DSurfaces [F]))))).
Proof.
  intros st Hst Hl Hnd Hm. apply DeSitter_constructed in Hst as [Hd2 Ha]. eexists. split; [reflexivity|]. intros o ts Ho.
  destruct (cone_start_spec past opac o ts) as [Hs1 Hs2]. unfold base_cone. split; [intros Hn; by rewrite Hs1|]. intros Hn. destruct (Hs2 Hn) as [Es _]. rewrite Es. clear Hs1 Hs2 Es.
  assert (HT : T_slice_sampling ts o (Z.of_nat (sampling n)) ≠ []).
  { unfold T_slice_sampling. rewrite decide_True by lia. apply linspace_nil_not. rewrite Nat2Z.id, edge_count_sampling. apply edge_count_pos. }
  set (T := T_slice_sampling ts o (Z.of_nat (sampling n))) in *.
  destruct dims as [|i [|j [|k [|? ?]]]]; try (exfalso; cbn in Hl; lia); cbn [fmap list_fmap].
  - assert (Hij : i ≠ j) by (apply NoDup_cons in Hnd as [Hn' _]; intros ->; apply Hn'; set_solver).
    assert (Hi : i < dim) by (apply Hm; set_solver). assert (Hj : j < dim) by (apply Hm; set_solver).
    split; [done|]. intros _. unfold is3d. rewrite bool_decide_false by done. rewrite time_axis_two by done. rewrite (decide_True (P := length [i; j] = 2)) by done.
    set (ta := if decide (i = 0) then 0%Z else _). cbv zeta. destruct (decide (ta < 0)%Z) as [Hta|Hta].
    + cbn [XY_slice st]. unfold dim_at. cbn [nth]. split; intros Hin; [by rewrite dS_XY_slice_outside|].
      destruct (dS_XY_slice_inside junk dim alpha ts o i j Ha Ho Hi Hj Hin) as [q ->]. cbn. by eexists.
    + set (xd := dim_at _ _). assert (Hxd : ∃ x, xd = Z.of_nat x ∧ x < dim).
      { unfold xd, dim_at, ta. repeat case_decide; cbn; eauto. }
      destruct Hxd as (x & -> & Hx). cbn [XT_slice st]. unfold dS_XT_slice. fold T. cbv zeta. split; intros Hin.
      * destruct (decide (length o = 2)) as [H2|H2].
        -- rewrite decide_True; [done|]. destruct o as [|t0 [|x0 [|? ?]]]; try done. unfold inside_horizon in Hin. cbn [tail] in Hin. rewrite sqsum_cons, sqsum_nil in Hin.
           unfold cget. cbn [nth]. destruct (Rle_lt_dec 1 (Rabs (x0 / alpha))) as [|Hlt]; [done|]. exfalso. apply Hin.
           apply Rabs_def2 in Hlt as [H3 H4]. apply (Rmult_lt_compat_r alpha) in H3, H4; [|done|done]. unfold Rdiv in *. rewrite Rmult_assoc, Rinv_l, Rmult_1_r in H3, H4 by lra. nra.
        -- destruct T as [|t T']; [done|]. cbn [XT_loop].
           assert (Hy : ∃ y, y ∈ seq 1 (length o - 1) ∧ y ≠ x). { destruct (decide (x = 1)); [exists 2|exists 1]; rewrite elem_of_seq; lia. }
           assert (E : ∀ ys acc, (∃ y, y ∈ ys ∧ y ≠ x) → slice_columns (XY_slice junk st t o) (Z.of_nat x) ys acc = Ok None).
           { induction ys as [|y ys IH]; intros acc (y' & Hy' & Hne); [set_solver|]. cbn [slice_columns]. case_decide as Hd.
             - apply IH. exists y'. apply elem_of_cons in Hy' as [->|?]; [lia|done].
             - cbn [XY_slice st]. by rewrite dS_XY_slice_outside. }
           rewrite E by done. done.
      * assert (HL : ∀ f : R → res (option (R * R)), (∀ t, t ∈ T → ∃ q, f t = Ok (Some q)) → ∃ rows, res_map (λ o0 : option outline, (λ XY, (opacity past opac o ts, DPatch (if decide (ta = 0)%Z then swap_columns XY else XY))) <$> o0)
            (res_map (λ o0 : option (list point), (λ l : list point, Some <$> l) <$> o0) (XT_loop f T 0 (replicate (2 * length T - 1) (0, 0)%R))) = Ok (Some (opacity past opac o ts, DPatch rows))).
        { intros f Hf. destruct (XT_loop_some f T Hf 0 (replicate (2 * length T - 1) (0, 0)%R)) as [l ->]. cbn. by eexists. }
        destruct (decide (length o = 2)) as [H2|H2].
        -- rewrite decide_False.
           ++ apply HL. intros t _. destruct (XT_slice2 _ _ _ _). by eexists.
           ++ destruct o as [|t0 [|x0 [|? ?]]]; try done. unfold inside_horizon in Hin. cbn [tail] in Hin. rewrite sqsum_cons, sqsum_nil in Hin. unfold cget. cbn [nth].
              intros H1. unfold Rdiv in H1. rewrite Rabs_mult, (Rabs_right (/ alpha)) in H1 by (left; by apply Rinv_0_lt_compat).
              apply (Rmult_le_compat_r alpha) in H1; [|lra]. rewrite Rmult_assoc, Rinv_l, Rmult_1_r, Rmult_1_l in H1 by lra.
              assert (Rabs x0 * Rabs x0 = x0 * x0)%R by (rewrite <- Rabs_mult; apply Rabs_right; nra). nra.
        -- apply HL. intros t _. destruct (slice_columns_some (XY_slice junk st t o) (Z.of_nat x) (seq 1 (length o - 1))) with (acc := @nil R) as [l ->]; [|by eexists].
           intros y Hy. apply elem_of_seq in Hy. cbn [XY_slice st]. apply (dS_XY_slice_inside junk dim); try done. lia.
  - apply NoDup_cons in Hnd as [Hn1 Hnd]. apply NoDup_cons in Hnd as [Hn2 _]. rewrite !elem_of_cons, elem_of_nil in Hn1. rewrite elem_of_list_singleton in Hn2.
    assert (Hi : i < dim) by (apply Hm; set_solver). assert (Hj : j < dim) by (apply Hm; set_solver). assert (Hk : k < dim) by (apply Hm; set_solver).
    unfold is3d. rewrite bool_decide_true by done. rewrite time_axis_three by tauto. rewrite (decide_False (P := length [i; j; k] = 2)) by done.
    set (ta := if decide (i = 0) then 0%Z else _). cbv zeta. split.
    + intros _ H0. rewrite decide_True; [done|]. unfold ta. rewrite !decide_False; [done|..]; intros ->; apply H0; set_solver.
    + intros [?|H0]; [done|]. rewrite decide_False.
      2:{ unfold ta. repeat case_decide; try lia. exfalso. apply elem_of_cons in H0 as [?|H0]; [done|]. apply elem_of_cons in H0 as [?|H0]; [done|]. by apply elem_of_list_singleton in H0. }
      set (xd := dim_at _ (Z.to_nat ((ta + 1) mod _))). set (yd := dim_at _ (Z.to_nat ((ta + 2) mod _))).
      assert (Hxd : ∃ x y, xd = Z.of_nat x ∧ yd = Z.of_nat y ∧ x < dim ∧ y < dim).
      { unfold xd, yd, dim_at, ta. repeat case_decide; cbn; eauto 8. }
      destruct Hxd as (x & y & -> & -> & Hx & Hy). cbn [XY_slice st]. split; intros Hin.
      * destruct T as [|t T']; [done|]. cbn [slice_rows]. by rewrite dS_XY_slice_outside.
      * destruct (slice_rows_some (λ t, dS_XY_slice junk alpha t o (Z.of_nat x, Z.of_nat y)) T) as [F ->]; [|cbn; by eexists].
        intros t _. by apply (dS_XY_slice_inside junk dim).
Qed.
Print Assumptions C79_deSitter.

(** Base spacetimes and anti-de Sitter spacetimes have no cones: a cone that would have to be
    drawn raises, except that in a two-dimensional time-space plot of a two-dimensional
    anti-de Sitter spacetime origins beyond the boundary are skipped. *)
Theorem C79_unsupported (junk : nat → point) st past opac (n : Z) (dims : list nat) :
  st = Generic ∨ (∃ dim alpha, st = AntiDeSitter dim alpha ∧ constructed st) →
  length dims = 2 ∨ length dims = 3 → NoDup dims → (∀ m, m ∈ dims → m < Dim st) →
  ∃ h, ConePlotter junk st (Z.of_nat <$> dims) (sign past) opac n = Ok h ∧
  ∀ o ts, length o = Dim st →
    (not_drawn past opac o ts → h o ts = Ok None) ∧
    (¬ not_drawn past opac o ts →
       h o ts = match st with
                | AntiDeSitter 2 alpha => if decide (alpha <= Rabs (cget o 1))%R then Ok None else Err NotImplementedError
                | _ => Err NotImplementedError
                end).
Proof.
  intros Hst Hl Hnd Hm. assert (EP : ConePlotter junk st (Z.of_nat <$> dims) (sign past) opac n = Ok (base_cone junk st (Z.of_nat <$> dims) (sign past) opac n)) by (by destruct Hst as [->|(? & ? & -> & _)]).
  rewrite EP. eexists. split; [reflexivity|]. intros o ts Ho. clear EP.
  destruct (cone_start_spec past opac o ts) as [Hs1 Hs2]. unfold base_cone. split; [intros Hn; by rewrite Hs1|]. intros Hn. destruct (Hs2 Hn) as [Es _]. rewrite Es. clear Hs1 Hs2 Es.
  assert (HT : T_slice_sampling ts o (Z.of_nat (sampling n)) ≠ []).
  { unfold T_slice_sampling. rewrite decide_True by lia. apply linspace_nil_not. rewrite Nat2Z.id, edge_count_sampling. apply edge_count_pos. }
  set (T := T_slice_sampling ts o (Z.of_nat (sampling n))) in *.
  assert (HX : ∀ t ij, XY_slice junk st t o ij = Err NotImplementedError) by (by intros; destruct Hst as [->|(? & ? & -> & _)]).
  destruct Hst as [->|(dim & alpha & -> & Hc)].
  - cbv zeta. destruct (is3d _); destruct (decide (time_axis _ < 0)%Z); [done| |done|done].
    destruct T as [|t T']; [done|]. done.
  - cbn [Dim] in *. assert (Hc' : 2 ≤ dim ∧ (0 < alpha)%R).
    { clear -Hc. destruct Hc as [?|[(d & p & H)|[(d & a & H)|[(d & a & H)|(? & ? & ? & H)]]]]; try done.
      - unfold FlatSpacetime in H. case_decide as Hd; [done|]. destruct p as [p|ps|]; try done; repeat (case_decide; try done).
      - unfold deSitterSpacetime in H. repeat (case_decide; try done).
      - unfold AntideSitterSpacetime in H. repeat (case_decide; try done). injection H as <- <-. split; [lia|done].
      - unfold BlackHoleSpacetime in H. repeat (case_decide; try done). }
    destruct Hc' as [Hd2 Ha]. cbv zeta.
    destruct dims as [|i [|j [|k [|? ?]]]]; try (exfalso; cbn in Hl; lia); cbn [fmap list_fmap].
    + assert (Hij : i ≠ j) by (apply NoDup_cons in Hnd as [Hn' _]; intros ->; apply Hn'; set_solver).
      assert (Hi : i < dim) by (apply Hm; set_solver). assert (Hj : j < dim) by (apply Hm; set_solver).
      unfold is3d. rewrite bool_decide_false by done. rewrite time_axis_two by done.
      set (ta := if decide (i = 0) then 0%Z else _). destruct (decide (ta < 0)%Z) as [Hta|Hta].
      * rewrite HX. cbn [res_map]. destruct dim as [|[|[|d]]]; try lia; try done. exfalso. unfold ta in Hta. repeat case_decide; lia.
      * set (xd := dim_at _ _). assert (Hxd : ∃ x, xd = Z.of_nat x ∧ x < dim).
        { unfold xd, dim_at, ta. repeat case_decide; cbn; eauto. }
        destruct Hxd as (x & -> & Hx). cbn [XT_slice]. unfold dS_XT_slice. fold T. cbv zeta. rewrite Ho.
        assert (HA : (1 <= Rabs (cget o 1 / alpha))%R ↔ (alpha <= Rabs (cget o 1))%R).
        { unfold Rdiv. rewrite Rabs_mult, (Rabs_right (/ alpha)) by (left; by apply Rinv_0_lt_compat). split; intros H.
          - apply (Rmult_le_compat_r alpha) in H; [|lra]. rewrite Rmult_assoc, Rinv_l, Rmult_1_r, Rmult_1_l in H by lra. done.
          - apply (Rmult_le_reg_r alpha); [done|]. rewrite Rmult_assoc, Rinv_l, Rmult_1_r, Rmult_1_l by lra. done. }
        destruct dim as [|[|[|d]]]; try lia.
        -- rewrite (decide_True (P := 2 = 2)) by done. rewrite (decide_ext _ _ (Ok None) _ HA). destruct (decide (alpha <= _)%R); [done|].
           destruct T as [|t T']; done.
        -- rewrite decide_False by lia. destruct T as [|t T']; [done|]. cbn [XT_loop].
           assert (Hy : ∃ y, y ∈ seq 1 (S (S (S d)) - 1) ∧ y ≠ x). { destruct (decide (x = 1)); [exists 2|exists 1]; rewrite elem_of_seq; lia. }
           assert (E : ∀ ys acc, (∃ y, y ∈ ys ∧ y ≠ x) → slice_columns (XY_slice junk (AntiDeSitter (S (S (S d))) alpha) t o) (Z.of_nat x) ys acc = Err NotImplementedError).
           { induction ys as [|y ys IH]; intros acc (y' & Hy' & Hne); [set_solver|]. cbn [slice_columns]. case_decide as Hd.
             - apply IH. exists y'. apply elem_of_cons in Hy' as [->|?]; [lia|done].
             - done. }
           rewrite E by done. done.
    + assert (3 ≤ dim).
      { apply NoDup_cons in Hnd as [Hn1 Hnd]. apply NoDup_cons in Hnd as [Hn2 _]. rewrite !elem_of_cons, elem_of_nil in Hn1. rewrite elem_of_list_singleton in Hn2.
        assert (Hi : i < dim) by (apply Hm; set_solver). assert (Hj : j < dim) by (apply Hm; set_solver). assert (Hk : k < dim) by (apply Hm; set_solver). lia. }
      unfold is3d. rewrite bool_decide_true by done. destruct dim as [|[|[|d]]]; try lia.
      destruct (decide (time_axis _ < 0)%Z); [done|]. destruct T as [|t T']; done.
Qed.
Print Assumptions C79_unsupported.

Example C79_curved_cases :
  constructed (DeSitter 4 2) ∧ inside_horizon 2 [0; 1; 0; 0]%R ∧ ¬ inside_horizon 2 [0; 2; 0; 0]%R ∧
  constructed (AntiDeSitter 2 1) ∧ ¬ not_drawn true None [0; 0; 0; 0]%R (-1).
Proof.
  split; [apply DeSitter_is_constructed; [lia|lra]|]. unfold inside_horizon. cbn [tail]. rewrite !sqsum_cons, !sqsum_nil.
  split; [lra|]. split; [lra|]. split.
  - right; right; right; left. exists 2%Z, 1%R. unfold AntideSitterSpacetime. rewrite decide_False by lia. rewrite decide_True by lra. done.
  - intros [H|(f & H & _)]; [|done]. cbn [sign] in H. unfold cget in H. cbn [nth] in H. lra.
Qed.
