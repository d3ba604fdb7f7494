(** Theorems about /repo/causetplotting.py: C57, C58, C61, C69, C70. *)
From Verif Require Import Base Spec EventModel EventFacts EventProps History HistoryFacts CausetModel ColorModel Prop_Color.
From Coq Require Import Reals Qreals Lra Sorting.Sorted.
From Verif Require Import SpacetimeModel ShapeModel EmbedModel SprinkledModel SpecShape Prop_Shape PlotModel SpecPlot PlotFacts Prop_Event Prop_EventMore Prop_Causet.
#[local] Open Scope nat_scope.
#[local] Open Scope string_scope.

(** ** C57: static plots *)
(** [pts] are the points of the line drawn for the link of [a] and [b]: the two events, and the
    other plotted events that are (nearly) on the segment between them, from one end to the
    other.  [ts] are the positions along the segment, if they are exactly on it. *)
Definition seg (p q : list R) (t : R) : list R := zip_with (λ x y, (1 - t) * x + t * y)%R p q.
Definition link_line_points (pt : nat → list R) (events : list nat) (a b : nat) (pts : list (list R)) : Prop :=
  ∃ gs, gs `sublist_of` events ∧
    (∀ e, e ∈ gs ↔ e ∈ events ∧ e ≠ a ∧ e ≠ b ∧ near_segment (pt a) (pt e) (pt b)) ∧
    pts ≡ₚ pt a :: ((pt <$> gs) ++ [pt b])%list ∧
    (length gs ≤ 1 → pts = pt a :: ((pt <$> gs) ++ [pt b])%list) ∧
    ((∀ e, e ∈ gs → on_segment (pt a) (pt e) (pt b)) → pt a ≠ pt b →
       ∃ ts, Sorted Rle ts ∧ 0%R ∈ ts ∧ 1%R ∈ ts ∧ (∀ t, t ∈ ts → (0 <= t <= 1)%R) ∧
         (pts = seg (pt a) (pt b) <$> ts ∨ pts = seg (pt b) (pt a) <$> ts)).

Lemma zip_with_snoc {A B C} (f : A → B → C) l k x y : length l = length k →
  zip_with f (l ++ [x])%list (k ++ [y])%list = (zip_with f l k ++ [f x y])%list.
Proof. revert k. induction l as [|u l IH]; intros [|v k] H; try discriminate; cbn; [done|]. f_equal. apply IH. cbn in H. lia. Qed.
Lemma reverse_zip_with {A B C} (f : A → B → C) l k : length l = length k →
  reverse (zip_with f l k) = zip_with f (reverse l) (reverse k).
Proof.
  revert k. induction l as [|x l IH]; intros [|y k] H; try discriminate; cbn [zip_with]; [done|].
  rewrite !reverse_cons, IH by (cbn in H; lia). rewrite zip_with_snoc; [done|].
  rewrite !reverse_length. cbn in H. lia.
Qed.
Lemma seg_0 p q : length p = length q → seg p q 0 = p.
Proof. unfold seg. revert q. induction p as [|x p IH]; intros [|y q] H; try discriminate; cbn; [done|]. f_equal; [lra|]. apply IH. cbn in H. lia. Qed.
Lemma seg_1 p q : length p = length q → seg p q 1 = q.
Proof. unfold seg. revert q. induction p as [|x p IH]; intros [|y q] H; try discriminate; cbn; [done|]. f_equal; [lra|]. apply IH. cbn in H. lia. Qed.
Lemma seg_swap p q t : length p = length q → seg p q t = seg q p (1 - t).
Proof. unfold seg. revert q. induction p as [|x p IH]; intros [|y q] H; try discriminate; cbn; [done|]. f_equal; [lra|]. apply IH. cbn in H. lia. Qed.
Lemma seg_lex p q t s : length p = length q → lex_le p q → p ≠ q → lex_le (seg p q t) (seg p q s) → (t <= s)%R.
Proof.
  unfold seg. revert q. induction p as [|x p IH]; intros [|y q] H; try discriminate; cbn; [done|].
  intros [Hxy|[-> Hle]] Hn Hts.
  - destruct (Rle_lt_dec t s) as [|Hc]; [done|]. exfalso.
    destruct Hts as [Hts|[Hts _]]; nra.
  - apply (IH q).
    + cbn in H. lia.
    + done.
    + congruence.
    + destruct Hts as [Hts|[_ Hts]]; [|done]. exfalso. nra.
Qed.
Lemma seg_sorted p q ts : length p = length q → point_le p q → p ≠ q →
  Sorted point_le (seg p q <$> ts) → Sorted Rle ts.
Proof.
  intros Hl Hle Hn. unfold point_le in *.
  assert (Hn' : reverse p ≠ reverse q) by (intros H; by apply (inj reverse) in H).
  induction ts as [|t ts IH]; cbn; intros Hs; [constructor|]. inversion Hs as [|? ? Hs' Hd]; subst.
  constructor; [by apply IH|]. destruct ts as [|s ts]; constructor. inversion Hd as [|? ? H]; subst.
  unfold seg in H. rewrite !reverse_zip_with in H by done.
  by apply (seg_lex (reverse p) (reverse q)); [rewrite !reverse_length| | |].
Qed.
Lemma seg_list p q (pts : list (list R)) : (∀ e, e ∈ pts → on_segment p e q) →
  ∃ ts : list R, pts = seg p q <$> ts ∧ ∀ t, t ∈ ts → (0 <= t <= 1)%R.
Proof.
  induction pts as [|e pts IH]; intros H; [by exists []; split; [|intros t Ht; by apply elem_of_nil in Ht]|].
  destruct IH as (ts & -> & Hts); [intros; apply H; by right|]. destruct (H e) as (t & Ht & ->); [by left|].
  exists (t :: ts). split; [done|]. intros s [->|Hs]%elem_of_cons; auto.
Qed.
Lemma on_segment_swap p e q : length p = length q → on_segment p e q → on_segment q e p.
Proof. intros Hl (t & Ht & ->). exists (1 - t)%R. split; [lra|]. by apply seg_swap. Qed.
Lemma seg_inj p q t s : length p = length q → p ≠ q → seg p q t = seg p q s → t = s.
Proof.
  unfold seg. revert q. induction p as [|x p IH]; intros [|y q] H; try discriminate; cbn; [done|].
  intros Hn [= H1 H2]. destruct (Req_dec x y) as [->|Hxy].
  - apply (IH q); [cbn in H; lia|congruence|done].
  - assert ((t - s) * (y - x) = 0)%R by lra. apply Rmult_integral in H0 as [?|?]; lra.
Qed.
Lemma straight (p q : list R) (gs : list (list R)) (pts : list (list R)) :
  length p = length q → p ≠ q → (∀ e, e ∈ gs → on_segment p e q) → pts ≡ₚ p :: (gs ++ [q])%list →
  (length gs ≤ 1 → pts = p :: (gs ++ [q])%list) → (2 ≤ length gs → Sorted point_le pts) →
  ∃ ts, Sorted Rle ts ∧ 0%R ∈ ts ∧ 1%R ∈ ts ∧ (∀ t, t ∈ ts → (0 <= t <= 1)%R) ∧
         (pts = seg p q <$> ts ∨ pts = seg q p <$> ts).
Proof.
  intros Hl Hn Hgs Hp Hshort Hlong.
  assert (Hp0 : on_segment p p q) by (exists 0%R; split; [lra|]; symmetry; by apply (seg_0 p q)).
  assert (Hq1 : on_segment p q q) by (exists 1%R; split; [lra|]; symmetry; by apply (seg_1 p q)).
  assert (Hall : ∀ e, e ∈ pts → on_segment p e q).
  { intros e He. rewrite Hp in He. rewrite elem_of_cons, elem_of_app, elem_of_list_singleton in He.
    destruct He as [->|[He| ->]]; auto. }
  assert (Hin : ∀ u v (ts : list R) t, length u = length v → u ≠ v → pts = seg u v <$> ts → seg u v t ∈ pts → t ∈ ts).
  { intros u v ts t Hl' Hn' -> H. apply elem_of_list_fmap in H as (s & Hs & Hi). apply seg_inj in Hs; [by subst|done|done]. }
  assert (Hends : p ∈ pts ∧ q ∈ pts) by (rewrite Hp; set_solver). destruct Hends as [Hpi Hqi].
  destruct (decide (length gs ≤ 1)) as [Hg|Hg].
  - specialize (Hshort Hg). destruct (seg_list p q pts Hall) as (ts & Hts & Hb).
    exists ts.
    assert (H0 : 0%R ∈ ts) by (apply (Hin p q); [done..|by rewrite seg_0]).
    assert (H1 : 1%R ∈ ts) by (apply (Hin p q); [done..|by rewrite seg_1]).
    split_and!; [|done|done|done|by left]. rewrite Hshort in Hts.
    destruct ts as [|t0 ts]; [done|]. injection Hts as E0 Hts.
    assert (t0 = 0%R) as -> by (apply (seg_inj p q); [done|done|by rewrite seg_0]).
    destruct gs as [|e [|]]; cbn in Hg; [| |lia]; cbn in Hts.
    + destruct ts as [|t1 [|]]; try discriminate. injection Hts as E1.
      assert (t1 = 1%R) as -> by (apply (seg_inj p q); [done|done|by rewrite seg_1]).
      constructor; [constructor; [constructor|constructor]|constructor; lra].
    + destruct ts as [|t [|t1 [|]]]; try discriminate. injection Hts as E1 E2.
      assert (t1 = 1%R) as -> by (apply (seg_inj p q); [done|done|by rewrite seg_1]).
      assert (0 <= t <= 1)%R by (apply Hb; rewrite !elem_of_cons; auto).
      constructor; [constructor; [constructor; [constructor|constructor]|constructor; lra]|constructor; lra].
  - specialize (Hlong ltac:(lia)).
    destruct (lex_le_total (reverse p) (reverse q)) as [Hle|Hle].
    + destruct (seg_list p q pts Hall) as (ts & Hts & Hb). exists ts.
      split_and!; [| | |done|by left].
      * rewrite Hts in Hlong. by eapply seg_sorted.
      * apply (Hin p q); [done..|by rewrite seg_0].
      * apply (Hin p q); [done..|by rewrite seg_1].
    + destruct (seg_list q p pts) as (ts & Hts & Hb); [intros; apply on_segment_swap; auto|]. exists ts.
      split_and!; [| | |done|by right].
      * rewrite Hts in Hlong. by apply (seg_sorted q p).
      * apply (Hin q p); [done..|by rewrite seg_0].
      * apply (Hin q p); [done..|by rewrite seg_1].
Qed.

(** ** plot_parameters *)
Lemma dget_dset {V} (d : dict V) k v k' : dget (dset d k v) k' = if decide (k = k') then Some v else dget d k'.
Proof.
  induction d as [|[k0 w] d IH]; cbn; [done|]. destruct (decide (k0 = k)) as [->|H]; cbn.
  - by destruct (decide (k = k')).
  - destruct (decide (k0 = k')) as [->|H']; [|done]. by destruct (decide (k = k')) as [->|].
Qed.
Lemma dset_keys {V} (d : dict V) k v k' : k' ∈ (dset d k v).*1 ↔ k' = k ∨ k' ∈ d.*1.
Proof.
  induction d as [|[k0 w] d IH]; cbn.
  - rewrite elem_of_list_singleton, elem_of_nil. tauto.
  - destruct (decide (k0 = k)) as [->|H]; cbn; rewrite !elem_of_cons; [tauto|]. rewrite IH. tauto.
Qed.
Lemma dset_nodup {V} (d : dict V) k v : NoDup d.*1 → NoDup (dset d k v).*1.
Proof.
  induction d as [|[k0 w] d IH]; cbn; intros Hn.
  - apply NoDup_singleton.
  - apply NoDup_cons in Hn as [H1 H2]. destruct (decide (k0 = k)) as [->|H]; cbn; [by apply NoDup_cons|].
    apply NoDup_cons. split; [|by apply IH]. rewrite dset_keys. intros [->|Hc]; done.
Qed.
Lemma dupdate_nodup {V} (d e : dict V) : NoDup d.*1 → NoDup (dupdate d e).*1.
Proof.
  unfold dupdate. revert d. induction e as [|[k v] e IH]; intros d Hd; [done|]. cbn. apply IH. by apply dset_nodup.
Qed.
Lemma dget_dupdate {V} (d e : dict V) k : NoDup e.*1 →
  dget (dupdate d e) k = match dget e k with Some v => Some v | None => dget d k end.
Proof.
  unfold dupdate. revert d. induction e as [|[k0 v] e IH]; intros d Hn; [done|]. cbn [foldl].
  cbn in Hn. apply NoDup_cons in Hn as [H1 H2]. rewrite IH by done. rewrite dget_dset. cbn [dget].
  destruct (decide (k0 = k)) as [->|H]; [|done]. destruct (dget e k) as [w|] eqn:E; [|done].
  exfalso. apply H1. apply elem_of_list_fmap. exists (k, w). split; [done|]. by apply dget_Some.
Qed.

(** *** C69: specification *)
(** The documented defaults; [col] are the default colours. *)
Definition documented_cones2 (col : string → pyval) : dict pyval :=
  [("edgecolor", col "conesedge"); ("facecolor", VStr "none"); ("alpha", VNum (1 # 10))].
Definition documented_cones3 (col : string → pyval) : dict pyval :=
  [("edgecolor", VStr "none"); ("color", col "conesface"); ("alpha", VNum (1 # 10))].
Definition documented_links (col : string → pyval) : dict pyval :=
  [("linewidth", VNum 2); ("linestyle", VStr "-"); ("markevery", VNums []); ("color", col "links");
   ("marker", VStr "o"); ("markersize", VNum 5); ("markeredgecolor", col "linksedge");
   ("markerfacecolor", col "linksface")].
Definition documented_events (col : string → pyval) : dict pyval :=
  [("linewidth", VNum 2); ("linestyle", VStr ""); ("marker", VStr "o"); ("markersize", VNum 7);
   ("markeredgecolor", col "eventsedge"); ("markerfacecolor", col "eventsface")].
Definition documented_labels : dict pyval :=
  [("verticalalignment", VStr "top"); ("horizontalalignment", VStr "right")].
(** The value of a key: the forced one, or the user's, or the default. *)
Definition chosen (defaults : dict pyval) (user : option (dict pyval)) (forced : dict pyval) (k : string) (v : pyval) : Prop :=
  match user with
  | None => (k, v) ∈ defaults
  | Some d => (k, v) ∈ forced ∨ (k ∉ forced.*1 ∧ (k, v) ∈ d) ∨ (k ∉ forced.*1 ∧ k ∉ d.*1 ∧ (k, v) ∈ defaults)
  end.
(** Whether something is drawn, and with which user parameters. *)
Definition shown (on : bool) (arg : option switch) : option (option (dict pyval)) :=
  match arg with
  | None => if on then Some None else None
  | Some (Switch b) => if b then Some None else None
  | Some (Params d) => Some (Some d)
  end.
Definition block_spec (g : scheme) (defaults : dict pyval) (on : bool) (arg : option switch) (forced : dict pyval)
    (result : option (dict pyval)) : Prop :=
  match shown on arg with
  | None => result = None
  | Some user => ∃ e, result = Some e ∧ NoDup e.*1 ∧
      ∀ k w, (k, w) ∈ e ↔ ∃ v, chosen defaults user forced k v ∧ val_stands_for g v w
  end.
Definition block_undefined (g : scheme) (defaults : dict pyval) (on : bool) (arg : option switch) (forced : dict pyval) : Prop :=
  ∃ user k v, shown on arg = Some user ∧ chosen defaults user forced k v ∧ val_undefined g v.
Definition arg_wf (arg : option switch) : Prop := match arg with Some (Params d) => NoDup d.*1 | _ => True end.

Lemma chosen_dget defaults d forced k v : NoDup defaults.*1 → NoDup d.*1 → NoDup forced.*1 →
  dget (dupdate (dupdate defaults d) forced) k = Some v ↔ chosen defaults (Some d) forced k v.
Proof.
  intros H1 H2 H3. rewrite !dget_dupdate by done. unfold chosen. rewrite <- !dget_Some by done.
  assert (K : ∀ (d : dict pyval), NoDup d.*1 → k ∉ d.*1 ↔ dget d k = None).
  { clear. intros d _. rewrite dget_None. split.
    - intros H v Hv. apply H. apply elem_of_list_fmap. by exists (k, v).
    - intros H ([k' w] & -> & Hw)%elem_of_list_fmap. by apply (H w). }
  rewrite (K forced H3), (K d H2).
  destruct (dget forced k) as [w|], (dget d k) as [w'|]; split; try tauto; intros H;
    repeat match goal with H : _ ∨ _ |- _ => destruct H | H : _ ∧ _ |- _ => destruct H end; try discriminate; auto.
Qed.
Lemma convert_block g (d : dict pyval) : NoDup g.*1 → NoDup d.*1 →
  (∃ e, snd (convertColorsInDict g d None) = Ok e ∧ NoDup e.*1 ∧ length e = length d ∧
     (∀ k w, (k, w) ∈ e ↔ ∃ v, (k, v) ∈ d ∧ val_stands_for g v w) ∧ ∀ k v, (k, v) ∈ d → ¬ val_undefined g v) ∨
  (snd (convertColorsInDict g d None) = Err KeyError ∧ ∃ k v, (k, v) ∈ d ∧ val_undefined g v).
Proof.
  intros Hg Hd. destruct (convertColorsInDict g d None) as [d' r] eqn:E.
  destruct (C59_convertColorsInDict g d d' None r Hg E) as [H _]. destruct (H g eq_refl) as [(-> & HF & Hu)|(-> & Hx)].
  - left. exists d'. cbn. split; [done|].
    assert (Hk : d'.*1 = d.*1).
    { clear -HF. induction HF as [|[k v] [k' w] d d' [-> _] _ IH]; [done|]. cbn. by f_equal. }
    split; [by rewrite Hk|]. split; [by rewrite <- (fmap_length fst), Hk, fmap_length|]. split; [|done].
    intros k w. clear -HF Hg. induction HF as [|[k0 v0] [k1 w1] d d' [-> Hs] _ IH].
    + split; [intros H; by apply elem_of_nil in H|]. intros (v & H & _). by apply elem_of_nil in H.
    + rewrite elem_of_cons, IH. split.
      * intros [[= -> ->]|(v & Hv & Hw)]; [exists v0; split; [by left|done]|exists v; split; [by right|done]].
      * intros (v & [[= -> ->]|Hv]%elem_of_cons & Hw); [|right; by exists v]. left. f_equal.
        clear -Hs Hw Hg. destruct v0 as [s|?|?|?], w1, w; cbn in *; try congruence; try done.
        destruct Hs as [(n & -> & Hs)|[Hs ->]], Hw as [(n' & E & Hw)|[Hw ->]]; [|exfalso; apply Hw; eauto|exfalso; apply Hs; eauto|done].
        assert (n' = n) as -> by (apply (f_equal cs_rest) in E; rewrite !(proj2 (cs_rest_Some _ _) eq_refl) in E; congruence).
        apply dget_Some in Hs, Hw; [|done..]. congruence.
  - right. cbn. split; [done|]. destruct Hx as (d1 & k & v & d2 & d1' & -> & _ & Hu & _). exists k, v. split; [set_solver|done].
Qed.

Lemma param_block_spec g defaults arg on forced : NoDup g.*1 → NoDup defaults.*1 → NoDup forced.*1 → arg_wf arg →
  (∃ result, param_block g defaults arg on forced = Ok result ∧ block_spec g defaults on arg forced result ∧
     (∀ e, result = Some e → length defaults ≤ length e) ∧ ¬ block_undefined g defaults on arg forced) ∨
  (param_block g defaults arg on forced = Err KeyError ∧ block_undefined g defaults on arg forced).
Proof.
  intros Hg Hd Hf Hw.
  assert (Hplain : shown on arg = Some None → param_block g defaults arg on forced = res_map Some (snd (convertColorsInDict g defaults None)) →
    (∃ result, param_block g defaults arg on forced = Ok result ∧ block_spec g defaults on arg forced result ∧
     (∀ e, result = Some e → length defaults ≤ length e) ∧ ¬ block_undefined g defaults on arg forced) ∨
    (param_block g defaults arg on forced = Err KeyError ∧ block_undefined g defaults on arg forced)).
  { intros Hs ->. destruct (convert_block g defaults Hg Hd) as [(e & -> & H1 & H2 & H3 & H4)|(-> & k & v & H1 & H2)].
    - left. exists (Some e). split; [done|]. split; [unfold block_spec; rewrite Hs; by exists e|].
      split; [intros e' [= <-]; lia|]. intros (user & k & v & E & Hc & Hu). rewrite Hs in E. injection E as <-. by apply (H4 k v).
    - right. split; [done|]. by exists None, k, v. }
  assert (Hoff : shown on arg = None → param_block g defaults arg on forced = Ok None →
    (∃ result, param_block g defaults arg on forced = Ok result ∧ block_spec g defaults on arg forced result ∧
     (∀ e, result = Some e → length defaults ≤ length e) ∧ ¬ block_undefined g defaults on arg forced) ∨
    (param_block g defaults arg on forced = Err KeyError ∧ block_undefined g defaults on arg forced)).
  { intros Hs ->. left. exists None. split; [done|]. split; [unfold block_spec; by rewrite Hs|]. split; [done|].
    intros (user & k & v & E & _). congruence. }
  destruct arg as [[b|d]|]; [|clear Hplain Hoff|].
  - destruct b; [by apply Hplain|by apply Hoff].
  - cbn in Hw. unfold param_block. cbn [default Datatypes.id].
    set (dd := dupdate (dupdate defaults d) forced). assert (Hdd : NoDup dd.*1) by (by apply dupdate_nodup, dupdate_nodup).
    assert (Hc : ∀ k v, (k, v) ∈ dd ↔ chosen defaults (Some d) forced k v).
    { intros k v. rewrite <- (dget_Some dd) by done. by apply chosen_dget. }
    assert (Hlen : ∀ (d e : dict pyval), length d ≤ length (dupdate d e)).
    { clear. intros d e. unfold dupdate. revert d. induction e as [|[k v] e IH]; intros d; [done|]. cbn [foldl].
      etrans; [|apply IH]. clear. induction d as [|[k0 w] d IH]; cbn; [lia|]. destruct (decide (k0 = k)); cbn; lia. }
    destruct (convert_block g dd Hg Hdd) as [(e & -> & H1 & H2 & H3 & H4)|(-> & k & v & H1 & H2)].
    + left. exists (Some e). split; [done|]. split.
      { cbn. exists e. split; [done|]. split; [done|]. intros k w. rewrite H3. by setoid_rewrite Hc. }
      split. { intros e' [= <-]. rewrite H2. unfold dd. etrans; [apply Hlen|apply Hlen]. }
      intros (user & k & v & E & Hch & Hu). injection E as <-. apply (H4 k v); [by apply Hc|done].
    + right. split; [done|]. exists (Some d), k, v. split; [done|]. split; [by apply Hc|done].
  - destruct on; [by apply Hplain|by apply Hoff].
Qed.
Lemma plot_parameters_inv g dc kw pl : plot_parameters g dc kw = Ok pl →
  let dims := default [1; 0] (kw_dims kw) in
  let is3d := bool_decide (2 < length dims) in
  let gap := default 0%Q (kw_linkgapsize kw) in
  let gaps := negb (Qle_bool gap 0) in
  let links0 := if gaps then dupdate (default_links dc) [("markeredgecolor", VNums [0; 0; 0; 0]%Q); ("markerfacecolor", VNums [0; 0; 0; 0]%Q)]
                  else default_links dc in
  (length dims = 2 ∨ length dims = 3) ∧ pl_dims pl = dims ∧ pl_timeaxis pl = index_of 0 dims ∧
  axis_limits dims (kw_axislim kw) (kw_shape kw) = Ok (pl_axislim pl) ∧
  param_block g (default_cones dc is3d) (kw_pastcones kw) false [] = Ok (pl_pastcones pl) ∧
  param_block g (default_cones dc is3d) (kw_futurecones kw) false [] = Ok (pl_futurecones pl) ∧
  param_block g links0 (kw_links kw) true (if gaps then [("markersize", VNum gap)] else []) = Ok (pl_links pl) ∧
  param_block g (default_events dc) (kw_events kw) true [] = Ok (pl_events pl) ∧
  param_block g default_labels (kw_labels kw) true [] = Ok (pl_labels pl) ∧
  pl_linkgaps pl = gaps ∧
  pl_dynamic pl = (λ d, (d, default "linear" (kw_timefade kw))) <$> kw_timedepth kw ∧
  pl_conetimefade pl = default "intensity" (kw_conetimefade kw) ∧
  pl_conetimedepth pl = default 0%R (kw_conetimedepth kw).
Proof.
  unfold plot_parameters. destruct (decide _) as [|Hd]; [done|]. cbn zeta.
  repeat match goal with |- context [res_bind ?r _] => destruct r eqn:?; cbn [res_bind]; [|done] end.
  intros [= <-]. cbn. split; [lia|]. split_and!; done.
Qed.

(** *** C69 *)
Definition documented_gap_links (col : string → pyval) : dict pyval :=
  [("linewidth", VNum 2); ("linestyle", VStr "-"); ("markevery", VNums []); ("color", col "links");
   ("marker", VStr "o"); ("markersize", VNum 5); ("markeredgecolor", VNums [0; 0; 0; 0]%Q);
   ("markerfacecolor", VNums [0; 0; 0; 0]%Q)].
Lemma Qle_bool_gap q : negb (Qle_bool q 0) = true ↔ (0 < q)%Q.
Proof.
  rewrite negb_true_iff. destruct (Qle_bool q 0) eqn:E.
  - apply Qle_bool_iff in E. split; [done|]. intros H. exfalso. by apply (Qlt_not_le _ _ H).
  - split; [|done]. intros _. apply Qnot_le_lt. intros H. apply Qle_bool_iff in H. congruence.
Qed.
Lemma index_of_some x l k : index_of x l = Some k ↔ l !! k = Some x ∧ ∀ i, i < k → l !! i ≠ Some x.
Proof.
  revert k. induction l as [|y l IH]; intros k; cbn; [split; [done|by intros [? _]]|].
  destruct (decide (y = x)) as [->|Hn].
  - split.
    + intros [= <-]. split; [done|]. lia.
    + intros [H1 H2]. destruct k; [done|]. exfalso. by apply (H2 0); [lia|].
  - rewrite fmap_Some. split.
    + intros (k' & Hk & ->). apply IH in Hk as [H1 H2]. split; [done|]. intros [|i] Hi; cbn; [congruence|]. apply H2. lia.
    + intros [H1 H2]. destruct k; cbn in H1; [congruence|]. exists k. split; [|done]. apply IH. split; [done|].
      intros i Hi. apply (H2 (S i)). lia.
Qed.
Lemma index_of_none x l : index_of x l = None ↔ x ∉ l.
Proof.
  induction l as [|y l IH]; cbn; [split; [intros _; apply not_elem_of_nil|done]|].
  rewrite not_elem_of_cons. destruct (decide (y = x)) as [->|Hn]; [split; [done|tauto]|].
  rewrite fmap_None, IH. split; [|tauto]. intros ?. split; [congruence|done].
Qed.
(** The parameters of every kind of plot object: absent if switched off, otherwise the
    documented defaults overridden by the user's values, with the 'cs:' colours replaced.  A
    positive linkgapsize makes the markers of links transparent; it becomes their size only
    if links is a dictionary. *)
Theorem C69_parameters (g : scheme) (dc : dict pyval) (kw : kwargs) :
  NoDup g.*1 →
  arg_wf (kw_pastcones kw) → arg_wf (kw_futurecones kw) → arg_wf (kw_links kw) → arg_wf (kw_events kw) → arg_wf (kw_labels kw) →
  let dims := default [1; 0] (kw_dims kw) in
  let col k := default (VStr "") (dget dc k) in
  let cones := if decide (length dims = 3) then documented_cones3 col else documented_cones2 col in
  let gap := default 0%Q (kw_linkgapsize kw) in
  let blocks : list (dict pyval * bool * option switch * dict pyval * (plotting → option (dict pyval))) :=
    [(cones, false, kw_pastcones kw, [], pl_pastcones); (cones, false, kw_futurecones kw, [], pl_futurecones);
     (if Qle_bool gap 0 then documented_links col else documented_gap_links col, true, kw_links kw,
      if Qle_bool gap 0 then [] else [("markersize", VNum gap)], pl_links);
     (documented_events col, true, kw_events kw, [], pl_events); (documented_labels, true, kw_labels kw, [], pl_labels)] in
  (¬ (length dims = 2 ∨ length dims = 3) → plot_parameters g dc kw = Err ValueError) ∧
  (∀ pl, plot_parameters g dc kw = Ok pl →
     pl_dims pl = dims ∧
     (∀ k, pl_timeaxis pl = Some k ↔ dims !! k = Some 0 ∧ ∀ i, i < k → dims !! i ≠ Some 0) ∧
     (pl_timeaxis pl = None ↔ 0 ∉ dims) ∧
     (pl_linkgaps pl = true ↔ (0 < gap)%Q) ∧
     (∀ defaults on arg forced field, (defaults, on, arg, forced, field) ∈ blocks →
        block_spec g defaults on arg forced (field pl) ∧ ¬ block_undefined g defaults on arg forced) ∧
     pl_dynamic pl = (λ d, (d, default "linear" (kw_timefade kw))) <$> kw_timedepth kw ∧
     pl_conetimefade pl = default "intensity" (kw_conetimefade kw) ∧
     pl_conetimedepth pl = default 0%R (kw_conetimedepth kw)) ∧
  ((length dims = 2 ∨ length dims = 3) → kw_axislim kw ≠ Some AxShape ∧ kw_shape kw = None →
     (∃ pl, plot_parameters g dc kw = Ok pl) ∨
     plot_parameters g dc kw = Err KeyError ∧
       ∃ defaults on arg forced field, (defaults, on, arg, forced, field) ∈ blocks ∧ block_undefined g defaults on arg forced).
Proof.
  intros Hg W1 W2 W3 W4 W5 dims col cones gap blocks.
  assert (Hcones : default_cones dc (bool_decide (2 < length dims)) = cones ∨ ¬ (length dims = 2 ∨ length dims = 3)).
  { unfold cones. destruct (decide (length dims = 3)) as [E|E]; [left; rewrite bool_decide_true by lia; done|].
    destruct (decide (length dims = 2)); [left; rewrite bool_decide_false by lia; done|right; tauto]. }
  assert (Hl0 : (if negb (Qle_bool gap 0) then dupdate (default_links dc) [("markeredgecolor", VNums [0; 0; 0; 0]%Q); ("markerfacecolor", VNums [0; 0; 0; 0]%Q)]
                  else default_links dc) = if Qle_bool gap 0 then documented_links col else documented_gap_links col)
    by (by destruct (Qle_bool gap 0)).
  assert (Hf0 : ∀ A B : dict pyval, (if negb (Qle_bool gap 0) then A else B) = if Qle_bool gap 0 then B else A)
    by (intros; by destruct (Qle_bool gap 0)).
  assert (Nc : NoDup cones.*1) by (unfold cones; destruct (decide _); apply (bool_decide_unpack _); by vm_compute).
  set (l0 := if Qle_bool gap 0 then documented_links col else documented_gap_links col : dict pyval) in blocks.
  assert (Nl : NoDup l0.*1)
    by (unfold l0; destruct (Qle_bool gap 0); apply (bool_decide_unpack _); by vm_compute).
  set (forced := if Qle_bool gap 0 then [] else [("markersize", VNum gap)] : dict pyval) in blocks.
  assert (Nf : NoDup forced.*1)
    by (unfold forced; destruct (Qle_bool gap 0); apply (bool_decide_unpack _); by vm_compute).
  assert (Ne : NoDup (documented_events col).*1) by (apply (bool_decide_unpack _); by vm_compute).
  assert (Nb : NoDup documented_labels.*1) by (apply (bool_decide_unpack _); by vm_compute).
  assert (N0 : NoDup (([] : dict pyval).*1)) by constructor.
  pose proof (param_block_spec g cones (kw_pastcones kw) false [] Hg Nc N0 W1) as B1.
  pose proof (param_block_spec g cones (kw_futurecones kw) false [] Hg Nc N0 W2) as B2.
  pose proof (param_block_spec g l0 (kw_links kw) true forced Hg Nl Nf W3) as B3.
  pose proof (param_block_spec g _ (kw_events kw) true [] Hg Ne N0 W4) as B4.
  pose proof (param_block_spec g _ (kw_labels kw) true [] Hg Nb N0 W5) as B5.
  split_and!.
  - intros Hd. unfold plot_parameters. fold dims. destruct (decide (length dims < 2 ∨ 3 < length dims)); [done|]. exfalso. lia.
  - intros pl Hpl. destruct (plot_parameters_inv g dc kw pl Hpl) as (Hd & D1 & D2 & _ & P1 & P2 & P3 & P4 & P5 & D3 & Q1 & Q2 & Q3).
    fold dims in Hd, D1, D2, P1, P2. fold gap in P3, D3. split; [done|]. rewrite D2, D3.
    split; [intros k; apply index_of_some|]. split; [apply index_of_none|]. split; [apply Qle_bool_gap|].
    split; [|done].
    destruct Hcones as [Hc|?]; [|tauto]. rewrite Hc in P1, P2. rewrite Hl0, Hf0 in P3. change (param_block g l0 (kw_links kw) true forced = Ok (pl_links pl)) in P3.
    assert (Hres : ∀ defaults arg on forced r,
      ((∃ result, param_block g defaults arg on forced = Ok result ∧ block_spec g defaults on arg forced result ∧
         (∀ e, result = Some e → length defaults ≤ length e) ∧ ¬ block_undefined g defaults on arg forced) ∨
       (param_block g defaults arg on forced = Err KeyError ∧ block_undefined g defaults on arg forced)) →
      param_block g defaults arg on forced = Ok r → block_spec g defaults on arg forced r ∧ ¬ block_undefined g defaults on arg forced).
    { clear. intros defaults arg on forced r [(result & E & H1 & _ & H2)|[E _]] E'; rewrite E in E'; [|done]. by injection E' as <-. }
    intros defaults on arg fo field Hin. unfold blocks in Hin. rewrite !elem_of_cons in Hin.
    destruct Hin as [H|[H|[H|[H|[H|H]]]]]; [injection H as -> -> -> -> ->..|by apply elem_of_nil in H].
    + by apply Hres.
    + by apply Hres.
    + by apply Hres.
    + by apply Hres.
    + by apply Hres.
  - intros Hd [Ha1 Ha2].
    assert (Hun : ∀ defaults on arg forced field, (defaults, on, arg, forced, field) ∈ blocks → block_undefined g defaults on arg forced →
      ∃ defaults on arg forced field, (defaults, on, arg, forced, field) ∈ blocks ∧ block_undefined g defaults on arg forced)
      by (intros; do 5 eexists; eauto).
    assert (I1 : (cones, false, kw_pastcones kw, [], pl_pastcones) ∈ blocks) by (unfold blocks; rewrite !elem_of_cons; tauto).
    assert (I2 : (cones, false, kw_futurecones kw, [], pl_futurecones) ∈ blocks) by (unfold blocks; rewrite !elem_of_cons; tauto).
    assert (I3 : (l0, true, kw_links kw,
      forced, pl_links) ∈ blocks) by (unfold blocks; rewrite !elem_of_cons; tauto).
    assert (I4 : (documented_events col, true, kw_events kw, [], pl_events) ∈ blocks) by (unfold blocks; rewrite !elem_of_cons; tauto).
    assert (I5 : (documented_labels, true, kw_labels kw, [], pl_labels) ∈ blocks) by (unfold blocks; rewrite !elem_of_cons; tauto).
    destruct Hcones as [Hc|?]; [|tauto].
    unfold plot_parameters. fold dims. destruct (decide (length dims < 2 ∨ 3 < length dims)) as [|_]; [exfalso; lia|]. cbn zeta.
    rewrite Hc. fold gap. rewrite Hl0, Hf0.
    change (param_block g _ (kw_links kw) true _) with
      (param_block g l0 (kw_links kw) true forced).
    assert (Ea : axis_limits dims (kw_axislim kw) (kw_shape kw) = Ok (kw_axislim kw)).
    { rewrite Ha2. unfold axis_limits. by destruct (kw_axislim kw) as [[]|]. }
    rewrite Ea. cbn [res_bind].
    destruct B1 as [(r1 & -> & _)|[-> U]]; cbn [res_bind]; [|right; split; [done|by apply (Hun _ _ _ _ _ I1)]].
    destruct B2 as [(r2 & -> & _)|[-> U]]; cbn [res_bind]; [|right; split; [done|by apply (Hun _ _ _ _ _ I2)]].
    destruct B3 as [(r3 & -> & _)|[-> U]]; cbn [res_bind]; [|right; split; [done|by apply (Hun _ _ _ _ _ I3)]].
    destruct B4 as [(r4 & E4 & _)|[E4 U]]; [|right; split; [change (default_events dc) with (documented_events col); by rewrite E4|by apply (Hun _ _ _ _ _ I4)]].
    destruct B5 as [(r5 & E5 & _)|[E5 U]]; [|right; split; [change (default_events dc) with (documented_events col); rewrite E4; cbn [res_bind];
      change default_labels with documented_labels; by rewrite E5|by apply (Hun _ _ _ _ _ I5)]].
    left. change (default_events dc) with (documented_events col). rewrite E4. cbn [res_bind].
    change default_labels with documented_labels. rewrite E5. cbn [res_bind]. eauto.
Qed.
Print Assumptions C69_parameters.

(** The axis limits: those given; or those of the shape, which contain the whole shape; or
    none. *)
Theorem C69_limits (g : scheme) (dc : dict pyval) (kw : kwargs) (pl : plotting) : plot_parameters g dc kw = Ok pl →
  (∀ d, kw_axislim kw = Some (AxDict d) → pl_axislim pl = Some (AxDict d)) ∧
  (kw_shape kw = None → pl_axislim pl = kw_axislim kw) ∧
  (∀ s, kw_shape kw = Some s → kw_axislim kw = None ∨ kw_axislim kw = Some AxShape → constructed_shape s →
     length (sh_center s) = sh_dim s → (∀ d, d ∈ pl_dims pl → d < sh_dim s) →
     ∃ lims, pl_axislim pl = Some (AxDict lims) ∧
       lims.*1 = take (length (pl_dims pl)) ["xlim"; "ylim"; "zlim"] ∧
       (∀ i d k lo hi, pl_dims pl !! i = Some d → lims !! i = Some (k, (lo, hi)) →
          ((lo + hi) / 2 = nth d (sh_center s) 0)%R ∧ ∀ x, in_shape s x → (lo <= nth d x 0 <= hi)%R)).
Proof.
  intros Hpl. destruct (plot_parameters_inv g dc kw pl Hpl) as (Hd & D1 & _ & Hlim & _).
  rewrite D1. set (dims := default [1; 0] (kw_dims kw)) in *. clearbody dims. clear D1 Hpl. split_and!.
  - intros d E. rewrite E in Hlim. cbn in Hlim. congruence.
  - intros E. rewrite E in Hlim. unfold axis_limits in Hlim. destruct (kw_axislim kw) as [[]|]; congruence.
  - intros s E Ha Hs Hlc Hlt. rewrite E in Hlim.
    assert (Hin : ∀ d lo hi, d ∈ dims → Limits s (Z.of_nat d) = Ok (lo, hi) →
      ((lo + hi) / 2 = nth d (sh_center s) 0)%R ∧ ∀ x, in_shape s x → (lo <= nth d x 0 <= hi)%R).
    { intros d lo hi Hd' EL. specialize (Hlt d Hd'). destruct (C56_Limits s (Z.of_nat d) Hs) as [(lo' & hi' & E' & _ & H1 & H2 & _) _]; [lia|].
      rewrite EL in E'. injection E' as <- <-. rewrite Nat2Z.id in *. done. }
    assert (Hax : axis_limits dims (kw_axislim kw) (Some s) = Ok (pl_axislim pl) →
      match dims with
    | [x; y] =>
      res_bind (Limits s (Z.of_nat x)) (λ lx, res_bind (Limits s (Z.of_nat y)) (λ ly,
        Ok (Some (AxDict [("xlim", lx); ("ylim", ly)]))))
    | _ =>
      res_bind (MaxEdgeHalf s (Z.of_nat <$> dims)) (λ e,
        match (λ d, sh_center s !! d) <$> dims with
        | [Some x; Some y; Some z] =>
          Ok (Some (AxDict [("xlim", (x - e, x + e)%R); ("ylim", (y - e, y + e)%R); ("zlim", (z - e, z + e)%R)]))
        | _ => Err IndexError
        end)
    end = Ok (pl_axislim pl)).
    { unfold axis_limits. by destruct Ha as [-> | ->]. }
    specialize (Hax Hlim). clear Hlim Ha.
    destruct dims as [|x [|y [|z [|]]]]; cbn in Hd; try lia.
    + assert (Hx : x < sh_dim s) by (apply Hlt; rewrite !elem_of_cons; auto). assert (Hy : y < sh_dim s) by (apply Hlt; rewrite !elem_of_cons; auto).
      pose proof (Limits_eq s x Hx) as Ex. pose proof (Limits_eq s y Hy) as Ey. rewrite Ex, Ey in Hax. cbn [res_bind] in Hax.
      injection Hax as <-. eexists. split; [done|]. split; [done|].
      intros i d k lo hi Hi Hk. destruct i as [|[|i]]; cbn in Hi, Hk; try discriminate Hi; injection Hi as <-; injection Hk as <- <- <-.
      * apply Hin; [rewrite !elem_of_cons; auto|done].
      * apply Hin; [rewrite !elem_of_cons; auto|done].
    + destruct (C56_MaxEdgeHalf s (Z.of_nat <$> [x; y; z]) Hs) as (m & Em & Hm & _); [done| |].
      { intros d (d' & -> & Hd')%elem_of_list_fmap. specialize (Hlt d' Hd'). lia. }
      rewrite Em in Hax. cbn [res_bind] in Hax.
      assert (Hc : ∀ d, d ∈ [x; y; z] → sh_center s !! d = Some (nth d (sh_center s) 0%R)).
      { intros d Hd'. specialize (Hlt d Hd'). destruct (lookup_lt_is_Some_2 (sh_center s) d) as [c Ec]; [lia|]. by rewrite Ec, (nth_lookup_Some _ _ _ _ Ec). }
      cbn [fmap list_fmap] in Hax.
      rewrite (Hc x), (Hc y), (Hc z) in Hax by (rewrite !elem_of_cons; auto).
      injection Hax as <-. eexists. split; [done|]. split; [done|].
      assert (Hfin : ∀ d, d ∈ [x; y; z] → let c := nth d (sh_center s) 0%R in ((c - m + (c + m)) / 2 = c)%R ∧
        ∀ p, in_shape s p → (c - m <= nth d p 0 <= c + m)%R).
      { intros d Hd' c. split; [lra|]. intros p Hp. pose proof (Hlt d Hd') as Hl. pose proof (Limits_eq s d Hl) as El.
        destruct (Hin d _ _ Hd' El) as [H1 H2]. specialize (H2 p Hp).
        assert (Hm' := Hm (Z.of_nat d) _ _ ltac:(apply elem_of_list_fmap; eauto) El). fold c in H1, H2, El, Hm'. lra. }
      intros i d k lo hi Hi Hk. destruct i as [|[|[|i]]]; cbn in Hi, Hk; try discriminate Hi; injection Hi as <-; injection Hk as <- <- <-;
        apply Hfin; rewrite !elem_of_cons; auto.
Qed.
Print Assumptions C69_limits.
Lemma bind_ok {A B} (m : M A) (f : A → M B) (s : pstate) b : snd (bind m f s) = Ok b →
  ∃ s1 a, m s = (s1, Ok a) ∧ snd (f a s1) = Ok b.
Proof. intros H. unfold bind in H. destruct (m s) as [s1 [a|e]]; [|done]. eauto. Qed.
Lemma plot_limits (g : scheme) (dc : dict pyval) (it : oracle) (slice : list R → R → res bool)
    (E : plot_arg) (st : option spacetime) (time : time_arg) (kw : kwargs) (s : pstate) (hs : handles) :
  snd (plot g dc it slice E st time kw s) = Ok hs →
  ∃ pl, plot_parameters g dc kw = Ok pl ∧ set_limits pl = Ok (ha_limits hs).
Proof.
  intros H. unfold plot in H. apply bind_ok in H as (s1 & pr & H1 & H2).
  unfold Plotter in H1. apply (f_equal snd) in H1. cbn [snd] in H1.
  apply bind_ok in H1 as (s2 & pl & H3 & H4). unfold lift in H3. injection H3 as <- H3.
  exists pl. split; [done|].
  apply bind_ok in H4 as (s3 & n & _ & H4). apply bind_ok in H4 as (s4 & pc & _ & H4). apply bind_ok in H4 as (s5 & fc & _ & H4).
  apply bind_ok in H4 as (s6 & dyn & _ & H4). cbn in H4. injection H4 as <-.
  unfold timeslice in H2. cbn [pr_pl] in H2. apply bind_ok in H2 as (s7 & [ps fs] & _ & H2).
  apply bind_ok in H2 as (s8 & [[lk evs] lbls] & _ & H2). apply bind_ok in H2 as (s9 & lim & H2 & H5).
  unfold lift in H2. injection H2 as _ H2. cbn in H5. injection H5 as <-. done.
Qed.
(** The limits of a plot that returns: without limits in the parameters none are set; given
    limits are set as they are on the x- and the y-axis when both are there, on the z-axis
    exactly when the plot has three dimensions and a limit for it is given. *)
Theorem C69_applied (g : scheme) (dc : dict pyval) (it : oracle) (slice : list R → R → res bool)
    (E : plot_arg) (st : option spacetime) (time : time_arg) (kw : kwargs) (s : pstate) (pl : plotting) (hs : handles) :
  plot_parameters g dc kw = Ok pl →
  snd (plot g dc it slice E st time kw s) = Ok hs →
  (pl_axislim pl = None → ha_limits hs = None) ∧
  ∀ d, pl_axislim pl = Some (AxDict d) →
    (∀ x y, dget d "xlim" = Some x → dget d "ylim" = Some y →
       ∃ l, ha_limits hs = Some l ∧ l.*1 ⊆ ["xlim"; "ylim"; "zlim"] ∧ NoDup l.*1 ∧
         dget l "xlim" = Some x ∧ dget l "ylim" = Some y ∧
         (length (pl_dims pl) = 3 → dget l "zlim" = dget d "zlim") ∧
         (length (pl_dims pl) = 2 → dget l "zlim" = None)) ∧
    (dget d "xlim" = None ∨ dget d "ylim" = None → ha_limits hs = None).
Proof.
  intros Hpl H. destruct (plot_limits _ _ _ _ _ _ _ _ _ _ H) as (pl' & Hpl' & Hl).
  rewrite Hpl in Hpl'. injection Hpl' as <-. unfold set_limits in Hl. split.
  - intros Ha. rewrite Ha in Hl. congruence.
  - intros d Ha. rewrite Ha in Hl. split.
    + intros x y Ex Ey. rewrite Ex, Ey in Hl. injection Hl as <-. eexists. split; [done|].
      assert (H3 : is3d pl = bool_decide (2 < length (pl_dims pl))) by reflexivity.
      destruct (is3d pl) eqn:E3; symmetry in H3;
        [apply bool_decide_eq_true in H3|apply bool_decide_eq_false in H3].
      * destruct (dget d "zlim") as [z|] eqn:Ez; (split; [set_solver|]);
          (split; [apply (bool_decide_unpack _); by vm_compute|]); (split; [done|]); (split; [done|]); (split; [done|]); intros ?; lia.
      * split; [set_solver|]. split; [apply (bool_decide_unpack _); by vm_compute|]. do 2 (split; [done|]). split; [lia|done].
    + intros Hn. destruct (dget d "xlim") as [x|], (dget d "ylim") as [y|]; try congruence. by destruct Hn.
Qed.
Print Assumptions C69_applied.
(** Documented, but false: for an EmbeddedCauset the limits are never taken from its shape.
    The limits of a plot depend on the keyword arguments only, and axislim = 'shape' without
    the keyword argument shape is never set: every such plot raises an exception. *)
Theorem C69_shape_refuted (g : scheme) (dc : dict pyval) (it : oracle) (slice : list R → R → res bool)
    (C : ecauset) (st : option spacetime) (time : time_arg) (kw : kwargs) (s : pstate) :
  kw_shape kw = None →
  (kw_axislim kw = Some AxShape → ∃ e, snd (plot g dc it slice (PCauset C) st time kw s) = Err e) ∧
  (kw_axislim kw = None → ∀ hs, snd (plot g dc it slice (PCauset C) st time kw s) = Ok hs → ha_limits hs = None).
Proof.
  intros Hsh. pose proof (plot_limits g dc it slice (PCauset C) st time kw s) as G.
  split.
  - intros Ha. destruct (snd _) as [hs|e] eqn:E; [|eauto]. exfalso.
    destruct (G hs eq_refl) as (pl & Hpl & Hl). destruct (C69_limits g dc kw pl Hpl) as (_ & H & _). specialize (H Hsh).
    unfold set_limits in Hl. rewrite H, Ha in Hl. done.
  - intros Ha hs E. destruct (G hs E) as (pl & Hpl & Hl). destruct (C69_limits g dc kw pl Hpl) as (_ & H & _). specialize (H Hsh).
    unfold set_limits in Hl. rewrite H, Ha in Hl. congruence.
Qed.
Print Assumptions C69_shape_refuted.
Example C69_nonvacuous :
  let kw := Kwargs (Some [1; 2; 0]) None None None None None None (Some (Switch true)) None
              (Some (Params [("color", VStr "cs:red")])) (Some (3 # 1)%Q) None (Some (Switch false)) in
  match plot_parameters scheme_UniYork default_colors0 kw with
  | Ok pl => dget (default [] (pl_links pl)) "color" = Some (VStr "#E62A32") ∧ dget (default [] (pl_links pl)) "markersize" = Some (VNum (3 # 1)) ∧
             dget (default [] (pl_pastcones pl)) "color" = Some (VStr "#FBB800") ∧ pl_labels pl = None
  | Err _ => False
  end.
Proof. by vm_compute. Qed.

(** ** C57 *)
Lemma lpairs_length h l : length (lpairs h (pairs_of l)) = lcount h l.
Proof.
  induction l as [|a l IH]; [done|]. cbn [pairs_of lcount]. unfold lpairs. rewrite filter_app, app_length.
  fold (lpairs h (pairs_of l)). rewrite IH. f_equal. unfold ctrue. clear.
  induction l as [|b l IH]; [done|]. rewrite fmap_cons, !filter_cons. cbn [fst snd].
  destruct (decide (linkedb h a b = true)); cbn [length]; by rewrite IH.
Qed.
Lemma sublist_filter {A} (P : A → Prop) `{∀ x, Decision (P x)} (l : list A) : filter P l `sublist_of` l.
Proof. induction l as [|x l IH]; [constructor|]. rewrite filter_cons. destruct (decide _); by constructor. Qed.
Lemma sublist_nodup {A} (l k : list A) : l `sublist_of` k → NoDup k → NoDup l.
Proof.
  induction 1 as [|x l k Hs IH|x l k Hs IH]; intros Hn; [done| |]; apply NoDup_cons in Hn as [H1 H2]; [|by apply IH].
  apply NoDup_cons. split; [|by apply IH]. intros Hx. apply H1. eapply elem_of_submseteq; [exact Hx|]. by apply sublist_submseteq.
Qed.
Lemma lpairs_links_of h l : order_inv h → link_inv h → links_of h l (lpairs h (pairs_of l)).
Proof.
  intros HO HL. split; [apply sublist_filter|]. intros a b. unfold lpairs. rewrite elem_of_list_filter. cbn [fst snd].
  rewrite linkedb_spec by done. tauto.
Qed.
Lemma pairs_of_elem l a b : (a, b) ∈ pairs_of l → a ∈ l ∧ b ∈ l.
Proof.
  induction l as [|x l IH]; cbn; [intros H; by apply elem_of_nil in H|]. rewrite elem_of_app, !elem_of_cons.
  intros [H|H]; [apply elem_of_list_fmap in H as (y & E & Hy)|specialize (IH H); tauto].
  injection E as -> ->. tauto.
Qed.
Lemma point_length emb dims h a : length (point emb dims h a) = length dims.
Proof. unfold point. by rewrite fmap_length. Qed.
Lemma link_line_spec h pl emb events params a b : length (pl_dims pl) = 2 ∨ length (pl_dims pl) = 3 →
  ∃ pts, link_line h pl emb events params (a, b) = ALine pts params None None (Some (seq 1 (length pts - 2))) ∧
    link_line_points (point emb (pl_dims pl) h) events a b pts.
Proof.
  intros Hd. set (pt := point emb (pl_dims pl) h). eexists. split; [reflexivity|]. cbn [fst snd]. fold pt.
  assert (Hl : ∀ e, length (pt e) = length (pl_dims pl)) by (intros; apply point_length).
  set (gs := gap_filter h pl emb a b events).
  assert (Hlen : length (pt a :: (pt <$> gs) ++ [pt b])%list = length gs + 2).
  { cbn. rewrite app_length, fmap_length. cbn. lia. }
  assert (Hshort : length gs ≤ 1 → link_points (pt a) (pt b) (pt <$> gs) = (pt a :: (pt <$> gs) ++ [pt b])%list).
  { intros H. unfold link_points. destruct (decide _); [lia|done]. }
  assert (Hperm : link_points (pt a) (pt b) (pt <$> gs) ≡ₚ (pt a :: (pt <$> gs) ++ [pt b])%list).
  { unfold link_points. destruct (decide _); [apply lexsort_perm|done]. }
  exists gs. split; [apply sublist_filter|]. split.
  { intros e. unfold gs, gap_filter. rewrite elem_of_list_filter. fold pt.
    rewrite <- near_segment_spec by (rewrite !Hl; done). tauto. }
  split; [done|]. split; [done|]. intros Hon Hn.
  apply (straight (pt a) (pt b) (pt <$> gs)); [by rewrite !Hl|done| |done|by rewrite fmap_length|].
  - intros q (e & -> & He)%elem_of_list_fmap. by apply Hon.
  - rewrite fmap_length. intros H. unfold link_points. destruct (decide _); [apply lexsort_sorted|lia].
Qed.
Lemma params_nonempty g dc kw pl : plot_parameters g dc kw = Ok pl → NoDup g.*1 → arg_wf (kw_links kw) →
  (pl_links pl = None ∧ kw_links kw = Some (Switch false)) ∨ (∃ p, pl_links pl = Some p ∧ truthy (pl_links pl) = Some p ∧ kw_links kw ≠ Some (Switch false)).
Proof.
  intros Hpl Hg Hw. destruct (plot_parameters_inv g dc kw pl Hpl) as (_ & _ & _ & _ & _ & _ & P3 & _).
  cbn zeta in P3. set (l0 := if negb _ then dupdate _ _ else _) in P3. set (f0 := if negb _ then _ else _) in P3.
  assert (N0 : NoDup l0.*1) by (unfold l0; destruct (negb _); apply (bool_decide_unpack _); by vm_compute).
  assert (N1 : NoDup f0.*1) by (unfold f0; destruct (negb _); apply (bool_decide_unpack _); by vm_compute).
  assert (N2 : 0 < length l0) by (unfold l0; destruct (negb _); vm_compute; lia).
  destruct (param_block_spec g l0 (kw_links kw) true f0 Hg N0 N1 Hw) as [(result & E & H1 & H2 & _)|[E _]]; rewrite E in P3; [|done].
  injection P3 as <-. unfold block_spec, shown in H1.
  assert (Hne : ∀ p, result = Some p → truthy result = Some p).
  { intros p ->. specialize (H2 p eq_refl). unfold truthy. destruct p; [cbn in H2; lia|done]. }
  destruct (kw_links kw) as [[[]|d]|]; [right|left|right|right]; [|done| |];
    destruct H1 as (p & -> & _); exists p; (split; [done|]); (split; [by apply Hne|done]).
Qed.
(** Computations that leave the events as they are. *)
Definition reads_only {A} (m : M A) : Prop := ∀ s, fst (fst (m s)) = fst s.
Lemma ro_ret {A} (a : A) : reads_only (ret a).
Proof. done. Qed.
Lemma ro_raise {A} e : reads_only (@raise A e).
Proof. done. Qed.
Lemma ro_lift {A} (r : res A) : reads_only (lift r).
Proof. done. Qed.
Lemma ro_draw a : reads_only (draw a).
Proof. by intros [h ax]. Qed.
Lemma ro_attr emb a : reads_only (get_attr emb a).
Proof. by intros [h ax]. Qed.
Lemma ro_lab a : reads_only (lab_of a).
Proof. by intros [h ax]. Qed.
Lemma ro_bind {A B} (m : M A) (f : A → M B) : reads_only m → (∀ a, reads_only (f a)) → reads_only (bind m f).
Proof.
  intros Hm Hf s. unfold bind. specialize (Hm s). destruct (m s) as [s1 [a|e]]; cbn in *; [|done]. by rewrite Hf.
Qed.
Lemma ro_each {A B} (l : list A) (acc : B) f : (∀ x b, reads_only (f x b)) → reads_only (for_each l acc f).
Proof. revert acc. induction l as [|x l IH]; intros acc Hf; cbn; [done|]. apply ro_bind; [apply Hf|]. intros b. by apply IH. Qed.
Ltac ro := repeat first
  [ apply ro_ret | apply ro_raise | apply ro_lift | apply ro_draw | apply ro_attr | apply ro_lab
  | apply ro_bind; [|intros ?] | apply ro_each; intros ? ? | progress cbn beta iota zeta ].
Lemma ro_cone past slice al p c t : reads_only (cone past slice al p c t).
Proof.
  unfold cone. ro. destruct (decide _); [ro|]. destruct al as [f|]; [|ro]. destruct (decide _); [ro|]. ro.
  match goal with |- context [if ?b then _ else _] => destruct b end; ro.
Qed.
(** With links = False a plot only reads the events: it does not even let them link. *)
Theorem C57_no_links_untouched (g : scheme) (dc : dict pyval) (it : oracle) (slice : list R → R → res bool)
    (E : plot_arg) (st : option spacetime) (time : time_arg) (kw : kwargs) (h : heap) (ax : list artist) :
  NoDup g.*1 → kw_links kw = Some (Switch false) →
  fst (fst (plot g dc it slice E st time kw (h, ax))) = h.
Proof.
  intros Hg Hk. enough (Hro : reads_only (plot g dc it slice E st time kw)) by apply Hro.
  unfold plot. intros s. unfold bind.
  assert (HP : reads_only (Plotter g dc it E st kw) ∧ ∀ s s1 pr, Plotter g dc it E st kw s = (s1, Ok pr) → pl_links (pr_pl pr) = None ∧ pr_dyn pr = None).
  { unfold Plotter, bind. unfold lift at 1.
    destruct (plot_parameters g dc kw) as [pl|e] eqn:Hpl; [|split; [done|]; by intros ? ? ?; cbn].
    destruct (params_nonempty g dc kw pl Hpl Hg) as [[Hn _]|(p & _ & _ & H)]; [by rewrite Hk| |done].
    assert (Hc : ∀ s, link_count it pl (plot_events it E) s = (s, Ok 0)) by (intros [h1 ax1]; unfold link_count; by rewrite Hn).
    assert (Hd : dynamic_setup pl = Ok None ∨ ∃ e, dynamic_setup pl = Err e).
    { unfold dynamic_setup. destruct (pl_dynamic pl) as [[d f]|]; [|by left]. rewrite Hn. cbn. right. eauto. }
    split.
    - intros s0. unfold lift. cbn beta iota. rewrite Hc. destruct (cone_alpha pl (pl_pastcones pl)); [|done].
      destruct (cone_alpha pl (pl_futurecones pl)); [|done]. destruct Hd as [-> | [e ->]]; done.
    - intros s0 s1 pr. unfold lift. cbn beta iota. rewrite Hc. destruct (cone_alpha pl (pl_pastcones pl)); [|done].
      destruct (cone_alpha pl (pl_futurecones pl)); [|done]. destruct Hd as [-> | [e ->]]; [|done].
      unfold ret. intros [= <- <-]. done. }
  destruct HP as [HP1 HP2]. specialize (HP1 s). destruct (Plotter _ _ _ _ _ _ s) as [s1 [pr|e]] eqn:EP; [|done].
  destruct (HP2 _ _ _ EP) as [Hl Hdn]. cbn in HP1. rewrite <- HP1.
  match goal with |- fst (fst (?m s1)) = _ => enough (Hro : reads_only m) by apply Hro end.
  unfold timeslice. rewrite Hdn, Hl. cbn [truthy].
  apply ro_bind.
  { assert (Hcs : reads_only (cones (pr_embedded pr) (pr_events pr) slice (pr_pc pr) (pr_fc pr) (fst (times time)) (snd (times time)))).
    { unfold cones. apply ro_each. intros a [ps fs]. ro.
      - destruct (pr_pc pr) as [[al p]|]; [apply ro_cone|ro].
      - destruct (pr_fc pr) as [[al p]|]; [apply ro_cone|ro]. }
    destruct (pr_pc pr), (pr_fc pr); try exact Hcs. ro. }
  intros [ps fs]. apply ro_bind; [|intros [[? ?] ?]; ro].
  apply ro_bind; [ro|]. intros lk. apply ro_bind.
  { destruct (pl_events (pr_pl pr)); [unfold static_events; ro|ro]. }
  intros evs. apply ro_bind; [|intros; ro].
  destruct (pl_labels (pr_pl pr)); [unfold static_labels; ro|ro].
Qed.
Print Assumptions C57_no_links_untouched.
Lemma static_run (g : scheme) (dc : dict pyval) (it : oracle) (slice : list R → R → res bool)
    (E : plot_arg) (st : option spacetime) (time : time_arg) (kw : kwargs) (pl : plotting) (h : heap) (ax : list artist) :
  order_inv h → link_inv h →
  NoDup g.*1 → arg_wf (kw_links kw) → plot_parameters g dc kw = Ok pl →
  kw_timedepth kw = None → pl_pastcones pl = None → pl_futurecones pl = None → pl_axislim pl ≠ Some AxShape →
  kw_links kw ≠ Some (Switch false) →
  let events := plot_events it E in
  let emb := is_embedded E st in
  let pt := point emb (pl_dims pl) h in
  NoDup events →
  (∀ a, a ∈ events → plottable emb (pl_dims pl) h a) →
  ∃ h' hs ps params lines evs lbls,
    plot g dc it slice E st time kw (h, ax) = ((h', ax ++ lines ++ evs ++ lbls)%list, Ok hs) ∧
    same_view h h' ∧
    links_of h events ps ∧
    pl_links pl = Some params ∧
    ha_links hs = Some (Some <$> lines) ∧
    length lines = LinkCountOf h (list_to_set events) ∧
    Forall2 (λ ab line, ∃ pts, line = ALine pts params None None (Some (seq 1 (length pts - 2))) ∧
               link_line_points pt events ab.1 ab.2 pts) ps lines ∧
    (match pl_events pl with
     | Some p => ha_events hs = Some (Some <$> evs) ∧ evs = (λ a, ALine [pt a] p None None None) <$> events
     | None => ha_events hs = None ∧ evs = [] end) ∧
    (match pl_labels pl with
     | Some p => ha_labels hs = Some (Some <$> lbls) ∧ lbls = (λ a, AText (pt a) (lab h a) p) <$> events
     | None => ha_labels hs = None ∧ lbls = [] end).
Proof.
  intros HO HL Hg Hw Hpl Hdyn Hpc Hfc Hax Hlk events emb pt Hnd Hev.
  destruct (plot_parameters_inv g dc kw pl Hpl) as (Hd & D1 & _ & _ & _ & _ & _ & _ & _ & _ & Hd1 & _).
  assert (Hdim : length (pl_dims pl) = 2 ∨ length (pl_dims pl) = 3) by (rewrite D1; exact Hd).
  rewrite Hdyn in Hd1. cbn in Hd1.
  destruct (plot_static_run h HO HL g dc it slice E st time kw pl Hpl Hd1 Hpc Hfc Hev h ax) as (h' & arts & r & Hv & Hrun & HQ);
    [by apply same_view_refl|].
  fold events in HQ. fold emb in HQ. unfold static_post in HQ. cbn zeta in HQ.
  destruct (params_nonempty g dc kw pl Hpl Hg Hw) as [[_ ?]|(p & Hp & Ht & _)]; [done|]. rewrite Ht in HQ.
  rewrite lpairs_length, (lcount_nodup h HO HL events Hnd) in HQ. destruct (decide _); [|lia].
  rewrite Nat.sub_diag in HQ. cbn [replicate] in HQ. rewrite app_nil_r in HQ. destruct HQ as [-> Hr].
  assert (Hlim : ∃ lim, set_limits pl = Ok lim).
  { unfold set_limits. destruct (pl_axislim pl) as [[|d]|]; [done| |eauto]. destruct (dget d "xlim"), (dget d "ylim"); eauto. }
  destruct Hlim as [lim Hlim]. rewrite Hlim in Hr. cbn [res_map] in Hr. subst r.
  eexists h', _, (lpairs h (pairs_of events)), p, _, _, _. split; [exact Hrun|]. split; [done|].
  split; [by apply lpairs_links_of|]. split; [done|]. split; [done|].
  split; [by rewrite fmap_length, lpairs_length, (lcount_nodup h HO HL)|].
  split.
  { clear -Hdim. induction (lpairs h (pairs_of events)) as [|[a b] ps IH]; [constructor|]. cbn. constructor; [|done].
    by apply link_line_spec. }
  split.
  - destruct (pl_events pl); done.
  - destruct (pl_labels pl); done.
Qed.
(** A static plot (no timedepth) of distinct events with links: it returns; every link of the
    events has one slot, in the order of the pairs of the list; the slots are exactly
    LinkCountOf many and none is empty; exactly the links, the events and the labels are drawn,
    in this order; the events are not changed. *)
Theorem C57_static (g : scheme) (dc : dict pyval) (it : oracle) (slice : list R → R → res bool)
    (E : plot_arg) (st : option spacetime) (time : time_arg) (kw : kwargs) (pl : plotting) (h : heap) (ax : list artist) :
  order_inv h → link_inv h →
  NoDup g.*1 → arg_wf (kw_links kw) → plot_parameters g dc kw = Ok pl →
  kw_timedepth kw = None → pl_pastcones pl = None → pl_futurecones pl = None → pl_axislim pl ≠ Some AxShape →
  kw_links kw ≠ Some (Switch false) →
  let events := match E with PEvent e => [e] | PList l => l | PCauset C => it 40 (ec_events C) end in
  let emb := match E with PCauset _ => true | _ => bool_decide (is_Some st) end in
  let pt := point emb (pl_dims pl) h in
  NoDup events →
  (∀ a, a ∈ events → plottable emb (pl_dims pl) h a) →
  ∃ h' hs ps params lines evs lbls,
    plot g dc it slice E st time kw (h, ax) = ((h', ax ++ lines ++ evs ++ lbls)%list, Ok hs) ∧
    same_view h h' ∧
    links_of h events ps ∧
    pl_links pl = Some params ∧
    ha_links hs = Some (Some <$> lines) ∧
    length lines = LinkCountOf h (list_to_set events) ∧
    Forall2 (λ ab line, ∃ pts, line = ALine pts params None None (Some (seq 1 (length pts - 2))) ∧
               link_line_points pt events ab.1 ab.2 pts) ps lines ∧
    (match pl_events pl with
     | Some p => ha_events hs = Some (Some <$> evs) ∧ evs = (λ a, ALine [pt a] p None None None) <$> events
     | None => ha_events hs = None ∧ evs = [] end) ∧
    (match pl_labels pl with
     | Some p => ha_labels hs = Some (Some <$> lbls) ∧ lbls = (λ a, AText (pt a) (lab h a) p) <$> events
     | None => ha_labels hs = None ∧ lbls = [] end).
Proof. exact (static_run g dc it slice E st time kw pl h ax). Qed.
Print Assumptions C57_static.
(** A list in which an event with a link is repeated: IndexError. *)
Theorem C57_repeated (g : scheme) (dc : dict pyval) (it : oracle) (slice : list R → R → res bool)
    (l1 l2 l3 : list nat) (a b : nat) (st : option spacetime) (time : time_arg) (kw : kwargs) (pl : plotting) (h : heap) (ax : list artist) :
  order_inv h → link_inv h →
  NoDup g.*1 → arg_wf (kw_links kw) → plot_parameters g dc kw = Ok pl →
  kw_timedepth kw = None → pl_pastcones pl = None → pl_futurecones pl = None →
  kw_links kw ≠ Some (Switch false) →
  let events := (l1 ++ a :: l2 ++ a :: l3)%list in
  b ∈ events → linked h a b →
  (∀ a, a ∈ events → plottable (bool_decide (is_Some st)) (pl_dims pl) h a) →
  snd (plot g dc it slice (PList events) st time kw (h, ax)) = Err IndexError.
Proof.
  intros HO HL Hg Hw Hpl Hdyn Hpc Hfc Hlk events Hb Hab Hev.
  destruct (plot_parameters_inv g dc kw pl Hpl) as (_ & _ & _ & _ & _ & _ & _ & _ & _ & _ & Hd1 & _).
  rewrite Hdyn in Hd1. cbn in Hd1.
  destruct (plot_static_run h HO HL g dc it slice (PList events) st time kw pl Hpl Hd1 Hpc Hfc Hev h ax) as (h' & arts & r & Hv & Hrun & HQ);
    [by apply same_view_refl|].
  rewrite Hrun. cbn [snd]. cbn [plot_events] in HQ. unfold static_post in HQ. cbn zeta in HQ.
  destruct (params_nonempty g dc kw pl Hpl Hg Hw) as [[_ ?]|(p & Hp & Ht & _)]; [done|]. rewrite Ht, lpairs_length in HQ.
  pose proof (lcount_repeat h HO HL events a b ltac:(by exists l1, l2, l3) Hb Hab) as Hc.
  destruct (decide _); [lia|]. done.
Qed.
Print Assumptions C57_repeated.
(** LinkCountOf is the number of links among the events. *)
Theorem C57_LinkCountOf (h : heap) (events : list nat) (ps : list (nat * nat)) :
  order_inv h → link_inv h → NoDup events → links_of h events ps →
  LinkCountOf h (list_to_set events) = length ps.
Proof.
  intros HO HL Hnd [Hs Hps]. rewrite <- (lcount_nodup h HO HL events Hnd), <- lpairs_length.
  assert (HP : NoDup (pairs_of events)).
  { clear -Hnd. induction Hnd as [|x l Hx Hl IH]; cbn; [constructor|]. apply NoDup_app. split_and!; [|intros [u v] Hu Hv|done].
    - apply NoDup_fmap_2; [|done]. intros y z E. by injection E.
    - apply elem_of_list_fmap in Hu as (y & E & _). injection E as -> ->. by apply pairs_of_elem in Hv as [? _]. }
  apply Permutation_length. apply NoDup_Permutation.
  - by apply NoDup_filter.
  - by eapply sublist_nodup.
  - intros [u v]. destruct (lpairs_links_of h events HO HL) as [_ H]. by rewrite H, Hps.
Qed.
Print Assumptions C57_LinkCountOf.
(** 0 < 1 with the unrelated event 2 drawn in the middle of their link. *)
Definition diagram_ops : list op :=
  [ONew (LInt 0) ∅ ∅ [] [0; 0]%Q; ONew (LInt 1) {[0]} ∅ [] [2; 2]%Q; ONew (LInt 2) ∅ ∅ [] [1; 1]%Q].
Definition diagram : heap := run ∅ ((λ o, (it_elements, o)) <$> diagram_ops).
Lemma diagram_order : order_inv diagram.
Proof. apply ops_order. by vm_compute. Qed.
Lemma diagram_link : link_inv diagram.
Proof. apply ops_link; [by vm_compute|]. unfold no_disjoin; repeat constructor. Qed.
Lemma diagram_plottable a : a ∈ [0; 1; 2] → plottable false [1; 0] diagram a.
Proof.
  intros Ha. split; [done|]. intros d Hd.
  assert (length (plot_coords false diagram a) = 2).
  { unfold plot_coords. rewrite fmap_length. rewrite !elem_of_cons, elem_of_nil in Ha. destruct Ha as [->|[->|[->|[]]]]; by vm_compute. }
  rewrite !elem_of_cons, elem_of_nil in Hd. destruct Hd as [->|[->|[]]]; lia.
Qed.
Example C57_nonvacuous :
  order_inv diagram ∧ link_inv diagram ∧ NoDup scheme_matplotlib.*1 ∧ NoDup [0; 1; 2] ∧
  (∃ pl, plot_parameters scheme_matplotlib default_colors0 no_kwargs = Ok pl ∧ pl_dims pl = [1; 0] ∧
     pl_pastcones pl = None ∧ pl_futurecones pl = None ∧ pl_axislim pl = None) ∧
  (∀ a, a ∈ [0; 1; 2] → plottable false [1; 0] diagram a) ∧
  LinkCountOf diagram {[0; 1; 2]} = 1 ∧ linked diagram 0 1 ∧
  on_segment (point false [1; 0] diagram 0) (point false [1; 0] diagram 2) (point false [1; 0] diagram 1).
Proof.
  split; [apply diagram_order|]. split; [apply diagram_link|]. split; [apply (bool_decide_unpack _); by vm_compute|].
  split; [apply (bool_decide_unpack _); by vm_compute|]. split; [eexists; split; [reflexivity|done]|].
  split; [apply diagram_plottable|]. split; [by vm_compute|]. split.
  - apply (linkedb_spec diagram diagram_order diagram_link). by vm_compute.
  - exists (1 / 2)%R. split; [lra|]. unfold point, plot_coords.
    assert (E0 : Base.pos diagram 0 = [0; 0]%Q) by (by vm_compute). assert (E1 : Base.pos diagram 1 = [2; 2]%Q) by (by vm_compute).
    assert (E2 : Base.pos diagram 2 = [1; 1]%Q) by (by vm_compute). rewrite E0, E1, E2. cbn. unfold Q2R. cbn. repeat f_equal; lra.
Qed.
