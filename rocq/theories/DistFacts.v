(** Lemmas about DistanceMatrix and Antipaths. *)
From Verif Require Import Base Spec EventModel EventFacts PathFacts CausetModel CausetFacts
  IntervalFacts LayerFacts DistModel Prop_Causet.

(** * Matrix primitives *)
Lemma combinations2_spec l i j : (i, j) ∈ combinations2 l ↔ i < j < l.
Proof.
  unfold combinations2. rewrite elem_of_list_bind. split.
  - intros (x & H & Hx%elem_of_seq). apply elem_of_list_bind in H as (y & H & Hy%elem_of_seq).
    apply elem_of_list_singleton in H. injection H as -> ->. lia.
  - intros H. exists i. split; [|apply elem_of_seq; lia]. apply elem_of_list_bind.
    exists j. split; [by apply elem_of_list_singleton|apply elem_of_seq; lia].
Qed.
Lemma zset2_eq D i j d : zset2 D i j d i j = d ∧ zset2 D i j d j i = d.
Proof. unfold zset2. split; rewrite decide_True; tauto. Qed.
Lemma zset2_ne D i j d x y : ¬ (x = i ∧ y = j) → ¬ (x = j ∧ y = i) → zset2 D i j d x y = D x y.
Proof. intros H1 H2. unfold zset2. rewrite decide_False; tauto. Qed.
Lemma zmin_list_in x xs : zmin_list x xs = x ∨ zmin_list x xs ∈ xs.
Proof.
  unfold zmin_list. revert x. induction xs as [|y xs IH]; intros x; [by left|]. cbn.
  destruct (IH (Z.min x y)) as [->|H].
  - destruct (Z.min_spec x y) as [[_ ->]|[_ ->]]; [by left|right; apply elem_of_list_here].
  - right. by apply elem_of_list_further.
Qed.
Lemma zmin_list_const x xs c : x = c → (∀ y, y ∈ xs → y = c) → zmin_list x xs = c.
Proof. intros H1 H2. destruct (zmin_list_in x xs) as [->|H]; [done|by apply H2]. Qed.
Lemma zmin_list_lb x xs y : y = x ∨ y ∈ xs → (zmin_list x xs <= y)%Z.
Proof.
  unfold zmin_list. revert x y. induction xs as [|z xs IH]; intros x y Hy; cbn.
  - destruct Hy as [->|Hy]; [lia|by apply elem_of_nil in Hy].
  - destruct Hy as [->|Hy].
    + specialize (IH (Z.min x z) (Z.min x z) (or_introl eq_refl)). lia.
    + apply elem_of_cons in Hy as [->|Hy].
      * specialize (IH (Z.min x z) (Z.min x z) (or_introl eq_refl)). lia.
      * apply IH. by right.
Qed.
Lemma zget_zrows l D i j : i < l → j < l → zget (zrows l D) i j = D i j.
Proof.
  intros Hi Hj. unfold zget, zrows. rewrite list_lookup_fmap, lookup_seq_lt by done. cbn.
  rewrite list_lookup_fmap, lookup_seq_lt by done. done.
Qed.

Section dist.
Context (h : heap) (HO : order_inv h) (C : gset nat) (ac : list nat) (zic : bool).
Context (Hnd : NoDup ac).
Context (Hsp : ∀ a b, a ∈ ac → b ∈ ac → ¬ before h a b).
Notation l := (length ac).
Notation R := (before h).

(** Two events share a relative: a common past or a common future event (in [S]). *)
Definition share_in (S : gset nat) (a b : nat) : Prop :=
  ∃ c, c ∈ S ∧ ((R c a ∧ R c b) ∨ (R a c ∧ R b c)).

Lemma ac_spacelike i j : i < l → j < l → i ≠ j → spacelike R (ac !!! i) (ac !!! j).
Proof using Hnd Hsp.
  intros Hi Hj Hij.
  assert (Hx : ac !!! i ∈ ac) by (by apply elem_of_list_lookup_total_2).
  assert (Hy : ac !!! j ∈ ac) by (by apply elem_of_list_lookup_total_2).
  split_and!; [|by apply Hsp|by apply Hsp].
  intros E. apply Hij. eapply NoDup_lookup; [done|by apply list_lookup_lookup_total_lt|].
  rewrite E. by apply list_lookup_lookup_total_lt.
Qed.

Lemma size_two (X : gset nat) a b : a ≠ b → a ∈ X → b ∈ X → 2 ≤ size X.
Proof using.
  intros Hne Ha Hb. assert (Hs : ({[a; b]} : gset nat) ⊆ X).
  { intros z Hz. apply elem_of_union in Hz as [Hz|Hz]; apply elem_of_singleton in Hz; by subst. }
  apply subseteq_size in Hs. rewrite size_union in Hs.
  - rewrite !size_singleton in Hs. lia.
  - apply disjoint_singleton_l. by rewrite elem_of_singleton.
Qed.

Lemma SIC_two a b s i :
  spacelike R a b → a ∈ i → b ∈ i →
  (SmallestIntervalCard h C a b (Some s) (Some i) = 0 ∧ ¬ share_in s a b) ∨
  (2 ≤ SmallestIntervalCard h C a b (Some s) (Some i) ∧ share_in s a b).
Proof using HO.
  intros Hs Ha Hb.
  set (n := SmallestIntervalCard h C a b (Some s) (Some i)).
  pose proof (C40_spacelike h C a b (Some s) (Some i) n HO Hs) as H. cbn in H.
  destruct H as (H1 & H2 & H3 & H4). fold n in H1, H2, H3, H4.
  destruct Hs as (Hne & _).
  destruct (decide (Past h a ∩ Past h b ∩ s = ∅)) as [Ep|Ep];
  destruct (decide (Future h a ∩ Future h b ∩ s = ∅)) as [Ef|Ef].
  - assert (Hp : ¬ ∃ p, p ∈ s ∧ R p a ∧ R p b).
    { intros (p & Hps & Hpa & Hpb). assert (p ∈ (∅ : gset nat)) as Hx; [|by apply elem_of_empty in Hx].
      rewrite <- Ep. rewrite !elem_of_intersection. done. }
    assert (Hf : ¬ ∃ p, p ∈ s ∧ R a p ∧ R b p).
    { intros (p & Hps & Hpa & Hpb). assert (p ∈ (∅ : gset nat)) as Hx; [|by apply elem_of_empty in Hx].
      rewrite <- Ef. rewrite !elem_of_intersection. unfold Future. by rewrite <- !(oi_conv h HO). }
    left. split; [by apply H2|]. intros (c & Hc & [[? ?]|[? ?]]); [apply Hp|apply Hf]; eauto.
  - assert (Hp : ¬ ∃ p, p ∈ s ∧ R p a ∧ R p b).
    { intros (p & Hps & Hpa & Hpb). assert (p ∈ (∅ : gset nat)) as Hx; [|by apply elem_of_empty in Hx].
      rewrite <- Ep. rewrite !elem_of_intersection. done. }
    apply set_choose_L in Ef as [f Hf]. rewrite !elem_of_intersection in Hf. unfold Future in Hf.
    rewrite <- !(oi_conv h HO) in Hf. destruct Hf as [[Hf1 Hf2] Hf3].
    right. destruct (proj1 (H3 Hp (ex_intro _ f (conj Hf3 (conj Hf1 Hf2)))) eq_refl) as [(g & Hg & Hn) _].
    split.
    + rewrite <- Hn. cbn. apply (size_two _ a b Hne); apply elem_of_intersection; split;
        unfold Past; tauto.
    + exists f. tauto.
  - assert (Hf : ¬ ∃ p, p ∈ s ∧ R a p ∧ R b p).
    { intros (p & Hps & Hpa & Hpb). assert (p ∈ (∅ : gset nat)) as Hx; [|by apply elem_of_empty in Hx].
      rewrite <- Ef. rewrite !elem_of_intersection. unfold Future. by rewrite <- !(oi_conv h HO). }
    apply set_choose_L in Ep as [p Hp]. rewrite !elem_of_intersection in Hp.
    destruct Hp as [[Hp1 Hp2] Hp3].
    right. destruct (proj1 (H4 (ex_intro _ p (conj Hp3 (conj Hp1 Hp2))) Hf) eq_refl) as [(g & Hg & Hn) _].
    split.
    + rewrite <- Hn. cbn. apply (size_two _ a b Hne); apply elem_of_intersection; split;
        unfold Future; rewrite <- ?(oi_conv h HO); tauto.
    + exists p. tauto.
  - apply set_choose_L in Ep as [p Hp]. rewrite !elem_of_intersection in Hp.
    destruct Hp as [[Hp1 Hp2] Hp3].
    apply set_choose_L in Ef as [f Hf]. rewrite !elem_of_intersection in Hf. unfold Future in Hf.
    rewrite <- !(oi_conv h HO) in Hf. destruct Hf as [[Hf1 Hf2] Hf3].
    right. destruct (proj1 (H1 (ex_intro _ p (conj Hp3 (conj Hp1 Hp2)))
                             (ex_intro _ f (conj Hf3 (conj Hf1 Hf2)))) eq_refl)
      as [(p' & f' & Hp' & Hf' & Hn) _].
    split.
    + rewrite <- Hn. cbn.
      assert (Hab : before h p' f') by (eapply (oi_trans h HO); [apply Hp'|apply Hf']).
      apply (size_two _ a b Hne); apply elem_of_intersection; (split; [|done]);
        apply (Interval_spec h HO p' f'); tauto.
    + exists p. tauto.
Qed.

Lemma dm_value_cases slice i j :
  i < l → j < l → i ≠ j →
  (dm_value h C ac zic slice i j = (-1)%Z ∧ ¬ share_in slice (ac !!! i) (ac !!! j)) ∨
  ((1 <= dm_value h C ac zic slice i j)%Z ∧ share_in slice (ac !!! i) (ac !!! j) ∧
   (zic = true → dm_value h C ac zic slice i j = 1%Z)).
Proof using HO Hnd Hsp.
  intros Hi Hj Hij. unfold dm_value.
  destruct (SIC_two (ac !!! i) (ac !!! j) slice (list_to_set ac)) as [[E N]|[E N]].
  - by apply ac_spacelike.
  - apply elem_of_list_to_set. by apply elem_of_list_lookup_total_2.
  - apply elem_of_list_to_set. by apply elem_of_list_lookup_total_2.
  - left. rewrite E. by destruct zic.
  - right. split_and!; [|done|].
    + destruct zic; lia.
    + intros ->. lia.
Qed.

(** * The direct pass *)
Lemma direct_fold (v : nat → nat → Z) ps (D : zmat) :
  (∀ i j, (i, j) ∈ ps → i < j) →
  let D' := foldl (λ (D : zmat) '(i, j), if decide (D i j < 1)%Z then zset2 D i j (v i j) else D) D ps in
  (∀ x, D' x x = D x x) ∧
  (∀ x y, x < y → (x, y) ∈ ps → (D x y < 1)%Z → D' x y = v x y ∧ D' y x = v x y) ∧
  (∀ x y, x < y → (x, y) ∉ ps ∨ ¬ (D x y < 1)%Z → D' x y = D x y ∧ D' y x = D y x).
Proof using.
  revert D. induction ps as [|[i j] ps IH]; intros D Hps; cbn.
  - split_and!; try done. intros x y _ H. by apply elem_of_nil in H.
  - assert (Hij : i < j) by (apply Hps, elem_of_list_here).
    assert (Hps' : ∀ i j, (i, j) ∈ ps → i < j) by (intros ???; apply Hps; by apply elem_of_list_further).
    destruct (decide (D i j < 1)%Z) as [Hlt|Hlt].
    + destruct (IH (zset2 D i j (v i j)) Hps') as (H1 & H2 & H3).
      destruct (zset2_eq D i j (v i j)) as [E1 E2].
      split_and!.
      * intros x. rewrite H1. apply zset2_ne; intros [-> ?]; lia.
      * intros x y Hxy Hin Hv. destruct (decide ((x, y) = (i, j))) as [[= -> ->]|Hne].
        -- destruct (decide ((i, j) ∈ ps ∧ (v i j < 1)%Z)) as [[Hi1 Hi2]|Hn].
           ++ apply H2; try done. by rewrite E1.
           ++ rewrite <- E1 in Hn at 1.
              destruct (H3 i j Hij) as [-> ->]; [|done].
              destruct (decide ((i, j) ∈ ps)); [right; tauto|by left].
        -- apply elem_of_cons in Hin as [Hin|Hin]; [done|].
           apply H2; try done. rewrite zset2_ne; [done| |intros [-> ->]; lia]. intros [-> ->]. done.
      * intros x y Hxy Hor. destruct (decide ((x, y) = (i, j))) as [[= -> ->]|Hne].
        -- destruct Hor as [Hor|Hor]; [|done]. destruct Hor. apply elem_of_list_here.
        -- assert (Ex : zset2 D i j (v i j) x y = D x y).
           { apply zset2_ne; [intros [-> ->]; done|intros [-> ->]; lia]. }
           assert (Ey : zset2 D i j (v i j) y x = D y x).
           { apply zset2_ne; [intros [-> ->]; lia|intros [-> ->]; done]. }
           rewrite <- Ex, <- Ey. apply H3; [done|]. rewrite Ex.
           destruct Hor as [Hor|Hor]; [left|by right]. intros Hin. apply Hor.
           by apply elem_of_list_further.
    + destruct (IH D Hps') as (H1 & H2 & H3). split_and!; try done.
      * intros x y Hxy Hin Hv. apply elem_of_cons in Hin as [[= -> ->]|Hin]; [done|]. by apply H2.
      * intros x y Hxy Hor. apply H3; [done|]. destruct Hor as [Hor|Hor]; [left|by right].
        intros Hin. apply Hor. by apply elem_of_list_further.
Qed.

(** * The invariant of the matrix *)
Definition adj (i j : nat) : Prop :=
  i < l ∧ j < l ∧ i ≠ j ∧ ∃ S, share_in S (ac !!! i) (ac !!! j).
Lemma adj_sym i j : adj i j → adj j i.
Proof using.
  intros (H1 & H2 & H3 & S & c & Hc & H4). split; [done|]. split; [done|]. split; [by intros ->|].
  exists S, c. tauto.
Qed.
Lemma nsteps_adj_sym n i j : nsteps adj n i j → nsteps adj n j i.
Proof using.
  revert i. induction n as [|n IH]; intros i Hn; inversion Hn; subst; [constructor|].
  eapply nsteps_r; [by apply IH|by apply adj_sym].
Qed.

Record dinv (D : zmat) : Prop := {
  di_sym : ∀ i j, i < l → j < l → D i j = D j i;
  di_diag : ∀ i, i < l → D i i = 0%Z;
  di_off : ∀ i j, i < l → j < l → i ≠ j → D i j = (-1)%Z ∨ (1 <= D i j)%Z;
  di_hop : ∀ i j, zic = true → i < l → j < l → (1 <= D i j)%Z → nsteps adj (Z.to_nat (D i j)) i j;
  di_one : ∀ i j, zic = true → i < l → j < l → (1 <= D i j)%Z → ∃ m, m < l ∧ D i m = 1%Z }.

(** Before the first pass every entry is 0, afterwards the invariant holds. *)
Definition dpre (D : zmat) : Prop := (∀ i j, D i j = 0%Z) ∨ dinv D.

Lemma direct_spec slice D : dpre D →
  let D' := dm_direct h C ac zic slice D in
  dinv D' ∧
  (∀ i j, i < l → j < l → i ≠ j → (D i j < 1)%Z → 
     D' i j = dm_value h C ac zic slice (i `min` j) (i `max` j)) ∧
  (∀ i j, i < l → j < l → ¬ (D i j < 1)%Z → D' i j = D i j).
Proof using HO Hnd Hsp.
  intros Hpre D'.
  destruct (direct_fold (dm_value h C ac zic slice) (combinations2 l) D) as (H1 & H2 & H3).
  { intros i j Hij%combinations2_spec. lia. }
  change (foldl _ _ _) with D' in H1, H2, H3. clearbody D'.
  assert (Dsym : ∀ i j, i < l → j < l → D i j = D j i).
  { destruct Hpre as [Hz|Hd]; intros i j Hi Hj; [by rewrite !Hz|by apply (di_sym D)]. }
  assert (Dg : ∀ i, i < l → D i i = 0%Z).
  { destruct Hpre as [Hz|Hd]; intros i Hi; [by rewrite Hz|by apply (di_diag D)]. }
  assert (Hnew : ∀ i j, i < l → j < l → i ≠ j → (D i j < 1)%Z → 
     D' i j = dm_value h C ac zic slice (i `min` j) (i `max` j)).
  { intros i j Hi Hj Hij Hlt. destruct (decide (i < j)) as [Hc|Hc].
    - rewrite Nat.min_l, Nat.max_r by lia. refine (proj1 (H2 i j Hc _ Hlt)). apply combinations2_spec. lia.
    - rewrite Nat.min_r, Nat.max_l by lia. refine (proj2 (H2 j i _ _ _)).
      + lia.
      + apply combinations2_spec. lia.
      + by rewrite <- Dsym. }
  assert (Hold : ∀ i j, i < l → j < l → ¬ (D i j < 1)%Z → D' i j = D i j).
  { intros i j Hi Hj Hge. destruct (decide (i = j)) as [->|Hij]; [by rewrite H1|].
    destruct (decide (i < j)) as [Hc|Hc].
    - exact (proj1 (H3 i j Hc (or_intror Hge))).
    - refine (proj2 (H3 j i _ (or_intror _))); [lia|]. by rewrite <- Dsym. }
  split_and!; [|done|done].
  assert (Hcase : ∀ i j, i < l → j < l → i ≠ j →
    ((D i j < 1)%Z ∧ D' i j = dm_value h C ac zic slice (i `min` j) (i `max` j)) ∨
    ((1 <= D i j)%Z ∧ D' i j = D i j)).
  { intros i j Hi Hj Hij. destruct (decide (D i j < 1)%Z); [left; auto|right].
    split; [lia|auto]. }
  assert (Hval : ∀ i j, i < l → j < l → i ≠ j →
    let v := dm_value h C ac zic slice (i `min` j) (i `max` j) in
    v = (-1)%Z ∨ ((1 <= v)%Z ∧ adj i j ∧ (zic = true → v = 1%Z))).
  { intros i j Hi Hj Hij. cbn.
    destruct (dm_value_cases slice (i `min` j) (i `max` j)) as [[E N]|(E & N & Z)];
      [lia|lia|lia|by left|]. right. split_and!; try done.
    assert (Ha : adj (i `min` j) (i `max` j)) by (split_and!; try lia; by exists slice).
    destruct (decide (i < j)) as [Hc|Hc].
    - by rewrite Nat.min_l, Nat.max_r in Ha by lia.
    - rewrite Nat.min_r, Nat.max_l in Ha by lia. by apply adj_sym. }
  split.
  - intros i j Hi Hj. destruct (decide (i = j)) as [->|Hij]; [done|].
    destruct (Hcase i j Hi Hj Hij) as [[Ha ->]|[Ha ->]].
    + rewrite Nat.min_comm, Nat.max_comm. symmetry. apply (Hnew j i Hj Hi); [by intros ->|].
      by rewrite <- Dsym.
    + rewrite Dsym by done. symmetry. apply (Hold j i Hj Hi). rewrite <- Dsym by done. lia.
  - intros i Hi. rewrite H1. by apply Dg.
  - intros i j Hi Hj Hij. destruct (Hcase i j Hi Hj Hij) as [[Ha ->]|[Ha ->]].
    + destruct (Hval i j Hi Hj Hij) as [->|(? & _)]; [by left|by right].
    + by right.
  - intros i j Hz Hi Hj Hpos. destruct (decide (i = j)) as [->|Hij].
    { rewrite H1, Dg in Hpos by done. lia. }
    destruct (Hcase i j Hi Hj Hij) as [[Ha E]|[Ha E]]; rewrite E in Hpos |- *.
    + destruct (Hval i j Hi Hj Hij) as [E'|(_ & Hadj & E')].
      * rewrite E' in Hpos. lia.
      * rewrite (E' Hz). cbn. eapply nsteps_l; [done|]. constructor.
    + destruct Hpre as [Hz'|Hd]; [rewrite Hz' in Hpos; lia|]. by apply (di_hop D Hd).
  - intros i j Hz Hi Hj Hpos. destruct (decide (i = j)) as [->|Hij].
    { rewrite H1, Dg in Hpos by done. lia. }
    destruct (Hcase i j Hi Hj Hij) as [[Ha E]|[Ha E]]; rewrite E in Hpos.
    + destruct (Hval i j Hi Hj Hij) as [E'|(_ & Hadj & E')].
      * rewrite E' in Hpos. lia.
      * exists j. split; [done|]. rewrite E. auto.
    + destruct Hpre as [Hz'|Hd]; [rewrite Hz' in Hpos; lia|].
      destruct (di_one D Hd i j Hz Hi Hj Hpos) as (m & Hm & Em). exists m. split; [done|].
      rewrite Hold; try done. lia.
Qed.

(** * The extension pass *)
Lemma dinv_set D i j k m :
  dinv D → i < l → j < l → (D i j < 0)%Z → m < l → D i m = k → (1 <= k)%Z → D j m = 1%Z →
  dinv (zset2 D i j (k + 1)).
Proof using.
  intros Hd Hi Hj Hneg Hm Him Hk Hjm.
  assert (Hij : i ≠ j) by (intros ->; rewrite (di_diag D Hd j Hj) in Hneg; lia).
  assert (Hji : (D j i < 0)%Z) by (by rewrite (di_sym D Hd) by done).
  destruct (zset2_eq D i j (k + 1)) as [E1 E2].
  assert (Hc : ∀ x y, (x = i ∧ y = j) ∨ (x = j ∧ y = i) ∨ zset2 D i j (k + 1) x y = D x y).
  { intros x y. destruct (decide (x = i ∧ y = j)); [by left|].
    destruct (decide (x = j ∧ y = i)); [by right; left|]. right; right. by apply zset2_ne. }
  assert (Hkeep : ∀ x y, (0 <= D x y)%Z → zset2 D i j (k + 1) x y = D x y).
  { intros x y Hxy. destruct (Hc x y) as [[-> ->]|[[-> ->]|H]]; [lia|lia|done]. }
  split.
  - intros x y Hx Hy. destruct (Hc x y) as [[-> ->]|[[-> ->]|H]]; [by rewrite E1, E2|by rewrite E1, E2|].
    destruct (Hc y x) as [[-> ->]|[[-> ->]|H']]; [by rewrite E1, E2|by rewrite E1, E2|].
    rewrite H, H'. by apply (di_sym D Hd).
  - intros x Hx. destruct (Hc x x) as [[-> ->]|[[-> ->]|H]]; [done|done|].
    rewrite H. by apply (di_diag D Hd).
  - intros x y Hx Hy Hxy. destruct (Hc x y) as [[-> ->]|[[-> ->]|H]].
    + rewrite E1. lia.
    + rewrite E2. lia.
    + rewrite H. by apply (di_off D Hd).
  - intros x y Hz Hx Hy Hpos.
    assert (Hs : nsteps adj (Z.to_nat (k + 1)) i j).
    { replace (Z.to_nat (k + 1)) with (S (Z.to_nat k)) by lia. apply (nsteps_r _ i m j).
      - rewrite <- Him. apply (di_hop D Hd); try done. lia.
      - pose proof (di_hop D Hd j m Hz Hj Hm) as Hs. rewrite Hjm in Hs. cbn in Hs.
        apply nsteps_once_inv in Hs; [|lia]. by apply adj_sym. }
    destruct (Hc x y) as [[-> ->]|[[-> ->]|H]].
    + by rewrite E1.
    + rewrite E2. by apply nsteps_adj_sym.
    + rewrite H in Hpos |- *. by apply (di_hop D Hd).
  - intros x y Hz Hx Hy Hpos.
    assert (Hex : ∃ n, n < l ∧ D x n = 1%Z).
    { destruct (Hc x y) as [[-> ->]|[[-> ->]|H]].
      - apply (di_one D Hd i m); try done. lia.
      - by exists m.
      - rewrite H in Hpos. by apply (di_one D Hd x y). }
    destruct Hex as (n & Hn & En). exists n. split; [done|]. rewrite Hkeep; [done|lia].
Qed.

(** Entries that are not negative never change. *)
Definition keeps (D D' : zmat) : Prop :=
  ∀ i j, i < l → j < l → (0 <= D i j)%Z → D' i j = D i j.
Lemma keeps_refl D : keeps D D.
Proof using. by intros i j. Qed.
Lemma keeps_trans D1 D2 D3 : keeps D1 D2 → keeps D2 D3 → keeps D1 D3.
Proof using. intros H1 H2 i j Hi Hj Hp. rewrite H2; rewrite ?H1; done. Qed.

Lemma body_spec i k conn js D count done :
  i < l → (1 <= k)%Z → dinv D → NoDup js →
  (∀ j, j ∈ js → j < l ∧ (D i j < 0)%Z) →
  (∀ m, m < l → conn m = true → D i m = k) →
  let st := foldl (dm_body l i conn) (D, count, done) js in
  dinv (fst (fst st)) ∧ keeps D (fst (fst st)).
Proof using.
  intros Hi Hk. revert D count done. induction js as [|j js IH]; intros D count dn Hd Hjs Hneg Hconn.
  - cbn. split; [done|apply keeps_refl].
  - apply NoDup_cons in Hjs as [Hj Hjs].
    assert (Hneg' : ∀ j, j ∈ js → j < l ∧ (D i j < 0)%Z).
    { intros j' Hj'. apply Hneg. by apply elem_of_list_further. }
    destruct (Hneg j (elem_of_list_here _ _)) as [Hjl Hjn].
    cbn [foldl]. unfold dm_body at 2 4. destruct dn; [by apply IH|].
    destruct (filter (λ m, conn m = true ∧ D j m = 1%Z) (seq 0 l)) as [|m ms] eqn:Ef; [by apply IH|].
    assert (Hall : ∀ n, n ∈ m :: ms → n < l ∧ D i n = k ∧ D j n = 1%Z).
    { intros n Hn. rewrite <- Ef in Hn. apply elem_of_list_filter in Hn as [[H1 H2] H3].
      apply elem_of_seq in H3. split_and!; [lia| |done]. apply Hconn; [lia|done]. }
    rewrite (zmin_list_const _ _ (k + 1)).
    2:{ destruct (Hall m (elem_of_list_here _ _)) as (_ & -> & ->). done. }
    2:{ intros y Hy. apply elem_of_list_fmap in Hy as (n & -> & Hn).
        destruct (Hall n) as (_ & -> & ->); [by apply elem_of_list_further|done]. }
    destruct (Hall m (elem_of_list_here _ _)) as (Hm & Him & Hjm).
    assert (Hij : i ≠ j) by (intros ->; rewrite (di_diag D Hd j Hjl) in Hjn; lia).
    assert (Hji : (D j i < 0)%Z) by (by rewrite (di_sym D Hd) by done).
    assert (Hk1 : keeps D (zset2 D i j (k + 1))).
    { intros x y _ _ Hxy. apply zset2_ne; intros [-> ->]; lia. }
    destruct (IH (zset2 D i j (k + 1)) (count - 2)%Z (bool_decide (count - 2 = 0)%Z)) as [H1 H2].
    + by apply (dinv_set D i j k m).
    + done.
    + intros j' Hj'. destruct (Hneg' j' Hj') as [H1 H2]. split; [done|].
      rewrite zset2_ne; [done|intros [_ ->]; done|intros [-> ->]; done].
    + intros n Hn Hc. rewrite Hk1; try done; [by apply Hconn|]. rewrite Hconn; try done. lia.
    + split; [done|]. by eapply keeps_trans.
Qed.

Lemma row_spec k D count done i :
  i < l → (1 <= k)%Z → dinv D →
  let st := dm_row l k (D, count, done) i in
  dinv (fst (fst st)) ∧ keeps D (fst (fst st)).
Proof using.
  intros Hi Hk Hd. unfold dm_row. destruct done; [split; [done|apply keeps_refl]|].
  apply (body_spec i k); try done.
  - apply NoDup_filter, NoDup_seq.
  - intros j Hj. apply elem_of_list_filter in Hj as [H1 H2]. apply elem_of_seq in H2. split; [lia|done].
  - intros m _ Hm. by apply bool_decide_eq_true in Hm.
Qed.
Lemma level_spec (k : nat) st :
  1 ≤ k → dinv (fst (fst st)) →
  dinv (fst (fst (dm_level l st k))) ∧ keeps (fst (fst st)) (fst (fst (dm_level l st k))).
Proof using.
  intros Hk. unfold dm_level.
  assert (Hs : ∀ i, i ∈ seq 0 l → i < l) by (intros i Hi%elem_of_seq; lia).
  revert st Hs. generalize (seq 0 l). intros is. induction is as [|i is IH]; intros st Hs Hd.
  - cbn. split; [done|apply keeps_refl].
  - cbn. destruct st as [[D c] dn].
    destruct (row_spec (Z.of_nat k) D c dn i) as [H1 H2]; [apply Hs, elem_of_list_here|lia|done|].
    destruct (IH (dm_row l (Z.of_nat k) (D, c, dn) i)) as [H3 H4].
    + intros i' Hi'. apply Hs. by apply elem_of_list_further.
    + done.
    + split; [done|]. by eapply keeps_trans.
Qed.
Lemma extend_spec D :
  dinv D → dinv (fst (fst (dm_extend l D))) ∧ keeps D (fst (fst (dm_extend l D))).
Proof using.
  intros Hd. unfold dm_extend.
  assert (Hs : ∀ k, k ∈ seq 1 (l - 1) → 1 ≤ k) by (intros i Hi%elem_of_seq; lia).
  cut (∀ st ks, (∀ k, k ∈ ks → 1 ≤ k) → dinv (fst (fst st)) →
    dinv (fst (fst (foldl (dm_level l) st ks))) ∧
    keeps (fst (fst st)) (fst (fst (foldl (dm_level l) st ks)))).
  { intros H. exact (H (D, dm_count l D, false) _ Hs Hd). }
  clear. intros st ks. revert st. induction ks as [|k ks IH]; intros st Hk Hd; cbn.
  - split; [done|apply keeps_refl].
  - destruct (level_spec k st) as [H1 H2]; [apply Hk, elem_of_list_here|done|].
    destruct (IH (dm_level l st k)) as [H3 H4].
    + intros k' Hk'. apply Hk. by apply elem_of_list_further.
    + done.
    + split; [done|]. by eapply keeps_trans.
Qed.

(** * The while loop *)
Lemma Layers_sub (S : gset nat) f la : Layers h S f la ⊆ dom h ∪ S.
Proof using HO.
  intros x. unfold Layers. destruct (decide _); [by intros ?%elem_of_empty|].
  intros [Hx|Hx]%elem_of_union.
  - destruct (decide _); [|by apply elem_of_empty in Hx]. apply elem_of_filter in Hx as [_ Hx].
    apply PastOf_spec in Hx as [(e & He & Hb)|[_ Hx]].
    + apply elem_of_union_l. exact (prec_dom_l h HO _ _ Hb).
    + by apply elem_of_union_r.
  - destruct (decide _); [|by apply elem_of_empty in Hx]. apply elem_of_filter in Hx as [_ Hx].
    apply FutureOf_spec in Hx as [(e & He & Hb)|[_ Hx]].
    + apply elem_of_union_l. exact (succ_dom_l h HO _ _ Hb).
    + by apply elem_of_union_r.
Qed.

Lemma loop_spec recursive fuel slice thicker D :
  slice ⊆ dom h ∪ list_to_set ac → thicker ⊆ dom h ∪ list_to_set ac →
  size (dom h ∪ list_to_set ac) < fuel + size slice → dpre D →
  ∃ D', dm_loop fuel h C ac zic recursive slice thicker D = Ok D' ∧ dpre D' ∧
    (dinv D → dinv D' ∧ keeps D D') ∧ (size slice < size thicker → dinv D').
Proof using HO Hnd Hsp.
  revert slice thicker D. induction fuel as [|fuel IH]; intros slice thicker D Hs Ht Hf Hp.
  { apply subseteq_size in Hs. lia. }
  cbn [dm_loop]. destruct (decide (size slice < size thicker)) as [Hlt|Hge].
  2:{ exists D. split_and!; try done. }
  destruct (direct_spec thicker D Hp) as (Hd1 & Hnew & Hold).
  assert (Hk1 : dinv D → keeps D (dm_direct h C ac zic thicker D)).
  { intros Hd i j Hi Hj Hpos. destruct (decide (i = j)) as [->|Hij].
    - by rewrite (di_diag _ Hd1), (di_diag _ Hd) by done.
    - apply Hold; try done. destruct (di_off _ Hd i j Hi Hj Hij); lia. }
  destruct recursive.
  2:{ eexists. split; [done|]. split; [by right|]. split; [|done]. auto. }
  destruct (extend_spec _ Hd1) as [Hd2 Hk2].
  destruct (dm_extend l (dm_direct h C ac zic thicker D)) as [[D2 c] dn]. cbn in Hd2, Hk2.
  destruct dn.
  { exists D2. split; [done|]. split; [by right|]. split; [|done]. intros Hd.
    split; [done|]. eapply keeps_trans; [|done]. by apply Hk1. }
  destruct (IH thicker (Layers h thicker (-1) (Some 1%Z)) D2) as (D' & E & H1 & H2 & H3).
  - done.
  - intros x Hx. apply Layers_sub in Hx. apply elem_of_union in Hx as [Hx|Hx]; [by apply elem_of_union_l|].
    by apply Ht.
  - lia.
  - by right.
  - exists D'. destruct (H2 Hd2) as [H4 H5]. split_and!; try done. intros Hd. split; [done|].
    eapply keeps_trans; [by apply Hk1|]. by eapply keeps_trans.
Qed.

(** * The neighbouring layers *)
Lemma neighbour_layer :
  (∃ e, e ∈ ac ∧ (prec h e ≠ ∅ ∨ succ h e ≠ ∅)) →
  size (list_to_set ac : gset nat) < size (Layers h (list_to_set ac) (-1) (Some 1%Z)).
Proof using HO Hnd Hsp.
  set (A := list_to_set ac : gset nat).
  assert (HA : ∀ a b, a ∈ A → b ∈ A → ¬ before h a b).
  { intros a b Ha%elem_of_list_to_set Hb%elem_of_list_to_set. by apply Hsp. }
  assert (Hin : ∀ x, x ∈ A ↔ x ∈ ac) by (intros x; apply elem_of_list_to_set).
  clearbody A. intros (e & He & Hrel). apply Hin in He. apply subset_size.
  assert (Hx : ∃ x, x ∉ A ∧ x ∈ Layers h A (-1) (Some 1%Z)).
  { destruct Hrel as [Hrel|Hrel].
    - destruct (max_of_in (λ x, size (prec h x)) (PastOf h A false false)) as (x & Hx & Hm).
      { apply set_choose_L in Hrel as [y Hy]. intros E.
        assert (y ∈ PastOf h A false false) as Hc by (apply PastOf_spec; left; eauto).
        rewrite E in Hc. by apply elem_of_empty in Hc. }
      apply PastOf_spec in Hx as [(b & Hb & Hxb)|[? _]]; [|done].
      assert (Hcov : ∀ b, b ∈ A → before h x b → size (Interval h x b true) = 2).
      { intros b' Hb' Hxb'. rewrite <- IntervalCard_size by done. apply IntervalCard_covers; try done.
        split; [done|]. intros (y & Hxy & Hyb).
        assert (Hy : y ∈ PastOf h A false false) by (apply PastOf_spec; left; eauto).
        pose proof (max_of_ub (λ x, size (prec h x)) _ _ Hy) as Hle. rewrite Hm in Hle. cbv beta in Hle.
        pose proof (prec_smaller h HO x y Hxy). lia. }
      exists x. split; [intros HxA; exact (HA x b HxA Hb Hxb)|].
      apply (Layers_antichain h HO A HA). exists (-1)%Z. split; [|cbn; lia].
      right. right. exists 2. split_and!; [done|exists b; auto|].
      intros b' Hb' Hxb'. by rewrite Hcov.
    - destruct (max_of_in (λ x, size (succ h x)) (FutureOf h A false false)) as (x & Hx & Hm).
      { apply set_choose_L in Hrel as [y Hy]. intros E.
        assert (y ∈ FutureOf h A false false) as Hc by (apply FutureOf_spec; left; eauto).
        rewrite E in Hc. by apply elem_of_empty in Hc. }
      apply FutureOf_spec in Hx as [(b & Hb & Hxb)|[? _]]; [|done]. apply (oi_conv h HO) in Hxb.
      assert (Hcov : ∀ b, b ∈ A → before h b x → size (Interval h b x true) = 2).
      { intros b' Hb' Hxb'. rewrite <- IntervalCard_size by done. apply IntervalCard_covers; try done.
        split; [done|]. intros (y & Hxy & Hyb).
        assert (Hy : y ∈ FutureOf h A false false).
        { apply FutureOf_spec; left. exists b'. split; [done|]. by apply (oi_conv h HO). }
        pose proof (max_of_ub (λ x, size (succ h x)) _ _ Hy) as Hle. rewrite Hm in Hle. cbv beta in Hle.
        pose proof (succ_smaller h HO y x Hyb). lia. }
      exists x. split; [intros HxA; exact (HA b x Hb HxA Hxb)|].
      apply (Layers_antichain h HO A HA). exists 1%Z. split; [|cbn; lia].
      right. left. exists 2. split_and!; [done|exists b; auto|].
      intros b' Hb' Hxb'. by rewrite Hcov. }
  destruct Hx as (x & Hn & Hy). split.
  - intros z Hz. apply (Layers_antichain h HO A HA). exists 0%Z. split; [by left|cbn; lia].
  - intros Hs. by apply Hn, Hs.
Qed.
Lemma no_neighbour_layer :
  (∀ e, e ∈ ac → prec h e = ∅ ∧ succ h e = ∅) →
  Layers h (list_to_set ac) (-1) (Some 1%Z) = list_to_set ac.
Proof using HO Hsp.
  intros Hiso.
  set (A := list_to_set ac : gset nat).
  assert (HA : ∀ a b, a ∈ A → b ∈ A → ¬ before h a b).
  { intros a b Ha%elem_of_list_to_set Hb%elem_of_list_to_set. by apply Hsp. }
  apply set_eq. intros x. rewrite (Layers_antichain h HO A HA). split.
  - intros (n & Hn & _). destruct Hn as [[? _]|[(m & _ & (a & Ha & Hb & _) & _)|(m & _ & (a & Ha & Hb & _) & _)]]; [done| |].
    + apply elem_of_list_to_set in Ha. apply Hiso in Ha as [_ Ha]. apply (oi_conv h HO) in Hb.
      rewrite Ha in Hb. by apply elem_of_empty in Hb.
    + apply elem_of_list_to_set in Ha. apply Hiso in Ha as [Ha _]. unfold before in Hb.
      rewrite Ha in Hb. by apply elem_of_empty in Hb.
  - intros Hx. exists 0%Z. split; [by left|cbn; lia].
Qed.
End dist.
