(** Theorems about DistanceMatrix (C41) and Antipaths (C42). *)
From Verif Require Import Base Spec EventModel EventFacts History HistoryFacts PathFacts RankFacts
  EventProps CausetModel CausetFacts IntervalFacts LayerFacts DistModel DistFacts Prop_Event
  Prop_Causet.

(** Entry (i, j) of a matrix given by its rows. *)
Definition entry (M : list (list Z)) (i j : nat) (z : Z) : Prop :=
  ∃ row, M !! i = Some row ∧ row !! j = Some z.
(** Two different events of a list have a common past or a common future event. *)
Definition share (h : heap) (l : list nat) (a b : nat) : Prop :=
  a ∈ l ∧ b ∈ l ∧ a ≠ b ∧
  ∃ c, (before h c a ∧ before h c b) ∨ (before h a c ∧ before h b c).

Lemma entry_zrows l D i j z : entry (zrows l D) i j z ↔ i < l ∧ j < l ∧ z = D i j.
Proof.
  unfold entry, zrows. split.
  - intros (row & H1 & H2). apply list_lookup_fmap_Some in H1 as (x & H1 & ->).
    apply lookup_seq in H1 as [-> H1]. apply list_lookup_fmap_Some in H2 as (y & H2 & ->).
    apply lookup_seq in H2 as [-> H2]. done.
  - intros (Hi & Hj & ->). exists (D i <$> seq 0 l). split.
    + by rewrite list_lookup_fmap, lookup_seq_lt by done.
    + by rewrite list_lookup_fmap, lookup_seq_lt by done.
Qed.

Section proofs.
Context (h : heap) (HO : order_inv h) (C : gset nat) (ac : list nat).
Context (Hnd : NoDup ac).
Context (Hsp : ∀ a b, a ∈ ac → b ∈ ac → ¬ before h a b).
Notation l := (length ac).
Let s : gset nat := list_to_set ac.

Lemma dm_result zic recursive :
  ∃ D, dm_loop (S (size (dom h ∪ s))) h C ac zic recursive s (Layers h s (-1) (Some 1%Z)) zzero = Ok D ∧
    dpre h ac zic D ∧
    ((∃ e, e ∈ ac ∧ (prec h e ≠ ∅ ∨ succ h e ≠ ∅)) → dinv h ac zic D ∧
       keeps ac (dm_direct h C ac zic (Layers h s (-1) (Some 1%Z)) zzero) D ∧
       (recursive = false → D = dm_direct h C ac zic (Layers h s (-1) (Some 1%Z)) zzero)) ∧
    ((∀ e, e ∈ ac → prec h e = ∅ ∧ succ h e = ∅) → ∀ i j, D i j = 0%Z).
Proof using HO Hnd Hsp.
  destruct (loop_spec h HO C ac zic Hnd Hsp recursive (S (size (dom h ∪ s))) s
              (Layers h s (-1) (Some 1%Z)) zzero) as (D & E & H1 & H2 & H3).
  { intros x. apply elem_of_union_r. }
  { by apply Layers_sub. }
  { change (list_to_set ac) with s. lia. }
  { by left. }
  exists D. split; [done|]. split; [done|]. split.
  - intros Hrel. pose proof (neighbour_layer h HO ac Hnd Hsp Hrel) as Hlt. split; [by apply H3|].
    cbn [dm_loop] in E. rewrite decide_True in E by done.
    set (T := Layers h s (-1) (Some 1%Z)) in *.
    destruct recursive.
    2:{ injection E as <-. split; [|done]. by intros i j. }
    split; [|done].
    destruct (direct_spec h HO C ac zic Hnd Hsp T zzero) as (Hd1 & _ & _); [by left|].
    destruct (extend_spec h ac zic _ Hd1) as [Hd2 Hk2].
    destruct (dm_extend l (dm_direct h C ac zic T zzero)) as [[D2 c] dn]. cbn in Hd2, Hk2.
    destruct dn; [by injection E as <-|].
    destruct (loop_spec h HO C ac zic Hnd Hsp true (size (dom h ∪ s)) T
              (Layers h T (-1) (Some 1%Z)) D2) as (D' & E' & _ & H5 & _).
    + by apply Layers_sub.
    + intros x Hx. apply (Layers_sub h HO) in Hx. apply elem_of_union in Hx as [Hx|Hx]; [by apply elem_of_union_l|].
      by apply (Layers_sub h HO) in Hx.
    + change (size s < size T) in Hlt. change (list_to_set ac) with s. lia.
    + by right.
    + rewrite E in E'. injection E' as <-. eapply keeps_trans; [exact Hk2|]. by apply H5.
  - intros Hiso. cbn [dm_loop] in E.
    pose proof (no_neighbour_layer h HO ac Hsp Hiso) as Heq. change (list_to_set ac) with s in Heq.
    rewrite Heq in E. rewrite decide_False in E by lia. by injection E as <-.
Qed.
End proofs.

Lemma antichain_nolt (h : heap) (ac : list nat) :
  order_inv h →
  (∀ a b, a ∈ ac → b ∈ ac → a ≠ b → spacelike (before h) a b) →
  ∀ a b, a ∈ ac → b ∈ ac → ¬ before h a b.
Proof.
  intros HO Hsp a b Ha Hb Hab. destruct (decide (a = b)) as [->|Hne].
  - by apply (oi_irr h HO b).
  - by destruct (Hsp a b Ha Hb Hne) as (_ & ? & _).
Qed.

(** ** C41 *)
Theorem C41_counting_names (h : heap) (C : gset nat) (ac : list nat) (counting : string)
    (recursive : bool) :
  counting ≠ "ziczac" → counting ≠ "intersection" →
  DistanceMatrix h C ac counting recursive = Err ValueError.
Proof.
  intros H1 H2. unfold DistanceMatrix.
  by rewrite !bool_decide_false by done.
Qed.
Print Assumptions C41_counting_names.

Theorem C41_DistanceMatrix (h : heap) (C : gset nat) (ac : list nat) (counting : string)
    (recursive : bool) :
  order_inv h → NoDup ac →
  (∀ a b, a ∈ ac → b ∈ ac → a ≠ b → spacelike (before h) a b) →
  counting = "ziczac" ∨ counting = "intersection" →
  ∃ M, DistanceMatrix h C ac counting recursive = Ok M ∧
    (* shape *)
    (∀ i j, (∃ z, entry M i j z) ↔ i < length ac ∧ j < length ac) ∧
    (* symmetric, zero diagonal *)
    (∀ i j z, entry M i j z → entry M j i z) ∧
    (∀ i z, entry M i i z → z = 0%Z) ∧
    (* without any related event the matrix is zero, otherwise -1 or positive *)
    ((∀ e, e ∈ ac → Past h e = ∅ ∧ Future h e = ∅) → ∀ i j z, entry M i j z → z = 0%Z) ∧
    ((∃ e, e ∈ ac ∧ (Past h e ≠ ∅ ∨ Future h e ≠ ∅)) →
       ∀ i j z, i ≠ j → entry M i j z → z = (-1)%Z ∨ (1 <= z)%Z).
Proof.
  intros HO Hnd Hsp Hc. pose proof (antichain_nolt h ac HO Hsp) as Hlt.
  unfold DistanceMatrix.
  replace (negb (bool_decide (counting = "ziczac")) && negb (bool_decide (counting = "intersection")))
    with false by (destruct Hc as [-> | ->]; done).
  destruct (dm_result h HO C ac Hnd Hlt (bool_decide (counting = "ziczac")) recursive)
    as (D & E & Hpre & Hrel & Hiso).
  rewrite E. exists (zrows (length ac) D). split; [done|].
  assert (Hs : ∀ i j, i < length ac → j < length ac → D i j = D j i).
  { destruct Hpre as [Hz|Hd]; intros i j Hi Hj; [by rewrite !Hz|by apply (di_sym _ _ _ _ Hd)]. }
  assert (Hg : ∀ i, i < length ac → D i i = 0%Z).
  { destruct Hpre as [Hz|Hd]; intros i Hi; [by rewrite Hz|by apply (di_diag _ _ _ _ Hd)]. }
  split_and!.
  - intros i j. split.
    + intros (z & Hz). apply entry_zrows in Hz. tauto.
    + intros [Hi Hj]. exists (D i j). by apply entry_zrows.
  - intros i j z. rewrite !entry_zrows. intros (Hi & Hj & ->). split_and!; try done. by apply Hs.
  - intros i z. rewrite entry_zrows. intros (Hi & _ & ->). by apply Hg.
  - intros H i j z. rewrite entry_zrows. intros (_ & _ & ->). by apply Hiso.
  - intros H i j z Hij. rewrite entry_zrows. intros (Hi & Hj & ->).
    destruct (Hrel H) as [Hd _]. by apply (di_off _ _ _ _ Hd).
Qed.
Print Assumptions C41_DistanceMatrix.

Lemma nsteps_share (h : heap) (ac : list nat) n i j :
  NoDup ac → nsteps (adj h ac) n i j → nsteps (share h ac) n (ac !!! i) (ac !!! j).
Proof.
  intros Hnd. revert i. induction n as [|n IH]; intros i Hn; inversion Hn as [|? ? m ? Ha Hr]; subst.
  - constructor.
  - eapply nsteps_l; [|by apply IH].
    destruct Ha as (Hi & Hm & Hne & S & c & _ & Hc). split_and!.
    + by apply elem_of_list_lookup_total_2.
    + by apply elem_of_list_lookup_total_2.
    + intros Heq. apply Hne. eapply NoDup_lookup; [done|by apply list_lookup_lookup_total_lt|].
      rewrite Heq. by apply list_lookup_lookup_total_lt.
    + by exists c.
Qed.

(** Meaning of the entries for 'intersection' counting: for two events that share an event in the
    neighbouring layers of the antichain the entry is one less than the number of events of the
    antichain in the smallest interval around them (SmallestIntervalCard, see C40); without
    recursion this is so for every pair (no shared event: -1). *)
Theorem C41_intersection (h : heap) (C : gset nat) (ac : list nat) (recursive : bool)
    (M : list (list Z)) :
  order_inv h → NoDup ac →
  (∀ a b, a ∈ ac → b ∈ ac → a ≠ b → spacelike (before h) a b) →
  (∃ e, e ∈ ac ∧ (Past h e ≠ ∅ ∨ Future h e ≠ ∅)) →
  DistanceMatrix h C ac "intersection" recursive = Ok M →
  ∀ i j a b z, ac !! i = Some a → ac !! j = Some b → i ≠ j → entry M i j z →
    let n := SmallestIntervalCard h C a b (Some (Layers h (list_to_set ac) (-1) (Some 1%Z)))
               (Some (list_to_set ac)) in
    n ≠ 1 ∧
    (n ≠ 0 → z = (Z.of_nat n - 1)%Z) ∧
    (recursive = false → z = (Z.of_nat n - 1)%Z).
Proof.
  intros HO Hnd Hsp Hr HM. pose proof (antichain_nolt h ac HO Hsp) as Hlt.
  unfold DistanceMatrix in HM.
  destruct (dm_result h HO C ac Hnd Hlt false recursive) as (D & E & _ & Hrel & _).
  destruct (Hrel Hr) as (Hd & Hk & Hrec). clear Hrel.
  change (bool_decide ("intersection" = "ziczac")) with false in HM. cbn [negb andb] in HM.
  rewrite bool_decide_true in HM by done. cbn [negb] in HM.
  rewrite E in HM. injection HM as <-.
  intros i j a b z Ha Hb Hij Hz. apply entry_zrows in Hz as (Hi & Hj & ->).
  pose proof (list_lookup_total_correct _ _ _ Ha) as Ea.
  pose proof (list_lookup_total_correct _ _ _ Hb) as Eb.
  set (T := Layers h (list_to_set ac) (-1) (Some 1%Z)) in *.
  destruct (direct_spec h HO C ac false Hnd Hlt T zzero) as (_ & Hv & _); [by left|].
  assert (Hval : dm_direct h C ac false T zzero i j =
    (Z.of_nat (SmallestIntervalCard h C a b (Some T) (Some (list_to_set ac))) - 1)%Z).
  { rewrite Hv by done. unfold dm_value. destruct (decide (i < j)) as [Hc|Hc].
    - by rewrite Nat.min_l, Nat.max_r, Ea, Eb by lia.
    - rewrite Nat.min_r, Nat.max_l, Ea, Eb by lia. by rewrite (C40_symmetric h C b a) by done. }
  assert (HaA : a ∈ ac) by (by eapply elem_of_list_lookup_2).
  assert (HbA : b ∈ ac) by (by eapply elem_of_list_lookup_2).
  assert (Hne : a ≠ b). { intros ->. apply Hij. by eapply NoDup_lookup. }
  intros n. fold n in Hval. split_and!.
  - destruct (SIC_two h HO C a b T (list_to_set ac) (Hsp a b HaA HbA Hne)) as [[Hn _]|[Hn _]];
      [by apply elem_of_list_to_set|by apply elem_of_list_to_set| |]; fold n in Hn; lia.
  - intros Hn. rewrite <- Hval. apply Hk; [done|done|]. rewrite Hval. lia.
  - intros H0. rewrite (Hrec H0). exact Hval.
Qed.
Print Assumptions C41_intersection.

(** Meaning of the entries for the default counting: a positive entry d between two events
    stands for a walk of d steps along the antichain in which any two neighbours have a common
    past or future event; two events with a common event in the layers -1 or 1 of the
    antichain have distance 1; and without recursion these are the only positive entries. *)
Theorem C41_ziczac_meaning (h : heap) (C : gset nat) (ac : list nat) (recursive : bool)
    (M : list (list Z)) :
  order_inv h → NoDup ac →
  (∀ a b, a ∈ ac → b ∈ ac → a ≠ b → spacelike (before h) a b) →
  DistanceMatrix h C ac "ziczac" recursive = Ok M →
  let near a b := ∃ c n, layer_number h (list_to_set ac) c n ∧
        ((n = (-1)%Z ∧ before h c a ∧ before h c b) ∨ (n = 1%Z ∧ before h a c ∧ before h b c)) in
  ∀ i j a b z, ac !! i = Some a → ac !! j = Some b → entry M i j z →
    ((1 <= z)%Z → nsteps (share h ac) (Z.to_nat z) a b) ∧
    (i ≠ j → near a b → z = 1%Z) ∧
    (recursive = false → (1 <= z)%Z → near a b).
Proof.
  intros HO Hnd Hsp HM near. pose proof (antichain_nolt h ac HO Hsp) as Hlt.
  unfold DistanceMatrix in HM.
  destruct (dm_result h HO C ac Hnd Hlt true recursive) as (D & E & Hpre & Hrel & Hiso).
  rewrite bool_decide_true in HM by done. cbn [negb andb] in HM.
  rewrite E in HM. injection HM as <-.
  intros i j a b z Ha Hb Hz. apply entry_zrows in Hz as (Hi & Hj & ->).
  pose proof (list_lookup_total_correct _ _ _ Ha) as Ea.
  pose proof (list_lookup_total_correct _ _ _ Hb) as Eb.
  assert (HaA : a ∈ ac) by (by eapply elem_of_list_lookup_2).
  assert (HbA : b ∈ ac) by (by eapply elem_of_list_lookup_2).
  set (A := list_to_set ac : gset nat) in *.
  assert (HA : ∀ a b, a ∈ A → b ∈ A → ¬ before h a b).
  { intros x y Hx%elem_of_list_to_set Hy%elem_of_list_to_set. by apply Hlt. }
  assert (Hnear : share_in h (Layers h A (-1) (Some 1%Z)) a b ↔ near a b).
  { assert (HaA' : a ∈ A) by (by apply elem_of_list_to_set).
    assert (HbA' : b ∈ A) by (by apply elem_of_list_to_set).
    unfold share_in, near. split.
    - intros (c & Hc & Hrl). apply (Layers_antichain h HO A HA) in Hc as (n & Hn & Hn1 & Hn2).
      cbn in Hn2. exists c, n. split; [done|].
      destruct Hrl as [Hrl|Hrl]; [left|right]; (split; [|done]).
      + pose proof (proj2 (past_number_neg h A c HO) (ex_intro _ a (conj HaA' (proj1 Hrl)))).
        apply (layer_number_past h HO A HA) in Hn; [lia|]. exists a. tauto.
      + pose proof (proj2 (future_number_pos h HO A c) (ex_intro _ a (conj HaA' (proj1 Hrl)))).
        apply (layer_number_future h HO A HA) in Hn; [lia|]. exists a. tauto.
    - intros (c & n & Hn & Hc). exists c. split; [|tauto].
      apply (Layers_antichain h HO A HA). exists n. split; [done|]. cbn. lia. }
  split_and!.
  - intros Hpos. destruct Hpre as [Hz|Hd]; [rewrite Hz in Hpos; lia|].
    rewrite <- Ea, <- Eb. apply nsteps_share; [done|]. by apply (di_hop _ _ _ _ Hd).
  - intros Hij Hn.
    assert (Hr : ∃ e, e ∈ ac ∧ (prec h e ≠ ∅ ∨ succ h e ≠ ∅)).
    { exists a. split; [done|]. destruct Hn as (c & n & _ & [(_ & Hc & _)|(_ & Hc & _)]).
      - left. intros E'. unfold before in Hc. rewrite E' in Hc. by apply elem_of_empty in Hc.
      - right. apply (oi_conv h HO) in Hc. intros E'. rewrite E' in Hc. by apply elem_of_empty in Hc. }
    destruct (Hrel Hr) as (Hd & Hk & _). apply Hnear in Hn.
    destruct (direct_spec h HO C ac true Hnd Hlt (Layers h A (-1) (Some 1%Z)) zzero) as (_ & Hv & _);
      [by left|].
    assert (Hone : dm_direct h C ac true (Layers h A (-1) (Some 1%Z)) zzero i j = 1%Z).
    { rewrite Hv; try done.
      destruct (dm_value_cases h HO C ac true Hnd Hlt (Layers h A (-1) (Some 1%Z)) (i `min` j) (i `max` j))
        as [[_ Hc]|(_ & _ & Hc)]; [lia|lia|lia| |by apply Hc].
      exfalso. apply Hc. destruct (decide (i < j)) as [Hl|Hl].
      - rewrite Nat.min_l, Nat.max_r by lia. by rewrite Ea, Eb.
      - rewrite Nat.min_r, Nat.max_l by lia. rewrite Ea, Eb. destruct Hn as (c & Hc1 & Hc2). exists c.
        split; [done|]. tauto. }
    rewrite (Hk i j Hi Hj); [done|]. rewrite Hone. lia.
  - intros -> Hpos.
    destruct (decide (i = j)) as [->|Hij].
    { exfalso. destruct Hpre as [Hz|Hd]; [rewrite Hz in Hpos; lia|].
      rewrite (di_diag _ _ _ _ Hd j Hj) in Hpos. lia. }
    apply Hnear.
    assert (Hr : ∃ e, e ∈ ac ∧ (prec h e ≠ ∅ ∨ succ h e ≠ ∅)).
    { destruct (decide (Exists (λ e, prec h e ≠ ∅ ∨ succ h e ≠ ∅) ac)) as [He|He].
      - apply Exists_exists in He. naive_solver.
      - exfalso. rewrite Hiso in Hpos; [lia|].
        intros e He'. apply not_Exists_Forall in He; [|intros ?; apply _].
        rewrite Forall_forall in He. specialize (He e He'). unfold compose in He.
        split; [destruct (decide (prec h e = ∅))|destruct (decide (succ h e = ∅))]; tauto. }
    destruct (Hrel Hr) as (Hd & _ & He). specialize (He eq_refl). rewrite He in Hpos.
    destruct (direct_spec h HO C ac true Hnd Hlt (Layers h A (-1) (Some 1%Z)) zzero) as (_ & Hv & _);
      [by left|].
    change (list_to_set ac) with A in Hpos.
    rewrite Hv in Hpos; try done.
    destruct (dm_value_cases h HO C ac true Hnd Hlt (Layers h A (-1) (Some 1%Z)) (i `min` j) (i `max` j))
        as [[E' Hc]|(_ & Hc & _)]; [lia|lia|lia|rewrite E' in Hpos; lia|].
    destruct (decide (i < j)) as [Hl|Hl].
    + rewrite Nat.min_l, Nat.max_r in Hc by lia. by rewrite Ea, Eb in Hc.
    + rewrite Nat.min_r, Nat.max_l in Hc by lia. rewrite Ea, Eb in Hc. destruct Hc as (c & Hc1 & Hc2).
      exists c. split; [done|]. tauto.
Qed.
Print Assumptions C41_ziczac_meaning.

(** A store in which the distances are not trivial: the zigzag 0 < 3 > 1 < 4 > 2 and the
    isolated event 5; the antichain 0, 1, 2, 5. *)
Definition zig_ops : list op :=
  [ONew (LInt 1) ∅ ∅ [] []; ONew (LInt 2) ∅ ∅ [] []; ONew (LInt 3) ∅ ∅ [] [];
   ONew (LInt 4) {[0; 1]} ∅ [] []; ONew (LInt 5) {[1; 2]} ∅ [] []; ONew (LInt 6) ∅ ∅ [] []].
Definition zig : heap := run ∅ ((λ o, (it_elements, o)) <$> zig_ops).
Lemma zig_order : order_inv zig.
Proof. apply ops_order. by vm_compute. Qed.
Lemma zig_spacelike a b :
  a ∈ [0; 1; 2; 5] → b ∈ [0; 1; 2; 5] → a ≠ b → spacelike (before zig) a b.
Proof.
  intros Ha Hb Hne. split; [done|].
  assert (H : Forall (λ a, Forall (λ b, a ∉ prec zig b) [0; 1; 2; 5]) [0; 1; 2; 5]) by decide_vm.
  rewrite Forall_forall in H. pose proof (H a Ha) as H1. pose proof (H b Hb) as H2.
  rewrite Forall_forall in H1, H2. split; [by apply H1|by apply H2].
Qed.
Example C41_nonvacuous :
  order_inv zig ∧ NoDup [0; 1; 2; 5] ∧
  (∀ a b, a ∈ [0; 1; 2; 5] → b ∈ [0; 1; 2; 5] → a ≠ b → spacelike (before zig) a b) ∧
  DistanceMatrix zig (dom zig) [0; 1; 2; 5] "ziczac" true =
    Ok [[0; 1; 2; -1]; [1; 0; 1; -1]; [2; 1; 0; -1]; [-1; -1; -1; 0]]%Z ∧
  DistanceMatrix zig (dom zig) [0; 1; 2; 5] "ziczac" false =
    Ok [[0; 1; -1; -1]; [1; 0; 1; -1]; [-1; 1; 0; -1]; [-1; -1; -1; 0]]%Z ∧
  DistanceMatrix zig (dom zig) [0; 5] "intersection" true = Ok [[0; -1]; [-1; 0]]%Z.
Proof.
  split; [apply zig_order|]. split; [decide_vm|]. split; [apply zig_spacelike|].
  split_and!; decide_vm.
Qed.

(** ** C42 *)
Lemma index_of_spec x l : x ∈ l → index_of x l < length l ∧ l !!! index_of x l = x.
Proof.
  intros Hx. unfold index_of.
  destruct (list_find_elem_of (x =.) l x Hx eq_refl) as [[i y] Hi]. rewrite Hi.
  apply list_find_Some in Hi as (H1 & <- & _). split; [by eapply lookup_lt_Some|].
  by apply list_lookup_total_correct.
Qed.
Lemma yield_from_in x rec is p :
  p ∈ fst (yield_from x rec is) → ∃ i q, i ∈ is ∧ p = x :: q ∧ q ∈ fst (rec i).
Proof.
  induction is as [|i is IH]; [by intros ?%elem_of_nil|]. cbn.
  destruct (rec i) as [ys [e|]] eqn:E.
  - intros (q & -> & Hq)%elem_of_list_fmap. exists i, q. rewrite E.
    split; [apply elem_of_list_here|done].
  - destruct (yield_from x rec is) as [zs e]. cbn. intros [Hp|Hp]%elem_of_app.
    + apply elem_of_list_fmap in Hp as (q & -> & Hq). exists i, q. rewrite E.
      split; [apply elem_of_list_here|done].
    + destruct (IH Hp) as (j & q & Hj & Hq). exists j, q. split; [by apply elem_of_list_further|done].
Qed.

Section antipaths.
Context (h : heap) (ac : list nat) (D : zmat) (b b_idx : nat).
Notation l := (length ac).

Lemma find_ends fuel e p :
  b ∈ ac → e < l → p ∈ fst (antipaths_find fuel ac D b b_idx e) →
  head p = Some (ac !!! e) ∧ last p = Some b ∧ (∀ x, x ∈ p → x ∈ ac) ∧ 2 ≤ length p.
Proof using.
  intros Hb. revert e p. induction fuel as [|fuel IH]; intros e p He; [by intros ?%elem_of_nil|].
  cbn [antipaths_find].
  assert (Hee : ac !!! e ∈ ac) by (by apply elem_of_list_lookup_total_2).
  destruct (decide _) as [H1|H1].
  { intros ->%elem_of_list_singleton. split_and!; try done.
    intros x. rewrite !elem_of_cons. intros [->|[->|?%elem_of_nil]]; done. }
  destruct (filter _ (seq 0 l)) as [|m ms]; [by intros ?%elem_of_nil|].
  destruct (filter (λ m0, D e m0 = _) (seq 0 l)) as [|n ns] eqn:Ef; [by intros ?%elem_of_nil|].
  rewrite <- Ef. intros Hp. apply yield_from_in in Hp as (i & q & Hi & -> & Hq).
  apply elem_of_list_filter in Hi as [_ Hi]. apply elem_of_list_filter in Hi as [_ Hi].
  apply elem_of_seq in Hi. destruct (IH i q) as (H2 & H3 & H4 & H5); [lia|done|].
  split_and!.
  - done.
  - rewrite last_cons, H3. done.
  - intros x [->|Hx]%elem_of_cons; [done|by apply H4].
  - cbn. lia.
Qed.

Lemma find_hops fuel e p :
  b_idx < l → ac !!! b_idx = b →
  (∀ i j, i < l → j < l → (1 <= D i j)%Z → ∃ m, m < l ∧ D i m = 1%Z) →
  (∀ i j, i < l → j < l → D i j = 1%Z → share h ac (ac !!! i) (ac !!! j)) →
  e < l → p ∈ fst (antipaths_find fuel ac D b b_idx e) →
  consecutive (share h ac) p.
Proof using.
  intros Hbi Hb H1 H2.
  assert (HbA : b ∈ ac) by (rewrite <- Hb; by apply elem_of_list_lookup_total_2).
  revert e p. induction fuel as [|fuel IH]; intros e p He; [by intros ?%elem_of_nil|].
  cbn [antipaths_find].
  destruct (decide (D e b_idx = 1%Z)) as [E|E].
  { intros ->%elem_of_list_singleton. cbn. split_and!; try done. rewrite <- Hb. by apply H2. }
  destruct (filter (λ m, (0 < D e m)%Z) (seq 0 l)) as [|m ms] eqn:Em; [by intros ?%elem_of_nil|].
  set (r := zmin_list (D e m) (D e <$> ms)).
  assert (Hr : r = 1%Z).
  { assert (Hpos : ∀ n, n ∈ m :: ms ↔ n < l ∧ (0 < D e n)%Z).
    { intros n. rewrite <- Em, elem_of_list_filter, elem_of_seq. split; intros [? ?]; split; lia. }
    assert (Hr1 : (1 <= r)%Z).
    { subst r. destruct (zmin_list_in (D e m) (D e <$> ms)) as [->|Hin].
      - destruct (proj1 (Hpos m)) as [_ ?]; [apply elem_of_list_here|lia].
      - apply elem_of_list_fmap in Hin as (n & -> & Hn).
        destruct (proj1 (Hpos n)) as [_ ?]; [by apply elem_of_list_further|lia]. }
    destruct (proj1 (Hpos m)) as [Hm Hm']; [apply elem_of_list_here|].
    destruct (H1 e m He Hm) as (n & Hn & En); [lia|].
    assert (Hle : (r <= D e n)%Z).
    { apply zmin_list_lb. assert (Hin : n ∈ m :: ms) by (apply Hpos; lia).
      apply elem_of_cons in Hin as [->|Hin]; [by left|right]. by apply elem_of_list_fmap_1. }
    lia. }
  clearbody r. subst r.
  destruct (filter (λ m0, D e m0 = 1%Z) (seq 0 l)) as [|n ns] eqn:Ef; [by intros ?%elem_of_nil|].
  rewrite <- Ef. intros Hp. apply yield_from_in in Hp as (i & q & Hi & -> & Hq).
  apply elem_of_list_filter in Hi as [_ Hi]. apply elem_of_list_filter in Hi as [Ei Hi].
  apply elem_of_seq in Hi. assert (Hil : i < l) by lia.
  apply consecutive_cons. split; [|by apply (IH i)].
  destruct (find_ends fuel i q HbA Hil Hq) as (Hh & _). intros y. rewrite Hh. intros [= <-].
  by apply H2.
Qed.
End antipaths.

(** Every list yielded (also before an exception) starts with [a], ends with [b] and consists
    of events of [along]; [limit] is the recursion limit of the interpreter, the matrix may be
    given or not. *)
Theorem C42_Antipaths (limit : nat) (h : heap) (C : gset nat) (a b : nat) (along : list nat)
    (distances : option (nat → nat → Z)) (p : list nat) :
  p ∈ fst (Antipaths limit h C a b along distances) →
  head p = Some a ∧ last p = Some b ∧ (∀ x, x ∈ p → x ∈ along) ∧ (a ≠ b → 2 ≤ length p).
Proof.
  unfold Antipaths.
  set (first := if decide (a = b ∧ a ∈ along) then [[a]] else []).
  assert (Hfirst : p ∈ first → head p = Some a ∧ last p = Some b ∧ (∀ x, x ∈ p → x ∈ along) ∧
            (a ≠ b → 2 ≤ length p)).
  { unfold first. destruct (decide _) as [[-> Hb]|]; [|by intros ?%elem_of_nil].
    intros ->%elem_of_list_singleton. split_and!; try done. by intros x ->%elem_of_list_singleton. }
  clearbody first.
  destruct (isSpacelikeTo h a b && bool_decide (a ∈ along) && bool_decide (b ∈ along)) eqn:Ec;
    cbn [negb]; [|done].
  apply andb_prop in Ec as [Ec Hb%bool_decide_eq_true]. apply andb_prop in Ec as [Ec Ha%bool_decide_eq_true].
  destruct (index_of_spec a along Ha) as [Hai Hae].
  set (go := λ D : zmat, if decide (D (index_of a along) (index_of b along) = (-1)%Z)
    then (first, None) else let '(ys, e) := antipaths_find limit along D b (index_of b along)
      (index_of a along) in (first ++ ys, e)).
  assert (Hgo : ∀ D, p ∈ fst (go D) → head p = Some a ∧ last p = Some b ∧
            (∀ x, x ∈ p → x ∈ along) ∧ (a ≠ b → 2 ≤ length p)).
  { intros D. unfold go. destruct (decide _); [done|].
    destruct (antipaths_find _ _ _ _ _ _) as [ys e] eqn:E. cbn.
    intros [Hp|Hp]%elem_of_app; [by apply Hfirst|].
    destruct (find_ends along D b (index_of b along) limit (index_of a along) p Hb Hai)
      as (H1 & H2 & H3 & H4).
    { by rewrite E. }
    rewrite Hae in H1. done. }
  destruct distances as [D|]; [apply Hgo|].
  destruct (DistanceMatrix h C along "ziczac" true); [apply Hgo|done].
Qed.
Print Assumptions C42_Antipaths.

Theorem C42_trivial (limit : nat) (h : heap) (C : gset nat) (a b : nat) (along : list nat)
    (distances : option (nat → nat → Z)) :
  (a ∈ along → Antipaths limit h C a a along distances = ([[a]], None)) ∧
  (a ≠ b → a ∉ along ∨ b ∉ along ∨ b ∈ Past h a ∨ b ∈ Future h a →
     Antipaths limit h C a b along distances = ([], None)).
Proof.
  split.
  - intros Ha. unfold Antipaths. rewrite decide_True by done. unfold isSpacelikeTo.
    by rewrite bool_decide_true by done.
  - intros Hne Hor. unfold Antipaths. rewrite decide_False by tauto. unfold isSpacelikeTo.
    destruct (bool_decide (a ∈ along)) eqn:Ea; [|by rewrite !andb_false_r].
    destruct (bool_decide (b ∈ along)) eqn:Eb; [|by rewrite !andb_false_r].
    apply bool_decide_eq_true in Ea. apply bool_decide_eq_true in Eb.
    destruct Hor as [?|[?|[H|H]]]; [done|done| |]; unfold Past, Future in H.
    + rewrite (bool_decide_true (b ∈ prec h a)) by done. cbn. by rewrite !andb_false_r.
    + rewrite (bool_decide_true (b ∈ succ h a)) by done. cbn. by rewrite !andb_false_r.
Qed.
Print Assumptions C42_trivial.

(** Without a given matrix, neighbours in a yielded path share a past or a future event. *)
Theorem C42_neighbours (limit : nat) (h : heap) (C : gset nat) (a b : nat) (along p : list nat) :
  order_inv h → NoDup along →
  (∀ x y, x ∈ along → y ∈ along → x ≠ y → spacelike (before h) x y) →
  p ∈ fst (Antipaths limit h C a b along None) → consecutive (share h along) p.
Proof.
  intros HO Hnd Hsp. pose proof (antichain_nolt h along HO Hsp) as Hlt.
  unfold Antipaths. destruct (decide (a = b ∧ a ∈ along)) as [[-> Hb]|Hne].
  { unfold isSpacelikeTo. rewrite bool_decide_true by done. cbn.
    by intros ->%elem_of_list_singleton. }
  destruct (isSpacelikeTo h a b && bool_decide (a ∈ along) && bool_decide (b ∈ along)) eqn:Ec;
    cbn [negb]; [|by intros ?%elem_of_nil].
  apply andb_prop in Ec as [Ec Hb%bool_decide_eq_true]. apply andb_prop in Ec as [Ec Ha%bool_decide_eq_true].
  destruct (index_of_spec a along Ha) as [Hai Hae]. destruct (index_of_spec b along Hb) as [Hbi Hbe].
  unfold DistanceMatrix. rewrite bool_decide_true by done. cbn [negb andb].
  destruct (dm_result h HO C along Hnd Hlt true true) as (D & E & Hpre & _ & _).
  rewrite E. cbn [res_map]. destruct (decide _); [by intros ?%elem_of_nil|].
  destruct (antipaths_find _ _ _ _ _ _) as [ys e] eqn:Ef. cbn [app]. intros Hp.
  apply (find_hops h along (zget (zrows (length along) D)) b (index_of b along) limit (index_of a along));
    try done.
  - intros i j Hi Hj. rewrite (zget_zrows _ _ i j) by done. intros Hpos.
    destruct Hpre as [Hz|Hd]; [rewrite Hz in Hpos; lia|].
    destruct (di_one _ _ _ _ Hd i j eq_refl Hi Hj Hpos) as (m & Hm & Em). exists m. split; [done|].
    by rewrite zget_zrows.
  - intros i j Hi Hj. rewrite zget_zrows by done. intros Hone.
    destruct Hpre as [Hz|Hd]; [rewrite Hz in Hone; lia|].
    pose proof (di_hop _ _ _ _ Hd i j eq_refl Hi Hj) as Hn. rewrite Hone in Hn.
    specialize (Hn ltac:(lia)). apply nsteps_share in Hn; [|done]. by apply nsteps_once_inv in Hn.
  - by rewrite Ef.
Qed.
Print Assumptions C42_neighbours.

(** Two events of an antichain without any related event: instead of yielding nothing the
    iterator raises ValueError (np.min of an empty array). *)
Theorem C42_isolated (limit : nat) (h : heap) (C : gset nat) (a b : nat) (along : list nat) :
  order_inv h → NoDup along →
  (∀ e, e ∈ along → Past h e = ∅ ∧ Future h e = ∅) →
  a ∈ along → b ∈ along → a ≠ b →
  Antipaths (S limit) h C a b along None = ([], Some ValueError).
Proof.
  intros HO Hnd Hiso Ha Hb Hne.
  assert (Hlt : ∀ x y, x ∈ along → y ∈ along → ¬ before h x y).
  { intros x y _ Hy Hxy. destruct (Hiso y Hy) as [Hp _]. unfold Past, before in *. rewrite Hp in Hxy.
    by apply elem_of_empty in Hxy. }
  unfold Antipaths. rewrite decide_False by tauto.
  assert (Hs : isSpacelikeTo h a b = true).
  { unfold isSpacelikeTo. destruct (Hiso a Ha) as [Hp Hf]. unfold Past, Future in *. rewrite Hp, Hf.
    rewrite (bool_decide_false (b = a)) by (by intros ->).
    by rewrite !bool_decide_false by (by intros ?%elem_of_empty). }
  rewrite Hs, !bool_decide_true by done. cbn [negb andb].
  destruct (index_of_spec a along Ha) as [Hai _]. destruct (index_of_spec b along Hb) as [Hbi _].
  unfold DistanceMatrix. rewrite bool_decide_true by done. cbn [negb andb].
  destruct (dm_result h HO C along Hnd Hlt true true) as (D & E & _ & _ & Hz).
  rewrite E. cbn [res_map]. specialize (Hz Hiso).
  rewrite zget_zrows, Hz by done. rewrite decide_False by lia.
  cbn [antipaths_find]. rewrite zget_zrows, Hz by done. rewrite decide_False by lia.
  destruct (filter _ (seq 0 (length along))) as [|m ms] eqn:Ef; [done|]. exfalso.
  assert (Hm : m ∈ m :: ms) by apply elem_of_list_here. rewrite <- Ef in Hm.
  apply elem_of_list_filter in Hm as [Hpos Hm]. apply elem_of_seq in Hm.
  rewrite zget_zrows, Hz in Hpos by lia. lia.
Qed.
Print Assumptions C42_isolated.

Example C42_nonvacuous :
  Antipaths 1000 zig (dom zig) 0 2 [0; 1; 2; 5] None = ([[0; 1; 2]], None) ∧
  Antipaths 1000 zig (dom zig) 1 1 [0; 1; 2; 5] None = ([[1]], None) ∧
  Antipaths 1000 zig (dom zig) 0 5 [0; 1; 2; 5] None = ([], None) ∧
  Antipaths 1000 (run ∅ [(it_elements, ONew LNone ∅ ∅ [] []); (it_elements, ONew LNone ∅ ∅ [] [])])
    {[0; 1]} 0 1 [0; 1] None = ([], Some ValueError).
Proof. split_and!; decide_vm. Qed.
