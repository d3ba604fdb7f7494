(** Theorems about causets with opposite orders: the roles of past and future are exchanged in
    every query (C93). *)
From Verif Require Import Base Spec EventModel EventFacts DisjoinFacts History HistoryFacts PathFacts RankFacts
  EventProps Prop_Event CausetModel CausetFacts IntervalFacts SortFacts LayerFacts Prop_Causet Prop_CausetMore Prop_Build
  PathsModel Prop_Paths DistModel Prop_Dist GradedFacts Prop_Iso.

(** ** Specification *)
(** The causet [C2] in the store [h2] has the opposite order of the causet [C1] in the store [h1]; [f]
    says which event of [C2] stands for which event of [C1]. *)
Record opposite_causet (f : nat → nat) (h1 : heap) (C1 : gset nat) (h2 : heap) (C2 : gset nat) : Prop := OppositeCauset {
  oc_inj : ∀ a b, a ∈ C1 → b ∈ C1 → f a = f b → a = b;
  oc_onto : ∀ y, y ∈ C2 ↔ ∃ x, x ∈ C1 ∧ f x = y;
  oc_before : ∀ a b, a ∈ C1 → b ∈ C1 → before h1 a b ↔ before h2 (f b) (f a);
  oc_closed1 : closed h1 C1;
  oc_closed2 : closed h2 C2
}.

(** ** The store with past and future exchanged *)
Lemma opp_opp (l : list Z) : Z.opp <$> (Z.opp <$> l) = l.
Proof. induction l as [|z l IH]; [done|]. cbn. f_equal; [lia|exact IH]. Qed.
Lemma dual_dual h : dual (dual h) = h.
Proof. apply map_eq. intros i. unfold dual. rewrite !lookup_fmap. by destruct (h !! i) as [[]|]. Qed.
Section dual.
Context (h : heap) (HO : order_inv h) (HL : link_inv h).
Notation d := (dual h).
Lemma dual_covers a b : covers (before d) a b ↔ covers (before h) b a.
Proof using HO HL. unfold covers. rewrite dual_before by done. setoid_rewrite (λ a b, dual_before h a b HO). naive_solver. Qed.
Lemma dual_lprec x : lprec d x = lsucc h x.
Proof using. unfold lprec, lsucc. by rewrite dual_lookup. Qed.
Lemma dual_lsucc x : lsucc d x = lprec h x.
Proof using. unfold lprec, lsucc. by rewrite dual_lookup. Qed.
Lemma dual_link : link_inv d.
Proof using HO HL.
  intros x. rewrite dual_lprec, dual_lsucc. destruct (HL x) as [[E1 E2]|(lp & ls & E1 & E2 & H1 & H2)]; [by left|right].
  exists ls, lp. split_and!; [done|done| |]; intros y; rewrite dual_covers; [apply H2|apply H1].
Qed.
Lemma dual_Past x : Past d x = Future h x.
Proof using. apply dual_prec. Qed.
Lemma dual_Future x : Future d x = Past h x.
Proof using. apply dual_succ. Qed.
Lemma dual_Cone x : Cone d x = Cone h x.
Proof using. unfold Cone. rewrite dual_prec, dual_succ. apply set_eq. intros y. rewrite !elem_of_union. tauto. Qed.
Lemma dual_LinkPast x : LinkPast d x = LinkFuture h x.
Proof using HO HL.
  apply set_eq. intros y. rewrite (LinkPast_spec d (dual_order h HO) dual_link), (LinkFuture_spec h HO HL). apply dual_covers.
Qed.
Lemma dual_LinkFuture x : LinkFuture d x = LinkPast h x.
Proof using HO HL.
  apply set_eq. intros y. rewrite (LinkFuture_spec d (dual_order h HO) dual_link), (LinkPast_spec h HO HL). apply dual_covers.
Qed.
Lemma dual_LinkCone x : LinkCone d x = LinkCone h x.
Proof using HO HL.
  unfold LinkCone. rewrite !get_LinkCone_value by (apply link_inv_paired; done || apply dual_link).
  rewrite dual_LinkPast, dual_LinkFuture. apply set_eq. intros y. rewrite !elem_of_union. tauto.
Qed.
Lemma dual_SpacelikeCard x X : SpacelikeCard d x X = SpacelikeCard h x X.
Proof using.
  unfold SpacelikeCard. rewrite dual_prec, dual_succ.
  replace (X ∖ succ h x ∖ prec h x) with (X ∖ prec h x ∖ succ h x); [done|]. apply set_eq. intros y. rewrite !elem_of_difference. tauto.
Qed.
Lemma dual_conv a b : bool_decide (a ∈ succ h b) = bool_decide (b ∈ prec h a).
Proof using HO. apply bool_decide_ext. symmetry. apply (oi_conv h HO). Qed.
Lemma dual_lt a b : ev_lt d a b = ev_lt h b a.
Proof using HO. unfold ev_lt. rewrite dual_prec. apply dual_conv. Qed.
Lemma dual_le a b : ev_le d a b = ev_le h b a.
Proof using HO. unfold ev_le. rewrite dual_prec, dual_conv. f_equal. by apply bool_decide_ext. Qed.
Lemma dual_isSpacelikeTo a b : isSpacelikeTo d a b = isSpacelikeTo h a b.
Proof using.
  unfold isSpacelikeTo. rewrite dual_prec, dual_succ. rewrite <- !andb_assoc. f_equal. apply andb_comm.
Qed.
Lemma dual_isLink a b : isLink d a b = isLink h b a.
Proof using. unfold isLink. rewrite dual_prec, dual_succ. apply bool_decide_ext. by rewrite (comm_L (∩)). Qed.
Lemma dual_path a b l : link_path (before d) a b l ↔ link_path (before h) b a (reverse l).
Proof using HO HL.
  unfold link_path. rewrite head_reverse, last_reverse.
  assert (Hc : consecutive (covers (before d)) l ↔ consecutive (covers (before h)) (reverse l)).
  { induction l as [|x l IH]; [done|]. rewrite consecutive_cons, reverse_cons, consecutive_snoc, IH.
    setoid_rewrite dual_covers. rewrite last_reverse. naive_solver. }
  rewrite Hc. tauto.
Qed.
Lemma dual_Rank it1 it2 a b : iter_ok it1 → iter_ok it2 → Rank it1 d a b = Rank it2 h b a.
Proof using HO HL.
  intros Hi1 Hi2. destruct (C10_Rank it1 d a b Hi1 (dual_order h HO) dual_link) as (N1 & S1 & E1).
  destruct (C10_Rank it2 h b a Hi2 HO HL) as (N2 & S2 & E2).
  destruct (Rank it2 h b a) as [[n|]|e] eqn:E; [| |by destruct (E2 e)].
  - apply S1. destruct (proj1 (S2 n) eq_refl) as ((l & Hl & El) & Hmin). split.
    + exists (reverse l). rewrite dual_path, reverse_involutive, reverse_length. done.
    + intros l2 Hl2. rewrite <- reverse_length. apply Hmin. by apply dual_path.
  - apply N1. rewrite dual_le. by apply N2.
Qed.
Lemma dual_PastOf' X p q : PastOf d X p q = FutureOf h X p q.
Proof using HO.
  destruct q; [|apply set_eq; intros x; rewrite PastOf_spec, FutureOf_spec; by setoid_rewrite dual_prec].
  destruct (C32_cones h ∅ X p 0 HO) as (_ & _ & _ & _ & _ & -> & _). by destruct (C32_cones d ∅ X p 0 (dual_order h HO)) as (_ & _ & _ & _ & -> & _ & _).
Qed.
Lemma dual_FutureOf' X p q : FutureOf d X p q = PastOf h X p q.
Proof using HO.
  destruct q; [|apply set_eq; intros x; rewrite PastOf_spec, FutureOf_spec; by setoid_rewrite dual_succ].
  destruct (C32_cones h ∅ X p 0 HO) as (_ & _ & _ & _ & -> & _ & _). by destruct (C32_cones d ∅ X p 0 (dual_order h HO)) as (_ & _ & _ & _ & _ & -> & _).
Qed.
Lemma dual_ConeOf X p q : ConeOf d X p q = ConeOf h X p q.
Proof using HO.
  destruct q.
  - destruct (C32_cones h ∅ X p 0 HO) as (_ & _ & _ & _ & _ & _ & ->). by destruct (C32_cones d ∅ X p 0 (dual_order h HO)) as (_ & _ & _ & _ & _ & _ & ->).
  - rewrite !ConeOf_halves, dual_PastOf', dual_FutureOf'. apply (comm_L (∪)).
Qed.
Lemma dual_Interval_any a b i : Interval d a b i = Interval h b a i.
Proof using HO.
  unfold Interval. rewrite dual_le. destruct (ev_le h b a); cbn [negb]; [|done].
  destruct (decide (a = b)) as [->|Hne]; [by rewrite decide_True|]. rewrite decide_False by congruence.
  unfold PresentOrFuture, PresentOrPast. rewrite dual_Past, dual_Future, !dual_prec, !dual_succ. destruct i; apply (comm_L (∩)).
Qed.
Lemma dual_Perimetral a b : PerimetralEvents d a b = PerimetralEvents h b a.
Proof using HO HL.
  unfold PerimetralEvents. rewrite dual_lt. destruct (ev_lt h b a); cbn [negb]; [|done]. rewrite dual_LinkPast, dual_LinkFuture. apply (comm_L (∩)).
Qed.
Lemma dual_Internal a b : InternalEvents d a b = InternalEvents h b a.
Proof using HO HL.
  unfold InternalEvents. rewrite dual_lt, dual_Perimetral. destruct (ev_lt h b a); cbn [negb]; [|done]. rewrite dual_Past, dual_Future. f_equal. apply (comm_L (∩)).
Qed.
Lemma dual_PerimetralCount a b : PerimetralEventCount d a b = PerimetralEventCount h b a.
Proof using HO HL.
  destruct (C33_intervals d a b 0 (dual_order h HO) dual_link) as (_ & _ & _ & _ & _ & _ & -> & _).
  destruct (C33_intervals h b a 0 HO HL) as (_ & _ & _ & _ & _ & _ & -> & _). by rewrite dual_Perimetral.
Qed.
Lemma dual_InternalCount a b : InternalEventCount d a b = InternalEventCount h b a.
Proof using HO HL.
  destruct (C33_intervals d a b 0 (dual_order h HO) dual_link) as (_ & _ & _ & _ & _ & _ & _ & -> & _).
  destruct (C33_intervals h b a 0 HO HL) as (_ & _ & _ & _ & _ & _ & _ & -> & _). by rewrite dual_Internal.
Qed.
Lemma forallb_same (g1 g2 : nat → bool) l : (∀ x, g1 x = g2 x) → forallb g1 l = forallb g2 l.
Proof using. intros H. induction l as [|x l IH]; [done|]. cbn [forallb]. by rewrite H, IH. Qed.
Lemma dual_isChain C o : isChain d C o = isChain h C o.
Proof using.
  assert (Hc : ∀ e, ConeCard d e = ConeCard h e) by (intros e; unfold ConeCard; rewrite dual_prec, dual_succ; lia).
  unfold isChain. destruct o as [T|].
  - apply forallb_same. intros x. by rewrite dual_Cone.
  - apply forallb_same. intros x. by rewrite Hc.
Qed.
Lemma dual_isAntichain C o : isAntichain d C o = isAntichain h C o.
Proof using.
  assert (Hc : ∀ e, ConeCard d e = ConeCard h e) by (intros e; unfold ConeCard; rewrite dual_prec, dual_succ; lia).
  unfold isAntichain. destruct o as [T|].
  - apply forallb_same. intros x. by rewrite dual_Cone.
  - apply forallb_same. intros x. by rewrite Hc.
Qed.
Lemma dual_path_loop T es k : path_loop d T es k = path_loop h T es k.
Proof using HO HL. revert k. induction es as [|e es IH]; intros k; [done|]. cbn [path_loop]. rewrite dual_LinkCone, !IH. done. Qed.
Lemma dual_isPath it C o : isPath it d C o = isPath it h C o.
Proof using HO HL. unfold isPath. rewrite dual_isChain. destruct o as [T|]; [|done]. by rewrite dual_path_loop. Qed.
Lemma dual_LinkCount C : closed h C → LinkCount d C None = LinkCount h C None.
Proof using HO HL.
  intros HC. destruct (C23_LinkCount h C ∅ HO HL HC) as [(L & HnL & -> & HL1) _].
  destruct (C23_LinkCount d C ∅ (dual_order h HO) dual_link (dual_closed h C HC)) as [(L' & HnL' & -> & HL2) _].
  rewrite <- (fmap_length (λ p : nat * nat, (p.2, p.1)) L). apply Permutation_length, NoDup_Permutation; [done| |].
  - apply NoDup_fmap_2; [|done]. by intros [a b] [a' b'] [= -> ->].
  - intros [a b]. rewrite HL2, elem_of_list_fmap, dual_covers. split.
    + intros (Ha & Hb & Hc). exists (b, a). split; [done|]. by apply HL1.
    + intros ([x y] & [= -> ->] & H%HL1). tauto.
Qed.
Lemma dual_LinkCountOf C X : closed h C → LinkCount d C (Some X) = LinkCount h C (Some X).
Proof using HO HL.
  intros HC. destruct (C23_LinkCount h C X HO HL HC) as [_ (L & HnL & -> & HL1)].
  destruct (C23_LinkCount d C X (dual_order h HO) dual_link (dual_closed h C HC)) as [_ (L' & HnL' & -> & HL2)].
  rewrite <- (fmap_length (λ p : nat * nat, (p.2, p.1)) L). apply Permutation_length, NoDup_Permutation; [done| |].
  - apply NoDup_fmap_2; [|done]. by intros [a b] [a' b'] [= -> ->].
  - intros [a b]. rewrite HL2, elem_of_list_fmap, dual_covers. split.
    + intros (Ha & Hb & Hc). exists (b, a). split; [done|]. by apply HL1.
    + intros ([x y] & [= -> ->] & H%HL1). tauto.
Qed.
(** *** Infinities, layers, ranks. *)
Lemma dual_Infs C X :
  PastInf d C = FutureInf h C ∧ FutureInf d C = PastInf h C ∧ PastInfOf d X = FutureInfOf h X ∧ FutureInfOf d X = PastInfOf h X.
Proof using.
  unfold PastInf, FutureInf, PastInfOf, FutureInfOf, PastCard, FutureCard, Past, Future.
  split_and!; apply set_eq; intros x; rewrite !elem_of_filter, ?dual_prec, ?dual_succ; done.
Qed.
Lemma dual_InfCards C X :
  PastInfCard d C = FutureInfCard h C ∧ FutureInfCard d C = PastInfCard h C ∧
  PastInfCardOf d X = FutureInfCardOf h X ∧ FutureInfCardOf d X = PastInfCardOf h X.
Proof using HO.
  destruct (C31_infinities h C X HO) as (_ & _ & _ & -> & -> & -> & -> & _).
  destruct (C31_infinities d C X (dual_order h HO)) as (_ & _ & _ & -> & -> & -> & -> & _).
  destruct (dual_Infs C X) as (-> & -> & -> & ->). done.
Qed.
Lemma dual_past_number' X a : past_number d X a = (- future_number h X a)%Z.
Proof using HO.
  unfold past_number, future_number. rewrite dual_Future. destruct (decide (Past h a ∩ X = ∅)); [done|]. do 3 f_equal.
  apply max_of_ext. intros b Hb. by rewrite dual_IntervalCard.
Qed.
Lemma dual_future_number' X a : future_number d X a = (- past_number h X a)%Z.
Proof using HO. rewrite (dual_past_number h X a HO). lia. Qed.
Lemma dual_layer_number X x n : layer_number d X x n ↔ layer_number h X x (- n).
Proof using HO.
  unfold layer_number. setoid_rewrite (λ a b, dual_before h a b HO). setoid_rewrite (λ a b, dual_Interval h a b HO).
  split; intros [[H E]|[(m & E & H)|(m & E & H)]]; [left; split; [done|lia]|right; right; exists m; split; [lia|done]|right; left; exists m; split; [lia|done]|
    left; split; [done|lia]|right; right; exists m; split; [lia|done]|right; left; exists m; split; [lia|done]].
Qed.
Lemma dual_Layers' X m n : (m ≠ 0 ∧ n ≠ 0)%Z ∨ (∀ a b, a ∈ X → b ∈ X → ¬ before h a b) →
  Layers d X (- n) (Some (- m)%Z) = Layers h X m (Some n).
Proof using HO.
  intros [[Hm Hn]|Hac].
  - unfold Layers. cbn [default from_option id]. destruct (decide (size X = 0 ∨ (n < m)%Z)) as [H|H].
    { rewrite decide_True; [done|]. destruct H; [by left|right; lia]. }
    rewrite decide_False by (intros [?|?]; [by apply H; left|apply H; right; lia]).
    rewrite dual_PastOf', dual_FutureOf'. rewrite (comm_L (∪)). f_equal.
    + destruct (decide (m <= 0)%Z) as [H1|H1].
      * rewrite decide_True by lia. apply set_eq. intros x. rewrite !elem_of_filter, dual_future_number'. apply and_iff_compat_r. lia.
      * by rewrite decide_False by lia.
    + destruct (decide (0 < n)%Z) as [H1|H1].
      * rewrite decide_True by lia. apply set_eq. intros x. rewrite !elem_of_filter, dual_past_number'. apply and_iff_compat_r. lia.
      * by rewrite decide_False by lia.
  - assert (Hac' : ∀ a b, a ∈ X → b ∈ X → ¬ before d a b) by (intros a b Ha Hb; rewrite dual_before by done; auto).
    apply set_eq. intros x. rewrite (proj1 (C35_Layers h X HO Hac)), (proj1 (C35_Layers d X (dual_order h HO) Hac')). cbn [default from_option id].
    setoid_rewrite dual_layer_number. split; intros (k & Hk & H1 & H2).
    + exists (- k)%Z. split_and!; [done|lia|lia].
    + exists (- k)%Z. rewrite Z.opp_involutive. split_and!; [done|lia|lia].
Qed.
Lemma dual_Layers_slice X : Layers d X (-1) (Some 1%Z) = Layers h X (-1) (Some 1%Z).
Proof using HO. apply (dual_Layers' X (-1) 1). left. done. Qed.
Lemma dual_LayerNumbers (l : list nat) r : LayerNumbers d l r = Z.opp <$> LayerNumbers h l (negb r).
Proof using HO.
  unfold LayerNumbers. cbv zeta. destruct (decide _); [done|]. destruct r; cbn [negb]; rewrite <- list_fmap_compose; apply list_fmap_ext; intros _ x _; cbn.
  - apply dual_past_number'.
  - apply dual_future_number'.
Qed.
Section ranks.
Context (it1 it2 : oracle) (Hi1 : iter_ok it1) (Hi2 : iter_ok it2).
Lemma dual_rank_int a b : rank_int it1 d a b = rank_int it2 h b a.
Proof using HO HL Hi1 Hi2. unfold rank_int. by rewrite (dual_Rank it1 it2). Qed.
Lemma dual_past_rank X a : past_rank it1 d X a = (- future_rank it2 h X a)%Z.
Proof using HO HL Hi1 Hi2.
  unfold past_rank, future_rank. rewrite dual_Future. destruct (decide (Past h a ∩ X = ∅)); [done|]. do 2 f_equal.
  apply max_of_ext. intros b Hb. apply dual_rank_int.
Qed.
Lemma dual_future_rank X a : future_rank it1 d X a = (- past_rank it2 h X a)%Z.
Proof using HO HL Hi1 Hi2.
  unfold past_rank, future_rank. rewrite dual_Past. destruct (decide (Future h a ∩ X = ∅)); [done|]. rewrite Z.opp_involutive. f_equal.
  apply max_of_ext. intros b Hb. apply dual_rank_int.
Qed.
Lemma dual_Ranks X m n : (m ≠ 0 ∧ n ≠ 0)%Z → Ranks it1 d X (- n) (Some (- m)%Z) = Ranks it2 h X m (Some n).
Proof using HO HL Hi1 Hi2.
  intros [Hm Hn]. unfold Ranks. cbn [default from_option id]. destruct (decide (size X = 0 ∨ (n < m)%Z)) as [H|H].
  { rewrite decide_True; [done|]. destruct H; [by left|right; lia]. }
  rewrite decide_False by (intros [?|?]; [by apply H; left|apply H; right; lia]).
  rewrite dual_PastOf', dual_FutureOf'. rewrite (comm_L (∪)). f_equal.
  - destruct (decide (m <= 0)%Z) as [H1|H1].
    + rewrite decide_True by lia. apply set_eq. intros x. rewrite !elem_of_filter, dual_future_rank. apply and_iff_compat_r. lia.
    + by rewrite decide_False by lia.
  - destruct (decide (0 < n)%Z) as [H1|H1].
    + rewrite decide_True by lia. apply set_eq. intros x. rewrite !elem_of_filter, dual_past_rank. apply and_iff_compat_r. lia.
    + by rewrite decide_False by lia.
Qed.
Lemma dual_RankNumbers (l : list nat) r : RankNumbers it1 d l r = Z.opp <$> RankNumbers it2 h l (negb r).
Proof using HO HL Hi1 Hi2.
  unfold RankNumbers. cbv zeta. destruct (decide _); [done|]. destruct r; cbn [negb]; rewrite <- list_fmap_compose; apply list_fmap_ext; intros _ x _; cbn.
  - apply dual_past_rank.
  - apply dual_future_rank.
Qed.
End ranks.
(** *** Components. *)
Lemma dual_connected X x y : connected_in (before d) X x y ↔ connected_in (before h) X x y.
Proof using HO.
  split; induction 1 as [x Hx|x y z Hxy IH Hz Hc]; try by apply conn_refl.
  - apply conn_step with y; [done|done|]. destruct Hc as [->|[Hc|Hc]]; [by left|right; right|right; left]; by rewrite dual_before in Hc.
  - apply conn_step with y; [done|done|]. destruct Hc as [->|[Hc|Hc]]; [by left|right; right|right; left]; by rewrite dual_before.
Qed.
Lemma dual_disjoint it1 it2 X : iter_ok it1 → iter_ok it2 →
  ∃ l1 l2, disjoint_ it1 h X = Ok l1 ∧ disjoint_ it2 d X = Ok l2 ∧ l2 ≡ₚ l1.
Proof using HO.
  intros Hi1 Hi2. destruct (C43_disjoint it1 h X Hi1 HO) as (l1 & E1 & _). destruct (C43_disjoint it2 d X Hi2 (dual_order h HO)) as (l2 & E2 & _).
  exists l1, l2. split; [done|]. split; [done|]. apply NoDup_Permutation.
  - exact (proj1 (component_iff it2 d X l2 ∅ Hi2 (dual_order h HO) E2)).
  - exact (proj1 (component_iff it1 h X l1 ∅ Hi1 HO E1)).
  - intros T. rewrite (proj2 (component_iff it2 d X l2 T Hi2 (dual_order h HO) E2)), (proj2 (component_iff it1 h X l1 T Hi1 HO E1)).
    by setoid_rewrite dual_connected.
Qed.
(** *** Distances. *)
Lemma min_swap (g : nat → nat → nat) (P F : gset nat) : P ≠ ∅ → F ≠ ∅ →
  min_of (λ a, min_of (λ b, g b a) F) P = min_of (λ b, min_of (λ a, g b a) P) F.
Proof using.
  intros HP HF. apply min_of_spec; [done|].
  destruct (min_of_in (λ b, min_of (λ a, g b a) P) F HF) as (b & Hb & Eb). destruct (min_of_in (λ a, g b a) P HP) as (a & Ha & Ea).
  assert (Hle : ∀ x, x ∈ P → min_of (λ b, min_of (λ a, g b a) P) F ≤ min_of (λ b, g b x) F).
  { intros x Hx. destruct (min_of_in (λ b, g b x) F HF) as (y & Hy & Ey). rewrite Ey.
    etransitivity; [apply (min_of_lb (λ b, min_of (λ a, g b a) P) F y Hy)|]. apply (min_of_lb (λ a, g y a) P x Hx). }
  split; [|done]. exists a. split; [done|]. apply Nat.le_antisymm; [|by apply Hle].
  rewrite Eb, Ea. apply (min_of_lb (λ b, g b a) F b Hb).
Qed.
Lemma min_ext (g1 g2 : nat → nat) (X : gset nat) : (∀ x, x ∈ X → g1 x = g2 x) → min_of g1 X = min_of g2 X.
Proof using.
  intros H. unfold min_of. assert (E : g1 <$> elements X = g2 <$> elements X); [|by rewrite E].
  apply list_fmap_ext. intros i x Hx. apply H. apply elem_of_elements. by eapply elem_of_list_lookup_2.
Qed.
(** The case of SmallestIntervalCard for events that are not on the slice. *)
Definition dual_case (g : heap) (a b : nat) (s : gset nat) (i : option (gset nat)) : nat :=
  let p := Past g a ∩ Past g b ∩ s in
  let f := Future g a ∩ Future g b ∩ s in
  if decide (p = ∅ ∧ f = ∅) then 0
  else if decide (p = ∅) then min_of (λ e, card_in (Past g e) i) f
  else if decide (f = ∅) then min_of (λ e, card_in (Future g e) i) p
  else
    match i with
    | None => min_of (λ ep, min_of (λ ef, IntervalCard g ep ef true) f) p
    | Some i => min_of (λ ep, min_of (λ ef, size (Interval g ep ef true ∩ i)) f) p
    end.
Definition dual_ordered (g : heap) (C : gset nat) (a b : nat) (o i : option (gset nat)) : nat :=
  if ev_le g a b then
    match o with
    | None => match i with None => IntervalCard g a b true | Some i => size (Interval g a b true ∩ i) end
    | Some s =>
      if decide (a ∈ s ∧ b ∈ s) then match i with None => IntervalCard g a b true | Some i => size (Interval g a b true ∩ i) end
      else if decide (a ∈ s) then card_in (Future g a) i
      else if decide (b ∈ s) then card_in (Past g b) i
      else dual_case g a b (default C o) i
    end
  else dual_case g a b (default C o) i.
Lemma SIC_ordered g C a b o i :
  SmallestIntervalCard g C a b o i = if ev_gt g a b then dual_ordered g C b a o i else dual_ordered g C a b o i.
Proof using. unfold SmallestIntervalCard. by destruct (ev_gt g a b). Qed.
Lemma dual_dual_case a b s i : dual_case d a b s i = dual_case h b a s i.
Proof using HO.
  unfold dual_case. rewrite !dual_Past, !dual_Future. cbv zeta.
  replace (Future h a ∩ Future h b ∩ s) with (Future h b ∩ Future h a ∩ s) by (f_equal; apply (comm_L (∩))).
  replace (Past h a ∩ Past h b ∩ s) with (Past h b ∩ Past h a ∩ s) by (f_equal; apply (comm_L (∩))).
  set (P := Past h b ∩ Past h a ∩ s). set (F := Future h b ∩ Future h a ∩ s). clearbody P F.
  destruct (decide (P = ∅)) as [EP|EP], (decide (F = ∅)) as [EF|EF].
  - rewrite (decide_True (P := F = ∅ ∧ P = ∅)) by done. by rewrite (decide_True (P := P = ∅ ∧ F = ∅)) by done.
  - rewrite (decide_False (P := F = ∅ ∧ P = ∅)) by tauto. rewrite (decide_False (P := P = ∅ ∧ F = ∅)) by tauto.
    apply min_ext. intros x _. by rewrite dual_Future.
  - rewrite (decide_False (P := F = ∅ ∧ P = ∅)) by tauto. rewrite (decide_False (P := P = ∅ ∧ F = ∅)) by tauto.
    apply min_ext. intros x _. by rewrite dual_Past.
  - rewrite (decide_False (P := F = ∅ ∧ P = ∅)) by tauto. rewrite (decide_False (P := P = ∅ ∧ F = ∅)) by tauto.
    destruct i as [i|].
    + rewrite (min_swap (λ x y, size (Interval h y x true ∩ i)) P F) by done. apply min_ext. intros x _. apply min_ext. intros y _. by rewrite dual_Interval_any.
    + rewrite (min_swap (λ x y, IntervalCard h y x true) P F) by done. apply min_ext. intros x _. apply min_ext. intros y _. by rewrite dual_IntervalCard.
Qed.
Lemma dual_case_comm a b s i : dual_case h a b s i = dual_case h b a s i.
Proof using.
  unfold dual_case. rewrite (comm_L (∩) (Past h a)), (comm_L (∩) (Future h a)). done.
Qed.
Lemma dual_dual_ordered C a b o i : dual_ordered d C a b o i = dual_ordered h C b a o i.
Proof using HO.
  unfold dual_ordered. rewrite dual_le, dual_dual_case, dual_IntervalCard, dual_Interval_any, dual_Past, dual_Future by done.
  destruct (ev_le h b a); [|done]. destruct o as [s|]; [|done].
  destruct (decide (a ∈ s)) as [Ha|Ha], (decide (b ∈ s)) as [Hb|Hb].
  - rewrite (decide_True (P := a ∈ s ∧ b ∈ s)) by done. by rewrite (decide_True (P := b ∈ s ∧ a ∈ s)) by done.
  - rewrite (decide_False (P := a ∈ s ∧ b ∈ s)) by tauto. by rewrite (decide_False (P := b ∈ s ∧ a ∈ s)) by tauto.
  - rewrite (decide_False (P := a ∈ s ∧ b ∈ s)) by tauto. by rewrite (decide_False (P := b ∈ s ∧ a ∈ s)) by tauto.
  - rewrite (decide_False (P := a ∈ s ∧ b ∈ s)) by tauto. by rewrite (decide_False (P := b ∈ s ∧ a ∈ s)) by tauto.
Qed.
Lemma dual_SmallestIntervalCard C a b o i : SmallestIntervalCard d C a b o i = SmallestIntervalCard h C a b o i.
Proof using HO.
  rewrite !SIC_ordered, !dual_dual_ordered.
  assert (Eg : ev_gt d a b = ev_lt h a b) by (change (ev_lt d b a = ev_lt h a b); apply dual_lt). rewrite Eg.
  destruct (ev_lt h a b) eqn:E1, (ev_gt h a b) eqn:E2.
  - exfalso. apply bool_decide_eq_true in E1, E2. by eapply (oi_asym h HO).
  - done.
  - done.
  - destruct (decide (a = b)) as [->|Hne]; [done|].
    assert (El : ev_le h a b = false).
    { unfold ev_le. unfold ev_lt in E1. rewrite E1. by rewrite bool_decide_eq_false_2. }
    assert (El' : ev_le h b a = false).
    { unfold ev_le. unfold ev_gt in E2. rewrite E2. rewrite bool_decide_eq_false_2 by congruence. done. }
    unfold dual_ordered. rewrite El, El'. apply dual_case_comm.
Qed.
Lemma dual_dm_direct C (ac : list nat) z X D : dm_direct d C ac z X D = dm_direct h C ac z X D.
Proof using HO.
  unfold dm_direct. revert D. generalize (combinations2 (length ac)). intros l. induction l as [|[i j] l IH]; intros D; [done|]. cbn [foldl].
  assert (E : dm_value d C ac z X i j = dm_value h C ac z X i j) by (unfold dm_value; by rewrite dual_SmallestIntervalCard).
  rewrite E. apply IH.
Qed.
Lemma dual_dm_loop n C (ac : list nat) z r X Y D : dm_loop n d C ac z r X Y D = dm_loop n h C ac z r X Y D.
Proof using HO.
  revert X Y D. induction n as [|n IH]; intros X Y D; [done|]. cbn [dm_loop]. rewrite dual_dm_direct.
  destruct (decide _); [|done]. cbv zeta. destruct r; [|done]. destruct (dm_extend _ _) as [[D2 c] b]. destruct b; [done|].
  rewrite dual_Layers_slice. apply IH.
Qed.
Lemma dual_DistanceMatrix C (ac : list nat) counting r : DistanceMatrix d C ac counting r = DistanceMatrix h C ac counting r.
Proof using HO.
  unfold DistanceMatrix. cbv zeta. destruct (_ && _); [done|].
  rewrite dual_Layers_slice.
  assert (Ed : dom d = dom h) by (unfold dual; apply dom_fmap_L). rewrite Ed. by rewrite dual_dm_loop.
Qed.
(** *** Paths. *)
Lemma dual_path_lists (P1 P2 : list nat → Prop) a b (L1 L2 : list (list nat)) :
  NoDup L1 → NoDup L2 →
  (∀ p, p ∈ L1 ↔ link_path (before h) a b p ∧ P1 p) → (∀ p, p ∈ L2 ↔ link_path (before d) b a p ∧ P2 p) →
  (∀ p, P1 p ↔ P2 (reverse p)) → L2 ≡ₚ (λ p : list nat, reverse p) <$> L1.
Proof using HO HL.
  intros N1 N2 H1 H2 HP. apply NoDup_Permutation; [done| |].
  - apply NoDup_fmap_2; [|done]. intros p q E. rewrite <- (reverse_involutive p), E. apply reverse_involutive.
  - intros p. rewrite H2, elem_of_list_fmap. split.
    + intros [Hp Hq]. exists (reverse p). rewrite reverse_involutive. split; [done|]. apply H1. split; [by apply dual_path|].
      apply HP. by rewrite reverse_involutive.
    + intros (q & -> & [Hp Hq]%H1). split; [apply dual_path; by rewrite reverse_involutive|by apply HP].
Qed.
Lemma dual_Paths pit1 pit2 a b len : (∀ p, iter_ok (pit1 p)) → (∀ p, iter_ok (pit2 p)) →
  (∃ s, len = LenStr s) ∨ (∃ n, len = LenInt n) ∨ (∃ m n : nat, len = LenList [Z.of_nat m; Z.of_nat n]) →
  ∃ L1 L2, Paths pit1 h a b len = Ok L1 ∧ Paths pit2 d b a len = Ok L2 ∧ L2 ≡ₚ (λ p : list nat, reverse p) <$> L1.
Proof using HO HL.
  intros Hi1 Hi2 Hl. pose proof (dual_order h HO) as HO2. pose proof dual_link as HL2.
  destruct (C38_Paths h pit1 a b HO HL Hi1) as (A1 & I1 & L1 & _). destruct (C38_Paths d pit2 b a HO2 HL2 Hi2) as (A2 & I2 & L2 & _).
  destruct (C39_Paths_min_max h pit1 a b HO HL Hi1) as (N1 & X1). destruct (C39_Paths_min_max d pit2 b a HO2 HL2 Hi2) as (N2 & X2).
  destruct Hl as [[s ->]|[[n ->]|(m & n & ->)]].
  - destruct (decide (s = "min")) as [->|S1]; [|destruct (decide (s = "max" ∨ s = "timegeo")) as [S2|S2]].
    + destruct N1 as (Q1 & E1 & D1 & H1), N2 as (Q2 & E2 & D2 & H2). exists Q1, Q2. split; [done|]. split; [done|].
      apply (dual_path_lists _ _ a b Q1 Q2 D1 D2 H1 H2). intros p. rewrite reverse_length. split.
      * intros Hm q Hq%dual_path. rewrite <- (reverse_length q). by apply Hm.
      * intros Hm q Hq. rewrite <- (reverse_length q). apply Hm. apply dual_path. by rewrite reverse_involutive.
    + destruct (X1 s S2) as (Q1 & E1 & D1 & H1), (X2 s S2) as (Q2 & E2 & D2 & H2). exists Q1, Q2. split; [done|]. split; [done|].
      apply (dual_path_lists _ _ a b Q1 Q2 D1 D2 H1 H2). intros p. rewrite reverse_length. split.
      * intros Hm q Hq%dual_path. rewrite <- (reverse_length q). by apply Hm.
      * intros Hm q Hq. rewrite <- (reverse_length q). apply Hm. apply dual_path. by rewrite reverse_involutive.
    + destruct (A1 s) as (Q1 & E1 & D1 & H1); [tauto..|]. destruct (A2 s) as (Q2 & E2 & D2 & H2); [tauto..|].
      exists Q1, Q2. split; [done|]. split; [done|]. apply (dual_path_lists (λ _, True) (λ _, True) a b Q1 Q2 D1 D2); [| |done]; intros p; [rewrite H1|rewrite H2]; tauto.
  - destruct (decide (n < 0)%Z) as [Hn|Hn].
    + destruct (C38_negative_length h pit1 a b n HO HL Hi1 Hn) as (Q1 & E1 & D1 & H1).
      destruct (C38_negative_length d pit2 b a n HO2 HL2 Hi2 Hn) as (Q2 & E2 & D2 & H2).
      exists Q1, Q2. split; [done|]. split; [done|]. by apply (dual_path_lists (λ _, n = (-1)%Z) (λ _, n = (-1)%Z) a b Q1 Q2 D1 D2).
    + destruct (I1 (Z.to_nat n)) as (Q1 & E1 & D1 & H1), (I2 (Z.to_nat n)) as (Q2 & E2 & D2 & H2). rewrite Z2Nat.id in E1, E2 by lia.
      exists Q1, Q2. split; [done|]. split; [done|].
      apply (dual_path_lists (λ p, length p = Z.to_nat n) (λ p, length p = Z.to_nat n) a b Q1 Q2 D1 D2 H1 H2). intros p. by rewrite reverse_length.
  - destruct (L1 m n) as (Q1 & E1 & D1 & H1), (L2 m n) as (Q2 & E2 & D2 & H2).
    exists Q1, Q2. split; [done|]. split; [done|].
    apply (dual_path_lists (λ p, m ≤ length p ≤ n) (λ p, m ≤ length p ≤ n) a b Q1 Q2 D1 D2 H1 H2). intros p. by rewrite reverse_length.
Qed.
End dual.
Lemma opposite_dual f h1 C1 h2 C2 : order_inv h2 → opposite_causet f h1 C1 h2 C2 → same_causet f h1 C1 (dual h2) C2.
Proof.
  intros HO [Hi Hs Hb H1 H2]. split; [done|done| |done|by apply dual_closed]. intros a b Ha Hb'. rewrite dual_before by done. by apply Hb.
Qed.
Lemma snd_LinkPast h x : snd (get_LinkPast h x) = LinkPast h x.
Proof. unfold get_LinkPast, LinkPast. destruct (lprec h x); [done|]. unfold lprec. cbv zeta. cbn [snd]. rewrite link_lookup. by rewrite decide_True. Qed.
Lemma snd_LinkFuture h x : snd (get_LinkFuture h x) = LinkFuture h x.
Proof. unfold get_LinkFuture, LinkFuture. destruct (lsucc h x); [done|]. unfold lsucc. cbv zeta. cbn [snd]. rewrite link_lookup. by rewrite decide_True. Qed.
Lemma snd_LinkPastCard h x : snd (get_LinkPastCard h x) = size (LinkPast h x).
Proof. rewrite <- snd_LinkPast. unfold get_LinkPastCard. by destruct (get_LinkPast h x). Qed.
Lemma snd_LinkFutureCard h x : snd (get_LinkFutureCard h x) = size (LinkFuture h x).
Proof. rewrite <- snd_LinkFuture. unfold get_LinkFutureCard. by destruct (get_LinkFuture h x). Qed.
Lemma snd_isPastLink h x y : snd (isPastLink h x y) = bool_decide (y ∈ LinkPast h x).
Proof. rewrite <- snd_LinkPast. unfold isPastLink. by destruct (get_LinkPast h x). Qed.
Lemma snd_isFutureLink h x y : snd (isFutureLink h x y) = bool_decide (y ∈ LinkFuture h x).
Proof. rewrite <- snd_LinkFuture. unfold isFutureLink. by destruct (get_LinkFuture h x). Qed.

(** ** Theorems *)
(** Queries of single events: past and future are exchanged. *)
Theorem C93_event (it1 it2 : oracle) (f : nat → nat) (h1 h2 : heap) (C1 C2 : gset nat) :
  iter_ok it1 → iter_ok it2 → order_inv h1 → link_inv h1 → order_inv h2 → link_inv h2 → opposite_causet f h1 C1 h2 C2 →
  (∀ a, a ∈ C1 →
     Future h2 (f a) = image f (Past h1 a) ∧ Past h2 (f a) = image f (Future h1 a) ∧ Cone h2 (f a) = image f (Cone h1 a) ∧
     PresentOrFuture h2 (f a) = image f (PresentOrPast h1 a) ∧ PresentOrPast h2 (f a) = image f (PresentOrFuture h1 a) ∧
     snd (get_LinkFuture h2 (f a)) = image f (snd (get_LinkPast h1 a)) ∧ snd (get_LinkPast h2 (f a)) = image f (snd (get_LinkFuture h1 a)) ∧
     snd (get_LinkCone h2 (f a)) = image f (snd (get_LinkCone h1 a)) ∧
     FutureCard h2 (f a) = PastCard h1 a ∧ PastCard h2 (f a) = FutureCard h1 a ∧ ConeCard h2 (f a) = ConeCard h1 a ∧
     snd (get_LinkFutureCard h2 (f a)) = snd (get_LinkPastCard h1 a) ∧ snd (get_LinkPastCard h2 (f a)) = snd (get_LinkFutureCard h1 a) ∧
     (∀ X, X ⊆ C1 → Spacelike h2 (f a) (image f X) = image f (Spacelike h1 a X) ∧ SpacelikeCard h2 (f a) (image f X) = SpacelikeCard h1 a X)) ∧
  (∀ a b, a ∈ C1 → b ∈ C1 →
     ev_lt h2 (f b) (f a) = ev_lt h1 a b ∧ ev_le h2 (f b) (f a) = ev_le h1 a b ∧
     ev_gt h2 (f b) (f a) = ev_gt h1 a b ∧ ev_ge h2 (f b) (f a) = ev_ge h1 a b ∧
     isCausalTo h2 (f a) (f b) = isCausalTo h1 a b ∧ isSpacelikeTo h2 (f a) (f b) = isSpacelikeTo h1 a b ∧
     isLink h2 (f b) (f a) = isLink h1 a b ∧
     snd (isFutureLink h2 (f a) (f b)) = snd (isPastLink h1 a b) ∧ snd (isPastLink h2 (f a) (f b)) = snd (isFutureLink h1 a b) ∧
     Rank it2 h2 (f b) (f a) = Rank it1 h1 a b).
Proof.
  intros Hi1 Hi2 HO1 HL1 HO2 HL2 HS%opposite_dual; [|done].
  pose proof (dual_order h2 HO2) as HOd. pose proof (dual_link h2 HO2 HL2) as HLd.
  destruct (C92_event it1 it2 f h1 (dual h2) C1 C2 Hi1 Hi2 HO1 HL1 HOd HLd HS) as [H1 H2]. split.
  - intros a Ha. destruct (H1 a Ha) as (E1 & E2 & E3 & E4 & E5 & E6 & E7 & E8 & E9 & E10 & E11 & E12 & E13 & E14). clear H1 H2.
    rewrite !snd_LinkPast, !snd_LinkFuture, !snd_LinkPastCard, !snd_LinkFutureCard in *.
    change (snd (get_LinkCone (dual h2) (f a))) with (LinkCone (dual h2) (f a)) in E8.
    rewrite dual_Past in E1. rewrite dual_Future in E2. rewrite dual_Cone in E3.
    rewrite dual_LinkPast in E6 by done. rewrite dual_LinkFuture in E7 by done. rewrite dual_LinkCone in E8 by done.
    rewrite dual_LinkPast in E12 by done. rewrite dual_LinkFuture in E13 by done.
    unfold PresentOrPast, PresentOrFuture, PastCard, FutureCard, ConeCard in *. rewrite dual_prec in E4, E9. rewrite dual_succ in E5, E10. rewrite dual_prec, dual_succ in E11.
    split_and!; try done; [lia|]. intros X HX. destruct (E14 X HX) as [F1 F2]. rewrite dual_SpacelikeCard in F2. unfold Spacelike in *. rewrite dual_Cone in F1. done.
  - intros a b Ha Hb. destruct (H2 a b Ha Hb) as (E1 & E2 & E3 & E4 & E5 & E6 & E7 & E8 & E9 & E10).
    destruct (H2 b a Hb Ha) as (G1 & _ & _ & _ & _ & _ & _ & _ & _ & _). clear H1 H2.
    rewrite !snd_isPastLink, !snd_isFutureLink in *.
    rewrite dual_lt in E1 by done. rewrite dual_le in E2 by done. rewrite dual_lt in G1 by done.
    rewrite dual_isSpacelikeTo in E6. rewrite dual_isLink in E7.
    rewrite dual_LinkPast in E8 by done. rewrite dual_LinkFuture in E9 by done. rewrite (dual_Rank h2 HO2 HL2 it2 it2) in E10 by done.
    assert (Egt : ev_gt h2 (f b) (f a) = ev_gt h1 a b) by exact G1.
    assert (Eq : bool_decide (f a = f b) = bool_decide (a = b)) by (apply bool_decide_ext; by apply (same_eq f h1 C1 (dual h2) C2)).
    assert (Eq' : bool_decide (f b = f a) = bool_decide (a = b)) by (rewrite <- Eq; by apply bool_decide_ext).
    split_and!; try done.
    + unfold ev_ge. rewrite Eq'. f_equal. exact G1.
    + unfold isCausalTo, ev_le. change (ev_gt h2 (f a) (f b)) with (ev_lt h2 (f b) (f a)). rewrite E1, Eq.
      change (bool_decide (f a ∈ prec h2 (f b))) with (ev_lt h2 (f a) (f b)). rewrite G1.
      change (bool_decide (a ∈ prec h1 b)) with (ev_lt h1 a b). change (ev_gt h1 a b) with (ev_lt h1 b a).
      destruct (bool_decide (a = b)), (ev_lt h1 a b), (ev_lt h1 b a); done.
Qed.
Print Assumptions C93_event.

(** Queries of sets of events and of the whole causet. *)
Theorem C93_sets (it1 it2 : oracle) (f : nat → nat) (h1 h2 : heap) (C1 C2 : gset nat) :
  iter_ok it1 → iter_ok it2 → order_inv h1 → link_inv h1 → order_inv h2 → link_inv h2 → opposite_causet f h1 C1 h2 C2 →
  (∀ X, X ⊆ C1 →
     (∀ present intersect,
        FutureOf h2 (image f X) present intersect = image f (PastOf h1 X present intersect) ∧
        PastOf h2 (image f X) present intersect = image f (FutureOf h1 X present intersect) ∧
        ConeOf h2 (image f X) present intersect = image f (ConeOf h1 X present intersect)) ∧
     SpacelikeTo h2 C2 (image f X) = image f (SpacelikeTo h1 C1 X) ∧
     LinkCount h2 C2 (Some (image f X)) = LinkCount h1 C1 (Some X) ∧
     isChain h2 C2 (Some (image f X)) = isChain h1 C1 (Some X) ∧
     isAntichain h2 C2 (Some (image f X)) = isAntichain h1 C1 (Some X) ∧
     isPath it2 h2 C2 (Some (image f X)) = isPath it1 h1 C1 (Some X) ∧
     FutureInfOf h2 (image f X) = image f (PastInfOf h1 X) ∧ PastInfOf h2 (image f X) = image f (FutureInfOf h1 X) ∧
     FutureInfCardOf h2 (image f X) = PastInfCardOf h1 X ∧ PastInfCardOf h2 (image f X) = FutureInfCardOf h1 X) ∧
  (∀ a b, a ∈ C1 → b ∈ C1 →
     (∀ boundary, Interval h2 (f b) (f a) boundary = image f (Interval h1 a b boundary) ∧
                  IntervalCard h2 (f b) (f a) boundary = IntervalCard h1 a b boundary) ∧
     PerimetralEvents h2 (f b) (f a) = image f (PerimetralEvents h1 a b) ∧
     PerimetralEventCount h2 (f b) (f a) = PerimetralEventCount h1 a b ∧
     InternalEvents h2 (f b) (f a) = image f (InternalEvents h1 a b) ∧
     InternalEventCount h2 (f b) (f a) = InternalEventCount h1 a b) ∧
  Card C2 = Card C1 ∧ LinkCount h2 C2 None = LinkCount h1 C1 None ∧
  isChain h2 C2 None = isChain h1 C1 None ∧ isAntichain h2 C2 None = isAntichain h1 C1 None ∧
  isPath it2 h2 C2 None = isPath it1 h1 C1 None ∧
  FutureInf h2 C2 = image f (PastInf h1 C1) ∧ PastInf h2 C2 = image f (FutureInf h1 C1) ∧
  FutureInfCard h2 C2 = PastInfCard h1 C1 ∧ PastInfCard h2 C2 = FutureInfCard h1 C1.
Proof.
  intros Hi1 Hi2 HO1 HL1 HO2 HL2 Hop. pose proof (oc_closed2 _ _ _ _ _ Hop) as Hcl. pose proof (opposite_dual f h1 C1 h2 C2 HO2 Hop) as HS.
  pose proof (dual_order h2 HO2) as HOd. pose proof (dual_link h2 HO2 HL2) as HLd.
  destruct (C92_sets it1 it2 f h1 (dual h2) C1 C2 Hi1 Hi2 HO1 HL1 HOd HLd HS) as (H1 & H2 & H3). split; [|split].
  - intros X HX. destruct (H1 X HX) as (E1 & E2 & E3 & E4 & E5 & E6 & E7 & E8 & E9 & E10). clear H1 H2 H3.
    destruct (dual_Infs h2 C2 (image f X)) as (_ & _ & F3 & F4). destruct (dual_InfCards h2 HO2 C2 (image f X)) as (_ & _ & G3 & G4).
    rewrite F3 in E7. rewrite F4 in E8. rewrite G3 in E9. rewrite G4 in E10.
    rewrite dual_LinkCountOf in E3 by done. rewrite dual_isChain in E4. rewrite dual_isAntichain in E5. rewrite dual_isPath in E6 by done.
    split_and!; try done.
    + intros p q. destruct (E1 p q) as (D1 & D2 & D3). rewrite dual_PastOf' in D1 by done. rewrite dual_FutureOf' in D2 by done. rewrite dual_ConeOf in D3 by done. done.
    + unfold SpacelikeTo in *. by rewrite dual_ConeOf in E2.
  - intros a b Ha Hb. destruct (H2 a b Ha Hb) as (E1 & E2 & E3 & E4 & E5). clear H1 H2 H3.
    rewrite dual_Perimetral in E2 by done. rewrite dual_PerimetralCount in E3 by done. rewrite dual_Internal in E4 by done. rewrite dual_InternalCount in E5 by done.
    split_and!; try done. intros i. destruct (E1 i) as [D1 D2]. rewrite dual_Interval_any in D1 by done. by rewrite dual_IntervalCard in D2.
  - destruct H3 as (E0 & E1 & E2 & E3 & E4 & E5 & E6 & E7 & E8). clear H1 H2.
    destruct (dual_Infs h2 C2 ∅) as (F1 & F2 & _). destruct (dual_InfCards h2 HO2 C2 ∅) as (G1 & G2 & _).
    rewrite F1 in E5. rewrite F2 in E6. rewrite G1 in E7. rewrite G2 in E8.
    rewrite dual_LinkCount in E1 by done. rewrite dual_isChain in E2. rewrite dual_isAntichain in E3. rewrite dual_isPath in E4 by done. done.
Qed.
Print Assumptions C93_sets.

(** Layers, ranks and components: the numbers change sign.  Layers and ranks from m to n become those from -n to -m,
    if neither limit is 0 or (for the layers) the set is an antichain. *)
Theorem C93_layers (it1 it2 : oracle) (f : nat → nat) (h1 h2 : heap) (C1 C2 : gset nat) :
  iter_ok it1 → iter_ok it2 → order_inv h1 → link_inv h1 → order_inv h2 → link_inv h2 → opposite_causet f h1 C1 h2 C2 →
  (∀ X, X ⊆ C1 →
     (∀ m n, (m ≠ 0 ∧ n ≠ 0)%Z →
        Layers h2 (image f X) (- n) (Some (- m)%Z) = image f (Layers h1 X m (Some n)) ∧
        Ranks it2 h2 (image f X) (- n) (Some (- m)%Z) = image f (Ranks it1 h1 X m (Some n))) ∧
     ((∀ a b, a ∈ X → b ∈ X → ¬ before h1 a b) →
        ∀ m n, Layers h2 (image f X) (- n) (Some (- m)%Z) = image f (Layers h1 X m (Some n))) ∧
     (∀ reverse l, layered h1 X (negb reverse) = Ok l → layered h2 (image f X) reverse = Ok (image f <$> l)) ∧
     (∃ l1 l2, disjoint_ it1 h1 X = Ok l1 ∧ disjoint_ it2 h2 (image f X) = Ok l2 ∧ l2 ≡ₚ image f <$> l1) ∧
     isDisjoint it2 h2 (image f X) = isDisjoint it1 h1 X) ∧
  (∀ l reverse, (∀ x, x ∈ l → x ∈ C1) →
     LayerNumbers h2 (image_list f l) reverse = Z.opp <$> LayerNumbers h1 l (negb reverse) ∧
     RankNumbers it2 h2 (image_list f l) reverse = Z.opp <$> RankNumbers it1 h1 l (negb reverse)).
Proof.
  intros Hi1 Hi2 HO1 HL1 HO2 HL2 Hop. pose proof (opposite_dual f h1 C1 h2 C2 HO2 Hop) as HS.
  pose proof (dual_order h2 HO2) as HOd. pose proof (dual_link h2 HO2 HL2) as HLd.
  destruct (C92_layers it1 it2 f h1 (dual h2) C1 C2 Hi1 Hi2 HO1 HL1 HOd HLd HS) as (H1 & H2 & _). split.
  - intros X HX. destruct (H1 X HX) as (E1 & E2 & (l1 & l2 & D1 & D2 & D3) & E4). clear H1 H2.
    destruct (dual_disjoint h2 HO2 it2 it2 (image f X) Hi2 Hi2) as (k1 & k2 & F1 & F2 & F3). rewrite D2 in F2. injection F2 as <-.
    split_and!.
    + intros m n [Hm Hn]. split.
      * rewrite <- (proj1 (E1 m (Some n))), <- dual_Layers' by (done || left; lia). by rewrite !Z.opp_involutive.
      * rewrite <- (proj2 (E1 m (Some n))), <- (dual_Ranks h2 HO2 HL2 it2 it2) by (done || lia). by rewrite !Z.opp_involutive.
    + intros Hac m n. rewrite <- (proj1 (E1 m (Some n))).
      assert (Hac2 : ∀ a b, a ∈ image f X → b ∈ image f X → ¬ before h2 a b).
      { intros a b (x & Hx & <-)%image_elem (y & Hy & <-)%image_elem. rewrite <- (oc_before _ _ _ _ _ Hop) by auto. auto. }
      rewrite <- (dual_Layers' h2 HO2 (image f X) (- n) (- m)) by (by right). by rewrite !Z.opp_involutive.
    + intros r l E. specialize (E2 _ _ E). destruct r; cbn [negb] in E2.
      * by rewrite dual_layered by done.
      * rewrite dual_layered in E2 by done. by rewrite dual_dual in E2.
    + exists l1, k1. split; [done|]. split; [done|]. by rewrite <- F3.
    + unfold isDisjoint. rewrite F1, D1. cbn. apply Permutation_length in F3, D3. rewrite fmap_length in D3. by rewrite <- F3, D3.
  - intros l r Hl. destruct (H2 l r Hl) as [_ _]. split.
    + rewrite <- (proj1 (H2 l (negb r) Hl)), dual_LayerNumbers, negb_involutive by done. by rewrite opp_opp.
    + rewrite <- (proj2 (H2 l (negb r) Hl)), (dual_RankNumbers h2 HO2 HL2 it2 it2), negb_involutive by done. by rewrite opp_opp.
Qed.
Print Assumptions C93_layers.

(** Paths: every list of events is reversed. *)
Theorem C93_paths (pit1 pit2 : list nat → oracle) (f : nat → nat) (h1 h2 : heap) (C1 C2 : gset nat) (a b : nat) (len : path_length) :
  (∀ p, iter_ok (pit1 p)) → (∀ p, iter_ok (pit2 p)) →
  order_inv h1 → link_inv h1 → order_inv h2 → link_inv h2 → opposite_causet f h1 C1 h2 C2 → a ∈ C1 → b ∈ C1 →
  (∃ s, len = LenStr s) ∨ (∃ n, len = LenInt n) ∨ (∃ m n : nat, len = LenList [Z.of_nat m; Z.of_nat n]) →
  ∃ L1 L2, Paths pit1 h1 a b len = Ok L1 ∧ Paths pit2 h2 (f b) (f a) len = Ok L2 ∧
    L2 ≡ₚ (λ p : list nat, reverse (image_list f p)) <$> L1.
Proof.
  intros Hi1 Hi2 HO1 HL1 HO2 HL2 Hop Ha Hb Hlen. pose proof (opposite_dual f h1 C1 h2 C2 HO2 Hop) as HS.
  destruct (C92_paths pit1 pit2 f h1 (dual h2) C1 C2 a b len Hi1 Hi2 HO1 HL1 (dual_order h2 HO2) (dual_link h2 HO2 HL2) HS Ha Hb Hlen)
    as (L1 & L2 & E1 & E2 & E3).
  destruct (dual_Paths h2 HO2 HL2 pit2 pit2 (f b) (f a) len Hi2 Hi2 Hlen) as (K1 & K2 & F1 & F2 & F3).
  rewrite E2 in F2. injection F2 as <-. exists L1, K1. split; [done|]. split; [done|].
  assert (EK : K1 = (λ p : list nat, reverse p) <$> ((λ p : list nat, reverse p) <$> K1)).
  { clear. induction K1 as [|p K IH]; [done|]. rewrite !fmap_cons, reverse_involutive. by f_equal. }
  rewrite EK, <- F3, E3. by rewrite <- list_fmap_compose.
Qed.
Print Assumptions C93_paths.

(** Distances: the same numbers. *)
Theorem C93_distances (f : nat → nat) (h1 h2 : heap) (C1 C2 : gset nat) :
  order_inv h1 → link_inv h1 → order_inv h2 → link_inv h2 → opposite_causet f h1 C1 h2 C2 →
  (∀ a b searching intersecting, a ∈ C1 → b ∈ C1 →
     (∀ X, searching = Some X → X ⊆ C1) → (∀ X, intersecting = Some X → X ⊆ C1) →
     SmallestIntervalCard h2 C2 (f a) (f b) (image f <$> searching) (image f <$> intersecting) =
     SmallestIntervalCard h1 C1 a b searching intersecting) ∧
  (∀ ac counting recursive, (∀ x, x ∈ ac → x ∈ C1) → NoDup ac →
     (∀ a b, a ∈ ac → b ∈ ac → a ≠ b → spacelike (before h1) a b) →
     DistanceMatrix h2 C2 (image_list f ac) counting recursive = DistanceMatrix h1 C1 ac counting recursive).
Proof.
  intros HO1 HL1 HO2 HL2 Hop. pose proof (opposite_dual f h1 C1 h2 C2 HO2 Hop) as HS.
  destruct (C92_distances f h1 (dual h2) C1 C2 HO1 HL1 (dual_order h2 HO2) (dual_link h2 HO2 HL2) HS) as [H1 H2]. split.
  - intros a b o p Ha Hb Ho Hp. rewrite <- (H1 a b o p Ha Hb Ho Hp). symmetry. by apply dual_SmallestIntervalCard.
  - intros ac c r Hac Hn Hsp. rewrite <- (H2 ac c r Hac Hn Hsp). symmetry. by apply dual_DistanceMatrix.
Qed.
Print Assumptions C93_distances.

(** A concrete case: a causet that is not its own opposite, and its opposite made by other calls. *)
Definition hook_ops : list op :=
  [ONew (LInt 1) ∅ ∅ [] []; ONew (LInt 2) {[0]} ∅ [] []; ONew (LInt 3) {[0]} ∅ [] []; ONew (LInt 4) {[1]} ∅ [] []].
Definition hook : heap := run ∅ ((λ o, (it_elements, o)) <$> hook_ops).
Definition koob_ops : list op :=
  [ONew (LInt 4) ∅ ∅ [] []; ONew (LInt 2) {[0]} ∅ [] []; ONew (LInt 3) ∅ ∅ [] []; ONew (LInt 1) {[1; 2]} ∅ [] []; OLink 3].
Definition koob : heap := run ∅ ((λ o, (it_elements, o)) <$> koob_ops).
Definition to_koob (x : nat) : nat := match x with 0 => 3 | 3 => 0 | _ => x end.
Definition opposite_dec (f : nat → nat) (h1 : heap) (C1 : gset nat) (h2 : heap) : Prop :=
  set_Forall (λ a, set_Forall (λ b, (f a = f b → a = b) ∧ (a ∈ prec h1 b ↔ f b ∈ prec h2 (f a))) C1) C1.
Lemma koob_opposite : opposite_causet to_koob hook {[0; 1; 2; 3]} koob {[0; 1; 2; 3]}.
Proof.
  assert (H1 : closed_dec hook {[0; 1; 2; 3]}) by decide_vm.
  assert (H2 : closed_dec koob {[0; 1; 2; 3]}) by decide_vm.
  assert (H : opposite_dec to_koob hook {[0; 1; 2; 3]} koob) by decide_vm.
  assert (Him : image to_koob {[0; 1; 2; 3]} = {[0; 1; 2; 3]}) by decide_vm.
  split.
  - intros a b Ha Hb. exact (proj1 (H a Ha b Hb)).
  - intros y. rewrite <- Him at 1. apply image_elem.
  - intros a b Ha Hb. exact (proj2 (H a Ha b Hb)).
  - exact H1.
  - exact H2.
Qed.
Example C93_nonvacuous :
  order_inv hook ∧ link_inv hook ∧ order_inv koob ∧ link_inv koob ∧
  opposite_causet to_koob hook {[0; 1; 2; 3]} koob {[0; 1; 2; 3]} ∧
  Future hook 0 = {[1; 2; 3]} ∧ Past koob 3 = {[0; 1; 2]} ∧ Past hook 3 = {[0; 1]}.
Proof.
  split; [apply ops_order; by vm_compute|]. split; [apply ops_link; [by vm_compute|]; unfold no_disjoin; repeat constructor|].
  split; [apply ops_order; by vm_compute|]. split; [apply ops_link; [by vm_compute|]; unfold no_disjoin; repeat constructor|].
  split; [apply koob_opposite|]. split_and!; decide_vm.
Qed.

(** Without the condition on the limits the claim about layers is false: layer 0 of a set holds the events with no
    event of the set after them, so it becomes the set of the events with none before them. *)
Theorem C93_layer_zero_refuted :
  ∃ (f : nat → nat) (h1 h2 : heap) (C1 C2 : gset nat),
    order_inv h1 ∧ link_inv h1 ∧ order_inv h2 ∧ link_inv h2 ∧ opposite_causet f h1 C1 h2 C2 ∧
    Layers h2 (image f C1) 0 (Some 0%Z) ≠ image f (Layers h1 C1 0 (Some 0%Z)).
Proof.
  exists to_koob, hook, koob, {[0; 1; 2; 3]}, {[0; 1; 2; 3]}. destruct C93_nonvacuous as (H1 & H2 & H3 & H4 & H5 & _).
  split_and!; [exact H1|exact H2|exact H3|exact H4|exact H5|]. decide_vm.
Qed.
Print Assumptions C93_layer_zero_refuted.
