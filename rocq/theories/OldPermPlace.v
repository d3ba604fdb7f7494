(** Facts about the placement of the events in permuted_old
    (/repo/causetpermutations.py:229-272). *)
From Verif Require Import Base Spec EventModel EventFacts CausetModel DistModel SpecPerm OldPermModel OldPermFacts OldPermMore.

(** The events before the first one of the list with the property. *)
Lemma take_first (q : nat → bool) (R : nat → Prop) l y : (∀ x, q x = true ↔ R x) →
  y ∈ take (match first_last q l with Some (i, _) => i | None => 0 end) l ↔
  ∃ i i' z, l !! i = Some y ∧ l !! i' = Some z ∧ R z ∧ ∀ i'' z', i'' ≤ i → l !! i'' = Some z' → ¬ R z'.
Proof.
  intros Hq. unfold first_last.
  pose (p i := q (l !!! i) = true).
  assert (Hp : ∀ i x, l !! i = Some x → (p i ↔ R x)).
  { intros i x Hx. unfold p. rewrite (list_lookup_total_correct _ _ _ Hx). apply Hq. }
  assert (Hin : ∀ i, i ∈ filter (λ i, q (l !!! i) = true) (seq 0 (length l)) ↔ i < length l ∧ p i).
  { intros i. rewrite elem_of_list_filter, elem_of_seq. unfold p. split; intros [? ?]; split; try done; lia. }
  pose proof (sorted_filter_seq (λ i, q (l !!! i) = true) 0 (length l)) as Hsort.
  destruct (filter (λ i, q (l !!! i) = true) (seq 0 (length l))) as [|i is].
  { rewrite take_0. split; [by intros ?%elem_of_nil|]. intros (i & i' & z & _ & Hz & HR & _).
    assert (i' ∈ []) as ?%elem_of_nil; [|done]. apply Hin. split; [by eapply lookup_lt_Some|]. by apply (Hp i' z). }
  destruct (sorted_last i is Hsort) as [_ Hrange].
  destruct (proj1 (Hin i) (elem_of_list_here _ _)) as [Hil Hi]. split.
  - intros [k Hk]%elem_of_list_lookup.
    assert (Hki : k < i) by (apply lookup_lt_Some in Hk; rewrite take_length in Hk; lia).
    rewrite lookup_take in Hk by done. apply lookup_lt_is_Some in Hil as [z Hz].
    exists k, i, z. split_and!; [done|done|by apply (Hp i z)|]. intros i'' z' Hle Hz' HR.
    assert (i ≤ i'') by (apply Hrange, Hin; split; [by eapply lookup_lt_Some|by apply (Hp i'' z')]). lia.
  - intros (k & i' & z & Hk & Hz & HR & Hn). apply elem_of_list_lookup. exists k.
    apply lookup_lt_is_Some in Hil as [z' Hz'].
    destruct (decide (k < i)) as [Hlt|Hlt]; [by rewrite lookup_take|]. exfalso.
    apply (Hn i z'); [lia|done|]. by apply (Hp i z').
Qed.

Section place.
Context (h : heap) (HO : order_inv h).
Context (S : gset nat) (f : nat → nat) (Hf : ∀ a b, before h a b → f a < f b).
Context (full : list (list nat)).
Context (Hfull : ∀ i l a, full !! i = Some l → a ∈ l → a ∈ S ∧ f a = i).
Notation wide := (widened (before h) S full).
Notation past := (widened (λ a b, before h b a) S full).
Context (extF : gmap nat (gset nat)).
Context (HF : ∀ b s, extF !! b = Some s → ∀ x, x ∈ s ↔ wide b x).

Lemma past_iff b x : past b x ↔ (x ∈ S ∧ before h x b) ∨
  ∃ l a, l ∈ full ∧ spans (λ a b, before h b a) b l a ∧ (x = a ∨ past a x).
Proof.
  split.
  - intros Hw. inversion Hw as [a' x' H1 H2|a' l a H1 H2|a' l a x' H1 H2 H3]; subst.
    + by left.
    + right. exists l, x. split_and!; [done|done|by left].
    + right. exists l, a. split_and!; [done|done|by right].
  - intros [[? ?]|(l & a & ? & ? & [->|?])].
    + by apply widened_order.
    + by apply widened_span with l.
    + by apply widened_next with l a.
Qed.
Lemma spans_below b l i a : full !! i = Some l → spans (λ a b, before h b a) b l a → i < f b ∧ f a = i ∧ a ∈ l.
Proof using Hf Hfull.
  intros Hl (i1 & j & k & x & y & _ & Hx & Ha & _ & HR & _).
  assert (Hxl : x ∈ l) by (by eapply elem_of_list_lookup_2).
  assert (Hal : a ∈ l) by (by eapply elem_of_list_lookup_2).
  destruct (Hfull i l x Hl Hxl) as [_ Hfx]. destruct (Hfull i l a Hl Hal) as [_ Hfa].
  pose proof (Hf _ _ HR). split_and!; [lia|done|done].
Qed.
Lemma between_past b l a : a ∈ between (λ a, ev_lt h a b) l ↔ spans (λ a b, before h b a) b l a.
Proof. apply between_gen. intros x. unfold ev_lt, before. apply bool_decide_eq_true. Qed.
Lemma wide_above a x : wide a x → x ∈ S ∧ f a < f x.
Proof using Hf Hfull HO.
  induction 1 as [a x Hx HR|a l b [i Hi]%elem_of_list_lookup Hs|a l b x [i Hi]%elem_of_list_lookup Hs _ [IH1 IH2]].
  - split; [done|]. by apply Hf.
  - destruct (spans_above h HO S f Hf full Hfull a l i b Hi Hs) as (H1 & H2 & H3).
    destruct (Hfull i l b Hi H3). split; [done|lia].
  - destruct (spans_above h HO S f Hf full Hfull a l i b Hi Hs) as (H1 & H2 & H3).
    destruct (Hfull i l b Hi H3). split; [done|lia].
Qed.
Lemma past_below b x : past b x → x ∈ S ∧ f x < f b.
Proof using Hf Hfull.
  induction 1 as [b x Hx HR|b l a [i Hi]%elem_of_list_lookup Hs|b l a x [i Hi]%elem_of_list_lookup Hs _ [IH1 IH2]].
  - split; [done|]. by apply Hf.
  - destruct (spans_below b l i a Hi Hs) as (H1 & H2 & H3).
    destruct (Hfull i l a Hi H3). split; [done|lia].
  - destruct (spans_below b l i a Hi Hs) as (H1 & H2 & H3).
    destruct (Hfull i l a Hi H3). split; [done|lia].
Qed.

(** What the first event of a layer adds to the side, for the layers [below]. *)
Definition init_side (below : list (list nat)) (b x : nat) : Prop :=
  ∃ low i i' y z, low ∈ below ∧ low !! i = Some y ∧ low !! i' = Some z ∧ before h z b ∧
    (∀ i'' z', i'' ≤ i → low !! i'' = Some z' → ¬ before h z' b) ∧ (x = y ∨ wide y x).

Definition good_pasts (layers : list (list nat)) (extP : gmap nat (gset nat)) : Prop :=
  (∀ l b, l ∈ layers → b ∈ l → is_Some (extP !! b)) ∧
  ∀ b s, extP !! b = Some s → ∀ x, x ∈ s ↔ past b x.

(** /repo/causetpermutations.py:236-256 *)
Lemma ext_past_loop extP first b below s0 r0 s r :
  (∀ a s, extP !! a = Some s → ∀ x, x ∈ s ↔ past a x) →
  for_res (ext_past_layer h extF extP first b) below (s0, r0) = Ok (s, r) →
  (∀ l a, l ∈ below → spans (λ a b, before h b a) b l a → is_Some (extP !! a)) ∧
  (∀ x, x ∈ s ↔ x ∈ s0 ∨ ∃ l a, l ∈ below ∧ spans (λ a b, before h b a) b l a ∧ (x = a ∨ past a x)) ∧
  (∀ x, x ∈ r ↔ x ∈ r0 ∨ (first = true ∧ init_side below b x)).
Proof using HF.
  intros HP. revert s0 r0. induction below as [|l below IH]; intros s0 r0; cbn [for_res].
  { intros [= <- <-]. split_and!.
    - by intros l a ?%elem_of_nil.
    - intros x. split; [by left|]. by intros [?|(l & a & ?%elem_of_nil & _)].
    - intros x. split; [by left|]. by intros [?|(_ & (l & ? & ? & ? & ? & ?%elem_of_nil & _))]. }
  unfold ext_past_layer at 1.
  destruct (add_all extP s0 (between (λ a, ev_lt h a b) l)) as [s1|] eqn:E1; cbn [res_bind]; [|done].
  apply add_all_iff in E1 as [A1 A2].
  assert (Hq : ∀ x, ev_lt h x b = true ↔ before h x b) by (intros x; unfold ev_lt, before; apply bool_decide_eq_true).
  set (n := match first_last (λ a, ev_lt h a b) l with Some (i, _) => i | None => 0 end).
  assert (Hn : ∀ y, y ∈ take n l ↔ ∃ i i' z, l !! i = Some y ∧ l !! i' = Some z ∧ before h z b ∧
    ∀ i'' z', i'' ≤ i → l !! i'' = Some z' → ¬ before h z' b).
  { intros y. unfold n. by apply (take_first (λ a, ev_lt h a b) (λ z, before h z b)). }
  assert (Hstep : ∃ r1, (if first && bool_decide (0 < n) then res_map (λ rgt', (s1, rgt')) (add_all extF r0 (take n l)) else Ok (s1, r0)) = Ok (s1, r1) ∧
      (∀ x, x ∈ r1 ↔ x ∈ r0 ∨ (first = true ∧ ∃ y, y ∈ take n l ∧ (x = y ∨ wide y x))) ∨
      ∃ e, (if first && bool_decide (0 < n) then res_map (λ rgt', (s1, rgt')) (add_all extF r0 (take n l)) else Ok (s1, r0)) = Err e).
  { destruct first; cbn [andb].
    2: { exists r0. left. split; [done|]. intros x. split; [by left|]. by intros [?|[? _]]. }
    destruct (bool_decide (0 < n)) eqn:En.
    - destruct (add_all extF r0 (take n l)) as [r1|e] eqn:Er; cbn [res_map]; [|exists r0; right; eauto].
      exists r1. left. split; [done|]. apply add_all_iff in Er as [B1 B2]. intros x. rewrite B2. split.
      + intros [?|[?|(y & sy & Hy & Es & Hx)]]; [by left|right; split; [done|]; exists x; by split; [|left]|].
        right. split; [done|]. exists y. split; [done|]. right. by apply (HF y sy).
      + intros [?|(_ & y & Hy & [->|Hx])]; [by left|by right; left|]. right; right.
        destruct (B1 y Hy) as [sy Es]. exists y, sy. split_and!; [done|done|]. by apply (HF y sy).
    - apply bool_decide_eq_false in En. exists r0. left. split; [done|]. intros x. split; [by left|].
      intros [?|(_ & y & Hy & _)]; [done|]. replace n with 0 in Hy by lia. rewrite take_0 in Hy. by apply elem_of_nil in Hy. }
  destruct Hstep as [r1 [[Hstep Hr1]|[e Hstep]]]; rewrite Hstep; cbn [res_bind]; [|done].
  intros (I1 & I2 & I3)%IH. split_and!.
  - intros l' a [->|Hl]%elem_of_cons Hs; [apply A1; by apply between_past|by apply (I1 l')].
  - intros x. rewrite I2, A2. split.
    + intros [[?|[Hx|(a & sa & Ha & Es & Hx)]]|(l' & a & Hl & Hs & Hx)].
      * by left.
      * right. exists l, x. split_and!; [by left|by apply between_past|by left].
      * right. exists l, a. split_and!; [by left|by apply between_past|]. right. by apply (HP a sa).
      * right. exists l', a. split_and!; [by right|done|done].
    + intros [?|(l' & a & [->|Hl]%elem_of_cons & Hs & Hx)]; [by left; left| |].
      * left; right. apply between_past in Hs. destruct Hx as [->|Hx]; [by left|]. right.
        destruct (A1 a Hs) as [sa Es]. exists a, sa. split_and!; [done|done|]. by apply (HP a sa).
      * right. by exists l', a.
  - intros x. rewrite I3, Hr1. split.
    + intros [[?|(Hfi & y & Hy & Hx)]|(Hfi & (low & i & i' & y & z & H1 & H2))]; [by left| |].
      * right. split; [done|]. apply Hn in Hy as (i & i' & z & H1 & H2 & H3 & H4).
        exists l, i, i', y, z. split_and!; [by left|done..].
      * right. split; [done|]. exists low, i, i', y, z. split; [by right|done].
    + intros [?|(Hfi & (low & i & i' & y & z & [->|H1]%elem_of_cons & H2 & H3 & H4 & H5 & H6))]; [by left; left| |].
      * left; right. split; [done|]. exists y. split; [|done]. apply Hn. by exists i, i', z.
      * right. split; [done|]. exists low, i, i', y, z. by split_and!.
Qed.

(** /repo/causetpermutations.py:235-256, the whole layer *)
Lemma ext_past_rest pre layer post extP r0 fl0 extP' r fl rest :
  full = pre ++ layer :: post → (∀ b, b ∈ rest → b ∈ layer) →
  (∀ b s, extP !! b = Some s → ∀ x, x ∈ s ↔ past b x) →
  for_res (ext_past_of h S extF (reverse pre)) rest (extP, r0, fl0) = Ok (extP', r, fl) →
  (∀ b s, extP' !! b = Some s → ∀ x, x ∈ s ↔ past b x) ∧
  (∀ b, is_Some (extP !! b) → is_Some (extP' !! b)) ∧
  (∀ b, b ∈ rest → is_Some (extP' !! b)) ∧
  ∀ x, x ∈ r ↔ x ∈ r0 ∨ ∃ e0, fl0 = true ∧ rest !! 0 = Some e0 ∧ init_side pre e0 x.
Proof using HF Hf Hfull HO.
  intros Hpre. assert (Hlay : full !! length pre = Some layer) by (rewrite Hpre; by apply list_lookup_middle).
  assert (Hrev : ∀ l, l ∈ reverse pre ↔ l ∈ pre) by (intros l; by rewrite reverse_Permutation).
  revert extP r0 fl0. induction rest as [|b rest IH]; intros extP r0 fl0 Hin HP; cbn [for_res].
  { intros [= -> -> ->]. split_and!; [done|done|by intros b ?%elem_of_nil|].
    intros x. split; [by left|]. by intros [?|(e0 & _ & ? & _)]. }
  unfold ext_past_of at 1.
  destruct (for_res (ext_past_layer h extF extP fl0 b) (reverse pre) (Past h b ∩ S, r0)) as [[s1 r1]|e] eqn:E1; cbn [res_map res_bind]; [|done].
  apply ext_past_loop in E1 as (E1 & E2 & E3); [|done].
  assert (Hb : b ∈ layer) by (apply Hin; by left).
  destruct (Hfull _ _ _ Hlay Hb) as [HbS Hfb].
  assert (Hs1 : ∀ x, x ∈ s1 ↔ past b x).
  { intros x. rewrite E2, past_iff, elem_of_intersection. split.
    - intros [[Hx HxS]|(l & a & Hl & Hs)].
      + left. split; [done|]. done.
      + right. exists l, a. split; [|done]. apply Hrev in Hl. rewrite Hpre. apply elem_of_app. by left.
    - intros [[HxS Hx]|(l & a & Hl & Hs & Hx)].
      + left. split; [|done]. done.
      + right. exists l, a. split; [|done]. apply Hrev. apply elem_of_list_lookup in Hl as [i Hi].
        destruct (spans_below b l i a Hi Hs) as (Hlt & _ & _). rewrite Hfb in Hlt.
        rewrite Hpre, lookup_app_l in Hi by done. by eapply elem_of_list_lookup_2. }
  intros Hr. apply IH in Hr as (R1 & R2 & R3 & R4).
  2: { intros c Hc. apply Hin. by right. }
  2: { intros c s. destruct (decide (c = b)) as [->|Hne].
       - rewrite lookup_insert. intros [= <-]. done.
       - rewrite lookup_insert_ne by done. apply HP. }
  split_and!; [done| | |].
  - intros c Hc. apply R2. destruct (decide (c = b)) as [->|Hne]; [by rewrite lookup_insert|by rewrite lookup_insert_ne].
  - intros c [->|Hc]%elem_of_cons; [apply R2; by rewrite lookup_insert|by apply R3].
  - intros x. rewrite R4, E3. split.
    + intros [[?|[-> Hi]]|(e0 & ? & _)]; [by left| |done]. right. exists b. split_and!; [done|done|].
      destruct Hi as (low & i & i' & y & z & Hl & Hi). exists low, i, i', y, z. split; [by apply Hrev|done].
    + intros [?|(e0 & -> & [= <-] & Hi)]; [by left; left|]. left; right. split; [done|].
      destruct Hi as (low & i & i' & y & z & Hl & Hi). exists low, i, i', y, z. split; [by apply Hrev|done].
Qed.
Lemma ext_past_layers_spec pre layer post extP extP' r fl :
  full = pre ++ layer :: post → good_pasts pre extP →
  for_res (ext_past_of h S extF (reverse pre)) layer (extP, ∅, true) = Ok (extP', r, fl) →
  good_pasts (pre ++ [layer]) extP' ∧
  ∀ x, x ∈ r ↔ ∃ e0, layer !! 0 = Some e0 ∧ init_side pre e0 x.
Proof using HF Hf Hfull HO.
  intros Hpre [HP1 HP2] Hr. apply (ext_past_rest _ _ _ _ _ _ _ _ _ _ Hpre) in Hr as (R1 & R2 & R3 & R4); [|done|done].
  split; [split|].
  - intros l b [Hl| ->%elem_of_list_singleton]%elem_of_app Hb; [|by apply R3]. apply R2. by apply (HP1 l).
  - done.
  - intros x. rewrite R4. split.
    + intros [?%elem_of_empty|(e0 & _ & He & Hi)]; [done|]. by exists e0.
    + intros (e0 & He & Hi). right. by exists e0.
Qed.

(** * The places *)
Notation drawn l j v u := (drawn_at (before h) S full l j v u).
Definition side_now (pre : list (list nat)) (layer : list nat) (j x : nat) : Prop :=
  (∃ i e', i < j ∧ layer !! i = Some e' ∧ in_cone (before h) S full e' x) ∨
  (∃ e0, layer !! 0 = Some e0 ∧ init_side pre e0 x).

Lemma side_before pre layer post j e x : full = pre ++ layer :: post → layer !! j = Some e →
  before_side (before h) S full (length pre) j x ↔ side_now pre layer j x ∧ ¬ in_cone (before h) S full e x.
Proof.
  intros Hpre Hj. assert (Hlay : full !! length pre = Some layer) by (rewrite Hpre; by apply list_lookup_middle).
  split.
  - intros (layer' & e' & Hl & He & Hc & Hx). rewrite Hlay in Hl. injection Hl as <-.
    rewrite Hj in He. injection He as <-. split; [|done].
    destruct Hx as [Hx|(e0 & k & low & i & i' & y & z & H0 & Hk & Hlow & Hi)]; [by left|]. right.
    exists e0. split; [done|]. exists low, i, i', y, z. split; [|done].
    rewrite Hpre, lookup_app_l in Hlow by done. by eapply elem_of_list_lookup_2.
  - intros [Hx Hc]. exists layer, e. split_and!; [done|done|done|].
    destruct Hx as [Hx|(e0 & H0 & (low & i & i' & y & z & Hlow & Hi))]; [by left|]. right.
    apply elem_of_list_lookup in Hlow as [k Hk]. exists e0, k, low, i, i', y, z.
    assert (k < length pre) by (by eapply lookup_lt_Some).
    split_and!; [done|done| |by apply Hi..]. rewrite Hpre. by rewrite lookup_app_l.
Qed.
Definition all_drawn (L : list (option nat)) (P : list nat) : Prop :=
  length L = length P ∧
  ∀ w e, L !! w = Some (Some e) → ∃ l j u layer, full !! l = Some layer ∧ layer !! j = Some e ∧
    P !! w = Some u ∧ drawn l j w u.

(** /repo/causetpermutations.py:257-272 *)
Lemma place_rest pre layer post extP done rest L P r L' P' r' :
  full = pre ++ layer :: post → good_pasts (pre ++ [layer]) extP → layer = done ++ rest →
  (∀ x, x ∈ r ↔ side_now pre layer (length done) x) → all_drawn L P →
  for_res (place_event S extF extP) rest (L, P, r) = Ok (L', P', r') →
  all_drawn L' P'.
Proof using HF.
  intros Hpre [HP1 HP2]. revert done L P r. induction rest as [|e rest IH]; intros dn L P r Hlay Hr HL; cbn [for_res].
  { by intros [= -> -> ->]. }
  unfold place_event at 1.
  destruct (extP !! e) as [p|] eqn:Ep; [|done]. destruct (extF !! e) as [fs|] eqn:Ef; [|done].
  pose proof (HP2 e p Ep) as Hp. pose proof (HF e fs Ef) as Hfs.
  assert (Hj : layer !! length dn = Some e) by (rewrite Hlay; by apply list_lookup_middle).
  assert (Hl : full !! length pre = Some layer) by (rewrite Hpre; by apply list_lookup_middle).
  set (cone := p ∪ fs ∪ {[e]}).
  assert (Hcone : ∀ x, x ∈ cone ↔ in_cone (before h) S full e x).
  { intros x. unfold cone, in_cone. rewrite !elem_of_union, elem_of_singleton, Hp, Hfs. clear. tauto. }
  clearbody cone. cbv zeta. set (v := size p + size (r ∖ cone)). set (u := size p + size (S ∖ (r ∖ cone) ∖ cone) + 1).
  destruct (decide (v < length L)) as [Hv|]; cbn [res_bind]; [|by intros].
  assert (Hside : ∀ x, x ∈ r ∖ cone ↔ before_side (before h) S full (length pre) (length dn) x).
  { intros x. rewrite elem_of_difference, Hr, Hcone. symmetry. by apply (side_before pre layer post). }
  assert (Hd : drawn (length pre) (length dn) v u).
  { exists layer, e, p, (r ∖ cone), (S ∖ (r ∖ cone) ∖ cone). split_and!; [done|done|done|done| |done|done].
    intros x. rewrite elem_of_difference, (elem_of_difference _ _ x), Hside, Hcone. clear. tauto. }
  destruct HL as [HL1 HL2].
  apply (IH (dn ++ [e])).
  - by rewrite <- app_assoc.
  - intros x. rewrite app_length. cbn [length]. rewrite elem_of_union, elem_of_difference, Hr, Hcone.
    assert (Hdec : in_cone (before h) S full e x ∨ ¬ in_cone (before h) S full e x).
    { rewrite <- Hcone. destruct (decide (x ∈ cone)); [by left|by right]. }
    split.
    + intros [[Hs _]|Hc].
      * destruct Hs as [(i & e' & Hi & He' & Hx)|Hx]; [|by right]. left. exists i, e'. split_and!; [lia|done|done].
      * left. exists (length dn), e. split_and!; [lia|done|done].
    + intros [(i & e' & Hi & He' & Hx)|Hx].
      * destruct (decide (i = length dn)) as [->|Hne].
        -- right. rewrite Hj in He'. by injection He' as ->.
        -- destruct Hdec as [Hc|Hc]; [by right|]. left. split; [|done]. left. exists i, e'. split_and!; [lia|done|done].
      * destruct Hdec as [Hc|Hc]; [by right|]. left. split; [|done]. by right.
  - split; [by rewrite !insert_length|]. intros w e' Hw.
    destruct (decide (w = v)) as [->|Hne].
    + rewrite list_lookup_insert in Hw by done. injection Hw as <-.
      exists (length pre), (length dn), u, layer. split_and!; [done|done| |done].
      apply list_lookup_insert. lia.
    + rewrite list_lookup_insert_ne in Hw by done.
      destruct (HL2 w e' Hw) as (l & j & u' & layer' & H1 & H2 & H3 & H4).
      exists l, j, u', layer'. split_and!; [done|done| |done]. by rewrite list_lookup_insert_ne.
Qed.

(** /repo/causetpermutations.py:229-272 *)
Lemma place_layers_drawn pre layers extP L P L' P' :
  full = pre ++ layers → good_pasts pre extP → all_drawn L P →
  place_layers h S extF layers (reverse pre) extP L P = Ok (L', P') → all_drawn L' P'.
Proof using HF Hf Hfull HO.
  revert pre extP L P. induction layers as [|layer post IH]; intros pre extP L P Hpre HP HL; cbn [place_layers].
  { by intros [= -> ->]. }
  destruct (for_res (ext_past_of h S extF (reverse pre)) layer (extP, ∅, true)) as [[[extP' r] fl]|e] eqn:E1; cbn [res_bind]; [|done].
  apply (ext_past_layers_spec _ _ _ _ _ _ _ Hpre HP) in E1 as [HP' Hr].
  destruct (for_res (place_event S extF extP') layer (L, P, r)) as [[[L1 P1] r1]|e] eqn:E2; cbn [res_bind]; [|done].
  apply (place_rest pre layer post extP' [] layer) in E2; [|done|done|done| |done].
  2: { intros x. rewrite Hr. unfold side_now. split; [by right|]. intros [(i & ? & ? & _)|?]; [cbn in *; lia|done]. }
  rewrite <- reverse_snoc. apply IH; [by rewrite <- app_assoc|done|done].
Qed.

(** The lists of one attempt. *)
Lemma try_layers_drawn it L P d : 
  (∀ exts, ext_futures h S full = Ok exts → extF = exts) →
  try_layers it h S full = Ok (Some (L, P, d)) → all_drawn L P.
Proof using HF Hf Hfull HO.
  intros HX. unfold try_layers. destruct (ext_futures h S full) as [exts|e]; cbn [res_bind]; [|done].
  rewrite <- (HX exts eq_refl).
  destruct (place_layers h S extF full [] ∅ (replicate (size S) None) (replicate (size S) 0)) as [[L1 P1]|e] eqn:E; [|by destruct e].
  destruct (decide (0 ∈ P1)); [done|]. destruct (extended_causals it h S extF); cbn [res_map]; [|done].
  intros [= -> -> ->]. apply (place_layers_drawn [] full ∅ (replicate (size S) None) (replicate (size S) 0)); [done| | |done].
  - split; [by intros l b ?%elem_of_nil|]. intros b s. by rewrite lookup_empty.
  - split; [by rewrite !replicate_length|]. intros w e He. apply lookup_replicate in He as [? _]. done.
Qed.
(** The height of a drawn event. *)
Lemma cone_in e x : e ∈ S → in_cone (before h) S full e x → x ∈ S.
Proof using Hf Hfull HO.
  intros He [->|[Hx|Hx]]; [done|by apply (wide_above e)|by apply (past_below e)].
Qed.
Lemma drawn_height l j v u e layer (pasts futures : gset nat) :
  full !! l = Some layer → layer !! j = Some e → drawn l j v u →
  (∀ x, x ∈ pasts ↔ past e x) → (∀ x, x ∈ futures ↔ wide e x) →
  u + v + size futures = size S + size pasts.
Proof using Hf Hfull HO.
  intros Hl Hj (layer' & e' & ps & side & other & Hl' & Hj' & Hps & Hside & Hother & -> & ->) Hp Hfu.
  rewrite Hl in Hl'. injection Hl' as <-. rewrite Hj in Hj'. injection Hj' as <-.
  assert (ps = pasts) as -> by (apply set_eq; intros x; by rewrite Hps, Hp).
  destruct (Hfull l layer e Hl) as [HeS Hfe]; [by eapply elem_of_list_lookup_2|].
  assert (Hcone : ∀ x, in_cone (before h) S full e x ↔ x ∈ {[e]} ∪ (pasts ∪ futures)).
  { intros x. unfold in_cone. rewrite !elem_of_union, elem_of_singleton, Hp, Hfu. clear. tauto. }
  assert (HsS : ∀ x, x ∈ side → x ∈ S ∧ ¬ in_cone (before h) S full e x).
  { intros x (layer1 & e1 & Hl1 & He1 & Hn & Hx)%Hside. rewrite Hl in Hl1. injection Hl1 as <-.
    rewrite Hj in He1. injection He1 as <-. split; [|done].
    destruct Hx as [(i & e2 & _ & He2 & Hx)|(e0 & k & low & i & i' & y & z & _ & _ & Hlow & Hy & _ & _ & _ & Hx)].
    - apply (cone_in e2); [|done]. apply (Hfull l layer); [done|]. by eapply elem_of_list_lookup_2.
    - destruct Hx as [->|Hx].
      + apply (Hfull k low); [done|]. by eapply elem_of_list_lookup_2.
      + by apply (wide_above y). }
  assert (HS : S = {[e]} ∪ (pasts ∪ futures) ∪ (side ∪ other)).
  { apply set_eq. intros x. rewrite elem_of_union, (elem_of_union side), <- Hcone. split.
    - intros Hx. destruct (decide (x ∈ {[e]} ∪ (pasts ∪ futures))) as [Hc|Hc]; [left; by apply Hcone|]. right.
      destruct (decide (x ∈ side)) as [|Hns]; [by left|]. right. apply Hother. split_and!; [done|by rewrite Hcone|by rewrite <- Hside].
    - intros [Hx|[Hx|Hx]]; [by apply (cone_in e)|by apply HsS|by apply Hother in Hx as [? _]]. }
  rewrite HS at 1. rewrite !size_union, size_singleton; [lia|..].
  - intros x Hx Hy. apply Hother in Hy as (_ & _ & Hy). by apply Hy, Hside.
  - intros x Hx Hy. apply Hp, past_below in Hx as [_ Hx]. apply Hfu, wide_above in Hy as [_ Hy]. lia.
  - intros x ->%elem_of_singleton [Hx|Hx]%elem_of_union.
    + apply Hp, past_below in Hx as [_ Hx]. lia.
    + apply Hfu, wide_above in Hx as [_ Hx]. lia.
  - intros x Hx%Hcone [Hy|Hy]%elem_of_union; [by apply HsS in Hy as [_ ?]|by apply Hother in Hy as (_ & ? & _)].
Qed.
End place.
