(** Theorems about AntichainPermutations_old (C84). *)
From Verif Require Import Base Spec EventModel EventFacts History HistoryFacts PathFacts RankFacts
  EventProps CausetModel CausetFacts IntervalFacts SortFacts LayerFacts DistModel OldAntichainModel
  Prop_Event Prop_Causet Prop_OldPerm.

(** ** C84 *)
(** The search for common past and future events in the antichain itself finds nothing. *)
Lemma old_dist_antichain h C (S : gset nat) events i j :
  order_inv h → events ≡ₚ elements S → (∀ a b, a ∈ S → b ∈ S → ¬ before h a b) →
  i < length events → j < length events → i ≠ j → old_dist h C S events i j = length events.
Proof.
  intros HO Hev Hanti Hi Hj Hij. unfold old_dist. rewrite decide_False by done.
  set (a := events !!! (i `min` j)). set (b := events !!! (i `max` j)).
  assert (Ha : events !! (i `min` j) = Some a) by (apply list_lookup_lookup_total_lt; lia).
  assert (Hb : events !! (i `max` j) = Some b) by (apply list_lookup_lookup_total_lt; lia).
  assert (HaS : a ∈ S) by (apply elem_of_elements; rewrite <- Hev; by eapply elem_of_list_lookup_2).
  assert (HbS : b ∈ S) by (apply elem_of_elements; rewrite <- Hev; by eapply elem_of_list_lookup_2).
  assert (Hab : a ≠ b).
  { intros E. assert (HN : NoDup events) by (rewrite Hev; apply NoDup_elements).
    rewrite E in Ha. pose proof (NoDup_lookup _ _ _ _ HN Ha Hb). lia. }
  assert (SmallestIntervalCard h C a b (Some S) None = 0) as ->; [|done].
  unfold SmallestIntervalCard.
  assert (Hgt : ev_gt h a b = false) by (apply not_true_iff_false; rewrite ev_gt_spec; by apply Hanti).
  assert (Hle : ev_le h a b = false).
  { apply not_true_iff_false. rewrite ev_le_spec. intros [?|?]; [done|]. by apply (Hanti a b). }
  rewrite Hgt, Hle. cbn [default]. rewrite decide_True; [done|]. split; apply set_eq; intros x.
  - split; [|by intros ?%elem_of_empty]. intros [[Hx1 _]%elem_of_intersection Hx2]%elem_of_intersection.
    exfalso. by apply (Hanti x a).
  - split; [|by intros ?%elem_of_empty]. intros [[Hx1 _]%elem_of_intersection Hx2]%elem_of_intersection.
    exfalso. apply (Hanti a x HaS Hx2). by apply (oi_conv h HO).
Qed.

Section extend.
Context (h : heap) (c : nat) (D : nat → nat → nat) (events : list nat).
Context (HD : ∀ i j, i < c → j < c → i ≠ j → D i j = c).

Lemma old_min_far subP i : subP ≠ [] → (∀ s, s ∈ subP → s < c) → i < c → i ∉ subP → old_min D subP i = c.
Proof using HD.
  intros Hne Hlt Hi Hnin. destruct subP as [|s subP]; [done|]. unfold old_min.
  rewrite HD; [|apply Hlt; by left|done|by intros ->; apply Hnin; left].
  assert (Hall : ∀ t, t ∈ subP → D t i = c).
  { intros t Ht. apply HD; [apply Hlt; by right|done|]. intros ->. apply Hnin. by right. }
  clear Hne Hlt Hnin. induction subP as [|t subP IH]; [done|]. cbn [fmap list_fmap foldl].
  rewrite (Hall t) by (by left). rewrite Nat.min_id. apply IH. intros u Hu. apply Hall. by right.
Qed.
Lemma old_closest_far subP p : subP ≠ [] → (∀ s, s ∈ subP → s < c) → length subP < c →
  ∃ q, old_closest c D subP p = (Some q, c) ∧ q < c ∧ q ∉ subP.
Proof using HD.
  intros Hne Hlt Hlen. unfold old_closest.
  assert (Hl : ∀ i, i ∈ filter (λ i, i ∉ subP) (seq 0 c) ↔ i < c ∧ i ∉ subP).
  { intros i. rewrite elem_of_list_filter, elem_of_seq. split; intros [? ?]; split; try done; lia. }
  assert (Hnil : filter (λ i, i ∉ subP) (seq 0 c) ≠ []).
  { intros E. assert (Hs : seq 0 c ⊆+ subP).
    { apply NoDup_submseteq; [apply NoDup_seq|]. intros i Hi%elem_of_seq.
      destruct (decide (i ∈ subP)) as [|Hn]; [done|]. exfalso.
      assert (i ∈ []) as ?%elem_of_nil; [|done]. rewrite <- E. apply Hl. split; [lia|done]. }
    apply submseteq_length in Hs. rewrite seq_length in Hs. lia. }
  remember (filter (λ i, i ∉ subP) (seq 0 c)) as l eqn:E. clear E.
  assert (Hgen : ∀ l st, (∀ i, i ∈ l → i < c ∧ i ∉ subP) → st.2 = c → l ≠ [] →
    ∃ q, foldl (λ '(p, mv) i, let m := old_min D subP i in
           if decide (m < mv ∨ m = c) then (Some i, m) else (p, mv)) st l = (Some q, c) ∧ q < c ∧ q ∉ subP).
  { clear Hnil Hl l. induction l as [|i l IH]; [done|]. intros [p' mv] Hin Hst _. cbn in Hst. subst mv.
    cbn [foldl]. destruct (Hin i (elem_of_list_here _ _)) as [Hi Hni].
    rewrite (old_min_far subP i) by done. cbn zeta. rewrite decide_True by (by right).
    destruct l as [|j l]; [by exists i|]. apply IH; [|done|done]. intros k Hk. apply Hin. by right. }
  apply (Hgen l (p, c)); [|done|done]. intros i Hi. by apply Hl.
Qed.
Lemma old_min_indices_far subP p : subP ≠ [] → (∀ s, s ∈ subP → s < c) → p < c → p ∉ subP →
  old_min_indices c D subP p c = [length subP - 1].
Proof using HD.
  intros Hne Hlt Hp Hn. unfold old_min_indices. rewrite decide_True; [done|]. split; [done|].
  destruct subP as [|s subP]; [done|]. cbn. apply HD; [apply Hlt; by left|done|]. intros ->. apply Hn. by left.
Qed.

(** Two or more indices: no third one can be inserted. *)
Lemma old_extend_stuck fuel a b p : a < c → b < c → a ≠ b → 2 < c →
  old_extend h c D events [] fuel [a; b] p = ([], Some OutOfFuel).
Proof using HD.
  intros Ha Hb Hab Hc. revert p. induction fuel as [|fuel IH]; intros p; [done|]. cbn [old_extend].
  rewrite decide_True by (cbn; lia).
  destruct (old_closest_far [a; b] p) as (q & -> & Hq & Hnq); [done| |cbn; lia|].
  { intros s Hs. apply elem_of_cons in Hs as [->|Hs]; [done|]. by apply elem_of_list_singleton in Hs as ->. }
  rewrite old_min_indices_far; [|done| |done|done].
  2: { intros s Hs. apply elem_of_cons in Hs as [->|Hs]; [done|]. by apply elem_of_list_singleton in Hs as ->. }
  assert (Hqb : D b q = c) by (apply HD; [done|done|]; intros ->; apply Hnq; right; by left).
  change (length [a; b] - 1) with 1. cbn [fmap list_fmap app old_indices].
  assert (E0 : old_try_index h c D events [] [a; b] q [] (0, 1) = Ok []).
  { cbn. rewrite decide_False by (by intros ?%elem_of_nil). cbn.
    rewrite decide_False by lia. rewrite decide_False; [done|]. change ([a; b] !!! 1) with b. rewrite Hqb. lia. }
  rewrite E0. cbn [res_bind].
  assert (E1 : old_try_index h c D events [] [a; b] q [] (1, 2) = Ok []).
  { cbn. rewrite decide_False by (by intros ?%elem_of_nil). cbn.
    rewrite decide_False by lia. rewrite decide_False; [done|]. change ([a; b] !!! 1) with b. rewrite Hqb. lia. }
  rewrite E1. cbn [res_bind]. apply IH.
Qed.
(** The second index goes behind the first one. *)
Lemma old_extend_one fuel a p : a < c → 1 < c →
  ∃ q, q < c ∧ q ≠ a ∧ old_extend h c D events [] (S fuel) [a] p = old_extend h c D events [] fuel [a; q] (Some q).
Proof using HD.
  intros Ha Hc. cbn [old_extend]. rewrite decide_True by done.
  destruct (old_closest_far [a] p) as (q & -> & Hq & Hnq); [done|by intros s ->%elem_of_list_singleton|done|].
  assert (Hqa : q ≠ a) by (intros ->; apply Hnq; by left).
  exists q. split; [done|]. split; [done|].
  rewrite old_min_indices_far; [|done|by intros s ->%elem_of_list_singleton|done|done].
  change (length [a] - 1) with 0. cbn [fmap list_fmap app old_indices].
  assert (E0 : old_try_index h c D events [] [a] q [] (0, 0) = Ok []).
  { cbn. rewrite decide_False by (by intros ?%elem_of_nil). cbn.
    rewrite decide_False by lia. rewrite decide_False; [done|]. change ([a] !!! 0) with a. rewrite HD by done. lia. }
  rewrite E0. cbn [res_bind].
  assert (E1 : old_try_index h c D events [] [a] q [] (1, 1) = Ok [1]).
  { cbn. rewrite decide_False by (by intros ?%elem_of_nil). cbn. by rewrite decide_True by (by split). }
  rewrite E1. done.
Qed.
(** With a past layer the access behind the last index raises. *)
Lemma old_extend_past fuel a p e past : a < c → 1 < c →
  old_extend h c D events (e :: past) (S fuel) [a] p = ([], Some IndexError).
Proof using HD.
  intros Ha Hc. cbn [old_extend]. rewrite decide_True by done.
  destruct (old_closest_far [a] p) as (q & -> & Hq & Hnq); [done|by intros s ->%elem_of_list_singleton|done|].
  assert (Hqa : q ≠ a) by (intros ->; apply Hnq; by left).
  rewrite old_min_indices_far; [|done|by intros s ->%elem_of_list_singleton|done|done].
  change (length [a] - 1) with 0. cbn [fmap list_fmap app old_indices].
  assert (E0 : ∃ is, old_try_index h c D events (e :: past) [a] q [] (0, 0) = Ok is ∧ 1 ∉ is).
  { unfold old_try_index. rewrite decide_False by (by intros ?%elem_of_nil). destruct (decide (0 = 0)) as [_|]; [|done].
    assert (Hl : ∀ l seen, ∃ o, old_past_loop h events [a] q 0 l seen = Ok o).
    { induction l as [|x l IH]; intros seen; cbn; [by eexists|]. destruct (ev_lt h x _); [by eexists|apply IH]. }
    destruct (Hl (e :: past) false) as [o ->]. cbn [res_map].
    assert (H1 : 1 ∉ [0]) by (intros ?%elem_of_list_singleton; done).
    destruct o as [[]|]; [by exists [0]|exists []; by split; [|intros ?%elem_of_nil]|].
    destruct (decide (length [a] = 1 ∧ 0 = 1)) as [[_ ?]|_]; [done|].
    destruct (decide _) as [[_ Hx]|_].
    - change ([a] !!! 0) with a in Hx. rewrite HD in Hx by done. cbn in Hx. lia.
    - exists []. by split; [|intros ?%elem_of_nil]. }
  destruct E0 as (is & -> & H1). cbn [res_bind].
  assert (E1 : old_try_index h c D events (e :: past) [a] q is (1, 1) = Err IndexError).
  { unfold old_try_index. rewrite decide_False by done. destruct (decide (1 = 0)) as [|_]; [done|].
    destruct (reverse (e :: past)) as [|x l] eqn:Er; [|done].
    apply (f_equal length) in Er. by rewrite reverse_length in Er. }
  by rewrite E1.
Qed.
End extend.

(** The index that the search starts with. *)
Lemma old_start_spec h events : events ≠ [] →
  ∃ i a, old_start h events = [i] ∧ events !! i = Some a ∧
    (∀ b, b ∈ events → ConeCard h b ≤ ConeCard h a) ∧
    (∀ j b, j < i → events !! j = Some b → ConeCard h b < ConeCard h a).
Proof.
  intros Hne. unfold old_start.
  set (step := λ '(card, P) i, if decide (card < Z.of_nat (ConeCard h (events !!! i)))%Z
      then (Z.of_nat (ConeCard h (events !!! i)), [i]) else (card, P)).
  assert (Hgen : ∀ n, n ≤ length events →
    (n = 0 ∧ foldl step ((-1)%Z, []) (seq 0 n) = ((-1)%Z, [])) ∨
    ∃ i a, i < n ∧ foldl step ((-1)%Z, []) (seq 0 n) = (Z.of_nat (ConeCard h a), [i]) ∧
      events !! i = Some a ∧ (∀ j b, j < n → events !! j = Some b → ConeCard h b ≤ ConeCard h a) ∧
      (∀ j b, j < i → events !! j = Some b → ConeCard h b < ConeCard h a)).
  { induction n as [|n IH]; intros Hn; [by left|]. right. rewrite seq_S, foldl_app. cbn [foldl plus].
    assert (∃ a', events !! n = Some a') as [a' Ha'] by (apply lookup_lt_is_Some; lia).
    destruct IH as [[-> ->]|(i & a & Hi & -> & Ha & Hmax & Hfirst)]; [lia| |].
    - unfold step. rewrite (list_lookup_total_correct _ _ _ Ha').
      rewrite decide_True by lia. exists 0, a'. split_and!; [lia|done|done| |].
      + intros j b Hj Hb. assert (j = 0) as -> by lia. assert (b = a') as -> by congruence. lia.
      + intros; lia.
    - unfold step. rewrite (list_lookup_total_correct _ _ _ Ha').
      destruct (decide _) as [Hlt|Hge].
      + exists n, a'. split_and!; [lia|done|done| |].
        * intros j b Hj Hb. destruct (decide (j = n)) as [->|]; [assert (b = a') as -> by congruence; lia|].
          assert (ConeCard h b ≤ ConeCard h a) by (apply (Hmax j); [lia|done]). lia.
        * intros j b Hj Hb. assert (ConeCard h b ≤ ConeCard h a) by (apply (Hmax j); [lia|done]). lia.
      + exists i, a. split_and!; [lia|done|done| |done].
        intros j b Hj Hb. destruct (decide (j = n)) as [->|]; [assert (b = a') as -> by congruence; lia|].
        apply (Hmax j); [lia|done]. }
  destruct (Hgen (length events) (le_n _)) as [[E _]|(i & a & Hi & -> & Ha & Hmax & Hfirst)].
  { by destruct events. }
  exists i, a. split_and!; [done|done| |done].
  intros b [j Hj]%elem_of_list_lookup. apply (Hmax j); [by eapply lookup_lt_Some|done].
Qed.

(** What AntichainPermutations_old does for an antichain. *)
Theorem C84_AntichainPermutations_old (it : oracle) (argsort : argsort_t) (h : heap)
    (C S : gset nat) (past l : list nat) :
  iter_ok it → argsort_ok argsort → order_inv h → (∀ a b, a ∈ S → b ∈ S → ¬ before h a b) →
  sortedByLabels it argsort h S false = Ok l →
  let result fuel := AntichainPermutations_old it argsort fuel h C S past in
  (* no event: the empty tuple; one event: the event *)
  (size S ≤ 1 → ∀ fuel, 3 ≤ fuel → result fuel = ([l], None)) ∧
  (* two events: one order only, the event with the larger cone first *)
  (past = [] → ∀ x y, l = [x; y] → ∀ fuel, 6 ≤ fuel →
     result fuel = (if decide (ConeCard h x < ConeCard h y) then [[y; x]] else [[x; y]], None)) ∧
  (* three or more events: the search never ends *)
  (past = [] → 3 ≤ size S → ∀ fuel, result fuel = ([], Some OutOfFuel)) ∧
  (* two or more events and a past layer: IndexError *)
  (past ≠ [] → 2 ≤ size S → ∀ fuel, 3 ≤ fuel → result fuel = ([], Some IndexError)).
Proof.
  intros Hit Has HO Hanti Hl result.
  assert (Hp : l ≡ₚ elements S).
  { assert (HN : size S ≤ 1 ∨ ∀ x, x ∈ S → lab h x ≠ LNone).
    { unfold sortedByLabels, np_argsort in Hl. destruct (decide _) as [|Hn]; [done|].
      destruct (decide (size S ≤ 1)) as [|Hs]; [by left|]. right. intros x Hx Hlab. apply Hn.
      split.
      - rewrite fmap_length, (Hit 12 S). change (length (elements S)) with (size S). lia.
      - apply elem_of_list_fmap. exists x. split; [done|]. by apply (iter_elem it 12 S x Hit). }
    destruct (sortedByLabels_perm it argsort h S false Hit Has HN) as (l' & Hl' & Hp'). congruence. }
  assert (Hlen : length l = size S) by (by rewrite Hp).
  assert (HD : ∀ i j, i < length l → j < length l → i ≠ j → old_dist h C S l i j = length l)
    by (intros; by apply old_dist_antichain).
  assert (Hres : ∀ fuel, result fuel = old_drive h (length l) (old_dist h C S l) l past fuel
      [([old_start h l], None)]) by (intros; unfold result, AntichainPermutations_old; by rewrite Hl).
  clearbody result.
  destruct (decide (l = [])) as [->|Hne].
  { cbn in Hlen. split_and!; [|done|intros; lia|intros; lia].
    intros _ fuel Hf. rewrite Hres. do 3 (destruct fuel as [|fuel]; [lia|]). done. }
  destruct (old_start_spec h l Hne) as (i & a & Hst & Hia & Hmax & Hfirst).
  assert (Hil : i < length l) by (by eapply lookup_lt_Some).
  split_and!.
  - intros Hs fuel Hf. rewrite Hres, Hst. assert (Hl1 : length l = 1) by (destruct l; [done|cbn in *; lia]).
    do 3 (destruct fuel as [|fuel]; [lia|]). cbn [old_drive]. rewrite decide_True by (by rewrite Hl1).
    cbn [fmap list_fmap]. rewrite (list_lookup_total_correct _ _ _ Hia).
    destruct l as [|x [|y l']]; [done| |done]. destruct i; [|cbn in Hil; lia]. by injection Hia as ->.
  - intros -> x y -> fuel Hf. rewrite Hres, Hst.
    do 6 (destruct fuel as [|fuel]; [lia|]). change (length [x; y]) with 2. cbn [old_drive]. rewrite decide_False by done.
    destruct (old_extend_one h 2 (old_dist h C S [x; y]) [x; y] HD (Datatypes.S (Datatypes.S (Datatypes.S (Datatypes.S fuel)))) i None) as (q & Hq & Hqi & E);
      [done|lia|]. rewrite E. cbn [old_extend]. rewrite decide_False by (cbn; lia). cbn [old_drive].
    rewrite decide_True by done. cbn [fmap list_fmap old_drive].
    destruct (decide (ConeCard h x < ConeCard h y)) as [Hc|Hc].
    + assert (i = 1) as ->.
      { cbn in Hil. destruct i as [|[|]]; [|done|lia]. injection Hia as <-.
        assert (ConeCard h y ≤ ConeCard h x) by (apply Hmax; right; by left). lia. }
      assert (q = 0) as -> by lia. done.
    + assert (i = 0) as ->.
      { cbn in Hil. destruct i as [|[|]]; [done| |lia]. injection Hia as <-.
        assert (ConeCard h x < ConeCard h y) by (apply (Hfirst 0); [lia|done]). lia. }
      assert (q = 1) as -> by lia. done.
  - intros -> Hs fuel. rewrite Hres, Hst. destruct fuel as [|fuel]; [done|]. cbn [old_drive].
    rewrite decide_False by (cbn; lia).
    assert (old_extend h (length l) (old_dist h C S l) l [] fuel [i] None = ([], Some OutOfFuel)) as ->.
    { destruct fuel as [|fuel]; [done|].
      destruct (old_extend_one h (length l) (old_dist h C S l) l HD fuel i None) as (q & Hq & Hqi & ->); [done|lia|].
      apply old_extend_stuck; [done|done|done|done|lia]. }
    by destruct fuel.
  - intros Hpast Hs fuel Hf. destruct past as [|e past]; [done|]. rewrite Hres, Hst.
    do 3 (destruct fuel as [|fuel]; [lia|]). cbn [old_drive].
    rewrite decide_False by (cbn; lia).
    rewrite old_extend_past; [done|done|done|lia].
Qed.
Print Assumptions C84_AntichainPermutations_old.

(** Two, three and one events of the causet [trident]. *)
Example C84_nonvacuous :
  order_inv trident ∧
  (∀ a b, a ∈ ({[0; 1; 2]} : gset nat) → b ∈ ({[0; 1; 2]} : gset nat) → ¬ before trident a b) ∧
  sortedByLabels it_elements demo_argsort trident {[0; 1; 2]} false = Ok [0; 1; 2] ∧
  AntichainPermutations_old it_elements demo_argsort 100 trident (dom trident) {[0; 1]} [] = ([[1; 0]], None) ∧
  AntichainPermutations_old it_elements demo_argsort 100 trident (dom trident) {[1; 2]} [] = ([[1; 2]], None) ∧
  AntichainPermutations_old it_elements demo_argsort 100 trident (dom trident) {[0; 1; 2]} [] = ([], Some OutOfFuel) ∧
  AntichainPermutations_old it_elements demo_argsort 100 trident (dom trident) {[3; 4]} [0; 1; 2] = ([], Some IndexError) ∧
  AntichainPermutations_old it_elements demo_argsort 100 trident (dom trident) {[3]} [0; 1; 2] = ([[3]], None).
Proof.
  split; [apply trident_order|]. split; [|split_and!; by vm_compute].
  assert (H : set_Forall (λ a, set_Forall (λ b, a ∉ prec trident b) ({[0; 1; 2]} : gset nat)) ({[0; 1; 2]} : gset nat)) by decide_vm.
  intros a b Ha Hb. exact (H a Ha b Hb).
Qed.
