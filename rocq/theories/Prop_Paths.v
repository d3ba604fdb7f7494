(** Theorems about Causet.Paths: C38, C39. *)
From Verif Require Import Base Spec EventModel EventFacts History HistoryFacts PathFacts RankFacts
  EventProps PathsModel PathsFacts Prop_Event Prop_Causet.

(** The pentagon: 0 < 1 < 2 < 4 and 0 < 3 < 4.  Two link paths of different length. *)
Definition penta_ops : list op :=
  [ONew (LInt 1) ∅ ∅ [] []; ONew (LInt 2) {[0]} ∅ [] []; ONew (LInt 3) {[1]} ∅ [] [];
   ONew (LInt 4) {[0]} ∅ [] []; ONew (LInt 5) {[2; 3]} ∅ [] []].
Definition penta : heap := run ∅ ((λ o, (it_elements, o)) <$> penta_ops).
Lemma penta_order : order_inv penta.
Proof. apply ops_order. by vm_compute. Qed.
Lemma penta_link : link_inv penta.
Proof. apply ops_link; [by vm_compute|]. unfold no_disjoin; repeat constructor. Qed.
Definition pit0 : list nat → oracle := λ _, it_elements.
Lemma pit0_ok : ∀ p, iter_ok (pit0 p).
Proof. intros p. apply it_elements_ok. Qed.

Section proofs.
Context (h : heap) (HO : order_inv h) (HL : link_inv h) (pit : list nat → oracle).
Context (Hit : ∀ p, iter_ok (pit p)).
Notation R := (before h).
Notation zlen p := (Z.of_nat (length (p : list nat))).

Lemma ev_le_spec a b : ev_le h a b = true ↔ a = b ∨ R a b.
Proof using.
  unfold ev_le. rewrite orb_true_iff, !bool_decide_eq_true. unfold before. tauto.
Qed.
Lemma in_bounds_spec mn mx k :
  in_bounds mn mx k = true ↔ (mn <= k)%Z ∧ ((k <= mx)%Z ∨ mx = (-1)%Z).
Proof using.
  unfold in_bounds. rewrite andb_true_iff, orb_true_iff, !bool_decide_eq_true. tauto.
Qed.
Lemma path_self b q : link_path R b b q ↔ q = [b].
Proof using HO.
  split; [|intros ->; by apply link_path_single].
  intros Hq. destruct (link_path_inv _ _ _ _ Hq) as [[-> _]|(s & l & _ & Hc & Hl)]; [done|].
  exfalso. destruct (link_path_before R s b _ (proj2 (oi_order h HO)) Hl) as [->|Hs].
  - by destruct (oi_irr h HO b (proj1 Hc)).
  - exact (oi_asym h HO _ _ (proj1 Hc) Hs).
Qed.
Lemma path_covers a b q : covers R a b → link_path R a b q ↔ q = [a; b].
Proof using HO.
  intros Hc. split.
  - intros Hq. destruct (link_path_ends _ _ _ _ Hq) as [[l ->] _].
    by rewrite (covers_path h HO b a l Hc Hq).
  - intros ->. apply link_path_cons. split; [done|]. by apply link_path_single.
Qed.
Lemma path_le a b q : link_path R a b q → a = b ∨ R a b.
Proof using HO. apply link_path_before, (oi_order h HO). Qed.
Lemma single_list (P : list nat → Prop) (w : list nat) (c : bool) :
  (∀ q, P q ↔ q = w ∧ c = true) →
  NoDup (if c then [w] else []) ∧ ∀ q, q ∈ (if c then [w] else []) ↔ P q.
Proof using.
  intros HP. destruct c; (split; [repeat constructor; by intros ?%elem_of_nil|]); intros q;
    rewrite HP.
  - rewrite elem_of_list_singleton. tauto.
  - split; [by intros ?%elem_of_nil|by intros [_ ?]].
Qed.
Lemma ext_all a b p : ext h b [a] a p ↔ link_path R a b p.
Proof using.
  split; [by intros (q & -> & Hq)|]. intros Hp.
  destruct (link_path_ends _ _ _ _ Hp) as [[q ->] _]. by exists q.
Qed.
Lemma fuel_ok a b : size (succ h a ∩ prec h b) < S (size (prec h b)).
Proof using.
  assert (succ h a ∩ prec h b ⊆ prec h b) as Hs by (intros z ?%elem_of_intersection; tauto).
  apply subseteq_size in Hs. lia.
Qed.

Lemma paths_window a b len mn mx :
  path_bounds len = Ok (false, false, mn, mx) →
  ∃ L, Paths pit h a b len = Ok L ∧ NoDup L ∧
    ∀ p, p ∈ L ↔ link_path R a b p ∧ (mn <= zlen p)%Z ∧ ((zlen p <= mx)%Z ∨ mx = (-1)%Z).
Proof using HO HL Hit.
  intros Eb. unfold Paths. rewrite Eb.
  destruct (ev_le h a b) eqn:Ele; cbn [negb].
  2:{ exists []. split_and!; [done|constructor|]. intros p. split; [by intros ?%elem_of_nil|].
      intros [Hp _]. apply path_le, ev_le_spec in Hp. congruence. }
  apply ev_le_spec in Ele. destruct (decide (a = b)) as [->|Hne].
  { eexists. split; [done|]. apply single_list. intros q. rewrite path_self, in_bounds_spec.
    split; [by intros [-> H]|by intros [-> H]]. }
  destruct Ele as [|Hab]; [done|].
  destruct (decide (b ∈ LinkFuture h a)) as [Hc|Hc]; rewrite (LinkFuture_spec h HO HL) in Hc.
  { eexists. split; [done|]. apply single_list. intros q. rewrite (path_covers a b q Hc), in_bounds_spec.
    split; [by intros [-> H]|by intros [-> H]]. }
  assert (Hg : good h a b a) by (split_and!; [by left|done|done]).
  destruct (decide ((3 <= mx)%Z ∨ mx = (-1)%Z)) as [Hmx|Hmx].
  - destruct (find_any h HO HL pit Hit a b _ eq_refl (S (size (prec h b))) [a] a 3 mn mx)
      as (L & E & N & S); [done|apply fuel_ok|done|done|].
    cbn [paths_find] in E |- *. rewrite E. exists L. split_and!; try done.
    intros p. rewrite S, ext_all. done.
  - exists []. split_and!; [done|constructor|]. intros p. split; [by intros ?%elem_of_nil|].
    intros (Hp & _ & Hle). exfalso. apply ext_all in Hp.
    apply (ext_len h HO HL a b _ eq_refl [a] a p Hg) in Hp. cbn in Hp. apply Hmx.
    destruct Hle; [left; lia|by right].
Qed.

Lemma paths_min a b :
  ∃ L, Paths pit h a b (LenStr "min") = Ok L ∧ NoDup L ∧
    ∀ p, p ∈ L ↔ link_path R a b p ∧ ∀ q, link_path R a b q → length p ≤ length q.
Proof using HO HL Hit.
  unfold Paths. cbn [path_bounds].
  rewrite (bool_decide_true ("min" = "min")) by done.
  destruct (ev_le h a b) eqn:Ele; cbn [negb].
  2:{ exists []. split_and!; [done|constructor|]. intros p. split; [by intros ?%elem_of_nil|].
      intros [Hp _]. apply path_le, ev_le_spec in Hp. congruence. }
  apply ev_le_spec in Ele. destruct (decide (a = b)) as [->|Hne].
  { exists [[b]]. split_and!; [done|repeat constructor; by intros ?%elem_of_nil|].
    intros q. rewrite elem_of_list_singleton, path_self.
    split; [|tauto]. intros ->. split; [done|]. by intros q ->%path_self. }
  destruct Ele as [|Hab]; [done|].
  destruct (decide (b ∈ LinkFuture h a)) as [Hc|Hc]; rewrite (LinkFuture_spec h HO HL) in Hc.
  { exists [[a; b]]. split_and!; [done|repeat constructor; by intros ?%elem_of_nil|].
    intros q. rewrite elem_of_list_singleton, (path_covers a b q Hc).
    split; [|tauto]. intros ->. split; [done|]. by intros q ->%path_covers. }
  assert (Hg : good h a b a) by (split_and!; [by left|done|done]).
  rewrite decide_True by (by right).
  rewrite (bool_decide_false ("min" = "max" ∨ "min" = "timegeo")) by (by intros [|]).
  destruct (find_min h HO HL pit Hit a b _ eq_refl (S (size (prec h b))) [a] a 3 (-1)%Z)
      as (L & mx' & E & [N S W1 W2 M A C]); [done|apply fuel_ok|done|by left|].
  cbn [paths_find] in E |- *. rewrite E.
  destruct (link_path_exists h HO a b Hab) as [p0 Hp0].
  pose proof (M p0 (proj2 (ext_all a b p0) Hp0)) as [Hm1 _].
  destruct A as [A|(p1 & Hp1 & Hlen1)]; [done|].
  eexists. split_and!; [done|by apply NoDup_filter|]. intros p. rewrite elem_of_list_filter.
  split.
  - intros [Hlen Hp]. split; [by apply ext_all, S|]. intros q Hq.
    apply ext_all in Hq. apply M in Hq as [_ Hq]. lia.
  - intros [Hp Hmin]. assert (Hlen : zlen p = mx').
    { apply S in Hp1. apply ext_all in Hp1. specialize (Hmin p1 Hp1).
      apply ext_all in Hp. apply M in Hp as [_ Hp]. lia. }
    split; [done|]. apply C; [by apply ext_all|done].
Qed.

Lemma paths_max a b s :
  s = "max" ∨ s = "timegeo" →
  ∃ L, Paths pit h a b (LenStr s) = Ok L ∧ NoDup L ∧
    ∀ p, p ∈ L ↔ link_path R a b p ∧ ∀ q, link_path R a b q → length q ≤ length p.
Proof using HO HL Hit.
  intros Hs. unfold Paths. cbn [path_bounds].
  rewrite (bool_decide_true _ Hs).
  rewrite (bool_decide_false (s = "min")) by (destruct Hs as [-> | ->]; done).
  destruct (ev_le h a b) eqn:Ele; cbn [negb].
  2:{ exists []. split_and!; [done|constructor|]. intros p. split; [by intros ?%elem_of_nil|].
      intros [Hp _]. apply path_le, ev_le_spec in Hp. congruence. }
  apply ev_le_spec in Ele. destruct (decide (a = b)) as [->|Hne].
  { exists [[b]]. split_and!; [done|repeat constructor; by intros ?%elem_of_nil|].
    intros q. rewrite elem_of_list_singleton, path_self.
    split; [|tauto]. intros ->. split; [done|]. by intros q ->%path_self. }
  destruct Ele as [|Hab]; [done|].
  destruct (decide (b ∈ LinkFuture h a)) as [Hc|Hc]; rewrite (LinkFuture_spec h HO HL) in Hc.
  { exists [[a; b]]. split_and!; [done|repeat constructor; by intros ?%elem_of_nil|].
    intros q. rewrite elem_of_list_singleton, (path_covers a b q Hc).
    split; [|tauto]. intros ->. split; [done|]. by intros q ->%path_covers. }
  assert (Hg : good h a b a) by (split_and!; [by left|done|done]).
  rewrite decide_True by (by right).
  destruct (find_max h HO HL pit Hit a b _ eq_refl (S (size (prec h b))) [a] a 3 0%Z)
      as (L & mn' & E & [N S W M A C]); [done|apply fuel_ok|done|].
  cbn [paths_find] in E |- *. rewrite E.
  destruct (link_path_exists h HO a b Hab) as [p0 Hp0].
  pose proof (M p0 (proj2 (ext_all a b p0) Hp0)) as Hm1.
  pose proof (ext_len h HO HL a b _ eq_refl [a] a p0 Hg (proj2 (ext_all a b p0) Hp0)) as Hm2.
  cbn in Hm2.
  destruct A as [A|(p1 & Hp1 & Hlen1)]; [lia|].
  eexists. split_and!; [done|by apply NoDup_filter|]. intros p. rewrite elem_of_list_filter.
  split.
  - intros [Hlen Hp]. split; [by apply ext_all, S|]. intros q Hq.
    apply ext_all in Hq. apply M in Hq. lia.
  - intros [Hp Hmin]. assert (Hlen : zlen p = mn').
    { apply S in Hp1. apply ext_all in Hp1. specialize (Hmin p1 Hp1).
      apply ext_all in Hp. apply M in Hp. lia. }
    split; [done|]. apply C; [by apply ext_all|done].
Qed.
End proofs.

(** ** C38: Paths enumerates every link path exactly once.
    For every store whose relation is a strict order and whose link caches are correct, every
    iteration order of the sets and every pair of events. *)
Theorem C38_Paths (h : heap) (pit : list nat → oracle) (a b : nat) :
  order_inv h → link_inv h → (∀ p, iter_ok (pit p)) →
  (* any other string than 'min', 'max', 'timegeo': all paths *)
  (∀ s, s ≠ "min" → s ≠ "max" → s ≠ "timegeo" →
     ∃ L, Paths pit h a b (LenStr s) = Ok L ∧ NoDup L ∧
       ∀ p, p ∈ L ↔ link_path (before h) a b p) ∧
  (* an int: exactly the paths with that number of events *)
  (∀ n : nat,
     ∃ L, Paths pit h a b (LenInt (Z.of_nat n)) = Ok L ∧ NoDup L ∧
       ∀ p, p ∈ L ↔ link_path (before h) a b p ∧ length p = n) ∧
  (* a list of two ints: from the first to the second number of events *)
  (∀ m n : nat,
     ∃ L, Paths pit h a b (LenList [Z.of_nat m; Z.of_nat n]) = Ok L ∧ NoDup L ∧
       ∀ p, p ∈ L ↔ link_path (before h) a b p ∧ m ≤ length p ≤ n) ∧
  (* wrong arguments *)
  Paths pit h a b LenOther = Err ValueError ∧
  Paths pit h a b (LenList []) = Err IndexError ∧
  (* unrelated events have no path, whatever length is asked for *)
  (a ≠ b → ¬ before h a b → ∀ len L, Paths pit h a b len = Ok L → L = []).
Proof.
  intros HO HL Hit. split_and!.
  - intros s H1 H2 H3.
    destruct (paths_window h HO HL pit Hit a b (LenStr s) 0 (-1)) as (L & E & N & HS).
    { cbn. by rewrite !bool_decide_false by (try intros [|]; done). }
    exists L. split_and!; try done. intros p. rewrite HS. split; [tauto|]. intros Hp.
    split_and!; [done|lia|by right].
  - intros n.
    destruct (paths_window h HO HL pit Hit a b (LenInt (Z.of_nat n)) _ _ eq_refl) as (L & E & N & HS).
    exists L. split_and!; try done. intros p. rewrite HS. split.
    + intros (Hp & H1 & [H2|H2]); split; try done; lia.
    + intros [Hp <-]. split_and!; [done|lia|left; lia].
  - intros m n.
    destruct (paths_window h HO HL pit Hit a b (LenList [Z.of_nat m; Z.of_nat n]) _ _ eq_refl)
      as (L & E & N & HS).
    exists L. split_and!; try done. intros p. rewrite HS. cbn [default last]. split.
    + intros (Hp & H1 & [H2|H2]); cbn in H2; split; try done; lia.
    + intros [Hp Hb]. split_and!; [done|lia|left; cbn; lia].
  - done.
  - done.
  - intros Hne Hnb len L. unfold Paths. destruct (path_bounds len) as [[[[fmin fmax] mn] mx]|]; [|done].
    assert (Hle : ev_le h a b = false).
    { destruct (ev_le h a b) eqn:E; [|done]. apply ev_le_spec in E as [|]; done. }
    rewrite Hle. cbn. by intros [= <-].
Qed.
Print Assumptions C38_Paths.

(** The remaining int arguments: -1 stands for "any length" (it is the internal mark of an
    unbounded search), every other negative number yields nothing. *)
Theorem C38_negative_length (h : heap) (pit : list nat → oracle) (a b : nat) (n : Z) :
  order_inv h → link_inv h → (∀ p, iter_ok (pit p)) → (n < 0)%Z →
  ∃ L, Paths pit h a b (LenInt n) = Ok L ∧ NoDup L ∧
    ∀ p, p ∈ L ↔ link_path (before h) a b p ∧ n = (-1)%Z.
Proof.
  intros HO HL Hit Hn.
  destruct (paths_window h HO HL pit Hit a b (LenInt n) _ _ eq_refl) as (L & E & N & HS).
  exists L. split_and!; try done. intros p. rewrite HS. split.
  - intros (Hp & H1 & [H2|H2]); split; try done; lia.
  - intros [Hp ->]. split_and!; [done|lia|by right].
Qed.
Print Assumptions C38_negative_length.

Example C38_nonvacuous :
  order_inv penta ∧ link_inv penta ∧ (∀ p, iter_ok (pit0 p)) ∧
  Paths pit0 penta 0 4 (LenStr "any") = Ok [[0; 3; 4]; [0; 1; 2; 4]] ∧
  Paths pit0 penta 0 4 (LenInt 4) = Ok [[0; 1; 2; 4]] ∧
  Paths pit0 penta 0 4 (LenList [3; 3]%Z) = Ok [[0; 3; 4]] ∧
  Paths pit0 penta 1 3 (LenStr "any") = Ok [].
Proof.
  split; [apply penta_order|]. split; [apply penta_link|]. split; [apply pit0_ok|].
  split_and!; decide_vm.
Qed.

(** ** C39: the paths with the least / the greatest number of events, each exactly once. *)
Theorem C39_Paths_min_max (h : heap) (pit : list nat → oracle) (a b : nat) :
  order_inv h → link_inv h → (∀ p, iter_ok (pit p)) →
  (∃ L, Paths pit h a b (LenStr "min") = Ok L ∧ NoDup L ∧
     ∀ p, p ∈ L ↔ link_path (before h) a b p ∧
                  ∀ q, link_path (before h) a b q → length p ≤ length q) ∧
  (∀ s, s = "max" ∨ s = "timegeo" →
   ∃ L, Paths pit h a b (LenStr s) = Ok L ∧ NoDup L ∧
     ∀ p, p ∈ L ↔ link_path (before h) a b p ∧
                  ∀ q, link_path (before h) a b q → length q ≤ length p).
Proof.
  intros HO HL Hit. split.
  - exact (paths_min h HO HL pit Hit a b).
  - exact (paths_max h HO HL pit Hit a b).
Qed.
Print Assumptions C39_Paths_min_max.

Example C39_nonvacuous :
  Paths pit0 penta 0 4 (LenStr "min") = Ok [[0; 3; 4]] ∧
  Paths pit0 penta 0 4 (LenStr "max") = Ok [[0; 1; 2; 4]] ∧
  Paths pit0 penta 0 4 (LenStr "timegeo") = Ok [[0; 1; 2; 4]].
Proof. split_and!; decide_vm. Qed.

(** Existence: related events always have a shortest and a longest path, so the two
    enumerations above are not empty. *)
Theorem C39_exists (h : heap) (pit : list nat → oracle) (a b : nat) (s : string) :
  order_inv h → link_inv h → (∀ p, iter_ok (pit p)) →
  s = "min" ∨ s = "max" ∨ s = "timegeo" →
  a = b ∨ before h a b → ∃ p L, Paths pit h a b (LenStr s) = Ok (p :: L).
Proof.
  intros HO HL Hit Hs Hab.
  assert (Hex : ∃ p, link_path (before h) a b p).
  { destruct Hab as [->|Hab]; [exists [b]; by apply link_path_single|].
    by apply link_path_exists. }
  destruct Hex as [p0 Hp0].
  assert (Hbd : ∀ q, link_path (before h) a b q → length q ≤ size (dom h) + 1).
  { intros q Hq. destruct (link_path_inv_r _ _ _ _ Hq) as [[-> _]|(p & l & -> & Hc & Hl)]; [cbn; lia|].
    pose proof (proj2 (proj2 Hq)) as Hcons.
    pose proof (consecutive_impl _ (before h) _ (λ x y H, proj1 H) Hcons) as Hr.
    pose proof (rising_nodup _ _ (oi_order h HO) Hr) as Hnd.
    assert (Hsub : list_to_set (C := gset nat) (l ++ [p; b]) ⊆ dom h).
    { intros x Hx. apply elem_of_list_to_set in Hx.
      apply elem_of_list_lookup in Hx as [i Hi].
      destruct (decide (i < length l + 1)) as [Hlt|Hge].
      - assert (Hb : (l ++ [p; b]) !! (length l + 1) = Some b).
        { rewrite lookup_app_r by lia. replace (length l + 1 - length l) with 1 by lia. done. }
        pose proof (rising_pairs _ _ i (length l + 1) x b (proj2 (oi_order h HO)) Hr Hi Hb Hlt) as Hxb.
        exact (prec_dom_l h HO _ _ Hxb).
      - assert (i = length l + 1) as ->.
        { apply lookup_lt_Some in Hi. rewrite app_length in Hi. cbn in Hi. lia. }
        rewrite lookup_app_r in Hi by lia. replace (length l + 1 - length l) with 1 in Hi by lia.
        injection Hi as <-. exact (prec_dom_r h _ _ (proj1 Hc)). }
    apply subseteq_size in Hsub. rewrite size_list_to_set in Hsub by done. lia. }
  assert (Hmin : ∃ p, link_path (before h) a b p ∧ ∀ q, link_path (before h) a b q → length p ≤ length q).
  { remember (length p0) as n eqn:En. revert p0 En Hp0.
    induction n as [n IH] using lt_wf_ind. intros p0 -> Hp0.
    destruct (paths_window h HO HL pit Hit a b (LenList [0; Z.of_nat (length p0) - 1]%Z) _ _ eq_refl)
      as (L & _ & _ & HS). cbn in HS.
    destruct L as [|p1 L].
    - exists p0. split; [done|]. intros q Hq.
      destruct (decide (length p0 ≤ length q)) as [|Hlt]; [done|]. exfalso.
      apply (not_elem_of_nil q). apply HS. split_and!; [done|lia|left; lia].
    - destruct (proj1 (HS p1)) as (H1 & _ & [H2|H2]); [apply elem_of_list_here| |].
      + apply (IH (length p1)) with p1; try done.
        assert (length p1 ≠ 0).
        { destruct p1; [by apply link_path_nil in H1|done]. } lia.
      + destruct (length p0) eqn:E0; [|lia]. destruct p0; [|done].
        by apply link_path_nil in Hp0. }
  assert (Hmax : ∃ p, link_path (before h) a b p ∧ ∀ q, link_path (before h) a b q → length q ≤ length p).
  { remember (size (dom h) + 1 - length p0) as n eqn:En. revert p0 En Hp0.
    induction n as [n IH] using lt_wf_ind. intros p0 -> Hp0.
    destruct (paths_window h HO HL pit Hit a b
      (LenList [Z.of_nat (length p0) + 1; Z.of_nat (size (dom h) + 1)]%Z) _ _ eq_refl)
      as (L & _ & _ & HS). cbn in HS.
    destruct L as [|p1 L].
    - exists p0. split; [done|]. intros q Hq.
      destruct (decide (length q ≤ length p0)) as [|Hlt]; [done|]. exfalso.
      apply (not_elem_of_nil q). apply HS. specialize (Hbd q Hq).
      split_and!; [done|lia|left; lia].
    - destruct (proj1 (HS p1)) as (H1 & H2 & _); [apply elem_of_list_here|].
      specialize (Hbd p1 H1). apply (IH (size (dom h) + 1 - length p1)) with p1; try done. lia. }
  destruct (C39_Paths_min_max h pit a b HO HL Hit) as [(L1 & E1 & _ & S1) H2].
  destruct Hs as [->|Hs].
  - destruct Hmin as [p Hp]. apply S1 in Hp. destruct L1 as [|p1 L1]; [by apply elem_of_nil in Hp|].
    eauto.
  - destruct (H2 s Hs) as (L2 & E2 & _ & S2).
    destruct Hmax as [p Hp]. apply S2 in Hp. destruct L2 as [|p1 L2]; [by apply elem_of_nil in Hp|].
    eauto.
Qed.
Print Assumptions C39_exists.
