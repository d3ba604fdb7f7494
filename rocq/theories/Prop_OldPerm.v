(** Theorems about AntichainPermutations and layeredPermutations (C72), permuted_old (C73) and
    findClosedFences (C74). *)
From Verif Require Import Base Spec SpecPerm EventModel EventFacts History HistoryFacts PathFacts
  RankFacts EventProps CausetModel CausetFacts IntervalFacts LayerFacts DistModel DistFacts
  Prop_Event Prop_Causet Prop_Dist OldPermModel OldPermFacts OldPermMore OldPermPlace.

(** ** C72 *)
Lemma it_single it k x : iter_ok it → it k {[x]} = [x].
Proof. intros Hit. apply Permutation_singleton_r. rewrite (Hit k {[x]}). by rewrite elements_singleton. Qed.

Lemma ap_loop_in paths ijs : ∀ prev p, p ∈ fst (ap_loop paths ijs prev) →
  prev = Some p ∨ ∃ i j, (i, j) ∈ ijs ∧ p ∈ fst (paths i j).
Proof.
  induction ijs as [|[i j] ijs IH]; intros prev p; cbn [ap_loop]; [by intros ?%elem_of_nil|].
  destruct (paths i j) as [ps [e|]] eqn:E; [by intros ?%elem_of_nil|].
  assert (Hlast : ∀ q, last ps = Some q → q ∈ ps).
  { intros q Hq. apply last_Some in Hq as [l ->]. apply elem_of_app. right. by left. }
  destruct (last ps) as [q|] eqn:El.
  - destruct (ap_loop paths ijs (Some q)) as [ys e] eqn:Ea. cbn [fst].
    intros [->|Hp]%elem_of_cons.
    + right. exists i, j. split; [by left|]. rewrite E. by apply Hlast.
    + specialize (IH (Some q) p). rewrite Ea in IH. destruct (IH Hp) as [[= ->]|(i' & j' & Hin & Hp')].
      * right. exists i, j. split; [by left|]. rewrite E. by apply Hlast.
      * right. exists i', j'. split; [by right|done].
  - destruct prev as [q|]; [|by intros ?%elem_of_nil].
    destruct (ap_loop paths ijs (Some q)) as [ys e] eqn:Ea. cbn [fst].
    intros [->|Hp]%elem_of_cons; [by left|].
    specialize (IH (Some q) p). rewrite Ea in IH. destruct (IH Hp) as [?|(i' & j' & Hin & Hp')]; [by left|].
    right. exists i', j'. split; [by right|done].
Qed.

(** Every list that AntichainPermutations yields runs from one event of the antichain to a
    different one inside the antichain. *)
Theorem C72_yields (it : oracle) (limit : nat) (h : heap) (C T : gset nat) (p : list nat) :
  iter_ok it → p ∈ fst (AntichainPermutations it limit h C T false) →
  ∃ a b, a ∈ T ∧ b ∈ T ∧ a ≠ b ∧ head p = Some a ∧ last p = Some b ∧
    (∀ x, x ∈ p → x ∈ T) ∧ 2 ≤ length p.
Proof.
  intros Hit. unfold AntichainPermutations.
  destruct (DistanceMatrix h C (it 50 T) "intersection" true) as [M|e]; [|by intros ?%elem_of_nil].
  destruct (decide (length (it 50 T) = 0)); [by intros ?%elem_of_nil|].
  intros [?|(i & j & Hij & Hp)]%ap_loop_in; [done|].
  apply elem_of_list_filter in Hij as [[_ [?|Hlt]] Hin]; [done|].
  apply elem_of_pairs in Hin as [Hi Hj]. apply elem_of_seq in Hi, Hj.
  assert (Hne : (it 50 T !!! i) ≠ (it 50 T !!! j)).
  { intros E. assert (i = j); [|lia]. eapply NoDup_lookup; [apply (iter_nodup it 50 T Hit)| |].
    - apply list_lookup_lookup_total_lt. lia.
    - rewrite E. apply list_lookup_lookup_total_lt. lia. }
  assert (HT : ∀ k, k < length (it 50 T) → (it 50 T !!! k) ∈ T).
  { intros k Hk. apply (iter_elem it 50 T _ Hit). eapply elem_of_list_lookup_2, list_lookup_lookup_total_lt. done. }
  apply C42_Antipaths in Hp as (H1 & H2 & H3 & H4). specialize (H4 Hne).
  exists (it 50 T !!! i), (it 50 T !!! j). split_and!; try done; [apply HT; lia|apply HT; lia|].
  intros x Hx. apply (iter_elem it 50 T x Hit). by apply H3.
Qed.
Print Assumptions C72_yields.

(** A one-event antichain has no permutation (it has one if includeGlobalSymmetry is set). *)
Theorem C72_singleton (it : oracle) (limit : nat) (h : heap) (C : gset nat) (x : nat) :
  iter_ok it → order_inv h →
  AntichainPermutations it limit h C {[x]} false = ([], None) ∧
  AntichainPermutations it limit h C {[x]} true = ([[x]], None).
Proof.
  intros Hit HO. unfold AntichainPermutations. rewrite (it_single it 50 x Hit).
  destruct (C41_DistanceMatrix h C [x] "intersection" true HO) as (M & -> & Hsh & _ & Hdiag & _);
    [apply NoDup_singleton| |by right|].
  { intros a b ->%elem_of_list_singleton ->%elem_of_list_singleton. done. }
  assert (H00 : zget M 0 0 = 0%Z).
  { destruct (Hsh 0 0) as [_ Hex]. destruct Hex as [z (row & Hr & Hz)]; [cbn; lia|].
    unfold zget. rewrite Hr. cbn. rewrite Hz. cbn. apply (Hdiag 0 z). by exists row. }
  assert (Hmax : zmax 1 (zget M) = 0%Z).
  { unfold zmax. cbn. rewrite H00. done. }
  change (length [x]) with 1. destruct (decide (1 = 0)) as [|_]; [done|]. rewrite Hmax.
  change (pairs (seq 0 1) (seq 0 1)) with [(0, 0)]. rewrite !filter_cons, !filter_nil. split.
  - destruct (decide _) as [[_ [?|?]]|_]; [done|lia|done].
  - destruct (decide _) as [_|Hn]; [|destruct Hn; split; [done|by left]].
    cbn [ap_loop]. change ([x] !!! 0) with x.
    rewrite (proj1 (C42_trivial limit h C x x [x] (Some (zget M)))) by (by left). done.
Qed.
Print Assumptions C72_singleton.

Lemma gen_start_stuck fresh k : fresh !! k = Some ([], None) → ∃ e, gen_start fresh = Err e.
Proof.
  revert k. induction fresh as [|y fresh IH]; intros k Hk; [done|]. cbn [gen_start].
  destruct k as [|k].
  - injection Hk as ->. cbn. by eexists.
  - destruct (IH k Hk) as [e He]. destruct (gen_next y) as [[p y']|e']; cbn [res_bind]; [|by eexists].
    rewrite He. cbn. by eexists.
Qed.

(** permuted_old therefore raises for every causet with a layer of a single event, and it is
    RuntimeError if the causet has a single minimal event. *)
Theorem C72_single_layer (it : oracle) (limit : nat) (h : heap) (C S : gset nat) (m x k : nat) :
  iter_ok it → order_inv h → closed h S → x ∈ S → has_height (before h) x k →
  (∀ y, y ∈ S → has_height (before h) y k → y = x) →
  ∃ e, permuted_old it limit h C S m = Err e ∧ (k = 0 → e = RuntimeError).
Proof.
  intros Hit HO HC Hx Hk Huniq. unfold permuted_old, layer_iterators.
  destruct (C36_layered h S HO HC) as [(l & -> & Hne & Hl) _]. cbn [res_map res_bind].
  destruct (proj2 (Hl x k) (conj Hx Hk)) as (T & HT & HxT).
  assert (T = {[x]}) as ->.
  { apply set_eq. intros y. rewrite elem_of_singleton. split; [|by intros ->].
    intros Hy. destruct (proj1 (Hl y k)) as [HyS Hyk]; [eauto|]. by apply Huniq. }
  set (fresh := (λ T, AntichainPermutations it limit h C T false) <$> l).
  assert (Hf : fresh !! k = Some ([], None)).
  { unfold fresh. rewrite list_lookup_fmap, HT. cbn. by rewrite (proj1 (C72_singleton it limit h C x Hit HO)). }
  destruct (gen_start_stuck fresh k Hf) as [e He]. exists e. split.
  - by destruct m; cbn [po_loop lp_next]; rewrite He.
  - intros ->. destruct fresh as [|y fresh']; [done|]. injection Hf as ->. cbn in He. congruence.
Qed.
Print Assumptions C72_single_layer.

(** The empty antichain has no distances: ValueError. *)
Theorem C72_empty_antichain (it : oracle) (limit : nat) (h : heap) (C : gset nat) (g : bool) :
  iter_ok it → AntichainPermutations it limit h C ∅ g = ([], Some ValueError).
Proof.
  intros Hit. unfold AntichainPermutations. assert (it 50 ∅ = []) as ->.
  { apply Permutation_nil_r. by rewrite (Hit 50 ∅), elements_empty. }
  done.
Qed.
Print Assumptions C72_empty_antichain.

(** layeredPermutations yields exactly the choices of one permutation per layer, in the order in
    which the last layer varies fastest, if every layer has a permutation. *)
Theorem C72_layeredPermutations (it : oracle) (limit : nat) (h : heap) (C S : gset nat)
    (layers : list (gset nat)) (perms : list (list (list nat))) :
  order_inv h → closed h S → S ≠ ∅ → layered h S false = Ok layers →
  Forall2 (λ T ps, AntichainPermutations it limit h C T false = (ps, None) ∧ ps ≠ []) layers perms →
  ∀ k, layeredPermutations it limit h C S k = Ok (lex_product perms !! k).
Proof.
  intros HO HC HS Hlay HF k. unfold layeredPermutations, layer_iterators. rewrite Hlay. cbn [res_map res_bind].
  set (fresh := (λ T, AntichainPermutations it limit h C T false) <$> layers).
  assert (Hp : fst <$> fresh = perms ∧ Forall clean fresh).
  { unfold fresh. clear -HF. induction HF as [|T ps layers perms [HT Hne] _ [IH1 IH2]]; [by split; [|constructor]|].
    cbn [fmap list_fmap]. rewrite HT. split; [by rewrite <- IH1|]. by constructor. }
  destruct Hp as [Hp Hc]. transitivity (Ok (A := option (list (list nat))) (ahead fresh LpNew !! k)); [|cbn [ahead]; by rewrite Hp].
  apply lp_nth_product; [|done|done]. unfold fresh.
  destruct layers as [|T layers]; [|done].
  destruct (layered_up h S HO HC) as (l & Hl & _ & Hx). rewrite Hlay in Hl. injection Hl as <-.
  apply set_choose_L in HS as [x HxS]. destruct (proj2 (Hx x (ht h x)) (conj HxS eq_refl)) as (T & HT & _). done.
Qed.
Print Assumptions C72_layeredPermutations.

(** The empty set gives two empty lists. *)
Theorem C72_empty (it : oracle) (limit : nat) (h : heap) (C : gset nat) (m : nat) :
  iter_ok it → 0 < m → permuted_old it limit h C ∅ m = Ok ([], []).
Proof.
  intros Hit Hm. unfold permuted_old, layer_iterators, layered. rewrite size_empty. cbn [layered_loop].
  assert (PastInfOf h ∅ = ∅) as -> by (apply set_eq; intros y; rewrite PastInfOf_spec; set_solver).
  rewrite decide_True by done. destruct m as [|m]; [lia|].
  cbn [res_map res_bind fmap list_fmap po_loop lp_next gen_start].
  unfold try_layers. cbn [ext_futures res_bind place_layers]. rewrite size_empty. cbn [replicate].
  rewrite (decide_False (P := 0 ∈ [])) by (by intros ?%elem_of_nil).
  unfold extended_causals. assert (it 51 ∅ = []) as ->.
  { apply Permutation_nil_r. by rewrite (Hit 51 ∅), elements_empty. }
  done.
Qed.
Print Assumptions C72_empty.

(** Without events there is one choice (no layer at all); asking for another one raises
    UnboundLocalError instead of StopIteration. *)
Theorem C72_empty_generator (it : oracle) (limit : nat) (h : heap) (C : gset nat) (k : nat) :
  layeredPermutations it limit h C ∅ 0 = Ok (Some []) ∧
  layeredPermutations it limit h C ∅ (S k) = Err UnboundLocalError.
Proof.
  unfold layeredPermutations, layer_iterators, layered. rewrite size_empty. cbn [layered_loop].
  assert (PastInfOf h ∅ = ∅) as -> by (apply set_eq; intros y; rewrite PastInfOf_spec; set_solver).
  rewrite decide_True by done. split; [done|]. by destruct k.
Qed.
Print Assumptions C72_empty_generator.

(** ** C73 *)
Lemma picks_layers it limit h C (S : gset nat) (l : list (gset nat)) layers :
  iter_ok it → order_inv h → 
  (∀ x i, (∃ T, l !! i = Some T ∧ x ∈ T) ↔ x ∈ S ∧ ht h x = i) →
  picks ((λ T, AntichainPermutations it limit h C T false) <$> l) layers →
  ∀ i p a, layers !! i = Some p → a ∈ p → a ∈ S ∧ ht h a = i.
Proof.
  intros Hit HO Hl Hp i p a Hi Ha.
  destruct (Forall2_lookup_r _ _ _ _ _ Hp Hi) as (y & Hy & Hin).
  apply list_lookup_fmap_Some in Hy as (T & HT & ->).
  apply C72_yields in Hin as (_ & _ & _ & _ & _ & _ & _ & Hsub & _); [|done].
  apply Hl. exists T. split; [done|]. by apply Hsub.
Qed.

(** Whatever permuted_old returns for a causet: nothing at all, or as many events of the causet
    and as many integers between 1 and n as the causet has events. *)
Theorem C73_shape (it : oracle) (limit : nat) (h : heap) (C S : gset nat) (m : nat)
    (L : list (option nat)) (P : list nat) :
  iter_ok it → order_inv h → closed h S → permuted_old it limit h C S m = Ok (L, P) →
  (L = [] ∧ P = []) ∨
  (length L = size S ∧ length P = size S ∧
   (∀ o, o ∈ L → ∃ e, o = Some e ∧ e ∈ S) ∧ (∀ u, u ∈ P → 1 ≤ u ≤ size S)).
Proof.
  intros Hit HO HC. unfold permuted_old, layer_iterators.
  destruct (layered_up h S HO HC) as (l & -> & _ & Hl). cbn [res_map res_bind]. intros Hr.
  apply po_loop_ok in Hr as [[= -> ->]|(layers & d & Hpk & Ht)]; [by left| |done|done].
  right. apply (try_layers_ok it h S (ht h)) in Ht as (l' & E & H1 & H2 & H3 & H4 & _).
  - cbn in E, H2, H4. subst L. split_and!; [by rewrite fmap_length|done| |done].
    intros o (e & -> & He)%elem_of_list_fmap. exists e. split; [done|by apply H3].
  - intros a b. by apply ht_lt.
  - by eapply picks_layers.
Qed.
Print Assumptions C73_shape.

(** If no layer permutation repeats an event, the returned events are all events of the
    causet, each exactly once. *)
Theorem C73_once (it : oracle) (limit : nat) (h : heap) (C S : gset nat) (m : nat)
    (L : list (option nat)) (P : list nat) :
  iter_ok it → order_inv h → closed h S →
  (∀ l T p, layered h S false = Ok l → T ∈ l →
     p ∈ fst (AntichainPermutations it limit h C T false) → NoDup p) →
  permuted_old it limit h C S m = Ok (L, P) → L ≠ [] →
  L ≡ₚ Some <$> elements S.
Proof.
  intros Hit HO HC Hnd. unfold permuted_old, layer_iterators.
  destruct (layered_up h S HO HC) as (l & Hlay & _ & Hl). rewrite Hlay. cbn [res_map res_bind]. intros Hr.
  apply po_loop_ok in Hr as [[= -> ->]|(layers & d & Hpk & Ht)]; [done| |done|done]. intros _.
  apply (try_layers_ok it h S (ht h)) in Ht as (l' & E & H1 & H2 & H3 & H4 & H5).
  - cbn in E. subst L. apply fmap_Permutation. symmetry.
    assert (Hl' : NoDup l').
    { apply H5. intros p [i Hi]%elem_of_list_lookup.
      destruct (Forall2_lookup_r _ _ _ _ _ Hpk Hi) as (y & Hy & Hin).
      apply list_lookup_fmap_Some in Hy as (T & HT & ->). apply (Hnd l T); [done| |done].
      by eapply elem_of_list_lookup_2. }
    assert (Hset : list_to_set l' = S).
    { apply set_subseteq_size_eq; [intros x Hx%elem_of_list_to_set; by apply H3|].
      rewrite size_list_to_set by done. lia. }
    rewrite <- Hset. by apply elements_list_to_set.
  - intros a b. by apply ht_lt.
  - by eapply picks_layers.
Qed.
Print Assumptions C73_once.

(** The three ways in which permuted_old ends for a nonempty causet each of whose layers has a
    permutation, if no attempt raises: it returns the attempt with the fewest extended relations
    among the first m choices of layer permutations, the earliest if there are several; it
    returns two empty lists if there are at most m choices and all fail; it raises ValueError
    if the first m choices fail and there are more. *)
Theorem C73_best (it : oracle) (limit : nat) (h : heap) (C S : gset nat) (m : nat)
    (layers : list (gset nat)) (perms : list (list (list nat))) :
  iter_ok it → order_inv h → closed h S → S ≠ ∅ → layered h S false = Ok layers →
  Forall2 (λ T ps, AntichainPermutations it limit h C T false = (ps, None) ∧ ps ≠ []) layers perms →
  let choices := lex_product perms in
  (∀ L P, permuted_old it limit h C S m = Ok (L, P) → L ≠ [] →
     ∃ k c d, k < m ∧ choices !! k = Some c ∧ try_layers it h S c = Ok (Some (L, P, d)) ∧
       extension_degree (before h) S c d ∧
       ∀ k' c' L' P' d', k' < m → choices !! k' = Some c' →
         try_layers it h S c' = Ok (Some (L', P', d')) →
         extension_degree (before h) S c' d' ∧ d ≤ d' ∧ (k' < k → d < d')) ∧
  (∀ P, permuted_old it limit h C S m = Ok ([], P) →
     P = [] ∧ length choices ≤ m ∧ ∀ c, c ∈ choices → try_layers it h S c = Ok None) ∧
  (m < length choices → (∀ k c, k < m → choices !! k = Some c → try_layers it h S c = Ok None) →
     permuted_old it limit h C S m = Err ValueError).
Proof.
  intros Hit HO HC HS Hlay HF choices. unfold permuted_old, layer_iterators. rewrite Hlay. cbn [res_map res_bind].
  destruct (layered_up h S HO HC) as (l & Hl & _ & Hx). rewrite Hlay in Hl. injection Hl as <-.
  set (fresh := (λ T, AntichainPermutations it limit h C T false) <$> layers).
  assert (Hp : fst <$> fresh = perms ∧ Forall clean fresh).
  { unfold fresh. clear -HF. induction HF as [|T ps layers perms [HT Hne] _ [IH1 IH2]]; [by split; [|constructor]|].
    cbn [fmap list_fmap]. rewrite HT. split; [by rewrite <- IH1|]. by constructor. }
  destruct Hp as [Hp Hc].
  assert (Hne : fresh ≠ []).
  { unfold fresh. destruct layers as [|T layers']; [|done].
    apply set_choose_L in HS as [x HxS]. destruct (proj2 (Hx x (ht h x)) (conj HxS eq_refl)) as (T & HT & _). done. }
  assert (Hah : ahead fresh LpNew = choices) by (cbn [ahead]; by rewrite Hp).
  assert (Hch : ∀ c, c ∈ choices → picks fresh c).
  { unfold choices. rewrite <- Hp. clear. induction fresh as [|y fresh IH]; cbn [fmap list_fmap lex_product].
    - intros c ->%elem_of_list_singleton. constructor.
    - intros c (p & Hc & Hpy)%elem_of_list_bind. apply elem_of_list_fmap in Hc as (c' & -> & Hc').
      constructor; [done|]. by apply IH. }
  assert (Hdeg : ∀ c L P d, c ∈ choices → try_layers it h S c = Ok (Some (L, P, d)) →
     extension_degree (before h) S c d).
  { intros c L P d Hin Ht. apply (try_layers_degree h HO S (ht h)) with it L P; [intros a b; by apply ht_lt| |done|done].
    apply (picks_layers it limit h C S layers); [done|done|done|]. by apply Hch. }
  assert (HnL : ∀ c P d, c ∈ choices → try_layers it h S c = Ok (Some ([], P, d)) → False).
  { intros c P d Hin Ht. apply (try_layers_ok it h S (ht h)) in Ht as (l' & E & H1 & _).
    - destruct l'; [|done]. cbn in H1. symmetry in H1. apply size_empty_inv in H1. apply HS. by apply leibniz_equiv.
    - intros a b. by apply ht_lt.
    - apply (picks_layers it limit h C S layers); [done|done|done|]. by apply Hch. }
  split_and!.
  - intros L P Hr HL. destruct (po_loop_best it h S m fresh LpNew None L P Hne Hc I Hr)
      as [(_ & -> & _)|[(d & ? & _)|(k & c & d & Hk & Hkc & Ht & _ & Hmin)]]; [done|done|].
    rewrite Hah in *. exists k, c, d. split_and!; [done|done|done| |].
    + eapply Hdeg; [|done]. by eapply elem_of_list_lookup_2.
    + intros k' c' L' P' d' Hk' Hc' Ht'. split; [|by apply (Hmin k' c' L' P' d')].
      eapply Hdeg; [|done]. by eapply elem_of_list_lookup_2.
  - intros P Hr. destruct (po_loop_best it h S m fresh LpNew None [] P Hne Hc I Hr)
      as [(_ & _ & -> & Hlen & Hall)|[(d & ? & _)|(k & c & d & Hk & Hkc & Ht & _ & Hmin)]]; [|done|].
    + by rewrite Hah in *.
    + exfalso. rewrite Hah in *. eapply HnL; [|done]. by eapply elem_of_list_lookup_2.
  - intros Hlen Hall. apply po_loop_exhausted; [done|done|done|by rewrite Hah|by rewrite Hah].
Qed.
Print Assumptions C73_best.

(** Where permuted_old draws the events: for one choice of the layer permutations, the event in
    each place of the returned list stands where the numbers of events in its (widened) past and
    on its two sides put it; the sum of its place and its integer is the height: the
    larger the more events are in its past and the fewer in its future. *)
Theorem C73_placement (it : oracle) (limit : nat) (h : heap) (C S : gset nat) (m : nat)
    (L : list (option nat)) (P : list nat) :
  iter_ok it → order_inv h → closed h S → permuted_old it limit h C S m = Ok (L, P) → L ≠ [] →
  ∃ layers c, layered h S false = Ok layers ∧
    Forall2 (λ T p, p ∈ fst (AntichainPermutations it limit h C T false)) layers c ∧
    ∀ w e, L !! w = Some (Some e) →
      ∃ l j u layer, c !! l = Some layer ∧ layer !! j = Some e ∧ P !! w = Some u ∧
        drawn_at (before h) S c l j w u ∧
        ∀ pasts futures : gset nat,
          (∀ x, x ∈ pasts ↔ widened (λ a b, before h b a) S c e x) →
          (∀ x, x ∈ futures ↔ widened (before h) S c e x) →
          u + w + size futures = size S + size pasts.
Proof.
  intros Hit HO HC. unfold permuted_old, layer_iterators.
  destruct (layered_up h S HO HC) as (l & Hlay & _ & Hl). rewrite Hlay. cbn [res_map res_bind]. intros Hr HL.
  apply po_loop_ok in Hr as [[= -> ->]|(c & d & Hpk & Ht)]; [done| |done|done].
  exists l, c. split; [done|]. split.
  { apply Forall2_fmap_l in Hpk. done. }
  assert (Hfull := picks_layers it limit h C S l c Hit HO Hl Hpk).
  assert (Hf : ∀ a b, before h a b → ht h a < ht h b) by (intros a b; by apply ht_lt).
  assert (HE : ∃ extF, ext_futures h S c = Ok extF).
  { unfold try_layers in Ht. cbn in Ht. destruct (ext_futures h S c) as [extF|]; [by exists extF|done]. }
  destruct HE as [extF HE].
  destruct (ext_futures_spec h HO S (ht h) Hf c Hfull [] c extF eq_refl HE) as [_ HF].
  apply (try_layers_drawn h HO S (ht h) Hf c Hfull extF HF) in Ht as [_ Hd].
  2: { intros exts E. rewrite HE in E. by injection E. }
  intros w e Hw. destruct (Hd w e Hw) as (i & j & u & layer & H1 & H2 & H3 & H4).
  exists i, j, u, layer. split_and!; [done|done|done|done|]. intros pasts futures Hp Hfu.
  by apply (drawn_height h HO S (ht h) Hf c Hfull i j w u e layer pasts futures).
Qed.
Print Assumptions C73_placement.

(** Without any iteration permuted_old raises ValueError, also for the empty set. *)
Theorem C73_no_iteration (it : oracle) (limit : nat) (h : heap) (C S : gset nat)
    (layers : list (gset nat)) (perms : list (list (list nat))) :
  order_inv h → closed h S → layered h S false = Ok layers →
  Forall2 (λ T ps, AntichainPermutations it limit h C T false = (ps, None) ∧ ps ≠ []) layers perms →
  permuted_old it limit h C S 0 = Err ValueError.
Proof.
  intros HO HC Hlay HF. unfold permuted_old, layer_iterators. rewrite Hlay. cbn [res_map res_bind po_loop lp_next].
  assert (Hc : Forall clean ((λ T, AntichainPermutations it limit h C T false) <$> layers)).
  { clear -HF. induction HF as [|T ps layers perms [HT Hne] _ IH]; [constructor|].
    cbn [fmap list_fmap]. rewrite HT. by constructor. }
  by destruct (gen_start_product _ Hc) as (ps & ys & -> & _).
Qed.
Print Assumptions C73_no_iteration.

(** Concrete causets for the failures of permuted_old.
    [trident]: 0, 1, 2 < 3 and 1, 2 < 4. *)
Definition trident_ops : list op :=
  [ONew (LInt 1) ∅ ∅ [] []; ONew (LInt 2) ∅ ∅ [] []; ONew (LInt 3) ∅ ∅ [] [];
   ONew (LInt 4) {[0; 1; 2]} ∅ [] []; ONew (LInt 5) {[1; 2]} ∅ [] []].
Definition trident : heap := run ∅ ((λ o, (it_elements, o)) <$> trident_ops).
Lemma trident_order : order_inv trident.
Proof. apply ops_order. by vm_compute. Qed.
(** [wwide]: the zigzag 3 > 0, 1 and 4 > 1, 2. *)
Definition wwide_ops : list op :=
  [ONew (LInt 1) ∅ ∅ [] []; ONew (LInt 2) ∅ ∅ [] []; ONew (LInt 3) ∅ ∅ [] [];
   ONew (LInt 4) {[0; 1]} ∅ [] []; ONew (LInt 5) {[1; 2]} ∅ [] []].
Definition wwide : heap := run ∅ ((λ o, (it_elements, o)) <$> wwide_ops).
Lemma wwide_order : order_inv wwide.
Proof. apply ops_order. by vm_compute. Qed.
(** [twist]: 0 < 2, 3, 4; 1 < 4; 2 < 5, 6; 4 < 6. *)
Definition twist_ops : list op :=
  [ONew (LInt 1) ∅ ∅ [] []; ONew (LInt 2) ∅ ∅ [] []; ONew (LInt 3) {[0]} ∅ [] [];
   ONew (LInt 4) {[0]} ∅ [] []; ONew (LInt 5) {[0; 1]} ∅ [] []; ONew (LInt 6) {[2]} ∅ [] [];
   ONew (LInt 7) {[2; 4]} ∅ [] []].
Definition twist : heap := run ∅ ((λ o, (it_elements, o)) <$> twist_ops).
Lemma twist_order : order_inv twist.
Proof. apply ops_order. by vm_compute. Qed.
Lemma dom_closed h : order_inv h → closed h (dom h).
Proof. intros HO x _. split; [by apply prec_sub_dom|by apply succ_sub_dom]. Qed.

(** A "permutation" of an antichain of three events that lists one of them twice; the events
    that permuted_old returns then contain one twice and miss another one. *)
Theorem C73_events_refuted :
  order_inv trident ∧ closed trident (dom trident) ∧ dom trident = {[0; 1; 2; 3; 4]} ∧
  fst (AntichainPermutations it_elements 1000 trident (dom trident) {[0; 1; 2]} false) =
    [[0; 1; 2; 1]; [0; 2; 1; 2]] ∧
  permuted_old it_elements 1000 trident (dom trident) (dom trident) 1000 =
    Ok (Some <$> [0; 1; 1; 3; 4], [4; 2; 1; 5; 3]).
Proof.
  split; [apply trident_order|]. split; [apply dom_closed, trident_order|].
  split; [decide_vm|]. split; [by vm_compute|]. by vm_compute.
Qed.
Print Assumptions C73_events_refuted.
(** The integers that permuted_old returns need not be a permutation, even if the events are
    each listed once. *)
Theorem C73_integers_refuted :
  order_inv twist ∧ closed twist (dom twist) ∧
  permuted_old it_elements 1000 twist (dom twist) (dom twist) 1000 =
    Ok (Some <$> [0; 3; 1; 4; 2; 5; 6], [2; 7; 1; 5; 2; 4; 5]).
Proof.
  split; [apply twist_order|]. split; [apply dom_closed, twist_order|]. by vm_compute.
Qed.
Print Assumptions C73_integers_refuted.
Example C73_nonvacuous :
  order_inv wwide ∧ closed wwide (dom wwide) ∧
  (∀ l T p, layered wwide (dom wwide) false = Ok l → T ∈ l →
     p ∈ fst (AntichainPermutations it_elements 1000 wwide (dom wwide) T false) → NoDup p) ∧
  permuted_old it_elements 1000 wwide (dom wwide) (dom wwide) 1000 =
    Ok (Some <$> [0; 1; 3; 2; 4], [4; 2; 5; 1; 3]).
Proof.
  split; [apply wwide_order|]. split; [apply dom_closed, wwide_order|]. split; [|by vm_compute].
  assert (Hl : layered wwide (dom wwide) false = Ok [{[0; 1; 2]}; {[3; 4]}]) by decide_vm.
  intros l T p E HT Hp. rewrite Hl in E. injection E as <-.
  apply elem_of_cons in HT as [->|HT].
  - assert (Hc : fst (AntichainPermutations it_elements 1000 wwide (dom wwide) {[0; 1; 2]} false) = [[0; 1; 2]])
      by (by vm_compute).
    rewrite Hc in Hp. apply elem_of_list_singleton in Hp as ->. decide_vm.
  - apply elem_of_list_singleton in HT as ->.
    assert (Hc : fst (AntichainPermutations it_elements 1000 wwide (dom wwide) {[3; 4]} false) = [[3; 4]])
      by (by vm_compute).
    rewrite Hc in Hp. apply elem_of_list_singleton in Hp as ->. decide_vm.
Qed.

(** In [wwide] there is one choice of layer permutations; it extends no relation.  In [trident]
    there are two. *)
Example C73_best_nonvacuous :
  layered wwide (dom wwide) false = Ok [{[0; 1; 2]}; {[3; 4]}] ∧
  Forall2 (λ T ps, AntichainPermutations it_elements 1000 wwide (dom wwide) T false = (ps, None) ∧ ps ≠ [])
    [{[0; 1; 2]}; {[3; 4]}] [[[0; 1; 2]]; [[3; 4]]] ∧
  layeredPermutations it_elements 1000 wwide (dom wwide) (dom wwide) 0 = Ok (Some [[0; 1; 2]; [3; 4]]) ∧
  layeredPermutations it_elements 1000 wwide (dom wwide) (dom wwide) 1 = Ok None ∧
  try_layers it_elements wwide (dom wwide) [[0; 1; 2]; [3; 4]] =
    Ok (Some (Some <$> [0; 1; 3; 2; 4], [4; 2; 5; 1; 3], 0)) ∧
  permuted_old it_elements 1000 wwide (dom wwide) (dom wwide) 0 = Err ValueError ∧
  layered trident (dom trident) false = Ok [{[0; 1; 2]}; {[3; 4]}] ∧
  Forall2 (λ T ps, AntichainPermutations it_elements 1000 trident (dom trident) T false = (ps, None) ∧ ps ≠ [])
    [{[0; 1; 2]}; {[3; 4]}] [[[0; 1; 2; 1]; [0; 2; 1; 2]]; [[3; 4]]].
Proof.
  split_and!; try decide_vm; try (by vm_compute).
Qed.

(** Further failures: a KeyError of an event that no layer permutation lists, and two empty
    lists for a nonempty causet. *)
Definition net_ops : list op :=
  [ONew (LInt 1) ∅ ∅ [] []; ONew (LInt 2) ∅ ∅ [] []; ONew (LInt 3) ∅ ∅ [] [];
   ONew (LInt 4) ∅ ∅ [] []; ONew (LInt 5) {[2; 3]} ∅ [] []; ONew (LInt 6) {[1; 3]} ∅ [] [];
   ONew (LInt 7) {[0; 1; 2; 3]} ∅ [] []].
Definition net : heap := run ∅ ((λ o, (it_elements, o)) <$> net_ops).
Definition loose_ops : list op :=
  [ONew (LInt 1) ∅ ∅ [] []; ONew (LInt 2) ∅ ∅ [] []; ONew (LInt 3) ∅ ∅ [] [];
   ONew (LInt 4) ∅ ∅ [] []; ONew (LInt 5) {[2]} ∅ [] []; ONew (LInt 6) {[1; 2]} ∅ [] []].
Definition loose : heap := run ∅ ((λ o, (it_elements, o)) <$> loose_ops).
Theorem C73_returns_refuted :
  order_inv net ∧
  permuted_old it_elements 1000 net (dom net) (dom net) 1000 = Err KeyError ∧
  order_inv loose ∧
  permuted_old it_elements 1000 loose (dom loose) (dom loose) 1000 = Ok ([], []).
Proof.
  split; [apply ops_order; by vm_compute|]. split; [by vm_compute|].
  split; [apply ops_order; by vm_compute|]. by vm_compute.
Qed.
Print Assumptions C73_returns_refuted.
Example C72_nonvacuous :
  order_inv vee ∧ closed vee (dom vee) ∧ has_height (before vee) 0 0 ∧
  permuted_old it_elements 1000 vee (dom vee) (dom vee) 1000 = Err RuntimeError.
Proof.
  split; [apply vee_order|]. split; [apply dom_closed, vee_order|]. split; [|by vm_compute].
  apply has_height_iff; [apply vee_order|]. by vm_compute.
Qed.

(** ** C74 *)
Lemma meets_in_spec (rel : nat → gset nat) b A xs : (∀ x, x ∈ xs → x ∈ A) →
  meets_in (rel b) A xs = true ↔ exactly (λ z b, z ∈ rel b) A b xs.
Proof.
  intros Hxs. unfold exactly. set (s := rel b). clearbody s. unfold meets_in. rewrite bool_decide_eq_true. split.
  - intros E z. pose proof (f_equal (λ S : gset nat, z ∈ S) E) as Ez. cbn in Ez.
    rewrite <- (elem_of_list_to_set (C := gset nat) z xs), <- E, elem_of_intersection, elem_of_list_to_set. tauto.
  - intros E. apply set_eq. intros z. rewrite elem_of_intersection, !elem_of_list_to_set, <- E. tauto.
Qed.

(** What the test of one shape computes. *)
Lemma fence_shape_spec (rel : nat → gset nat) (valid : bool) A B :
  length B ≤ length A → A ≠ [] → (valid = true → length A ≤ S (length B)) →
  ∃ start closed, fence_shape rel valid A B = Ok (start, closed) ∧
    (start = true ↔ valid = true ∧ fence_start (λ z b, z ∈ rel b) A B) ∧
    (start = true → (closed = true ↔ fence_closing (λ z b, z ∈ rel b) A B)).
Proof.
  intros Hle Hne Hval. unfold fence_shape.
  set (zig := forallb _ _).
  assert (Hzig : valid = true → zig = true ↔ (∀ i b x y, B !! i = Some b → A !! i = Some x → A !! S i = Some y →
            exactly (λ z b, z ∈ rel b) A b [x; y])).
  { intros Hv. specialize (Hval Hv). unfold zig. rewrite forallb_forall. split.
    - intros H i b x y Hb Hx Hy. specialize (H i).
      rewrite (list_lookup_total_correct _ _ _ Hb), (list_lookup_total_correct _ _ _ Hx),
        (list_lookup_total_correct _ _ _ Hy) in H.
      assert (Hin : ∀ z, z ∈ [x; y] → z ∈ A).
      { intros z [->|Hz]%elem_of_cons; [by eapply elem_of_list_lookup_2|].
        apply elem_of_list_singleton in Hz as ->. by eapply elem_of_list_lookup_2. }
      apply (proj1 (meets_in_spec rel b A [x; y] Hin)), H. apply in_seq. apply lookup_lt_Some in Hy. lia.
    - intros H i Hi%in_seq. assert (Hx : i < length A) by lia. assert (Hy : S i < length A) by lia.
      assert (Hb : i < length B) by lia.
      apply lookup_lt_is_Some in Hx as [x Hx], Hy as [y Hy], Hb as [b Hb].
      rewrite (list_lookup_total_correct _ _ _ Hb), (list_lookup_total_correct _ _ _ Hx),
        (list_lookup_total_correct _ _ _ Hy).
      apply meets_in_spec; [|by apply (H i)].
      intros z Hz. apply elem_of_cons in Hz as [->|Hz]; [by eapply elem_of_list_lookup_2|].
      apply elem_of_list_singleton in Hz as ->. by eapply elem_of_list_lookup_2. }
  clearbody zig. destruct (decide (length A = length B)) as [Heq|Hneq].
  - destruct A as [|a0 A']; [done|]. destruct (last B) as [b|] eqn:Eb.
    2:{ apply last_None in Eb as ->. done. }
    destruct (last (a0 :: A')) as [a|] eqn:Ea.
    2:{ by apply last_None in Ea. }
    set (A := a0 :: A') in *.
    assert (HaA : a ∈ A) by (apply last_Some in Ea as [l ->]; apply elem_of_app; right; by left).
    assert (Ha0 : a0 ∈ A) by (by left).
    assert (Hcl : bool_decide (1 < length A) && meets_in (rel b) A [a; a0] = true ↔
                  fence_closing (λ z b, z ∈ rel b) A B).
    { rewrite andb_true_iff, bool_decide_eq_true. unfold fence_closing. rewrite meets_in_spec.
      2:{ intros z [->|Hz]%elem_of_cons; [done|]. apply elem_of_list_singleton in Hz as ->. done. }
      split.
      - intros [H1 H2]. split_and!; [lia|done|]. intros b' x y. rewrite Eb, Ea. by intros [= <-] [= <-] [= <-].
      - intros (H1 & H2 & H3). split; [lia|]. by apply H3. }
    assert (Hop : meets_in (rel b) A [a] = true ↔
                  (∀ b x, last B = Some b → last A = Some x → exactly (λ z b, z ∈ rel b) A b [x])).
    { rewrite meets_in_spec.
      2:{ intros z Hz. apply elem_of_list_singleton in Hz as ->. done. }
      split; [|intros H; by apply H]. intros H b' x. rewrite Eb, Ea. by intros [= <-] [= <-]. }
    eexists _, _. split; [done|]. split.
    + rewrite !andb_true_iff, orb_true_iff, Hcl, Hop. unfold fence_start. split.
      * intros [[Hv Hz] Ho]. specialize (Hval Hv). rewrite Hzig in Hz by done. split; [done|].
        split; [done|]. split; [lia|]. split; [done|]. intros _. tauto.
      * intros [Hv (_ & _ & Hz & Ho)]. rewrite Hzig by done. split; [done|]. specialize (Ho Heq). tauto.
    + intros _. done.
  - eexists _, _. split; [done|]. split.
    + rewrite andb_true_iff. unfold fence_start. split.
      * intros [Hv Hz]. specialize (Hval Hv). rewrite Hzig in Hz by done. split; [done|].
        split; [done|]. split; [lia|]. split; [done|]. intros ?. done.
      * intros [Hv (_ & _ & Hz & Ho)]. by rewrite Hzig by done.
    + intros _. split; [done|]. intros (_ & ? & _). done.
Qed.

Lemma fence_loop_open fuel N V P F :
  (N = true → length F ≤ length P) → (V = true → length P ≤ length F) →
  (N = false → length P ≠ length F) → fence_loop fuel N V P F = Err OutOfFuel.
Proof.
  intros HN HV Hx. induction fuel as [|fuel IH]; [done|]. cbn [fence_loop].
  assert (H1 : V && bool_decide (length F < length P) = false).
  { destruct V; [|done]. cbn. apply bool_decide_eq_false. specialize (HV eq_refl). lia. }
  assert (H2 : N && bool_decide (length P < length F) = false).
  { destruct N; [|done]. cbn. apply bool_decide_eq_false. specialize (HN eq_refl). lia. }
  rewrite H1, H2. cbn [negb andb orb].
  destruct (N && bool_decide (length P = length F)) eqn:E3; [done|].
  destruct (V && bool_decide (length F = length P)) eqn:E4; [|done].
  apply andb_true_iff in E4 as [_ E4%bool_decide_eq_true].
  destruct N; [|by destruct Hx].
  cbn in E3. apply bool_decide_eq_false in E3. lia.
Qed.

Lemma exactly_ext (r r' : nat → nat → Prop) A b xs :
  (∀ z b, r z b ↔ r' z b) → exactly r A b xs ↔ exactly r' A b xs.
Proof. intros H. unfold exactly. by setoid_rewrite H. Qed.
Lemma fence_closing_ext (r r' : nat → nat → Prop) A B :
  (∀ z b, r z b ↔ r' z b) → fence_closing r A B ↔ fence_closing r' A B.
Proof. intros H. unfold fence_closing, exactly. by setoid_rewrite H. Qed.
Lemma fence_start_ext (r r' : nat → nat → Prop) A B :
  (∀ z b, r z b ↔ r' z b) → fence_start r A B ↔ fence_start r' A B.
Proof. intros H. unfold fence_start, fence_closing, exactly. by setoid_rewrite H. Qed.

(** findClosedFences returns only what it was given: it returns the start lists if they are
    a closed fence inside the two antichains, an empty list if they do not start a fence, and
    otherwise it does not return: it raises IndexError (two lists of the same length where
    only the futures of the past events match), or it runs forever. *)
Theorem C74_findClosedFences (h : heap) (P F : list nat) (PA FA : gset nat) :
  order_inv h → ¬ (P = [] ∧ F = []) →
  let inside := (∀ x, x ∈ P → x ∈ PA) ∧ (∀ x, x ∈ F → x ∈ FA) in
  let up := fence_start (λ z b, before h z b) P F in
  let down := fence_start (λ z b, before h b z) F P in
  let closed_up := up ∧ fence_closing (λ z b, before h z b) P F in
  let closed_down := down ∧ fence_closing (λ z b, before h b z) F P in
  (inside → closed_up ∨ closed_down → ∀ fuel, ∃ o, (up ↔ o = (-1)%Z) ∧ (¬ up ↔ o = 1%Z) ∧
     findClosedFences fuel h P F PA FA = Ok [(P, F, o)]) ∧
  (¬ (inside ∧ (up ∨ down)) → ∀ fuel, findClosedFences fuel h P F PA FA = Ok []) ∧
  (inside → up ∨ down → ¬ closed_up → ¬ closed_down →
     (up ∨ length P ≠ length F → ∀ fuel, findClosedFences fuel h P F PA FA = Err OutOfFuel) ∧
     (¬ up → length P = length F → ∀ fuel, findClosedFences (S fuel) h P F PA FA = Err IndexError)).
Proof.
  intros HO Hne inside up down closed_up closed_down.
  set (valid := (bool_decide (0 < length P) || bool_decide (0 < length F)) &&
    (bool_decide (length P ≤ S (length F)) && bool_decide (length F ≤ S (length P))) &&
    bool_decide (list_to_set P ⊆ PA) && bool_decide (list_to_set F ⊆ FA)).
  assert (Hvalid : valid = true ↔ (length P ≤ S (length F) ∧ length F ≤ S (length P)) ∧ inside).
  { unfold valid, inside. rewrite !andb_true_iff, orb_true_iff, !bool_decide_eq_true. split.
    - intros [[[_ H1] H2] H3]. split; [done|]. split; intros x Hx; [apply H2|apply H3]; by apply elem_of_list_to_set.
    - intros [H1 [H2 H3]]. split_and!; try tauto.
      + destruct P as [|p P']; [|left; cbn; lia]. destruct F as [|f F']; [by destruct Hne|right; cbn; lia].
      + intros x Hx%elem_of_list_to_set. by apply H2.
      + intros x Hx%elem_of_list_to_set. by apply H3. }
  assert (HN : ∃ N cN, (if decide (length F ≤ length P) then fence_shape (Past h) valid P F else Ok (false, false)) = Ok (N, cN) ∧
     (N = true ↔ inside ∧ up) ∧ (N = true → (cN = true ↔ fence_closing (λ z b, before h z b) P F))).
  { destruct (decide (length F ≤ length P)) as [Hle|Hgt].
    - destruct (fence_shape_spec (Past h) valid P F) as (N & cN & E & H1 & H2); [done| |intros Hv; apply Hvalid in Hv; apply Hv|].
      { intros ->. destruct F; [by destruct Hne|]. cbn in Hle. lia. }
      exists N, cN. split_and!; [done| |done]. rewrite H1, Hvalid. fold up. split; [intros [[_ ?] ?]; done|]. intros [? Hu].
      split; [|done]. split; [|done]. destruct Hu as (_ & ? & _). lia.
    - exists false, false. split_and!; [done| |done]. split; [done|]. intros [_ (_ & [Hx _] & _)]. done. }
  assert (HV : ∃ V cV, (if decide (length P ≤ length F) then fence_shape (Future h) valid F P else Ok (false, false)) = Ok (V, cV) ∧
     (V = true ↔ inside ∧ down) ∧ (V = true → (cV = true ↔ fence_closing (λ z b, before h b z) F P))).
  { assert (Hext : ∀ z b, z ∈ Future h b ↔ before h b z).
    { intros z b. symmetry. apply (oi_conv h HO). }
    destruct (decide (length P ≤ length F)) as [Hle|Hgt].
    - destruct (fence_shape_spec (Future h) valid F P) as (V & cV & E & H1 & H2); [done| |intros Hv; apply Hvalid in Hv; apply Hv|].
      { intros ->. destruct P; [by destruct Hne|]. cbn in Hle. lia. }
      exists V, cV. split_and!; [done| |].
      + rewrite H1, Hvalid, (fence_start_ext _ _ F P Hext). fold down. split; [intros [[_ ?] ?]; done|]. intros [? Hu].
        split; [|done]. split; [|done]. destruct Hu as (_ & ? & _). lia.
      + intros Hv. rewrite (H2 Hv). by apply fence_closing_ext.
    - exists false, false. split_and!; [done| |done]. split; [done|]. intros [_ (_ & [Hx _] & _)]. done. }
  destruct HN as (N & cN & EN & HN1 & HN2). destruct HV as (V & cV & EV & HV1 & HV2).
  assert (E : ∀ fuel, findClosedFences fuel h P F PA FA =
    if (N && cN) || (V && cV) then Ok [(P, F, if N then (-1)%Z else 1%Z)]
    else if negb N && negb V then Ok [] else fence_loop fuel N V P F).
  { intros fuel. unfold findClosedFences. fold valid. rewrite EN. cbn [res_bind]. rewrite EV. done. }
  assert (Hclosed : (N && cN) || (V && cV) = true ↔ inside ∧ (closed_up ∨ closed_down)).
  { rewrite orb_true_iff, !andb_true_iff. unfold closed_up, closed_down. split.
    - intros [[H1 H2]|[H1 H2]].
      + rewrite HN2 in H2 by done. apply HN1 in H1 as [? ?]. split; [done|left; done].
      + rewrite HV2 in H2 by done. apply HV1 in H1 as [? ?]. split; [done|right; done].
    - intros [Hi [[H1 H2]|[H1 H2]]]; [left|right].
      + assert (HNt : N = true) by (apply HN1; done). rewrite HN2 by done. done.
      + assert (HVt : V = true) by (apply HV1; done). rewrite HV2 by done. done. }
  clearbody valid. split_and!.
  - intros Hi Hc fuel. exists (if N then (-1)%Z else 1%Z). rewrite E.
    rewrite (proj2 Hclosed (conj Hi Hc)). destruct N.
    + split_and!; [|split; [|done]|done]; [split; [done|]; intros _; by apply HN1|].
      intros Hn. destruct Hn. by apply HN1.
    + assert (¬ up) by (intros Hu; assert (false = true) by (by apply HN1); done). split_and!; [|done|done].
      split; [done|]. done.
  - intros Hn fuel. rewrite E.
    assert (N = false) as ->.
    { destruct N; [|done]. destruct Hn. destruct (proj1 HN1 eq_refl). tauto. }
    assert (V = false) as ->.
    { destruct V; [|done]. destruct Hn. destruct (proj1 HV1 eq_refl). tauto. }
    done.
  - intros Hi Hor Hnu Hnd.
    assert (Hcf : (N && cN) || (V && cV) = false).
    { destruct ((N && cN) || (V && cV)); [|done]. destruct (proj1 Hclosed eq_refl). tauto. }
    assert (Hnb : negb N && negb V = false).
    { destruct Hor as [Hu|Hd].
      - rewrite (proj2 HN1 (conj Hi Hu)). done.
      - rewrite (proj2 HV1 (conj Hi Hd)). apply andb_false_r. }
    split.
    + intros Hx fuel. rewrite E, Hcf, Hnb. apply fence_loop_open.
      * intros HNt. apply HN1 in HNt as [_ (_ & [? _] & _)]. done.
      * intros HVt. apply HV1 in HVt as [_ (_ & [? _] & _)]. done.
      * intros HNf. destruct Hx as [Hu|?]; [|done]. rewrite (proj2 HN1 (conj Hi Hu)) in HNf. done.
    + intros Hn Hlen fuel. rewrite E, Hcf, Hnb.
      assert (N = false) as -> by (destruct N; [destruct (proj1 HN1 eq_refl); done|done]).
      assert (V = true) as -> by (apply HV1; tauto).
      cbn [fence_loop]. rewrite Hlen, (bool_decide_false (_ < _)) by lia. cbn [andb orb negb].
      by rewrite bool_decide_true by done.
Qed.
Print Assumptions C74_findClosedFences.

(** The call with two empty lists raises IndexError. *)
Theorem C74_empty (fuel : nat) (h : heap) (PA FA : gset nat) :
  findClosedFences fuel h [] [] PA FA = Err IndexError.
Proof. done. Qed.
Print Assumptions C74_empty.

(** In particular no fence that extends the start lists is ever found. *)
Theorem C74_nothing_found (fuel : nat) (h : heap) (P F : list nat) (PA FA : gset nat) l :
  order_inv h → findClosedFences fuel h P F PA FA = Ok l →
  ∀ P' F' o, (P', F', o) ∈ l → P' = P ∧ F' = F.
Proof.
  intros HO E P' F' o Hin. unfold findClosedFences in E.
  destruct (if decide (length F ≤ length P) then _ else _) as [[N cN]|]; [|done]. cbn [res_bind] in E.
  destruct (if decide (length P ≤ length F) then _ else _) as [[V cV]|]; [|done]. cbn [res_bind] in E.
  destruct ((N && cN) || (V && cV)).
  { injection E as <-. apply elem_of_list_singleton in Hin. injection Hin as -> -> _. done. }
  destruct (negb N && negb V).
  { injection E as <-. by apply elem_of_nil in Hin. }
  exfalso. induction fuel as [|fuel IH]; [done|]. cbn [fence_loop] in E.
  destruct (negb _ && _); [done|]. destruct (_ || _); [by apply IH|]. destruct (_ || _); [done|by apply IH].
Qed.
Print Assumptions C74_nothing_found.

(** The crown 0, 1 < 2, 3 is a closed fence; the zigzag of [wwide] is an open start. *)
Example C74_nonvacuous :
  order_inv crown2 ∧ findClosedFences 5 crown2 [0; 1] [2; 3] {[0; 1]} {[2; 3]} = Ok [([0; 1], [2; 3], (-1)%Z)] ∧
  order_inv wwide ∧ findClosedFences 5 wwide [0; 1] [3] {[0; 1; 2]} {[3; 4]} = Err OutOfFuel ∧
  findClosedFences 5 wwide [0; 1] [4; 3] {[0; 1; 2]} {[3; 4]} = Ok [] ∧
  findClosedFences 5 wwide [1; 2] [3; 4] {[0; 1; 2]} {[3; 4]} = Err IndexError.
Proof.
  split; [apply crown2_order|]. split; [by vm_compute|]. split; [apply wwide_order|].
  split; [by vm_compute|]. split; by vm_compute.
Qed.
