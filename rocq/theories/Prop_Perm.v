(** Theorems about permuted (C60). *)
From Verif Require Import Base Spec SpecPerm EventModel EventFacts History HistoryFacts PathFacts
  RankFacts EventProps CausetModel CausetFacts Prop_Event Prop_Causet PermModel PermFacts.
From stdpp Require Import sorting.

(** ** C60 *)
(** permuted returns exactly for the piecewise sets, and raises TypeError for all others.  The
    returned events are all events of the set, each once, causes first; the returned integers
    are fewer than the events. *)
Theorem C60_permuted (it : oracle) (h : heap) (S : gset nat) :
  iter_ok it → order_inv h →
  (pieced (before h) S ∧ ∃ L P, permuted it h S = Ok (L, P) ∧
     linear_extension (before h) S L ∧
     (S = ∅ → P = []) ∧ (S ≠ ∅ → length P < size S)) ∨
  (¬ pieced (before h) S ∧ permuted it h S = Err TypeError).
Proof.
  intros Hit HO. pose proof (permuted_ok h HO it S Hit) as H.
  destruct (permuted it h S) as [[L P]|e]; [left|right].
  - destruct H as (H1 & H2 & H3 & H4). split; [done|]. exists L, P.
    rewrite <- (lin_length h S L H2). done.
  - by destruct H as [-> H].
Qed.
Print Assumptions C60_permuted.

(** In particular the integers are never a permutation of 1, ..., n. *)
Theorem C60_no_permutation (it : oracle) (h : heap) (S : gset nat) (L P : list nat) :
  iter_ok it → order_inv h → S ≠ ∅ → permuted it h S = Ok (L, P) →
  ¬ P ≡ₚ seq 1 (size S).
Proof.
  intros Hit HO HS HP Hperm. destruct (C60_permuted it h S Hit HO) as [(_ & L' & P' & E & _ & _ & Hlt)|[_ E]].
  - rewrite HP in E. injection E as <- <-. specialize (Hlt HS). apply Permutation_length in Hperm.
    rewrite seq_length in Hperm. lia.
  - by rewrite HP in E.
Qed.
Print Assumptions C60_no_permutation.

(** A part that is connected and has two minimal and two maximal events makes it raise. *)
Theorem C60_TypeError (it : oracle) (h : heap) (S T : gset nat) (a b c d : nat) :
  iter_ok it → order_inv h → T ⊆ S →
  (∀ x y, x ∈ T → y ∈ T → connected_in (before h) T x y) →
  a ∈ T → b ∈ T → a ≠ b → (∀ x, x ∈ T → ¬ before h x a ∧ ¬ before h x b) →
  c ∈ T → d ∈ T → c ≠ d → (∀ x, x ∈ T → ¬ before h c x ∧ ¬ before h d x) →
  permuted it h S = Err TypeError.
Proof.
  intros Hit HO HT Hc Ha Hb Hab Hmin Hcc Hd Hcd Hmax.
  destruct (C60_permuted it h S Hit HO) as [(Hp & _)|[_ E]]; [|done]. exfalso.
  apply (pieced_not_tangled (before h) T); [by eapply pieced_part|done| |]; [exists a, b|exists c, d]; done.
Qed.
Print Assumptions C60_TypeError.

(** For a set whose components are chains, of [n1 <= n2 <= ...] events, the integers are
    1, ..., n1-1, 1, ..., n2-1, and so on: one too few for each chain. *)
Theorem C60_chains (it : oracle) (h : heap) (S : gset nat) :
  iter_ok it → order_inv h →
  (∀ x y, connected_in (before h) S x y → comparable (before h) x y) →
  ∃ comps L ns, disjoint_ it h S = Ok comps ∧
    ns ≡ₚ size <$> comps ∧ Sorted le ns ∧
    permuted it h S = Ok (L, concat ((λ n, seq 1 (n - 1)) <$> ns)) ∧
    linear_extension (before h) S L.
Proof.
  intros Hit HO Hch. destruct (components h HO it S Hit) as (l & Hl & Ha & Hu & Hc).
  pose proof (sort_desc_perm l) as Hp. pose proof (sort_desc_sorted l) as Hs.
  destruct (disjoint_chains h HO it (size S) (sort_desc l) Hit [] []) as [L HL].
  { intros T HT x y Hx Hy. apply Hch, (Hc T); [by rewrite <- Hp|done|done]. }
  rewrite app_nil_r in HL.
  assert (HE : permuted it h S =
    Ok (L, concat ((λ T : gset nat, seq 1 (size T - 1)) <$> reverse (sort_desc l)))).
  { unfold permuted. rewrite Hl. cbn [res_bind]. exact HL. }
  exists l, L, (size <$> reverse (sort_desc l)). split_and!.
  - done.
  - by rewrite reverse_Permutation, Hp.
  - apply Sorted_reverse in Hs. clear -Hs. induction Hs as [|T ts Hs IH Hh]; [constructor|].
    cbn [fmap list_fmap]. constructor; [done|]. inversion Hh; cbn [fmap list_fmap]; by constructor.
  - rewrite HE. do 2 f_equal. by rewrite <- list_fmap_compose.
  - destruct (C60_permuted it h S Hit HO) as [(_ & L' & P' & E & H & _)|[_ E]]; rewrite HE in E; [|done].
    by injection E as <- _.
Qed.
Print Assumptions C60_chains.

(** A chain of [n] events above an antichain of [m] events, all of them related: the integers are
    m+1, ..., n-1. *)
Lemma strip_future_funnel (h : heap) fuel (A K : gset nat) acc :
  order_inv h → (∀ a b, a ∈ A → b ∈ A → ¬ before h a b) → 2 ≤ size A →
  (∀ x y, x ∈ K → y ∈ K → comparable (before h) x y) →
  (∀ a k, a ∈ A → k ∈ K → before h a k) → size K < fuel →
  ∃ Le, strip_future fuel h (A ∪ K) acc = Ok (Le ++ acc, A) ∧ length Le = size K.
Proof.
  intros HO HA HA2. revert K acc. induction fuel as [|fuel IH]; intros K acc HK HAK Hf; [lia|]. cbn [strip_future].
  destruct (decide (K = ∅)) as [->|HKne].
  { rewrite (right_id_L ∅ (∪)). assert (HF : FutureInfOf h A = A).
    { apply set_eq. intros x. rewrite FutureInfOf_spec by done. split; [by intros [? _]|].
      intros Hx. split; [done|]. intros (y & Hy & Hxy). by apply (HA x y). }
    rewrite HF. exists []. cbn [app]. rewrite size_empty. split; [|done].
    assert (HL : 2 ≤ length (elements A)) by done.
    destruct (elements A) as [|a [|b l]]; cbn in HL; [lia|lia|done]. }
  destruct (maximal_exists h K HO HKne) as (m & Hm & Hmax).
  assert (Htop : ∀ k, k ∈ K → k = m ∨ before h k m).
  { intros k Hk. destruct (HK k m Hk Hm) as [?|[?|?]]; [by left|by right|]. exfalso. apply Hmax. by exists k. }
  assert (HF : FutureInfOf h (A ∪ K) = {[m]}).
  { apply set_eq. intros x. rewrite FutureInfOf_spec, elem_of_singleton, elem_of_union by done. split.
    - intros [[Hx|Hx] Hn].
      + exfalso. apply Hn. exists m. split; [apply elem_of_union; by right|by apply HAK].
      + destruct (Htop x Hx) as [?|Hxm]; [done|]. exfalso. apply Hn. exists m. split; [apply elem_of_union; by right|done].
    - intros ->. split; [by right|]. intros (y & [Hy|Hy]%elem_of_union & Hmy).
      + apply (before_irrefl h HO m). apply (before_trans h HO) with y; [done|by apply HAK].
      + apply Hmax. by exists y. }
  rewrite HF, elements_singleton.
  assert (HmA : m ∉ A) by (intros HmA; by apply (before_irrefl h HO m), HAK).
  assert (HE : (A ∪ K) ∖ {[m]} = A ∪ K ∖ {[m]}).
  { apply set_eq. intros x. rewrite elem_of_difference, !elem_of_union, elem_of_difference, elem_of_singleton.
    split; [intros [[?|?] ?]; [by left|by right]|]. intros [Hx|[? ?]]; [|by split; [right|]].
    split; [by left|]. intros ->. done. }
  rewrite HE. pose proof (remove_size h HO K m Hm) as Hsz.
  destruct (IH (K ∖ {[m]}) (m :: acc)) as (Le & -> & HL).
  - intros x y Hx Hy. apply HK; set_solver.
  - intros a k Ha Hk. apply HAK; set_solver.
  - lia.
  - exists (Le ++ [m]). rewrite <- (assoc_L (++)). split; [done|]. rewrite app_length. cbn. lia.
Qed.
Theorem C60_funnel (it : oracle) (h : heap) (A K : gset nat) :
  iter_ok it → order_inv h → (∀ a b, a ∈ A → b ∈ A → ¬ before h a b) → 2 ≤ size A →
  K ≠ ∅ → (∀ x y, x ∈ K → y ∈ K → comparable (before h) x y) →
  (∀ a k, a ∈ A → k ∈ K → before h a k) →
  ∃ L, permuted it h (A ∪ K) = Ok (L, seq (size A + 1) (size K - (size A + 1))) ∧
    linear_extension (before h) (A ∪ K) L.
Proof.
  intros Hit HO HA HA2 HKne HK HAK.
  assert (HE : ∃ L, permuted it h (A ∪ K) = Ok (L, seq (size A + 1) (size K - (size A + 1)))).
  2: { destruct HE as [L HE]. exists L. split; [done|].
       destruct (C60_permuted it h (A ∪ K) Hit HO) as [(_ & L' & P' & E & H & _)|[_ E]]; rewrite HE in E; [|done].
       by injection E as <- _. }
  assert (Hdis : A ## K).
  { intros x Hx1 Hx2. by apply (before_irrefl h HO x), HAK. }
  assert (Hsz : size (A ∪ K) = size A + size K) by (by apply size_union).
  apply set_choose_L in HKne as [k Hk].
  destruct (components h HO it (A ∪ K) Hit) as (l & Hl & (Hnd & Hne & Hap) & Hu & _).
  assert (l = [A ∪ K]) as ->.
  { assert (HkS : k ∈ ⋃ l) by (rewrite Hu; apply elem_of_union; by right).
    apply elem_of_union_list in HkS as (T & HT & HkT).
    assert (Hall : ∀ U, U ∈ l → U = T).
    { intros U HU. destruct (decide (U = T)) as [|HUT]; [done|]. exfalso.
      destruct (set_choose_L U (Hne U HU)) as [x Hx].
      assert (HxS : x ∈ A ∪ K) by (rewrite <- Hu; apply elem_of_union_list; eauto).
      destruct (Hap U T HU HT HUT) as [Hcap Hno]. destruct (Hno x k Hx HkT) as [H1 H2].
      apply elem_of_union in HxS as [HxA|HxK]; [by apply H1, HAK|].
      destruct (HK x k HxK Hk) as [->|[?|?]]; [|done|done].
      assert (k ∈ U ∩ T) as Hin by (by apply elem_of_intersection). rewrite Hcap in Hin. by apply elem_of_empty in Hin. }
    destruct l as [|U l]; [by apply elem_of_nil in HT|].
    assert (l = []) as ->.
    { destruct l as [|V l]; [done|]. apply NoDup_cons in Hnd as [Hn _]. exfalso. apply Hn.
      rewrite (Hall U) by (by left). rewrite (Hall V) by (by right; left). by left. }
    cbn in Hu. rewrite (right_id_L ∅ (∪)) in Hu. by rewrite Hu. }
  unfold permuted. rewrite Hl. cbn [res_bind]. unfold perm_disjointsubsets. cbn [sort_desc foldr insert_desc perm_disjoint_loop].
  cbn [perm_jointsubset].
  assert (Hsp : strip_past (S (size (A ∪ K))) h (A ∪ K) [] = Ok ([], A ∪ K)).
  { assert (HP : PastInfOf h (A ∪ K) = A).
    { apply set_eq. intros x. rewrite PastInfOf_spec. split.
      - intros [[Hx|Hx]%elem_of_union Hn]; [done|]. exfalso. apply Hn.
        destruct (set_choose_L A) as [a Ha]; [intros ->; rewrite size_empty in HA2; lia|].
        exists a. split; [apply elem_of_union; by left|by apply HAK].
      - intros Hx. split; [apply elem_of_union; by left|]. intros (y & [Hy|Hy]%elem_of_union & Hyx).
        + by apply (HA y x).
        + apply (before_irrefl h HO x). apply (before_trans h HO) with y; [by apply HAK|done]. }
    cbn [strip_past]. rewrite HP. assert (HL : 2 ≤ length (elements A)) by done.
    destruct (elements A) as [|a [|b l']]; cbn in HL; [lia|lia|done]. }
  rewrite Hsp. cbn [res_bind].
  destruct (strip_future_funnel h (S (size (A ∪ K))) A K [] HO HA HA2 HK HAK ltac:(lia)) as (Le & -> & HLe).
  rewrite app_nil_r. cbn [res_bind].
  destruct (components h HO it A Hit) as (lA & -> & (HndA & HneA & HapA) & HuA & HcA). cbn [res_bind].
  assert (Hone : ∀ T, T ∈ lA → ∀ x y, x ∈ T → y ∈ T → x = y).
  { intros T HT x y Hx Hy. pose proof (HcA T x y HT Hx Hy) as Hc.
    induction Hc as [|x' y' z Hxy IHc Hz Hcmp]; [done|].
    assert (Hy' : y' ∈ A) by (destruct Hxy; done).
    assert (x' = y' ∨ x' ≠ y') as [->|Hne'] by (destruct (decide (x' = y')); auto).
    - destruct Hcmp as [?|[?|?]]; [done| |]; exfalso; [by apply (HA y' z)|by apply (HA z y')].
    - exfalso. clear IHc Hcmp Hz Hy z. apply Hne'. clear Hne'.
      induction Hxy as [|x' y' z Hxy IH' Hz Hcmp]; [done|].
      assert (Hy'' : y' ∈ A) by (destruct Hxy; done). specialize (IH' Hx Hy'') as ->.
      destruct Hcmp as [?|[?|?]]; [done| |]; exfalso; [by apply (HA y' z)|by apply (HA z y')]. }
  assert (HlenA : length lA ≠ 1).
  { intros H1. destruct lA as [|T [|]]; [done| |done]. cbn in HuA. rewrite (right_id_L ∅ (∪)) in HuA. subst T.
    assert (HL : 2 ≤ length (elements A)) by done.
    pose proof (NoDup_elements A) as HN. assert (Hin : ∀ x, x ∈ elements A → x ∈ A) by (intros; by apply elem_of_elements).
    destruct (elements A) as [|a [|b l']]; cbn in HL; [lia|lia|]. apply NoDup_cons in HN as [HN _]. apply HN.
    rewrite (Hone A (elem_of_list_here _ _) a b); [by left|apply Hin; by left|apply Hin; right; by left]. }
  rewrite decide_False by done.
  unfold perm_disjointsubsets. cbn [length]. rewrite Nat.add_0_r.
  pose proof (sort_desc_perm lA) as Hpm.
  assert (∃ f, size (A ∪ K) = S f) as [f Hf] by (exists (size (A ∪ K) - 1); lia).
  destruct (disjoint_chains h HO it f (sort_desc lA) Hit [] []) as [L HL].
  { intros T HT x y Hx Hy. left. apply (Hone T); [by rewrite <- Hpm|done|done]. }
  rewrite <- Hf in HL. rewrite HL. cbn [res_bind]. unfold py_range. cbn [seq Nat.sub app]. rewrite HLe, Hsz.
  assert (HP0 : concat ((λ T : gset nat, seq 1 (size T - 1)) <$> reverse (sort_desc lA)) = []).
  { assert (Hz : ∀ T, T ∈ reverse (sort_desc lA) → size T ≤ 1).
    { intros T HT. rewrite elem_of_reverse, Hpm in HT. destruct (set_choose_L T (HneA T HT)) as [x Hx].
      assert (T ⊆ {[x]}) as Hsub%subseteq_size by (intros y Hy; apply elem_of_singleton; by apply (Hone T)).
      by rewrite size_singleton in Hsub. }
    revert Hz. generalize (reverse (sort_desc lA)). intros l'. induction l' as [|T l' IH]; intros Hz; [done|]. cbn [fmap list_fmap concat].
    assert (size T ≤ 1) by (apply Hz; by left). replace (size T - 1) with 0 by lia. cbn. apply IH.
    intros U HU. apply Hz. by right. }
  rewrite HP0. cbn [app]. replace (size A + size K - size K + 1) with (size A + 1) by lia.
  rewrite app_nil_r. by eexists.
Qed.
Print Assumptions C60_funnel.

(** Two chains, 0 < 1 < 2 and 3: the events are listed, but there are two integers. *)
Definition chains_ops : list op :=
  [ONew (LInt 1) ∅ ∅ [] []; ONew (LInt 2) {[0]} ∅ [] []; ONew (LInt 3) {[1]} ∅ [] [];
   ONew (LInt 4) ∅ ∅ [] []].
Definition chains : heap := run ∅ ((λ o, (it_elements, o)) <$> chains_ops).
Lemma chains_order : order_inv chains.
Proof. apply ops_order. by vm_compute. Qed.
Example C60_chains_nonvacuous :
  order_inv chains ∧
  (∀ x y, connected_in (before chains) {[0; 1; 2; 3]} x y → comparable (before chains) x y) ∧
  permuted it_reverse chains {[0; 1; 2; 3]} = Ok ([0; 1; 2; 3], [1; 2]).
Proof.
  split; [apply chains_order|]. split; [|by vm_compute].
  assert (H : ∀ x y, x ∈ ({[0; 1; 2; 3]} : gset nat) → y ∈ ({[0; 1; 2; 3]} : gset nat) →
            comparable (before chains) x y ↔ (x = 3 ↔ y = 3)).
  { assert (Hd : set_Forall (λ x, set_Forall (λ y,
        (x = y ∨ x ∈ prec chains y ∨ y ∈ prec chains x) ↔ (x = 3 ↔ y = 3))
          ({[0; 1; 2; 3]} : gset nat)) ({[0; 1; 2; 3]} : gset nat)) by decide_vm.
    intros x y Hx Hy. exact (Hd x Hx y Hy). }
  intros x y Hxy. assert (HxS : x ∈ ({[0; 1; 2; 3]} : gset nat)) by (induction Hxy; done).
  assert (HyS : y ∈ ({[0; 1; 2; 3]} : gset nat)) by (destruct Hxy; done).
  apply H; [done|done|]. clear HyS. induction Hxy as [x _|x y z Hxy IH Hz Hc]; [done|].
  assert (HyS : y ∈ ({[0; 1; 2; 3]} : gset nat)) by (destruct Hxy; done).
  apply H in Hc; [|done|done]. specialize (IH HxS). tauto.
Qed.
(** Five events in a row above two. *)
Definition funnel_ops : list op :=
  [ONew (LInt 1) ∅ ∅ [] []; ONew (LInt 2) ∅ ∅ [] []; ONew (LInt 3) {[0; 1]} ∅ [] [];
   ONew (LInt 4) {[2]} ∅ [] []; ONew (LInt 5) {[3]} ∅ [] []; ONew (LInt 6) {[4]} ∅ [] [];
   ONew (LInt 7) {[5]} ∅ [] []].
Definition funnel : heap := run ∅ ((λ o, (it_elements, o)) <$> funnel_ops).
Example C60_funnel_nonvacuous :
  let A : gset nat := {[0; 1]} in let K : gset nat := {[2; 3; 4; 5; 6]} in
  order_inv funnel ∧ (∀ a b, a ∈ A → b ∈ A → ¬ before funnel a b) ∧ 2 ≤ size A ∧ K ≠ ∅ ∧
  (∀ x y, x ∈ K → y ∈ K → comparable (before funnel) x y) ∧
  (∀ a k, a ∈ A → k ∈ K → before funnel a k) ∧
  permuted it_reverse funnel (A ∪ K) = Ok ([1; 0; 2; 3; 4; 5; 6], [3; 4]).
Proof.
  intros A K. split; [apply ops_order; by vm_compute|].
  assert (H1 : set_Forall (λ a, set_Forall (λ b, a ∉ prec funnel b) A) A) by decide_vm.
  assert (H2 : set_Forall (λ x, set_Forall (λ y, x = y ∨ x ∈ prec funnel y ∨ y ∈ prec funnel x) K) K) by decide_vm.
  assert (H3 : set_Forall (λ a, set_Forall (λ k, a ∈ prec funnel k) K) A) by decide_vm.
  split_and!; [intros a b Ha Hb; exact (H1 a Ha b Hb)|by vm_compute; lia|decide_vm|
    intros x y Hx Hy; exact (H2 x Hx y Hy)|intros a k Ha Hk; exact (H3 a Ha k Hk)|by vm_compute].
Qed.
(** The diamond 0 < 1, 3 < 2 is piecewise; the crown 0, 1 < 2, 3 is not. *)
Example C60_nonvacuous :
  order_inv crown2 ∧ permuted it_reverse crown2 {[0; 1; 2; 3]} = Err TypeError ∧
  permuted it_reverse crown2 {[0; 1; 2]} = Ok ([1; 0; 2], []) ∧
  order_inv vee ∧ permuted it_elements vee {[0; 1; 2]} = Ok ([0; 1; 2], []).
Proof.
  split; [apply crown2_order|]. split; [by vm_compute|]. split; [by vm_compute|].
  split; [apply vee_order|]. by vm_compute.
Qed.
Example C60_TypeError_nonvacuous :
  let T : gset nat := {[0; 1; 2; 3]} in
  (∀ x y, x ∈ T → y ∈ T → connected_in (before crown2) T x y) ∧
  (∀ x, x ∈ T → ¬ before crown2 x 0 ∧ ¬ before crown2 x 1) ∧
  (∀ x, x ∈ T → ¬ before crown2 2 x ∧ ¬ before crown2 3 x).
Proof.
  intros T.
  assert (H02 : before crown2 0 2) by (unfold before; decide_vm).
  assert (H03 : before crown2 0 3) by (unfold before; decide_vm).
  assert (H12 : before crown2 1 2) by (unfold before; decide_vm).
  assert (Hin : ∀ x, x ∈ T ↔ x = 0 ∨ x = 1 ∨ x = 2 ∨ x = 3) by set_solver.
  split_and!.
  - assert (Hto : ∀ x, x ∈ T → connected_in (before crown2) T x 0).
    { intros x Hx. apply Hin in Hx as [->|[->|[->| ->]]].
      - apply conn_refl, Hin. auto.
      - apply conn_step with 2; [apply conn_step with 1; [apply conn_refl, Hin; auto|apply Hin; auto|]|apply Hin; auto|].
        + right; by left.
        + right; by right.
      - apply conn_step with 2; [apply conn_refl, Hin; auto|apply Hin; auto|right; by right].
      - apply conn_step with 3; [apply conn_refl, Hin; auto 10|apply Hin; auto|right; by right]. }
    intros x y Hx Hy. specialize (Hto x Hx). apply Hin in Hy as [->|[->|[->| ->]]].
    + done.
    + apply conn_step with 2; [apply conn_step with 0; [done|apply Hin; auto|right; by left]|apply Hin; auto|right; by right].
    + apply conn_step with 0; [done|apply Hin; auto|right; by left].
    + apply conn_step with 0; [done|apply Hin; auto 10|right; by left].
  - assert (Hd : set_Forall (λ x, x ∉ prec crown2 0 ∧ x ∉ prec crown2 1) T) by decide_vm. exact Hd.
  - assert (Hd : set_Forall (λ x, 2 ∉ prec crown2 x ∧ 3 ∉ prec crown2 x) T) by decide_vm. exact Hd.
Qed.
