(** Facts about CentralAntichain, disjoint and sortedByCausality. *)
From Verif Require Import Base Spec EventModel EventFacts CausetModel CausetFacts IntervalFacts.
From stdpp Require Import sorting.

(** * CentralAntichain *)
Section central.
Context (h : heap) (HO : order_inv h) (diff : Z).

Lemma central_pass_spec size es acc :
  (∀ a b, a ∈ acc → b ∈ acc → ¬ before h a b) →
  let acc' := central_pass h diff size es acc in
  (∀ a b, a ∈ acc' → b ∈ acc' → ¬ before h a b) ∧
  acc ⊆ acc' ∧
  (∀ x, x ∈ acc' → x ∈ acc ∨ (x ∈ es ∧ central_size h diff x = size)) ∧
  (∀ x, x ∈ es → central_size h diff x = size →
     ∃ y, y ∈ acc' ∧ comparable (before h) y x).
Proof using HO.
  revert acc. induction es as [|e es IH]; intros acc Hac; cbn.
  - split_and!; [done|done|by left|]. intros x Hx. by apply elem_of_nil in Hx.
  - unfold central_pass in IH. cbn in IH.
    destruct (decide _) as [[Hsz He]|Hn].
    + specialize (IH (acc ∪ {[e]})). destruct IH as (H1 & H2 & H3 & H4).
      { intros a b Ha Hb Hab.
        apply elem_of_union in Ha as [Ha|Ha], Hb as [Hb|Hb];
          rewrite ?elem_of_singleton in *; subst.
        - exact (Hac a b Ha Hb Hab).
        - assert (Hc : a ∈ Cone h e) by (apply (Cone_spec h HO); by right; left). set_solver.
        - assert (Hc : b ∈ Cone h e) by (apply (Cone_spec h HO); by right; right). set_solver.
        - by apply (oi_irr h HO e). }
      split_and!; [done| |..].
      * clear -H2. set_solver.
      * intros x [[Hx|Hx]%elem_of_union|[Hx Hs]]%H3; [by left| |].
        -- apply elem_of_singleton in Hx as ->. right. split; [apply elem_of_list_here|done].
        -- right. split; [by apply elem_of_list_further|done].
      * intros x [->|Hx]%elem_of_cons Hs; [|by apply H4].
        exists e. split; [|by left]. apply H2. clear. set_solver.
    + specialize (IH acc Hac). destruct IH as (H1 & H2 & H3 & H4).
      split_and!; [done|done| |].
      * intros x [Hx|[Hx Hs]]%H3; [by left|]. right. split; [by apply elem_of_list_further|done].
      * intros x [->|Hx]%elem_of_cons Hs; [|by apply H4].
        destruct (decide (Cone h e ∩ acc = ∅)) as [He|He]; [exfalso; by apply Hn|].
        apply set_choose_L in He as [y [Hy Hya]%elem_of_intersection].
        exists y. split; [by apply H2|]. by apply (Cone_spec h HO).
Qed.

Lemma central_all sizes es acc :
  (∀ a b, a ∈ acc → b ∈ acc → ¬ before h a b) →
  let acc' := foldl (λ acc size, central_pass h diff size es acc) acc sizes in
  (∀ a b, a ∈ acc' → b ∈ acc' → ¬ before h a b) ∧
  acc ⊆ acc' ∧
  (∀ x, x ∈ acc' → x ∈ acc ∨ x ∈ es) ∧
  (∀ x, x ∈ es → central_size h diff x ∈ sizes →
     ∃ y, y ∈ acc' ∧ comparable (before h) y x).
Proof using HO.
  revert acc. induction sizes as [|s sizes IH]; intros acc Hac; cbn.
  - split_and!; [done|done|by left|]. intros x _ Hx. by apply elem_of_nil in Hx.
  - destruct (central_pass_spec s es acc Hac) as (H1 & H2 & H3 & H4).
    destruct (IH (central_pass h diff s es acc) H1) as (G1 & G2 & G3 & G4).
    split_and!; [done| by etrans | |].
    + intros x [[Hx|[Hx _]]%H3|Hx]%G3; [by left|by right|by right].
    + intros x Hx [Hs|Hs]%elem_of_cons; [|by apply G4].
      destruct (H4 x Hx Hs) as (y & Hy & Hc). exists y. split; [by apply G2|done].
Qed.
End central.

Lemma np_unique_elem l z : z ∈ np_unique l ↔ z ∈ l.
Proof.
  unfold np_unique. rewrite merge_sort_Permutation. apply elem_of_remove_dups.
Qed.
Lemma np_unique_sorted l : Sorted Z.le (np_unique l).
Proof. apply Sorted_merge_sort. apply _. Qed.
Lemma np_unique_head l z ls : np_unique l = z :: ls → ∀ w, w ∈ l → (z <= w)%Z.
Proof.
  intros He w Hw. apply np_unique_elem in Hw. rewrite He in Hw.
  pose proof (np_unique_sorted l) as Hs. rewrite He in Hs.
  apply Sorted_StronglySorted in Hs; [|intros ???; apply Z.le_trans].
  apply elem_of_cons in Hw as [->|Hw]; [done|].
  inversion Hs as [|? ? ? Hf]; subst. rewrite Forall_forall in Hf. by apply Hf.
Qed.

(** * disjoint *)
Lemma connected_in_l R S x y : connected_in R S x y → x ∈ S.
Proof. induction 1; done. Qed.
Lemma connected_in_r R S x y : connected_in R S x y → y ∈ S.
Proof. destruct 1; done. Qed.
Lemma connected_in_trans R S x y z :
  connected_in R S x y → connected_in R S y z → connected_in R S x z.
Proof.
  intros H1 H2. revert H1. induction H2 as [|? ? ? ? IH]; intros H1; [done|].
  eapply conn_step; [by apply IH|done|done].
Qed.
Lemma connected_in_sym R S x y : connected_in R S x y → connected_in R S y x.
Proof.
  induction 1 as [x Hx|x y z Hxy IH Hz Hc]; [by apply conn_refl|].
  eapply connected_in_trans; [|exact IH].
  eapply conn_step; [by apply conn_refl|by eapply connected_in_r|].
  unfold comparable in *. naive_solver.
Qed.
Lemma connected_in_mono R S T x y : S ⊆ T → connected_in R S x y → connected_in R T x y.
Proof. intros Hs. induction 1; [apply conn_refl|eapply conn_step; eauto]; by apply Hs. Qed.

Section disjoint.
Context (h : heap) (HO : order_inv h).
Notation R := (before h).

Lemma comparable_sym a b : comparable R a b → comparable R b a.
Proof. unfold comparable. naive_solver. Qed.

Lemma grow_spec rem T x :
  T ⊆ rem →
  x ∈ ConeOf h T true false ∩ rem ↔ x ∈ rem ∧ ∃ t, t ∈ T ∧ comparable R t x.
Proof using HO.
  intros HT. rewrite elem_of_intersection, ConeOf_spec. unfold comparable, before. split.
  - intros [[(e & He & [Hp|Hp])|[_ Hx]] Hr]; (split; [done|]).
    + exists e. auto.
    + exists e. apply (oi_conv h HO) in Hp. auto.
    + exists x. auto.
  - intros [Hr (t & Ht & [->|[Hb|Hb]])]; (split; [|done]).
    + by right.
    + left. exists t. split; [done|]. right. by apply (oi_conv h HO).
    + left. exists t. auto.
Qed.

Lemma component_loop_spec rem x fuel pre T :
  x ∈ rem → x ∈ T → T ⊆ rem →
  (∀ t, t ∈ T → connected_in R rem x t) →
  pre ≤ size T →
  (pre = size T → ∀ y, y ∈ rem → (∃ t, t ∈ T ∧ comparable R t y) → y ∈ T) →
  size rem + 1 < fuel + pre →
  ∃ T', component_loop fuel h rem pre T = Ok T' ∧ ∀ y, y ∈ T' ↔ connected_in R rem x y.
Proof using HO.
  revert pre T. induction fuel as [|fuel IH]; intros pre T Hx HxT HT Hcon Hpre Hcl Hf.
  { pose proof (subseteq_size _ _ HT). lia. }
  cbn [component_loop]. destruct (decide _) as [Hlt|Hge].
  - set (T1 := ConeOf h T true false ∩ rem).
    assert (Hsup : T ⊆ T1).
    { intros y Hy. apply grow_spec; [done|]. split; [by apply HT|]. exists y. split; [done|by left]. }
    apply IH; try done.
    + by apply Hsup.
    + unfold T1. set_solver.
    + intros t [Ht (u & Hu & Hc)]%grow_spec; [|done]. eapply conn_step; [by apply Hcon|done|done].
    + by apply subseteq_size.
    + intros Heq. assert (HE : T = T1) by (apply set_subseteq_size_eq; [done|lia]).
      intros y Hy (t & Ht & Hc). apply grow_spec; [done|]. split; [done|]. exists t.
      rewrite HE. done.
    + lia.
  - exists T. split; [done|]. assert (Heq : pre = size T) by lia. specialize (Hcl Heq).
    intros y. split; [apply Hcon|]. induction 1 as [|? y z Hxy IH' Hz Hc]; [done|].
    apply Hcl; [done|]. exists y. split; [by apply IH'|done].
Qed.

Lemma disjoint_loop_spec it (Hit : iter_ok it) fuel rem :
  size rem < fuel →
  ∃ l, disjoint_loop it fuel h rem = Ok l ∧
    (∀ T, T ∈ l → T ≠ ∅) ∧ ⋃ l = rem ∧
    (∀ T x, T ∈ l → x ∈ T → ∀ y, y ∈ T ↔ connected_in R rem x y) ∧
    (∀ i j T U, l !! i = Some T → l !! j = Some U → i ≠ j → T ∩ U = ∅).
Proof using HO.
  revert rem. induction fuel as [|fuel IH]; intros rem Hf; [lia|].
  cbn [disjoint_loop]. pose proof (iter_elem it 11 rem) as Hel.
  destruct (it 11 rem) as [|x xs] eqn:E.
  { exists []. split; [done|]. split_and!.
    - intros T HT. by apply elem_of_nil in HT.
    - cbn. apply set_eq. intros z. rewrite <- (Hel z Hit). rewrite elem_of_nil. set_solver.
    - intros T z HT. by apply elem_of_nil in HT.
    - intros i j T U HT. done. }
  assert (Hx : x ∈ rem) by (apply (Hel x Hit), elem_of_list_here).
  destruct (component_loop_spec rem x (2 + size rem) 0 {[x]}) as (T & -> & HT); try done.
  - by apply elem_of_singleton.
  - intros z ->%elem_of_singleton. done.
  - intros t ->%elem_of_singleton. by apply conn_refl.
  - lia.
  - rewrite size_singleton. lia.
  - lia.
  - cbn [res_bind].
    assert (HxT : x ∈ T) by (apply HT, conn_refl, Hx).
    assert (HTr : T ⊆ rem) by (intros y Hy; apply HT in Hy; by eapply connected_in_r).
    destruct (IH (rem ∖ T)) as (l & -> & G1 & G2 & G3 & G4).
    { assert (size (rem ∖ T) < size rem); [|lia]. apply subset_size. split; [set_solver|].
      intros Hs. specialize (Hs x Hx). set_solver. }
    exists (T :: l). split; [done|].
    assert (Hconn : ∀ a b, a ∈ rem ∖ T → connected_in R rem a b ↔ connected_in R (rem ∖ T) a b).
    { intros a b Ha. split; [|apply connected_in_mono; set_solver].
      induction 1 as [a Ha'|a b c Hab IH' Hc Hbc]; [by apply conn_refl|].
      specialize (IH' Ha). eapply conn_step; [done| |done].
      apply elem_of_difference. split; [done|]. intros HcT. apply HT in HcT.
      pose proof (connected_in_r _ _ _ _ IH') as Hb. apply elem_of_difference in Hb as [Hb HbT].
      apply HbT, HT. eapply conn_step; [done|done|by apply comparable_sym]. }
    assert (HlT : ∀ U, U ∈ l → U ⊆ rem ∖ T).
    { intros U HU. rewrite <- G2. intros z Hz. apply elem_of_union_list. eauto. }
    split_and!.
    + intros U [->|HU]%elem_of_cons; [set_solver|by apply G1].
    + cbn. rewrite G2. apply set_eq. intros z. rewrite elem_of_union, elem_of_difference.
      split; [intros [?|[? ?]]; [by apply HTr|done]|].
      intros Hz. destruct (decide (z ∈ T)); auto.
    + intros U y [->|HU]%elem_of_cons Hy z.
      * rewrite HT. apply HT in Hy. split; intros Hz.
        -- eapply connected_in_trans; [by apply connected_in_sym|done].
        -- by eapply connected_in_trans.
      * rewrite (G3 U y HU Hy z). symmetry. apply Hconn. by apply (HlT U).
    + intros i j U V HU HV Hij. destruct i as [|i], j as [|j]; cbn in *; [done| | |].
      * injection HU as <-. apply elem_of_list_lookup_2 in HV. specialize (HlT V HV). set_solver.
      * injection HV as <-. apply elem_of_list_lookup_2 in HU. specialize (HlT U HU). set_solver.
      * apply (G4 i j); try done. congruence.
Qed.
End disjoint.

(** * sortedByCausality *)
Section sort.
Context (h : heap) (HO : order_inv h).
Notation R := (before h).

(** No entry among the first [n] precedes an earlier one. *)
Definition sorted_to (n : nat) (l : list nat) : Prop :=
  ∀ p q x y, p < q → q < n → l !! p = Some x → l !! q = Some y → ¬ R y x.

Lemma swap_length l i j : length (swap l i j) = length l.
Proof. unfold swap. by rewrite !insert_length. Qed.
Lemma swap_lookup l i j k :
  i < length l → j < length l → i ≠ j →
  swap l i j !! k = if decide (k = j) then l !! i else if decide (k = i) then l !! j else l !! k.
Proof.
  intros Hi Hj Hij. unfold swap. destruct (decide (k = j)) as [->|Hkj].
  - rewrite list_lookup_insert by (by rewrite insert_length).
    symmetry. by apply list_lookup_lookup_total_lt.
  - rewrite list_lookup_insert_ne by done. destruct (decide (k = i)) as [->|Hki].
    + rewrite list_lookup_insert by done. symmetry. by apply list_lookup_lookup_total_lt.
    + by rewrite list_lookup_insert_ne by done.
Qed.
Lemma swap_perm l i j : i < length l → j < length l → i ≠ j → swap l i j ≡ₚ l.
Proof.
  intros Hi Hj Hij. unfold swap.
  assert (Hp : ∀ (l : list nat) i j x y, l !! i = Some x → l !! j = Some y → i ≠ j →
     <[j := x]> (<[i := y]> l) ≡ₚ l).
  { clear. induction l as [|z l IH]; intros i j x y Hi Hj Hij; [done|].
    destruct i as [|i], j as [|j]; cbn in *; [done| | |].
    - injection Hi as ->. clear IH. revert j Hj Hij. induction l as [|w l IH]; intros j Hj _; [done|].
      destruct j as [|j]; cbn in *.
      + injection Hj as ->. apply perm_swap.
      + rewrite perm_swap. rewrite (IH j) by done. apply perm_swap.
    - injection Hj as ->. clear IH. revert i Hi Hij. induction l as [|w l IH]; intros i Hi _; [done|].
      destruct i as [|i]; cbn in *.
      + injection Hi as ->. apply perm_swap.
      + rewrite perm_swap. rewrite (IH i) by done. apply perm_swap.
    - apply perm_skip. apply IH; try done. congruence. }
  apply Hp; [by apply list_lookup_lookup_total_lt..|done].
Qed.

Lemma swap_row_inv i l js j0 :
  i < length l → js = seq j0 (i - j0) → j0 ≤ i →
  sorted_to i l →
  (∀ k x y, k < j0 → l !! k = Some x → l !! i = Some y → ¬ R y x) →
  let l' := foldl (swap_step h i) l js in
  l' ≡ₚ l ∧ sorted_to (S i) l'.
Proof using HO.
  revert l j0. induction js as [|j js IH]; intros l j0 Hi Hjs Hj0 Hs Hcur; cbn.
  - split; [done|]. assert (j0 = i) as ->.
    { assert (length (seq j0 (i - j0)) = 0) by (by rewrite <- Hjs). rewrite seq_length in H. lia. }
    intros p q x y Hpq Hq Hp Hy. destruct (decide (q = i)) as [->|Hne].
    + by eapply Hcur.
    + eapply Hs; [exact Hpq|lia|done|done].
  - assert (Hlen : j0 < i).
    { assert (HL : length (j :: js) = i - j0) by (by rewrite Hjs, seq_length). cbn in HL. lia. }
    replace (i - j0) with (S (i - S j0)) in Hjs by lia. cbn in Hjs. injection Hjs as -> Hjs.
    assert (Hj : j0 < length l) by lia.
    assert (Hst : swap_step h i l j0 = if ev_lt h (l !!! i) (l !!! j0) then swap l i j0 else l) by done.
    rewrite Hst. clear Hst. destruct (ev_lt h (l !!! i) (l !!! j0)) eqn:E.
    + apply ev_lt_spec in E.
      assert (Hli : l !! i = Some (l !!! i)) by (by apply list_lookup_lookup_total_lt).
      assert (Hlj : l !! j0 = Some (l !!! j0)) by (by apply list_lookup_lookup_total_lt).
      set (c := l !!! i) in *. set (y := l !!! j0) in *.
      assert (Hlk : ∀ k, swap l i j0 !! k =
        if decide (k = j0) then Some c else if decide (k = i) then Some y else l !! k).
      { intros k. rewrite swap_lookup by lia. by rewrite Hli, Hlj. }
      destruct (IH (swap l i j0) (S j0)) as [H1 H2].
      * by rewrite swap_length.
      * done.
      * lia.
      * intros p q x z Hpq Hq. rewrite !Hlk.
        destruct (decide (p = j0)) as [->|Hp], (decide (q = j0)) as [->|Hq']; try lia.
        -- rewrite decide_False by lia. intros [= <-] Hz Hb.
           eapply (Hs j0 q); [done|done|exact Hlj|exact Hz|]. by eapply (oi_trans h HO).
        -- rewrite decide_False by lia. intros Hx [= <-]. by eapply (Hcur p).
        -- rewrite !decide_False by lia. intros Hx Hz. by eapply (Hs p q).
      * intros k x z Hk. rewrite !Hlk. rewrite (decide_False (P := i = j0)) by lia.
        rewrite (decide_True (P := i = i)) by done.
        destruct (decide (k = j0)) as [->|Hkj].
        -- intros [= <-] [= <-] Hb. by eapply (oi_asym h HO).
        -- rewrite decide_False by lia. intros Hx [= <-]. eapply (Hs k j0); [lia|lia|done|done].
      * split; [|exact H2]. rewrite H1. apply swap_perm; lia.
    + apply (IH l (S j0)); try done.
      intros k x y Hk Hx Hy. destruct (decide (k = j0)) as [->|Hkj]; [|eapply Hcur; [|done|done]; lia].
      apply not_true_iff_false in E. rewrite ev_lt_spec in E.
      by rewrite (list_lookup_total_correct _ _ _ Hx), (list_lookup_total_correct _ _ _ Hy) in E.
Qed.

Lemma swap_sort_inv l n :
  n ≤ length l →
  foldl (swap_row h) l (seq 0 n) ≡ₚ l ∧ sorted_to n (foldl (swap_row h) l (seq 0 n)).
Proof using HO.
  induction n as [|n IH]; intros Hn.
  - cbn. split; [done|]. intros p q x y Hpq Hq. lia.
  - destruct IH as [H1 H2]; [lia|]. rewrite seq_S, foldl_app. cbn [foldl plus].
    set (l1 := foldl (swap_row h) l (seq 0 n)) in *.
    assert (Hlen : length l1 = length l) by (by rewrite H1).
    destruct (swap_row_inv n l1 (seq 0 n) 0) as [G1 G2]; try done.
    + lia.
    + by rewrite Nat.sub_0_r.
    + lia.
    + intros k x y Hk. lia.
    + unfold swap_row. split; [by rewrite G1|done].
Qed.
Lemma swap_sort_spec l :
  swap_sort h l ≡ₚ l ∧
  ∀ p q x y, p < q → swap_sort h l !! p = Some x → swap_sort h l !! q = Some y → ¬ R y x.
Proof using HO.
  unfold swap_sort. destruct (swap_sort_inv l (length l)) as [H1 H2]; [done|].
  split; [done|]. intros p q x y Hpq Hx Hy. eapply H2; [done| |done|done].
  rewrite <- (Permutation_length H1). by eapply lookup_lt_Some.
Qed.
End sort.

(** Contract of numpy.argsort: the result is an order of the indices (for any label list
    without None), and for integer labels the labels are ascending in that order. *)
Record argsort_ok (argsort : argsort_t) : Prop := ArgsortOk {
  as_perm : ∀ ls, argsort ls ≡ₚ seq 0 (length ls);
  as_sorted : ∀ zs : list Z, Sorted Z.le ((λ i, zs !!! i) <$> argsort (LInt <$> zs))
}.

Lemma fmap_lookup_seq (l : list nat) : (λ i, l !!! i) <$> seq 0 (length l) = l.
Proof.
  apply list_eq. intros i. rewrite list_lookup_fmap.
  destruct (decide (i < length l)) as [Hi|Hi].
  - rewrite lookup_seq_lt by done. cbn. symmetry. by apply list_lookup_lookup_total_lt.
  - rewrite lookup_seq_ge by lia. cbn. symmetry. apply lookup_ge_None. lia.
Qed.
Lemma sortedByLabels_perm it argsort h S rev :
  iter_ok it → argsort_ok argsort →
  (size S ≤ 1 ∨ ∀ x, x ∈ S → lab h x ≠ LNone) →
  ∃ l, sortedByLabels it argsort h S rev = Ok l ∧ l ≡ₚ elements S.
Proof.
  intros Hit Has Hl. unfold sortedByLabels, np_argsort.
  assert (Hlen : length (it 12 S) = size S) by (by rewrite (Hit 12 S)).
  destruct (decide _) as [[H1 H2]|_].
  { exfalso. rewrite fmap_length, Hlen in H1. destruct Hl as [Hl|Hl]; [lia|].
    apply elem_of_list_fmap in H2 as (x & Hx & Hin). rewrite iter_elem in Hin by done.
    by apply (Hl x Hin). }
  cbn [res_map].
  assert (Hp : (λ i, it 12 S !!! i) <$> argsort (lab h <$> it 12 S) ≡ₚ elements S).
  { rewrite (as_perm _ Has). rewrite fmap_length, fmap_lookup_seq. apply Hit. }
  eexists. split; [done|]. destruct rev; [|done]. by rewrite reverse_Permutation.
Qed.
