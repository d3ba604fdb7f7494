(** Facts about Layers, LayerNumbers, layered, Ranks. *)
From Verif Require Import Base Spec EventModel EventFacts PathFacts RankFacts
  CausetModel CausetFacts IntervalFacts.

(** * The dual store: past and future exchanged *)
Definition dual_ev (e : event) : event :=
  Event (ev_label e) (ev_succ e) (ev_prec e) (ev_lsucc e) (ev_lprec e) (ev_coords e) (ev_pos e).
Definition dual (h : heap) : heap := dual_ev <$> h.
Lemma dual_lookup h x : dual h !!! x = dual_ev (h !!! x).
Proof.
  unfold dual. rewrite !lookup_total_alt, lookup_fmap. destruct (h !! x); done.
Qed.
Lemma dual_prec h x : prec (dual h) x = succ h x.
Proof. unfold prec, succ. by rewrite dual_lookup. Qed.
Lemma dual_succ h x : succ (dual h) x = prec h x.
Proof. unfold prec, succ. by rewrite dual_lookup. Qed.
Lemma dual_before h a b : order_inv h → before (dual h) a b ↔ before h b a.
Proof. intros HO. unfold before. rewrite dual_prec. symmetry. apply (oi_conv h HO). Qed.
Lemma dual_order h : order_inv h → order_inv (dual h).
Proof.
  intros HO. split.
  - intros a b. rewrite dual_prec, dual_succ. symmetry. apply (oi_conv h HO).
  - split.
    + intros a. rewrite dual_before by done. apply (oi_irr h HO).
    + intros a b c. rewrite !dual_before by done. intros H1 H2. by eapply (oi_trans h HO).
Qed.
Lemma dual_IntervalCard h a b i :
  order_inv h → IntervalCard (dual h) a b i = IntervalCard h b a i.
Proof.
  intros HO. unfold IntervalCard, ev_le, Future, Past. rewrite !dual_prec, !dual_succ.
  assert (Hd : bool_decide (a ∈ succ h b) = bool_decide (b ∈ prec h a)).
  { apply bool_decide_ext. symmetry. apply (oi_conv h HO). }
  rewrite Hd. rewrite (bool_decide_ext (a = b) (b = a)) by done.
  replace (succ h b ∩ prec h a) with (prec h a ∩ succ h b) by set_solver.
  destruct (decide (a = b)), (decide (b = a)); try done; congruence.
Qed.
Lemma dual_past_number h S a :
  order_inv h → past_number h S a = (- future_number (dual h) S a)%Z.
Proof.
  intros HO. unfold past_number, future_number, Future, Past. rewrite dual_prec.
  destruct (decide (succ h a ∩ S = ∅)); [done|]. do 3 f_equal.
  apply max_of_ext. intros b Hb. by rewrite dual_IntervalCard.
Qed.
Lemma dual_PastOf h S b : PastOf h S b false = FutureOf (dual h) S b false.
Proof.
  apply set_eq. intros x. rewrite PastOf_spec, FutureOf_spec. setoid_rewrite dual_succ. done.
Qed.

(** * Layer numbers *)
Section order.
Context (h : heap) (HO : order_inv h).

Lemma future_number_spec S b n :
  future_number h S b = n ↔
    ((¬ ∃ a, a ∈ S ∧ before h a b) ∧ n = 0%Z) ∨
    ∃ m, n = (Z.of_nat m - 1)%Z ∧
      (∃ a, a ∈ S ∧ before h a b ∧ size (Interval h a b true) = m) ∧
      (∀ a, a ∈ S → before h a b → size (Interval h a b true) ≤ m).
Proof using HO.
  unfold future_number, Past. destruct (decide (prec h b ∩ S = ∅)) as [He|He].
  - assert (Hn : ¬ ∃ a, a ∈ S ∧ before h a b).
    { intros (a & Ha & Hb). unfold before in Hb. set_solver. }
    split; [intros <-; by left|]. intros [[_ ->]|(m & _ & (a & Ha & Hb & _) & _)]; [done|].
    destruct Hn. eauto.
  - set (M := max_of (λ a, IntervalCard h a b true) (prec h b ∩ S)).
    destruct (proj1 (max_of_spec (λ a, IntervalCard h a b true) _ M He) eq_refl)
      as [(a & Ha & Hm) Hu].
    assert (Hsp : ∀ m, M = m ↔
      (∃ a, a ∈ S ∧ before h a b ∧ size (Interval h a b true) = m) ∧
      (∀ a, a ∈ S → before h a b → size (Interval h a b true) ≤ m)).
    { intros m. unfold M. rewrite max_of_spec by done. split.
      - intros [(a' & [H1 H2]%elem_of_intersection & Hm') Hu']. split.
        + exists a'. rewrite <- IntervalCard_size by done. done.
        + intros c Hc Hcb. rewrite <- IntervalCard_size by done. apply Hu'.
          by apply elem_of_intersection.
      - intros [(a' & H1 & H2 & Hm') Hu']. split.
        + exists a'. rewrite IntervalCard_size by done. split; [|done].
          by apply elem_of_intersection.
        + intros c [Hc Hcb]%elem_of_intersection. rewrite IntervalCard_size by done. by apply Hu'. }
    split.
    + intros <-. right. exists M. split; [done|]. by apply Hsp.
    + intros [[Hn _]|(m & -> & Hm')].
      * destruct Hn. exists a. apply elem_of_intersection in Ha as [Ha1 Ha2]. done.
      * apply Hsp in Hm' as ->. done.
Qed.
Lemma future_number_nonneg S b : (0 <= future_number h S b)%Z.
Proof using HO.
  destruct (proj1 (future_number_spec S b _) eq_refl) as [[_ ->]|(m & -> & (a & _ & Hab & Hm) & _)];
    [done|].
  rewrite <- IntervalCard_size in Hm by done. pose proof (IntervalCard_lt2 h HO a b Hab). lia.
Qed.
Lemma future_number_pos S b :
  (0 < future_number h S b)%Z ↔ ∃ a, a ∈ S ∧ before h a b.
Proof using HO.
  destruct (proj1 (future_number_spec S b _) eq_refl) as [[Hn ->]|(m & -> & (a & Ha & Hab & Hm) & _)].
  - split; [lia|done].
  - split; [intros _; eauto|]. intros _.
    rewrite <- IntervalCard_size in Hm by done. pose proof (IntervalCard_lt2 h HO a b Hab). lia.
Qed.
Lemma future_number_grow S x y :
  x ∈ S → before h x y → (future_number h S x < future_number h S y)%Z.
Proof using HO.
  intros Hx Hxy.
  destruct (proj1 (future_number_spec S x _) eq_refl) as [[Hn ->]|(m & -> & (a & Ha & Hab & Hm) & _)].
  - apply future_number_pos. eauto.
  - assert (Hay : before h a y) by (by eapply (oi_trans h HO)).
    destruct (proj1 (future_number_spec S y _) eq_refl) as [[Hn ->]|(m' & -> & _ & Hu)].
    { destruct Hn. eauto. }
    specialize (Hu a Ha Hay). pose proof (IntervalCard_grow h HO a x y Hab Hxy).
    rewrite !IntervalCard_size in H by done. lia.
Qed.
End order.

(** * Heights *)
(** [x] has height [k]: the longest rising chain of events that ends in [x] has k steps. *)
Definition has_height (R : nat → nat → Prop) (x k : nat) : Prop :=
  (∃ l, rising R l ∧ last l = Some x ∧ length l = S k) ∧
  (∀ l, rising R l → last l = Some x → length l ≤ S k).

Fixpoint ht_fuel (n : nat) (h : heap) (x : nat) : nat :=
  match n with
  | O => 0
  | S n' => max_of (λ y, S (ht_fuel n' h y)) (prec h x)
  end.
Definition ht (h : heap) (x : nat) : nat := ht_fuel (size (prec h x)) h x.

Section heights.
Context (h : heap) (HO : order_inv h).
Notation R := (before h).

Lemma ht_fuel_enough n x : size (prec h x) ≤ n → ht_fuel n h x = ht h x.
Proof using HO.
  revert x. induction n as [n IH] using lt_wf_ind. intros x Hn.
  unfold ht. destruct n as [|n].
  { by replace (size (prec h x)) with 0 by lia. }
  destruct (size (prec h x)) as [|m] eqn:E.
  - cbn [ht_fuel]. apply size_empty_inv, leibniz_equiv in E. by rewrite E.
  - cbn [ht_fuel]. apply max_of_ext. intros y Hy. f_equal.
    assert (Hlt : size (prec h y) < size (prec h x)) by (by apply prec_smaller).
    rewrite (IH n) by lia. symmetry. apply IH; lia.
Qed.
Lemma ht_unfold x : ht h x = max_of (λ y, S (ht h y)) (prec h x).
Proof using HO.
  rewrite <- (ht_fuel_enough (S (size (prec h x)))) by lia. cbn [ht_fuel].
  apply max_of_ext. intros y Hy. f_equal. apply ht_fuel_enough.
  pose proof (prec_smaller h HO y x Hy). lia.
Qed.
Lemma ht_lt x y : R x y → ht h x < ht h y.
Proof using HO.
  intros Hxy. rewrite (ht_unfold y). apply (max_of_ub (λ z, S (ht h z)) (prec h y) x). done.
Qed.
Lemma ht_pred x k : ht h x = S k → ∃ y, R y x ∧ ht h y = k.
Proof using HO.
  intros He. rewrite ht_unfold in He.
  destruct (decide (prec h x = ∅)) as [E|E]; [by rewrite E in He|].
  destruct (max_of_in (λ y, S (ht h y)) (prec h x) E) as (y & Hy & Hm).
  rewrite Hm in He. exists y. split; [done|lia].
Qed.
Lemma ht_below x k : k ≤ ht h x → ∃ y, (y = x ∨ R y x) ∧ ht h y = k.
Proof using HO.
  remember (ht h x) as n eqn:Hn. revert x Hn. induction n as [|n IH]; intros x Hn Hk.
  - exists x. split; [by left|lia].
  - destruct (decide (k = S n)) as [->|Hne]; [exists x; auto|].
    destruct (ht_pred x n) as (y & Hy & Hyn); [done|].
    destruct (IH y) as (z & Hz & Hzk); [done|lia|]. exists z. split; [|done]. right.
    destruct Hz as [->|Hz]; [done|by eapply (oi_trans h HO)].
Qed.
Lemma ht_chain x : ∃ l, rising R l ∧ last l = Some x ∧ length l = S (ht h x).
Proof using HO.
  remember (ht h x) as n eqn:Hn. revert x Hn. induction n as [|n IH]; intros x Hn.
  - exists [x]. done.
  - destruct (ht_pred x n) as (y & Hy & Hyn); [done|].
    destruct (IH y) as (l & H1 & H2 & H3); [done|]. exists (l ++ [x]). split_and!.
    + apply consecutive_snoc. split; [done|]. intros z Hz. rewrite H2 in Hz. by injection Hz as <-.
    + apply last_snoc.
    + rewrite app_length, H3. cbn. lia.
Qed.
Lemma ht_bound l x : rising R l → last l = Some x → length l ≤ S (ht h x).
Proof using HO.
  revert x. induction l as [|y l IH] using rev_ind; intros x Hr Hl; [done|].
  rewrite last_snoc in Hl. injection Hl as ->. apply consecutive_snoc in Hr as [H1 H2].
  rewrite app_length. cbn. destruct (last l) as [z|] eqn:E.
  - specialize (IH z H1 eq_refl). specialize (H2 z eq_refl). apply ht_lt in H2. lia.
  - apply last_None in E as ->. cbn. lia.
Qed.
Lemma ht_has_height x : has_height R x (ht h x).
Proof using HO. split; [apply ht_chain|]. intros l. apply ht_bound. Qed.
Lemma has_height_iff x k : has_height R x k ↔ ht h x = k.
Proof using HO.
  split; [|intros <-; apply ht_has_height].
  intros [(l & H1 & H2 & H3) Hu]. destruct (ht_chain x) as (l' & G1 & G2 & G3).
  specialize (Hu l' G1 G2). pose proof (ht_bound l x H1 H2). lia.
Qed.
Lemma ht_zero x : ht h x = 0 ↔ prec h x = ∅.
Proof using HO.
  split.
  - intros He. destruct (decide (prec h x = ∅)) as [|E]; [done|].
    apply set_choose_L in E as [y Hy]. apply ht_lt in Hy. lia.
  - intros E. rewrite ht_unfold, E. done.
Qed.

(** The next layer of the events of height k. *)
Lemma Layers_one S x :
  x ∈ Layers h S 1 None ↔
    (∃ a, a ∈ S ∧ R a x) ∧ (∀ a, a ∈ S → R a x → covers R a x).
Proof using HO.
  unfold Layers. cbn [default]. destruct (decide _) as [[He|He]|He]; [|lia|].
  - apply size_empty_inv, leibniz_equiv in He. subst. split; [set_solver|].
    intros [(a & Ha & _) _]. set_solver.
  - rewrite decide_False by lia. rewrite decide_True by lia.
    rewrite elem_of_union, elem_of_filter.
    replace (Z.max 1 0) with 1%Z by done. split.
    + intros [Hx|[[H1 H2] Hx]]; [by apply elem_of_empty in Hx|].
      assert (Hp : (0 < future_number h S x)%Z) by lia.
      apply future_number_pos in Hp; [|done]. split; [done|].
      destruct (proj1 (future_number_spec h HO S x _) eq_refl) as [[Hn _]|(m & Hm & _ & Hu)]; [done|].
      intros a Ha Hax. apply IntervalCard_covers; [done|done|].
      specialize (Hu a Ha Hax). rewrite <- IntervalCard_size in Hu by done.
      pose proof (IntervalCard_lt2 h HO a x Hax). lia.
    + intros [(a & Ha & Hax) Hall]. right.
      assert (Hone : future_number h S x = 1%Z).
      { apply future_number_spec; [done|]. right. exists 2. split; [done|].
        split.
        - exists a. split_and!; [done|done|]. rewrite <- IntervalCard_size by done.
          apply IntervalCard_covers; auto.
        - intros c Hc Hcx. rewrite <- IntervalCard_size by done.
          apply Nat.eq_le_incl, IntervalCard_covers; auto. }
      rewrite Hone. split; [lia|]. apply FutureOf_spec. left. exists a. split; [done|].
      by apply (oi_conv h HO).
Qed.
Lemma next_layer C k L :
  closed h C → (∀ x, x ∈ L ↔ x ∈ C ∧ ht h x = k) →
  ∀ x, x ∈ Layers h L 1 None ∩ C ↔ x ∈ C ∧ ht h x = S k.
Proof using HO.
  intros HC HL x. rewrite elem_of_intersection, Layers_one. split.
  - intros [[(a & Ha & Hax) Hall] Hx]. split; [done|].
    apply HL in Ha as [HaC Hak]. pose proof (ht_lt _ _ Hax).
    destruct (decide (ht h x = S k)) as [|Hne]; [done|]. exfalso.
    (* an event of height k+1 strictly below x, and one of height k below that *)
    destruct (ht h x) as [|n] eqn:En; [lia|].
    destruct (ht_pred x n En) as (z & Hzx & Hz).
    destruct (ht_below z (S k)) as (c & Hc & Hck); [lia|].
    assert (Hcx : R c x) by (destruct Hc as [->|Hc]; [done|by eapply (oi_trans h HO)]).
    destruct (ht_pred c k Hck) as (a' & Ha' & Hak').
    assert (Ha'x : R a' x) by (by eapply (oi_trans h HO)).
    assert (Ha'C : a' ∈ C) by (by apply (proj1 (HC x Hx))).
    destruct (Hall a') as [_ Hnc]; [by apply HL|done|]. apply Hnc. eauto.
  - intros [Hx Hk]. split; [|done]. split.
    + destruct (ht_pred x k Hk) as (a & Hax & Ha). exists a. split; [|done].
      apply HL. split; [|done]. by apply (proj1 (HC x Hx)).
    + intros a Ha Hax. split; [done|]. intros (c & Hac & Hcx).
      apply HL in Ha as [_ Ha]. apply ht_lt in Hac, Hcx. lia.
Qed.

Lemma layered_loop_spec C k L fuel :
  closed h C → (∀ x, x ∈ L ↔ x ∈ C ∧ ht h x = k) →
  (∀ x, x ∈ C → S (ht h x) < fuel + k) → 0 < fuel →
  ∃ l, layered_loop fuel h C 1 L = Ok l ∧
    (∀ T, T ∈ l → T ≠ ∅) ∧
    ∀ x i, (∃ T, l !! i = Some T ∧ x ∈ T) ↔ x ∈ C ∧ ht h x = k + i.
Proof using HO.
  intros HC. revert k L. induction fuel as [|fuel IH]; intros k L HL Hf H0; [lia|].
  cbn [layered_loop]. destruct (decide (L = ∅)) as [->|HLne].
  - exists []. split; [done|]. split; [intros T HT; by apply elem_of_nil in HT|].
    intros x i. split; [by intros (T & ? & _)|]. intros [Hx Hi].
    destruct (ht_below x k) as (y & Hy & Hyk); [lia|].
    exfalso. apply (not_elem_of_empty (C:=gset nat) y), HL. split; [|done].
    destruct Hy as [->|Hy]; [done|]. by apply (proj1 (HC x Hx)).
  - destruct (decide (fuel = 0)) as [->|Hfz].
    { exfalso. apply set_choose_L in HLne as [x [HxC Hx]%HL]. specialize (Hf x HxC). lia. }
    destruct (IH (S k) (Layers h L 1 None ∩ C)) as (l & Hl & H1 & H2).
    + by apply next_layer.
    + intros x Hx. specialize (Hf x Hx). lia.
    + lia.
    + rewrite Hl. exists (L :: l). split; [done|]. split.
      * intros T [->|HT]%elem_of_cons; [done|by apply H1].
      * intros x i. destruct i as [|i]; cbn.
        -- rewrite Nat.add_0_r, <- HL. split; [by intros (T & [= <-] & ?)|]. eauto.
        -- rewrite H2. by replace (S k + i) with (k + S i) by lia.
Qed.
End heights.

Lemma ht_lt_size h C x : order_inv h → closed h C → x ∈ C → ht h x < size C.
Proof.
  intros HO HC Hx. destruct (ht_chain h HO x) as (l & Hr & Hl & Hlen).
  assert (Hnd : NoDup l) by (eapply rising_nodup; [apply (oi_order h HO)|done]).
  assert (Hin : ∀ y, y ∈ l → y ∈ C).
  { intros y Hy. apply elem_of_list_lookup in Hy as [i Hi].
    destruct (decide (S i = length l)) as [He|He].
    - rewrite last_lookup, <- He in Hl. cbn in Hl. congruence.
    - assert (before h y x).
      { eapply (rising_pairs (before h) l i (pred (length l))); [|done|done| |].
        + intros ???. apply (oi_trans h HO). + by rewrite <- last_lookup.
        + apply lookup_lt_Some in Hi. lia. }
      by apply (proj1 (HC x Hx)). }
  assert (Hs : (list_to_set l : gset nat) ⊆ C).
  { intros y Hy%elem_of_list_to_set. by apply Hin. }
  apply subseteq_size in Hs. rewrite size_list_to_set in Hs by done. lia.
Qed.
Lemma layered_up h C :
  order_inv h → closed h C →
  ∃ l, layered h C false = Ok l ∧ (∀ T, T ∈ l → T ≠ ∅) ∧
    ∀ x i, (∃ T, l !! i = Some T ∧ x ∈ T) ↔ x ∈ C ∧ ht h x = i.
Proof.
  intros HO HC. unfold layered. apply (layered_loop_spec h HO C 0); try done.
  - intros x. rewrite PastInfOf_spec, ht_zero by done. split.
    + intros [Hx Hn]. split; [done|]. apply set_eq. intros y. split; [|set_solver].
      intros Hy. destruct Hn. exists y. split; [|done]. by apply (proj1 (HC x Hx)).
    + intros [Hx He]. split; [done|]. intros (y & _ & Hy). unfold before in Hy. set_solver.
  - intros x Hx. pose proof (ht_lt_size h C x HO HC Hx). lia.
  - lia.
Qed.
Lemma dual_Layers h S : order_inv h → Layers h S (-1) None = Layers (dual h) S 1 None.
Proof.
  intros HO. unfold Layers. cbn [default]. destruct (decide (size S = 0 ∨ (-1 < -1)%Z)) as [H|H].
  { destruct (decide (size S = 0 ∨ (1 < 1)%Z)) as [_|H']; [done|].
    destruct H'. destruct H; [by left|lia]. }
  rewrite (decide_False (P := size S = 0 ∨ (1 < 1)%Z)) by (intros [?|?]; [by apply H; left|lia]).
  rewrite (decide_True (P := (-1 <= 0)%Z)) by lia.
  rewrite (decide_False (P := (0 < -1)%Z)) by lia.
  rewrite (decide_False (P := (1 <= 0)%Z)) by lia.
  rewrite (decide_True (P := (0 < 1)%Z)) by lia.
  apply set_eq. intros x. rewrite !elem_of_union, !elem_of_filter, dual_PastOf, dual_past_number by done.
  assert (∀ z, (-1 <= - z ∧ - z <= Z.min 0 (-1))%Z ↔ (Z.max 1 0 <= z ∧ z <= 1)%Z) as -> by lia.
  set_solver.
Qed.
Lemma dual_layered h S : order_inv h → layered h S true = layered (dual h) S false.
Proof.
  intros HO. unfold layered.
  assert (He : FutureInfOf h S = PastInfOf (dual h) S).
  { unfold FutureInfOf, PastInfOf, Future, Past. apply set_eq. intros x.
    rewrite !elem_of_filter, dual_prec. done. }
  rewrite He. generalize (PastInfOf (dual h) S) (Datatypes.S (size S)).
  intros L n. revert L. induction n as [|n IH]; intros L; [done|]. cbn [layered_loop].
  destruct (decide (L = ∅)); [done|]. by rewrite dual_Layers, IH.
Qed.
Lemma dual_closed h C : closed h C → closed (dual h) C.
Proof. intros HC x Hx. rewrite dual_prec, dual_succ. destruct (HC x Hx). done. Qed.
Lemma rising_reverse (R : nat → nat → Prop) l : rising (λ a b, R b a) l → rising R (reverse l).
Proof.
  induction l as [|x l IH]; [done|]. unfold rising in *. rewrite consecutive_cons, reverse_cons.
  intros [H1 H2]. apply consecutive_snoc. split; [by apply IH|].
  intros y Hy. apply H1. rewrite last_reverse in Hy. done.
Qed.
Lemma layered_down h C :
  order_inv h → closed h C →
  ∃ l, layered h C true = Ok l ∧ (∀ T, T ∈ l → T ≠ ∅) ∧
    ∀ x i, (∃ T, l !! i = Some T ∧ x ∈ T) ↔ x ∈ C ∧ has_height (λ a b, before h b a) x i.
Proof.
  intros HO HC. rewrite dual_layered by done.
  destruct (layered_up (dual h) C) as (l & H1 & H2 & H3); [by apply dual_order|by apply dual_closed|].
  exists l. split_and!; [done|done|]. intros x i. rewrite H3.
  rewrite <- (has_height_iff (dual h)) by (by apply dual_order).
  assert (Hb : ∀ l, rising (before (dual h)) l ↔ rising (λ a b, before h b a) l).
  { intros k. split; apply consecutive_impl; intros a b; by rewrite dual_before. }
  unfold has_height. setoid_rewrite Hb. done.
Qed.

(** * Layers of an antichain *)
(** [x] has layer number [n] relative to the set [S]: 0 without relatives in S in the given
    direction, otherwise the largest size of an interval to an event of S minus 1, negative
    for the past of S. *)
Definition layer_number (h : heap) (S : gset nat) (x : nat) (n : Z) : Prop :=
  (x ∈ S ∧ n = 0%Z) ∨
  (∃ m, n = (Z.of_nat m - 1)%Z ∧
     (∃ a, a ∈ S ∧ before h a x ∧ size (Interval h a x true) = m) ∧
     (∀ a, a ∈ S → before h a x → size (Interval h a x true) ≤ m)) ∨
  (∃ m, n = (- (Z.of_nat m - 1))%Z ∧
     (∃ b, b ∈ S ∧ before h x b ∧ size (Interval h x b true) = m) ∧
     (∀ b, b ∈ S → before h x b → size (Interval h x b true) ≤ m)).

Lemma dual_Interval h a b :
  order_inv h → Interval (dual h) a b true = Interval h b a true.
Proof.
  intros HO. apply set_eq. intros x.
  rewrite !Interval_spec by (try apply dual_order; done). rewrite !dual_before by done.
  unfold before. naive_solver.
Qed.
Lemma past_number_spec h S a n :
  order_inv h →
  past_number h S a = n ↔
    ((¬ ∃ b, b ∈ S ∧ before h a b) ∧ n = 0%Z) ∨
    ∃ m, n = (- (Z.of_nat m - 1))%Z ∧
      (∃ b, b ∈ S ∧ before h a b ∧ size (Interval h a b true) = m) ∧
      (∀ b, b ∈ S → before h a b → size (Interval h a b true) ≤ m).
Proof.
  intros HO. rewrite dual_past_number by done.
  assert (H : ∀ z w : Z, (- z)%Z = w ↔ z = (- w)%Z) by lia. rewrite H.
  rewrite future_number_spec by (by apply dual_order).
  pose proof (λ a b, dual_before h a b HO) as Hdb. pose proof (λ a b, dual_Interval h a b HO) as Hdi.
  setoid_rewrite Hdb. setoid_rewrite Hdi.
  split.
  - intros [[H1 H2]|(m & H1 & H2)]; [left; split; [done|lia]|right; exists m; split; [lia|done]].
  - intros [[H1 H2]|(m & H1 & H2)]; [left; split; [done|lia]|right; exists m; split; [lia|done]].
Qed.
Lemma past_number_nonpos h S a : order_inv h → (past_number h S a <= 0)%Z.
Proof.
  intros HO. rewrite dual_past_number by done.
  pose proof (future_number_nonneg (dual h) (dual_order h HO) S a). lia.
Qed.
Lemma past_number_neg h S a :
  order_inv h → (past_number h S a < 0)%Z ↔ ∃ b, b ∈ S ∧ before h a b.
Proof.
  intros HO. rewrite dual_past_number by done.
  pose proof (future_number_pos (dual h) (dual_order h HO) S a) as H.
  pose proof (λ a b, dual_before h a b HO) as Hdb. setoid_rewrite Hdb in H. rewrite <- H. lia.
Qed.
Lemma past_number_grow h S x y :
  order_inv h → y ∈ S → before h x y → (past_number h S x < past_number h S y)%Z.
Proof.
  intros HO Hy Hxy. rewrite !dual_past_number by done.
  pose proof (future_number_grow (dual h) (dual_order h HO) S y x Hy) as H.
  rewrite dual_before in H by done. specialize (H Hxy). lia.
Qed.

Section antichain.
Context (h : heap) (HO : order_inv h) (S : gset nat).
Context (HS : ∀ a b, a ∈ S → b ∈ S → ¬ before h a b).

Lemma layer_number_present x n : x ∈ S → layer_number h S x n ↔ n = 0%Z.
Proof using HS.
  intros Hx. split; [|by left].
  intros [[_ ?]|[(m & _ & (a & Ha & Hb & _) & _)|(m & _ & (a & Ha & Hb & _) & _)]]; [done| |].
  - by destruct (HS a x).
  - by destruct (HS x a).
Qed.
Lemma layer_number_future x n :
  (∃ a, a ∈ S ∧ before h a x) → layer_number h S x n ↔ n = future_number h S x.
Proof using HO HS.
  intros (a & Ha & Hax). split.
  - intros [[Hx ->]|[H|(m & _ & (b & Hb & Hxb & _) & _)]].
    + by destruct (HS a x).
    + symmetry. apply future_number_spec; [done|]. by right.
    + destruct (HS a b Ha Hb). by eapply (oi_trans h HO).
  - intros ->. right. left.
    destruct (proj1 (future_number_spec h HO S x _) eq_refl) as [[Hn _]|H]; [|done].
    destruct Hn. eauto.
Qed.
Lemma layer_number_past x n :
  (∃ b, b ∈ S ∧ before h x b) → layer_number h S x n ↔ n = past_number h S x.
Proof using HO HS.
  intros (a & Ha & Hax). split.
  - intros [[Hx ->]|[(m & _ & (b & Hb & Hxb & _) & _)|H]].
    + by destruct (HS x a).
    + destruct (HS b a Hb Ha). by eapply (oi_trans h HO).
    + symmetry. apply past_number_spec; [done|]. by right.
  - intros ->. right. right.
    destruct (proj1 (past_number_spec h S x _ HO) eq_refl) as [[Hn _]|H]; [|done].
    destruct Hn. eauto.
Qed.
Lemma Layers_antichain first last x :
  x ∈ Layers h S first last ↔
    ∃ n, layer_number h S x n ∧ (first <= n)%Z ∧ (n <= default first last)%Z.
Proof using HO HS.
  unfold Layers. set (la := default first last). destruct (decide _) as [Hd|Hd].
  { split; [set_solver|]. intros (n & Hn & H1 & H2). exfalso. destruct Hd as [Hd|Hd]; [|lia].
    apply size_empty_inv, leibniz_equiv in Hd.
    destruct Hn as [[Hx _]|[(m & _ & (a & Ha & _) & _)|(m & _ & (a & Ha & _) & _)]]; set_solver. }
  assert (Hle : (first <= la)%Z) by (apply Znot_gt_le; intros ?; apply Hd; right; lia). clear Hd.
  rewrite elem_of_union. split.
  - intros [Hx|Hx].
    + destruct (decide (first <= 0)%Z) as [Hf|Hf]; [|set_solver].
      apply elem_of_filter in Hx as [[H1 H2] Hx]. apply PastOf_spec in Hx.
      destruct Hx as [(e & He & Hx)|[_ Hx]].
      * exists (past_number h S x). split; [apply layer_number_past; eauto|]. lia.
      * exists 0%Z. split; [by apply layer_number_present|].
        pose proof (past_number_neg h S x HO) as Hneg.
        assert (¬ (past_number h S x < 0)%Z) by (rewrite Hneg; intros (b & Hb & Hxb); by destruct (HS x b)).
        lia.
    + destruct (decide (0 < la)%Z) as [Hf|Hf]; [|set_solver].
      apply elem_of_filter in Hx as [[H1 H2] Hx]. apply FutureOf_spec in Hx.
      destruct Hx as [(e & He & Hx)|[_ Hx]].
      * exists (future_number h S x). apply (oi_conv h HO) in Hx.
        split; [apply layer_number_future; eauto|]. lia.
      * exists 0%Z. split; [by apply layer_number_present|].
        pose proof (future_number_pos h HO S x) as Hpos.
        assert (¬ (0 < future_number h S x)%Z) by (rewrite Hpos; intros (b & Hb & Hxb); by destruct (HS b x)).
        lia.
  - intros (n & Hn & H1 & H2).
    assert (Hcase : x ∈ S ∨ (∃ a, a ∈ S ∧ before h a x) ∨ (∃ b, b ∈ S ∧ before h x b)).
    { destruct Hn as [[Hx _]|[(m & _ & (a & Ha & ? & _) & _)|(m & _ & (a & Ha & ? & _) & _)]]; eauto 6. }
    destruct Hcase as [Hx|[Hx|Hx]].
    + apply layer_number_present in Hn as ->; [|done].
      left. rewrite decide_True by done. apply elem_of_filter. split.
      * replace (past_number h S x) with 0%Z; [lia|]. symmetry.
        apply past_number_spec; [done|]. left. split; [|done].
        intros (b & Hb & Hxb). by destruct (HS x b).
      * apply PastOf_spec. by right.
    + apply layer_number_future in Hn as ->; [|done]. right.
      pose proof (proj2 (future_number_pos h HO S x) Hx).
      rewrite decide_True by lia. apply elem_of_filter. split; [lia|].
      apply FutureOf_spec. left. destruct Hx as (a & Ha & Hax). exists a. split; [done|].
      by apply (oi_conv h HO).
    + apply layer_number_past in Hn as ->; [|done]. left.
      pose proof (proj2 (past_number_neg h S x HO) Hx).
      rewrite decide_True by lia. apply elem_of_filter. split; [lia|].
      apply PastOf_spec. left. done.
Qed.
End antichain.
