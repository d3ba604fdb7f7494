(** Facts about the query methods of Causet (CausetModel). *)
From Verif Require Import Base Spec EventModel EventFacts CausetModel.
From stdpp Require Import sorting.

Lemma set_subseteq_size_eq (A B : gset nat) : A ⊆ B → size B ≤ size A → A = B.
Proof.
  intros Hs Hle. apply set_eq. intros x. split; [apply Hs|]. intros Hx.
  destruct (decide (x ∈ A)) as [|Hn]; [done|].
  assert (Hlt : size A < size B); [|lia]. apply subset_size. split; [done|].
  intros Hb. by apply Hn, Hb.
Qed.

(** * Unions over sets *)
Lemma foldl_union_spec (f : nat → gset nat) l acc x :
  x ∈ foldl (λ acc e, acc ∪ f e) acc l ↔ x ∈ acc ∨ ∃ e, e ∈ l ∧ x ∈ f e.
Proof.
  revert acc. induction l as [|e l IH]; intros acc; cbn [foldl].
  - split; [by left|]. intros [?|(e & He & _)]; [done|]. by apply elem_of_nil in He.
  - rewrite IH, elem_of_union. split.
    + intros [[?|?]|(e' & ? & ?)]; [by left| |]; right; eexists; (split; [|done]);
        [apply elem_of_list_here|by apply elem_of_list_further].
    + intros [?|(e' & [->|?]%elem_of_cons & ?)]; [by left; left|by left; right|].
      right. eauto.
Qed.
Lemma foldl_inter_empty (f : nat → gset nat) l :
  foldl (λ acc e, acc ∩ f e) ∅ l = (∅ : gset nat).
Proof.
  induction l as [|e l IH]; [done|]. cbn [foldl].
  by rewrite (intersection_empty_l_L (f e)).
Qed.
Lemma PastOf_spec h S b x :
  x ∈ PastOf h S b false ↔ (∃ e, e ∈ S ∧ x ∈ prec h e) ∨ (b = true ∧ x ∈ S).
Proof.
  unfold PastOf. rewrite andb_false_r. cbn [andb].
  assert (H : x ∈ foldl (λ acc e, acc ∪ Past h e) ∅ (elements S) ↔ ∃ e, e ∈ S ∧ x ∈ prec h e).
  { rewrite foldl_union_spec. setoid_rewrite elem_of_elements. unfold Past.
    split; [by intros [?%elem_of_empty|?]|by right]. }
  destruct b.
  - rewrite elem_of_union, H. split; intros [?|?]; auto. right. tauto.
  - rewrite H. split; [auto|]. intros [?|[? _]]; done.
Qed.
Lemma FutureOf_spec h S b x :
  x ∈ FutureOf h S b false ↔ (∃ e, e ∈ S ∧ x ∈ succ h e) ∨ (b = true ∧ x ∈ S).
Proof.
  unfold FutureOf. rewrite andb_false_r. cbn [andb].
  assert (H : x ∈ foldl (λ acc e, acc ∪ Future h e) ∅ (elements S) ↔ ∃ e, e ∈ S ∧ x ∈ succ h e).
  { rewrite foldl_union_spec. setoid_rewrite elem_of_elements. unfold Future.
    split; [by intros [?%elem_of_empty|?]|by right]. }
  destruct b.
  - rewrite elem_of_union, H. split; intros [?|?]; auto. right. tauto.
  - rewrite H. split; [auto|]. intros [?|[? _]]; done.
Qed.
Lemma ConeOf_spec h S b x :
  x ∈ ConeOf h S b false ↔
    (∃ e, e ∈ S ∧ (x ∈ prec h e ∨ x ∈ succ h e)) ∨ (b = true ∧ x ∈ S).
Proof.
  unfold ConeOf. rewrite andb_false_r. cbn [andb].
  assert (H : x ∈ foldl (λ acc e, acc ∪ (Past h e ∪ Future h e)) ∅ (elements S) ↔
     ∃ e, e ∈ S ∧ (x ∈ prec h e ∨ x ∈ succ h e)).
  { rewrite foldl_union_spec. setoid_rewrite elem_of_elements. unfold Past, Future.
    setoid_rewrite elem_of_union.
    split; [by intros [?%elem_of_empty|?]|by right]. }
  destruct b.
  - rewrite elem_of_union, H. split; intros [?|?]; auto. right. tauto.
  - rewrite H. split; [auto|]. intros [?|[? _]]; done.
Qed.
Lemma intersect_empty h S b :
  PastOf h S b true = ∅ ∧ FutureOf h S b true = ∅ ∧ ConeOf h S b true = ∅.
Proof.
  unfold PastOf, FutureOf, ConeOf. destruct b; cbn [andb]; rewrite !foldl_inter_empty; done.
Qed.

(** * Causet(S) *)
Definition in_store (h : heap) : Prop := ∀ x, prec h x ⊆ dom h ∧ succ h x ⊆ dom h.
Lemma in_store_order h : order_inv h → in_store h.
Proof. intros HO x. split; [by apply prec_sub_dom|by apply succ_sub_dom]. Qed.
Definition touches (h : heap) (x y : nat) : Prop := y ∈ prec h x ∨ y ∈ succ h x.

Lemma ConeOf_super h S : S ⊆ ConeOf h S true false.
Proof. intros x Hx. apply ConeOf_spec. by right. Qed.
Lemma causet_loop_spec h S fuel :
  in_store h → size (S ∪ dom h) < fuel + size S →
  ∃ C, causet_loop fuel h S = Ok C ∧ ∀ x, x ∈ C ↔ ∃ s, s ∈ S ∧ rtc (touches h) s x.
Proof.
  intros Hin. revert S. induction fuel as [|fuel IH]; intros S Hf.
  { pose proof (subseteq_size S (S ∪ dom h) (union_subseteq_l _ _)). lia. }
  cbn [causet_loop]. pose proof (ConeOf_super h S) as Hsup.
  destruct (decide _) as [He|Hne].
  - eexists. split; [done|].
    assert (Heq : ConeOf h S true false = S).
    { symmetry. apply set_subseteq_size_eq; [done|lia]. }
    rewrite Heq. intros x. split.
    + intros Hx. exists x. split; [done|apply rtc_refl].
    + intros (s & Hs & Hr). induction Hr as [|s y z Hst Hr IH']; [done|].
      apply IH'. rewrite <- Heq. apply ConeOf_spec. left. exists s. done.
  - assert (Hlt : size S < size (ConeOf h S true false)).
    { pose proof (subseteq_size _ _ Hsup). lia. }
    assert (Hun : ConeOf h S true false ∪ dom h ⊆ S ∪ dom h).
    { intros x. rewrite !elem_of_union, ConeOf_spec.
      intros [[(e & _ & [Hx|Hx])|[_ ?]]|?]; [right|right|by left|by right].
      - by apply (proj1 (Hin e)). - by apply (proj2 (Hin e)). }
    pose proof (subseteq_size _ _ Hun).
    destruct (IH (ConeOf h S true false)) as (C & -> & HC); [lia|].
    exists C. split; [done|]. intros x. rewrite HC. split.
    + intros (s & Hs%ConeOf_spec & Hr). destruct Hs as [(e & He & Ht)|[_ Hs]].
      * exists e. split; [done|]. by eapply rtc_l.
      * by exists s.
    + intros (s & Hs & Hr). exists s. split; [by apply Hsup|done].
Qed.
Lemma causet_spec h S :
  in_store h →
  ∃ C, causet h S = Ok C ∧ ∀ x, x ∈ C ↔ ∃ s, s ∈ S ∧ rtc (touches h) s x.
Proof. intros Hin. apply causet_loop_spec; [done|lia]. Qed.
Lemma causet_closed h S : in_store h → closed h S → causet h S = Ok S.
Proof.
  intros Hin Hc. destruct (causet_spec h S Hin) as (C & HC & Hs). rewrite HC. f_equal.
  apply set_eq. intros x. rewrite Hs. split.
  - intros (s & Hs' & Hr). induction Hr as [|s y z Hst Hr IH']; [done|].
    apply IH'. destruct (Hc s Hs') as [H1 H2]. destruct Hst; [by apply H1|by apply H2].
  - intros Hx. exists x. split; [done|apply rtc_refl].
Qed.

(** * Chains and antichains *)
Lemma Cone_spec h (HO : order_inv h) e x : x ∈ Cone h e ↔ comparable (before h) x e.
Proof.
  unfold Cone, comparable, before. rewrite !elem_of_union, elem_of_singleton, <- (oi_conv h HO).
  tauto.
Qed.
Lemma forallb_elements (P : nat → bool) (S : gset nat) :
  forallb P (elements S) = true ↔ ∀ x, x ∈ S → P x = true.
Proof.
  rewrite forallb_forall. split.
  - intros H x Hx. apply H. apply elem_of_list_In, elem_of_elements, Hx.
  - intros H x Hx. apply H. apply elem_of_elements, elem_of_list_In, Hx.
Qed.
Lemma inter_full (A S : gset nat) : size (A ∩ S) = size S ↔ S ⊆ A.
Proof.
  split.
  - intros He. assert (H : A ∩ S = S); [|set_solver].
    apply set_subseteq_size_eq; [set_solver|lia].
  - intros H. f_equal. set_solver.
Qed.
Lemma isChain_some h C S :
  order_inv h →
  isChain h C (Some S) = true ↔ ∀ a b, a ∈ S → b ∈ S → comparable (before h) a b.
Proof.
  intros HO. cbn [isChain]. rewrite forallb_elements.
  setoid_rewrite bool_decide_eq_true. setoid_rewrite inter_full. split.
  - intros H a b Ha Hb. apply (Cone_spec h HO). by apply (H b Hb).
  - intros H b Hb a Ha. apply (Cone_spec h HO). by apply H.
Qed.
Lemma isAntichain_some h C S :
  order_inv h →
  isAntichain h C (Some S) = true ↔ ∀ a b, a ∈ S → b ∈ S → ¬ before h a b.
Proof.
  intros HO. cbn [isAntichain]. rewrite forallb_elements.
  setoid_rewrite bool_decide_eq_true. split.
  - intros H a b Ha Hb Hab. specialize (H b Hb).
    assert (Hne : a ≠ b) by (intros ->; by apply (oi_irr h HO b)).
    assert (Hs : ({[a; b]} : gset nat) ⊆ Cone h b ∩ S).
    { intros x [->%elem_of_singleton| ->%elem_of_singleton]%elem_of_union;
        (apply elem_of_intersection; split; [apply (Cone_spec h HO)|done]).
      - by right; left. - by left. }
    apply subseteq_size in Hs. rewrite size_union, !size_singleton in Hs by set_solver. lia.
  - intros H b Hb. assert (Heq : Cone h b ∩ S = {[b]}).
    { apply set_eq. intros x. rewrite elem_of_intersection, (Cone_spec h HO), elem_of_singleton.
      split.
      - intros [[->|[Hx|Hx]] HS]; [done| |]; exfalso; [exact (H x b HS Hb Hx)|exact (H b x Hb HS Hx)].
      - intros ->. split; [by left|done]. }
    by rewrite Heq, size_singleton.
Qed.
Lemma ConeCard_Cone h x : order_inv h → ConeCard h x = size (Cone h x).
Proof.
  intros HO. unfold ConeCard, Cone. rewrite !size_union.
  - rewrite size_singleton. lia.
  - pose proof (oi_irr h HO x). set_solver.
  - intros y [Hy|Hy]%elem_of_union Hs; apply (oi_conv h HO) in Hs.
    + by eapply (oi_asym h HO).
    + apply elem_of_singleton in Hy as ->. by apply (oi_irr h HO x).
Qed.
Lemma Cone_closed h C x : closed h C → x ∈ C → Cone h x ⊆ C.
Proof.
  intros Hc Hx. destruct (Hc x Hx). unfold Cone. set_solver.
Qed.
Lemma forallb_ext' (P Q : nat → bool) (S : gset nat) :
  (∀ x, x ∈ S → P x = Q x) → forallb P (elements S) = forallb Q (elements S).
Proof.
  intros H. assert (H' : ∀ x, x ∈ elements S → P x = Q x) by (intros; apply H; by apply elem_of_elements).
  clear H. induction (elements S) as [|x l IH]; [done|]. cbn [forallb].
  rewrite H' by apply elem_of_list_here. rewrite IH; [done|].
  intros; apply H'; by apply elem_of_list_further.
Qed.
Lemma isChain_none h C : order_inv h → closed h C → isChain h C None = isChain h C (Some C).
Proof.
  intros HO Hc. cbn [isChain]. apply forallb_ext'. intros x Hx.
  rewrite ConeCard_Cone by done. pose proof (Cone_closed h C x Hc Hx).
  replace (Cone h x ∩ C) with (Cone h x) by set_solver. done.
Qed.
Lemma isAntichain_none h C :
  order_inv h → closed h C → isAntichain h C None = isAntichain h C (Some C).
Proof.
  intros HO Hc. cbn [isAntichain]. apply forallb_ext'. intros x Hx.
  rewrite ConeCard_Cone by done. pose proof (Cone_closed h C x Hc Hx).
  replace (Cone h x ∩ C) with (Cone h x) by set_solver. done.
Qed.

(** * Infinities *)
Lemma PastInfOf_spec h S x :
  x ∈ PastInfOf h S ↔ x ∈ S ∧ ¬ ∃ y, y ∈ S ∧ before h y x.
Proof.
  unfold PastInfOf, Past, before. rewrite elem_of_filter. split.
  - intros [He Hx]. split; [done|]. intros (y & Hy & Hb). set_solver.
  - intros [Hx Hn]. split; [|done]. apply set_eq. intros y.
    rewrite elem_of_intersection. split; [|set_solver]. intros [? ?]. destruct Hn. eauto.
Qed.
Lemma FutureInfOf_spec h S x :
  order_inv h → x ∈ FutureInfOf h S ↔ x ∈ S ∧ ¬ ∃ y, y ∈ S ∧ before h x y.
Proof.
  intros HO. unfold FutureInfOf, Future, before. rewrite elem_of_filter. split.
  - intros [He Hx]. split; [done|]. intros (y & Hy & Hb). apply (oi_conv h HO) in Hb. set_solver.
  - intros [Hx Hn]. split; [|done]. apply set_eq. intros y.
    rewrite elem_of_intersection. split; [|set_solver]. intros [Hb ?].
    apply (oi_conv h HO) in Hb. destruct Hn. eauto.
Qed.
Lemma sum_ones (l : list nat) : sum_list ((λ _, 1) <$> l) = length l.
Proof. induction l; cbn; [done|]. unfold sum_list in IHl. f_equal. exact IHl. Qed.
Lemma filter_size (P : nat → Prop) `{∀ x, Decision (P x)} (S : gset nat) :
  length (filter P (elements S)) = size (filter P S).
Proof.
  unfold size at 1, set_size. cbn. apply Permutation_length.
  apply NoDup_Permutation.
  - apply NoDup_filter, NoDup_elements.
  - apply NoDup_elements.
  - intros x. rewrite elem_of_list_filter, !elem_of_elements, elem_of_filter. done.
Qed.
Lemma minimal_exists h (S : gset nat) :
  order_inv h → S ≠ ∅ → ∃ x, x ∈ S ∧ ¬ ∃ y, y ∈ S ∧ before h y x.
Proof.
  intros HO. remember (size S) as n eqn:Hn.
  revert S Hn. induction n as [n IH] using lt_wf_ind. intros S Hn HS.
  apply set_choose_L in HS as [x Hx].
  destruct (decide (prec h x ∩ S = ∅)) as [He|He].
  - exists x. split; [done|]. intros (y & Hy & Hb). unfold before in Hb. set_solver.
  - destruct (IH (size (prec h x ∩ S))) with (S := prec h x ∩ S) as (y & Hy & Hmin); [|done|done|].
    + rewrite Hn. apply subset_size. split; [set_solver|].
      intros Hs. apply (oi_irr h HO x). specialize (Hs x Hx). set_solver.
    + exists y. split; [set_solver|]. intros (z & Hz & Hb). apply Hmin. exists z.
      split; [|done]. apply elem_of_intersection. split; [|done].
      eapply (oi_trans h HO); [exact Hb|set_solver].
Qed.
Lemma maximal_exists h (S : gset nat) :
  order_inv h → S ≠ ∅ → ∃ x, x ∈ S ∧ ¬ ∃ y, y ∈ S ∧ before h x y.
Proof.
  intros HO. remember (size S) as n eqn:Hn.
  revert S Hn. induction n as [n IH] using lt_wf_ind. intros S Hn HS.
  apply set_choose_L in HS as [x Hx].
  destruct (decide (succ h x ∩ S = ∅)) as [He|He].
  - exists x. split; [done|]. intros (y & Hy & Hb). apply (oi_conv h HO) in Hb. set_solver.
  - destruct (IH (size (succ h x ∩ S))) with (S := succ h x ∩ S) as (y & Hy & Hmin); [|done|done|].
    + rewrite Hn. apply subset_size. split; [set_solver|].
      intros Hs. apply (oi_irr' h HO x). specialize (Hs x Hx). set_solver.
    + exists y. split; [set_solver|]. intros (z & Hz & Hb). apply Hmin. exists z.
      split; [|done]. apply elem_of_intersection. split; [|done].
      apply (oi_conv h HO) in Hb. eapply (oi_trans' h HO); [|exact Hb]. set_solver.
Qed.
