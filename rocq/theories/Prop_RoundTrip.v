(** Round trips of a whole causet through its matrices (C18, C19): a causet is written with
    PastMatrix / FutureMatrix / LinkPastMatrix / LinkFutureMatrix in the default order and a new
    causet is built from the matrix with FromPastMatrix / FromFutureMatrix. *)
From Verif Require Import Base Spec EventModel EventFacts History HistoryFacts PathFacts RankFacts
  EventProps CausetModel CausetFacts IntervalFacts SortFacts LayerFacts Prop_Event Prop_Causet
  Prop_CausetMore BuildModel BuildFacts Prop_Build.
From stdpp Require Import sorting.

(** ** C18: the copy is isomorphic to the original *)
Theorem C18_roundtrip (it it' : oracle) (argsort : argsort_t) (h : heap) (C : gset nat) :
  iter_ok it → iter_ok it' → argsort_ok argsort → order_inv h → link_inv h →
  (∀ x, x ∈ C → lab h x ≠ LNone) →
  ∃ l MP MF, linear_extension (before h) C l ∧
    PastMatrix it argsort h C = Ok MP ∧ FutureMatrix it argsort h C = Ok MF ∧
    (∃ h' evs, FromPastMatrix it' (size C) (size C) (mat_get MP) h = (h', evs, Ok (list_to_set evs)) ∧
       fresh_causet h h' evs ∧ length evs = size C ∧
       (∀ i j a b x y, l !! i = Some a → l !! j = Some b → evs !! i = Some x → evs !! j = Some y →
          before h' x y ↔ before h a b)) ∧
    (∃ h' evs, FromFutureMatrix it' (size C) (size C) (mat_get MF) h = (h', evs, Ok (list_to_set evs)) ∧
       fresh_causet h h' evs ∧ length evs = size C ∧
       (∀ i j a b x y, l !! i = Some a → l !! j = Some b → evs !! i = Some x → evs !! j = Some y →
          before h' x y ↔ before h a b)).
Proof.
  intros Hit Hit' Has HO HL Hlab.
  destruct (C25_default_order it argsort h C Hit Has HO HL Hlab)
    as (l & MP & MF & KP & KF & Hl & EP & EF & _ & _ & Hin & _ & _).
  assert (Hlen : length l = size C) by (by rewrite (proj1 Hl)).
  assert (Hget : ∀ i, i < size C → ∃ a, l !! i = Some a)
    by (intros i Hi; apply lookup_lt_is_Some_2; lia).
  assert (HmP : mat_order (size C) (mat_get MP)).
  { split.
    - intros i Hi. destruct (Hget i Hi) as [a Ha]. apply not_true_is_false.
      destruct (Hin i i a a Ha Ha) as (-> & _). exact (oi_irr h HO a).
    - intros i j k Hi Hj Hk. destruct (Hget i Hi) as [a Ha], (Hget j Hj) as [b Hb], (Hget k Hk) as [c Hc].
      destruct (Hin i j a b Ha Hb) as (-> & _), (Hin j k b c Hb Hc) as (-> & _), (Hin i k a c Ha Hc) as (-> & _).
      intros H1 H2. exact (oi_trans h HO c b a H2 H1). }
  assert (HmF : mat_order (size C) (mat_get MF)).
  { split.
    - intros i Hi. destruct (Hget i Hi) as [a Ha]. apply not_true_is_false.
      destruct (Hin i i a a Ha Ha) as (_ & -> & _). exact (oi_irr h HO a).
    - intros i j k Hi Hj Hk. destruct (Hget i Hi) as [a Ha], (Hget j Hj) as [b Hb], (Hget k Hk) as [c Hc].
      destruct (Hin i j a b Ha Hb) as (_ & -> & _), (Hin j k b c Hb Hc) as (_ & -> & _),
        (Hin i k a c Ha Hc) as (_ & -> & _).
      intros H1 H2. exact (oi_trans h HO a b c H1 H2). }
  exists l, MP, MF. split_and!; [done|done|done|..].
  - destruct (C18_FromPastMatrix it' h (size C) (mat_get MP) Hit' HO HL HmP)
      as (h' & evs & E & Hf & Hle & _ & Ho & _).
    exists h', evs. split_and!; [done|done|done|].
    intros i j a b x y Ha Hb Hx Hy. rewrite (Ho j i y x Hy Hx).
    by destruct (Hin j i b a Hb Ha) as (-> & _).
  - destruct (C18_FromFutureMatrix it' h (size C) (mat_get MF) Hit' HO HL HmF)
      as (h' & evs & E & Hf & Hle & _ & Ho & _).
    exists h', evs. split_and!; [done|done|done|].
    intros i j a b x y Ha Hb Hx Hy. rewrite (Ho i j x y Hx Hy).
    by destruct (Hin i j a b Ha Hb) as (_ & -> & _).
Qed.
Print Assumptions C18_roundtrip.

(** ** C19: the link matrices determine the order of a causet closed under Past and Future.
    In the copy [<] is the original order (the Future sets need not be, see
    C19_future_incomplete_refuted). *)
Lemma before_tc_links h l C K :
  order_inv h → link_inv h → linear_extension (before h) C l → closed h C →
  (∀ i j a b, l !! i = Some a → l !! j = Some b → K i j = true ↔ covers (before h) b a) →
  (∀ i j, size C ≤ i ∨ size C ≤ j → K i j = false) →
  ∀ i j a b, l !! i = Some a → l !! j = Some b →
    tc (λ u v, K u v = true) i j ↔ before h b a.
Proof.
  intros HO HL Hl Hcl Hin Hout.
  assert (Hlen : length l = size C) by (by rewrite (proj1 Hl)).
  assert (Hpos : ∀ c, c ∈ C → ∃ k, l !! k = Some c).
  { intros c Hc. apply elem_of_list_lookup_1. rewrite (proj1 Hl). by apply elem_of_elements. }
  assert (HC : ∀ k c, l !! k = Some c → c ∈ C).
  { intros k c Hk. apply elem_of_elements. rewrite <- (proj1 Hl). by eapply elem_of_list_lookup_2. }
  intros i j a b Hi Hj. split.
  - intros Ht. revert a Hi. induction Ht as [i j HK|i m j HK Ht IH]; intros a Hi.
    + by apply (Hin i j a b Hi Hj).
    + destruct (decide (m < size C)) as [Hm|Hm]; [|rewrite Hout in HK by (right; lia); done].
      destruct (lookup_lt_is_Some_2 l m) as [c Hc]; [lia|].
      apply (oi_trans h HO b c a); [by apply IH|]. by apply (Hin i m a c Hi Hc).
  - revert i a Hi. assert (Hwf : ∀ n i a, i < n → l !! i = Some a → before h b a → tc (λ u v, K u v = true) i j).
    { induction n as [|n IH]; intros i a Hin' Hi Hb; [lia|].
      destruct (last_link h HO b a Hb) as (p & Hp & Hpb).
      assert (HpC : p ∈ C). { exact (proj1 (Hcl a (HC _ _ Hi)) p (proj1 Hp)). }
      destruct (Hpos p HpC) as [k Hk].
      assert (HK : K i k = true) by (by apply (Hin i k a p Hi Hk)).
      destruct Hpb as [->|Hbp].
      - assert (Hkj : k = j); [|subst k; by apply tc_once].
        apply (NoDup_lookup l k j b); [|done|done]. rewrite (proj1 Hl). apply NoDup_elements.
      - apply tc_l with k; [done|]. apply (IH k p); [|done|done].
        pose proof (proj2 Hl k i p a Hk Hi (proj1 Hp)). lia. }
    intros i a Hi Hb. apply (Hwf (S i) i a); [lia|done|done].
Qed.
Theorem C19_link_roundtrip (it it' : oracle) (argsort : argsort_t) (h : heap) (C : gset nat) :
  iter_ok it → iter_ok it' → argsort_ok argsort → order_inv h → link_inv h → closed h C →
  (∀ x, x ∈ C → lab h x ≠ LNone) →
  ∃ l KP KF, linear_extension (before h) C l ∧
    LinkPastMatrix it argsort h C = Ok KP ∧ LinkFutureMatrix it argsort h C = Ok KF ∧
    (∃ h' evs, FromPastMatrix it' (size C) (size C) (mat_get KP) h = (h', evs, Ok (list_to_set evs)) ∧
       NoDup evs ∧ length evs = size C ∧
       (∀ i j a b x y, l !! i = Some a → l !! j = Some b → evs !! i = Some x → evs !! j = Some y →
          ev_lt h' x y = true ↔ ev_lt h a b = true)) ∧
    (∃ h' evs, FromFutureMatrix it' (size C) (size C) (mat_get KF) h = (h', evs, Ok (list_to_set evs)) ∧
       NoDup evs ∧ length evs = size C ∧
       (∀ i j a b x y, l !! i = Some a → l !! j = Some b → evs !! i = Some x → evs !! j = Some y →
          ev_lt h' x y = true ↔ ev_lt h a b = true)).
Proof.
  intros Hit Hit' Has HO HL Hcl Hlab.
  destruct (C25_default_order it argsort h C Hit Has HO HL Hlab)
    as (l & MP & MF & KP & KF & Hl & _ & _ & EP & EF & Hin & Hout & Htri).
  assert (Hlen : length l = size C) by (by rewrite (proj1 Hl)).
  assert (Hlt : ∀ a b, ev_lt h a b = true ↔ before h a b).
  { intros a b. unfold ev_lt. by rewrite bool_decide_eq_true. }
  assert (HP : ∀ i j a b, l !! i = Some a → l !! j = Some b →
            tc (λ u v, mat_get KP u v = true) i j ↔ before h b a).
  { apply (before_tc_links h l C (mat_get KP) HO HL Hl Hcl).
    - intros i j a b Ha Hb. exact (proj1 (proj2 (proj2 (Hin i j a b Ha Hb)))).
    - intros i j Hij. exact (proj1 (proj2 (proj2 (Hout i j Hij)))). }
  assert (HF : ∀ i j a b, l !! i = Some a → l !! j = Some b →
            tc (λ u v, mat_get KF v u = true) i j ↔ before h b a).
  { apply (before_tc_links h l C (λ u v, mat_get KF v u) HO HL Hl Hcl).
    - intros i j a b Ha Hb. exact (proj2 (proj2 (proj2 (Hin j i b a Hb Ha)))).
    - intros i j Hij. apply (Hout j i). tauto. }
  assert (HtF : ∀ i j, i < size C → mat_get KF j i = true → j < i).
  { intros i j _ HK. destruct (decide (j < i)) as [|Hn]; [done|].
    rewrite (proj2 (Htri j i ltac:(lia))) in HK. done. }
  assert (HtP : ∀ i j, i < size C → mat_get KP i j = true → j < i).
  { intros i j Hi HK. destruct (lookup_lt_is_Some_2 l i) as [a Ha]; [lia|].
    destruct (decide (j < size C)) as [Hj|Hj].
    - destruct (lookup_lt_is_Some_2 l j) as [b Hb]; [lia|].
      apply (proj2 Hl j i b a Hb Ha). apply (Hin i j a b Ha Hb) in HK. exact (proj1 HK).
    - destruct (Hout i j) as (_ & _ & H0 & _); [right; lia|]. rewrite HK in H0. done. }
  exists l, KP, KF. split_and!; [done|done|done|..].
  - destruct (C19_link_matrix_past it' h (size C) (mat_get KP) Hit' HO HL HtP) as (h' & evs & E & Hnd & Hle & Ho).
    exists h', evs. split_and!; [done|done|done|].
    intros i j a b x y Ha Hb Hx Hy. rewrite (Ho j i y x Hy Hx), (HP j i b a Hb Ha). by rewrite Hlt.
  - destruct (C19_link_matrix_past it' h (size C) (λ i j, mat_get KF j i) Hit' HO HL HtF)
      as (h' & evs & E & Hnd & Hle & Ho).
    exists h', evs. split_and!; [done|done|done|].
    intros i j a b x y Ha Hb Hx Hy. rewrite (Ho j i y x Hy Hx), (HF j i b a Hb Ha). by rewrite Hlt.
Qed.
Print Assumptions C19_link_roundtrip.


(** Without closure the links of the surrounding causet skip over missing events: the first and
    last event of a chain of three give an empty link matrix, so the copy has lost the relation. *)
Theorem C19_link_roundtrip_open_refuted :
  let C : gset nat := {[0; 2]} in
  order_inv demo ∧ link_inv demo ∧ (∀ x, x ∈ C → lab demo x ≠ LNone) ∧ ev_lt demo 0 2 = true ∧
  sortedByCausality it_reverse demo_argsort demo C false = Ok [0; 2] ∧
  LinkPastMatrix it_reverse demo_argsort demo C = Ok [[false; false]; [false; false]] ∧
  let r := FromPastMatrix it_reverse 2 2 (mat_get [[false; false]; [false; false]]) ∅ in
  snd r = Ok {[0; 1]} ∧ ev_lt (fst (fst r)) 0 1 = false.
Proof.
  intros C. split_and!; [apply demo_order|apply demo_link| |decide_vm|vm_compute; reflexivity|vm_compute; reflexivity|cbv zeta; split; decide_vm].
  assert (H : set_Forall (λ x, lab demo x ≠ LNone) C) by decide_vm. exact H.
Qed.
Print Assumptions C19_link_roundtrip_open_refuted.
Example C18_roundtrip_nonvacuous :
  iter_ok it_reverse ∧ argsort_ok demo_argsort ∧ order_inv demo ∧ link_inv demo ∧
  closed demo (dom demo) ∧ size (dom demo) = 4 ∧ ev_lt demo 0 2 = true ∧
  (∀ x, x ∈ dom demo → lab demo x ≠ LNone).
Proof.
  destruct C25_nonvacuous as (H1 & H2 & H3 & H4 & _).
  split; [exact H1|]. split; [exact H2|]. split; [exact H3|]. split; [exact H4|]. clear.
  split; [|split; [decide_vm|split; [decide_vm|]]].
  - assert (H : set_Forall (λ x, prec demo x ⊆ dom demo ∧ succ demo x ⊆ dom demo) (dom demo)) by decide_vm. exact H.
  - assert (H : set_Forall (λ x, lab demo x ≠ LNone) (dom demo)) by decide_vm. exact H.
Qed.
