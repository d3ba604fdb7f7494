(** Theorems about building causets step by step: equal (or mirrored) steps on causets with the same
    (or opposite) order give causets with the same (or opposite) order (C96). *)
From Verif Require Import Base Spec EventModel EventFacts History HistoryFacts PathFacts RankFacts
  EventProps Prop_Event CausetModel CausetFacts IntervalFacts SortFacts LayerFacts Prop_Causet Prop_CausetMore
  PyStr SpecBuild BuildModel BuildFacts Prop_Build PathsModel Prop_Paths Prop_Iso Prop_Dual Prop_Reload.

(** The correspondence [f], extended to the new events [x] and [y]. *)
Definition extended (f : nat → nat) (x y : nat) : nat → nat := λ a, if decide (a = x) then y else f a.
Lemma extended_new f x y : extended f x y x = y.
Proof. unfold extended. by rewrite decide_True. Qed.
Lemma extended_old f x y a : a ≠ x → extended f x y a = f a.
Proof. intros H. unfold extended. by rewrite decide_False. Qed.

(** The order after the constructor call, and that the causet with the new event is closed. *)
Lemma new_event_step it h l (P F : gset nat) cs ps C :
  iter_ok it → order_inv h → closed h C → C ⊆ dom h → P ⊆ C → F ⊆ C →
  let h' := fst (new_event it l P F cs ps h) in let x := snd (new_event it l P F cs ps h) in
  x ∉ C ∧ closed h' (C ∪ {[x]}) ∧
  (∀ a b, a ∈ C → b ∈ C → before h' a b ↔ before h a b) ∧ ¬ before h' x x ∧
  (∀ a, a ∈ C → (before h' a x ↔ ∃ e, e ∈ P ∧ (a = e ∨ before h a e)) ∧ (before h' x a ↔ ∃ e, e ∈ F ∧ (a = e ∨ before h e a))).
Proof.
  intros Hit HO Hcl HC HP HF h' x.
  assert (HPd : P ⊆ dom h) by set_solver. assert (HFd : F ⊆ dom h) by set_solver.
  destruct (C03_ctor_effect it h l P F cs ps Hit HO HPd HFd) as (Hx & _ & E1 & E2 & E3 & E4 & E5 & _). fold h' x in Hx, E1, E2, E3, E4, E5.
  assert (HxC : x ∉ C) by set_solver.
  assert (Hne : ∀ a, a ∈ C → a ≠ x) by (intros a Ha ->; done).
  assert (H1 : ∀ a, before h' a x ↔ ∃ e, e ∈ P ∧ (a = e ∨ before h a e)).
  { intros a. unfold before. change (prec h' x) with (Past h' x). rewrite E1. unfold PresentOrPast. split.
    - intros (e & He & Ha). exists e. split; [done|]. apply elem_of_union in Ha as [Ha|Ha]; [right|left]; set_solver.
    - intros (e & He & Ha). exists e. split; [done|]. destruct Ha as [->|Ha]; set_solver. }
  assert (H2 : ∀ a, a ∈ Future h' x ↔ ∃ e, e ∈ F ∧ (a = e ∨ before h e a)).
  { intros a. rewrite E2. unfold PresentOrFuture. split.
    - intros (e & He & Ha). exists e. split; [done|]. rewrite <- (oi_conv h HO e a) || idtac. apply elem_of_union in Ha as [Ha|Ha].
      + right. unfold before. apply (oi_conv h HO). done.
      + left. by apply elem_of_singleton in Ha.
    - intros (e & He & Ha). exists e. split; [done|]. apply elem_of_union. destruct Ha as [->|Ha]; [right; by apply elem_of_singleton|left].
      apply (oi_conv h HO). exact Ha. }
  split; [done|]. split.
  { intros b Hb. apply elem_of_union in Hb as [Hb|Hb%elem_of_singleton].
    - destruct (Hcl b Hb) as [Q1 Q2]. split; intros a Ha; apply elem_of_union; (destruct (decide (a = x)) as [->|Hax]; [right; by apply elem_of_singleton|left]).
      + apply Q1. by apply (E5 a b Hax (Hne b Hb)).
      + apply Q2. by apply (E5 a b Hax (Hne b Hb)).
    - subst b. split; intros a Ha; apply elem_of_union; left.
      + apply H1 in Ha as (e & He & [->|Ha]); [by apply HP|]. destruct (Hcl e (HP e He)) as [Q _]. by apply Q.
      + apply H2 in Ha as (e & He & [->|Ha]); [by apply HF|]. destruct (Hcl e (HF e He)) as [_ Q]. apply Q. by apply (oi_conv h HO). }
  split; [intros a b Ha Hb; apply (E5 a b); by apply Hne|]. split.
  { intros (e & He & [E|Hb])%H1; [by rewrite E in HxC; apply HxC, HP|]. destruct (Hcl e (HP e He)) as [Q _]. apply HxC. by apply Q. }
  intros a Ha. split; [apply H1|]. rewrite <- H2. symmetry. rewrite <- E4. done.
Qed.

(** A new event, with corresponding past and future. *)
Theorem C96_new_event (it1 it2 : oracle) (f : nat → nat) (h1 h2 : heap) (C1 C2 P F : gset nat)
    (l1 l2 : label) (c1 c2 p1 p2 : list Q) :
  iter_ok it1 → iter_ok it2 → order_inv h1 → order_inv h2 → C1 ⊆ dom h1 → C2 ⊆ dom h2 → P ⊆ C1 → F ⊆ C1 →
  let h1' := fst (new_event it1 l1 P F c1 p1 h1) in let x := snd (new_event it1 l1 P F c1 p1 h1) in
  (same_causet f h1 C1 h2 C2 →
   let h2' := fst (new_event it2 l2 (image f P) (image f F) c2 p2 h2) in
   let y := snd (new_event it2 l2 (image f P) (image f F) c2 p2 h2) in
   same_causet (extended f x y) h1' (C1 ∪ {[x]}) h2' (C2 ∪ {[y]})) ∧
  (opposite_causet f h1 C1 h2 C2 →
   let h2' := fst (new_event it2 l2 (image f F) (image f P) c2 p2 h2) in
   let y := snd (new_event it2 l2 (image f F) (image f P) c2 p2 h2) in
   opposite_causet (extended f x y) h1' (C1 ∪ {[x]}) h2' (C2 ∪ {[y]})).
Proof.
  intros Hi1 Hi2 HO1 HO2 HC1 HC2 HP HF h1' x. split.
  - intros [Hi Hs Hb Hc1 Hc2] h2' y.
    assert (Him : ∀ a, a ∈ C1 → f a ∈ C2) by (intros a Ha; apply Hs; eauto).
    assert (HP2 : image f P ⊆ C2) by (intros z (a & Ha & <-)%image_elem; auto).
    assert (HF2 : image f F ⊆ C2) by (intros z (a & Ha & <-)%image_elem; auto).
    destruct (new_event_step it1 h1 l1 P F c1 p1 C1 Hi1 HO1 Hc1 HC1 HP HF) as (X1 & K1 & O1 & N1 & R1). fold h1' x in X1, K1, O1, N1, R1.
    destruct (new_event_step it2 h2 l2 (image f P) (image f F) c2 p2 C2 Hi2 HO2 Hc2 HC2 HP2 HF2) as (X2 & K2 & O2 & N2 & R2). fold h2' y in X2, K2, O2, N2, R2.
    clearbody h1' x h2' y.
    assert (Hne : ∀ a, a ∈ C1 → a ≠ x) by (intros a Ha ->; done).
    assert (Hold : ∀ a, a ∈ C1 → extended f x y a = f a) by (intros a Ha; apply extended_old; auto).
    split; [| | |exact K1|exact K2].
    + intros a b [Ha|Ha%elem_of_singleton]%elem_of_union [Hb'|Hb'%elem_of_singleton]%elem_of_union; subst; rewrite ?extended_new, ?Hold by done; intros E.
      * auto.
      * exfalso. apply X2. rewrite <- E. auto.
      * exfalso. apply X2. rewrite E. auto.
      * done.
    + intros z. rewrite elem_of_union, elem_of_singleton, Hs. split.
      * intros [(a & Ha & <-)| ->]; [exists a|exists x]; rewrite elem_of_union, elem_of_singleton; [rewrite Hold by done; auto|rewrite extended_new; auto].
      * intros (a & [Ha|Ha%elem_of_singleton]%elem_of_union & <-); [left; exists a; by rewrite Hold|right; subst; by rewrite extended_new].
    + intros a b [Ha|Ha%elem_of_singleton]%elem_of_union [Hb'|Hb'%elem_of_singleton]%elem_of_union; subst; rewrite ?extended_new, ?Hold by done.
      * rewrite O1, O2 by auto. auto.
      * rewrite (proj1 (R1 a Ha)), (proj1 (R2 (f a) (Him a Ha))). split.
        -- intros (e & He & E). exists (f e). split; [apply image_elem; eauto|]. destruct E as [->|E]; [by left|right; apply Hb; auto].
        -- intros (e' & (e & He & <-)%image_elem & E). exists e. split; [done|]. destruct E as [E|E]; [left; apply Hi; auto|right; apply Hb; auto].
      * rewrite (proj2 (R1 b Hb')), (proj2 (R2 (f b) (Him b Hb'))). split.
        -- intros (e & He & E). exists (f e). split; [apply image_elem; eauto|]. destruct E as [->|E]; [by left|right; apply Hb; auto].
        -- intros (e' & (e & He & <-)%image_elem & E). exists e. split; [done|]. destruct E as [E|E]; [left; apply Hi; auto|right; apply Hb; auto].
      * tauto.
  - intros [Hi Hs Hb Hc1 Hc2] h2' y.
    assert (Him : ∀ a, a ∈ C1 → f a ∈ C2) by (intros a Ha; apply Hs; eauto).
    assert (HP2 : image f P ⊆ C2) by (intros z (a & Ha & <-)%image_elem; auto).
    assert (HF2 : image f F ⊆ C2) by (intros z (a & Ha & <-)%image_elem; auto).
    destruct (new_event_step it1 h1 l1 P F c1 p1 C1 Hi1 HO1 Hc1 HC1 HP HF) as (X1 & K1 & O1 & N1 & R1). fold h1' x in X1, K1, O1, N1, R1.
    destruct (new_event_step it2 h2 l2 (image f F) (image f P) c2 p2 C2 Hi2 HO2 Hc2 HC2 HF2 HP2) as (X2 & K2 & O2 & N2 & R2). fold h2' y in X2, K2, O2, N2, R2.
    clearbody h1' x h2' y.
    assert (Hne : ∀ a, a ∈ C1 → a ≠ x) by (intros a Ha ->; done).
    assert (Hold : ∀ a, a ∈ C1 → extended f x y a = f a) by (intros a Ha; apply extended_old; auto).
    split; [| | |exact K1|exact K2].
    + intros a b [Ha|Ha%elem_of_singleton]%elem_of_union [Hb'|Hb'%elem_of_singleton]%elem_of_union; subst; rewrite ?extended_new, ?Hold by done; intros E.
      * auto.
      * exfalso. apply X2. rewrite <- E. auto.
      * exfalso. apply X2. rewrite E. auto.
      * done.
    + intros z. rewrite elem_of_union, elem_of_singleton, Hs. split.
      * intros [(a & Ha & <-)| ->]; [exists a|exists x]; rewrite elem_of_union, elem_of_singleton; [rewrite Hold by done; auto|rewrite extended_new; auto].
      * intros (a & [Ha|Ha%elem_of_singleton]%elem_of_union & <-); [left; exists a; by rewrite Hold|right; subst; by rewrite extended_new].
    + intros a b [Ha|Ha%elem_of_singleton]%elem_of_union [Hb'|Hb'%elem_of_singleton]%elem_of_union; subst; rewrite ?extended_new, ?Hold by done.
      * rewrite O1, O2 by auto. auto.
      * rewrite (proj1 (R1 a Ha)), (proj2 (R2 (f a) (Him a Ha))). split.
        -- intros (e & He & E). exists (f e). split; [apply image_elem; eauto|]. destruct E as [->|E]; [by left|right; apply Hb; auto].
        -- intros (e' & (e & He & <-)%image_elem & E). exists e. split; [done|]. destruct E as [E|E]; [left; apply Hi; auto|right; apply Hb; auto].
      * rewrite (proj2 (R1 b Hb')), (proj1 (R2 (f b) (Him b Hb'))). split.
        -- intros (e & He & E). exists (f e). split; [apply image_elem; eauto|]. destruct E as [->|E]; [by left|right; apply Hb; auto].
        -- intros (e' & (e & He & <-)%image_elem & E). exists e. split; [done|]. destruct E as [E|E]; [left; apply Hi; auto|right; apply Hb; auto].
      * tauto.
Qed.
Print Assumptions C96_new_event.

(** Merging corresponding causets: the first below the second, and mirrored the second below the first. *)
Theorem C96_merge (it1 it2 : oracle) (f : nat → nat) (h1 h2 : heap) (A1 B1 A2 B2 : gset nat) (disjoint : bool) :
  iter_ok it1 → iter_ok it2 → order_inv h1 → order_inv h2 →
  A1 ⊆ dom h1 → B1 ⊆ dom h1 → A2 ⊆ dom h2 → B2 ⊆ dom h2 → A1 ## B1 → A2 ## B2 →
  (same_causet f h1 A1 h2 A2 → same_causet f h1 B1 h2 B2 →
   ∃ h1' h2', merge it1 A1 B1 disjoint h1 = (h1', Ok (A1 ∪ B1)) ∧ merge it2 A2 B2 disjoint h2 = (h2', Ok (A2 ∪ B2)) ∧
     same_causet f h1' (A1 ∪ B1) h2' (A2 ∪ B2)) ∧
  (opposite_causet f h1 A1 h2 A2 → opposite_causet f h1 B1 h2 B2 →
   ∃ h1' h2', merge it1 A1 B1 disjoint h1 = (h1', Ok (A1 ∪ B1)) ∧ merge it2 B2 A2 disjoint h2 = (h2', Ok (B2 ∪ A2)) ∧
     opposite_causet f h1' (A1 ∪ B1) h2' (B2 ∪ A2)).
Proof.
  intros Hi1 Hi2 HO1 HO2 HA1 HB1 HA2 HB2 Hd1 Hd2.
  assert (Hclosed : ∀ it h A B, iter_ok it → order_inv h → A ⊆ dom h → B ⊆ dom h → A ## B → closed h A → closed h B →
    ∃ h', merge it A B disjoint h = (h', Ok (A ∪ B)) ∧ closed h' (A ∪ B) ∧
      (∀ x y, before h' x y ↔ before h x y ∨ (disjoint = false ∧ x ∈ A ∧ y ∈ B))).
  { intros it h A B Hit HO HA HB Hd HcA HcB. destruct disjoint.
    - exists h. split; [by apply C21_merge_disjoint|]. split.
      + intros x [Hx|Hx]%elem_of_union; [destruct (HcA x Hx) as [P Q]|destruct (HcB x Hx) as [P Q]]; split; intros y Hy; apply elem_of_union; auto.
      + intros x y. naive_solver.
    - destruct (C21_merge it h A B Hit HO HA HB Hd HcA HcB) as (h' & E & HO' & _ & Hb & _). exists h'. split; [done|]. split.
      + intros x Hx. split; intros y Hy.
        * apply Hb in Hy as [Hy|[Hy _]]; [|by apply elem_of_union_l].
          apply elem_of_union in Hx as [Hx|Hx]; [apply elem_of_union_l, (proj1 (HcA x Hx))|apply elem_of_union_r, (proj1 (HcB x Hx))]; done.
        * apply (oi_conv h' HO') in Hy. apply Hb in Hy as [Hy|[_ Hy]]; [|by apply elem_of_union_r].
          apply (oi_conv h HO) in Hy.
          apply elem_of_union in Hx as [Hx|Hx]; [apply elem_of_union_l, (proj2 (HcA x Hx))|apply elem_of_union_r, (proj2 (HcB x Hx))]; done.
      + intros x y. rewrite Hb. naive_solver. }
  (* no relation crosses two disjoint closed sets *)
  assert (Hno : ∀ h A B x y, closed h A → A ## B → order_inv h → (x ∈ A ∧ y ∈ B ∨ x ∈ B ∧ y ∈ A) → ¬ before h x y).
  { intros h A B x y Hc Hd HO [[Hx Hy]|[Hx Hy]] Hb.
    - apply (Hd y); [|done]. destruct (Hc x Hx) as [_ Q]. apply Q. by apply (oi_conv h HO).
    - apply (Hd x); [|done]. destruct (Hc y Hy) as [Q _]. by apply Q. }
  split.
  - intros [I1 S1 O1 K1 K1'] [I2 S2 O2 K2 K2'].
    destruct (Hclosed it1 h1 A1 B1 Hi1 HO1 HA1 HB1 Hd1 K1 K2) as (h1' & E1 & C1 & R1).
    destruct (Hclosed it2 h2 A2 B2 Hi2 HO2 HA2 HB2 Hd2 K1' K2') as (h2' & E2 & C2 & R2).
    exists h1', h2'. split; [done|]. split; [done|].
    assert (MA : ∀ a, a ∈ A1 → f a ∈ A2) by (intros a Ha; apply S1; eauto).
    assert (MB : ∀ a, a ∈ B1 → f a ∈ B2) by (intros a Ha; apply S2; eauto).
    assert (Hx1 : ∀ a, a ∈ A1 → a ∈ B1 → False) by (intros a; apply Hd1).
    assert (Hx2 : ∀ a, a ∈ A2 → a ∈ B2 → False) by (intros a; apply Hd2).
    split; [| | |done|done].
    + intros a b [Ha|Ha]%elem_of_union [Hb|Hb]%elem_of_union E; [by apply I1| | |by apply I2]; exfalso.
      * apply (Hx2 (f a)); [auto|rewrite E; auto].
      * apply (Hx2 (f b)); [auto|rewrite <- E; auto].
    + intros z. rewrite elem_of_union, S1, S2. split; [intros [(a & Ha & <-)|(a & Ha & <-)]; exists a; rewrite elem_of_union; auto|].
      intros (a & [Ha|Ha]%elem_of_union & <-); [left|right]; eauto.
    + intros a b Ha Hb. rewrite R1, R2.
      assert (Hbef : before h1 a b ↔ before h2 (f a) (f b)).
      { apply elem_of_union in Ha as [Ha|Ha], Hb as [Hb|Hb]; [by apply O1| | |by apply O2].
        - split; intros H; exfalso; [apply (Hno h1 A1 B1 a b); auto|apply (Hno h2 A2 B2 (f a) (f b)); auto].
        - split; intros H; exfalso; [apply (Hno h1 A1 B1 a b); auto|apply (Hno h2 A2 B2 (f a) (f b)); auto]. }
      rewrite Hbef. apply elem_of_union in Ha as [Ha|Ha], Hb as [Hb|Hb];
        assert (HMa := Ha); assert (HMb := Hb); (apply MA in HMa || apply MB in HMa); (apply MA in HMb || apply MB in HMb); split; (intros [H|(H & H' & H'')]; [by left|]); try (right; by auto); exfalso; eauto.
  - intros [I1 S1 O1 K1 K1'] [I2 S2 O2 K2 K2'].
    destruct (Hclosed it1 h1 A1 B1 Hi1 HO1 HA1 HB1 Hd1 K1 K2) as (h1' & E1 & C1 & R1).
    destruct (Hclosed it2 h2 B2 A2 Hi2 HO2 HB2 HA2 (symmetry Hd2) K2' K1') as (h2' & E2 & C2 & R2).
    exists h1', h2'. split; [done|]. split; [done|].
    assert (MA : ∀ a, a ∈ A1 → f a ∈ A2) by (intros a Ha; apply S1; eauto).
    assert (MB : ∀ a, a ∈ B1 → f a ∈ B2) by (intros a Ha; apply S2; eauto).
    assert (Hx1 : ∀ a, a ∈ A1 → a ∈ B1 → False) by (intros a; apply Hd1).
    assert (Hx2 : ∀ a, a ∈ A2 → a ∈ B2 → False) by (intros a; apply Hd2).
    split; [| | |done|done].
    + intros a b [Ha|Ha]%elem_of_union [Hb|Hb]%elem_of_union E; [by apply I1| | |by apply I2]; exfalso.
      * apply (Hx2 (f a)); [auto|rewrite E; auto].
      * apply (Hx2 (f b)); [auto|rewrite <- E; auto].
    + intros z. rewrite elem_of_union, S1, S2. split; [intros [(a & Ha & <-)|(a & Ha & <-)]; exists a; rewrite elem_of_union; auto|].
      intros (a & [Ha|Ha]%elem_of_union & <-); [right|left]; eauto.
    + intros a b Ha Hb. rewrite R1, R2.
      assert (Hbef : before h1 a b ↔ before h2 (f b) (f a)).
      { apply elem_of_union in Ha as [Ha|Ha], Hb as [Hb|Hb]; [by apply O1| | |by apply O2].
        - split; intros H; exfalso; [apply (Hno h1 A1 B1 a b); auto|apply (Hno h2 A2 B2 (f b) (f a)); auto].
        - split; intros H; exfalso; [apply (Hno h1 A1 B1 a b); auto|apply (Hno h2 A2 B2 (f b) (f a)); auto]. }
      rewrite Hbef. apply elem_of_union in Ha as [Ha|Ha], Hb as [Hb|Hb];
        assert (HMa := Ha); assert (HMb := Hb); (apply MA in HMa || apply MB in HMa); (apply MA in HMb || apply MB in HMb); split; (intros [H|(H & H' & H'')]; [by left|]); try (right; by auto); exfalso; eauto.
Qed.
Print Assumptions C96_merge.

(** Removing corresponding events from the order: the causets stay the same, or opposite. *)
Theorem C96_disjoin (it1 it2 : oracle) (f : nat → nat) (h1 h2 : heap) (C1 C2 : gset nat) (x : nat) :
  iter_ok it1 → iter_ok it2 → order_inv h1 → order_inv h2 → C1 ⊆ dom h1 → C2 ⊆ dom h2 → x ∈ C1 →
  hasBeenLinked h1 x = true → hasBeenLinked h2 (f x) = true →
  let h1' := fst (disjoin it1 h1 x) in let h2' := fst (disjoin it2 h2 (f x)) in
  (same_causet f h1 C1 h2 C2 → same_causet f h1' C1 h2' C2 ∧ same_causet f h1' (C1 ∖ {[x]}) h2' (C2 ∖ {[f x]})) ∧
  (opposite_causet f h1 C1 h2 C2 → opposite_causet f h1' C1 h2' C2 ∧ opposite_causet f h1' (C1 ∖ {[x]}) h2' (C2 ∖ {[f x]})).
Proof.
  intros Hi1 Hi2 HO1 HO2 HC1 HC2 Hx L1 L2 h1' h2'.
  assert (Hstep : ∀ it h C z, iter_ok it → order_inv h → C ⊆ dom h → z ∈ C → hasBeenLinked h z = true → closed h C →
    let h' := fst (disjoin it h z) in
    closed h' C ∧ closed h' (C ∖ {[z]}) ∧ ∀ a b, before h' a b ↔ before h a b ∧ a ≠ z ∧ b ≠ z).
  { intros it h C z Hit HO HC Hz HL Hcl h'.
    destruct (C05_disjoin_linked it h z Hit HO (HC z Hz) HL) as (_ & _ & EP & EF & Er & _ & HO'). fold h' in EP, EF, Er, HO'.
    assert (Hb : ∀ a b, before h' a b ↔ before h a b ∧ a ≠ z ∧ b ≠ z).
    { intros a b. change (before h' a b) with (a ∈ Past h' b). destruct (decide (b = z)) as [->|Hbz].
      - rewrite EP. split; [by intros ?%elem_of_empty|tauto].
      - destruct (Er b Hbz) as [-> _]. rewrite elem_of_difference, elem_of_singleton. unfold before, Past. tauto. }
    assert (Hf : ∀ a b, b ∈ succ h' a → before h' a b) by (intros a b; apply (oi_conv h' HO')).
    split; [|split; [|done]].
    - intros b Hb'. destruct (Hcl b Hb') as [Q1 Q2]. split; intros a Ha.
      + apply Hb in Ha as [Ha _]. by apply Q1.
      + apply Hf, Hb in Ha as [Ha _]. apply Q2. by apply (oi_conv h HO).
    - intros b [Hb' Hn]%elem_of_difference. destruct (Hcl b Hb') as [Q1 Q2]. split; intros a Ha; apply elem_of_difference; rewrite elem_of_singleton.
      + apply Hb in Ha as (Ha & Hz' & _). split; [by apply Q1|done].
      + apply Hf, Hb in Ha as (Ha & _ & Hz'). split; [|done]. apply Q2. by apply (oi_conv h HO). }
  split; intros [I S O K K'];
    (assert (Hfx : f x ∈ C2) by (apply S; eauto));
    destruct (Hstep it1 h1 C1 x Hi1 HO1 HC1 Hx L1 K) as (A1 & A2 & A3);
    destruct (Hstep it2 h2 C2 (f x) Hi2 HO2 HC2 Hfx L2 K') as (B1 & B2 & B3); fold h1' in A1, A2, A3; fold h2' in B1, B2, B3;
    clearbody h1' h2';
    (assert (Hinj : ∀ a, a ∈ C1 → f a = f x ↔ a = x) by (intros a Ha; split; [by apply I|by intros ->])).
  - split; split; try done.
    + intros a b Ha Hb. rewrite A3, B3, (O a b Ha Hb). pose proof (Hinj a Ha). pose proof (Hinj b Hb). tauto.
    + intros a b [Ha _]%elem_of_difference [Hb _]%elem_of_difference. by apply I.
    + intros y. rewrite elem_of_difference, elem_of_singleton, S. split.
      * intros ((a & Ha & <-) & Hn). exists a. rewrite elem_of_difference, elem_of_singleton. split; [|done]. split; [done|by intros ->].
      * intros (a & [Ha Hn]%elem_of_difference & <-). rewrite elem_of_singleton in Hn. split; [eauto|]. by rewrite Hinj.
    + intros a b [Ha _]%elem_of_difference [Hb _]%elem_of_difference. rewrite A3, B3, (O a b Ha Hb). pose proof (Hinj a Ha). pose proof (Hinj b Hb). tauto.
  - split; split; try done.
    + intros a b Ha Hb. rewrite A3, B3, (O a b Ha Hb). pose proof (Hinj a Ha). pose proof (Hinj b Hb). tauto.
    + intros a b [Ha _]%elem_of_difference [Hb _]%elem_of_difference. by apply I.
    + intros y. rewrite elem_of_difference, elem_of_singleton, S. split.
      * intros ((a & Ha & <-) & Hn). exists a. rewrite elem_of_difference, elem_of_singleton. split; [|done]. split; [done|by intros ->].
      * intros (a & [Ha Hn]%elem_of_difference & <-). rewrite elem_of_singleton in Hn. split; [eauto|]. by rewrite Hinj.
    + intros a b [Ha _]%elem_of_difference [Hb _]%elem_of_difference. rewrite A3, B3, (O a b Ha Hb). pose proof (Hinj a Ha). pose proof (Hinj b Hb). tauto.
Qed.
Print Assumptions C96_disjoin.

(** The theorems apply: the mirrored diamond with a tail, extended by an event above its bottom, and
    the stores of two separate causets. *)
Example C96_nonvacuous :
  order_inv hook ∧ order_inv koob ∧ opposite_causet to_koob hook {[0; 1; 2; 3]} koob {[0; 1; 2; 3]} ∧
  ({[0; 1; 2; 3]} : gset nat) ⊆ dom hook ∧ ({[0; 1; 2; 3]} : gset nat) ⊆ dom koob ∧
  (let h' := fst (new_event it_elements (LInt 9) {[1]} ∅ [] [] hook) in Past h' 4 = {[0; 1]}) ∧
  (let h' := fst (new_event it_reverse (LInt 9) ∅ {[1]} [] [] koob) in Future h' 4 = {[1; 3]}) ∧
  hasBeenLinked demo 1 = true ∧
  (order_inv two ∧ ({[0; 1]} : gset nat) ⊆ dom two ∧ ({[2]} : gset nat) ⊆ dom two ∧ ({[0; 1]} : gset nat) ## {[2]} ∧
   same_causet id two {[0; 1]} two {[0; 1]} ∧ same_causet id two {[2]} two {[2]}).
Proof.
  destruct C93_nonvacuous as (H1 & _ & H3 & _ & H5 & _). destruct C21_nonvacuous as (N1 & N2 & N3 & N4 & N5 & N6).
  assert (Hid : ∀ S, closed two S → same_causet id two S two S).
  { intros S HS. split; [by intros ????| | |done|done]; [|by intros]. intros y. split; [intros Hy; by exists y|by intros (x & Hx & <-)]. }
  split; [done|]. split; [done|]. split; [done|]. split; [decide_vm|]. split; [decide_vm|]. split; [decide_vm|]. split; [decide_vm|]. split; [by vm_compute|].
  split_and!; auto.
Qed.
