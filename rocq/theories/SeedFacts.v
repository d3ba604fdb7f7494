(** Independence of the iteration orders of Python sets (which depend on the seed of hash): the
    state after a call does not depend on the oracle.  Facts for C88. *)
From Verif Require Import Base Spec EventModel EventFacts DisjoinFacts History HistoryFacts EventProps Prop_Event CausetModel CausetFacts
  PyStr SpecBuild BuildModel BuildFacts MatrixFacts MergeFacts Prop_Build.
From Coq Require Import Reals Qreals Qabs Lqa Lra.
From Verif Require Import SpacetimeModel SpacetimeFacts Prop_Spacetime ShapeModel EmbedModel EmbedFacts Prop_Embed LibHistory LibFacts Prop_Library.
#[local] Open Scope nat_scope.

(** ** Equality of stores *)
Lemma heap_ext (h1 h2 : heap) : dom h1 = dom h2 → (∀ x, h1 !!! x = h2 !!! x) → h1 = h2.
Proof.
  intros Hd Hx. apply map_eq. intros i. specialize (Hx i). rewrite !lookup_total_alt in Hx.
  destruct (h1 !! i) as [e1|] eqn:E1, (h2 !! i) as [e2|] eqn:E2; cbn in Hx.
  - by subst.
  - apply (elem_of_dom_2 h1) in E1. rewrite Hd in E1. by apply not_elem_of_dom in E2.
  - apply (elem_of_dom_2 h2) in E2. rewrite <- Hd in E2. by apply not_elem_of_dom in E1.
  - done.
Qed.
(** With right caches, the caches follow from the order. *)
Lemma heap_eq (h1 h2 : heap) : dom h1 = dom h2 →
  (∀ x, lab h1 x = lab h2 x ∧ Base.coords h1 x = Base.coords h2 x ∧ Base.pos h1 x = Base.pos h2 x) →
  same_order h1 h2 → (∀ x, hasBeenLinked h1 x = hasBeenLinked h2 x) → link_inv h1 → link_inv h2 → h1 = h2.
Proof.
  intros Hd Hr Hs Hl L1 L2. apply heap_ext; [done|]. intros x.
  destruct (Hr x) as (R1 & R2 & R3). destruct (Hs x) as [S1 S2]. specialize (Hl x).
  assert (HB : ∀ a b, covers (before h2) a b ↔ covers (before h1) a b) by (intros; by apply same_order_covers).
  assert (HC : lprec h1 x = lprec h2 x ∧ lsucc h1 x = lsucc h2 x).
  { unfold hasBeenLinked in Hl.
    destruct (L1 x) as [[A1 A2]|(p1 & s1 & A1 & A2 & A3 & A4)], (L2 x) as [[B1 B2]|(p2 & s2 & B1 & B2 & B3 & B4)];
      rewrite A1, A2, B1, B2 in *; try done.
    split; f_equal; apply set_eq; intros y.
    - by rewrite A3, B3, HB.
    - by rewrite A4, B4, HB. }
  destruct HC as [C1 C2]. unfold lab, prec, succ, lprec, lsucc, Base.coords, Base.pos in *.
  destruct (h1 !!! x), (h2 !!! x). cbn in *. congruence.
Qed.

(** ** New events *)
Lemma new_event_seed it1 it2 l P F cs ps h : iter_ok it1 → iter_ok it2 → order_inv h → P ⊆ dom h → F ⊆ dom h →
  new_event it1 l P F cs ps h = new_event it2 l P F cs ps h.
Proof.
  intros H1 H2 HO HP HF.
  assert (E : (new_event it1 l P F cs ps h).1 = (new_event it2 l P F cs ps h).1).
  { apply heap_ext.
    - by rewrite !new_event_dom.
    - intros y. by rewrite !new_event_lookup. }
  unfold new_event in *. cbn [fst] in E. by rewrite E.
Qed.
Lemma alloc_seed it1 it2 l P h : iter_ok it1 → iter_ok it2 → order_inv h → P ⊆ dom h → alloc it1 l P h = alloc it2 l P h.
Proof. intros H1 H2 HO HP. apply new_event_seed; [by apply sub_ok|by apply sub_ok|done|done|apply empty_subseteq]. Qed.
Lemma alloc_list_seed it1 it2 args : iter_ok it1 → iter_ok it2 → ∀ h, order_inv h → (∀ l P, (l, P) ∈ args → P ⊆ dom h) →
  alloc_list it1 args h = alloc_list it2 args h.
Proof.
  intros H1 H2. induction args as [|[l P] args IH]; intros h HO HP; cbn [alloc_list]; [done|].
  assert (HP0 : P ⊆ dom h) by by apply (HP l), elem_of_list_here.
  rewrite (alloc_seed it1 it2) by done. destruct (alloc_grows it2 l P h H2 HO HP0) as [G _].
  destruct (alloc it2 l P h) as [h1 x]. cbn [fst] in G. rewrite IH; [done|by apply (grows_order h)|].
  intros l' P' Hin. transitivity (dom h); [by apply (HP l'), elem_of_list_further|by apply grows_dom].
Qed.

(** ** Constructors of causets *)
Lemma fromperm_seed it1 it2 fmt P : iter_ok it1 → iter_ok it2 → ∀ is evs h, order_inv h → (∀ x, x ∈ evs → x ∈ dom h) →
  (∀ i, i ∈ is → i ≤ length evs) → fromperm_loop it1 fmt P is evs h = fromperm_loop it2 fmt P is evs h.
Proof.
  intros H1 H2. induction is as [|i is IH]; intros evs h HO Hev Hi; cbn [fromperm_loop]; [done|].
  destruct (py_index P (Z.of_nat i + 1)) as [v|]; [|done].
  set (past := list_to_set _ : gset nat).
  assert (HP : past ⊆ dom h).
  { intros p Hp. unfold past in Hp. apply elem_of_list_to_set, elem_of_list_fmap in Hp as (j & -> & Hj).
    apply elem_of_list_filter in Hj as [_ Hj]. apply elem_of_seq in Hj.
    apply lookup_total_in; [done|]. specialize (Hi i (elem_of_list_here _ _)). lia. }
  rewrite (alloc_seed it1 it2) by done.
  destruct (alloc_grows it2 (fmt_label fmt (Z.of_nat i + 1)) past h H2 HO HP) as [G Hx].
  destruct (alloc it2 (fmt_label fmt (Z.of_nat i + 1)) past h) as [h1 x]. cbn [fst snd] in *.
  apply IH.
  - by apply (grows_order h).
  - intros y Hy. apply elem_of_list_lookup in Hy as [k Hk]. destruct (decide (i = k)) as [->|Hik].
    + destruct (decide (k < length evs)) as [Hl|Hl].
      * rewrite list_lookup_insert in Hk by done. by injection Hk as <-.
      * apply lookup_lt_Some in Hk. rewrite insert_length in Hk. lia.
    + rewrite list_lookup_insert_ne in Hk by done. apply (grows_dom _ _ G HO). apply Hev. by eapply elem_of_list_lookup_2.
  - intros k Hk. rewrite insert_length. apply Hi. by apply elem_of_list_further.
Qed.
Lemma FromPermutation_seed it1 it2 fmt P h : iter_ok it1 → iter_ok it2 → order_inv h →
  FromPermutation it1 fmt P h = FromPermutation it2 fmt P h.
Proof.
  intros H1 H2 HO. unfold FromPermutation. assert (He : (∅ : gset nat) ⊆ dom h) by apply empty_subseteq.
  rewrite (alloc_seed it1 it2) by done. destruct (alloc_grows it2 LNone ∅ h H2 HO He) as [G Hx].
  destruct (alloc it2 LNone ∅ h) as [h0 e0]. cbn [fst snd] in *.
  rewrite (fromperm_seed it1 it2 fmt P H1 H2); [done|by apply (grows_order h)| |].
  - intros x Hx'. apply elem_of_replicate in Hx' as [-> _]. done.
  - intros i Hi%elem_of_seq. rewrite replicate_length. lia.
Qed.
Lemma NewSimplex_seed it1 it2 d central h : iter_ok it1 → iter_ok it2 → order_inv h → NewSimplex it1 d central h = NewSimplex it2 d central h.
Proof.
  intros H1 H2 HO. unfold NewSimplex.
  assert (HA : ∀ l P, (l, P) ∈ (λ i, (LStr (str_of_nat i), ∅ : gset nat)) <$> seq 1 (Z.to_nat (d + 1)) → P ⊆ dom h).
  { intros l P (? & [= _ ->] & _)%elem_of_list_fmap. apply empty_subseteq. }
  rewrite (alloc_list_seed it1 it2) by done.
  destruct (alloc_list_grows it2 _ h H2 HO HA) as (G & Hx & _).
  destruct (alloc_list it2 _ h) as [h0 vs]. cbn [fst snd] in *.
  set (faces := k ← seq 2 (Z.to_nat (d - 1)); combinations vs k).
  assert (HF : ∀ faces st, order_inv st.1 → st.2 ⊆ dom st.1 →
    foldl (simplex_face it1) st faces = foldl (simplex_face it2) st faces ∧
    order_inv (foldl (simplex_face it2) st faces).1 ∧ (foldl (simplex_face it2) st faces).2 ⊆ dom (foldl (simplex_face it2) st faces).1).
  { clear - H1 H2. induction faces as [|fv faces IH]; intros [h E] HO HE; cbn [foldl]; [done|].
    cbn [simplex_face fst snd] in *.
    set (past := ⋃ _). assert (HP : past ⊆ dom h).
    { intros p Hp. unfold past in Hp. apply elem_of_union_list in Hp as (X & HX & Hp).
      apply elem_of_list_fmap in HX as (pf & -> & _). apply elem_of_filter in Hp as [_ Hp]. by apply HE. }
    rewrite (alloc_seed it1 it2) by done.
    destruct (alloc_grows it2 (LStr (face_label h fv)) past h H2 HO HP) as [G Hx].
    destruct (alloc it2 (LStr (face_label h fv)) past h) as [h1 x]. cbn [fst snd] in *.
    apply (IH (h1, {[x]} ∪ E)); cbn [fst snd].
    - by apply (grows_order h).
    - intros y [->%elem_of_singleton|Hy]%elem_of_union; [done|]. apply (grows_dom _ _ G HO). by apply HE. }
  destruct (HF faces (h0, list_to_set vs)) as (E1 & HO1 & HE1); cbn [fst snd].
  { by apply (grows_order h). } { intros x Hx'%elem_of_list_to_set. auto. }
  rewrite E1. destruct (foldl (simplex_face it2) (h0, list_to_set vs) faces) as [h1 E]. cbn [fst snd] in *.
  destruct (central && bool_decide (0 < d)%Z); [|done]. by rewrite (alloc_seed it1 it2).
Qed.
Lemma NewFence_seed it1 it2 len height closed h : iter_ok it1 → iter_ok it2 → order_inv h →
  NewFence it1 len height closed h = NewFence it2 len height closed h.
Proof.
  intros H1 H2 HO. unfold NewFence. destruct (decide _) as [_|Hn]; [done|].
  destruct (decide (len = 1)%Z) as [_|Hl1]; [by apply FromPermutation_seed|].
  assert (HA : ∀ l P, (l, P) ∈ (λ l, (LInt (Z.of_nat l), ∅ : gset nat)) <$> seq 1 (Z.to_nat len) → P ⊆ dom h).
  { intros l P (? & [= _ ->] & _)%elem_of_list_fmap. apply empty_subseteq. }
  rewrite (alloc_list_seed it1 it2) by done.
  destruct (alloc_list_grows it2 _ h H2 HO HA) as (G & Hx & Hl).
  destruct (alloc_list it2 _ h) as [h0 loop]. cbn [fst snd] in *. rewrite fmap_length, seq_length in Hl.
  assert (HF : ∀ hs loop E h, order_inv h → (∀ x, x ∈ loop → x ∈ dom h) → length loop = Z.to_nat len →
    fence_levels it1 closed (Z.to_nat len) hs loop E h = fence_levels it2 closed (Z.to_nat len) hs loop E h).
  { clear - H1 H2 Hn. induction hs as [|k hs IH]; intros loop E h HO Hx Hl; cbn [fence_levels]; [done|].
    assert (HR : ∀ l P, (l, P) ∈ fence_row closed (Z.to_nat len) k loop → P ⊆ dom h).
    { intros l P. unfold fence_row. intros (i & [= _ ->] & Hi%elem_of_seq)%elem_of_list_fmap.
      destruct (decide (i = 0)); [destruct closed|]; intros p Hp;
        repeat (apply elem_of_union in Hp as [Hp|Hp]); apply elem_of_singleton in Hp; subst p;
        (apply lookup_total_in; [done|lia]). }
    rewrite (alloc_list_seed it1 it2) by done.
    destruct (alloc_list_grows it2 _ h H2 HO HR) as (G & Hx2 & Hl2).
    destruct (alloc_list it2 (fence_row closed (Z.to_nat len) k loop) h) as [h1 next]. cbn [fst snd] in *.
    unfold fence_row in Hl2. rewrite fmap_length, seq_length in Hl2.
    apply IH; [by apply (grows_order h)|done|done]. }
  rewrite HF; [done|by apply (grows_order h)|done|done].
Qed.
Lemma FromPastMatrix_seed it1 it2 r c C h : iter_ok it1 → iter_ok it2 → order_inv h →
  FromPastMatrix it1 r c C h = FromPastMatrix it2 r c C h.
Proof.
  intros H1 H2 HO. unfold FromPastMatrix. destruct (decide (c < r)); [done|].
  rewrite (alloc_list_seed it1 it2); [done|done|done|done|].
  intros l P (? & [= _ ->] & _)%elem_of_list_fmap. apply empty_subseteq.
Qed.
Lemma FromTextFile_seed it1 it2 text p h : iter_ok it1 → iter_ok it2 → order_inv h →
  FromTextFile it1 text p h = FromTextFile it2 text p h.
Proof.
  intros H1 H2 HO. unfold FromTextFile. destruct (genfromtxt text) as [[| |M]|]; try done.
  destruct p; by apply FromPastMatrix_seed.
Qed.

(** ** Merging, adding, linking *)
Lemma merge_seed it1 it2 A B d h : iter_ok it1 → iter_ok it2 → link_inv h → A ⊆ dom h → B ⊆ dom h →
  (d = false → ∀ x, x ∈ A ∪ B → hasBeenLinked h x = false) → merge it1 A B d h = merge it2 A B d h.
Proof.
  intros H1 H2 HL HA HB Hno. unfold merge. destruct d; [done|]. specialize (Hno eq_refl).
  assert (E : merge_loop it1 A B h = merge_loop it2 A B h); [|by rewrite E].
  destruct (merge_loop_merged it1 A B h H1 HA HB) as [P1 S1 D1 N1 R1 O1].
  destruct (merge_loop_merged it2 A B h H2 HA HB) as [P2 S2 D2 N2 R2 O2].
  assert (HN : ∀ x, x ∈ A ∪ B → lprec h x = None ∧ lsucc h x = None).
  { intros x Hx. specialize (Hno x Hx). unfold hasBeenLinked in Hno.
    destruct (HL x) as [?|(p & s & E1 & E2 & _)]; [done|]. by rewrite E1, E2 in Hno. }
  apply heap_ext; [congruence|]. intros x. destruct (decide (x ∈ A ∪ B)) as [Hx|Hx].
  - destruct (HN x Hx) as [Z1 Z2]. destruct (N1 x Z1 Z2) as [M1 M2], (N2 x Z1 Z2) as [M3 M4].
    destruct (R1 x) as (Q1 & Q2 & Q3), (R2 x) as (Q4 & Q5 & Q6).
    assert (EP : prec (merge_loop it1 A B h) x = prec (merge_loop it2 A B h) x).
    { apply set_eq. intros y. by rewrite P1, P2, !iter_elem. }
    assert (ES : succ (merge_loop it1 A B h) x = succ (merge_loop it2 A B h) x).
    { apply set_eq. intros y. by rewrite S1, S2, !iter_elem. }
    unfold lab, prec, succ, lprec, lsucc, Base.coords, Base.pos in *.
    destruct (merge_loop it1 A B h !!! x), (merge_loop it2 A B h !!! x). cbn in *. congruence.
  - apply not_elem_of_union in Hx as [Ha Hb]. rewrite O1, O2; [done|rewrite iter_elem by done; done..].
Qed.
Lemma unlink_loop_seed l1 l2 h : NoDup l1 → NoDup l2 → (∀ x, x ∈ l1 ↔ x ∈ l2) → link_paired h → (∀ x, x ∈ l1 → x ∈ dom h) →
  (∀ x, x ∈ l1 → hasBeenLinked h x = true) → unlink_loop l1 h = unlink_loop l2 h.
Proof.
  intros N1 N2 Hl HP Hd Hk.
  assert (Hk1 : ∀ x, x ∈ l1 → lprec h x ≠ None) by (intros x Hx E; specialize (Hk x Hx); unfold hasBeenLinked in Hk; by rewrite E in Hk).
  destruct (unlink_loop_spec l1 h N1 HP) as (_ & _ & U1). destruct (unlink_loop_spec l2 h N2 HP) as (_ & _ & U2).
  destruct (U1 Hk1) as [E1 L1]. destruct U2 as [E2 L2]. { intros x Hx. apply Hk1. by apply Hl. }
  pose proof (unlink_loop_dom l1 h Hd) as D1. pose proof (unlink_loop_dom l2 h) as D2.
  assert (E : (unlink_loop l1 h).1 = (unlink_loop l2 h).1).
  { apply heap_ext.
    - rewrite D1, D2; [done|]. intros x Hx. apply Hd. by apply Hl.
    - intros y. rewrite L1, L2. destruct (decide (y ∈ l1)) as [Hy|Hy], (decide (y ∈ l2)) as [Hy'|Hy']; [done|by apply Hl in Hy|by apply Hl in Hy'|done]. }
  destruct (unlink_loop l1 h), (unlink_loop l2 h). cbn in *. congruence.
Qed.
Lemma unlink_causet_seed it1 it2 C h : iter_ok it1 → iter_ok it2 → unlink_causet it1 C h = unlink_causet it2 C h.
Proof.
  intros H1 H2. unfold unlink_causet.
  destruct (unlink_linked_loop_spec (it1 25 C) h (iter_nodup it1 25 C H1)) as (k1 & E1 & L1).
  destruct (unlink_linked_loop_spec (it2 25 C) h (iter_nodup it2 25 C H2)) as (k2 & E2 & L2).
  pose proof (unlink_linked_loop_dom (it1 25 C) h) as D1. pose proof (unlink_linked_loop_dom (it2 25 C) h) as D2.
  rewrite E1, E2 in *. cbn [fst] in *. f_equal. apply heap_ext; [congruence|]. intros y. rewrite L1, L2.
  destruct (decide (y ∈ it1 25 C ∧ _)) as [[G1 G2]|G1], (decide (y ∈ it2 25 C ∧ _)) as [[G3 G4]|G3]; try done; exfalso.
  - apply G3. split; [|done]. rewrite iter_elem in * by done. done.
  - apply G1. split; [|done]. rewrite iter_elem in * by done. done.
Qed.
Lemma link_causet_seed it1 it2 C h : iter_ok it1 → iter_ok it2 → order_inv h → C ⊆ dom h → closed h C →
  link_causet it1 C h = link_causet it2 C h.
Proof.
  intros H1 H2 HO HC Hcl.
  assert (Hlk : ∀ b a, b ∈ C → covers (before h) a b → a ∈ C ∨ ∃ s, lsucc h a = Some s).
  { intros b a Hb [Hab _]. left. exact (proj1 (Hcl b Hb) a Hab). }
  destruct (link_causet_ok it1 h C H1 (oi_conv h HO) HC Hlk) as (k1 & E1 & D1 & S1 & I1 & O1 & R1).
  destruct (link_causet_ok it2 h C H2 (oi_conv h HO) HC Hlk) as (k2 & E2 & D2 & S2 & I2 & O2 & R2).
  rewrite E1, E2. f_equal. apply heap_ext; [congruence|]. intros y.
  assert (HL : lprec k1 y = lprec k2 y ∧ lsucc k1 y = lsucc k2 y).
  { destruct (decide (y ∈ C)) as [Hy|Hy].
    - destruct (I1 y Hy) as [-> ->], (I2 y Hy) as [-> ->]. done.
    - destruct (O1 y Hy) as [-> ->], (O2 y Hy) as [-> ->]. done. }
  destruct HL as [L1 L2]. destruct (R1 y) as (Q1 & Q2 & Q3), (R2 y) as (Q4 & Q5 & Q6). destruct (S1 y) as [V1 V2], (S2 y) as [V3 V4].
  unfold lab, prec, succ, lprec, lsucc, Base.coords, Base.pos in *.
  destruct (k1 !!! y), (k2 !!! y). cbn in *. congruence.
Qed.

(** ** Embedded causets *)
Lemma create_events_seed it1 it2 fmt rows : iter_ok it1 → iter_ok it2 → ∀ u h,
  create_events it1 fmt u rows h = create_events it2 fmt u rows h.
Proof.
  intros H1 H2. induction rows as [|c rows IH]; intros u h; cbn [create_events]; [done|].
  rewrite !new_event_plain by by apply sub_ok. by rewrite IH.
Qed.
(** No two of the coordinates (of different events) are related in both directions. *)
Definition tie_free (caus : causality_fn) (h : heap) (C : gset nat) : Prop :=
  ∀ a b ca cb, a ∈ C → b ∈ C → a ≠ b → Coordinates h a = Ok ca → Coordinates h b = Ok cb →
    ¬ ((caus ca cb).1 = true ∧ (caus cb ca).1 = true).
Lemma relate_seed it1 it2 caus link C h : iter_ok it1 → iter_ok it2 → order_inv h → link_inv h → C ⊆ dom h → closed h C →
  (∀ x, x ∈ C → isEmbedded h x = true) → ordering caus (coordinates_of h C) → tie_free caus h C →
  relate it1 caus link C h = relate it2 caus link C h.
Proof.
  intros H1 H2 HO HL HC Hcl Hemb Hord Htie. pose proof (link_inv_paired h HL) as HP.
  set (crd := λ x, match Coordinates h x with Ok c => c | Err _ => [] end).
  assert (Hc : embedded h C crd).
  { intros x Hx. specialize (Hemb x Hx). unfold isEmbedded in Hemb. apply bool_decide_eq_true in Hemb. unfold crd, Coordinates.
    by destruct Hemb as [c ->]. }
  assert (HX : ∀ x, x ∈ C → coordinates_of h C (crd x)) by (intros x Hx; exists x; split; [done|by apply Hc]).
  destruct Hord as (le & Htr & Hdec).
  assert (Htr' : ∀ a b c, a ∈ C → b ∈ C → c ∈ C → le (crd a) (crd b) → le (crd b) (crd c) → le (crd a) (crd c)).
  { intros a b c Ha Hb Hc'. apply Htr; by apply HX. }
  assert (Hdec' : ∀ a b, a ∈ C → b ∈ C → decides caus le (crd a) (crd b)).
  { intros a b Ha Hb. apply Hdec; by apply HX. }
  assert (Hnt : ∀ a b, a ∈ C → b ∈ C → a ≠ b → le (crd a) (crd b) → ¬ le (crd b) (crd a)).
  { intros a b Ha Hb Hab L1 L2. apply (Htie a b (crd a) (crd b) Ha Hb Hab (Hc a Ha) (Hc b Hb)).
    split; [by apply (Hdec' a b)|by apply (Hdec' b a)]. }
  destruct (C50_partial_order it1 caus link h C crd le H1 HO HL HC Hcl Hc Htr' Hdec') as (k1 & E1 & HO1 & HL1 & T1).
  destruct (C50_partial_order it2 caus link h C crd le H2 HO HL HC Hcl Hc Htr' Hdec') as (k2 & E2 & HO2 & HL2 & T2).
  destruct (C50_relate it1 caus link h C crd H1 (oi_conv h HO) HP HC Hcl Hc) as (k & E & D1 & _ & _ & _ & Cl1 & _ & Hk1 & _ & O1 & R1).
  rewrite E1 in E. injection E as <-.
  destruct (C50_relate it2 caus link h C crd H2 (oi_conv h HO) HP HC Hcl Hc) as (k & E & D2 & _ & _ & _ & Cl2 & _ & Hk2 & _ & O2 & R2).
  rewrite E2 in E. injection E as <-.
  rewrite E1, E2. f_equal.
  assert (HT : ∀ a b, a ∈ C → b ∈ C → a ∈ prec k1 b ↔ a ∈ prec k2 b).
  { intros a b Ha Hb. specialize (T1 a b Ha Hb). specialize (T2 a b Ha Hb). unfold ev_lt in T1, T2. rewrite bool_decide_eq_true in T1, T2.
    rewrite T1, T2. destruct (decide (a = b)) as [->|Hab].
    - assert (NE : ∀ it, iter_ok it → ¬ earlier (it 31 C) b b).
      { intros it Hit (i & j & Hi & Hj & ?). assert (i = j) by (eapply NoDup_lookup; [by apply (iter_nodup it 31 C)|done|done]). lia. }
      pose proof (NE it1 H1). pose proof (NE it2 H2). tauto.
    - pose proof (Hnt a b Ha Hb Hab). tauto. }
  assert (HPr : ∀ x, prec k1 x = prec k2 x).
  { intros x. destruct (decide (x ∈ C)) as [Hx|Hx]; [|unfold prec; by rewrite O1, O2].
    apply set_eq. intros y. destruct (decide (y ∈ C)) as [Hy|Hy]; [by apply HT|].
    split; intros Hyx; exfalso; apply Hy; [apply (proj1 (Cl1 x Hx))|apply (proj1 (Cl2 x Hx))]; exact Hyx. }
  apply heap_eq; [congruence| | | |done|done].
  - intros x. destruct (R1 x) as (-> & -> & ->), (R2 x) as (-> & -> & ->). done.
  - intros x. split; [done|]. apply set_eq. intros y. rewrite <- (oi_conv k1 HO1), <- (oi_conv k2 HO2). by rewrite HPr.
  - intros x. destruct (decide (x ∈ C)) as [Hx|Hx]; [by rewrite Hk1, Hk2|]. unfold hasBeenLinked, lprec, lsucc. by rewrite O1, O2.
Qed.

(** [relabel]: the values in the chosen dimension. *)
Definition value_at (h : heap) (dim : Z) (x : nat) : res Q := res_bind (Coordinates h x) (λ c, py_nth c dim).
Lemma dim_values_err h dim l : (∃ x e, x ∈ l ∧ value_at h dim x = Err e) → ∃ e, dim_values h dim l = Err e.
Proof.
  induction l as [|a l IH]; intros (x & e & Hx & E); [by apply elem_of_nil in Hx|]. cbn [dim_values].
  destruct (Coordinates h a) as [c|e'] eqn:Ec; cbn [res_bind]; [|eauto].
  destruct (py_nth c dim) as [v|e'] eqn:Ev; cbn [res_bind]; [|eauto].
  apply elem_of_cons in Hx as [->|Hx].
  - unfold value_at in E. rewrite Ec in E. cbn [res_bind] in E. congruence.
  - destruct IH as [e' E']; [eauto|]. exists e'. by rewrite E'.
Qed.
Lemma dim_values_all h dim (f : nat → Q) l : (∀ x, x ∈ l → value_at h dim x = Ok (f x)) → dim_values h dim l = Ok (f <$> l).
Proof.
  induction l as [|a l IH]; intros H; [done|]. cbn [dim_values]. pose proof (H a (elem_of_list_here _ _)) as Ha. unfold value_at in Ha.
  destruct (Coordinates h a) as [c|]; [|done]. cbn [res_bind] in *. rewrite Ha. cbn [res_bind].
  rewrite IH; [done|]. intros x Hx. apply H. by apply elem_of_list_further.
Qed.
(** Two lists of the same elements that are sorted strictly are equal. *)
Lemma strict_sorted_unique (R : nat → nat → Prop) l1 : (∀ x y, R x y → R y x → False) →
  ∀ l2, NoDup l1 → NoDup l2 → (∀ x, x ∈ l1 ↔ x ∈ l2) →
  (∀ i j x y, l1 !! i = Some x → l1 !! j = Some y → i < j → R x y) →
  (∀ i j x y, l2 !! i = Some x → l2 !! j = Some y → i < j → R x y) → l1 = l2.
Proof.
  intros HR. induction l1 as [|a l1 IH]; intros [|b l2] N1 N2 Hl S1 S2.
  - done.
  - exfalso. apply (elem_of_nil b). apply Hl. apply elem_of_list_here.
  - exfalso. apply (elem_of_nil a). apply Hl. apply elem_of_list_here.
  - assert (Eab : a = b).
    { destruct (decide (a = b)) as [|Hab]; [done|exfalso].
      assert (Ha : a ∈ b :: l2) by (apply Hl, elem_of_list_here). apply elem_of_cons in Ha as [?|Ha]; [done|].
      assert (Hb : b ∈ a :: l1) by (apply Hl, elem_of_list_here). apply elem_of_cons in Hb as [?|Hb]; [congruence|].
      apply elem_of_list_lookup in Ha as [i Hi]. apply elem_of_list_lookup in Hb as [j Hj].
      apply (HR a b).
      - apply (S1 0 (S j)); [done|done|lia].
      - apply (S2 0 (S i)); [done|done|lia]. }
    subst b. apply NoDup_cons in N1 as [A1 N1]. apply NoDup_cons in N2 as [A2 N2]. f_equal.
    apply IH; [done|done| | |].
    + intros x. specialize (Hl x). rewrite !elem_of_cons in Hl. split; intros Hx.
      * destruct (proj1 Hl (or_intror Hx)) as [->|?]; done.
      * destruct (proj2 Hl (or_intror Hx)) as [->|?]; done.
    + intros i j x y Hi Hj Hij. apply (S1 (S i) (S j)); [done|done|lia].
    + intros i j x y Hi Hj Hij. apply (S2 (S i) (S j)); [done|done|lia].
Qed.
(** The events in the order of their values. *)
Lemma relabel_sorted argsort (desc : bool) (f : nat → Q) (l : list nat) : argsort_num_ok argsort → NoDup l →
  (∀ a b, a ∈ l → b ∈ l → a ≠ b → ¬ (f a == f b)%Q) →
  let idx := if desc then reverse (argsort (f <$> l)) else argsort (f <$> l) in
  let L := (λ i, l !!! i) <$> idx in
  L ≡ₚ l ∧ ∀ i j x y, L !! i = Some x → L !! j = Some y → i < j → if desc then (f y < f x)%Q else (f x < f y)%Q.
Proof.
  intros Has Hnd Hdis idx L. destruct (Has (f <$> l)) as [Hp Hs]. rewrite fmap_length in Hp.
  assert (Hp' : idx ≡ₚ seq 0 (length l)).
  { unfold idx. rewrite <- Hp. destruct desc; [apply reverse_Permutation|done]. }
  assert (HL : L ≡ₚ l).
  { unfold L. rewrite Hp'. clear. induction l as [|a l IH]; [done|]. cbn. f_equiv.
    rewrite <- seq_shift, <- list_fmap_compose. exact IH. }
  split; [done|]. intros i j x y Hi Hj Hij.
  assert (Hxy : x ≠ y).
  { intros ->. assert (i = j); [|lia]. eapply NoDup_lookup; [|done|done]. by rewrite HL. }
  assert (Hx : x ∈ l) by (rewrite <- HL; by eapply elem_of_list_lookup_2).
  assert (Hy : y ∈ l) by (rewrite <- HL; by eapply elem_of_list_lookup_2).
  unfold L in Hi, Hj. rewrite list_lookup_fmap in Hi, Hj.
  destruct (idx !! i) as [ki|] eqn:Eki; [|done]. destruct (idx !! j) as [kj|] eqn:Ekj; [|done]. cbn in Hi, Hj.
  injection Hi as Hi. injection Hj as Hj.
  assert (Hlt : ∀ k n, idx !! k = Some n → n < length l).
  { intros k n Hk. assert (Hin : n ∈ idx) by by eapply elem_of_list_lookup_2. rewrite Hp' in Hin. apply elem_of_seq in Hin. lia. }
  assert (Vi : (f <$> l) !! ki = Some (f x)).
  { rewrite list_lookup_fmap, (list_lookup_lookup_total_lt l ki) by by eapply Hlt. cbn. by rewrite Hi. }
  assert (Vj : (f <$> l) !! kj = Some (f y)).
  { rewrite list_lookup_fmap, (list_lookup_lookup_total_lt l kj) by by eapply Hlt. cbn. by rewrite Hj. }
  pose proof (Hdis x y Hx Hy Hxy) as Hne. unfold idx in Eki, Ekj. destruct desc.
  - pose proof (lookup_lt_Some _ _ _ Eki) as Hil. pose proof (lookup_lt_Some _ _ _ Ekj) as Hjl.
    rewrite reverse_length in Hil, Hjl. rewrite reverse_lookup in Eki, Ekj by lia.
    assert (HQ : (f y <= f x)%Q) by (apply (Hs (length (argsort (f <$> l)) - S j) (length (argsort (f <$> l)) - S i) kj ki); (done || lia)).
    apply Qle_lteq in HQ as [HQ|HQ]; [done|]. by symmetry in HQ.
  - assert (HQ : (f x <= f y)%Q) by (apply (Hs i j ki kj); (done || lia)).
    apply Qle_lteq in HQ as [HQ|HQ]; [done|]. done.
Qed.
Lemma relabel_seed it1 it2 argsort dim desc C h : iter_ok it1 → iter_ok it2 → argsort_num_ok argsort →
  (∀ a b va vb, a ∈ C → b ∈ C → a ≠ b → value_at h dim a = Ok va → value_at h dim b = Ok vb → ¬ (va == vb)%Q) →
  (relabel it1 argsort dim desc C h).1 = (relabel it2 argsort dim desc C h).1.
Proof.
  intros H1 H2 Has Hdis. unfold relabel.
  destruct (decide (Forall (λ x, match value_at h dim x with Ok _ => true | Err _ => false end = true) (elements C))) as [Hall|Hnot].
  2:{ apply not_Forall_Exists, Exists_exists in Hnot as (x & Hx & Hv); [|intros y; apply _].
      apply elem_of_elements in Hx.
      assert (HE : ∀ it, iter_ok it → ∃ e, dim_values h dim (it 32 C) = Err e).
      { intros it Hit. apply dim_values_err. exists x. cbn in Hv. destruct (value_at h dim x) as [v|e] eqn:Ev; [exfalso; by apply Hv|].
        exists e. split; [by apply iter_elem|done]. }
      destruct (HE it1 H1) as [e1 ->], (HE it2 H2) as [e2 ->]. done. }
  set (f := λ x, match value_at h dim x with Ok v => v | Err _ => 0%Q end).
  assert (Hf : ∀ x, x ∈ C → value_at h dim x = Ok (f x)).
  { intros x Hx. rewrite Forall_forall in Hall. specialize (Hall x). cbn in Hall. rewrite elem_of_elements in Hall. specialize (Hall Hx).
    unfold f. by destruct (value_at h dim x). }
  assert (HE : ∀ it, iter_ok it → dim_values h dim (it 32 C) = Ok (f <$> it 32 C)).
  { intros it Hit. apply dim_values_all. intros x Hx. apply Hf. by rewrite iter_elem in Hx. }
  rewrite (HE it1 H1), (HE it2 H2). cbn [fst]. f_equal.
  assert (HS : ∀ it, iter_ok it → ∀ a b, a ∈ it 32 C → b ∈ it 32 C → a ≠ b → ¬ (f a == f b)%Q).
  { intros it Hit a b Ha Hb Hab. rewrite iter_elem in Ha, Hb by done. by apply (Hdis a b); auto. }
  destruct (relabel_sorted argsort desc f (it1 32 C) Has (iter_nodup it1 32 C H1) (HS it1 H1)) as [P1 S1].
  destruct (relabel_sorted argsort desc f (it2 32 C) Has (iter_nodup it2 32 C H2) (HS it2 H2)) as [P2 S2].
  apply (strict_sorted_unique (λ x y, if desc then (f y < f x)%Q else (f x < f y)%Q)); [| | | |exact S1|exact S2].
  - intros x y A B. destruct desc; by apply (Qlt_irrefl (f x)); apply Qlt_trans with (f y).
  - rewrite P1. by apply iter_nodup.
  - rewrite P2. by apply iter_nodup.
  - intros x. rewrite P1, P2. by rewrite !iter_elem.
Qed.
