(** The order, labels, coordinates and positions of events depend neither on the iteration orders
    of Python sets nor on the link caches.  Facts for C88. *)
From Verif Require Import Base Spec EventModel EventFacts DisjoinFacts History HistoryFacts EventProps Prop_Event CausetModel CausetFacts
  PyStr SpecBuild BuildModel BuildFacts MatrixFacts MergeFacts Prop_Build.
From Coq Require Import Reals Qreals Qabs Lqa Lra.
From Verif Require Import SpacetimeModel SpacetimeFacts Prop_Spacetime ShapeModel EmbedModel EmbedFacts Prop_Embed LibHistory LibFacts Prop_Library
  SeedFacts.
#[local] Open Scope nat_scope.

(** An event without its link caches. *)
Definition plain (e : event) : event := set_lprec None (set_lsucc None e).
Definition alike (h1 h2 : heap) : Prop := dom h1 = dom h2 ∧ ∀ x, plain (h1 !!! x) = plain (h2 !!! x).
Lemma alike_refl h : alike h h. Proof. done. Qed.
Lemma alike_sym h1 h2 : alike h1 h2 → alike h2 h1.
Proof. intros [A B]. by split. Qed.
Lemma alike_trans h1 h2 h3 : alike h1 h2 → alike h2 h3 → alike h1 h3.
Proof. intros [A B] [C D]. split; [congruence|]. intros x. by rewrite B. Qed.
Lemma plain_eq e1 e2 : plain e1 = plain e2 ↔
  ev_label e1 = ev_label e2 ∧ ev_prec e1 = ev_prec e2 ∧ ev_succ e1 = ev_succ e2 ∧ ev_coords e1 = ev_coords e2 ∧ ev_pos e1 = ev_pos e2.
Proof. destruct e1, e2. cbn. unfold plain, set_lprec, set_lsucc. cbn. split; [intros [= -> -> -> -> ->]; done|intros (-> & -> & -> & -> & ->); done]. Qed.
Lemma alike_attr h1 h2 x : alike h1 h2 →
  lab h1 x = lab h2 x ∧ prec h1 x = prec h2 x ∧ succ h1 x = succ h2 x ∧ Base.coords h1 x = Base.coords h2 x ∧ Base.pos h1 x = Base.pos h2 x.
Proof. intros [_ B]. specialize (B x). by apply plain_eq in B. Qed.
Lemma alike_same_order h1 h2 : alike h1 h2 → same_order h1 h2.
Proof. intros H x. destruct (alike_attr h1 h2 x H) as (_ & -> & -> & _). done. Qed.
Lemma alike_new_id h1 h2 : alike h1 h2 → new_id h1 = new_id h2.
Proof. intros [A _]. unfold new_id. by rewrite A. Qed.
Lemma alike_of h1 h2 : dom h1 = dom h2 →
  (∀ x, lab h1 x = lab h2 x ∧ prec h1 x = prec h2 x ∧ succ h1 x = succ h2 x ∧ Base.coords h1 x = Base.coords h2 x ∧ Base.pos h1 x = Base.pos h2 x) →
  alike h1 h2.
Proof. intros A B. split; [done|]. intros x. apply plain_eq. apply B. Qed.
Lemma alike_upd f g x h1 h2 : (plain (h1 !!! x) = plain (h2 !!! x) → plain (f (h1 !!! x)) = plain (g (h2 !!! x))) → alike h1 h2 → alike (upd f x h1) (upd g x h2).
Proof.
  intros Hf [A B]. split; [unfold upd; by rewrite !dom_insert_L, A|]. intros y. destruct (decide (x = y)) as [<-|Hy].
  - rewrite !upd_same. apply Hf, B.
  - by rewrite !upd_other.
Qed.
Lemma alike_insert e x h1 h2 : alike h1 h2 → alike (<[x := e]> h1) (<[x := e]> h2).
Proof. apply (alike_upd (λ _, e) (λ _, e)). done. Qed.
(** An update of the caches only. *)
Lemma alike_cache f x h : x ∈ dom h → (∀ e, plain (f e) = plain e) → alike h (upd f x h).
Proof.
  intros Hx Hf. split; [by rewrite upd_dom|]. intros y. destruct (decide (x = y)) as [<-|Hy]; [by rewrite upd_same, Hf|by rewrite upd_other].
Qed.

(** ** Sets computed from the order *)
Lemma foldl_union_ext (f g : nat → gset nat) l : (∀ x, f x = g x) → ∀ acc, foldl (λ acc e, acc ∪ f e) acc l = foldl (λ acc e, acc ∪ g e) acc l.
Proof. intros E. induction l as [|y l IH]; intros acc; cbn [foldl]; [done|]. by rewrite E, IH. Qed.
Lemma PastOf_alike h1 h2 X : alike h1 h2 → PastOf h1 X true false = PastOf h2 X true false.
Proof. intros H. unfold PastOf. cbn [andb]. rewrite (foldl_union_ext (Past h1) (Past h2)); [done|]. intros x. apply (alike_attr h1 h2 x H). Qed.
Lemma FutureOf_alike h1 h2 X : alike h1 h2 → FutureOf h1 X true false = FutureOf h2 X true false.
Proof. intros H. unfold FutureOf. cbn [andb]. rewrite (foldl_union_ext (Future h1) (Future h2)); [done|]. intros x. apply (alike_attr h1 h2 x H). Qed.
Lemma causet_alike h1 h2 E : alike h1 h2 → causet h1 E = causet h2 E.
Proof.
  intros H. unfold causet. rewrite (proj1 H). generalize (S (size (E ∪ dom h2))). intros n. revert E. induction n as [|n IH]; intros E; cbn [causet_loop]; [done|].
  assert (EC : ConeOf h1 E true false = ConeOf h2 E true false).
  { unfold ConeOf. cbn [andb]. rewrite (foldl_union_ext (λ e, Past h1 e ∪ Future h1 e) (λ e, Past h2 e ∪ Future h2 e)); [done|].
    intros x. unfold Past, Future. destruct (alike_attr h1 h2 x H) as (_ & -> & -> & _). done. }
  rewrite EC. destruct (decide _); [done|]. apply IH.
Qed.

(** ** New events *)
Lemma past_closure_alike h1 h2 P : alike h1 h2 → past_closure h1 P = past_closure h2 P.
Proof.
  intros H. apply set_eq. intros y. rewrite !past_closure_spec. f_equiv. intros e. destruct (alike_attr h1 h2 e H) as (_ & -> & _). done.
Qed.
Lemma future_closure_alike h1 h2 P : alike h1 h2 → future_closure h1 P = future_closure h2 P.
Proof.
  intros H. apply set_eq. intros y. rewrite !future_closure_spec. f_equiv. intros e. destruct (alike_attr h1 h2 e H) as (_ & _ & -> & _). done.
Qed.
Lemma plain_addF o A B e1 e2 : plain e1 = plain e2 → plain (addF o A B e1) = plain (addF o A B e2).
Proof.
  intros E. apply plain_eq in E as (E1 & E2 & E3 & E4 & E5). apply plain_eq. unfold addF. rewrite E3.
  destruct (decide _); [done|]. destruct (linked_ev e1 && _), (linked_ev e2 && _); cbn; by rewrite ?E1, ?E2, ?E4, ?E5.
Qed.
Lemma plain_addP o A B e1 e2 : plain e1 = plain e2 → plain (addP o A B e1) = plain (addP o A B e2).
Proof.
  intros E. apply plain_eq in E as (E1 & E2 & E3 & E4 & E5). apply plain_eq. unfold addP. rewrite E2.
  destruct (decide _); [done|]. destruct (linked_ev e1 && _), (linked_ev e2 && _); cbn; by rewrite ?E1, ?E3, ?E4, ?E5.
Qed.
Lemma new_event_alike it1 it2 l P F cs ps h1 h2 : iter_ok it1 → iter_ok it2 → order_inv h1 → alike h1 h2 → P ⊆ dom h1 → F ⊆ dom h1 →
  alike (new_event it1 l P F cs ps h1).1 (new_event it2 l P F cs ps h2).1 ∧ (new_event it1 l P F cs ps h1).2 = (new_event it2 l P F cs ps h2).2.
Proof.
  intros H1 H2 HO HA HP HF. assert (HO2 : order_inv h2) by (eapply same_order_inv; [by apply alike_same_order|done]).
  assert (HP2 : P ⊆ dom h2) by (by rewrite <- (proj1 HA)). assert (HF2 : F ⊆ dom h2) by (by rewrite <- (proj1 HA)).
  split; [|cbn; by apply alike_new_id]. split.
  - rewrite !new_event_dom by done. by rewrite (alike_new_id h1 h2 HA), (proj1 HA).
  - intros y. rewrite !new_event_lookup by done. rewrite (alike_new_id h1 h2 HA), (past_closure_alike h1 h2 P HA), (future_closure_alike h1 h2 F HA).
    destruct (decide (y = new_id h2)); [done|]. pose proof (proj2 HA y) as Ey.
    destruct (decide (y ∈ future_closure h2 F)), (decide (y ∈ past_closure h2 P)); cbn;
      try apply plain_addP; try apply plain_addF; done.
Qed.
Lemma alloc_alike it1 it2 l P h1 h2 : iter_ok it1 → iter_ok it2 → order_inv h1 → alike h1 h2 → P ⊆ dom h1 →
  alike (alloc it1 l P h1).1 (alloc it2 l P h2).1 ∧ (alloc it1 l P h1).2 = (alloc it2 l P h2).2.
Proof. intros H1 H2 HO HA HP. apply new_event_alike; [by apply sub_ok|by apply sub_ok|done|done|done|apply empty_subseteq]. Qed.
Lemma alloc_list_alike it1 it2 args : iter_ok it1 → iter_ok it2 → ∀ h1 h2, order_inv h1 → alike h1 h2 → (∀ l P, (l, P) ∈ args → P ⊆ dom h1) →
  alike (alloc_list it1 args h1).1 (alloc_list it2 args h2).1 ∧ (alloc_list it1 args h1).2 = (alloc_list it2 args h2).2.
Proof.
  intros H1 H2. induction args as [|[l P] args IH]; intros h1 h2 HO HA HP; cbn [alloc_list]; [done|].
  assert (HP0 : P ⊆ dom h1) by by apply (HP l), elem_of_list_here.
  destruct (alloc_alike it1 it2 l P h1 h2 H1 H2 HO HA HP0) as [A1 A2]. destruct (alloc_grows it1 l P h1 H1 HO HP0) as [G _].
  destruct (alloc it1 l P h1) as [k1 x], (alloc it2 l P h2) as [k2 x2]. cbn [fst snd] in *. subst x2.
  destruct (IH k1 k2) as [B1 B2]; [by apply (grows_order h1)|done| |].
  { intros l' P' Hin. transitivity (dom h1); [by apply (HP l'), elem_of_list_further|by apply grows_dom]. }
  destruct (alloc_list it1 args k1), (alloc_list it2 args k2). cbn [fst snd] in *. by subst.
Qed.

(** ** Constructors of causets *)
Definition alike_res {A} (p q : heap * A) : Prop := alike p.1 q.1 ∧ p.2 = q.2.
Lemma fromperm_alike it1 it2 fmt P : iter_ok it1 → iter_ok it2 → ∀ is evs h1 h2, order_inv h1 → alike h1 h2 → (∀ x, x ∈ evs → x ∈ dom h1) →
  (∀ i, i ∈ is → i ≤ length evs) → alike_res (fromperm_loop it1 fmt P is evs h1) (fromperm_loop it2 fmt P is evs h2).
Proof.
  intros H1 H2. induction is as [|i is IH]; intros evs h1 h2 HO HA Hev Hi; cbn [fromperm_loop]; [done|].
  destruct (py_index P (Z.of_nat i + 1)) as [v|]; [|done].
  set (past := list_to_set _ : gset nat).
  assert (HP : past ⊆ dom h1).
  { intros p Hp. unfold past in Hp. apply elem_of_list_to_set, elem_of_list_fmap in Hp as (j & -> & Hj).
    apply elem_of_list_filter in Hj as [_ Hj]. apply elem_of_seq in Hj.
    apply lookup_total_in; [done|]. specialize (Hi i (elem_of_list_here _ _)). lia. }
  destruct (alloc_alike it1 it2 (fmt_label fmt (Z.of_nat i + 1)) past h1 h2 H1 H2 HO HA HP) as [A1 A2].
  destruct (alloc_grows it1 (fmt_label fmt (Z.of_nat i + 1)) past h1 H1 HO HP) as [G Hx].
  destruct (alloc it1 (fmt_label fmt (Z.of_nat i + 1)) past h1) as [k1 x], (alloc it2 (fmt_label fmt (Z.of_nat i + 1)) past h2) as [k2 x2].
  cbn [fst snd] in *. subst x2. apply IH.
  - by apply (grows_order h1).
  - done.
  - intros y Hy. apply elem_of_list_lookup in Hy as [k Hk]. destruct (decide (i = k)) as [->|Hik].
    + destruct (decide (k < length evs)) as [Hl|Hl].
      * rewrite list_lookup_insert in Hk by done. by injection Hk as <-.
      * apply lookup_lt_Some in Hk. rewrite insert_length in Hk. lia.
    + rewrite list_lookup_insert_ne in Hk by done. apply (grows_dom _ _ G HO). apply Hev. by eapply elem_of_list_lookup_2.
  - intros k Hk. rewrite insert_length. apply Hi. by apply elem_of_list_further.
Qed.
Lemma FromPermutation_alike it1 it2 fmt P h1 h2 : iter_ok it1 → iter_ok it2 → order_inv h1 → alike h1 h2 →
  alike_res (FromPermutation it1 fmt P h1) (FromPermutation it2 fmt P h2).
Proof.
  intros H1 H2 HO HA. unfold FromPermutation. assert (He : (∅ : gset nat) ⊆ dom h1) by apply empty_subseteq.
  destruct (alloc_alike it1 it2 LNone ∅ h1 h2 H1 H2 HO HA He) as [A1 A2]. destruct (alloc_grows it1 LNone ∅ h1 H1 HO He) as [G Hx].
  destruct (alloc it1 LNone ∅ h1) as [k1 e0], (alloc it2 LNone ∅ h2) as [k2 x2]. cbn [fst snd] in *. subst x2.
  destruct (fromperm_alike it1 it2 fmt P H1 H2 (seq 0 (length P)) (replicate (length P) e0) k1 k2) as [B1 B2]; [by apply (grows_order h1)|done| | |].
  - intros x Hx'. apply elem_of_replicate in Hx' as [-> _]. done.
  - intros i Hi%elem_of_seq. rewrite replicate_length. lia.
  - destruct (fromperm_loop it1 fmt P _ _ k1) as [m1 r1], (fromperm_loop it2 fmt P _ _ k2) as [m2 r2]. cbn [fst snd] in *. subst r2.
    destruct r1; split; cbn [fst snd]; try done. by apply causet_alike.
Qed.
Lemma face_label_alike h1 h2 l : alike h1 h2 → face_label h1 l = face_label h2 l.
Proof.
  intros H. unfold face_label. f_equal. apply list_fmap_ext. intros i x _. by destruct (alike_attr h1 h2 x H) as (-> & _).
Qed.
Lemma NewSimplex_alike it1 it2 d central h1 h2 : iter_ok it1 → iter_ok it2 → order_inv h1 → alike h1 h2 →
  alike_res (NewSimplex it1 d central h1) (NewSimplex it2 d central h2).
Proof.
  intros H1 H2 HO HA0. unfold NewSimplex.
  assert (HA : ∀ l P, (l, P) ∈ (λ i, (LStr (str_of_nat i), ∅ : gset nat)) <$> seq 1 (Z.to_nat (d + 1)) → P ⊆ dom h1).
  { intros l P (? & [= _ ->] & _)%elem_of_list_fmap. apply empty_subseteq. }
  destruct (alloc_list_alike it1 it2 _ H1 H2 h1 h2 HO HA0 HA) as [A1 A2].
  destruct (alloc_list_grows it1 _ h1 H1 HO HA) as (G & Hx & _).
  destruct (alloc_list it1 _ h1) as [k1 vs], (alloc_list it2 _ h2) as [k2 vs2]. cbn [fst snd] in *. subst vs2.
  set (faces := k ← seq 2 (Z.to_nat (d - 1)); combinations vs k).
  assert (HF : ∀ faces st1 st2, order_inv st1.1 → alike_res st1 st2 → st1.2 ⊆ dom st1.1 →
    alike_res (foldl (simplex_face it1) st1 faces) (foldl (simplex_face it2) st2 faces) ∧
    order_inv (foldl (simplex_face it1) st1 faces).1 ∧ (foldl (simplex_face it1) st1 faces).2 ⊆ dom (foldl (simplex_face it1) st1 faces).1).
  { clear - H1 H2. induction faces as [|fv faces IH]; intros [h1 E] [h2 E2] HO [HA HE2] HE; cbn [foldl]; [done|].
    cbn [simplex_face fst snd] in *. subst E2.
    rewrite <- (face_label_alike h1 h2 fv HA).
    assert (EP : ⋃ ((λ pf, filter (λ e, lab h2 e = LStr (face_label h2 pf)) E) <$> combinations fv (length fv - 1)) =
                 ⋃ ((λ pf, filter (λ e, lab h1 e = LStr (face_label h1 pf)) E) <$> combinations fv (length fv - 1))).
    { f_equal. apply list_fmap_ext. intros i pf _. apply set_eq. intros e. rewrite !elem_of_filter.
      rewrite (face_label_alike h1 h2 pf HA). by destruct (alike_attr h1 h2 e HA) as (-> & _). }
    rewrite EP. set (past := ⋃ _). assert (HP : past ⊆ dom h1).
    { intros p Hp. unfold past in Hp. apply elem_of_union_list in Hp as (X & HX & Hp).
      apply elem_of_list_fmap in HX as (pf & -> & _). apply elem_of_filter in Hp as [_ Hp]. by apply HE. }
    destruct (alloc_alike it1 it2 (LStr (face_label h1 fv)) past h1 h2 H1 H2 HO HA HP) as [A1 A2].
    destruct (alloc_grows it1 (LStr (face_label h1 fv)) past h1 H1 HO HP) as [G Hx].
    destruct (alloc it1 (LStr (face_label h1 fv)) past h1) as [k1 x], (alloc it2 (LStr (face_label h1 fv)) past h2) as [k2 x2]. cbn [fst snd] in *. subst x2.
    apply (IH (k1, {[x]} ∪ E) (k2, {[x]} ∪ E)); cbn [fst snd].
    - by apply (grows_order h1).
    - by split.
    - intros y [->%elem_of_singleton|Hy]%elem_of_union; [done|]. apply (grows_dom _ _ G HO). by apply HE. }
  destruct (HF faces (k1, list_to_set vs) (k2, list_to_set vs)) as ([E1 E2] & HO1 & HE1); cbn [fst snd].
  { by apply (grows_order h1). } { by split. } { intros x Hx'%elem_of_list_to_set. auto. }
  destruct (foldl (simplex_face it1) _ faces) as [m1 E], (foldl (simplex_face it2) _ faces) as [m2 E'].
  cbn [fst snd] in *. subst E'.
  destruct (central && bool_decide (0 < d)%Z).
  - rewrite <- (face_label_alike m1 m2 vs E1).
    destruct (alloc_alike it1 it2 (LStr (face_label m1 vs)) E m1 m2 H1 H2 HO1 E1 HE1) as [B1 B2].
    destruct (alloc it1 _ E m1) as [n1 x], (alloc it2 _ E m2) as [n2 x2]. cbn [fst snd] in *. subst x2. split; cbn [fst snd]; [done|]. by apply causet_alike.
  - split; cbn [fst snd]; [done|]. by apply causet_alike.
Qed.
Lemma NewFence_alike it1 it2 len height closed h1 h2 : iter_ok it1 → iter_ok it2 → order_inv h1 → alike h1 h2 →
  alike_res (NewFence it1 len height closed h1) (NewFence it2 len height closed h2).
Proof.
  intros H1 H2 HO HA0. unfold NewFence. destruct (decide _) as [_|Hn]; [split; cbn; [done|by apply causet_alike]|].
  destruct (decide (len = 1)%Z) as [_|Hl1]; [by apply FromPermutation_alike|].
  assert (HA : ∀ l P, (l, P) ∈ (λ l, (LInt (Z.of_nat l), ∅ : gset nat)) <$> seq 1 (Z.to_nat len) → P ⊆ dom h1).
  { intros l P (? & [= _ ->] & _)%elem_of_list_fmap. apply empty_subseteq. }
  destruct (alloc_list_alike it1 it2 _ H1 H2 h1 h2 HO HA0 HA) as [A1 A2].
  destruct (alloc_list_grows it1 _ h1 H1 HO HA) as (G & Hx & Hl).
  destruct (alloc_list it1 _ h1) as [k1 loop], (alloc_list it2 _ h2) as [k2 loop2]. cbn [fst snd] in *. subst loop2. rewrite fmap_length, seq_length in Hl.
  assert (HF : ∀ hs loop E h1 h2, order_inv h1 → alike h1 h2 → (∀ x, x ∈ loop → x ∈ dom h1) → length loop = Z.to_nat len →
    alike_res (fence_levels it1 closed (Z.to_nat len) hs loop E h1) (fence_levels it2 closed (Z.to_nat len) hs loop E h2)).
  { clear - H1 H2 Hn. induction hs as [|k hs IH]; intros loop E h1 h2 HO HA Hx Hl; cbn [fence_levels]; [by split|].
    assert (HR : ∀ l P, (l, P) ∈ fence_row closed (Z.to_nat len) k loop → P ⊆ dom h1).
    { intros l P. unfold fence_row. intros (i & [= _ ->] & Hi%elem_of_seq)%elem_of_list_fmap.
      destruct (decide (i = 0)); [destruct closed|]; intros p Hp;
        repeat (apply elem_of_union in Hp as [Hp|Hp]); apply elem_of_singleton in Hp; subst p;
        (apply lookup_total_in; [done|lia]). }
    destruct (alloc_list_alike it1 it2 _ H1 H2 h1 h2 HO HA HR) as [A1 A2].
    destruct (alloc_list_grows it1 _ h1 H1 HO HR) as (G & Hx2 & Hl2).
    destruct (alloc_list it1 (fence_row closed (Z.to_nat len) k loop) h1) as [k1 next], (alloc_list it2 (fence_row closed (Z.to_nat len) k loop) h2) as [k2 next2].
    cbn [fst snd] in *. subst next2.
    unfold fence_row in Hl2. rewrite fmap_length, seq_length in Hl2.
    apply IH; [by apply (grows_order h1)|done|done|done]. }
  destruct (HF (seq 1 (Z.to_nat height)) loop (list_to_set loop) k1 k2) as [B1 B2]; [by apply (grows_order h1)|done|done|done|].
  destruct (fence_levels it1 _ _ _ _ _ k1), (fence_levels it2 _ _ _ _ _ k2). cbn [fst snd] in *. subst. split; cbn [fst snd]; [done|]. by apply causet_alike.
Qed.
Lemma frommat_assign_alike r c C evs : ∀ is h1 h2, alike h1 h2 → alike_res (frommat_assign r c C evs is h1) (frommat_assign r c C evs is h2).
Proof.
  induction is as [|i is IH]; intros h1 h2 Hs; cbn [frommat_assign]; [by split|].
  destruct (decide _); [by split|]. apply IH. apply alike_upd; [|done]. intros E. apply plain_eq in E as (E1 & E2 & E3 & E4 & E5). by apply plain_eq.
Qed.
Lemma complete_alike evs : ∀ h1 h2, alike h1 h2 → alike (foldl frommat_complete h1 evs) (foldl frommat_complete h2 evs).
Proof.
  induction evs as [|e evs IH]; intros h1 h2 Hs; cbn [foldl]; [done|]. apply IH. unfold frommat_complete. cbn zeta.
  assert (S1 : alike (upd (set_prec (PastOf h1 (prec h1 e) true false)) e h1) (upd (set_prec (PastOf h2 (prec h2 e) true false)) e h2)).
  { apply alike_upd; [|done]. intros E. apply plain_eq in E as (E1 & E2 & E3 & E4 & E5). apply plain_eq. unfold set_prec. cbn [ev_label ev_prec ev_succ ev_coords ev_pos].
    destruct (alike_attr h1 h2 e Hs) as (_ & -> & _). rewrite (PastOf_alike h1 h2) by done. done. }
  set (k1 := upd _ e h1) in *. set (k2 := upd _ e h2) in *.
  apply alike_upd; [|done]. intros E. apply plain_eq in E as (E1 & E2 & E3 & E4 & E5). apply plain_eq. unfold set_succ. cbn [ev_label ev_prec ev_succ ev_coords ev_pos].
  destruct (alike_attr k1 k2 e S1) as (_ & _ & -> & _). rewrite (FutureOf_alike k1 k2) by done. done.
Qed.
Lemma FromPastMatrix_alike it1 it2 r c C h1 h2 : iter_ok it1 → iter_ok it2 → order_inv h1 → alike h1 h2 →
  alike (FromPastMatrix it1 r c C h1).1.1 (FromPastMatrix it2 r c C h2).1.1 ∧ (FromPastMatrix it1 r c C h1).2 = (FromPastMatrix it2 r c C h2).2.
Proof.
  intros H1 H2 HO HA0. unfold FromPastMatrix. destruct (decide (c < r)); [by split|].
  destruct (alloc_list_alike it1 it2 ((λ i, (LInt (Z.of_nat i), ∅ : gset nat)) <$> seq 1 c) H1 H2 h1 h2 HO HA0) as [A1 A2].
  { intros l P (? & [= _ ->] & _)%elem_of_list_fmap. apply empty_subseteq. }
  destruct (alloc_list it1 _ h1) as [k1 evs], (alloc_list it2 _ h2) as [k2 evs2]. cbn [fst snd] in *. subst evs2.
  destruct (frommat_assign_alike r c C evs (seq 0 r) k1 k2 A1) as [B1 B2].
  destruct (frommat_assign r c C evs (seq 0 r) k1) as [m1 r1], (frommat_assign r c C evs (seq 0 r) k2) as [m2 r2]. cbn [fst snd] in *. subst r2.
  destruct r1; cbn [fst snd]; [|by split]. split; [by apply complete_alike|]. by apply causet_alike, complete_alike.
Qed.

(** ** Calls on events *)
Lemma unlink_alike h x : x ∈ dom h → alike h (EventModel.unlink h x).1.
Proof.
  intros Hx. unfold EventModel.unlink. destruct (lprec h x); [|apply alike_refl]. cbn zeta.
  assert (A1 : alike h (upd (set_lprec None) x h)) by by apply alike_cache.
  destruct (lsucc (upd (set_lprec None) x h) x); cbn [fst]; [|done].
  eapply alike_trans; [exact A1|]. apply alike_cache; [|done]. by rewrite <- (proj1 A1).
Qed.
Lemma link_alike h x : x ∈ dom h → alike h (link h x).
Proof.
  intros Hx. unfold link. cbn zeta. assert (A1 : alike h (upd (set_lprec (Some (link_past_set h x))) x h)) by by apply alike_cache.
  eapply alike_trans; [exact A1|]. apply alike_cache; [|done]. by rewrite <- (proj1 A1).
Qed.
Lemma linkish_alike h h' : linkish h h' → alike h h'.
Proof.
  intros (xs & Hxs & ->). revert h Hxs. induction xs as [|x xs IH]; intros h Hxs; cbn [foldl]; [apply alike_refl|].
  assert (A1 : alike h (link h x)) by apply link_alike, Hxs, elem_of_list_here.
  eapply alike_trans; [exact A1|]. apply IH. intros y Hy. rewrite <- (proj1 A1). apply Hxs. by apply elem_of_list_further.
Qed.
Lemma admissible_alike h1 h2 o : alike h1 h2 → admissible h1 o → admissible h2 o.
Proof.
  intros HA. unfold admissible. rewrite (proj1 HA). destruct o; try done. intros (HP & HF & Hc). split; [done|]. split; [done|].
  assert (HB : ∀ a b, before h1 a b ↔ before h2 a b).
  { intros a b. unfold before. by destruct (alike_attr h1 h2 b HA) as (_ & -> & _). }
  intros p f Hp Hf. apply HB, Hc.
  - destruct Hp as [?|(e & He & Hpe)]; [by left|]. right. exists e. split; [done|]. by apply HB.
  - destruct Hf as [?|(e & He & Hpe)]; [by left|]. right. exists e. split; [done|]. by apply HB.
Qed.
Lemma step_alike it1 it2 h1 h2 o : iter_ok it1 → iter_ok it2 → order_inv h1 → alike h1 h2 → admissible h1 o → is_disjoin o = false →
  alike (step it1 h1 o) (step it2 h2 o).
Proof.
  intros H1 H2 HO HA Ha Hd. pose proof (admissible_alike h1 h2 o HA Ha) as Ha2.
  pose proof (linkish_step h1 o it1 Ha) as L1. pose proof (linkish_step h2 o it2 Ha2) as L2.
  destruct o; try done; cbn [step] in *;
    try (apply linkish_alike in L1, L2; eapply alike_trans; [apply alike_sym; exact L1|]; eapply alike_trans; [exact HA|exact L2]).
  - destruct Ha as (HP & HF & _). by apply new_event_alike.
  - eapply alike_trans; [apply alike_sym, unlink_alike, Ha|]. eapply alike_trans; [exact HA|]. apply unlink_alike, Ha2.
  - unfold embed, isEmbedded. destruct (alike_attr h1 h2 x HA) as (_ & _ & _ & -> & _).
    destruct (negb reembed && _); cbn [fst]; [done|]. apply alike_upd; [|done]. intros E. apply plain_eq in E as (E1 & E2 & E3 & E4 & E5). by apply plain_eq.
  - unfold disembed. destruct (alike_attr h1 h2 x HA) as (_ & _ & _ & -> & _).
    destruct (Base.coords h2 x); cbn [fst]; [|done]. apply alike_upd; [|done]. intros E. apply plain_eq in E as (E1 & E2 & E3 & E4 & E5). by apply plain_eq.
  - unfold set_Position. destruct (decide _); cbn [fst]; [|done].
    apply alike_upd; [|done]. intros E. apply plain_eq in E as (E1 & E2 & E3 & E4 & E5). by apply plain_eq.
Qed.

(** ** Merging, adding, linking *)
Lemma merge_alike it1 it2 A B d h1 h2 : iter_ok it1 → iter_ok it2 → alike h1 h2 → A ⊆ dom h1 → B ⊆ dom h1 →
  alike_res (merge it1 A B d h1) (merge it2 A B d h2).
Proof.
  intros H1 H2 HA HAd HBd. unfold merge, alike_res. cbn [fst snd]. destruct d; [split; [done|by apply causet_alike]|].
  assert (HAd2 : A ⊆ dom h2) by (by rewrite <- (proj1 HA)). assert (HBd2 : B ⊆ dom h2) by (by rewrite <- (proj1 HA)).
  destruct (merge_loop_merged it1 A B h1 H1 HAd HBd) as [P1 S1 D1 N1 R1 O1].
  destruct (merge_loop_merged it2 A B h2 H2 HAd2 HBd2) as [P2 S2 D2 N2 R2 O2].
  assert (AL : alike (merge_loop it1 A B h1) (merge_loop it2 A B h2)).
  { apply alike_of; [rewrite D1, D2; apply HA|]. intros x. destruct (R1 x) as (-> & -> & ->), (R2 x) as (-> & -> & ->).
    destruct (alike_attr h1 h2 x HA) as (Q1 & Q2 & Q3 & Q4 & Q5). split; [done|]. split; [|split; [|done]].
    - apply set_eq. intros y. rewrite P1, P2, !iter_elem by done. by rewrite Q2.
    - apply set_eq. intros y. rewrite S1, S2, !iter_elem by done. by rewrite Q3. }
  split; [done|by apply causet_alike].
Qed.
Lemma unlink_loop_alike l : ∀ h, (∀ x, x ∈ l → x ∈ dom h) → alike h (unlink_loop l h).1.
Proof.
  induction l as [|e l IH]; intros h Hl; cbn [unlink_loop]; [apply alike_refl|].
  pose proof (unlink_alike h e (Hl e (elem_of_list_here _ _))) as A1. destruct (EventModel.unlink h e) as [k [|]]; cbn [fst] in *; [|done].
  eapply alike_trans; [exact A1|]. apply IH. intros x Hx. rewrite <- (proj1 A1). apply Hl. by apply elem_of_list_further.
Qed.
Lemma unlink_linked_alike l : ∀ h, (∀ x, x ∈ l → x ∈ dom h) → alike h (unlink_linked_loop l h).1.
Proof.
  induction l as [|e l IH]; intros h Hl; cbn [unlink_linked_loop]; [apply alike_refl|].
  assert (Hl' : ∀ x, x ∈ l → x ∈ dom h) by (intros; apply Hl; by apply elem_of_list_further).
  destruct (hasBeenLinked h e); [|by apply IH].
  pose proof (unlink_alike h e (Hl e (elem_of_list_here _ _))) as A1. destruct (EventModel.unlink h e) as [k [|]]; cbn [fst] in *; [|done].
  eapply alike_trans; [exact A1|]. apply IH. intros x Hx. rewrite <- (proj1 A1). by apply Hl'.
Qed.
Lemma link_causet_alike it C h : iter_ok it → order_inv h → C ⊆ dom h → closed h C → alike h (link_causet it C h).1.
Proof.
  intros Hit HO HC Hcl.
  destruct (link_causet_ok it h C Hit (oi_conv h HO) HC) as (k & E & D & S & _ & _ & R).
  { intros b a Hb [Hab _]. left. exact (proj1 (Hcl b Hb) a Hab). }
  rewrite E. cbn [fst]. apply alike_of; [done|]. intros x. destruct (R x) as (-> & -> & ->). destruct (S x) as [-> ->]. done.
Qed.

(** ** Embedded causets *)
Lemma create_events_alike it1 it2 fmt rows : iter_ok it1 → iter_ok it2 → ∀ u h1 h2, alike h1 h2 →
  alike_res (create_events it1 fmt u rows h1) (create_events it2 fmt u rows h2).
Proof.
  intros H1 H2. induction rows as [|c rows IH]; intros u h1 h2 HA; cbn [create_events]; [by split|].
  rewrite !new_event_plain by by apply sub_ok. rewrite <- (alike_new_id h1 h2 HA).
  match goal with |- context [<[?n := ?e]> h1] => destruct (IH (u + 1)%Z (<[n := e]> h1) (<[n := e]> h2)) as [A1 A2]; [by apply alike_insert|] end.
  destruct (create_events it1 fmt _ rows _), (create_events it2 fmt _ rows _). cbn [fst snd] in *. subst. by split.
Qed.
Lemma Coordinates_alike h1 h2 x : alike h1 h2 → Coordinates h1 x = Coordinates h2 x.
Proof. intros HA. unfold Coordinates. by destruct (alike_attr h1 h2 x HA) as (_ & _ & _ & -> & _). Qed.
Lemma relate_alike it1 it2 caus link C h1 h2 : iter_ok it1 → iter_ok it2 → order_inv h1 → link_paired h1 → link_paired h2 → alike h1 h2 →
  C ⊆ dom h1 → closed h1 C → (∀ x, x ∈ C → isEmbedded h1 x = true) → ordering caus (coordinates_of h1 C) → tie_free caus h1 C →
  alike_res (relate it1 caus link C h1) (relate it2 caus link C h2).
Proof.
  intros H1 H2 HO HP HP2 HA HC Hcl Hemb Hord Htie.
  assert (HO2 : order_inv h2) by (eapply same_order_inv; [by apply alike_same_order|done]).
  assert (HC2 : C ⊆ dom h2) by (by rewrite <- (proj1 HA)).
  assert (Hcl2 : closed h2 C).
  { intros x Hx. destruct (alike_attr h1 h2 x HA) as (_ & <- & <- & _). by apply Hcl. }
  set (crd := λ x, match Coordinates h1 x with Ok c => c | Err _ => [] end).
  assert (Hc : embedded h1 C crd).
  { intros x Hx. specialize (Hemb x Hx). unfold isEmbedded in Hemb. apply bool_decide_eq_true in Hemb. unfold crd, Coordinates.
    by destruct Hemb as [c ->]. }
  assert (Hc2 : embedded h2 C crd) by (intros x Hx; rewrite <- (Coordinates_alike h1 h2 x HA); by apply Hc).
  assert (HX : ∀ x, x ∈ C → coordinates_of h1 C (crd x)) by (intros x Hx; exists x; split; [done|by apply Hc]).
  destruct Hord as (le & Htr & Hdec).
  assert (Htr' : ∀ a b c, a ∈ C → b ∈ C → c ∈ C → le (crd a) (crd b) → le (crd b) (crd c) → le (crd a) (crd c)).
  { intros a b c Ha Hb Hc'. apply Htr; by apply HX. }
  assert (Hdec' : ∀ a b, a ∈ C → b ∈ C → decides caus le (crd a) (crd b)).
  { intros a b Ha Hb. apply Hdec; by apply HX. }
  assert (Hnt : ∀ a b, a ∈ C → b ∈ C → a ≠ b → le (crd a) (crd b) → ¬ le (crd b) (crd a)).
  { intros a b Ha Hb Hab L1 L2. apply (Htie a b (crd a) (crd b) Ha Hb Hab (Hc a Ha) (Hc b Hb)).
    split; [by apply (Hdec' a b)|by apply (Hdec' b a)]. }
  destruct (relate_order it1 caus link h1 C crd le H1 HO HP HC Hcl Hc Htr' Hdec') as (k1 & E1 & HO1 & _ & D1 & O1 & T1).
  destruct (relate_order it2 caus link h2 C crd le H2 HO2 HP2 HC2 Hcl2 Hc2 Htr' Hdec') as (k2 & E2 & HOk2 & _ & D2 & O2 & T2).
  destruct (C50_relate it1 caus link h1 C crd H1 (oi_conv h1 HO) HP HC Hcl Hc) as (k & E & _ & _ & _ & _ & Cl1 & _ & _ & _ & _ & R1).
  rewrite E1 in E. injection E as <-.
  destruct (C50_relate it2 caus link h2 C crd H2 (oi_conv h2 HO2) HP2 HC2 Hcl2 Hc2) as (k & E & _ & _ & _ & _ & Cl2 & _ & _ & _ & _ & R2).
  rewrite E2 in E. injection E as <-.
  rewrite E1, E2. split; [|done]. cbn [fst].
  assert (HT : ∀ a b, a ∈ C → b ∈ C → a ∈ prec k1 b ↔ a ∈ prec k2 b).
  { intros a b Ha Hb. specialize (T1 a b Ha Hb). specialize (T2 a b Ha Hb). unfold ev_lt in T1, T2. rewrite bool_decide_eq_true in T1, T2.
    rewrite T1, T2. destruct (decide (a = b)) as [->|Hab].
    - assert (NE : ∀ it, iter_ok it → ¬ earlier (it 31 C) b b).
      { intros it Hit (i & j & Hi & Hj & ?). assert (i = j) by (eapply NoDup_lookup; [by apply (iter_nodup it 31 C)|done|done]). lia. }
      pose proof (NE it1 H1). pose proof (NE it2 H2). tauto.
    - pose proof (Hnt a b Ha Hb Hab). tauto. }
  assert (HPr : ∀ x, prec k1 x = prec k2 x).
  { intros x. destruct (decide (x ∈ C)) as [Hx|Hx].
    - apply set_eq. intros y. destruct (decide (y ∈ C)) as [Hy|Hy]; [by apply HT|].
      split; intros Hyx; exfalso; apply Hy; [apply (proj1 (Cl1 x Hx))|apply (proj1 (Cl2 x Hx))]; exact Hyx.
    - unfold prec. rewrite O1, O2 by done. apply (alike_attr h1 h2 x HA). }
  apply alike_of; [rewrite D1, D2; apply HA|]. intros x. destruct (R1 x) as (-> & -> & ->), (R2 x) as (-> & -> & ->).
  destruct (alike_attr h1 h2 x HA) as (Q1 & _ & _ & Q4 & Q5). split; [done|]. split; [done|]. split; [|done].
  apply set_eq. intros y. rewrite <- (oi_conv k1 HO1), <- (oi_conv k2 HOk2). by rewrite HPr.
Qed.
Lemma relabel_alike it argsort dim desc C h1 h2 : alike h1 h2 → alike (relabel it argsort dim desc C h1).1 (relabel it argsort dim desc C h2).1.
Proof.
  intros HA. unfold relabel.
  assert (ED : ∀ l, dim_values h1 dim l = dim_values h2 dim l).
  { induction l as [|e l IH]; cbn [dim_values]; [done|]. rewrite (Coordinates_alike h1 h2 e HA). by rewrite IH. }
  rewrite ED. clear ED. destruct (dim_values h2 dim (it 32 C)) as [vs|]; cbn [fst]; [|done].
  generalize ((λ i, it 32 C !!! i) <$> (if desc then reverse (argsort vs) else argsort vs)). intros l. generalize 1%Z.
  revert h1 h2 HA. induction l as [|x l IH]; intros h1 h2 HA u; cbn [set_labels]; [done|]. apply IH.
  apply alike_upd; [|done]. intros E. apply plain_eq in E as (E1 & E2 & E3 & E4 & E5). by apply plain_eq.
Qed.

Lemma disjoin_alike it1 it2 h1 h2 x : iter_ok it1 → iter_ok it2 → order_inv h1 → order_inv h2 → link_paired h1 → link_paired h2 →
  alike h1 h2 → x ∈ dom h1 → hasBeenLinked h1 x = hasBeenLinked h2 x → alike (disjoin it1 h1 x).1 (disjoin it2 h2 x).1.
Proof.
  intros H1 H2 O1 O2 P1 P2 HA Hx Hl. assert (Hx2 : x ∈ dom h2) by (by rewrite <- (proj1 HA)).
  destruct (hasBeenLinked h1 x) eqn:L1.
  - destruct (C05_disjoin_linked it1 h1 x H1 O1 Hx L1) as (_ & D1 & A1 & B1 & C1 & R1 & _).
    destruct (C05_disjoin_linked it2 h2 x H2 O2 Hx2 (eq_sym Hl)) as (_ & D2 & A2 & B2 & C2 & R2 & _).
    unfold Past, Future in *.
    apply alike_of; [rewrite D1, D2; apply HA|]. intros y. destruct (R1 y) as (-> & -> & ->), (R2 y) as (-> & -> & ->).
    destruct (alike_attr h1 h2 y HA) as (E1 & E2 & E3 & E4 & E5).
    destruct (decide (y = x)) as [->|Hn].
    + rewrite A1, A2, B1, B2. split_and!; done.
    + destruct (C1 y Hn) as [-> ->], (C2 y Hn) as [-> ->]. rewrite E2, E3. split_and!; done.
  - assert (HU : ∀ h it, link_paired h → hasBeenLinked h x = false → disjoin it h x = (h, Err AttributeError)).
    { intros h it HP HL. unfold hasBeenLinked in HL. unfold disjoin, EventModel.unlink. specialize (HP x).
      destruct (lprec h x) as [lp|] eqn:E1; [|done]. destruct (lsucc h x) as [ls|] eqn:E2; [done|].
      destruct HP as [_ HP]. by specialize (HP eq_refl). }
    by rewrite (HU h1), (HU h2).
Qed.
