(** Facts about the plotter. *)
From Verif Require Import Base Spec EventModel EventFacts EventProps CausetModel ColorModel.
From Coq Require Import Reals Qreals Lra Sorting.Sorted.
From Verif Require Import SpacetimeModel ShapeModel EmbedModel SprinkledModel PlotModel SpecPlot Prop_Event Prop_EventMore.
#[local] Open Scope nat_scope.

(** ** Counting links *)
Section count.
Context (h : heap) (HO : order_inv h) (HL : link_inv h).
Local Notation lnk a b := (b ∈ LinkPast h a ∨ b ∈ LinkFuture h a).
Lemma lnk_linked a b : lnk a b ↔ linked h a b.
Proof using HO HL. rewrite LinkPast_spec, LinkFuture_spec by done. unfold linked. tauto. Qed.
Lemma linked_sym a b : linked h a b → linked h b a.
Proof. unfold linked. tauto. Qed.
Lemma linked_irr a : ¬ linked h a a.
Proof using HO. intros [[H _]|[H _]]; by apply (oi_irr h HO a). Qed.
Definition linkedb (a b : nat) : bool := bool_decide (b ∈ LinkPast h a) || bool_decide (b ∈ LinkFuture h a).
Lemma linkedb_spec a b : linkedb a b = true ↔ linked h a b.
Proof using HO HL. unfold linkedb. rewrite orb_true_iff, !bool_decide_eq_true. apply lnk_linked. Qed.
Lemma linkedb_sym a b : linkedb a b = linkedb b a.
Proof using HO HL. apply eq_true_iff_eq. rewrite !linkedb_spec. split; apply linked_sym. Qed.

Definition ctrue (p : nat → bool) (l : list nat) : nat := length (filter (λ x, p x = true) l).
Lemma ctrue_cons p x l : ctrue p (x :: l) = (if p x then 1 else 0) + ctrue p l.
Proof. unfold ctrue. rewrite filter_cons. destruct (p x) eqn:E; destruct (decide _); cbn; try done; congruence. Qed.
Lemma ctrue_perm p l l' : l ≡ₚ l' → ctrue p l = ctrue p l'.
Proof. intros H. unfold ctrue. by rewrite H. Qed.
Fixpoint lcount (l : list nat) : nat :=
  match l with [] => 0 | a :: l' => ctrue (linkedb a) l' + lcount l' end.
Lemma lcount_perm l l' : l ≡ₚ l' → lcount l = lcount l'.
Proof using HO HL.
  induction 1 as [|x l l' H IH|x y l|l1 l2 l3 _ IH1 _ IH2]; cbn [lcount].
  - done.
  - rewrite (ctrue_perm _ _ _ H). lia.
  - rewrite !ctrue_cons, (linkedb_sym y x). lia.
  - lia.
Qed.
Lemma sum_split (f g : nat → nat) (l : list nat) :
  sum_list ((λ e, f e + g e) <$> l) = sum_list (f <$> l) + sum_list (g <$> l).
Proof. induction l as [|x l IH]; cbn; [done|]. rewrite IH. lia. Qed.
Lemma sum_ind (p : nat → bool) (l : list nat) :
  sum_list ((λ e, if p e then 1 else 0) <$> l) = ctrue p l.
Proof. induction l as [|x l IH]; [done|]. rewrite ctrue_cons. cbn. by rewrite IH. Qed.
Lemma ctrue_size (p : nat → bool) (X S : gset nat) : (∀ x, x ∈ S → p x = true ↔ x ∈ X) →
  ctrue p (elements S) = size (X ∩ S).
Proof.
  intros HX. unfold ctrue. rewrite <- (size_list_to_set (C := gset nat)).
  - f_equal. apply set_eq. intros x. rewrite elem_of_list_to_set, elem_of_list_filter, elem_of_elements, elem_of_intersection.
    split; [intros [H1 H2]; split; [by apply HX|done]|intros [H1 H2]; split; [by apply HX|done]].
  - apply NoDup_filter, NoDup_elements.
Qed.
Lemma sum_list_perm (l l' : list nat) : l ≡ₚ l' → sum_list l = sum_list l'.
Proof. induction 1; cbn; lia. Qed.
Lemma LinkCountOf_insert x S : x ∉ S →
  LinkCountOf h ({[x]} ∪ S) = ctrue (linkedb x) (elements S) + LinkCountOf h S.
Proof using HO HL.
  intros Hx. unfold LinkCountOf.
  rewrite (sum_list_perm _ ((λ e, size (LinkPast h e ∩ ({[x]} ∪ S))) <$> (x :: elements S)))
    by (by rewrite elements_union_singleton).
  cbn [fmap list_fmap sum_list].
  assert (E1 : size (LinkPast h x ∩ ({[x]} ∪ S)) = ctrue (λ y, bool_decide (y ∈ LinkPast h x)) (elements S)).
  { rewrite (ctrue_size _ (LinkPast h x)) by (intros; by rewrite bool_decide_eq_true). f_equal.
    assert (x ∉ LinkPast h x) by (rewrite LinkPast_spec by done; intros [H _]; by apply (oi_irr h HO x)).
    apply set_eq. intros y. rewrite !elem_of_intersection, elem_of_union, elem_of_singleton.
    split; [|tauto]. intros [H1 [-> |H2]]; [done|done]. }
  assert (E2 : (λ e, size (LinkPast h e ∩ ({[x]} ∪ S))) <$> elements S =
               (λ e, (if bool_decide (e ∈ LinkFuture h x) then 1 else 0) + size (LinkPast h e ∩ S)) <$> elements S).
  { apply list_fmap_ext. intros i e _. case_bool_decide as H.
    - apply LinkFuture_spec in H; [|done|done]. rewrite <- LinkPast_spec in H by done.
      replace (LinkPast h e ∩ ({[x]} ∪ S)) with ({[x]} ∪ (LinkPast h e ∩ S)).
      + rewrite size_union; [by rewrite size_singleton|]. apply disjoint_singleton_l. rewrite elem_of_intersection. tauto.
      + apply set_eq. intros y. rewrite elem_of_union, !elem_of_intersection, elem_of_union, elem_of_singleton.
        split; [intros [->|?]; tauto|tauto].
    - rewrite LinkFuture_spec, <- LinkPast_spec in H by done. rewrite Nat.add_0_l. f_equal.
      apply set_eq. intros y. rewrite !elem_of_intersection, elem_of_union, elem_of_singleton.
      split; [|tauto]. intros [H1 [-> |H2]]; [done|done]. }
  rewrite E1, E2, sum_split, sum_ind.
  assert (E3 : ctrue (linkedb x) (elements S) =
    ctrue (λ y, bool_decide (y ∈ LinkPast h x)) (elements S) + ctrue (λ y, bool_decide (y ∈ LinkFuture h x)) (elements S)).
  { clear -HO HL. induction (elements S) as [|e l IH]; [done|]. rewrite !ctrue_cons, IH. unfold linkedb.
    assert (¬ (e ∈ LinkPast h x ∧ e ∈ LinkFuture h x)).
    { rewrite LinkPast_spec, LinkFuture_spec by done. intros [[H1 _] [H2 _]]. by apply (oi_asym h HO x e). }
    repeat case_bool_decide; cbn [orb]; try lia; exfalso; tauto. }
  unfold Datatypes.id. lia.
Qed.
Lemma lcount_ge l : LinkCountOf h (list_to_set l) ≤ lcount l.
Proof using HO HL.
  induction l as [|x l IH]; cbn [list_to_set lcount].
  { unfold LinkCountOf. rewrite elements_empty. done. }
  destruct (decide (x ∈ l)) as [Hi|Hi].
  - replace ({[x]} ∪ list_to_set l : gset nat) with (list_to_set l : gset nat) by set_solver. lia.
  - rewrite LinkCountOf_insert by set_solver.
    assert (Hp : elements (list_to_set l : gset nat) ⊆+ l).
    { apply NoDup_submseteq; [apply NoDup_elements|]. intros y. rewrite elem_of_elements. by rewrite elem_of_list_to_set. }
    assert (ctrue (linkedb x) (elements (list_to_set l : gset nat)) ≤ ctrue (linkedb x) l).
    { apply submseteq_Permutation in Hp as [k Hk]. rewrite (ctrue_perm _ _ _ Hk). unfold ctrue.
      rewrite filter_app, app_length. lia. }
    lia.
Qed.
Lemma lcount_nodup l : NoDup l → lcount l = LinkCountOf h (list_to_set l).
Proof using HO HL.
  induction 1 as [|x l Hx Hl IH]; cbn [list_to_set lcount].
  { unfold LinkCountOf. rewrite elements_empty. done. }
  rewrite LinkCountOf_insert by set_solver. rewrite IH. f_equal. apply ctrue_perm.
  by rewrite elements_list_to_set.
Qed.
Lemma lcount_repeat l a b : (∃ l1 l2 l3, l = l1 ++ a :: l2 ++ a :: l3) → b ∈ l → linked h a b →
  LinkCountOf h (list_to_set l) < lcount l.
Proof using HO HL.
  intros (l1 & l2 & l3 & ->) Hb Hab.
  set (l' := l1 ++ l2 ++ a :: l3).
  assert (Hp : l1 ++ a :: l2 ++ a :: l3 ≡ₚ a :: l').
  { unfold l'. by rewrite <- Permutation_middle. }
  rewrite (lcount_perm _ _ Hp). cbn [lcount].
  replace (list_to_set (l1 ++ a :: l2 ++ a :: l3) : gset nat) with (list_to_set l' : gset nat).
  2:{ apply set_eq. intros y. unfold l'. rewrite !elem_of_list_to_set. set_solver. }
  pose proof (lcount_ge l') as H1.
  assert (b ∈ l').
  { rewrite Hp in Hb. apply elem_of_cons in Hb as [-> |H]; [by destruct (linked_irr a)|done]. }
  assert (1 ≤ ctrue (linkedb a) l'); [|lia].
  unfold ctrue. destruct (filter _ l') eqn:E; [|cbn; lia].
  assert (b ∈ filter (λ x, linkedb a x = true) l') as H2.
  { apply elem_of_list_filter. split; [by apply linkedb_spec|done]. }
  rewrite E in H2. by apply elem_of_nil in H2.
Qed.
End count.

(** ** Programs that only cache links *)
(** [h] presents the same events as [h0]: the same order, coordinates and labels; its link
    caches are correct. *)
Definition same_view (h0 h : heap) : Prop :=
  same_order h0 h ∧ link_inv h ∧ order_inv h ∧
  ∀ x, Base.coords h x = Base.coords h0 x ∧ Base.pos h x = Base.pos h0 x ∧ lab h x = lab h0 x.
Lemma same_view_refl h : order_inv h → link_inv h → same_view h h.
Proof. intros HO HL. split; [done|]. by split_and!. Qed.
Lemma same_view_after q h0 h x : same_view h0 h → same_view h0 (after q h x).
Proof.
  intros (H1 & H2 & H3 & H4). assert (HP : link_paired h) by (by apply link_inv_paired).
  rewrite after_cases by done. destruct (hasBeenLinked h x); [done|].
  pose proof (link_same_order h x) as Hs.
  split; [by eapply same_order_trans|]. split; [by apply link_inv_link|]. split; [by eapply same_order_inv|].
  intros y. destruct (H4 y) as (E1 & E2 & E3). rewrite <- E1, <- E2, <- E3.
  unfold Base.coords, Base.pos, lab. rewrite link_lookup. by destruct (decide (y = x)) as [->|].
Qed.
Lemma same_view_links h0 h x : order_inv h0 → link_inv h0 → same_view h0 h →
  LinkPast h x = LinkPast h0 x ∧ LinkFuture h x = LinkFuture h0 x.
Proof.
  intros HO HL (H1 & H2 & H3 & _). split; apply set_eq; intros y.
  - rewrite !LinkPast_spec by done. by apply same_order_covers.
  - rewrite !LinkFuture_spec by done. by apply same_order_covers.
Qed.
Lemma isLinkedTo_value h x y : order_inv h → link_inv h → snd (isLinkedTo h x y) = linkedb h x y.
Proof.
  intros HO HL. apply eq_true_iff_eq. rewrite linkedb_spec by done.
  pose proof (queries_covers h x y HO HL) as (_&_&_&_&_&H). rewrite H. unfold linked. tauto.
Qed.

Section hoare.
Context (h0 : heap) (HO : order_inv h0) (HL : link_inv h0).
Definition hoare {A} (m : M A) (Q : res A → list artist → Prop) : Prop :=
  ∀ h ax, same_view h0 h → ∃ h' arts r, same_view h0 h' ∧ m (h, ax) = ((h', (ax ++ arts)%list), r) ∧ Q r arts.
Lemma hoare_cons {A} (m : M A) (Q Q' : res A → list artist → Prop) :
  hoare m Q' → (∀ r arts, Q' r arts → Q r arts) → hoare m Q.
Proof. intros H HQ h ax Hv. destruct (H h ax Hv) as (h'&arts&r&H1&H2&H3). exists h', arts, r. auto. Qed.
Lemma hoare_ret {A} (a : A) (Q : res A → list artist → Prop) : Q (Ok a) [] → hoare (ret a) Q.
Proof. intros HQ h ax Hv. exists h, [], (Ok a). by rewrite app_nil_r. Qed.
Lemma hoare_lift {A} (r : res A) (Q : res A → list artist → Prop) : Q r [] → hoare (lift r) Q.
Proof. intros HQ h ax Hv. exists h, [], r. by rewrite app_nil_r. Qed.
Lemma hoare_raise {A} e (Q : res A → list artist → Prop) : Q (Err e) [] → hoare (raise e) Q.
Proof. intros HQ h ax Hv. exists h, [], (Err e). by rewrite app_nil_r. Qed.
Lemma hoare_draw a (Q : res artist → list artist → Prop) : Q (Ok a) [a] → hoare (draw a) Q.
Proof. intros HQ h ax Hv. by exists h, [a], (Ok a). Qed.
Lemma hoare_bind {A B} (m : M A) (f : A → M B) (Q : res B → list artist → Prop) :
  hoare m (λ r arts, match r with Ok a => hoare (f a) (λ r2 arts2, Q r2 (arts ++ arts2)%list) | Err e => Q (Err e) arts end) →
  hoare (bind m f) Q.
Proof.
  intros H h ax Hv. destruct (H h ax Hv) as (h1&arts&r&H1&H2&H3). unfold bind. rewrite H2. destruct r as [a|e].
  - destruct (H3 h1 (ax ++ arts)%list H1) as (h2&arts2&r2&K1&K2&K3). exists h2, (arts ++ arts2)%list, r2.
    rewrite K2, app_assoc. by split_and!.
  - by exists h1, arts, (Err e).
Qed.
Lemma hoare_bind_lift {A B} (r : res A) (a : A) (f : A → M B) (Q : res B → list artist → Prop) :
  r = Ok a → hoare (f a) Q → hoare (bind (lift r) f) Q.
Proof. intros -> H. apply hoare_bind, hoare_lift. done. Qed.
Lemma hoare_get_attr embedded a (Q : res (list R) → list artist → Prop) :
  Q (attr_of embedded h0 a) [] → hoare (get_attr embedded a) Q.
Proof.
  intros HQ h ax Hv. exists h, [], (attr_of embedded h0 a). rewrite app_nil_r. split_and!; [done| |done].
  destruct Hv as (_&_&_&H). destruct (H a) as (E1&E2&_). cbn. unfold attr_of, Coordinates, get_Position. by rewrite E1, E2.
Qed.
Lemma hoare_lab a (Q : res label → list artist → Prop) : Q (Ok (lab h0 a)) [] → hoare (lab_of a) Q.
Proof.
  intros HQ h ax Hv. exists h, [], (Ok (lab h0 a)). rewrite app_nil_r. split_and!; [done| |done].
  destruct Hv as (_&_&_&H). destruct (H a) as (_&_&E). cbn. by rewrite E.
Qed.
Lemma hoare_is_linked a b (Q : res bool → list artist → Prop) :
  Q (Ok (linkedb h0 a b)) [] → hoare (is_linked_to a b) Q.
Proof using HO HL.
  intros HQ h ax Hv. exists (fst (isLinkedTo h a b)), [], (Ok (linkedb h0 a b)). rewrite app_nil_r.
  split_and!; [by apply (same_view_after (QisLinkedTo b))| |done].
  cbn. rewrite (surjective_pairing (isLinkedTo h a b)). destruct Hv as (?&?&?&?) eqn:EV. rewrite isLinkedTo_value by done.
  unfold linkedb. destruct (same_view_links h0 h a HO HL Hv) as [-> ->]. done.
Qed.

(** *** Reading points *)
Section points.
Context (embedded : bool) (dims : list nat).
Local Notation pc := (plot_coords embedded h0).
Local Notation pt := (point embedded dims h0).
Lemma attr_plottable a : plottable embedded dims h0 a → attr_of embedded h0 a = Ok (pc a).
Proof.
  intros [H _]. unfold attr_of, plot_coords, Coordinates, get_Position. destruct embedded; [|done].
  destruct (H eq_refl) as [c ->]. done.
Qed.
Lemma project_ok c (ds : list nat) : (∀ d, d ∈ ds → d < length c) → project ds c = Ok ((λ d, nth d c 0%R) <$> ds).
Proof.
  induction ds as [|d ds IH]; intros H; [done|]. cbn.
  destruct (lookup_lt_is_Some_2 c d) as [x Hx]; [apply H; left|]. rewrite Hx.
  unfold project in IH. rewrite IH by (intros; apply H; by right). cbn.
  by rewrite (nth_lookup_Some _ _ _ _ Hx).
Qed.
Lemma project_plottable a : plottable embedded dims h0 a → project dims (pc a) = Ok (pt a).
Proof. intros [_ H]. by apply project_ok. Qed.
Lemma hoare_attr {B} a (f : list R → M B) (Q : res B → list artist → Prop) : plottable embedded dims h0 a →
  hoare (f (pc a)) Q → hoare (bind (get_attr embedded a) f) Q.
Proof. intros Hp H. apply hoare_bind, hoare_get_attr. rewrite attr_plottable by done. done. Qed.
End points.

(** *** Static plots *)
Section static.
Context (pl : plotting) (embedded : bool) (events : list nat).
Local Notation pt := (point embedded (pl_dims pl) h0).
Context (Hpl : ∀ a, a ∈ events → plottable embedded (pl_dims pl) h0 a).
Definition gap_filter (a b : nat) (l : list nat) : list nat :=
  filter (λ e, e ≠ a ∧ e ≠ b ∧ in_box (pt a) (pt e) (pt b) = true ∧ (area (pt a) (pt e) (pt b) < line_eps)%R) l.
Lemma gap_points_run a b (Q : res (list (list R)) → list artist → Prop) : Q (Ok (pt <$> gap_filter a b events)) [] → hoare (gap_points pl embedded events a b (pt a) (pt b)) Q.
Proof using Hpl.
  assert (G : ∀ l acc (Q : res (list (list R)) → list artist → Prop), (∀ x, x ∈ l → x ∈ events) → Q (Ok (acc ++ (pt <$> gap_filter a b l))%list) [] →
    hoare (for_each l acc (λ e acc,
      if decide (e = a ∨ e = b) then ret acc
      else bind (get_attr embedded e) (λ c, bind (lift (project (pl_dims pl) c)) (λ pe,
        ret (if in_box (pt a) pe (pt b) && bool_decide (area (pt a) pe (pt b) < line_eps)%R then (acc ++ [pe])%list else acc))))) Q).
  { clear Q. intros l. induction l as [|e l IH]; intros acc Q Hl HQ; cbn [for_each].
    - apply hoare_ret. by rewrite app_nil_r in HQ.
    - apply hoare_bind. unfold gap_filter in HQ. rewrite filter_cons in HQ.
      destruct (decide (e = a ∨ e = b)) as [He|He].
      + apply hoare_ret. apply IH; [intros; apply Hl; by right|]. cbn [app].
        destruct (decide (e ≠ a ∧ _)) as [[? [? _]]|_]; [tauto|done].
      + eapply hoare_attr; [apply Hpl, Hl; by left|]. eapply hoare_bind_lift; [apply project_plottable, Hpl, Hl; by left|].
        apply hoare_ret. apply IH; [intros; apply Hl; by right|]. cbn [app].
        destruct (decide (e ≠ a ∧ _)) as [(?&?&H1&H2)|Hn].
        * rewrite H1, bool_decide_true by done. cbn [andb]. rewrite <- app_assoc. done.
        * destruct (in_box (pt a) (pt e) (pt b)) eqn:E1; cbn [andb]; [|done]. case_bool_decide; [|done]. tauto. }
  intros HQ. unfold gap_points. by apply G.
Qed.
Definition link_line (params : dict pyval) (p : nat * nat) : artist :=
  let pts := link_points (pt p.1) (pt p.2) (pt <$> gap_filter p.1 p.2 events) in
  ALine pts params None None (Some (seq 1 (length pts - 2))).
Lemma static_link_run params a b (Q : res artist → list artist → Prop) : Q (Ok (link_line params (a, b))) [link_line params (a, b)] →
  hoare (static_link pl embedded events params a b (pt a) (pt b)) Q.
Proof using Hpl. intros HQ. unfold static_link. apply hoare_bind, gap_points_run, hoare_draw. done. Qed.

(** The slots after the links [ps] have been drawn, [k] slots being left. *)
Definition filled (done : list artist) (k : nat) : list (option artist) * nat :=
  ((Some <$> done) ++ replicate k None, length done)%list.
Definition fill_post (params : dict pyval) (done : list artist) (k : nat) (ps : list (nat * nat))
    (r : res (list (option artist) * nat)) (arts : list artist) : Prop :=
  if decide (length ps <= k)
  then r = Ok (filled (done ++ (link_line params <$> ps)) (k - length ps)) ∧ arts = (link_line params <$> ps)%list
  else r = Err IndexError.
Definition lpairs (l : list (nat * nat)) : list (nat * nat) := filter (λ p, linkedb h0 p.1 p.2 = true) l.
Lemma store_filled done k ar :
  store (fst (filled done k)) (length done) ar =
  if decide (1 <= k) then Ok (fst (filled (done ++ [ar]) (k - 1))) else Err IndexError.
Proof.
  unfold store, filled. cbn [fst]. rewrite app_length, fmap_length, replicate_length.
  destruct (decide (1 <= k)); destruct (decide (length done < length done + k)); try lia; [|done].
  f_equal. destruct k as [|k]; [lia|]. cbn [Nat.sub replicate]. rewrite Nat.sub_0_r.
  rewrite insert_app_r_alt by (rewrite fmap_length; lia). rewrite fmap_length, Nat.sub_diag.
  cbn. rewrite fmap_app. cbn. by rewrite <- app_assoc.
Qed.
Lemma fill_step params done k p ps r arts : 1 <= k →
  fill_post params (done ++ [link_line params p]) (k - 1) ps r arts →
  fill_post params done k (p :: ps) r (link_line params p :: arts).
Proof.
  unfold fill_post. intros Hk. cbn [length]. destruct (decide (length ps <= k - 1)), (decide (S (length ps) <= k)); try lia; [|done].
  intros [-> ->]. rewrite fmap_cons, <- app_assoc. cbn [app].
  replace (k - 1 - length ps) with (k - S (length ps)) by lia. done.
Qed.
Lemma static_row_run params a bs done k : a ∈ events → (∀ b, b ∈ bs → b ∈ events) →
  hoare (static_row pl embedded events params a (plot_coords embedded h0 a) bs (filled done k))
    (fill_post params done k (lpairs ((λ b, (a, b)) <$> bs))).
Proof using Hpl HO HL.
  intros Ha. revert done k. induction bs as [|b bs IH]; intros done k Hbs.
  - unfold static_row. cbn [for_each]. apply hoare_ret. unfold fill_post. cbn. destruct (decide (0 <= k)); [|lia].
    by rewrite app_nil_r, Nat.sub_0_r.
  - unfold static_row. cbn [for_each]. rewrite (surjective_pairing (filled done k)) at 1. apply hoare_bind.
    eapply hoare_attr; [apply Hpl, Hbs; by left|]. apply hoare_bind, hoare_is_linked.
    unfold lpairs. rewrite fmap_cons, filter_cons. cbn [fst snd].
    destruct (linkedb h0 a b) eqn:E.
    + destruct (decide (true = true)); [|done].
      eapply hoare_bind_lift; [apply project_plottable, Hpl, Ha|]. eapply hoare_bind_lift; [apply project_plottable, Hpl, Hbs; by left|].
      apply hoare_bind, static_link_run. apply hoare_bind, hoare_lift.
      cbn [snd filled]. fold (filled done k). pose proof (store_filled done k (link_line params (a, b))) as ES.
      rewrite ES. destruct (decide (1 <= k)).
      * apply hoare_ret. cbn [app].
        replace (S (length done)) with (length (done ++ [link_line params (a, b)])%list) by (rewrite app_length; cbn; lia).
        eapply hoare_cons; [apply (IH (done ++ [link_line params (a, b)])%list (k - 1)); intros; apply Hbs; by right|].
        intros r arts H. by apply fill_step.
      * unfold fill_post. cbn [length]. destruct (decide (S _ <= k)); [lia|done].
    + destruct (decide (false = true)); [done|]. apply hoare_ret. cbn [app].
      rewrite <- surjective_pairing. apply IH. intros; apply Hbs; by right.
Qed.
Lemma fill_app params done k ps1 ps2 r1 arts1 r arts :
  fill_post params done k ps1 r1 arts1 →
  (match r1 with
   | Ok acc => ∃ done' k', acc = filled done' k' ∧ (r1 = Ok (filled (done ++ (link_line params <$> ps1)) (k - length ps1)) → 
       fill_post params (done ++ (link_line params <$> ps1)) (k - length ps1) ps2 r arts)
   | Err e => r = Err e ∧ arts = [] end) →
  fill_post params done k (ps1 ++ ps2) r (arts1 ++ arts)%list.
Proof.
  unfold fill_post. rewrite app_length. destruct (decide (length ps1 <= k)) as [H1|H1].
  - intros [-> ->] (d' & k' & E & H). specialize (H eq_refl).
    destruct (decide (length ps2 <= k - length ps1)), (decide (length ps1 + length ps2 <= k)); try lia; [|done].
    destruct H as [-> ->]. rewrite fmap_app, <- app_assoc.
    replace (k - length ps1 - length ps2) with (k - (length ps1 + length ps2)) by lia. done.
  - intros -> [-> ->]. destruct (decide (length ps1 + length ps2 <= k)); [lia|done].
Qed.
Lemma static_links_run params rest done k : (∀ b, b ∈ rest → b ∈ events) →
  hoare (static_links pl embedded events params rest (filled done k))
    (fill_post params done k (lpairs (pairs_of rest))).
Proof using Hpl HO HL.
  revert done k. induction rest as [|a rest IH]; intros done k Hr; cbn [static_links].
  - apply hoare_ret. unfold fill_post. cbn. destruct (decide (0 <= k)); [|lia].
    by rewrite app_nil_r, Nat.sub_0_r.
  - eapply hoare_attr; [apply Hpl, Hr; by left|]. apply hoare_bind.
    eapply hoare_cons; [apply static_row_run; [apply Hr; by left|intros; apply Hr; by right]|].
    intros r arts H. cbn [pairs_of]. unfold lpairs. rewrite filter_app. fold (lpairs (pairs_of rest)).
    fold (lpairs ((λ b, (a, b)) <$> rest)). destruct r as [acc|e].
    + assert (acc = filled (done ++ (link_line params <$> lpairs ((λ b, (a, b)) <$> rest)))
        (k - length (lpairs ((λ b, (a, b)) <$> rest)))) as ->.
      { unfold fill_post in H. destruct (decide (length _ <= k)); [|done]. destruct H as [H _]. congruence. }
      eapply hoare_cons; [apply IH; intros; apply Hr; by right|]. intros r2 arts2 H2.
      eapply fill_app; [exact H|]. eexists _, _. split; [done|]. done.
    + rewrite <- (app_nil_r arts). by eapply fill_app.
Qed.
Definition event_mark (params : dict pyval) (a : nat) : artist := ALine [pt a] params None None None.
Definition label_mark (params : dict pyval) (a : nat) : artist := AText (pt a) (lab h0 a) params.
Lemma static_events_run params (Q : res (list (option artist)) → list artist → Prop) :
  Q (Ok (Some <$> (event_mark params <$> events))) (event_mark params <$> events) →
  hoare (static_events pl embedded events params) Q.
Proof using Hpl.
  assert (G : ∀ l acc (Q : res (list (option artist)) → list artist → Prop), (∀ x, x ∈ l → x ∈ events) →
    Q (Ok (acc ++ (Some <$> (event_mark params <$> l)))%list) (event_mark params <$> l) →
    hoare (for_each l acc (λ a acc,
      bind (get_attr embedded a) (λ c, bind (lift (project (pl_dims pl) c)) (λ p,
      bind (draw (ALine [p] params None None None)) (λ ar, ret (acc ++ [Some ar])%list))))) Q).
  { clear Q. intros l. induction l as [|e l IH]; intros acc Q Hl HQ; cbn [for_each].
    - apply hoare_ret. by rewrite app_nil_r in HQ.
    - apply hoare_bind. eapply hoare_attr; [apply Hpl, Hl; by left|].
      eapply hoare_bind_lift; [apply project_plottable, Hpl, Hl; by left|].
      apply hoare_bind, hoare_draw, hoare_ret. apply IH; [intros; apply Hl; by right|].
      cbn [app]. rewrite <- app_assoc. exact HQ. }
  intros HQ. unfold static_events. by apply G.
Qed.
Lemma static_labels_run params (Q : res (list (option artist)) → list artist → Prop) :
  Q (Ok (Some <$> (label_mark params <$> events))) (label_mark params <$> events) →
  hoare (static_labels pl embedded events params) Q.
Proof using Hpl.
  assert (G : ∀ l acc (Q : res (list (option artist)) → list artist → Prop), (∀ x, x ∈ l → x ∈ events) →
    Q (Ok (acc ++ (Some <$> (label_mark params <$> l)))%list) (label_mark params <$> l) →
    hoare (for_each l acc (λ a acc,
      bind (get_attr embedded a) (λ c, bind (lift (project (pl_dims pl) c)) (λ p,
      bind (lab_of a) (λ lb, bind (draw (AText p lb params)) (λ ar, ret (acc ++ [Some ar])%list)))))) Q).
  { clear Q. intros l. induction l as [|e l IH]; intros acc Q Hl HQ; cbn [for_each].
    - apply hoare_ret. by rewrite app_nil_r in HQ.
    - apply hoare_bind. eapply hoare_attr; [apply Hpl, Hl; by left|].
      eapply hoare_bind_lift; [apply project_plottable, Hpl, Hl; by left|].
      apply hoare_bind, hoare_lab. apply hoare_bind, hoare_draw, hoare_ret. apply IH; [intros; apply Hl; by right|].
      cbn [app]. rewrite <- app_assoc. exact HQ. }
  intros HQ. unfold static_labels. by apply G.
Qed.
End static.

(** *** Plotter *)
Lemma link_count_run it pl events (Q : res nat → list artist → Prop) :
  Q (Ok (match pl_links pl with Some _ => LinkCountOf h0 (list_to_set events) | None => 0 end)) [] →
  hoare (link_count it pl events) Q.
Proof using HO HL.
  intros HQ h ax Hv. unfold link_count. destruct (pl_links pl); [|by exists h, [], (Ok 0); rewrite app_nil_r].
  eexists _, [], _. rewrite app_nil_r. split; [|split; [reflexivity|]].
  - generalize (it 41 (list_to_set events)). intros l. revert h Hv. induction l as [|x l IH]; intros h Hv; [done|].
    cbn [foldl]. apply IH. by apply (same_view_after QLinkPast).
  - cbn beta. replace (LinkCountOf h (list_to_set events)) with (LinkCountOf h0 (list_to_set events)); [done|].
    unfold LinkCountOf. f_equal. apply list_fmap_ext. intros i e _.
    by destruct (same_view_links h0 h e HO HL Hv) as [-> _].
Qed.
End hoare.

(** *** A static plot without cones *)
Section whole.
Context (h0 : heap) (HO : order_inv h0) (HL : link_inv h0).
Context (g : scheme) (dc : dict pyval) (it : oracle) (slice : list R → R → res bool).
Definition static_post (pl : plotting) (emb : bool) (events : list nat)
    (r : res handles) (arts : list artist) : Prop :=
  let ps := lpairs h0 (pairs_of events) in
  let ln p := link_line h0 pl emb events p <$> ps in
  let em p := event_mark h0 pl emb p <$> events in
  let lm p := label_mark h0 pl emb p <$> events in
  match truthy (pl_links pl) with
  | Some p =>
    if decide (length ps <= LinkCountOf h0 (list_to_set events)) then
      arts = (ln p ++ default [] (em <$> pl_events pl) ++ default [] (lm <$> pl_labels pl))%list ∧
      r = res_map (Handles None None
            (Some ((Some <$> ln p) ++ replicate (LinkCountOf h0 (list_to_set events) - length ps) None)%list)
            ((λ p, Some <$> em p) <$> pl_events pl) ((λ p, Some <$> lm p) <$> pl_labels pl)) (set_limits pl)
    else r = Err IndexError
  | None =>
      arts = (default [] (em <$> pl_events pl) ++ default [] (lm <$> pl_labels pl))%list ∧
      r = res_map (Handles None None
            ((λ _, replicate (LinkCountOf h0 (list_to_set events)) None) <$> pl_links pl)
            ((λ p, Some <$> em p) <$> pl_events pl) ((λ p, Some <$> lm p) <$> pl_labels pl)) (set_limits pl)
  end.
Lemma plot_static_run E st time kw pl :
  plot_parameters g dc kw = Ok pl → pl_dynamic pl = None → pl_pastcones pl = None → pl_futurecones pl = None →
  (∀ a, a ∈ plot_events it E → plottable (is_embedded E st) (pl_dims pl) h0 a) →
  hoare h0 (plot g dc it slice E st time kw) (static_post pl (is_embedded E st) (plot_events it E)).
Proof using HO HL.
  intros Hpl Hdyn Hpc Hfc Hev. unfold plot, Plotter.
  set (events := plot_events it E) in *. set (emb := is_embedded E st) in *.
  apply hoare_bind. eapply hoare_bind_lift; [exact Hpl|].
  apply hoare_bind, link_count_run; [done|done|].
  unfold cone_alpha, dynamic_setup. rewrite Hpc, Hfc, Hdyn.
  eapply hoare_bind_lift; [done|]. eapply hoare_bind_lift; [done|]. eapply hoare_bind_lift; [done|].
  apply hoare_ret. cbn [app]. unfold timeslice. cbn [pr_pl pr_pc pr_fc pr_dyn pr_links pr_events pr_embedded].
  apply hoare_bind, hoare_ret. set (n := match pl_links pl with Some _ => _ | None => _ end).
  apply hoare_bind. apply hoare_bind.
  assert (Hlast : ∀ lk arts0,
    (let em p := event_mark h0 pl emb p <$> events in
     let lm p := label_mark h0 pl emb p <$> events in
     static_post pl emb events
      (res_map (Handles None None (match pl_links pl with Some _ => Some lk | None => None end)
            ((λ p, Some <$> em p) <$> pl_events pl) ((λ p, Some <$> lm p) <$> pl_labels pl)) (set_limits pl))
      (arts0 ++ default [] (em <$> pl_events pl) ++ default [] (lm <$> pl_labels pl))%list) →
    hoare h0 (bind match pl_events pl with Some p => static_events pl emb events p | None => ret [] end
      (λ evs, bind match pl_labels pl with Some p => static_labels pl emb events p | None => ret [] end
        (λ lbls, ret (lk, evs, lbls))))
      (λ r arts, match r with
        | Ok a => hoare h0 (let '(lk, evs, lbls) := a in bind (lift (set_limits pl)) (λ lim,
            ret (Handles None None (match pl_links pl with Some _ => Some lk | None => None end)
               (match pl_events pl with Some _ => Some evs | None => None end)
               (match pl_labels pl with Some _ => Some lbls | None => None end) lim)))
            (λ r2 arts2, static_post pl emb events r2 ((arts0 ++ arts) ++ arts2)%list)
        | Err e => static_post pl emb events (Err e) (arts0 ++ arts)%list end)).
  { clear -Hev HO HL. intros lk arts0. cbn zeta. intros HQ.
    assert (Hend : ∀ evs lbls arts,
      static_post pl emb events
        (res_map (Handles None None (match pl_links pl with Some _ => Some lk | None => None end)
               (match pl_events pl with Some _ => Some evs | None => None end)
               (match pl_labels pl with Some _ => Some lbls | None => None end)) (set_limits pl)) (arts0 ++ arts)%list →
      hoare h0 (bind (lift (set_limits pl)) (λ lim,
            ret (Handles None None (match pl_links pl with Some _ => Some lk | None => None end)
               (match pl_events pl with Some _ => Some evs | None => None end)
               (match pl_labels pl with Some _ => Some lbls | None => None end) lim)))
            (λ r2 arts2, static_post pl emb events r2 ((arts0 ++ arts) ++ arts2)%list)).
    { intros evs lbls arts HQ2. apply hoare_bind, hoare_lift. destruct (set_limits pl) as [lim|e].
      - apply hoare_ret. cbn [app]. by rewrite app_nil_r.
      - by rewrite app_nil_r. }
    apply hoare_bind.
    destruct (pl_events pl) as [pe|]; [apply static_events_run; [done|]|apply hoare_ret];
      apply hoare_bind;
      (destruct (pl_labels pl) as [pb|]; [apply static_labels_run; [done|]|apply hoare_ret]);
      apply hoare_ret; apply Hend; unfold Datatypes.id in HQ; cbn [fmap option_fmap option_map default app] in HQ |- *; unfold Datatypes.id in HQ;
      rewrite ?app_nil_r in HQ; rewrite ?app_nil_r; rewrite <- ?app_assoc; cbn [app]; rewrite ?app_nil_r; first [exact HQ|exact []]. }
  destruct (truthy (pl_links pl)) as [p|] eqn:ET.
  - assert (En : n = LinkCountOf h0 (list_to_set events)).
    { unfold n. destruct (pl_links pl); [done|]. discriminate ET. }
    assert (Ep : ∃ p', pl_links pl = Some p') by (destruct (pl_links pl); [eauto|discriminate ET]).
    destruct Ep as [p' Ep].
    eapply hoare_cons; [apply (static_links_run h0 HO HL pl emb events Hev p events [] n); done|].
    intros r arts H. unfold fill_post in H. cbn [app] in H.
    destruct (decide (length (lpairs h0 (pairs_of events)) <= n)) as [Hn|Hn].
    + destruct H as [-> ->]. unfold filled. cbn [fst]. apply (Hlast _ (link_line h0 pl emb events p <$> lpairs h0 (pairs_of events))).
      cbn zeta. unfold static_post. rewrite ET, Ep, <- En. destruct (decide (_ <= n)); [|done]. done.
    + subst r. unfold static_post. rewrite ET, <- En. destruct (decide (_ <= n)); [done|done].
  - apply hoare_ret. apply (Hlast _ []). cbn zeta. unfold static_post. rewrite ET. cbn [app fst]. split; [done|].
    f_equal. f_equal. unfold n. destruct (pl_links pl); done.
Qed.
End whole.

(** ** The points of a line *)
Lemma in_box_spec a e b : length a = length e → length b = length e → in_box a e b = true ↔ boxed a e b.
Proof.
  revert e b. induction a as [|x a IH]; intros [|y e] [|z b] H1 H2; try discriminate.
  - cbn. split; [|done]. intros _ i ? ? ? H. by rewrite lookup_nil in H.
  - cbn. rewrite andb_true_iff, bool_decide_eq_true, IH by (cbn in *; lia). split.
    + intros [Hx Hr] [|i] u v w; cbn; [|apply Hr]. intros [= ->] [= ->] [= ->].
      unfold Rmin, Rmax. destruct (Rle_dec u w); lra.
    + intros H. split.
      * specialize (H 0 x y z eq_refl eq_refl eq_refl). unfold Rmin, Rmax in H. destruct (Rle_dec x z); lra.
      * intros i. apply (H (S i)).
Qed.
Lemma sq_lt_iff (x e : R) : (0 < e)%R → (Rabs x < e)%R ↔ (x * x < e ^ 2)%R.
Proof.
  intros He. replace (x * x)%R with (Rabs x * Rabs x)%R by (unfold Rabs; destruct (Rcase_abs x); ring).
  pose proof (Rabs_pos x) as Hx. replace (e ^ 2)%R with (e * e)%R by ring. split; intros H.
  - by apply Rmult_le_0_lt_compat.
  - destruct (Rlt_le_dec (Rabs x) e) as [Hc|Hc]; [done|]. exfalso.
    apply (Rlt_irrefl (e * e)). eapply Rle_lt_trans; [|exact H]. apply Rmult_le_compat; lra.
Qed.
Lemma line_eps_pos : (0 < line_eps)%R.
Proof. unfold line_eps. apply Rinv_0_lt_compat, pow_lt. lra. Qed.
Lemma area_spec a e b : length e = 2 ∨ length e = 3 → length a = length e → length b = length e →
  (area a e b < line_eps)%R ↔ (cross2 (minus e a) (minus b a) < line_eps ^ 2)%R.
Proof.
  intros Hd H1 H2. pose proof line_eps_pos as He. generalize dependent line_eps. intros eps He.
  destruct Hd as [Hd|Hd]; rewrite Hd in H1, H2.
  - destruct a as [|a1 [|a2 [|]]], e as [|e1 [|e2 [|]]], b as [|b1 [|b2 [|]]]; try discriminate.
    cbn [area]. rewrite sq_lt_iff by done. unfold cross2, minus, dot. cbn.
    match goal with |- (?x < _)%R ↔ (?y < _)%R => replace y with x by ring end. done.
  - destruct a as [|a1 [|a2 [|a3 [|]]]], e as [|e1 [|e2 [|e3 [|]]]], b as [|b1 [|b2 [|b3 [|]]]]; try discriminate.
    cbn [area]. match goal with |- (sqrt ?x < _)%R ↔ _ => set (s := x) end.
    assert (Hs : (0 <= s)%R) by (unfold s; repeat apply Rplus_le_le_0_compat; apply pow2_ge_0).
    assert (E : cross2 (minus [e1; e2; e3] [a1; a2; a3]) (minus [b1; b2; b3] [a1; a2; a3]) = s)
      by (unfold cross2, minus, dot, s; cbn; ring).
    rewrite E. rewrite <- (Rabs_right (sqrt s)) by (apply Rle_ge, sqrt_pos). rewrite sq_lt_iff by done. by rewrite sqrt_sqrt.
Qed.
Lemma near_segment_spec a e b : length e = 2 ∨ length e = 3 → length a = length e → length b = length e →
  (in_box a e b = true ∧ (area a e b < line_eps)%R) ↔ near_segment a e b.
Proof. intros Hd H1 H2. rewrite in_box_spec, area_spec by done. done. Qed.
Lemma on_segment_near a e b : length a = length b → on_segment a e b → near_segment a e b.
Proof.
  intros Hl (t & Ht & ->). split.
  - intros i x y z Hx Hy Hz. rewrite lookup_zip_with, Hx in Hy. cbn in Hy. rewrite Hz in Hy. cbn in Hy.
    injection Hy as <-. unfold Rmin, Rmax. destruct (Rle_dec x z); nra.
  - assert (E : minus (zip_with (λ x y, (1 - t) * x + t * y)%R a b) a = (Rmult t) <$> minus b a).
    { clear Ht. unfold minus. revert b Hl. induction a as [|x a IH]; intros [|y b] Hl; try discriminate; [done|].
      cbn. f_equal; [lra|]. apply IH. cbn in Hl. lia. }
    rewrite E. set (w := minus b a).
    assert (E1 : ∀ v u, dot ((Rmult t) <$> u) v = (t * dot u v)%R).
    { intros v u. revert v. unfold dot. induction u as [|x u IH]; intros [|y v]; cbn; try lra. rewrite IH. lra. }
    assert (E2 : ∀ v u, dot v ((Rmult t) <$> u) = (t * dot v u)%R).
    { intros v u. revert v. unfold dot. induction u as [|x u IH]; intros [|y v]; cbn; try lra. rewrite IH. lra. }
    unfold cross2. rewrite !E1, !E2. replace (_ - _)%R with 0%R by ring. pose proof line_eps_pos as He.
    unfold line_eps in He. apply pow_lt. exact He.
Qed.
(** The sorted points *)
Lemma lex_le_total p q : lex_le p q ∨ lex_le q p.
Proof.
  revert q. induction p as [|x p IH]; intros [|y q]; cbn; auto.
  destruct (Rtotal_order x y) as [H|[H|H]]; auto. subst. destruct (IH q); auto.
Qed.
Lemma lex_le_trans p q r : length p = length q → length q = length r → lex_le p q → lex_le q r → lex_le p r.
Proof.
  revert q r. induction p as [|x p IH]; intros [|y q] [|z r] H1 H2; try discriminate; cbn; [done|].
  intros [Ha|[-> Ha]] [Hb|[-> Hb]]; auto.
  - left. lra.
  - right. split; [done|]. apply (IH q r); auto.
Qed.
Lemma insert_point_perm p l : insert_point p l ≡ₚ p :: l.
Proof.
  induction l as [|q l IH]; cbn; [done|]. destruct (decide _); [done|]. rewrite IH. by constructor.
Qed.
Lemma lexsort_perm l : lexsort l ≡ₚ l.
Proof. induction l as [|p l IH]; cbn; [done|]. by rewrite insert_point_perm, IH. Qed.
Lemma insert_point_sorted p l : Sorted point_le l → Sorted point_le (insert_point p l).
Proof.
  induction l as [|q l IH]; intros Hs; cbn; [repeat constructor|].
  destruct (decide (point_le p q)) as [H|H]; [constructor; [done|by constructor]|].
  inversion Hs as [|? ? Hs' Hd]; subst. constructor; [by apply IH|].
  assert (Hqp : point_le q p) by (unfold point_le in *; destruct (lex_le_total (reverse p) (reverse q)); tauto).
  destruct l as [|r l]; cbn; [by constructor|]. destruct (decide (point_le p r)); constructor; [done|].
  by inversion Hd.
Qed.
Lemma lexsort_sorted l : Sorted point_le (lexsort l).
Proof. induction l as [|p l IH]; cbn; [constructor|]. by apply insert_point_sorted. Qed.
