(** More about EmbeddedCauset: the store after a relate that raised (C50). *)
From Verif Require Import Base Spec EventModel EventFacts History HistoryFacts EventProps CausetModel CausetFacts
  SpecBuild BuildModel BuildFacts MergeFacts SpacetimeModel ShapeModel EmbedModel EmbedFacts Prop_Event Prop_Embed.
#[local] Open Scope nat_scope.

Lemma relate_row_stops caus crd a bs b l2 : ∀ h, a ∈ dom h → (∀ b, b ∈ bs → b ∈ dom h) →
  has_crd crd h (a :: bs) → Base.coords h b = None →
  ∃ h', relate_row caus a (bs ++ b :: l2) h = (h', Err AttributeError) ∧
    rel_step h h' (λ x y, (x = a ∧ y ∈ bs ∧ (caus (crd a) (crd y)).1 = true) ∨
                          (y = a ∧ x ∈ bs ∧ (caus (crd a) (crd x)).2 = true)).
Proof.
  induction bs as [|c bs IH]; intros h Ha Hb Hc Hn; cbn [app relate_row].
  { unfold relate_pair, Coordinates. assert (Ec : Base.coords h a = Some (crd a)) by (apply Hc; apply elem_of_list_here). rewrite Ec, Hn. exists h. split; [done|].
    apply (rel_step_ext h h (λ _ _, False)); [|apply (rel_step_refl crd)]. intros x y. rewrite !elem_of_nil. tauto. }
  destruct (relate_pair_ok caus crd a c h) as (h1 & -> & H1); [done|apply Hb, elem_of_list_here|apply Hc, elem_of_list_here|
    apply Hc, elem_of_list_further, elem_of_list_here|].
  assert (Hd := rs_dom _ _ _ H1).
  destruct (IH h1) as (h2 & E & H2).
  { by rewrite Hd. } { intros x Hx. rewrite Hd. apply Hb. by apply elem_of_list_further. }
  { eapply has_crd_rest; [apply H1|]. intros x Hx. apply Hc. apply elem_of_cons in Hx as [->|Hx]; [apply elem_of_list_here|].
    by apply elem_of_list_further, elem_of_list_further. }
  { by destruct (rs_rest _ _ _ H1 b) as (_ & -> & _). }
  exists h2. split; [done|]. eapply rel_step_ext; [|exact (rel_step_trans crd _ _ _ _ _ H1 H2)].
  intros x y. cbn. rewrite !elem_of_cons. split.
  - intros [[(-> & -> & ?)|(-> & -> & ?)]|[(-> & ? & ?)|(-> & ? & ?)]]; tauto.
  - intros [(-> & [->|?] & ?)|(-> & [->|?] & ?)]; tauto.
Qed.

(** The events are visited in the order [l1 ++ b :: l2], where [b] is the first one without
    coordinates.  All relations among the events of the causet are gone except the ones between
    the first visited event and those visited before [b]; labels, coordinates, positions and
    link caches are as before, and so are all events outside. *)
Theorem C50_failed_relate (it : oracle) (caus : causality_fn) (link : bool) (h : heap) (C : gset nat)
    (crd : nat → list Q) (l1 l2 : list nat) (b : nat) :
  iter_ok it → C ⊆ dom h → 2 ≤ size C → it 31 C = l1 ++ b :: l2 →
  (∀ x, x ∈ l1 → Coordinates h x = Ok (crd x)) → isEmbedded h b = false →
  ∃ h', relate it caus link C h = (h', Err AttributeError) ∧ dom h' = dom h ∧
    (∀ x y, y ∈ C → before h' x y ↔
       match l1 with
       | [] => False
       | a :: seen => (x = a ∧ y ∈ seen ∧ fst (caus (crd a) (crd y)) = true) ∨
                      (y = a ∧ x ∈ seen ∧ snd (caus (crd a) (crd x)) = true)
       end) ∧
    (∀ x y, x ∈ C → y ∈ succ h' x ↔ y ∈ C ∧ before h' x y) ∧
    (∀ x, lab h' x = lab h x ∧ Base.coords h' x = Base.coords h x ∧ Base.pos h' x = Base.pos h x ∧
          lprec h' x = lprec h x ∧ lsucc h' x = lsucc h x) ∧
    (∀ y, y ∉ C → prec h' y = prec h y ∧ succ h' y = succ h y).
Proof.
  intros Hit HC H2 El Hcrd Hb. unfold relate.
  assert (HinC : ∀ x, x ∈ l1 ++ b :: l2 ↔ x ∈ C) by (intros x; by rewrite <- El, iter_elem).
  destruct (relate_reset_spec (it 30 C) h) as (Hd1 & Hr1 & Hps).
  { intros y Hy. rewrite iter_elem in Hy by done. by apply HC. }
  set (h1 := relate_reset (it 30 C) h) in *.
  assert (Hp1 : ∀ y, prec h1 y = if decide (y ∈ C) then ∅ else prec h y).
  { intros y. destruct (Hps y) as [-> _]. destruct (decide (y ∈ it 30 C)) as [Hy|Hy]; rewrite iter_elem in Hy by done.
    - by rewrite decide_True. - by rewrite decide_False. }
  assert (Hs1 : ∀ y, succ h1 y = if decide (y ∈ C) then ∅ else succ h y).
  { intros y. destruct (Hps y) as [_ ->]. destruct (decide (y ∈ it 30 C)) as [Hy|Hy]; rewrite iter_elem in Hy by done.
    - by rewrite decide_True. - by rewrite decide_False. }
  assert (Hbn : Base.coords h1 b = None).
  { destruct (Hr1 b) as (_ & -> & _). unfold isEmbedded in Hb. apply bool_decide_eq_false in Hb. by apply eq_None_not_Some. }
  assert (Hcrd1 : has_crd crd h1 l1).
  { intros x Hx. destruct (Hr1 x) as (_ & -> & _). specialize (Hcrd x Hx). unfold Coordinates in Hcrd.
    destruct (Base.coords h x); [|done]. congruence. }
  rewrite El. destruct l1 as [|a seen].
  - cbn [app relate_loop]. destruct l2 as [|c l2].
    { exfalso. assert (Hlen : length (it 31 C) = size C) by (rewrite (Hit 31 C); done). rewrite El in Hlen. cbn in Hlen. lia. }
    cbn [relate_row]. unfold relate_pair, Coordinates. rewrite Hbn. exists h1. split_and!; [done|done| | |exact Hr1|].
    + intros x y Hy. unfold before. rewrite Hp1, decide_True by done. split; [intros Hx; by apply elem_of_empty in Hx|done].
    + intros x y Hx. unfold before. rewrite Hs1, decide_True by done. split; [intros Hc; by apply elem_of_empty in Hc|].
      intros [Hy Hc]. rewrite Hp1, decide_True in Hc by done. by apply elem_of_empty in Hc.
    + intros y Hy. rewrite Hp1, Hs1. by rewrite !decide_False by done.
  - cbn [app relate_loop].
    destruct (relate_row_stops caus crd a seen b l2 h1) as (h' & -> & [S1 S2 S3 S4]).
    { rewrite Hd1. apply HC, HinC, elem_of_list_here. }
    { intros x Hx. rewrite Hd1. apply HC, HinC. cbn. apply elem_of_list_further, elem_of_app. by left. }
    { done. } { done. }
    assert (Hseen : ∀ x, x ∈ seen → x ∈ C).
    { intros x Hx. apply HinC. cbn. apply elem_of_list_further, elem_of_app. by left. }
    assert (HaC : a ∈ C) by (apply HinC, elem_of_list_here).
    exists h'. split_and!; [done|congruence| | | |].
    + intros x y Hy. unfold before. rewrite S3, Hp1, decide_True by done.
      split; [intros [Hx|Hx]; [by apply elem_of_empty in Hx|done]|by right].
    + intros x y Hx. unfold before. rewrite S4, Hs1, decide_True by done. split.
      * intros [Hc|Hc]; [by apply elem_of_empty in Hc|]. split; [|apply S3; by right].
        destruct Hc as [(-> & ? & _)|(-> & _ & _)]; [by apply Hseen|done].
      * intros [Hy Hc]. apply S3 in Hc as [Hc|Hc]; [|by right]. rewrite Hp1, decide_True in Hc by done.
        by apply elem_of_empty in Hc.
    + intros x. destruct (S2 x) as (-> & -> & -> & -> & ->). apply Hr1.
    + intros y Hy. split; apply set_eq; intros x.
      * rewrite S3, Hp1, decide_False by done. split; [|by left]. intros [?|[(_ & Hc & _)|(-> & _ & _)]]; [done| |done].
        exfalso. by apply Hy, Hseen.
      * rewrite S4, Hs1, decide_False by done. split; [|by left]. intros [?|[(-> & _ & _)|(_ & Hc & _)]]; [done|done|].
        exfalso. by apply Hy, Hseen.
Qed.
Print Assumptions C50_failed_relate.
(** Three events, the last one without coordinates: the relation 0 < 2 is lost, 0 < 1 found. *)
Definition part_ops : list op :=
  [ONew (LInt 1) ∅ ∅ [0; 0]%Q []; ONew (LInt 2) ∅ ∅ [2; 0]%Q []; ONew (LInt 3) {[0]} ∅ [] []; ODisembed 2].
Definition part : heap := run ∅ ((λ o, (it_elements, o)) <$> part_ops).
Definition newton : causality_fn := λ x y,
  let t c := Qnum (default (0 # 1)%Q (head c)) in
  (bool_decide (t x < t y)%Z, bool_decide (t y < t x)%Z).
Definition part_failed : heap * res unit := relate it_sorted newton true {[0; 1; 2]} part.
Example C50_failed_nonvacuous :
  it_sorted 31 {[0; 1; 2]} = [0; 1] ++ 2 :: [] ∧
  (∀ x, x ∈ [0; 1] → Coordinates part x = Ok (match x with 0 => [0; 0]%Q | _ => [2; 0]%Q end)) ∧
  isEmbedded part 2 = false ∧ ev_lt part 0 2 = true ∧
  snd part_failed = Err AttributeError ∧ ev_lt (fst part_failed) 0 1 = true ∧ ev_lt (fst part_failed) 0 2 = false.
Proof.
  split; [by vm_compute|]. split.
  { intros x Hx. repeat (apply elem_of_cons in Hx as [-> |Hx]; [by vm_compute|]). by apply elem_of_nil in Hx. }
  split_and!; by vm_compute.
Qed.
