(** Facts about FromPastMatrix and the CSV files. *)
From Verif Require Import Base Spec EventModel EventFacts CausetModel CausetFacts BuildModel
  BuildFacts FenceFacts PyStr.
From Coq Require Import Ascii.

(** Assigning all relations of a set of fresh events at once. *)
Lemma rewire h h0 h1 evs :
  fresh_causet h h0 evs → dom h1 = dom h0 →
  (∀ y, y ∉ evs → h1 !!! y = h0 !!! y) →
  (∀ x, x ∈ evs → lprec h1 x = None ∧ lsucc h1 x = None) →
  (∀ x y, x ∈ evs → y ∈ prec h1 x ∨ y ∈ succ h1 x → y ∈ evs) →
  (∀ x y, x ∈ evs → y ∈ evs → x ∈ prec h1 y ↔ y ∈ succ h1 x) →
  (∀ x, x ∈ evs → x ∉ prec h1 x) →
  (∀ x y z, x ∈ evs → y ∈ evs → z ∈ evs → x ∈ prec h1 y → y ∈ prec h1 z → x ∈ prec h1 z) →
  fresh_causet h h1 evs.
Proof.
  intros Hf Hdom Hold Hnl Hcl Hconv Hirr Htr.
  assert (HO := fc_order _ _ _ Hf).
  assert (Hsep : ∀ a b, a ∈ prec h0 b → (a ∈ evs ↔ b ∈ evs)).
  { intros a b Hab. split; intros Hin.
    - destruct (fc_closed _ _ _ Hf a) as [_ H]; [by apply elem_of_list_to_set|].
      apply (oi_conv h0 HO), H in Hab. by apply elem_of_list_to_set in Hab.
    - destruct (fc_closed _ _ _ Hf b) as [H _]; [by apply elem_of_list_to_set|].
      apply H in Hab. by apply elem_of_list_to_set in Hab. }
  assert (Hp : ∀ b, b ∉ evs → prec h1 b = prec h0 b ∧ succ h1 b = succ h0 b).
  { intros b Hb. unfold prec, succ. by rewrite (Hold b Hb). }
  assert (Hsep1 : ∀ a b, a ∈ prec h1 b → (a ∈ evs ↔ b ∈ evs)).
  { intros a b Hab. destruct (decide (b ∈ evs)) as [Hb|Hb].
    - split; [done|]. intros _. by apply (Hcl b a Hb); left.
    - apply Hsep. by destruct (Hp b Hb) as [<- _]. }
  assert (HO1 : order_inv h1).
  { split.
    - intros a b. destruct (decide (b ∈ evs)) as [Hb|Hb].
      + split.
        * intros Hab. apply Hconv; [by apply (Hsep1 a b)|done|done].
        * intros Hab. destruct (decide (a ∈ evs)) as [Ha|Ha]; [by apply Hconv|].
          destruct (Hp a Ha) as [_ H]. rewrite H in Hab. apply (oi_conv h0 HO) in Hab.
          exfalso. apply Ha. by apply (Hsep a b).
      + destruct (Hp b Hb) as [-> _]. destruct (decide (a ∈ evs)) as [Ha|Ha].
        * split; intros Hab; exfalso; apply Hb.
          -- by apply (Hsep a b).
          -- by apply (Hcl a b Ha); right.
        * destruct (Hp a Ha) as [_ ->]. apply (oi_conv h0 HO).
    - split.
      + intros a Ha. destruct (decide (a ∈ evs)) as [Hin|Hin]; [by apply (Hirr a)|].
        unfold before in Ha. destruct (Hp a Hin) as [H _]. rewrite H in Ha. by apply (oi_irr h0 HO a).
      + intros a b c Hab Hbc. unfold before in *. pose proof (Hsep1 _ _ Hab). pose proof (Hsep1 _ _ Hbc).
        destruct (decide (c ∈ evs)) as [Hc|Hc]; [apply (Htr a b c); tauto|].
        destruct (Hp c Hc) as [Ec _], (Hp b ltac:(tauto)) as [Eb _]. rewrite Ec in *. rewrite Eb in Hab.
        exact (oi_trans h0 HO _ _ _ Hab Hbc). }
  split; try done.
  - apply (fc_nodup _ _ _ Hf).
  - apply (fc_fresh _ _ _ Hf).
  - rewrite Hdom. apply (fc_in _ _ _ Hf).
  - rewrite Hdom. apply (fc_dom _ _ _ Hf).
  - intros y Hy. rewrite Hold; [by apply (fc_old _ _ _ Hf)|]. intros Hin. by apply (fc_fresh _ _ _ Hf y).
  - intros y. destruct (decide (y ∈ evs)) as [Hy|Hy]; [left; by apply Hnl|].
    destruct (fc_link _ _ _ Hf y) as [H|(lp & ls & H1 & H2 & H3 & H4)].
    + left. unfold lprec, lsucc. by rewrite Hold.
    + right. exists lp, ls. unfold lprec, lsucc. rewrite (Hold y Hy).
      assert (Hb : ∀ a b, b ∉ evs → before h1 a b ↔ before h0 a b).
      { intros a b Hb. unfold before. by destruct (Hp b Hb) as [-> _]. }
      assert (Hb' : ∀ a b, a ∉ evs → before h1 a b ↔ before h0 a b).
      { intros a b Ha. destruct (decide (b ∈ evs)) as [Hb0|Hb0]; [|by apply Hb].
        unfold before. split; intros Hx; exfalso; apply Ha; [by apply (Hsep1 a b)|by apply (Hsep a b)]. }
      assert (Hc : ∀ a b, a ∉ evs ∨ b ∉ evs → covers (before h1) a b ↔ covers (before h0) a b).
      { intros a b Hab. unfold covers. split; intros [H5 H6].
        - assert (Hnb : a ∉ evs ∧ b ∉ evs) by (pose proof (Hsep1 _ _ H5); tauto).
          rewrite Hb in H5 by tauto. split; [done|]. intros (c & H7 & H8). apply H6. exists c.
          rewrite Hb' by tauto. rewrite Hb by tauto. done.
        - assert (Hnb : a ∉ evs ∧ b ∉ evs) by (pose proof (Hsep _ _ H5); tauto).
          rewrite <- Hb in H5 by tauto. split; [done|]. intros (c & H7 & H8). apply H6. exists c.
          rewrite <- Hb' by tauto. rewrite <- Hb by tauto. done. }
      split_and!; [done|done| |]; intros z.
      * rewrite Hc by tauto. apply H3.
      * rewrite Hc by tauto. apply H4.
  - intros x Hx. rewrite elem_of_list_to_set in Hx. split; intros y Hy; apply elem_of_list_to_set;
      eapply Hcl; eauto.
Qed.

(** Plain labelled events without relations. *)
Lemma alloc_plain it h (ls : list label) :
  iter_ok it → order_inv h → link_inv h →
  ∃ h0 evs, alloc_list it ((λ l, (l, ∅)) <$> ls) h = (h0, evs) ∧ fresh_causet h h0 evs ∧
    length evs = length ls ∧
    ∀ i x l, evs !! i = Some x → ls !! i = Some l →
      lab h0 x = l ∧ prec h0 x = ∅ ∧ succ h0 x = ∅ ∧ coords h0 x = Some [].
Proof.
  intros Hit HO HL.
  destruct (alloc_list_spec it h ((λ l, (l, ∅)) <$> ls) h [] Hit (fresh_causet_nil h HO HL)) as
    (IF & IL & ID & IN & IR & IK).
  { intros l P p Hin Hp. apply elem_of_list_fmap in Hin as (? & [= -> ->] & _).
    by apply elem_of_empty in Hp. }
  destruct (alloc_list it ((λ l, (l, ∅)) <$> ls) h) as [h0 evs] eqn:El. cbn [fst snd app] in *.
  rewrite fmap_length in IL.
  assert (Hpr : ∀ i x, evs !! i = Some x → prec h0 x = ∅).
  { intros i x Hi. pose proof (lookup_lt_Some _ _ _ Hi) as Hlt. rewrite IL in Hlt.
    apply lookup_lt_is_Some in Hlt as [l Hl].
    destruct (IK i x l ∅ Hi) as (_ & _ & Hp); [by rewrite list_lookup_fmap, Hl|].
    apply set_eq. intros y. rewrite Hp. split; [|set_solver]. intros (p & Hp' & _).
    by apply elem_of_empty in Hp'. }
  exists h0, evs. split_and!; [done|done|done|]. intros i x l Hi Hl.
  destruct (IK i x l ∅ Hi) as (H1 & H2 & _); [by rewrite list_lookup_fmap, Hl|].
  split_and!; [done|by eapply Hpr| |done].
  apply set_eq. intros y. split; [|set_solver]. intros Hy. exfalso.
  destruct (fc_closed _ _ _ IF x) as [_ Hs]; [by eapply elem_of_list_to_set, elem_of_list_lookup_2|].
  pose proof (Hs y Hy) as Hys. apply elem_of_list_to_set, elem_of_list_lookup in Hys as [j Hj].
  apply (oi_conv h0 (fc_order _ _ _ IF)) in Hy. rewrite (Hpr j y Hj) in Hy. by apply elem_of_empty in Hy.
Qed.

Section mat.
Context (r c : nat) (C : nat → nat → bool) (evs : list nat).
Context (Hrc : r ≤ c) (Hlen : length evs = c) (Hnd : NoDup evs).

Definition mpast (i : nat) : gset nat :=
  list_to_set ((λ j, evs !!! j) <$> filter (λ j, C i j = true) (seq 0 c)).
Definition mfuture (i : nat) : gset nat :=
  list_to_set ((λ j, evs !!! j) <$> filter (λ j, C j i = true) (seq 0 r)).
Lemma mpast_spec i y : y ∈ mpast i ↔ ∃ j, evs !! j = Some y ∧ C i j = true.
Proof using Hlen.
  clear Hrc Hnd.
  unfold mpast. rewrite elem_of_list_to_set, elem_of_list_fmap. split.
  - intros (j & -> & [H1 H2%elem_of_seq]%elem_of_list_filter). exists j. split; [|done].
    apply list_lookup_lookup_total_lt. lia.
  - intros (j & Hj & HC). exists j. split; [symmetry; by apply list_lookup_total_correct|].
    apply elem_of_list_filter. split; [done|]. apply elem_of_seq. apply lookup_lt_Some in Hj. lia.
Qed.
Lemma mfuture_spec i y : y ∈ mfuture i ↔ ∃ j, j < r ∧ evs !! j = Some y ∧ C j i = true.
Proof using Hlen Hrc.
  unfold mfuture. rewrite elem_of_list_to_set, elem_of_list_fmap. split.
  - intros (j & -> & [H1 H2%elem_of_seq]%elem_of_list_filter). exists j. split_and!; [lia| |done].
    apply list_lookup_lookup_total_lt. lia.
  - intros (j & Hjr & Hj & HC). exists j. split; [symmetry; by apply list_lookup_total_correct|].
    apply elem_of_list_filter. split; [done|]. apply elem_of_seq. lia.
Qed.
Definition clash (i : nat) : Prop := ∃ j, j < r ∧ C i j = true ∧ C j i = true.
Lemma clash_spec i x : i < r → evs !! i = Some x →
  (mpast i ∩ mfuture i ≠ ∅ ∨ x ∈ mpast i ∨ x ∈ mfuture i) ↔ clash i.
Proof using Hlen Hnd Hrc.
  intros Hi Hx. split.
  - intros [H|[H|H]].
    + apply set_choose_L in H as [y [H1 H2]%elem_of_intersection].
      apply mpast_spec in H1 as (j & Hj & HC). apply mfuture_spec in H2 as (j' & Hj'r & Hj' & HC').
      assert (j = j') as -> by exact (NoDup_lookup _ _ _ _ Hnd Hj Hj'). by exists j'.
    + apply mpast_spec in H as (j & Hj & HC).
      assert (j = i) as -> by exact (NoDup_lookup _ _ _ _ Hnd Hj Hx). by exists i.
    + apply mfuture_spec in H as (j & Hjr & Hj & HC).
      assert (j = i) as -> by exact (NoDup_lookup _ _ _ _ Hnd Hj Hx). by exists i.
  - intros (j & Hj & H1 & H2). left.
    assert (Hin : is_Some (evs !! j)) by (apply lookup_lt_is_Some; lia). destruct Hin as [y Hy].
    intros He. apply (not_elem_of_empty (C := gset nat) y). rewrite <- He. apply elem_of_intersection.
    rewrite mpast_spec, mfuture_spec. split; exists j; done.
Qed.

Lemma frommat_assign_ok is : ∀ h,
  NoDup is → (∀ i, i ∈ is → i < r ∧ ¬ clash i) → (∀ x, x ∈ evs → x ∈ dom h) →
  ∃ h1, frommat_assign r c C evs is h = (h1, Ok tt) ∧ dom h1 = dom h ∧
    (∀ i x, i ∈ is → evs !! i = Some x →
       h1 !!! x = set_succ (mfuture i) (set_prec (mpast i) (h !!! x))) ∧
    (∀ y, (∀ i, i ∈ is → evs !! i ≠ Some y) → h1 !!! y = h !!! y).
Proof using Hlen Hnd Hrc.
  induction is as [|i is IH]; intros h Hns Hok Hdom.
  { exists h. split_and!; try done. intros i x Hi. by apply elem_of_nil in Hi. }
  cbn [frommat_assign]. fold (mpast i). fold (mfuture i).
  apply NoDup_cons in Hns as [Hii Hns].
  destruct (Hok i) as [Hir Hcl]; [apply elem_of_list_here|].
  assert (Hin : is_Some (evs !! i)) by (apply lookup_lt_is_Some; lia). destruct Hin as [x Hx].
  rewrite (list_lookup_total_correct _ _ _ Hx).
  assert (Hdec : ¬ (mpast i ∩ mfuture i ≠ ∅ ∨ x ∈ mpast i ∨ x ∈ mfuture i)) by (by rewrite clash_spec).
  destruct (decide _) as [?|_]; [done|].
  set (h' := upd (λ e, set_succ (mfuture i) (set_prec (mpast i) e)) x h).
  assert (Hd' : dom h' = dom h) by (apply upd_dom, Hdom; by eapply elem_of_list_lookup_2).
  destruct (IH h' Hns) as (h1 & E & Hd & H1 & H2).
  - intros j Hj. apply Hok. by apply elem_of_list_further.
  - intros y Hy. rewrite Hd'. by apply Hdom.
  - exists h1. split_and!; [done|congruence| |].
    + intros j y [->|Hj]%elem_of_cons Hy.
      * assert (y = x) as -> by congruence. rewrite H2; [unfold h'; by rewrite upd_same|].
        intros j Hj Hxj. assert (j = i) as -> by exact (NoDup_lookup _ _ _ _ Hnd Hxj Hx). done.
      * rewrite (H1 j y Hj Hy). unfold h'. rewrite upd_other; [done|]. intros ->.
        assert (j = i) as -> by exact (NoDup_lookup _ _ _ _ Hnd Hy Hx). done.
    + intros y Hy. rewrite H2.
      * unfold h'. rewrite upd_other; [done|]. intros ->. apply (Hy i); [apply elem_of_list_here|done].
      * intros j Hj. apply Hy. by apply elem_of_list_further.
Qed.
Lemma frommat_assign_err is : ∀ h,
  (∀ i, i ∈ is → i < r) → (∃ i, i ∈ is ∧ clash i) →
  ∃ h1, frommat_assign r c C evs is h = (h1, Err ValueError).
Proof using Hlen Hnd Hrc.
  induction is as [|i is IH]; intros h Hr (i' & Hi' & Hc); [by apply elem_of_nil in Hi'|].
  cbn [frommat_assign]. fold (mpast i). fold (mfuture i).
  assert (Hir : i < r) by apply Hr, elem_of_list_here.
  assert (Hin : is_Some (evs !! i)) by (apply lookup_lt_is_Some; lia). destruct Hin as [x Hx].
  rewrite (list_lookup_total_correct _ _ _ Hx).
  destruct (decide _) as [?|Hn]; [by eauto|]. apply IH.
  - intros j Hj. apply Hr. by apply elem_of_list_further.
  - exists i'. split; [|done]. apply elem_of_cons in Hi' as [->|Hi']; [|done].
    exfalso. apply Hn. by apply clash_spec.
Qed.
End mat.

(** Completion does nothing to a transitive heap. *)
Lemma complete_same h e :
  (∀ p, p ∈ prec h e → prec h p ⊆ prec h e) → (∀ s, s ∈ succ h e → succ h s ⊆ succ h e) →
  prec h e ⊆ dom h → e ∉ prec h e → e ∉ succ h e →
  ∀ y, frommat_complete h e !!! y = h !!! y.
Proof.
  intros H1 H2 Hd He He' y. unfold frommat_complete.
  assert (E1 : PastOf h (prec h e) true false = prec h e).
  { apply set_eq. intros x. rewrite PastOf_spec. split; [|by right].
    intros [(p & Hp & Hx)|[_ Hx]]; [|done]. by apply (H1 p Hp). }
  rewrite E1. set (h1 := upd (set_prec (prec h e)) e h).
  assert (Hh1 : ∀ z, h1 !!! z = h !!! z).
  { intros z. unfold h1. destruct (decide (e = z)) as [<-|Hz]; [|by rewrite upd_other].
    rewrite upd_same. unfold set_prec, prec. by destruct (h !!! e). }
  assert (Es : ∀ z, succ h1 z = succ h z) by (intros z; unfold succ; by rewrite Hh1).
  assert (E2 : FutureOf h1 (succ h1 e) true false = succ h e).
  { rewrite Es. apply set_eq. intros x. rewrite FutureOf_spec. split; [|by right].
    intros [(p & Hp & Hx)|[_ Hx]]; [|done]. rewrite Es in Hx. by apply (H2 p Hp). }
  rewrite E2. destruct (decide (e = y)) as [<-|Hz]; [|by rewrite upd_other].
  rewrite upd_same, Hh1. unfold set_succ, succ. by destruct (h !!! e).
Qed.
Lemma frommat_complete_dom h e : e ∈ dom h → dom (frommat_complete h e) = dom h.
Proof. intros He. unfold frommat_complete. rewrite !upd_dom; [done|done|]. by rewrite upd_dom. Qed.
Lemma complete_all_same l : ∀ h,
  order_inv h → (∀ e, e ∈ l → e ∈ dom h) →
  (∀ y, foldl frommat_complete h l !!! y = h !!! y) ∧ dom (foldl frommat_complete h l) = dom h.
Proof.
  induction l as [|e l IH]; intros h HO Hd; [done|]. cbn [foldl].
  assert (Hs : ∀ y, frommat_complete h e !!! y = h !!! y).
  { apply complete_same.
    - intros p Hp x Hx. exact (oi_trans h HO _ _ _ Hx Hp).
    - intros p Hp x Hx. exact (oi_trans' h HO _ _ _ Hp Hx).
    - by apply prec_sub_dom.
    - by apply oi_irr.
    - by apply oi_irr'. }
  assert (Hdom : dom (frommat_complete h e) = dom h).
  { apply frommat_complete_dom, Hd, elem_of_list_here. }
  destruct (IH (frommat_complete h e)) as [H1 H2].
  - eapply same_order_inv; [|done]. intros y. unfold prec, succ. by rewrite Hs.
  - intros x Hx. rewrite Hdom. apply Hd. by apply elem_of_list_further.
  - split; [intros y; by rewrite H1|congruence].
Qed.

Lemma fmap_args (f : nat → label) (l : list nat) :
  (λ i, (f i, ∅ : gset nat)) <$> l = (λ l, (l, ∅)) <$> (f <$> l).
Proof. by rewrite <- list_fmap_compose. Qed.

Lemma FromPastMatrix_spec it h n C :
  iter_ok it → order_inv h → link_inv h → mat_order n C →
  ∃ h' evs, FromPastMatrix it n n C h = (h', evs, Ok (list_to_set evs)) ∧
    fresh_causet h h' evs ∧ length evs = n ∧
    (∀ i x, evs !! i = Some x → lab h' x = LInt (Z.of_nat i + 1)) ∧
    (∀ i j x y, evs !! i = Some x → evs !! j = Some y → before h' y x ↔ C i j = true).
Proof.
  intros Hit HO HL [Hirr Htr]. unfold FromPastMatrix.
  destruct (decide (n < n)); [lia|]. rewrite (fmap_args (λ i, LInt (Z.of_nat i))).
  destruct (alloc_plain it h ((λ i, LInt (Z.of_nat i)) <$> seq 1 n) Hit HO HL) as (h0 & evs & -> & Hf & Hlen & Hev).
  rewrite fmap_length, seq_length in Hlen.
  assert (Hnd := fc_nodup _ _ _ Hf).
  assert (Hcl : ∀ i, i < n → ¬ clash n C i).
  { intros i Hi (j & Hj & H1 & H2). pose proof (Htr i j i Hi Hj Hi H1 H2). rewrite Hirr in *; done. }
  destruct (frommat_assign_ok n n C evs (le_n n) Hlen Hnd (seq 0 n) h0) as (h1 & E1 & Hd1 & HA & HB).
  - apply NoDup_seq.
  - intros i Hi%elem_of_seq. split; [lia|]. apply Hcl. lia.
  - apply (fc_in _ _ _ Hf).
  - rewrite E1.
    assert (HA' : ∀ i x, evs !! i = Some x →
      h1 !!! x = set_succ (mfuture n C evs i) (set_prec (mpast n C evs i) (h0 !!! x))).
    { intros i x Hi. apply HA; [|done]. apply elem_of_seq. apply lookup_lt_Some in Hi. lia. }
    assert (Hpr : ∀ i x, evs !! i = Some x → prec h1 x = mpast n C evs i ∧ succ h1 x = mfuture n C evs i).
    { intros i x Hi. unfold prec, succ. by rewrite (HA' i x Hi). }
    assert (Hb : ∀ i j x y, evs !! i = Some x → evs !! j = Some y → y ∈ prec h1 x ↔ C i j = true).
    { intros i j x y Hi Hj. destruct (Hpr i x Hi) as [-> _]. rewrite (mpast_spec n C evs Hlen). split.
      - intros (j' & Hj' & HC). assert (j' = j) as -> by exact (NoDup_lookup _ _ _ _ Hnd Hj' Hj). done.
      - intros HC. eauto. }
    assert (Hf1 : fresh_causet h h1 evs).
    { apply (rewire h h0 h1 evs Hf Hd1).
      - intros y Hy. apply HB. intros i _ Hi. apply Hy. by eapply elem_of_list_lookup_2.
      - intros x Hx. destruct (fc_nolink _ _ _ Hf x Hx) as [N1 N2].
        apply elem_of_list_lookup in Hx as [i Hi]. unfold lprec, lsucc. by rewrite (HA' i x Hi).
      - intros x y [i Hi]%elem_of_list_lookup [Hy|Hy].
        + destruct (Hpr i x Hi) as [H _]. rewrite H in Hy. apply (mpast_spec n C evs Hlen) in Hy as (j & Hj & _).
          by eapply elem_of_list_lookup_2.
        + destruct (Hpr i x Hi) as [_ H]. rewrite H in Hy.
          apply (mfuture_spec n n C evs (le_n n) Hlen) in Hy as (j & _ & Hj & _).
          by eapply elem_of_list_lookup_2.
      - intros x y [i Hi]%elem_of_list_lookup [j Hj]%elem_of_list_lookup. rewrite (Hb j i y x Hj Hi).
        destruct (Hpr i x Hi) as [_ ->]. rewrite (mfuture_spec n n C evs (le_n n) Hlen). split.
        + intros HC. exists j. split_and!; [|done|done]. apply lookup_lt_Some in Hj. lia.
        + intros (j' & _ & Hj' & HC). assert (j' = j) as -> by exact (NoDup_lookup _ _ _ _ Hnd Hj' Hj). done.
      - intros x [i Hi]%elem_of_list_lookup. rewrite (Hb i i x x Hi Hi).
        rewrite Hirr; [done|]. apply lookup_lt_Some in Hi. lia.
      - intros x y z [i Hi]%elem_of_list_lookup [j Hj]%elem_of_list_lookup [k Hk]%elem_of_list_lookup.
        rewrite (Hb j i y x Hj Hi), (Hb k j z y Hk Hj), (Hb k i z x Hk Hi).
        apply lookup_lt_Some in Hi, Hj, Hk. intros H1 H2. apply (Htr k j i); done || lia. }
    destruct (complete_all_same evs h1 (fc_order _ _ _ Hf1)) as [Hs Hd].
    { apply (fc_in _ _ _ Hf1). }
    set (h2 := foldl frommat_complete h1 evs) in *.
    assert (Hf2 : fresh_causet h h2 evs).
    { assert (HO1 := fc_order _ _ _ Hf1).
      apply (rewire h h1 h2 evs Hf1 Hd).
      - intros y _. apply Hs.
      - intros x Hx. unfold lprec, lsucc. rewrite Hs. by apply (fc_nolink _ _ _ Hf1).
      - intros x y Hx. unfold prec, succ. rewrite Hs. intros Hy.
        destruct (fc_closed _ _ _ Hf1 x) as [G1 G2]; [by apply elem_of_list_to_set|].
        apply (elem_of_list_to_set (C := gset nat)). destruct Hy; [by apply G1|by apply G2].
      - intros x y _ _. unfold prec, succ. rewrite !Hs. apply (oi_conv h1 HO1).
      - intros x _. unfold prec. rewrite Hs. apply (oi_irr h1 HO1).
      - intros x y z _ _ _. unfold prec. rewrite !Hs. apply (oi_trans h1 HO1). }
    exists h2, evs. split_and!; [|done|done| |].
    + f_equal. by eapply fresh_causet_ok.
    + intros i x Hi. unfold lab. rewrite Hs, (HA' i x Hi). cbn.
      pose proof (lookup_lt_Some _ _ _ Hi) as Hlt.
      destruct (Hev i x (LInt (Z.of_nat (1 + i))) Hi) as (Hl & _).
      { rewrite list_lookup_fmap, lookup_seq_lt by lia. done. }
      unfold lab in Hl. rewrite Hl. f_equal. lia.
    + intros i j x y Hi Hj. unfold before, prec. rewrite Hs. by apply Hb.
Qed.
