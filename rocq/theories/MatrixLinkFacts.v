(** FromPastMatrix on arbitrary matrices: exceptions, and lower-triangular link matrices. *)
From Verif Require Import Base Spec EventModel EventFacts CausetModel CausetFacts BuildModel
  BuildFacts FenceFacts MatrixFacts.

Lemma foldl_complete_inv (S : gset nat) l : ∀ h,
  (∀ e, e ∈ l → e ∈ dom h) → (∀ e, e ∈ l → e ∈ S) → closed h S →
  let h' := foldl frommat_complete h l in
  closed h' S ∧ dom h' = dom h ∧ (∀ y, y ∉ l → h' !!! y = h !!! y) ∧ (∀ y, lab h' y = lab h y).
Proof.
  induction l as [|e l IH]; intros h Hd HS Hc; [done|]. cbn [foldl].
  assert (He : e ∈ dom h) by apply Hd, elem_of_list_here.
  assert (HeS : e ∈ S) by apply HS, elem_of_list_here.
  assert (Hdom : dom (frommat_complete h e) = dom h) by by apply frommat_complete_dom.
  assert (Hother : ∀ y, y ≠ e → frommat_complete h e !!! y = h !!! y).
  { intros y Hy. unfold frommat_complete. rewrite !upd_other; done. }
  assert (Hlab : ∀ y, lab (frommat_complete h e) y = lab h y).
  { intros y. destruct (decide (y = e)) as [->|Hy]; [|unfold lab; by rewrite Hother].
    unfold lab, frommat_complete. by rewrite !upd_same. }
  assert (Hcl : closed (frommat_complete h e) S).
  { intros y Hy. destruct (decide (y = e)) as [->|Hne].
    - unfold prec, succ, frommat_complete. rewrite !upd_same. cbn [ev_prec ev_succ set_prec set_succ]. split.
      + intros z [(p & Hp & Hz)|[_ Hz]]%PastOf_spec.
        * destruct (Hc e HeS) as [G _]. apply G in Hp. by apply (proj1 (Hc p Hp)).
        * by apply (proj1 (Hc e HeS)).
      + set (h1 := upd _ e h).
        assert (Es : ∀ z, succ h1 z = succ h z).
        { intros z. unfold h1, succ. destruct (decide (e = z)) as [<-|Hz]; [by rewrite upd_same|by rewrite upd_other]. }
        intros z [(p & Hp & Hz)|[_ Hz]]%FutureOf_spec; rewrite Es in *.
        * destruct (Hc e HeS) as [_ G]. apply G in Hp. by apply (proj2 (Hc p Hp)).
        * by apply (proj2 (Hc e HeS)).
    - unfold prec, succ. rewrite Hother by done. by apply Hc. }
  destruct (IH (frommat_complete h e)) as (H1 & H2 & H3 & H4).
  - intros x Hx. rewrite Hdom. apply Hd. by apply elem_of_list_further.
  - intros x Hx. apply HS. by apply elem_of_list_further.
  - done.
  - split_and!; [done|congruence| |].
    + intros y Hy. apply not_elem_of_cons in Hy as [Hy1 Hy2]. rewrite H3 by done. by apply Hother.
    + intros y. by rewrite H4.
Qed.

(** Every matrix with at most as many rows as columns and without self-loops and 2-loops in
    its first square block. *)
Lemma FromPastMatrix_any it h r c C :
  iter_ok it → order_inv h → link_inv h → r ≤ c → ¬ mat_clash r C →
  ∃ h' h1 evs, FromPastMatrix it r c C h = (h', evs, Ok (list_to_set evs)) ∧
    length evs = c ∧ NoDup evs ∧ (∀ x, x ∈ evs → x ∉ dom h) ∧
    (∀ y, y ∈ dom h → h' !!! y = h !!! y) ∧
    closed h' (list_to_set evs) ∧
    h' = foldl frommat_complete h1 evs ∧
    (∀ i x, evs !! i = Some x → i < r → prec h1 x = mpast c C evs i ∧ succ h1 x = mfuture r C evs i) ∧
    (∀ i x, evs !! i = Some x → r ≤ i → prec h1 x = ∅ ∧ succ h1 x = ∅) ∧
    (∀ i x, evs !! i = Some x → lab h' x = LInt (Z.of_nat i + 1)) ∧
    (∀ x, x ∈ evs → x ∈ dom h1).
Proof.
  intros Hit HO HL Hrc Hcl. unfold FromPastMatrix.
  destruct (decide (c < r)); [lia|]. rewrite (fmap_args (λ i, LInt (Z.of_nat i))).
  destruct (alloc_plain it h ((λ i, LInt (Z.of_nat i)) <$> seq 1 c) Hit HO HL) as (h0 & evs & -> & Hf & Hlen & Hev).
  rewrite fmap_length, seq_length in Hlen.
  assert (Hnd := fc_nodup _ _ _ Hf).
  destruct (frommat_assign_ok r c C evs Hrc Hlen Hnd (seq 0 r) h0) as (h1 & E1 & Hd1 & HA & HB).
  { apply NoDup_seq. }
  { intros i Hi%elem_of_seq. split; [lia|]. intros (j & Hj & H1 & H2). apply Hcl. exists i, j. split_and!; try done; lia. }
  { apply (fc_in _ _ _ Hf). }
  rewrite E1.
  assert (Hlt : ∀ i x, evs !! i = Some x → i < c).
  { intros i x Hi. apply lookup_lt_Some in Hi. lia. }
  assert (Hlo : ∀ i x, evs !! i = Some x → i < r →
    h1 !!! x = set_succ (mfuture r C evs i) (set_prec (mpast c C evs i) (h0 !!! x))).
  { intros i x Hi Hir. apply HA; [|done]. apply elem_of_seq. lia. }
  assert (Hhi : ∀ i x, evs !! i = Some x → r ≤ i → h1 !!! x = h0 !!! x).
  { intros i x Hi Hir. apply HB. intros j Hj%elem_of_seq Hjx.
    assert (i = j) by exact (NoDup_lookup _ _ _ _ Hnd Hi Hjx). lia. }
  assert (Hlabel : ∀ i x, evs !! i = Some x → lab h0 x = LInt (Z.of_nat i + 1) ∧ prec h0 x = ∅ ∧ succ h0 x = ∅).
  { intros i x Hi. pose proof (Hlt i x Hi). destruct (Hev i x (LInt (Z.of_nat (1 + i))) Hi) as (Hl & Hp & Hs & _).
    { rewrite list_lookup_fmap, lookup_seq_lt by lia. done. }
    split_and!; [rewrite Hl; f_equal; lia|done|done]. }
  assert (Hdom1 : ∀ x, x ∈ evs → x ∈ dom h1) by (rewrite Hd1; apply (fc_in _ _ _ Hf)).
  assert (Hc1 : closed h1 (list_to_set evs)).
  { intros x Hx. apply elem_of_list_to_set, elem_of_list_lookup in Hx as [i Hi].
    destruct (decide (i < r)) as [Hir|Hir].
    - unfold prec, succ. rewrite (Hlo i x Hi Hir). cbn. split; intros y Hy.
      + apply (mpast_spec c C evs Hlen) in Hy as (j & Hj & _). apply elem_of_list_to_set. by eapply elem_of_list_lookup_2.
      + apply (mfuture_spec r c C evs Hrc Hlen) in Hy as (j & _ & Hj & _). apply elem_of_list_to_set. by eapply elem_of_list_lookup_2.
    - unfold prec, succ. rewrite (Hhi i x Hi) by lia. destruct (Hlabel i x Hi) as (_ & Hp & Hs).
      unfold prec, succ in Hp, Hs. rewrite Hp, Hs. split; apply empty_subseteq. }
  destruct (foldl_complete_inv (list_to_set evs) evs h1 Hdom1) as (G1 & G2 & G3 & G4).
  { intros x Hx. by apply elem_of_list_to_set. }
  { done. }
  set (h2 := foldl frommat_complete h1 evs) in *.
  assert (Hold : ∀ y, y ∉ evs → h2 !!! y = h0 !!! y).
  { intros y Hy. rewrite (G3 y Hy). apply HB. intros i _ Hi. apply Hy. by eapply elem_of_list_lookup_2. }
  assert (Hst : in_store h2).
  { intros x. rewrite G2, Hd1. destruct (decide (x ∈ evs)) as [Hx|Hx].
    - destruct (G1 x) as [Q1 Q2]; [by apply elem_of_list_to_set|].
      split; intros y Hy; apply (fc_in _ _ _ Hf); apply (elem_of_list_to_set (C := gset nat)); [by apply Q1|by apply Q2].
    - unfold prec, succ. rewrite (Hold x Hx). split; [apply (prec_sub_dom h0 (fc_order _ _ _ Hf))|apply (succ_sub_dom h0 (fc_order _ _ _ Hf))]. }
  exists h2, h1, evs. split_and!; try done.
  - f_equal. by apply causet_closed.
  - apply (fc_fresh _ _ _ Hf).
  - intros y Hy. rewrite Hold; [by apply (fc_old _ _ _ Hf)|]. intros Hin. by apply (fc_fresh _ _ _ Hf y).
  - intros i x Hi Hir. unfold prec, succ. by rewrite (Hlo i x Hi Hir).
  - intros i x Hi Hir. unfold prec, succ. rewrite (Hhi i x Hi Hir). apply (Hlabel i x Hi).
  - intros i x Hi. rewrite G4. unfold lab. destruct (decide (i < r)) as [Hir|Hir].
    + rewrite (Hlo i x Hi Hir). cbn. apply (Hlabel i x Hi).
    + rewrite (Hhi i x Hi) by lia. apply (Hlabel i x Hi).
Qed.

Lemma FromPastMatrix_err it h r c C :
  iter_ok it → order_inv h → link_inv h → c < r ∨ mat_clash r C →
  ∃ h' evs, FromPastMatrix it r c C h = (h', evs, Err ValueError).
Proof.
  intros Hit HO HL Hc. unfold FromPastMatrix.
  destruct (decide (c < r)) as [?|Hrc]; [by eauto|]. destruct Hc as [?|(i & j & Hi & Hj & H1 & H2)]; [done|].
  rewrite (fmap_args (λ i, LInt (Z.of_nat i))).
  destruct (alloc_plain it h ((λ i, LInt (Z.of_nat i)) <$> seq 1 c) Hit HO HL) as (h0 & evs & -> & Hf & Hlen & Hev).
  rewrite fmap_length, seq_length in Hlen.
  assert (Hnd := fc_nodup _ _ _ Hf).
  destruct (frommat_assign_err r c C evs ltac:(lia) Hlen Hnd (seq 0 r) h0) as (h1 & ->).
  - intros k Hk%elem_of_seq. lia.
  - exists i. split; [apply elem_of_seq; lia|]. by exists j.
  - eauto.
Qed.

(** Past sets of the completion pass, for matrices where rows mention earlier rows only. *)
Lemma complete_lower (n : nat) (C : nat → nat → bool) (evs : list nat) k : ∀ h h',
  length evs = n → NoDup evs → k ≤ n →
  (∀ i j, i < n → C i j = true → j < i) →
  (∀ i x, evs !! i = Some x → prec h x = mpast n C evs i) →
  h' = foldl frommat_complete h (take k evs) →
  (∀ i x, evs !! i = Some x →
     (i < k → ∀ y, y ∈ prec h' x ↔ ∃ j, evs !! j = Some y ∧ tc (λ a b, C a b = true) i j) ∧
     (k ≤ i → prec h' x = mpast n C evs i)).
Proof.
  intros h h' Hlen Hnd Hk Hlow Hp ->. revert Hk. induction k as [|k IH]; intros Hk.
  { intros i x Hi. split; [lia|]. intros _. by apply Hp. }
  assert (Hin : is_Some (evs !! k)) by (apply lookup_lt_is_Some; lia). destruct Hin as [e He].
  rewrite (take_S_r _ _ _ He), foldl_app. cbn [foldl].
  specialize (IH ltac:(lia)). set (h1 := foldl frommat_complete h (take k evs)) in *.
  intros i x Hi.
  assert (Hpx : prec (frommat_complete h1 e) x =
                if decide (x = e) then PastOf h1 (prec h1 e) true false else prec h1 x).
  { unfold prec, frommat_complete. destruct (decide (x = e)) as [->|Hne]; [by rewrite !upd_same|by rewrite !upd_other]. }
  rewrite Hpx. destruct (decide (x = e)) as [->|Hne].
  - assert (i = k) as -> by exact (NoDup_lookup _ _ _ _ Hnd Hi He). split; [|lia]. intros _ y.
    rewrite PastOf_spec. rewrite (proj2 (IH k e He) (le_n k)).
    assert (Hlt : ∀ p j, evs !! j = Some p → C k j = true → j < k ∧
              ∀ z, z ∈ prec h1 p ↔ ∃ m, evs !! m = Some z ∧ tc (λ a b, C a b = true) j m).
    { intros p j Hj HC. pose proof (Hlow k j ltac:(lia) HC) as Hjk. split; [done|]. by apply (IH j p Hj). }
    split.
    + intros [(p & Hpp & Hy)|[_ Hy]].
      * apply (mpast_spec n C evs Hlen) in Hpp as (j & Hj & HC). destruct (Hlt p j Hj HC) as [_ G].
        apply G in Hy as (m & Hm & Ht). exists m. split; [done|]. by eapply tc_l.
      * apply (mpast_spec n C evs Hlen) in Hy as (j & Hj & HC). exists j. split; [done|]. by apply tc_once.
    + intros (m & Hm & Ht). clear Hpx. assert (Ht2 : C k m = true ∨ ∃ b, C k b = true ∧ tc (λ a b, C a b = true) b m).
      { clear -Ht. destruct Ht; eauto. }
      destruct Ht2 as [HC|(b & HC & Ht')].
      * right. split; [done|]. apply (mpast_spec n C evs Hlen). eauto.
      * left. pose proof (Hlow k b ltac:(lia) HC) as Hb.
        assert (Hin : is_Some (evs !! b)) by (apply lookup_lt_is_Some; lia). destruct Hin as [p Hpb].
        exists p. split; [apply (mpast_spec n C evs Hlen); eauto|]. destruct (Hlt p b Hpb HC) as [_ G].
        apply G. eauto.
  - destruct (IH i x Hi) as [G1 G2]. split; [|intros; apply G2; lia].
    intros Hik. apply G1. assert (i ≠ k); [|lia]. intros ->. congruence.
Qed.

Lemma FromPastMatrix_lower it h n C :
  iter_ok it → order_inv h → link_inv h → (∀ i j, i < n → C i j = true → j < i) →
  ∃ h' evs, FromPastMatrix it n n C h = (h', evs, Ok (list_to_set evs)) ∧
    length evs = n ∧ NoDup evs ∧ (∀ x, x ∈ evs → x ∉ dom h) ∧
    (∀ y, y ∈ dom h → h' !!! y = h !!! y) ∧
    (∀ i x, evs !! i = Some x → lab h' x = LInt (Z.of_nat i + 1)) ∧
    (∀ i x y, evs !! i = Some x →
      before h' y x ↔ ∃ j, evs !! j = Some y ∧ tc (λ a b, C a b = true) i j).
Proof.
  intros Hit HO HL Hlow.
  destruct (FromPastMatrix_any it h n n C Hit HO HL (le_n n)) as
    (h' & h1 & evs & E & Hlen & Hnd & Hfr & Hold & Hcl & -> & Hp & _ & Hlab & _).
  { intros (i & j & Hi & Hj & H1 & H2). apply Hlow in H1; [|done]. apply Hlow in H2; [|done]. lia. }
  eexists _, evs. split_and!; try done. intros i x y Hi.
  assert (Hil : i < n) by (apply lookup_lt_Some in Hi; lia).
  destruct (complete_lower n C evs n h1 (foldl frommat_complete h1 evs) Hlen Hnd (le_n n) Hlow) with (i := i) (x := x) as [G _].
  - intros j z Hj. apply Hp; [done|]. apply lookup_lt_Some in Hj. lia.
  - by rewrite take_ge by lia.
  - done.
  - by apply G.
Qed.
