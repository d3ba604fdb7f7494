(** Theorems about the queries on the standard causets (chains, antichains, simplices and
    fences): C90. *)
From Verif Require Import Base Spec EventModel EventFacts DisjoinFacts History HistoryFacts PathFacts RankFacts
  EventProps Prop_Event CausetModel CausetFacts IntervalFacts SortFacts LayerFacts Prop_Causet PathsModel Prop_Paths
  PyStr SpecBuild BuildModel BuildFacts MatrixFacts SimplexFacts MergeFacts Prop_Build GradedFacts.

(** ** Events by their place in a list *)
Definition posn (evs : list nat) (x : nat) : nat := default 0 (fst <$> list_find (x =.) evs).
Lemma posn_lookup evs u x : NoDup evs → evs !! u = Some x → posn evs x = u.
Proof.
  intros Hn Hu. unfold posn. destruct (list_find _ evs) as [[v y]|] eqn:E.
  - apply list_find_Some in E as (E & -> & _). cbn. by eapply NoDup_lookup.
  - exfalso. apply list_find_None in E. eapply Forall_forall in E; [|by eapply elem_of_list_lookup_2]. by apply E.
Qed.
Lemma elem_evs (evs : list nat) x : x ∈ (list_to_set evs : gset nat) ↔ ∃ u, evs !! u = Some x.
Proof. by rewrite elem_of_list_to_set, elem_of_list_lookup. Qed.
Lemma past_in h h' evs x y : fresh_causet h h' evs → x ∈ evs → before h' y x → y ∈ evs.
Proof.
  intros Hf Hx Hb. destruct (fc_closed _ _ _ Hf x) as [H _]; [by apply elem_of_list_to_set|].
  by apply (elem_of_list_to_set (C:=gset nat)), H.
Qed.
Lemma future_in h h' evs x y : fresh_causet h h' evs → x ∈ evs → before h' x y → y ∈ evs.
Proof.
  intros Hf Hx Hb. destruct (fc_closed _ _ _ Hf x) as [_ H]; [by apply elem_of_list_to_set|].
  apply (elem_of_list_to_set (C:=gset nat)), H. by apply (oi_conv _ (fc_order _ _ _ Hf)).
Qed.

Lemma sub_nodup (l k : list nat) : NoDup k → l `sublist_of` k → NoDup l.
Proof.
  intros Hn Hs. induction Hs; [done| |].
  - apply NoDup_cons in Hn as [H1 H2]. apply NoDup_cons. split; [|by apply IHHs]. intros H. apply H1.
    eapply elem_of_submseteq; [exact H|]. by apply sublist_submseteq.
  - apply NoDup_cons in Hn as [H1 H2]. by apply IHHs.
Qed.
(** A new causet whose order is graded, place [u] having the grade [gi u]. *)
Section standard.
Context (h h' : heap) (evs : list nat) (Hf : fresh_causet h h' evs) (gi : nat → nat).
Context (Hg : ∀ u w x y, evs !! u = Some x → evs !! w = Some y → before h' x y →
  gi u < gi w ∧ (S (gi u) < gi w → ∃ z, before h' x z ∧ before h' z y)).
Let g x := gi (posn evs x).
Let HO : order_inv h' := fc_order _ _ _ Hf.
Let HL : link_inv h' := fc_link _ _ _ Hf.
Let Hnd : NoDup evs := fc_nodup _ _ _ Hf.
Lemma std_g u x : evs !! u = Some x → g x = gi u.
Proof. intros Hu. unfold g. by rewrite (posn_lookup evs u x). Qed.
Lemma std_up a b : a ∈ evs → before h' a b → b ∈ evs.
Proof. by apply future_in with h. Qed.
Lemma std_lt a b : a ∈ evs → b ∈ evs → before h' a b → g a < g b.
Proof.
  intros [u Hu]%elem_of_list_lookup [w Hw]%elem_of_list_lookup Hb. rewrite (std_g u a Hu), (std_g w b Hw). by apply (Hg u w a b).
Qed.
Lemma std_mid a b : a ∈ evs → b ∈ evs → before h' a b → S (g a) < g b → ∃ c, before h' a c ∧ before h' c b.
Proof.
  intros [u Hu]%elem_of_list_lookup [w Hw]%elem_of_list_lookup Hb. rewrite (std_g u a Hu), (std_g w b Hw). by apply (Hg u w a b).
Qed.
Lemma std_covers u w x y : evs !! u = Some x → evs !! w = Some y → covers (before h') x y ↔ before h' x y ∧ gi w = S (gi u).
Proof.
  intros Hu Hw. rewrite <- (std_g u x Hu), <- (std_g w y Hw). apply (graded_covers _ (λ a, a ∈ evs) g std_up std_lt std_mid).
  by eapply elem_of_list_lookup_2.
Qed.
Lemma std_path u w x y l : evs !! u = Some x → evs !! w = Some y → link_path (before h') x y l → length l = gi w - gi u + 1.
Proof.
  intros Hu Hw Hl. rewrite <- (std_g u x Hu), <- (std_g w y Hw). apply (graded_path _ (λ a, a ∈ evs) g std_up std_lt std_mid); [|done].
  by eapply elem_of_list_lookup_2.
Qed.
Lemma std_rank u w x y it : iter_ok it → evs !! u = Some x → evs !! w = Some y → x = y ∨ before h' x y →
  Rank it h' x y = Ok (Some (gi w - gi u)).
Proof.
  intros Hit Hu Hw Hxy. destruct (C10_Rank it h' x y Hit HO HL) as (H1 & H2 & H3).
  destruct (Rank it h' x y) as [[n|]|e] eqn:E.
  - destruct (proj1 (H2 n) eq_refl) as [(l & Hl & Hn) _]. pose proof (std_path u w x y l Hu Hw Hl). do 2 f_equal. lia.
  - exfalso. assert (ev_le h' x y = false) as Hle by by apply H1. unfold ev_le in Hle. apply orb_false_iff in Hle as [Ha Hb].
    apply bool_decide_eq_false in Ha. destruct Hxy as [->|Hxy]; [done|].
    apply bool_decide_eq_false in Hb. done.
  - by destruct (H3 e).
Qed.
Context (Hlow : ∀ w y, evs !! w = Some y → 0 < gi w → ∃ u x, evs !! u = Some x ∧ before h' x y ∧ gi w = S (gi u)).
Lemma std_height u x k : evs !! u = Some x → has_height (before h') x k ↔ gi u = k.
Proof.
  intros Hu. rewrite <- (std_g u x Hu). apply (graded_height _ (λ a, a ∈ evs)).
  - intros a b Hb Hab. pose proof (past_in _ _ _ _ _ Hf Hb Hab). split; [done|by apply std_lt].
  - intros b [w Hw]%elem_of_list_lookup Hpos. rewrite (std_g w b Hw) in *. destruct (Hlow w b Hw Hpos) as (v & a & Hv & Hab & Hgi).
    exists a. by rewrite (std_g v a Hv).
  - by eapply elem_of_list_lookup_2.
Qed.
Lemma std_layered : ∃ L, layered h' (list_to_set evs) false = Ok L ∧ (∀ T, T ∈ L → T ≠ ∅) ∧
  ∀ x k, (∃ T, L !! k = Some T ∧ x ∈ T) ↔ ∃ u, evs !! u = Some x ∧ gi u = k.
Proof.
  destruct (C36_layered h' (list_to_set evs) HO (fc_closed _ _ _ Hf)) as [(L & E & Hne & HLk) _].
  exists L. split_and!; [done|done|]. intros x k. rewrite HLk, elem_evs. split.
  - intros [[u Hu] Hh]. exists u. split; [done|]. by apply (std_height u x k Hu).
  - intros (u & Hu & Hk). split; [by exists u|]. by apply (std_height u x k Hu).
Qed.
Lemma std_PastInf x : x ∈ PastInf h' (list_to_set evs) ↔ ∃ u, evs !! u = Some x ∧ gi u = 0.
Proof.
  destruct (C31_infinities h' (list_to_set evs) (list_to_set evs) HO) as (H1 & _ & _ & _ & _ & _ & _ & H).
  destruct (H (fc_closed _ _ _ Hf)) as [-> _]. rewrite H1, elem_evs. split.
  - intros [[u Hu] Hmin]. exists u. split; [done|]. destruct (decide (gi u = 0)); [done|]. exfalso. apply Hmin.
    destruct (Hlow u x Hu) as (v & a & Hv & Hab & _); [lia|]. exists a. split; [|done]. apply elem_evs. by exists v.
  - intros (u & Hu & H0). split; [by exists u|]. intros (a & [v Hv]%elem_evs & Hab). pose proof (Hg v u a x Hv Hu Hab). lia.
Qed.
End standard.

(** The same from above. *)
Section standard_above.
Context (h h' : heap) (evs : list nat) (Hf : fresh_causet h h' evs) (gi : nat → nat).
Context (Hg : ∀ u w x y, evs !! u = Some x → evs !! w = Some y → before h' x y → gi w < gi u).
Context (Hlow : ∀ u x, evs !! u = Some x → 0 < gi u → ∃ w y, evs !! w = Some y ∧ before h' x y ∧ gi u = S (gi w)).
Lemma std_layered_above : ∃ L, layered h' (list_to_set evs) true = Ok L ∧ (∀ T, T ∈ L → T ≠ ∅) ∧
  ∀ x k, (∃ T, L !! k = Some T ∧ x ∈ T) ↔ ∃ u, evs !! u = Some x ∧ gi u = k.
Proof.
  pose proof (fc_order _ _ _ Hf) as HO. pose proof (fc_nodup _ _ _ Hf) as Hnd.
  destruct (C36_layered h' (list_to_set evs) HO (fc_closed _ _ _ Hf)) as [_ (L & E & Hne & HLk)].
  exists L. split_and!; [done|done|]. intros x k. rewrite HLk, elem_evs.
  assert (Hh : ∀ u, evs !! u = Some x → has_height (λ a b, before h' b a) x k ↔ gi u = k).
  { intros u Hu. assert (Hp : ∀ v y, evs !! v = Some y → gi (posn evs y) = gi v).
    { intros v y Hv. by rewrite (posn_lookup evs v y). }
    rewrite <- (Hp u x Hu). apply (graded_height _ (λ a, a ∈ evs) (λ y, gi (posn evs y))).
    - intros a b Hb Hab. pose proof (future_in _ _ _ _ _ Hf Hb Hab) as Ha. split; [done|].
      apply elem_of_list_lookup in Ha as [v Hv], Hb as [w Hw]. rewrite (Hp v a Hv), (Hp w b Hw). by apply (Hg w v b a).
    - intros b [w Hw]%elem_of_list_lookup Hpos. rewrite (Hp w b Hw) in *. destruct (Hlow w b Hw Hpos) as (v & a & Hv & Hab & Hgi).
      exists a. by rewrite (Hp v a Hv).
    - by eapply elem_of_list_lookup_2. }
  split.
  - intros [[u Hu] Hk]. exists u. split; [done|]. by apply (Hh u Hu).
  - intros (u & Hu & Hk). split; [by exists u|]. by apply (Hh u Hu).
Qed.
End standard_above.

Lemma link_count_list h C (P : list (nat * nat)) : order_inv h → link_inv h → closed h C →
  NoDup P → (∀ a b, (a, b) ∈ P ↔ a ∈ C ∧ b ∈ C ∧ covers (before h) a b) → LinkCount h C None = length P.
Proof.
  intros HO HL Hc Hn HP. destruct (C23_LinkCount h C C HO HL Hc) as [(L & HnL & -> & HLp) _].
  apply Permutation_length, NoDup_Permutation; [done..|]. intros [a b]. by rewrite HLp, HP.
Qed.

(** ** C90: chains.  [evs] lists the events from the first to the last. *)
Lemma lookup_lt_Some' {A} (l : list A) i x : l !! i = Some x → i < length l.
Proof. apply lookup_lt_Some. Qed.
Lemma chain_paths h' evs u w x y l : NoDup evs →
  (∀ u w x y, evs !! u = Some x → evs !! w = Some y → covers (before h') x y ↔ w = S u) →
  (∀ x y, x ∈ evs → before h' x y → y ∈ evs) →
  evs !! u = Some x → evs !! w = Some y → u ≤ w →
  link_path (before h') x y l ↔ l = take (w - u + 1) (drop u evs).
Proof.
  intros Hn Hc Hup Hu Hw Hle. split.
  - intros (H1 & H2 & H3). revert u x Hu Hle H1 H3 H2. induction l as [|a l IH]; intros u x Hu Hle H1 H3 H2; [done|].
    cbn in H1. injection H1 as ->. rewrite (drop_S _ _ _ Hu). destruct l as [|b l].
    + cbn in H2. injection H2 as ->. assert (u = w) as -> by (by eapply NoDup_lookup). by rewrite Nat.sub_diag.
    + change (last (b :: l) = Some y) in H2. cbn [consecutive] in H3. destruct H3 as [Hab H3]. assert (Hb : b ∈ evs).
      { apply (Hup x b); [by eapply elem_of_list_lookup_2|apply Hab]. }
      apply elem_of_list_lookup in Hb as [v Hv]. apply (Hc u v x b Hu Hv) in Hab as ->.
      assert (S u ≤ w).
      { destruct (decide (S u ≤ w)); [done|]. exfalso. assert (u = w) as <- by lia.
        assert (Hin : y ∈ b :: l) by (apply last_Some in H2 as [l' ->]; set_solver).
        assert (Hge : ∀ l v b, evs !! v = Some b → consecutive (covers (before h')) (b :: l) → ∀ z, z ∈ b :: l → ∃ j, v ≤ j ∧ evs !! j = Some z).
        { clear -Hc Hup. induction l as [|c l IH]; intros v b Hv Hcon z Hz.
          - apply elem_of_list_singleton in Hz as ->. by exists v.
          - destruct Hcon as [Hbc Hcon]. apply elem_of_cons in Hz as [->|Hz]; [by exists v|].
            assert (Hcin : c ∈ evs) by (apply (Hup b c); [by eapply elem_of_list_lookup_2|apply Hbc]).
            apply elem_of_list_lookup in Hcin as [i Hi]. apply (Hc v i b c Hv Hi) in Hbc as ->.
            destruct (IH (S v) c Hi Hcon z Hz) as (j & Hj & Ej). exists j. split; [lia|done]. }
        destruct (Hge l (S u) b Hv H3 y Hin) as (j & Hj & Ej). pose proof (NoDup_lookup _ _ _ _ Hn Ej Hw). lia. }
      replace (w - u + 1) with (S (w - S u + 1)) by lia. cbn [take]. f_equal. apply (IH (S u) b); done.
  - intros ->. remember (w - u) as n eqn:En. revert u x Hu Hle En. induction n as [|n IH]; intros u x Hu Hle En.
    + assert (u = w) as -> by lia. rewrite (drop_S _ _ _ Hu). cbn. rewrite take_0. simplify_eq. repeat split; done.
    + assert (Hlw := lookup_lt_Some _ _ _ Hw). destruct (lookup_lt_is_Some_2 evs (S u)) as [z Hz]; [lia|].
      destruct (IH (S u) z Hz) as (H1 & H2 & H3); [lia|lia|].
      rewrite (drop_S _ _ _ Hu). replace (S n + 1) with (S (n + 1)) by lia. cbn [take].
      rewrite (drop_S _ _ _ Hz) in *. replace (n + 1) with (S n) in * by lia. cbn [take] in *. split; [done|]. split; [done|].
      split; [|done]. by apply (Hc u (S u)).
Qed.
Theorem C90_chain (it : oracle) (h : heap) (n : Z) (fmt : label_format) :
  iter_ok it → order_inv h → link_inv h →
  ∃ h' evs, NewChain it n fmt h = (h', Ok (list_to_set evs)) ∧ NoDup evs ∧ length evs = Z.to_nat n ∧
    let C : gset nat := list_to_set evs in
    (* its only links join neighbours, its only path between two events is the stretch between them *)
    (∀ u w x y, evs !! u = Some x → evs !! w = Some y →
       (PastCard h' x = u ∧ FutureCard h' x = length evs - u - 1) ∧
       (x ∈ LinkPast h' y ↔ w = S u) ∧
       (w < u → ∀ it', iter_ok it' → Rank it' h' x y = Ok None) ∧
       (u ≤ w → IntervalCard h' x y true = w - u + 1 ∧
          (∀ it', iter_ok it' → Rank it' h' x y = Ok (Some (w - u))) ∧
          ∀ pit s, (∀ p, iter_ok (pit p)) →
            Paths pit h' x y (LenStr s) = Ok [take (w - u + 1) (drop u evs)])) ∧
    LinkCount h' C None = length evs - 1 ∧
    (* every event is a layer of its own *)
    layered h' C false = Ok ((λ x, {[x]}) <$> evs) ∧ layered h' C true = Ok ((λ x, {[x]}) <$> reverse evs).
Proof.
  intros Hit HO HL. destruct (C15_NewChain it h n fmt Hit HO HL) as (h' & evs & C & E & -> & Hf & Hs & _ & _ & Ho).
  pose proof (fc_nodup _ _ _ Hf) as Hnd. pose proof (fc_order _ _ _ Hf) as HO'. pose proof (fc_link _ _ _ Hf) as HL'.
  pose proof (fc_closed _ _ _ Hf) as Hcl.
  rewrite elements_evs in Hs by done. exists h', evs. split_and!; [done..|]. intros C.
  assert (Hup := λ x y, future_in h h' evs x y Hf). assert (Hdn := λ x y, past_in h h' evs x y Hf).
  assert (Hg : ∀ u w x y, evs !! u = Some x → evs !! w = Some y → before h' x y →
    u < w ∧ (S u < w → ∃ z, before h' x z ∧ before h' z y)).
  { intros u w x y Hu Hw Hb. apply (Ho u w x y Hu Hw) in Hb. split; [done|]. intros Hlt.
    assert (Hlw := lookup_lt_Some _ _ _ Hw). destruct (lookup_lt_is_Some_2 evs (S u)) as [z Hz]; [lia|].
    exists z. rewrite (Ho u (S u) x z Hu Hz), (Ho (S u) w z y Hz Hw). lia. }
  assert (Hcov : ∀ u w x y, evs !! u = Some x → evs !! w = Some y → covers (before h') x y ↔ w = S u).
  { intros u w x y Hu Hw. rewrite (std_covers h h' evs Hf (λ i, i) Hg u w x y Hu Hw), (Ho u w x y Hu Hw). lia. }
  assert (HP : ∀ u x, evs !! u = Some x → Past h' x = list_to_set (take u evs)).
  { intros u x Hu. apply set_eq. intros z. rewrite elem_of_list_to_set, elem_of_list_lookup. split.
    - intros Hz. assert (Hz' : before h' z x) by done. assert (Hi : z ∈ evs) by (apply (Hdn x z); [by eapply elem_of_list_lookup_2|done]).
      apply elem_of_list_lookup in Hi as [v Hv]. exists v. apply (Ho v u z x Hv Hu) in Hz'. by rewrite lookup_take.
    - intros [v Hv]. apply lookup_take_Some in Hv as [Hv Hlt]. by apply (Ho v u z x Hv Hu). }
  assert (HF : ∀ u x, evs !! u = Some x → Future h' x = list_to_set (drop (S u) evs)).
  { intros u x Hu. apply set_eq. intros z. rewrite elem_of_list_to_set, elem_of_list_lookup. split.
    - intros Hz. assert (Hz' : before h' x z) by by apply (oi_conv _ HO'). assert (Hi : z ∈ evs) by (apply (Hup x z); [by eapply elem_of_list_lookup_2|done]).
      apply elem_of_list_lookup in Hi as [v Hv]. apply (Ho u v x z Hu Hv) in Hz'. exists (v - S u). rewrite lookup_drop.
      by replace (S u + (v - S u)) with v by lia.
    - intros [v Hv]. rewrite lookup_drop in Hv. apply (oi_conv _ HO'). apply (Ho u _ x z Hu Hv). lia. }
  split; [|split].
  - intros u w x y Hu Hw.
    assert (Hlu := lookup_lt_Some _ _ _ Hu). assert (Hlw := lookup_lt_Some _ _ _ Hw).
    assert (Hcard : PastCard h' x = u ∧ FutureCard h' x = length evs - u - 1).
    { destruct (C08_cardinalities h' x ∅ HO') as (-> & -> & _). rewrite (HP u x Hu), (HF u x Hu).
      assert (NoDup (take u evs)) by (eapply sub_nodup; [exact Hnd|apply sublist_take]).
      assert (NoDup (drop (S u) evs)) by (eapply sub_nodup; [exact Hnd|apply sublist_drop]).
      rewrite !size_list_to_set by done. rewrite take_length, drop_length. lia. }
    split; [done|]. split; [|split].
    + rewrite (LinkPast_spec h' HO' HL'). by apply Hcov.
    + intros Hlt it' Hit'. apply (C10_Rank it' h' x y Hit' HO' HL'). unfold ev_le. apply orb_false_iff. split; apply bool_decide_eq_false.
      * intros <-. assert (u = w) by (by eapply NoDup_lookup). lia.
      * intros Hb. apply (Ho u w x y Hu Hw) in Hb. lia.
    + intros Hle. assert (Hxy : x = y ∨ before h' x y).
      { destruct (decide (u = w)) as [<-|]; [left; congruence|right]. apply (Ho u w x y Hu Hw). lia. }
      split; [|split].
      * destruct (C33_intervals h' x y x HO' HL') as (_ & _ & -> & _).
        assert (Interval h' x y true = list_to_set (take (w - u + 1) (drop u evs))) as ->.
        { apply set_eq. intros z. destruct (C33_intervals h' x y z HO' HL') as (-> & _). rewrite elem_of_list_to_set, elem_of_list_lookup. split.
          - intros [H1 H2]. assert (Hi : z ∈ evs) by (destruct H1 as [<-|H1]; [by eapply elem_of_list_lookup_2|apply (Hup x z); [by eapply elem_of_list_lookup_2|done]]).
            apply elem_of_list_lookup in Hi as [v Hv]. assert (u ≤ v).
            { destruct H1 as [<-|H1]; [assert (u = v) by (by eapply NoDup_lookup); lia|]. apply (Ho u v x z Hu Hv) in H1. lia. }
            assert (v ≤ w).
            { destruct H2 as [->|H2]; [assert (v = w) by (by eapply NoDup_lookup); lia|]. apply (Ho v w z y Hv Hw) in H2. lia. }
            exists (v - u). rewrite lookup_take, lookup_drop by lia. by replace (u + (v - u)) with v by lia.
          - intros [v Hv]. apply lookup_take_Some in Hv as [Hv Hlt]. rewrite lookup_drop in Hv. split.
            + destruct (decide (v = 0)) as [->|]; [left; rewrite Nat.add_0_r in Hv; congruence|right]. apply (Ho u _ x z Hu Hv). lia.
            + destruct (decide (u + v = w)) as [Ew|]; [left; rewrite Ew in Hv; congruence|right]. apply (Ho _ w z y Hv Hw). lia. }
        rewrite size_list_to_set, take_length, drop_length; [lia|].
        eapply sub_nodup; [exact Hnd|]. etrans; [apply sublist_take|apply sublist_drop].
      * intros it' Hit'. by apply (std_rank h h' evs Hf (λ i, i) Hg u w x y it').
      * intros pit s Hpit. assert (Hall := λ l, chain_paths h' evs u w x y l Hnd Hcov Hup Hu Hw Hle).
        set (l0 := take (w - u + 1) (drop u evs)) in *.
        assert (Hone : ∀ L : list (list nat), NoDup L → (∀ p, p ∈ L ↔ p = l0) → L = [l0]).
        { intros L HnL HpL. destruct L as [|p L]; [by assert (l0 ∈ []) as ?%elem_of_nil by by apply HpL|].
          assert (p = l0) as -> by (apply HpL; left). destruct L as [|q L]; [done|]. exfalso.
          assert (q = l0) as -> by (apply HpL; right; left). apply NoDup_cons in HnL as [HnL _]. apply HnL. left. }
        destruct (C39_Paths_min_max h' pit x y HO' HL' Hpit) as [(L1 & E1 & N1 & P1) H2].
        destruct (decide (s = "min")) as [->|Hmin].
        { rewrite E1. f_equal. apply Hone; [done|]. intros p. rewrite P1. setoid_rewrite Hall. naive_solver. }
        destruct (decide (s = "max" ∨ s = "timegeo")) as [Hmax|Hmax].
        { destruct (H2 s Hmax) as (L2 & E2 & N2 & P2). rewrite E2. f_equal. apply Hone; [done|]. intros p. rewrite P2. setoid_rewrite Hall. naive_solver. }
        destruct (C38_Paths h' pit x y HO' HL' Hpit) as [H3 _]. destruct (H3 s) as (L3 & E3 & N3 & P3); [done|by intros ->; apply Hmax; left|by intros ->; apply Hmax; right|].
        rewrite E3. f_equal. apply Hone; [done|]. intros p. by rewrite P3, Hall.
  - rewrite (link_count_list h' C (zip evs (drop 1 evs))); [|done..| |].
    + rewrite zip_with_length, drop_length. lia.
    + assert (Hz : (zip evs (drop 1 evs)).*1 = take (length evs - 1) evs).
      { clear. destruct evs as [|x evs]; [done|]. change (drop 1 (x :: evs)) with (drop 0 evs). rewrite drop_0. cbn [length].
        replace (S (length evs) - 1) with (length evs) by lia. revert x.
        induction evs as [|y evs IH]; intros x; [done|]. cbn [length take zip zip_with fmap list_fmap fst]. f_equal. apply IH. }
      apply (NoDup_fmap_1 fst). rewrite Hz. eapply sub_nodup; [exact Hnd|apply sublist_take].
    + intros a b. rewrite elem_of_list_lookup. unfold C. rewrite !elem_evs. split.
      * intros [i Hi]. apply lookup_zip_with_Some in Hi as (x & y & [= <- <-] & Hx & Hy). rewrite lookup_drop in Hy.
        split_and!; [by eexists|by eexists|]. by apply (Hcov i (1 + i) a b).
      * intros ([u Hu] & [w Hw] & Hab). apply (Hcov u w a b Hu Hw) in Hab as ->. exists u. apply lookup_zip_with_Some.
        exists a, b. by rewrite lookup_drop.
  - assert (Hsing : ∀ (l : list nat) T, T ∈ ((λ x, {[x]}) <$> l : list (gset nat)) → T ≠ ∅).
    { intros l T (x & -> & _)%elem_of_list_fmap. clear. set_solver. }
    assert (Hlook : ∀ (l : list nat) x k, (∃ T, ((λ x, {[x]}) <$> l : list (gset nat)) !! k = Some T ∧ x ∈ T) ↔ l !! k = Some x).
    { intros l x k. split.
      - intros (T & HT & Hx). apply list_lookup_fmap_Some in HT as (y & Hy & ->). apply elem_of_singleton in Hx as ->. done.
      - intros Hx. exists {[x]}. split; [|by apply elem_of_singleton]. apply list_lookup_fmap_Some. by exists x. }
    split.
    + destruct (std_layered h h' evs Hf (λ i, i) Hg) as (L & EL & HneL & HLk).
      { intros w y Hw Hpos. assert (Hlw := lookup_lt_Some _ _ _ Hw). destruct (lookup_lt_is_Some_2 evs (w - 1)) as [z Hz]; [lia|].
        exists (w - 1), z. rewrite (Ho _ w z y Hz Hw). split_and!; [done|lia..]. }
      unfold C. rewrite EL. f_equal. apply layers_unique; [done|apply Hsing|]. intros x k. rewrite HLk, Hlook. naive_solver.
    + destruct (std_layered_above h h' evs Hf (λ i, length evs - 1 - i)) as (L & EL & HneL & HLk).
      { intros u w x y Hu Hw Hb. assert (Hlw := lookup_lt_Some _ _ _ Hw). apply (Ho u w x y Hu Hw) in Hb. lia. }
      { intros w y Hw Hpos. destruct (lookup_lt_is_Some_2 evs (S w)) as [z Hz]; [lia|].
        exists (S w), z. rewrite (Ho w _ y z Hw Hz). split_and!; [done|lia..]. }
      unfold C. rewrite EL. f_equal. apply layers_unique; [done|apply Hsing|]. intros x k. rewrite HLk, Hlook. split.
      * intros (u & Hu & <-). assert (Hlu := lookup_lt_Some _ _ _ Hu). rewrite reverse_lookup by lia.
        by replace (length evs - S (length evs - 1 - u)) with u by lia.
      * intros Hx. assert (Hlx := lookup_lt_Some _ _ _ Hx). rewrite reverse_length in Hlx. rewrite reverse_lookup in Hx by done.
        exists (length evs - S k). split; [done|lia].
Qed.
Print Assumptions C90_chain.

(** ** C90: antichains *)
Theorem C90_antichain (it : oracle) (h : heap) (n : Z) (fmt : label_format) :
  iter_ok it → order_inv h → link_inv h →
  ∃ h' (C : gset nat), NewAntichain it n fmt h = (h', Ok C) ∧ size C = Z.to_nat n ∧
    (∀ x, x ∈ C → Past h' x = ∅ ∧ Future h' x = ∅ ∧ LinkPast h' x = ∅ ∧ LinkFuture h' x = ∅ ∧ Spacelike h' x C = C ∖ {[x]}) ∧
    (∀ it' x y, iter_ok it' → x ∈ C → y ∈ C → x ≠ y → Rank it' h' x y = Ok None) ∧
    LinkCount h' C None = 0 ∧ PastInf h' C = C ∧ FutureInf h' C = C ∧
    ((0 < n)%Z → layered h' C false = Ok [C] ∧ layered h' C true = Ok [C]) ∧
    (∀ it', iter_ok it' → CentralAntichain it' h' C None = C) ∧
    (* its connected components are the single events *)
    ∀ it', iter_ok it' → ∃ l, disjoint_ it' h' C = Ok l ∧ length l = size C ∧ ∀ x, x ∈ C → {[x]} ∈ l.
Proof.
  intros Hit HO HL. destruct (C15_NewAntichain it h n fmt Hit HO HL) as (h' & evs & C & E & EC & Hf & Hs & _ & _ & Ho).
  pose proof (fc_nodup _ _ _ Hf) as Hnd. pose proof (fc_order _ _ _ Hf) as HO'. pose proof (fc_link _ _ _ Hf) as HL'.
  pose proof (fc_closed _ _ _ Hf) as Hcl. rewrite <- EC in Hcl.
  assert (Hup := λ x y, future_in h h' evs x y Hf). assert (Hdn := λ x y, past_in h h' evs x y Hf).
  assert (Hin : ∀ x, x ∈ C ↔ x ∈ evs) by (intros x; rewrite EC; apply elem_of_list_to_set).
  assert (HnP : ∀ x y, x ∈ C → ¬ before h' y x).
  { intros x y Hx Hb. apply (Ho y x); [|done|done]. apply Hin, (Hdn x y); [by apply Hin|done]. }
  assert (HnF : ∀ x y, x ∈ C → ¬ before h' x y).
  { intros x y Hx Hb. apply (Ho x y); [done| |done]. apply Hin, (Hup x y); [by apply Hin|done]. }
  assert (HP : ∀ x, x ∈ C → Past h' x = ∅).
  { intros x Hx. apply elem_of_equiv_empty_L. intros y Hy. by apply (HnP x y). }
  assert (HF : ∀ x, x ∈ C → Future h' x = ∅).
  { intros x Hx. apply elem_of_equiv_empty_L. intros y Hy. apply (HnF x y Hx). by apply (oi_conv _ HO'). }
  exists h', C. split_and!; [done|done| | | | | | | |].
  - intros x Hx. split_and!; [by apply HP|by apply HF| | |].
    + apply elem_of_equiv_empty_L. intros y Hy%(LinkPast_spec h' HO' HL'). by apply (HnP x y Hx), Hy.
    + apply elem_of_equiv_empty_L. intros y Hy%(LinkFuture_spec h' HO' HL'). by apply (HnF x y Hx), Hy.
    + apply set_eq. intros y. destruct (C08_cardinalities h' x C HO') as (_ & _ & _ & _ & _ & _ & _ & _ & ->).
      rewrite elem_of_difference, elem_of_singleton. unfold spacelike. split; [naive_solver|]. intros [Hy Hne].
      split; [done|]. split_and!; [done|by apply HnF|by apply HnP].
  - intros it' x y Hit' Hx Hy Hne. apply (C10_Rank it' h' x y Hit' HO' HL'). unfold ev_le. apply orb_false_iff.
    split; apply bool_decide_eq_false; [done|]. by apply HnF.
  - rewrite (link_count_list h' C []); try done; [apply NoDup_nil_2|].
    intros a b. split; [intros H; by apply elem_of_nil in H|]. intros (Ha & _ & [Hb _]). by destruct (HnF a b Ha).
  - destruct (C31_infinities h' C C HO') as (H1 & _ & _ & _ & _ & _ & _ & H). destruct (H Hcl) as [-> _].
    apply set_eq. intros x. rewrite H1. split; [by intros []|]. intros Hx. split; [done|]. intros (y & _ & Hy). by apply (HnP x y).
  - destruct (C31_infinities h' C C HO') as (_ & H1 & _ & _ & _ & _ & _ & H). destruct (H Hcl) as [_ ->].
    apply set_eq. intros x. rewrite H1. split; [by intros []|]. intros Hx. split; [done|]. intros (y & _ & Hy). by apply (HnF x y).
  - intros Hn. assert (Hne : C ≠ ∅) by (intros ->; rewrite size_empty in Hs; lia).
    assert (Hl1 : ∀ x k, (∃ T, [C] !! k = Some T ∧ x ∈ T) ↔ x ∈ C ∧ 0 = k).
    { intros x k. split; [|intros [Hx <-]; by exists C]. intros (T & HT & Hx). by apply list_lookup_singleton_Some in HT as [-> <-]. }
    assert (Hn1 : ∀ T, T ∈ [C] → T ≠ ∅) by (by intros T ->%elem_of_list_singleton).
    destruct (C36_layered h' C HO' Hcl) as [(L & -> & HneL & HLk) (L' & -> & HneL' & HLk')]. split; f_equal; apply layers_unique; try done.
    + intros x k. rewrite HLk, Hl1. split; intros [Hx Hk]; (split; [done|]).
      * by apply (graded_height (before h') (λ a, a ∈ C) (λ _, 0)) in Hk; [|intros a b Hb Hab; by destruct (HnP b a Hb)|lia|].
      * apply (graded_height (before h') (λ a, a ∈ C) (λ _, 0)); [intros a b Hb Hab; by destruct (HnP b a Hb)|lia|done|done].
    + intros x k. rewrite HLk', Hl1. split; intros [Hx Hk]; (split; [done|]).
      * by apply (graded_height (λ a b, before h' b a) (λ a, a ∈ C) (λ _, 0)) in Hk; [|intros a b Hb Hab; by destruct (HnF b a Hb)|lia|].
      * apply (graded_height (λ a b, before h' b a) (λ a, a ∈ C) (λ _, 0)); [intros a b Hb Hab; by destruct (HnF b a Hb)|lia|done|done].
  - intros it' Hit'. destruct (C34_CentralAntichain it' h' C None Hit' HO') as (H1 & _ & H2 & _).
    apply set_eq. intros x. split; [by apply H1|]. intros Hx. destruct (decide (x ∈ CentralAntichain it' h' C None)) as [|Hnx]; [done|].
    exfalso. destruct (H2 x Hx Hnx) as (a & Ha & [Hb|Hb]); [by apply (HnP x a)|by apply (HnF x a)].
  - intros it' Hit'. destruct (C43_disjoint it' h' C Hit' HO') as (l & El & Hne & Hu & Hd & Hc & _).
    assert (Hcn : ∀ x y, connected_in (before h') C x y → x = y).
    { intros x y H. induction H as [|x y z Hxy -> Hz Hcomp]; [done|]. destruct Hcomp as [|[Hb|Hb]]; [done|by destruct (HnP z y Hz)|by destruct (HnF z y Hz)]. }
    assert (HT : ∀ x, x ∈ C → {[x]} ∈ l).
    { intros x Hx. destruct (proj2 (Hc x x Hx Hx)) as (T & HT & HxT & _); [by apply conn_refl|].
      assert (T = {[x]}) as <-; [|done]. apply set_eq. intros y. rewrite elem_of_singleton. split; [|by intros ->]. intros Hy.
      symmetry. apply Hcn, Hc; [done| |by exists T]. rewrite <- Hu. apply elem_of_union_list. by exists T. }
    assert (HTn : ∀ T, T ∈ l → ∃ x, x ∈ C ∧ T = {[x]}).
    { intros T HTl. destruct (set_choose_L T (Hne T HTl)) as [x Hx]. assert (HxC : x ∈ C) by (rewrite <- Hu; apply elem_of_union_list; by exists T).
      exists x. split; [done|]. apply set_eq. intros y. rewrite elem_of_singleton. split; [|by intros ->]. intros Hy.
      symmetry. apply Hcn, Hc; [done| |by exists T]. rewrite <- Hu. apply elem_of_union_list. by exists T. }
    assert (Hndl : NoDup l).
    { apply NoDup_alt. intros i j T Hi Hj. destruct (decide (i = j)) as [|Hij]; [done|]. exfalso.
      destruct (Hd i j T T Hi Hj Hij) as [H _]. apply (Hne T); [by eapply elem_of_list_lookup_2|]. by rewrite intersection_idemp_L in H. }
    exists l. split_and!; [done| |done].
    assert (l ≡ₚ (λ x, {[x]}) <$> elements C) as ->.
    { apply NoDup_Permutation; [done| |].
      - apply NoDup_fmap_2; [|apply NoDup_elements]. intros x y Hxy. cbn in Hxy.
        assert (Hx : x ∈ ({[x]} : gset nat)) by by apply elem_of_singleton. rewrite Hxy in Hx. by apply elem_of_singleton in Hx.
      - intros T. rewrite elem_of_list_fmap. split.
        + intros (x & Hx & ->)%HTn. exists x. by rewrite elem_of_elements.
        + intros (x & -> & Hx). apply HT. by apply elem_of_elements. }
    by rewrite fmap_length.
Qed.
Print Assumptions C90_antichain.

(** ** C90: simplices.  [F] lists the faces, [evs] their events. *)
Lemma face_card (n : nat) (F : list (list nat)) (evs : list nat) (L : list (list nat)) (X : gset nat) :
  length F = length evs → NoDup F → NoDup evs → NoDup L → (∀ c, c ∈ L → c ∈ F) →
  (∀ x, x ∈ X ↔ ∃ k c, F !! k = Some c ∧ evs !! k = Some x ∧ c ∈ L) → size X = length L.
Proof.
  intros Hlen HF He HL Hsub HX.
  assert (fmap_sublist : ∀ (A B : Type) (f : A → B) (l k : list A), l `sublist_of` k → f <$> l `sublist_of` f <$> k).
  { clear. intros A B f l k H. induction H; cbn; by constructor. }
  assert (Hz1 : (zip F evs).*1 = F) by (apply fst_zip; lia). assert (Hz2 : (zip F evs).*2 = evs) by (apply snd_zip; lia).
  pose (Z := filter (λ p, fst p ∈ L) (zip F evs)).
  assert (HZ : Z `sublist_of` zip F evs) by apply filter_sublist.
  assert (H2 : NoDup (Z.*2)) by (eapply (sub_nodup _ ((zip F evs).*2)); [by rewrite Hz2|by apply fmap_sublist]).
  assert (EX : X = list_to_set (Z.*2)).
  { apply set_eq. intros x. rewrite HX, elem_of_list_to_set, elem_of_list_fmap. split.
    - intros (k & c & Hk & Hx & Hc). exists (c, x). split; [done|]. apply elem_of_list_filter. split; [done|].
      apply elem_of_list_lookup. exists k. apply lookup_zip_with_Some. by exists c, x.
    - intros ([c y] & -> & [Hc Hin]%elem_of_list_filter). apply elem_of_list_lookup in Hin as [k Hk].
      apply lookup_zip_with_Some in Hk as (c' & y' & [= -> ->] & Hk1 & Hk2). by exists k, c'. }
  rewrite EX, size_list_to_set by done. rewrite fmap_length. rewrite <- (fmap_length fst).
  apply Permutation_length, NoDup_Permutation; [|done|].
  - eapply (SimplexFacts.sublist_nodup _ ((zip F evs).*1)); [by apply fmap_sublist|by rewrite Hz1].
  - intros c. rewrite elem_of_list_fmap. split.
    + intros ([c' x] & -> & [Hc _]%elem_of_list_filter). done.
    + intros Hc. pose proof (Hsub c Hc) as HcF. apply elem_of_list_lookup in HcF as [k Hk].
      destruct (lookup_lt_is_Some_2 evs k) as [x Hx]; [rewrite <- Hlen; by eapply lookup_lt_Some|].
      exists (c, x). split; [done|]. apply elem_of_list_filter. split; [done|].
      apply elem_of_list_lookup. exists k. apply lookup_zip_with_Some. by exists c, x.
Qed.
(** All sublists of a list. *)
Fixpoint subs (l : list nat) : list (list nat) :=
  match l with [] => [[]] | x :: l' => subs l' ++ (cons x <$> subs l') end.
Lemma subs_length l : length (subs l) = 2 ^ length l.
Proof. induction l as [|x l IH]; [done|]. cbn [subs]. rewrite app_length, fmap_length, IH. cbn. lia. Qed.
Lemma elem_subs l c : c ∈ subs l ↔ c `sublist_of` l.
Proof.
  revert c. induction l as [|x l IH]; intros c; cbn [subs].
  - rewrite elem_of_list_singleton. split; [intros ->; constructor|]. by intros ?%sublist_nil_r.
  - rewrite elem_of_app, elem_of_list_fmap, sublist_cons_r, IH. setoid_rewrite IH. naive_solver.
Qed.
Lemma subs_nodup l : NoDup l → NoDup (subs l).
Proof.
  induction l as [|x l IH]; intros Hl; [apply NoDup_singleton|]. apply NoDup_cons in Hl as [Hx Hl]. cbn [subs].
  apply NoDup_app. split_and!; [by apply IH| |apply NoDup_fmap_2; [intros ?? [= ->]; done|by apply IH]].
  intros c Hc (c' & -> & _)%elem_of_list_fmap. apply elem_subs in Hc. apply Hx. eapply SimplexFacts.sublist_elem; [exact Hc|left].
Qed.
Lemma subs_proper c : NoDup c → c ≠ [] → length (filter (λ s, s ≠ [] ∧ s ≠ c) (subs c)) = 2 ^ length c - 2.
Proof.
  intros Hc Hne. rewrite <- subs_length.
  assert (subs c ≡ₚ [] :: c :: filter (λ s, s ≠ [] ∧ s ≠ c) (subs c)) as H; [|by rewrite H at 2; cbn [length]; lia].
  apply NoDup_Permutation.
  - by apply subs_nodup.
  - apply NoDup_cons. split; [rewrite elem_of_cons, elem_of_list_filter; naive_solver|].
    apply NoDup_cons. split; [rewrite elem_of_list_filter; naive_solver|]. by apply NoDup_filter, subs_nodup.
  - intros s. rewrite !elem_of_cons, elem_of_list_filter, elem_subs. destruct (decide (s = [])) as [E|].
    + subst s. split; [tauto|]. intros _. apply sublist_nil_l.
    + destruct (decide (s = c)) as [E|]; [|tauto]. subst s. split; [tauto|done].
Qed.
Lemma ncomb_facets (l : list nat) : l ≠ [] → length (combinations l (length l - 1)) = length l.
Proof.
  induction l as [|x l IH]; intros Hl; [done|]. destruct l as [|y l]; [done|].
  change (ncomb (x :: y :: l) (S (length l)) = S (S (length l))). rewrite ncomb_pascal.
  pose proof (ncomb_full (y :: l)) as H1. cbn [length] in H1. rewrite H1.
  specialize (IH ltac:(done)). change (ncomb (y :: l) (length (y :: l) - 1) = S (length l)) in IH. cbn [length] in IH.
  replace (S (length l) - 1) with (length l) in IH by lia. rewrite IH. lia.
Qed.
Theorem C90_simplex (it : oracle) (h : heap) (d : Z) (central : bool) :
  iter_ok it → order_inv h → link_inv h → (0 < d)%Z →
  let n := Z.to_nat (d + 1) in
  ∃ h' evs (F : list (list nat)), NewSimplex it d central h = (h', Ok (list_to_set evs)) ∧
    length F = length evs ∧ NoDup F ∧ NoDup evs ∧
    (∀ c, c ∈ F ↔ c `sublist_of` seq 1 n ∧ c ≠ [] ∧ (length c < n ∨ central = true)) ∧
    let C : gset nat := list_to_set evs in
    (* a link joins a face to a face with one vertex more; all paths between two faces have the same length *)
    (∀ i j c e x y, F !! i = Some c → F !! j = Some e → evs !! i = Some x → evs !! j = Some y →
       (x ∈ LinkPast h' y ↔ (∀ v, v ∈ c → v ∈ e) ∧ length e = S (length c)) ∧
       (∀ l, link_path (before h') x y l → length l = length e - length c + 1) ∧
       ((∀ v, v ∈ c → v ∈ e) → ∀ it', iter_ok it' → Rank it' h' x y = Ok (Some (length e - length c)))) ∧
    (* numbers of relatives *)
    (∀ i c x, F !! i = Some c → evs !! i = Some x →
       PastCard h' x = 2 ^ length c - 2 ∧
       FutureCard h' x = 2 ^ (n - length c) - (if central then 1 else 2) ∧
       (2 ≤ length c → size (LinkPast h' x) = length c)) ∧
    (* the layers are the faces of equal dimension, the first one the vertices *)
    PastInfCard h' C = n ∧
    ∃ L, layered h' C false = Ok L ∧ length L = (if central then n else n - 1) ∧
      ∀ i c x k, F !! i = Some c → evs !! i = Some x → (∃ T, L !! k = Some T ∧ x ∈ T) ↔ length c = S k.
Proof.
  intros Hit HO HL Hd n. destruct (C16_NewSimplex it h d central Hit HO HL) as (h' & evs & F & E & Hf & Hlen & HnF & HF & _ & Ho & _).
  fold n in HF. assert (Hn : 2 ≤ n) by (unfold n; lia). clearbody n.
  pose proof (fc_nodup _ _ _ Hf) as Hnd. pose proof (fc_order _ _ _ Hf) as HO'. pose proof (fc_link _ _ _ Hf) as HL'.
  pose proof (fc_closed _ _ _ Hf) as Hcl.
  assert (HF' : ∀ c, c ∈ F ↔ c `sublist_of` seq 1 n ∧ c ≠ [] ∧ (length c < n ∨ central = true)).
  { intros c. rewrite HF. split.
    - intros (H1 & H2 & H3). split_and!; [done|done|]. destruct H3 as [?|[?|[? _]]]; [by left|lia|by right].
    - intros (H1 & H2 & H3). split_and!; [done|done|]. destruct H3 as [?|?]; [by left|right; by right]. }
  clear HF. exists h', evs, F. split_and!; [done|done|done|done|done|]. intros C.
  assert (Hsq : NoDup (seq 1 n)) by apply NoDup_seq.
  assert (Hfn : ∀ c, c `sublist_of` seq 1 n → NoDup c) by (intros c Hc; by eapply SimplexFacts.sublist_nodup).
  assert (Hat : ∀ i x, evs !! i = Some x → ∃ c, F !! i = Some c ∧ c ∈ F).
  { intros i x Hx. destruct (lookup_lt_is_Some_2 F i) as [c Hc]; [rewrite Hlen; by eapply lookup_lt_Some|].
    exists c. split; [done|]. by eapply elem_of_list_lookup_2. }
  assert (Hev : ∀ c, c ∈ F → ∃ i x, F !! i = Some c ∧ evs !! i = Some x).
  { intros c Hc. apply elem_of_list_lookup in Hc as [i Hi]. destruct (lookup_lt_is_Some_2 evs i) as [x Hx]; [rewrite <- Hlen; by eapply lookup_lt_Some|].
    by exists i, x. }
  pose (gi i := length (default [] (F !! i)) - 1).
  assert (Hgi : ∀ i c, F !! i = Some c → S (gi i) = length c).
  { intros i c Hc. unfold gi. rewrite Hc. cbn. pose proof (elem_of_list_lookup_2 _ _ _ Hc) as Hin. apply HF' in Hin as (_ & H & _).
    destruct c; [done|cbn; lia]. }
  assert (Hss : ∀ c e, c ∈ F → e ∈ F → (list_to_set c : gset nat) ⊂ list_to_set e ↔ (∀ v, v ∈ c → v ∈ e) ∧ c ≠ e).
  { intros c e (Hc & _)%HF' (He & _)%HF'. rewrite (sublist_subset_iff (seq 1 n) e c) by done.
    rewrite elem_of_subseteq. setoid_rewrite elem_of_list_to_set. done. }
  assert (Hsl : ∀ c e, c ∈ F → e ∈ F → (list_to_set c : gset nat) ⊂ list_to_set e → length c < length e).
  { intros c e (Hc & _)%HF' (He & _)%HF'. by apply (sublist_set_length (seq 1 n)). }
  assert (Hg : ∀ u w x y, evs !! u = Some x → evs !! w = Some y → before h' x y →
    gi u < gi w ∧ (S (gi u) < gi w → ∃ z, before h' x z ∧ before h' z y)).
  { intros u w x y Hu Hw Hb. destruct (Hat u x Hu) as (c & Hc & HcF). destruct (Hat w y Hw) as (e & He & HeF).
    apply (Ho u w c e x y Hc He Hu Hw) in Hb. pose proof (Hsl c e HcF HeF Hb). pose proof (Hgi u c Hc). pose proof (Hgi w e He).
    split; [lia|]. intros Hlt. pose proof (proj1 (HF' c) HcF) as (Hcs & _). pose proof (proj1 (HF' e) HeF) as (Hes & _ & Hecase).
    destruct (facet_exists (seq 1 n) e c Hsq Hes Hcs Hb) as (f & Hfe & Hfl & Hcf).
    assert (HfF : f ∈ F).
    { apply HF'. split_and!; [by etrans|intros ->; cbn in Hfl; lia|]. pose proof (sublist_length _ _ Hes) as Hle. rewrite seq_length in Hle. left. lia. }
    destruct (Hev f HfF) as (v & z & Hv & Hz). exists z. rewrite (Ho u v c f x z Hc Hv Hu Hz), (Ho v w f e z y Hv He Hz Hw).
    rewrite !Hss by done. split; split.
    - intros v' Hv'. apply (elem_of_list_to_set (C:=gset nat)), Hcf. by apply elem_of_list_to_set.
    - intros <-. lia.
    - intros v' Hv'. by eapply SimplexFacts.sublist_elem.
    - intros <-. lia. }
  assert (Hlow : ∀ w y, evs !! w = Some y → 0 < gi w → ∃ u x, evs !! u = Some x ∧ before h' x y ∧ gi w = S (gi u)).
  { intros w y Hw Hpos. destruct (Hat w y Hw) as (e & He & HeF). pose proof (proj1 (HF' e) HeF) as (Hes & _).
    pose proof (Hgi w e He) as Hge. destruct e as [|v e]; [cbn in Hge; lia|]. cbn in Hge.
    assert (Hse : e `sublist_of` v :: e) by (by constructor).
    assert (HfF : e ∈ F).
    { apply HF'. split_and!; [by etrans|intros ->; cbn in Hge; lia|]. pose proof (sublist_length _ _ Hes) as Hle. rewrite seq_length in Hle. cbn in Hle. left. lia. }
    destruct (Hev e HfF) as (u & x & Hu & Hx). exists u, x. rewrite (Ho u w e (v :: e) x y Hu He Hx Hw), Hss by done.
    pose proof (Hgi u e Hu). split_and!; [done| | |lia].
    - intros z Hz. by right.
    - intros Heq. apply (f_equal length) in Heq. cbn in Heq. lia. }
  assert (Hcov : ∀ i j c e x y, F !! i = Some c → F !! j = Some e → evs !! i = Some x → evs !! j = Some y →
    covers (before h') x y ↔ (∀ v, v ∈ c → v ∈ e) ∧ length e = S (length c)).
  { intros i j c e x y Hc He Hx Hy. rewrite (std_covers h h' evs Hf gi Hg i j x y Hx Hy), (Ho i j c e x y Hc He Hx Hy).
    pose proof (Hgi i c Hc). pose proof (Hgi j e He). rewrite Hss by (by eapply elem_of_list_lookup_2). split.
    - intros [[H1 H2] H3]. split; [done|lia].
    - intros [H1 H2]. split_and!; [done|intros ->; lia|lia]. }
  split; [|split; [|split]].
  - intros i j c e x y Hc He Hx Hy. pose proof (Hgi i c Hc) as Gi. pose proof (Hgi j e He) as Gj. split; [|split].
    + rewrite (LinkPast_spec h' HO' HL'). by apply (Hcov i j).
    + intros l Hl. rewrite (std_path h h' evs Hf gi Hg i j x y l Hx Hy Hl). lia.
    + intros Hsub it' Hit'. replace (length e - length c) with (gi j - gi i) by lia.
      apply (std_rank h h' evs Hf gi Hg i j x y it' Hit' Hx Hy). destruct (decide (c = e)) as [<-|Hne].
      * left. assert (i = j) as <- by exact (NoDup_lookup F i j c HnF Hc He). congruence.
      * right. apply (Ho i j c e x y Hc He Hx Hy). apply Hss; [by eapply elem_of_list_lookup_2..|done].
  - intros i c x Hc Hx. pose proof (elem_of_list_lookup_2 _ _ _ Hc) as HcF. pose proof (proj1 (HF' c) HcF) as (Hcs & Hcne & Hcase).
    pose proof (sublist_length _ _ Hcs) as Hlc. rewrite seq_length in Hlc.
    destruct (C08_cardinalities h' x ∅ HO') as (-> & -> & _). split; [|split].
    + rewrite <- (subs_proper c) by (done || by apply Hfn). apply (face_card n F evs); [done..| | |].
      * apply NoDup_filter, subs_nodup. by apply Hfn.
      * intros s [[H1 H2] H3]%elem_of_list_filter. apply elem_subs in H3. apply HF'. split_and!; [by etrans|done|].
        pose proof (sublist_length _ _ H3). left. destruct (decide (length s = length c)); [|lia]. destruct H2. apply SimplexFacts.sublist_full; [done|lia].
      * intros y. split.
        -- intros Hy. assert (Hb : before h' y x) by done. assert (Hyin : y ∈ evs) by (eapply (past_in h h' evs x); [done|by eapply elem_of_list_lookup_2|done]).
           apply elem_of_list_lookup in Hyin as [j Hj]. destruct (Hat j y Hj) as (e & He & HeF). exists j, e. split_and!; [done|done|].
           apply (Ho j i e c y x He Hc Hj Hx) in Hb. pose proof Hb as Hb2. apply Hss in Hb2 as [Hsub Hne]; [|done|done].
           apply elem_of_list_filter. pose proof (proj1 (HF' e) HeF) as (Hes & Hene & _). split; [done|]. apply elem_subs.
           clear -Hsub Hes Hcs Hsq. assert (He : e = filter (λ v, v ∈ e) (seq 1 n)).
           { apply (sublist_ext (seq 1 n)); [done|done|apply filter_sublist|]. intros v. rewrite elem_of_list_filter.
             split; [intros Hv; split; [done|]; by eapply SimplexFacts.sublist_elem|by intros []]. }
           assert (Hec : e = filter (λ v, v ∈ e) c).
           { apply (sublist_ext (seq 1 n)); [done|done|etrans; [apply filter_sublist|done]|]. intros v. rewrite elem_of_list_filter. naive_solver. }
           rewrite Hec. apply filter_sublist.
        -- intros (j & e & He & Hj & [[H1 H2] H3]%elem_of_list_filter). apply elem_subs in H3. apply (Ho j i e c y x He Hc Hj Hx).
           apply Hss; [by eapply elem_of_list_lookup_2|done|]. split; [|done]. intros v Hv. by eapply SimplexFacts.sublist_elem.
    + pose (co := filter (λ v, v ∉ c) (seq 1 n)). pose (ext (s : list nat) := filter (λ v, v ∈ c ∨ v ∈ s) (seq 1 n)).
      assert (Hco : length co = n - length c).
      { assert (Hp : seq 1 n ≡ₚ c ++ co).
        { apply NoDup_Permutation; [done| |].
          - apply NoDup_app. split_and!; [by apply Hfn| |by apply NoDup_filter]. intros v Hv [Hnv _]%elem_of_list_filter. done.
          - intros v. rewrite elem_of_app. unfold co. rewrite elem_of_list_filter. destruct (decide (v ∈ c)) as [Hv|Hv]; [|tauto].
            split; [by left|]. intros _. by eapply SimplexFacts.sublist_elem. }
        apply Permutation_length in Hp. rewrite app_length, seq_length in Hp. lia. }
      assert (Hext : ∀ s v, s `sublist_of` co → v ∈ ext s ↔ v ∈ c ∨ v ∈ s).
      { intros s v Hs. unfold ext. rewrite elem_of_list_filter. split; [by intros []|]. intros Hv. split; [done|].
        destruct Hv as [Hv|Hv]; [by eapply SimplexFacts.sublist_elem|]. apply (SimplexFacts.sublist_elem s co) in Hv; [|done].
        unfold co in Hv. apply elem_of_list_filter in Hv. apply Hv. }
      assert (Hexts : ∀ s, ext s `sublist_of` seq 1 n) by (intros s; apply filter_sublist).
      assert (Hnco : NoDup co) by (by apply NoDup_filter).
      assert (Hcos : ∀ s v, s `sublist_of` co → v ∈ s → v ∉ c).
      { intros s v Hs Hv. apply (SimplexFacts.sublist_elem s co) in Hv; [|done]. unfold co in Hv. apply elem_of_list_filter in Hv. apply Hv. }
      assert (Hinj : ∀ s t, s ∈ subs co → t ∈ subs co → ext s = ext t → s = t).
      { intros s t Hs%elem_subs Ht%elem_subs Hst. apply (sublist_ext co); [done..|]. intros v.
        pose proof (Hext s v Hs) as H1. pose proof (Hext t v Ht) as H2. rewrite Hst in H1. rewrite H1 in H2.
        pose proof (Hcos s v Hs). pose proof (Hcos t v Ht). tauto. }
      assert (Hlext : ∀ s, s `sublist_of` co → length (ext s) = length c + length s).
      { intros s Hs. rewrite <- app_length. apply Permutation_length, NoDup_Permutation; [by apply Hfn| |].
        - apply NoDup_app. split_and!; [by apply Hfn| |by eapply SimplexFacts.sublist_nodup]. intros v Hv Hv'. by apply (Hcos s v).
        - intros v. by rewrite (Hext s v Hs), elem_of_app. }
      pose (S0 := if central then filter (λ s, s ≠ []) (subs co) else filter (λ s, s ≠ [] ∧ s ≠ co) (subs co)).
      assert (HS0 : ∀ s, s ∈ S0 ↔ s `sublist_of` co ∧ s ≠ [] ∧ (length s < length co ∨ central = true)).
      { intros s. unfold S0. destruct central; rewrite elem_of_list_filter, elem_subs; [naive_solver|]. split.
        - intros [[H1 H2] H3]. split_and!; [done|done|]. left. pose proof (sublist_length _ _ H3).
          destruct (decide (length s = length co)); [|lia]. destruct H2. apply SimplexFacts.sublist_full; [done|lia].
        - intros (H1 & H2 & [H3|]); [|done]. split_and!; [done| |done]. intros ->. lia. }
      assert (Hlen0 : length S0 = 2 ^ (n - length c) - (if central then 1 else 2)).
      { rewrite <- Hco. unfold S0. destruct central.
        - rewrite <- subs_length. assert (subs co ≡ₚ [] :: filter (λ s, s ≠ []) (subs co)) as H; [|by rewrite H at 2; cbn [length]; lia].
          apply NoDup_Permutation; [by apply subs_nodup|apply NoDup_cons; split; [rewrite elem_of_list_filter; naive_solver|by apply NoDup_filter, subs_nodup]|].
          intros s. rewrite elem_of_cons, elem_of_list_filter, elem_subs. destruct (decide (s = [])) as [->|]; [|tauto].
          split; [tauto|]. intros _. apply sublist_nil_l.
        - apply subs_proper; [done|]. intros Hc0. rewrite Hc0 in Hco. cbn in Hco. destruct Hcase; [lia|done]. }
      rewrite <- Hlen0, <- (fmap_length ext). apply (face_card n F evs); [done..| | |].
      * apply NoDup_fmap_2_strong.
        -- intros s t (Hs & _)%HS0 (Ht & _)%HS0. apply Hinj; by apply elem_subs.
        -- unfold S0. destruct central; by apply NoDup_filter, subs_nodup.
      * intros e (s & -> & (Hs & Hsne & Hsl')%HS0)%elem_of_list_fmap. apply HF'. rewrite (Hlext s Hs). split_and!; [done| |].
        -- intros H0. apply (f_equal length) in H0. rewrite (Hlext s Hs) in H0. destruct c; [done|cbn in H0; lia].
        -- destruct Hsl' as [?|?]; [left; lia|by right].
      * intros y. split.
        -- intros Hy. assert (Hb : before h' x y) by by apply (oi_conv _ HO'). assert (Hyin : y ∈ evs) by (eapply (future_in h h' evs x); [done|by eapply elem_of_list_lookup_2|done]).
           apply elem_of_list_lookup in Hyin as [j Hj]. destruct (Hat j y Hj) as (e & He & HeF). exists j, e. split_and!; [done|done|].
           apply (Ho i j c e x y Hc He Hx Hj) in Hb. pose proof (Hsl c e HcF HeF Hb) as Hll. apply Hss in Hb as [Hsub Hne]; [|done|done].
           pose proof (proj1 (HF' e) HeF) as (Hes & Hene & Hecase).
           apply elem_of_list_fmap. exists (filter (λ v, v ∈ e) co).
           assert (Hse : e = ext (filter (λ v, v ∈ e) co)).
           { apply (sublist_ext (seq 1 n)); [done|done|done|]. intros v. rewrite Hext by apply filter_sublist.
             unfold co. rewrite !elem_of_list_filter. split.
             - intros Hv. destruct (decide (v ∈ c)); [by left|right]. split_and!; [done|done|]. by eapply SimplexFacts.sublist_elem.
             - intros [Hv|[Hv _]]; [by apply Hsub|done]. }
           split; [done|]. apply HS0. pose proof (Hlext (filter (λ v, v ∈ e) co) (filter_sublist _ _)) as Hle. rewrite <- Hse in Hle.
           split_and!; [apply filter_sublist|intros H0; rewrite H0 in Hle; cbn in Hle; lia|]. destruct Hecase as [?|?]; [left; lia|by right].
        -- intros (j & e & He & Hj & (s & -> & (Hs & Hsne & _)%HS0)%elem_of_list_fmap). apply (oi_conv _ HO'). apply (Ho i j c (ext s) x y Hc He Hx Hj).
           apply Hss; [done|by eapply elem_of_list_lookup_2|]. split; [intros v Hv; apply Hext; [done|by left]|].
           intros H0. apply (f_equal length) in H0. rewrite (Hlext s Hs) in H0. destruct s; [done|cbn in H0; lia].
    + intros H2. rewrite <- (ncomb_facets c) by done. apply (face_card n F evs); [done..| | |].
      * apply combinations_nodup. by apply Hfn.
      * intros s [H3 H4]%combinations_spec. apply HF'. split_and!; [by etrans|intros ->; cbn in H4; lia|left; lia].
      * intros y. rewrite (LinkPast_spec h' HO' HL'). split.
        -- intros Hcv. assert (Hyin : y ∈ evs) by (eapply (past_in h h' evs x); [done|by eapply elem_of_list_lookup_2|apply Hcv]).
           apply elem_of_list_lookup in Hyin as [j Hj]. destruct (Hat j y Hj) as (e & He & HeF). exists j, e. split_and!; [done|done|].
           apply (Hcov j i e c y x He Hc Hj Hx) in Hcv as [Hsub Hl]. apply combinations_spec. split; [|lia].
           pose proof (proj1 (HF' e) HeF) as (Hes & _).
           assert (Hec : e = filter (λ v, v ∈ e) c).
           { apply (sublist_ext (seq 1 n)); [done|done|etrans; [apply filter_sublist|done]|]. intros v. rewrite elem_of_list_filter. naive_solver. }
           rewrite Hec. apply filter_sublist.
        -- intros (j & e & He & Hj & [H3 H4]%combinations_spec). apply (Hcov j i e c y x He Hc Hj Hx). split; [|lia].
           intros v Hv. by eapply SimplexFacts.sublist_elem.
  - destruct (C31_infinities h' C C HO') as (_ & _ & _ & _ & _ & -> & _). 
    transitivity (length ((λ v, [v]) <$> seq 1 n)); [|by rewrite fmap_length, seq_length].
    apply (face_card n F evs); [done..| | |].
    + apply NoDup_fmap_2; [|done]. by intros ?? [= ->].
    + intros c (v & -> & Hv)%elem_of_list_fmap. apply HF'. split_and!; [|done|left; cbn; lia].
      clear -Hv. apply elem_of_list_split in Hv as (l1 & l2 & ->). change [v] with ([] ++ [v]). apply sublist_app; [apply sublist_nil_l|]. constructor. apply sublist_nil_l.
    + intros x. unfold C. rewrite (std_PastInf h h' evs Hf gi Hg Hlow). split.
      * intros (i & Hi & H0). destruct (Hat i x Hi) as (c & Hc & HcF). exists i, c. split_and!; [done|done|]. pose proof (Hgi i c Hc) as Hgc. rewrite H0 in Hgc.
        destruct c as [|v [|]]; try done. apply elem_of_list_fmap. exists v. split; [done|]. pose proof (proj1 (HF' _) HcF) as (Hcs & _).
        eapply SimplexFacts.sublist_elem; [exact Hcs|left].
      * intros (i & c & Hc & Hi & (v & -> & Hv)%elem_of_list_fmap). exists i. split; [done|]. pose proof (Hgi i _ Hc) as Hgc. cbn in Hgc. lia.
  - destruct (std_layered h h' evs Hf gi Hg Hlow) as (L & EL & HneL & HLk).
    assert (HLk' : ∀ i c x k, F !! i = Some c → evs !! i = Some x → (∃ T, L !! k = Some T ∧ x ∈ T) ↔ length c = S k).
    { intros i c x k Hc Hi. rewrite HLk, <- (Hgi i c Hc). split.
      - intros (j & Hj & <-). assert (i = j) as <- by exact (NoDup_lookup evs i j x Hnd Hi Hj). done.
      - intros [= Hk]. by exists i. }
    exists L. split_and!; [done| |done].
    set (m := if central then n else n - 1).
    assert (Hk : ∀ k, k < length L ↔ k < m).
    { intros k. split.
      - intros [T HT]%lookup_lt_is_Some_2. destruct (set_choose_L T) as [x Hx]; [by eapply HneL, elem_of_list_lookup_2|].
        destruct (proj1 (HLk x k)) as (i & Hi & Hgk); [by exists T|]. destruct (Hat i x Hi) as (c & Hc & HcF).
        pose proof (Hgi i c Hc). apply HF' in HcF as (Hcs & _ & Hcase). pose proof (sublist_length _ _ Hcs) as Hlc. rewrite seq_length in Hlc.
        unfold m. destruct central; [lia|]. destruct Hcase; [lia|done].
      - intros Hkm. assert (HcF : take (S k) (seq 1 n) ∈ F).
        { apply HF'. rewrite take_length, seq_length. split_and!; [apply sublist_take|destruct n; [lia|done]|]. unfold m in Hkm. destruct central; [by right|left; lia]. }
        destruct (Hev _ HcF) as (i & x & Hi & Hx). destruct (proj2 (HLk' i _ x k Hi Hx)) as (T & HT & _).
        { rewrite take_length, seq_length. unfold m in Hkm. destruct central; lia. }
        by eapply lookup_lt_Some. }
    destruct (lt_eq_lt_dec (length L) m) as [[H|H]|H]; [apply Hk in H; lia|done|apply Hk in H; lia].
Qed.
Print Assumptions C90_simplex.

(** ** C90: fences and crowns.  [evs] lists the events row by row. *)
Lemma rowcol len i : 0 < len → i = i / len * len + i mod len ∧ i mod len < len.
Proof. intros H. split; [rewrite Nat.mul_comm; apply Nat.div_mod; lia|apply Nat.mod_upper_bound; lia]. Qed.
Lemma rowcol_div len r l : l < len → (r * len + l) / len = r.
Proof. intros H. rewrite Nat.add_comm, Nat.div_add, (Nat.div_small l) by lia. lia. Qed.
Lemma rowcol_mod len r l : l < len → (r * len + l) mod len = l.
Proof. intros H. rewrite Nat.add_comm, Nat.mod_add by lia. by apply Nat.mod_small. Qed.
Lemma within_1 closed len l l' : l < len → l' < len → within closed len 1 l l' ↔ l' = l ∨ l' = if closed then (l + 1) mod len else l + 1.
Proof.
  intros H H'. unfold within. split.
  - intros (k & Hk & ->). destruct k as [|[|]]; [left|by right|lia]. rewrite Nat.add_0_r. destruct closed; [|done]. by apply Nat.mod_small.
  - intros [->| ->]; [exists 0|exists 1]; (split; [lia|]); [|done]. rewrite Nat.add_0_r. destruct closed; [|done]. by rewrite Nat.mod_small.
Qed.
Lemma within_split closed len d l l' : l < len → l' < len → within closed len (S d) l l' →
  ∃ m, m < len ∧ within closed len 1 l m ∧ within closed len d m l'.
Proof.
  intros H H' (k & Hk & E). destruct closed.
  - exists ((l + Nat.min 1 k) mod len). split; [apply Nat.mod_upper_bound; lia|]. split; [exists (Nat.min 1 k); split; [lia|done]|].
    exists (k - Nat.min 1 k). split; [lia|]. rewrite Nat.add_mod_idemp_l by lia. by replace (l + Nat.min 1 k + (k - Nat.min 1 k)) with (l + k) by lia.
  - exists (l + Nat.min 1 k). split; [lia|]. split; [exists (Nat.min 1 k); split; [lia|done]|].
    exists (k - Nat.min 1 k). split; [lia|]. lia.
Qed.
Theorem C90_fence (it : oracle) (h : heap) (length height : Z) (closed : bool) :
  iter_ok it → order_inv h → link_inv h → (2 <= length)%Z → (0 <= height)%Z →
  let len := Z.to_nat length in
  let top := Z.to_nat height in
  ∃ h' evs, NewFence it length height closed h = (h', Ok (list_to_set evs)) ∧ NoDup evs ∧ base.length evs = (top + 1) * len ∧
    let C : gset nat := list_to_set evs in
    let row r : gset nat := list_to_set (take len (drop (r * len) evs)) in
    (∀ r l r' l' x y, l < len → l' < len → evs !! (r * len + l) = Some x → evs !! (r' * len + l') = Some y →
       (* every event is linked to the one above it and to the right one of it *)
       (x ∈ LinkPast h' y ↔ r' = S r ∧ (l' = l ∨ l' = if closed then (l + 1) mod len else l + 1)) ∧
       (∀ p, link_path (before h') x y p → base.length p = r' - r + 1) ∧
       (x = y ∨ before h' x y → ∀ it', iter_ok it' → Rank it' h' x y = Ok (Some (r' - r)))) ∧
    LinkCount h' C None = (if closed then 2 * len else 2 * len - 1) * top ∧
    layered h' C false = Ok (row <$> seq 0 (top + 1)) ∧
    layered h' C true = Ok ((λ r, row (top - r)) <$> seq 0 (top + 1)) ∧
    PastInf h' C = row 0 ∧ FutureInf h' C = row top.
Proof.
  intros Hit HO HL Hlen Htop len top. destruct (C17_NewFence it h length height closed Hit HO HL Hlen Htop) as (h' & evs & E & Hf & Hsz & _ & Ho).
  fold len in Hsz, Ho. fold top in Hsz. assert (H2 : 2 ≤ len) by (unfold len; lia). clearbody len top.
  pose proof (fc_nodup _ _ _ Hf) as Hnd. pose proof (fc_order _ _ _ Hf) as HO'. pose proof (fc_link _ _ _ Hf) as HL'.
  pose proof (fc_closed _ _ _ Hf) as Hcl.
  assert (Hord : ∀ u w x y, evs !! u = Some x → evs !! w = Some y →
    before h' x y ↔ u / len < w / len ∧ within closed len (w / len - u / len) (u mod len) (w mod len)).
  { intros u w x y Hu Hw. destruct (rowcol len u) as [Eu Lu]; [lia|]. destruct (rowcol len w) as [Ew Lw]; [lia|].
    rewrite Eu in Hu. rewrite Ew in Hw. by apply Ho. }
  assert (Hrow : ∀ r l, r ≤ top → l < len → ∃ z, evs !! (r * len + l) = Some z).
  { intros r l Hr Hl. apply lookup_lt_is_Some_2. rewrite Hsz. nia. }
  assert (Htp : ∀ u x, evs !! u = Some x → u / len ≤ top).
  { intros u x Hu%lookup_lt_Some. rewrite Hsz in Hu. destruct (rowcol len u); [lia|]. nia. }
  assert (Hg : ∀ u w x y, evs !! u = Some x → evs !! w = Some y → before h' x y →
    u / len < w / len ∧ (S (u / len) < w / len → ∃ z, before h' x z ∧ before h' z y)).
  { intros u w x y Hu Hw Hb. apply (Hord u w x y Hu Hw) in Hb as [Hlt Hwi]. split; [done|]. intros Hlt2.
    destruct (rowcol len u) as [_ Lu]; [lia|]. destruct (rowcol len w) as [_ Lw]; [lia|]. pose proof (Htp w y Hw).
    replace (w / len - u / len) with (S (w / len - S (u / len))) in Hwi by lia.
    destruct (within_split _ _ _ _ _ Lu Lw Hwi) as (m & Hm & H1 & H3). destruct (Hrow (S (u / len)) m) as [z Hz]; [lia|done|].
    exists z. rewrite (Hord _ _ x z Hu Hz), (Hord _ _ z y Hz Hw), !rowcol_div, !rowcol_mod by done.
    replace (S (u / len) - u / len) with 1 by lia. split_and!; [lia|done|lia|done]. }
  assert (Hcov : ∀ u w x y, evs !! u = Some x → evs !! w = Some y →
    covers (before h') x y ↔ w / len = S (u / len) ∧ (w mod len = u mod len ∨ w mod len = if closed then (u mod len + 1) mod len else u mod len + 1)).
  { intros u w x y Hu Hw. destruct (rowcol len u) as [_ Lu]; [lia|]. destruct (rowcol len w) as [_ Lw]; [lia|].
    rewrite (std_covers h h' evs Hf (λ i, i / len) Hg u w x y Hu Hw), (Hord u w x y Hu Hw), <- (within_1 closed len) by done. split.
    - intros [[_ H] E']. rewrite E' in H. replace (S (u / len) - u / len) with 1 in H by lia. done.
    - intros [E' H]. rewrite E'. replace (S (u / len) - u / len) with 1 by lia. split_and!; [lia|done|done]. }
  assert (Hw0 : ∀ d l, l < len → within closed len d l l).
  { intros d l Hl. exists 0. split; [lia|]. rewrite Nat.add_0_r. destruct closed; [|done]. by rewrite Nat.mod_small. }
  assert (Hlow : ∀ w y, evs !! w = Some y → 0 < w / len → ∃ u x, evs !! u = Some x ∧ before h' x y ∧ w / len = S (u / len)).
  { intros w y Hw Hpos. destruct (rowcol len w) as [_ Lw]; [lia|]. pose proof (Htp w y Hw).
    destruct (Hrow (w / len - 1) (w mod len)) as [x Hx]; [lia|done|]. exists ((w / len - 1) * len + w mod len), x.
    rewrite (Hord _ w x y Hx Hw), rowcol_div, rowcol_mod by done. split_and!; [done|lia|by apply Hw0|lia]. }
  exists h', evs. split_and!; [done|done|done|]. intros C row.
  assert (Hin : ∀ r x, x ∈ row r ↔ ∃ u, evs !! u = Some x ∧ u / len = r).
  { intros r x. unfold row. rewrite elem_of_list_to_set, elem_of_list_lookup. split.
    - intros [i Hi]. apply lookup_take_Some in Hi as [Hi Hl]. rewrite lookup_drop in Hi. exists (r * len + i). split; [done|]. by apply rowcol_div.
    - intros (u & Hu & <-). destruct (rowcol len u) as [Eu Lu]; [lia|]. exists (u mod len). rewrite lookup_take by done. by rewrite lookup_drop, <- Eu. }
  assert (Hrowne : ∀ r, r ≤ top → row r ≠ ∅).
  { intros r Hr H0. destruct (Hrow r 0) as [z Hz]; [done|lia|]. assert (z ∈ row r) as Hz'; [|rewrite H0 in Hz'; by apply elem_of_empty in Hz'].
    apply Hin. exists (r * len + 0). split; [done|]. apply rowcol_div. lia. }
  split_and!.
  - intros r l r' l' x y Hl Hl' Hx Hy. split; [|split].
    + rewrite (LinkPast_spec h' HO' HL'), (Hcov _ _ x y Hx Hy), !rowcol_div, !rowcol_mod by done. done.
    + intros p Hp. pose proof (std_path h h' evs Hf (λ i, i / len) Hg _ _ x y p Hx Hy Hp) as H. cbn beta in H. by rewrite !rowcol_div in H.
    + intros Hxy it' Hit'. pose proof (std_rank h h' evs Hf (λ i, i / len) Hg _ _ x y it' Hit' Hx Hy Hxy) as H. cbn beta in H. by rewrite !rowcol_div in H.
  - (* the links upwards, then the links to the right *)
    pose (up := (λ i, (i, i + len)) <$> seq 0 (top * len)).
    pose (right := if closed then (λ i, (i, (i / len + 1) * len + (i mod len + 1) mod len)) <$> seq 0 (top * len)
      else (λ j, (j / (len - 1) * len + j mod (len - 1), j / (len - 1) * len + j mod (len - 1) + len + 1)) <$> seq 0 (top * (len - 1))).
    assert (Hup : ∀ i j, (i, j) ∈ up ↔ i / len < top ∧ j / len = S (i / len) ∧ j mod len = i mod len).
    { intros i j. unfold up. rewrite elem_of_list_fmap. setoid_rewrite elem_of_seq. destruct (rowcol len i) as [Ei Li]; [lia|].
      destruct (rowcol len j) as [Ej Lj]; [lia|]. split.
      - intros (k & [= -> ->] & Hk). assert (k + len = S (k / len) * len + k mod len) as -> by nia. rewrite rowcol_div, rowcol_mod by done.
        split_and!; [nia|done|done].
      - intros (H & H1 & H3). exists i. split; [f_equal; nia|nia]. }
    assert (Hri : ∀ i j, (i, j) ∈ right ↔ i / len < top ∧ j / len = S (i / len) ∧ j mod len = (if closed then (i mod len + 1) mod len else i mod len + 1)).
    { intros i j. unfold right. destruct (rowcol len i) as [Ei Li]; [lia|]. destruct (rowcol len j) as [Ej Lj]; [lia|]. destruct closed; rewrite elem_of_list_fmap; setoid_rewrite elem_of_seq; split.
      - intros (k & [= -> ->] & Hk). assert ((k mod len + 1) mod len < len) by (apply Nat.mod_upper_bound; lia). rewrite rowcol_div, rowcol_mod by done.
        split_and!; [nia|lia|done].
      - intros (H & H1 & H3). exists i. split; [f_equal; nia|nia].
      - intros (k & [= -> ->] & Hk). destruct (rowcol (len - 1) k) as [Ek Lk]; [lia|].
        assert (k / (len - 1) * len + k mod (len - 1) + len + 1 = S (k / (len - 1)) * len + (k mod (len - 1) + 1)) as -> by nia.
        rewrite !rowcol_div, !rowcol_mod by lia. split_and!; [nia|done|done].
      - intros (H & H1 & H3). assert (Hl1 : i mod len < len - 1) by lia. exists (i / len * (len - 1) + i mod len). rewrite rowcol_div, rowcol_mod by done.
        split; [f_equal; nia|nia]. }
    assert (Hnu : NoDup (up ++ right)).
    { apply NoDup_app. split_and!.
      - apply NoDup_fmap_2; [by intros ?? [= ->]|apply NoDup_seq].
      - intros [i j] (_ & _ & H1)%Hup (_ & _ & H3)%Hri. rewrite H1 in H3. destruct (rowcol len i) as [_ Li]; [lia|]. destruct closed; [|lia].
        destruct (decide (i mod len + 1 = len)) as [El|]; [rewrite El, (Nat.mod_same len) in H3 by lia; lia|rewrite (Nat.mod_small (i mod len + 1)) in H3 by lia; lia].
      - unfold right. destruct closed; (apply NoDup_fmap_2; [|apply NoDup_seq]).
        + by intros ?? [= ->].
        + intros a b [= H _]. destruct (rowcol (len - 1) a) as [Ea La]; [lia|]. destruct (rowcol (len - 1) b) as [Eb Lb]; [lia|].
          assert (Hd := rowcol_div len (a / (len - 1)) (a mod (len - 1))). rewrite H, rowcol_div in Hd by lia.
          assert (Hm := rowcol_mod len (a / (len - 1)) (a mod (len - 1))). rewrite H, rowcol_mod in Hm by lia.
          rewrite Ea, Eb. rewrite <- Hd, <- Hm by lia. done. }
    assert (Hbound : ∀ i j, (i, j) ∈ up ++ right → i < base.length evs ∧ j < base.length evs).
    { intros i j Hij. assert (i / len < top ∧ j / len = S (i / len)) as [H1 H3].
      { apply elem_of_app in Hij as [(? & ? & _)%Hup|(? & ? & _)%Hri]; done. }
      destruct (rowcol len i) as [Ei Li]; [lia|]. destruct (rowcol len j) as [Ej Lj]; [lia|]. rewrite Hsz. nia. }
    rewrite (link_count_list h' C ((λ p : nat * nat, (evs !!! p.1, evs !!! p.2)) <$> (up ++ right))); [|done..| |].
    + rewrite fmap_length, app_length. unfold up, right. destruct closed; rewrite !fmap_length, !seq_length; [lia|].
      replace (2 * len - 1) with (len + (len - 1)) by lia. lia.
    + apply NoDup_fmap_2_strong; [|done]. intros [i j] [i' j'] Hp Hp' [= H1 H3]. cbn in H1, H3.
      destruct (Hbound i j Hp) as [B1 B2], (Hbound i' j' Hp') as [B1' B2'].
      f_equal; (eapply (NoDup_lookup evs); [done|by apply list_lookup_lookup_total_lt|]); [rewrite H1|rewrite H3]; by apply list_lookup_lookup_total_lt.
    + intros a b. rewrite elem_of_list_fmap. unfold C. rewrite !elem_evs. split.
      * intros ([i j] & [= -> ->] & Hp). destruct (Hbound i j Hp) as [B1 B2]. cbn [fst snd].
        pose proof (list_lookup_lookup_total_lt evs i B1) as E1. pose proof (list_lookup_lookup_total_lt evs j B2) as E2.
        split_and!; [by eexists|by eexists|]. apply (Hcov i j _ _ E1 E2). apply elem_of_app in Hp as [(? & ? & ?)%Hup|(? & ? & ?)%Hri]; (split; [done|]); [by left|by right].
      * intros ([i Hi] & [j Hj] & Hc). apply (Hcov i j a b Hi Hj) in Hc as [Hr Hc]. exists (i, j). cbn [fst snd].
        rewrite (list_lookup_total_correct _ _ _ Hi), (list_lookup_total_correct _ _ _ Hj). split; [done|]. pose proof (Htp j b Hj).
        apply elem_of_app. destruct Hc as [Hc|Hc]; [left; apply Hup|right; apply Hri]; (split_and!; [lia|done|done]).
  - destruct (std_layered h h' evs Hf (λ i, i / len) Hg Hlow) as (L & EL & HneL & HLk). unfold C. rewrite EL. f_equal. apply layers_unique; [done| |].
    + intros T (r & -> & Hr)%elem_of_list_fmap. apply elem_of_seq in Hr. apply Hrowne. lia.
    + intros x k. rewrite HLk. split.
      * intros (u & Hu & <-). pose proof (Htp u x Hu). exists (row (u / len)). split; [|apply Hin; by exists u].
        apply list_lookup_fmap_Some. exists (u / len). split; [|done]. apply lookup_seq. lia.
      * intros (T & HT & Hx). apply list_lookup_fmap_Some in HT as (r & Hr & ->). apply lookup_seq in Hr as [-> _]. by apply Hin in Hx.
  - destruct (std_layered_above h h' evs Hf (λ i, top - i / len)) as (L & EL & HneL & HLk).
    { intros u w x y Hu Hw Hb. apply (Hord u w x y Hu Hw) in Hb as [Hb _]. pose proof (Htp w y Hw). lia. }
    { intros u x Hu Hpos. destruct (rowcol len u) as [_ Lu]; [lia|]. destruct (Hrow (S (u / len)) (u mod len)) as [y Hy]; [lia|done|].
      exists (S (u / len) * len + u mod len), y. rewrite (Hord u _ x y Hu Hy), rowcol_div, rowcol_mod by done.
      split_and!; [done|lia|by apply Hw0|lia]. }
    unfold C. rewrite EL. f_equal. apply layers_unique; [done| |].
    + intros T (r & -> & Hr)%elem_of_list_fmap. apply Hrowne. lia.
    + intros x k. rewrite HLk. split.
      * intros (u & Hu & <-). pose proof (Htp u x Hu). exists (row (u / len)). split; [|apply Hin; by exists u].
        apply list_lookup_fmap_Some. exists (top - u / len). split; [apply lookup_seq; lia|]. f_equal. lia.
      * intros (T & HT & Hx). apply list_lookup_fmap_Some in HT as (r & Hr & ->). apply lookup_seq in Hr as [-> Hr]. apply Hin in Hx as (u & Hu & Hr').
        exists u. split; [done|]. lia.
  - apply set_eq. intros x. unfold C. by rewrite (std_PastInf h h' evs Hf (λ i, i / len) Hg Hlow), Hin.
  - apply set_eq. intros x. destruct (C31_infinities h' C C HO') as (_ & H1 & _ & _ & _ & _ & _ & H). destruct (H Hcl) as [_ ->].
    rewrite H1, Hin. unfold C. rewrite elem_evs. split.
    + intros [[u Hu] Hmax]. exists u. split; [done|]. pose proof (Htp u x Hu). destruct (decide (u / len = top)) as [|Hne]; [done|]. exfalso. apply Hmax.
      destruct (rowcol len u) as [_ Lu]; [lia|]. destruct (Hrow (S (u / len)) (u mod len)) as [y Hy]; [lia|done|].
      exists y. split; [apply elem_evs; by eexists|]. rewrite (Hord u _ x y Hu Hy), rowcol_div, rowcol_mod by done. split; [lia|by apply Hw0].
    + intros (u & Hu & Ht). split; [by exists u|]. intros (y & [w Hw]%elem_evs & Hb). apply (Hord u w x y Hu Hw) in Hb as [Hb _]. pose proof (Htp w y Hw). lia.
Qed.
Print Assumptions C90_fence.
(** The hypotheses hold from the start, and the values are those of the program. *)
Example C90_nonvacuous :
  iter_ok it_reverse ∧ order_inv ∅ ∧ link_inv ∅ ∧
  (let p := NewFence it_reverse 3 1 true ∅ in match snd p with Ok C => LinkCount (fst p) C None | Err _ => 0 end) = 6 ∧
  (let p := NewFence it_reverse 3 2 false ∅ in match snd p with Ok C => LinkCount (fst p) C None | Err _ => 0 end) = 10 ∧
  (let p := NewChain it_reverse 4 FmtNone ∅ in
     match snd p with Ok C => layered (fst p) C true | Err e => Err e end = Ok [{[4]}; {[3]}; {[2]}; {[1]}]) ∧
  (let p := NewSimplex it_reverse 2 false ∅ in
     (PastCard (fst p) 5, FutureCard (fst p) 0, FutureCard (fst p) 5)) = (2, 2, 0) ∧
  (let p := NewSimplex it_reverse 2 false ∅ in
     match snd p with Ok C => PastInfCard (fst p) C | Err e => 0 end) = 3.
Proof.
  split; [apply it_reverse_ok|]. split; [apply order_inv_empty|]. split; [apply link_inv_empty|]. split_and!; decide_vm.
Qed.
