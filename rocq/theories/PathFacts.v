(** Lists with related neighbours, link paths, existence of link paths. *)
From Verif Require Import Base Spec EventModel EventFacts.

Section consecutive.
Context (S : nat → nat → Prop).

Lemma consecutive_cons x l :
  consecutive S (x :: l) ↔ (∀ y, head l = Some y → S x y) ∧ consecutive S l.
Proof.
  cbn. destruct l as [|y l]; cbn.
  - split; [intros _; split; [done|done]|done].
  - split; intros [H1 H2]; split; try done; [by intros ? [= <-]|by apply H1].
Qed.
Lemma consecutive_app l1 l2 :
  consecutive S (l1 ++ l2) ↔
  consecutive S l1 ∧ consecutive S l2 ∧
  (∀ x y, last l1 = Some x → head l2 = Some y → S x y).
Proof.
  induction l1 as [|x l1 IH].
  - cbn. split; [intros H; split_and!; done|tauto].
  - cbn [app]. rewrite !consecutive_cons, IH. rewrite last_cons.
    destruct l1 as [|z l1]; cbn [app head last].
    + cbn. split.
      * intros (H1 & H2 & H3 & _). split_and!; try done. intros ? y [= <-] Hy. by apply H1.
      * intros (H1 & H2 & H3). split_and!; try done. intros y Hy. by apply H3.
    + assert (Hl : ∃ w, last (z :: l1) = Some w).
      { destruct (last (z :: l1)) eqn:E; [eauto|]. by apply last_None in E. }
      destruct Hl as [w Hw]. rewrite Hw. split.
      * intros (H1 & H2 & H3 & H4). split_and!; try done.
      * intros ((H1 & H2) & H3 & H4). split_and!; try done.
Qed.
Lemma consecutive_snoc l x :
  consecutive S (l ++ [x]) ↔ consecutive S l ∧ (∀ y, last l = Some y → S y x).
Proof.
  rewrite consecutive_app. cbn. split.
  - intros (H1 & _ & H2). split; [done|]. intros y Hy. by apply H2.
  - intros [H1 H2]. split_and!; try done. intros ? ? H [= <-]. by apply H2.
Qed.
End consecutive.

Lemma consecutive_impl (S T : nat → nat → Prop) l :
  (∀ x y, S x y → T x y) → consecutive S l → consecutive T l.
Proof.
  intros HST. induction l as [|x l IH]; [done|].
  rewrite !consecutive_cons. intros [H1 H2]. split; eauto.
Qed.

(** In a transitive relation, neighbours related means all pairs in order related. *)
Lemma rising_pairs (R : nat → nat → Prop) l i j x y :
  (∀ a b c, R a b → R b c → R a c) →
  consecutive R l → l !! i = Some x → l !! j = Some y → i < j → R x y.
Proof.
  intros Ht. revert i j x y. induction l as [|z l IH]; intros i j x y Hc Hi Hj Hij; [done|].
  apply consecutive_cons in Hc as [H1 H2].
  destruct j as [|j]; [lia|]. cbn in Hj. destruct i as [|i].
  - cbn in Hi. injection Hi as <-. destruct l as [|w l]; [done|].
    specialize (H1 w eq_refl). destruct j as [|j].
    + cbn in Hj. by injection Hj as <-.
    + eapply Ht; [exact H1|]. apply (IH 0 (S j)); try done. lia.
  - cbn in Hi. apply (IH i j); try done. lia.
Qed.
Lemma rising_nodup (R : nat → nat → Prop) l :
  strict_order R → consecutive R l → NoDup l.
Proof.
  intros [Hirr Ht] Hc. apply NoDup_alt. intros i j x Hi Hj.
  destruct (decide (i < j)) as [H|H].
  - destruct (Hirr x). by apply (rising_pairs R l i j).
  - destruct (decide (j < i)) as [H'|H']; [|lia].
    destruct (Hirr x). by apply (rising_pairs R l j i).
Qed.

Section paths.
Context (R : nat → nat → Prop).

Lemma link_path_single a b l : link_path R a b [l] ↔ a = l ∧ b = l.
Proof.
  unfold link_path. cbn. split.
  - intros ([= ->] & [= ->] & _). done.
  - by intros [-> ->].
Qed.
Lemma link_path_nil a b : ¬ link_path R a b [].
Proof. by intros [H _]. Qed.
Lemma link_path_cons a b s l :
  link_path R a b (a :: s :: l) ↔ covers R a s ∧ link_path R s b (s :: l).
Proof.
  unfold link_path. rewrite consecutive_cons. cbn [head]. rewrite last_cons_cons.
  split.
  - intros (_ & H1 & H2 & H3). split_and!; try done. by apply H2.
  - intros (H1 & _ & H2 & H3). split_and!; try done. by intros ? [= <-].
Qed.
Lemma link_path_inv a b l :
  link_path R a b l →
  (l = [a] ∧ a = b) ∨ ∃ s l', l = a :: s :: l' ∧ covers R a s ∧ link_path R s b (s :: l').
Proof.
  destruct l as [|x [|s l]].
  - by intros ?%link_path_nil.
  - intros [-> ->]%link_path_single. by left.
  - intros H. assert (x = a) as -> by (destruct H as [[= H] _]; done).
    apply link_path_cons in H. right. eauto.
Qed.
Lemma link_path_snoc a p b l :
  link_path R a b (l ++ [p; b]) ↔ link_path R a p (l ++ [p]) ∧ covers R p b.
Proof.
  change (l ++ [p; b]) with (l ++ [p] ++ [b]). rewrite app_assoc.
  unfold link_path. rewrite consecutive_snoc. rewrite !last_snoc.
  assert (Hh : head ((l ++ [p]) ++ [b]) = head (l ++ [p])) by (destruct l; done).
  rewrite Hh. split.
  - intros (H1 & _ & H2 & H3). split_and!; try done. by apply H3.
  - intros ((H1 & _ & H2) & H3). split_and!; try done. by intros ? [= <-].
Qed.
Lemma link_path_inv_r a b l :
  link_path R a b l →
  (l = [b] ∧ a = b) ∨ ∃ p l', l = l' ++ [p; b] ∧ covers R p b ∧ link_path R a p (l' ++ [p]).
Proof.
  destruct l as [|x l _] using rev_ind; [by intros ?%link_path_nil|].
  intros H. assert (x = b) as ->.
  { destruct H as (_ & H & _). rewrite last_snoc in H. by injection H. }
  destruct l as [|p l _] using rev_ind.
  - left. apply link_path_single in H as [-> _]. done.
  - right. exists p, l. rewrite <- app_assoc in *. cbn in *.
    apply link_path_snoc in H. tauto.
Qed.
Lemma link_path_app a c b l1 l2 :
  link_path R a c (l1 ++ [c]) → link_path R c b (c :: l2) → link_path R a b (l1 ++ c :: l2).
Proof.
  unfold link_path. intros (H1 & _ & H3) (H4 & H5 & H6). split_and!.
  - destruct l1; done.
  - rewrite last_app, H5. done.
  - rewrite consecutive_app. split_and!.
    + apply consecutive_snoc in H3. tauto.
    + done.
    + apply consecutive_snoc in H3 as [_ H3]. intros x y Hx [= <-]. by apply H3.
Qed.
Lemma link_path_ends a b l :
  link_path R a b l → (∃ l', l = a :: l') ∧ (∃ l', l = l' ++ [b]).
Proof.
  intros H. split.
  - destruct (link_path_inv _ _ _ H) as [[-> _]|(s & l' & -> & _)]; eauto.
  - destruct (link_path_inv_r _ _ _ H) as [[-> _]|(p & l' & -> & _)].
    + by exists [].
    + exists (l' ++ [p]). by rewrite <- app_assoc.
Qed.
(** A link path of at least two events rises. *)
Lemma link_path_before a b l :
  (∀ x y z, R x y → R y z → R x z) →
  link_path R a b l → a = b ∨ R a b.
Proof.
  intros Ht. revert a. induction l as [|x l IH]; intros a H; [by apply link_path_nil in H|].
  destruct (link_path_inv _ _ _ H) as [[_ ->]|(s & l' & E & Hc & H')]; [by left|].
  injection E as -> ->. destruct (IH _ H') as [<-|Hb]; right; [apply Hc|].
  eapply Ht; [apply Hc|done].
Qed.
End paths.

Section exist.
Context (h : heap) (HO : order_inv h).

Lemma interval_smaller_l a c b :
  before h a c → before h c b → size (succ h a ∩ prec h c) < size (succ h a ∩ prec h b).
Proof.
  intros Hac Hcb. apply subset_size. apply strict_spec_alt. split.
  - intros z. rewrite !elem_of_intersection. intros [H1 H2]. split; [done|]. by eapply oi_trans.
  - intros E. assert (Hc : c ∈ succ h a ∩ prec h b).
    { apply elem_of_intersection. split; [by apply (oi_conv h HO)|done]. }
    rewrite <- E in Hc. apply elem_of_intersection in Hc as [_ Hc]. by eapply oi_irr.
Qed.
Lemma interval_smaller_r a c b :
  before h a c → before h c b → size (succ h c ∩ prec h b) < size (succ h a ∩ prec h b).
Proof.
  intros Hac Hcb. apply subset_size. apply strict_spec_alt. split.
  - intros z. rewrite !elem_of_intersection. intros [H1 H2]. split; [|done].
    eapply oi_trans'; [done| |done]. by apply (oi_conv h HO).
  - intros E. assert (Hc : c ∈ succ h a ∩ prec h b).
    { apply elem_of_intersection. split; [by apply (oi_conv h HO)|done]. }
    rewrite <- E in Hc. apply elem_of_intersection in Hc as [Hc _]. by eapply oi_irr'.
Qed.

(** Every related pair is joined by a path of links (finite intervals). *)
Lemma link_path_exists a b : before h a b → ∃ l, link_path (before h) a b l.
Proof.
  remember (size (succ h a ∩ prec h b)) as n eqn:En. revert a b En.
  induction n as [n IH] using lt_wf_ind. intros a b -> Hab.
  destruct (decide (succ h a ∩ prec h b = ∅)) as [He|He].
  - exists [a; b]. apply link_path_cons. split; [|by apply link_path_single].
    apply isLink_covers; [done|done|]. unfold isLink. by apply bool_decide_eq_true.
  - apply set_choose_L in He as [c Hc]. apply elem_of_intersection in Hc as [H1 H2].
    apply (oi_conv h HO) in H1.
    destruct (IH _ (interval_smaller_l a c b H1 H2) a c eq_refl H1) as [l1 Hl1].
    destruct (IH _ (interval_smaller_r a c b H1 H2) c b eq_refl H2) as [l2 Hl2].
    destruct (link_path_ends _ _ _ _ Hl1) as [_ [k1 ->]].
    destruct (link_path_ends _ _ _ _ Hl2) as [[k2 ->] _].
    eexists. by apply link_path_app.
Qed.

(** A minimal intermediate event: some link leaves [a] towards [b]. *)
Lemma first_link a b : before h a b → ∃ s, covers (before h) a s ∧ (s = b ∨ before h s b).
Proof.
  intros Hab. destruct (link_path_exists a b Hab) as [l Hl].
  destruct (link_path_inv _ _ _ _ Hl) as [[_ ->]|(s & l' & _ & Hc & H')].
  - by destruct (oi_irr h HO b).
  - exists s. split; [done|]. apply link_path_before in H'; [done|apply (oi_order h HO)].
Qed.
Lemma last_link a b : before h a b → ∃ p, covers (before h) p b ∧ (p = a ∨ before h a p).
Proof.
  intros Hab. destruct (link_path_exists a b Hab) as [l Hl].
  destruct (link_path_inv_r _ _ _ _ Hl) as [[_ ->]|(p & l' & _ & Hc & H')].
  - by destruct (oi_irr h HO b).
  - exists p. split; [done|].
    apply link_path_before in H' as [->|]; [by left|by right|apply (oi_order h HO)].
Qed.
Lemma prec_smaller p b : before h p b → size (prec h p) < size (prec h b).
Proof.
  intros Hpb. apply subset_size. apply strict_spec_alt. split.
  - intros z Hz. by eapply oi_trans.
  - intros E. apply (oi_irr h HO p). rewrite E. done.
Qed.
Lemma succ_smaller p b : before h p b → size (succ h b) < size (succ h p).
Proof.
  intros Hpb. apply (oi_conv h HO) in Hpb. apply subset_size. apply strict_spec_alt. split.
  - intros z Hz. by eapply oi_trans'.
  - intros E. apply (oi_irr' h HO b). rewrite E. done.
Qed.
End exist.
