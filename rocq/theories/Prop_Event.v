(** Theorems C01-C12: class CausetEvent (/repo/causetevent.py). *)
From Verif Require Import Base Spec EventModel EventFacts DisjoinFacts History HistoryFacts
  PathFacts RankFacts EventProps.

(** A concrete history used to show that hypotheses can be met: four events 0 < 1 < 2,
    0 < 3 < 2, with some links computed on the way. *)
Definition demo_ops : list op :=
  [ONew (LInt 1) ∅ ∅ [] []; ONew (LInt 2) {[0]} ∅ [] []; OLink 0;
   ONew (LInt 3) {[1]} ∅ [] []; OLinkPast 2; ONew (LStr "x") {[0]} {[2]} [] []; OLink 1].
Definition demo_hist : list (oracle * op) := (λ o, (it_reverse, o)) <$> demo_ops.
Definition demo : heap := run ∅ demo_hist.
Lemma demo_adm : admissible_history ∅ demo_hist.
Proof.
  apply adm_histb_sound; [apply it_reverse_ok|apply order_inv_empty|].
  vm_compute. reflexivity.
Qed.
Lemma demo_order : order_inv demo.
Proof. apply run_order; [apply demo_adm|apply order_inv_empty]. Qed.
Lemma demo_link : link_inv demo.
Proof.
  apply run_link; [apply demo_adm| |apply order_inv_empty|apply link_inv_empty].
  unfold no_disjoin, demo_hist, demo_ops. repeat constructor.
Qed.
Example demo_nontrivial :
  dom demo = {[0; 1; 2; 3]} ∧ ev_lt demo 0 2 = true ∧ ev_lt demo 1 3 = false ∧
  hasBeenLinked demo 2 = true ∧ hasBeenLinked demo 3 = false.
Proof. split; [apply set_eq; intros x; vm_compute; tauto|]. by vm_compute. Qed.

(** ** C01 *)
Theorem C01_order_invariant (hist : list (oracle * op)) :
  admissible_history ∅ hist →
  let h := run ∅ hist in
  (∀ a, ev_lt h a a = false) ∧
  (∀ a b c, ev_lt h a b = true → ev_lt h b c = true → ev_lt h a c = true) ∧
  (∀ a b, a ∈ Past h b ↔ b ∈ Future h a).
Proof.
  intros Ha h. assert (HO : order_inv h) by exact (run_order ∅ hist Ha order_inv_empty).
  split; [|split].
  - intros a. apply bool_decide_eq_false. by apply oi_irr.
  - intros a b c. unfold ev_lt. rewrite !bool_decide_eq_true. by apply oi_trans.
  - exact (oi_conv h HO).
Qed.
Print Assumptions C01_order_invariant.
Example C01_nonvacuous :
  admissible_history ∅ (demo_hist ++ [(it_elements, ODisjoin 1)]) ∧
  ev_lt (run ∅ (demo_hist ++ [(it_elements, ODisjoin 1)])) 0 2 = true.
Proof.
  split; [|by vm_compute]. 
  assert (H : ∀ h k1 k2, admissible_history h k1 → admissible_history (run h k1) k2 →
                         admissible_history h (k1 ++ k2)).
  { intros h k1. revert h. induction k1 as [|[it o] k1 IH]; intros h k2 H1 H2; [done|].
    destruct H1 as (?&?&?). cbn. split_and!; [done|done|]. by apply IH. }
  apply H; [apply demo_adm|]. split_and!; [apply it_elements_ok| |done].
  change (1 ∈ dom (run ∅ demo_hist)). decide_vm.
Qed.

(** ** C02 *)
Theorem C02_transitivity_iff (it : oracle) (h : heap) (l : label) (P F : gset nat)
    (cs ps : list Q) :
  iter_ok it → order_inv h → P ⊆ dom h → F ⊆ dom h →
  (∀ a b c, let h' := fst (new_event it l P F cs ps h) in
            ev_lt h' a b = true → ev_lt h' b c = true → ev_lt h' a c = true) ↔
  (∀ p f, (p ∈ P ∨ ∃ e, e ∈ P ∧ ev_lt h p e = true) →
          (f ∈ F ∨ ∃ e, e ∈ F ∧ ev_lt h e f = true) → ev_lt h p f = true).
Proof. exact (new_event_trans_iff it h l P F cs ps). Qed.
Print Assumptions C02_transitivity_iff.

(** Two unrelated events a = 0, b = 1 and then x = CausetEvent(past={a}, future={b}). *)
Definition c02_hist : list (oracle * op) :=
  [(it_elements, ONew LNone ∅ ∅ [] []); (it_elements, ONew LNone ∅ ∅ [] [])].
(** Event 4 between 0 and 2 keeps the order transitive, event 4 between 1 and 3 does not. *)
Example C02_nonvacuous : order_inv demo ∧ {[0; 1; 2; 3]} ⊆ dom demo ∧ ev_lt demo 0 2 = true ∧ ev_lt demo 1 3 = false ∧
  ev_lt (fst (new_event it_elements LNone {[1]} {[3]} [] [] demo)) 1 4 = true ∧
  ev_lt (fst (new_event it_elements LNone {[1]} {[3]} [] [] demo)) 4 3 = true ∧
  ev_lt (fst (new_event it_elements LNone {[1]} {[3]} [] [] demo)) 1 3 = false.
Proof. split; [apply demo_order|]. split_and!; decide_vm. Qed.
Theorem C02_ctor_transitive_refuted :
  ∃ (hist : list (oracle * op)) (it : oracle) (a b : nat),
    admissible_history ∅ hist ∧ iter_ok it ∧
    a ∈ dom (run ∅ hist) ∧ b ∈ dom (run ∅ hist) ∧
    let h' := fst (new_event it LNone {[a]} {[b]} [] [] (run ∅ hist)) in
    let x := snd (new_event it LNone {[a]} {[b]} [] [] (run ∅ hist)) in
    ev_lt h' a x = true ∧ ev_lt h' x b = true ∧ ev_lt h' a b = false.
Proof.
  exists c02_hist, it_elements, 0, 1. split_and!.
  - apply (adm_histb_sound it_elements ∅ [ONew LNone ∅ ∅ [] []; ONew LNone ∅ ∅ [] []]);
      [apply it_elements_ok|apply order_inv_empty|by vm_compute].
  - apply it_elements_ok.
  - decide_vm.
  - decide_vm.
  - vm_compute. done.
Qed.
Print Assumptions C02_ctor_transitive_refuted.

(** ** C03 *)
Theorem C03_ctor_effect (it : oracle) (h : heap) (l : label) (P F : gset nat)
    (cs ps : list Q) :
  iter_ok it → order_inv h → P ⊆ dom h → F ⊆ dom h →
  let h' := fst (new_event it l P F cs ps h) in
  let x := snd (new_event it l P F cs ps h) in
  x ∉ dom h ∧ dom h' = {[x]} ∪ dom h ∧
  (∀ y, y ∈ Past h' x ↔ ∃ e, e ∈ P ∧ y ∈ PresentOrPast h e) ∧
  (∀ y, y ∈ Future h' x ↔ ∃ e, e ∈ F ∧ y ∈ PresentOrFuture h e) ∧
  (∀ y, x ∈ Future h' y ↔ y ∈ Past h' x) ∧
  (∀ y, x ∈ Past h' y ↔ y ∈ Future h' x) ∧
  (∀ a b, a ≠ x → b ≠ x →
     (a ∈ Past h' b ↔ a ∈ Past h b) ∧ (a ∈ Future h' b ↔ a ∈ Future h b)) ∧
  (∀ y, y ≠ x → lab h' y = lab h y ∧ coords h' y = coords h y ∧ pos h' y = pos h y) ∧
  lab h' x = l ∧ Coordinates h' x = Ok cs ∧ get_Position h' x = ps ∧
  hasBeenLinked h' x = false.
Proof.
  intros Hit HO HP HF h' x.
  assert (Hx : x = new_id h) by done.
  assert (Hprec := new_event_prec it Hit h HO P F HP HF l cs ps).
  assert (Hsucc := new_event_succ it Hit h HO P F HP HF l cs ps).
  assert (HnP : new_id h ∉ past_closure h P) by (by eapply n_notin_P').
  assert (HnF : new_id h ∉ future_closure h F) by (by eapply n_notin_F').
  assert (Hns : ∀ y, new_id h ∉ prec h y ∧ new_id h ∉ succ h y)
    by (by eapply n_notin_sets).
  fold h' in Hprec, Hsucc. rewrite <- Hx in *. unfold Past, Future.
  split_and!.
  - rewrite Hx. apply new_id_fresh.
  - exact (new_event_dom it Hit h HO P F HP HF l cs ps).
  - intros y. rewrite Hprec, decide_True by done. rewrite past_closure_spec.
    unfold PresentOrPast. set_solver.
  - intros y. rewrite Hsucc, decide_True by done. rewrite future_closure_spec.
    unfold PresentOrFuture. set_solver.
  - intros y. rewrite Hprec, Hsucc. rewrite (decide_True (P := x = x)) by done.
    pose proof (Hns y). destruct (decide (y = x)) as [->|]; [done|].
    destruct (decide (y ∈ past_closure h P)); set_solver.
  - intros y. rewrite Hprec, Hsucc. rewrite (decide_True (P := x = x)) by done.
    pose proof (Hns y). destruct (decide (y = x)) as [->|]; [done|].
    destruct (decide (y ∈ future_closure h F)); set_solver.
  - intros a b Hna Hnb. split.
    + rewrite Hprec, decide_False by done. destruct (decide _); set_solver.
    + rewrite Hsucc, decide_False by done. destruct (decide _); set_solver.
  - intros y Hy. by apply (new_event_rest it Hit h HO P F HP HF l cs ps).
  - unfold lab, h'. rewrite new_event_lookup by done. by rewrite decide_True.
  - unfold Coordinates, coords, h'. rewrite new_event_lookup by done. by rewrite decide_True.
  - unfold get_Position, pos, h'. rewrite new_event_lookup by done. by rewrite decide_True.
  - unfold hasBeenLinked, lprec, h'. rewrite new_event_lookup by done. by rewrite decide_True.
Qed.
Print Assumptions C03_ctor_effect.
Example C03_nonvacuous :
  order_inv demo ∧ ({[1]} : gset nat) ⊆ dom demo ∧
  Past (fst (new_event it_elements LNone {[1]} ∅ [] [] demo)) 4 = {[0; 1]}.
Proof.
  split; [apply demo_order|]. split.
  - decide_vm.
  - decide_vm.
Qed.

(** ** C04 *)
Theorem C04_link_queries (hist : list (oracle * op)) :
  admissible_history ∅ hist → no_disjoin hist →
  let h := run ∅ hist in
  ∀ x y,
    (y ∈ snd (get_LinkPast h x) ↔ covers (before h) y x) ∧
    (y ∈ snd (get_LinkFuture h x) ↔ covers (before h) x y) ∧
    (y ∈ snd (get_LinkCone h x) ↔ covers (before h) y x ∨ covers (before h) x y) ∧
    (snd (isPastLink h x y) = true ↔ covers (before h) y x) ∧
    (snd (isFutureLink h x y) = true ↔ covers (before h) x y) ∧
    (snd (isLinkedTo h x y) = true ↔ covers (before h) y x ∨ covers (before h) x y).
Proof.
  intros Ha Hn h x y.
  exact (queries_covers h x y (run_order ∅ hist Ha order_inv_empty)
           (run_link ∅ hist Ha Hn order_inv_empty link_inv_empty)).
Qed.
Print Assumptions C04_link_queries.
Example C04_nonvacuous :
  admissible_history ∅ demo_hist ∧ no_disjoin demo_hist ∧
  snd (get_LinkPast demo 2) = {[1; 3]} ∧ snd (get_LinkFuture demo 0) = {[1; 3]}.
Proof.
  split; [apply demo_adm|]. split; [unfold no_disjoin, demo_hist, demo_ops; repeat constructor|].
  split; decide_vm.
Qed.

(** ** C05 *)
Theorem C05_disjoin_linked (it : oracle) (h : heap) (x : nat) :
  iter_ok it → order_inv h → x ∈ dom h → hasBeenLinked h x = true →
  let h' := fst (disjoin it h x) in
  snd (disjoin it h x) = Ok tt ∧ dom h' = dom h ∧
  Past h' x = ∅ ∧ Future h' x = ∅ ∧
  (∀ y, y ≠ x → Past h' y = Past h y ∖ {[x]} ∧ Future h' y = Future h y ∖ {[x]}) ∧
  (∀ y, lab h' y = lab h y ∧ coords h' y = coords h y ∧ pos h' y = pos h y) ∧
  order_inv h'.
Proof.
  intros Hit HO Hx Hl. unfold hasBeenLinked in Hl.
  destruct (lprec h x) as [lp|] eqn:E1; [|done]. destruct (lsucc h x) as [ls|] eqn:E2; [|done].
  intros h'.
  assert (Ho := disjoin_order it Hit h HO x Hx lp ls E1 E2).
  split_and!.
  - by rewrite (disjoin_final it Hit h HO x Hx lp ls E1 E2).
  - by eapply disjoin_dom.
  - destruct (Ho x) as [H _]. unfold Past, h'. rewrite H. by rewrite decide_True.
  - destruct (Ho x) as [_ H]. unfold Future, h'. rewrite H. by rewrite decide_True.
  - intros y Hy. destruct (Ho y) as [H1 H2]. rewrite decide_False in H1, H2 by done. done.
  - intros y. by eapply disjoin_rest.
  - by eapply disjoin_order_inv.
Qed.
Print Assumptions C05_disjoin_linked.
Theorem C05_disjoin_unlinked (hist : list (oracle * op)) (it : oracle) (x : nat) :
  admissible_history ∅ hist → hasBeenLinked (run ∅ hist) x = false →
  disjoin it (run ∅ hist) x = (run ∅ hist, Err AttributeError).
Proof.
  intros Ha Hl. pose proof (run_paired ∅ hist Ha order_inv_empty link_paired_empty x) as HP.
  unfold hasBeenLinked in Hl. unfold disjoin.
  destruct (lprec (run ∅ hist) x) as [lp|] eqn:E1.
  - destruct (lsucc (run ∅ hist) x) as [ls|] eqn:E2; [done|].
    destruct HP as [_ HP]. by specialize (HP eq_refl).
  - by rewrite unlink_unlinked.
Qed.
Print Assumptions C05_disjoin_unlinked.
Example C05_nonvacuous :
  hasBeenLinked demo 1 = true ∧ hasBeenLinked demo 3 = false ∧
  snd (disjoin it_elements demo 1) = Ok tt ∧
  snd (disjoin it_elements demo 3) = Err AttributeError.
Proof. by vm_compute. Qed.

(** ** C06: for every heap and every visiting order, link caches are stale after disjoin. *)
Theorem C06_disjoin_links_refuted (it : oracle) (h : heap) (a x b : nat) :
  iter_ok it → order_inv h → link_inv h →
  before h a x → before h x b →
  (∀ c, before h a c → before h c b → c = x) →
  hasBeenLinked h a = true → hasBeenLinked h x = true → hasBeenLinked h b = true →
  let h' := fst (disjoin it h x) in
  covers (before h') a b ∧ (b ∉ LinkFuture h' a ∨ a ∉ LinkPast h' b).
Proof.
  intros Hit HO HL Hax Hxb Honly Hla Hlx Hlb h'.
  unfold hasBeenLinked in Hla, Hlx, Hlb.
  destruct (lprec h x) as [lp|] eqn:E1; [|done]. destruct (lsucc h x) as [ls|] eqn:E2; [|done].
  assert (Hx : x ∈ dom h) by (by eapply prec_dom_r).
  assert (Ho := disjoin_order it Hit h HO x Hx lp ls E1 E2). fold h' in Ho.
  assert (Hn : a ≠ x ∧ b ≠ x) by (split; intros ->; by eapply oi_irr).
  split.
  - split.
    + unfold before. destruct (Ho b) as [-> _]. rewrite decide_False by apply Hn.
      apply elem_of_difference. split; [by eapply oi_trans|set_solver].
    + intros (c & H1 & H2). unfold before in H1, H2.
      destruct (Ho b) as [Hb _]. rewrite Hb in H2. rewrite decide_False in H2 by apply Hn.
      destruct (Ho c) as [Hc _]. rewrite Hc in H1.
      assert (Hcx : c ≠ x) by set_solver. rewrite decide_False in H1 by done.
      apply Hcx, Honly; unfold before; set_solver.
  - eapply disjoin_stale; try done.
    + destruct (lprec h a); [eauto|done].
    + destruct (lprec h b); [eauto|done].
Qed.
Print Assumptions C06_disjoin_links_refuted.
Definition c06_ops : list op :=
  [ONew LNone ∅ ∅ [] []; ONew LNone {[0]} ∅ [] []; ONew LNone {[1]} ∅ [] [];
   OLink 0; OLink 1; OLink 2].
Definition c06_heap : heap := run ∅ ((λ o, (it_elements, o)) <$> c06_ops).
Example C06_nonvacuous :
  before c06_heap 0 1 ∧ before c06_heap 1 2 ∧
  (∀ c, before c06_heap 0 c → before c06_heap c 2 → c = 1) ∧
  hasBeenLinked c06_heap 0 = true ∧ hasBeenLinked c06_heap 1 = true ∧
  hasBeenLinked c06_heap 2 = true.
Proof.
  assert (E2 : prec c06_heap 2 = {[0; 1]}).
  { decide_vm. }
  assert (E0 : prec c06_heap 0 = ∅).
  { decide_vm. }
  split; [change (0 ∈ prec c06_heap 1); decide_vm|].
  split; [change (1 ∈ prec c06_heap 2); decide_vm|].
  split; [|by vm_compute].
  - intros c H1 H2. unfold before in *. rewrite E2 in H2.
    assert (c = 0 ∨ c = 1) as [-> | ->] by set_solver; [|done]. rewrite E0 in H1. set_solver.
Qed.

(** ** C07 *)
Theorem C07_comparisons (h : heap) (a b : nat) :
  order_inv h →
  (* exactly one of the four *)
  ((ev_lt h a b = true ∧ ev_gt h a b = false ∧ a ≠ b ∧ isSpacelikeTo h a b = false) ∨
   (ev_lt h a b = false ∧ ev_gt h a b = true ∧ a ≠ b ∧ isSpacelikeTo h a b = false) ∨
   (ev_lt h a b = false ∧ ev_gt h a b = false ∧ a = b ∧ isSpacelikeTo h a b = false) ∨
   (ev_lt h a b = false ∧ ev_gt h a b = false ∧ a ≠ b ∧ isSpacelikeTo h a b = true)) ∧
  (ev_le h a b = true ↔ ev_lt h a b = true ∨ a = b) ∧
  (ev_ge h a b = true ↔ ev_gt h a b = true ∨ a = b) ∧
  ev_lt h a b = ev_gt h b a ∧
  isSpacelikeTo h a b = isSpacelikeTo h b a ∧ isCausalTo h a b = isCausalTo h b a ∧
  isCausalTo h a b = negb (isSpacelikeTo h a b).
Proof.
  intros HO. pose proof (oi_conv h HO a b) as C1. pose proof (oi_conv h HO b a) as C2.
  pose proof (oi_asym h HO a b) as As. pose proof (oi_irr h HO b) as Ir.
  unfold ev_le, ev_ge, ev_lt, ev_gt, isSpacelikeTo, isCausalTo, ev_le, ev_gt.
  rewrite !orb_true_iff, !bool_decide_eq_true.
  assert (E1 : bool_decide (b ∈ succ h a) = bool_decide (a ∈ prec h b))
    by (apply bool_decide_ext; tauto).
  assert (E2 : bool_decide (a ∈ succ h b) = bool_decide (b ∈ prec h a))
    by (apply bool_decide_ext; tauto).
  assert (E3 : bool_decide (b = a) = bool_decide (a = b)) by (apply bool_decide_ext; naive_solver).
  rewrite E1, E2, E3.
  destruct (bool_decide_reflect (a ∈ prec h b)), (bool_decide_reflect (b ∈ prec h a)),
    (bool_decide_reflect (a = b)); subst; cbn; try (exfalso; tauto);
    split_and!; try done; try tauto.
Qed.
Print Assumptions C07_comparisons.
Example C07_nonvacuous : order_inv demo ∧ isSpacelikeTo demo 1 3 = true ∧ ev_lt demo 3 2 = true.
Proof. split; [apply demo_order|by vm_compute]. Qed.

(** ** C08 *)
Theorem C08_cardinalities (h : heap) (x : nat) (T : gset nat) :
  order_inv h →
  PastCard h x = size (Past h x) ∧ FutureCard h x = size (Future h x) ∧
  ConeCard h x = size (Cone h x) ∧
  (∀ y, y ∈ Cone h x ↔ comparable (before h) x y) ∧
  Past h x ## Future h x ∧ x ∉ Past h x ∧ x ∉ Future h x ∧
  SpacelikeCard h x T = Z.of_nat (size (Spacelike h x T)) ∧
  (∀ y, y ∈ Spacelike h x T ↔ y ∈ T ∧ spacelike (before h) x y).
Proof.
  intros HO. destruct (past_future_disjoint h HO x) as (H1 & H2 & H3).
  split_and!; try done.
  - by apply ConeCard_size.
  - intros y. unfold Cone, comparable, before.
    rewrite !elem_of_union, elem_of_singleton, <- (oi_conv h HO). naive_solver.
  - by apply SpacelikeCard_size.
  - intros y. by apply Spacelike_spec.
Qed.
Print Assumptions C08_cardinalities.
Example C08_nonvacuous :
  order_inv demo ∧ ConeCard demo 1 = 3 ∧ SpacelikeCard demo 1 (dom demo) = 1%Z.
Proof. split; [apply demo_order|by vm_compute]. Qed.

(** ** C09 *)
Theorem C09_LinkConeCard (h : heap) (x : nat) :
  order_inv h → link_inv h →
  snd (get_LinkConeCard h x) =
    Nat.land (size (snd (get_LinkPast h x))) (size (snd (get_LinkFuture h x))) ∧
  (snd (get_LinkConeCard h x) = size (snd (get_LinkCone h x)) ↔
   snd (get_LinkPast h x) = ∅ ∧ snd (get_LinkFuture h x) = ∅).
Proof.
  intros HO HL. rewrite get_LinkPast_value, get_LinkFuture_value.
  rewrite LinkConeCard_value, LinkCone_size by done. split; [done|].
  rewrite land_eq_sum. by rewrite !size_empty_iff, !leibniz_equiv_iff.
Qed.
Print Assumptions C09_LinkConeCard.
Example C09_nonvacuous : order_inv demo ∧ link_inv demo ∧
  snd (get_LinkConeCard demo 1) = 1 ∧ size (snd (get_LinkCone demo 1)) = 2.
Proof. split; [apply demo_order|]. split; [apply demo_link|]. split; decide_vm. Qed.
Theorem C09_LinkConeCard_refuted :
  ∃ hist x, admissible_history ∅ hist ∧ no_disjoin hist ∧
    snd (get_LinkConeCard (run ∅ hist) x) ≠ size (snd (get_LinkCone (run ∅ hist) x)).
Proof.
  exists demo_hist, 1. split; [apply demo_adm|].
  split; [unfold no_disjoin, demo_hist, demo_ops; repeat constructor|].
  vm_compute. lia.
Qed.
Print Assumptions C09_LinkConeCard_refuted.

(** ** C10 *)
Theorem C10_Rank (it : oracle) (h : heap) (a b : nat) :
  iter_ok it → order_inv h → link_inv h →
  (Rank it h a b = Ok None ↔ ev_le h a b = false) ∧
  (∀ n, Rank it h a b = Ok (Some n) ↔
     (∃ l, link_path (before h) a b l ∧ length l = S n) ∧
     (∀ l, link_path (before h) a b l → S n ≤ length l)) ∧
  (∀ e, Rank it h a b ≠ Err e).
Proof.
  intros Hit HO HL.
  destruct (Rank_spec it Hit h HO HL a b) as [[H1 H2]|(H1 & n & H2 & H3)]; rewrite H1, H2.
  - split_and!; [done| |done]. intros n. split; [done|]. intros [(l & Hl & _) _].
    apply link_path_before in Hl; [|apply (oi_order h HO)].
    unfold ev_le in H1. apply orb_false_iff in H1 as [Ha Hb].
    apply bool_decide_eq_false in Ha, Hb. by destruct Hl.
  - split_and!; [done| |done]. intros m. split.
    + intros [= <-]. exact H3.
    + intros Hm. f_equal. f_equal. by eapply link_distance_unique.
Qed.
Print Assumptions C10_Rank.
Example C10_nonvacuous :
  order_inv demo ∧ link_inv demo ∧ Rank it_reverse demo 0 2 = Ok (Some 2) ∧
  Rank it_reverse demo 2 0 = Ok None.
Proof. split; [apply demo_order|]. split; [apply demo_link|by vm_compute]. Qed.

(** ** C11 *)
Theorem C11_copy (it : oracle) (h : heap) (x : nat) :
  iter_ok it → order_inv h → x ∈ dom h →
  let h' := fst (copy_event it h x) in
  let y := snd (copy_event it h x) in
  y ∉ dom h ∧
  lab h' y = lab h x ∧ Past h' y = Past h x ∧ Future h' y = Future h x ∧
  (hasBeenLinked h x = true → lprec h' y = lprec h x ∧ lsucc h' y = lsucc h x) ∧
  (hasBeenLinked h x = false → hasBeenLinked h' y = false) ∧
  (∀ z, z ≠ y → h' !!! z = h !!! z) ∧
  (∀ z, y ∉ Future h' z ∧ y ∉ Past h' z) ∧
  (Past h x ≠ ∅ ∨ Future h x ≠ ∅ → ¬ order_inv h').
Proof.
  intros Hit HO Hx h' y.
  assert (Hy : y = new_id h).
  { unfold y, copy_event. rewrite (surjective_pairing (new_event it (lab h x) ∅ ∅ [] [] h)).
    destruct (hasBeenLinked h x); done. }
  assert (Hlk := λ z, copy_lookup it h x z Hit HO). fold h' in Hlk. rewrite <- Hy in Hlk.
  assert (Hyd : y ∉ dom h) by (rewrite Hy; apply new_id_fresh).
  assert (Hly : h' !!! y = Event (lab h x) (prec h x) (succ h x)
           (if hasBeenLinked h x then lprec h x else None)
           (if hasBeenLinked h x then lsucc h x else None) (Some []) []).
  { rewrite Hlk. by rewrite decide_True. }
  assert (Hno : ∀ z, y ∉ Future h' z ∧ y ∉ Past h' z).
  { intros z. unfold Future, Past, prec, succ. destruct (decide (z = y)) as [->|Hz].
    - rewrite Hly. cbn.
      pose proof (prec_sub_dom h HO x). pose proof (succ_sub_dom h HO x). set_solver.
    - rewrite Hlk, decide_False by done. fold (prec h z) (succ h z).
      pose proof (prec_sub_dom h HO z). pose proof (succ_sub_dom h HO z). set_solver. }
  split_and!; try done.
  - unfold lab at 1. by rewrite Hly.
  - unfold Past, prec at 1. by rewrite Hly.
  - unfold Future, succ at 1. by rewrite Hly.
  - intros Hl. unfold lprec at 1, lsucc at 1. rewrite Hly. cbn. by rewrite Hl.
  - intros Hl. unfold hasBeenLinked, lprec at 1, lsucc at 1. rewrite Hly. cbn. by rewrite Hl.
  - intros z Hz. rewrite Hlk. by rewrite decide_False.
  - intros Hne HO'. destruct Hne as [Hne|Hne].
    + apply set_choose_L in Hne as [z Hz]. unfold Past in Hz.
      destruct (Hno z) as [Hn _]. apply Hn. unfold Future. apply (oi_conv h' HO').
      unfold prec. by rewrite Hly.
    + apply set_choose_L in Hne as [z Hz]. unfold Future in Hz.
      destruct (Hno z) as [_ Hn]. apply Hn. unfold Past. apply (oi_conv h' HO').
      unfold succ. by rewrite Hly.
Qed.
Print Assumptions C11_copy.
Example C11_nonvacuous : order_inv demo ∧ 2 ∈ dom demo ∧ Past demo 2 ≠ ∅.
Proof.
  split; [apply demo_order|]. split; decide_vm.
Qed.

(** ** C12 *)
Theorem C12_embedding (x : nat) (h : heap) (os : list eop) :
  coords (fst (erun x h os)) x = fst (arun (coords h x) os) ∧
  snd (erun x h os) = snd (arun (coords h x) os).
Proof. exact (erun_spec x h os). Qed.
Print Assumptions C12_embedding.
Theorem C12_fresh_is_embedded (it : oracle) (h : heap) (l : label) (P F : gset nat)
    (ps c : list Q) :
  iter_ok it → order_inv h → P ⊆ dom h → F ⊆ dom h →
  let h' := fst (new_event it l P F [] ps h) in
  let x := snd (new_event it l P F [] ps h) in
  isEmbedded h' x = true ∧ Coordinates h' x = Ok [] ∧
  embed h' x c false = (h', Err AttributeError).
Proof.
  intros Hit HO HP HF h' x.
  assert (Hc : coords h' x = Some []).
  { unfold coords, h'. rewrite new_event_lookup by done. by rewrite decide_True. }
  assert (He : isEmbedded h' x = true).
  { unfold isEmbedded. rewrite Hc. by apply bool_decide_eq_true. }
  split_and!; [done| |].
  - unfold Coordinates. by rewrite Hc.
  - unfold embed. by rewrite He.
Qed.
Print Assumptions C12_fresh_is_embedded.
Example C12_nonvacuous :
  snd (erun 1 demo [EEmbed [1%Q] false; EDisembed; ECoordinates; EEmbed [2%Q] false; EDim]) =
  [EUnit (Err AttributeError); EUnit (Ok tt); ECoords (Err AttributeError);
   EUnit (Ok tt); ENat 1].
Proof. by vm_compute. Qed.
