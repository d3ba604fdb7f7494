(** Facts about the model of permuted. *)
From Verif Require Import Base Spec SpecPerm EventModel EventFacts History HistoryFacts PathFacts
  RankFacts EventProps CausetModel CausetFacts Prop_Event Prop_Causet PermModel.
From stdpp Require Import sorting.

Section facts.
Context (h : heap) (HO : order_inv h).

Lemma before_irrefl x : ¬ before h x x.
Proof using HO. apply (proj1 (oi_order h HO)). Qed.
Lemma before_trans x y z : before h x y → before h y z → before h x z.
Proof using HO. apply (proj2 (oi_order h HO)). Qed.

Lemma below_minimal E y : y ∈ E → ∃ m, m ∈ PastInfOf h E ∧ (m = y ∨ before h m y).
Proof using HO.
  intros Hy. destruct (minimal_exists h (filter (λ z, z = y ∨ z ∈ prec h y) E) HO) as (m & Hm & Hn).
  { intros He. assert (Hin : y ∈ filter (λ z, z = y ∨ z ∈ prec h y) E) by (apply elem_of_filter; auto).
    rewrite He in Hin. by apply elem_of_empty in Hin. }
  apply elem_of_filter in Hm as [Hmy HmE]. exists m. split; [|done].
  apply PastInfOf_spec. split; [done|]. intros (z & Hz & Hzm). apply Hn. exists z. split; [|done].
  apply elem_of_filter. split; [|done]. right. destruct Hmy as [->|Hmy]; [done|].
  by apply before_trans with m.
Qed.
Lemma above_maximal E y : y ∈ E → ∃ m, m ∈ FutureInfOf h E ∧ (m = y ∨ before h y m).
Proof using HO.
  intros Hy. destruct (maximal_exists h (filter (λ z, z = y ∨ y ∈ prec h z) E) HO) as (m & Hm & Hn).
  { intros He. assert (Hin : y ∈ filter (λ z, z = y ∨ y ∈ prec h z) E) by (apply elem_of_filter; auto).
    rewrite He in Hin. by apply elem_of_empty in Hin. }
  apply elem_of_filter in Hm as [Hmy HmE]. exists m. split; [|done].
  apply FutureInfOf_spec; [done|]. split; [done|]. intros (z & Hz & Hzm). apply Hn. exists z. split; [|done].
  apply elem_of_filter. split; [|done]. right. destruct Hmy as [->|Hmy]; [done|].
  by apply before_trans with m.
Qed.

Lemma least E e : elements (PastInfOf h E) = [e] →
  e ∈ E ∧ ∀ y, y ∈ E ∖ {[e]} → before h e y.
Proof using HO.
  intros He. assert (Hin : ∀ m, m ∈ PastInfOf h E ↔ m = e).
  { intros m. rewrite <- elem_of_elements, He. apply elem_of_list_singleton. }
  split; [apply (PastInfOf_spec h E e), Hin; done|].
  intros y [Hy Hne]%elem_of_difference. destruct (below_minimal E y Hy) as (m & Hm & Hmy).
  apply Hin in Hm as ->. destruct Hmy as [->|?]; [set_solver|done].
Qed.
Lemma greatest E e : elements (FutureInfOf h E) = [e] →
  e ∈ E ∧ ∀ y, y ∈ E ∖ {[e]} → before h y e.
Proof using HO.
  intros He. assert (Hin : ∀ m, m ∈ FutureInfOf h E ↔ m = e).
  { intros m. rewrite <- elem_of_elements, He. apply elem_of_list_singleton. }
  split; [apply (FutureInfOf_spec h E e HO), Hin; done|].
  intros y [Hy Hne]%elem_of_difference. destruct (above_maximal E y Hy) as (m & Hm & Hmy).
  apply Hin in Hm as ->. destruct Hmy as [->|?]; [set_solver|done].
Qed.

Lemma remove_size (E : gset nat) e : e ∈ E → S (size (E ∖ {[e]})) = size E.
Proof. intros He. rewrite size_difference, size_singleton by set_solver.
  assert (size E ≠ 0); [|lia]. intros Hz%size_empty_inv. set_solver. Qed.
Lemma restore (E : gset nat) e : e ∈ E → {[e]} ∪ E ∖ {[e]} = E.
Proof. intros He. apply set_eq. intros y. destruct (decide (y = e)); set_solver. Qed.
Lemma restore_perm (E : gset nat) e : e ∈ E → e :: elements (E ∖ {[e]}) ≡ₚ elements E.
Proof. intros He. rewrite <- (restore E e He) at 2. rewrite elements_union_singleton; [done|set_solver]. Qed.

(** One linear extension after another. *)
Lemma lin_app A B la lb :
  A ∩ B = ∅ → (∀ x y, x ∈ A → y ∈ B → ¬ before h y x) →
  linear_extension (before h) A la → linear_extension (before h) B lb →
  linear_extension (before h) (A ∪ B) (la ++ lb).
Proof.
  intros Hd Hn [HA1 HA2] [HB1 HB2]. split.
  { rewrite elements_disj_union by set_solver. by rewrite HA1, HB1. }
  intros i j x y Hi Hj Hxy.
  apply lookup_app_Some in Hi as [Hi|[Hli Hi]]; apply lookup_app_Some in Hj as [Hj|[Hlj Hj]].
  - by apply (HA2 i j x y).
  - apply lookup_lt_Some in Hi. lia.
  - destruct (Hn y x); [| |done].
    + apply elem_of_elements. rewrite <- HA1. by eapply elem_of_list_lookup_2.
    + apply elem_of_elements. rewrite <- HB1. by eapply elem_of_list_lookup_2.
  - assert (i - length la < j - length la) by (by apply (HB2 _ _ x y)). lia.
Qed.
Lemma lin_single x : linear_extension (before h) {[x]} [x].
Proof using HO.
  split; [by rewrite elements_singleton|]. intros i j y z Hi Hj Hyz.
  apply list_lookup_singleton_Some in Hi as [-> <-]. apply list_lookup_singleton_Some in Hj as [-> <-].
  by apply before_irrefl in Hyz.
Qed.
Lemma lin_empty : linear_extension (before h) ∅ [].
Proof. split; [by rewrite elements_empty|]. intros i j x y Hi. by rewrite lookup_nil in Hi. Qed.
Lemma lin_length A l : linear_extension (before h) A l → length l = size A.
Proof. intros [Hl _]. by rewrite Hl. Qed.

Lemma strip_past_spec fuel E acc : size E < fuel →
  ∃ Ls E1, strip_past fuel h E acc = Ok (acc ++ Ls, E1) ∧ E1 ⊆ E ∧
    length (elements (PastInfOf h E1)) ≠ 1 ∧
    size E = length Ls + size E1 ∧
    (∀ l, linear_extension (before h) E1 l → linear_extension (before h) E (Ls ++ l)) ∧
    (pieced (before h) E1 → pieced (before h) E).
Proof using HO.
  revert E acc. induction fuel as [|fuel IH]; intros E acc Hf; [lia|]. cbn [strip_past].
  destruct (elements (PastInfOf h E)) as [|e [|e' l]] eqn:He.
  - exists [], E. rewrite app_nil_r, He. split_and!; try done.
  - destruct (least E e He) as [HeE Hle]. pose proof (remove_size E e HeE) as Hsz.
    destruct (IH (E ∖ {[e]}) (acc ++ [e])) as (Ls & E1 & -> & Hsub & Hnot & Hsize & Hlin & Hp); [lia|].
    exists (e :: Ls), E1. split_and!; [by rewrite <- (assoc_L (++))|set_solver|done|cbn; lia| |].
    + intros l Hl. rewrite <- (restore E e HeE). cbn [app]. change (e :: Ls ++ l) with ([e] ++ (Ls ++ l)).
      apply lin_app; [set_solver| |apply lin_single|by apply Hlin].
      intros x y ->%elem_of_singleton Hy Hyx. apply (before_irrefl e).
      apply before_trans with y; [by apply Hle|done].
    + intros Hp1. rewrite <- (restore E e HeE). apply pieced_min; [set_solver|done|by apply Hp].
  - exists [], E. rewrite app_nil_r, He. split_and!; try done.
Qed.

Lemma strip_future_spec fuel E acc : size E < fuel →
  ∃ Le E2, strip_future fuel h E acc = Ok (Le ++ acc, E2) ∧ E2 ⊆ E ∧
    length (elements (FutureInfOf h E2)) ≠ 1 ∧
    (length (elements (PastInfOf h E)) ≠ 1 → length (elements (PastInfOf h E2)) ≠ 1) ∧
    size E = length Le + size E2 ∧
    (∀ l, linear_extension (before h) E2 l → linear_extension (before h) E (l ++ Le)) ∧
    (pieced (before h) E2 → pieced (before h) E).
Proof using HO.
  revert E acc. induction fuel as [|fuel IH]; intros E acc Hf; [lia|]. cbn [strip_future].
  destruct (elements (FutureInfOf h E)) as [|e [|e' l]] eqn:He.
  - exists [], E. rewrite He. split_and!; try done. intros l. by rewrite app_nil_r.
  - destruct (greatest E e He) as [HeE Hle]. pose proof (remove_size E e HeE) as Hsz.
    destruct (IH (E ∖ {[e]}) (e :: acc)) as (Le & E2 & -> & Hsub & Hnot & Hmin & Hsize & Hlin & Hp); [lia|].
    exists (Le ++ [e]), E2. split_and!.
    + by rewrite <- (assoc_L (++)).
    + set_solver.
    + done.
    + intros Hn. apply Hmin. intros H1. apply Hn.
      (* the minimal events of E without e *)
      destruct (elements (PastInfOf h (E ∖ {[e]}))) as [|m [|m' l]] eqn:Em; cbn in H1; [lia| |lia].
      destruct (least _ _ Em) as [HmE Hlm].
      assert (HP : PastInfOf h E = {[m]}).
      { apply set_eq. intros x. rewrite (PastInfOf_spec h E x), elem_of_singleton. split.
        - intros [Hx Hnx]. destruct (decide (x = m)) as [->|Hxm]; [done|]. exfalso. apply Hnx.
          exists m. split; [set_solver|]. destruct (decide (x = e)) as [->|Hxe].
          + apply Hle. set_solver.
          + apply Hlm. set_solver.
        - intros ->. split; [set_solver|]. intros (y & Hy & Hym).
          destruct (decide (y = e)) as [->|Hye].
          + apply (before_irrefl e). apply before_trans with m; [done|]. apply Hle. set_solver.
          + apply (before_irrefl m). apply before_trans with y; [|done]. apply Hlm.
            destruct (decide (y = m)) as [->|]; [by apply before_irrefl in Hym|]. set_solver. }
      by rewrite HP, elements_singleton.
    + rewrite app_length. cbn. lia.
    + intros l Hl. rewrite <- (restore E e HeE), (comm_L (∪)), (assoc_L (++)).
      apply lin_app; [set_solver| |by apply Hlin|apply lin_single].
      intros x y Hx ->%elem_of_singleton Hyx. apply (before_irrefl e).
      apply before_trans with x; [done|by apply Hle].
    + intros Hp1. rewrite <- (restore E e HeE). apply pieced_max; [set_solver|done|by apply Hp].
  - exists [], E. rewrite He. split_and!; try done. intros l'. by rewrite app_nil_r.
Qed.

(** What a call of __perm_jointsubset does. *)
Definition joint_ok (E : gset nat) (r : res (list nat * list nat * gset nat)) : Prop :=
  match r with
  | Ok (L, P, E') =>
    pieced (before h) E ∧ linear_extension (before h) E L ∧
    (E = ∅ → P = []) ∧ (E ≠ ∅ → length P < length L)
  | Err e => e = TypeError ∧ ¬ pieced (before h) E
  end.
Definition disjoint_ok (E : gset nat) (r : res (list nat * list nat)) : Prop :=
  match r with
  | Ok (L, P) =>
    pieced (before h) E ∧ linear_extension (before h) E L ∧
    (E = ∅ → P = []) ∧ (E ≠ ∅ → length P < length L)
  | Err e => e = TypeError ∧ ¬ pieced (before h) E
  end.

(** A list of mutually unrelated nonempty sets. *)
Definition apart (l : list (gset nat)) : Prop :=
  NoDup l ∧ (∀ T, T ∈ l → T ≠ ∅) ∧
  ∀ T U, T ∈ l → U ∈ l → T ≠ U →
    T ∩ U = ∅ ∧ ∀ a b, a ∈ T → b ∈ U → ¬ before h a b ∧ ¬ before h b a.
Lemma apart_perm l l' : l ≡ₚ l' → apart l → apart l'.
Proof.
  intros Hp (H1 & H2 & H3). unfold apart. setoid_rewrite <- Hp. done.
Qed.
Lemma apart_tail T l : apart (T :: l) → apart l ∧ T ∩ ⋃ l = ∅ ∧ T ≠ ∅ ∧
  ∀ a b, a ∈ T → b ∈ ⋃ l → ¬ before h a b ∧ ¬ before h b a.
Proof.
  intros (H1 & H2 & H3). apply NoDup_cons in H1 as [Hn Hd]. split_and!.
  - split_and!; [done|by intros; apply H2; right|]. intros; apply H3; [by right|by right|done].
  - apply set_eq. intros x. split; [|set_solver]. intros [Hx (U & HU & HxU)%elem_of_union_list]%elem_of_intersection.
    destruct (H3 T U) as [He _]; [by left|by right|by intros ->|]. rewrite <- He. set_solver.
  - apply H2. by left.
  - intros a b Ha (U & HU & HbU)%elem_of_union_list. apply (H3 T U); [by left|by right|by intros ->|done|done].
Qed.

Lemma insert_desc_perm T l : insert_desc T l ≡ₚ T :: l.
Proof.
  induction l as [|U l IH]; [done|]. cbn [insert_desc]. destruct (decide (size U ≤ size T)); [done|].
  rewrite IH. apply Permutation_swap.
Qed.
Lemma sort_desc_perm l : sort_desc l ≡ₚ l.
Proof.
  induction l as [|T l IH]; [done|]. unfold sort_desc in *. cbn [foldr]. rewrite insert_desc_perm. by rewrite IH.
Qed.
Lemma insert_desc_sorted T l : Sorted (λ A B : gset nat, size B ≤ size A) l →
  Sorted (λ A B : gset nat, size B ≤ size A) (insert_desc T l).
Proof.
  induction 1 as [|U l Hs IH Hh]; cbn [insert_desc]; [by repeat constructor|].
  destruct (decide (size U ≤ size T)); [by repeat constructor|].
  constructor; [done|]. destruct l as [|V l]; cbn [insert_desc] in *; [constructor; lia|].
  inversion Hh; subst. destruct (decide (size V ≤ size T)); constructor; lia.
Qed.
Lemma sort_desc_sorted l : Sorted (λ A B : gset nat, size B ≤ size A) (sort_desc l).
Proof.
  induction l as [|T l IH]; [constructor|]. unfold sort_desc in *. cbn [foldr]. by apply insert_desc_sorted.
Qed.

Lemma disjoint_loop_ok joint l : ∀ s L P, 1 ≤ s → apart l →
  (∀ T s, T ∈ l → 1 ≤ s → joint_ok T (joint T s)) →
  match perm_disjoint_loop joint l s L P with
  | Ok (L', P') => ∃ L1 P1, L' = L ++ L1 ∧ P' = P1 ++ P ∧ disjoint_ok (⋃ l) (Ok (L1, P1))
  | Err e => disjoint_ok (⋃ l) (Err e)
  end.
Proof.
  induction l as [|T l IH]; intros s L P Hs Ha HJ; cbn [perm_disjoint_loop].
  { exists [], []. rewrite app_nil_r. split_and!; [done|done|]. cbn. split_and!; [apply pieced_empty|apply lin_empty|done|done]. }
  apply apart_tail in Ha as (Ha & Hd & HT & Hun).
  pose proof (HJ T s ltac:(by left) Hs) as HJT. cbn [union_list].
  change (⋃ (T :: l)) with (T ∪ ⋃ l).
  destruct (joint T s) as [[[TL TP] T']|e]; cbn [res_bind].
  - destruct HJT as (HpT & HlT & _ & HPT). specialize (HPT HT).
    specialize (IH (s + size T') (L ++ TL) (TP ++ P) ltac:(lia) Ha ltac:(intros; apply HJ; [by right|done])).
    destruct (perm_disjoint_loop _ _ _ _ _) as [[L' P']|e].
    + destruct IH as (L1 & P1 & -> & -> & Hp1 & Hl1 & HE & HN).
      exists (TL ++ L1), (P1 ++ TP). split_and!; [by rewrite (assoc_L (++))|by rewrite (assoc_L (++))|].
      cbn. split_and!.
      * by apply pieced_union.
      * apply lin_app; [done| |done|done]. intros x y Hx Hy. by apply Hun.
      * intros He. set_solver.
      * intros _. rewrite !app_length. destruct (decide (⋃ l = ∅)) as [He|He].
        -- rewrite (HE He). cbn. lia.
        -- specialize (HN He). lia.
    + destruct IH as [-> Hn]. split; [done|]. intros Hp. apply Hn. eapply pieced_part; [done|]. set_solver.
  - destruct HJT as [-> Hn]. split; [done|]. intros Hp. apply Hn. eapply pieced_part; [done|]. set_solver.
Qed.

Lemma disjointsubsets_ok joint l s : 1 ≤ s → apart l →
  (∀ T s, T ∈ l → 1 ≤ s → joint_ok T (joint T s)) →
  disjoint_ok (⋃ l) (perm_disjointsubsets joint l s).
Proof.
  intros Hs Ha HJ. unfold perm_disjointsubsets. pose proof (sort_desc_perm l) as Hp.
  assert (Hu : ⋃ l = ⋃ sort_desc l) by (apply set_eq; intros x; by rewrite !elem_of_union_list; setoid_rewrite Hp).
  rewrite Hu. pose proof (disjoint_loop_ok joint (sort_desc l) s [] [] Hs) as H.
  destruct (perm_disjoint_loop joint (sort_desc l) s [] []) as [[L P]|e].
  - destruct H as (L1 & P1 & -> & -> & H).
    + by apply apart_perm with l.
    + intros T s' HT. apply HJ. by rewrite <- Hp.
    + by rewrite app_nil_r.
  - apply H.
    + by apply apart_perm with l.
    + intros T s' HT. apply HJ. by rewrite <- Hp.
Qed.

(** The components that disjoint returns are apart. *)
Lemma components it E : iter_ok it → ∃ l, disjoint_ it h E = Ok l ∧ apart l ∧ ⋃ l = E ∧
  (∀ T x y, T ∈ l → x ∈ T → y ∈ T → connected_in (before h) E x y).
Proof using HO.
  intros Hit. destruct (C43_disjoint it h E Hit HO) as (l & Hl & H1 & H2 & H3 & H4 & _).
  exists l. split_and!; [done| |done|].
  - split_and!.
    + apply NoDup_alt. intros i j T Hi Hj. destruct (decide (i = j)) as [|Hij]; [done|].
      destruct (H3 i j T T Hi Hj Hij) as [He _]. destruct (H1 T); [by eapply elem_of_list_lookup_2|set_solver].
    + done.
    + intros T U HT HU Hne. apply elem_of_list_lookup_1 in HT as [i Hi].
      apply elem_of_list_lookup_1 in HU as [j Hj]. apply (H3 i j); [done|done|]. intros ->. congruence.
  - intros T x y HT Hx Hy. apply H4; [|  |eauto]; rewrite <- H2; apply elem_of_union_list; eauto.
Qed.

Lemma in_union_list (l : list (gset nat)) T : T ∈ l → T ⊆ ⋃ l.
Proof. intros HT x Hx. apply elem_of_union_list. eauto. Qed.
Lemma jointsubset_ok it fuel : iter_ok it → ∀ E s, size E < fuel → 1 ≤ s →
  joint_ok E (perm_jointsubset it fuel h E s).
Proof using HO.
  intros Hit. induction fuel as [|fuel IH]; intros E s Hf Hs; [lia|]. cbn [perm_jointsubset].
  destruct (strip_past_spec (S (size E)) E [] ltac:(lia)) as (Ls & E1 & -> & Hs1 & Hm1 & Hz1 & Hl1 & Hp1).
  cbn [app res_bind].
  destruct (strip_future_spec (S (size E1)) E1 [] ltac:(lia))
    as (Le & E2 & -> & Hs2 & Hx2 & Hm2 & Hz2 & Hl2 & Hp2). specialize (Hm2 Hm1).
  rewrite app_nil_r. cbn [res_bind].
  destruct (components it E2 Hit) as (l & -> & Ha & Hu & Hc). cbn [res_bind].
  destruct (decide (length l = 1)) as [Hl|Hl].
  - destruct l as [|T [|? ?]]; [done| |done]. cbn in Hu. rewrite (right_id_L ∅ (∪)) in Hu. subst T.
    assert (HE2 : E2 ≠ ∅) by (apply (proj1 (proj2 Ha)); by left).
    unfold perm_layeredsubset. destruct (decide (PastInfOf h E2 = ∅)) as [He|He].
    { exfalso. apply set_choose_L in HE2 as [y Hy]. destruct (below_minimal E2 y Hy) as (m & Hm & _). set_solver. }
    cbn [res_bind joint_ok]. split; [done|]. intros Hp.
    apply (pieced_not_tangled (before h) E2); [eapply pieced_part; [done|by transitivity E1]|..].
    + intros x y Hx Hy. apply (Hc E2); [by left|done|done].
    + assert (∃ a b, a ∈ PastInfOf h E2 ∧ b ∈ PastInfOf h E2 ∧ a ≠ b) as (a & b & Ha' & Hb' & Hab).
      { apply set_choose_L in HE2 as [y Hy]. destruct (below_minimal E2 y Hy) as (m & Hm & _).
        apply elem_of_elements in Hm. pose proof (NoDup_elements (PastInfOf h E2)) as Hnd.
        destruct (elements (PastInfOf h E2)) as [|a [|b l]] eqn:Eq; [by apply elem_of_nil in Hm|done|].
        exists a, b. rewrite <- !(elem_of_elements (PastInfOf h E2)), Eq.
        apply NoDup_cons in Hnd as [Hnd _]. split_and!; [by left|by right; left|]. intros ->. apply Hnd. by left. }
      apply PastInfOf_spec in Ha' as [Ha1 Ha2], Hb' as [Hb1 Hb2]. exists a, b. split_and!; try done.
      intros c Hcc. split; [intros ?; apply Ha2; eauto|intros ?; apply Hb2; eauto].
    + assert (∃ a b, a ∈ FutureInfOf h E2 ∧ b ∈ FutureInfOf h E2 ∧ a ≠ b) as (a & b & Ha' & Hb' & Hab).
      { apply set_choose_L in HE2 as [y Hy]. destruct (above_maximal E2 y Hy) as (m & Hm & _).
        apply elem_of_elements in Hm. pose proof (NoDup_elements (FutureInfOf h E2)) as Hnd.
        destruct (elements (FutureInfOf h E2)) as [|a [|b l]] eqn:Eq; [by apply elem_of_nil in Hm|done|].
        exists a, b. rewrite <- !(elem_of_elements (FutureInfOf h E2)), Eq.
        apply NoDup_cons in Hnd as [Hnd _]. split_and!; [by left|by right; left|]. intros ->. apply Hnd. by left. }
      apply FutureInfOf_spec in Ha' as [Ha1 Ha2], Hb' as [Hb1 Hb2]; [|done|done]. exists a, b. split_and!; try done.
      intros c Hcc. split; [intros ?; apply Ha2; eauto|intros ?; apply Hb2; eauto].
  - assert (Hd : disjoint_ok (⋃ l) (perm_disjointsubsets (perm_jointsubset it fuel h) l (s + length Ls))).
    { apply disjointsubsets_ok; [lia|done|]. intros T s' HT Hs'. apply IH; [|done].
      (* a component is smaller than the whole *)
      assert (size T < size E2); [|lia]. apply subset_size. split; [rewrite <- Hu; by apply in_union_list|].
      intros Hsub. destruct Ha as (Hnd & Hne & Hap). apply elem_of_list_split in HT as (l1 & l2 & ->).
      assert (∃ U, U ∈ l1 ++ l2) as [U HU].
      { destruct l1 as [|U l1]; [|exists U; by left]. destruct l2 as [|U l2]; [done|]. exists U. by left. }
      assert (HUin : U ∈ l1 ++ T :: l2) by (apply elem_of_app in HU as [?|?]; apply elem_of_app; [by left|by right; right]).
      assert (HUT : T ≠ U).
      { intros <-. apply NoDup_app in Hnd as (Hn1 & Hn2 & Hn3). apply elem_of_app in HU as [HU|HU].
        - by apply (Hn2 T HU); left.
        - apply NoDup_cons in Hn3 as [Hn3 _]. done. }
      pose proof (Hne U HUin) as HU0. apply set_choose_L in HU0 as [z Hz].
      destruct (Hap T U) as [He _]; [apply elem_of_app; right; by left|done|done|].
      assert (z ∈ T); [|clear -He Hz H; set_solver]. apply Hsub. rewrite <- Hu. apply elem_of_union_list. eauto. }
    rewrite Hu in Hd. destruct (perm_disjointsubsets _ _ _) as [[L P]|e]; cbn [res_bind].
    + destruct Hd as (HpL & HlL & HP0 & HPN). cbn [joint_ok].
      assert (HLL : length L = size E2) by (by eapply lin_length).
      split_and!.
      * by apply Hp1, Hp2.
      * by apply Hl1, Hl2.
      * intros ->. rewrite size_empty in Hz1.
        assert (Ls = []) as -> by (destruct Ls; [done|cbn in Hz1; lia]).
        assert (Le = []) as -> by (destruct Le; [done|cbn in Hz2; lia]).
        rewrite HP0 by (clear -Hs1 Hs2; set_solver). unfold py_range. cbn [length]. by rewrite !Nat.sub_0_l.
      * intros HE. unfold py_range. rewrite !app_length, !seq_length.
        assert (size E ≠ 0) by (intros Hz%size_empty_inv; apply HE, leibniz_equiv, Hz).
        destruct (decide (E2 = ∅)) as [He2|He2].
        -- rewrite (HP0 He2). rewrite He2, size_empty in *. cbn [length]. lia.
        -- specialize (HPN He2). lia.
    + destruct Hd as [-> Hn]. split; [done|]. intros Hp. apply Hn. eapply pieced_part; [done|].
      by transitivity E1.
Qed.

Lemma permuted_ok it S : iter_ok it → disjoint_ok S (permuted it h S).
Proof using HO.
  intros Hit. unfold permuted. destruct (components it S Hit) as (l & -> & Ha & Hu & _).
  cbn [res_bind]. rewrite <- Hu at 1. apply disjointsubsets_ok; [lia|done|].
  intros T s HT Hs. apply jointsubset_ok; [done| |done].
  assert (size T ≤ size S); [|lia]. apply subseteq_size. rewrite <- Hu. by apply in_union_list.
Qed.

(** Chains. *)
Lemma strip_past_chain fuel E acc : size E < fuel →
  (∀ x y, x ∈ E → y ∈ E → comparable (before h) x y) →
  ∃ Ls, strip_past fuel h E acc = Ok (acc ++ Ls, ∅) ∧ length Ls = size E.
Proof using HO.
  revert E acc. induction fuel as [|fuel IH]; intros E acc Hf Hch; [lia|]. cbn [strip_past].
  destruct (decide (E = ∅)) as [->|HE].
  { assert (PastInfOf h ∅ = ∅) as -> by (apply set_eq; intros x; rewrite PastInfOf_spec; set_solver).
    rewrite elements_empty. exists []. by rewrite app_nil_r, size_empty. }
  assert (∃ e, PastInfOf h E = {[e]}) as [e He].
  { apply set_choose_L in HE as [y Hy]. destruct (below_minimal E y Hy) as (m & Hm & _). exists m.
    apply set_eq. intros x. rewrite elem_of_singleton. split; [|by intros ->].
    intros Hx. apply PastInfOf_spec in Hx as [Hx1 Hx2], Hm as [Hm1 Hm2].
    destruct (Hch x m Hx1 Hm1) as [?|[?|?]]; [done| |]; exfalso; eauto. }
  rewrite He, elements_singleton. assert (HeE : e ∈ E).
  { apply (PastInfOf_spec h E e). rewrite He. set_solver. }
  pose proof (remove_size E e HeE) as Hsz.
  destruct (IH (E ∖ {[e]}) (acc ++ [e])) as (Ls & -> & HL); [lia|intros; apply Hch; set_solver|].
  exists (e :: Ls). rewrite <- (assoc_L (++)). split; [done|]. cbn. lia.
Qed.
Lemma jointsubset_chain it fuel E s : iter_ok it → (∀ x y, x ∈ E → y ∈ E → comparable (before h) x y) →
  ∃ L, perm_jointsubset it (S fuel) h E s = Ok (L, seq s (size E - s), ∅).
Proof using HO.
  intros Hit Hch. cbn [perm_jointsubset].
  destruct (strip_past_chain (S (size E)) E [] ltac:(lia) Hch) as (Ls & -> & HL). cbn [app res_bind].
  rewrite size_empty. cbn [strip_future].
  assert (FutureInfOf h ∅ = ∅) as -> by (apply set_eq; intros x; rewrite FutureInfOf_spec by done; set_solver).
  rewrite elements_empty. cbn [res_bind]. destruct (components it ∅ Hit) as (l & -> & Ha & Hu & _).
  assert (l = []) as ->.
  { destruct l as [|T l]; [done|]. destruct Ha as (_ & Hne & _). destruct (Hne T); [by left|]. set_solver. }
  cbn [res_bind length]. rewrite decide_False by done. unfold perm_disjointsubsets. cbn.
  unfold py_range. rewrite HL. exists Ls. by rewrite !app_nil_r.
Qed.
Lemma disjoint_chains it fuel l : iter_ok it → ∀ L P,
  (∀ T, T ∈ l → ∀ x y, x ∈ T → y ∈ T → comparable (before h) x y) →
  ∃ L', perm_disjoint_loop (perm_jointsubset it (S fuel) h) l 1 L P =
    Ok (L', concat ((λ T : gset nat, seq 1 (size T - 1)) <$> reverse l) ++ P).
Proof using HO.
  intros Hit. induction l as [|T l IH]; intros L P Hch; cbn [perm_disjoint_loop].
  - by exists L.
  - destruct (jointsubset_chain it fuel T 1 Hit) as [TL ->]; [apply Hch; by left|]. cbn [res_bind].
    rewrite size_empty, Nat.add_0_r. destruct (IH (L ++ TL) (seq 1 (size T - 1) ++ P)) as [L' ->];
      [intros U HU; apply Hch; by right|].
    exists L'. rewrite reverse_cons, fmap_app, concat_app. cbn [fmap list_fmap concat].
    by rewrite app_nil_r, (assoc_L (++)).
Qed.
End facts.
