(** Facts about histories of calls of the whole library (LibHistory.v). *)
From Verif Require Import Base Spec EventModel EventFacts DisjoinFacts History HistoryFacts EventProps CausetModel CausetFacts
  PyStr SpecBuild BuildModel BuildFacts MatrixFacts MergeFacts Prop_Build.
From Coq Require Import Reals.
From Verif Require Import SpacetimeModel ShapeModel EmbedModel EmbedFacts Prop_Embed LibHistory.
#[local] Open Scope nat_scope.

(** ** Calls of constructors of events *)
Definition grows (h h' : heap) : Prop :=
  order_inv h → order_inv h' ∧ dom h ⊆ dom h' ∧ (link_paired h → link_paired h') ∧ (link_inv h → link_inv h').
Lemma grows_refl h : grows h h.
Proof. intros HO. split_and!; done. Qed.
Lemma grows_trans h1 h2 h3 : grows h1 h2 → grows h2 h3 → grows h1 h3.
Proof.
  intros H1 H2 HO. destruct (H1 HO) as (A1 & A2 & A3 & A4). destruct (H2 A1) as (B1 & B2 & B3 & B4).
  split_and!; [done|by etrans|tauto|tauto].
Qed.
Lemma step_grows it h o : iter_ok it → admissible h o → is_disjoin o = false → dom h ⊆ dom (step it h o) → grows h (step it h o).
Proof.
  intros Hit Ha Hd Hs HO. split_and!; [by apply step_order|done| |].
  - intros HP. by apply step_paired.
  - intros HL. by apply step_link.
Qed.
Lemma new_grows it l P cs ps h : iter_ok it → order_inv h → P ⊆ dom h →
  grows h (fst (new_event it l P ∅ cs ps h)) ∧ snd (new_event it l P ∅ cs ps h) ∈ dom (fst (new_event it l P ∅ cs ps h)).
Proof.
  intros Hit HO HP. assert (HF : (∅ : gset nat) ⊆ dom h) by apply empty_subseteq.
  assert (Hd := new_event_dom it Hit h HO P ∅ HP HF l cs ps).
  split; [|rewrite Hd; apply elem_of_union_l, elem_of_singleton; done].
  apply (step_grows it h (ONew l P ∅ cs ps) Hit); [|done|].
  - split_and!; [done|done|]. intros p f _ [Hf|(e & He & _)]; exfalso; [by apply elem_of_empty in Hf|by apply elem_of_empty in He].
  - cbn [step]. rewrite Hd. apply union_subseteq_r.
Qed.
Lemma alloc_grows it l P h : iter_ok it → order_inv h → P ⊆ dom h →
  grows h (fst (alloc it l P h)) ∧ snd (alloc it l P h) ∈ dom (fst (alloc it l P h)).
Proof. intros Hit. apply new_grows. by apply sub_ok. Qed.

Lemma grows_order h h' : grows h h' → order_inv h → order_inv h'.
Proof. intros H HO. apply (H HO). Qed.
Lemma grows_dom h h' : grows h h' → order_inv h → dom h ⊆ dom h'.
Proof. intros H HO. apply (H HO). Qed.

Lemma alloc_list_grows it args : ∀ h, iter_ok it → order_inv h → (∀ l P, (l, P) ∈ args → P ⊆ dom h) →
  grows h (fst (alloc_list it args h)) ∧ (∀ x, x ∈ snd (alloc_list it args h) → x ∈ dom (fst (alloc_list it args h))) ∧
  length (snd (alloc_list it args h)) = length args.
Proof.
  induction args as [|[l P] args IH]; intros h Hit HO HP; cbn [alloc_list].
  { split; [apply grows_refl|]. split; [|done]. intros x Hx. by apply elem_of_nil in Hx. }
  destruct (alloc_grows it l P h Hit HO) as [G1 Hx1]; [by apply (HP l), elem_of_list_here|].
  destruct (alloc it l P h) as [h1 x]. cbn [fst snd] in *.
  destruct (IH h1 Hit (grows_order _ _ G1 HO)) as (G2 & Hx2 & Hl).
  { intros l' P' Hin. etrans; [by apply (HP l'), elem_of_list_further|by apply grows_dom]. }
  destruct (alloc_list it args h1) as [h2 xs]. cbn [fst snd] in *.
  split; [by eapply grows_trans|]. split; [|cbn; by rewrite Hl].
  intros y [-> |Hy]%elem_of_cons; [|by apply Hx2]. apply (grows_dom _ _ G2); [by apply (grows_order h)|done].
Qed.
Lemma lookup_total_in (l : list nat) (D : gset nat) i : (∀ x, x ∈ l → x ∈ D) → i < length l → l !!! i ∈ D.
Proof. intros H Hi. apply H. apply elem_of_list_lookup_2 with i. by apply list_lookup_lookup_total_lt. Qed.

Lemma fromperm_grows it fmt P : ∀ is evs h, iter_ok it → order_inv h → (∀ x, x ∈ evs → x ∈ dom h) →
  (∀ i, i ∈ is → i ≤ length evs) →
  grows h (fst (fromperm_loop it fmt P is evs h)) ∧
  ∀ evs', snd (fromperm_loop it fmt P is evs h) = Ok evs' → ∀ x, x ∈ evs' → x ∈ dom (fst (fromperm_loop it fmt P is evs h)).
Proof.
  induction is as [|i is IH]; intros evs h Hit HO Hev Hi; cbn [fromperm_loop].
  { split; [apply grows_refl|]. intros evs' [= <-]. done. }
  destruct (py_index P (Z.of_nat i + 1)) as [v|]; [|split; [apply grows_refl|done]].
  set (past := list_to_set _ : gset nat).
  destruct (alloc_grows it (fmt_label fmt (Z.of_nat i + 1)) past h Hit HO) as [G Hx].
  { intros p Hp. unfold past in Hp. apply elem_of_list_to_set, elem_of_list_fmap in Hp as (j & -> & Hj).
    apply elem_of_list_filter in Hj as [_ Hj]. apply elem_of_seq in Hj.
    apply lookup_total_in; [done|]. specialize (Hi i (elem_of_list_here _ _)). lia. }
  destruct (alloc it (fmt_label fmt (Z.of_nat i + 1)) past h) as [h1 x]. cbn [fst snd] in *.
  destruct (IH (<[i := x]> evs) h1 Hit (grows_order _ _ G HO)) as [G2 H2].
  - intros y Hy. apply elem_of_list_lookup in Hy as [k Hk]. destruct (decide (i = k)) as [->|Hik].
    + destruct (decide (k < length evs)) as [Hl|Hl].
      * rewrite list_lookup_insert in Hk by done. by injection Hk as <-.
      * apply lookup_lt_Some in Hk. rewrite insert_length in Hk. lia.
    + rewrite list_lookup_insert_ne in Hk by done. apply (grows_dom _ _ G HO). apply Hev. by eapply elem_of_list_lookup_2.
  - intros k Hk. rewrite insert_length. apply Hi. by apply elem_of_list_further.
  - split; [by eapply grows_trans|done].
Qed.
Lemma causet_sub h S C : order_inv h → S ⊆ dom h → causet h S = Ok C → C ⊆ dom h.
Proof.
  intros HO HS E. destruct (causet_spec h S (in_store_order h HO)) as (C' & E' & HC). rewrite E in E'. injection E' as <-.
  intros x (s & Hs & Hr)%HC. apply HS in Hs. clear E HC. induction Hr as [|a b c [H|H] _ IH]; [done| |].
  - apply IH. by apply (prec_sub_dom h HO a).
  - apply IH. by apply (succ_sub_dom h HO a).
Qed.
Definition good_result (h : heap) (p : heap * res (gset nat)) : Prop :=
  grows h (fst p) ∧ ∀ C, snd p = Ok C → C ⊆ dom (fst p).
Lemma FromPermutation_good it fmt P h : iter_ok it → order_inv h → good_result h (FromPermutation it fmt P h).
Proof.
  intros Hit HO. unfold FromPermutation.
  destruct (alloc_grows it LNone ∅ h Hit HO) as [G Hx]; [apply empty_subseteq|].
  destruct (alloc it LNone ∅ h) as [h0 e0]. cbn [fst snd] in *.
  destruct (fromperm_grows it fmt P (seq 0 (length P)) (replicate (length P) e0) h0 Hit (grows_order _ _ G HO)) as [G2 H2].
  { intros x Hx'. apply elem_of_replicate in Hx' as [-> _]. done. }
  { intros i Hi%elem_of_seq. rewrite replicate_length. lia. }
  assert (G3 := grows_trans _ _ _ G G2).
  destruct (fromperm_loop it fmt P _ _ h0) as [h1 [evs|e]]; cbn [fst snd] in *; split; cbn [fst snd]; try done.
  intros C. apply causet_sub; [by apply (grows_order h)|]. intros x Hx'%elem_of_list_to_set. by eapply H2.
Qed.
Lemma NewSimplex_good it d central h : iter_ok it → order_inv h → good_result h (NewSimplex it d central h).
Proof.
  intros Hit HO. unfold NewSimplex.
  destruct (alloc_list_grows it ((λ i, (LStr (str_of_nat i), ∅)) <$> seq 1 (Z.to_nat (d + 1))) h Hit HO) as (G & Hx & _).
  { intros l P (? & [= _ ->] & _)%elem_of_list_fmap. apply empty_subseteq. }
  destruct (alloc_list it _ h) as [h0 vs]. cbn [fst snd] in *.
  set (faces := k ← seq 2 (Z.to_nat (d - 1)); combinations vs k).
  assert (HF : ∀ faces st, order_inv st.1 → st.2 ⊆ dom st.1 →
    grows st.1 (foldl (simplex_face it) st faces).1 ∧ (foldl (simplex_face it) st faces).2 ⊆ dom (foldl (simplex_face it) st faces).1).
  { clear - Hit. induction faces as [|fv faces IH]; intros [h E] HO HE; cbn [foldl]; [split; [apply grows_refl|done]|].
    cbn [simplex_face fst snd] in *.
    set (past := ⋃ _). destruct (alloc_grows it (LStr (face_label h fv)) past h Hit HO) as [G Hx].
    { intros p Hp. unfold past in Hp. apply elem_of_union_list in Hp as (X & HX & Hp).
      apply elem_of_list_fmap in HX as (pf & -> & _). apply elem_of_filter in Hp as [_ Hp]. by apply HE. }
    destruct (alloc it (LStr (face_label h fv)) past h) as [h1 x]. cbn [fst snd] in *.
    destruct (IH (h1, {[x]} ∪ E)) as [G2 H2]; cbn [fst snd].
    - by apply (grows_order h).
    - intros y [->%elem_of_singleton|Hy]%elem_of_union; [done|]. apply (grows_dom _ _ G HO). by apply HE.
    - cbn [fst snd] in *. split; [by eapply grows_trans|done]. }
  destruct (HF faces (h0, list_to_set vs)) as [G2 H2]; cbn [fst snd].
  { by apply (grows_order h). } { intros x Hx'%elem_of_list_to_set. auto. }
  destruct (foldl (simplex_face it) (h0, list_to_set vs) faces) as [h1 E]. cbn [fst snd] in *.
  assert (G3 := grows_trans _ _ _ G G2). assert (HO1 := grows_order _ _ G3 HO).
  destruct (central && bool_decide (0 < d)%Z).
  - destruct (alloc_grows it (LStr (face_label h1 vs)) E h1 Hit HO1 H2) as [G4 H4].
    destruct (alloc it (LStr (face_label h1 vs)) E h1) as [h2 x]. cbn [fst snd] in *. split; cbn [fst snd].
    + by eapply grows_trans.
    + intros C. apply causet_sub; [by apply (grows_order h1)|].
      intros y [->%elem_of_singleton|Hy]%elem_of_union; [done|]. apply (grows_dom _ _ G4 HO1). by apply H2.
  - split; cbn [fst snd]; [done|]. intros C. by apply causet_sub.
Qed.
Lemma NewFence_good it len height closed h : iter_ok it → order_inv h → good_result h (NewFence it len height closed h).
Proof.
  intros Hit HO. unfold NewFence. destruct (decide _) as [_|Hn].
  { split; cbn [fst snd]; [apply grows_refl|]. intros C. apply causet_sub; [done|apply empty_subseteq]. }
  destruct (decide (len = 1)%Z) as [_|H1]; [by apply FromPermutation_good|].
  destruct (alloc_list_grows it ((λ l, (LInt (Z.of_nat l), ∅)) <$> seq 1 (Z.to_nat len)) h Hit HO) as (G & Hx & Hl).
  { intros l P (? & [= _ ->] & _)%elem_of_list_fmap. apply empty_subseteq. }
  destruct (alloc_list it _ h) as [h0 loop]. cbn [fst snd] in *. rewrite fmap_length, seq_length in Hl.
  assert (HF : ∀ hs loop E h, order_inv h → (∀ x, x ∈ loop → x ∈ dom h) → length loop = Z.to_nat len → E ⊆ dom h →
    grows h (fence_levels it closed (Z.to_nat len) hs loop E h).1 ∧
    (fence_levels it closed (Z.to_nat len) hs loop E h).2 ⊆ dom (fence_levels it closed (Z.to_nat len) hs loop E h).1).
  { clear - Hit Hn. induction hs as [|k hs IH]; intros loop E h HO Hx Hl HE; cbn [fence_levels]; [split; [apply grows_refl|done]|].
    destruct (alloc_list_grows it (fence_row closed (Z.to_nat len) k loop) h Hit HO) as (G & Hx2 & Hl2).
    { intros l P. unfold fence_row. intros (i & [= _ ->] & Hi%elem_of_seq)%elem_of_list_fmap.
      destruct (decide (i = 0)); [destruct closed|]; intros p Hp;
        repeat (apply elem_of_union in Hp as [Hp|Hp]); apply elem_of_singleton in Hp; subst p;
        (apply lookup_total_in; [done|lia]). }
    destruct (alloc_list it (fence_row closed (Z.to_nat len) k loop) h) as [h1 next]. cbn [fst snd] in *.
    unfold fence_row in Hl2. rewrite fmap_length, seq_length in Hl2.
    destruct (IH next (E ∪ list_to_set next) h1) as [G2 H2]; [by apply (grows_order h)|done|done| |].
    - intros y [Hy|Hy%elem_of_list_to_set]%elem_of_union; [|by apply Hx2]. apply (grows_dom _ _ G HO). by apply HE.
    - split; [by eapply grows_trans|done]. }
  destruct (HF (seq 1 (Z.to_nat height)) loop (list_to_set loop) h0) as [G2 H2]; [by apply (grows_order h)|done|done| |].
  { intros x Hx'%elem_of_list_to_set. auto. }
  destruct (fence_levels _ _ _ _ _ _ h0) as [h1 E]. cbn [fst snd] in *. assert (G3 := grows_trans _ _ _ G G2).
  split; cbn [fst snd]; [done|]. intros C. apply causet_sub; [by apply (grows_order h)|done].
Qed.

(** ** Matrices: with caches that need not be right *)
Definition sim (h1 h2 : heap) : Prop := dom h1 = dom h2 ∧ same_order h1 h2.
Lemma sim_upd f g x h1 h2 : (∀ e e', ev_prec e = ev_prec e' → ev_succ e = ev_succ e' →
    ev_prec (f e) = ev_prec (g e') ∧ ev_succ (f e) = ev_succ (g e')) →
  sim h1 h2 → sim (upd f x h1) (upd g x h2).
Proof.
  intros Hf [Hd Hs]. split.
  - unfold upd. by rewrite !dom_insert_L, Hd.
  - intros y. unfold prec, succ. destruct (decide (x = y)) as [<-|Hy].
    + rewrite !upd_same. destruct (Hs x) as [E1 E2]. destruct (Hf (h1 !!! x) (h2 !!! x)) as [-> ->]; done.
    + rewrite !upd_other by done. apply Hs.
Qed.

Lemma alloc_list_sim it (ls : list label) : iter_ok it → ∀ h1 h2, sim h1 h2 →
  sim (alloc_list it ((λ l, (l, ∅)) <$> ls) h1).1 (alloc_list it ((λ l, (l, ∅)) <$> ls) h2).1 ∧
  (alloc_list it ((λ l, (l, ∅)) <$> ls) h1).2 = (alloc_list it ((λ l, (l, ∅)) <$> ls) h2).2.
Proof.
  intros Hit. induction ls as [|l ls IH]; intros h1 h2 Hs; cbn [fmap list_fmap alloc_list]; [done|].
  unfold alloc. rewrite !new_event_plain by by apply sub_ok. assert (En : new_id h1 = new_id h2) by (unfold new_id; by rewrite (proj1 Hs)).
  rewrite En. set (e := Event l ∅ ∅ None None (Some []) []). set (n := new_id h2).
  destruct (IH (<[n := e]> h1) (<[n := e]> h2)) as [H1 H2].
  - apply (sim_upd (λ _, e) (λ _, e) n); done.
  - fold (list_fmap _ _ (λ l : label, (l, ∅ : gset nat))) in *. destruct (alloc_list it _ (<[n := e]> h1)) as [k1 x1], (alloc_list it _ (<[n := e]> h2)) as [k2 x2].
    cbn [fst snd] in *. by subst.
Qed.
Lemma frommat_assign_sim r c C evs : ∀ is h1 h2, sim h1 h2 →
  sim (frommat_assign r c C evs is h1).1 (frommat_assign r c C evs is h2).1 ∧
  (frommat_assign r c C evs is h1).2 = (frommat_assign r c C evs is h2).2.
Proof.
  induction is as [|i is IH]; intros h1 h2 Hs; cbn [frommat_assign]; [done|].
  destruct (decide _); [done|]. apply IH. apply sim_upd; [done|done].
Qed.
Lemma complete_sim evs : ∀ h1 h2, sim h1 h2 → sim (foldl frommat_complete h1 evs) (foldl frommat_complete h2 evs).
Proof.
  assert (HP : ∀ h1 h2 X, same_order h1 h2 → PastOf h1 X true false = PastOf h2 X true false ∧ FutureOf h1 X true false = FutureOf h2 X true false).
  { intros h1 h2 X Hs. unfold PastOf, FutureOf. cbn [andb]. 
    assert (HF : ∀ (f g : nat → gset nat) l acc, (∀ x, f x = g x) → foldl (λ acc e, acc ∪ f e) acc l = foldl (λ acc e, acc ∪ g e) acc l).
    { intros f g l. induction l as [|y l IHl]; intros acc E; cbn [foldl]; [done|]. rewrite E. by apply IHl. }
    rewrite (HF (Past h1) (Past h2)), (HF (Future h1) (Future h2)); [done|intros x; symmetry; apply Hs..]. }
  induction evs as [|e evs IH]; intros h1 h2 Hs; cbn [foldl]; [done|]. apply IH. unfold frommat_complete.
  assert (S1 : sim (upd (set_prec (PastOf h1 (prec h1 e) true false)) e h1) (upd (set_prec (PastOf h2 (prec h2 e) true false)) e h2)).
  { apply sim_upd; [|done]. intros a b E1 E2. destruct (proj2 Hs e) as [-> _]. destruct (HP h1 h2 (prec h1 e) (proj2 Hs)) as [-> _]. done. }
  set (k1 := upd _ e h1) in *. set (k2 := upd _ e h2) in *.
  apply sim_upd; [|done]. intros a b E1 E2. destruct (proj2 S1 e) as [_ ->]. destruct (HP k1 k2 (succ k1 e) (proj2 S1)) as [_ ->]. done.
Qed.
(** The same store without link caches. *)
Definition bare (h : heap) : heap := (λ e, set_lprec None (set_lsucc None e)) <$> h.
Lemma bare_lookup h x : bare h !!! x = set_lprec None (set_lsucc None (h !!! x)).
Proof. unfold bare. rewrite !lookup_total_alt, lookup_fmap. by destruct (h !! x). Qed.
Lemma bare_sim h : sim h (bare h).
Proof. split; [unfold bare; by rewrite dom_fmap_L|]. intros x. unfold prec, succ. by rewrite bare_lookup. Qed.
Lemma bare_links h : link_inv (bare h).
Proof. intros x. left. unfold lprec, lsucc. by rewrite bare_lookup. Qed.

Lemma paired_alloc_plain it l h : iter_ok it → order_inv h → link_paired h → link_paired (alloc it l ∅ h).1.
Proof. intros Hit HO. apply (alloc_grows it l ∅ h Hit HO); [apply empty_subseteq|done]. Qed.
Lemma frommat_assign_paired r c C evs : ∀ is h, link_paired h → link_paired (frommat_assign r c C evs is h).1.
Proof.
  induction is as [|i is IH]; intros h HP; cbn [frommat_assign]; [done|]. destruct (decide _); [done|].
  apply IH. by apply paired_upd.
Qed.
Lemma complete_paired evs : ∀ h, link_paired h → link_paired (foldl frommat_complete h evs).
Proof.
  induction evs as [|e evs IH]; intros h HP; cbn [foldl]; [done|]. apply IH. unfold frommat_complete.
  apply paired_upd; [done|]. by apply paired_upd.
Qed.
Lemma FromPastMatrix_good it h n C : iter_ok it → order_inv h → mat_order n C →
  grows h (FromPastMatrix it n n C h).1.1 ∧ ∀ X, (FromPastMatrix it n n C h).2 = Ok X → X ⊆ dom (FromPastMatrix it n n C h).1.1.
Proof.
  intros Hit HO HC.
  destruct (FromPastMatrix_spec it (bare h) n C Hit) as (h' & evs & E & Hf & _ & _ & _); [|apply bare_links|done|].
  { eapply same_order_inv; [apply bare_sim|done]. }
  assert (HS : sim (FromPastMatrix it n n C h).1.1 h' ∧ (FromPastMatrix it n n C h).1.2 = evs ∧
    (link_paired h → link_paired (FromPastMatrix it n n C h).1.1) ∧
    ∃ k, (FromPastMatrix it n n C h).2 = causet k (list_to_set evs) ∧ k = (FromPastMatrix it n n C h).1.1).
  { revert E. unfold FromPastMatrix. destruct (decide (n < n)); [lia|]. rewrite (fmap_args (λ i, LInt (Z.of_nat i))).
    destruct (alloc_list_sim it ((λ i, LInt (Z.of_nat i)) <$> seq 1 n) Hit h (bare h) (bare_sim h)) as [H1 H2].
    assert (HP1 : link_paired h → link_paired (alloc_list it ((λ l, (l, ∅)) <$> ((λ i, LInt (Z.of_nat i)) <$> seq 1 n)) h).1).
    { apply (alloc_list_grows it ((λ l, (l, ∅)) <$> ((λ i, LInt (Z.of_nat i)) <$> seq 1 n)) h Hit HO); [|done].
      intros l P (? & [= _ ->] & _)%elem_of_list_fmap. apply empty_subseteq. }
    destruct (alloc_list it _ h) as [k1 e1], (alloc_list it _ (bare h)) as [k2 e2]. cbn [fst snd] in *. subst e2.
    destruct (frommat_assign_sim n n C e1 (seq 0 n) k1 k2 H1) as [H3 H4].
    pose proof (frommat_assign_paired n n C e1 (seq 0 n) k1) as HP2.
    destruct (frommat_assign n n C e1 (seq 0 n) k1) as [m1 r1], (frommat_assign n n C e1 (seq 0 n) k2) as [m2 r2]. cbn [fst snd] in *. subst r2.
    destruct r1 as [[]|x]; [|done]. intros [= <- <- _]. cbn [fst snd]. split; [by apply complete_sim|]. split; [done|].
    split; [intros HP; apply complete_paired; auto|]. eexists. split; [done|done]. }
  destruct HS as (HS & He & HP & k & Ek & Hk). subst k.
  assert (HO' : order_inv (FromPastMatrix it n n C h).1.1).
  { eapply same_order_inv; [|apply (fc_order _ _ _ Hf)]. intros x. destruct (proj2 HS x). done. }
  assert (Hd : dom h ⊆ dom (FromPastMatrix it n n C h).1.1).
  { rewrite (proj1 HS). rewrite (proj1 (bare_sim h)). apply (fc_dom _ _ _ Hf). }
  split.
  - intros _. split_and!; [done|done|done|]. intros HL.
    destruct (FromPastMatrix_spec it h n C Hit HO HL HC) as (k & evs' & E' & Hf' & _). rewrite E'. apply (fc_link _ _ _ Hf').
  - intros X HX. rewrite Ek in HX. eapply causet_sub; [done| |done]. intros x Hx%elem_of_list_to_set.
    rewrite (proj1 HS). by apply (fc_in _ _ _ Hf).
Qed.

(** ** Merging, adding, linking *)
Lemma paired_addToFuture h x y : link_paired h → link_paired (addToFuture h x y).1.
Proof.
  intros HP z. unfold lprec, lsucc. rewrite addToFuture_lookup. destruct (decide (z = x)) as [->|]; [|apply HP].
  apply linked_pair_addF. apply HP.
Qed.
Lemma paired_addToPast h x y : link_paired h → link_paired (addToPast h x y).1.
Proof.
  intros HP z. unfold lprec, lsucc. rewrite addToPast_lookup. destruct (decide (z = x)) as [->|]; [|apply HP].
  apply linked_pair_addP. apply HP.
Qed.
Lemma paired_merge_loop it A B : ∀ h, link_paired h → link_paired (merge_loop it A B h).
Proof.
  unfold merge_loop. generalize (it 20 A) as As, (it 21 B) as Bs. intros As Bs.
  assert (H1 : ∀ p l h, link_paired h → link_paired (foldl (merge_pair p) h l)).
  { intros p l. induction l as [|f l IH]; intros h HP; cbn [foldl]; [done|]. apply IH. unfold merge_pair.
    apply paired_addToPast. by apply paired_addToFuture. }
  induction As as [|p As IH]; intros h HP; cbn [foldl]; [done|]. apply IH. by apply H1.
Qed.
Lemma merge_good it A B d h : iter_ok it → order_inv h → A ⊆ dom h → B ⊆ dom h →
  (d = false → A ## B ∧ (∀ x, x ∈ A → Past h x ⊆ A) ∧ (∀ x, x ∈ B → Future h x ⊆ B)) →
  let p := merge it A B d h in
  order_inv p.1 ∧ dom p.1 = dom h ∧ (link_paired h → link_paired p.1) ∧ (∀ C, p.2 = Ok C → C ⊆ dom p.1) ∧
  ((d = false → ∀ x, x ∈ A ∪ B → hasBeenLinked h x = false) → link_inv h → link_inv p.1).
Proof.
  intros Hit HO HA HB Hd p.
  assert (Hp1 : order_inv p.1 ∧ dom p.1 = dom h ∧ (link_paired h → link_paired p.1) ∧
     ((d = false → ∀ x, x ∈ A ∪ B → hasBeenLinked h x = false) → link_inv h → link_inv p.1)).
  { unfold p, merge. cbn [fst]. destruct d; [done|]. destruct (Hd eq_refl) as (Hdis & HcA & HcB).
    assert (Hdown : ∀ a b, before h a b → b ∈ A → a ∈ A) by (intros a b Hab Hb; exact (HcA b Hb a Hab)).
    assert (Hup : ∀ a b, before h a b → a ∈ B → b ∈ B).
    { intros a b Hab Ha. apply (HcB a Ha b). unfold Future. by apply (oi_conv h HO). }
    split_and!.
    - by apply merge_order.
    - apply (mg_dom _ _ _ _ (merge_loop_merged it A B h Hit HA HB)).
    - apply paired_merge_loop.
    - intros Hno HL. apply merge_link_inv; try done. intros x Hx. specialize (Hno eq_refl x Hx).
      unfold hasBeenLinked in Hno. destruct (HL x) as [?|(lp & ls & E1 & E2 & _)]; [done|]. rewrite E1, E2 in Hno. done. }
  destruct Hp1 as (H1 & H2 & H3 & H4). split_and!; try done.
  intros C. unfold p, merge. cbn [fst snd]. apply causet_sub; [exact H1|]. change (A ∪ B ⊆ dom p.1). rewrite H2. set_solver.
Qed.
Lemma unlink_loop_dom l : ∀ h, (∀ x, x ∈ l → x ∈ dom h) → dom (unlink_loop l h).1 = dom h.
Proof.
  assert (HU : ∀ h e, e ∈ dom h → dom (EventModel.unlink h e).1 = dom h).
  { intros h e He. unfold EventModel.unlink. destruct (lprec h e); [|done]. cbn zeta. destruct (lsucc _ e); cbn [fst]; rewrite ?upd_dom; try done; by rewrite upd_dom. }
  induction l as [|e l IH]; intros h Hl; cbn [unlink_loop]; [done|].
  pose proof (HU h e (Hl e (elem_of_list_here _ _))) as E. destruct (EventModel.unlink h e) as [h1 [|]]; cbn [fst] in *; [|done].
  rewrite IH; [done|]. intros x Hx. rewrite E. apply Hl. by apply elem_of_list_further.
Qed.
Lemma unlink_loop_inv l : ∀ h, same_order h (unlink_loop l h).1 ∧ (link_paired h → link_paired (unlink_loop l h).1) ∧
  (link_inv h → link_inv (unlink_loop l h).1).
Proof.
  induction l as [|e l IH]; intros h; cbn [unlink_loop]; [split_and!; [apply same_order_refl|done|done]|].
  pose proof (unlink_same_order h e) as S1. pose proof (paired_unlink h e) as P1. pose proof (unlink_link_inv h e) as L1.
  destruct (EventModel.unlink h e) as [h1 [|]]; cbn [fst] in *; [|done]. destruct (IH h1) as (S2 & P2 & L2).
  split_and!; [by eapply same_order_trans|tauto|tauto].
Qed.
Lemma unlink_linked_inv l : ∀ h, same_order h (unlink_linked_loop l h).1 ∧ (link_paired h → link_paired (unlink_linked_loop l h).1) ∧
  (link_inv h → link_inv (unlink_linked_loop l h).1) ∧ ((∀ x, x ∈ l → x ∈ dom h) → dom (unlink_linked_loop l h).1 = dom h).
Proof.
  assert (HU : ∀ h e, e ∈ dom h → dom (EventModel.unlink h e).1 = dom h).
  { intros h e He. unfold EventModel.unlink. destruct (lprec h e); [|done]. cbn zeta. destruct (lsucc _ e); cbn [fst]; rewrite ?upd_dom; try done; by rewrite upd_dom. }
  induction l as [|e l IH]; intros h; cbn [unlink_linked_loop]; [split_and!; [apply same_order_refl|done|done|done]|].
  destruct (hasBeenLinked h e).
  - pose proof (unlink_same_order h e) as S1. pose proof (paired_unlink h e) as P1. pose proof (unlink_link_inv h e) as L1. pose proof (HU h e) as D1.
    destruct (EventModel.unlink h e) as [h1 [|]]; cbn [fst] in *.
    + destruct (IH h1) as (S2 & P2 & L2 & D2). split_and!; [by eapply same_order_trans|tauto|tauto|].
      intros Hl. specialize (D1 (Hl e (elem_of_list_here _ _))). rewrite D2; [done|]. intros x Hx. rewrite D1. apply Hl. by apply elem_of_list_further.
    + split_and!; [done..|]. intros Hl. apply D1, Hl, elem_of_list_here.
  - destruct (IH h) as (S2 & P2 & L2 & D2). split_and!; [done..|]. intros Hl. apply D2. intros x Hx. apply Hl. by apply elem_of_list_further.
Qed.
Lemma link_causet_good it C h : iter_ok it → order_inv h → C ⊆ dom h → closed h C →
  let h' := (link_causet it C h).1 in
  order_inv h' ∧ dom h' = dom h ∧ (link_paired h → link_paired h') ∧ (link_inv h → link_inv h').
Proof.
  intros Hit HO HC Hcl h'.
  destruct (C23_link it h C Hit HO HC Hcl) as (k & E & HO' & _ & Hb & _ & Hout & HL).
  destruct (link_causet_ok it h C Hit (oi_conv h HO) HC) as (k' & E' & Hd & _).
  { intros b a Hb' [Hab _]. left. exact (proj1 (Hcl b Hb') a Hab). }
  unfold h'. rewrite E in *. injection E' as <-. cbn [fst]. split_and!; [done|done| |done].
  intros HP x. destruct (decide (x ∈ C)) as [Hx|Hx].
  - specialize (Hb x Hx). unfold hasBeenLinked in Hb. by destruct (lprec k x), (lsucc k x).
  - destruct (Hout x Hx) as [-> ->]. apply HP.
Qed.

(** ** Embedded causets *)
Lemma create_events_grows it fmt rows : ∀ u h, iter_ok it → order_inv h → grows h (create_events it fmt u rows h).1.
Proof.
  induction rows as [|c rows IH]; intros u h Hit HO; cbn [create_events]; [apply grows_refl|].
  destruct (new_grows (sub it (new_id h)) (emb_label fmt u) ∅ c [] h (sub_ok _ _ Hit) HO) as [G _]; [apply empty_subseteq|].
  destruct (new_event (sub it (new_id h)) (emb_label fmt u) ∅ ∅ c [] h) as [h1 x]. cbn [fst] in *.
  specialize (IH (u + 1)%Z h1 Hit (grows_order _ _ G HO)). destruct (create_events it fmt (u + 1) rows h1) as [h2 xs]. cbn [fst] in *.
  by eapply grows_trans.
Qed.
Lemma ordering_decides caus X : ordering caus X → ∃ le : list Q → list Q → Prop,
  (∀ a b c, X a → X b → X c → le a b → le b c → le a c) ∧ (∀ a b, X a → X b → decides caus le a b).
Proof. done. Qed.
Lemma relate_good it caus link C h : iter_ok it → order_inv h → link_paired h → C ⊆ dom h → closed h C →
  (∀ x, x ∈ C → isEmbedded h x = true) → ordering caus (coordinates_of h C) →
  let h' := (relate it caus link C h).1 in
  order_inv h' ∧ dom h' = dom h ∧ link_paired h' ∧ (link_inv h → link_inv h').
Proof.
  intros Hit HO HP HC Hcl Hemb Hord h'.
  set (crd := λ x, match Coordinates h x with Ok c => c | Err _ => [] end).
  assert (Hc : embedded h C crd).
  { intros x Hx. specialize (Hemb x Hx). unfold isEmbedded in Hemb. apply bool_decide_eq_true in Hemb. unfold crd, Coordinates.
    by destruct Hemb as [c ->]. }
  assert (HX : ∀ x, x ∈ C → coordinates_of h C (crd x)) by (intros x Hx; exists x; split; [done|by apply Hc]).
  destruct (ordering_decides _ _ Hord) as (le & Htr & Hdec).
  destruct (relate_order it caus link h C crd le Hit HO HP HC Hcl Hc) as (k & E & HO' & HP' & Hd & _).
  { intros a b c Ha Hb Hc'. apply Htr; by apply HX. } { intros a b Ha Hb. apply Hdec; by apply HX. }
  unfold h'. rewrite E. cbn [fst]. split_and!; [done..|]. intros HL.
  destruct (C50_partial_order it caus link h C crd le Hit HO HL HC Hcl Hc) as (k' & E' & _ & HL' & _).
  { intros a b c Ha Hb Hc'. apply Htr; by apply HX. } { intros a b Ha Hb. apply Hdec; by apply HX. }
  rewrite E in E'. by injection E' as <-.
Qed.
Lemma create_good it caus rows fmt rel C h : iter_ok it → order_inv h → link_paired h → C ⊆ dom h →
  (rel = true → closed h C ∧ (∀ x, x ∈ C → isEmbedded h x = true) ∧ ordering caus (λ c, coordinates_of h C c ∨ c ∈ rows)) →
  let p := (create it caus rows fmt rel C h).1 in
  order_inv p.1 ∧ dom h ⊆ dom p.1 ∧ link_paired p.1 ∧ (link_inv h → link_inv p.1) ∧ p.2 ⊆ dom p.1.
Proof.
  intros Hit HO HP HC Hrel p.
  pose proof (create_events_spec it fmt rows (Z.of_nat (size C) + 1)%Z h Hit) as HS.
  pose proof (create_events_grows it fmt rows (Z.of_nat (size C) + 1)%Z h Hit HO) as G.
  unfold p, create. destruct (create_events it fmt (Z.of_nat (size C) + 1) rows h) as [h1 xs]. cbn [fst snd] in *.
  destruct HS as (Hl & Hnd & Hfr & Hd & Hold & Hnew). destruct (G HO) as (HO1 & Hd1 & HP1 & HL1).
  assert (HC1 : C ∪ list_to_set xs ⊆ dom h1) by (rewrite Hd; set_solver).
  destruct rel; [|cbn [fst snd]; split_and!; auto].
  destruct (Hrel eq_refl) as (Hcl & Hemb & Hord).
  assert (Hxc : ∀ x, x ∈ xs → ∃ c, c ∈ rows ∧ h1 !!! x = Event (ev_label (h1 !!! x)) ∅ ∅ None None (Some c) []).
  { intros x Hx. apply elem_of_list_lookup in Hx as [i Hi]. destruct (lookup_lt_is_Some_2 rows i) as [c Hc]; [rewrite <- Hl; by eapply lookup_lt_Some|].
    exists c. split; [by eapply elem_of_list_lookup_2|]. rewrite (Hnew i x c Hi Hc). done. }
  assert (Hcx : ∀ x, x ∈ C → x ∉ xs) by (intros x Hx Hx'; apply (Hfr x Hx'); by apply HC).
  destruct (relate_good it caus true (C ∪ list_to_set xs) h1 Hit HO1 (HP1 HP) HC1) as (R1 & R2 & R3 & R4).
  - intros x [Hx|Hx%elem_of_list_to_set]%elem_of_union.
    + unfold prec, succ. rewrite (Hold x (Hcx x Hx)). destruct (Hcl x Hx). split; apply union_subseteq_l'; done.
    + destruct (Hxc x Hx) as (c & _ & E). unfold prec, succ. rewrite E. cbn [ev_prec ev_succ]. split; apply empty_subseteq.
  - intros x [Hx|Hx%elem_of_list_to_set]%elem_of_union; unfold isEmbedded, Base.coords.
    + rewrite (Hold x (Hcx x Hx)). by apply Hemb.
    + destruct (Hxc x Hx) as (c & _ & E). rewrite E. apply bool_decide_eq_true. cbn. eauto.
  - destruct Hord as (le & Htr & Hdec).
    assert (HX : ∀ c, coordinates_of h1 (C ∪ list_to_set xs) c → coordinates_of h C c ∨ c ∈ rows).
    { intros c (x & Hx & Hcc). apply elem_of_union in Hx as [Hx|Hx%elem_of_list_to_set]; unfold Coordinates, Base.coords in Hcc.
      - rewrite (Hold x (Hcx x Hx)) in Hcc. left. by exists x.
      - destruct (Hxc x Hx) as (c' & Hc' & E). rewrite E in Hcc. cbn in Hcc. injection Hcc as <-. by right. }
    exists le. split; [intros a b c Ha Hb Hc; apply Htr; auto|intros a b Ha Hb; apply Hdec; auto].
  - destruct (relate it caus true (C ∪ list_to_set xs) h1) as [h2 [|]]; cbn [fst snd] in *; rewrite R2; split_and!; auto.
Qed.
Lemma relabel_good it argsort dim descending C h : iter_ok it → (∀ l, argsort l ≡ₚ seq 0 (length l)) → order_inv h → C ⊆ dom h →
  let h' := (relabel it argsort dim descending C h).1 in
  order_inv h' ∧ dom h' = dom h ∧ (link_paired h → link_paired h') ∧ (link_inv h → link_inv h').
Proof.
  intros Hit Ha HO HC h'. unfold h', relabel. destruct (dim_values h dim (it 32 C)) as [vs|e] eqn:E; [|done]. cbn [fst].
  assert (Hlen : length vs = length (it 32 C)).
  { clear - E. revert vs E. induction (it 32 C) as [|x l IH]; intros vs E; cbn [dim_values] in E; [by injection E as <-|].
    destruct (Coordinates h x) as [c|]; [|done]. cbn [res_bind] in E. destruct (py_nth c dim) as [v|]; [|done]. cbn [res_bind] in E.
    destruct (dim_values h dim l) as [ws|]; [|done]. injection E as <-. cbn. by rewrite (IH ws). }
  set (l := (λ i, it 32 C !!! i) <$> (if descending then reverse (argsort vs) else argsort vs)).
  assert (Hl : ∀ x, x ∈ l → x ∈ dom h).
  { intros x (i & -> & Hi)%elem_of_list_fmap. assert (Hi' : i ∈ argsort vs) by (destruct descending; [by apply elem_of_reverse|done]).
    rewrite Ha in Hi'. apply elem_of_seq in Hi'. apply HC. rewrite <- (iter_elem it 32 C) by done.
    apply elem_of_list_lookup_2 with i. apply list_lookup_lookup_total_lt. lia. }
  clearbody l. clear E Hlen. generalize 1%Z. intros u.
  assert (HR : dom (set_labels u l h) = dom h ∧ same_order h (set_labels u l h) ∧
    (∀ x, lprec (set_labels u l h) x = lprec h x ∧ lsucc (set_labels u l h) x = lsucc h x)).
  { clear - Hl. revert u h Hl. induction l as [|a l IH]; intros u h Hl; cbn [set_labels]; [done|].
    set (h1 := upd (set_label (LInt u)) a h). assert (Hd1 : dom h1 = dom h) by (apply upd_dom, Hl, elem_of_list_here).
    destruct (IH (u + 1)%Z h1) as (D & S & L). { intros x Hx. rewrite Hd1. apply Hl. by apply elem_of_list_further. }
    assert (H1 : ∀ x, prec h1 x = prec h x ∧ succ h1 x = succ h x ∧ lprec h1 x = lprec h x ∧ lsucc h1 x = lsucc h x).
    { intros x. unfold prec, succ, lprec, lsucc, h1. destruct (decide (a = x)) as [<-|]; [by rewrite upd_same|by rewrite upd_other]. }
    split; [congruence|]. split.
    - intros x. destruct (S x) as [-> ->]. destruct (H1 x) as (-> & -> & _). done.
    - intros x. destruct (L x) as [-> ->]. by destruct (H1 x) as (_ & _ & -> & ->). }
  destruct HR as (D & Sm & L). split_and!; [by eapply same_order_inv|done| |].
  - intros HP x. destruct (L x) as [-> ->]. apply HP.
  - intros HL x. destruct (L x) as [-> ->]. destruct (HL x) as [?|(lp & ls & E1 & E2 & E3 & E4)]; [by left|right].
    exists lp, ls. split_and!; [done|done|intros y; rewrite (same_order_covers h) by done; auto..].
Qed.
