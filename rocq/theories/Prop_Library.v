(** Theorems about histories of calls of the whole library: C87. *)
From Verif Require Import Base Spec EventModel EventFacts DisjoinFacts History HistoryFacts EventProps Prop_Event CausetModel CausetFacts
  PyStr SpecBuild BuildModel BuildFacts MatrixFacts MergeFacts Prop_Build.
From Coq Require Import Reals Qreals Qabs Lqa Lra.
From Verif Require Import SpacetimeModel SpacetimeFacts Prop_Spacetime ShapeModel EmbedModel EmbedFacts Prop_Embed LibHistory LibFacts.
#[local] Open Scope nat_scope.

Lemma step_dom it h o : iter_ok it → order_inv h → admissible h o → dom h ⊆ dom (step it h o).
Proof.
  intros Hit HO Ha. pose proof (linkish_step h o it Ha) as Hl.
  assert (HU : ∀ f x, dom h ⊆ dom (upd f x h)) by (intros f x; unfold upd; rewrite dom_insert_L; apply union_subseteq_r).
  destruct o; cbn [step]; try (apply linkish_dom in Hl; cbn [step] in Hl; rewrite Hl; done).
  - destruct Ha as (HP & HF & _). rewrite (new_event_dom it Hit h HO P F HP HF). apply union_subseteq_r.
  - by rewrite unlink_dom.
  - destruct (lprec h x) eqn:E1.
    + destruct (lsucc h x) eqn:E2.
      * by erewrite disjoin_dom.
      * unfold disjoin, unlink. rewrite E1.
        assert (Hn : lsucc (upd (set_lprec None) x h) x = None) by (unfold lsucc; by rewrite upd_same).
        rewrite Hn. cbn. apply HU.
    + unfold disjoin. by rewrite unlink_unlinked.
  - unfold embed. destruct (_ && _); cbn; [done|apply HU].
  - unfold disembed. destruct (Base.coords h x); cbn; [apply HU|done].
  - unfold set_Position. destruct (decide _); cbn; [apply HU|done].
Qed.

Record lib_inv (w : lib_state) : Prop := LibInv {
  li_order : order_inv (lib_heap w);
  li_paired : link_paired (lib_heap w);
  li_sub : ∀ C, C ∈ lib_causets w → C ⊆ dom (lib_heap w)
}.
Lemma nth_sub w i : lib_inv w → i < length (lib_causets w) → nth_causet w i ⊆ dom (lib_heap w).
Proof.
  intros HI Hi. apply (li_sub w HI). unfold nth_causet. destruct (lookup_lt_is_Some_2 _ _ Hi) as [C HC].
  rewrite (nth_lookup_Some _ _ _ _ HC). by eapply elem_of_list_lookup_2.
Qed.
Lemma inv_same w h' : lib_inv w → order_inv h' → link_paired h' → dom (lib_heap w) ⊆ dom h' → lib_inv (Lib h' (lib_causets w)).
Proof. intros HI HO HP Hd. split; cbn; [done|done|]. intros C HC. etrans; [by apply (li_sub w HI)|done]. Qed.
Lemma inv_returned w p : lib_inv w → order_inv p.1 → link_paired p.1 → dom (lib_heap w) ⊆ dom p.1 →
  (∀ C, p.2 = Ok C → C ⊆ dom p.1) → lib_inv (returned (lib_causets w) p).
Proof.
  intros HI HO HP Hd HC. unfold returned. destruct p as [h' [C|e]]; cbn [fst snd] in *; [|by apply inv_same].
  split; cbn; [done|done|]. intros D [HD|HD]%elem_of_app.
  - etrans; [by apply (li_sub w HI)|done].
  - apply elem_of_list_singleton in HD as ->. by apply HC.
Qed.
Lemma inv_insert w i C h' : lib_inv w → order_inv h' → link_paired h' → dom (lib_heap w) ⊆ dom h' → C ⊆ dom h' →
  lib_inv (Lib h' (<[i := C]> (lib_causets w))).
Proof.
  intros HI HO HP Hd HC. split; cbn; [done|done|]. intros D HD. apply elem_of_list_lookup in HD as [k Hk].
  destruct (decide (i = k)) as [->|Hik].
  - destruct (decide (k < length (lib_causets w))) as [Hl|Hl].
    + rewrite list_lookup_insert in Hk by done. by injection Hk as <-.
    + rewrite list_insert_ge in Hk by lia. apply lookup_lt_Some in Hk. lia.
  - rewrite list_lookup_insert_ne in Hk by done. transitivity (dom (lib_heap w)); [|done]. apply (li_sub w HI). by eapply elem_of_list_lookup_2.
Qed.
Lemma good_inv w p : lib_inv w → good_result (lib_heap w) p →
  lib_inv (returned (lib_causets w) p) ∧ (link_inv (lib_heap w) → link_inv (lib_heap (returned (lib_causets w) p))).
Proof.
  intros HI [G HC]. destruct (G (li_order w HI)) as (H1 & H2 & H3 & H4). split.
  - apply inv_returned; [done|done|by apply H3, li_paired|done|done].
  - intros HL. unfold returned. destruct p as [h' [C|e]]; cbn; by apply H4.
Qed.
Lemma order_matrix_T r c C : order_matrix r c C → r = c ∧ mat_order r (λ i j, C j i).
Proof. intros [-> H]. split; [done|]. by apply mat_order_T. Qed.
Lemma mat_good it h r c C : iter_ok it → order_inv h → order_matrix r c C →
  good_result h ((FromPastMatrix it r c C h).1.1, (FromPastMatrix it r c C h).2) ∧
  good_result h ((FromFutureMatrix it r c C h).1.1, (FromFutureMatrix it r c C h).2).
Proof.
  intros Hit HO [<- HC]. split.
  - exact (FromPastMatrix_good it h r C Hit HO HC).
  - exact (FromPastMatrix_good it h r (λ i j, C j i) Hit HO (mat_order_T r C HC)).
Qed.

Lemma lib_step_inv it w o : iter_ok it → lib_inv w → lib_admissible w o →
  lib_inv (lib_step it w o) ∧
  (lib_keeps_links w o → link_inv (lib_heap w) → link_inv (lib_heap (lib_step it w o))).
Proof.
  intros Hit HI Ha. assert (HO := li_order w HI). assert (HP := li_paired w HI).
  set (h := lib_heap w) in *.
  destruct o; cbn [lib_step lib_admissible lib_keeps_links] in *; fold h in Ha |- *.
  - split.
    + apply inv_same; [done|by apply step_order|by apply step_paired|by apply step_dom].
    + intros Hk HL. cbn. by apply step_link.
  - destruct (good_inv w (h, causet h S)) as [H1 H2]; [done| |by split].
    split; [apply grows_refl|]. cbn. intros C. by apply causet_sub.
  - destruct (good_inv w (FromPermutation it fmt P h)) as [H1 H2]; [done|by apply FromPermutation_good|by split].
  - destruct (good_inv w (NewChain it n fmt h)) as [H1 H2]; [done|by apply FromPermutation_good|by split].
  - destruct (good_inv w (NewAntichain it n fmt h)) as [H1 H2]; [done|by apply FromPermutation_good|by split].
  - destruct (good_inv w (NewSimplex it d central h)) as [H1 H2]; [done|by apply NewSimplex_good|by split].
  - destruct (good_inv w (NewFence it length height closed h)) as [H1 H2]; [done|by apply NewFence_good|by split].
  - destruct (good_inv w (NewCrown it length h)) as [H1 H2]; [done|by apply NewFence_good|by split].
  - destruct (mat_good it h r c C Hit HO Ha) as [G _]. destruct (good_inv w _ HI G) as [H1 H2]. by split.
  - destruct (mat_good it h r c C Hit HO Ha) as [_ G]. destruct (good_inv w _ HI G) as [H1 H2]. by split.
  - unfold FromTextFile. destruct (genfromtxt text) as [[b|l|M]|e].
    + destruct (good_inv w (h, Err IndexError)) as [H1 H2]; [done|split; [apply grows_refl|done]|by split].
    + destruct (good_inv w (h, Err IndexError)) as [H1 H2]; [done|split; [apply grows_refl|done]|by split].
    + destruct (mat_good it h _ _ _ Hit HO Ha) as [G1 G2]. destruct isPastMatrix.
      * destruct (good_inv w _ HI G1) as [H1 H2]. by split.
      * destruct (good_inv w _ HI G2) as [H1 H2]. by split.
    + destruct (good_inv w (h, Err e)) as [H1 H2]; [done|split; [apply grows_refl|done]|by split].
  - destruct Ha as (Hi & Hj & Hd).
    destruct (merge_good it (nth_causet w i) (nth_causet w j) disjoint h Hit HO (nth_sub w i HI Hi) (nth_sub w j HI Hj) Hd) as (M1 & M2 & M3 & M4 & M5).
    split; [apply inv_returned; auto; rewrite M2; done|].
    intros Hk HL. unfold returned. assert (HM : link_inv (merge it (nth_causet w i) (nth_causet w j) disjoint h).1).
    { apply M5; [|done]. intros ->. exact Hk. }
    by destruct (merge it (nth_causet w i) (nth_causet w j) disjoint h) as [h' [C|e]].
  - destruct Ha as [Hi HS]. pose proof (nth_sub w i HI Hi) as Hn. fold h in Hn.
    assert (HC : add_events (nth_causet w i) S ⊆ dom h) by (unfold add_events; by apply union_least).
    unfold add. destruct unlink.
    + pose proof (unlink_loop_inv (it 24 (add_events (nth_causet w i) S)) h) as (U1 & U2 & U3).
      pose proof (unlink_loop_dom (it 24 (add_events (nth_causet w i) S)) h) as Ud.
      destruct (unlink_loop (it 24 (add_events (nth_causet w i) S)) h) as [h' r]. cbn [fst] in *.
      rewrite <- Ud in HC by (intros x Hx; rewrite iter_elem in Hx by done; by apply HC). split; [|intros _; done].
      apply inv_insert; [done|by eapply same_order_inv|by apply U2| |done].
      rewrite Ud; [done|]. intros x Hx. rewrite iter_elem in Hx by done. unfold add_events in Hx. apply elem_of_union in Hx as [Hx|Hx]; [by apply Hn|by apply HS].
    + split; [by apply inv_insert|by intros _].
  - pose proof (nth_sub w i HI Ha) as Hn. fold h in Hn.
    assert (HC : discard_events (nth_causet w i) S ⊆ dom h) by (unfold discard_events; set_solver).
    unfold discard. destruct unlink.
    + pose proof (unlink_loop_inv (it 24 (discard_events (nth_causet w i) S)) h) as (U1 & U2 & U3).
      pose proof (unlink_loop_dom (it 24 (discard_events (nth_causet w i) S)) h) as Ud.
      assert (Ed : dom (unlink_loop (it 24 (discard_events (nth_causet w i) S)) h).1 = dom h).
      { apply Ud. intros x Hx. rewrite iter_elem in Hx by done. by apply HC. }
      destruct (unlink_loop (it 24 (discard_events (nth_causet w i) S)) h) as [h' r]. cbn [fst] in *.
      split; [|intros _; done]. apply inv_insert; [done|by eapply same_order_inv|by apply U2|by rewrite Ed|by rewrite Ed].
    + split; [by apply inv_insert|by intros _].
  - destruct Ha as [Hi Hcl]. destruct (link_causet_good it (nth_causet w i) h Hit HO (nth_sub w i HI Hi) Hcl) as (L1 & L2 & L3 & L4).
    split; [|by intros _]. apply inv_same; [done|done|by apply L3|by rewrite L2].
  - destruct (unlink_linked_inv (it 25 (nth_causet w i)) h) as (U1 & U2 & U3 & U4).
    split; [|by intros _]. apply inv_same; [done|by eapply same_order_inv|by apply U2|]. unfold unlink_causet. rewrite U4; [done|].
    intros x Hx. rewrite iter_elem in Hx by done. by apply (nth_sub w i HI Ha).
  - destruct Ha as [Hi Hr]. destruct (create_good it caus rows fmt rel (nth_causet w i) h Hit HO HP (nth_sub w i HI Hi) Hr) as (K1 & K2 & K3 & K4 & K5).
    destruct (create it caus rows fmt rel (nth_causet w i) h) as [[h' C] r]. cbn [fst snd] in *.
    split; [by apply inv_insert|by intros _].
  - destruct Ha as (Hi & Hcl & Hemb & Hord).
    destruct (relate_good it caus link (nth_causet w i) h Hit HO HP (nth_sub w i HI Hi) Hcl Hemb Hord) as (R1 & R2 & R3 & R4).
    split; [|by intros _]. apply inv_same; [done|done|done|by rewrite R2].
  - destruct Ha as [Hi Has].
    destruct (relabel_good it argsort dim descending (nth_causet w i) h Hit Has HO (nth_sub w i HI Hi)) as (R1 & R2 & R3 & R4).
    split; [|by intros _]. apply inv_same; [done|done|by apply R3|by rewrite R2].
Qed.
Lemma lib_run_inv hist : ∀ w, lib_inv w → lib_admissible_history w hist →
  lib_inv (lib_run w hist) ∧ (lib_keeps_links_history w hist → link_inv (lib_heap w) → link_inv (lib_heap (lib_run w hist))).
Proof.
  induction hist as [|[it o] hist IH]; intros w HI Ha; [done|]. destruct Ha as (Hit & Ha & Hh).
  destruct (lib_step_inv it w o Hit HI Ha) as [H1 H2]. destruct (IH (lib_step it w o) H1 Hh) as [H3 H4].
  cbn [lib_run foldl fst snd]. split; [exact H3|]. intros [Hk1 Hk2] HL. apply H4; [done|]. by apply H2.
Qed.
Lemma lib_inv_empty : lib_inv (Lib ∅ []).
Proof.
  split; cbn; [apply order_inv_empty| |].
  - intros x. unfold lprec, lsucc. by rewrite (lookup_total_notin ∅ x) by set_solver.
  - intros C HC. by apply elem_of_nil in HC.
Qed.

(** ** C87 *)
(** After every history of calls, Past and Future of all events are converse and the order of the
    events is a strict partial order; every causet holds existing events, and Causet(E) of any
    events returns a set that contains the past and the future of its events. *)
Theorem C87_order (hist : list (oracle * lib_op)) :
  lib_admissible_history (Lib ∅ []) hist →
  let w := lib_run (Lib ∅ []) hist in
  let h := lib_heap w in
  (∀ a b, a ∈ Past h b ↔ b ∈ Future h a) ∧
  strict_order (λ a b, ev_lt h a b = true) ∧
  (∀ C, C ∈ lib_causets w → C ⊆ dom h) ∧
  (∀ E, E ⊆ dom h → ∃ C, causet h E = Ok C ∧ E ⊆ C ∧ closed h C).
Proof.
  intros Ha w h. destruct (lib_run_inv hist _ lib_inv_empty Ha) as [[HO HP HS] _]. fold w in HO, HS. fold h in HO, HS.
  split; [apply HO|]. split; [|split; [done|]].
  - destruct (oi_order h HO) as [H1 H2]. unfold ev_lt. split.
    + intros a. rewrite bool_decide_eq_true. apply H1.
    + intros a b c. rewrite !bool_decide_eq_true. apply H2.
  - intros E HE. destruct (causet_spec h E (in_store_order h HO)) as (C & EC & HC). exists C. split; [done|]. split.
    + intros x Hx. apply HC. exists x. split; [done|apply rtc_refl].
    + intros x Hx. apply HC in Hx as (s & Hs & Hr). split; intros y Hy; apply HC; exists s; (split; [done|]);
        (eapply rtc_r; [done|]); [by left|by right].
Qed.
Print Assumptions C87_order.
(** If no call was disjoin or a merge of linked causets, all link queries are right, too. *)
Theorem C87_links (hist : list (oracle * lib_op)) :
  lib_admissible_history (Lib ∅ []) hist → lib_keeps_links_history (Lib ∅ []) hist →
  let h := lib_heap (lib_run (Lib ∅ []) hist) in
  ∀ x y, (y ∈ LinkPast h x ↔ covers (λ a b, ev_lt h a b = true) y x) ∧
         (y ∈ LinkFuture h x ↔ covers (λ a b, ev_lt h a b = true) x y).
Proof.
  intros Ha Hk h x y. destruct (lib_run_inv hist _ lib_inv_empty Ha) as [[HO _ _] HL]. specialize (HL Hk link_inv_empty).
  fold h in HO, HL.
  assert (HC : ∀ a b, covers (λ a b, ev_lt h a b = true) a b ↔ covers (before h) a b).
  { intros a b. apply covers_ext. intros u v. unfold ev_lt, before. by rewrite bool_decide_eq_true. }
  rewrite !HC, LinkPast_spec, LinkFuture_spec by done. done.
Qed.
Print Assumptions C87_links.
(** Whatever happened before, link() of a causet that contains the past and the future of its
    events makes all its link queries right. *)
Theorem C87_relink (hist : list (oracle * lib_op)) (it : oracle) (i : nat) (C : gset nat) :
  lib_admissible_history (Lib ∅ []) hist → iter_ok it →
  let w := lib_run (Lib ∅ []) hist in
  lib_causets w !! i = Some C → closed (lib_heap w) C →
  let h := lib_heap (lib_step it w (LLink i)) in
  ∀ x y, x ∈ C → (y ∈ LinkPast h x ↔ covers (λ a b, ev_lt h a b = true) y x) ∧
                 (y ∈ LinkFuture h x ↔ covers (λ a b, ev_lt h a b = true) x y).
Proof.
  intros Ha Hit w Hi Hcl h x y Hx. destruct (lib_run_inv hist _ lib_inv_empty Ha) as [[HO _ HS] _]. fold w in HO, HS.
  destruct (C23_link it (lib_heap w) C Hit HO (HS C (elem_of_list_lookup_2 _ _ _ Hi)) Hcl) as (h' & E & _ & Hb & _ & Hl & _).
  assert (Eh : h = h').
  { unfold h. cbn [lib_step lib_heap]. unfold nth_causet. rewrite (nth_lookup_Some _ _ _ _ Hi). by rewrite E. }
  rewrite Eh. clear Eh h.
  assert (HC : ∀ a b, covers (λ a b, ev_lt h' a b = true) a b ↔ covers (before (lib_heap w)) a b).
  { intros a b. apply covers_ext. intros u v. unfold ev_lt. rewrite bool_decide_eq_true. apply Hb. }
  rewrite !HC. by apply Hl.
Qed.
Print Assumptions C87_relink.

(** ** A history that meets the hypotheses *)
(** Causality of the plane, on the rational coordinates. *)
Definition q_le (a b : list Q) : Prop :=
  (Qabs (nth 1 b 0%Q - nth 1 a 0%Q) <= nth 0 b 0%Q - nth 0 a 0%Q)%Q.
Definition q_leb (a b : list Q) : bool := Qle_bool (Qabs (nth 1 b 0%Q - nth 1 a 0%Q)) (nth 0 b 0%Q - nth 0 a 0%Q).
Definition q_caus : causality_fn := λ a b, (q_leb a b, q_leb b a && negb (q_leb a b)).
Lemma q_ordering X : ordering q_caus X.
Proof.
  exists q_le. split.
  - intros a b c _ _ _. unfold q_le. intros H1 H2. apply Qabs_Qle_condition in H1, H2. apply Qabs_Qle_condition. destruct H1, H2. split; Lqa.lra.
  - intros a b _ _. assert (H : ∀ a b, q_leb a b = true ↔ q_le a b) by (intros u v; apply Qle_bool_iff).
    cbn [q_caus fst snd]. split; [apply H|]. rewrite andb_true_iff, negb_true_iff, <- !H. by rewrite not_true_iff_false.
Qed.
Definition ex0 : lib_state := Lib ∅ [].
Definition ex1 : lib_state := lib_step it_reverse ex0 (LNewChain 2 FmtNone).
Definition ex2 : lib_state := lib_step it_elements ex1 (LNewAntichain 2 FmtNone).
Definition ex3 : lib_state := lib_step it_reverse ex2 (LMerge 0 1 false).
Definition ex4 : lib_state := lib_step it_reverse ex3 (LLink 2).
Definition ex5 : lib_state := lib_step it_elements ex4 (LEvent (ONew LNone {[1]} ∅ [] [])).
Definition ex6 : lib_state := lib_step it_reverse ex5 (LCauset ∅).
Definition ex7 : lib_state := lib_step it_reverse ex6 (LCreate 3 q_caus [[0; 0]; [2; 1]; [1; 3]]%Q FmtNone true).
Definition ex8 : lib_state := lib_step it_elements ex7 (LUnlink 2).
Definition ex9 : lib_state := lib_step it_reverse ex8 (LEvent (OLinkPast 5)).
Definition lib_example : list (oracle * lib_op) :=
  [(it_reverse, LNewChain 2 FmtNone); (it_elements, LNewAntichain 2 FmtNone); (it_reverse, LMerge 0 1 false); (it_reverse, LLink 2); (it_elements, LEvent (ONew LNone {[1]} ∅ [] [])); (it_reverse, LCauset ∅); (it_reverse, LCreate 3 q_caus [[0; 0]; [2; 1]; [1; 3]]%Q FmtNone true); (it_elements, LUnlink 2); (it_reverse, LEvent (OLinkPast 5))].
Definition closedq (h : heap) (E : gset nat) : Prop := set_Forall (λ x, prec h x ⊆ E ∧ succ h x ⊆ E) E.
Lemma ex_adm2 : lib_admissible ex2 (LMerge 0 1 false).
Proof.
  assert (H1 : set_Forall (λ x, Past (lib_heap ex2) x ⊆ nth_causet ex2 0) (nth_causet ex2 0)) by decide_vm.
  assert (H2 : set_Forall (λ x, Future (lib_heap ex2) x ⊆ nth_causet ex2 1) (nth_causet ex2 1)) by decide_vm.
  split; [decide_vm|]. split; [decide_vm|]. intros _. split; [decide_vm|]. split; [exact H1|exact H2].
Qed.
Lemma ex_closed3 : closed (lib_heap ex3) (nth_causet ex3 2).
Proof.
  assert (H : closedq (lib_heap ex3) (nth_causet ex3 2)) by decide_vm. intros x Hx. exact (H x Hx).
Qed.
Lemma ex_adm4 : lib_admissible ex4 (LEvent (ONew LNone {[1]} ∅ [] [])).
Proof.
  split; [decide_vm|]. split; [decide_vm|].
  intros p f _ [Hf|(e & He & _)]; [by apply elem_of_empty in Hf|by apply elem_of_empty in He].
Qed.
Lemma ex_adm6 : lib_admissible ex6 (LCreate 3 q_caus [[0; 0]; [2; 1]; [1; 3]]%Q FmtNone true).
Proof.
  assert (E : nth_causet ex6 3 = ∅) by decide_vm. cbn [lib_admissible]. rewrite E. split; [decide_vm|]. intros _.
  split; [|split; [|apply q_ordering]]; intros x Hx; exfalso; exact (not_elem_of_empty x Hx).
Qed.
Lemma ex_links2 : lib_keeps_links ex2 (LMerge 0 1 false).
Proof.
  assert (H : set_Forall (λ x, hasBeenLinked (lib_heap ex2) x = false) (nth_causet ex2 0 ∪ nth_causet ex2 1)) by decide_vm.
  exact H.
Qed.
Lemma adm_cons it w o hist w' : w' = lib_step it w o → iter_ok it → lib_admissible w o →
  lib_admissible_history w' hist → lib_admissible_history w ((it, o) :: hist).
Proof. intros ->. cbn [lib_admissible_history]. intros H1 H2 H3. exact (conj H1 (conj H2 H3)). Qed.
Lemma keep_cons it w o hist w' : w' = lib_step it w o → lib_keeps_links w o →
  lib_keeps_links_history w' hist → lib_keeps_links_history w ((it, o) :: hist).
Proof. intros ->. cbn [lib_keeps_links_history]. by split. Qed.
Lemma run_cons it w o hist w' : w' = lib_step it w o → lib_run w ((it, o) :: hist) = lib_run w' hist.
Proof. by intros ->. Qed.
Lemma ex_run : lib_run ex0 lib_example = ex9.
Proof.
  unfold lib_example. rewrite (run_cons _ _ _ _ ex1 eq_refl), (run_cons _ _ _ _ ex2 eq_refl), (run_cons _ _ _ _ ex3 eq_refl),
    (run_cons _ _ _ _ ex4 eq_refl), (run_cons _ _ _ _ ex5 eq_refl), (run_cons _ _ _ _ ex6 eq_refl), (run_cons _ _ _ _ ex7 eq_refl),
    (run_cons _ _ _ _ ex8 eq_refl), (run_cons _ _ _ _ ex9 eq_refl).
  exact (@eq_refl lib_state ex9).
Qed.
Lemma ex_run3 : lib_run ex0 (take 3 lib_example) = ex3.
Proof.
  unfold lib_example. cbn [take]. rewrite (run_cons _ _ _ _ ex1 eq_refl), (run_cons _ _ _ _ ex2 eq_refl), (run_cons _ _ _ _ ex3 eq_refl).
  exact (@eq_refl lib_state ex3).
Qed.
Example C87_nonvacuous :
  lib_admissible_history ex0 lib_example ∧ lib_keeps_links_history ex0 lib_example ∧
  let w := lib_run ex0 lib_example in
  length (lib_causets w) = 4 ∧ ev_lt (lib_heap w) 2 5 = true ∧ ev_lt (lib_heap w) 1 6 = true ∧
  elements (LinkPast (lib_heap w) 5) = [2] ∧
  closed (lib_heap (lib_run ex0 (take 3 lib_example))) (nth_causet (lib_run ex0 (take 3 lib_example)) 2).
Proof.
  split; [|split].
  - unfold lib_example.
    apply (adm_cons _ _ _ _ ex1 eq_refl it_reverse_ok I). apply (adm_cons _ _ _ _ ex2 eq_refl it_elements_ok I).
    apply (adm_cons _ _ _ _ ex3 eq_refl it_reverse_ok ex_adm2).
    apply (adm_cons _ _ _ _ ex4 eq_refl it_reverse_ok); [split; [decide_vm|exact ex_closed3]|].
    apply (adm_cons _ _ _ _ ex5 eq_refl it_elements_ok ex_adm4).
    apply (adm_cons _ _ _ _ ex6 eq_refl it_reverse_ok); [cbn [lib_admissible]; decide_vm|].
    apply (adm_cons _ _ _ _ ex7 eq_refl it_reverse_ok ex_adm6).
    apply (adm_cons _ _ _ _ ex8 eq_refl it_elements_ok); [cbn [lib_admissible]; decide_vm|].
    apply (adm_cons _ _ _ _ ex9 eq_refl it_reverse_ok); [cbn [lib_admissible admissible]; decide_vm|exact I].
  - unfold lib_example.
    apply (keep_cons _ _ _ _ ex1 eq_refl I). apply (keep_cons _ _ _ _ ex2 eq_refl I).
    apply (keep_cons _ _ _ _ ex3 eq_refl ex_links2). apply (keep_cons _ _ _ _ ex4 eq_refl I).
    apply (keep_cons _ _ _ _ ex5 eq_refl eq_refl). apply (keep_cons _ _ _ _ ex6 eq_refl I). apply (keep_cons _ _ _ _ ex7 eq_refl I).
    apply (keep_cons _ _ _ _ ex8 eq_refl I). apply (keep_cons _ _ _ _ ex9 eq_refl eq_refl). exact I.
  - cbv zeta. rewrite ex_run, ex_run3. split; [decide_vm|]. split; [decide_vm|]. split; [decide_vm|]. split; [decide_vm|]. exact ex_closed3.
Qed.
