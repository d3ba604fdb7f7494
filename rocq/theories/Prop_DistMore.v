(** C41, exactly: the default DistanceMatrix holds the lengths of the shortest zigzags. *)
From Verif Require Import Base Spec EventModel EventFacts History HistoryFacts PathFacts RankFacts
  EventProps CausetModel CausetFacts IntervalFacts LayerFacts DistModel DistFacts DistExact
  Prop_Event Prop_Causet Prop_Dist.

(** ** Specification *)
(** [c] is a neighbour of the antichain: it is linked to (covers or is covered by) every event
    of the antichain that it is related to. *)
Definition neighbour (h : heap) (ac : list nat) (c : nat) : Prop :=
  ∀ e, e ∈ ac → (before h c e → covers (before h) c e) ∧ (before h e c → covers (before h) e c).
(** One zigzag: two events of the antichain below or above the same neighbour. *)
Definition ziczac (h : heap) (ac : list nat) (a b : nat) : Prop :=
  a ∈ ac ∧ b ∈ ac ∧ a ≠ b ∧
  ∃ c, neighbour h ac c ∧ ((before h c a ∧ before h c b) ∨ (before h a c ∧ before h b c)).

Section proofs.
Context (h : heap) (HO : order_inv h) (C : gset nat) (ac : list nat).
Context (Hnd : NoDup ac).
Context (Hsp : ∀ a b, a ∈ ac → b ∈ ac → ¬ before h a b).
Notation l := (length ac).
Notation A := (list_to_set ac : gset nat).
Notation next T := (Layers h T (-1) (Some 1%Z)).

Lemma interval_two a b : before h a b → size (Interval h a b true) ≤ 2 → covers (before h) a b.
Proof using HO.
  intros Hab Hle. apply (IntervalCard_covers h HO); [done|]. rewrite IntervalCard_size by done.
  assert (2 ≤ size (Interval h a b true)); [|lia].
  apply (size_two _ a b); [intros ->; by apply (oi_irr h HO b)| |]; apply (Interval_spec h HO); tauto.
Qed.
Lemma covers_two a b : covers (before h) a b → size (Interval h a b true) = 2.
Proof using HO.
  intros Hc. rewrite <- IntervalCard_size by done. apply (IntervalCard_covers h HO); [apply Hc|done].
Qed.
Lemma past_ge T x : (-1 <= past_number h T x)%Z ↔ ∀ b, b ∈ T → before h x b → covers (before h) x b.
Proof using HO.
  destruct (proj1 (past_number_spec h T x _ HO) eq_refl) as [[Hn ->]|(m & -> & (b & Hb & Hxb & Hm) & Hu)].
  - split; [|lia]. intros _ b Hb Hxb. destruct Hn. eauto.
  - split.
    + intros Hm2 b' Hb' Hxb'. apply interval_two; [done|]. specialize (Hu b' Hb' Hxb'). lia.
    + intros Hall. rewrite <- Hm, covers_two; [lia|by apply Hall].
Qed.
Lemma future_le T x : (future_number h T x <= 1)%Z ↔ ∀ a, a ∈ T → before h a x → covers (before h) a x.
Proof using HO.
  destruct (proj1 (future_number_spec h HO T x _) eq_refl) as [[Hn ->]|(m & -> & (b & Hb & Hxb & Hm) & Hu)].
  - split; [|lia]. intros _ b Hb Hxb. destruct Hn. eauto.
  - split.
    + intros Hm2 b' Hb' Hxb'. apply interval_two; [done|]. specialize (Hu b' Hb' Hxb'). lia.
    + intros Hall. rewrite <- Hm, covers_two; [lia|by apply Hall].
Qed.
Lemma elem_of_next T x : size T ≠ 0 →
  x ∈ next T ↔
    ((∃ e, e ∈ T ∧ before h x e) ∨ x ∈ T) ∧ (∀ b, b ∈ T → before h x b → covers (before h) x b) ∨
    ((∃ e, e ∈ T ∧ before h e x) ∨ x ∈ T) ∧ (∀ a, a ∈ T → before h a x → covers (before h) a x).
Proof using HO.
  intros Hs. unfold Layers. replace (default (-1)%Z (Some 1%Z)) with 1%Z by done. cbv zeta.
  destruct (decide (size T = 0 ∨ _)) as [[?|?]|_]; [lia|lia|].
  destruct (decide (-1 <= 0)%Z) as [_|?]; [|lia].
  rewrite (decide_True (P := (0 < 1)%Z)) by lia.
  rewrite elem_of_union, !elem_of_filter, PastOf_spec, FutureOf_spec, <- past_ge, <- future_le.
  pose proof (past_number_nonpos h T x HO). pose proof (future_number_nonneg h HO T x).
  assert (E : (∃ e, e ∈ T ∧ x ∈ succ h e) ↔ ∃ e, e ∈ T ∧ before h e x).
  { split; intros (e & He & Hx); exists e; (split; [done|]); by apply (oi_conv h HO). }
  rewrite E. unfold before. cbn. naive_solver lia.
Qed.

(** A slice around the antichain: it contains the antichain, and its other events related to
    the antichain are neighbours. *)
Definition tame (T : gset nat) : Prop :=
  (∀ a, a ∈ ac → a ∈ T) ∧
  (∀ c a, c ∈ T → a ∈ ac → before h c a ∨ before h a c → neighbour h ac c).
Lemma tame_start : tame A.
Proof using Hsp.
  split; [intros a; apply elem_of_list_to_set|].
  intros c a Hc%elem_of_list_to_set Ha [H|H]; [by destruct (Hsp c a)|by destruct (Hsp a c)].
Qed.
Lemma tame_next T : size T ≠ 0 → tame T → tame (next T).
Proof using HO Hsp.
  intros Hs [H1 H2]. split.
  - intros a Ha. apply elem_of_next; [done|]. left. split; [right; by apply H1|].
    intros b Hb Hab. by apply (H2 b a Hb Ha (or_intror Hab) a Ha).
  - intros x a Hx Ha Hrel. apply elem_of_next in Hx; [|done].
    destruct Hx as [[Hx Hc]|[Hx Hc]].
    + destruct Hx as [(t & Ht & Hxt)|Hx]; [|by apply (H2 x a)].
      destruct Hrel as [Hxa|Hax].
      * intros e He. split; [intros Hxe; apply Hc; auto|].
        intros Hex. exfalso. apply (Hsp e a He Ha). by eapply (oi_trans h HO).
      * exfalso. assert (Hat : before h a t) by (by eapply (oi_trans h HO)).
        destruct (H2 t a Ht Ha (or_intror Hat) a Ha) as [_ Hcov].
        apply (proj2 (Hcov Hat)). by exists x.
    + destruct Hx as [(t & Ht & Htx)|Hx]; [|by apply (H2 x a)].
      destruct Hrel as [Hxa|Hax].
      * exfalso. assert (Hta : before h t a) by (by eapply (oi_trans h HO)).
        destruct (H2 t a Ht Ha (or_introl Hta) a Ha) as [Hcov _].
        apply (proj2 (Hcov Hta)). by exists x.
      * intros e He. split; [|intros Hxe; apply Hc; auto].
        intros Hxe. exfalso. apply (Hsp a e Ha He). by eapply (oi_trans h HO).
Qed.
Lemma tame_share T a b : tame T → a ∈ ac → b ∈ ac → a ≠ b → share_in h T a b → ziczac h ac a b.
Proof using.
  intros [_ HT] Ha Hb Hne (c & Hc & Hrel). split_and!; try done. exists c. split; [|done].
  apply (HT c a); [done|done|]. tauto.
Qed.
Lemma first_share a b : ziczac h ac a b → share_in h (next A) a b.
Proof using HO.
  intros (Ha & Hb & Hne & c & Hn & Hrel).
  assert (HaA : a ∈ A) by (by apply elem_of_list_to_set).
  exists c. split; [|done]. apply elem_of_next.
  { intros Hs%size_empty_inv. apply (Hs a) in HaA. by apply elem_of_empty in HaA. }
  destruct Hrel as [[Hca Hcb]|[Hca Hcb]]; [left|right].
  - split; [left; by exists a|]. intros e He%elem_of_list_to_set Hce. by apply Hn.
  - split; [left; by exists a|]. intros e He%elem_of_list_to_set Hce. by apply Hn.
Qed.

Definition zz (i j : nat) : Prop := i < l ∧ j < l ∧ ziczac h ac (ac !!! i) (ac !!! j).
Lemma zz_dom i j : zz i j → i < l ∧ j < l.
Proof using. by intros (? & ? & _). Qed.
Lemma ziczac_sym a b : ziczac h ac a b → ziczac h ac b a.
Proof using. intros (? & ? & Hne & c & Hn & Hc). split_and!; [done|done|by intros ->|]. exists c. tauto. Qed.
Lemma zz_sym i j : zz i j → zz j i.
Proof using. intros (? & ? & ?). split_and!; [done|done|]. by apply ziczac_sym. Qed.
Lemma zz_irr i : ¬ zz i i.
Proof using. intros (_ & _ & _ & _ & Hne & _). done. Qed.

Lemma total_ne i j : i < l → j < l → i ≠ j → ac !!! i ≠ ac !!! j.
Proof using Hnd.
  intros Hi Hj Hij E. apply Hij. eapply NoDup_lookup; [done|by apply list_lookup_lookup_total_lt|].
  rewrite E. by apply list_lookup_lookup_total_lt.
Qed.
Lemma total_in i : i < l → ac !!! i ∈ ac.
Proof using. intros Hi. by apply elem_of_list_lookup_total_2. Qed.

Lemma share_in_comm T a b : share_in h T a b → share_in h T b a.
Proof using. intros (c & Hc & H). exists c. tauto. Qed.
(** The value of a pair in the direct pass over a slice. *)
Lemma value_zz T i j : i < l → j < l → i ≠ j →
  let v := dm_value h C ac true T (i `min` j) (i `max` j) in
  (v = (-1)%Z ∧ ¬ share_in h T (ac !!! i) (ac !!! j)) ∨ (v = 1%Z ∧ share_in h T (ac !!! i) (ac !!! j)).
Proof using HO Hnd Hsp.
  intros Hi Hj Hij v.
  destruct (dm_value_cases h HO C ac true Hnd Hsp T (i `min` j) (i `max` j)) as [[E N]|(_ & N & E)]; [lia..| |].
  - left. split; [done|]. intros Hs. apply N. destruct (decide (i < j)).
    + by rewrite Nat.min_l, Nat.max_r by lia.
    + rewrite Nat.min_r, Nat.max_l by lia. by apply share_in_comm.
  - right. split; [by apply E|]. destruct (decide (i < j)).
    + by rewrite Nat.min_l, Nat.max_r in N by lia.
    + rewrite Nat.min_r, Nat.max_l in N by lia. by apply share_in_comm.
Qed.

Lemma short_one i j : i ≠ j → zz i j → short zz 1 i j.
Proof using.
  intros Hij Hz. split; [by apply nsteps_once|]. intros n Hn. destruct n; [|lia].
  inversion Hn; subst. done.
Qed.
Lemma no_short_one i j : i ≠ j → ¬ zz i j → ∀ n, n ≤ 1 → ¬ nsteps zz n i j.
Proof using.
  intros Hij Hz n Hn Hw. destruct n as [|[|n]]; [|by apply nsteps_once_inv in Hw|lia].
  inversion Hw; subst. done.
Qed.
Lemma short_self i : short zz 0 i i.
Proof using. split; [constructor|lia]. Qed.

(** The first round. *)
Lemma first_exact : exact l zz 1 (dm_direct h C ac true (next A) zzero).
Proof using HO Hnd Hsp.
  destruct (direct_spec h HO C ac true Hnd Hsp (next A) zzero) as (Hd & Hv & _); [by left|].
  split; [by apply (di_sym _ _ _ _ Hd)|]. intros i j Hi Hj.
  destruct (decide (i = j)) as [->|Hij].
  { right. exists 0. split; [by apply (di_diag _ _ _ _ Hd)|apply short_self]. }
  rewrite Hv by done.
  destruct (value_zz (next A) i j Hi Hj Hij) as [[E N]|[E N]]; rewrite E.
  - left. split; [lia|]. apply no_short_one; [done|]. intros (_ & _ & Hz). by apply N, first_share.
  - right. exists 1. split; [done|]. apply short_one; [done|]. split_and!; [done|done|].
    eapply tame_share; [|by apply total_in|by apply total_in|by apply total_ne|exact N].
    apply tame_next; [|apply tame_start].
    intros Hs%size_empty_inv. pose proof (total_in i Hi). set_solver.
Qed.
(** A solved matrix is not changed by further rounds. *)
Lemma next_solved T D : tame T → dinv h ac true D → solved l zz D →
  solved l zz (dm_direct h C ac true T D).
Proof using HO Hnd Hsp.
  intros HT Hd HS.
  destruct (direct_spec h HO C ac true Hnd Hsp T D) as (Hd' & Hv & Hold); [by right|].
  split; [by apply (di_sym _ _ _ _ Hd')|]. intros i j Hi Hj.
  destruct (decide (i = j)) as [->|Hij].
  { right. exists 0. split; [by apply (di_diag _ _ _ _ Hd')|apply short_self]. }
  destruct (decide (D i j < 1)%Z) as [Hlt|Hge].
  2:{ rewrite Hold by done. by apply (so_entry _ _ _ HS). }
  rewrite Hv by done.
  destruct (so_entry _ _ _ HS i j Hi Hj) as [[Hn Hno]|(d & E & Hs)].
  - left. split; [|done].
    destruct (value_zz T i j Hi Hj Hij) as [[E N]|[E N]]; rewrite E; [lia|exfalso].
    apply (Hno 1), nsteps_once. split_and!; [done|done|].
    by apply (tame_share T); [..|apply total_ne|]; try apply total_in.
  - exfalso. destruct d as [|d]; [|lia]. destruct Hs as [Hs _]. inversion Hs; subst. done.
Qed.

Lemma loop_solved fuel slice thicker D D' :
  tame thicker → dinv h ac true D → solved l zz D →
  dm_loop fuel h C ac true true slice thicker D = Ok D' → dinv h ac true D' ∧ solved l zz D'.
Proof using HO Hnd Hsp.
  revert slice thicker D. induction fuel as [|fuel IH]; intros slice thicker D HT Hd HS E; [done|].
  cbn [dm_loop] in E. destruct (decide (size slice < size thicker)) as [Hlt|_].
  2:{ by injection E as <-. }
  assert (Hd1 : dinv h ac true (dm_direct h C ac true thicker D)).
  { by destruct (direct_spec h HO C ac true Hnd Hsp thicker D) as (? & _ & _); [right|]. }
  destruct (extend_spec h ac true _ Hd1) as [Hd2 _].
  destruct (extend_solved l zz zz_dom zz_sym zz_irr (dm_direct h C ac true thicker D))
    as (D2 & c & dn & E2 & HS2); [by apply solved_exact, next_solved|].
  rewrite E2 in E, Hd2. cbn in Hd2. destruct dn; [by injection E as <-|].
  eapply IH; [|exact Hd2|exact HS2|exact E]. apply tame_next; [lia|done].
Qed.

Lemma matrix_solved D :
  (∃ e, e ∈ ac ∧ (prec h e ≠ ∅ ∨ succ h e ≠ ∅)) →
  dm_loop (S (size (dom h ∪ A))) h C ac true true A (next A) zzero = Ok D →
  dinv h ac true D ∧ solved l zz D.
Proof using HO Hnd Hsp.
  intros Hr E. pose proof (neighbour_layer h HO ac Hnd Hsp Hr) as Hlt.
  cbn [dm_loop] in E. rewrite decide_True in E by done.
  assert (Hd1 : dinv h ac true (dm_direct h C ac true (next A) zzero)).
  { by destruct (direct_spec h HO C ac true Hnd Hsp (next A) zzero) as (? & _ & _); [left|]. }
  destruct (extend_spec h ac true _ Hd1) as [Hd2 _].
  destruct (extend_solved l zz zz_dom zz_sym zz_irr (dm_direct h C ac true (next A) zzero))
    as (D2 & c & dn & E2 & HS2); [apply first_exact|].
  rewrite E2 in E, Hd2. cbn in Hd2. destruct dn; [by injection E as <-|].
  eapply loop_solved; [|exact Hd2|exact HS2|exact E].
  apply tame_next; [lia|]. apply tame_next; [|apply tame_start].
  destruct Hr as (e & He & _). intros Hs%size_empty_inv. set_solver.
Qed.

Lemma zz_walk n i b : i < l → nsteps zz n i b ↔ b < l ∧ nsteps (ziczac h ac) n (ac !!! i) (ac !!! b).
Proof using Hnd.
  revert i. induction n as [|n IH]; intros i Hi.
  - split.
    + intros Hw. inversion Hw; subst. split; [done|constructor].
    + intros [Hb Hw]. inversion Hw as [? E|]. destruct (decide (i = b)) as [->|Hne]; [constructor|].
      exfalso. by apply (total_ne i b).
  - split.
    + intros Hw. inversion Hw as [|? ? m ? Hz Hr]; subst. destruct (zz_dom _ _ Hz) as [_ Hm].
      apply (IH m Hm) in Hr as [Hb Hr]. split; [done|]. eapply nsteps_l; [|exact Hr].
      by destruct Hz as (_ & _ & ?).
    + intros [Hb Hw]. inversion Hw as [|? ? x ? Hz Hr]; subst.
      assert (Hx : x ∈ ac) by (by destruct Hz as (_ & ? & _)).
      apply elem_of_list_lookup in Hx as [m Hm].
      pose proof (lookup_lt_Some _ _ _ Hm) as Hml.
      rewrite <- (list_lookup_total_correct _ _ _ Hm) in Hz, Hr.
      eapply nsteps_l; [|by apply (IH m Hml)]. done.
Qed.
End proofs.

(** For every antichain with at least one related event: the entry of two events is the length
    of a shortest walk of zigzags between them, and -1 exactly when there is no such walk.  In
    particular, thickening the slice beyond the first neighbours never connects more events. *)
Theorem C41_shortest (h : heap) (C : gset nat) (ac : list nat) (M : list (list Z)) :
  order_inv h → NoDup ac →
  (∀ a b, a ∈ ac → b ∈ ac → a ≠ b → spacelike (before h) a b) →
  (∃ e, e ∈ ac ∧ (Past h e ≠ ∅ ∨ Future h e ≠ ∅)) →
  DistanceMatrix h C ac "ziczac" true = Ok M →
  ∀ i j a b z, ac !! i = Some a → ac !! j = Some b → entry M i j z →
    (z = (-1)%Z ∧ ∀ n, ¬ nsteps (ziczac h ac) n a b) ∨
    (∃ d, z = Z.of_nat d ∧ nsteps (ziczac h ac) d a b ∧
       ∀ n, nsteps (ziczac h ac) n a b → d ≤ n).
Proof.
  intros HO Hnd Hsp Hr HM i j a b z Ha Hb Hz. pose proof (antichain_nolt h ac HO Hsp) as Hlt.
  unfold DistanceMatrix in HM. rewrite bool_decide_true in HM by done. cbn [negb andb] in HM.
  destruct (dm_loop _ _ _ _ _ _ _ _ _) as [D|] eqn:E; [|done]. injection HM as <-.
  destruct (matrix_solved h HO C ac Hnd Hlt D Hr E) as [Hd HS].
  apply entry_zrows in Hz as (Hi & Hj & ->).
  rewrite <- (list_lookup_total_correct _ _ _ Ha), <- (list_lookup_total_correct _ _ _ Hb).
  destruct (so_entry _ _ _ HS i j Hi Hj) as [[Hn Hno]|(d & Ed & Hs & Hmin)].
  - left. split.
    + destruct (decide (i = j)) as [->|Hij]; [rewrite (di_diag _ _ _ _ Hd j Hj) in Hn; lia|].
      destruct (di_off _ _ _ _ Hd i j Hi Hj Hij); [done|lia].
    + intros n Hw. apply (Hno n). by apply (zz_walk h ac Hnd).
  - right. exists d. split; [done|]. apply (zz_walk h ac Hnd) in Hs as [_ Hs]; [|done].
    split; [done|]. intros n Hw. apply Hmin. by apply (zz_walk h ac Hnd).
Qed.
Print Assumptions C41_shortest.

(** The antichain of two events (3, 4) whose only common relative, event 0, is two links away:
    DistanceMatrix says they are not connected, also with recursion. *)
Definition far_ops : list op :=
  [ONew (LInt 1) ∅ ∅ [] []; ONew (LInt 2) {[0]} ∅ [] []; ONew (LInt 3) {[0]} ∅ [] [];
   ONew (LInt 4) {[1]} ∅ [] []; ONew (LInt 5) {[2]} ∅ [] []].
Definition far : heap := run ∅ ((λ o, (it_elements, o)) <$> far_ops).
(** Events 1, 2 linked to the common event 0; event 4 above 0 as well, but not linked to it. *)
Definition spoil_ops : list op :=
  [ONew (LInt 1) ∅ ∅ [] []; ONew (LInt 2) {[0]} ∅ [] []; ONew (LInt 3) {[0]} ∅ [] [];
   ONew (LInt 4) {[0]} ∅ [] []; ONew (LInt 5) {[3]} ∅ [] []].
Definition spoil : heap := run ∅ ((λ o, (it_elements, o)) <$> spoil_ops).

(** Two readings of the documentation that are wrong: a common past event does not mean a
    distance, and an additional event in the antichain can destroy a distance that was 1. *)
Theorem C41_common_past_refuted :
  (order_inv far ∧ before far 0 3 ∧ before far 0 4 ∧
   DistanceMatrix far (dom far) [3; 4] "ziczac" true = Ok [[0; -1]; [-1; 0]]%Z) ∧
  (order_inv spoil ∧ covers (before spoil) 0 1 ∧ covers (before spoil) 0 2 ∧
   DistanceMatrix spoil (dom spoil) [1; 2] "ziczac" true = Ok [[0; 1]; [1; 0]]%Z ∧
   DistanceMatrix spoil (dom spoil) [1; 2; 4] "ziczac" true =
     Ok [[0; -1; -1]; [-1; 0; -1]; [-1; -1; 0]]%Z).
Proof.
  assert (HF : order_inv far) by (apply ops_order; by vm_compute).
  assert (HS : order_inv spoil) by (apply ops_order; by vm_compute).
  split.
  - split; [exact HF|]. unfold before. split_and!; decide_vm.
  - split; [exact HS|].
    assert (H1 : IntervalCard spoil 0 1 true = 2) by decide_vm.
    assert (H2 : IntervalCard spoil 0 2 true = 2) by decide_vm.
    split; [apply (IntervalCard_covers spoil HS); [unfold before; decide_vm|exact H1]|].
    split; [apply (IntervalCard_covers spoil HS); [unfold before; decide_vm|exact H2]|].
    split; decide_vm.
Qed.
Print Assumptions C41_common_past_refuted.

(** ** C42: all shortest paths *)
(** A walk of zigzags from [a] to [b] as the list of its events. *)
Definition zz_path (h : heap) (ac : list nat) (a b : nat) (p : list nat) : Prop :=
  head p = Some a ∧ last p = Some b ∧ consecutive (ziczac h ac) p.

Lemma path_walk (R : nat → nat → Prop) n a b :
  nsteps R n a b ↔
    ∃ p, length p = S n ∧ head p = Some a ∧ last p = Some b ∧ consecutive R p.
Proof.
  revert a. induction n as [|n IH]; intros a.
  - split.
    + intros Hw. inversion Hw; subst. by exists [b].
    + intros (p & Hl & Hh & Hla & _). destruct p as [|x [|y p]]; [done| |done].
      injection Hh as ->. injection Hla as ->. constructor.
  - split.
    + intros Hw. inversion Hw as [|? ? m ? Hs Hr]; subst. apply IH in Hr as (p & Hl & Hh & Hla & Hc).
      exists (a :: p). split_and!.
      * cbn. by rewrite Hl.
      * done.
      * by rewrite last_cons, Hla.
      * apply consecutive_cons. split; [|done]. rewrite Hh. by intros y [= <-].
    + intros (p & Hl & Hh & Hla & Hc). destruct p as [|x p]; [done|]. injection Hh as ->.
      cbn in Hl. injection Hl as Hl. apply consecutive_cons in Hc as [Hc1 Hc2].
      destruct p as [|y p]; [done|]. eapply nsteps_l; [by apply Hc1|].
      apply IH. exists (y :: p). rewrite last_cons_cons in Hla. done.
Qed.

Lemma yield_from_all x (rec : nat → yields) (is : list nat) :
  (∀ i, i ∈ is → (rec i).2 = None ∧ NoDup (rec i).1) →
  NoDup is → (∀ i j q, i ∈ is → j ∈ is → q ∈ (rec i).1 → q ∈ (rec j).1 → i = j) →
  (yield_from x rec is).2 = None ∧ NoDup (yield_from x rec is).1 ∧
  ∀ p, p ∈ (yield_from x rec is).1 ↔ ∃ i q, i ∈ is ∧ p = x :: q ∧ q ∈ (rec i).1.
Proof.
  induction is as [|i is IH]; intros Hr Hnd Hdisj.
  { cbn. split; [done|]. split; [by constructor|]. intros p. split; [by intros ?%elem_of_nil|].
    by intros (i & q & Hi%elem_of_nil & _). }
  apply NoDup_cons in Hnd as [Hi Hnd].
  destruct IH as (H1 & H2 & H3).
  { intros j Hj. apply Hr. by apply elem_of_list_further. }
  { done. }
  { intros j k q Hj Hk. apply Hdisj; by apply elem_of_list_further. }
  destruct (Hr i (elem_of_list_here _ _)) as [Hn Hd].
  assert (Hdi : ∀ j q, j ∈ is → q ∈ (rec i).1 → q ∈ (rec j).1 → False).
  { intros j q Hj Hq1 Hq2. apply Hi. rewrite (Hdisj i j q); [done|apply elem_of_list_here| | |]; try done.
    by apply elem_of_list_further. }
  cbn [yield_from]. destruct (rec i) as [ys e] eqn:E. cbn in Hn, Hd, Hdi. subst e.
  destruct (yield_from x rec is) as [zs e]. cbn in H1, H2, H3 |- *. split; [done|]. split.
  - apply NoDup_app. split_and!.
    + apply NoDup_fmap_2; [|done]. intros p q Hpq. by injection Hpq.
    + intros p Hp Hz. apply elem_of_list_fmap in Hp as (q & -> & Hq).
      apply H3 in Hz as (j & q' & Hj & Eq & Hq'). injection Eq as <-. by eapply Hdi.
    + done.
  - intros p. rewrite elem_of_app, H3, elem_of_list_fmap. split.
    + intros [(q & -> & Hq)|(j & q & Hj & -> & Hq)].
      * exists i, q. rewrite E. split; [apply elem_of_list_here|done].
      * exists j, q. split; [by apply elem_of_list_further|done].
    + intros (j & q & Hj & -> & Hq). apply elem_of_cons in Hj as [-> |Hj].
      * left. exists q. rewrite E in Hq. done.
      * right. eauto.
Qed.

Section all_paths.
Context (h : heap) (ac : list nat) (Hnd : NoDup ac) (D : zmat) (b b_idx : nat).
Context (Hbi : b_idx < length ac) (Hbe : ac !!! b_idx = b).
Notation l := (length ac).
Notation G := (zz h ac).
Context (HS : solved l G D).

Lemma so_pos i j d : i < l → j < l → D i j = Z.of_nat d → short G d i j.
Proof using HS. apply (ex_pos l G 0 D i j d). by apply solved_exact. Qed.
Lemma so_walk i j n : i < l → j < l → nsteps G n i j → ∃ d, d ≤ n ∧ D i j = Z.of_nat d ∧ short G d i j.
Proof using HS.
  intros Hi Hj Hw. apply (ex_walk l G n D i j n); try done. by apply solved_exact.
Qed.
Lemma so_one i j : i < l → j < l → D i j = 1%Z ↔ G i j.
Proof using HS.
  intros Hi Hj. split.
  - intros E. destruct (so_pos i j 1 Hi Hj E) as [Hs _]. by apply nsteps_once_inv in Hs.
  - intros HG. apply (ex_one l G (zz_irr h ac) 1 D); try done. by apply solved_exact.
Qed.

Lemma find_all d fuel e :
  e < l → D e b_idx = Z.of_nat d → 1 ≤ d → d ≤ fuel →
  ∃ ys, antipaths_find fuel ac D b b_idx e = (ys, None) ∧ NoDup ys ∧
    ∀ p, p ∈ ys ↔ length p = S d ∧ zz_path h ac (ac !!! e) b p.
Proof using Hnd Hbi Hbe HS.
  revert fuel e. induction d as [|d IH]; intros fuel e He HD Hd Hf; [lia|].
  destruct fuel as [|fuel]; [lia|]. cbn [antipaths_find].
  destruct (decide (D e b_idx = 1%Z)) as [E1|E1].
  { assert (d = 0) as -> by lia. exists [[ac !!! e; b]]. split; [done|]. split; [apply NoDup_singleton|].
    intros p. rewrite elem_of_list_singleton. split.
    - intros ->. split; [done|]. split_and!; try done. cbn. split_and!; try done.
      apply so_one in E1; try done. rewrite <- Hbe. by destruct E1 as (_ & _ & ?).
    - intros (Hl & Hh & Hla & _). destruct p as [|x [|y [|z p]]]; try done.
      injection Hh as ->. injection Hla as ->. done. }
  assert (Hd1 : 1 ≤ d) by lia. clear Hd.
  pose proof (so_pos e b_idx (S d) He Hbi HD) as Hs.
  (* a neighbour of e *)
  assert (Hnb : ∃ m, m < l ∧ D e m = 1%Z ∧ D m b_idx = Z.of_nat d).
  { destruct (short_last G d b_idx e) as (m & Hm & HG).
    { apply short_sym; [apply zz_sym|done]. }
    destruct (zz_dom _ _ _ _ HG) as [Hml _]. exists m. split; [done|]. split.
    - apply so_one; try done. by apply zz_sym.
    - rewrite (so_sym _ _ _ HS) by done.
      destruct (so_walk b_idx m d Hbi Hml (proj1 Hm)) as (d' & Hd' & E & Hs').
      rewrite E. pose proof (proj2 Hm d' (proj1 Hs')). f_equal. lia. }
  destruct Hnb as (m0 & Hm0 & Em0 & Em0b).
  destruct (filter (λ m, (0 < D e m)%Z) (seq 0 l)) as [|m ms] eqn:Em.
  { exfalso. assert (Hin : m0 ∈ filter (λ m, (0 < D e m)%Z) (seq 0 l)).
    { apply elem_of_list_filter. split; [lia|]. apply elem_of_seq. lia. }
    rewrite Em in Hin. by apply elem_of_nil in Hin. }
  set (r := zmin_list (D e m) (D e <$> ms)).
  assert (Hr : r = 1%Z).
  { assert (Hpos : ∀ n, n ∈ m :: ms ↔ n < l ∧ (0 < D e n)%Z).
    { intros n. rewrite <- Em, elem_of_list_filter, elem_of_seq. split; intros [? ?]; split; lia. }
    assert (Hr1 : (1 <= r)%Z).
    { subst r. destruct (zmin_list_in (D e m) (D e <$> ms)) as [->|Hin].
      - destruct (proj1 (Hpos m)) as [_ ?]; [apply elem_of_list_here|lia].
      - apply elem_of_list_fmap in Hin as (n & -> & Hn).
        destruct (proj1 (Hpos n)) as [_ ?]; [by apply elem_of_list_further|lia]. }
    assert (Hle : (r <= D e m0)%Z).
    { apply zmin_list_lb. assert (Hin : m0 ∈ m :: ms) by (apply Hpos; lia).
      apply elem_of_cons in Hin as [->|Hin]; [by left|right]. by apply elem_of_list_fmap_1. }
    lia. }
  clearbody r. subst r.
  destruct (filter (λ m0, D e m0 = 1%Z) (seq 0 l)) as [|n ns] eqn:Ef.
  { exfalso. assert (Hin : m0 ∈ filter (λ m, D e m = 1%Z) (seq 0 l)).
    { apply elem_of_list_filter. split; [done|]. apply elem_of_seq. lia. }
    rewrite Ef in Hin. by apply elem_of_nil in Hin. }
  assert (Hone : ∀ x, x ∈ n :: ns ↔ x < l ∧ D e x = 1%Z).
  { intros x. rewrite <- Ef, elem_of_list_filter, elem_of_seq. split; intros [? ?]; split; done || lia. }
  (* no neighbour of e is closer to b than d, and all are connected to b *)
  assert (Hfar : ∀ x, x ∈ n :: ns → (Z.of_nat d <= D b_idx x)%Z).
  { intros x [Hx Ex]%Hone. apply so_one in Ex; [|done|done].
    destruct (so_walk b_idx x (S (S d)) Hbi Hx) as (d' & _ & E & Hs').
    { eapply nsteps_r; [|exact Ex]. apply walk_sym; [apply zz_sym|]. apply Hs. }
    rewrite E. enough (S d ≤ S d') by lia. apply Hs.
    eapply nsteps_l; [exact Ex|]. apply walk_sym; [apply zz_sym|]. apply Hs'. }
  set (q := zmin_list (D b_idx n) (D b_idx <$> ns)).
  assert (Hq : q = Z.of_nat d).
  { assert (Hq1 : (Z.of_nat d <= q)%Z).
    { subst q. destruct (zmin_list_in (D b_idx n) (D b_idx <$> ns)) as [->|Hin].
      - apply Hfar, elem_of_list_here.
      - apply elem_of_list_fmap in Hin as (x & -> & Hx). apply Hfar. by apply elem_of_list_further. }
    assert (Hle : (q <= D b_idx m0)%Z).
    { apply zmin_list_lb. assert (Hin : m0 ∈ n :: ns) by (by apply Hone).
      apply elem_of_cons in Hin as [->|Hin]; [by left|right]. by apply elem_of_list_fmap_1. }
    rewrite (so_sym _ _ _ HS b_idx m0) in Hle by done. lia. }
  clearbody q. subst q.
  set (is := filter (λ m, D b_idx m = Z.of_nat d) (n :: ns)).
  assert (His : ∀ x, x ∈ is ↔ x < l ∧ D e x = 1%Z ∧ D x b_idx = Z.of_nat d).
  { intros x. unfold is. rewrite elem_of_list_filter, Hone. split.
    - intros (E & Hx & Ex). rewrite (so_sym _ _ _ HS x b_idx) by done. done.
    - intros (Hx & Ex & E). rewrite (so_sym _ _ _ HS b_idx x) by done. done. }
  assert (HisN : NoDup is).
  { unfold is. apply NoDup_filter. rewrite <- Ef. apply NoDup_filter, NoDup_seq. }
  assert (Hrec : ∀ i, i ∈ is →
    (antipaths_find fuel ac D b b_idx i).2 = None ∧ NoDup (antipaths_find fuel ac D b b_idx i).1 ∧
    ∀ p, p ∈ (antipaths_find fuel ac D b b_idx i).1 ↔ length p = S d ∧ zz_path h ac (ac !!! i) b p).
  { intros i (Hi & _ & Ei)%His. destruct (IH fuel i Hi Ei Hd1) as (ys & E & Hy1 & Hy2); [lia|].
    rewrite E. done. }
  destruct (yield_from_all (ac !!! e) (antipaths_find fuel ac D b b_idx) is) as (H1 & H2 & H3).
  - intros i Hi. destruct (Hrec i Hi) as (? & ? & _). done.
  - done.
  - intros i j p Hi Hj Hp1 Hp2. apply (Hrec i Hi) in Hp1 as (_ & Hh1 & _).
    apply (Hrec j Hj) in Hp2 as (_ & Hh2 & _). rewrite Hh1 in Hh2. injection Hh2 as Hh2.
    destruct (decide (i = j)) as [?|Hij]; [done|exfalso].
    apply (total_ne ac Hnd i j); [by apply His|by apply His|done|done].
  - destruct (yield_from (ac !!! e) (antipaths_find fuel ac D b b_idx) is) as [ys o]. cbn in H1, H2, H3.
    subst o. exists ys. split; [done|]. split; [done|].
    intros p. rewrite H3. split.
    + intros (i & p' & Hi & -> & Hp'). apply (Hrec i Hi) in Hp' as (Hl & Hh & Hla & Hc).
      apply His in Hi as (Hi & Ei & _). apply so_one in Ei; [|done|done].
      split; [cbn; by rewrite Hl|]. split_and!.
      * done.
      * by rewrite last_cons, Hla.
      * apply consecutive_cons. split; [|done]. rewrite Hh. intros y [= <-]. apply Ei.
    + intros (Hl & Hh & Hla & Hc). destruct p as [|x p]; [done|]. injection Hh as ->.
      cbn in Hl. injection Hl as Hl. destruct p as [|y p]; [done|].
      apply consecutive_cons in Hc as [Hc1 Hc2]. rewrite last_cons_cons in Hla.
      specialize (Hc1 y eq_refl). assert (Hy : y ∈ ac) by (by destruct Hc1 as (_ & ? & _)).
      apply elem_of_list_lookup in Hy as [i Hi]. pose proof (lookup_lt_Some _ _ _ Hi) as Hil.
      apply list_lookup_total_correct in Hi. subst y.
      assert (HG : G e i) by done.
      assert (Hii : i ∈ is).
      { apply His. split; [done|]. split; [by apply so_one|].
        destruct (so_walk i b_idx d Hil Hbi) as (d' & Hd' & E & Hs').
        { apply (zz_walk h ac Hnd); [done|]. split; [done|]. rewrite Hbe. apply path_walk.
          exists ((ac !!! i) :: p). done. }
        rewrite E. f_equal. enough (S d ≤ S d') by lia. apply Hs.
        eapply nsteps_l; [exact HG|]. apply Hs'. }
      exists i, ((ac !!! i) :: p). split; [done|]. split; [done|]. apply (Hrec i Hii). done.
Qed.
End all_paths.

(** For every antichain with a related event, and a recursion limit of at least its length,
    Antipaths yields every shortest walk of zigzags from [a] to [b] exactly once, nothing else,
    and raises no exception. *)
Theorem C42_all_shortest (limit : nat) (h : heap) (C : gset nat) (a b : nat) (along : list nat) :
  order_inv h → NoDup along →
  (∀ x y, x ∈ along → y ∈ along → x ≠ y → spacelike (before h) x y) →
  (∃ e, e ∈ along ∧ (Past h e ≠ ∅ ∨ Future h e ≠ ∅)) →
  a ∈ along → b ∈ along → length along ≤ limit →
  ∃ ys, Antipaths limit h C a b along None = (ys, None) ∧ NoDup ys ∧
    ∀ p, p ∈ ys ↔
      zz_path h along a b p ∧ ∀ p', zz_path h along a b p' → length p ≤ length p'.
Proof.
  intros HO Hnd Hsp Hr Ha Hb Hlim. pose proof (antichain_nolt h along HO Hsp) as Hlt.
  destruct (decide (a = b)) as [->|Hne].
  { exists [[b]]. split; [by apply C42_trivial|]. split; [apply NoDup_singleton|].
    intros p. rewrite elem_of_list_singleton. split.
    - intros ->. split; [done|]. intros p' (Hh & _). destruct p'; [done|]. cbn. lia.
    - intros [(Hh & Hla & _) Hmin]. specialize (Hmin [b] ltac:(done)).
      destruct p as [|x [|y p]]; [done| |cbn in Hmin; lia]. by injection Hh as ->. }
  unfold Antipaths. rewrite decide_False by tauto.
  destruct (Hsp a b Ha Hb Hne) as (_ & Hab & Hba).
  assert (Hspl : isSpacelikeTo h a b = true).
  { unfold isSpacelikeTo. rewrite (bool_decide_false (b = a)) by (by intros ->).
    rewrite (bool_decide_false (b ∈ prec h a)) by done.
    rewrite (bool_decide_false (b ∈ succ h a)); [done|]. intros Hc. apply Hab. by apply (oi_conv h HO). }
  rewrite Hspl, !bool_decide_true by done. cbn [negb andb].
  destruct (index_of_spec a along Ha) as [Hai Hae]. destruct (index_of_spec b along Hb) as [Hbi Hbe].
  set (ai := index_of a along) in *. set (bi := index_of b along) in *.
  assert (Hij : ai ≠ bi) by (intros E; rewrite E in Hae; congruence).
  destruct (C41_DistanceMatrix h C along "ziczac" true HO Hnd Hsp (or_introl eq_refl)) as (M & EM & _).
  pose proof EM as EM'. rewrite EM. unfold DistanceMatrix in EM'. rewrite bool_decide_true in EM' by done.
  cbn [negb andb] in EM'.
  destruct (dm_loop _ _ _ _ _ _ _ _ _) as [D|] eqn:E; [|done]. injection EM' as <-. clear EM.
  destruct (matrix_solved h HO C along Hnd Hlt D Hr E) as [Hd HS].
  set (Z' := zget (zrows (length along) D)).
  assert (HZ : ∀ i j, i < length along → j < length along → Z' i j = D i j)
    by (intros i j; apply zget_zrows).
  assert (HSZ : solved (length along) (zz h along) Z').
  { split.
    - intros i j Hi Hj. rewrite !HZ by done. by apply (so_sym _ _ _ HS).
    - intros i j Hi Hj. rewrite HZ by done. by apply (so_entry _ _ _ HS). }
  assert (Hw : ∀ p, zz_path h along a b p → ∃ n, length p = S n ∧ nsteps (zz h along) n ai bi).
  { intros p Hp. pose proof Hp as (Hh & _). destruct p as [|x p]; [done|]. exists (length p).
    split; [done|]. apply (zz_walk h along Hnd); [done|]. split; [done|]. rewrite Hae, Hbe.
    apply path_walk. by exists (x :: p). }
  destruct (so_entry _ _ _ HSZ ai bi Hai Hbi) as [[Hneg Hno]|(d & Ed & Hs)].
  - rewrite decide_True.
    2:{ rewrite HZ in Hneg |- * by done. destruct (di_off _ _ _ _ Hd ai bi Hai Hbi Hij); [done|lia]. }
    exists []. split; [done|]. split; [by constructor|]. intros p. split; [by intros ?%elem_of_nil|].
    intros [Hp _]. destruct (Hw p Hp) as (n & _ & Hn). by destruct (Hno n).
  - rewrite decide_False by lia.
    assert (Hd1 : 1 ≤ d).
    { destruct d; [|lia]. destruct Hs as [Hs _]. inversion Hs. done. }
    pose proof (short_bound (length along) (zz h along) (zz_dom h along) d ai bi Hs Hai) as Hdl.
    destruct (find_all h along Hnd Z' b bi Hbi Hbe HSZ d limit ai Hai Ed Hd1) as (ys & E1 & E2 & E3); [lia|].
    rewrite E1. exists ys. split; [done|]. split; [done|].
    intros p. rewrite E3, Hae. split.
    + intros [Hl Hp]. split; [done|]. intros p' Hp'. destruct (Hw p' Hp') as (n & -> & Hn).
      rewrite Hl. pose proof (proj2 Hs n Hn). lia.
    + intros [Hp Hmin]. split; [|done].
      destruct (Hw p Hp) as (n & El & Hn). pose proof (proj2 Hs n Hn).
      destruct Hs as [Hs _]. apply (zz_walk h along Hnd) in Hs as [_ Hs]; [|done].
      rewrite Hae, Hbe in Hs. apply path_walk in Hs as (p' & Hl' & Hp').
      specialize (Hmin p' Hp'). lia.
Qed.
Print Assumptions C42_all_shortest.

(** A case with two shortest paths: the diamond of zigzags 0 - 1 - 3, 0 - 2 - 3. *)
Definition ring_ops : list op :=
  [ONew (LInt 1) ∅ ∅ [] []; ONew (LInt 2) ∅ ∅ [] []; ONew (LInt 3) ∅ ∅ [] []; ONew (LInt 4) ∅ ∅ [] [];
   ONew (LInt 5) {[0; 1]} ∅ [] []; ONew (LInt 6) {[0; 2]} ∅ [] [];
   ONew (LInt 7) {[1; 3]} ∅ [] []; ONew (LInt 8) {[2; 3]} ∅ [] []].
Definition ring : heap := run ∅ ((λ o, (it_elements, o)) <$> ring_ops).
Example C42_all_shortest_nonvacuous :
  order_inv ring ∧ NoDup [0; 1; 2; 3] ∧
  (∀ x y, x ∈ [0; 1; 2; 3] → y ∈ [0; 1; 2; 3] → x ≠ y → spacelike (before ring) x y) ∧
  (∃ e, e ∈ [0; 1; 2; 3] ∧ (Past ring e ≠ ∅ ∨ Future ring e ≠ ∅)) ∧
  Antipaths 4 ring (dom ring) 0 3 [0; 1; 2; 3] None = ([[0; 1; 3]; [0; 2; 3]], None).
Proof.
  split; [apply ops_order; by vm_compute|]. split; [decide_vm|]. split.
  { intros a b Ha Hb Hne. split; [done|].
    assert (H : Forall (λ a, Forall (λ b, a ∉ prec ring b) [0; 1; 2; 3]) [0; 1; 2; 3]) by decide_vm.
    rewrite Forall_forall in H. pose proof (H a Ha) as H1. pose proof (H b Hb) as H2.
    rewrite Forall_forall in H1, H2. split; [by apply H1|by apply H2]. }
  split.
  - exists 0. split; [apply elem_of_list_here|]. right. decide_vm.
  - decide_vm.
Qed.
(** C41_intersection: three events with one common past event. *)
Definition fan_ops : list op :=
  [ONew (LInt 1) ∅ ∅ [] []; ONew (LInt 2) {[0]} ∅ [] []; ONew (LInt 3) {[0]} ∅ [] [];
   ONew (LInt 4) {[0]} ∅ [] []].
Definition fan : heap := run ∅ ((λ o, (it_elements, o)) <$> fan_ops).
Example C41_intersection_nonvacuous :
  order_inv fan ∧ Past fan 1 ≠ ∅ ∧
  (∀ a b, a ∈ [1; 2; 3] → b ∈ [1; 2; 3] → a ≠ b → ¬ before fan a b) ∧
  SmallestIntervalCard fan (dom fan) 1 2 (Some (Layers fan {[1; 2; 3]} (-1) (Some 1%Z))) (Some {[1; 2; 3]}) = 3 ∧
  DistanceMatrix fan (dom fan) [1; 2; 3] "intersection" true =
    Ok [[0; 2; 2]; [2; 0; 2]; [2; 2; 0]]%Z.
Proof.
  split; [apply ops_order; by vm_compute|]. split; [decide_vm|]. split; [|split; decide_vm].
  assert (H : Forall (λ a, Forall (λ b, a ∉ prec fan b) [1; 2; 3]) [1; 2; 3]) by decide_vm.
  intros a b Ha Hb _. rewrite Forall_forall in H. specialize (H a Ha). rewrite Forall_forall in H. exact (H b Hb).
Qed.
