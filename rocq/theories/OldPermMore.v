(** More facts about layeredPermutations and permuted_old. *)
From Verif Require Import Base Spec SpecPerm EventModel EventFacts History HistoryFacts PathFacts
  RankFacts EventProps CausetModel CausetFacts IntervalFacts LayerFacts DistModel DistFacts
  OldPermModel OldPermFacts.
From Coq Require Import Sorted.

(** * The generator runs through the product of the layers *)
Definition clean (y : yields) : Prop := snd y = None ∧ fst y ≠ [].
(** What is still to come after the current value. *)
Fixpoint upcoming (fresh : list yields) (cur : list (list nat)) (its : list yields)
    : list (list (list nat)) :=
  match fresh, cur, its with
  | _ :: fresh', p :: cur', y :: its' =>
    ((p ::.) <$> upcoming fresh' cur' its') ++
    (fst y ≫= λ x, (x ::.) <$> lex_product (fst <$> fresh'))
  | _, _, _ => []
  end.
Definition in_step (fresh : list yields) (cur : list (list nat)) (its : list yields) : Prop :=
  length cur = length fresh ∧ length its = length fresh ∧ Forall (λ y, snd y = None) its.

Lemma gen_start_product fresh : Forall clean fresh →
  ∃ ps ys, gen_start fresh = Ok (ps, ys) ∧ in_step fresh ps ys ∧
    lex_product (fst <$> fresh) = ps :: upcoming fresh ps ys.
Proof.
  induction 1 as [|[l e] fresh [He Hne] _ IH]; cbn [gen_start].
  { exists [], []. by repeat split. }
  cbn in He, Hne. subst e. destruct l as [|p l]; [done|]. cbn [gen_next res_bind].
  destruct IH as (ps & ys & -> & (H1 & H2 & H3) & Hpr). cbn [res_bind].
  exists (p :: ps), ((l, None) :: ys). split; [done|]. split.
  - repeat split; cbn; [lia|lia|]. by constructor.
  - cbn. rewrite Hpr. cbn. done.
Qed.
Lemma gen_advance_product fresh : Forall clean fresh → ∀ cur its, in_step fresh cur its →
  match upcoming fresh cur its with
  | [] => gen_advance fresh cur its = Ok None
  | t :: ts => ∃ ys, gen_advance fresh cur its = Ok (Some (t, ys)) ∧ in_step fresh t ys ∧
      upcoming fresh t ys = ts
  end.
Proof.
  induction 1 as [|y fresh Hy Hfresh IH]; intros cur its (H1 & H2 & H3).
  { by destruct cur, its. }
  destruct cur as [|p cur]; [done|]. destruct its as [|[l e] its]; [done|].
  apply Forall_cons in H3 as [He H3]. cbn in He. subst e. injection H1 as H1. injection H2 as H2.
  specialize (IH cur its (conj H1 (conj H2 H3))). cbn [upcoming gen_advance fst].
  destruct (upcoming fresh cur its) as [|t ts] eqn:Eu.
  - rewrite IH. cbn [res_bind fmap list_fmap app]. destruct l as [|q l]; [done|].
    destruct (gen_start_product fresh Hfresh) as (ps & ys & -> & (G1 & G2 & G3) & Hpr).
    cbn [mbind list_bind]. rewrite Hpr. cbn [res_bind fmap list_fmap app].
    eexists. split; [done|]. split; [|done].
    repeat split; cbn; [lia|lia|]. by constructor.
  - destruct IH as (ys & -> & (G1 & G2 & G3) & Hts). cbn [res_bind fmap list_fmap app].
    eexists. split; [done|]. split.
    + repeat split; cbn; [lia|lia|]. by constructor.
    + cbn [upcoming fst]. by rewrite Hts.
Qed.

Definition ahead (fresh : list yields) (st : lp_state) : list (list (list nat)) :=
  match st with
  | LpNew => lex_product (fst <$> fresh)
  | LpAt cur its => upcoming fresh cur its
  end.
Definition lp_fine (fresh : list yields) (st : lp_state) : Prop :=
  match st with LpNew => True | LpAt cur its => in_step fresh cur its end.
Lemma lp_next_product fresh st : fresh ≠ [] → Forall clean fresh → lp_fine fresh st →
  match ahead fresh st with
  | [] => lp_next fresh st = Ok None
  | t :: ts => ∃ st', lp_next fresh st = Ok (Some (t, st')) ∧ lp_fine fresh st' ∧ ahead fresh st' = ts
  end.
Proof.
  intros Hne Hc. destruct st as [|cur its]; cbn [ahead lp_fine lp_next].
  - intros _. destruct (gen_start_product fresh Hc) as (ps & ys & -> & Hst & ->). cbn [res_map].
    eexists. split; [done|]. done.
  - intros Hst. pose proof (gen_advance_product fresh Hc cur its Hst) as Hadv.
    destruct fresh as [|y fresh]; [done|].
    destruct (upcoming (y :: fresh) cur its) as [|t ts]; [by rewrite Hadv|].
    destruct Hadv as (ys & -> & Hst' & Hts). cbn [res_map]. eexists. split; [done|]. done.
Qed.
Lemma lp_nth_product fresh st k : fresh ≠ [] → Forall clean fresh → lp_fine fresh st →
  lp_nth fresh st k = Ok (ahead fresh st !! k).
Proof.
  intros Hne Hc. revert st. induction k as [|k IH]; intros st Hst; cbn [lp_nth];
    pose proof (lp_next_product fresh st Hne Hc Hst) as Hn; destruct (ahead fresh st) as [|t ts].
  - by rewrite Hn.
  - by destruct Hn as (st' & -> & _).
  - by rewrite Hn.
  - destruct Hn as (st' & -> & Hst' & <-). cbn [res_bind]. by apply IH.
Qed.

(** * permuted_old keeps the attempt with the smallest degree *)
Section best.
Context (it : oracle) (h : heap) (S : gset nat).
Notation attempt l := (try_layers it h S l).
Definition best_deg (best : best_t) (d : nat) : Prop := ∃ L P, best = Some (L, P, d).

Lemma po_loop_best n fresh st best L P :
  fresh ≠ [] → Forall clean fresh → lp_fine fresh st →
  po_loop it n h S fresh st best = Ok (L, P) →
  (* nothing was found, neither before nor now *)
  (best = None ∧ L = [] ∧ P = [] ∧ length (ahead fresh st) ≤ n ∧
     (∀ l, l ∈ ahead fresh st → attempt l = Ok None)) ∨
  (* the best one before is kept *)
  (∃ d, best = Some (L, P, d) ∧
     (∀ k l L' P' d', k < n → ahead fresh st !! k = Some l →
        attempt l = Ok (Some (L', P', d')) → d ≤ d')) ∨
  (* a new one *)
  (∃ k l d, k < n ∧ ahead fresh st !! k = Some l ∧ attempt l = Ok (Some (L, P, d)) ∧
     (∀ d', best_deg best d' → d < d') ∧
     (∀ k' l' L' P' d', k' < n → ahead fresh st !! k' = Some l' →
        attempt l' = Ok (Some (L', P', d')) → d ≤ d' ∧ (k' < k → d < d'))).
Proof.
  intros Hne Hc. revert st best. induction n as [|n IH]; intros st best Hst; cbn [po_loop];
    pose proof (lp_next_product fresh st Hne Hc Hst) as Hn; destruct (ahead fresh st) as [|t ts].
  - rewrite Hn. cbn [res_bind]. destruct best as [[[L0 P0] d]|]; cbn [best_result]; intros [= <- <-].
    + right; left. exists d. split; [done|]. intros; lia.
    + left. split_and!; try done. intros l Hl. by apply elem_of_nil in Hl.
  - destruct Hn as (st' & -> & _). cbn [res_bind].
    destruct best as [[[L0 P0] d]|]; cbn [best_result]; [|done]. intros [= <- <-].
    right; left. exists d. split; [done|]. intros; lia.
  - rewrite Hn. cbn [res_bind]. destruct best as [[[L0 P0] d]|]; cbn [best_result]; intros [= <- <-].
    + right; left. exists d. split; [done|]. intros k l L' P' d' _ Hk. done.
    + left. split_and!; try done; [cbn; lia|]. intros l Hl. by apply elem_of_nil in Hl.
  - destruct Hn as (st' & -> & Hst' & Hts). cbn [res_bind].
    destruct (attempt t) as [[[[L1 P1] d1]|]|e] eqn:Et; cbn [res_bind]; [| |done].
    + destruct best as [[[L0 P0] d0]|].
      * destruct (decide (d1 < d0)) as [Hlt|Hge].
        -- rewrite bool_decide_eq_true_2 by done. intros Hr.
           assert (Hzero : d1 = 0 → L = L1 ∧ P = P1) by (by intros ->; injection Hr as <- <-).
           assert (Hr' : d1 ≠ 0 → po_loop it n h S fresh st' (Some (L1, P1, d1)) = Ok (L, P)) by (by destruct d1).
           clear Hr. right; right. destruct (decide (d1 = 0)) as [->|Hd1].
           ++ destruct (Hzero eq_refl) as [-> ->]. exists 0, t, 0. split_and!; [lia|done|done| |].
              ** intros d' (L' & P' & [= <- <- <-]). lia.
              ** intros; split; [lia|]. intros; lia.
           ++ specialize (Hr' Hd1). destruct (IH st' _ Hst' Hr') as [(? & _)|[(d & [= -> -> ->] & Hmin)|(k & l & d & Hk & Hl & Ha & Hb & Hmin)]]; [done| |].
              ** exists 0, t, d. split_and!; [lia|done|done| |].
                 --- intros d' (L' & P' & [= <- <- <-]). lia.
                 --- intros [|k'] l' L' P' d' Hk' Hl' Ha'.
                     +++ cbn in Hl'. injection Hl' as <-. rewrite Et in Ha'. injection Ha' as <- <- <-. split; lia.
                     +++ split; [|lia]. apply (Hmin k' l' L' P'); [lia| |done]. by rewrite Hts.
              ** exists (Datatypes.S k), l, d. rewrite Hts in Hl. split_and!; [lia|done|done| |].
                 --- intros d' (L' & P' & [= <- <- <-]). specialize (Hb d1). cbn in Hb. destruct Hb; [by eexists _, _|lia|lia].
                 --- assert (Hdd : d < d1) by (apply Hb; by eexists _, _).
                     intros [|k'] l' L' P' d' Hk' Hl' Ha'.
                     +++ cbn in Hl'. injection Hl' as <-. rewrite Et in Ha'. injection Ha' as <- <- <-. split; lia.
                     +++ destruct (Hmin k' l' L' P' d') as [G1 G2]; [lia| |done|]; [by rewrite Hts|]. split; [done|]. intros; apply G2; lia.
        -- rewrite bool_decide_eq_false_2 by done. intros Hr. right.
           assert (Hzero : d0 = 0 → L = L0 ∧ P = P0) by (by intros ->; injection Hr as <- <-).
           assert (Hr' : d0 ≠ 0 → po_loop it n h S fresh st' (Some (L0, P0, d0)) = Ok (L, P)) by (by destruct d0).
           clear Hr. destruct (decide (d0 = 0)) as [->|Hd0].
           { destruct (Hzero eq_refl) as [-> ->]. left. exists 0. split; [done|]. intros; lia. }
           destruct (IH st' _ Hst' (Hr' Hd0)) as [(? & _)|[(d & [= -> -> ->] & Hmin)|(k & l & d & Hk & Hl & Ha & Hb & Hmin)]]; [done| |].
           ++ left. exists d. split; [done|]. intros [|k'] l' L' P' d' Hk' Hl' Ha'.
              ** cbn in Hl'. injection Hl' as <-. rewrite Et in Ha'. injection Ha' as <- <- <-. lia.
              ** apply (Hmin k' l' L' P'); [lia| |done]. by rewrite Hts.
           ++ right. exists (Datatypes.S k), l, d. rewrite Hts in Hl. split_and!; [lia|done|done|done|].
              assert (Hdd : d < d0) by (apply Hb; by eexists _, _).
              intros [|k'] l' L' P' d' Hk' Hl' Ha'.
              ** cbn in Hl'. injection Hl' as <-. rewrite Et in Ha'. injection Ha' as <- <- <-. split; lia.
              ** destruct (Hmin k' l' L' P' d') as [G1 G2]; [lia| |done|]; [by rewrite Hts|]. split; [done|]. intros; apply G2; lia.
      * intros Hr.
        assert (Hzero : d1 = 0 → L = L1 ∧ P = P1) by (by intros ->; injection Hr as <- <-).
        assert (Hr' : d1 ≠ 0 → po_loop it n h S fresh st' (Some (L1, P1, d1)) = Ok (L, P)) by (by destruct d1).
        clear Hr. right; right. destruct (decide (d1 = 0)) as [->|Hd1].
        { destruct (Hzero eq_refl) as [-> ->]. exists 0, t, 0. split_and!; [lia|done|done| |].
          - by intros d' (L' & P' & ?).
          - intros; split; [lia|]. intros; lia. }
        destruct (IH st' _ Hst' (Hr' Hd1)) as [(? & _)|[(d & [= -> -> ->] & Hmin)|(k & l & d & Hk & Hl & Ha & Hb & Hmin)]]; [done| |].
        -- exists 0, t, d. split_and!; [lia|done|done| |].
           ++ by intros d' (L' & P' & ?).
           ++ intros [|k'] l' L' P' d' Hk' Hl' Ha'.
              ** cbn in Hl'. injection Hl' as <-. rewrite Et in Ha'. injection Ha' as <- <- <-. split; lia.
              ** split; [|lia]. apply (Hmin k' l' L' P'); [lia| |done]. by rewrite Hts.
        -- exists (Datatypes.S k), l, d. rewrite Hts in Hl. split_and!; [lia|done|done| |].
           ++ by intros d' (L' & P' & ?).
           ++ assert (Hdd : d < d1) by (apply Hb; by eexists _, _).
              intros [|k'] l' L' P' d' Hk' Hl' Ha'.
              ** cbn in Hl'. injection Hl' as <-. rewrite Et in Ha'. injection Ha' as <- <- <-. split; lia.
              ** destruct (Hmin k' l' L' P' d') as [G1 G2]; [lia| |done|]; [by rewrite Hts|]. split; [done|]. intros; apply G2; lia.
    + intros Hr. destruct (IH st' best Hst' Hr) as [(-> & -> & -> & Hlen & Hall)|[(d & -> & Hmin)|(k & l & d & Hk & Hl & Ha & Hb & Hmin)]].
      * left. split_and!; try done; [cbn; rewrite <- Hts; lia|]. rewrite Hts in Hall.
        intros l [->|Hl]%elem_of_cons; [done|by apply Hall].
      * right; left. exists d. split; [done|]. intros [|k'] l' L' P' d' Hk' Hl' Ha'.
        -- cbn in Hl'. injection Hl' as <-. by rewrite Et in Ha'.
        -- apply (Hmin k' l' L' P'); [lia| |done]. by rewrite Hts.
      * right; right. exists (Datatypes.S k), l, d. rewrite Hts in Hl. split_and!; [lia|done|done|done|].
        intros [|k'] l' L' P' d' Hk' Hl' Ha'.
        -- cbn in Hl'. injection Hl' as <-. by rewrite Et in Ha'.
        -- destruct (Hmin k' l' L' P' d') as [G1 G2]; [lia| |done|]; [by rewrite Hts|]. split; [done|]. intros; apply G2; lia.
Qed.

(** ValueError: after n attempts all of which failed, there is another permutation. *)
Lemma po_loop_exhausted n fresh st :
  fresh ≠ [] → Forall clean fresh → lp_fine fresh st → n < length (ahead fresh st) →
  (∀ k l, k < n → ahead fresh st !! k = Some l → attempt l = Ok None) →
  po_loop it n h S fresh st None = Err ValueError.
Proof.
  intros Hne Hc. revert st. induction n as [|n IH]; intros st Hst Hlen Hall; cbn [po_loop];
    pose proof (lp_next_product fresh st Hne Hc Hst) as Hn; destruct (ahead fresh st) as [|t ts]; cbn in Hlen; try lia;
    destruct Hn as (st' & -> & Hst' & <-); cbn [res_bind]; [done|].
  rewrite (Hall 0 t) by (done || lia). cbn [res_bind]. apply IH; [done|lia|].
  intros k l Hk Hl. apply (Hall (Datatypes.S k)); [lia|done].
Qed.
End best.

(** * The extended futures *)
Lemma sorted_filter_seq (P : nat → Prop) `{∀ x, Decision (P x)} s n :
  StronglySorted lt (filter P (seq s n)).
Proof.
  revert s. induction n as [|n IH]; intros s; cbn [seq]; [constructor|]. rewrite filter_cons.
  destruct (decide (P s)); [|apply IH]. constructor; [apply IH|]. apply Forall_forall.
  intros x [_ Hx%elem_of_seq]%elem_of_list_filter. lia.
Qed.
Lemma sorted_last i is : StronglySorted lt (i :: is) →
  List.last is i ∈ i :: is ∧ ∀ k, k ∈ i :: is → i ≤ k ≤ List.last is i.
Proof.
  revert i. induction is as [|j is IH]; intros i Hs.
  { cbn. split; [by left|]. intros k ->%elem_of_list_singleton. lia. }
  apply StronglySorted_inv in Hs as [Hs Hi]. destruct (IH j Hs) as [H1 H2].
  assert (E : List.last (j :: is) i = List.last is j).
  { destruct is as [|k is]; [done|]. change (List.last (k :: is) i = List.last (k :: is) j).
    clear. revert k. induction is as [|m is IH]; intros k; [done|]. apply IH. }
  rewrite E. split; [by right|]. pose proof (Forall_forall (lt i) (j :: is)) as HF.
  pose proof (proj1 HF Hi) as Hlt. clear HF. intros k [->|Hk]%elem_of_cons.
  - split; [lia|]. specialize (Hlt j (elem_of_list_here _ _)). destruct (H2 j (elem_of_list_here _ _)). lia.
  - specialize (Hlt k Hk). destruct (H2 k Hk). lia.
Qed.
Lemma between_gen (q : nat → bool) (R : nat → Prop) l b : (∀ x, q x = true ↔ R x) →
  b ∈ between q l ↔
  ∃ i j k x y, i ≤ j ≤ k ∧ l !! i = Some x ∧ l !! j = Some b ∧ l !! k = Some y ∧ R x ∧ R y.
Proof.
  intros Hq. unfold between, first_last.
  pose (p i := q (l !!! i) = true).
  assert (Hp : ∀ i x, l !! i = Some x → (p i ↔ R x)).
  { intros i x Hx. unfold p. rewrite (list_lookup_total_correct _ _ _ Hx). apply Hq. }
  assert (Hin : ∀ i, i ∈ filter (λ i, q (l !!! i) = true) (seq 0 (length l)) ↔ i < length l ∧ p i).
  { intros i. rewrite elem_of_list_filter, elem_of_seq. unfold p. split; intros [? ?]; split; try done; lia. }
  pose proof (sorted_filter_seq (λ i, q (l !!! i) = true) 0 (length l)) as Hsort.
  destruct (filter (λ i, q (l !!! i) = true) (seq 0 (length l))) as [|i is].
  { split; [by intros ?%elem_of_nil|]. intros (i & j & k & x & y & _ & Hi & _ & _ & HR & _).
    assert (i ∈ []) as ?%elem_of_nil; [|done]. apply Hin. split; [by eapply lookup_lt_Some|]. by apply (Hp i x). }
  destruct (sorted_last i is Hsort) as [Hl Hrange]. set (k := List.last is i) in *. clearbody k.
  apply Hin in Hl as [Hkl Hk]. destruct (proj1 (Hin i) (elem_of_list_here _ _)) as [Hil Hi].
  destruct (Hrange i (elem_of_list_here _ _)) as [_ Hik].
  split.
  - intros [j Hj]%elem_of_list_lookup. assert (Hjl : j < S k - i).
    { apply lookup_lt_Some in Hj. rewrite take_length in Hj. lia. }
    rewrite lookup_take, lookup_drop in Hj by done.
    apply lookup_lt_is_Some in Hil as [x Hx]. apply lookup_lt_is_Some in Hkl as [y Hy].
    exists i, (i + j), k, x, y. split_and!; try done; try lia; [by apply (Hp i x)|by apply (Hp k y)].
  - intros (i' & j & k' & x & y & Hle & Hx & Hb & Hy & HRx & HRy).
    assert (Hi' : i ≤ i' ≤ k).
    { apply Hrange, Hin. split; [by eapply lookup_lt_Some|by apply (Hp i' x)]. }
    assert (Hk' : i ≤ k' ≤ k).
    { apply Hrange, Hin. split; [by eapply lookup_lt_Some|by apply (Hp k' y)]. }
    apply elem_of_list_lookup. exists (j - i). rewrite lookup_take, lookup_drop by lia.
    by replace (i + (j - i)) with j by lia.
Qed.
Lemma between_spec (h : heap) a l b : b ∈ between (ev_lt h a) l ↔ spans (before h) a l b.
Proof. apply between_gen. intros x. unfold ev_lt, before. apply bool_decide_eq_true. Qed.

Lemma add_all_iff exts ext bs r : add_all exts ext bs = Ok r →
  (∀ b, b ∈ bs → is_Some (exts !! b)) ∧
  ∀ x, x ∈ r ↔ x ∈ ext ∨ x ∈ bs ∨ ∃ b s, b ∈ bs ∧ exts !! b = Some s ∧ x ∈ s.
Proof.
  revert ext. induction bs as [|b bs IH]; intros ext; cbn [add_all].
  { intros [= <-]. split; [by intros b ?%elem_of_nil|]. intros x. split; [by left|].
    intros [?|[?%elem_of_nil|(b & s & ?%elem_of_nil & _)]]; done. }
  destruct (exts !! b) as [s|] eqn:Eb; [|done]. intros [H1 H2]%IH. split.
  { intros b' [->|Hb]%elem_of_cons; [by rewrite Eb|by apply H1]. }
  intros x. rewrite H2, !elem_of_union, elem_of_singleton, elem_of_cons. split.
  - intros [[[?|?]|?]|[?|(b' & s' & ? & ? & ?)]]; [by left|by right; left; left| |by right; left; right|].
    + right; right. exists b, s. split_and!; [by left|done|done].
    + right; right. exists b', s'. split_and!; [by right|done|done].
  - intros [?|[[?|?]|(b' & s' & [->|?]%elem_of_cons & E & ?)]]; [by left; left; left|by left; left; right|by right; left| |].
    + left; right. congruence.
    + right; right. by exists b', s'.
Qed.
Lemma for_between_iff h a exts layers ext r :
  for_res (λ ext layer, add_all exts ext (between (ev_lt h a) layer)) layers ext = Ok r →
  (∀ l b, l ∈ layers → spans (before h) a l b → is_Some (exts !! b)) ∧
  ∀ x, x ∈ r ↔ x ∈ ext ∨ ∃ l b, l ∈ layers ∧ spans (before h) a l b ∧
     (x = b ∨ ∃ s, exts !! b = Some s ∧ x ∈ s).
Proof.
  revert ext. induction layers as [|l layers IH]; intros ext; cbn [for_res].
  { intros [= <-]. split; [by intros l b ?%elem_of_nil|]. intros x. split; [by left|].
    intros [?|(l & b & ?%elem_of_nil & _)]; done. }
  destruct (add_all exts ext (between (ev_lt h a) l)) as [r1|] eqn:E1; cbn [res_bind]; [|done].
  apply add_all_iff in E1 as [H1 H2]. intros [H3 H4]%IH. split.
  { intros l' b [->|Hl]%elem_of_cons Hs; [apply H1; by apply between_spec|by apply (H3 l')]. }
  intros x. rewrite H4, H2. split.
  - intros [[?|[Hx|(b & s & Hb & Es & Hx)]]|(l' & b & Hl & Hs & Hx)].
    + by left.
    + right. exists l, x. split_and!; [by left|by apply between_spec|by left].
    + right. exists l, b. split_and!; [by left|by apply between_spec|]. right. by exists s.
    + right. exists l', b. split_and!; [by right|done|done].
  - intros [?|(l' & b & [->|Hl]%elem_of_cons & Hs & Hx)]; [by left; left| |].
    + left; right. apply between_spec in Hs. destruct Hx as [->|(s & Es & Hx)]; [by left|]. right. by exists b, s.
    + right. by exists l', b.
Qed.

Section degree.
Context (h : heap) (HO : order_inv h).
Context (S : gset nat) (f : nat → nat) (Hf : ∀ a b, before h a b → f a < f b).
Context (full : list (list nat)).
Context (Hfull : ∀ i l a, full !! i = Some l → a ∈ l → a ∈ S ∧ f a = i).
Notation wide := (widened (before h) S full).

Lemma spans_above a l i b : full !! i = Some l → spans (before h) a l b → f a < i ∧ f b = i ∧ b ∈ l.
Proof using Hf Hfull HO.
  intros Hl (i1 & j & k & x & y & _ & Hx & Hb & _ & HR & _).
  assert (Hxl : x ∈ l) by (by eapply elem_of_list_lookup_2).
  assert (Hbl : b ∈ l) by (by eapply elem_of_list_lookup_2).
  destruct (Hfull i l x Hl Hxl) as [_ Hfx]. destruct (Hfull i l b Hl Hbl) as [_ Hfb].
  pose proof (Hf _ _ HR). split_and!; [lia|done|done].
Qed.
Lemma wide_iff a x : wide a x ↔ (x ∈ S ∧ before h a x) ∨
  ∃ l b, l ∈ full ∧ spans (before h) a l b ∧ (x = b ∨ wide b x).
Proof.
  split.
  - intros Hw. inversion Hw as [a' x' H1 H2|a' l b H1 H2|a' l b x' H1 H2 H3]; subst.
    + by left.
    + right. exists l, x. split_and!; [done|done|by left].
    + right. exists l, b. split_and!; [done|done|by right].
  - intros [[? ?]|(l & b & ? & ? & [->|?])].
    + by apply widened_order.
    + by apply widened_span with l.
    + by apply widened_next with l b.
Qed.

Lemma ext_futures_spec pre layers exts : full = pre ++ layers → ext_futures h S layers = Ok exts →
  (∀ b, is_Some (exts !! b) ↔ ∃ l, l ∈ layers ∧ b ∈ l) ∧
  ∀ b s, exts !! b = Some s → ∀ x, x ∈ s ↔ wide b x.
Proof using Hf Hfull HO.
  revert pre exts. induction layers as [|layer layers IH]; intros pre exts Hpre; cbn [ext_futures].
  { intros [= <-]. split; [|by intros ? ?; rewrite lookup_empty]. intros b. rewrite lookup_empty.
    split; [by intros [? ?]|]. by intros (? & ?%elem_of_nil & _). }
  destruct (ext_futures h S layers) as [exts1|] eqn:E1; cbn [res_bind]; [|done].
  destruct (IH (pre ++ [layer]) exts1) as [Hdom Hspec]; [by rewrite <- (assoc_L (++))|done|].
  assert (Hlay : full !! length pre = Some layer) by (rewrite Hpre; by apply list_lookup_middle).
  assert (Hhigher : ∀ a l b, a ∈ layer → l ∈ full → spans (before h) a l b →
     l ∈ layers ∧ length pre < f b ∧ b ∈ l).
  { intros a l b Ha [i Hi]%elem_of_list_lookup Hs. destruct (spans_above a l i b Hi Hs) as (H1 & H2 & H3).
    destruct (Hfull _ _ _ Hlay Ha) as [_ Hfa]. split_and!; [|lia|done]. rewrite Hpre in Hi.
    rewrite lookup_app_r in Hi by lia. replace (i - length pre) with (Datatypes.S (i - length pre - 1)) in Hi by lia.
    cbn in Hi. by eapply elem_of_list_lookup_2. }
  (* an invariant of the loop over the layer *)
  assert (Hloop : ∀ todo exts2, (∀ a, a ∈ todo → a ∈ layer) →
    (∀ b, length pre < f b → exts2 !! b = exts1 !! b) →
    (∀ b s, exts2 !! b = Some s → ∀ x, x ∈ s ↔ wide b x) →
    ∀ r, for_res (ext_future_of h S (layer :: layers)) todo exts2 = Ok r →
    (∀ b, is_Some (r !! b) ↔ is_Some (exts2 !! b) ∨ b ∈ todo) ∧
    (∀ b s, r !! b = Some s → ∀ x, x ∈ s ↔ wide b x)).
  { clear exts. induction todo as [|a todo IHt]; intros exts2 Hsub Hsame Hsp r; cbn [for_res].
    { intros [= <-]. split; [|done]. intros b. split; [by left|]. by intros [?|?%elem_of_nil]. }
    unfold ext_future_of at 1. destruct (for_res _ (layer :: layers) (Future h a ∩ S)) as [s|] eqn:Ea;
      cbn [res_map res_bind]; [|done].
    apply for_between_iff in Ea as [Hsome Hs]. intros Hr.
    assert (Ha : a ∈ layer) by (apply Hsub; by left).
    destruct (Hfull _ _ _ Hlay Ha) as [_ Hfa].
    apply IHt in Hr as [G1 G2].
    - split; [|done]. intros b. rewrite G1. rewrite elem_of_cons. destruct (decide (b = a)) as [->|Hne].
      + rewrite lookup_insert. split; [intros _; right; by left|]. intros _. left. by eexists.
      + rewrite lookup_insert_ne by done. split; [intros [?|?]; [by left|by right; right]|].
        intros [?|[?|?]]; [by left|done|by right].
    - intros a' Ha'. apply Hsub. by right.
    - intros b Hb. rewrite lookup_insert_ne by (intros ->; lia). by apply Hsame.
    - intros b s' Hb. apply lookup_insert_Some in Hb as [[<- <-]|[_ Hb]]; [|by apply Hsp].
      intros x. rewrite Hs, wide_iff, elem_of_intersection.
      assert (HF : x ∈ Future h a ↔ before h a x) by (symmetry; apply (oi_conv h HO)). rewrite HF. split.
      + intros [[? ?]|(l & b & Hl & Hsb & Hx)]; [by left|]. right.
        assert (Hlf : l ∈ full) by (rewrite Hpre; apply elem_of_app; by right).
        exists l, b. split_and!; [done|done|]. destruct Hx as [->|(s' & Es & Hx)]; [by left|]. right.
        by apply (Hsp b s' Es).
      + intros [[? ?]|(l & b & Hl & Hsb & Hx)]; [by left|]. right.
        destruct (Hhigher a l b Ha Hl Hsb) as (Hl' & Hfb & Hbl).
        exists l, b. split_and!; [by right|done|]. destruct Hx as [->|Hx]; [by left|]. right.
        assert (is_Some (exts2 !! b)) as [s' Es].
        { rewrite Hsame by done. apply Hdom. by exists l. }
        exists s'. split; [done|]. by apply (Hsp b s' Es). }
  intros Hr. destruct (Hloop layer exts1 (λ _ Ha, Ha) (λ _ _, eq_refl) Hspec exts Hr) as [G1 G2].
  split; [|done]. intros b. rewrite G1, Hdom. split.
  - intros [(l & Hl & Hb)|Hb]; [exists l|exists layer]; (split; [|done]); [by right|by left].
  - intros (l & [->|Hl]%elem_of_cons & Hb); [by right|]. left. by exists l.
Qed.

Context (it : oracle) (Hit : iter_ok it).
Lemma extended_causals_degree exts d : 
  (∀ b s, exts !! b = Some s → ∀ x, x ∈ s ↔ wide b x) →
  extended_causals it h S exts = Ok d → extension_degree (before h) S full d.
Proof using Hit HO Hf Hfull.
  intros Hspec. unfold extended_causals, extension_degree.
  assert (Hgen : ∀ l n, for_res (λ n e, match exts !! e with
       | Some g => Ok (n + size (g ∖ Future h e)) | None => Err KeyError end) l n = Ok d → NoDup l →
     ∃ ps : list (nat * nat), NoDup ps ∧ n + length ps = d ∧
       ∀ e x, (e, x) ∈ ps ↔ e ∈ l ∧ wide e x ∧ ¬ before h e x).
  { induction l as [|e l IH]; intros n; cbn [for_res].
    { intros [= ->] _. exists []. split_and!; [constructor|cbn; lia|]. intros e x. rewrite !elem_of_nil. tauto. }
    destruct (exts !! e) as [g|] eqn:Eg; cbn [res_bind]; [|done].
    intros Hr [Hnin Hnd]%NoDup_cons. destruct (IH _ Hr Hnd) as (ps & H1 & H2 & H3).
    exists (((e,.) <$> elements (g ∖ Future h e)) ++ ps). split_and!.
    - apply NoDup_app. split_and!; [|  |done].
      + apply NoDup_fmap_2; [intros x y [= ->]; done|apply NoDup_elements].
      + intros [e' x] (y & [= -> ->] & _)%elem_of_list_fmap [? _]%H3. done.
    - rewrite app_length, fmap_length. change (length (elements (g ∖ Future h e))) with (size (g ∖ Future h e)). lia.
    - intros e' x. rewrite elem_of_app, H3, elem_of_cons. split.
      + intros [(y & [= -> ->] & Hy%elem_of_elements)%elem_of_list_fmap|(? & ? & ?)]; [|naive_solver].
        apply elem_of_difference in Hy as [Hy1 Hy2]. split_and!; [by left|by apply (Hspec e g Eg)|].
        intros HR. apply Hy2. by apply (oi_conv h HO).
      + intros ([->|?] & Hw & Hn); [|by right]. left. apply elem_of_list_fmap. exists x. split; [done|].
        apply elem_of_elements, elem_of_difference. split; [by apply (Hspec e g Eg)|].
        intros HR. apply Hn. by apply (oi_conv h HO). }
  intros Hr. destruct (Hgen _ _ Hr (iter_nodup it 51 S Hit)) as (ps & H1 & H2 & H3).
  exists ps. split_and!; [done|done|]. intros e x. rewrite H3. by rewrite (iter_elem it 51 S e Hit).
Qed.
Lemma try_layers_degree L P d : try_layers it h S full = Ok (Some (L, P, d)) →
  extension_degree (before h) S full d.
Proof using Hf Hfull Hit HO.
  unfold try_layers. destruct (ext_futures h S full) as [exts|] eqn:E; cbn [res_bind]; [|done].
  destruct (ext_futures_spec [] full exts eq_refl E) as [_ Hspec].
  destruct (place_layers _ _ _ _ _ _ _ _) as [[L1 P1]|[]]; try done.
  destruct (decide _) as [|_]; [done|].
  destruct (extended_causals it h S exts) as [n|] eqn:En; cbn [res_map]; [|done]. intros [= _ _ <-].
  by eapply extended_causals_degree.
Qed.
End degree.
