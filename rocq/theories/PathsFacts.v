(** Correctness of the recursive search of Causet.Paths. *)
From Verif Require Import Base Spec EventModel EventFacts PathFacts PathsModel.

(** * Abstract loops over the internal events *)
Section loops.
Context (rec : nat → Z → Z → res found) (G : nat → list nat → Prop).
Context (Hdisj : ∀ e e' p, G e p → G e' p → e = e').
Let GS (es : list nat) (p : list nat) : Prop := ∃ e, e ∈ es ∧ G e p.
Notation len p := (Z.of_nat (length (p : list nat))).

Lemma nodup_app_G e es P P' :
  e ∉ es → NoDup P → NoDup P' → (∀ p, p ∈ P → G e p) → (∀ p, p ∈ P' → GS es p) →
  NoDup (P ++ P').
Proof using Hdisj.
  intros He H1 H2 H3 H4. apply NoDup_app. split_and!; try done.
  intros p Hp Hp'. destruct (H4 p Hp') as (e' & He' & HG).
  by rewrite (Hdisj _ _ _ (H3 p Hp) HG) in He.
Qed.

Definition post_any (Q : list nat → Prop) (L : list (list nat)) (mn mx : Z) : Prop :=
  NoDup L ∧ ∀ p, p ∈ L ↔ Q p ∧ (mn <= len p)%Z ∧ ((len p <= mx)%Z ∨ mx = (-1)%Z).

Lemma loop_any es mn mx :
  NoDup es →
  (∀ e, e ∈ es → ∃ L, rec e mn mx = Ok (L, mn, mx) ∧ post_any (G e) L mn mx) →
  ∃ L, find_loop rec es mn mx = Ok (L, mn, mx) ∧ post_any (GS es) L mn mx.
Proof using Hdisj.
  induction es as [|e es IH]; intros Hnd Hrec.
  - exists []. cbn. split; [done|]. split; [constructor|]. intros p.
    split; [by intros ?%elem_of_nil|]. intros ((e & He & _) & _). by apply elem_of_nil in He.
  - apply NoDup_cons in Hnd as [He Hnd].
    destruct (Hrec e) as (L1 & E1 & N1 & S1); [apply elem_of_list_here|].
    destruct IH as (L2 & E2 & N2 & S2); [done| |].
    { intros e' He'. apply Hrec. by apply elem_of_list_further. }
    exists (L1 ++ L2). cbn. rewrite E1, E2. split; [done|]. split.
    + apply (nodup_app_G e es); try done; [intros p Hp; by apply S1 in Hp as [? _]|].
      intros p Hp; by apply S2 in Hp as [? _].
    + intros p. rewrite elem_of_app, S1, S2. split.
      * intros [[HG Hb]|[(e' & He' & HG) Hb]].
        -- split; [|done]. exists e. split; [apply elem_of_list_here|done].
        -- split; [|done]. exists e'. split; [by apply elem_of_list_further|done].
      * intros [(e' & He' & HG) Hb]. apply elem_of_cons in He' as [->|He']; [by left|].
        right. split; [|done]. by exists e'.
Qed.

Record post_min (l : Z) (Q : list nat → Prop) (L : list (list nat)) (mx mx' : Z) : Prop := {
  pm_nodup : NoDup L;
  pm_sound : ∀ p, p ∈ L → Q p;
  pm_le : mx = (-1)%Z ∨ (mx' <= mx ∧ mx' ≠ -1)%Z;
  pm_low : mx' = (-1)%Z ∨ (l <= mx')%Z;
  pm_min : ∀ p, Q p → mx' ≠ (-1)%Z ∧ (mx' <= len p)%Z;
  pm_att : mx' = mx ∨ ∃ p, p ∈ L ∧ len p = mx';
  pm_all : ∀ p, Q p → len p = mx' → p ∈ L }.

Lemma loop_min l es mx :
  (0 <= l)%Z → NoDup es → mx = (-1)%Z ∨ (l <= mx)%Z →
  (∀ e mx, e ∈ es → mx = (-1)%Z ∨ (l <= mx)%Z →
     ∃ L mx', rec e 0 mx = Ok (L, 0, mx')%Z ∧ post_min l (G e) L mx mx') →
  ∃ L mx', find_loop rec es 0 mx = Ok (L, 0, mx')%Z ∧ post_min l (GS es) L mx mx'.
Proof using Hdisj.
  intros Hl. revert mx. induction es as [|e es IH]; intros mx Hnd Hmx Hrec.
  - exists [], mx. cbn. split; [done|]. split.
    + constructor.
    + by intros p ?%elem_of_nil.
    + destruct Hmx; [by left|right]. lia.
    + done.
    + intros p (e & He & _). by apply elem_of_nil in He.
    + by left.
    + intros p (e & He & _). by apply elem_of_nil in He.
  - apply NoDup_cons in Hnd as [He Hnd].
    destruct (Hrec e mx) as (L1 & m1 & E1 & P1); [apply elem_of_list_here|done|].
    destruct (IH m1) as (L2 & m2 & E2 & P2); [done| | |].
    { apply (pm_low _ _ _ _ _ P1). }
    { intros e' mx' He'. apply Hrec. by apply elem_of_list_further. }
    exists (L1 ++ L2), m2. cbn. rewrite E1, E2. split; [done|].
    destruct P1 as [N1 S1 L1' W1 M1 A1 C1], P2 as [N2 S2 L2' W2 M2 A2 C2]. split.
    + by apply (nodup_app_G e es).
    + intros p [Hp|Hp]%elem_of_app.
      * exists e. split; [apply elem_of_list_here|by apply S1].
      * destruct (S2 p Hp) as (e' & He' & HG). exists e'.
        split; [by apply elem_of_list_further|done].
    + destruct L1' as [->|[H1 H1']]; [by left|]. destruct L2' as [->|[H2 H2']]; [done|].
      right. split; [lia|done].
    + done.
    + intros p (e' & He' & HG). apply elem_of_cons in He' as [->|He'].
      * destruct (M1 p HG) as [H1 H2]. destruct L2' as [->|[H3 H4]]; [done|].
        split; [done|lia].
      * apply M2. by exists e'.
    + destruct A2 as [->|(p & Hp & Hlen)].
      * destruct A1 as [->|(p & Hp & Hlen)]; [by left|]. right. exists p.
        split; [apply elem_of_app; by left|done].
      * right. exists p. split; [apply elem_of_app; by right|done].
    + intros p (e' & He' & HG) Hlen. apply elem_of_app.
      apply elem_of_cons in He' as [->|He'].
      * left. apply C1; [done|]. destruct (M1 p HG) as [H1 H2].
        destruct L2' as [->|[H3 H4]]; [done|]. lia.
      * right. apply C2; [by exists e'|done].
Qed.

Record post_max (Q : list nat → Prop) (L : list (list nat)) (mn mn' : Z) : Prop := {
  px_nodup : NoDup L;
  px_sound : ∀ p, p ∈ L → Q p;
  px_le : (mn <= mn')%Z;
  px_max : ∀ p, Q p → (len p <= mn')%Z;
  px_att : mn' = mn ∨ ∃ p, p ∈ L ∧ len p = mn';
  px_all : ∀ p, Q p → len p = mn' → p ∈ L }.

Lemma loop_max es mn :
  NoDup es →
  (∀ e mn, e ∈ es →
     ∃ L mn', rec e mn (-1)%Z = Ok (L, mn', (-1)%Z) ∧ post_max (G e) L mn mn') →
  ∃ L mn', find_loop rec es mn (-1)%Z = Ok (L, mn', (-1)%Z) ∧ post_max (GS es) L mn mn'.
Proof using Hdisj.
  revert mn. induction es as [|e es IH]; intros mn Hnd Hrec.
  - exists [], mn. cbn. split; [done|]. split.
    + constructor.
    + by intros p ?%elem_of_nil.
    + lia.
    + intros p (e & He & _). by apply elem_of_nil in He.
    + by left.
    + intros p (e & He & _). by apply elem_of_nil in He.
  - apply NoDup_cons in Hnd as [He Hnd].
    destruct (Hrec e mn) as (L1 & m1 & E1 & P1); [apply elem_of_list_here|].
    destruct (IH m1) as (L2 & m2 & E2 & P2); [done| |].
    { intros e' mx' He'. apply Hrec. by apply elem_of_list_further. }
    exists (L1 ++ L2), m2. cbn. rewrite E1, E2. split; [done|].
    destruct P1 as [N1 S1 W1 M1 A1 C1], P2 as [N2 S2 W2 M2 A2 C2]. split.
    + by apply (nodup_app_G e es).
    + intros p [Hp|Hp]%elem_of_app.
      * exists e. split; [apply elem_of_list_here|by apply S1].
      * destruct (S2 p Hp) as (e' & He' & HG). exists e'.
        split; [by apply elem_of_list_further|done].
    + lia.
    + intros p (e' & He' & HG). apply elem_of_cons in He' as [->|He'].
      * specialize (M1 p HG). lia.
      * apply M2. by exists e'.
    + destruct A2 as [->|(p & Hp & Hlen)].
      * destruct A1 as [->|(p & Hp & Hlen)]; [by left|]. right. exists p.
        split; [apply elem_of_app; by left|done].
      * right. exists p. split; [apply elem_of_app; by right|done].
    + intros p (e' & He' & HG) Hlen. apply elem_of_app.
      apply elem_of_cons in He' as [->|He'].
      * left. apply C1; [done|]. specialize (M1 p HG). lia.
      * right. apply C2; [by exists e'|done].
Qed.
End loops.

(** * One step of the search *)
Section search.
Context (h : heap) (HO : order_inv h) (HL : link_inv h) (pit : list nat → oracle).
Context (Hit : ∀ p, iter_ok (pit p)).
Context (a0 b : nat) (b_linked : gset nat).
Context (Hbl : b_linked = Future h a0 ∩ LinkPast h b).
Notation R := (before h).
Notation len p := (Z.of_nat (length (p : list nat))).

(** The full paths that extend the prefix [pa], whose last event is [a]. *)
Definition ext (pa : list nat) (a : nat) (p : list nat) : Prop :=
  ∃ q, p = pa ++ q ∧ link_path R a b (a :: q).

(** Events on which the inner function is called. *)
Definition good (a : nat) : Prop := (a = a0 ∨ R a0 a) ∧ R a b ∧ ¬ covers R a b.

Definition per (a : nat) : gset nat := LinkFuture h a ∩ Past h b ∩ b_linked.
Definition inn (a : nat) : gset nat := LinkFuture h a ∩ Past h b ∖ per a.

Lemma per_spec a e : good a → e ∈ per a ↔ covers R a e ∧ covers R e b.
Proof using HO HL Hbl.
  intros [H1 [H2 H3]]. unfold per. rewrite Hbl, !elem_of_intersection.
  rewrite (LinkFuture_spec h HO HL), (LinkPast_spec h HO HL). unfold Past, Future. split.
  - by intros [[? _] [_ ?]].
  - intros [Hc1 Hc2]. split_and!; try done; [apply Hc2|]. rewrite <- (oi_conv h HO).
    destruct H1 as [->|H1]; [apply Hc1|]. eapply (oi_trans h HO); [exact H1|apply Hc1].
Qed.
Lemma inn_spec a e : good a → e ∈ inn a ↔ covers R a e ∧ R e b ∧ ¬ covers R e b.
Proof using HO HL Hbl.
  intros Hg. unfold inn. rewrite elem_of_difference, (per_spec a e Hg), elem_of_intersection.
  rewrite (LinkFuture_spec h HO HL). unfold Past, before. tauto.
Qed.
Lemma inn_good a e : good a → e ∈ inn a → good e.
Proof using HO HL Hbl.
  intros Hg He. apply (inn_spec a e Hg) in He as (H1 & H2 & H3).
  destruct Hg as [H4 _]. split; [|done]. right.
  destruct H4 as [->|H4]; [apply H1|]. eapply (oi_trans h HO); [exact H4|apply H1].
Qed.

Lemma covers_path e q : covers R e b → link_path R e b (e :: q) → q = [b].
Proof using HO.
  intros Hc Hp. destruct (link_path_inv _ _ _ _ Hp) as [[_ ->]|(s & l & E & Hs & Hl)].
  - destruct Hc as [Hc _]. by destruct (oi_irr h HO b).
  - injection E as ->. destruct (link_path_before R s b _ (proj2 (oi_order h HO)) Hl) as [->|Hsb].
    + destruct (link_path_inv _ _ _ _ Hl) as [[[= ->] _]|(s' & l' & E & Hs' & Hl')]; [done|].
      exfalso. destruct (link_path_before R s' b _ (proj2 (oi_order h HO)) Hl') as [->|Hb].
      * by destruct (oi_irr h HO b (proj1 Hs')).
      * exact (oi_asym h HO _ _ (proj1 Hs') Hb).
    + destruct Hc as [_ Hc]. destruct Hc. exists s. split; [apply Hs|done].
Qed.

Lemma ext_step pa a p : good a →
  ext pa a p ↔
  (∃ e, e ∈ per a ∧ p = pa ++ [e; b]) ∨ (∃ e, e ∈ inn a ∧ ext (pa ++ [e]) e p).
Proof using HO HL Hbl.
  intros Hg. split.
  - intros (q & -> & Hp).
    destruct (link_path_inv _ _ _ _ Hp) as [[_ ->]|(s & l & E & Hs & Hl)].
    { destruct Hg as [_ [Hg _]]. by destruct (oi_irr h HO b). }
    injection E as ->.
    destruct (link_path_before R s b _ (proj2 (oi_order h HO)) Hl) as [->|Hsb].
    { by destruct Hg as [_ [_ Hg]]. }
    destruct (decide (s ∈ per a)) as [Hi|Hi].
    + left. exists s. split; [done|].
      apply (per_spec a s Hg) in Hi as [_ Hc]. rewrite (covers_path s l Hc Hl). done.
    + right. exists s. split.
      * apply (inn_spec a s Hg). split_and!; try done. intros Hc. destruct Hi.
        by apply (per_spec a s Hg).
      * exists l. rewrite <- app_assoc. split; [done|]. done.
  - intros [(e & He & ->)|(e & He & q & -> & Hq)].
    + exists [e; b]. split; [done|]. apply (per_spec a e Hg) in He as [H1 H2].
      apply link_path_cons. split; [done|]. apply link_path_cons. split; [done|].
      by apply link_path_single.
    + exists (e :: q). rewrite <- app_assoc. split; [done|].
      apply (inn_spec a e Hg) in He as (H1 & _). by apply link_path_cons.
Qed.

Lemma ext_len pa a p : good a → ext pa a p → (len pa + 2 <= len p)%Z.
Proof using HO HL Hbl.
  intros Hg He. apply (ext_step pa a p Hg) in He as [(e & _ & ->)|(e & He & q & -> & Hq)].
  - rewrite app_length. cbn. lia.
  - rewrite !app_length. cbn. destruct q as [|x q].
    + apply link_path_single in Hq as [_ <-]. apply (inn_spec a b Hg) in He as (_ & H & _).
      by destruct (oi_irr h HO b).
    + cbn. lia.
Qed.
Lemma ext_head pa e p : ext (pa ++ [e]) e p → p !! length pa = Some e.
Proof using.
  intros (q & -> & _). rewrite <- app_assoc. cbn. by apply list_lookup_middle.
Qed.
Lemma ext_disj pa e e' p : ext (pa ++ [e]) e p → ext (pa ++ [e']) e' p → e = e'.
Proof using.
  intros H1%ext_head H2%ext_head. rewrite H1 in H2. by injection H2.
Qed.
Lemma ext_nonempty pa a : good a → ∃ p, ext pa a p.
Proof using HO.
  intros [_ [Hab _]]. destruct (link_path_exists h HO a b Hab) as [l Hl].
  destruct (link_path_ends _ _ _ _ Hl) as [[q ->] _]. exists (pa ++ q), q. done.
Qed.

(** The list of perimetral paths. *)
Lemma per_list pa a :
  let L := (λ e, pa ++ [e; b]) <$> pit pa 13 (per a) in
  NoDup L ∧ ∀ p, p ∈ L ↔ ∃ e, e ∈ per a ∧ p = pa ++ [e; b].
Proof using Hit.
  cbn. split.
  - apply NoDup_fmap_2_strong; [|by apply iter_nodup].
    intros x y _ _ E. apply app_inv_head in E. by injection E.
  - intros p. rewrite elem_of_list_fmap. split.
    + intros (e & -> & He). apply (iter_elem _ 13 _ e (Hit pa)) in He. by exists e.
    + intros (e & He & ->). exists e. split; [done|]. by apply (iter_elem _ 13 _ e (Hit pa)).
Qed.
Lemma per_nodup_app pa a L2 :
  good a →
  NoDup L2 → (∀ p, p ∈ L2 → ∃ e, e ∈ pit pa 14 (inn a) ∧ ext (pa ++ [e]) e p) →
  NoDup (((λ e, pa ++ [e; b]) <$> pit pa 13 (per a)) ++ L2).
Proof using HO HL Hbl Hit.
  intros Hg H1 H2. destruct (per_list pa a) as [H3 H4]. apply NoDup_app. split_and!; try done.
  intros p Hp Hp'. apply H4 in Hp as (e & He & ->). apply H2 in Hp' as (e' & He' & Hx).
  apply ext_head in Hx.
  assert (e' = e) as ->.
  { rewrite (list_lookup_middle pa [b] e (length pa) eq_refl) in Hx. congruence. }
  apply (iter_elem _ 14 _ e (Hit pa)) in He'. unfold inn in He'.
  apply elem_of_difference in He' as [_ He']. done.
Qed.
Lemma fuel_inn a e fuel :
  good a → e ∈ inn a → size (succ h a ∩ prec h b) < S fuel →
  size (succ h e ∩ prec h b) < fuel.
Proof using HO HL Hbl.
  intros Hg He Hf. apply (inn_spec a e Hg) in He as (H1 & H2 & _).
  pose proof (interval_smaller_r h HO a e b (proj1 H1) H2). lia.
Qed.

Notation find := (paths_find pit).

Lemma size_pos (S : gset nat) : 0 < size S ↔ S ≠ ∅.
Proof using.
  split.
  - intros H ->. rewrite size_empty in H. lia.
  - intros H. destruct (decide (size S = 0)) as [H'|]; [|lia].
    apply size_empty_inv in H'. by apply leibniz_equiv in H'.
Qed.
Lemma size_zero (S : gset nat) : size S = 0 ↔ S = ∅.
Proof using.
  split; [|by intros ->]. intros H. by apply leibniz_equiv, size_empty_inv.
Qed.

(** ** Paths of any, fixed or ranged length *)
Lemma find_any fuel pa a l mn mx :
  good a → size (succ h a ∩ prec h b) < fuel → l = (len pa + 2)%Z →
  (l <= mx)%Z ∨ mx = (-1)%Z →
  ∃ L, find fuel h false false b b_linked pa a l mn mx = Ok (L, mn, mx) ∧
       post_any (ext pa a) L mn mx.
Proof using HO HL Hbl Hit.
  revert pa a l. induction fuel as [|fuel IH]; intros pa a l Hg Hf Hlen Hmx; [lia|].
  cbn [paths_find]. fold (per a). fold (inn a). cbn [negb orb].
  rewrite !andb_true_r, andb_false_r.
  set (out := if bool_decide (mn <= l)%Z && bool_decide (0 < size (per a))
              then (λ e, pa ++ [e; b]) <$> pit pa 13 (per a) else []).
  destruct (per_list pa a) as [Np Sp].
  assert (Hout : NoDup out ∧
    ∀ p, p ∈ out ↔ (∃ e, e ∈ per a ∧ p = pa ++ [e; b]) ∧ (mn <= len p)%Z).
  { assert (Hlp : ∀ e, len (pa ++ [e; b]) = l) by (intros e; rewrite app_length; cbn; lia).
    subst out. destruct (bool_decide (mn <= l)%Z && bool_decide (0 < size (per a))) eqn:E.
    - split; [done|]. intros p. rewrite Sp. split; [|tauto]. intros (e & He & ->).
      rewrite Hlp. apply andb_prop in E as [E _]. apply bool_decide_eq_true in E.
      split; [by exists e|done].
    - split; [constructor|]. intros p. split; [by intros ?%elem_of_nil|].
      intros [(e & He & ->) Hmn]. rewrite Hlp in Hmn. exfalso.
      apply andb_false_iff in E as [E|E]; apply bool_decide_eq_false in E; [done|].
      apply E, size_pos. intros E'. rewrite E' in He. by apply elem_of_empty in He. }
  destruct Hout as [No So].
  destruct (decide (l = mx)) as [->|Hne].
  - exists out. split; [done|]. split; [done|]. intros p. rewrite So, (ext_step pa a p Hg).
    split.
    + intros [(e & He & ->) Hmn]. split_and!; [by left; exists e|done|].
      left. rewrite app_length. cbn. lia.
    + intros (Hx & Hmn & Hle). split; [|done]. destruct Hx as [Hx|(e & He & Hx)]; [done|].
      exfalso. apply (ext_len _ e _ (inn_good a e Hg He)) in Hx.
      rewrite app_length in Hx. cbn in Hx. destruct Hle as [Hle|Hle]; lia.
  - destruct (loop_any
      (λ e, find fuel h false false b b_linked (pa ++ [e]) e (l + 1)%Z)
      (λ e, ext (pa ++ [e]) e) (ext_disj pa) (pit pa 14 (inn a)) mn mx)
      as (L & E & NL & SL).
    { by apply iter_nodup. }
    { intros e He. apply (iter_elem _ 14 _ e (Hit pa)) in He.
      apply IH; [by apply (inn_good a)|by apply (fuel_inn a)| |].
      - rewrite app_length. cbn. lia.
      - destruct Hmx; [left; lia|by right]. }
    rewrite E. exists (out ++ L). split; [done|]. split.
    + apply NoDup_app. split_and!; try done.
      intros p Hp Hp'. apply So in Hp as [(e & He & ->) _]. apply SL in Hp' as [(e' & He' & Hx) _].
      apply ext_head in Hx. rewrite (list_lookup_middle pa [b] e (length pa) eq_refl) in Hx.
      injection Hx as <-. apply (iter_elem _ 14 _ e (Hit pa)) in He'.
      unfold inn in He'. by apply elem_of_difference in He' as [_ He'].
    + intros p. rewrite elem_of_app, So, SL, (ext_step pa a p Hg). split.
      * intros [[(e & He & ->) Hmn]|[(e & He & Hx) Hb]].
        -- split_and!; [by left; exists e|done|]. destruct Hmx; [left|by right].
           rewrite app_length. cbn. lia.
        -- split; [|done]. right. exists e. split; [|done]. by apply (iter_elem _ 14 _ e (Hit pa)).
      * intros [[Hx|(e & He & Hx)] [Hmn Hb]].
        -- left. done.
        -- right. split; [|done]. exists e. split; [|done]. by apply (iter_elem _ 14 _ e (Hit pa)).
Qed.

(** ** Paths of minimal length *)
Lemma find_min fuel pa a l mx :
  good a → size (succ h a ∩ prec h b) < fuel → l = (len pa + 2)%Z →
  mx = (-1)%Z ∨ (l <= mx)%Z →
  ∃ L mx', find fuel h true false b b_linked pa a l 0 mx = Ok (L, 0%Z, mx') ∧
       post_min l (ext pa a) L mx mx'.
Proof using HO HL Hbl Hit.
  revert pa a l mx. induction fuel as [|fuel IH]; intros pa a l mx Hg Hf Hlen Hmx; [lia|].
  cbn [paths_find]. fold (per a). fold (inn a). cbn [negb orb].
  rewrite !andb_true_r. rewrite (bool_decide_true (0 <= l)%Z) by lia. cbn [andb].
  destruct (per_list pa a) as [Np Sp].
  assert (Hlp : ∀ e, len (pa ++ [e; b]) = l) by (intros e; rewrite app_length; cbn; lia).
  destruct (decide (per a = ∅)) as [Hpe|Hpe].
  - rewrite (bool_decide_false (0 < size (per a))) by (rewrite size_pos; tauto).
    destruct (decide (l = mx)) as [->|Hne].
    + exists [], mx. split; [done|].
      assert (Hgt : ∀ p, ext pa a p → (mx < len p)%Z).
      { intros p Hp. apply (ext_step pa a p Hg) in Hp as [(e & He & _)|(e & He & Hx)].
        - rewrite Hpe in He. by apply elem_of_empty in He.
        - apply (ext_len _ e _ (inn_good a e Hg He)) in Hx.
          rewrite app_length in Hx. cbn in Hx. lia. }
      split.
      * constructor.
      * by intros p ?%elem_of_nil.
      * destruct Hmx; [by left|right; lia].
      * right. lia.
      * intros p Hp. specialize (Hgt p Hp). lia.
      * by left.
      * intros p Hp Hp'. specialize (Hgt p Hp). lia.
    + destruct (loop_min
        (λ e, find fuel h true false b b_linked (pa ++ [e]) e (l + 1)%Z)
        (λ e, ext (pa ++ [e]) e) (ext_disj pa) (l + 1) (pit pa 14 (inn a)) mx)
        as (L & mx' & E & [N S W1 W2 M A C]).
      { lia. }
      { by apply iter_nodup. }
      { destruct Hmx; [by left|right; lia]. }
      { intros e mx1 He Hmx1. apply (iter_elem _ 14 _ e (Hit pa)) in He.
        apply IH; [by apply (inn_good a)|by apply (fuel_inn a)| |done].
        rewrite app_length. cbn. lia. }
      rewrite E. exists L, mx'. split; [done|].
      assert (Heq : ∀ p, ext pa a p ↔ ∃ e, e ∈ pit pa 14 (inn a) ∧ ext (pa ++ [e]) e p).
      { intros p. rewrite (ext_step pa a p Hg). split.
        - intros [(e & He & _)|(e & He & Hx)].
          + rewrite Hpe in He. by apply elem_of_empty in He.
          + exists e. split; [by apply (iter_elem _ 14 _ e (Hit pa))|done].
        - intros (e & He & Hx). right. exists e. split; [by apply (iter_elem _ 14 _ e (Hit pa)) in He|done]. }
      split.
      * done.
      * intros p Hp. apply Heq. by apply S.
      * done.
      * destruct W2; [by left|right; lia].
      * intros p Hp. apply M. by apply Heq.
      * done.
      * intros p Hp. apply C. by apply Heq.
  - rewrite (bool_decide_true (0 < size (per a))) by (by rewrite size_pos).
    exists ((λ e, pa ++ [e; b]) <$> pit pa 13 (per a)), l. split.
    { cbn. rewrite decide_True; [done|]. tauto. }
    apply set_choose_L in Hpe as [e0 He0].
    split.
    + done.
    + intros p Hp. apply (ext_step pa a p Hg). left. by apply Sp.
    + destruct Hmx; [by left|right; lia].
    + right. lia.
    + intros p Hp. apply (ext_len pa a p Hg) in Hp. lia.
    + right. exists (pa ++ [e0; b]). split; [|done]. apply Sp. by exists e0.
    + intros p Hp Hpl. apply Sp. apply (ext_step pa a p Hg) in Hp as [Hp|(e & He & Hx)]; [done|].
      exfalso. apply (ext_len _ e _ (inn_good a e Hg He)) in Hx.
      rewrite app_length in Hx. cbn in Hx. lia.
Qed.

(** ** Paths of maximal length *)
Lemma find_max fuel pa a l mn :
  good a → size (succ h a ∩ prec h b) < fuel → l = (len pa + 2)%Z →
  ∃ L mn', find fuel h false true b b_linked pa a l mn (-1) = Ok (L, mn', (-1)%Z) ∧
       post_max (ext pa a) L mn mn'.
Proof using HO HL Hbl Hit.
  revert pa a l mn. induction fuel as [|fuel IH]; intros pa a l mn Hg Hf Hlen; [lia|].
  cbn [paths_find]. fold (per a). fold (inn a). cbn [negb orb].
  rewrite !andb_false_r.
  destruct (per_list pa a) as [Np Sp].
  assert (Hlp : ∀ e, len (pa ++ [e; b]) = l) by (intros e; rewrite app_length; cbn; lia).
  destruct (decide (l = -1)%Z) as [Hl1|_]; [lia|].
  destruct (decide (inn a = ∅)) as [Hie|Hie].
  - rewrite (bool_decide_true (size (inn a) = 0)) by (by rewrite size_zero).
    rewrite andb_true_r.
    assert (Ei : pit pa 14 (inn a) = []).
    { rewrite Hie. pose proof (Hit pa 14 ∅) as Hp. rewrite elements_empty in Hp.
      symmetry in Hp. by apply Permutation_nil in Hp. }
    rewrite Ei. cbn [find_loop].
    destruct (ext_nonempty pa a Hg) as [p0 Hp0].
    assert (Hall : ∀ p, ext pa a p → ∃ e, e ∈ per a ∧ p = pa ++ [e; b]).
    { intros p Hp. apply (ext_step pa a p Hg) in Hp as [?|(e & He & _)]; [done|].
      rewrite Hie in He. by apply elem_of_empty in He. }
    rewrite (bool_decide_true (0 < size (per a))).
    2:{ apply size_pos. destruct (Hall p0 Hp0) as (e & He & _). intros E. rewrite E in He.
        by apply elem_of_empty in He. }
    rewrite andb_true_r. eexists _, _. split; [done|]. rewrite app_nil_r.
    destruct (decide (mn <= l)%Z) as [Hmn|Hmn].
    + rewrite (bool_decide_true _ Hmn). rewrite Z.max_r by done. split.
      * done.
      * intros p Hp. apply (ext_step pa a p Hg). left. by apply Sp.
      * done.
      * intros p Hp. apply Hall in Hp as (e & _ & ->). by rewrite Hlp.
      * right. exists p0. destruct (Hall p0 Hp0) as (e & He & ->). rewrite Hlp.
        split; [|done]. apply Sp. by exists e.
      * intros p Hp _. apply Sp. by apply Hall.
    + rewrite (bool_decide_false _ Hmn). rewrite Z.max_l by lia. split.
      * constructor.
      * by intros p ?%elem_of_nil.
      * done.
      * intros p Hp. apply Hall in Hp as (e & _ & ->). rewrite Hlp. lia.
      * by left.
      * intros p Hp Hpl. apply Hall in Hp as (e & _ & ->). rewrite Hlp in Hpl. lia.
  - rewrite (bool_decide_false (size (inn a) = 0)) by (by rewrite size_zero).
    rewrite andb_false_r. cbn [app].
    destruct (loop_max
        (λ e, find fuel h false true b b_linked (pa ++ [e]) e (l + 1)%Z)
        (λ e, ext (pa ++ [e]) e) (ext_disj pa) (pit pa 14 (inn a)) (Z.max mn l))
        as (L & mn' & E & [N S W M A C]).
    { by apply iter_nodup. }
    { intros e mn1 He. apply (iter_elem _ 14 _ e (Hit pa)) in He.
      apply IH; [by apply (inn_good a)|by apply (fuel_inn a)|].
      rewrite app_length. cbn. lia. }
    rewrite E. exists L, mn'. split; [done|].
    apply set_choose_L in Hie as [e0 He0].
    destruct (ext_nonempty (pa ++ [e0]) e0 (inn_good a e0 Hg He0)) as [p0 Hp0].
    assert (Hbig : (l + 1 <= mn')%Z).
    { pose proof (ext_len _ e0 _ (inn_good a e0 Hg He0) Hp0) as H1.
      rewrite app_length in H1. cbn in H1.
      assert (H2 : (len p0 <= mn')%Z).
      { apply M. exists e0. split; [by apply (iter_elem _ 14 _ e0 (Hit pa))|done]. }
      lia. }
    split.
    + done.
    + intros p Hp. apply (ext_step pa a p Hg). right. destruct (S p Hp) as (e & He & Hx).
      exists e. split; [by apply (iter_elem _ 14 _ e (Hit pa)) in He|done].
    + lia.
    + intros p Hp. apply (ext_step pa a p Hg) in Hp as [(e & _ & ->)|(e & He & Hx)].
      * rewrite Hlp. lia.
      * apply M. exists e. split; [by apply (iter_elem _ 14 _ e (Hit pa))|done].
    + destruct A as [A|A]; [|by right]. left. lia.
    + intros p Hp Hpl. apply (ext_step pa a p Hg) in Hp as [(e & _ & ->)|(e & He & Hx)].
      * rewrite Hlp in Hpl. lia.
      * apply C; [|done]. exists e. split; [by apply (iter_elem _ 14 _ e (Hit pa))|done].
Qed.
End search.
