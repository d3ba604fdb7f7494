(** CausetEvent.Rank is the length of the shortest path of links. *)
From Verif Require Import Base Spec EventModel EventFacts PathFacts.

(** [n] is the least number of link steps from [a] to [b]. *)
Definition link_distance (R : nat → nat → Prop) (a b n : nat) : Prop :=
  (∃ l, link_path R a b l ∧ length l = S n) ∧
  (∀ l, link_path R a b l → S n ≤ length l).

Lemma link_distance_unique R a b n m :
  link_distance R a b n → link_distance R a b m → n = m.
Proof.
  intros [(l & H1 & H2) H3] [(k & H4 & H5) H6].
  specialize (H3 _ H4). specialize (H6 _ H1). lia.
Qed.

Lemma omin_Some_l x b : ∃ y, omin (Some x) b = Some y ∧ y ≤ x.
Proof. destruct b as [z|]; cbn; eexists; split; eauto; lia. Qed.

Lemma rank_loop_spec rec ps r0 :
  (∀ s p, (s, p) ∈ ps → ∃ q, rec s p = Ok q ∧ q ≠ Some 0) →
  (∀ k, r0 = Some k → 3 ≤ k) →
  ∃ r, rank_loop rec ps r0 = Ok r ∧
    (∀ k, r0 = Some k → ∃ y, r = Some y ∧ y ≤ k) ∧
    (∀ s p m, (s, p) ∈ ps → rec s p = Ok (Some m) → ∃ y, r = Some y ∧ y ≤ m + 2) ∧
    (∀ y, r = Some y → r0 = Some y ∨ ∃ s p m, (s, p) ∈ ps ∧ rec s p = Ok (Some m) ∧ y = m + 2).
Proof.
  revert r0. induction ps as [|[s p] ps IH]; intros r0 Hrec Hr0.
  - exists r0. cbn. split_and!; try done; [eauto| |auto].
    intros ? ? ? H. by apply elem_of_nil in H.
  - destruct (Hrec s p) as (q & Hq & Hq0); [set_solver|]. cbn. rewrite Hq.
    set (r' := omin r0 (oplus 2 q)).
    assert (Hr'ge : ∀ k, r' = Some k → 3 ≤ k).
    { intros k. unfold r', oplus, omin. destruct r0 as [k0|], q as [q|]; cbn; intros [= <-].
      - specialize (Hr0 k0 eq_refl). destruct q; [done|]. lia.
      - by apply Hr0.
      - destruct q; [done|]. lia. }
    assert (Hr'0 : ∀ k, r0 = Some k → ∃ y, r' = Some y ∧ y ≤ k).
    { intros k ->. apply omin_Some_l. }
    assert (Hr'q : ∀ m, q = Some m → ∃ y, r' = Some y ∧ y ≤ m + 2).
    { intros m ->. unfold r', oplus, omin. cbn. destruct r0; eexists; split; eauto; lia. }
    assert (Hr'from : ∀ y, r' = Some y → r0 = Some y ∨ ∃ m, q = Some m ∧ y = m + 2).
    { intros y. unfold r', oplus, omin. destruct r0 as [k0|], q as [q|]; cbn; intros [= <-].
      - destruct (Nat.min_spec k0 (q + 2)) as [[_ ->]|[_ ->]]; [by left|right; eauto].
      - by left.
      - right; eauto. }
    destruct (decide (r' = Some 3)) as [E|E].
    + exists (Some 3). split; [done|]. split_and!.
      * intros k Hk. exists 3. split; [done|]. by apply Hr0.
      * intros s' p' m Hin Hm. exists 3. split; [done|].
        destruct (Hrec s' p' Hin) as (q' & Hq' & Hq'0). rewrite Hm in Hq'.
        injection Hq' as <-. destruct m; [done|]. lia.
      * intros y [= <-]. destruct (Hr'from _ E) as [?|(m & -> & Hm)]; [by left|right].
        exists s, p, m. split; [set_solver|]. split; [done|]. done.
    + destruct (IH r') as (r & Hr & H1 & H2 & H3); [set_solver|done|].
      exists r. split; [done|]. split_and!.
      * intros k Hk. destruct (Hr'0 k Hk) as (y & Hy & Hle).
        destruct (H1 y Hy) as (z & -> & Hz). exists z. split; [done|lia].
      * intros s' p' m [[= -> ->]|Hin]%elem_of_cons Hm.
        -- rewrite Hq in Hm. injection Hm as ->. destruct (Hr'q m eq_refl) as (y & Hy & Hle).
           destruct (H1 y Hy) as (z & -> & Hz). exists z. split; [done|lia].
        -- by eapply H2.
      * intros y Hy. destruct (H3 y Hy) as [Hr'y|(s' & p' & m & Hin & Hm & ->)].
        -- destruct (Hr'from y Hr'y) as [?|(m & -> & ->)]; [by left|right].
           exists s, p, m. split; [set_solver|done].
        -- right. exists s', p', m. split; [set_solver|done].
Qed.

Lemma elem_of_pairs l k a b : (a, b) ∈ pairs l k ↔ a ∈ l ∧ b ∈ k.
Proof.
  unfold pairs. rewrite elem_of_list_bind. split.
  - intros (x & H & Hx). apply elem_of_list_bind in H as (y & H & Hy).
    apply elem_of_list_singleton in H. by injection H as -> ->.
  - intros [Ha Hb]. exists a. split; [|done]. apply elem_of_list_bind. exists b.
    split; [|done]. by apply elem_of_list_singleton.
Qed.

Section rank.
Context (it : oracle) (Hit : iter_ok it).
Context (h : heap) (HO : order_inv h) (HL : link_inv h).
Local Notation R := (before h).

Lemma rank_fuel_spec fuel a b :
  size (prec h b) < fuel →
  (ev_le h a b = false ∧ rank_fuel it fuel h a b = Ok None) ∨
  (ev_le h a b = true ∧ ∃ n, rank_fuel it fuel h a b = Ok (Some n) ∧ link_distance R a b n).
Proof.
  revert a b. induction fuel as [|fuel IH]; intros a b Hf; [lia|].
  cbn [rank_fuel]. destruct (ev_le h a b) eqn:Ele; cbn [negb]; [|by left].
  right. split; [done|].
  destruct (decide (a = b)) as [->|Hab].
  { exists 0. split; [done|]. split.
    - exists [b]. split; [by apply link_path_single|done].
    - intros l Hl. destruct l; [by apply link_path_nil in Hl|cbn; lia]. }
  assert (HRab : R a b).
  { unfold ev_le in Ele. apply orb_prop in Ele as [H|H]; by apply bool_decide_eq_true in H. }
  destruct (decide (b ∈ LinkFuture h a)) as [Hlk|Hlk].
  { apply LinkFuture_spec in Hlk; [|done..]. exists 1. split; [done|]. split.
    - exists [a; b]. split; [|done]. apply link_path_cons. split; [done|].
      by apply link_path_single.
    - intros l Hl. destruct (link_path_inv _ _ _ _ Hl) as [[_ ?]|(s & l' & -> & _)];
        [done|cbn; lia]. }
  rewrite LinkFuture_spec in Hlk by done.
  destruct (decide (LinkFuture h a ∩ LinkPast h b ≠ ∅)) as [Hc|Hc].
  { apply set_choose_L in Hc as [c Hc]. apply elem_of_intersection in Hc as [H1 H2].
    rewrite LinkFuture_spec in H1 by done. rewrite LinkPast_spec in H2 by done.
    exists 2. split; [done|]. split.
    - exists [a; c; b]. split; [|done]. apply link_path_cons. split; [done|].
      apply link_path_cons. split; [done|]. by apply link_path_single.
    - intros l Hl. destruct (link_path_inv _ _ _ _ Hl) as [[_ ?]|(s & l' & -> & Hs & Hl')];
        [done|].
      destruct l' as [|x l']; [|cbn; lia]. apply link_path_single in Hl' as [_ ->]. done. }
  assert (Hno : ∀ c, covers R a c → covers R c b → False).
  { intros c H1 H2. apply Hc. intros He. assert (Hcc : c ∈ LinkFuture h a ∩ LinkPast h b).
    { apply elem_of_intersection. rewrite LinkFuture_spec, LinkPast_spec by done. done. }
    rewrite He in Hcc. set_solver. }
  clear Hc.
  set (ps := pairs (it 4 (LinkFuture h a)) (it 5 (LinkPast h b))).
  assert (Hps : ∀ s p, (s, p) ∈ ps ↔ covers R a s ∧ covers R p b).
  { intros s p. unfold ps. rewrite elem_of_pairs, !iter_elem by done.
    by rewrite LinkFuture_spec, LinkPast_spec. }
  assert (Hrec : ∀ s p, (s, p) ∈ ps →
    (ev_le h s p = false ∧ rank_fuel it fuel h s p = Ok None) ∨
    (ev_le h s p = true ∧ ∃ n, rank_fuel it fuel h s p = Ok (Some n) ∧ link_distance R s p n)).
  { intros s p [H1 H2]%Hps. apply IH. pose proof (prec_smaller h HO p b (proj1 H2)). lia. }
  destruct (rank_loop_spec (rank_fuel it fuel h) ps None) as (r & Hr & _ & Hmin & Hfrom).
  { intros s p Hsp. destruct (Hrec s p Hsp) as [[_ H]|(_ & n & H & Hd)].
    - by exists None.
    - exists (Some n). split; [done|]. intros [= ->].
      destruct Hd as [(l & Hl & Hlen) _]. destruct l as [|x [|y l]]; try done.
      apply link_path_single in Hl as [-> ->]. apply Hps in Hsp as [H1 H2]. by eapply Hno. }
  { done. }
  (* every path from a to b has the form a, s, ..., p, b *)
  assert (Hform : ∀ l, link_path R a b l → ∃ s p k, (s, p) ∈ ps ∧ link_path R s p k ∧
                    length l = length k + 2).
  { intros l Hl. destruct (link_path_inv _ _ _ _ Hl) as [[_ ?]|(s & l' & -> & Hs & Hl')];
      [done|].
    destruct (link_path_inv_r _ _ _ _ Hl') as [[_ ->]|(p & k & E & Hp & Hk)]; [done|].
    exists s, p, (k ++ [p]). split; [by apply Hps|]. split; [done|].
    apply (f_equal length) in E. rewrite app_length in E |- *. cbn in *. lia. }
  destruct (link_path_exists h HO a b HRab) as [l0 Hl0].
  destruct (Hform l0 Hl0) as (s0 & p0 & k0 & Hsp0 & Hk0 & _).
  assert (Hle0 : ∀ s p k, link_path R s p k → ev_le h s p = true).
  { intros s p k Hk. apply link_path_before in Hk; [|apply (oi_order h HO)].
    unfold ev_le. destruct Hk as [->|Hk].
    - by rewrite bool_decide_eq_true_2.
    - rewrite (bool_decide_eq_true_2 (s ∈ prec h p)) by done. by rewrite orb_true_r. }
  destruct (Hrec s0 p0 Hsp0) as [[Hf0 _]|(_ & n0 & Hn0 & _)].
  { by rewrite (Hle0 _ _ _ Hk0) in Hf0. }
  destruct (Hmin s0 p0 n0 Hsp0 Hn0) as (y & -> & _). clear Hsp0 Hk0 Hn0.
  exists y. split; [exact Hr|].
  destruct (Hfrom y eq_refl) as [?|(s & p & m & Hsp & Hm & ->)]; [done|].
  destruct (Hrec s p Hsp) as [[_ H]|(_ & n & H & Hd)]; rewrite Hm in H; [done|].
  injection H as <-. split.
  - destruct Hd as [(k & Hk & Hlen) _]. apply Hps in Hsp as [H1 H2].
    destruct (link_path_ends _ _ _ _ Hk) as [[k1 Ek1] [k2 Ek2]].
    exists (a :: k ++ [b]). split.
    + rewrite Ek1. cbn [app]. apply link_path_cons. split; [done|].
      change (s :: k1 ++ [b]) with ((s :: k1) ++ [b]). rewrite <- Ek1, Ek2, <- app_assoc.
      cbn [app]. apply link_path_snoc. rewrite <- Ek2. done.
    + cbn. rewrite app_length. cbn. lia.
  - intros l Hl. destruct (Hform l Hl) as (s' & p' & k' & Hsp' & Hk' & Hlen).
    destruct (Hrec s' p' Hsp') as [[Hf0 _]|(_ & n' & Hn' & Hd')].
    { by rewrite (Hle0 _ _ _ Hk') in Hf0. }
    destruct (Hmin s' p' n' Hsp' Hn') as (y' & [= <-] & Hle).
    destruct Hd' as [_ Hd']. specialize (Hd' _ Hk'). lia.
Qed.

Lemma Rank_spec a b :
  (ev_le h a b = false ∧ Rank it h a b = Ok None) ∨
  (ev_le h a b = true ∧ ∃ n, Rank it h a b = Ok (Some n) ∧ link_distance R a b n).
Proof. apply rank_fuel_spec. lia. Qed.

End rank.
