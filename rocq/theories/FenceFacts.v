(** Facts about comprehensions of constructor calls, and the fence. *)
From Verif Require Import Base Spec EventModel EventFacts CausetModel CausetFacts BuildModel BuildFacts.

Lemma alloc_list_spec it h0 : ∀ args h evs,
  iter_ok it → fresh_causet h0 h evs →
  (∀ l P p, (l, P) ∈ args → p ∈ (P : gset nat) → p ∈ evs) →
  let h' := fst (alloc_list it args h) in
  let xs := snd (alloc_list it args h) in
  fresh_causet h0 h' (evs ++ xs) ∧ length xs = length args ∧ dom h' = dom h ∪ list_to_set xs ∧
  (∀ x, x ∈ xs → x ∉ dom h) ∧
  (∀ y, y ∉ xs → prec h' y = prec h y ∧ lab h' y = lab h y ∧ coords h' y = coords h y) ∧
  (∀ k x l P, xs !! k = Some x → args !! k = Some (l, P) →
     lab h' x = l ∧ coords h' x = Some [] ∧
     ∀ y, y ∈ prec h' x ↔ ∃ p, p ∈ P ∧ (y = p ∨ y ∈ prec h p)).
Proof.
  induction args as [|[l P] args IH]; intros h evs Hit Hf Hargs; cbn zeta.
  { cbn. rewrite app_nil_r. split_and!; try done; [set_solver|]. intros x Hx. by apply elem_of_nil in Hx. }
  cbn [alloc_list].
  destruct (alloc_spec it h0 h evs l P Hit Hf) as (Hf' & Hxn & Hdom & Hlx & Hrest & Hpx & Hne & Hco).
  { intros p Hp. eapply Hargs; [apply elem_of_list_here|done]. }
  destruct (alloc it l P h) as [h1 x] eqn:Ea. cbn [fst snd] in *.
  destruct (IH h1 (evs ++ [x]) Hit Hf') as (IF & IL & ID & IN & IR & IK).
  { intros l' P' p Hin Hp. apply elem_of_app. left. eapply Hargs; [by apply elem_of_list_further|done]. }
  destruct (alloc_list it args h1) as [h2 xs] eqn:El. cbn [fst snd] in *.
  assert (Hxxs : x ∉ xs).
  { intros Hx. apply (IN x Hx). rewrite Hdom. apply elem_of_union_l. by apply elem_of_singleton. }
  split_and!.
  - by rewrite <- app_assoc in IF.
  - cbn. lia.
  - rewrite ID, Hdom. cbn. clear. set_solver.
  - intros y [->|Hy]%elem_of_cons; [done|]. intros Hyd. apply (IN y Hy). rewrite Hdom. by apply elem_of_union_r.
  - intros y Hy. apply not_elem_of_cons in Hy as [Hy1 Hy2].
    destruct (IR y Hy2) as (-> & -> & ->). by apply Hrest.
  - intros [|k] y l' P' Hk Ha; cbn in Hk, Ha.
    + injection Hk as <-. injection Ha as <- <-. destruct (IR x Hxxs) as (-> & -> & ->).
      done.
    + destruct (IK k y l' P' Hk Ha) as (-> & -> & Hp). split_and!; [done|done|]. intros z. rewrite Hp.
      assert (HP' : ∀ p, p ∈ P' → prec h1 p = prec h p).
      { intros p Hp'. destruct (Hrest p) as (? & _); [|done]. apply Hne. eapply Hargs; [|done].
        by eapply elem_of_list_further, elem_of_list_lookup_2. }
      split; intros (p & Hp1 & Hp2); exists p; (split; [done|]); [rewrite <- HP' by done|rewrite HP' by done]; done.
Qed.

(** Place [l'] can be reached from place [l] by at most [d] steps to the right. *)
Definition left_of (closed : bool) (len l : nat) : option nat :=
  if decide (l = 0) then if closed then Some (len - 1) else None else Some (l - 1).

Lemma within_0 closed len l l' : l < len → within closed len 0 l l' ↔ l = l'.
Proof.
  intros Hl. split.
  - intros (k & Hk & ->). assert (k = 0) as -> by lia. rewrite Nat.add_0_r.
    destruct closed; [|done]. by rewrite Nat.mod_small.
  - intros <-. exists 0. split; [done|]. rewrite Nat.add_0_r. destruct closed; [|done].
    by rewrite Nat.mod_small.
Qed.
Lemma left_of_step closed len l' p : l' < len →
  left_of closed len l' = Some p ↔ p < len ∧ l' = if closed then (p + 1) mod len else p + 1.
Proof.
  intros Hl'. unfold left_of. destruct (decide (l' = 0)) as [->|Hne].
  - destruct closed.
    + split.
      * intros [= <-]. split; [lia|]. replace (len - 1 + 1) with len by lia. by rewrite Nat.mod_same by lia.
      * intros [Hp Hm]. f_equal. destruct (decide (p + 1 < len)).
        -- rewrite Nat.mod_small in Hm by lia. lia.
        -- lia.
    + split; [done|]. intros [_ ?]. lia.
  - split.
    + intros [= <-]. split; [lia|]. destruct closed; [|lia]. rewrite Nat.mod_small by lia. lia.
    + intros [Hp Hm]. f_equal. destruct closed; [|lia]. destruct (decide (p + 1 < len)).
      * rewrite Nat.mod_small in Hm by lia. lia.
      * assert (p + 1 = len) as Hpl by lia. rewrite Hpl, Nat.mod_same in Hm by lia. lia.
Qed.
Lemma within_S closed len d l l' : l < len → l' < len →
  within closed len (S d) l l' ↔
  within closed len d l l' ∨ ∃ p, left_of closed len l' = Some p ∧ within closed len d l p.
Proof.
  intros Hl Hl'. split.
  - intros ([|k] & Hk & E).
    + left. exists 0. split; [lia|done].
    + right. set (p := if closed then (l + k) mod len else l + k).
      assert (Hstep : l' = if closed then (p + 1) mod len else p + 1).
      { unfold p. destruct closed; [|lia]. rewrite Nat.add_mod_idemp_l by lia. rewrite E. f_equal. lia. }
      exists p. split; [|exists k; split; [lia|done]]. apply left_of_step; [done|]. split; [|done].
      unfold p. destruct closed; [apply Nat.mod_upper_bound; lia|lia].
  - intros [(k & Hk & E)|(p & Hp & (k & Hk & E))].
    + exists k. split; [lia|done].
    + apply left_of_step in Hp as [Hp Hs]; [|done]. exists (S k). split; [lia|].
      rewrite Hs, E. destruct closed; [|lia]. rewrite Nat.add_mod_idemp_l by lia. f_equal. lia.
Qed.

(** The pasts of a row of the fence. *)
Lemma fence_row_lookup closed len r loop k : k < len → length loop = len →
  ∃ P, fence_row closed len r loop !! k = Some (LInt (Z.of_nat (r * len + k + 1)), P) ∧
    ∀ p, p ∈ (P : gset nat) ↔ loop !! k = Some p ∨ ∃ l, left_of closed len k = Some l ∧ loop !! l = Some p.
Proof.
  intros Hk Hlen. unfold fence_row. rewrite list_lookup_fmap, lookup_seq_lt by done. cbn [fmap option_fmap option_map].
  replace (0 + k + (r * len + 1)) with (r * len + k + 1) by lia. cbn [Nat.add].
  assert (Hlk : ∀ l p, l < len → p = loop !!! l ↔ loop !! l = Some p).
  { intros l p Hl. rewrite list_lookup_alt. split; [intros ->; split; [lia|done]|intros [_ ->]; done]. }
  eexists. split; [done|]. intros p. unfold left_of. destruct (decide (k = 0)) as [->|Hne].
  - destruct closed.
    + rewrite elem_of_union, !elem_of_singleton, !Hlk by lia. naive_solver.
    + rewrite elem_of_singleton, Hlk by lia. naive_solver.
  - rewrite elem_of_union, !elem_of_singleton, !Hlk by lia. naive_solver.
Qed.

Lemma left_of_lt closed len k l : k < len → left_of closed len k = Some l → l < len.
Proof. intros Hk H. by apply left_of_step in H as [? _]. Qed.

Section fence.
Context (it : oracle) (Hit : iter_ok it) (closed : bool) (len : nat) (Hlen : 0 < len).

(** [evs] holds the first [m] levels, each of [len] places, row after row. *)
Definition fence_upto (h : heap) (m : nat) (evs : list nat) : Prop :=
  length evs = m * len ∧
  (∀ i x, evs !! i = Some x → lab h x = LInt (Z.of_nat i + 1)) ∧
  (∀ r l r' l' x y, l < len → l' < len → evs !! (r * len + l) = Some x →
     evs !! (r' * len + l') = Some y →
     before h x y ↔ r < r' ∧ within closed len (r' - r) l l').

Lemma fence_levels_spec h0 n : ∀ m loop E h evs,
  fresh_causet h0 h evs → fence_upto h (S m) evs → length loop = len →
  (∀ l x, loop !! l = Some x ↔ l < len ∧ evs !! (m * len + l) = Some x) →
  E = list_to_set evs →
  ∃ h' evs', fence_levels it closed len (seq (S m) n) loop E h = (h', list_to_set evs') ∧
    fresh_causet h0 h' evs' ∧ fence_upto h' (S m + n) evs'.
Proof using Hit Hlen.
  induction n as [|n IH]; intros m loop E h evs Hf Hu Hll Hloop ->.
  { cbn [seq fence_levels]. exists h, evs. split_and!; [done|done|]. by replace (S m + 0) with (S m) by lia. }
  cbn [seq fence_levels]. destruct Hu as (HL & Hlab & Hord).
  assert (Hrl : length (fence_row closed len (S m) loop) = len).
  { unfold fence_row. by rewrite fmap_length, seq_length. }
  destruct (alloc_list_spec it h0 (fence_row closed len (S m) loop) h evs Hit Hf) as
    (IF & IL & ID & IN & IR & IK).
  { intros l P p [k Hk]%elem_of_list_lookup Hp. pose proof (lookup_lt_Some _ _ _ Hk) as Hkl.
    rewrite Hrl in Hkl. destruct (fence_row_lookup closed len (S m) loop k Hkl Hll) as (P' & HP' & Hp').
    rewrite HP' in Hk. injection Hk as <- <-. apply Hp' in Hp as [Hp|(l & _ & Hp)];
      apply Hloop in Hp as [_ Hp]; by eapply elem_of_list_lookup_2. }
  destruct (alloc_list it (fence_row closed len (S m) loop) h) as [h1 next] eqn:El. cbn [fst snd] in *.
  rewrite Hrl in IL.
  assert (Hold : ∀ y, y ∈ evs → y ∉ next).
  { intros y Hy Hn. apply (IN y Hn). by apply (fc_in _ _ _ Hf). }
  assert (Hnl : ∀ i x, (evs ++ next) !! i = Some x ↔
      (i < S m * len ∧ evs !! i = Some x) ∨ (S m * len ≤ i ∧ next !! (i - S m * len) = Some x)).
  { intros i x. rewrite lookup_app_Some, HL. split; [|intros [[_ ?]|?]; auto].
    intros [He|?]; [left|by right]. split; [|done]. rewrite <- HL. by eapply lookup_lt_Some. }
  destruct (IH (S m) next (list_to_set evs ∪ list_to_set next) h1 (evs ++ next)) as (h' & evs' & H1 & H2 & H3).
  - done.
  - split_and!.
    + rewrite app_length, HL, IL. lia.
    + intros i x Hi. apply Hnl in Hi as [[Hi He]|[Hi He]].
      * destruct (IR x) as (_ & -> & _); [|by apply Hlab]. by eapply Hold, elem_of_list_lookup_2.
      * pose proof (lookup_lt_Some _ _ _ He) as Hlt. rewrite IL in Hlt.
        destruct (fence_row_lookup closed len (S m) loop _ Hlt Hll) as (P' & HP' & _).
        destruct (IK _ _ _ _ He HP') as (-> & _). f_equal. lia.
    + assert (Hrow : ∀ r l i, l < len → i = r * len + l → i < S m * len ↔ r < S m) by (intros; nia).
      intros r l r' l' x y Hl Hl' Hx Hy. apply Hnl in Hx, Hy.
      destruct Hy as [[Hy0 Hy]|[Hy0 Hy]].
      * assert (Hb : before h1 x y ↔ before h x y).
        { unfold before. destruct (IR y) as (-> & _); [|done]. by eapply Hold, elem_of_list_lookup_2. }
        rewrite Hb. destruct Hx as [[Hx0 Hx]|[Hx0 Hx]]; [by apply Hord|].
        split; [|nia]. intros Hxy. exfalso. apply (IN x); [by eapply elem_of_list_lookup_2|].
        by apply (prec_dom_l h (fc_order _ _ _ Hf) x y).
      * pose proof (lookup_lt_Some _ _ _ Hy) as Hlt. rewrite IL in Hlt.
        assert (r' = S m) as -> by nia.
        replace (S m * len + l' - S m * len) with l' in Hy, Hlt by lia.
        destruct (fence_row_lookup closed len (S m) loop l' Hl' Hll) as (P' & HP' & Hp').
        destruct (IK _ _ _ _ Hy HP') as (_ & _ & Hpy). unfold before. rewrite Hpy.
        assert (HP : ∀ p, p ∈ P' ↔ ∃ q, q < len ∧ (q = l' ∨ left_of closed len l' = Some q) ∧
                                     evs !! (m * len + q) = Some p).
        { intros p. rewrite Hp'. setoid_rewrite Hloop. split.
          - intros [[H1 H2]|(q & H1 & H2 & H3)]; [exists l'|exists q]; auto.
          - intros (q & H1 & [->|H2] & H3); [by left|right; eauto]. }
        destruct Hx as [[Hx0 Hx]|[Hx0 Hx]].
        -- assert (Hr : r ≤ m) by nia. replace (S m - r) with (S (m - r)) by lia.
           rewrite within_S by done. split.
           ++ intros (p & (q & Hq & Hq' & Hp)%HP & Hxp). split; [lia|].
              assert (Hw : within closed len (m - r) l q).
              { destruct Hxp as [->|Hxp].
                - pose proof (NoDup_lookup _ _ _ _ (fc_nodup _ _ _ Hf) Hx Hp) as Heq.
                  assert (r = m) as -> by nia. assert (l = q) as -> by lia.
                  replace (m - m) with 0 by lia. by apply within_0.
                - exact (proj2 (proj1 (Hord r l m q x p Hl Hq Hx Hp) Hxp)). }
              destruct Hq' as [->|Hq']; [by left|right; eauto].
           ++ intros [_ Hw].
              assert (Hq : ∃ q, q < len ∧ (q = l' ∨ left_of closed len l' = Some q) ∧ within closed len (m - r) l q).
              { destruct Hw as [Hw|(q & Hq & Hw)]; [exists l'; auto|].
                exists q. split_and!; [exact (left_of_lt _ _ _ _ Hl' Hq)|by right|done]. }
              destruct Hq as (q & Hq & Hq' & Hwq).
              assert (Hin : is_Some (evs !! (m * len + q))) by (apply lookup_lt_is_Some; nia).
              destruct Hin as [p Hp]. exists p. split; [apply HP; eauto|].
              destruct (decide (r = m)) as [->|Hrm].
              ** left. replace (m - m) with 0 in Hwq by lia. apply within_0 in Hwq as ->; [|done]. congruence.
              ** right. apply (Hord r l m q x p); try done. split; [lia|done].
        -- assert (Hr : S m ≤ r) by nia. split; [|lia]. intros (p & (q & _ & _ & Hp)%HP & Hxp).
           apply elem_of_list_lookup_2 in Hp, Hx. exfalso. destruct Hxp as [->|Hxp].
           ++ by apply (Hold p).
           ++ apply (IN x Hx). by apply (prec_dom_l h (fc_order _ _ _ Hf) x p).
  - done.
  - intros l x. rewrite Hnl. split.
    + intros He. pose proof (lookup_lt_Some _ _ _ He) as Hlt. rewrite IL in Hlt. split; [done|].
      right. split; [lia|]. by replace (S m * len + l - S m * len) with l by lia.
    + intros [Hl [[? _]|[_ He]]]; [lia|]. by replace (S m * len + l - S m * len) with l in He by lia.
  - by rewrite list_to_set_app_L.
  - exists h', evs'. rewrite H1. split_and!; [done|done|].
    by replace (S m + S n) with (S (S m) + n) by lia.
Qed.
End fence.

Lemma NewFence_spec it h length height closed :
  iter_ok it → order_inv h → link_inv h → (2 <= length)%Z → (0 <= height)%Z →
  ∃ h' evs, NewFence it length height closed h = (h', Ok (list_to_set evs)) ∧
    fresh_causet h h' evs ∧
    fence_upto closed (Z.to_nat length) h' (Z.to_nat height + 1) evs.
Proof.
  intros Hit HO HL Hlen Hh. unfold NewFence.
  destruct (decide (length < 1 ∨ height < 0)%Z); [lia|]. destruct (decide (length = 1)%Z); [lia|].
  set (len := Z.to_nat length). set (args := (λ l, (LInt (Z.of_nat l), ∅)) <$> seq 1 len).
  destruct (alloc_list_spec it h args h [] Hit (fresh_causet_nil h HO HL)) as (IF & IL & ID & IN & IR & IK).
  { intros l P p Hin Hp. unfold args in Hin. apply elem_of_list_fmap in Hin as (? & [= -> ->] & _).
    by apply elem_of_empty in Hp. }
  destruct (alloc_list it args h) as [h0 loop] eqn:El. cbn [fst snd app] in *.
  assert (Hll : base.length loop = len) by (rewrite IL; unfold args; by rewrite fmap_length, seq_length).
  assert (Hpl : ∀ i x, loop !! i = Some x → lab h0 x = LInt (Z.of_nat i + 1) ∧ prec h0 x = ∅).
  { intros i x Hi. pose proof (lookup_lt_Some _ _ _ Hi) as Hlt. rewrite Hll in Hlt.
    destruct (IK i x (LInt (Z.of_nat (1 + i))) ∅ Hi) as (-> & _ & Hp).
    { unfold args. by rewrite list_lookup_fmap, lookup_seq_lt. }
    split; [f_equal; lia|]. apply set_eq. intros y. rewrite Hp. split; [|set_solver].
    intros (p & Hp' & _). by apply elem_of_empty in Hp'. }
  destruct (fence_levels_spec it Hit closed len ltac:(lia) h (Z.to_nat height) 0 loop (list_to_set loop) h0 loop)
    as (h' & evs & He & H1 & H2); try done.
  - split_and!; [lia|intros i x Hi; by apply Hpl|].
    intros r l r' l' x y Hl Hl' Hx Hy. unfold before. destruct (Hpl _ _ Hy) as [_ ->].
    split; [set_solver|]. apply lookup_lt_Some in Hy. rewrite Hll in Hy. nia.
  - intros l x. cbn. split; [|tauto]. intros Hl. split; [|done]. rewrite <- Hll. by eapply lookup_lt_Some.
  - rewrite He. exists h', evs. split_and!; [|done|].
    + f_equal. by eapply fresh_causet_ok.
    + by replace (Z.to_nat height + 1) with (1 + Z.to_nat height) by lia.
Qed.
