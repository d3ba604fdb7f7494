(** The loops of DistanceMatrix compute shortest walks: breadth-first search in any symmetric
    graph.  No model definitions here. *)
From Verif Require Import Base Spec EventModel EventFacts CausetModel CausetFacts DistModel DistFacts.

(** * Counting the negative entries *)
Lemma elem_of_pairs (l k : list nat) (p : nat * nat) : p ∈ pairs l k ↔ p.1 ∈ l ∧ p.2 ∈ k.
Proof.
  destruct p as [x y]. unfold pairs. cbn. split.
  - intros Hp. apply elem_of_list_bind in Hp as (a & Hp & Ha).
    apply elem_of_list_fmap in Hp as (b & E & Hb). by injection E as -> ->.
  - intros [Hx Hy]. apply elem_of_list_bind. exists x. split; [|done].
    apply elem_of_list_fmap. by exists y.
Qed.
Lemma pairs_nodup (l k : list nat) : NoDup l → NoDup k → NoDup (pairs l k).
Proof.
  intros Hl Hk. unfold pairs. induction Hl as [|x l Hx Hl IH]; [by constructor|].
  cbn. apply NoDup_app. split_and!.
  - apply NoDup_fmap_2; [|done]. intros a b E. by injection E.
  - intros p Hp Hq. apply elem_of_list_fmap in Hp as (b & -> & Hb).
    apply elem_of_list_bind in Hq as (a & Hq & Ha).
    apply elem_of_list_fmap in Hq as (b' & E & _). injection E as -> ->. done.
  - exact IH.
Qed.
Lemma dm_count_set l D i j d :
  i < l → j < l → i ≠ j → (D i j < 0)%Z → (D j i < 0)%Z → (0 <= d)%Z →
  dm_count l (zset2 D i j d) = (dm_count l D - 2)%Z.
Proof.
  intros Hi Hj Hij H1 H2 Hd. unfold dm_count.
  set (L := pairs (seq 0 l) (seq 0 l)).
  assert (HL : NoDup L) by (apply pairs_nodup; apply NoDup_seq).
  assert (P : filter (λ '(i, j), (D i j < 0)%Z) L ≡ₚ
    (i, j) :: (j, i) :: filter (λ '(x, y), (zset2 D i j d x y < 0)%Z) L).
  { destruct (zset2_eq D i j d) as [E1 E2].
    apply NoDup_Permutation.
    - by apply NoDup_filter.
    - apply NoDup_cons. split.
      + rewrite elem_of_cons, elem_of_list_filter. intros [E|[Hn _]].
        * by injection E.
        * rewrite E1 in Hn. lia.
      + apply NoDup_cons. split; [|by apply NoDup_filter].
        rewrite elem_of_list_filter. intros [Hn _]. rewrite E2 in Hn. lia.
    - intros [x y]. rewrite !elem_of_cons, !elem_of_list_filter.
      assert (HLi : (i, j) ∈ L) by (apply elem_of_pairs; cbn; rewrite !elem_of_seq; lia).
      assert (HLj : (j, i) ∈ L) by (apply elem_of_pairs; cbn; rewrite !elem_of_seq; lia).
      destruct (decide (x = i ∧ y = j)) as [[-> ->]|N1]; [split; [by left|done]|].
      destruct (decide (x = j ∧ y = i)) as [[-> ->]|N2]; [split; [by right; left|done]|].
      rewrite (zset2_ne D i j d x y N1 N2). split.
      + by right; right.
      + intros [E|[E|E]]; [|injection E as -> ->; tauto|done]. injection E as -> ->. tauto. }
  rewrite P. cbn [length]. lia.
Qed.
Lemma dm_count_zero l D : dm_count l D = 0%Z → ∀ i j, i < l → j < l → (0 <= D i j)%Z.
Proof.
  unfold dm_count. intros E i j Hi Hj.
  destruct (decide (D i j < 0)%Z) as [Hn|Hn]; [exfalso|lia].
  assert (Hin : (i, j) ∈ filter (λ '(i, j), (D i j < 0)%Z) (pairs (seq 0 l) (seq 0 l))).
  { apply elem_of_list_filter. split; [done|]. apply elem_of_pairs. cbn. rewrite !elem_of_seq. lia. }
  destruct (filter _ _) as [|p ps]; [by apply elem_of_nil in Hin|]. cbn in E. lia.
Qed.

(** * Shortest walks *)
Section bfs.
Context (l : nat) (G : nat → nat → Prop).
Context (Gdom : ∀ i j, G i j → i < l ∧ j < l) (Gsym : ∀ i j, G i j → G j i).
Context (Girr : ∀ i, ¬ G i i).

Definition short (d i j : nat) : Prop := nsteps G d i j ∧ ∀ n, nsteps G n i j → d ≤ n.

Lemma walk_sym n i j : nsteps G n i j → nsteps G n j i.
Proof using Gsym.
  revert i. induction n as [|n IH]; intros i Hn; inversion Hn; subst; [constructor|].
  eapply nsteps_r; [by apply IH|by apply Gsym].
Qed.
Lemma short_sym d i j : short d i j → short d j i.
Proof using Gsym. intros [H1 H2]. split; [by apply walk_sym|]. intros n Hn. by apply H2, walk_sym. Qed.

(** Split a shortest walk before its last step. *)
Lemma short_last d i j : short (S d) i j → ∃ m, short d i m ∧ G m j.
Proof using.
  intros [H1 H2]. apply nsteps_inv_r in H1 as (m & Hm & HG). exists m. split; [|done].
  split; [done|]. intros n Hn. enough (S d ≤ S n) by lia. apply H2. by eapply nsteps_r.
Qed.
(** A shortest walk visits different vertices. *)
Lemma short_visits d i j : short d i j → i < l →
  ∃ vs, length vs = S d ∧ NoDup vs ∧ (∀ v, v ∈ vs → v < l) ∧ (∀ v, v ∈ vs → ∃ n, n ≤ d ∧ short n i v).
Proof using Gdom.
  intros Hs Hi. revert j Hs. induction d as [|d IH]; intros j Hs.
  - exists [j]. split_and!; [done|apply NoDup_singleton| |].
    + intros v ->%elem_of_list_singleton. destruct Hs as [Hs _]. inversion Hs; subst. done.
    + intros v ->%elem_of_list_singleton. eauto.
  - destruct (short_last d i j Hs) as (m & Hm & HG). destruct (IH m Hm) as (vs & Hl & Hn & Hd & Hv).
    exists (j :: vs). split_and!.
    + cbn. by rewrite Hl.
    + apply NoDup_cons. split; [|done]. intros Hj. destruct (Hv j Hj) as (n & Hn' & Hs').
      destruct Hs as [_ Hs]. specialize (Hs n (proj1 Hs')). lia.
    + intros v [-> |Hv']%elem_of_cons; [|by apply Hd]. by destruct (Gdom _ _ HG).
    + intros v [-> |Hv']%elem_of_cons; [by exists (S d)|].
      destruct (Hv v Hv') as (n & ? & ?). exists n. split; [lia|done].
Qed.
Lemma short_bound d i j : short d i j → i < l → d < l.
Proof using Gdom.
  intros Hs Hi. destruct (short_visits d i j Hs Hi) as (vs & Hl & Hn & Hd & _).
  enough (length vs ≤ length (seq 0 l)) by (rewrite seq_length in *; lia).
  apply submseteq_length, NoDup_submseteq; [done|].
  intros v Hv%Hd. apply elem_of_seq. lia.
Qed.

(** * What the matrix knows at level k *)
Record exact (k : nat) (D : zmat) : Prop := {
  ex_sym : ∀ i j, i < l → j < l → D i j = D j i;
  ex_entry : ∀ i j, i < l → j < l →
    ((D i j < 0)%Z ∧ ∀ n, n ≤ k → ¬ nsteps G n i j) ∨ (∃ d, D i j = Z.of_nat d ∧ short d i j) }.

Lemma ex_diag k D i : exact k D → i < l → D i i = 0%Z.
Proof using.
  intros HE Hi. destruct (ex_entry k D HE i i Hi Hi) as [[_ Hn]|(d & -> & _ & Hs)].
  - destruct (Hn 0); [lia|constructor].
  - specialize (Hs 0 (nsteps_O _ _)). lia.
Qed.
Lemma ex_pos k D i j d : exact k D → i < l → j < l → D i j = Z.of_nat d → short d i j.
Proof using.
  intros HE Hi Hj E. destruct (ex_entry k D HE i j Hi Hj) as [[Hn _]|(d' & E' & Hs)]; [lia|].
  by replace d with d' by lia.
Qed.
Lemma ex_walk k D i j n : exact k D → i < l → j < l → nsteps G n i j → n ≤ k →
  ∃ d, d ≤ n ∧ D i j = Z.of_nat d ∧ short d i j.
Proof using.
  intros HE Hi Hj Hn Hk. destruct (ex_entry k D HE i j Hi Hj) as [[_ Hno]|(d & E & Hs)].
  - by destruct (Hno n Hk).
  - exists d. split_and!; [by apply (proj2 Hs)|done|done].
Qed.
Lemma ex_one k D i j : exact k D → 1 ≤ k → i < l → j < l → G i j → D i j = 1%Z.
Proof using Girr.
  intros HE Hk Hi Hj HG. destruct (ex_walk k D i j 1 HE Hi Hj (nsteps_once _ _ HG) Hk) as (d & Hd & E & Hs).
  rewrite E. destruct d as [|[|d]]; [|done|lia]. destruct Hs as [Hs _]. inversion Hs; subst.
  by destruct (Girr j).
Qed.
Lemma ex_one_inv k D i j : exact k D → i < l → j < l → D i j = 1%Z → G i j.
Proof using.
  intros HE Hi Hj E. destruct (ex_pos k D i j 1 HE Hi Hj E) as [Hs _].
  by apply nsteps_once_inv in Hs.
Qed.

(** A legal update keeps the matrix exact. *)
Lemma exact_set k D i j m :
  exact k D → i < l → j < l → m < l → (D i j < 0)%Z → D i m = Z.of_nat k → D j m = 1%Z →
  exact k (zset2 D i j (Z.of_nat k + 1)).
Proof using Gsym.
  intros HE Hi Hj Hm Hneg Him Hjm.
  destruct (zset2_eq D i j (Z.of_nat k + 1)) as [E1 E2].
  assert (Hs : short (S k) i j).
  { split.
    - eapply nsteps_r; [exact (proj1 (ex_pos k D i m k HE Hi Hm Him))|].
      apply Gsym. by eapply ex_one_inv.
    - intros n Hn. destruct (decide (S k ≤ n)) as [?|Hlt]; [done|exfalso].
      destruct (ex_walk k D i j n HE Hi Hj Hn) as (d & _ & E & _); lia. }
  split.
  - intros x y Hx Hy. unfold zset2. pose proof (ex_sym k D HE x y Hx Hy).
    destruct (decide ((x = i ∧ y = j) ∨ (x = j ∧ y = i))), (decide ((y = i ∧ x = j) ∨ (y = j ∧ x = i)));
      try done; tauto.
  - intros x y Hx Hy.
    destruct (decide (x = i ∧ y = j)) as [[-> ->]|N1].
    { right. exists (S k). rewrite E1. split; [lia|done]. }
    destruct (decide (x = j ∧ y = i)) as [[-> ->]|N2].
    { right. exists (S k). rewrite E2. split; [lia|by apply short_sym]. }
    rewrite (zset2_ne D i j _ x y N1 N2). by apply (ex_entry k D HE).
Qed.

(** * The state of the loops *)
Definition good (k : nat) (st : dm_state) : Prop :=
  let '(D, c, done) := st in
  exact k D ∧ (done = false → c = dm_count l D) ∧
  (done = true → ∀ i j, i < l → j < l → (0 <= D i j)%Z).
Definition mat (st : dm_state) : zmat := st.1.1.
Definition fin (st : dm_state) : bool := st.2.
(** entries that are known stay *)
Definition stays (D D' : zmat) : Prop :=
  ∀ i j, i < l → j < l → (0 <= D i j)%Z → D' i j = D i j.

Lemma body_exact (k i : nat) conn js st :
  1 ≤ k → i < l → good k st → NoDup js →
  (fin st = false → ∀ j, j ∈ js → j < l ∧ (mat st i j < 0)%Z) →
  (∀ m, m < l → conn m = bool_decide (mat st i m = Z.of_nat k)) →
  let st' := foldl (dm_body l i conn) st js in
  good k st' ∧ stays (mat st) (mat st') ∧
  (∀ j, j ∈ js → j < l → (mat st' i j < 0)%Z → ¬ nsteps G (S k) i j).
Proof using Girr Gsym Gdom.
  intros Hk Hi. revert st. induction js as [|j js IH]; intros [[D c] dn] Hg Hnd Hjs Hconn.
  { cbn [foldl]. split; [|split]; [done|by intros ?|]. by intros j Hj%elem_of_nil. }
  apply NoDup_cons in Hnd as [Hj Hnd]. cbn [foldl].
  destruct dn.
  { cbn [dm_body]. destruct (IH (D, c, true)) as (H1 & H2 & H3); try done.
    split; [|split]; [done|done|]. intros j' _ Hj' Hneg.
    exfalso. destruct Hg as (_ & _ & Hg). specialize (Hg eq_refl i j' Hi Hj').
    unfold mat in H2, Hneg. rewrite (H2 i j' Hi Hj') in Hneg by done. cbn in Hneg. lia. }
  destruct (Hjs eq_refl j (elem_of_list_here _ _)) as [Hjl Hneg]. unfold mat in Hneg. cbn in Hneg.
  assert (Hjs' : ∀ j', j' ∈ js → j' < l ∧ (D i j' < 0)%Z).
  { intros j' Hj'. apply (Hjs eq_refl). by apply elem_of_list_further. }
  destruct Hg as (HE & Hc & _). specialize (Hc eq_refl).
  unfold mat in Hconn. cbn [fst] in Hconn.
  cbn [dm_body].
  destruct (filter (λ m, conn m = true ∧ D j m = 1%Z) (seq 0 l)) as [|m ms] eqn:Ef.
  - (* nothing connects them *)
    destruct (IH (D, c, false)) as (H1 & H2 & H3); try done.
    split; [|split]; [done|done|]. intros j' [-> |Hj']%elem_of_cons Hl' Hn'; [|by apply H3].
    intros Hw. apply nsteps_inv_r in Hw as (m & Hm & HG).
    assert (Hml : m < l) by (by destruct (Gdom _ _ HG)).
    destruct (ex_walk k D i m k HE Hi Hml Hm) as (d & Hd & E & Hs); [lia|].
    assert (d = k) as ->.
    { destruct (decide (d = k)) as [?|Hne]; [done|exfalso].
      destruct (ex_walk k D i j (S d) HE Hi Hjl) as (d' & _ & E' & _); [|lia|lia].
      eapply nsteps_r; [exact (proj1 Hs)|done]. }
    assert (Hin : m ∈ filter (λ m, conn m = true ∧ D j m = 1%Z) (seq 0 l)).
    { apply elem_of_list_filter. split; [|apply elem_of_seq; lia]. split.
      - rewrite Hconn by done. by apply bool_decide_eq_true.
      - apply (ex_one k); try done. by apply Gsym. }
    rewrite Ef in Hin. by apply elem_of_nil in Hin.
  - (* set the entry *)
    assert (Hall : ∀ n, n ∈ m :: ms → n < l ∧ D i n = Z.of_nat k ∧ D j n = 1%Z).
    { intros n Hn. rewrite <- Ef in Hn. apply elem_of_list_filter in Hn as [[H1 H2] H3].
      apply elem_of_seq in H3. split_and!; [lia| |done].
      rewrite Hconn in H1 by lia. by apply bool_decide_eq_true in H1. }
    rewrite (zmin_list_const _ _ (Z.of_nat k + 1)).
    2:{ destruct (Hall m (elem_of_list_here _ _)) as (_ & -> & ->). done. }
    2:{ intros y Hy. apply elem_of_list_fmap in Hy as (n & -> & Hn).
        destruct (Hall n) as (_ & -> & ->); [by apply elem_of_list_further|done]. }
    destruct (Hall m (elem_of_list_here _ _)) as (Hm & Him & Hjm).
    assert (Hij : i ≠ j) by (intros ->; rewrite (ex_diag k D j HE Hjl) in Hneg; lia).
    assert (Hji : (D j i < 0)%Z) by (by rewrite (ex_sym k D HE) by done).
    set (D1 := zset2 D i j (Z.of_nat k + 1)).
    assert (Hst : stays D D1).
    { intros x y _ _ Hxy. unfold D1. apply zset2_ne; intros [-> ->]; lia. }
    assert (Hcnt : dm_count l D1 = (c - 2)%Z).
    { unfold D1. rewrite dm_count_set by (done || lia). by rewrite Hc. }
    destruct (IH (D1, (c - 2)%Z, bool_decide (c - 2 = 0)%Z)) as (H1 & H2 & H3).
    + split_and!.
      * by apply (exact_set k D i j m).
      * done.
      * intros E%bool_decide_eq_true. apply dm_count_zero. by rewrite Hcnt.
    + done.
    + intros _ j' Hj'. destruct (Hjs' j' Hj') as [H1 H2]. split; [done|].
      unfold mat. cbn [fst]. unfold D1.
      rewrite zset2_ne; [done|intros [_ ->]; done|intros [-> ->]; done].
    + intros n Hn. rewrite Hconn by done. unfold mat. cbn [fst]. unfold D1.
      apply bool_decide_ext.
      destruct (decide (n = j)) as [->|Hnj].
      * rewrite (proj1 (zset2_eq _ _ _ _)). lia.
      * rewrite zset2_ne; [done|tauto|]. intros [-> ->]. done.
    + assert (Hs2 : stays D (mat (foldl (dm_body l i conn) (D1, (c - 2)%Z, bool_decide (c - 2 = 0)%Z) js))).
      { intros x y Hx Hy Hxy. rewrite H2; try done; unfold mat; cbn [fst]; rewrite Hst; done. }
      split; [|split]; [done|done|].
      intros j' [-> |Hj']%elem_of_cons Hl' Hn'; [exfalso|by apply H3].
      rewrite H2 in Hn'; try done; unfold mat in *; cbn [fst] in *; unfold D1 in *;
        rewrite (proj1 (zset2_eq _ _ _ _)) in *; lia.
Qed.

Lemma stays_refl D : stays D D.
Proof using. by intros i j. Qed.
Lemma stays_trans D1 D2 D3 : stays D1 D2 → stays D2 D3 → stays D1 D3.
Proof using. intros H1 H2 i j Hi Hj Hp. rewrite H2; rewrite ?H1; done. Qed.

Lemma row_exact (k i : nat) st :
  1 ≤ k → i < l → good k st →
  let st' := dm_row l (Z.of_nat k) st i in
  good k st' ∧ stays (mat st) (mat st') ∧
  (∀ j, j < l → (mat st' i j < 0)%Z → ¬ nsteps G (S k) i j).
Proof using Girr Gsym Gdom.
  intros Hk Hi Hg. destruct st as [[D c] dn]. unfold dm_row. destruct dn.
  { split; [|split]; [done|apply stays_refl|]. intros j Hj Hneg. exfalso.
    destruct Hg as (_ & _ & Hg). specialize (Hg eq_refl i j Hi Hj). unfold mat in Hneg. cbn in Hneg. lia. }
  destruct (body_exact k i (λ m, bool_decide (D i m = Z.of_nat k))
              (filter (λ j, (D i j < 0)%Z) (seq 0 l)) (D, c, false)) as (H1 & H2 & H3); try done.
  - apply NoDup_filter, NoDup_seq.
  - intros _ j Hj. apply elem_of_list_filter in Hj as [Hj1 Hj2]. apply elem_of_seq in Hj2. split; [lia|done].
  - split; [|split]; [done|done|]. intros j Hj Hneg. apply H3; try done.
    apply elem_of_list_filter. split; [|apply elem_of_seq; lia].
    destruct (decide (D i j < 0)%Z) as [?|Hp]; [done|exfalso].
    rewrite H2 in Hneg; try done; unfold mat in *; cbn in *; lia.
Qed.

Lemma rows_exact (k : nat) is st :
  1 ≤ k → (∀ i, i ∈ is → i < l) → good k st →
  let st' := foldl (dm_row l (Z.of_nat k)) st is in
  good k st' ∧ stays (mat st) (mat st') ∧
  (∀ i j, i ∈ is → j < l → (mat st' i j < 0)%Z → ¬ nsteps G (S k) i j).
Proof using Girr Gsym Gdom.
  intros Hk. revert st. induction is as [|i is IH]; intros st His Hg; cbn [foldl].
  - split; [|split]; [done|apply stays_refl|]. by intros i j Hi%elem_of_nil.
  - assert (Hi : i < l) by (apply His, elem_of_list_here).
    destruct (row_exact k i st Hk Hi Hg) as (H1 & H2 & H3).
    destruct (IH (dm_row l (Z.of_nat k) st i)) as (H4 & H5 & H6); [|done|].
    { intros i' Hi'. apply His. by apply elem_of_list_further. }
    split; [|split]; [done|by eapply stays_trans|].
    intros i' j [-> |Hi']%elem_of_cons Hj Hneg; [|by apply H6].
    apply H3; [done|].
    destruct (decide (mat (dm_row l (Z.of_nat k) st i) i j < 0)%Z) as [?|Hp]; [done|exfalso].
    rewrite H5 in Hneg; try done; lia.
Qed.
Lemma level_exact (k : nat) st :
  1 ≤ k → good k st → good (S k) (dm_level l st k).
Proof using Girr Gsym Gdom.
  intros Hk Hg. unfold dm_level.
  destruct (rows_exact k (seq 0 l) st Hk) as (H1 & H2 & H3); [|done|].
  { intros i Hi%elem_of_seq. lia. }
  destruct (foldl _ _ _) as [[D c] dn]. destruct H1 as (HE & Hc & Hd). unfold mat in H3. cbn in H3.
  split_and!; [|done|done]. split; [by apply (ex_sym k)|].
  intros i j Hi Hj. destruct (ex_entry k D HE i j Hi Hj) as [[Hn Hno]|?]; [left|by right].
  split; [done|]. intros n Hle. destruct (decide (n = S k)) as [->|Hne].
  - apply H3; [|done|done]. apply elem_of_seq. lia.
  - apply Hno. lia.
Qed.
Lemma extend_exact D :
  exact 1 D → good (S (l - 1)) (dm_extend l D).
Proof using Girr Gsym Gdom.
  intros HE. unfold dm_extend.
  cut (∀ n k st, 1 ≤ k → good k st → good (k + n) (foldl (dm_level l) st (seq k n))).
  { intros H. specialize (H (l - 1) 1 (D, dm_count l D, false)). cbn [Nat.add] in H.
    apply H; [done|]. split_and!; [done|done|done]. }
  induction n as [|n IH]; intros k st Hk Hg; cbn [seq foldl].
  - by rewrite Nat.add_0_r.
  - rewrite <- Nat.add_succ_comm. apply IH; [lia|]. by apply level_exact.
Qed.

(** The final matrix: no entry of a connected pair is left out. *)
Record solved (D : zmat) : Prop := {
  so_sym : ∀ i j, i < l → j < l → D i j = D j i;
  so_entry : ∀ i j, i < l → j < l →
    ((D i j < 0)%Z ∧ ∀ n, ¬ nsteps G n i j) ∨ (∃ d, D i j = Z.of_nat d ∧ short d i j) }.
Lemma exact_solved D : exact (S (l - 1)) D → solved D.
Proof using Gdom.
  intros HE. split; [by apply (ex_sym _ D HE)|].
  intros i j Hi Hj. destruct (ex_entry _ D HE i j Hi Hj) as [[Hn Hno]|?]; [left|by right].
  split; [done|]. intros n Hw.
  assert (Hall : ∀ n j, nsteps G n i j → j < l ∧ ∃ d, D i j = Z.of_nat d ∧ short d i j).
  { clear n j Hj Hn Hno Hw. induction n as [|n IH]; intros j Hw.
    - inversion Hw; subst. split; [done|].
      destruct (ex_walk _ D j j 0 HE Hi Hi Hw) as (d & _ & ? & ?); [lia|]. eauto.
    - apply nsteps_inv_r in Hw as (m & Hm & HG). destruct (IH m Hm) as (Hml & d & E & Hs).
      destruct (Gdom _ _ HG) as [_ Hj]. split; [done|].
      pose proof (short_bound d i m Hs Hi).
      destruct (ex_walk _ D i j (S d) HE Hi Hj) as (d' & _ & ? & ?); [|lia|eauto].
      eapply nsteps_r; [exact (proj1 Hs)|done]. }
  destruct (Hall n j Hw) as (_ & d & E & _). lia.
Qed.
Lemma solved_exact k D : solved D → exact k D.
Proof using.
  intros HS. split; [by apply (so_sym D HS)|].
  intros i j Hi Hj. destruct (so_entry D HS i j Hi Hj) as [[Hn Hno]|?]; [left|by right].
  split; [done|]. intros n _. apply Hno.
Qed.
Lemma extend_solved D :
  exact 1 D → ∃ D' c dn, dm_extend l D = (D', c, dn) ∧ solved D'.
Proof using Girr Gsym Gdom.
  intros HE. pose proof (extend_exact D HE) as H.
  destruct (dm_extend l D) as [[D' c] dn]. exists D', c, dn. split; [done|].
  apply exact_solved, H.
Qed.
End bfs.
