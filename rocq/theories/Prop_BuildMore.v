(** More about FromTextFile (C20) and the unlink option of add and discard (C24). *)
From Verif Require Import Base Spec EventModel EventFacts History HistoryFacts PathFacts RankFacts
  EventProps CausetModel CausetFacts IntervalFacts SortFacts LayerFacts Prop_Event Prop_Causet
  PyStr SpecBuild BuildModel BuildFacts FenceFacts SimplexFacts MatrixFacts MatrixLinkFacts
  CsvFacts MergeFacts Prop_Build.
From Coq Require Import Ascii.

(** ** C20: any text file made of rows of plain fields *)

(** Letters and digits. *)
Definition alnum (a : ascii) : Prop :=
  let n := nat_of_ascii a in
  (48 ≤ n ∧ n ≤ 57) ∨ (65 ≤ n ∧ n ≤ 90) ∨ (97 ≤ n ∧ n ≤ 122).
Fixpoint all_chars (P : ascii → Prop) (s : string) : Prop :=
  match s with EmptyString => True | String a s' => P a ∧ all_chars P s' end.
(** A non-empty field of letters and digits. *)
Definition plain_field (s : string) : Prop := s ≠ EmptyString ∧ all_chars alnum s.
(** A field that reads as the number zero: 0, 00, 000, ... *)
Definition zero_field (s : string) : Prop := s ≠ EmptyString ∧ all_chars (λ a, a = "0"%char) s.
(** The text of a file with these rows of fields: the fields of a row are separated by commas,
    every row ends with a line feed (character 10). *)
Fixpoint line_text (row : list string) : string :=
  match row with
  | [] => EmptyString
  | [s] => s
  | s :: row' => s +:+ String ","%char (line_text row')
  end.
Fixpoint file_text (rows : list (list string)) : string :=
  match rows with
  | [] => EmptyString
  | row :: rows' => line_text row +:+ String "010"%char (file_text rows')
  end.
(** The entry in row [i] and column [j]: true unless it reads as zero. *)
Definition cell (rows : list (list string)) (i j : nat) (b : bool) : Prop :=
  ∃ row s, rows !! i = Some row ∧ row !! j = Some s ∧ (b = false ↔ zero_field s).
Definition plain_rows (rows : list (list string)) : Prop :=
  ∀ row, row ∈ rows → row ≠ [] ∧ ∀ s, s ∈ row → plain_field s.

Lemma line_text_join row : line_text row = join "," row.
Proof.
  induction row as [|s row IH]; [done|]. destruct row as [|t row]; [done|].
  change (line_text (s :: t :: row)) with (s +:+ String ","%char (line_text (t :: row))). by rewrite IH.
Qed.
Lemma alnum_no c s : ¬ alnum c → all_chars alnum s → no_char c s.
Proof.
  intros Hc. induction s as [|a s IH]; cbn [all_chars no_char]; [done|]. intros [Ha Hs].
  split; [intros ->; done|by apply IH].
Qed.
Lemma parse_zero s : ∀ acc, parse_digits acc s = Some 0 ↔ acc = 0 ∧ all_chars (λ a, a = "0"%char) s.
Proof.
  induction s as [|a s IH]; intros acc; cbn [parse_digits all_chars].
  { split; [by intros [= ->]|by intros [-> _]]. }
  unfold digit_val. destruct (decide _) as [[H1 H2]|Hn].
  - rewrite IH. split.
    + intros [Hz Hs]. assert (nat_of_ascii a = 48) as E by lia. split; [lia|]. split; [|done].
      rewrite <- (ascii_nat_embedding a), E. done.
    + intros (-> & -> & Hs). split; [|done]. by vm_compute.
  - split; [done|]. intros (_ & -> & _). exfalso. apply Hn. vm_compute. split; lia.
Qed.
Lemma field_bool_spec s : field_bool s = false ↔ zero_field s.
Proof.
  unfold field_bool, zero_field. destruct s as [|a s]; [by split; [done|intros [? _]]|].
  pose proof (parse_zero (String a s) 0) as H. destruct (parse_digits 0 (String a s)) as [[|n]|].
  - split; [|done]. intros _. split; [done|]. by apply H.
  - split; [done|]. intros [_ Hz]. assert (Some (S n) = Some 0) by (apply H; done). done.
  - split; [done|]. intros [_ Hz]. assert (@None nat = Some 0) by (apply H; done). done.
Qed.
Lemma join_nonempty c row : row ≠ [] → (∀ s, s ∈ row → s ≠ EmptyString) → join c row ≠ EmptyString.
Proof.
  destruct row as [|s row]; [done|]. intros _ H. assert (s ≠ EmptyString) by apply H, elem_of_list_here.
  destruct row as [|t row]; [done|]. change (join c (s :: t :: row)) with (s +:+ String c (join c (t :: row))).
  by destruct s.
Qed.
Lemma file_lines rows : plain_rows rows →
  filter (λ s, s ≠ EmptyString) (split_on newline (file_text rows)) = join "," <$> rows.
Proof.
  induction rows as [|row rows IH]; intros H; [done|]. cbn [file_text]. rewrite line_text_join. change "010"%char with newline.
  destruct (H row (elem_of_list_here _ _)) as [Hr Hf].
  rewrite split_on_app; cycle 1.
  { apply join_no; [done|]. intros s Hs. apply alnum_no; [|by apply Hf].
    unfold alnum, newline. rewrite nat_ascii_embedding by lia. lia. }
  rewrite filter_cons_True; cycle 1.
  { apply join_nonempty; [done|]. intros s Hs. by apply Hf. }
  cbn [fmap list_fmap]. f_equal. apply IH. intros r Hr'. apply H. by apply elem_of_list_further.
Qed.
Definition bools (rows : list (list string)) : matrix := (λ row : list string, field_bool <$> row) <$> rows.
Lemma file_matrix rows : plain_rows rows →
  (λ line, field_bool <$> split_on "," line) <$> (join "," <$> rows) = bools rows.
Proof.
  intros H. unfold bools. rewrite <- list_fmap_compose. apply list_fmap_ext. intros i row Hi. cbn. f_equal.
  destruct (H row) as [Hr Hf]; [by eapply elem_of_list_lookup_2|].
  apply split_join; [done|]. intros s Hs. apply alnum_no; [|by apply Hf].
  vm_compute. lia.
Qed.
Lemma genfromtxt_rows rows : plain_rows rows →
  genfromtxt (file_text rows) =
    if decide (Forall (λ row : list bool, length row = length (default [] (head (bools rows))))
        (bools rows))
    then Ok (squeeze (bools rows)) else Err ValueError.
Proof. intros H. unfold genfromtxt. by rewrite file_lines, file_matrix. Qed.
Lemma head_len rows : length (default [] (head (bools rows))) = length (default [] (head rows)).
Proof. destruct rows as [|r rows]; [done|]. cbn. by rewrite fmap_length. Qed.

(** Rows of different lengths: ValueError; no event is created. *)
Theorem C20_ragged (it : oracle) (h : heap) (rows : list (list string)) (r1 r2 : list string) (past : bool) :
  plain_rows rows → r1 ∈ rows → r2 ∈ rows → length r1 ≠ length r2 →
  FromTextFile it (file_text rows) past h = (h, [], Err ValueError).
Proof.
  intros H H1 H2 Hne. unfold FromTextFile. rewrite genfromtxt_rows by done. rewrite decide_False; [done|].
  rewrite head_len; unfold bools; rewrite Forall_fmap, Forall_forall. intros Hall.
  pose proof (Hall r1 H1) as E1. pose proof (Hall r2 H2) as E2. cbn in E1, E2. rewrite fmap_length in E1, E2. congruence.
Qed.
Print Assumptions C20_ragged.
(** Fewer than two rows or fewer than two columns: IndexError; no event is created. *)
Theorem C20_thin (it : oracle) (h : heap) (rows : list (list string)) (c : nat) (past : bool) :
  plain_rows rows → (∀ row, row ∈ rows → length row = c) → length rows ≤ 1 ∨ c ≤ 1 →
  FromTextFile it (file_text rows) past h = (h, [], Err IndexError).
Proof.
  intros H Hc Hthin. unfold FromTextFile. rewrite genfromtxt_rows by done. rewrite decide_True; cycle 1.
  { rewrite head_len; unfold bools; rewrite Forall_fmap, Forall_forall. intros row Hr. cbn. rewrite fmap_length, (Hc row Hr).
    destruct rows as [|r0 rows]; [by apply elem_of_nil in Hr|]. cbn. symmetry. apply Hc, elem_of_list_here. }
  destruct rows as [|r0 rows]; [done|].
  destruct (H r0 (elem_of_list_here _ _)) as [H0 _]. assert (Hl0 : length r0 = c) by apply Hc, elem_of_list_here.
  unfold bools. cbn [fmap list_fmap].
  destruct rows as [|r1 rows]; cbn [fmap list_fmap].
  - destruct r0 as [|s [|t r0]]; done.
  - cbn in Hthin. destruct r0 as [|s [|t r0]]; cbn in Hl0; [done| |lia]. done.
Qed.
Print Assumptions C20_thin.
(** At least two rows and columns: the causet of the matrix whose entries are false exactly where
    the field reads as zero. *)
Theorem C20_any_file (it : oracle) (h : heap) (rows : list (list string)) (c : nat) :
  plain_rows rows → (∀ row, row ∈ rows → length row = c) → 2 ≤ length rows → 2 ≤ c →
  ∃ M : nat → nat → bool,
    (∀ i j, i < length rows → j < c → cell rows i j (M i j)) ∧
    FromTextFile it (file_text rows) true h = FromPastMatrix it (length rows) c M h ∧
    FromTextFile it (file_text rows) false h = FromFutureMatrix it (length rows) c M h.
Proof.
  intros H Hc Hr2 Hc2. set (B := bools rows).
  exists (mat_get B). split.
  - intros i j Hi Hj. destruct (lookup_lt_is_Some_2 rows i Hi) as [row Hrow].
    assert (Hlen : length row = c) by (eapply Hc, elem_of_list_lookup_2, Hrow).
    destruct (lookup_lt_is_Some_2 row j) as [s Hs]; [lia|]. exists row, s. split_and!; [done|done|].
    unfold mat_get, B, bools. rewrite list_lookup_fmap, Hrow. cbn. rewrite list_lookup_fmap, Hs. cbn.
    apply field_bool_spec.
  - assert (E : genfromtxt (file_text rows) = Ok (Arr2 B)).
    { rewrite genfromtxt_rows by done. rewrite decide_True; cycle 1.
      { rewrite head_len; unfold bools; rewrite Forall_fmap, Forall_forall. intros row Hr. cbn. rewrite fmap_length, (Hc row Hr).
        destruct rows as [|r0 rows]; [by apply elem_of_nil in Hr|]. cbn. symmetry. apply Hc, elem_of_list_here. }
      f_equal. unfold B, bools. destruct rows as [|r0 [|r1 rows]]; cbn in Hr2; [lia|lia|].
      assert (Hl0 : length r0 = c) by apply Hc, elem_of_list_here.
      destruct r0 as [|s [|t r0]]; cbn in Hl0; [lia|lia|]. done. }
    assert (Hhd : length (default [] (head B)) = c).
    { unfold B. rewrite head_len. destruct rows as [|r0 rows]; [cbn in Hr2; lia|]. cbn. apply Hc, elem_of_list_here. }
    unfold FromTextFile. rewrite E, Hhd. unfold B, bools. rewrite fmap_length. done.
Qed.
Print Assumptions C20_any_file.
(** The file written by saveAsCSV: one row and one column for every event, pasts before futures; the
    field is 1 if the event of the column is in the past of the event of the row and 0 otherwise. *)
Theorem C20_written (it : oracle) (argsort : argsort_t) (h : heap) (C : gset nat) :
  iter_ok it → argsort_ok argsort → order_inv h → (size C ≤ 1 ∨ ∀ x, x ∈ C → lab h x ≠ LNone) →
  ∃ l rows, linear_extension (before h) C l ∧ saveAsCSV it argsort h C = Ok (file_text rows) ∧
    length rows = length l ∧
    ∀ i x, l !! i = Some x → ∃ row, rows !! i = Some row ∧ length row = length l ∧
      ∀ j y, l !! j = Some y →
        (before h y x → row !! j = Some "1"%string) ∧ (¬ before h y x → row !! j = Some "0"%string).
Proof.
  intros Hit Has HO Hlab. destruct (C26_sortedByCausality it argsort h C Hit Has HO Hlab) as [(l & El & Hl) _].
  exists l, ((λ x, (λ y, if bool_decide (y ∈ prec h x) then "1" else "0")%string <$> l) <$> l).
  split; [done|]. split; [|split; [by rewrite fmap_length|]].
  - unfold saveAsCSV, PastMatrix. rewrite El. cbn [res_map]. f_equal.
    assert (HG : ∀ k, savetxt ((λ a, (λ b, ev_gt h a b) <$> l) <$> k) =
      file_text ((λ x, (λ y, if bool_decide (y ∈ prec h x) then "1" else "0")%string <$> l) <$> k)); [|apply HG].
    induction k as [|a k IH]; [done|]. cbn [fmap list_fmap file_text]. rewrite <- IH, line_text_join.
    unfold savetxt. cbn [foldr]. f_equal. unfold csv_line. f_equal.
    change (csv_field <$> ((λ b, ev_gt h a b) <$> l) = (λ y, if bool_decide (y ∈ prec h a) then "1" else "0")%string <$> l).
    rewrite <- list_fmap_compose. done.
  - intros i x Hi. eexists. split; [rewrite list_lookup_fmap, Hi; done|]. split; [by rewrite fmap_length|].
    intros j y Hj. rewrite list_lookup_fmap, Hj. cbn. unfold before. split; intros Hb.
    + by rewrite bool_decide_eq_true_2.
    + by rewrite bool_decide_eq_false_2.
Qed.
Print Assumptions C20_written.
Example C20_files_nonvacuous :
  let rows := [["00"; "0"]; ["7"; "x"]]%string in
  plain_rows rows ∧ zero_field "00" ∧ ¬ zero_field "7" ∧ ¬ zero_field "x" ∧
  genfromtxt (file_text [["1"; "0"]; ["1"]]%string) = Err ValueError.
Proof.
  split_and!.
  - intros row Hr. apply elem_of_cons in Hr as [-> |Hr]; [|apply elem_of_list_singleton in Hr as ->].
    all: split; [done|]; intros s Hs; repeat (apply elem_of_cons in Hs as [-> |Hs]); try by apply elem_of_nil in Hs.
    all: split; [done|]; cbn; unfold alnum; vm_compute; lia.
  - done.
  - intros [_ [H _]]. done.
  - intros [_ [H _]]. done.
  - by vm_compute.
Qed.

(** ** C24: the effect of unlink=True *)
Lemma unlink_loop_prefix l : ∀ h, NoDup l → link_paired h →
  ∃ l1 l2, l = l1 ++ l2 ∧ (∀ x, x ∈ l1 → hasBeenLinked h x = true) ∧
    (∀ y, fst (unlink_loop l h) !!! y =
       if decide (y ∈ l1) then set_lsucc None (set_lprec None (h !!! y)) else h !!! y) ∧
    (snd (unlink_loop l h) = Ok tt ∧ l2 = [] ∨
     snd (unlink_loop l h) = Err AttributeError ∧ ∃ x, head l2 = Some x ∧ hasBeenLinked h x = false).
Proof.
  induction l as [|x l IH]; intros h Hnd HP.
  { exists [], []. split_and!; [done| |done|by left]. intros x Hx. by apply elem_of_nil in Hx. }
  apply NoDup_cons in Hnd as [Hx Hnd]. cbn [unlink_loop].
  destruct (lprec h x) as [lp|] eqn:E1.
  - destruct (lsucc h x) as [ls|] eqn:E2; [|exfalso; apply HP in E2; congruence].
    destruct (unlink_linked h x lp ls E1 E2) as [Hok Hlk].
    destruct (EventModel.unlink h x) as [h1 r]. cbn in Hok, Hlk. subst r.
    assert (HP1 : link_paired h1).
    { intros y. unfold lprec, lsucc. rewrite !Hlk. destruct (decide _); [done|]. apply HP. }
    assert (Hbl : ∀ y, y ≠ x → hasBeenLinked h1 y = hasBeenLinked h y).
    { intros y Hy. unfold hasBeenLinked, lprec, lsucc. rewrite !Hlk. by rewrite !decide_False by done. }
    destruct (IH h1 Hnd HP1) as (l1 & l2 & -> & H1 & H2 & H3). exists (x :: l1), l2. split_and!; [done| | |].
    + intros y [-> |Hy]%elem_of_cons; [unfold hasBeenLinked; by rewrite E1, E2|]. rewrite <- Hbl; [by apply H1|].
      intros ->. apply Hx. apply elem_of_app. by left.
    + intros y. rewrite H2, Hlk. destruct (decide (y = x)) as [->|Hn].
      * rewrite (decide_False (P := x ∈ l1)); [|intros Hc; apply Hx, elem_of_app; by left].
        rewrite decide_True; [done|apply elem_of_list_here].
      * destruct (decide (y ∈ l1)) as [Hy|Hy].
        -- by rewrite decide_True by (by apply elem_of_list_further).
        -- rewrite decide_False; [done|]. by intros [?|?]%elem_of_cons.
    + destruct H3 as [[H3 ->]|(H3 & z & Hz & Hzf)]; [by left|right]. split; [done|]. exists z. split; [done|].
      rewrite <- Hbl; [done|]. intros ->. apply Hx, elem_of_app. right. destruct l2; [done|]. cbn in Hz.
      injection Hz as ->. apply elem_of_list_here.
  - rewrite unlink_unlinked by done. cbn. exists [], (x :: l). split_and!; [done| | |].
    + intros y Hy. by apply elem_of_nil in Hy.
    + intros y. rewrite decide_False; [done|apply not_elem_of_nil].
    + right. split; [done|]. exists x. split; [done|]. unfold hasBeenLinked. by rewrite E1.
Qed.
(** The events of the new set lose their links one after the other until one that has none is
    met (AttributeError) or all are done; nothing else changes. *)
Definition unlinked_until (h h' : heap) (D : gset nat) (r : res unit) : Prop :=
  ∃ gone : gset nat, gone ⊆ D ∧
    (∀ x, x ∈ gone → hasBeenLinked h x = true ∧ lprec h' x = None ∧ lsucc h' x = None) ∧
    (∀ x, x ∉ gone → h' !!! x = h !!! x) ∧
    (∀ x, prec h' x = prec h x ∧ succ h' x = succ h x ∧ lab h' x = lab h x ∧
          Base.coords h' x = Base.coords h x ∧ Base.pos h' x = Base.pos h x) ∧
    (r = Ok tt ∧ gone = D ∨
     r = Err AttributeError ∧ ∃ x, x ∈ D ∧ x ∉ gone ∧ hasBeenLinked h x = false).
Lemma unlink_loop_until it h D : iter_ok it → link_paired h →
  unlinked_until h (fst (unlink_loop (it 24 D) h)) D (snd (unlink_loop (it 24 D) h)).
Proof.
  intros Hit HP. pose proof (iter_nodup it 24 D Hit) as Hnd.
  destruct (unlink_loop_prefix (it 24 D) h Hnd HP) as (l1 & l2 & El & H1 & H2 & H3).
  destruct (unlink_loop (it 24 D) h) as [h' r]. cbn [fst snd] in *.
  exists (list_to_set l1). split_and!.
  - intros x Hx%elem_of_list_to_set. apply (iter_elem it 24 D x Hit). rewrite El. apply elem_of_app. by left.
  - intros x Hx%elem_of_list_to_set. split; [by apply H1|]. unfold lprec, lsucc. rewrite !H2.
    by rewrite decide_True by done.
  - intros x Hx. rewrite elem_of_list_to_set in Hx. rewrite H2. by rewrite decide_False by done.
  - intros x. unfold prec, succ, lab, Base.coords, Base.pos. rewrite !H2. destruct (decide (x ∈ l1)); done.
  - destruct H3 as [[-> ->]|(-> & x & Hx & Hf)].
    + left. split; [done|]. apply set_eq. intros x. rewrite elem_of_list_to_set.
      rewrite <- (iter_elem it 24 D x Hit), El, app_nil_r. done.
    + right. split; [done|]. exists x. destruct l2 as [|y l2]; [done|]. cbn in Hx. injection Hx as ->. split_and!; [| |done].
      * apply (iter_elem it 24 D x Hit). rewrite El. apply elem_of_app. right. apply elem_of_list_here.
      * rewrite elem_of_list_to_set. intros Hx1. rewrite El in Hnd. apply NoDup_app in Hnd as (_ & Hd & _).
        apply (Hd x Hx1). apply elem_of_list_here.
Qed.
Theorem C24_unlink_effect (it : oracle) (h : heap) (C S : gset nat) :
  iter_ok it → link_paired h →
  (∃ h' r, add it C S true h = (h', C ∪ S, r) ∧ unlinked_until h h' (C ∪ S) r) ∧
  (∃ h' r, discard it C S true h = (h', C ∖ S, r) ∧ unlinked_until h h' (C ∖ S) r).
Proof.
  intros Hit HP. unfold add, discard, add_events, discard_events. split.
  - pose proof (unlink_loop_until it h (C ∪ S) Hit HP) as H.
    destruct (unlink_loop (it 24 (C ∪ S)) h) as [h' r]. by exists h', r.
  - pose proof (unlink_loop_until it h (C ∖ S) Hit HP) as H.
    destruct (unlink_loop (it 24 (C ∖ S)) h) as [h' r]. by exists h', r.
Qed.
Print Assumptions C24_unlink_effect.
(** Event 3 has no links: the events before it in the iteration have already lost theirs. *)
Example C24_effect_nonvacuous :
  link_paired demo ∧
  snd (add it_elements {[0]} {[3]} true demo) = Err AttributeError ∧
  snd (discard it_elements {[0; 3]} {[3]} true demo) = Ok tt ∧ hasBeenLinked demo 0 = true ∧
  hasBeenLinked (fst (fst (discard it_elements {[0; 3]} {[3]} true demo))) 0 = false.
Proof. split; [apply link_inv_paired, demo_link|]. split_and!; decide_vm. Qed.
