(** Facts about the CSV files of saveAsCSV and FromTextFile. *)
From Verif Require Import Base Spec EventModel EventFacts CausetModel CausetFacts BuildModel
  BuildFacts FenceFacts MatrixFacts PyStr.
From Coq Require Import Ascii.

Lemma csv_field_no b (c : ascii) : c ≠ "0"%char → c ≠ "1"%char → no_char c (csv_field b).
Proof. intros H0 H1. destruct b; cbn; split; (congruence || done). Qed.
Lemma join_no (c d : ascii) l : c ≠ d → (∀ s, s ∈ l → no_char d s) → no_char d (join c l).
Proof.
  intros Hcd. induction l as [|s l IH]; intros Hl; [done|]. destruct l as [|t l].
  - cbn. apply Hl. apply elem_of_list_here.
  - change (join c (s :: t :: l)) with (s +:+ String c (join c (t :: l))).
    assert (H : no_char d (String c (join c (t :: l)))).
    { split; [done|]. apply IH. intros u Hu. apply Hl. by apply elem_of_list_further. }
    assert (Hs : no_char d s) by (apply Hl, elem_of_list_here).
    clear -H Hs. induction s as [|a s IH]; [done|]. destruct Hs as [Ha Hs]. split; [done|]. by apply IH.
Qed.
Lemma csv_line_no_newline row : no_char newline (csv_line row).
Proof.
  apply join_no; [done|]. intros s (b & -> & _)%elem_of_list_fmap. apply csv_field_no; done.
Qed.
Lemma csv_line_nonempty row : row ≠ [] → csv_line row ≠ EmptyString.
Proof.
  destruct row as [|b row]; [done|]. intros _. unfold csv_line. cbn [fmap list_fmap].
  destruct row as [|b' row]; [by destruct b|]. cbn [fmap list_fmap join]. by destruct b.
Qed.
Lemma csv_line_split row : row ≠ [] → field_bool <$> split_on "," (csv_line row) = row.
Proof.
  intros Hr. unfold csv_line. rewrite split_join.
  - rewrite <- list_fmap_compose. transitivity (id <$> row); [|apply list_fmap_id].
    apply list_fmap_ext. intros i b _. by destruct b.
  - by destruct row.
  - intros s (b & -> & _)%elem_of_list_fmap. apply csv_field_no; done.
Qed.
Lemma savetxt_lines M :
  (∀ row, row ∈ M → row ≠ []) →
  filter (λ s, s ≠ EmptyString) (split_on newline (savetxt M)) = csv_line <$> M.
Proof.
  induction M as [|row M IH]; intros HM.
  - cbn. done.
  - change (savetxt (row :: M)) with (csv_line row +:+ String newline (savetxt M)).
    rewrite split_on_app by apply csv_line_no_newline.
    rewrite filter_cons_True by (apply csv_line_nonempty, HM, elem_of_list_here).
    cbn [fmap list_fmap]. f_equal. apply IH. intros r Hr. apply HM. by apply elem_of_list_further.
Qed.
Lemma genfromtxt_savetxt n M :
  n ≠ 0 → (∀ row, row ∈ M → length row = n) → genfromtxt (savetxt M) = Ok (squeeze M).
Proof.
  intros Hn HM. unfold genfromtxt.
  assert (Hne : ∀ row, row ∈ M → row ≠ []).
  { intros row Hr ->. specialize (HM [] Hr). cbn in HM. lia. }
  rewrite savetxt_lines by done.
  assert (E : (λ line, field_bool <$> split_on "," line) <$> (csv_line <$> M) = M).
  { rewrite <- list_fmap_compose. transitivity (id <$> M); [|apply list_fmap_id].
    apply list_fmap_ext. intros i row Hr. cbn. apply csv_line_split, Hne. by eapply elem_of_list_lookup_2. }
  rewrite E. rewrite decide_True; [done|]. apply Forall_forall. intros row Hr.
  rewrite (HM row Hr). destruct M as [|r0 M]; [by apply elem_of_nil in Hr|]. cbn.
  symmetry. apply HM, elem_of_list_here.
Qed.
Lemma squeeze_square n M : 2 ≤ n → length M = n → (∀ row, row ∈ M → length row = n) → squeeze M = Arr2 M.
Proof.
  intros Hn Hl HM. destruct M as [|r0 [|r1 M]]; cbn in Hl; try lia.
  assert (H0 : length r0 = n) by apply HM, elem_of_list_here.
  unfold squeeze. destruct r0 as [|b [|b' r0]]; cbn in *; try lia; done.
Qed.
Lemma genfromtxt_square n M :
  2 ≤ n → length M = n → (∀ row, row ∈ M → length row = n) → genfromtxt (savetxt M) = Ok (Arr2 M).
Proof. intros. rewrite (genfromtxt_savetxt n) by (done || lia). f_equal. by eapply squeeze_square. Qed.
