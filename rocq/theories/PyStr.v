(** Python string helpers used by the labels and the CSV files: str(int), str.join and
    splitting on a one-character delimiter. *)
From Verif Require Import Base.
From stdpp Require Import pretty.
From Coq Require Import Ascii String.
Local Open Scope string_scope.

(** Python [str(n)] for a non-negative int: decimal digits (stdpp's [pretty] on N).
    (/repo/causet.py:89-145 labels) *)
Definition str_of_nat (n : nat) : string := pretty (N.of_nat n).

(** Python [sep.join(l)] for a one-character separator.
    (/repo/causet.py:100-107, 325-331) *)
Fixpoint join (c : ascii) (l : list string) : string :=
  match l with
  | [] => ""
  | [s] => s
  | s :: l' => s +:+ String c (join c l')
  end.

(** Python [s.split(c)]: never empty; the pieces between the separators.
    (/repo/causet.py:206-221) *)
Fixpoint split_on (c : ascii) (s : string) : list string :=
  match s with
  | EmptyString => [""]
  | String a s' =>
    if decide (a = c) then "" :: split_on c s'
    else match split_on c s' with
         | [] => [String a ""]
         | p :: ps => String a p :: ps
         end
  end.

(** A string without the character; a notion of the proofs, not of the code. *)
Fixpoint no_char (c : ascii) (s : string) : Prop :=
  match s with EmptyString => True | String a s' => a ≠ c ∧ no_char c s' end.

Lemma split_on_no_char c s : no_char c s → split_on c s = [s].
Proof.
  induction s as [|a s IH]; cbn [split_on no_char]; [done|]. intros [Ha Hs].
  rewrite decide_False by done. by rewrite (IH Hs).
Qed.
Lemma split_on_app c s t : no_char c s → split_on c (s +:+ String c t) = s :: split_on c t.
Proof.
  induction s as [|a s IH]; intros Hs.
  - change (split_on c (String c t) = "" :: split_on c t). cbn [split_on].
    destruct (decide (c = c)); [done|done].
  - destruct Hs as [Ha Hs]. change (split_on c (String a (s +:+ String c t)) = String a s :: split_on c t).
    cbn [split_on]. rewrite decide_False by done. by rewrite (IH Hs).
Qed.
Lemma split_join c l : l ≠ [] → (∀ s, s ∈ l → no_char c s) → split_on c (join c l) = l.
Proof.
  induction l as [|s l IH]; [done|]. intros _ Hl. destruct l as [|t l].
  - cbn. apply split_on_no_char. apply Hl. set_solver.
  - change (join c (s :: t :: l)) with (s +:+ String c (join c (t :: l))).
    rewrite split_on_app by (apply Hl; set_solver). f_equal. apply IH; [done|].
    intros u Hu. apply Hl. set_solver.
Qed.
Lemma join_inj c l k :
  l ≠ [] → k ≠ [] → (∀ s, s ∈ l → no_char c s) → (∀ s, s ∈ k → no_char c s) →
  join c l = join c k → l = k.
Proof.
  intros Hl Hk H1 H2 He. rewrite <- (split_join c l), <- (split_join c k) by done. by rewrite He.
Qed.

Lemma pretty_char_no (c : ascii) n :
  c ∉ ["0"; "1"; "2"; "3"; "4"; "5"; "6"; "7"; "8"; "9"]%char → pretty_N_char n ≠ c.
Proof.
  intros Hc He. apply Hc. rewrite <- He. unfold pretty_N_char.
  repeat match goal with |- context [match ?x with _ => _ end] => destruct x end; set_solver.
Qed.
Lemma pretty_go_no_char c n s :
  c ∉ ["0"; "1"; "2"; "3"; "4"; "5"; "6"; "7"; "8"; "9"]%char →
  no_char c s → no_char c (pretty_N_go n s).
Proof.
  intros Hc. revert s. induction (N.lt_wf_0 n) as [n _ IH]; intros s Hs.
  assert (n = 0 ∨ 0 < n)%N as [->|?] by lia.
  - by rewrite pretty_N_go_0.
  - rewrite pretty_N_go_step by done. apply IH; [by apply N.div_lt|].
    cbn. split; [by apply pretty_char_no|done].
Qed.
Lemma str_of_nat_no_dash n : no_char "-" (str_of_nat n).
Proof.
  unfold str_of_nat, pretty, pretty_N. destruct (decide _).
  - cbn. split; [done|done].
  - apply pretty_go_no_char; [|done]. set_solver.
Qed.
Lemma str_of_nat_inj n m : str_of_nat n = str_of_nat m → n = m.
Proof. unfold str_of_nat. intros H%pretty_N_inj. lia. Qed.
