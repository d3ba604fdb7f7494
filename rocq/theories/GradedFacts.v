(** Graded posets: covering pairs, link paths and heights.  Used for C90. *)
From Verif Require Import Base Spec EventModel EventFacts CausetModel CausetFacts LayerFacts SpecBuild.

Section graded.
Context (R : nat → nat → Prop) (C : nat → Prop) (g : nat → nat).
Context (Hup : ∀ a b, C a → R a b → C b) (Hlt : ∀ a b, C a → C b → R a b → g a < g b).
Context (Hmid : ∀ a b, C a → C b → R a b → S (g a) < g b → ∃ c, R a c ∧ R c b).
Lemma graded_covers a b : C a → covers R a b ↔ R a b ∧ g b = S (g a).
Proof.
  intros Ha. split.
  - intros [Hr Hn]. split; [done|]. pose proof (Hup a b Ha Hr) as Hb. pose proof (Hlt a b Ha Hb Hr).
    destruct (decide (g b = S (g a))); [done|]. destruct Hn. apply Hmid; try done. lia.
  - intros [Hr Hg]. split; [done|]. intros (c & H1 & H2). pose proof (Hup a c Ha H1) as Hc. pose proof (Hup c b Hc H2) as Hb.
    pose proof (Hlt a c Ha Hc H1). pose proof (Hlt c b Hc Hb H2). lia.
Qed.
Lemma graded_consecutive l : ∀ a b, C a → head l = Some a → last l = Some b → consecutive (covers R) l → g a + length l = S (g b).
Proof.
  induction l as [|x l IH]; intros a b Ha Hh Hl Hc; [done|]. cbn in Hh. injection Hh as ->.
  destruct l as [|y l].
  - cbn in Hl. injection Hl as ->. cbn. lia.
  - cbn [consecutive] in Hc. destruct Hc as [Hxy Hc]. apply graded_covers in Hxy as [Hr Hg]; [|done].
    specialize (IH y b (Hup _ _ Ha Hr) eq_refl Hl Hc). cbn [length] in *. lia.
Qed.
Lemma graded_path a b l : C a → link_path R a b l → length l = g b - g a + 1 ∧ g a ≤ g b.
Proof.
  intros Ha (H1 & H2 & H3). pose proof (graded_consecutive l a b Ha H1 H2 H3).
  destruct l; [done|]. cbn [length] in *. lia.
Qed.
End graded.

(** Heights: every event of a positive grade has an event right below it. *)
Lemma graded_height (R : nat → nat → Prop) (C : nat → Prop) (g : nat → nat) :
  (∀ a b, C b → R a b → C a ∧ g a < g b) →
  (∀ b, C b → 0 < g b → ∃ a, R a b ∧ g b = S (g a)) →
  ∀ x k, C x → has_height R x k ↔ g x = k.
Proof.
  intros Hdn Hlow.
  assert (Hub : ∀ l, rising R l → ∀ x, C x → last l = Some x → length l ≤ S (g x) ∧ ∀ y, head l = Some y → C y ∧ g y + length l ≤ S (g x)).
  { induction l as [|a l IH]; intros Hr x Hx Hl; [done|]. destruct l as [|b l].
    - cbn in Hl. injection Hl as ->. cbn. split; [lia|]. intros y [= <-]. split; [done|lia].
    - destruct Hr as [Hab Hr]. destruct (IH Hr x Hx Hl) as [_ H]. destruct (H b eq_refl) as [Hb Hg].
      destruct (Hdn a b Hb Hab) as [Ha Hlt]. cbn [length] in *. split; [lia|]. intros y [= <-]. split; [done|lia]. }
  assert (Hex : ∀ n x, C x → g x = n → ∃ l, rising R l ∧ last l = Some x ∧ length l = S n).
  { induction n as [|n IH]; intros x Hx Hg.
    - exists [x]. by repeat split.
    - destruct (Hlow x Hx) as (a & Ha & Hga); [lia|]. destruct (IH a) as (l & H1 & H2 & H3); [by apply (Hdn a x)|lia|].
      exists (l ++ [x]). split; [|split].
      + clear -H1 H2 Ha. induction l as [|y l IH]; [done|]. destruct l as [|z l].
        * cbn in H2. injection H2 as ->. cbn. done.
        * destruct H1 as [? H1]. change ((y :: z :: l) ++ [x]) with (y :: z :: (l ++ [x])). split; [done|]. by apply IH.
      + by rewrite last_snoc.
      + rewrite app_length, H3. cbn. lia. }
  intros x k Hx. split.
  - intros [(l & H1 & H2 & H3) H4]. destruct (Hub l H1 x Hx H2) as [H5 _]. destruct (Hex _ x Hx eq_refl) as (l' & E1 & E2 & E3).
    specialize (H4 l' E1 E2). lia.
  - intros <-. split; [by apply Hex|]. intros l H1 H2. by apply (Hub l H1 x Hx H2).
Qed.

(** A list of sets is known when the elements of its entries are. *)
Lemma layers_unique (L M : list (gset nat)) :
  (∀ T, T ∈ L → T ≠ ∅) → (∀ T, T ∈ M → T ≠ ∅) →
  (∀ x k, (∃ T, L !! k = Some T ∧ x ∈ T) ↔ (∃ T, M !! k = Some T ∧ x ∈ T)) → L = M.
Proof.
  intros HL HM H. apply list_eq. intros k.
  destruct (L !! k) as [T|] eqn:E, (M !! k) as [U|] eqn:E'; [| | |done].
  - f_equal. apply set_eq. intros x. split; intros Hx.
    + destruct (proj1 (H x k)) as (U' & HU & Hxu); [by exists T|]. congruence.
    + destruct (proj2 (H x k)) as (U' & HU & Hxu); [by exists U|]. congruence.
  - exfalso. destruct (set_choose_L T) as [x Hx]; [by apply HL, elem_of_list_lookup_2 with k|].
    destruct (proj1 (H x k)) as (U' & HU & Hxu); [by exists T|]. congruence.
  - exfalso. destruct (set_choose_L U) as [x Hx]; [by apply HM, elem_of_list_lookup_2 with k|].
    destruct (proj2 (H x k)) as (U' & HU & Hxu); [by exists U|]. congruence.
Qed.
