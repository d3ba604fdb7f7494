(** Specification vocabulary for the constructors of Causet, independent of the model. *)
From Verif Require Import Base Spec PyStr.
From Coq Require Import Ascii.

(** [evs] are new events of [h'] that are related among themselves only; everything that
    existed in [h] is untouched. *)
Record fresh_causet (h h' : heap) (evs : list nat) : Prop := FreshCauset {
  fc_nodup : NoDup evs;
  fc_fresh : ∀ x, x ∈ evs → x ∉ dom h;
  fc_in : ∀ x, x ∈ evs → x ∈ dom h';
  fc_dom : dom h ⊆ dom h';
  fc_old : ∀ y, y ∈ dom h → h' !!! y = h !!! y;
  fc_order : order_inv h';
  fc_link : link_inv h';
  fc_closed : closed h' (list_to_set evs);
  fc_nolink : ∀ x, x ∈ evs → lprec h' x = None ∧ lsucc h' x = None
}.
(** In a fence of rows with [len] places, place [l'] is reached from place [l] by at most [d]
    steps to the right (cyclically if [closed]). *)
Definition within (closed : bool) (len d l l' : nat) : Prop :=
  ∃ k, k ≤ d ∧ l' = if closed then (l + k) mod len else l + k.

(** The label of a face: its vertices joined by '-'. *)
Definition flabel (c : list nat) : string := join "-"%char (str_of_nat <$> c).

(** An [n] x [n] matrix that is a strict partial order ([C i j]: j precedes i). *)
Definition mat_order (n : nat) (C : nat → nat → bool) : Prop :=
  (∀ i, i < n → C i i = false) ∧
  (∀ i j k, i < n → j < n → k < n → C i j = true → C j k = true → C i k = true).

(** A loop of length one or two in the first [r] rows. *)
Definition mat_clash (r : nat) (C : nat → nat → bool) : Prop :=
  ∃ i j, i < r ∧ j < r ∧ C i j = true ∧ C j i = true.

(** Two finite posets are isomorphic. *)
Definition order_iso (h : heap) (C : gset nat) (h' : heap) (C' : gset nat) : Prop :=
  ∃ f : nat → nat,
    (∀ x y, x ∈ C → y ∈ C → f x = f y → x = y) ∧
    (∀ z, z ∈ C' ↔ ∃ x, x ∈ C ∧ z = f x) ∧
    (∀ x y, x ∈ C → y ∈ C → before h' (f x) (f y) ↔ before h x y).
