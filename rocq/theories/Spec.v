(** Specification vocabulary, independent of the model: plain mathematics about a
    relation [R] (read [R a b] as "a precedes b"). *)
From Verif Require Import Base.

Section relation.
Context (R : nat → nat → Prop).

(** A strict partial order. *)
Definition strict_order : Prop :=
  (∀ a, ¬ R a a) ∧ (∀ a b c, R a b → R b c → R a c).

(** [b] covers [a]: a precedes b with nothing strictly between.  The causal set
    literature calls such a pair a link. *)
Definition covers (a b : nat) : Prop := R a b ∧ ¬ ∃ c, R a c ∧ R c b.

Definition comparable (a b : nat) : Prop := a = b ∨ R a b ∨ R b a.
Definition spacelike (a b : nat) : Prop := a ≠ b ∧ ¬ R a b ∧ ¬ R b a.

(** Consecutive entries of a list are related by [S]. *)
Fixpoint consecutive (S : nat → nat → Prop) (l : list nat) : Prop :=
  match l with
  | [] => True
  | x :: l' => match l' with [] => True | y :: _ => S x y end ∧ consecutive S l'
  end.

(** A path of links (saturated chain) from [a] to [b]. *)
Definition link_path (a b : nat) (l : list nat) : Prop :=
  head l = Some a ∧ last l = Some b ∧ consecutive covers l.

(** A chain of strictly increasing events ending in [b], all taken from [S]. *)
Definition rising (l : list nat) : Prop := consecutive R l.

(** [l] lists the elements of [S] exactly once, causes first. *)
Definition linear_extension (S : gset nat) (l : list nat) : Prop :=
  l ≡ₚ elements S ∧
  ∀ i j x y, l !! i = Some x → l !! j = Some y → R x y → i < j.

(** Connected by a chain of comparable events inside [S]. *)
Inductive connected_in (S : gset nat) : nat → nat → Prop :=
| conn_refl x : x ∈ S → connected_in S x x
| conn_step x y z : connected_in S x y → z ∈ S → comparable y z → connected_in S x z.

End relation.

(** The causal relation that a heap presents: [a < b] in Python is [a in b._prec]. *)
Definition before (h : heap) (a b : nat) : Prop := a ∈ prec h b.

(** The order invariant of a heap: "past" and "future" are converse, and the relation is
    a strict partial order. *)
Record order_inv (h : heap) : Prop := OrderInv {
  oi_conv : ∀ a b, a ∈ prec h b ↔ b ∈ succ h a;
  oi_order : strict_order (before h)
}.

(** Link caches are absent or correct. *)
Definition link_inv (h : heap) : Prop :=
  ∀ x, (lprec h x = None ∧ lsucc h x = None) ∨
       (∃ lp ls, lprec h x = Some lp ∧ lsucc h x = Some ls ∧
          (∀ y, y ∈ lp ↔ covers (before h) y x) ∧
          (∀ y, y ∈ ls ↔ covers (before h) x y)).

(** Link caches exist in pairs or not at all. *)
Definition link_paired (h : heap) : Prop :=
  ∀ x, (lprec h x = None ↔ lsucc h x = None).

(** A set of events closed under Past and Future. *)
Definition closed (h : heap) (S : gset nat) : Prop :=
  ∀ x, x ∈ S → prec h x ⊆ S ∧ succ h x ⊆ S.
