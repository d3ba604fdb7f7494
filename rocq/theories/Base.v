(** Basic vocabulary shared by every file of the model: Python values that the code
    uses (exceptions, labels), the object store, and the set-iteration oracle. *)
From stdpp Require Export gmap sets list strings.
From Coq Require Export QArith.
#[global] Open Scope nat_scope.

(** Python exceptions raised by the modelled code (builtin exception classes), e.g.
    /repo/causetevent.py:482, 501, 522, /repo/causet.py:180, 190, 372, 873, 1016.
    [OutOfFuel] is not a Python exception: it marks that a fuel-bounded loop of the
    model stopped early.  Every theorem excludes it. *)
Inductive exn : Type :=
| AttributeError | ValueError | IndexError | KeyError | TypeError
| ZeroDivisionError | NotImplementedError | UnboundLocalError | RuntimeError | OutOfFuel.

#[global] Instance exn_eq_dec : EqDecision exn.
Proof. solve_decision. Defined.

(** Result of a call: a value or a raised exception (every function of /repo/*.py). *)
Inductive res (A : Type) : Type :=
| Ok (a : A)
| Err (e : exn).
Arguments Ok {A} _.
Arguments Err {A} _.

#[global] Instance res_eq_dec {A} `{EqDecision A} : EqDecision (res A).
Proof. solve_decision. Defined.

(** A call after a call: the exception of the first one is passed on
    (/repo/causet.py:1129-1185 and all other functions without try). *)
Definition res_bind {A B} (r : res A) (f : A → res B) : res B :=
  match r with Ok a => f a | Err e => Err e end.

(** An expression around a call (/repo/causet.py:1129-1185). *)
Definition res_map {A B} (f : A → B) (r : res A) : res B :=
  match r with Ok a => Ok (f a) | Err e => Err e end.

(** Labels of events.  /repo/causetevent.py:28, 54 ('Label: Any', default None).
    Simplification: a label is None, an int or a str (the only kinds the code creates);
    equality of labels of different kinds is False as in Python. *)
Inductive label : Type :=
| LNone
| LInt (z : Z)
| LStr (s : string).

#[global] Instance label_eq_dec : EqDecision label.
Proof. solve_decision. Defined.

(** Attributes of a CausetEvent instance.  /repo/causetevent.py:28-32 and 54-62.
    [ev_lprec], [ev_lsucc]: the attributes [_lprec], [_lsucc] exist only after link()
    (/repo/causetevent.py:208-211), hence [option].
    [ev_coords]: the attribute [_coordinates] can be deleted by disembed()
    (/repo/causetevent.py:510), hence [option].
    Simplification: coordinates are exact rationals instead of floats. *)
Record event : Type := Event {
  ev_label : label;
  ev_prec : gset nat;
  ev_succ : gset nat;
  ev_lprec : option (gset nat);
  ev_lsucc : option (gset nat);
  ev_coords : option (list Q);
  ev_pos : list Q
}.

#[global] Instance event_inhabited : Inhabited event :=
  populate (Event LNone ∅ ∅ None None None []).

(** Attribute updates. *)
(** Assignment to _prec: /repo/causetevent.py:55-57, 82-89, 111-117 *)
Definition set_prec (s : gset nat) (e : event) : event :=
  Event (ev_label e) s (ev_succ e) (ev_lprec e) (ev_lsucc e) (ev_coords e) (ev_pos e).
(** Assignment to _succ: /repo/causetevent.py:58-60, 97-104, 118-124 *)
Definition set_succ (s : gset nat) (e : event) : event :=
  Event (ev_label e) (ev_prec e) s (ev_lprec e) (ev_lsucc e) (ev_coords e) (ev_pos e).
(** Assignment to _lprec: /repo/causetevent.py:85-87, 112-115, 208, 217, 437 *)
Definition set_lprec (s : option (gset nat)) (e : event) : event :=
  Event (ev_label e) (ev_prec e) (ev_succ e) s (ev_lsucc e) (ev_coords e) (ev_pos e).
(** Assignment to _lsucc: /repo/causetevent.py:100-102, 119-122, 210, 218, 438 *)
Definition set_lsucc (s : option (gset nat)) (e : event) : event :=
  Event (ev_label e) (ev_prec e) (ev_succ e) (ev_lprec e) s (ev_coords e) (ev_pos e).
(** Assignment to _coordinates: /repo/causetevent.py:61, 493-511 *)
Definition set_coords (c : option (list Q)) (e : event) : event :=
  Event (ev_label e) (ev_prec e) (ev_succ e) (ev_lprec e) (ev_lsucc e) c (ev_pos e).
(** Assignment to _position: /repo/causetevent.py:62, 475-484 *)
Definition set_pos (c : list Q) (e : event) : event :=
  Event (ev_label e) (ev_prec e) (ev_succ e) (ev_lprec e) (ev_lsucc e) (ev_coords e) c.
(** Assignment to Label: /repo/causetevent.py:54, /repo/embeddedcauset.py:250-251 *)
Definition set_label (l : label) (e : event) : event :=
  Event l (ev_prec e) (ev_succ e) (ev_lprec e) (ev_lsucc e) (ev_coords e) (ev_pos e).

(** The object store: an instance is identified by a natural number.  Python's [is], [==]
    and [hash] on CausetEvent are identity (the class defines no __eq__), i.e. equality
    of these numbers. *)
Notation heap := (gmap nat event).

(** Reading _prec: /repo/causetevent.py:29 *)
Definition prec (h : heap) (x : nat) : gset nat := ev_prec (h !!! x).
(** Reading _succ: /repo/causetevent.py:30 *)
Definition succ (h : heap) (x : nat) : gset nat := ev_succ (h !!! x).
(** Reading _lprec: /repo/causetevent.py:74, 237 *)
Definition lprec (h : heap) (x : nat) : option (gset nat) := ev_lprec (h !!! x).
(** Reading _lsucc: /repo/causetevent.py:74, 247 *)
Definition lsucc (h : heap) (x : nat) : option (gset nat) := ev_lsucc (h !!! x).
(** Reading Label: /repo/causetevent.py:28 *)
Definition lab (h : heap) (x : nat) : label := ev_label (h !!! x).
(** Reading _coordinates: /repo/causetevent.py:486-533 *)
Definition coords (h : heap) (x : nat) : option (list Q) := ev_coords (h !!! x).
(** Reading _position: /repo/causetevent.py:465-473 *)
Definition pos (h : heap) (x : nat) : list Q := ev_pos (h !!! x).

(** Assign to an attribute of instance [x] (/repo/causetevent.py:34-533). *)
Definition upd (f : event → event) (x : nat) (h : heap) : heap := <[x := f (h !!! x)]> h.

(** A new instance gets an identity that no live instance has (/repo/causetevent.py:34-67). *)
Definition new_id (h : heap) : nat := fresh (dom h).

(** Iteration order of Python sets is unspecified.  An oracle gives, for each call site
    (first argument) and each set, the order in which [for e in s] visits the elements; the
    only assumption is that each element is visited exactly once.
    (Loops over sets, e.g. /repo/causetevent.py:63-67, 132-139, 441-463.) *)
Definition oracle : Type := nat → gset nat → list nat.
(** The assumption about the loops over sets, /repo/causetevent.py:63-67 etc. *)
Definition iter_ok (it : oracle) : Prop := ∀ k s, it k s ≡ₚ elements s.

(** A concrete oracle, to show the assumption can be met; not part of the code. *)
Definition it_elements : oracle := λ _ s, elements s.
Lemma it_elements_ok : iter_ok it_elements.
Proof. intros k s. reflexivity. Qed.
(** Another one; not part of the code. *)
Definition it_reverse : oracle := λ _ s, reverse (elements s).
Lemma it_reverse_ok : iter_ok it_reverse.
Proof. intros k s. unfold it_reverse. apply reverse_Permutation. Qed.

Lemma iter_nodup it k s : iter_ok it → NoDup (it k s).
Proof. intros Hok. rewrite (Hok k s). apply NoDup_elements. Qed.
Lemma iter_elem it k s x : iter_ok it → x ∈ it k s ↔ x ∈ s.
Proof. intros Hok. rewrite (Hok k s). apply elem_of_elements. Qed.

(** Heap lookup lemmas. *)
Lemma upd_same f x h : upd f x h !!! x = f (h !!! x).
Proof. apply lookup_total_insert. Qed.
Lemma upd_other f x y h : x ≠ y → upd f x h !!! y = h !!! y.
Proof. apply lookup_total_insert_ne. Qed.
Lemma upd_dom f x h : x ∈ dom h → dom (upd f x h) = dom h.
Proof. intros Hx. unfold upd. rewrite dom_insert_L. set_solver. Qed.
Lemma upd_dom_sub f x h : dom h ⊆ dom (upd f x h).
Proof. unfold upd. rewrite dom_insert_L. set_solver. Qed.
Lemma lookup_total_notin (h : heap) x :
  x ∉ dom h → h !!! x = Event LNone ∅ ∅ None None None [].
Proof. intros Hx. apply not_elem_of_dom in Hx. by rewrite lookup_total_alt, Hx. Qed.
Lemma new_id_fresh h : new_id h ∉ dom h.
Proof. unfold new_id. exact (is_fresh (dom h)). Qed.

(** Closed decidable statements are settled by computation. *)
Ltac decide_vm := apply (bool_decide_unpack _); vm_compute; exact I.
