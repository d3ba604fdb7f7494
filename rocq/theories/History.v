(** Histories of event-level calls.  Each operation is one public call on CausetEvent
    (/repo/causetevent.py); [step] dispatches to the model of that method in EventModel.v.
    Each call may see its own iteration orders, so a history is a list of pairs of an
    oracle and an operation. *)
From Verif Require Import Base Spec EventModel.

(** /repo/causetevent.py:34-533 the calls that can change events *)
Inductive op : Type :=
| ONew (l : label) (P F : gset nat) (cs ps : list Q)  (* CausetEvent(...), lines 34-67 *)
| OLink (x : nat)                                     (* link, lines 199-211 *)
| OUnlink (x : nat)                                   (* unlink, lines 213-218 *)
| OLinkPast (x : nat)                                 (* LinkPast, lines 355-364 *)
| OLinkFuture (x : nat)                               (* LinkFuture, lines 367-376 *)
| OLinkCone (x : nat)                                 (* LinkCone, lines 379-388 *)
| OIsPastLink (x y : nat)                             (* isPastLink, lines 232-240 *)
| OIsFutureLink (x y : nat)                           (* isFutureLink, lines 242-250 *)
| OIsLinkedTo (x y : nat)                             (* isLinkedTo, lines 258-262 *)
| OLinkPastCard (x : nat)                             (* LinkPastCard, lines 391-399 *)
| OLinkFutureCard (x : nat)                           (* LinkFutureCard, lines 402-410 *)
| OLinkConeCard (x : nat)                             (* LinkConeCard, lines 413-422 *)
| ODisjoin (x : nat)                                  (* disjoin, lines 128-139 *)
| OEmbed (x : nat) (c : list Q) (reembed : bool)      (* embed, lines 493-504 *)
| ODisembed (x : nat)                                 (* disembed, lines 506-510 *)
| OSetPosition (x : nat) (v : list Q).                (* Position setter, lines 475-484 *)

(** /repo/causetevent.py:34-533 *)
Definition step (it : oracle) (h : heap) (o : op) : heap :=
  match o with
  | ONew l P F cs ps => fst (new_event it l P F cs ps h)
  | OLink x => link h x
  | OUnlink x => fst (unlink h x)
  | OLinkPast x => fst (get_LinkPast h x)
  | OLinkFuture x => fst (get_LinkFuture h x)
  | OLinkCone x => fst (get_LinkCone h x)
  | OIsPastLink x y => fst (isPastLink h x y)
  | OIsFutureLink x y => fst (isFutureLink h x y)
  | OIsLinkedTo x y => fst (isLinkedTo h x y)
  | OLinkPastCard x => fst (get_LinkPastCard h x)
  | OLinkFutureCard x => fst (get_LinkFutureCard h x)
  | OLinkConeCard x => fst (get_LinkConeCard h x)
  | ODisjoin x => fst (disjoin it h x)
  | OEmbed x c r => fst (embed h x c r)
  | ODisembed x => fst (disembed h x)
  | OSetPosition x v => fst (set_Position h x v)
  end.

(** /repo/causetevent.py:34-533 a sequence of calls *)
Definition run (h : heap) (hist : list (oracle * op)) : heap :=
  foldl (λ h p, step (fst p) h (snd p)) h hist.

(** The instances a call refers to exist; and a constructor call with both arguments only
    relates events that are already related (see C02 for why this is needed). *)
Definition admissible (h : heap) (o : op) : Prop :=
  match o with
  | ONew _ P F _ _ =>
    P ⊆ dom h ∧ F ⊆ dom h ∧
    ∀ p f, (p ∈ P ∨ ∃ e, e ∈ P ∧ before h p e) → (f ∈ F ∨ ∃ e, e ∈ F ∧ before h e f) →
           before h p f
  | OLink x | OUnlink x | OLinkPast x | OLinkFuture x | OLinkCone x
  | OIsPastLink x _ | OIsFutureLink x _ | OIsLinkedTo x _
  | OLinkPastCard x | OLinkFutureCard x | OLinkConeCard x | ODisjoin x
  | OEmbed x _ _ | ODisembed x | OSetPosition x _ => x ∈ dom h
  end.

(** Every call of the history is admissible in the state it is made in; a notion of the
    specification, not of the code. *)
Fixpoint admissible_history (h : heap) (hist : list (oracle * op)) : Prop :=
  match hist with
  | [] => True
  | (it, o) :: hist' =>
    iter_ok it ∧ admissible h o ∧ admissible_history (step it h o) hist'
  end.

(** A call of disjoin, /repo/causetevent.py:128-139. *)
Definition is_disjoin (o : op) : bool := match o with ODisjoin _ => true | _ => false end.

(** No call of disjoin (/repo/causetevent.py:128-139) in the history. *)
Definition no_disjoin (hist : list (oracle * op)) : Prop :=
  Forall (λ p, is_disjoin (snd p) = false) hist.

