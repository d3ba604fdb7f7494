(** Histories of calls of the whole library: a program that holds any number of Causet objects
    and events, and calls constructors and methods of CausetEvent, Causet and EmbeddedCauset in
    any order.  [lib_step] dispatches to the models of the methods; a call that raises leaves
    the state it had reached.  Each call sees its own iteration orders. *)
From Verif Require Import Base Spec EventModel History CausetModel BuildModel EmbedModel SpecBuild.

(** The instances of CausetEvent, and the sets of events of the Causet objects, in the order of
    their creation. (/repo/causet.py:26-38) *)
Record lib_state : Type := Lib { lib_heap : heap; lib_causets : list (gset nat) }.

(** The calls. *)
Inductive lib_op : Type :=
| LEvent (o : op)                                                (* /repo/causetevent.py *)
| LCauset (S : gset nat)                                         (* /repo/causet.py:26-38 *)
| LFromPermutation (fmt : label_format) (P : list Z)             (* /repo/causet.py:40-68 *)
| LNewChain (n : Z) (fmt : label_format)                         (* /repo/causet.py:70-78 *)
| LNewAntichain (n : Z) (fmt : label_format)                     (* /repo/causet.py:80-87 *)
| LNewSimplex (d : Z) (central : bool)                           (* /repo/causet.py:89-112 *)
| LNewFence (length height : Z) (closed : bool)                  (* /repo/causet.py:114-145 *)
| LNewCrown (length : Z)                                         (* /repo/causet.py:147-153 *)
| LFromPastMatrix (r c : nat) (C : nat → nat → bool)             (* /repo/causet.py:167-197 *)
| LFromFutureMatrix (r c : nat) (C : nat → nat → bool)           (* /repo/causet.py:199-204 *)
| LFromTextFile (text : string) (isPastMatrix : bool)            (* /repo/causet.py:206-221 *)
| LMerge (i j : nat) (disjoint : bool)                           (* /repo/causet.py:223-237 *)
| LAdd (i : nat) (S : gset nat) (unlink : bool)                  (* /repo/causet.py:239-249 *)
| LDiscard (i : nat) (S : gset nat) (unlink : bool)              (* /repo/causet.py:251-261 *)
| LLink (i : nat)                                                (* /repo/causet.py:277-289 *)
| LUnlink (i : nat)                                              (* /repo/causet.py:291-296 *)
| LCreate (i : nat) (caus : causality_fn) (rows : list (list Q)) (fmt : label_format) (rel : bool)
                                                                 (* /repo/embeddedcauset.py:189-209 *)
| LRelate (i : nat) (caus : causality_fn) (link : bool)          (* /repo/embeddedcauset.py:211-237 *)
| LRelabel (i : nat) (argsort : argsort_num) (dim : Z) (descending : bool).
                                                                 (* /repo/embeddedcauset.py:239-251 *)

(** The new Causet object of a constructor call, if it returns. (/repo/causet.py:26-237) *)
Definition returned (cs : list (gset nat)) (p : heap * res (gset nat)) : lib_state :=
  match p with (h, Ok C) => Lib h (cs ++ [C]) | (h, Err _) => Lib h cs end.
(** The constructors from matrices. (/repo/causet.py:167-221) *)
Definition returned_mat (cs : list (gset nat)) (p : heap * list nat * res (gset nat)) : lib_state :=
  returned cs (fst (fst p), snd p).

(** The events of a Causet object. (/repo/causet.py:26-38) *)
Definition nth_causet (w : lib_state) (i : nat) : gset nat := nth i (lib_causets w) ∅.

(** One call. (/repo/causetevent.py, /repo/causet.py:26-296, /repo/embeddedcauset.py:189-251) *)
Definition lib_step (it : oracle) (w : lib_state) (o : lib_op) : lib_state :=
  let h := lib_heap w in
  let cs := lib_causets w in
  match o with
  | LEvent o => Lib (step it h o) cs
  | LCauset E => returned cs (h, causet h E)
  | LFromPermutation fmt P => returned cs (FromPermutation it fmt P h)
  | LNewChain n fmt => returned cs (NewChain it n fmt h)
  | LNewAntichain n fmt => returned cs (NewAntichain it n fmt h)
  | LNewSimplex d central => returned cs (NewSimplex it d central h)
  | LNewFence length height closed => returned cs (NewFence it length height closed h)
  | LNewCrown length => returned cs (NewCrown it length h)
  | LFromPastMatrix r c C => returned_mat cs (FromPastMatrix it r c C h)
  | LFromFutureMatrix r c C => returned_mat cs (FromFutureMatrix it r c C h)
  | LFromTextFile text p => returned_mat cs (FromTextFile it text p h)
  | LMerge i j d => returned cs (merge it (nth_causet w i) (nth_causet w j) d h)
  | LAdd i E u => let '(h', C, _) := add it (nth_causet w i) E u h in Lib h' (<[i := C]> cs)
  | LDiscard i E u => let '(h', C, _) := discard it (nth_causet w i) E u h in Lib h' (<[i := C]> cs)
  | LLink i => Lib (fst (link_causet it (nth_causet w i) h)) cs
  | LUnlink i => Lib (fst (unlink_causet it (nth_causet w i) h)) cs
  | LCreate i caus rows fmt rel =>
    let '(h', C, _) := create it caus rows fmt rel (nth_causet w i) h in Lib h' (<[i := C]> cs)
  | LRelate i caus link => Lib (fst (relate it caus link (nth_causet w i) h)) cs
  | LRelabel i argsort dim descending => Lib (fst (relabel it argsort dim descending (nth_causet w i) h)) cs
  end.

(** A sequence of calls. (/repo/causetevent.py, /repo/causet.py, /repo/embeddedcauset.py) *)
Definition lib_run (w : lib_state) (hist : list (oracle * lib_op)) : lib_state :=
  foldl (λ w p, lib_step (fst p) w (snd p)) w hist.

(** ** Specification: which calls keep the order *)
(** The causality function decides a transitive relation on the coordinates in [X]: its first
    component is this relation, its second the strict converse relation. *)
Definition ordering (caus : causality_fn) (X : list Q → Prop) : Prop :=
  ∃ le : list Q → list Q → Prop,
    (∀ a b c, X a → X b → X c → le a b → le b c → le a c) ∧
    (∀ a b, X a → X b → ((caus a b).1 = true ↔ le a b) ∧ ((caus a b).2 = true ↔ le b a ∧ ¬ le a b)).
(** A square matrix that is a strict partial order. *)
Definition order_matrix (r c : nat) (C : nat → nat → bool) : Prop := r = c ∧ mat_order r C.
(** The coordinates of the events of [C]. *)
Definition coordinates_of (h : heap) (C : gset nat) (c : list Q) : Prop := ∃ x, x ∈ C ∧ Coordinates h x = Ok c.

(** What a call must respect: the events and causets it refers to exist, and (see C02, C19,
    C23, C50 for what happens otherwise)
    - both arguments of CausetEvent relate only events that are related already;
    - matrices are strict partial orders (a text file that is refused or has no two-dimensional
      matrix is allowed, too);
    - the causets to be merged (not disjointly) share no event, the first contains the past of
      its events and the second the future of its events;
    - a causet to be linked or related is closed under past and future;
    - to relate, all its events are embedded and the causality function is an order on the
      coordinates. *)
Definition lib_admissible (w : lib_state) (o : lib_op) : Prop :=
  let h := lib_heap w in
  let C i := nth_causet w i in
  let ex i := i < length (lib_causets w) in
  match o with
  | LEvent o => admissible h o
  | LCauset E => E ⊆ dom h
  | LFromPermutation _ _ | LNewChain _ _ | LNewAntichain _ _ | LNewSimplex _ _ | LNewFence _ _ _ | LNewCrown _ => True
  | LFromPastMatrix r c C | LFromFutureMatrix r c C => order_matrix r c C
  | LFromTextFile text _ =>
    match genfromtxt text with
    | Ok (Arr2 M) => order_matrix (length M) (length (default [] (head M))) (mat_get M)
    | _ => True
    end
  | LMerge i j d => ex i ∧ ex j ∧ (d = false → C i ## C j ∧
      (∀ x, x ∈ C i → Past h x ⊆ C i) ∧ (∀ x, x ∈ C j → Future h x ⊆ C j))
  | LAdd i E _ => ex i ∧ E ⊆ dom h
  | LDiscard i _ _ => ex i
  | LUnlink i => ex i
  | LLink i => ex i ∧ closed h (C i)
  | LCreate i caus rows _ rel => ex i ∧
      (rel = true → closed h (C i) ∧ (∀ x, x ∈ C i → isEmbedded h x = true) ∧
         ordering caus (λ c, coordinates_of h (C i) c ∨ c ∈ rows))
  | LRelate i caus _ => ex i ∧ closed h (C i) ∧ (∀ x, x ∈ C i → isEmbedded h x = true) ∧
      ordering caus (coordinates_of h (C i))
  | LRelabel i argsort _ _ => ex i ∧ ∀ l, argsort l ≡ₚ seq 0 (length l)
  end.
(** Calls that keep the link caches right (see C06, C22): no disjoin, and no merge of causets
    with linked events. *)
Definition lib_keeps_links (w : lib_state) (o : lib_op) : Prop :=
  match o with
  | LEvent o => is_disjoin o = false
  | LMerge i j false => ∀ x, x ∈ nth_causet w i ∪ nth_causet w j → hasBeenLinked (lib_heap w) x = false
  | _ => True
  end.

(** Every call of the history respects this in the state it is made in. *)
Fixpoint lib_admissible_history (w : lib_state) (hist : list (oracle * lib_op)) : Prop :=
  match hist with
  | [] => True
  | (it, o) :: hist' => iter_ok it ∧ lib_admissible w o ∧ lib_admissible_history (lib_step it w o) hist'
  end.
Fixpoint lib_keeps_links_history (w : lib_state) (hist : list (oracle * lib_op)) : Prop :=
  match hist with
  | [] => True
  | (it, o) :: hist' => lib_keeps_links w o ∧ lib_keeps_links_history (lib_step it w o) hist'
  end.
