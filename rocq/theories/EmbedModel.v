(** Model of /repo/embeddedcauset.py (class EmbeddedCauset).

    The coordinates of events are rationals (Base.v).  The causality function of the
    spacetime, [spacetime.Causality()], is a parameter [caus] of relate; [caus_of] gives the
    instance for a spacetime of SpacetimeModel.v.  numpy's errors for coordinate arrays of a
    wrong length are not modelled (see SpacetimeModel.v): the theorems about the instances are
    about coordinates of the length of the spacetime dimension. *)
From Verif Require Import Base EventModel CausetModel BuildModel.
From Coq Require Import Reals Qreals.
From Verif Require Import SpacetimeModel ShapeModel.
#[local] Open Scope nat_scope.

(** /repo/embeddedcauset.py:211-237 the type of spacetime.Causality() *)
Definition causality_fn : Type := list Q → list Q → bool * bool.

(** spacetime.Causality() on the coordinates of two events.
    (/repo/embeddedcauset.py:211-237) *)
Definition caus_of (eps : R) (st : spacetime) : causality_fn :=
  λ x y, Causality eps st (Q2R <$> x) (Q2R <$> y).

Section model.
Context (it : oracle) (caus : causality_fn).

(** /repo/embeddedcauset.py:218-220 *)
Definition relate_reset (l : list nat) (h : heap) : heap :=
  foldl (λ h e, upd (λ v, set_succ ∅ (set_prec ∅ v)) e h) h l.

(** /repo/embeddedcauset.py:228-233: a is put in the past of b. *)
Definition relate_add (a b : nat) (h : heap) : heap :=
  let h1 := upd (λ v, set_succ (ev_succ v ∪ {[b]}) v) a h in
  upd (λ v, set_prec (ev_prec v ∪ {[a]}) v) b h1.
(** /repo/embeddedcauset.py:225-233, one pass of the inner loop; Coordinates raises
    AttributeError for an event without embedding. *)
Definition relate_pair (a b : nat) (h : heap) : heap * res unit :=
  match Coordinates h a, Coordinates h b with
  | Ok x, Ok y =>
    let '(isAB, isBA) := caus x y in
    let h1 := if isAB then relate_add a b h else h in
    let h2 := if isBA then relate_add b a h1 else h1 in
    (h2, Ok tt)
  | Err e, _ => (h, Err e)
  | _, Err e => (h, Err e)
  end.
(** /repo/embeddedcauset.py:225-233 *)
Fixpoint relate_row (a : nat) (bs : list nat) (h : heap) : heap * res unit :=
  match bs with
  | [] => (h, Ok tt)
  | b :: bs' => match relate_pair a b h with
                | (h1, Ok _) => relate_row a bs' h1
                | (h1, Err e) => (h1, Err e)
                end
  end.
(** /repo/embeddedcauset.py:222-233 *)
Fixpoint relate_loop (l : list nat) (h : heap) : heap * res unit :=
  match l with
  | [] => (h, Ok tt)
  | a :: l' => match relate_row a l' h with
               | (h1, Ok _) => relate_loop l' h1
               | (h1, Err e) => (h1, Err e)
               end
  end.

(** /repo/embeddedcauset.py:211-237 (relate) *)
Definition relate (link : bool) (C : gset nat) (h : heap) : heap * res unit :=
  let h1 := relate_reset (it 30 C) h in
  match relate_loop (it 31 C) h1 with
  | (h2, Ok _) => if link then link_causet it C h2 else unlink_causet it C h2
  | (h2, Err e) => (h2, Err e)
  end.

(** /repo/embeddedcauset.py:203-204: unlike Causet.FromPermutation, the format '' gives the
    label ''. *)
Definition emb_label (fmt : label_format) (u : Z) : label :=
  match fmt with FmtNone => LInt u | FmtEmpty => LStr "" | FmtStr f => LStr (f u) end.
(** /repo/embeddedcauset.py:202-205, the set comprehension: one CausetEvent per row. *)
Fixpoint create_events (fmt : label_format) (u : Z) (rows : list (list Q)) (h : heap)
    : heap * list nat :=
  match rows with
  | [] => (h, [])
  | c :: rows' =>
    let '(h1, x) := new_event (sub it (new_id h)) (emb_label fmt u) ∅ ∅ c [] h in
    let '(h2, xs) := create_events fmt (u + 1) rows' h1 in
    (h2, x :: xs)
  end.
(** /repo/embeddedcauset.py:189-209 (create).  Returns the new store, the new set of events
    of the causet, and the result. *)
Definition create (rows : list (list Q)) (fmt : label_format) (rel : bool)
    (C : gset nat) (h : heap) : heap * gset nat * res (gset nat) :=
  let n := (Z.of_nat (size C) + 1)%Z in
  let '(h1, xs) := create_events fmt n rows h in
  let S := list_to_set xs : gset nat in
  let C' := C ∪ S in
  if rel then
    match relate true C' h1 with
    | (h2, Ok _) => (h2, C', Ok S)
    | (h2, Err e) => (h2, C', Err e)
    end
  else (h1, C', Ok S).

(** Indexing of a Python list, with negative indices from the end.
    (/repo/embeddedcauset.py:239-251) *)
Definition py_nth (l : list Q) (i : Z) : res Q :=
  let k := if decide (i < 0)%Z then (i + Z.of_nat (length l))%Z else i in
  if decide (k < 0)%Z then Err IndexError
  else match l !! Z.to_nat k with Some v => Ok v | None => Err IndexError end.
(** /repo/embeddedcauset.py:246-247: the list comprehension *)
Fixpoint dim_values (h : heap) (dim : Z) (l : list nat) : res (list Q) :=
  match l with
  | [] => Ok []
  | e :: l' =>
    res_bind (Coordinates h e) (λ c, res_bind (py_nth c dim) (λ v,
      res_map (cons v) (dim_values h dim l')))
  end.
(** /repo/embeddedcauset.py:246-247 numpy.argsort *)
Definition argsort_num : Type := list Q → list nat.
(** /repo/embeddedcauset.py:250-251 *)
Fixpoint set_labels (u : Z) (l : list nat) (h : heap) : heap :=
  match l with [] => h | e :: l' => set_labels (u + 1) l' (upd (set_label (LInt u)) e h) end.
(** /repo/embeddedcauset.py:239-251 (relabel); [argsort] is numpy.argsort. *)
Definition relabel (argsort : argsort_num) (dim : Z) (descending : bool) (C : gset nat) (h : heap)
    : heap * res unit :=
  let eventList := it 32 C in
  match dim_values h dim eventList with
  | Err e => (h, Err e)
  | Ok vs =>
    let sorted_idx := argsort vs in
    let sorted_idx := if descending then reverse sorted_idx else sorted_idx in
    (set_labels 1 ((λ i, eventList !!! i) <$> sorted_idx) h, Ok tt)
  end.
End model.

(** /repo/embeddedcauset.py:120-137 (_Permutation_Coords).  [junk]: the content of the
    array allocated by numpy.empty. *)
Definition perm_coord (radius : Q) (count : nat) (i : nat) (p : Z) : list Q :=
  let cellscale := (radius / inject_Z (Z.of_nat count))%Q in
  let crd_u := ((inject_Z p - (1 # 2)) * cellscale)%Q in
  let crd_v := ((inject_Z (Z.of_nat i) + (1 # 2)) * cellscale)%Q in
  [(crd_u + crd_v - radius)%Q; (crd_u - crd_v)%Q].
(** /repo/embeddedcauset.py:120-137 *)
Fixpoint perm_rows (radius : Q) (count : nat) (i : nat) (P : list Z) (rows : list (list Q))
    : res (list (list Q)) :=
  match P with
  | [] => Ok rows
  | p :: P' =>
    let j := (p - 1)%Z in
    let k := if decide (j < 0)%Z then (j + Z.of_nat count)%Z else j in
    if decide (0 <= k < Z.of_nat count)%Z
    then perm_rows radius count (S i) P' (<[Z.to_nat k := perm_coord radius count i p]> rows)
    else Err IndexError
  end.
(** /repo/embeddedcauset.py:120-137 *)
Definition Permutation_Coords (junk : nat → list Q) (P : list Z) (radius : Q)
    : res (list (list Q)) :=
  perm_rows radius (length P) 0 P (junk <$> seq 0 (length P)).

(** An EmbeddedCauset instance: /repo/embeddedcauset.py:24-25 and the set of events. *)
Record ecauset : Type := ECauset {
  ec_spacetime : spacetime;
  ec_shape : shape;
  ec_events : gset nat
}.

(** The optional arguments of the constructor. (/repo/embeddedcauset.py:33-36) *)
Inductive spacetime_arg : Type := StNone | StObj (st : spacetime) | StName (name : string).
(** /repo/embeddedcauset.py:33-36 *)
Inductive shape_arg : Type := ShNone | ShObj (s : shape) | ShName (name : string).
(** A list of rows or a numpy array (all rows of length [cols]).
    (/repo/embeddedcauset.py:33-36) *)
Inductive coords_arg : Type := CoNone | CoList (rows : list (list Q)) | CoArray (cols : nat) (rows : list (list Q)).

Section init.
Context (f32 : R → R) (eps : R) (it : oracle).

(** /repo/spacetimes.py:73-78, 284-287 (DefaultShape) *)
Definition DefaultShape (st : spacetime) : res shape :=
  CoordinateShape f32 (Z.of_nat (Dim st)) (DefaultShape_name st) no_args.

(** /repo/embeddedcauset.py:68-77 *)
Definition init_dim (dim : Z) (sta : spacetime_arg) (sha : shape_arg) (coa : coords_arg) : res Z :=
  if decide (dim <= 0)%Z then
    match sta, sha, coa with
    | StObj st, _, _ => Ok (Z.of_nat (Dim st))
    | _, ShObj s, _ => Ok (Z.of_nat (sh_dim s))
    | _, _, CoList (r :: _) => Ok (Z.of_nat (length r))
    | _, _, CoArray _ (r :: _) => Ok (Z.of_nat (length r))
    | _, _, CoList [] => Err IndexError
    | _, _, CoArray _ [] => Err IndexError
    | _, _, CoNone => Ok 2%Z
    end
  else Ok dim.
(** /repo/embeddedcauset.py:78-95 *)
Definition init_spacetime (dim : Z) (sta : spacetime_arg) : res spacetime :=
  match sta with
  | StNone => FlatSpacetime dim (PFloat 0)
  | StObj st => Ok st
  | StName name =>
    if decide (name = "flat" ∨ name = "Minkowski") then FlatSpacetime dim (PFloat 0)
    else if decide (name = "dS" ∨ name = "de Sitter") then deSitterSpacetime dim 1
    else if decide (name = "AdS" ∨ name = "Anti-de Sitter") then AntideSitterSpacetime dim (/ 2)
    else if decide (name = "black hole" ∨ name = "Schwarzschild")
    then BlackHoleSpacetime dim (/ 2) "Eddington-Finkelstein"
    else Err ValueError
  end.
(** /repo/embeddedcauset.py:33-118 (__init__).  The new object is returned with the result of
    create, since create may raise. *)
Definition EmbeddedCauset (sta : spacetime_arg) (sha : shape_arg) (coa : coords_arg) (dim : Z)
    (h : heap) : heap * res ecauset :=
  match res_bind (init_dim dim sta sha coa) (λ dim,
        res_bind (init_spacetime dim sta) (λ M,
        if decide (Z.of_nat (Dim M) = dim) then
          res_bind (DefaultShape M) (λ defaultShape,
          res_bind (match sha with
                    | ShNone => Ok defaultShape
                    | ShObj s => Ok s
                    | ShName name => CoordinateShape f32 dim name no_args
                    end) (λ s,
          if decide (sh_dim s = sh_dim defaultShape) then Ok (M, s) else Err ValueError))
        else Err ValueError)) with
  | Err e => (h, Err e)
  | Ok (M, s) =>
    let make rows :=
      let '(h1, C, r) := create it (caus_of eps M) rows FmtNone true ∅ h in
      (h1, res_map (λ _, ECauset M s C) r) in
    match coa with
    | CoNone => (h, Ok (ECauset M s ∅))
    | CoList rows => make rows
    | CoArray cols rows => if decide (cols = sh_dim s) then make rows else (h, Err ValueError)
    end
  end.

(** /repo/embeddedcauset.py:139-150 (FromPermutation) *)
Definition EmbFromPermutation (junk : nat → list Q) (P : list Z) (fmt : label_format) (radius : Q)
    (h : heap) : heap * res ecauset :=
  match CoordinateShape f32 2 "diamond" (ShapeArgs None (Some (Q2R radius)) None None None None) with
  | Err e => (h, Err e)
  | Ok s =>
    match EmbeddedCauset StNone (ShObj s) CoNone (-1) h with
    | (h1, Err e) => (h1, Err e)
    | (h1, Ok C) =>
      match Permutation_Coords junk P radius with
      | Err e => (h1, Err e)
      | Ok rows =>
        let '(h2, evs, r) := create it (caus_of eps (ec_spacetime C)) rows fmt true (ec_events C) h1 in
        (h2, res_map (λ _, ECauset (ec_spacetime C) (ec_shape C) evs) r)
      end
    end
  end.
End init.

(** /repo/embeddedcauset.py:173-187 (Density, LengthScale); division by a zero volume is not
    modelled separately (Coq: x / 0 = x * / 0). *)
Definition Density (C : ecauset) : R := (INR (size (ec_events C)) / snd (Volume (ec_shape C)))%R.
(** /repo/embeddedcauset.py:182-187 *)
Definition LengthScale (C : ecauset) : R :=
  if decide (size (ec_events C) = 0) then 0%R
  else Rpower (Density C) (1 / INR (sh_dim (ec_shape C))).
