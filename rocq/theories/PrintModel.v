(** Model of the texts that Python shows for the objects: __str__ and __repr__ of
    /repo/causetevent.py, /repo/causet.py, __str__ of /repo/shapes.py and /repo/spacetimes.py. *)
From Verif Require Import Base EventModel.
From stdpp Require Import pretty.
From Coq Require Import Ascii String Reals.
From Verif Require Import SpacetimeModel ShapeModel.
#[local] Open Scope nat_scope.
#[local] Open Scope string_scope.

(** Python [', '.join(l)]. (/repo/causetevent.py:149) *)
Fixpoint join_comma (l : list string) : string :=
  match l with
  | [] => ""
  | [s] => s
  | s :: l' => s +:+ ", " +:+ join_comma l'
  end.

(** [bool(self.Label)]. (/repo/causetevent.py:142, 151) *)
Definition label_true (l : label) : bool :=
  match l with
  | LNone => false
  | LInt z => bool_decide (z ≠ 0%Z)
  | LStr s => bool_decide (s ≠ "")
  end.
(** [str(self.Label) if isinstance(self.Label, int) else f'\'{self.Label}\'']; it is evaluated
    only for a label that is not None. (/repo/causetevent.py:143-144, 152-153) *)
Definition label_text (l : label) : string :=
  match l with
  | LNone => "'None'"
  | LInt z => pretty z
  | LStr s => "'" +:+ s +:+ "'"
  end.
(** /repo/causetevent.py:141-146 (__str__) *)
Definition event_str (h : heap) (x : nat) : string :=
  if label_true (lab h x) then "#" +:+ label_text (lab h x) else "#Event".

Section repr.
Context (it : oracle) (fmt : list Q → string).

(** /repo/causetevent.py:148-186 (__repr__). [fmt]: how Python prints the coordinates (a
    parameter).  Reading self.LinkPast (line 149) links an event that has not been linked.  The
    except branch is taken exactly if the attribute _coordinates is missing. *)
Definition event_repr (h : heap) (x : nat) : heap * string :=
  let '(h1, links) := get_LinkPast h x in
  let P := join_comma (event_str h1 <$> it 60 links) in
  let l := if label_true (lab h1 x) then Some (label_text (lab h1 x)) else None in
  let text :=
    match Base.coords h1 x with
    | Some c =>
      if decide (P ≠ "") then
        match l with
        | Some l => "CausetEvent" +:+ "(past={" +:+ P +:+ "}, " +:+ "label=" +:+ l +:+ ", " +:+ "coordinates=" +:+ fmt c +:+ ")"
        | None => "CausetEvent" +:+ "(past={" +:+ P +:+ "}, " +:+ "coordinates=" +:+ fmt c +:+ ")"
        end
      else
        match l with
        | Some l => "CausetEvent" +:+ "(label=" +:+ l +:+ ", " +:+ "coordinates=" +:+ fmt c +:+ ")"
        | None => "CausetEvent" +:+ "(coordinates=" +:+ fmt c +:+ ")"
        end
    | None =>
      if decide (P ≠ "") then
        match l with
        | Some l => "CausetEvent" +:+ "(past={" +:+ P +:+ "}, " +:+ "label=" +:+ l +:+ ")"
        | None => "CausetEvent" +:+ "(past={" +:+ P +:+ "})"
        end
      else
        match l with
        | Some l => "CausetEvent" +:+ "(label=" +:+ l +:+ ")"
        | None => "CausetEvent()"
        end
    end in
  (h1, text).

(** repr() of the items of a list one after the other. (/repo/causet.py:37-38) *)
Fixpoint repr_loop (h : heap) (l : list nat) : heap * list string :=
  match l with
  | [] => (h, [])
  | x :: l' =>
    let '(h1, t) := event_repr h x in
    let '(h2, ts) := repr_loop h1 l' in (h2, t :: ts)
  end.
(** /repo/causet.py:37-38 (__repr__): repr() of a Python set lists its items in iteration order;
    the empty set is shown as set(). *)
Definition causet_repr (h : heap) (C : gset nat) : heap * string :=
  let '(h1, ts) := repr_loop h (it 61 C) in
  (h1, match ts with [] => "set()" | _ => "{" +:+ join_comma ts +:+ "}" end).
End repr.

(** /repo/shapes.py:138-143 (__str__) *)
Definition shape_str (s : shape) : string :=
  if str_hollow s then "hollow " +:+ pretty (N.of_nat (sh_dim s)) +:+ "-" +:+ sh_name s
  else pretty (N.of_nat (sh_dim s)) +:+ "-" +:+ sh_name s.
(** /repo/spacetimes.py:34-38, 259-260, 536, 631, 678 (_name) *)
Definition spacetime_name (st : spacetime) : string :=
  match st with
  | Generic => ""
  | Flat _ _ => "flat"
  | DeSitter _ _ => "de Sitter"
  | AntiDeSitter _ _ => "Anti-de Sitter"
  | BlackHole _ _ => "black hole"
  end.
(** /repo/spacetimes.py:40-41 (__str__) *)
Definition spacetime_str (st : spacetime) : string :=
  pretty (N.of_nat (Dim st)) +:+ "-dimensional " +:+ spacetime_name st +:+ " spacetime".
