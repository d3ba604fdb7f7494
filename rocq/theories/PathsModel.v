(** Model of the path iterator Causet.Paths.  /repo/causet.py:847-929. *)
From Verif Require Import Base EventModel.

(** The argument 'length' of Paths.  /repo/causet.py:865-875.  [LenInt] covers bool (a
    subclass of int); [LenOther] is any value that is not a str, an int or a list. *)
Inductive path_length : Type :=
| LenStr (s : string)
| LenInt (n : Z)
| LenList (l : list Z)
| LenOther.

(** What the recursive generator yields together with the final values of the nonlocal
    variables min_len and max_len. *)
Notation found := (list (list nat) * Z * Z)%type.

(** /repo/causet.py:911-914: the loop over the internal events; the nonlocal bounds are
    passed from one recursive call to the next. *)
Fixpoint find_loop (rec : nat → Z → Z → res found) (es : list nat) (mn mx : Z) : res found :=
  match es with
  | [] => Ok ([], mn, mx)
  | e :: es' =>
    match rec e mn mx with
    | Err x => Err x
    | Ok (P, mn1, mx1) =>
      match find_loop rec es' mn1 mx1 with
      | Err x => Err x
      | Ok (P', mn2, mx2) => Ok (P ++ P', mn2, mx2)
      end
    end
  end.

Section model.
(** The order in which a set is visited may differ from call to call; a call of the inner
    function is identified by its path prefix [path_a]. *)
Context (pit : list nat → oracle).

(** /repo/causet.py:889-914 (inner function Paths_find).  The generator is modelled by the
    list of the values it yields (nothing else runs between two yields). *)
Fixpoint paths_find (fuel : nat) (h : heap) (fmin fmax : bool) (b : nat) (b_linked : gset nat)
    (path_a : list nat) (a : nat) (l mn mx : Z) : res found :=
  match fuel with
  | O => Err OutOfFuel
  | S fuel' =>
    let a_linked := LinkFuture h a ∩ Past h b in
    let perimetral := a_linked ∩ b_linked in
    let internal := a_linked ∖ perimetral in
    let step := bool_decide (mn <= l)%Z && bool_decide (0 < size perimetral)
                && (negb fmax || bool_decide (size internal = 0)) in
    let out := if step then (λ e, path_a ++ [e; b]) <$> pit path_a 13 perimetral else [] in
    if step && fmin
    then Ok (out, mn, if decide ((l <= mx)%Z ∨ mx = (-1)%Z) then l else mx)
    else
      let mn' := if fmax then Z.max mn l else mn in
      if decide (l = mx) then Ok (out, mn', mx)
      else
        match find_loop (λ e, paths_find fuel' h fmin fmax b b_linked (path_a ++ [e]) e (l + 1))
                (pit path_a 14 internal) mn' mx with
        | Err x => Err x
        | Ok (P, mn2, mx2) => Ok (out ++ P, mn2, mx2)
        end
  end.

(** /repo/causet.py:861-875: the four local variables set from the argument. *)
Definition path_bounds (len : path_length) : res (bool * bool * Z * Z) :=
  match len with
  | LenStr s =>
    Ok (bool_decide (s = "min"), bool_decide (s = "max" ∨ s = "timegeo"), 0, -1)%Z
  | LenInt n => Ok (false, false, n, n)
  | LenList l =>
    match l with
    | [] => Err IndexError
    | x :: _ => Ok (false, false, x, default x (last l))
    end
  | LenOther => Err ValueError
  end.

(** /repo/causet.py:880, 883: the test of a bound. *)
Definition in_bounds (mn mx k : Z) : bool :=
  bool_decide (mn <= k)%Z && (bool_decide (k <= mx)%Z || bool_decide (mx = -1)%Z).

(** /repo/causet.py:847-929 (Paths), all values that the iterator yields.
    Fuel: the recursion descends into the interval between a and b. *)
Definition Paths (h : heap) (a b : nat) (len : path_length) : res (list (list nat)) :=
  match path_bounds len with
  | Err x => Err x
  | Ok (fmin, fmax, mn, mx) =>
    if negb (ev_le h a b) then Ok []
    else if decide (a = b) then Ok (if in_bounds mn mx 1 then [[a]] else [])
    else if decide (b ∈ LinkFuture h a) then Ok (if in_bounds mn mx 2 then [[a; b]] else [])
    else if decide ((3 <= mx)%Z ∨ mx = (-1)%Z) then
      let b_linked := Future h a ∩ LinkPast h b in
      match paths_find (S (size (prec h b))) h fmin fmax b b_linked [a] a 3 mn mx with
      | Err x => Err x
      | Ok (P, mn', mx') =>
        Ok (if fmin then filter (λ p : list nat, Z.of_nat (length p) = mx') P
            else if fmax then filter (λ p : list nat, Z.of_nat (length p) = mn') P
            else P)
      end
    else Ok []
  end.

End model.
