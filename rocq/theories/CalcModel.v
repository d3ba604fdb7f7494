(** Model of /repo/calculations.py.  Floating point numbers are modelled by real numbers
    (no rounding, no overflow), Fraction by rational numbers compared with [==]. *)
From Verif Require Import Base.
From Coq Require Import Reals.

(** /repo/calculations.py:14-28 (HarmonicNumber).  [gamma] is np.euler_gamma.  math.log of a
    non-positive number raises ValueError. *)
Definition asymptotic (gamma : R) (n : nat) : R :=
  let x := INR n in
  (ln x + gamma + 0.5 / x - 0.25 / 3 / (x * x) + 0.025 / 3 / (x * x * (x * x)))%R.
(** sum(1. / k for k in range(n, 0, -1)). (/repo/calculations.py:15-29) *)
Definition sum_down (n : nat) : R :=
  foldl (λ s k, s + 1 / INR k)%R 0%R (reverse (seq 1 n)).
(** /repo/calculations.py:15-28 *)
Definition HarmonicNumber (gamma : R) (n approximate : nat) : res R :=
  if decide (n < approximate) then Ok (sum_down n)
  else if decide (n = 0) then Err ValueError
  else Ok (asymptotic gamma n).

(** /repo/calculations.py:31-50 (HarmonicNumbers).  [None] is an entry that is not a finite
    number: for n_range = 0 numpy computes -inf + inf = nan.  [empty] is the content of
    np.empty, overwritten everywhere.  The first loop runs over k in range(min(n+1,
    approximate)) with the running total. *)
Fixpoint harmonic_loop (ks : list nat) (total : R) (H : list (option R)) : list (option R) :=
  match ks with
  | [] => H
  | k :: ks' => harmonic_loop ks' (total + 1 / INR (k + 1))%R (<[k := Some total]> H)
  end.
(** /repo/calculations.py:32-50 *)
Definition HarmonicNumbers (gamma : R) (empty : nat → option R) (n approximate : nat)
    : list (option R) :=
  let H := harmonic_loop (seq 0 (min (n + 1) approximate)) 0%R (empty <$> seq 0 (n + 1)) in
  if decide (approximate ≤ n)
  then foldl (λ H k, <[k := if decide (k = 0) then None else Some (asymptotic gamma k)]> H) H
         (seq approximate (n + 1 - approximate))
  else H.

(** /repo/calculations.py:53-60 (HarmonicNumberFraction). *)
Definition HarmonicNumberFraction (n : nat) : Q :=
  if decide (n = 0) then 0%Q
  else foldl (λ s k, s + (1 # Pos.of_nat k))%Q 0%Q (seq 1 n).

(** /repo/calculations.py:63-73 (HarmonicNumberFractions). *)
Fixpoint fraction_loop (ks : list nat) (total : Q) (H : list Q) : list Q :=
  match ks with
  | [] => H
  | k :: ks' => fraction_loop ks' (total + (1 # Pos.of_nat (k + 1)))%Q (<[k := total]> H)
  end.
(** /repo/calculations.py:63-73 *)
Definition HarmonicNumberFractions (n : nat) : list Q :=
  fraction_loop (seq 0 (n + 1)) 0%Q (replicate (n + 1) 0%Q).

(** /repo/calculations.py:76-102 (NewtonsMethod).  [None] for xmin, xmax is the infinite
    default.  f and fprime are arbitrary functions (exceptions of theirs are not modelled). *)
Definition newton_next (f fprime : R → R) (y : R) (xmin xmax : option R) (precission x : R) : R :=
  let x_next := (x - (f x - y) / fprime x)%R in
  if match xmin with Some m => if Rlt_dec x_next m then true else false | None => false end
  then (default 0 xmin + precission)%R
  else if match xmax with Some m => if Rlt_dec m x_next then true else false | None => false end
  then (default 0 xmax - precission)%R
  else x_next.
(** /repo/calculations.py:76-102 *)
Fixpoint newton_loop (n : nat) (f fprime : R → R) (y : R) (xmin xmax : option R)
    (dflt precission x : R) : R :=
  match n with
  | O => dflt
  | S n' =>
    if Req_EM_T (fprime x) 0 then dflt
    else
      let x_next := newton_next f fprime y xmin xmax precission x in
      if Rlt_dec (Rabs (x - x_next)) precission then x_next
      else newton_loop n' f fprime y xmin xmax dflt precission x_next
  end.
(** /repo/calculations.py:76-102 *)
Definition NewtonsMethod (f fprime : R → R) (x0 y : R) (xmin xmax : option R)
    (dflt precission : R) (maxIterations : nat) : R :=
  newton_loop maxIterations f fprime y xmin xmax dflt precission x0.
