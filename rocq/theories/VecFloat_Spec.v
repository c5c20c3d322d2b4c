(** What the operators and products of vectors of float and double should give: correctly rounded numbers. *)
From Coq Require Import Reals Floats.SpecFloat List.
From Verif Require Import VecFloat_Model.
Import ListNotations.
Local Open Scope R_scope.

(** float and double. *)
Definition float_type (T : fty) : Prop := T = binary32 \/ T = binary64.

(** The number that f is, m * 2^e; 0 for those that are not numbers. *)
Definition number (f : spec_float) : R :=
  match f with
  | S754_finite s m e => (if s then - IZR (Z.pos m) else IZR (Z.pos m)) * powerRZ 2 e
  | _ => 0
  end.

(** f is one of the values of T that are numbers: not an infinity, not a NaN, with a mantissa and exponent that T has. *)
Definition number_of (T : fty) (f : spec_float) : Prop :=
  valid_binary (prec T) (emax T) f = true /\ match f with S754_infinity _ | S754_nan => False | _ => True end.

(** The last bit of the mantissa is 0. *)
Definition even (f : spec_float) : Prop := match f with S754_finite _ m _ => Z.even (Z.pos m) = true | _ => True end.

(** r is the value of T nearest to the real number x; of two nearest it is the even one. *)
Definition rounded (T : fty) (x : R) (r : spec_float) : Prop :=
  number_of T r /\
  (forall f, number_of T f -> Rabs (number r - x) <= Rabs (number f - x)) /\
  (forall f, number_of T f -> Rabs (number f - x) = Rabs (number r - x) -> number f = number r \/ even r).

(** Half way between the largest number of T and the next power of two: the numbers below have a nearest value, those above overflow. *)
Definition limit (T : fty) : R := powerRZ 2 (emax T) - powerRZ 2 (emax T - prec T - 1).

(** The result r of an operation whose exact result is x. *)
Definition result (T : fty) (x : R) (r : spec_float) : Prop :=
  (Rabs x < limit T -> rounded T x r) /\
  (limit T < x -> r = S754_infinity false) /\
  (x < - limit T -> r = S754_infinity true).

Inductive operator := Add | Sub | Mul | Div.
Definition exact (op : operator) (x y : R) : R := match op with Add => x + y | Sub => x - y | Mul => x * y | Div => x / y end.

(** Component by component: rs are the results for xs and ys, wherever both operands are numbers and nothing is divided by 0. *)
Inductive each (T : fty) (op : operator) : list spec_float -> list spec_float -> list spec_float -> Prop :=
| each_nil : each T op [] [] []
| each_cons x y r xs ys rs :
    (number_of T x -> number_of T y -> (op = Div -> number y <> 0) -> result T (exact op (number x) (number y)) r) ->
    each T op xs ys rs -> each T op (x :: xs) (y :: ys) (r :: rs).

(** Two values compare equal: the same number (so -0 is 0) or the same infinity; a NaN does not even compare equal to itself. *)
Definition same (a b : spec_float) : Prop :=
  match a, b with
  | S754_nan, _ | _, S754_nan => False
  | S754_infinity s, S754_infinity t => s = t
  | S754_infinity _, _ | _, S754_infinity _ => False
  | _, _ => number a = number b
  end.

(** The n cells at address a. *)
Definition cells (m : memory) (a n : nat) : list spec_float := map m (seq a n).

(** [a] is [b] with the other sign, or both are zeros, whatever their signs. *)
Definition opposite (a b : spec_float) : Prop := a = SFopp b \/ match a, b with S754_zero _, S754_zero _ => True | _, _ => False end.
