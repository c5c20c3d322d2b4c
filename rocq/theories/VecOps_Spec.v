(** What the operators of vectors should do, component by component. Independent of the model's arithmetic. *)
From Coq Require Import ZArith List.
From Verif Require Import Base VecOps_Model.
Import ListNotations.
Local Open Scope Z_scope.

Inductive operator := Add | Sub | Mul | Div.

(** The mathematical result; division truncates toward zero. *)
Definition math (op : operator) (x y : Z) : Z :=
  match op with Add => x + y | Sub => x - y | Mul => x * y | Div => Z.quot x y end.

(** The values of the type T. *)
Definition values_of (T : ety) (v : Z) : Prop :=
  if signed T then - 2 ^ (bits T - 1) <= v < 2 ^ (bits T - 1) else 0 <= v < 2 ^ bits T.

(** When C++ gives `x op y` a meaning for operands of type T: no division by zero, and the result fits in the type the
    operation is made in, unless that is an unsigned type. Types narrower than 32 bits calculate in a signed type of 32. *)
Definition defined (T : ety) (op : operator) (x y : Z) : Prop :=
  (op = Div -> y <> 0) /\
  (bits T < 32 -> - 2 ^ 31 <= math op x y < 2 ^ 31) /\
  (32 <= bits T -> signed T = true -> - 2 ^ (bits T - 1) <= math op x y < 2 ^ (bits T - 1)).

(** The value of type T that agrees with the mathematical result modulo 2 ^ bits. *)
Definition value (T : ety) (op : operator) (x y v : Z) : Prop := values_of T v /\ exists k, v = math op x y + k * 2 ^ bits T.

(** Component by component. *)
Inductive each (T : ety) (op : operator) : list Z -> list Z -> list Z -> Prop :=
| each_nil : each T op [] [] []
| each_cons x y v xs ys vs : value T op x y v -> each T op xs ys vs -> each T op (x :: xs) (y :: ys) (v :: vs).

(** [f], a function of the operands xs and ys, is defined exactly when all components are, and then gives their values. *)
Definition computes (T : ety) (op : operator) (xs ys : list Z) (f : res (list Z)) : Prop :=
  (Forall2 (defined T op) xs ys -> exists vs, f = Ok vs /\ each T op xs ys vs) /\
  (~ Forall2 (defined T op) xs ys -> f = UB).

(** The n cells at address a. *)
Definition cells (m : memory) (a n : nat) : list Z := map m (seq a n).

(** [f] stores the values of the components into the n cells at a and changes no other cell. *)
Definition stores (T : ety) (op : operator) (n : nat) (m : memory) (a : nat) (ys : list Z) (f : res memory) : Prop :=
  (Forall2 (defined T op) (cells m a n) ys ->
     exists m', f = Ok m' /\ each T op (cells m a n) ys (cells m' a n) /\ forall q, (q < a \/ a + n <= q)%nat -> m' q = m q) /\
  (~ Forall2 (defined T op) (cells m a n) ys -> f = UB).
