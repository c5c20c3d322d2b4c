(** Model of the type-level lists of lib/h/ce/ce.h. No proofs.
    A pack of types is a list of codes with decidable equality; a failed template lookup (no member named type) is None. *)
From Coq Require Import List Arith.
Import ListNotations.

(** ce.h:374-378 detail::sequence<T, N, R, items<As...>, items<Is...>>: the list of values, with the number of
    instantiations that were nested to get it. The specialisations for N = 0 are more specialised than those for any N,
    so they win. The values are T{ Is }, a compile-time error when one does not fit T: T is taken large enough.
    Sizes are size_t in the code; here they are natural numbers (N < 2^64). N / 2 < N, so N + 1 is enough fuel. *)
Fixpoint sequence_ex (fuel : nat) (N R : nat) (As Is : list nat) : option (list nat * nat) :=
  match fuel with
  | O => None
  | S fuel =>
      let deeper r := match r with Some (l, d) => Some (l, S d) | None => None end in
      match N, R with
      | O, O => Some (Is, 1)
      | O, S O => Some (Is ++ map (fun a => length Is + a) As, 1)
      | _, O => deeper (sequence_ex fuel (N / 2) (N mod 2) (As ++ map (fun a => length As + a) As) Is)
      | _, S O => deeper (sequence_ex fuel (N / 2) (N mod 2) (As ++ map (fun a => length As + a) As) (Is ++ map (fun a => length Is + a) As))
      | _, _ => None
      end
  end.

(** ce.h:380-381 sequence_t<T, N>. *)
Definition sequence_t (N : nat) : option (list nat * nat) := sequence_ex (S (N / 2)) (N / 2) (N mod 2) [0] [].

Section Types.
Variable U : Type.
Variable eqb : U -> U -> bool. (* the same type *)

(** ce.h:285-289 types<...>::count, car_t and cdr_t; None for void. *)
Definition types_count (ts : list U) : nat := match ts with [] => 0 | _ :: ts => 1 + length ts end.
Definition car_t (ts : list U) : option U := match ts with [] => None | t :: _ => Some t end.
Definition cdr_t (ts : list U) : option (list U) := match ts with [] => None | _ :: ts => Some ts end.

(** ce.h:295-299 select. The specialisation for 0 is more specialised. *)
Fixpoint select (n : nat) (ts : list U) : option U :=
  match ts with
  | [] => None
  | t :: ts => match n with O => Some t | S n => select n ts end
  end.
(** ce.h:300-301 cond_t and enable_t. *)
Definition cond_t (e : bool) (ts : list U) : option U := select (if e then 0 else 1) ts.
Definition enable_t (e : bool) (t : U) : option U := select (if e then 0 else 1) [t].

(** ce.h:303-306 are_same. *)
Fixpoint are_same_from (t : U) (ts : list U) : bool :=
  match ts with [] => true | u :: ts => if eqb t u then are_same_from t ts else false end.
Definition are_same (ts : list U) : bool := match ts with [] => false | t :: ts => are_same_from t ts end.

(** ce.h:313-315 has. *)
Fixpoint has (t : U) (us : list U) : bool :=
  match us with [] => false | u :: us => if eqb t u then true else has t us end.

(** ce.h:413-414 count_leading_t. *)
Fixpoint count_leading (i : U) (is : list U) : nat :=
  match is with [] => 0 | j :: is => if eqb i j then 1 + count_leading i is else 0 end.
End Types.
