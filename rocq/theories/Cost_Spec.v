(** What the bounds on comparisons are stated with. Independent of the model. *)
From Coq Require Import List Arith.
From Verif Require Import Base.
Import ListNotations.
Local Open Scope nat_scope.

(** The pairs of places i < j of a list whose elements stand the wrong way round: the later one is less than the earlier one. *)
Fixpoint inversions {A} (lt : A -> A -> bool) (l : list A) : nat :=
  match l with
  | [] => 0
  | x :: r => length (filter (fun y => lt y x) r) + inversions lt r
  end.

(** Questions of a search that halves n candidates until none is left: 0 for none, otherwise one more than the logarithm of n rounded down. *)
Definition halvings (n : nat) : nat := match n with O => 0 | _ => S (Nat.log2 n) end.

(** The outcome of a counting function without its count. *)
Definition forget {X} (r : res (X * nat)) : res X := match r with Ok (x, _) => Ok x | UB => UB | Timeout => Timeout end.
