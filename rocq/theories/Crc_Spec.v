(** Errors in a message. Independent of the model. *)
From Verif Require Import Base Hash_Spec.

(** The number of places at which two bit strings of the same length differ. *)
Fixpoint differences (a b : list bool) : nat :=
  match a, b with
  | x :: a, y :: b => (if Bool.eqb x y then 0 else 1) + differences a b
  | _, _ => 0
  end.

(** How many of the n low bits of a number are 1: for a reflected polynomial and n = 32, how many of its coefficients other than that of x^32. *)
Definition weight (n : nat) (x : Z) : nat := length (filter (fun b => b) (bits n x)).

(** Two byte sequences added without carry, byte by byte. *)
Definition xor_bytes (a b : list Z) : list Z := map (fun p => Z.lxor (fst p) (snd p)) (combine a b).
