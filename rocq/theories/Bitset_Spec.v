(** Independent specifications of bitset and span. *)
From Coq Require Import Arith.
From Verif Require Import Base Bitset_Model.
Local Open Scope nat_scope.

(** An array of booleans as a function on indices; the reads made by a history. *)
Fixpoint bits_run (f : nat -> bool) (os : list bs_op) : list bool :=
  match os with
  | [] => []
  | BGet i :: os => f i :: bits_run f os
  | BSetAll :: os => bits_run (fun _ => true) os
  | BSet i :: os => bits_run (fun j => if j =? i then true else f j) os
  | BResetAll :: os => bits_run (fun _ => false) os
  | BReset i :: os => bits_run (fun j => if j =? i then false else f j) os
  | BPut i v :: os => bits_run (fun j => if j =? i then v else f j) os
  end.

(** Every index used is below N. *)
Definition op_ok (N : nat) (o : bs_op) : Prop :=
  match o with
  | BGet i | BSet i | BReset i | BPut i _ => i < N
  | BSetAll | BResetAll => True
  end.

(** The elements a span designates in memory. *)
Definition elements {A} (mem : list A) (s : span) : list A :=
  firstn (Z.to_nat (sp_size s)) (skipn (Z.to_nat (sp_data s)) mem).

Definition span_in {A} (mem : list A) (s : span) : Prop :=
  (0 <= sp_data s /\ 0 <= sp_size s /\ sp_data s + sp_size s <= Z.of_nat (length mem) < 2 ^ 64)%Z.
