(** Sortedness, stability, strict weak orders. Independent of the model. *)
From Coq Require Import List Bool.

(** operator< is a strict weak order (the C++ Compare requirement). *)
Record strict_weak_order {A} (lt : A -> A -> bool) : Prop := {
  swo_irrefl : forall x, lt x x = false;
  swo_trans : forall x y z, lt x y = true -> lt y z = true -> lt x z = true;
  swo_incomp : forall x y z, lt x y = false -> lt y x = false -> lt y z = false -> lt z y = false ->
               lt x z = false /\ lt z x = false
}.

(** No later element is less than an earlier one. *)
Definition ordered {A} (lt : A -> A -> bool) (l : list A) : Prop :=
  forall i j x y, i < j -> nth_error l i = Some x -> nth_error l j = Some y -> lt y x = false.

(** x and y are equivalent for the order. *)
Definition equivalent {A} (lt : A -> A -> bool) (x y : A) : bool := negb (lt x y) && negb (lt y x).

(** l' lists the elements of every equivalence class in the same order as l. *)
Definition stable {A} (lt : A -> A -> bool) (l l' : list A) : Prop :=
  forall x, filter (equivalent lt x) l' = filter (equivalent lt x) l.
