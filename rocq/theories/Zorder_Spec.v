(** What zorder.h is about, independently of its code. *)
From Coq Require Import ZArith List.
Import ListNotations.
Local Open Scope Z_scope.

Definition int32 (x : Z) : Prop := - 2 ^ 31 <= x < 2 ^ 31.

(** The Morton code of (x, y): the bits of x + 2^31 at the even positions, those of y + 2^31 at the odd ones. *)
Definition is_code (x y z : Z) : Prop :=
  0 <= z < 2 ^ 64 /\
  forall i, 0 <= i < 32 ->
    Z.testbit z (2 * i) = Z.testbit (x + 2 ^ 31) i /\
    Z.testbit z (2 * i + 1) = Z.testbit (y + 2 ^ 31) i.

Definition in_rect (x0 y0 x1 y1 x y : Z) : Prop := x0 <= x <= x1 /\ y0 <= y <= y1.

Definition ascending (l : list Z) : Prop := forall i j a b,
  (i < j)%nat -> nth_error l i = Some a -> nth_error l j = Some b -> a <= b.

(** [subseq l m]: l is m with some elements left out. *)
Inductive subseq {A : Type} : list A -> list A -> Prop :=
| sub_nil : subseq [] []
| sub_skip x l m : subseq l m -> subseq l (x :: m)
| sub_take x l m : subseq l m -> subseq (x :: l) (x :: m).

(** How often z occurs. *)
Definition count (l : list Z) (z : Z) : nat := count_occ Z.eq_dec l z.
