(** What "the decimal text of an integer" means; independent of the model. *)
From Coq Require Import ZArith List.
Import ListNotations.
Open Scope Z_scope.

(** Value of a string of ASCII digits, most significant first. *)
Definition digits_value (l : list Z) : Z :=
  fold_left (fun acc c => 10 * acc + (c - 48)) l 0.

Definition is_digit (c : Z) : Prop := 48 <= c <= 57.

(** [l] is the canonical decimal numeral of the natural number [n]. *)
Definition numeral (n : Z) (l : list Z) : Prop :=
  l <> [] /\ Forall is_digit l /\ (hd 0 l = 48 -> l = [48]) /\ digits_value l = n.

(** [l] is the text of the integer [i]: '-' (45) and the numeral of [-i] if negative. *)
Definition decimal_text (i : Z) (l : list Z) : Prop :=
  (0 <= i /\ numeral i l) \/ (i < 0 /\ exists d, l = 45 :: d /\ numeral (- i) d).

(** The values of an integer type given by signedness and size in bytes. *)
Definition in_type (sgn : bool) (size i : Z) : Prop :=
  if sgn then - 2 ^ (8 * size - 1) <= i < 2 ^ (8 * size - 1) else 0 <= i < 2 ^ (8 * size).
