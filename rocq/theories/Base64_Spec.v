(** RFC 4648 base64, independent of the decoder. *)
From Verif Require Import Base.
Local Open Scope Z_scope.

(** Table 1 of RFC 4648: the character for a 6-bit value. *)
Definition digit_char (v : Z) : Z :=
  if v <? 26 then 65 + v                (* A-Z *)
  else if v <? 52 then 97 + (v - 26)    (* a-z *)
  else if v <? 62 then 48 + (v - 52)    (* 0-9 *)
  else if v =? 62 then 43               (* + *)
  else 47.                              (* / *)

(** A character is in the alphabet with value v. *)
Definition has_value (c v : Z) : Prop := 0 <= v < 64 /\ c = digit_char v.
Definition in_alphabet (c : Z) : Prop := exists v, has_value c v.

(** Section 4: groups of three bytes become four characters; a final group of one or two bytes becomes
    two or three characters (padding, if any, follows). *)
Fixpoint encode (bytes : list Z) : list Z :=
  match bytes with
  | [] => []
  | [a] => [digit_char (a / 4); digit_char (a mod 4 * 16)]
  | [a; b] => [digit_char (a / 4); digit_char (a mod 4 * 16 + b / 16); digit_char (b mod 16 * 4)]
  | a :: b :: c :: rest =>
      [digit_char (a / 4); digit_char (a mod 4 * 16 + b / 16); digit_char (b mod 16 * 4 + c / 64); digit_char (c mod 64)]
      ++ encode rest
  end.

(** The n low bits of x, most significant first. *)
Fixpoint msb_bits (n : nat) (x : Z) : list bool :=
  match n with O => [] | S n => Z.testbit x (Z.of_nat n) :: msb_bits n x end.

Definition b64_byte (x : Z) : Prop := 0 <= x < 256.
