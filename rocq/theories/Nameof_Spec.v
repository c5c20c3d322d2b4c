(** What nameof.h promises. *)
From Coq Require Import String Ascii.
From Verif Require Import Base.
Local Open Scope string_scope.

Definition no_nul (s : string) : Prop := ~ In zero (list_ascii_of_string s).
Definition has_char (c : ascii) (s : string) : Prop := In c (list_ascii_of_string s).

(** The text after the first occurrence of "::", or all of it. *)
Definition unqualified (item short : string) : Prop :=
  (~ has_char ":" item /\ short = item) \/
  (exists q, ~ has_char ":" q /\ item = q ++ "::" ++ short /\ forall r, short <> ":" ++ r).

(** A value the compiler prints as a cast, "(E)7", has no enumerator. *)
Definition printed_as_cast (item : string) : Prop := exists r, item = "(" ++ r.

(** The values of an integer type. *)
Definition value_of (signed : bool) (bits n : Z) : Prop := (if signed then - 2 ^ (bits - 1) <= n < 2 ^ (bits - 1) else 0 <= n < 2 ^ bits)%Z.

(** An enum as the compiler prints it: each value is an enumerator with a short name, or a cast. *)
Definition describes (value : Z -> Prop) (item : Z -> string) (enumerator : Z -> option string) : Prop :=
  forall n, value n -> item n <> "" /\ no_nul (item n) /\
    match enumerator n with
    | Some short => ~ printed_as_cast (item n) /\ unqualified (item n) short
    | None => printed_as_cast (item n)
    end.
