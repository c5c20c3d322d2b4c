(** Unicode encodings, and the texts of log and error. *)
From Coq Require Import String Ascii.
From Verif Require Import Base.
Local Open Scope Z_scope.

(** A Unicode scalar value: a code point that is not a surrogate. *)
Definition scalar (c : Z) : Prop := 0 <= c < 0xd800 \/ 0xe000 <= c < 0x110000.

(** RFC 3629, section 3. *)
Definition utf8 (c : Z) : list Z :=
  if c <? 0x80 then [c]
  else if c <? 0x800 then [0xc0 + c / 64; 0x80 + c mod 64]
  else if c <? 0x10000 then [0xe0 + c / 4096; 0x80 + c / 64 mod 64; 0x80 + c mod 64]
  else [0xf0 + c / 262144; 0x80 + c / 4096 mod 64; 0x80 + c / 64 mod 64; 0x80 + c mod 64].

(** RFC 2781, section 2.1. *)
Definition utf16 (c : Z) : list Z :=
  if c <? 0x10000 then [c] else [0xd800 + (c - 0x10000) / 1024; 0xdc00 + (c - 0x10000) mod 1024].

(** Sum of the well-formed text with its items separated by sep. *)
Local Open Scope string_scope.
Definition q : string := String (ascii_of_nat 34) EmptyString.
Definition nl : string := String (ascii_of_nat 10) EmptyString.
Definition pair_text (kv : string * string) : string := q ++ fst kv ++ q ++ ": " ++ q ++ snd kv ++ q.

(** A string with no terminator inside. *)
Definition no_nul (s : string) : Prop := ~ In zero (list_ascii_of_string s).
