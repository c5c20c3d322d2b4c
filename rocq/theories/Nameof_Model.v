(** Model of lib/h/ce/nameof.h. No proofs. *)
From Coq Require Import String Ascii.
From Verif Require Import Base.
Local Open Scope nat_scope.

(** A C string is a string without NUL; reading s[i] up to its terminator is defined. *)
Definition at_ (s : string) (i : nat) : res ascii :=
  match String.get i s with Some c => Ok c | None => if Nat.eqb i (String.length s) then Ok zero else UB end.

(** nameof.h:33-38 same. *)
Fixpoint same_loop (fuel : nat) (a b : string) (i : nat) : res nat :=
  match fuel with
  | O => Timeout
  | S fuel =>
      ca <- at_ a i ;;
      cb <- at_ b i ;;
      if negb (Ascii.eqb ca cb) || Ascii.eqb ca zero then Ok i else same_loop fuel a b (S i)
  end.
Definition same (a b : string) : res nat := same_loop (S (String.length a)) a b 0.

(** nameof.h:40-46 skip. *)
Fixpoint skip_loop (fuel : nat) (what : ascii) (text : string) (n : nat) : res nat :=
  match fuel with
  | O => Timeout
  | S fuel =>
      c <- at_ text n ;;
      if Ascii.eqb c zero then Ok 0
      else
        if Ascii.eqb c what then
          d <- at_ text (S n) ;;
          if negb (Ascii.eqb d what) then Ok (S n) else skip_loop fuel what text (S n)
        else skip_loop fuel what text (S n)
  end.
Definition skip (what : ascii) (text : string) : res nat := skip_loop (S (String.length text)) what text 0.

(** nameof.h:48-58 const_text<N>(text + skip): N characters from there. The constructor also reads text[skip + N] before
    replacing it with the terminator, so it must be within the terminated string. *)
Definition const_text (n : nat) (text : string) (from : nat) : res string :=
  if Nat.leb (from + n) (String.length text) then Ok (substring from n text) else UB.

(** nameof.h:60 name<T, N...>() is __PRETTY_FUNCTION__: what the compiler prints before the type, between the type and the
    values, and after the values is the same for all of them. *)
Record compiler := { pre : string; mid : string; post : string }.
Definition name (c : compiler) (type : string) (values : string) : string := (pre c ++ type ++ mid c ++ values ++ post c)%string.

(** nameof.h:61-63 name_void, skip_type, skip_item. *)
Definition name_void (c : compiler) : string := name c "void" "".
Definition skip_type (c : compiler) : res nat := same (name_void c) (name c "int" "").
Definition skip_item (c : compiler) : res nat := same (name c "void" "0") (name_void c).

(** nameof.h:64-65 name_type and name_item. sizeof counts the terminators, which cancel out. *)
Definition name_type (c : compiler) (type : string) : res string :=
  k <- skip_type c ;;
  const_text (String.length (name c type "") + 4 - String.length (name_void c)) (name c type "") k.
Definition name_item (c : compiler) (item : string) : res string :=
  k <- skip_item c ;;
  const_text (String.length (name c "void" item) - String.length (name_void c)) (name c "void" item) k.

(** nameof.h:68-72 nameof<T>::text. *)
Definition nameof_type (c : compiler) (type : string) : res string :=
  t <- name_type c type ;;
  k <- skip " " t ;;
  const_text (String.length t - k) t k.

(** nameof.h:74-79 nameof<T, N>: is_known and text, from the text the compiler prints for the value. *)
Definition is_known (c : compiler) (item : string) : res bool :=
  t <- name_item c item ;;
  a <- at_ t 0 ;;
  Ok (negb (Ascii.eqb a "(")).
Definition nameof_item (c : compiler) (item : string) : res string :=
  t <- name_item c item ;;
  known <- is_known c item ;;
  if (known : bool) then (k <- skip ":" t ;; const_text (String.length t - k) t k) else const_text 3 "???" 0.

Section Enum.
  (** The enum: what the compiler prints for static_cast<T>(n), n unsigned. *)
  Context (c : compiler) (item : nat -> string).

  (** nameof.h:87-110 nameof_enum<T, L, H>(n), with u = unsigned(n). *)
  Fixpoint nameof_enum (fuel : nat) (l h : nat) (u : nat) : res string :=
    match fuel with
    | O => Timeout
    | S fuel =>
        if Nat.ltb 64 (h - l) then
          let m := l + (h - l) / 2 in
          if Nat.ltb u m then nameof_enum fuel l m u else nameof_enum fuel m h u
        else if Nat.ltb l h then
          if Nat.eqb u l then
            known <- is_known c (item l) ;;
            if (known : bool) then nameof_item c (item l) else Ok "???"%string
          else nameof_enum fuel (S l) h u
        else Ok "???"%string
    end.

  (** nameof.h:112-134 as_enum<T, L, H>(name): None when not good. *)
  Fixpoint as_enum_range (fuel : nat) (l h : nat) (nm : string) : res (option nat) :=
    match fuel with
    | O => Timeout
    | S fuel =>
        if Nat.ltb 64 (h - l) then
          let m := l + (h - l) / 2 in
          n <- as_enum_range fuel l m nm ;;
          match n with Some v => Ok (Some v) | None => as_enum_range fuel m h nm end
        else if Nat.ltb l h then
          known <- is_known c (item l) ;;
          if (known : bool) then
            t <- nameof_item c (item l) ;;
            i <- same t nm ;;
            if Nat.eqb i (String.length t) then
              e <- at_ nm (String.length t) ;;
              if Ascii.eqb e zero then Ok (Some l) else as_enum_range fuel (S l) h nm
            else as_enum_range fuel (S l) h nm
          else as_enum_range fuel (S l) h nm
        else Ok None
    end.

End Enum.

(** The type T of an enum: its underlying type, which the enum declares (an enum class has one), and static_cast<T>(L) of an unsigned. *)
Record enum_type := { e_signed : bool; e_bits : Z }.
Definition cast (t : enum_type) (z : Z) : Z := if e_signed t then swrap (e_bits t) z else z mod 2 ^ e_bits t.

Section Value.
  (** item: what the compiler prints for each value of T. *)
  Context (c : compiler) (t : enum_type) (item : Z -> string).

  (** nameof.h:137 nameof(n): unsigned(n) keeps 32 bits; the instantiations ask for static_cast<T>(0) .. static_cast<T>(255). *)
  Definition nameof (n : Z) : res string := nameof_enum c (fun l => item (cast t (Z.of_nat l))) 257 0 256 (Z.to_nat (u32 n)).

  (** nameof.h:139-143 as_enum(name, unknown), and { static_cast<T>(L), true } of 126. *)
  Definition as_enum (nm : string) (unknown : Z) : res Z :=
    n <- as_enum_range c (fun l => item (cast t (Z.of_nat l))) 257 0 256 nm ;;
    Ok (match n with Some v => cast t (Z.of_nat v) | None => unknown end).
End Value.
