(** Model of integer to text conversion. No proofs here. *)
From Coq Require Import String Ascii.
From Verif Require Import Base.
Open Scope Z_scope.

Definition bytes_of_string (s : string) : list Z :=
  map (fun c => Z.of_nat (nat_of_ascii c)) (list_ascii_of_string s).

(** lib/to_text_from_integer.h:79-81 [digits_00_99] (the two adjacent string literals). *)
Definition digits_00_99 : list Z := bytes_of_string
  ("00010203040506070809" ++ "10111213141516171819" ++ "20212223242526272829"
   ++ "30313233343536373839" ++ "40414243444546474849" ++ "50515253545556575859"
   ++ "60616263646566676869" ++ "70717273747576777879" ++ "80818283848586878889"
   ++ "90919293949596979899").

(** State of the expression: the character buffer [b] (the caller's array; [b] index 0 is
    the pointer held in variable b, expressed by the offset [o]) . *)

(** lib/to_text_from_integer.h:85 JEAIII_W(I, U): copy the pair of characters of U.
    The struct-pair copy is two char copies; reads and writes are bounds checked.
    Simplified: the strict-aliasing question of the pair cast is not modelled. *)
Definition W (b : list Z) (i : nat) (U : Z) : res (list Z) :=
  t <- getz digits_00_99 (U * 2) ;;
  o <- getz digits_00_99 (U * 2 + 1) ;;
  b <- set b i t ;;
  set b (i + 1) o.

(** lib/to_text_from_integer.h:86 the shift  N / 5 * N * 53 / 16  (C integer division). *)
Definition A_shift (N : Z) : Z := N / 5 * N * 53 / 16.

(** lib/to_text_from_integer.h:86 the value of t computed by JEAIII_A(I, N) before the
    digit pair is written; u64 arithmetic wraps. *)
Definition A_t (N u : Z) : Z :=
  let t := u64 (u64 (2 ^ (32 + A_shift N)) / 10 ^ N + 1 + N / 6 - N / 8) in
  let t := u64 (t * u) in
  let t := Z.shiftr t (A_shift N) in
  u64 (t + N / 6 * 4).

(** lib/to_text_from_integer.h:86 JEAIII_A(I, N). Returns the buffer and t. *)
Definition A (b : list Z) (i : nat) (N u : Z) : res (list Z * Z) :=
  let t := A_t N u in
  b <- W b i (Z.shiftr t 32) ;; Ok (b, t).

(** lib/to_text_from_integer.h:87 JEAIII_S(I): char(10 * u32(t) >> 32) + '0'. *)
Definition S1 (i : nat) (s : list Z * Z) : res (list Z) :=
  let '(b, t) := s in
  set b i (u8 (u8 (Z.shiftr (u64 (10 * u32 t)) 32) + 48)).

(** lib/to_text_from_integer.h:88 JEAIII_D(I): t = 100 * u32(t), write pair. *)
Definition D (i : nat) (s : list Z * Z) : res (list Z * Z) :=
  let '(b, t) := s in
  let t := u64 (100 * u32 t) in
  b <- W b i (Z.shiftr t 32) ;; Ok (b, t).

Definition fin (s : list Z * Z) : res (list Z) := Ok (fst s).

(** lib/to_text_from_integer.h:90-99 JEAIII_C0 .. JEAIII_C9. *)
Definition C (n : nat) (b : list Z) (i : nat) (u : Z) : res (list Z) :=
  match n with
  | 0%nat => set b i (u8 (u8 u + 48))
  | 1%nat => W b i u
  | 2%nat => s <- A b i 1 u ;; S1 (i + 2) s
  | 3%nat => s <- A b i 2 u ;; s <- D (i + 2) s ;; fin s
  | 4%nat => s <- A b i 3 u ;; s <- D (i + 2) s ;; S1 (i + 4) s
  | 5%nat => s <- A b i 4 u ;; s <- D (i + 2) s ;; s <- D (i + 4) s ;; fin s
  | 6%nat => s <- A b i 5 u ;; s <- D (i + 2) s ;; s <- D (i + 4) s ;; S1 (i + 6) s
  | 7%nat => s <- A b i 6 u ;; s <- D (i + 2) s ;; s <- D (i + 4) s ;; s <- D (i + 6) s ;; fin s
  | 8%nat => s <- A b i 7 u ;; s <- D (i + 2) s ;; s <- D (i + 4) s ;; s <- D (i + 6) s ;; S1 (i + 8) s
  | 9%nat => s <- A b i 8 u ;; s <- D (i + 2) s ;; s <- D (i + 4) s ;; s <- D (i + 6) s ;;
             s <- D (i + 8) s ;; fin s
  | _ => UB
  end.

(** lib/to_text_from_integer.h:101 JEAIII_L(N, A, B). *)
Definition L {R} (N u : Z) (a b : R) : R := if u <? 10 ^ N then a else b.

(** lib/to_text_from_integer.h:102 JEAIII_L09(F). *)
Definition L09 {R} (u : Z) (F : nat -> R) : R :=
  L 2 u (L 1 u (F 0%nat) (F 1%nat))
    (L 6 u (L 4 u (L 3 u (F 2%nat) (F 3%nat)) (L 5 u (F 4%nat) (F 5%nat)))
           (L 8 u (L 7 u (F 6%nat) (F 7%nat)) (L 9 u (F 8%nat) (F 9%nat)))).

(** lib/to_text_from_integer.h:103 JEAIII_L03(F). *)
Definition L03 {R} (u : Z) (F : nat -> R) : R :=
  L 2 u (L 1 u (F 0%nat) (F 1%nat)) (L 3 u (F 2%nat) (F 3%nat)).

(** lib/to_text_from_integer.h:105-107 JEAIII_K, JEAIII_KX, JEAIII_KYX: run, and return
    the advanced pointer (an offset into the caller's buffer). *)
Definition K (b : list Z) (o : nat) (u : Z) (n : nat) : res (list Z * nat) :=
  b <- C n b (o + 0) u ;; Ok (b, (o + n + 1)%nat).
Definition KX (b : list Z) (o : nat) (u x : Z) (n : nat) : res (list Z * nat) :=
  b <- C n b (o + 0) u ;; b <- C 7 b (o + (n + 1)) x ;; Ok (b, (o + n + 9)%nat).
Definition KYX (b : list Z) (o : nat) (u y x : Z) (n : nat) : res (list Z * nat) :=
  b <- C n b (o + 0) u ;; b <- C 7 b (o + (n + 1)) y ;; b <- C 7 b (o + (n + 9)) x ;;
  Ok (b, (o + n + 17)%nat).

(** The integer types of lib/to_text.cpp:52-62: signedness and sizeof in bytes. *)
Record ity := { ity_signed : bool; ity_size : Z }.

(** lib/to_text_from_integer.h:121 the cast by sizeof(T) to the 32-bit working value. *)
Definition narrow (T : ity) (t : Z) : Z :=
  if ity_size T =? 1 then u8 t else if ity_size T =? 2 then u16 t else u32 t.

(** lib/to_text_from_integer.h:113-140 to_text_from_integer, called through
    lib/to_text.cpp:52-62. [b] is the caller's array, [o] the offset of the pointer
    passed in, the result is the array and the offset of the pointer returned. *)
Definition to_text_int (T : ity) (b : list Z) (o : nat) (i : Z) : res (list Z * nat) :=
  let t := u64 i in
  '(b, o, t) <- (if i <? 0
                 then b <- set b o 45 ;; Ok (b, (o + 1)%nat, u64 (0 - t))
                 else Ok (b, o, t)) ;;
  let u := narrow T t in
  if u =? t then L09 u (K b o u)
  else
    let x := u32 (t mod 100000000) in
    let t := t / 100000000 in
    let u := u32 t in
    if u =? t then L09 u (KX b o u x)
    else
      let y := u32 (t mod 100000000) in
      let u := u32 (t / 100000000) in
      L03 u (KYX b o u y x).
