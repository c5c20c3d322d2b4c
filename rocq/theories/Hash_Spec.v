(** Independent specifications of CRC-32 and FNV-1a. *)
From Verif Require Import Base.
Local Open Scope Z_scope.

(** The [n] low bits of x, least significant first. *)
Fixpoint bits (n : nat) (x : Z) : list bool :=
  match n with O => [] | S n => Z.odd x :: bits n (Z.div2 x) end.

(** The bytes of a sz-byte element in little-endian order (the low byte first), from any integer
    congruent to it modulo 2^(8 sz). *)
Fixpoint le_bytes (sz : nat) (x : Z) : list Z :=
  match sz with O => [] | S sz => x mod 256 :: le_bytes sz (x / 256) end.

(** The bit stream of a byte sequence. *)
Definition bit_stream (p : list Z) : list bool := flat_map (bits 8) p.

(** The textbook reflected CRC: shift register fed one message bit at a time. *)
Definition crc_bit (P v : Z) (b : bool) : Z :=
  if xorb (Z.odd v) b then Z.lxor (Z.div2 v) P else Z.div2 v.
Definition invert32 (v : Z) : Z := 2 ^ 32 - 1 - v.
Definition crc32_spec (P c : Z) (p : list Z) : Z :=
  invert32 (fold_left (crc_bit P) (bit_stream p) (invert32 c)).

(** Textbook FNV-1a with prime p on w-bit words, over bytes. *)
Definition fnv1a_spec (w prime : Z) (bytes : list Z) (basis : Z) : Z :=
  fold_left (fun h b => (Z.lxor h b * prime) mod 2 ^ w) bytes basis.

(** The published FNV parameters: 2^24 + 2^8 + 0x93 and 2^40 + 2^8 + 0xb3. *)
Definition FNV32_prime : Z := 2 ^ 24 + 2 ^ 8 + 147.
Definition FNV64_prime : Z := 2 ^ 40 + 2 ^ 8 + 179.

Definition is_byte (x : Z) : Prop := 0 <= x < 256.
