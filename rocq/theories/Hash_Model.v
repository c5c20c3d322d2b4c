(** Model of crc32 and fnv1a (lib/h/ce/ce.h:439-581). No proofs.
    uint32_t and uint64_t values are integers; every operation that can wrap is wrapped. *)
From Verif Require Import Base.
Local Open Scope Z_scope.

(** ce.h:445 crc(i) = i / 2 ^ i % 2 * P  (C precedence: ^ is exclusive or and binds last). *)
Definition crc (P i : Z) : Z := Z.lxor (i / 2) (u32 (i mod 2 * P)).

(** ce.h:446 x8<I>. *)
Definition x8 (P i : Z) : Z :=
  crc P (crc P (crc P (crc P (crc P (crc P (crc P (crc P i))))))).

(** ce.h:449-457 table<N, items<size_t, Is...>>::vs with Is = 0 .. 255 (ce.h:460). The 256 entries are
    computed at compile time, one expression per entry. *)
Fixpoint table (P : Z) (N : nat) : list Z :=
  match N with
  | O => map (fun i => x8 P (Z.of_nat i)) (seq 0 256)
  | S N => map (fun v => Z.lxor (v / 256) (x8 P (v mod 256))) (table P N)
  end.

(** table lookup vs[i]. *)
Definition vs (P : Z) (N : nat) (i : Z) : res Z := getz (table P N) i.

(** ~x on uint32_t. *)
Definition not32 (x : Z) : Z := u32 (Z.lnot x).

(** ce.h:467-488 crc32(c, n, uint64_t const p[]): one iteration. *)
Definition step64 (P v q : Z) : res Z :=
  let v := Z.lxor v (u32 q) in
  let w := u32 (Z.shiftr q 32) in
  t0 <- vs P 0 (w / 16777216) ;;
  t1 <- vs P 1 (w / 65536 mod 256) ;;
  t2 <- vs P 2 (w / 256 mod 256) ;;
  t3 <- vs P 3 (w mod 256) ;;
  t4 <- vs P 4 (v / 16777216) ;;
  t5 <- vs P 5 (v / 65536 mod 256) ;;
  t6 <- vs P 6 (v / 256 mod 256) ;;
  t7 <- vs P 7 (v mod 256) ;;
  Ok (Z.lxor (Z.lxor (Z.lxor (Z.lxor (Z.lxor (Z.lxor (Z.lxor t0 t1) t2) t3) t4) t5) t6) t7).

(** ce.h:490-504 crc32(c, n, uint32_t const p[]): one iteration. *)
Definition step32 (P v q : Z) : res Z :=
  let v := Z.lxor v q in
  t0 <- vs P 0 (v / 16777216) ;;
  t1 <- vs P 1 (v / 65536 mod 256) ;;
  t2 <- vs P 2 (v / 256 mod 256) ;;
  t3 <- vs P 3 (v mod 256) ;;
  Ok (Z.lxor (Z.lxor (Z.lxor t0 t1) t2) t3).

(** ce.h:506-514 crc32(c, n, uint8_t const p[]): one iteration. *)
Definition step8 (P v q : Z) : res Z :=
  t <- vs P 0 (Z.lxor (v mod 256) q) ;;
  Ok (Z.lxor (v / 256) t).

(** The loop shared by the four functions. *)
Fixpoint crc_loop (step : Z -> Z -> res Z) (v : Z) (p : list Z) : res Z :=
  match p with
  | [] => Ok v
  | q :: p => v <- step v q ;; crc_loop step v p
  end.

(** ce.h:467-514 the three overloads; n is the length of p. *)
Definition crc32_64 (P c : Z) (p : list Z) : res Z := v <- crc_loop (step64 P) (not32 c) p ;; Ok (not32 v).
Definition crc32_32 (P c : Z) (p : list Z) : res Z := v <- crc_loop (step32 P) (not32 c) p ;; Ok (not32 v).
Definition crc32_8 (P c : Z) (p : list Z) : res Z := v <- crc_loop (step8 P) (not32 c) p ;; Ok (not32 v).

(** ce.h:465 crc32c_t's polynomial. *)
Definition crc32c_poly : Z := 2197175160. (* 0x82f63b78 *)

(** ce.h:516-525 crc32c(char const (&s)[N]): all but the last character; char may be signed. *)
Definition crc32c (s : list Z) : res Z :=
  match s with
  | [] => UB
  | _ => v <- crc_loop (step8 crc32c_poly) (not32 0) (map u8 (removelast s)) ;; Ok (not32 v)
  end.

(** ce.h:535-545 the constants, by width of the hash in bits. *)
Definition fnv_prime (w : Z) : Z := if w =? 32 then 16777619 else 1099511628211.
Definition fnv_basis (w : Z) : Z := if w =? 32 then 2166136261 else 14695981039346656037.

(** ce.h:555-560 the bytes of one element after the first: v >>= 8 on the element's own type (arithmetic
    shift if signed), [n] more bytes. *)
Fixpoint fnv_more (w h v : Z) (n : nat) : Z :=
  match n with
  | O => h
  | S n => let v := Z.shiftr v 8 in fnv_more w (Z.lxor h (u8 v) * fnv_prime w mod 2 ^ w) v n
  end.

(** ce.h:548-564 fnv1a<T>(size, data, basis) for elements of [sz] bytes. *)
Fixpoint fnv1a (w : Z) (sz : nat) (data : list Z) (h : Z) : Z :=
  match data with
  | [] => h
  | v :: data => fnv1a w sz data (fnv_more w (Z.lxor h (u8 v) * fnv_prime w mod 2 ^ w) v (sz - 1))
  end.

(** ce.h:566-570 the default-basis forms. *)
Definition fnv1a32 (sz : nat) (data : list Z) : Z := fnv1a 32 sz data (fnv_basis 32).
Definition fnv1a64 (sz : nat) (data : list Z) : Z := fnv1a 64 sz data (fnv_basis 64).

(** ce.h:572-580 fnv1a(char const text[]): up to the NUL; reading past the readable bytes is UB. *)
Fixpoint fnv1a_str_loop (h : Z) (text : list Z) : res Z :=
  match text with
  | [] => UB
  | c :: text => if c =? 0 then Ok h else fnv1a_str_loop (Z.lxor h (u8 c) * fnv_prime 32 mod 2 ^ 32) text
  end.
Definition fnv1a_str (text : list Z) : res Z := fnv1a_str_loop (fnv_basis 32) text.
