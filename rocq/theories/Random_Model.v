(** Model of the random number generators (lib/h/ce/ce.h:705-852). No proofs. *)
From Verif Require Import Base Hash_Model.
Local Open Scope Z_scope.

(** Shifts of a uint32_t / uint64_t: a count outside [0, width) is undefined. *)
Definition shl32 (x n : Z) : res Z := if (0 <=? n) && (n <? 32) then Ok (u32 (Z.shiftl x n)) else UB.
Definition shr32 (x n : Z) : res Z := if (0 <=? n) && (n <? 32) then Ok (Z.shiftr x n) else UB.
Definition shl64 (x n : Z) : res Z := if (0 <=? n) && (n <? 64) then Ok (u64 (Z.shiftl x n)) else UB.
Definition shr64 (x n : Z) : res Z := if (0 <=? n) && (n <? 64) then Ok (Z.shiftr x n) else UB.

(** ce.h:76-79 detail::rotl32 (CE_ROTL32 with GCC, ce.h:186; Clang and MSVC use a rotate intrinsic, ce.h:157,171). *)
Definition rotl32 (x i : Z) : res Z :=
  h <- shl32 x (Z.land i 31) ;;
  l <- shr32 x (32 - Z.land i 31) ;;
  Ok (Z.lor h l).

(** ce.h:710-713 xoroshiro64ss: the pair (a, b). *)
Definition state := (Z * Z)%type.

(** ce.h:715-722 seed(xoroshiro64ss&, size, data). *)
Definition seed64ss (data : list Z) : res state :=
  let n := Nat.div (length data) 2 in
  a <- crc32_8 crc32c_poly 0 (firstn n data) ;;
  b <- crc32_8 crc32c_poly a (skipn n data) ;;
  Ok (a, b).

(** ce.h:724-731 next(xoroshiro64ss&): result and new state. *)
Definition next64ss (g : state) : res (Z * state) :=
  let '(ga, gb) := g in
  let a := ga in
  let b := Z.lxor gb a in
  r <- rotl32 a 26 ;;
  b9 <- shl32 b 9 ;;
  gb' <- rotl32 b 13 ;;
  o <- rotl32 (u32 (a * 2654435771)) 5 ;;
  Ok (u32 (o * 5), (Z.lxor (Z.lxor r b) b9, gb')).

(** ce.h:734-738 next64(xoroshiro64ss&). *)
Definition next64ss_64 (g : state) : res (Z * state) :=
  '(a, g) <- next64ss g ;;
  '(b, g) <- next64ss g ;;
  h <- shl64 a 32 ;;
  Ok (Z.lor h b, g).

(** ce.h:756-758 xoroshiro128pp::rotl. *)
Definition rotl64 (x k : Z) : res Z :=
  h <- shl64 x k ;;
  l <- shr64 x (64 - k) ;;
  Ok (Z.lor h l).

(** ce.h:750-754 seed(xoroshiro128pp&, size, data). *)
Definition seed128pp (data : list Z) : state :=
  let a := fnv1a 64 1 data (fnv_basis 64) in
  (a, fnv1a 64 1 data a).

(** ce.h:760-768 next(xoroshiro128pp&). *)
Definition next128pp (g : state) : res (Z * state) :=
  let '(a, b) := g in
  let c := Z.lxor a b in
  r <- rotl64 a 49 ;;
  c21 <- shl64 c 21 ;;
  gb' <- rotl64 c 28 ;;
  o <- rotl64 (u64 (a + b)) 17 ;;
  Ok (u64 (o + a), (Z.lxor (Z.lxor r c) c21, gb')).

(** ce.h:780-796 read(pcg32_64_t): the shift by 32 - a is undefined when a = 0. *)
Definition pcg_read (q : Z) : res Z :=
  a <- shr64 q 59 ;;
  x <- shr64 q 27 ;;
  y <- shr64 q 45 ;;
  let b := u32 (Z.lxor x y) in
  r <- shr32 b a ;;
  l <- shl32 b (32 - a) ;;
  Ok (Z.lor r l).

(** ce.h:798-801 step(pcg32_64_t). *)
Definition pcg_step (g : Z) : Z := u64 (u64 (6364136223846793005 * g) + 15726070495360670683).

(** ce.h:803-811 the two seed functions. *)
Definition pcg_seed (s : Z) : Z := pcg_step (u64 (pcg_step 0 + s)).
Definition pcg_seed_data (data : list Z) : Z := pcg_seed (fnv1a64 1 data).

(** ce.h:813-850 for any generator type with read and step. *)
Section Generic.
Context {G : Type} (read : G -> res Z) (step : G -> G).

(** ce.h:813-820 next. *)
Definition next (g : G) : res (Z * G) := e <- read g ;; Ok (e, step g).

(** ce.h:822-829 next_ranged. *)
Definition next_ranged (g : G) (n : Z) : res (Z * G) :=
  r <- read g ;;
  Ok (u32 (Z.shiftr (n * r) 32), step g).

(** ce.h:841-846 the rejection loop; p is the low half of m. *)
Fixpoint reject_loop (fuel : nat) (n k : Z) (q : G) (m : Z) : res (Z * G) :=
  if u32 m <? k then
    match fuel with
    | O => Timeout
    | S fuel => r <- read q ;; reject_loop fuel n k (step q) (n * r)
    end
  else Ok (m, q).

(** ce.h:831-850 next_unbiased; n % n divides by zero when n = 0. *)
Definition next_unbiased (fuel : nat) (g : G) (n : Z) : res (Z * G) :=
  r <- read g ;;
  let m := n * r in
  let q := step g in
  '(m, q) <- (if u32 m <? n then
                if n =? 0 then UB
                else reject_loop fuel n (u32 (0 - n mod n)) q m
              else Ok (m, q)) ;;
  Ok (u32 (Z.shiftr m 32), q).
End Generic.
