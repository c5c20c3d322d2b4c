(** Vocabulary for statements about generators. *)
From Verif Require Import Base.
Local Open Scope Z_scope.

(** The generator after n calls of [next], ignoring the results. *)
Definition after {S O} (next : S -> res (O * S)) (n : N) (s : S) : res S :=
  N.iter n (fun r => s <- r ;; '(_, s) <- next s ;; Ok s) (Ok s).

(** A two-word state of width w, and the states other than all-zero. *)
Definition words (w : Z) (s : Z * Z) : Prop := 0 <= fst s < 2 ^ w /\ 0 <= snd s < 2 ^ w.
Definition nonzero_words (w : Z) (s : Z * Z) : Prop := words w s /\ s <> (0, 0).

(** Rotation of a w-bit word to the right by n, bit by bit. *)
Definition is_ror (w x n y : Z) : Prop :=
  0 <= y < 2 ^ w /\ forall i, 0 <= i < w -> Z.testbit y i = Z.testbit x ((i + n) mod w).

(** Exactly k integers satisfy P. *)
Definition has_count (P : Z -> Prop) (k : Z) : Prop :=
  exists l, NoDup l /\ (forall x, In x l <-> P x) /\ Z.of_nat (length l) = k.

(** Rotation of a w-bit word to the left by k: the k high bits move below the others. *)
Definition is_rol (w x k y : Z) : Prop :=
  exists hi lo, 0 <= hi < 2 ^ k /\ 0 <= lo < 2 ^ (w - k) /\ x = hi * 2 ^ (w - k) + lo /\ y = lo * 2 ^ k + hi.

(** The published generators (prng.di.unimi.it/xoroshiro64starstar.c and xoroshiro128plusplus.c): the result and the next state. *)
Definition xoroshiro64starstar (s : Z * Z) (result : Z) (t : Z * Z) : Prop :=
  let s0 := fst s in
  let s1 := Z.lxor (snd s) (fst s) in
  exists r r26 r13, is_rol 32 (s0 * 0x9E3779BB mod 2 ^ 32) 5 r /\ is_rol 32 s0 26 r26 /\ is_rol 32 s1 13 r13 /\
    result = r * 5 mod 2 ^ 32 /\ t = (Z.lxor (Z.lxor r26 s1) (s1 * 2 ^ 9 mod 2 ^ 32), r13).
Definition xoroshiro128plusplus (s : Z * Z) (result : Z) (t : Z * Z) : Prop :=
  let s0 := fst s in
  let s1 := Z.lxor (snd s) (fst s) in
  exists r r49 r28, is_rol 64 ((fst s + snd s) mod 2 ^ 64) 17 r /\ is_rol 64 s0 49 r49 /\ is_rol 64 s1 28 r28 /\
    result = (r + s0) mod 2 ^ 64 /\ t = (Z.lxor (Z.lxor r49 s1) (s1 * 2 ^ 21 mod 2 ^ 64), r28).

(** The result of the call of [next] after k others. *)
Definition nth_output {S} (next : S -> res (Z * S)) (k : N) (s : S) : res Z :=
  s <- after next k s ;; '(o, _) <- next s ;; Ok o.
