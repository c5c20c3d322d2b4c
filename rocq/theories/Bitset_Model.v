(** Models of bitset<N> and of span's skip and trim (lib/h/ce/ce.h). No proofs. *)
From Verif Require Import Base.
Local Open Scope Z_scope.

(** ce.h:1482-1484 bitset<N>::data has (N + 7) >> 3 bytes. *)
Definition bytes_for (N : nat) : nat := Nat.div (N + 7) 8.

(** ce.h:1487-1491 operator[]: the int result of & converted to bool. A failed CE_ASSERT is the outcome UB. *)
Definition bs_get (N : nat) (d : list Z) (i : nat) : res bool :=
  guard (i <? N)%nat (b <- get d (Nat.div i 8) ;;
  Ok (negb (Z.land b (Z.shiftl 1 (Z.of_nat (Nat.modulo i 8))) =? 0))).

(** ce.h:1493-1496 set(): memset to 0xff. *)
Definition bs_set_all (N : nat) (d : list Z) : res (list Z) :=
  if (bytes_for N <=? length d)%nat then Ok (repeat 255 (bytes_for N) ++ skipn (bytes_for N) d) else UB.

(** ce.h:1498-1502 set(index). *)
Definition bs_set (N : nat) (d : list Z) (i : nat) : res (list Z) :=
  guard (i <? N)%nat (b <- get d (Nat.div i 8) ;;
  set d (Nat.div i 8) (u8 (Z.lor b (Z.shiftl 1 (Z.of_nat (Nat.modulo i 8)))))).

(** ce.h:1504-1507 reset(). *)
Definition bs_reset_all (N : nat) (d : list Z) : res (list Z) :=
  if (bytes_for N <=? length d)%nat then Ok (repeat 0 (bytes_for N) ++ skipn (bytes_for N) d) else UB.

(** ce.h:1509-1513 reset(index). *)
Definition bs_reset (N : nat) (d : list Z) (i : nat) : res (list Z) :=
  guard (i <? N)%nat (b <- get d (Nat.div i 8) ;;
  set d (Nat.div i 8) (u8 (Z.land b (Z.lnot (Z.shiftl 1 (Z.of_nat (Nat.modulo i 8))))))).

(** ce.h:1515-1526 set(index, value). *)
Definition bs_put (N : nat) (d : list Z) (i : nat) (v : bool) : res (list Z) :=
  guard (i <? N)%nat (b <- get d (Nat.div i 8) ;;
  if v then set d (Nat.div i 8) (u8 (Z.lor b (Z.shiftl 1 (Z.of_nat (Nat.modulo i 8)))))
  else set d (Nat.div i 8) (u8 (Z.land b (Z.lnot (Z.shiftl 1 (Z.of_nat (Nat.modulo i 8))))))).

(** A client program: a sequence of calls. *)
Inductive bs_op := BGet (i : nat) | BSetAll | BSet (i : nat) | BResetAll | BReset (i : nat) | BPut (i : nat) (v : bool).

(** Returns the values read, in order, and the final bytes. *)
Fixpoint bs_run (N : nat) (d : list Z) (os : list bs_op) : res (list bool * list Z) :=
  match os with
  | [] => Ok ([], d)
  | BGet i :: os => r <- bs_get N d i ;; '(rs, d) <- bs_run N d os ;; Ok (r :: rs, d)
  | BSetAll :: os => d <- bs_set_all N d ;; bs_run N d os
  | BSet i :: os => d <- bs_set N d i ;; bs_run N d os
  | BResetAll :: os => d <- bs_reset_all N d ;; bs_run N d os
  | BReset i :: os => d <- bs_reset N d i ;; bs_run N d os
  | BPut i v :: os => d <- bs_put N d i v ;; bs_run N d os
  end.

(** ce.h:1199-1202 span: a size and a pointer (an offset into some memory). *)
Record span := { sp_size : Z; sp_data : Z }.

(** ce.h:1210-1213 skip. size_t subtraction wraps. *)
Definition skip (s : span) (n : Z) : span :=
  if n <? sp_size s then {| sp_size := u64 (sp_size s - n); sp_data := sp_data s + n |}
  else {| sp_size := 0; sp_data := sp_data s |}.

(** ce.h:1215-1218 trim. *)
Definition trim (s : span) (n : Z) : span :=
  if n <? sp_size s then {| sp_size := u64 (sp_size s - n); sp_data := sp_data s |}
  else {| sp_size := 0; sp_data := sp_data s |}.
