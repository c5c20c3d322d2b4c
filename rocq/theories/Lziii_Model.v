(** Model of the lziii decoder (lib/h/ce/lziii.h:41-100). No proofs.
    The encoded bytes are exactly the list; the destination is a list of optional bytes, None where
    nothing was written yet: reading such a byte is UB, like reading out of bounds. *)
From Verif Require Import Base.
Local Open Scope Z_scope.

(** lziii.h:45-67 the loop of size(): c, i and decoded_size. *)
Fixpoint lz_size_loop (fuel : nat) (data : list Z) (c i n : Z) : res Z :=
  if i <? Z.of_nat (length data) then
    match fuel with
    | O => Timeout
    | S fuel =>
        (* 51-52 *)
        '(c, i) <- (if c =? 1 then b <- getz data i ;; Ok (Z.lor b 256, i + 1) else Ok (c, i)) ;;
        (* 55 *)
        let i := i + 1 in
        (* 58 *)
        let n := u64 (n + 1) in
        (* 63-64 *)
        '(i, n) <- (if c mod 2 =? 0 then b <- getz data i ;; Ok (i + 1, u64 (n + (2 + b / 16))) else Ok (i, n)) ;;
        (* 66 *)
        lz_size_loop fuel data (c / 2) i n
    end
  else Ok n.

(** lziii.h:41-69 size. Every iteration advances i, so the length of the data is enough fuel. *)
Definition lz_size (data : list Z) : res Z := lz_size_loop (length data) data 1 0 0.

(** Reading an element of the destination. *)
Definition rd (dst : list (option Z)) (b : Z) : res Z :=
  o <- getz dst b ;; match o with Some v => Ok v | None => UB end.

(** lziii.h:84-85 the copy loop: dst[i++] = dst[b] while b < e, then ++b. [k] bounds the iterations. *)
Fixpoint lz_copy (k : nat) (dst : list (option Z)) (i b e : Z) : res (list (option Z) * Z) :=
  if b <? e then
    match k with
    | O => Timeout
    | S k => v <- rd dst b ;; dst <- setz dst i (Some v) ;; lz_copy k dst (i + 1) (u64 (b + 1)) e
    end
  else Ok (dst, i).

(** lziii.h:75-90 the loop of decode(). *)
Fixpoint lz_loop (fuel : nat) (dst_size : Z) (src : list Z) (c s i : Z) (dst : list (option Z))
  : res (list (option Z)) :=
  if i <? dst_size then
    match fuel with
    | O => Timeout
    | S fuel =>
        (* 78-79 *)
        '(c, s) <- (if c =? 1 then b <- getz src s ;; Ok (Z.lor b 256, s + 1) else Ok (c, s)) ;;
        (* 81 *)
        p <- getz src s ;;
        let s := s + 1 in
        '(dst, s, i) <-
          (if c mod 2 =? 0 then
             (* 84-85; size_t arithmetic wraps *)
             q <- getz src s ;;
             let b := u64 (i + q mod 16 * 256 + p - 4096) in
             let e := u64 (b + q / 16 + 3) in
             '(dst, i) <- lz_copy 18 dst i b e ;;
             Ok (dst, s + 1, i)
           else
             (* 87 *)
             dst <- setz dst i (Some p) ;;
             Ok (dst, s, i + 1)) ;;
        (* 89 *)
        lz_loop fuel dst_size src (c / 2) s i dst
    end
  else Ok dst.

(** lziii.h:71-91 decode. Every iteration advances s, so one more than the length of src is enough fuel. *)
Definition lz_decode (dst_size : Z) (dst : list (option Z)) (src : list Z) : res (list (option Z)) :=
  lz_loop (S (length src)) dst_size src 1 0 0 dst.

(** lziii.h:93-100 decoder<T>: the buffer starts as zeros (data{ }). *)
Definition lz_decoder (src : list Z) : res (list (option Z)) :=
  n <- lz_size src ;;
  lz_decode n (repeat (Some 0) (Z.to_nat n)) src.
