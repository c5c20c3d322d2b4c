(** Model of ascii::is_* and base64 (lib/h/ce/ce.h:856-901). No proofs.
    A char is an integer in [-128, 255], so both signed and unsigned char are covered. *)
From Coq Require Import String Ascii.
From Verif Require Import Base.
Local Open Scope Z_scope.

Definition chars (s : string) : list Z := map (fun c => Z.of_nat (nat_of_ascii c)) (list_ascii_of_string s).

Definition between (lo a hi : Z) : bool := (lo <=? a) && (a <=? hi).

(** ce.h:858 *)
Definition is_base10 (a : Z) : bool := between 48 a 57.
(** ce.h:859 *)
Definition is_base16 (a : Z) : bool := between 48 a 57 || between 65 a 70 || between 97 a 102.
(** ce.h:860 *)
Definition is_base64 (a : Z) : bool := between 48 a 57 || between 65 a 90 || between 97 a 122 || (a =? 43) || (a =? 47).
(** ce.h:861-863 *)
Definition is_alpha (a : Z) : bool := between 65 a 90 || between 97 a 122.
Definition is_upper (a : Z) : bool := between 65 a 90.
Definition is_lower (a : Z) : bool := between 97 a 122.

(** ce.h:870 size(n), on size_t. *)
Definition b64_size (n : Z) : Z := u64 (u64 (n / 4 * 3) + u64 (n mod 4 * 3) / 4).

(** ce.h:872-877 size(src): the loop over n, started with n characters already passed. *)
Fixpoint b64_size_loop (src : list Z) (n : Z) : res Z :=
  match src with
  | [] => UB
  | c :: src => if negb (is_base64 c) then Ok (b64_size n) else b64_size_loop src (u64 (n + 1))
  end.
Definition b64_size_str (src : list Z) : res Z := b64_size_loop src 0.

(** ce.h:883 the string literal. *)
Definition b64_alphabet : list Z := chars "ABCDEFGHIJKLMNOPQRSTUVWXYZabcdefghijklmnopqrstuvwxyz0123456789+/".

(** ce.h:881-883 filling dec: [k] entries still to do. *)
Fixpoint dec_loop (k : nat) (i : Z) (dec : list Z) : res (list Z) :=
  match k with
  | O => Ok dec
  | S k => c <- getz b64_alphabet i ;; dec <- setz dec (u8 c) (u8 i) ;; dec_loop k (i + 1) dec
  end.
Definition dec_table : res (list Z) := dec_loop 64 0 (repeat 0 256).

(** ce.h:885-891 the main loop: [k] bytes still to do. *)
Fixpoint b64_loop (dec src : list Z) (k : nat) (i : Z) (dst : list Z) : res (list Z) :=
  match k with
  | O => Ok dst
  | S k =>
      s0 <- getz src (u64 (i * 4) / 3 + 0) ;;
      a <- getz dec (u8 s0) ;;
      s1 <- getz src (u64 (i * 4) / 3 + 1) ;;
      b <- getz dec (u8 s1) ;;
      let n := i mod 3 * 2 + 2 in
      dst <- setz dst i (u8 (Z.shiftl a n + Z.shiftr b (6 - n))) ;;
      b64_loop dec src k (i + 1) dst
  end.

(** ce.h:879-892 decode. *)
Definition b64_decode (dst_size : Z) (dst src : list Z) : res (list Z) :=
  dec <- dec_table ;;
  b64_loop dec src (Z.to_nat dst_size) 0 dst.

(** ce.h:894-900 decoder<T>: the size from the text, a zeroed buffer, then decode. *)
Definition b64_decoder (text : list Z) : res (list Z) :=
  n <- b64_size_str text ;;
  b64_decode n (repeat 0 (Z.to_nat n)) text.
