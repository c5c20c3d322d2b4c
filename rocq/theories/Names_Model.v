(** Model of names (lib/h/ce/ce.h:1112-1170) and names_t (lib/h/ce/io.h:30-58): splitting stringised arguments. No proofs. *)
From Verif Require Import Base.
Local Open Scope Z_scope.

(** Characters are signed (char on the supported targets): a byte above 127 is negative. *)
Definition SPACE := 32.  Definition COMMA := 44.  Definition QUOTE := 34.  Definition APOS := 39.  Definition BSLASH := 92.
Definition is_open (c : Z) : bool := (c =? 40) || (c =? 91) || (c =? 123).
Definition is_close (c : Z) : bool := (c =? 41) || (c =? 93) || (c =? 125).

(** *src: the source is what is left of it before its terminator. *)
Definition peek (src : list Z) : Z := match src with [] => 0 | c :: _ => c end.

(** ce.h:1126-1127 skip leading spaces. *)
Fixpoint skip_spaces (src : list Z) : list Z :=
  match src with
  | c :: r => if (c <=? SPACE) && negb (c =? 0) then skip_spaces r else src
  | [] => []
  end.

(** ce.h:1129-1161 one name: copies from src into text at i, and returns (text, i, trim, src left). balance is an int that can
    only overflow on a string of 2^31 brackets. *)
Fixpoint copy (src : list Z) (text : list Z) (i trim : nat) (balance : Z) (quote : Z) (escape : bool)
    : res (list Z * nat * nat * list Z) :=
  match src with
  | [] => Ok (text, i, trim, [])
  | c :: r =>
      if (quote =? 0) && ((c =? COMMA) && ((balance =? 0) || (peek r =? 0))) then Ok (text, i, trim, src)
      else
        let '(balance, quote, escape) :=
          if quote =? 0 then
            if (c =? QUOTE) || (c =? APOS) then (balance, c, escape)
            else if is_open c then (balance + 1, quote, escape)
            else if is_close c then (balance - 1, quote, escape)
            else (balance, quote, escape)
          else if escape then (balance, quote, false)
          else if c =? BSLASH then (balance, quote, true)
          else if c =? quote then (balance, 0, escape)
          else (balance, quote, escape) in
        text <- set text i c ;;
        copy r text (S i) (if SPACE <? c then S i else trim) balance quote escape
  end.

(** ce.h:1121-1168 the loop over data: n names left of the COUNT, at text index i. Returns the text and where each name starts. *)
Fixpoint names_loop (n : nat) (src : list Z) (text : list Z) (i : nat) : res (list Z * list nat) :=
  match n with
  | O => Ok (text, [])
  | S n =>
      let src1 := skip_spaces src in
      let balance := if Nat.eqb n 0 then 1 else 0 in
      '(text, _, trim, src2) <- copy src1 text i i balance 0 false ;;
      text <- set text trim 0 ;;
      let '(i', src3) := match src2 with [] => (trim, []) | _ :: r => (S trim, r) end in
      '(text, starts) <- names_loop n src3 text i' ;;
      Ok (text, i :: starts)
  end.

(** ce.h:1112-1170 names<N, COUNT>(src) with N = sizeof the literal (CE_AS_NAMES_EX, 1173). data has COUNT + !COUNT entries, and
    the balance starts at 1 for the COUNT-th only: with COUNT = 0 there is one entry, and it is not that one. *)
Definition names (count : nat) (src : list Z) : res (list Z * list nat) :=
  match count with
  | O =>
      let text := repeat 0 (length src + 1) in
      '(text, _, trim, _) <- copy (skip_spaces src) text 0 0 0 0 false ;;
      text <- set text trim 0 ;;
      Ok (text, [0%nat])
  | _ => names_loop count src (repeat 0 (length src + 1)) 0
  end.

(** The C string at a position of an array: up to its terminator, which must be in the array. *)
Fixpoint c_string (text : list Z) : option (list Z) :=
  match text with
  | [] => None
  | c :: r => if c =? 0 then Some [] else option_map (cons c) (c_string r)
  end.
Definition name_at (text : list Z) (start : nat) : option (list Z) := c_string (skipn start text).

(** ** names_t *)

(** io.h:43-44 *)
Fixpoint nt_spaces (fuel : nat) (s : list Z) (k : nat) : res nat :=
  match fuel with
  | O => Timeout
  | S fuel => c <- get s k ;; if negb (c =? 0) && (c <=? SPACE) then nt_spaces fuel s (S k) else Ok k
  end.

(** io.h:46-47 *)
Fixpoint nt_copy (fuel : nat) (s text : list Z) (j k : nat) : res (list Z * nat * nat) :=
  match fuel with
  | O => Timeout
  | S fuel =>
      c <- get s k ;;
      if (SPACE <? c) && negb (c =? COMMA) then
        text <- set text j c ;;
        nt_copy fuel s text (S j) (S k)
      else Ok (text, j, k)
  end.

(** io.h:39-53 the loop; n names left. *)
Fixpoint nt_loop (n : nat) (s text : list Z) (j k : nat) : res (list Z * nat * list nat) :=
  match n with
  | O => Ok (text, j, [])
  | S n =>
      k1 <- nt_spaces (S (length s)) s k ;;
      '(text, j2, k2) <- nt_copy (S (length s)) s text j k1 ;;
      c <- get s k2 ;;
      let k3 := if c =? COMMA then S k2 else k2 in
      text <- set text j2 0 ;;
      '(text, j', starts) <- nt_loop n s text (S j2) k3 ;;
      Ok (text, j', j :: starts)
  end.

(** io.h:55-56 fill the rest with terminators. *)
Fixpoint nt_fill (n : nat) (text : list Z) (j : nat) : res (list Z) :=
  match n with
  | O => Ok text
  | S n => text <- set text j 0 ;; nt_fill n text (S j)
  end.

(** io.h:35-57 names_t<N, COUNT>(s), s with its terminator and N its size. *)
Definition names_t (count : nat) (src : list Z) : res (list Z * list nat) :=
  let s := (src ++ [0])%list in
  '(text, j, starts) <- nt_loop count s (repeat 0 (length s)) 0 0 ;;
  text <- nt_fill (length s - j) text j ;;
  Ok (text, starts).
