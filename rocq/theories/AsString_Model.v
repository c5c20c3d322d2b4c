(** Model of to_text for compound values and of as_string. No proofs here. *)
From Coq Require Import String Ascii.
From Verif Require Import Base ToText_Model.
Open Scope Z_scope.

(** A run-time value together with the static type information that overload
    resolution of to_text uses (ce.h:919-1016).  A float or double is given by the text that
    std::to_chars makes of it, which is not modelled further. *)
Inductive val : Type :=
| VInt (T : ity) (i : Z)               (* built-in integer of type T *)
| VChar (c : Z)                        (* char *)
| VBool (v : bool)
| VEnum (T : ity) (i : Z)              (* enum with underlying type T, not char or bool *)
| VFloat (text : list Z)               (* float or double *)
| VNullptr                             (* nullptr *)
| VPtr (a : Z)                         (* pointer to a non-char type, by address *)
| VCharPtr (m : option (list Z))       (* char pointer: null, or the bytes readable from it on *)
| VRef (a : Z)                         (* any other object, by address *)
| VCharArr (m : list Z)                (* char[N], N = length m *)
| VArr (vs : list (Z * val))           (* T[N], T not char: the address of each element and the element *)
| VVec (vs : list (Z * val)).          (* vec<N,...>: the address of each component and the component *)

Definition size_t : ity := {| ity_signed := false; ity_size := 8 |}.

(** ce.h:934 to_text(char[], char). *)
Definition to_text_char (b : list Z) (o : nat) (c : Z) : res (list Z * nat) :=
  b <- set b o c ;; Ok (b, (o + 1)%nat).

(** ce.h:935-942 to_text(char[], bool). *)
Definition to_text_bool (b : list Z) (o : nat) (v : bool) : res (list Z * nat) :=
  b <- set b (o + 0) 35 ;;
  b <- set b (o + 1) 60 ;;
  c <- getz (bytes_of_string "FT") (if v then 1 else 0) ;;
  b <- set b (o + 2) c ;;
  b <- set b (o + 3) 62 ;;
  Ok (b, (o + 4)%nat).

(** ce.h:944-950 to_text_p(char[], char const[]): [m] is the memory readable from the
    pointer on; reading past it is UB. *)
Fixpoint to_text_p (b : list Z) (o : nat) (m : list Z) : res (list Z * nat) :=
  match m with
  | [] => UB
  | c :: m => if c =? 0 then Ok (b, o)
              else b <- set b o c ;; to_text_p b (o + 1) m
  end.

(** The memory of a string literal: its characters and the terminating NUL. *)
Definition lit (s : string) : list Z := bytes_of_string s ++ [0].

(** ce.h:952-955 to_text_p(char[], T const* ): the address in "#<ptr ...>". *)
Definition to_text_ptr (b : list Z) (o : nat) (a : Z) : res (list Z * nat) :=
  '(b, o) <- to_text_p b o (lit "#<ptr ") ;;
  '(b, o) <- to_text_int size_t b o a ;;
  to_text_char b o 62.

(** to_text.cpp:49-50 (and 28-31) to_text(char[], float or double): std::to_chars(text, text + 32, value).ptr. It writes the
    characters of the text; when there are more than 32 it fails and the 32 are unspecified: taken as UB here. *)
Fixpoint to_chars (b : list Z) (o : nat) (text : list Z) : res (list Z * nat) :=
  match text with
  | [] => Ok (b, o)
  | c :: text => b <- set b o c ;; to_chars b (o + 1) text
  end.
Definition to_text_float (b : list Z) (o : nat) (text : list Z) : res (list Z * nat) :=
  guard (List.length text <=? 32)%nat (to_chars b o text).

(** ce.h:957-963 to_text_s: at most n characters, stopping at NUL. *)
Fixpoint to_text_s (b : list Z) (o : nat) (n : nat) (m : list Z) : res (list Z * nat) :=
  match n with
  | O => Ok (b, o)
  | S n => match m with
           | [] => UB
           | c :: m => if c =? 0 then Ok (b, o)
                       else b <- set b o c ;; to_text_s b (o + 1) n m
           end
  end.

(** ce.h:989-998 to_text_n: "[", values separated by ", ", "]". [f] converts an element. *)
Fixpoint to_text_n_loop {E} (f : list Z -> nat -> E -> res (list Z * nat)) (b : list Z) (o : nat) (p : list Z) (vs : list E) : res (list Z * nat) :=
  match vs with
  | [] => Ok (b, o)
  | v :: vs =>
    '(b, o) <- to_text_p b o p ;;
    '(b, o) <- f b o v ;;
    to_text_n_loop f b o (lit ", ") vs
  end.

(** ce.h:919-987 the overloads declared before to_text_n, which are those that the call at 995 finds: the later ones are not in
    scope there, and the types of the elements have no namespace that would add them (ce::math for vec). For them an array or a
    vec is an object of an unknown type, and shown by its address a. *)
Definition to_text_early (b : list Z) (o : nat) (av : Z * val) : res (list Z * nat) :=
  let '(a, v) := av in
  match v with
  | VInt T i => to_text_int T b o i
  | VChar c => to_text_char b o c
  | VBool v => to_text_bool b o v
  | VEnum T i =>
      '(b, o) <- to_text_p b o (lit "#<enum ") ;;
      '(b, o) <- to_text_int T b o i ;;
      to_text_char b o 62
  | VFloat text => to_text_float b o text
  | VNullptr => to_text_p b o (lit "#<nil>")
  | VPtr a => if a =? 0 then to_text_p b o (lit "#<nil>") else to_text_ptr b o a
  | VCharPtr None => to_text_p b o (lit "#<nil>")
  | VCharPtr (Some m) => to_text_p b o m
  | VRef a =>
      '(b, o) <- to_text_p b o (lit "#<ref ") ;;
      '(b, o) <- to_text_int size_t b o a ;;
      to_text_char b o 62
  | VCharArr _ | VArr _ | VVec _ =>
      '(b, o) <- to_text_p b o (lit "#<ref ") ;;
      '(b, o) <- to_text_int size_t b o a ;;
      to_text_char b o 62
  end.

(** ce.h:989-1011 to_text for one value (all overloads). The address of the value itself is not needed. *)
Definition to_text_val (b : list Z) (o : nat) (v : val) : res (list Z * nat) :=
  match v with
  | VCharArr m => to_text_s b o (List.length m) m
  | VArr vs | VVec vs =>
      '(b, o) <- to_text_char b o 91 ;;
      '(b, o) <- to_text_n_loop to_text_early b o (lit "") vs ;;
      to_text_char b o 93
  | v => to_text_early b o (0, v)
  end.

(** ce.h:1013-1016 variadic to_text: left to right fold. *)
Fixpoint to_text_all (b : list Z) (o : nat) (vs : list val) : res (list Z * nat) :=
  match vs with
  | [] => Ok (b, o)
  | v :: vs => '(b, o) <- to_text_val b o v ;; to_text_all b o vs
  end.

(** ce.h:1020-1042 measure, by type of the value (sizeof(long) = 8). *)
Definition measure (v : val) : nat :=
  match v with
  | VInt T _ =>
      if ity_size T =? 1 then (if ity_signed T then 4 else 3)
      else if ity_size T =? 2 then (if ity_signed T then 6 else 5)
      else if ity_size T =? 4 then (if ity_signed T then 11 else 10)
      else 20
  | VChar _ => 1
  | VCharArr m => List.length m
  | _ => 1024
  end.

(** ce.h:1030 the primary template: measure of a pointer type. *)
Definition measure_ptr : nat := 1024.

(** ce.h:1044-1055 to_text_m(char*, T from): the argument is taken by value, so arrays
    decay to pointers before the type is inspected. A char array becomes a char pointer
    (bounded by measure<char const* > = 1024); any other array an object pointer
    (address given by [addr], which stands for the unknowable address). *)
Definition to_text_m (addr : Z) (b : list Z) (o : nat) (v : val) : res (list Z * nat) :=
  match v with
  | VCharPtr (Some m) => to_text_s b o measure_ptr m
  | VCharPtr None => UB
  | VCharArr m => to_text_s b o measure_ptr m
  | VArr vs => to_text_val b o (VPtr addr)
  | v => to_text_val b o v
  end.

Fixpoint to_text_m_all (b : list Z) (o : nat) (vs : list (Z * val)) : res (list Z * nat) :=
  match vs with
  | [] => Ok (b, o)
  | (a, v) :: vs => '(b, o) <- to_text_m a b o v ;; to_text_m_all b o vs
  end.

Definition measures (vs : list (Z * val)) : nat :=
  fold_right (fun av n => (measure (snd av) + n)%nat) 0%nat vs.

(** ce.h:1057-1066 as_string: a buffer of measure + 1 chars (initial contents [init],
    indeterminate in C++), the texts, then a NUL. *)
Definition as_string (init : list Z) (vs : list (Z * val)) : res (list Z) :=
  '(b, o) <- to_text_m_all (firstn (measures vs + 1) init) 0 vs ;;
  set b o 0.
