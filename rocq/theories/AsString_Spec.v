(** What text a value is shown as; independent of the code model except for the type of values. *)
From Coq Require Import ZArith List String Ascii.
From Verif Require Import ToText_Spec.
From Verif Require Import Base ToText_Model AsString_Model.
Import ListNotations.
Open Scope Z_scope.

Definition txt (s : string) : list Z :=
  map (fun c => Z.of_nat (nat_of_ascii c)) (list_ascii_of_string s).

(** The C string stored at the start of memory [m] is [l]. *)
Definition cstring (m l : list Z) : Prop := ~ In 0 l /\ exists r, m = l ++ 0 :: r.

(** The longest NUL-free prefix of the [n] first characters of memory [m]. *)
Definition cstring_n (n : nat) (m l : list Z) : Prop :=
  ~ In 0 l /\ ((exists r, m = l ++ 0 :: r /\ (List.length l < n)%nat) \/
               (exists r, m = l ++ r /\ List.length l = n)).

Fixpoint join (sep : list Z) (ls : list (list Z)) : list Z :=
  match ls with
  | [] => []
  | [l] => l
  | l :: ls => l ++ sep ++ join sep ls
  end.

(** Arrays (of characters too) and vectors. *)
Definition is_list (v : val) : bool := match v with VCharArr _ | VArr _ | VVec _ => true | _ => false end.

(** An element of an array or a vector that is itself an array or a vector is shown by its address, any other as it is shown alone. *)
Inductive shows : val -> list Z -> Prop :=
| shows_int T i l : decimal_text i l -> shows (VInt T i) l
| shows_char c : shows (VChar c) [c]
| shows_true : shows (VBool true) (txt "#<T>")
| shows_false : shows (VBool false) (txt "#<F>")
| shows_enum T i l : decimal_text i l -> shows (VEnum T i) (txt "#<enum " ++ l ++ txt ">")
| shows_float text : shows (VFloat text) text
| shows_nullptr : shows VNullptr (txt "#<nil>")
| shows_ptr_nil : shows (VPtr 0) (txt "#<nil>")
| shows_ptr a l : a <> 0 -> decimal_text a l -> shows (VPtr a) (txt "#<ptr " ++ l ++ txt ">")
| shows_str_nil : shows (VCharPtr None) (txt "#<nil>")
| shows_str m l : cstring m l -> shows (VCharPtr (Some m)) l
| shows_ref a l : decimal_text a l -> shows (VRef a) (txt "#<ref " ++ l ++ txt ">")
| shows_chars m l : cstring_n (List.length m) m l -> shows (VCharArr m) l
| shows_arr vs ls : Forall2 element_shows vs ls -> shows (VArr vs) (txt "[" ++ join (txt ", ") ls ++ txt "]")
| shows_vec vs ls : Forall2 element_shows vs ls -> shows (VVec vs) (txt "[" ++ join (txt ", ") ls ++ txt "]")
with element_shows : Z * val -> list Z -> Prop :=
| element_shows_one a v l : is_list v = false -> shows v l -> element_shows (a, v) l
| element_shows_list a v l : is_list v = true -> decimal_text a l -> element_shows (a, v) (txt "#<ref " ++ l ++ txt ">").

(** What the comma-separated form says of arrays of arrays: every element is shown as it is shown alone. *)
Inductive shows_full : val -> list Z -> Prop :=
| full_one v l : match v with VArr _ | VVec _ => False | _ => True end -> shows v l -> shows_full v l
| full_arr vs ls : Forall2 (fun av => shows_full (snd av)) vs ls -> shows_full (VArr vs) (txt "[" ++ join (txt ", ") ls ++ txt "]")
| full_vec vs ls : Forall2 (fun av => shows_full (snd av)) vs ls -> shows_full (VVec vs) (txt "[" ++ join (txt ", ") ls ++ txt "]").

(** Values that exist in a C++ program: integers in the range of their type, addresses
    of 64 bits, char pointers to NUL-terminated memory. The shortest text of a double, which
    std::to_chars makes, has at most 24 characters ("-2.2250738585072014e-308"). *)
Definition int_type (T : ity) : Prop :=
  ity_size T = 1 \/ ity_size T = 2 \/ ity_size T = 4 \/ ity_size T = 8.

Inductive valid : val -> Prop :=
| valid_int T i : int_type T -> in_type (ity_signed T) (ity_size T) i -> valid (VInt T i)
| valid_char c : valid (VChar c)
| valid_bool v : valid (VBool v)
| valid_enum T i : int_type T -> in_type (ity_signed T) (ity_size T) i -> valid (VEnum T i)
| valid_float text : (List.length text <= 24)%nat -> valid (VFloat text)
| valid_nullptr : valid VNullptr
| valid_ptr a : 0 <= a < 2 ^ 64 -> valid (VPtr a)
| valid_str_nil : valid (VCharPtr None)
| valid_str m : In 0 m -> valid (VCharPtr (Some m))
| valid_ref a : 0 <= a < 2 ^ 64 -> valid (VRef a)
| valid_chars m : valid (VCharArr m)
| valid_arr vs : Forall (fun av => 0 <= fst av < 2 ^ 64 /\ valid (snd av)) vs -> valid (VArr vs)
| valid_vec vs : Forall (fun av => 0 <= fst av < 2 ^ 64 /\ valid (snd av)) vs -> valid (VVec vs).

(** Vectors of at most four numbers or vectors (of any depth). *)
Definition vec_shape (v : val) : Prop :=
  match v with
  | VVec vs => (List.length vs <= 4)%nat /\ Forall (fun av => match snd av with VInt _ _ | VFloat _ | VVec _ => True | _ => False end) vs
  | _ => False
  end.

(** What an argument may be: any valid value; char pointers are non-null and NUL-terminated or
    long enough; char arrays contain a NUL. Addresses for decayed arrays are 64-bit. *)
Inductive arg_ok : Z * val -> Prop :=
| arg_int a T i : valid (VInt T i) -> arg_ok (a, VInt T i)
| arg_char a c : arg_ok (a, VChar c)
| arg_bool a v : arg_ok (a, VBool v)
| arg_enum a T i : valid (VEnum T i) -> arg_ok (a, VEnum T i)
| arg_float a text : valid (VFloat text) -> arg_ok (a, VFloat text)
| arg_nullptr a : arg_ok (a, VNullptr)
| arg_ptr a p : valid (VPtr p) -> arg_ok (a, VPtr p)
| arg_str a m : In 0 m \/ (1024 <= List.length m)%nat -> arg_ok (a, VCharPtr (Some m))
| arg_ref a p : valid (VRef p) -> arg_ok (a, VRef p)
| arg_chars a m : In 0 m -> arg_ok (a, VCharArr m)
| arg_arr a vs : 0 <= a < 2 ^ 64 -> arg_ok (a, VArr vs)
| arg_vec a vs : vec_shape (VVec vs) -> valid (VVec vs) -> arg_ok (a, VVec vs).

(** The text of an argument: long strings are cut at 1024 characters, arrays shown as pointers. *)
Inductive arg_shows : Z * val -> list Z -> Prop :=
| arg_shows_str a m l : cstring_n 1024 m l -> arg_shows (a, VCharPtr (Some m)) l
| arg_shows_chars a m l : cstring_n 1024 m l -> arg_shows (a, VCharArr m) l
| arg_shows_arr a vs l : shows (VPtr a) l -> arg_shows (a, VArr vs) l
| arg_shows_other a v l :
    match v with VCharPtr _ | VCharArr _ | VArr _ => False | _ => True end ->
    shows v l -> arg_shows (a, v) l.

