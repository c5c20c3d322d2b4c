(** Model of tuple, of the count of the members of an aggregate and of get, lib/h/ce/ce.h:385-435. No proofs.
    An aggregate is the list of the values of its members. Members are neither arrays nor references, so that each takes one
    initialiser and [detail::any] converts to it. *)
From Coq Require Import List Arith Bool.
From Verif Require Import Sequence_Model.
Import ListNotations.

Section Tuple.
Variable V : Type.

(** What the compiler makes of a call. *)
Inductive outcome := Value (v : V) | Deleted | IllFormed.

(** ce.h:385-391 tuple<...>: at most four members. *)
Definition is_tuple (t : list V) : bool := length t <=? 4.

(** ce.h:401-407 test_arrity, arrity_test and has_arrity: T{ any(0), ..., any(n - 1) } is well formed when there are not more
    initialisers than members. *)
Definition has_arity (t : list V) (n : nat) : bool := n <=? length t.
(** ce.h:408 is_arrity. *)
Definition is_arity (t : list V) (n : nat) : bool := has_arity t n && negb (has_arity t (n + 1)).
(** ce.h:410-411 arrity_check over the sequence 0, ..., 4, and 416 arrity_count. *)
Definition arity_count (t : list V) : option nat :=
  match sequence_t 5 with
  | Some (ns, _) => Some (count_leading bool Bool.eqb true (map (fun n => has_arity t (n + 1)) ns))
  | None => None
  end.

(** ce.h:418-419 detail::get(items<size_t, N>, ts...). With no argument left no overload is viable. *)
Fixpoint detail_get (n : nat) (ts : list V) : outcome :=
  match n, ts with
  | O, t :: _ => Value t
  | S n, _ :: ts => detail_get n ts
  | _, [] => IllFormed
  end.

(** A function that unqualified lookup of a name can find: how many arguments it takes, and the call. *)
Record candidate := { takes : nat -> bool; call : nat -> list V -> outcome }.
(** detail::get takes an index and at least one value. The overloads are one candidate here. *)
Definition namespace_get : candidate := {| takes := fun k => 2 <=? k; call := detail_get |}.
(** ce.h:422-425 crack<T, N, K>::get takes one argument. *)
Definition member_get : candidate := {| takes := fun k => k =? 1; call := fun _ _ => IllFormed |}.
(** The rules of C++ for an unqualified name in a member function: if the class has members of that name they are all that is found
    (the namespaces are not searched, nor those of the arguments). *)
Definition unqualified (members namespaces : list candidate) : list candidate := match members with [] => namespaces | _ => members end.
(** The call with an index n and values ts: the candidates that take this many arguments, of which there must be one. *)
Definition resolve (found : list candidate) (n : nat) (ts : list V) : outcome :=
  match filter (fun c => takes c (1 + length ts)) found with [c] => call c n ts | _ => IllFormed end.

(** ce.h:421-425 crack<T, N>::get(t) with structured bindings: [_0, _1, ...] need as many names as there are members. *)
Definition crack_bindings (members : list candidate) (n : nat) (t : list V) : outcome :=
  match arity_count t with
  | Some k => if (1 <=? k) && (k <=? 4) then if length t =? k then resolve (unqualified members [namespace_get]) n t else IllFormed else Deleted
  | None => IllFormed
  end.
(** ce.h:427-431 crack<T, N>::get(t) without: t._N for a tuple. *)
Definition crack_fields (n : nat) (t : list V) : outcome :=
  if n <? 4 then match nth_error t n with Some v => Value v | None => IllFormed end else Deleted.

(** ce.h:435 get<N>(t) in the two builds. *)
Definition get_bindings (n : nat) (t : list V) : outcome := crack_bindings [member_get] n t.
Definition get_fields (n : nat) (t : list V) : outcome := crack_fields n t.
End Tuple.
Arguments Value {V}. Arguments Deleted {V}. Arguments IllFormed {V}.
