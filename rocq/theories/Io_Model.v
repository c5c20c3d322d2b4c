(** Model of lib/h/ce/io.h:60-129: visiting values. No proofs. *)
From Coq Require Import String.
From Verif Require Import Base.
Local Open Scope nat_scope.

(** What the visitor's member functions are called with. An atom is whatever io.atom receives. *)
Inductive event :=
  | Atom (a : Z) | Name (s : string) | EnterClass | LeaveClass
  | EnterArray (size : nat) (dynamic : bool) | LeaveArray (size : nat) (dynamic : bool).

(** Values by their reflection. *)
Inductive value :=
  | VAtom (a : Z)                                       (* io.h:60-63 the default reflection: io.atom *)
  | VFixed (data : list value)                          (* io.h:74-82 T (&data)[N], N = length data *)
  | VClass (names : list string) (data : list value)    (* io.h:128 CE_IO_BIND: io.items(names, fields...) *)
  | VList (size : nat) (data : list value)              (* io.h:110-113 list<T, N>: io.items(size, data), N = length data *)
  | VVec (data : list value)                            (* io.h:116-119 vec<N, T>: io.item of T[N] *)
  | VVec2 (x y : value)                                 (* io.h:121-124 vec<2, T>: io.items({ "x", "y" }, x, y) *)
  | VAs (v : value).                                    (* io.h:129 CE_IO_AS: io.item of the other type *)

(** for (i = 0; i < size; ++i) item(data[i]); data[i] out of the array is undefined. n turns left. *)
Fixpoint visit_array (n i : nat) (items : list (res (list event))) : res (list event) :=
  match n with
  | O => Ok []
  | S n => r <- get items i ;; e <- r ;; rest <- visit_array n (S i) items ;; Ok (e ++ rest)
  end.

(** io.h:95 (item( *names++, data), ...): names is read one by one from index i. *)
Fixpoint visit_fields (i : nat) (names : list string) (items : list (res (list event))) : res (list event) :=
  match items with
  | [] => Ok []
  | r :: items => nm <- get names i ;; e <- r ;; rest <- visit_fields (S i) names items ;; Ok (Name nm :: e ++ rest)
  end.

(** io.h:66-107 io<IO>::item and items. enter is what the visitor's enter_array leaves in its reference parameter size: a
    writer leaves it alone, and a reader may store the size it has read. *)
Section Visit.
  Context (enter : nat -> bool -> nat).

  Definition visit_span (size : nat) (dynamic : bool) (items : list (res (list event))) : res (list event) :=
    let size' := enter size dynamic in
    body <- visit_array size' 0 items ;;
    Ok (EnterArray size dynamic :: body ++ [LeaveArray size' dynamic]).

  Definition visit_class (names : list string) (items : list (res (list event))) : res (list event) :=
    body <- visit_fields 0 names items ;;
    Ok (EnterClass :: body ++ [LeaveClass]).

  Fixpoint visit (v : value) : res (list event) :=
    match v with
    | VAtom a => Ok [Atom a]
    | VFixed data => visit_span (length data) false (map visit data)
    | VClass names data => visit_class names (map visit data)
    | VList size data => visit_span size true (map visit data)
    | VVec data => visit_span (length data) false (map visit data)
    | VVec2 x y => visit_class ["x"; "y"]%string [visit x; visit y]
    | VAs v => visit v
    end.
End Visit.

(** A writer. *)
Definition keep (size : nat) (dynamic : bool) : nat := size.
