(** What atomic operations and mutexes promise, independently of how they are done. *)
From Verif Require Import Base Atomic_Model.
Local Open Scope nat_scope.

(** The calls take effect one at a time: history h lists (thread, value it returned) in that order, x is the value before all of
    them and y the value after. Thread i, with argument v, returns the value it found and leaves op of it and v. *)
Inductive serial {T V : Type} (op : T -> V -> T) (vs : list V) : T -> list (nat * T) -> T -> Prop :=
  | serial_none x : serial op vs x [] x
  | serial_next x h y i v : serial op vs x h y -> nth_error vs i = Some v -> serial op vs x (h ++ [(i, y)]) (op y v).

(** A whole operation on an object that holds old: the value it leaves and the value it returns. *)
Definition leaves (op : aop) (old : list Z) : list Z :=
  match op with ALoad => old | AStore v => v | AExchange v => v | AFetch f => f old end.
Definition returns (op : aop) (old : list Z) : list Z :=
  match op with AStore _ => [] | _ => old end.

(** The same, for operations on several objects. *)
Inductive sequential (calls : list acall) : list (list Z) -> list (nat * list Z) -> list (list Z) -> Prop :=
  | sequential_none x : sequential calls x [] x
  | sequential_next x h y i o op old :
      sequential calls x h y -> nth_error calls i = Some (o, op) -> nth_error y o = Some old ->
      sequential calls x (h ++ [(i, returns op old)]) (upd y o (leaves op old)).

(** A thread is between taking its lock and releasing it. *)
Definition inside (pc : apc) : bool := match pc with ARead _ | AWrite _ _ _ | ARelease _ => true | _ => false end.

(** The operations keep the number of words of the object (its type). *)
Definition keeps_size (objs : list (list Z)) (c : acall) : Prop :=
  let '(o, op) := c in
  exists x, nth_error objs o = Some x /\
  match op with
  | ALoad => True
  | AStore v | AExchange v => length v = length x
  | AFetch f => forall y, length y = length x -> length (f y) = length x
  end.
