(** What atomic operations promise, whatever the processors delay. *)
From Verif Require Import Base Atomic_Model Atomic_Spec Tso_Model.
Local Open Scope nat_scope.

(** The atomic calls take effect one at a time: history h lists (call, value it returned) in that order; objects and words before and after. *)
Inductive tsequential (calls : list (nat * tcall)) : list (list Z) * list Z -> list (nat * list Z) -> list (list Z) * list Z -> Prop :=
  | tsequential_none x : tsequential calls x [] x
  | tsequential_locked x h y w i p o op old :
      tsequential calls x h (y, w) -> nth_error calls i = Some (p, TLocked (o, op)) -> nth_error y o = Some old ->
      tsequential calls x (h ++ [(i, returns op old)]) (upd y o (leaves op old), w)
  | tsequential_load x h y w i p a v :
      tsequential calls x h (y, w) -> nth_error calls i = Some (p, TLoad a) -> nth_error w a = Some v ->
      tsequential calls x (h ++ [(i, [v])]) (y, w)
  | tsequential_rmw x h y w i p a f v :
      tsequential calls x h (y, w) -> nth_error calls i = Some (p, TRmw a f) -> nth_error w a = Some v ->
      tsequential calls x (h ++ [(i, [v])]) (y, upd w a (f v)).

(** Calls of atomics. *)
Definition atomic_call (c : tcall) : bool := match c with TLocked _ | TLoad _ | TRmw _ _ => true | TGet _ | TPut _ _ => false end.
(** Calls that publish what their processor wrote before: all but loads of built-in types. *)
Definition publishes (c : tcall) : bool := match c with TLocked _ | TRmw _ _ => true | TLoad _ | TGet _ | TPut _ _ => false end.

(** The objects, words and variables that the calls name exist, and the operations keep the sizes of the objects. *)
Definition fits (procs : nat) (objs : list (list Z)) (atoms plain : list Z) (c : nat * tcall) : Prop :=
  fst c < procs /\
  match snd c with
  | TLocked c => keeps_size objs c
  | TLoad a | TRmw a _ => a < length atoms
  | TGet x | TPut x _ => x < length plain
  end.

(** Processor q may touch variable x: every write of x made by another processor is followed, on that processor, by an
    atomic call that publishes it and that has returned. *)
Definition settled (calls : list (nat * tcall)) (s : tstate) (x q : nat) : Prop :=
  forall i p w r, nth_error calls i = Some (p, TPut x w) -> p <> q -> nth_error (t_pcs s) i = Some (ADone r) ->
    exists j c r', i < j /\ nth_error calls j = Some (p, c) /\ publishes c = true /\ nth_error (t_pcs s) j = Some (ADone r').

(** The value of x after a schedule when stores are not delayed: the last one written, or else v. *)
Definition last_put (calls : list (nat * tcall)) (x : nat) (v : Z) (sched : list tchoice) : Z :=
  fold_left (fun v c =>
    match c with
    | TRun k => match nth_error calls k with Some (_, TPut y w) => if x =? y then w else v | _ => v end
    | TFlush _ => v
    end) sched v.
