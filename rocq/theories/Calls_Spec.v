(** What a queue does whose order is not an order: it is a bag of bounded size. *)
From Coq Require Import List Permutation Arith.
From Verif Require Import Heap_Model.
Import ListNotations.

(** [bag_run N bag ops rets]: a bag of capacity N holding [bag] answers [ops] by [rets]. It does not matter which of its items dequeue takes;
    head is the one that a dequeue takes if it comes next. *)
Inductive bag_run {A} (N : nat) : list A -> list (pq_op A) -> list (pq_ret A) -> Prop :=
| bag_nil bag : bag_run N bag [] []
| bag_enqueue bag x os rs : length bag < N -> bag_run N (x :: bag) os rs -> bag_run N bag (Enqueue x :: os) (RBool true :: rs)
| bag_enqueue_full bag x os rs : length bag = N -> bag_run N bag os rs -> bag_run N bag (Enqueue x :: os) (RBool false :: rs)
| bag_dequeue bag x rest os rs : Permutation bag (x :: rest) -> bag_run N rest os rs -> bag_run N bag (Dequeue :: os) (RItem x :: rs)
| bag_head bag x os rs : In x bag -> (forall os', os = Dequeue :: os' -> exists rs', rs = RItem x :: rs') -> bag_run N bag os rs ->
    bag_run N bag (Head :: os) (RItem x :: rs)
| bag_empty bag os rs : bag_run N bag os rs -> bag_run N bag (Empty :: os) (RBool (match bag with [] => true | _ => false end) :: rs).

(** operator< with a counter of its calls. *)
Definition counting {A} (lt : A -> A -> bool) (x y : A) (c : nat) : bool * nat := (lt x y, S c).

(** The same for an operator< with an effect. *)
Definition with_count {A St} (lt : A -> A -> St -> bool * St) (x y : A) (s : St * nat) : bool * (St * nat) :=
  let (b, s') := lt x y (fst s) in (b, (s', S (snd s))).
