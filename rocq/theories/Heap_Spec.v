(** What a bounded priority queue is: a bag, given up to permutation. *)
From Coq Require Import List Permutation Arith Bool.
From Verif Require Import Heap_Model.
Import ListNotations.

(** [spec_run lt N bag ops rets]: a queue of capacity N holding [bag] answers [ops] by [rets]. *)
Inductive spec_run {A} (lt : A -> A -> bool) (N : nat) : list A -> list (pq_op A) -> list (pq_ret A) -> Prop :=
| run_nil bag : spec_run lt N bag [] []
| run_enqueue bag x os rs : length bag < N -> spec_run lt N (x :: bag) os rs ->
    spec_run lt N bag (Enqueue x :: os) (RBool true :: rs)
| run_enqueue_full bag x os rs : length bag = N -> spec_run lt N bag os rs ->
    spec_run lt N bag (Enqueue x :: os) (RBool false :: rs)
| run_dequeue bag x rest os rs : Permutation bag (x :: rest) ->
    (forall y, In y bag -> lt y x = false) -> spec_run lt N rest os rs ->
    spec_run lt N bag (Dequeue :: os) (RItem x :: rs)
| run_head bag x os rs : In x bag -> (forall y, In y bag -> lt y x = false) -> spec_run lt N bag os rs ->
    spec_run lt N bag (Head :: os) (RItem x :: rs)
| run_empty bag os rs : spec_run lt N bag os rs ->
    spec_run lt N bag (Empty :: os) (RBool (match bag with [] => true | _ => false end) :: rs).

(** The client never calls dequeue or head on an empty queue; [n] items are in the queue. *)
Fixpoint well_used {A} (N n : nat) (os : list (pq_op A)) : Prop :=
  match os with
  | [] => True
  | Enqueue _ :: os => well_used N (if n <? N then S n else n) os
  | Dequeue :: os => 0 < n /\ well_used N (n - 1) os
  | Head :: os => 0 < n /\ well_used N n os
  | Empty :: os => well_used N n os
  end.
