(** C07: min_priority_queue. *)
From Coq Require Import Permutation.
From Verif Require Import Base Sort_Spec Sort_Props Heap_Model Heap_Spec Heap_Proofs.

(** Every well-used history from the empty queue (whatever garbage the array holds) runs without
    UB and answers as the bounded bag specification. *)
Theorem C07_priority_queue : forall (A : Type) (lt : A -> A -> bool) (garbage : list A) (ops : list (pq_op A)),
  strict_weak_order lt ->
  well_used (length garbage) 0 ops ->
  exists rets, pq_run lt (Build_pq 0 garbage) ops = Ok rets /\
               spec_run lt (length garbage) [] ops rets.
Proof.
  intros A lt g ops W H. apply run_ok; auto.
  split; [reflexivity|]. split; [cbn; lia|]. split; [|reflexivity].
  intros d i Hi. cbn in Hi. lia.
Qed.
Print Assumptions C07_priority_queue.

(** The restriction is needed: dequeue on an empty queue is undefined for every queue. *)
Theorem C07_dequeue_empty_refuted : forall (A : Type) (lt : A -> A -> bool) (garbage : list A),
  pq_run lt (Build_pq 0 garbage) [Dequeue] = UB.
Proof. intros A lt [|x g]; reflexivity. Qed.
Print Assumptions C07_dequeue_empty_refuted.

Example C07_example_used : well_used 3 0
  [Enqueue 5; Enqueue 2; Enqueue 9; Enqueue 1; Dequeue; Enqueue 0; Head; Dequeue; Dequeue; Dequeue; Empty].
Proof. cbn. lia. Qed.
Example C07_example_run : pq_run Z.ltb (Build_pq 0 [7; 7; 7])
  [Enqueue 5; Enqueue 2; Enqueue 9; Enqueue 1; Dequeue; Enqueue 0; Head; Dequeue; Dequeue; Dequeue; Empty]
  = Ok [RBool true; RBool true; RBool true; RBool false; RItem 2; RBool true; RItem 0; RItem 0; RItem 5;
        RItem 9; RBool true].
Proof. vm_compute. reflexivity. Qed.
