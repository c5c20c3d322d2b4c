(** What a client of a pool sees, without the pool: some sequences, and some nodes of its own. *)
From Coq Require Import List ZArith.
From Verif Require Import Pool_Model.
Import ListNotations.

Section Spec.
Variable T : Type.
Variable N : Z.

(** The contents of each queue, and the nodes allocated and not freed with what was last written to them (link and datum). *)
Record abs := { a_queues : list (list T); a_nodes : list (Z * option (Z * T)) }.

Definition a_start (nq : nat) : abs := {| a_queues := repeat [] nq; a_nodes := [] |}.

(** The number of nodes in use, and whether all N - 1 are. *)
Definition in_use (a : abs) : nat := length (a_nodes a) + length (concat (a_queues a)).
Definition full (a : abs) : Prop := Z.of_nat (in_use a) = (N - 1)%Z.

Definition queue_is (a : abs) (q : nat) (xs : list T) : Prop := nth_error (a_queues a) q = Some xs.

(** a' is a except that queue q holds xs. *)
Definition queue_becomes (a : abs) (q : nat) (xs : list T) (a' : abs) : Prop :=
  a_nodes a' = a_nodes a /\ length (a_queues a') = length (a_queues a) /\ queue_is a' q xs /\
  forall r, r <> q -> nth_error (a_queues a') r = nth_error (a_queues a) r.

(** What a client may do: free and touch only nodes it has, read only what it wrote, look at the ends of non-empty queues. *)
Definition allowed (a : abs) (o : pop T) : Prop :=
  match o with
  | Alloc _ => True
  | Free _ i => i = 0%Z \/ In i (map fst (a_nodes a))
  | Write _ i _ _ => In i (map fst (a_nodes a))
  | Read _ i => exists n, In (i, Some n) (a_nodes a)
  | Append _ q _ | Insert _ q _ | Remove _ q | IsEmpty _ q => q < length (a_queues a)
  | Head _ q | Tail _ q | SetHead _ q _ | SetTail _ q _ => exists x xs, queue_is a q (x :: xs)
  end.

(** What must then happen: the answer, and the state afterwards. *)
Inductive spec_step (a : abs) : pop T -> pout T -> abs -> Prop :=
| s_alloc i : ~ full a -> (1 <= i < N)%Z -> ~ In i (map fst (a_nodes a)) ->
    spec_step a (Alloc T) (OIdx T i) {| a_queues := a_queues a; a_nodes := (i, None) :: a_nodes a |}
| s_alloc_full : full a -> spec_step a (Alloc T) (OIdx T 0) a
| s_free_nil : spec_step a (Free T 0) (OUnit T) a
| s_free i n l1 l2 : a_nodes a = l1 ++ (i, n) :: l2 -> i <> 0%Z ->
    spec_step a (Free T i) (OUnit T) {| a_queues := a_queues a; a_nodes := l1 ++ l2 |}
| s_write i l x n l1 l2 : a_nodes a = l1 ++ (i, n) :: l2 ->
    spec_step a (Write T i l x) (OUnit T) {| a_queues := a_queues a; a_nodes := l1 ++ (i, Some (l, x)) :: l2 |}
| s_read i l x : In (i, Some (l, x)) (a_nodes a) -> spec_step a (Read T i) (ONode T l x) a
| s_append q x xs a' : ~ full a -> queue_is a q xs -> queue_becomes a q (xs ++ [x]) a' -> spec_step a (Append T q x) (OBool T true) a'
| s_append_full q x : full a -> spec_step a (Append T q x) (OBool T false) a
| s_insert q x xs a' : ~ full a -> queue_is a q xs -> queue_becomes a q (x :: xs) a' -> spec_step a (Insert T q x) (OBool T true) a'
| s_insert_full q x : full a -> spec_step a (Insert T q x) (OBool T false) a
| s_remove q x xs a' : queue_is a q (x :: xs) -> queue_becomes a q xs a' -> spec_step a (Remove T q) (OBool T true) a'
| s_remove_empty q : queue_is a q [] -> spec_step a (Remove T q) (OBool T false) a
| s_empty q xs : queue_is a q xs -> spec_step a (IsEmpty T q) (OBool T (match xs with [] => true | _ => false end)) a
| s_head q x xs : queue_is a q (x :: xs) -> spec_step a (Head T q) (OVal T x) a
| s_tail q x xs : queue_is a q (xs ++ [x]) -> spec_step a (Tail T q) (OVal T x) a
| s_set_head q y x xs a' : queue_is a q (y :: xs) -> queue_becomes a q (x :: xs) a' -> spec_step a (SetHead T q x) (OUnit T) a'
| s_set_tail q y x xs a' : queue_is a q (xs ++ [y]) -> queue_becomes a q (xs ++ [x]) a' -> spec_step a (SetTail T q x) (OUnit T) a'.
End Spec.

Section Runs.
Variable T : Type.
Variable N : Z.

(** The states reached by calls that are allowed and answered as specified, in step with the specification. *)
Inductive history (c0 : pstate T) (nq : nat) : list (pop T * pout T) -> abs T -> pstate T -> Prop :=
| h_nil : history c0 nq [] (a_start T nq) c0
| h_step h a c o out c' a' : history c0 nq h a c -> allowed T a o -> p_step T N c o = Base.Ok (out, c') -> spec_step T N a o out a' ->
    history c0 nq (h ++ [(o, out)]) a' c'.

(** Only alloc_index and free_index, and writes of the client to the nodes it has: live is what was allocated and not freed. *)
Inductive alloc_history (p0 : pool T) : list Z -> pool T -> Prop :=
| ah_nil : alloc_history p0 [] p0
| ah_fail live p p' : alloc_history p0 live p -> p_alloc T N p = Base.Ok (0%Z, p') -> alloc_history p0 live p'
| ah_alloc live p i p' : alloc_history p0 live p -> p_alloc T N p = Base.Ok (i, p') -> i <> 0%Z -> alloc_history p0 (i :: live) p'
| ah_free l1 i l2 p p' : alloc_history p0 (l1 ++ i :: l2) p -> p_free T p i = Base.Ok p' -> alloc_history p0 (l1 ++ l2) p'
| ah_link live p i v p' : alloc_history p0 live p -> In i live -> put_next T p i v = Base.Ok p' -> alloc_history p0 live p'
| ah_data live p i x p' : alloc_history p0 live p -> In i live -> put_data T p i x = Base.Ok p' -> alloc_history p0 live p'.
End Runs.
