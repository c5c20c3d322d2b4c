(** Model of heap_raise, heap_lower and min_priority_queue (lib/h/ce/ce.h:1419-1478). No proofs.
    [lt] is operator<, arrays are lists with bounds-checked access, size_t is nat (sizes are
    bounded by the array length, so no wrap-around is reachable except the one noted below). *)
From Verif Require Import Base.

(** ce.h:1419-1433 heap_raise; the fuel bounds the loop, n strictly decreases. *)
Fixpoint heap_raise {A} (lt : A -> A -> bool) (fuel : nat) (data : list A) (item : A) (n : nat)
  : res (list A) :=
  match fuel with
  | O => Timeout
  | S fuel =>
    if (0 <? n)%nat then
      let p := Nat.div (n - 1) 2 in
      dp <- get data p ;;
      if lt item dp
      then data <- set data n dp ;; heap_raise lt fuel data item p
      else set data n item
    else set data n item
  end.

(** ce.h:1435-1453 heap_lower. *)
Fixpoint heap_lower {A} (lt : A -> A -> bool) (fuel : nat) (size : nat) (data : list A) (item : A) (n : nat)
  : res (list A) :=
  match fuel with
  | O => Timeout
  | S fuel =>
    let p := (n * 2 + 1)%nat in
    if (size <=? p)%nat then set data n item
    else
      p <- (if (p + 1 <? size)%nat
            then x <- get data (p + 1) ;; y <- get data p ;; Ok (if lt x y then (p + 1)%nat else p)
            else Ok p) ;;
      dp <- get data p ;;
      if lt item dp then set data n item
      else data <- set data n dp ;; heap_lower lt fuel size data item p
  end.

(** ce.h:1455-1458 min_priority_queue<N, T>: N is the length of data. *)
Record pq (A : Type) := { pq_size : nat; pq_data : list A }.
Arguments pq_size {A}. Arguments pq_data {A}.
Arguments Build_pq {A}.

(** ce.h:1460 head(). *)
Definition pq_head {A} (q : pq A) : res A := get (pq_data q) 0.

(** ce.h:1462 empty(). *)
Definition pq_empty {A} (q : pq A) : bool := (pq_size q <? 1)%nat.

(** ce.h:1464-1467 enqueue(item). *)
Definition enqueue {A} (lt : A -> A -> bool) (q : pq A) (item : A) : res (bool * pq A) :=
  if (pq_size q <? length (pq_data q))%nat then
    data <- heap_raise lt (S (pq_size q)) (pq_data q) item (pq_size q) ;;
    Ok (true, {| pq_size := S (pq_size q); pq_data := data |})
  else Ok (false, q).

(** ce.h:1469-1477 dequeue(). On an empty queue --size wraps to 2^64 - 1 and data[size] is read
    out of bounds: UB. *)
Definition dequeue {A} (lt : A -> A -> bool) (q : pq A) : res (A * pq A) :=
  item <- get (pq_data q) 0 ;;
  match pq_size q with
  | O => UB
  | S size =>
    if (0 <? size)%nat then
      last <- get (pq_data q) size ;;
      data <- heap_lower lt (S size) size (pq_data q) last 0 ;;
      Ok (item, {| pq_size := size; pq_data := data |})
    else Ok (item, {| pq_size := size; pq_data := pq_data q |})
  end.

(** A client program: a sequence of calls. *)
Inductive pq_op (A : Type) := Enqueue (x : A) | Dequeue | Head | Empty.
Arguments Enqueue {A}. Arguments Dequeue {A}. Arguments Head {A}. Arguments Empty {A}.

Inductive pq_ret (A : Type) := RBool (b : bool) | RItem (x : A).
Arguments RBool {A}. Arguments RItem {A}.

Definition pq_step {A} (lt : A -> A -> bool) (q : pq A) (o : pq_op A) : res (pq_ret A * pq A) :=
  match o with
  | Enqueue x => '(b, q) <- enqueue lt q x ;; Ok (RBool b, q)
  | Dequeue => '(x, q) <- dequeue lt q ;; Ok (RItem x, q)
  | Head => x <- pq_head q ;; Ok (RItem x, q)
  | Empty => Ok (RBool (pq_empty q), q)
  end.

Fixpoint pq_run {A} (lt : A -> A -> bool) (q : pq A) (os : list (pq_op A)) : res (list (pq_ret A)) :=
  match os with
  | [] => Ok []
  | o :: os => '(r, q) <- pq_step lt q o ;; rs <- pq_run lt q os ;; Ok (r :: rs)
  end.
