(** Model of lib/h/ce/pool.h. No proofs.
    index_t is any unsigned type that holds N - 1 (the static_assert at 35); indices are integers here, and no computed
    index exceeds N - 1. Array accesses are checked. *)
From Verif Require Import Base.
Local Open Scope Z_scope.

Section Pool.
Variable T : Type.
Variable N : Z.

(** pool.h:43-49 the fields next, size and data. *)
Record pool := { p_next : list Z; p_size : Z; p_data : list T }.

Definition with_next (p : pool) (next : list Z) : pool := {| p_next := next; p_size := p_size p; p_data := p_data p |}.
Definition with_data (p : pool) (data : list T) : pool := {| p_next := p_next p; p_size := p_size p; p_data := data |}.

(** next[i] = v and data[i] = x. *)
Definition put_next (p : pool) (i v : Z) : res pool := next <- setz (p_next p) i v ;; Ok (with_next p next).
Definition put_data (p : pool) (i : Z) (x : T) : res pool := data <- setz (p_data p) i x ;; Ok (with_data p data).

(** pool.h:53-57 reset. *)
Definition p_reset (p : pool) : res pool := put_next {| p_next := p_next p; p_size := 0; p_data := p_data p |} 0 0.

(** pool.h:59-72 alloc_index. *)
Definition p_alloc (p : pool) : res (Z * pool) :=
  node <- getz (p_next p) 0 ;;
  if node =? 0 then
    if p_size p <? N - 1
    then Ok (p_size p + 1, {| p_next := p_next p; p_size := p_size p + 1; p_data := p_data p |})
    else Ok (0, p)
  else
    n <- getz (p_next p) node ;;
    p <- put_next p 0 n ;;
    Ok (node, p).

(** pool.h:74-81 free_index. *)
Definition p_free (p : pool) (node : Z) : res pool :=
  if node =? 0 then Ok p
  else
    f <- getz (p_next p) 0 ;;
    p <- put_next p node f ;;
    put_next p 0 node.

(** pool.h:83-90 a queue_t is the index of its tail, 0 for nil. pool.h:92 head, 93 tail, 95 is_empty. *)
Definition p_head (p : pool) (tail : Z) : res T := h <- getz (p_next p) tail ;; getz (p_data p) h.
Definition p_tail (p : pool) (tail : Z) : res T := getz (p_data p) tail.
Definition p_is_empty (tail : Z) : bool := tail =? 0.
(** Assigning through the references that head and tail return. *)
Definition p_set_head (p : pool) (tail : Z) (x : T) : res pool := h <- getz (p_next p) tail ;; put_data p h x.
Definition p_set_tail (p : pool) (tail : Z) (x : T) : res pool := put_data p tail x.

(** pool.h:97-119 remove_head: the returned flag, the new tail of the queue and the new pool. *)
Definition p_remove_head (p : pool) (tail : Z) : res (bool * Z * pool) :=
  if tail =? 0 then Ok (false, tail, p)
  else
    head <- getz (p_next p) tail ;;
    n <- getz (p_next p) head ;;
    p <- put_next p tail n ;;
    f <- getz (p_next p) 0 ;;
    p <- put_next p head f ;;
    p <- put_next p 0 head ;;
    Ok (true, (if head =? tail then 0 else tail), p).

(** pool.h:121-150 insert_head. *)
Definition p_insert_head (p : pool) (tail : Z) (item : T) : res (bool * Z * pool) :=
  '(node, p) <- p_alloc p ;;
  if node =? 0 then Ok (false, tail, p)
  else
    p <- put_data p node item ;;
    if tail =? 0 then
      p <- put_next p node node ;;
      Ok (true, node, p)
    else
      head <- getz (p_next p) tail ;;
      p <- put_next p node head ;;
      p <- put_next p tail node ;;
      Ok (true, tail, p).

(** pool.h:152-181 append_tail. *)
Definition p_append_tail (p : pool) (tail : Z) (item : T) : res (bool * Z * pool) :=
  '(node, p) <- p_alloc p ;;
  if node =? 0 then Ok (false, tail, p)
  else
    p <- put_data p node item ;;
    if tail =? 0 then
      p <- put_next p node node ;;
      Ok (true, node, p)
    else
      head <- getz (p_next p) tail ;;
      p <- put_next p node head ;;
      p <- put_next p tail node ;;
      Ok (true, node, p).

(** A client with any number of queues over one pool, and nodes it allocates and links itself. *)
Inductive pop :=
| Alloc | Free (i : Z) | Write (i l : Z) (x : T) | Read (i : Z)
| Append (q : nat) (x : T) | Insert (q : nat) (x : T) | Remove (q : nat)
| IsEmpty (q : nat) | Head (q : nat) | Tail (q : nat) | SetHead (q : nat) (x : T) | SetTail (q : nat) (x : T).

Inductive pout := OUnit | OIdx (i : Z) | OBool (b : bool) | OVal (x : T) | ONode (l : Z) (x : T).

Definition pstate : Type := (pool * list Z)%type.

(** One call; Write and Read access next[i] and data[i] of a node directly. *)
Definition p_step (c : pstate) (o : pop) : res (pout * pstate) :=
  let '(p, ts) := c in
  let on q (f : Z -> res (bool * Z * pool)) :=
    t <- get ts q ;; '(b, t, p) <- f t ;; ts <- set ts q t ;; Ok (OBool b, (p, ts)) in
  match o with
  | Alloc => '(i, p) <- p_alloc p ;; Ok (OIdx i, (p, ts))
  | Free i => p <- p_free p i ;; Ok (OUnit, (p, ts))
  | Write i l x => p <- put_next p i l ;; p <- put_data p i x ;; Ok (OUnit, (p, ts))
  | Read i => l <- getz (p_next p) i ;; x <- getz (p_data p) i ;; Ok (ONode l x, (p, ts))
  | Append q x => on q (fun t => p_append_tail p t x)
  | Insert q x => on q (fun t => p_insert_head p t x)
  | Remove q => on q (fun t => p_remove_head p t)
  | IsEmpty q => t <- get ts q ;; Ok (OBool (p_is_empty t), (p, ts))
  | Head q => t <- get ts q ;; x <- p_head p t ;; Ok (OVal x, (p, ts))
  | Tail q => t <- get ts q ;; x <- p_tail p t ;; Ok (OVal x, (p, ts))
  | SetHead q x => t <- get ts q ;; p <- p_set_head p t x ;; Ok (OUnit, (p, ts))
  | SetTail q x => t <- get ts q ;; p <- p_set_tail p t x ;; Ok (OUnit, (p, ts))
  end.

(** The start: reset() on an object with arbitrary contents, and nq empty queues. *)
Definition p_start (p : pool) (nq : nat) : res pstate := p <- p_reset p ;; Ok (p, repeat 0 nq).
End Pool.
