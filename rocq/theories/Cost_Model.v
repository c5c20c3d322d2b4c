(** How often the functions of lib/h/ce/sort.h and the priority queue of lib/h/ce/ce.h call operator<. The functions are those of Sort_Model
    and Heap_Model once more, with a counter [c] of the calls so far, which the code does not have. No proofs here. *)
From Verif Require Import Base Sort_Model Heap_Model.

(** sort.h:37-39 the inner loop of insertion_sort: k < *(q - 1) is only asked when q > a. *)
Fixpoint ins_innerC {A} (lt : A -> A -> bool) (m : list A) (a : nat) (k : A) (d c : nat) : res (list A * nat) :=
  match d with
  | O => m <- set m (a + 0) k ;; Ok (m, c)
  | S d' =>
    x <- get m (a + d - 1) ;;
    if lt k x
    then m <- set m (a + d) x ;; ins_innerC lt m a k d' (S c)
    else m <- set m (a + d) k ;; Ok (m, S c)
  end.

(** sort.h:30-41 insertion_sort. *)
Fixpoint ins_outerC {A} (lt : A -> A -> bool) (m : list A) (a d n c : nat) : res (list A * nat) :=
  match n with
  | O => Ok (m, c)
  | S n =>
    k <- get m (a + d) ;;
    '(m, c) <- ins_innerC lt m a k d c ;;
    ins_outerC lt m a (S d) n c
  end.
Definition insertion_sortC {A} (lt : A -> A -> bool) (m : list A) (a b c : nat) : res (list A * nat) :=
  ins_outerC lt m a 0 (b - a) c.

(** sort.h:43-63 median. *)
Definition medianC {A} (lt : A -> A -> bool) (m : list A) (a b c k : nat) : res (list A * nat) :=
  va <- get m a ;; vb <- get m b ;; vc <- get m c ;;
  if lt va vb then
    if lt vb vc then Ok (m, k + 2)%nat
    else if lt va vc then m <- swap m b c ;; Ok (m, k + 3)%nat
    else m <- swap m b a ;; Ok (m, k + 3)%nat
  else
    if lt vc vb then Ok (m, k + 2)%nat
    else if lt va vc then m <- swap m b a ;; Ok (m, k + 3)%nat
    else m <- swap m b c ;; Ok (m, k + 3)%nat.

(** sort.h:74-76 the partition loop. *)
Fixpoint part_loopC {A} (lt : A -> A -> bool) (m : list A) (k : A) (p q n c : nat) : res (list A * nat * nat) :=
  match n with
  | O => Ok (m, p, c)
  | S n =>
    x <- get m q ;;
    if lt x k
    then m <- swap m p q ;; part_loopC lt m k (S p) (S q) n (S c)
    else part_loopC lt m k p (S q) n (S c)
  end.

(** sort.h:65-79 partition. *)
Definition partitionC {A} (lt : A -> A -> bool) (m : list A) (a b c : nat) : res (list A * nat * nat) :=
  let n := (b - a)%nat in
  if (b =? 0)%nat then UB else
  let e := (b - 1)%nat in
  '(m, c) <- medianC lt m a e (Nat.div n 2 + a) c ;;
  k <- get m e ;;
  '(m, p, c) <- part_loopC lt m k a a (e - a) c ;;
  m <- swap m p e ;;
  Ok (m, p, c).

(** sort.h:81-95 the three-argument intro_sort. *)
Fixpoint intro_recC {A} (lt : A -> A -> bool) (N : nat) (fuel : nat) (m : list A) (a b c : nat) : res (list A * nat) :=
  match fuel with
  | O => Timeout
  | S fuel =>
    let n := (b - a)%nat in
    if (n <? N)%nat then insertion_sortC lt m a b c
    else
      '(m, p, c) <- partitionC lt m a b c ;;
      '(m, c) <- intro_recC lt N fuel m (p + 1) b c ;;
      intro_recC lt N fuel m a p c
  end.

(** sort.h:97-110 the two-argument intro_sort<N>. *)
Definition intro_sortC {A} (lt : A -> A -> bool) (N : nat) (fuel : nat) (m : list A) (a b : nat) : res (list A * nat) :=
  if (a <? b)%nat then
    let n := (b - a)%nat in
    if (n <? N)%nat then insertion_sortC lt m a b 0
    else
      '(m, p, c) <- partitionC lt m a b 0 ;;
      '(m, c) <- intro_recC lt N fuel m a p c ;;
      intro_recC lt N fuel m (p + 1) b c
  else Ok (m, 0%nat).

(** sort.h:112-144 the loop of lower_bound and upper_bound. *)
Fixpoint bound_loopC {A} (go_right : A -> bool) (m : list A) (fuel a n c : nat) : res (nat * nat) :=
  match n with
  | O => Ok (a, c)
  | _ =>
    match fuel with
    | O => Timeout
    | S fuel =>
      let step := Nat.div n 2 in
      x <- get m (a + step) ;;
      if go_right x
      then bound_loopC go_right m fuel (a + step + 1) (n - (step + 1)) (S c)
      else bound_loopC go_right m fuel a step (S c)
    end
  end.
Definition lower_boundC {A} (lt : A -> A -> bool) (m : list A) (a b : nat) (k : A) : res (nat * nat) :=
  bound_loopC (fun x => lt x k) m (b - a) a (b - a) 0.
Definition upper_boundC {A} (lt : A -> A -> bool) (m : list A) (a b : nat) (k : A) : res (nat * nat) :=
  bound_loopC (fun x => negb (lt k x)) m (b - a) a (b - a) 0.

(** ce.h:1419-1433 heap_raise. *)
Fixpoint heap_raiseC {A} (lt : A -> A -> bool) (fuel : nat) (data : list A) (item : A) (n c : nat) : res (list A * nat) :=
  match fuel with
  | O => Timeout
  | S fuel =>
    if (0 <? n)%nat then
      let p := Nat.div (n - 1) 2 in
      dp <- get data p ;;
      if lt item dp
      then data <- set data n dp ;; heap_raiseC lt fuel data item p (S c)
      else data <- set data n item ;; Ok (data, S c)
    else data <- set data n item ;; Ok (data, c)
  end.

(** ce.h:1435-1453 heap_lower. *)
Fixpoint heap_lowerC {A} (lt : A -> A -> bool) (fuel : nat) (size : nat) (data : list A) (item : A) (n c : nat) : res (list A * nat) :=
  match fuel with
  | O => Timeout
  | S fuel =>
    let p := (n * 2 + 1)%nat in
    if (size <=? p)%nat then data <- set data n item ;; Ok (data, c)
    else
      '(p, c) <- (if (p + 1 <? size)%nat
            then x <- get data (p + 1) ;; y <- get data p ;; Ok (if lt x y then (p + 1)%nat else p, S c)
            else Ok (p, c)) ;;
      dp <- get data p ;;
      if lt item dp then data <- set data n item ;; Ok (data, S c)
      else data <- set data n dp ;; heap_lowerC lt fuel size data item p (S c)
  end.

(** ce.h:1464-1467 enqueue. *)
Definition enqueueC {A} (lt : A -> A -> bool) (q : pq A) (item : A) : res (bool * pq A * nat) :=
  if (pq_size q <? length (pq_data q))%nat then
    '(data, c) <- heap_raiseC lt (S (pq_size q)) (pq_data q) item (pq_size q) 0 ;;
    Ok (true, {| pq_size := S (pq_size q); pq_data := data |}, c)
  else Ok (false, q, 0%nat).

(** ce.h:1469-1477 dequeue. *)
Definition dequeueC {A} (lt : A -> A -> bool) (q : pq A) : res (A * pq A * nat) :=
  item <- get (pq_data q) 0 ;;
  match pq_size q with
  | O => UB
  | S size =>
    if (0 <? size)%nat then
      last <- get (pq_data q) size ;;
      '(data, c) <- heap_lowerC lt (S size) size (pq_data q) last 0 0 ;;
      Ok (item, {| pq_size := size; pq_data := data |}, c)
    else Ok (item, {| pq_size := size; pq_data := pq_data q |}, 0%nat)
  end.
