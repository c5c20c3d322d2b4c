(** The functions of lib/h/ce/sort.h and the priority queue of lib/h/ce/ce.h once more, for an operator< that has an effect: it takes a state
    and returns the next one with its answer. The functions hand the state from one call to the next in the order of evaluation, and do not
    touch it. No proofs here. *)
From Verif Require Import Base Sort_Model Heap_Model.

Section Calls.
Context {A St : Type}.
Variable lt : A -> A -> St -> bool * St.

(** sort.h:37-39 the inner loop of insertion_sort: k < *(q - 1) is only asked when q > a. *)
Fixpoint ins_innerS (m : list A) (a : nat) (k : A) (d : nat) (s : St) : res (list A * St) :=
  match d with
  | O => m <- set m (a + 0) k ;; Ok (m, s)
  | S d' =>
    x <- get m (a + d - 1) ;;
    let (less, s) := lt k x s in
    if less
    then m <- set m (a + d) x ;; ins_innerS m a k d' s
    else m <- set m (a + d) k ;; Ok (m, s)
  end.

(** sort.h:30-41 insertion_sort. *)
Fixpoint ins_outerS (m : list A) (a d n : nat) (s : St) : res (list A * St) :=
  match n with
  | O => Ok (m, s)
  | S n =>
    k <- get m (a + d) ;;
    '(m, s) <- ins_innerS m a k d s ;;
    ins_outerS m a (S d) n s
  end.
Definition insertion_sortS (m : list A) (a b : nat) (s : St) : res (list A * St) := ins_outerS m a 0 (b - a) s.

(** sort.h:43-63 median. *)
Definition medianS (m : list A) (a b c : nat) (s : St) : res (list A * St) :=
  va <- get m a ;; vb <- get m b ;; vc <- get m c ;;
  let (ab, s) := lt va vb s in
  if ab then
    let (bc, s) := lt vb vc s in
    if bc then Ok (m, s)
    else
      let (ac, s) := lt va vc s in
      if ac then m <- swap m b c ;; Ok (m, s) else m <- swap m b a ;; Ok (m, s)
  else
    let (cb, s) := lt vc vb s in
    if cb then Ok (m, s)
    else
      let (ac, s) := lt va vc s in
      if ac then m <- swap m b a ;; Ok (m, s) else m <- swap m b c ;; Ok (m, s).

(** sort.h:74-76 the partition loop. *)
Fixpoint part_loopS (m : list A) (k : A) (p q n : nat) (s : St) : res (list A * nat * St) :=
  match n with
  | O => Ok (m, p, s)
  | S n =>
    x <- get m q ;;
    let (less, s) := lt x k s in
    if less
    then m <- swap m p q ;; part_loopS m k (S p) (S q) n s
    else part_loopS m k p (S q) n s
  end.

(** sort.h:65-79 partition. *)
Definition partitionS (m : list A) (a b : nat) (s : St) : res (list A * nat * St) :=
  let n := (b - a)%nat in
  if (b =? 0)%nat then UB else
  let e := (b - 1)%nat in
  '(m, s) <- medianS m a e (Nat.div n 2 + a) s ;;
  k <- get m e ;;
  '(m, p, s) <- part_loopS m k a a (e - a) s ;;
  m <- swap m p e ;;
  Ok (m, p, s).

(** sort.h:81-95 the three-argument intro_sort. *)
Fixpoint intro_recS (N : nat) (fuel : nat) (m : list A) (a b : nat) (s : St) : res (list A * St) :=
  match fuel with
  | O => Timeout
  | S fuel =>
    let n := (b - a)%nat in
    if (n <? N)%nat then insertion_sortS m a b s
    else
      '(m, p, s) <- partitionS m a b s ;;
      '(m, s) <- intro_recS N fuel m (p + 1) b s ;;
      intro_recS N fuel m a p s
  end.

(** sort.h:97-110 the two-argument intro_sort<N>. *)
Definition intro_sortS (N : nat) (fuel : nat) (m : list A) (a b : nat) (s : St) : res (list A * St) :=
  if (a <? b)%nat then
    let n := (b - a)%nat in
    if (n <? N)%nat then insertion_sortS m a b s
    else
      '(m, p, s) <- partitionS m a b s ;;
      '(m, s) <- intro_recS N fuel m a p s ;;
      intro_recS N fuel m (p + 1) b s
  else Ok (m, s).

(** sort.h:112-127 the loop of lower_bound. *)
Fixpoint lower_loopS (m : list A) (k : A) (fuel a n : nat) (s : St) : res (nat * St) :=
  match n with
  | O => Ok (a, s)
  | _ =>
    match fuel with
    | O => Timeout
    | S fuel =>
      let step := Nat.div n 2 in
      x <- get m (a + step) ;;
      let (less, s) := lt x k s in
      if less
      then lower_loopS m k fuel (a + step + 1) (n - (step + 1)) s
      else lower_loopS m k fuel a step s
    end
  end.
Definition lower_boundS (m : list A) (a b : nat) (k : A) (s : St) : res (nat * St) := lower_loopS m k (b - a) a (b - a) s.
(** sort.h:129-144 the loop of upper_bound. *)
Fixpoint upper_loopS (m : list A) (k : A) (fuel a n : nat) (s : St) : res (nat * St) :=
  match n with
  | O => Ok (a, s)
  | _ =>
    match fuel with
    | O => Timeout
    | S fuel =>
      let step := Nat.div n 2 in
      x <- get m (a + step) ;;
      let (less, s) := lt k x s in
      if less
      then upper_loopS m k fuel a step s
      else upper_loopS m k fuel (a + step + 1) (n - (step + 1)) s
    end
  end.
Definition upper_boundS (m : list A) (a b : nat) (k : A) (s : St) : res (nat * St) := upper_loopS m k (b - a) a (b - a) s.

(** ce.h:1419-1433 heap_raise. *)
Fixpoint heap_raiseS (fuel : nat) (data : list A) (item : A) (n : nat) (s : St) : res (list A * St) :=
  match fuel with
  | O => Timeout
  | S fuel =>
    if (0 <? n)%nat then
      let p := Nat.div (n - 1) 2 in
      dp <- get data p ;;
      let (less, s) := lt item dp s in
      if less
      then data <- set data n dp ;; heap_raiseS fuel data item p s
      else data <- set data n item ;; Ok (data, s)
    else data <- set data n item ;; Ok (data, s)
  end.

(** ce.h:1435-1453 heap_lower. *)
Fixpoint heap_lowerS (fuel : nat) (size : nat) (data : list A) (item : A) (n : nat) (s : St) : res (list A * St) :=
  match fuel with
  | O => Timeout
  | S fuel =>
    let p := (n * 2 + 1)%nat in
    if (size <=? p)%nat then data <- set data n item ;; Ok (data, s)
    else
      '(p, s) <- (if (p + 1 <? size)%nat
            then x <- get data (p + 1) ;; y <- get data p ;; let (less, s) := lt x y s in Ok (if less : bool then (p + 1)%nat else p, s)
            else Ok (p, s)) ;;
      dp <- get data p ;;
      let (less, s) := lt item dp s in
      if less then data <- set data n item ;; Ok (data, s)
      else data <- set data n dp ;; heap_lowerS fuel size data item p s
  end.

(** ce.h:1464-1467 enqueue. *)
Definition enqueueS (q : pq A) (item : A) (s : St) : res (bool * pq A * St) :=
  if (pq_size q <? length (pq_data q))%nat then
    '(data, s) <- heap_raiseS (S (pq_size q)) (pq_data q) item (pq_size q) s ;;
    Ok (true, {| pq_size := S (pq_size q); pq_data := data |}, s)
  else Ok (false, q, s).

(** ce.h:1469-1477 dequeue. *)
Definition dequeueS (q : pq A) (s : St) : res (A * pq A * St) :=
  item <- get (pq_data q) 0 ;;
  match pq_size q with
  | O => UB
  | S size =>
    if (0 <? size)%nat then
      last <- get (pq_data q) size ;;
      '(data, s) <- heap_lowerS (S size) size (pq_data q) last 0 s ;;
      Ok (item, {| pq_size := size; pq_data := data |}, s)
    else Ok (item, {| pq_size := size; pq_data := pq_data q |}, s)
  end.

(** The public members of the queue, and a history of them, as in Heap_Model. *)
Definition pq_stepS (q : pq A) (o : pq_op A) (s : St) : res (pq_ret A * pq A * St) :=
  match o with
  | Enqueue x => '(b, q, s) <- enqueueS q x s ;; Ok (RBool b, q, s)
  | Dequeue => '(x, q, s) <- dequeueS q s ;; Ok (RItem x, q, s)
  | Head => x <- pq_head q ;; Ok (RItem x, q, s)
  | Empty => Ok (RBool (pq_empty q), q, s)
  end.
Fixpoint pq_runS (q : pq A) (os : list (pq_op A)) (s : St) : res (list (pq_ret A) * St) :=
  match os with
  | [] => Ok ([], s)
  | o :: os => '(r, q, s) <- pq_stepS q o s ;; '(rs, s) <- pq_runS q os s ;; Ok (r :: rs, s)
  end.
End Calls.
