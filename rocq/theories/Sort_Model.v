(** Model of lib/h/ce/sort.h. No proofs here.
    Memory is one list [m]; pointers are indices into it; [lt] is operator<.
    Every read and write is bounds checked against [m]. *)
From Verif Require Import Base.

(** lib/h/ce/ce.h:46-52 swap. *)
Definition swap {A} (m : list A) (i j : nat) : res (list A) :=
  c <- get m i ;;
  d <- get m j ;;
  m <- set m i d ;;
  set m j c.

(** sort.h:37-39 the inner loop of insertion_sort, q = a + d. *)
Fixpoint ins_inner {A} (lt : A -> A -> bool) (m : list A) (a : nat) (k : A) (d : nat) : res (list A) :=
  match d with
  | O => set m (a + 0) k
  | S d' =>
    x <- get m (a + d - 1) ;;
    if lt k x
    then m <- set m (a + d) x ;; ins_inner lt m a k d'
    else set m (a + d) k
  end.

(** sort.h:30-41 insertion_sort, outer loop over p = a + d, [n] = b - p iterations left. *)
Fixpoint ins_outer {A} (lt : A -> A -> bool) (m : list A) (a d n : nat) : res (list A) :=
  match n with
  | O => Ok m
  | S n =>
    k <- get m (a + d) ;;
    m <- ins_inner lt m a k d ;;
    ins_outer lt m a (S d) n
  end.

Definition insertion_sort {A} (lt : A -> A -> bool) (m : list A) (a b : nat) : res (list A) :=
  ins_outer lt m a 0 (b - a).

(** sort.h:43-63 median; a, b, c are the indices of the three references. *)
Definition median {A} (lt : A -> A -> bool) (m : list A) (a b c : nat) : res (list A) :=
  va <- get m a ;; vb <- get m b ;; vc <- get m c ;;
  if lt va vb then
    if lt vb vc then Ok m
    else if lt va vc then swap m b c
    else swap m b a
  else
    if lt vc vb then Ok m
    else if lt va vc then swap m b a
    else swap m b c.

(** sort.h:74-76 the partition loop; [n] = e - q iterations left. *)
Fixpoint part_loop {A} (lt : A -> A -> bool) (m : list A) (k : A) (p q n : nat) : res (list A * nat) :=
  match n with
  | O => Ok (m, p)
  | S n =>
    x <- get m q ;;
    if lt x k
    then m <- swap m p q ;; part_loop lt m k (S p) (S q) n
    else part_loop lt m k p (S q) n
  end.

(** sort.h:65-79 partition: returns memory and the pivot position. *)
Definition partition {A} (lt : A -> A -> bool) (m : list A) (a b : nat) : res (list A * nat) :=
  let n := (b - a)%nat in
  if (b =? 0)%nat then UB else
  let e := (b - 1)%nat in
  m <- median lt m a e (Nat.div n 2 + a) ;;
  k <- get m e ;;
  '(m, p) <- part_loop lt m k a a (e - a) ;;
  m <- swap m p e ;;
  Ok (m, p).

(** sort.h:81-95 the three-argument intro_sort. Also returns the depth of the recursion
    (number of nested intro_sort activations), which the code does not compute.
    The argument [intro]/[limit] is unused by the code and left out. *)
Fixpoint intro_rec {A} (lt : A -> A -> bool) (N : nat) (fuel : nat) (m : list A) (a b : nat)
  : res (list A * nat) :=
  match fuel with
  | O => Timeout
  | S fuel =>
    let n := (b - a)%nat in
    if (n <? N)%nat then m <- insertion_sort lt m a b ;; Ok (m, 1%nat)
    else
      '(m, p) <- partition lt m a b ;;
      '(m, d1) <- intro_rec lt N fuel m (p + 1) b ;;
      '(m, d2) <- intro_rec lt N fuel m a p ;;
      Ok (m, S (Nat.max d1 d2))
  end.

(** sort.h:97-110 the two-argument intro_sort<N>. *)
Definition intro_sort {A} (lt : A -> A -> bool) (N : nat) (fuel : nat) (m : list A) (a b : nat)
  : res (list A * nat) :=
  if (a <? b)%nat then
    let n := (b - a)%nat in
    if (n <? N)%nat then m <- insertion_sort lt m a b ;; Ok (m, 1%nat)
    else
      '(m, p) <- partition lt m a b ;;
      '(m, d1) <- intro_rec lt N fuel m a p ;;
      '(m, d2) <- intro_rec lt N fuel m (p + 1) b ;;
      Ok (m, S (Nat.max d1 d2))
  else Ok (m, 1%nat).

(** sort.h:112-127 lower_bound; [go_right x] is  x < k . *)
Fixpoint bound_loop {A} (go_right : A -> bool) (m : list A) (fuel a n : nat) : res nat :=
  match n with
  | O => Ok a
  | _ =>
    match fuel with
    | O => Timeout
    | S fuel =>
      let step := Nat.div n 2 in
      x <- get m (a + step) ;;
      if go_right x
      then bound_loop go_right m fuel (a + step + 1) (n - (step + 1))
      else bound_loop go_right m fuel a step
    end
  end.

Definition lower_bound {A} (lt : A -> A -> bool) (m : list A) (a b : nat) (k : A) : res nat :=
  bound_loop (fun x => lt x k) m (b - a) a (b - a).

(** sort.h:129-144 upper_bound; goes right when  !(k < x) . *)
Definition upper_bound {A} (lt : A -> A -> bool) (m : list A) (a b : nat) (k : A) : res nat :=
  bound_loop (fun x => negb (lt k x)) m (b - a) a (b - a).
