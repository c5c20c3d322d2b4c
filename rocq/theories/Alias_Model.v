(** Model of two functions whose arguments may refer to what they write: intersect (lib/h/ce/math.h:261-277) and dictionary::bind
    (lib/h/ce/dictionary.h:61-82). No proofs. Math_Model and Dictionary_Model take the arguments by value. *)
From Verif Require Import Base Vec_Model Math_Model Dictionary_Model.
Local Open Scope Z_scope.

(** The vec2<int32_t> objects of the program, by address; two of them do not overlap. *)
Definition points := nat -> vec2.
Definition put (m : points) (r : nat) (v : vec2) : points := fun k => if Nat.eqb k r then v else m k.

(** math.h:261-277 intersect: every argument is a reference. *)
Definition intersect_r (m : points) (p0 p1 q0 q1 r : nat) : res (bool * points) :=
  let m := put m r (m p0) in
  p <- sub2 (m p1) (m p0) ;;
  q <- sub2 (m q1) (m q0) ;;
  d <- crossx2 p q ;;
  if d =? 0 then Ok (false, m)
  else
    s <- sub2 (m q0) (m p0) ;;
    t <- crossx2 s q ;;
    v <- muldiv64 p t d ;;
    w <- add2 (m p0) v ;;
    Ok (true, put m r w).

Section Bind.
Variables K V : Type.
Variable eqb : K -> K -> bool.
Variable geb : K -> K -> bool.

(** dictionary.h:61-82 bind with one argument, a reference to data[j] of the same dictionary. A datum is [None] from its destruction
    (line 77) to its construction (line 79), and to read it then is UB. *)
Definition d_bind_ref (N : Z) (d : dict K (option V)) (n : K) (j : Z) : res (Z * dict K (option V)) :=
  i <- d_find K (option V) eqb geb d n ;;
  if (i =? 0) && (N <=? d_size K (option V) d) then Ok (0, d)
  else
    let new := i =? 0 in
    let i := if new then d_size K (option V) d + (if d_size K (option V) d =? 0 then 1 else 0) else i in
    names <- (if new then setz (d_names K (option V) d) i n else Ok (d_names K (option V) d)) ;;
    data <- setz (d_data K (option V) d) i None ;;
    v <- getz data j ;;
    match v with
    | None => UB
    | Some v =>
        data <- setz data i (Some v) ;;
        Ok (i, {| d_size := if new then i + 1 else d_size K (option V) d; d_data := data; d_heap := d_heap K (option V) d; d_names := names |})
    end.

(** dictionary.h:105-110, 61-82: `d.bind(n, d[m])`. *)
Definition d_bind_name (N : Z) (d : dict K (option V)) (n m : K) : res (Z * dict K (option V)) :=
  j <- d_find K (option V) eqb geb d m ;;
  if negb (j =? 0) && (j <? d_size K (option V) d) then d_bind_ref N d n j else UB.
End Bind.
