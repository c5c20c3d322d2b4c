(** Model of lib/h/ce/dictionary.h. No proofs.
    K is a type of names with == and >=, V the type of data. The object is zero-initialised (static storage
    or dictionary{}): every name is the value-initialised name [k0] and every datum [v0].
    Destroying and constructing data[i] is modelled as replacing its value. *)
From Verif Require Import Base.
Local Open Scope Z_scope.

Section Dictionary.
Variables K V : Type.
Variable eqb : K -> K -> bool.  (* names[i] == n *)
Variable geb : K -> K -> bool.  (* names[i] >= n *)

(** dictionary.h:38-42 the fields. *)
Record dict := { d_size : Z; d_data : list V; d_heap : Z; d_names : list K }.

(** A zero-initialised dictionary<N, T, K>. *)
Definition d_init (N : Z) (k0 : K) (v0 : V) : dict :=
  {| d_size := 0; d_data := repeat v0 (Z.to_nat N); d_heap := 0; d_names := repeat k0 (Z.to_nat N) |}.

(** dictionary.h:49-51 the heap scan: Some i if it returns. i at least doubles, so heap is enough fuel. *)
Fixpoint d_heap_scan (fuel : nat) (d : dict) (n : K) (i : Z) : res (option Z) :=
  if i <? d_heap d then
    match fuel with
    | O => Timeout
    | S fuel =>
        k <- getz (d_names d) i ;;
        if eqb k n then Ok (Some i)
        else d_heap_scan fuel d n (i + (i + if geb k n then 1 else 0))
    end
  else Ok None.

(** dictionary.h:54-58 the linear scan and the final return of nil. *)
Fixpoint d_linear_scan (fuel : nat) (d : dict) (n : K) (i : Z) : res Z :=
  if i <? d_size d then
    match fuel with
    | O => Timeout
    | S fuel =>
        k <- getz (d_names d) i ;;
        if eqb k n then Ok i else d_linear_scan fuel d n (i + 1)
    end
  else Ok 0.

(** dictionary.h:46-59 find. The result is the handle, 0 for nil. *)
Definition d_find (d : dict) (n : K) : res Z :=
  r <- d_heap_scan (Z.to_nat (d_heap d)) d n 1 ;;
  match r with
  | Some i => Ok i
  | None => d_linear_scan (Z.to_nat (d_size d - d_heap d)) d n (d_heap d)
  end.

(** dictionary.h:61-82 bind. *)
Definition d_bind (N : Z) (d : dict) (n : K) (v : V) : res (Z * dict) :=
  i <- d_find d n ;;
  if i =? 0 then
    if N <=? d_size d then Ok (0, d)
    else
      let i := d_size d + (if d_size d =? 0 then 1 else 0) in
      names <- setz (d_names d) i n ;;
      data <- setz (d_data d) i v ;;
      Ok (i, {| d_size := i + 1; d_data := data; d_heap := d_heap d; d_names := names |})
  else
    data <- setz (d_data d) i v ;;
    Ok (i, {| d_size := d_size d; d_data := data; d_heap := d_heap d; d_names := d_names d |}).

(** dictionary.h:84-96 operator[](ptr_t): UB when the assertion fails. *)
Definition d_at (d : dict) (i : Z) : res V :=
  if negb (i =? 0) && (i <? d_size d) then getz (d_data d) i else UB.

(** dictionary.h:98-110 operator[](name_t). *)
Definition d_at_name (d : dict) (n : K) : res V := i <- d_find d n ;; d_at d i.

(** A history of binds: the handles it returned and the final dictionary. *)
Fixpoint d_run (N : Z) (d : dict) (h : list (K * V)) : res (list Z * dict) :=
  match h with
  | [] => Ok ([], d)
  | (n, v) :: h => '(i, d) <- d_bind N d n v ;; '(is, d) <- d_run N d h ;; Ok (i :: is, d)
  end.
End Dictionary.
