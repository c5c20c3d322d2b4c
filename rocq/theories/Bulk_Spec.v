(** What a bulk is to its user: a list of at most N elements. An element is [Some v], or [None]
    when its value is unspecified (created by resize / append_n for a type whose
    default-initialisation is trivial). *)
From Coq Require Import List Arith Bool.
From Verif Require Import Base Bulk_Model.
Import ListNotations.
Local Open Scope nat_scope.

Section Spec.
Context {V : Type} (T : traits V) (N : nat).

Definition alist := list (option V).
Definition astate := list (option alist).

Definition aobj (s : astate) (i : nat) : option alist := match nth_error s i with Some o => o | None => None end.
Definition aput (s : astate) (i : nat) (l : alist) : astate := upd s i (Some l).

(** Elements that appear without a given value. *)
Definition fresh (n : nat) : alist := repeat (if triv_ctor T then None else Some (dflt T)) n.

Definition remove_nth (l : alist) (k : nat) : alist := firstn k l ++ skipn (S k) l.

(** Unordered removal puts the last element in the hole. *)
Definition remove_swap (l : alist) (k : nat) : alist :=
  match nth_error l (length l - 1) with
  | Some x => removelast (upd l k x)
  | None => l
  end.

(** May a bulk holding l be copied into new elements? T must be default-constructible. *)
Definition can_copy (n : nat) : bool := has_default T || (n =? 0).

(** One call; None means the call violates a documented or implied precondition (object not alive,
    index out of range, reading an unspecified value, resize of a type that cannot be
    default-constructed). *)
Definition astep (s : astate) (o : op) : option (ret * astate) :=
  match o with
  | New => Some (Unit, s ++ [Some []])
  | Copy j => match aobj s j with
      | Some l => if can_copy (length l) then Some (Unit, s ++ [Some l]) else None | None => None end
  | Destroy i => match aobj s i with Some _ => Some (Unit, upd s i None) | None => None end
  | Assign i j => match aobj s i, aobj s j with
      | Some a, Some b => if can_copy (length b - length a) then Some (Unit, aput s i b) else None
      | _, _ => None end
  | Clear i => match aobj s i with Some _ => Some (Unit, aput s i []) | None => None end
  | Resize i n => match aobj s i with
      | Some l => if has_default T
          then if n <=? N then Some (Bool true, aput s i (firstn n l ++ fresh (n - length l)))
               else Some (Bool false, s)
          else None
      | None => None end
  | AppendN i n => match aobj s i with
      | Some l => if has_default T
          then if length l + n <=? N then Some (Bool true, aput s i (l ++ fresh n)) else Some (Bool false, s)
          else None
      | None => None end
  | Append i v => match aobj s i with
      | Some l => if length l <? N then Some (Bool true, aput s i (l ++ [Some v])) else Some (Bool false, s)
      | None => None end
  | RemoveAt ord i k => match aobj s i with
      | Some l => if k <? length l
          then Some (Bool true, aput s i (if ord then remove_nth l k else remove_swap l k))
          else Some (Bool false, s)
      | None => None end
  | Read i k => match aobj s i with
      | Some l => match nth_error l k with Some (Some v) => Some (Val v, s) | _ => None end | None => None end
  | Write i k v => match aobj s i with
      | Some l => if k <? length l then Some (Unit, aput s i (upd l k (Some v))) else None | None => None end
  | Back i => match aobj s i with
      | Some l => match nth_error l (length l - 1) with Some (Some v) => Some (Val v, s) | _ => None end
      | None => None end
  | Size i => match aobj s i with Some l => Some (Nat (length l), s) | None => None end
  | Room i => match aobj s i with Some l => Some (Nat (N - length l), s) | None => None end
  end.

Fixpoint arun (s : astate) (os : list op) : option (list ret * astate) :=
  match os with
  | [] => Some ([], s)
  | o :: os => match astep s o with
      | None => None
      | Some (r, s) => match arun s os with None => None | Some (rs, s) => Some (r :: rs, s) end
      end
  end.

(** Total number of elements in all living bulks. *)
Definition total (s : astate) : nat :=
  fold_right (fun o n => match o with Some l => length l + n | None => n end) 0 s.
End Spec.
