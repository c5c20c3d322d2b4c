(** What a visitor can rebuild from the calls it receives. *)
From Coq Require Import String.
From Verif Require Import Base Io_Model.
Local Open Scope nat_scope.

(** Documents. *)
Inductive tree := TAtom (a : Z) | TClass (fields : list (string * tree)) | TArray (dynamic : bool) (items : list tree).

(** The document of a value: every scalar once, the fields with their names in order, the first size items of a list. *)
Fixpoint document (v : value) : tree :=
  match v with
  | VAtom a => TAtom a
  | VFixed data => TArray false (map document data)
  | VClass names data => TClass (combine names (map document data))
  | VList size data => TArray true (firstn size (map document data))
  | VVec data => TArray false (map document data)
  | VVec2 x y => TClass [("x"%string, document x); ("y"%string, document y)]
  | VAs v => document v
  end.

(** A value of its type: a name for each field, and no more items than there is room for. *)
Fixpoint well_formed (v : value) : Prop :=
  let fix all (l : list value) : Prop := match l with [] => True | v :: l => well_formed v /\ all l end in
  match v with
  | VAtom _ => True
  | VFixed data | VVec data => all data
  | VClass names data => length names = length data /\ all data
  | VList size data => size <= length data /\ all data
  | VVec2 x y => well_formed x /\ well_formed y
  | VAs v => well_formed v
  end.

(** The reader: a stack of open classes (fields so far, the name awaiting its value) and arrays (size announced, items so far). *)
Inductive frame := FClass (fields : list (string * tree)) (pending : option string) | FArray (size : nat) (dynamic : bool) (items : list tree).

Definition put (t : tree) (st : list frame) : option (list frame + tree) :=
  match st with
  | [] => Some (inr t)
  | FClass fs (Some s) :: st => Some (inl (FClass (fs ++ [(s, t)]) None :: st))
  | FArray n d l :: st => Some (inl (FArray n d (l ++ [t]) :: st))
  | _ => None
  end.

Definition step (e : event) (st : list frame) : option (list frame + tree) :=
  match e, st with
  | Atom a, _ => put (TAtom a) st
  | Name s, FClass fs None :: st => Some (inl (FClass fs (Some s) :: st))
  | EnterClass, _ => Some (inl (FClass [] None :: st))
  | LeaveClass, FClass fs None :: st => put (TClass fs) st
  | EnterArray n d, _ => Some (inl (FArray n d [] :: st))
  | LeaveArray n d, FArray n' d' l :: st => if Nat.eqb n n' && Nat.eqb n (length l) && Bool.eqb d d' then put (TArray d l) st else None
  | _, _ => None
  end.

(** The document, when the events are exactly one document, properly nested. *)
Fixpoint rebuild (es : list event) (st : list frame) : option tree :=
  match es with
  | [] => None
  | e :: es =>
      match step e st with
      | None => None
      | Some (inl st) => rebuild es st
      | Some (inr t) => match es with [] => Some t | _ => None end
      end
  end.
