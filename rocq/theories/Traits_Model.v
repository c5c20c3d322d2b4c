(** Model of the type functions of lib/h/ce/ce.h:331-368. No proofs.
    A class template with partial specialisations is a list of patterns with the type each gives; the compiler takes the pattern that
    matches and is more specialised than all others that match ([temp.spec.partial.match]). *)
From Coq Require Import List Bool Arith.
Import ListNotations.

(** C++ types, the part the traits look at. An arithmetic, class, enumeration or member pointer type by a number, and a pointer, with
    const and volatile; references; arrays, that are const or volatile when their elements are; function types, with the qualifiers of a
    member function, that are not const or volatile themselves. *)
Inductive ty : Type :=
| Named (n : nat) (c v : bool)
| Ptr (t : ty) (c v : bool)
| Lref (t : ty)
| Rref (t : ty)
| Arr (t : ty) (n : option nat)
| Fun (n : nat) (c v : bool).
Definition ty_eq_dec : forall a b : ty, {a = b} + {a <> b}.
Proof. decide equality; (apply bool_dec || apply Nat.eq_dec || (decide equality; apply Nat.eq_dec)). Defined.

(** The rules of the language: is the type const, volatile; the type with these two set to given values ([basic.type.qualifier]: on a
    reference or function type they have no effect). *)
Fixpoint is_const (t : ty) : bool := match t with Named _ c _ | Ptr _ c _ => c | Arr t _ => is_const t | _ => false end.
Fixpoint is_volatile (t : ty) : bool := match t with Named _ _ v | Ptr _ _ v => v | Arr t _ => is_volatile t | _ => false end.
Fixpoint with_cv (c v : bool) (t : ty) : ty :=
  match t with Named n _ _ => Named n c v | Ptr t _ _ => Ptr t c v | Arr t n => Arr (with_cv c v t) n | _ => t end.

(** The patterns used: T, const T, volatile T, const volatile T, T& and T&&, and T* with qualifiers after the star. *)
Inductive pat : Type := PAny | PConst | PVolatile | PCv | PLref | PRref | PPtr (c v : bool).
(** What T is when the pattern matches ([temp.deduct.type]). *)
Definition deduce (p : pat) (t : ty) : option ty :=
  match p, t with
  | PAny, _ => Some t
  | PConst, _ => if is_const t then Some (with_cv false (is_volatile t) t) else None
  | PVolatile, _ => if is_volatile t then Some (with_cv (is_const t) false t) else None
  | PCv, _ => if is_const t && is_volatile t then Some (with_cv false false t) else None
  | PLref, Lref u => Some u
  | PRref, Rref u => Some u
  | PPtr c v, Ptr u c' v' => if Bool.eqb c c' && Bool.eqb v v' then Some u else None
  | _, _ => None
  end.
(** p is at least as specialised as p': p' matches the pattern p with a type of its own in the place of T ([temp.func.order]). *)
Definition instance (p : pat) : ty :=
  let u := Named 0 false false in
  match p with
  | PAny => u | PConst => with_cv true false u | PVolatile => with_cv false true u | PCv => with_cv true true u
  | PLref => Lref u | PRref => Rref u | PPtr c v => Ptr u c v
  end.
Definition as_special (p p' : pat) : bool := match deduce p' (instance p) with Some _ => true | None => false end.
(** The specialisation the compiler takes: Some (Some T), or None when there is no single best one. The primary template is the pattern T
    and comes last. *)
Definition choose (ps : list pat) (t : ty) : option (pat * ty) :=
  let fits p := match deduce p t with Some _ => true | None => false end in
  let ms := filter fits ps in
  let best i p := forallb (fun jq => (fst jq =? i) || (as_special p (snd jq) && negb (as_special (snd jq) p))) (combine (seq 0 (length ms)) ms) in
  match filter (fun ip => best (fst ip) (snd ip)) (combine (seq 0 (length ms)) ms) with
  | [(_, p)] => match deduce p t with Some u => Some (p, u) | None => None end
  | _ => None
  end.
(** All specialisations below give the T of the pattern. *)
Definition trait (ps : list pat) (t : ty) : option ty := match choose ps t with Some (_, u) => Some u | None => None end.

(** ce.h:331-334 remove_reference_t. *)
Definition remove_reference (t : ty) : option ty := trait [PLref; PRref; PAny] t.
(** ce.h:336-338 remove_const_t. *)
Definition remove_const (t : ty) : option ty := trait [PConst; PAny] t.
(** ce.h:340-342 remove_volatile_t. *)
Definition remove_volatile (t : ty) : option ty := trait [PVolatile; PAny] t.
(** ce.h:344-348 remove_cv_t. *)
Definition remove_cv (t : ty) : option ty := trait [PConst; PVolatile; PCv; PAny] t.
(** ce.h:350-351 remove_cvref_t. *)
Definition remove_cvref (t : ty) : option ty := match remove_reference t with Some u => remove_cv u | None => None end.
(** ce.h:353-358 remove_pointer_t. *)
Definition remove_pointer (t : ty) : option ty := trait [PPtr false false; PPtr true false; PPtr false true; PPtr true true; PAny] t.
(** ce.h:362-363 is_unqualified_ptr: true for the specialisation T*. *)
Definition is_unqualified_ptr (t : ty) : option bool :=
  match choose [PPtr false false; PAny] t with Some (PPtr _ _, _) => Some true | Some _ => Some false | None => None end.
(** ce.h:365 is_ptr. *)
Definition is_ptr (t : ty) : option bool := match remove_cvref t with Some u => is_unqualified_ptr u | None => None end.

(** T const & ([dcl.ref]): the qualifier has no effect on a reference, and a reference to a reference collapses. *)
Definition const_ref (t : ty) : ty := match t with Lref u | Rref u => Lref u | _ => Lref (with_cv true (is_volatile t) t) end.
(** ce.h:367-368 is_trivially_pass_by_value and best_pass_by_value_t; __is_trivially_copyable(T) and sizeof(T) are the compiler's. *)
Definition best_pass_by_value (copyable : ty -> bool) (size_of : ty -> nat) (t : ty) : ty := if copyable t && (size_of t <=? 16) then t else const_ref t.
