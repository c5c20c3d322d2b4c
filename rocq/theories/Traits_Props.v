(** C87: the type functions of ce.h. *)
From Coq Require Import List Bool Arith Lia.
Import ListNotations.
From Verif Require Import Traits_Model.

(** ** Specification *)
Definition is_reference (t : ty) : bool := match t with Lref _ | Rref _ => true | _ => false end.
Definition is_pointer (t : ty) : bool := match t with Ptr _ _ _ => true | _ => false end.
(** The type that is written const t, volatile t. *)
Definition const_ (t : ty) : ty := with_cv true (is_volatile t) t.
Definition volatile_ (t : ty) : ty := with_cv (is_const t) true t.
(** The types that can be written: no reference to a reference, no pointer to one, no array of one. *)
Fixpoint well_formed (t : ty) : bool :=
  match t with
  | Named _ _ _ | Fun _ _ _ => true
  | Ptr t _ _ | Arr t _ | Lref t | Rref t => well_formed t && negb (is_reference t)
  end.

(** ** Proofs *)
Lemma const_ref_form t : is_reference t = false -> const_ref t = Lref (const_ t).
Proof. destruct t; try reflexivity; discriminate. Qed.
Lemma with_cv_const c v t : is_const (with_cv c v t) = true -> c = true.
Proof. induction t; cbn [with_cv is_const]; auto; discriminate. Qed.
Lemma with_cv_volatile c v t : is_volatile (with_cv c v t) = true -> v = true.
Proof. induction t; cbn [with_cv is_volatile]; auto; discriminate. Qed.
Lemma with_with c v c' v' t : with_cv c v (with_cv c' v' t) = with_cv c v t.
Proof. induction t; cbn [with_cv]; auto. now rewrite IHt. Qed.
Lemma with_self t : with_cv (is_const t) (is_volatile t) t = t.
Proof. induction t; cbn [with_cv is_const is_volatile]; auto. now rewrite IHt. Qed.
Lemma with_keeps_v c v t : is_const t = true \/ is_volatile t = true -> is_volatile (with_cv c v t) = v.
Proof. induction t; cbn [with_cv is_const is_volatile]; auto; intros [?|?]; discriminate. Qed.
Lemma with_keeps_c c v t : is_const t = true \/ is_volatile t = true -> is_const (with_cv c v t) = c.
Proof. induction t; cbn [with_cv is_const is_volatile]; auto; intros [?|?]; discriminate. Qed.

(** ** Theorems *)

(** C87: remove_reference_t of t, t& and t&& is t, for every t that is no reference. *)
Theorem C87_remove_reference : forall t, is_reference t = false ->
  remove_reference t = Some t /\ remove_reference (Lref t) = Some t /\ remove_reference (Rref t) = Some t.
Proof. intros t H. repeat split. destruct t; try reflexivity; discriminate. Qed.
Print Assumptions C87_remove_reference.

(** C87: remove_const_t gives the type without const: it is not const, it is as volatile as before, and t is it or const it. *)
Theorem C87_remove_const : forall t, exists u, remove_const t = Some u /\ is_const u = false /\ is_volatile u = is_volatile t /\ (if is_const t then t = const_ u else t = u).
Proof.
  intro t. unfold remove_const, trait, choose. destruct (is_const t) eqn:C.
  - exists (with_cv false (is_volatile t) t). split; [cbn [filter deduce]; rewrite C; cbn [filter length seq combine forallb fst snd deduce instance as_special with_cv is_const is_volatile andb orb negb Nat.eqb]; now rewrite C|].
    split; [now rewrite with_keeps_c by auto|]. split; [now rewrite with_keeps_v by auto|]. unfold const_. rewrite with_with, with_keeps_v, <- C by auto. now rewrite with_self.
  - exists t. split; [|auto]. cbn [filter deduce]. rewrite C. reflexivity.
Qed.
Print Assumptions C87_remove_const.

Theorem C87_remove_volatile : forall t, exists u, remove_volatile t = Some u /\ is_volatile u = false /\ is_const u = is_const t /\ (if is_volatile t then t = volatile_ u else t = u).
Proof.
  intro t. unfold remove_volatile, trait, choose. destruct (is_volatile t) eqn:C.
  - exists (with_cv (is_const t) false t). split; [cbn [filter deduce]; rewrite C; cbn [filter length seq combine forallb fst snd deduce instance as_special with_cv is_const is_volatile andb orb negb Nat.eqb]; now rewrite C|].
    split; [now rewrite with_keeps_v by auto|]. split; [now rewrite with_keeps_c by auto|]. unfold volatile_. rewrite with_with, with_keeps_c, <- C by auto. now rewrite with_self.
  - exists t. split; [|auto]. cbn [filter deduce]. rewrite C. reflexivity.
Qed.
Print Assumptions C87_remove_volatile.

(** C87: remove_cv_t gives the type without both: there always is one best specialisation. *)
Theorem C87_remove_cv : forall t, exists u, remove_cv t = Some u /\ is_const u = false /\ is_volatile u = false /\ t = with_cv (is_const t) (is_volatile t) u.
Proof.
  intro t. unfold remove_cv, trait, choose. exists (with_cv false false t).
  assert (D1 : is_const (with_cv false false t) = false) by (destruct (is_const (with_cv false false t)) eqn:E; [apply with_cv_const in E; discriminate|reflexivity]).
  assert (D2 : is_volatile (with_cv false false t) = false) by (destruct (is_volatile (with_cv false false t)) eqn:E; [apply with_cv_volatile in E; discriminate|reflexivity]).
  assert (D3 : t = with_cv (is_const t) (is_volatile t) (with_cv false false t)) by (now rewrite with_with, with_self).
  split; [|auto]. pose proof (with_self t) as W.
  cbn [filter deduce]. destruct (is_const t) eqn:C, (is_volatile t) eqn:V; cbn [andb filter length seq combine forallb fst snd deduce instance as_special with_cv is_const is_volatile orb negb Nat.eqb];
    rewrite ?C, ?V; try reflexivity. now rewrite W at 1.
Qed.
Print Assumptions C87_remove_cv.

(** C87: remove_cvref_t takes the reference away first. *)
Theorem C87_remove_cvref : forall t, is_reference t = false -> exists u, remove_cv t = Some u /\ remove_cvref t = Some u /\ remove_cvref (Lref t) = Some u /\ remove_cvref (Rref t) = Some u.
Proof.
  intros t H. destruct (C87_remove_cv t) as (u & E & _). destruct (C87_remove_reference t H) as (R1 & R2 & R3). exists u. unfold remove_cvref. now rewrite R1, R2, R3.
Qed.
Print Assumptions C87_remove_cvref.

(** C87: remove_pointer_t of a pointer, whatever its qualifiers, is what it points to, qualifiers included; other types stay. *)
Theorem C87_remove_pointer : forall t c v, remove_pointer (Ptr t c v) = Some t /\ (is_pointer t = false -> remove_pointer t = Some t).
Proof. intros t c v. split; [destruct c, v; reflexivity|]. destruct t; intro H; try discriminate H; reflexivity. Qed.
Print Assumptions C87_remove_pointer.

(** C87: is_ptr is true exactly for pointers, with any qualifiers, and references to them. *)
Theorem C87_is_ptr : forall t, well_formed t = true ->
  is_ptr t = Some (match t with Lref u | Rref u => is_pointer u | _ => is_pointer t end).
Proof.
  assert (K : forall u, is_reference u = false -> match remove_cv u with Some x => is_unqualified_ptr x | None => None end = Some (is_pointer u)).
  { intros u H. destruct (C87_remove_cv u) as (x & -> & C & V & E). destruct x as [n c v|p c v|p|p|p n|n c v]; cbn [is_const is_volatile] in C, V; subst; rewrite E; try reflexivity.
    all: cbn [with_cv is_pointer]; destruct p; reflexivity. }
  intros t W. unfold is_ptr, remove_cvref. destruct (is_reference t) eqn:R.
  - destruct t; try discriminate R; cbn [well_formed] in W; apply andb_true_iff in W; destruct W as [_ W]; apply negb_true_iff in W; destruct (C87_remove_reference t W) as (_ & R2 & R3); rewrite ?R2, ?R3; now apply K.
  - destruct (C87_remove_reference t R) as (R1 & _). rewrite R1, K by assumption. destruct t; try reflexivity; discriminate R.
Qed.
Print Assumptions C87_is_ptr.

(** C87: best_pass_by_value_t is the type itself for small types that can be copied, and otherwise a reference: to const t, or for a
    reference t to what it refers to. *)
Theorem C87_best_pass : forall copyable size_of t, well_formed t = true ->
  best_pass_by_value copyable size_of t =
    (if copyable t && (size_of t <=? 16) then t else match t with Lref u | Rref u => Lref u | _ => Lref (const_ t) end) /\
  well_formed (best_pass_by_value copyable size_of t) = true.
Proof.
  intros cp sz t W. unfold best_pass_by_value. destruct (cp t && (sz t <=? 16)); [auto|]. split; [destruct t; reflexivity|].
  assert (X : forall c v u, well_formed u = true -> well_formed (with_cv c v u) = true /\ is_reference (with_cv c v u) = is_reference u).
  { intros c v. induction u; cbn [with_cv well_formed is_reference]; auto. rewrite !andb_true_iff, !negb_true_iff. intros [W1 W2]. destruct (IHu W1) as [-> ->]. auto. }
  destruct t as [n c v|p c v|p|p|p n|n c v]; try (exact W); try reflexivity; cbn [const_ref]; cbn [well_formed]; destruct (X true (is_volatile (Ptr p c v)) _ W) as [A B] || destruct (X true (is_volatile (Arr p n)) _ W) as [A B]; rewrite A, B; reflexivity.
Qed.
Print Assumptions C87_best_pass.

(** C87: the compiler's order of two patterns is the order of the sets of types they match, and every pattern matches its own instance. *)
Theorem C87_ordering : forall p p', (as_special p p' = true <-> forall t, deduce p t <> None -> deduce p' t <> None) /\ deduce p (instance p) = Some (instance PAny).
Proof.
  intros p p'. split; [|destruct p as [| | | | | |[|] [|]]; reflexivity].
  split.
  - intros H t M. destruct p as [| | | | | |[|] [|]], p' as [| | | | | |[|] [|]]; try discriminate H; clear H;
      destruct t as [n [|] [|]|u [|] [|]|u|u|u n|n [|] [|]]; cbn [deduce is_const is_volatile Bool.eqb andb] in *; try congruence;
      destruct (is_const u), (is_volatile u); cbn [andb] in *; congruence.
  - intro H. unfold as_special. specialize (H (instance p)). destruct (deduce p' (instance p)); [reflexivity|]. exfalso. apply H; [|reflexivity].
    destruct p as [| | | | | |[|] [|]]; discriminate.
Qed.
Print Assumptions C87_ordering.

(** C87: doing it twice is doing it once. *)
Theorem C87_idempotent : forall t, well_formed t = true -> exists u, remove_cvref t = Some u /\ remove_cvref u = Some u /\ is_reference u = false /\ is_const u = false /\ is_volatile u = false.
Proof.
  assert (K : forall t, is_reference t = false -> exists u, remove_cv t = Some u /\ remove_cvref u = Some u /\ is_reference u = false /\ is_const u = false /\ is_volatile u = false).
  { intros t R. destruct (C87_remove_cv t) as (u & E & C & V & T). assert (Ru : is_reference u = false) by (rewrite T in R; clear - R; destruct u; cbn [with_cv is_reference] in R; auto).
    exists u. split; [assumption|]. split; [|auto]. destruct (C87_remove_cvref u Ru) as (x & Ex & -> & _). destruct (C87_remove_cv u) as (y & Ey & Cy & Vy & Ty). rewrite Ey in Ex. injection Ex as <-.
    f_equal. rewrite Ty. rewrite C, V. rewrite <- (with_self y) at 1. now rewrite Cy, Vy. }
  intros t W. destruct (is_reference t) eqn:R.
  - destruct t; try discriminate R; cbn [well_formed] in W; apply andb_true_iff in W; destruct W as [_ W]; apply negb_true_iff in W; destruct (C87_remove_cvref t W) as (u & E & _ & E2 & E3); destruct (K t W) as (x & Ex & Kx); rewrite Ex in E; injection E as <-; exists x; auto.
  - destruct (C87_remove_cvref t R) as (u & E & E1 & _). destruct (K t R) as (x & Ex & Kx). rewrite Ex in E. injection E as <-. exists x. auto.
Qed.
Print Assumptions C87_idempotent.

(** int const (&)[3], char const * const volatile &, a pointer to int[2] and void() const. *)
Example C87_cases :
  remove_cvref (Lref (Arr (Named 1 true false) (Some 3))) = Some (Arr (Named 1 false false) (Some 3)) /\
  remove_cvref (Lref (Ptr (Named 2 true false) true true)) = Some (Ptr (Named 2 true false) false false) /\
  is_ptr (Lref (Ptr (Named 2 true false) true true)) = Some true /\ is_ptr (Ptr (Arr (Named 1 false false) (Some 2)) false false) = Some true /\
  is_ptr (Arr (Ptr (Named 1 false false) false false) (Some 2)) = Some false /\ remove_cv (Fun 3 true false) = Some (Fun 3 true false) /\
  best_pass_by_value (fun _ => true) (fun _ => 24) (Named 4 false true) = Lref (Named 4 true true).
Proof. repeat split. Qed.
