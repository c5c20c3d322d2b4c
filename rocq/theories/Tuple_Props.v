(** C91: get. *)
From Coq Require Import List Arith Bool Lia.
From Verif Require Import Sequence_Model Sequence_Props Tuple_Model.
Import ListNotations.

Section Props.
Variable V : Type.
Implicit Types t : list V.

Lemma detail_get_nth n : forall t, detail_get V n t = match nth_error t n with Some v => Value v | None => IllFormed end.
Proof. induction n as [|n IH]; intros [|x t]; cbn; auto. Qed.
End Props.

(** C91: the count of the members is right up to five. *)
Theorem C91_count : forall V (t : list V),
  arity_count V t = Some (Nat.min (length t) 5) /\ (forall n, is_arity V t n = true <-> length t = n).
Proof.
  intros V t. split.
  - unfold arity_count. destruct (C36_sequence 5) as (d & -> & _). f_equal. cbn [seq map Nat.add]. unfold has_arity.
    destruct (length t) as [|[|[|[|[|k]]]]]; try reflexivity; cbn; now rewrite Nat.min_0_r.
  - intro n. unfold is_arity, has_arity. rewrite andb_true_iff, negb_true_iff, Nat.leb_le, Nat.leb_gt. lia.
Qed.
Print Assumptions C91_count.

(** C91: without structured bindings get<N>(t) is member N of a tuple; with an N that there is not, the program is refused. *)
Theorem C91_get_partial : forall V (t : list V) n, (is_tuple V t = true <-> length t <= 4) /\ (length t <= 4 ->
  (forall v, get_fields V n t = Value v <-> nth_error t n = Some v) /\
  (length t <= n -> get_fields V n t = IllFormed \/ get_fields V n t = Deleted)).
Proof.
  intros V t n. split; [apply Nat.leb_le|]. intro L. unfold get_fields, crack_fields. destruct (Nat.ltb_spec n 4) as [K|K].
  - split.
    + intro v. destruct (nth_error t n); split; intro Q; try discriminate; injection Q as ->; reflexivity.
    + intro M. apply nth_error_None in M. rewrite M. now left.
  - split; [|intro M; now right]. intro v. assert (M : nth_error t n = None) by (apply nth_error_None; lia). rewrite M. split; discriminate.
Qed.
Print Assumptions C91_get_partial.

(** C91: with structured bindings no program that calls get is accepted: in the member function get the name get is the member function
    itself. With another name for the member function it would give the member for every aggregate of one to four. *)
Theorem C91_get_refuted : forall V (t : list V) n,
  (forall v, get_bindings V n t <> Value v) /\
  (1 <= length t <= 4 -> forall v, crack_bindings V [] n t = Value v <-> nth_error t n = Some v).
Proof.
  intros V t n. unfold get_bindings, crack_bindings. rewrite (proj1 (C91_count V t)). split.
  - intro v. destruct ((1 <=? Nat.min (length t) 5) && (Nat.min (length t) 5 <=? 4)) eqn:E; [|discriminate].
    destruct (Nat.eqb_spec (length t) (Nat.min (length t) 5)) as [Q|Q]; [|discriminate]. apply andb_prop in E as (E & _). apply Nat.leb_le in E. unfold resolve. cbn [unqualified filter member_get takes].
    destruct (Nat.eqb_spec (1 + length t) 1) as [K|K]; [lia|discriminate].
  - intros L v. rewrite Nat.min_l by lia. replace (1 <=? length t) with true by (symmetry; apply Nat.leb_le; lia). replace (length t <=? 4) with true by (symmetry; apply Nat.leb_le; lia).
    cbn [andb]. rewrite Nat.eqb_refl. unfold resolve. cbn [unqualified filter namespace_get takes]. replace (2 <=? 1 + length t) with true by (symmetry; apply Nat.leb_le; lia).
    cbn iota; cbn [call namespace_get]. rewrite detail_get_nth. destruct (nth_error t n); split; intro Q; try discriminate; injection Q as ->; reflexivity.
Qed.
Print Assumptions C91_get_refuted.

Example C91_case : is_tuple nat [7; 8; 9] = true /\ get_fields nat 1 [7; 8; 9] = Value 8 /\ get_fields nat 3 [7; 8; 9] = IllFormed /\ get_fields nat 4 [7; 8; 9] = Deleted /\
  get_bindings nat 1 [7; 8; 9] = IllFormed /\ crack_bindings nat [] 1 [7; 8; 9] = Value 8 /\ get_bindings nat 0 [1; 2; 3; 4; 5; 6] = Deleted.
Proof. repeat apply conj; reflexivity. Qed.
