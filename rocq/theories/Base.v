(** Common vocabulary of the model: outcomes with undefined behaviour,
    fixed-width integers, bounds-checked arrays.  Nothing here models a
    particular file of /repo; it is the meaning given to C++ primitives. *)
From Coq Require Export ZArith List Lia Bool.
Export ListNotations.
Open Scope Z_scope.

(** Outcome of running a piece of C++: a value, or undefined behaviour, or (for loops that
    the model runs on fuel) not yet finished when the fuel ran out. *)
Inductive res (A : Type) : Type :=
| Ok (a : A)
| UB
| Timeout.
Arguments Ok {A} a.
Arguments UB {A}.
Arguments Timeout {A}.

Definition bind {A B} (m : res A) (k : A -> res B) : res B :=
  match m with Ok a => k a | UB => UB | Timeout => Timeout end.

Notation "x <- m ;; k" := (bind m (fun x => k))
  (at level 61, m at next level, right associativity).
Notation "' p <- m ;; k" := (bind m (fun p => k))
  (at level 61, p pattern, m at next level, right associativity).

Definition guard {A} (b : bool) (m : res A) : res A := if b then m else UB.

(** Unsigned wrap-around: conversion of a mathematical integer to uintN_t. *)
Definition u8 (x : Z) : Z := x mod 2 ^ 8.
Definition u16 (x : Z) : Z := x mod 2 ^ 16.
Definition u32 (x : Z) : Z := x mod 2 ^ 32.
Definition u64 (x : Z) : Z := x mod 2 ^ 64.

(** Two's complement conversion to intN_t (conversions, not arithmetic). *)
Definition swrap (n x : Z) : Z := (x + 2 ^ (n - 1)) mod 2 ^ n - 2 ^ (n - 1).
Definition s8 (x : Z) : Z := swrap 8 x.
Definition s16 (x : Z) : Z := swrap 16 x.
Definition s32 (x : Z) : Z := swrap 32 x.
Definition s64 (x : Z) : Z := swrap 64 x.

Definition in_s (n x : Z) : Prop := - 2 ^ (n - 1) <= x < 2 ^ (n - 1).
Definition in_u (n x : Z) : Prop := 0 <= x < 2 ^ n.
Definition in_sb (n x : Z) : bool := (- 2 ^ (n - 1) <=? x) && (x <? 2 ^ (n - 1)).
Definition in_ub (n x : Z) : bool := (0 <=? x) && (x <? 2 ^ n).

(** Result of a signed arithmetic operation: UB when it does not fit. *)
Definition chk32 (x : Z) : res Z := if in_sb 32 x then Ok x else UB.
Definition chk64 (x : Z) : res Z := if in_sb 64 x then Ok x else UB.

(** Bounds-checked arrays. *)
Definition get {A} (l : list A) (i : nat) : res A :=
  match nth_error l i with Some a => Ok a | None => UB end.

Fixpoint upd {A} (l : list A) (i : nat) (v : A) : list A :=
  match l, i with
  | [], _ => []
  | _ :: t, O => v :: t
  | h :: t, S j => h :: upd t j v
  end.

Definition set {A} (l : list A) (i : nat) (v : A) : res (list A) :=
  if (i <? length l)%nat then Ok (upd l i v) else UB.

(** The same with a mathematical-integer index. *)
Definition getz {A} (l : list A) (i : Z) : res A :=
  if i <? 0 then UB else get l (Z.to_nat i).
Definition setz {A} (l : list A) (i : Z) (v : A) : res (list A) :=
  if i <? 0 then UB else set l (Z.to_nat i) v.

(* ------------------------------------------------------------------ *)
(** * Facts *)

Lemma in_sb_spec n x : in_sb n x = true <-> in_s n x.
Proof. unfold in_sb, in_s. rewrite andb_true_iff, Z.leb_le, Z.ltb_lt. tauto. Qed.

Lemma in_ub_spec n x : in_ub n x = true <-> in_u n x.
Proof. unfold in_ub, in_u. rewrite andb_true_iff, Z.leb_le, Z.ltb_lt. tauto. Qed.

Lemma chk64_ok x : in_s 64 x -> chk64 x = Ok x.
Proof. intro H. unfold chk64. apply in_sb_spec in H. now rewrite H. Qed.

Lemma chk32_ok x : in_s 32 x -> chk32 x = Ok x.
Proof. intro H. unfold chk32. apply in_sb_spec in H. now rewrite H. Qed.

Lemma chk64_inv x y : chk64 x = Ok y -> y = x /\ in_s 64 x.
Proof.
  unfold chk64. destruct (in_sb 64 x) eqn:E; intro H; inversion H.
  apply in_sb_spec in E. subst. auto.
Qed.

Lemma chk32_inv x y : chk32 x = Ok y -> y = x /\ in_s 32 x.
Proof.
  unfold chk32. destruct (in_sb 32 x) eqn:E; intro H; inversion H.
  apply in_sb_spec in E. subst. auto.
Qed.

Lemma swrap_id n x : 0 < n -> in_s n x -> swrap n x = x.
Proof.
  intros Hn [H1 H2]. unfold swrap.
  assert (E : 2 ^ n = 2 * 2 ^ (n - 1)).
  { rewrite <- Z.pow_succ_r by lia. f_equal. lia. }
  rewrite Z.mod_small; lia.
Qed.

Lemma swrap_range n x : 0 < n -> in_s n (swrap n x).
Proof.
  intros Hn. unfold swrap, in_s.
  assert (E : 2 ^ n = 2 * 2 ^ (n - 1)).
  { rewrite <- Z.pow_succ_r by lia. f_equal. lia. }
  pose proof (Z.mod_pos_bound (x + 2 ^ (n - 1)) (2 ^ n) ltac:(lia)). lia.
Qed.

Lemma bind_Ok_inv {A B} (m : res A) (k : A -> res B) b :
  bind m k = Ok b -> exists a, m = Ok a /\ k a = Ok b.
Proof. destruct m; cbn; intro H; [eauto | discriminate | discriminate]. Qed.

Lemma get_Ok {A} (l : list A) i a : get l i = Ok a <-> nth_error l i = Some a.
Proof. unfold get. destruct (nth_error l i); split; intro H; inversion H; auto. Qed.

Lemma get_lt {A} (l : list A) i a : get l i = Ok a -> (i < length l)%nat.
Proof. rewrite get_Ok. intro H. apply nth_error_Some. congruence. Qed.

Lemma get_ex {A} (l : list A) i : (i < length l)%nat -> exists a, get l i = Ok a.
Proof.
  intro H. apply nth_error_Some in H. unfold get.
  destruct (nth_error l i); [eauto | congruence].
Qed.

Lemma get_nth {A} (d : A) (l : list A) i : (i < length l)%nat -> get l i = Ok (nth i l d).
Proof.
  intro H. apply get_Ok. now apply nth_error_nth'.
Qed.

Lemma upd_length {A} (l : list A) i v : length (upd l i v) = length l.
Proof. revert i; induction l; destruct i; cbn; auto. Qed.

Lemma set_Ok {A} (l : list A) i v : (i < length l)%nat -> set l i v = Ok (upd l i v).
Proof. intro H. unfold set. apply Nat.ltb_lt in H. now rewrite H. Qed.

Lemma set_inv {A} (l l' : list A) i v :
  set l i v = Ok l' -> (i < length l)%nat /\ l' = upd l i v.
Proof.
  unfold set. destruct (i <? length l)%nat eqn:E; intro H; inversion H.
  apply Nat.ltb_lt in E. auto.
Qed.

Lemma nth_error_upd_eq {A} (l : list A) i v :
  (i < length l)%nat -> nth_error (upd l i v) i = Some v.
Proof. revert i; induction l; destruct i; cbn; intros; try lia; auto. apply IHl. lia. Qed.

Lemma nth_error_upd_ne {A} (l : list A) i j v :
  i <> j -> nth_error (upd l i v) j = nth_error l j.
Proof.
  revert i j; induction l; destruct i, j; cbn; intros; auto; try congruence.
Qed.

Lemma nth_upd_eq {A} (d : A) (l : list A) i v :
  (i < length l)%nat -> nth i (upd l i v) d = v.
Proof. revert i; induction l; destruct i; cbn; intros; try lia; auto. apply IHl. lia. Qed.

Lemma nth_upd_ne {A} (d : A) (l : list A) i j v :
  i <> j -> nth j (upd l i v) d = nth j l d.
Proof.
  revert i j; induction l; destruct i, j; cbn; intros; auto; try congruence.
Qed.

Lemma upd_app_mid {A} (p : list A) x s v : upd (p ++ x :: s) (length p) v = p ++ v :: s.
Proof. induction p; cbn; congruence. Qed.

Lemma upd_split {A} (l : list A) i v :
  (i < length l)%nat -> upd l i v = firstn i l ++ v :: skipn (S i) l.
Proof.
  revert i; induction l; destruct i; cbn; intros; try lia; auto.
  f_equal. rewrite IHl by lia. reflexivity.
Qed.

Lemma get_upd_eq {A} (l : list A) i v : (i < length l)%nat -> get (upd l i v) i = Ok v.
Proof. intro. apply get_Ok. now apply nth_error_upd_eq. Qed.

Lemma get_upd_ne {A} (l : list A) i j v : i <> j -> get (upd l i v) j = get l j.
Proof. intro. unfold get. now rewrite nth_error_upd_ne. Qed.

Lemma upd_same {A} (l : list A) i v : nth_error l i = Some v -> upd l i v = l.
Proof. revert i; induction l; destruct i; cbn; intros; try congruence. f_equal; auto. Qed.

Lemma upd_upd {A} (l : list A) i v w : upd (upd l i v) i w = upd l i w.
Proof. revert i; induction l; destruct i; cbn; intros; auto. f_equal; auto. Qed.

Lemma upd_comm {A} (l : list A) i j v w : i <> j -> upd (upd l i v) j w = upd (upd l j w) i v.
Proof.
  revert i j; induction l; destruct i, j; cbn; intros; auto; try congruence.
  f_equal. auto.
Qed.

Lemma skipn_nth {A} (d : A) (l : list A) i :
  (i < length l)%nat -> skipn i l = nth i l d :: skipn (S i) l.
Proof.
  revert i; induction l; destruct i; cbn; intros; try lia; auto.
  apply IHl. lia.
Qed.

Lemma skipn_S_cons {A} (l : list A) k x r : skipn k l = x :: r -> skipn (S k) l = r.
Proof.
  revert k; induction l; intros k H.
  - destruct k; discriminate.
  - destruct k; cbn in H |- *.
    + now inversion H.
    + now apply IHl.
Qed.

(** [splice b i l]: array [b] with [l] stored from index [i] on; every other cell is kept. *)
Definition splice {A} (b : list A) (i : nat) (l : list A) : list A :=
  firstn i b ++ l ++ skipn (i + length l) b.

Lemma splice_nil {A} (b : list A) i : splice b i [] = b.
Proof. unfold splice. cbn. rewrite Nat.add_0_r. apply firstn_skipn. Qed.

Lemma splice_length {A} (b : list A) i l :
  (i + length l <= length b)%nat -> length (splice b i l) = length b.
Proof.
  intro H. unfold splice. rewrite !app_length, firstn_length, skipn_length. lia.
Qed.

Lemma splice_snoc {A} (b : list A) i l v :
  (i + length l < length b)%nat ->
  set (splice b i l) (i + length l) v = Ok (splice b i (l ++ [v])).
Proof.
  intro H. rewrite set_Ok by (rewrite splice_length; lia). f_equal.
  unfold splice. rewrite app_length. cbn [length].
  destruct (skipn (i + length l) b) as [|x r] eqn:E.
  { apply (f_equal (@length A)) in E. rewrite skipn_length in E. cbn in E. lia. }
  replace (i + length l)%nat with (length (firstn i b ++ l)) at 1
    by (rewrite app_length, firstn_length; lia).
  rewrite app_assoc, upd_app_mid. rewrite <- !app_assoc. cbn [app].
  do 3 f_equal.
  replace (i + (length l + 1))%nat with (S (i + length l)) by lia.
  now apply skipn_S_cons in E.
Qed.
