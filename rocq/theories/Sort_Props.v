(** C03, C04, C05, C06: sort.h. *)
From Coq Require Import Permutation Sorted.
From Verif Require Import Base Sort_Model Sort_Spec Sort_Proofs.

(** C03 *)
Theorem C03_insertion_sort_stable : forall (A : Type) (lt : A -> A -> bool) (pre l post : list A),
  strict_weak_order lt ->
  exists l', Permutation l l' /\ ordered lt l' /\ stable lt l l' /\
    insertion_sort lt (pre ++ l ++ post) (length pre) (length pre + length l) = Ok (pre ++ l' ++ post).
Proof.
  intros A lt pre l post W. destruct (insertion_sort_ok lt l pre post) as (l' & P & R & SS).
  destruct (SS W) as [S1 S2]. exists l'. repeat split; auto. now apply ordered_SS.
Qed.
Print Assumptions C03_insertion_sort_stable.

(** Even for an inconsistent operator< it terminates inside the range and permutes it. *)
Theorem C03_insertion_sort_safe : forall (A : Type) (lt : A -> A -> bool) (pre l post : list A),
  exists l', Permutation l l' /\
    insertion_sort lt (pre ++ l ++ post) (length pre) (length pre + length l) = Ok (pre ++ l' ++ post).
Proof.
  intros A lt pre l post. destruct (insertion_sort_ok lt l pre post) as (l' & P & R & _). eauto.
Qed.
Print Assumptions C03_insertion_sort_safe.

(** C04: any cutoff N >= 1; the recursion needs at most length l + 1 levels. *)
Theorem C04_intro_sort_sorts : forall (A : Type) (lt : A -> A -> bool) (N fuel : nat) (pre l post : list A),
  strict_weak_order lt -> (1 <= N)%nat -> (length l <= fuel)%nat ->
  exists l' depth, Permutation l l' /\ ordered lt l' /\
    intro_sort lt N fuel (pre ++ l ++ post) (length pre) (length pre + length l)
      = Ok (pre ++ l' ++ post, depth).
Proof.
  intros A lt N fuel pre l post W HN HF.
  destruct (intro_sort_ok lt N fuel l pre post HN HF) as (l' & d & P & D & R & SS).
  exists l', d. repeat split; auto. apply ordered_SS. auto.
Qed.
Print Assumptions C04_intro_sort_sorts.

Theorem C04_intro_sort_safe : forall (A : Type) (lt : A -> A -> bool) (N fuel : nat) (pre l post : list A),
  (1 <= N)%nat -> (length l <= fuel)%nat ->
  exists l' depth, Permutation l l' /\
    intro_sort lt N fuel (pre ++ l ++ post) (length pre) (length pre + length l)
      = Ok (pre ++ l' ++ post, depth).
Proof.
  intros A lt N fuel pre l post HN HF.
  destruct (intro_sort_ok lt N fuel l pre post HN HF) as (l' & d & P & D & R & SS). eauto.
Qed.
Print Assumptions C04_intro_sort_safe.

(** With cutoff N = 0 the precondition is needed: sorting one element partitions an empty range. *)
Theorem C04_cutoff_zero_refuted : exists l : list Z, intro_sort Z.ltb 0 10 l 0 (length l) = UB.
Proof. exists [1]. vm_compute. reflexivity. Qed.
Print Assumptions C04_cutoff_zero_refuted.

(** C05: what holds is a linear bound on the depth ... *)
Theorem C05_depth_linear_partial : forall (A : Type) (lt : A -> A -> bool) (N fuel : nat) (l m : list A) (d : nat),
  (1 <= N)%nat -> (length l <= fuel)%nat ->
  intro_sort lt N fuel l 0 (length l) = Ok (m, d) -> (d <= S (length l))%nat.
Proof.
  intros A lt N fuel l m d HN HF E.
  destruct (intro_sort_ok lt N fuel l [] [] HN HF) as (l' & d' & P & D & R & SS).
  cbn in R. rewrite app_nil_r in R. rewrite E in R. inversion R; subst. lia.
Qed.
Print Assumptions C05_depth_linear_partial.

(** ... and no logarithmic bound holds, whatever the cutoff and the constant. *)
Theorem C05_log_depth_refuted : forall N c : nat, (1 <= N)%nat ->
  exists (l : list Z) (m : list Z) (d : nat),
    intro_sort Z.ltb N (length l) l 0 (length l) = Ok (m, d) /\ (c * (1 + Nat.log2 (length l)) < d)%nat.
Proof.
  intros N c HN.
  set (K := (N + c + 2)%nat).
  assert (HK : (S K <= 2 ^ K)%nat) by (apply Nat.pow_gt_lin_r; lia).
  set (P := (2 ^ K)%nat) in *.
  assert (HP : (2 ^ (4 * K) = P * P * (P * P))%nat).
  { unfold P. rewrite <- !Nat.pow_add_r. f_equal. lia. }
  set (n := (2 ^ (4 * K))%nat) in *.
  assert (Hn : (N + 1 + c * (1 + 4 * K) < n)%nat).
  { rewrite HP. assert (N + 1 + c * (1 + 4 * K) <= K + K * (1 + 4 * K))%nat by (unfold K; nia).
    assert (K + K * (1 + 4 * K) < S K * S K * (S K * S K))%nat by nia.
    assert (S K * S K <= P * P)%nat by nia. nia. }
  assert (HL : Nat.log2 n = (4 * K)%nat) by (apply Nat.log2_pow2; lia).
  clearbody n P K.
  exists (repeat 0 n).
  rewrite repeat_length, HL.
  assert (Hx : Z.ltb 0 0 = false) by reflexivity.
  unfold intro_sort. destruct (Nat.ltb_spec 0 n); [|lia].
  rewrite Nat.sub_0_r. destruct (Nat.ltb_spec n N); [lia|].
  destruct (partition_ok Z.ltb [] (repeat 0 n) []) as (l1 & k & l2 & PP & F1 & F2 & R).
  { destruct n; [lia|discriminate]. }
  cbn [app length Nat.add] in R. rewrite !app_nil_r, repeat_length in R. rewrite R. cbn [bind].
  pose proof (Permutation_length PP) as PL. rewrite repeat_length, app_length in PL. cbn in PL.
  assert (AX : forall y, In y (l1 ++ k :: l2) -> y = 0).
  { intros y Hy. symmetry in PP. apply (Permutation_in _ PP) in Hy. eapply repeat_spec; eauto. }
  assert (k = 0) by (apply AX, in_or_app; right; left; auto). subst k.
  assert (l1 = []).
  { destruct l1 as [|y l1]; auto. inversion F1; subst.
    assert (y = 0) by (apply AX; left; auto). subst. discriminate. }
  subst l1. cbn [app length] in *.
  assert (E2 : l2 = repeat 0 (length l2)).
  { clear -AX. induction l2; cbn; auto. f_equal.
    - apply AX. right. now left.
    - apply IHl2. intros y [<-|Hy]; apply AX; [now left|right; now right]. }
  destruct (intro_rec_ok Z.ltb N HN n [] [] (0 :: l2)) as (l1' & d2 & P1 & D2 & R1 & S1); [cbn; lia|].
  cbn [app length Nat.add] in R1. rewrite R1. cbn [bind].
  apply Permutation_nil in P1. subst l1'. cbn [app].
  destruct (intro_rec_equal Z.ltb 0 N Hx HN (length l2) n [0] []) as (m & d & R2 & D); [lia|].
  rewrite <- E2, app_nil_r in R2. cbn [app length] in R2.
  replace (1 + length l2)%nat with n in R2 by lia. cbn [Nat.add]. rewrite R2. cbn [bind].
  eexists _, _. split; [reflexivity|]. lia.
Qed.
Print Assumptions C05_log_depth_refuted.

(** C06: the result splits the sorted range l into the elements less than k and the rest. *)
Theorem C06_lower_bound : forall (A : Type) (lt : A -> A -> bool) (pre l post : list A) (k : A),
  strict_weak_order lt -> ordered lt l ->
  exists l1 l2, l = l1 ++ l2 /\ Forall (fun x => lt x k = true) l1 /\ Forall (fun x => lt x k = false) l2 /\
    lower_bound lt (pre ++ l ++ post) (length pre) (length pre + length l) k = Ok (length pre + length l1)%nat.
Proof.
  intros A lt pre l post k W HO. unfold lower_bound.
  replace (length pre + length l - length pre)%nat with (length l) by lia.
  apply bound_loop_ok; [lia|]. intros i j x y Hij Hi Hj Hy.
  specialize (HO i j x y Hij Hi Hj).
  destruct (lt x k) eqn:E; auto.
  destruct (lt k x) eqn:E1.
  { rewrite <- HO. eapply (swo_trans lt W); eauto. }
  destruct (lt x y) eqn:E2.
  { rewrite <- E. eapply (swo_trans lt W); eauto. }
  destruct (swo_incomp lt W k x y); auto. congruence.
Qed.
Print Assumptions C06_lower_bound.

Theorem C06_upper_bound : forall (A : Type) (lt : A -> A -> bool) (pre l post : list A) (k : A),
  strict_weak_order lt -> ordered lt l ->
  exists l1 l2, l = l1 ++ l2 /\ Forall (fun x => lt k x = false) l1 /\ Forall (fun x => lt k x = true) l2 /\
    upper_bound lt (pre ++ l ++ post) (length pre) (length pre + length l) k = Ok (length pre + length l1)%nat.
Proof.
  intros A lt pre l post k W HO. unfold upper_bound.
  replace (length pre + length l - length pre)%nat with (length l) by lia.
  destruct (bound_loop_ok (fun x => negb (lt k x)) (length l) l pre post) as (l1 & l2 & E & F1 & F2 & R); [lia| |].
  - intros i j x y Hij Hi Hj Hy. rewrite negb_true_iff in *.
    specialize (HO i j x y Hij Hi Hj).
    destruct (lt k x) eqn:E; auto.
    destruct (lt y k) eqn:E1.
    { rewrite <- HO. symmetry. eapply (swo_trans lt W); eauto. }
    destruct (lt x y) eqn:E2.
    { rewrite <- Hy. symmetry. eapply (swo_trans lt W); eauto. }
    destruct (swo_incomp lt W k y x); auto; congruence.
  - exists l1, l2. repeat split; auto; rewrite Forall_forall in *; intros x Hx.
    + apply negb_true_iff. auto.
    + apply negb_false_iff. auto.
Qed.
Print Assumptions C06_upper_bound.

(** Non-vacuity: integers, and records compared by key only. *)
Example swo_Z : strict_weak_order Z.ltb.
Proof.
  constructor; intros; rewrite ?Z.ltb_irrefl, ?Z.ltb_lt, ?Z.ltb_ge in *; lia.
Qed.
Definition key_lt (x y : Z * Z) : bool := fst x <? fst y.
Example swo_key : strict_weak_order key_lt.
Proof.
  unfold key_lt; constructor; intros; rewrite ?Z.ltb_irrefl, ?Z.ltb_lt, ?Z.ltb_ge in *; lia.
Qed.
Example C03_example :
  insertion_sort key_lt [(9,9); (2,1); (1,1); (2,2); (1,2); (0,0)] 1 5
  = Ok [(9,9); (1,1); (1,2); (2,1); (2,2); (0,0)].
Proof. reflexivity. Qed.
Example C04_example : intro_sort Z.ltb 1 10 [3; 1; 2; 3; 0] 0 5 = Ok ([0; 1; 2; 3; 3], 4%nat).
Proof. vm_compute. reflexivity. Qed.
Example C06_example : ordered Z.ltb [1; 3; 3; 5] /\
  lower_bound Z.ltb [1; 3; 3; 5] 0 4 3 = Ok 1%nat /\ upper_bound Z.ltb [1; 3; 3; 5] 0 4 3 = Ok 3%nat.
Proof.
  split; [|vm_compute; auto]. apply ordered_SS. repeat constructor.
Qed.
