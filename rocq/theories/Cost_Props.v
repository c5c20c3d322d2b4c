(** C101: how often sorting, searching and the priority queue call operator<. *)
From Coq Require Import Arith Permutation.
From Verif Require Import Base Sort_Model Heap_Model Sort_Spec Sort_Proofs Cost_Model Cost_Spec Cost_Proofs.
Local Open Scope nat_scope.

(** The counting functions are the functions of Sort_Model and Heap_Model: without the count they return the same for every order, array and range. *)
Theorem C101_same : forall (A : Type) (lt : A -> A -> bool) (m : list A) (a b N fuel : nat) (k : A) (q : pq A),
  forget (insertion_sortC lt m a b 0) = insertion_sort lt m a b /\
  forget (intro_sortC lt N fuel m a b) = bind (intro_sort lt N fuel m a b) (fun '(m, _) => Ok m) /\
  forget (lower_boundC lt m a b k) = lower_bound lt m a b k /\
  forget (upper_boundC lt m a b k) = upper_bound lt m a b k /\
  forget (enqueueC lt q k) = enqueue lt q k /\
  forget (dequeueC lt q) = dequeue lt q.
Proof.
  intros. split; [apply insertion_same|]. split; [apply intro_sort_same|]. split; [apply bound_same|]. split; [apply bound_same|]. split; [apply enqueue_same|apply dequeue_same].
Qed.
Print Assumptions C101_same.

(** insertion_sort asks once for every pair of elements standing the wrong way round and at most once more for every element but the first, whatever operator< answers;
    with a strict weak order at least once for every such pair. So never more than n (n - 1) / 2 times. *)
Theorem C101_insertion_sort : forall (A : Type) (lt : A -> A -> bool) (pre l post : list A),
  exists (l' : list A) (c : nat),
    insertion_sortC lt (pre ++ l ++ post) (length pre) (length pre + length l) 0 = Ok (pre ++ l' ++ post, c) /\
    c <= inversions lt l + (length l - 1) /\
    2 * c <= length l * (length l - 1) /\
    (strict_weak_order lt -> inversions lt l <= c).
Proof.
  intros A lt pre l post. destruct (insertion_inv lt l pre post 0) as (l' & c & P & E & U & L). exists l', c. split; [assumption|]. split; [lia|]. split; [|intro W; now apply L].
  apply insertion_cost in E. replace (length pre + length l - length pre) with (length l) in E by lia. rewrite Nat.mul_sub_distr_l. lia.
Qed.
Print Assumptions C101_insertion_sort.

(** A range in order takes at most one question per element but the first. *)
Theorem C101_insertion_sort_ordered : forall (A : Type) (lt : A -> A -> bool) (pre l post : list A), ordered lt l ->
  exists (l' : list A) (c : nat),
    insertion_sortC lt (pre ++ l ++ post) (length pre) (length pre + length l) 0 = Ok (pre ++ l' ++ post, c) /\ c <= length l - 1.
Proof.
  intros A lt pre l post O. destruct (insertion_inv lt l pre post 0) as (l' & c & P & E & U & L). exists l', c. split; [assumption|]. assert (Z0 : inversions lt l = 0); [|lia].
  apply ordered_SS in O. clear - O. induction O as [|x l S IH F]; [reflexivity|]. cbn [inversions]. rewrite IH. rewrite filter_none; [reflexivity|]. intros y Hy. rewrite Forall_forall in F. now apply F.
Qed.
Print Assumptions C101_insertion_sort_ordered.

(** lower_bound and upper_bound ask at most 1 + log2 n times on a range of n > 0 elements and never on an empty one, ordered or not. *)
Theorem C101_lower_bound : forall (A : Type) (lt : A -> A -> bool) (m : list A) (a b : nat) (k : A) (r : nat),
  lower_bound lt m a b k = Ok r -> exists c, lower_boundC lt m a b k = Ok (r, c) /\ c <= halvings (b - a).
Proof.
  intros A lt m a b k r E. pose proof (bound_same (fun x => lt x k) m (b - a) a (b - a) 0) as S. fold (lower_boundC lt m a b k) in S. unfold lower_bound in E. rewrite E in S. destruct (lower_boundC lt m a b k) as [[r' c]| |] eqn:E1; cbn [forget] in S; try discriminate S.
  injection S as ->. exists c. split; [reflexivity|]. apply bound_cost in E1. lia.
Qed.
Print Assumptions C101_lower_bound.
Theorem C101_upper_bound : forall (A : Type) (lt : A -> A -> bool) (m : list A) (a b : nat) (k : A) (r : nat),
  upper_bound lt m a b k = Ok r -> exists c, upper_boundC lt m a b k = Ok (r, c) /\ c <= halvings (b - a).
Proof.
  intros A lt m a b k r E. pose proof (bound_same (fun x => negb (lt k x)) m (b - a) a (b - a) 0) as S. fold (upper_boundC lt m a b k) in S. unfold upper_bound in E. rewrite E in S. destruct (upper_boundC lt m a b k) as [[r' c]| |] eqn:E1; cbn [forget] in S; try discriminate S.
  injection S as ->. exists c. split; [reflexivity|]. apply bound_cost in E1. lia.
Qed.
Print Assumptions C101_upper_bound.

(** enqueue on a queue of n items asks at most log2 (n + 1) times, dequeue at most twice log2 (n - 1) times. *)
Theorem C101_enqueue : forall (A : Type) (lt : A -> A -> bool) (q q' : pq A) (x : A) (r : bool),
  enqueue lt q x = Ok (r, q') -> exists c, enqueueC lt q x = Ok (r, q', c) /\ c <= Nat.log2 (pq_size q + 1).
Proof.
  intros A lt q q' x r E. pose proof (enqueue_same lt q x) as S. rewrite E in S. destruct (enqueueC lt q x) as [[rq c]| |] eqn:E1; cbn [forget] in S; try discriminate S. injection S as ->. exists c. split; [reflexivity|].
  unfold enqueueC in E1. destruct (pq_size q <? length (pq_data q)); [|injection E1 as _ _ <-; lia]. destruct (heap_raiseC lt (S (pq_size q)) (pq_data q) x (pq_size q) 0) as [[d c1]| |] eqn:E2; cbn [bind] in E1; try discriminate E1. injection E1 as _ _ <-. apply raise_cost in E2. lia.
Qed.
Print Assumptions C101_enqueue.
Theorem C101_dequeue : forall (A : Type) (lt : A -> A -> bool) (q q' : pq A) (x : A),
  dequeue lt q = Ok (x, q') -> exists c, dequeueC lt q = Ok (x, q', c) /\ c <= 2 * Nat.log2 (pq_size q - 1).
Proof.
  intros A lt q q' x E. pose proof (dequeue_same lt q) as S. rewrite E in S. destruct (dequeueC lt q) as [[rq c]| |] eqn:E1; cbn [forget] in S; try discriminate S. injection S as ->. exists c. split; [reflexivity|].
  unfold dequeueC in E1. destruct (get (pq_data q) 0) as [item| |]; cbn [bind] in E1; try discriminate E1. destruct (pq_size q) as [|size]; [discriminate E1|]. destruct (Nat.ltb_spec 0 size) as [L|L]; [|injection E1 as _ _ <-; lia].
  destruct (get (pq_data q) size) as [last| |]; cbn [bind] in E1; try discriminate E1. destruct (heap_lowerC lt (S size) size (pq_data q) last 0 0) as [[d c1]| |] eqn:E2; cbn [bind] in E1; try discriminate E1. injection E1 as _ _ <-. apply lower_cost in E2; [|assumption]. cbn [Nat.add] in E2. change (Nat.log2 1) with 0 in E2. replace (Datatypes.S size - 1) with size by lia. lia.
Qed.
Print Assumptions C101_dequeue.

(** intro_sort asks at most n (n + 5) / 2 times for every cutoff but zero, whatever operator< answers. A sort that calls itself intro sort promises a multiple of n log n. *)
Theorem C101_intro_sort_partial : forall (A : Type) (lt : A -> A -> bool) (N fuel : nat) (pre l post : list A), 1 <= N -> length l <= fuel ->
  exists (m' : list A) (c : nat),
    intro_sortC lt N fuel (pre ++ l ++ post) (length pre) (length pre + length l) = Ok (m', c) /\ 2 * c <= length l * (length l + 5).
Proof.
  intros A lt N fuel pre l post HN HF. destruct (intro_sort_ok lt N fuel l pre post HN HF) as (l' & d & P & D & R & _). pose proof (intro_sort_same lt N fuel (pre ++ l ++ post) (length pre) (length pre + length l)) as S. rewrite R in S. cbn [bind] in S.
  destruct (intro_sortC lt N fuel (pre ++ l ++ post) (length pre) (length pre + length l)) as [[m' c]| |] eqn:E; cbn [forget] in S; try discriminate S. exists m', c. split; [reflexivity|]. apply intro_sort_cost in E; [|assumption]. now replace (length pre + length l - length pre) with (length l) in E by lia.
Qed.
Print Assumptions C101_intro_sort_partial.

(** The bound is met by n equal elements with the cutoff 1 ... *)
Theorem C101_intro_sort_sharp : forall (n fuel : nat), n < fuel ->
  exists c, intro_sortC Z.ltb 1 fuel (repeat 0%Z n) 0 n = Ok (repeat 0%Z n, c) /\ 2 * c = n * (n + 5).
Proof. intros n fuel H. apply intro_sort_equal_1; [reflexivity|assumption]. Qed.
Print Assumptions C101_intro_sort_sharp.

(** ... and for no cutoff and no constant is n log n a bound. *)
Theorem C101_intro_sort_nlogn_refuted : forall N c : nat, 1 <= N ->
  exists (l m : list Z) (k : nat), intro_sortC Z.ltb N (S (length l)) l 0 (length l) = Ok (m, k) /\ c * (length l * (1 + Nat.log2 (length l))) < k.
Proof.
  intros N c HN. set (K := N + 2 * c + 5). assert (HK : S K <= 2 ^ K) by (apply Nat.pow_gt_lin_r; lia). set (P := 2 ^ K) in *.
  assert (HP : 2 ^ (3 * K) = P * P * P) by (unfold P; rewrite <- !Nat.pow_add_r; f_equal; lia). set (n := 2 ^ (3 * K)) in *. assert (HL : Nat.log2 n = 3 * K) by (apply Nat.log2_pow2; lia).
  assert (Hn : (2 * c) * (1 + 3 * K) + N < n).
  { rewrite HP. assert (H1 : S K * S K <= P * P) by (apply Nat.mul_le_mono; assumption). assert (H2 : S K * S K * 6 <= P * P * P) by (apply Nat.mul_le_mono; [assumption|unfold K in HK; lia]).
    assert (H3 : (2 * c) * (1 + 3 * K) <= K * (1 + 3 * K)) by (apply Nat.mul_le_mono_r; unfold K; lia). assert (H4 : N <= K) by (unfold K; lia). clear - H2 H3 H4. nia. }
  clearbody n P K. destruct (intro_sort_equal Z.ltb 0%Z eq_refl n N (S n) HN ltac:(lia) ltac:(lia)) as (k & E & L). exists (repeat 0%Z n), (repeat 0%Z n), k. rewrite repeat_length, HL. split; [assumption|].
  assert (H1 : N * N < n * (N + 1)) by (clear - Hn HN; nia). assert (H2 : n * ((2 * c) * (1 + 3 * K) + N + 1) <= n * n) by (apply Nat.mul_le_mono_l; lia). clear - H1 H2 L. nia.
Qed.
Print Assumptions C101_intro_sort_nlogn_refuted.

(** Concrete cases: a range with two inversions inside an array, a search, a queue. *)
Example C101_nonvacuous_insertion : insertion_sortC Z.ltb [9; 3; 1; 2; 0; 7]%Z 1 4 0 = Ok ([9; 1; 2; 3; 0; 7]%Z, 3) /\ inversions Z.ltb [3; 1; 2]%Z = 2.
Proof. split; reflexivity. Qed.
Example C101_nonvacuous_intro : intro_sortC Z.ltb 2 20 [5; 3; 8; 1; 9; 2]%Z 0 6 = Ok ([1; 2; 3; 5; 8; 9]%Z, 17).
Proof. reflexivity. Qed.
Example C101_nonvacuous_search : lower_boundC Z.ltb [1; 2; 3; 5; 8; 9; 11]%Z 0 7 0%Z = Ok (0, 3) /\ upper_boundC Z.ltb [1; 2; 3; 5; 8; 9; 11]%Z 0 7 5%Z = Ok (4, 3) /\ halvings 7 = 3.
Proof. repeat split. Qed.
Example C101_nonvacuous_queue :
  enqueueC Z.ltb (Build_pq 3 [2; 5; 3; 0; 0]%Z) 1%Z = Ok (true, Build_pq 4 [1; 2; 3; 5; 0]%Z, 2) /\
  exists q c, dequeueC Z.ltb (Build_pq 8 [1; 2; 3; 4; 5; 6; 7; 9]%Z) = Ok (1%Z, q, c) /\ c = 4 /\ 2 * Nat.log2 (8 - 1) = 4.
Proof. split; [reflexivity|]. eexists _, _. split; [reflexivity|]. split; reflexivity. Qed.
