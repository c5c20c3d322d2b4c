(** C104: sorting, searching and the priority queue with an operator< that is no order, contradicts itself or has effects. *)
From Coq Require Import Arith Permutation.
From Verif Require Import Base Sort_Model Heap_Model Sort_Spec Heap_Spec Cost_Model Cost_Spec Calls_Model Calls_Spec Calls_Proofs.
Local Open Scope nat_scope.

(** C101: the counts of Cost_Model are the counts that an operator< would make that counts its calls. *)
Theorem C101_counted : forall (A : Type) (lt : A -> A -> bool) (m : list A) (a b N fuel : nat) (k : A) (q : pq A),
  insertion_sortS (counting lt) m a b 0 = insertion_sortC lt m a b 0 /\
  intro_sortS (counting lt) N fuel m a b 0 = intro_sortC lt N fuel m a b /\
  lower_boundS (counting lt) m a b k 0 = lower_boundC lt m a b k /\
  upper_boundS (counting lt) m a b k 0 = upper_boundC lt m a b k /\
  enqueueS (counting lt) q k 0 = enqueueC lt q k /\
  dequeueS (counting lt) q 0 = dequeueC lt q.
Proof.
  intros. split; [apply insertion_counted|]. split; [apply sort_counted|]. split; [apply lower_counted|]. split; [apply upper_counted|]. split; [apply enqueue_counted|apply dequeue_counted].
Qed.
Print Assumptions C101_counted.

(** Whatever operator< answers, from whatever state, insertion_sort ends within the range and leaves a permutation of it. *)
Theorem C104_insertion_sort : forall (A St : Type) (lt : A -> A -> St -> bool * St) (pre l post : list A) (s : St),
  exists (l' : list A) (s' : St), Permutation l l' /\
    insertion_sortS lt (pre ++ l ++ post) (length pre) (length pre + length l) s = Ok (pre ++ l' ++ post, s').
Proof.
  intros A St lt pre l post s. destruct (insertion_any lt (fun _ => 0) ltac:(intros; lia) l pre post s) as (l' & s' & P & _ & E). eauto.
Qed.
Print Assumptions C104_insertion_sort.

(** So does intro_sort for every cutoff of at least one, ... *)
Theorem C104_intro_sort : forall (A St : Type) (lt : A -> A -> St -> bool * St) (N fuel : nat) (pre l post : list A) (s : St), 1 <= N -> length l <= fuel ->
  exists (l' : list A) (s' : St), Permutation l l' /\
    intro_sortS lt N fuel (pre ++ l ++ post) (length pre) (length pre + length l) s = Ok (pre ++ l' ++ post, s').
Proof.
  intros A St lt N fuel pre l post s HN HF. destruct (sort_any lt (fun _ => 0) ltac:(intros; lia) N fuel l pre post s HN HF) as (l' & s' & P & _ & E). eauto.
Qed.
Print Assumptions C104_intro_sort.

Lemma with_count_one {A St} (lt : A -> A -> St -> bool * St) x y s : snd (snd (with_count lt x y s)) <= S (snd s).
Proof. unfold with_count. destruct (lt x y (fst s)). cbn [snd]. lia. Qed.

(** ... and neither asks more than quadratically often. *)
Theorem C104_sort_calls : forall (A St : Type) (lt : A -> A -> St -> bool * St) (N fuel : nat) (pre l post : list A) (s : St), 1 <= N -> length l <= fuel ->
  (exists (l' : list A) (s' : St) (c : nat),
    insertion_sortS (with_count lt) (pre ++ l ++ post) (length pre) (length pre + length l) (s, 0) = Ok (pre ++ l' ++ post, (s', c)) /\ 2 * c <= length l * (length l - 1)) /\
  (exists (l' : list A) (s' : St) (c : nat),
    intro_sortS (with_count lt) N fuel (pre ++ l ++ post) (length pre) (length pre + length l) (s, 0) = Ok (pre ++ l' ++ post, (s', c)) /\ 2 * c <= length l * (length l + 5)).
Proof.
  intros A St lt N fuel pre l post s HN HF. split.
  - destruct (insertion_any (with_count lt) snd (with_count_one lt) l pre post (s, 0)) as (l' & [s' c] & P & C & E). exists l', s', c. split; [assumption|]. cbn [snd] in C. lia.
  - destruct (sort_any (with_count lt) snd (with_count_one lt) N fuel l pre post (s, 0) HN HF) as (l' & [s' c] & P & C & E). exists l', s', c. split; [assumption|]. cbn [snd] in C. lia.
Qed.
Print Assumptions C104_sort_calls.

(** The searches return a position in the range or its end, after at most logarithmically many calls, in any array and for any answers. *)
Theorem C104_search : forall (A St : Type) (lt : A -> A -> St -> bool * St) (m : list A) (a b : nat) (k : A) (s : St), a <= b <= length m ->
  (exists (r : nat) (s' : St), lower_boundS lt m a b k s = Ok (r, s') /\ a <= r <= b) /\
  (exists (r : nat) (s' : St), upper_boundS lt m a b k s = Ok (r, s') /\ a <= r <= b) /\
  (exists (r : nat) (s' : St) (c : nat), lower_boundS (with_count lt) m a b k (s, 0) = Ok (r, (s', c)) /\ c <= Nat.log2_up (b - a + 1)) /\
  (exists (r : nat) (s' : St) (c : nat), upper_boundS (with_count lt) m a b k (s, 0) = Ok (r, (s', c)) /\ c <= Nat.log2_up (b - a + 1)).
Proof.
  intros A St lt m a b k s H. unfold lower_boundS, upper_boundS. rewrite Nat.add_1_r.
  destruct (lower_any lt (fun _ => 0) ltac:(intros; lia) m k (b - a) a (b - a) s) as (r1 & s1 & E1 & B1 & _); [lia|lia|].
  destruct (upper_any lt (fun _ => 0) ltac:(intros; lia) m k (b - a) a (b - a) s) as (r2 & s2 & E2 & B2 & _); [lia|lia|].
  destruct (lower_any (with_count lt) snd (with_count_one lt) m k (b - a) a (b - a) (s, 0)) as (r3 & [s3 c3] & E3 & _ & C3); [lia|lia|].
  destruct (upper_any (with_count lt) snd (with_count_one lt) m k (b - a) a (b - a) (s, 0)) as (r4 & [s4 c4] & E4 & _ & C4); [lia|lia|].
  split; [exists r1, s1; split; [assumption|lia]|]. split; [exists r2, s2; split; [assumption|lia]|]. split; [exists r3, s3, c3; split; [assumption|exact C3]|exists r4, s4, c4; split; [assumption|exact C4]].
Qed.
Print Assumptions C104_search.

(** The queue is a bag of bounded size in every history without dequeue or head of an empty queue: no item is lost, doubled or made up. *)
Theorem C104_queue : forall (A St : Type) (lt : A -> A -> St -> bool * St) (garbage : list A) (ops : list (pq_op A)) (s : St),
  well_used (length garbage) 0 ops ->
  exists (rets : list (pq_ret A)) (s' : St), pq_runS lt (Build_pq 0 garbage) ops s = Ok (rets, s') /\ bag_run (length garbage) [] ops rets.
Proof.
  intros A St lt garbage ops s H. apply (run_any lt (fun _ => 0) ltac:(intros; lia) ops (Build_pq 0 garbage) [] s); [|exact H]. split; cbn [pq_size pq_data firstn]; [lia|reflexivity].
Qed.
Print Assumptions C104_queue.

(** An operator< that answers yes and no in turn, and one that always says yes. *)
Definition in_turn (x y : Z) (s : bool) : bool * bool := (s, negb s).
Example C104_case :
  intro_sortS in_turn 2 9 [5; 1; 4; 2; 3; 9; 7; 8; 6]%Z 0 9 true = Ok ([2; 8; 1; 9; 3; 7; 5; 4; 6]%Z, true) /\
  lower_boundS in_turn [5; 1; 4; 2; 3; 9; 7; 8; 6]%Z 0 9 0%Z true = Ok (7, false) /\
  pq_runS (fun _ _ _ => (true, tt)) (Build_pq 0 (repeat 0%Z 3)) [Enqueue 1%Z; Enqueue 2%Z; Enqueue 3%Z; Head; Dequeue; Enqueue 4%Z; Dequeue; Dequeue; Dequeue; Empty] tt
    = Ok ([RBool true; RBool true; RBool true; RItem 3%Z; RItem 3%Z; RBool true; RItem 4%Z; RItem 2%Z; RItem 1%Z; RBool true], tt).
Proof. repeat split; vm_compute; reflexivity. Qed.
