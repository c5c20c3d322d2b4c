(** Properties of the pool (C33, C34). *)
From Coq Require Import Permutation.
From Verif Require Import Base Pool_Model Pool_Spec Pool_Proofs.
Local Open Scope Z_scope.

Lemma split_unique {B} (l1 l2 k1 k2 : list (Z * B)) i n m : NoDup (map fst (l1 ++ (i, n) :: l2)) ->
  l1 ++ (i, n) :: l2 = k1 ++ (i, m) :: k2 -> l1 = k1 /\ l2 = k2.
Proof.
  revert k1. induction l1 as [|x l1 IH]; intros [|y k1] Nd E; cbn [app] in *.
  - now injection E.
  - exfalso. injection E as <- E. subst l2. cbn [map fst] in Nd. inversion Nd as [|? ? N0 _]; subst. apply N0. rewrite map_app. apply in_or_app. right. now left.
  - exfalso. injection E as -> E. cbn [map fst] in Nd. inversion Nd as [|? ? N0 _]; subst. apply N0. rewrite map_app. apply in_or_app. right. now left.
  - injection E as -> E. cbn [map] in Nd. inversion Nd; subst. destruct (IH k1) as [-> ->]; auto.
Qed.

Lemma abs_eq T (a b : abs T) : a_nodes T a = a_nodes T b -> a_queues T a = a_queues T b -> a = b.
Proof. destruct a as [x y], b as [z w]. cbn [a_nodes a_queues]. now intros -> ->. Qed.

Lemma becomes_unique T a q xs a1 a2 : queue_becomes T a q xs a1 -> queue_becomes T a q xs a2 -> a1 = a2.
Proof.
  intros (N1 & L1 & Q1 & F1) (N2 & L2 & Q2 & F2). apply abs_eq; [congruence|]. unfold queue_is in *.
  assert (E : forall r, nth_error (a_queues T a1) r = nth_error (a_queues T a2) r).
  { intro r. destruct (Nat.eq_dec r q) as [->|]; [congruence|]. now rewrite F1, F2. }
  clear - E. revert E. generalize (a_queues T a1) (a_queues T a2). induction l as [|x l IH]; intros [|y k] E.
  - reflexivity.
  - specialize (E O). discriminate.
  - specialize (E O). discriminate.
  - f_equal; [specialize (E O); now injection E|]. apply IH. intro r. exact (E (S r)).
Qed.

Lemma spec_det T N a o out a1 a2 : NoDup (map fst (a_nodes T a)) -> spec_step T N a o out a1 -> spec_step T N a o out a2 -> a1 = a2.
Proof.
  intros Nd H1 H2. unfold queue_is in *.
  inversion H1; subst; inversion H2; subst; try reflexivity; try lia; try contradiction; try congruence; unfold queue_is in *.
  - match goal with A : a_nodes _ _ = _, B : a_nodes _ _ = _ |- _ => rewrite A in B, Nd; destruct (split_unique _ _ _ _ _ _ _ Nd B) as [-> ->] end. reflexivity.
  - match goal with A : a_nodes _ _ = _, B : a_nodes _ _ = _ |- _ => rewrite A in B, Nd; destruct (split_unique _ _ _ _ _ _ _ Nd B) as [-> ->] end. reflexivity.
  - assert (xs = xs0) as <- by congruence. eapply becomes_unique; eassumption.
  - assert (xs = xs0) as <- by congruence. eapply becomes_unique; eassumption.
  - assert (xs = xs0) as <- by congruence. eapply becomes_unique; eassumption.
  - assert (xs = xs0) as <- by congruence. eapply becomes_unique; eassumption.
  - assert (xs = xs0) as <-. { assert (E : xs ++ [y] = xs0 ++ [y0]) by congruence. now apply app_inj_tail in E. } eapply becomes_unique; eassumption.
Qed.

Lemma history_rel T N : 1 <= N -> forall c0 nq, rel T N (a_start T nq) c0 -> forall h a c, history T N c0 nq h a c -> rel T N a c.
Proof.
  intros HN c0 nq R0 h a c H. induction H as [|h a c o out c' a' H IH Al Es Sp]; [assumption|].
  destruct (sim T N HN a c o IH Al) as (out1 & c1 & a1 & E1 & S1 & R1).
  assert (out1 = out /\ c1 = c') as [-> ->] by (rewrite Es in E1; injection E1; auto).
  replace a' with a1; [assumption|]. eapply spec_det; [|exact S1|exact Sp].
  destruct c as [p ts]. destruct IH as (fl & Q & C & _). now apply core_nodup in C.
Qed.

(** C34: any number of queues over one pool, of any capacity, starting from reset() on an object with arbitrary contents.
    After every history every allowed call is defined, and answers and acts as if the queues were separate sequences (and the
    client's own nodes separate records): insertion fails, and changes nothing, exactly when N - 1 nodes are in use. *)
Theorem C34_queues : forall T N, 1 <= N -> forall (p : pool T) nq,
  length (p_next T p) = Z.to_nat N -> length (p_data T p) = Z.to_nat N ->
  exists c0, p_start T p nq = Ok c0 /\
  forall h a c, history T N c0 nq h a c -> forall o, allowed T a o ->
    exists out c' a', p_step T N c o = Ok (out, c') /\ spec_step T N a o out a'.
Proof.
  intros T N HN p nq L1 L2. destruct (start_rel T N HN p nq L1 L2) as (c0 & E0 & R0). exists c0. split; [assumption|].
  intros h a c H o Al. pose proof (history_rel T N HN c0 nq R0 h a c H) as R.
  destruct (sim T N HN a c o R Al) as (out & c' & a' & E & Sp & _). now exists out, c', a'.
Qed.
Print Assumptions C34_queues.

(** The specification leaves no choice but the index that Alloc returns: the state after an answer is determined. *)
Theorem C34_spec_determined : forall T N, 1 <= N -> forall (p : pool T) nq c0,
  length (p_next T p) = Z.to_nat N -> length (p_data T p) = Z.to_nat N -> p_start T p nq = Ok c0 ->
  forall h a c, history T N c0 nq h a c -> forall o out a1 a2, spec_step T N a o out a1 -> spec_step T N a o out a2 -> a1 = a2.
Proof.
  intros T N HN p nq c0 L1 L2 E0 h a c H o out a1 a2. destruct (start_rel T N HN p nq L1 L2) as (c1 & E1 & R0).
  assert (c1 = c0) as -> by congruence. pose proof (history_rel T N HN c0 nq R0 h a c H) as R. apply spec_det.
  destruct c as [q ts]. destruct R as (fl & Q & C & _). now apply core_nodup in C.
Qed.
Print Assumptions C34_spec_determined.

(** Two queues and a node over three nodes (N = 4), from an object full of garbage. *)
Fixpoint run_ops (c : pstate Z) (os : list (pop Z)) : res (list (pout Z)) :=
  match os with [] => Ok [] | o :: os => '(r, c) <- p_step Z 4 c o ;; rs <- run_ops c os ;; Ok (r :: rs) end.
Example C34_nonvacuous :
  (c <- p_start Z {| p_next := [9; 9; 9; 9]; p_size := 7; p_data := [5; 5; 5; 5] |} 2 ;;
   run_ops c [Append Z 0 10; Insert Z 0 11; Append Z 1 20; Append Z 1 21; Head Z 0; Tail Z 0; Remove Z 0; Alloc Z; Alloc Z;
              Write Z 2 7 77; Head Z 0; Head Z 1; IsEmpty Z 0; Remove Z 0; IsEmpty Z 0; Remove Z 0; Read Z 2]) =
  Ok [OBool Z true; OBool Z true; OBool Z true; OBool Z false; OVal Z 11; OVal Z 10; OBool Z true; OIdx Z 2; OIdx Z 0;
      OUnit Z; OVal Z 10; OVal Z 20; OBool Z false; OBool Z true; OBool Z true; OBool Z false; ONode Z 7 77].
Proof. reflexivity. Qed.

Lemma alloc_history_core T N : 1 <= N -> forall p0, core T N p0 [] [] -> forall live p, alloc_history T N p0 live p -> exists fl, core T N p fl live.
Proof.
  intros HN p0 C0 live p H. induction H as [|live p p' H IH E|live p i p' H IH E Hi|l1 i l2 p p' H IH E|live p i v p' H IH I E|live p i x p' H IH I E].
  - now exists [].
  - destruct IH as (fl & C). pose proof (alloc_core T N HN p fl live C) as A. destruct (Z.of_nat (length live) =? N - 1).
    + rewrite A in E. injection E as <-. now exists fl.
    + destruct A as (i & p1 & fl' & E1 & C1 & _). rewrite E in E1. injection E1 as <- <-. exfalso.
      destruct (core_range T N HN p' fl' (0 :: live) 0 C1 ltac:(now left)) as (R & _). lia.
  - destruct IH as (fl & C). pose proof (alloc_core T N HN p fl live C) as A. destruct (Z.of_nat (length live) =? N - 1).
    + rewrite A in E. injection E as <- <-. contradiction.
    + destruct A as (j & p1 & fl' & E1 & C1 & _). rewrite E in E1. injection E1 as <- <-. now exists fl'.
  - destruct IH as (fl & C). assert (C1 : core T N p fl (i :: l1 ++ l2)) by (eapply core_perm; [|exact C]; symmetry; apply Permutation_middle).
    destruct (core_range T N HN p fl _ i C1 ltac:(now left)) as (R & _).
    destruct (free_core T N HN p fl i (l1 ++ l2) C1) as (p1 & E1 & C2 & _). destruct (inside_at (p_next T p) 0 (core_zero T N HN p _ _ C)) as [f Hf].
    unfold p_free in E. destruct (Z.eqb_spec i 0); [lia|]. rewrite (getz_at _ _ _ Hf) in E. cbn [bind] in E. destruct (E1 f Hf) as [E2 E3].
    rewrite E2 in E. cbn [bind] in E. rewrite E3 in E. injection E as <-. now exists (i :: fl).
  - destruct IH as (fl & C). destruct (core_put_next T N HN p fl live i v C I) as [E1 C1]. rewrite E in E1. injection E1 as ->. now exists fl.
  - destruct IH as (fl & C). destruct (core_put_data T N HN p fl live i x C I) as [E1 C1]. rewrite E in E1. injection E1 as ->. now exists fl.
Qed.

(** C33: whatever was allocated and freed before (only live nodes being freed), live nodes are distinct, non-zero and below N;
    alloc_index returns a node that is not live, and 0 exactly when N - 1 nodes are live; every live node can be freed. *)
Theorem C33_alloc : forall T N, 1 <= N -> forall p : pool T,
  length (p_next T p) = Z.to_nat N -> length (p_data T p) = Z.to_nat N ->
  exists p0, p_reset T p = Ok p0 /\
  forall live q, alloc_history T N p0 live q ->
    NoDup live /\ (forall i, In i live -> 1 <= i < N) /\
    (exists i q', p_alloc T N q = Ok (i, q') /\ (i = 0 <-> Z.of_nat (length live) = N - 1) /\ (i <> 0 -> 1 <= i < N /\ ~ In i live)) /\
    (forall i, In i live -> exists q', p_free T q i = Ok q') /\ p_free T q 0 = Ok q.
Proof.
  intros T N HN p L1 L2. destruct (start_rel T N HN p 0 L1 L2) as ((p0, ts) & E0 & R0). unfold p_start in E0.
  destruct (p_reset T p) as [p1| |] eqn:E; [|discriminate|discriminate]. cbn [bind] in E0. injection E0 as -> <-. exists p0. split; [reflexivity|].
  intros live q H. assert (C0 : core T N p0 [] []).
  { destruct R0 as (fl & Q & C & Ets & HQ & _). cbn [a_start a_nodes a_queues repeat map app] in *. inversion HQ; subst.
    unfold p_reset, put_next in E. destruct (setz _ 0 0) as [nx| |] eqn:E1; [|discriminate|discriminate]. cbn [bind] in E. injection E as <-.
    pose proof C as (_ & _ & _ & _ & H5 & _). cbn [with_next p_size concat] in H5. rewrite app_nil_r in H5. destruct fl; [|discriminate].
    exact C. }
  destruct (alloc_history_core T N HN p0 C0 live q H) as (fl & C).
  assert (Rg : forall i, In i live -> 1 <= i < N) by (intros i I; destruct (core_range T N HN q fl live i C I); lia).
  split; [apply (core_nodup T N q fl live []); now rewrite app_nil_r|]. split; [assumption|]. split; [|split].
  - pose proof (alloc_core T N HN q fl live C) as A. destruct (Z.eqb_spec (Z.of_nat (length live)) (N - 1)) as [Ef|Ef].
    + exists 0, q. split; [assumption|]. split; [tauto|]. congruence.
    + destruct A as (i & q' & fl' & Ea & C1 & _). exists i, q'. split; [assumption|].
      destruct (core_range T N HN q' fl' (i :: live) i C1 ltac:(now left)) as (R & _). split; [split; [lia|contradiction]|]. intros _. split; [lia|].
      intro I. apply (core_disj T N q' fl' [i] live i C1); [now left|assumption].
  - intros i I. apply in_split in I. destruct I as (l1 & l2 & ->).
    assert (C1 : core T N q fl (i :: l1 ++ l2)) by (eapply core_perm; [|exact C]; symmetry; apply Permutation_middle).
    destruct (free_core T N HN q fl i (l1 ++ l2) C1) as (p' & E1 & _). destruct (inside_at (p_next T q) 0 (core_zero T N HN q _ _ C)) as [f Hf].
    unfold p_free. destruct (i =? 0); [eauto|]. rewrite (getz_at _ _ _ Hf). cbn [bind]. destruct (E1 f Hf) as [E2 E3]. rewrite E2. cbn [bind]. rewrite E3. eauto.
  - reflexivity.
Qed.
Print Assumptions C33_alloc.

Example C33_nonvacuous : exists p0 q, p_reset Z {| p_next := [9; 9; 9]; p_size := 7; p_data := [5; 5; 5] |} = Ok p0 /\
  alloc_history Z 3 p0 [2] q /\ p_alloc Z 3 q = Ok (1, {| p_next := [0; 0; 9]; p_size := 2; p_data := [5; 5; 5] |}).
Proof.
  eexists _, {| p_next := [1; 0; 9]; p_size := 2; p_data := [5; 5; 5] |}. split; [reflexivity|]. split; [|reflexivity].
  apply (ah_free Z 3 _ [2] 1 [] {| p_next := [0; 9; 9]; p_size := 2; p_data := [5; 5; 5] |}); [|reflexivity].
  apply (ah_alloc Z 3 _ [1] {| p_next := [0; 9; 9]; p_size := 1; p_data := [5; 5; 5] |} 2); [|reflexivity|lia].
  apply (ah_alloc Z 3 _ [] {| p_next := [0; 9; 9]; p_size := 0; p_data := [5; 5; 5] |} 1); [|reflexivity|lia]. apply ah_nil.
Qed.

(** Freeing a node twice is a precondition: it is then handed out twice. *)
Theorem C33_double_free_refuted :
  (p <- p_reset Z {| p_next := [9; 9; 9]; p_size := 7; p_data := [5; 5; 5] |} ;;
   '(i, p) <- p_alloc Z 3 p ;; p <- p_free Z p i ;; p <- p_free Z p i ;;
   '(j, p) <- p_alloc Z 3 p ;; '(k, p) <- p_alloc Z 3 p ;; Ok (j, k)) = Ok (1, 1).
Proof. reflexivity. Qed.
Print Assumptions C33_double_free_refuted.
