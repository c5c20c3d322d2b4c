(** Properties of the type-level lists (C36, C67). *)
From Coq Require Import List Arith Lia.
From Verif Require Import Sequence_Model.
Import ListNotations.

Lemma map_add_seq k a n : map (fun x => k + x) (seq a n) = seq (k + a) n.
Proof. revert a. induction n as [|n IH]; intro a; cbn [seq map]; [reflexivity|]. rewrite IH. repeat f_equal. lia. Qed.

Lemma double_seq n : seq 0 n ++ map (fun a => length (seq 0 n) + a) (seq 0 n) = seq 0 (2 * n).
Proof. rewrite seq_length, map_add_seq, Nat.add_0_r. replace (2 * n) with (n + n) by lia. now rewrite seq_app. Qed.

Lemma append_seq m n : seq 0 m ++ map (fun a => length (seq 0 m) + a) (seq 0 n) = seq 0 (m + n).
Proof. rewrite seq_length, map_add_seq, Nat.add_0_r. now rewrite seq_app. Qed.

Lemma sequence_ex_spec : forall fuel N R p m, N < fuel -> R <= 1 ->
  exists d, sequence_ex fuel N R (seq 0 p) (seq 0 m) = Some (seq 0 (m + p * (R + 2 * N)), d) /\ d <= Nat.log2 N + 2 /\ (N = 0 -> d = 1).
Proof.
  induction fuel as [|fuel IH]; intros N R p m Hf HR; [lia|]. cbn [sequence_ex]. destruct N as [|N].
  - destruct R as [|[|R]]; [| |lia].
    + exists 1. split; [f_equal; f_equal; f_equal; lia|]. lia.
    + exists 1. rewrite append_seq. split; [f_equal; f_equal; f_equal; lia|]. lia.
  - pose proof (Nat.div_mod (S N) 2 ltac:(lia)) as E. pose proof (Nat.mod_upper_bound (S N) 2 ltac:(lia)) as E'.
    pose proof (Nat.div_lt (S N) 2 ltac:(lia) ltac:(lia)) as L.
    assert (D : forall d, d <= Nat.log2 (S N / 2) + 2 /\ (S N / 2 = 0 -> d = 1) -> S d <= Nat.log2 (S N) + 2).
    { intros d [D1 D2]. destruct (Nat.eq_dec N 0) as [->|].
      - rewrite D2 by reflexivity. cbn. lia.
      - pose proof (Nat.log2_double (S N / 2)). pose proof (Nat.log2_succ_double (S N / 2)).
        destruct (Nat.eq_dec (S N / 2) 0) as [Z|Z]; [lia|].
        assert (Nat.log2 (S N) = S (Nat.log2 (S N / 2))); [|lia].
        destruct (Nat.eq_dec (S N mod 2) 0); [replace (S N) with (2 * (S N / 2)) at 1 by lia|replace (S N) with (2 * (S N / 2) + 1) at 1 by lia]; [apply Nat.log2_double|apply Nat.log2_succ_double]; lia. }
    destruct R as [|[|R]]; [| |lia]; rewrite double_seq.
    + destruct (IH (S N / 2) (S N mod 2) (2 * p) m ltac:(lia) ltac:(lia)) as (d & Ed & Hd). rewrite Ed. exists (S d).
      split; [replace (S N mod 2 + 2 * (S N / 2)) with (S N) by lia; f_equal; f_equal; f_equal; ring|]. split; [now apply D|discriminate].
    + rewrite append_seq. destruct (IH (S N / 2) (S N mod 2) (2 * p) (m + p) ltac:(lia) ltac:(lia)) as (d & Ed & Hd). rewrite Ed. exists (S d).
      split; [replace (S N mod 2 + 2 * (S N / 2)) with (S N) by lia; f_equal; f_equal; f_equal; ring|]. split; [now apply D|discriminate].
Qed.

(** C36: sequence_t<T, N> is 0, 1, ..., N-1, for every N, from at most log2(N) + 1 nested instantiations (2 for N = 2 and 3 and so on). *)
Theorem C36_sequence : forall N, exists d, sequence_t N = Some (seq 0 N, d) /\ d <= Nat.log2 N + 1.
Proof.
  intro N. unfold sequence_t. pose proof (Nat.div_mod N 2 ltac:(lia)) as E. pose proof (Nat.mod_upper_bound N 2 ltac:(lia)) as E'.
  destruct (sequence_ex_spec (S (N / 2)) (N / 2) (N mod 2) 1 0 ltac:(lia) ltac:(lia)) as (d & Ed & D1 & D2).
  change (seq 0 1) with [0] in Ed. change (seq 0 0) with (@nil nat) in Ed. exists d. split; [rewrite Ed; f_equal; f_equal; f_equal; lia|].
  destruct (Nat.eq_dec (N / 2) 0) as [Z|Z]; [specialize (D2 Z); lia|].
  enough (Nat.log2 N = S (Nat.log2 (N / 2))) by lia.
  destruct (Nat.eq_dec (N mod 2) 0); [replace N with (2 * (N / 2)) at 1 by lia|replace N with (2 * (N / 2) + 1) at 1 by lia]; [apply Nat.log2_double|apply Nat.log2_succ_double]; lia.
Qed.
Print Assumptions C36_sequence.

Example C36_nonvacuous : sequence_t 0 = Some ([], 1) /\ sequence_t 11 = Some ([0; 1; 2; 3; 4; 5; 6; 7; 8; 9; 10], 4).
Proof. split; reflexivity. Qed.

Section Types.
Variable U : Type.
Variable eqb : U -> U -> bool.
Hypothesis eqb_spec : forall a b, eqb a b = true <-> a = b.

Lemma select_nth : forall ts n, select U n ts = nth_error ts n.
Proof. induction ts as [|t ts IH]; intros [|n]; cbn [select nth_error]; auto. Qed.

Lemma has_in t us : has U eqb t us = true <-> In t us.
Proof.
  induction us as [|u us IH]; cbn [has In]; [split; [discriminate|tauto]|]. destruct (eqb t u) eqn:E.
  - apply eqb_spec in E. split; auto.
  - rewrite IH. split; [tauto|]. intros [->|?]; [|assumption]. rewrite (proj2 (eqb_spec t t) eq_refl) in E. discriminate.
Qed.

Lemma same_from t ts : are_same_from U eqb t ts = true <-> forall u, In u ts -> u = t.
Proof.
  induction ts as [|u ts IH]; cbn [are_same_from In]; [split; [intros _ ? []|reflexivity]|]. destruct (eqb t u) eqn:E.
  - apply eqb_spec in E. subst u. rewrite IH. split; [intros H u [<-|I]; auto|auto].
  - split; [discriminate|]. intro H. rewrite (H u ltac:(now left)), (proj2 (eqb_spec t t) eq_refl) in E. discriminate.
Qed.

Lemma leading i is : exists r, is = repeat i (count_leading U eqb i is) ++ r /\ (forall x r', r = x :: r' -> x <> i).
Proof.
  induction is as [|j is IH]; cbn [count_leading]; [exists []; split; [reflexivity|discriminate]|]. destruct (eqb i j) eqn:E.
  - apply eqb_spec in E. subst j. destruct IH as (r & Er & Hr). exists r. split; [cbn [repeat app Nat.add]; now rewrite <- Er|assumption].
  - exists (j :: is). split; [reflexivity|]. intros x r' [= <- <-] ->. rewrite (proj2 (eqb_spec i i) eq_refl) in E. discriminate.
Qed.
End Types.

(** C67: the type lists: select_t<N, Ts...> is the Nth type and does not exist past the end; cond_t and enable_t choose by
    the condition; has_v is membership; are_same_v holds exactly for a non-empty list of one type; count_leading_t is
    the length of the leading run. *)
Theorem C67_type_lists : forall U eqb, (forall a b : U, eqb a b = true <-> a = b) ->
  (forall n ts, select U n ts = nth_error ts n) /\
  (forall e a b ts, cond_t U e (a :: b :: ts) = Some (if e then a else b)) /\
  (forall e a, enable_t U e a = if e then Some a else None) /\
  (forall t us, has U eqb t us = true <-> In t us) /\
  (forall ts, are_same U eqb ts = true <-> exists t, ts <> [] /\ forall u, In u ts -> u = t) /\
  (forall i is, exists r, is = repeat i (count_leading U eqb i is) ++ r /\ (forall x r', r = x :: r' -> x <> i)) /\
  (forall ts, types_count U ts = length ts) /\
  (forall ts t us, car_t U ts = Some t /\ cdr_t U ts = Some us <-> ts = t :: us).
Proof.
  intros U eqb H. split; [intros; apply select_nth|]. split; [intros [|] a b ts; reflexivity|]. split; [intros [|] a; reflexivity|].
  split; [apply has_in; assumption|]. split; [|split; [apply leading; assumption|split]].
  - intros [|t ts]; cbn [are_same]; [split; [discriminate|intros (? & [] & _); reflexivity]|]. rewrite (same_from U eqb H). split.
    + intro A. exists t. split; [discriminate|]. intros u [<-|I]; auto.
    + intros (u & _ & A) v I. rewrite (A v ltac:(now right)). symmetry. apply A. now left.
  - intros [|t ts]; reflexivity.
  - intros [|t ts] u us; cbn [car_t cdr_t]; split; [intros [? _]; discriminate|discriminate|intros [[= ->] [= ->]]; reflexivity|intros [= -> ->]; auto].
Qed.
Print Assumptions C67_type_lists.
