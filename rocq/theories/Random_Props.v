(** C16-C22: the random number generators. *)
From Coq Require Import Znumtheory.
From Verif Require Import Base Bits Orbit Hash_Model Hash_Spec Hash_Proofs Random_Model Random_Spec
  Xoroshiro_Proofs Random_Proofs.
Local Open Scope Z_scope.

(** C16: from a nonzero state, k calls of next lead back to the state exactly when 2^64-1 divides k;
    every nonzero state is reached within fewer calls than that; every state on the way is defined
    and nonzero. *)
Theorem C16_xoroshiro64ss_period : forall s k, nonzero_words 32 s ->
  (after next64ss k s = Ok s <-> (2 ^ 64 - 1 | Z.of_N k)).
Proof. exact (proj1 cycle64). Qed.
Print Assumptions C16_xoroshiro64ss_period.

Theorem C16_xoroshiro64ss_visits_all : forall s t, nonzero_words 32 s -> nonzero_words 32 t ->
  exists k, Z.of_N k < 2 ^ 64 - 1 /\ after next64ss k s = Ok t.
Proof. exact (proj1 (proj2 cycle64)). Qed.
Print Assumptions C16_xoroshiro64ss_visits_all.

Theorem C16_xoroshiro64ss_never_zero : forall s k, nonzero_words 32 s ->
  exists t, after next64ss k s = Ok t /\ nonzero_words 32 t.
Proof. exact (proj2 (proj2 cycle64)). Qed.
Print Assumptions C16_xoroshiro64ss_never_zero.

Example C16_nonzero : nonzero_words 32 (5, 4294967295).
Proof. split; [split; cbn [fst snd]; lia | discriminate]. Qed.

(** C17: the same for the 128-bit engine. *)
Theorem C17_xoroshiro128pp_period : forall s k, nonzero_words 64 s ->
  (after next128pp k s = Ok s <-> (2 ^ 128 - 1 | Z.of_N k)).
Proof. exact (proj1 cycle128). Qed.
Print Assumptions C17_xoroshiro128pp_period.

Theorem C17_xoroshiro128pp_visits_all : forall s t, nonzero_words 64 s -> nonzero_words 64 t ->
  exists k, Z.of_N k < 2 ^ 128 - 1 /\ after next128pp k s = Ok t.
Proof. exact (proj1 (proj2 cycle128)). Qed.
Print Assumptions C17_xoroshiro128pp_visits_all.

Theorem C17_xoroshiro128pp_never_zero : forall s k, nonzero_words 64 s ->
  exists t, after next128pp k s = Ok t /\ nonzero_words 64 t.
Proof. exact (proj2 (proj2 cycle128)). Qed.
Print Assumptions C17_xoroshiro128pp_never_zero.

Example C17_nonzero : nonzero_words 64 (0, 18446744073709551615).
Proof. split; [split; cbn [fst snd]; lia | discriminate]. Qed.

(** C18: the all-zero state is a trap: it returns zero and stays. *)
Theorem C18_zero_is_stuck : next64ss (0, 0) = Ok (0, (0, 0)) /\ next128pp (0, 0) = Ok (0, (0, 0)).
Proof. split; reflexivity. Qed.
Print Assumptions C18_zero_is_stuck.

(** The 128-bit engine is never seeded into it ... *)
Theorem C18_seed128pp_nonzero : forall data, Forall is_byte data -> nonzero_words 64 (seed128pp data).
Proof.
  intros data F. unfold seed128pp.
  assert (F' : forall h, fnv1a 64 1 data h = fnv1a_spec 64 (fnv_prime 64) data h).
  { intro h. rewrite fnv1a_ok by lia. now rewrite flat_bytes. }
  rewrite !F'.
  assert (B : 0 <= fnv_basis 64 < 2 ^ 64) by (unfold fnv_basis; cbn; lia).
  pose proof (fnv_range 64 (fnv_prime 64) data (fnv_basis 64) ltac:(lia) B) as R.
  remember (fnv1a_spec 64 (fnv_prime 64) data (fnv_basis 64)) as a eqn:Ea.
  split; [split; cbn [fst snd]; [exact R | apply fnv_range; lia]|].
  intros [= E0 E1]. subst a.
  assert (E : fnv1a_spec 64 (fnv_prime 64) data (fnv_basis 64) = fnv1a_spec 64 (fnv_prime 64) data 0).
  { rewrite E0 in E1 |- *. now rewrite E1. }
  apply fnv_basis_inj in E; auto; try lia. discriminate.
Qed.
Print Assumptions C18_seed128pp_nonzero.

Example C18_seed128pp_case : Forall is_byte [0; 255; 17].
Proof. repeat constructor; unfold is_byte; lia. Qed.

(** ... but the 64-bit engine is, by the empty buffer and by some buffer of every size from 8 up.
    These are the only sizes for which it happens, so the property is false of the code. *)
Theorem C18_seed64ss_refuted : forall size,
  (exists data, length data = size /\ Forall is_byte data /\ seed64ss data = Ok (0, 0)) <->
  (size = 0 \/ 8 <= size)%nat.
Proof.
  intro size. split.
  - intros (data & L & F & E). rewrite seed64ss_spec in E by auto. injection E as E0 E1. rewrite E0 in E1.
    destruct (Nat.eq_dec size 0) as [|N0]; [now left|]. right.
    destruct (Nat.le_gt_cases 8 size) as [|Lt]; [assumption|]. exfalso.
    assert (L1 : length (firstn (length data / 2) data) = (length data / 2)%nat).
    { rewrite firstn_length. apply Nat.min_l. apply Nat.div_le_upper_bound; lia. }
    assert (L2 : length (skipn (length data / 2) data) = (length data - length data / 2)%nat) by apply skipn_length.
    rewrite L in *.
    pose proof (Nat.div_mod size 2 ltac:(lia)). pose proof (Nat.mod_upper_bound size 2 ltac:(lia)).
    destruct (Nat.le_gt_cases (size - size / 2) 3).
    + apply (short_nonzero (skipn (size / 2) data)); [lia | exact E1].
    + apply (short_nonzero (firstn (size / 2) data)); [lia | exact E0].
  - intros [-> | H8].
    + exists []. split; [reflexivity|]. split; [constructor|]. vm_compute. reflexivity.
    + set (h := (size / 2)%nat). assert (Hh : (4 <= h /\ 4 <= size - h)%nat).
      { unfold h. pose proof (Nat.div_mod size 2 ltac:(lia)). pose proof (Nat.mod_upper_bound size 2 ltac:(lia)). lia. }
      destruct (long_zero h) as (p & Lp & Fp & Ep); [lia|].
      destruct (long_zero (size - h)) as (q & Lq & Fq & Eq); [lia|].
      exists (p ++ q). assert (L : length (p ++ q) = size) by (rewrite app_length; lia).
      assert (F : Forall is_byte (p ++ q)) by (apply Forall_app; auto).
      split; [exact L|]. split; [exact F|]. rewrite seed64ss_spec by auto. rewrite L. fold h.
      rewrite <- Lp, firstn_app, Nat.sub_diag, firstn_all, firstn_O, app_nil_r, Ep.
      rewrite skipn_app, Nat.sub_diag, skipn_all, skipn_O. cbn [app]. now rewrite Eq.
Qed.
Print Assumptions C18_seed64ss_refuted.

(** The part that holds: buffers of 1 to 7 bytes. Missing: all other sizes, where it is false. *)
Theorem C18_seed64ss_partial : forall data, Forall is_byte data -> (1 <= length data <= 7)%nat ->
  seed64ss data <> Ok (0, 0).
Proof.
  intros data F L E. destruct (proj1 (C18_seed64ss_refuted (length data))) as [H|H]; [|lia..].
  exists data. auto.
Qed.
Print Assumptions C18_seed64ss_partial.

Example C18_seed64ss_case : exists s, seed64ss [1; 2; 3; 4; 5; 6; 7] = Ok s /\ s <> (0, 0).
Proof. eexists. split; [vm_compute; reflexivity | discriminate]. Qed.

(** C19: step is a bijection of the 64-bit states; every state returns to itself exactly after
    multiples of 2^64 steps and reaches every other. *)
Theorem C19_pcg_step_bijective :
  (forall s, 0 <= s < 2 ^ 64 -> 0 <= pcg_step s < 2 ^ 64) /\
  (forall s t, 0 <= s < 2 ^ 64 -> 0 <= t < 2 ^ 64 -> pcg_step s = pcg_step t -> s = t) /\
  (forall t, 0 <= t < 2 ^ 64 -> exists s, 0 <= s < 2 ^ 64 /\ pcg_step s = t).
Proof.
  split; [intros; apply pcg_range|].
  assert (M : exists m, Z.of_N (N.succ m) = 2 ^ 64) by (exists (2 ^ 64 - 1)%N; reflexivity).
  destruct M as [m Hm].
  assert (Cyc : forall s, 0 <= s < 2 ^ 64 -> N.iter (N.succ m) pcg_step s = s).
  { intros s Hs. apply pcg_fix; [exact Hs|]. rewrite Hm. apply Z.divide_refl. }
  split.
  - intros s t Hs Ht E. rewrite <- (Cyc s Hs), <- (Cyc t Ht), !N.iter_succ_r. now rewrite E.
  - intros t Ht. exists (N.iter m pcg_step t). split.
    + assert (R : forall n, 0 <= N.iter n pcg_step t < 2 ^ 64).
      { apply N.peano_ind; [exact Ht|]. intros n _. rewrite N.iter_succ. apply pcg_range. }
      apply R.
    + rewrite <- N.iter_succ. now apply Cyc.
Qed.
Print Assumptions C19_pcg_step_bijective.

Theorem C19_pcg_period : forall s k, 0 <= s < 2 ^ 64 ->
  (N.iter k pcg_step s = s <-> (2 ^ 64 | Z.of_N k)).
Proof. intros s k Hs. now apply pcg_fix. Qed.
Print Assumptions C19_pcg_period.

Theorem C19_pcg_visits_all : forall s t, 0 <= s < 2 ^ 64 -> 0 <= t < 2 ^ 64 ->
  exists k, (k < 2 ^ 64)%N /\ N.iter k pcg_step s = t.
Proof. exact pcg_cycle. Qed.
Print Assumptions C19_pcg_visits_all.

Example C19_case : N.iter 3 pcg_step 1 = 6559887315191785634.
Proof. reflexivity. Qed.

(** The seeds are two steps apart from the given number, so distinct numbers give distinct states. *)
Theorem C19_pcg_seed_injective : forall s t, 0 <= s < 2 ^ 64 -> 0 <= t < 2 ^ 64 ->
  pcg_seed s = pcg_seed t -> s = t.
Proof.
  intros s t Hs Ht E. unfold pcg_seed in E.
  apply (proj1 (proj2 C19_pcg_step_bijective)) in E; [|apply Z.mod_pos_bound; lia..].
  pose proof (pcg_range 0). unfold u64 in E.
  pose proof (Z.div_mod (pcg_step 0 + s) (2 ^ 64) ltac:(lia)). pose proof (Z.div_mod (pcg_step 0 + t) (2 ^ 64) ltac:(lia)).
  rewrite E in *. nia.
Qed.
Print Assumptions C19_pcg_seed_injective.

(** C20: on states at or above 2^59 read is the rotation of the xorshifted state by the top five bits.
    Missing: the states below, where the code's shift by 32 is undefined. *)
Theorem C20_pcg_read_partial : forall q, 2 ^ 59 <= q < 2 ^ 64 ->
  exists y, pcg_read q = Ok y /\
    is_ror 32 (Z.lxor (Z.shiftr q 27) (Z.shiftr q 45) mod 2 ^ 32) (q / 2 ^ 59) y.
Proof. exact pcg_read_ok. Qed.
Print Assumptions C20_pcg_read_partial.

Theorem C20_pcg_read_refuted : forall q, 0 <= q < 2 ^ 64 -> (pcg_read q = UB <-> q < 2 ^ 59).
Proof.
  intros q Hq. split.
  - intro E. destruct (Z_lt_ge_dec q (2 ^ 59)); [assumption|].
    destruct (pcg_read_ok q) as (y & Ey & _); [lia|]. congruence.
  - intro. apply pcg_read_ub. lia.
Qed.
Print Assumptions C20_pcg_read_refuted.

(** The undefined states are not avoidable: every generator comes to one of them. *)
Theorem C20_pcg_reaches_undefined_refuted : forall s, 0 <= s < 2 ^ 64 ->
  exists k, (k < 2 ^ 64)%N /\ next pcg_read pcg_step (N.iter k pcg_step s) = UB.
Proof.
  intros s Hs. destruct (pcg_cycle s 0) as (k & Hk & E); [lia..|]. exists k. split; [exact Hk|].
  rewrite E. unfold next. rewrite pcg_read_ub by lia. reflexivity.
Qed.
Print Assumptions C20_pcg_reaches_undefined_refuted.

Example C20_case : pcg_read 12345678901234567890 = Ok 2203698004.
Proof. reflexivity. Qed.

(** C21: for any generator whose read yields a 32-bit value. *)
Theorem C21_next_ranged : forall G (read : G -> res Z) (step : G -> G) g n r,
  read g = Ok r -> 0 <= r < 2 ^ 32 -> 0 <= n < 2 ^ 32 ->
  exists v, next_ranged read step g n = Ok (v, step g) /\ (0 < n -> 0 <= v < n) /\ (n = 0 -> v = 0).
Proof.
  intros G read step g n r E Hr Hn. rewrite (ranged_eq read step g n r E).
  destruct (mul_hi n r Hn Hr) as (-> & R1 & R2). eexists. split; [reflexivity|]. split; intro; [|lia].
  specialize (R2 H). lia.
Qed.
Print Assumptions C21_next_ranged.

Theorem C21_next_unbiased : forall G (read : G -> res Z) (step : G -> G) g n r fuel,
  read g = Ok r -> 0 <= r < 2 ^ 32 -> 0 <= n < 2 ^ 32 ->
  exists v, next_unbiased read step fuel g n = Ok (v, step g) /\ (0 < n -> 0 <= v < n) /\ (n = 0 -> v = 0).
Proof.
  intros G read step g n r fuel E Hr Hn. rewrite (unbiased_eq read step fuel g n r E) by lia.
  destruct (mul_hi n r Hn Hr) as (-> & R1 & R2). eexists. split; [reflexivity|]. split; intro; [|lia].
  specialize (R2 H). lia.
Qed.
Print Assumptions C21_next_unbiased.

Theorem C21_next : forall G (read : G -> res Z) (step : G -> G) g r,
  read g = Ok r -> next read step g = Ok (r, step g).
Proof. intros G read step g r E. unfold next. now rewrite E. Qed.
Print Assumptions C21_next.

Example C21_case : next_unbiased pcg_read pcg_step 0 12345678901234567890 6 = Ok (3, pcg_step 12345678901234567890).
Proof. reflexivity. Qed.

(** C22. A generator that yields the listed raw outputs in turn. *)
Definition list_read (g : list Z) : res Z := match g with [] => UB | r :: _ => Ok r end.
Definition list_step (g : list Z) : list Z := tl g.

(** The raw output r is accepted and gives v: the call returns v having consumed only r. *)
Definition accepted (n v r : Z) : Prop :=
  0 <= r < 2 ^ 32 /\ next_unbiased list_read list_step 0 [r] n = Ok (v, []).
Definition is_unbiased (n : Z) : Prop := exists k, forall v, 0 <= v < n -> has_count (accepted n v) k.

Lemma accepted_iff n v r : 0 < n < 2 ^ 32 -> accepted n v r <-> 0 <= r < 2 ^ 32 /\ n * r / 2 ^ 32 = v.
Proof.
  intro Hn. unfold accepted. split; intros [Hr H]; split; auto;
    rewrite (unbiased_eq list_read list_step 0 [r] n r) in * by (auto; lia);
    destruct (mul_hi n r ltac:(lia) Hr) as [E _]; rewrite E in *; cbn [list_step tl] in *; congruence.
Qed.

Theorem C22_next_unbiased_refuted : forall n, 0 < n < 2 ^ 32 -> (is_unbiased n <-> (n | 2 ^ 32)).
Proof.
  intros n Hn. split.
  - intros [k Hk].
    assert (S1 : forall v, 0 <= v < n -> first n (v + 1) - first n v = k).
    { intros v Hv. apply (count_unique (accepted n v)); [|now apply Hk].
      apply (count_ext (fun r => 0 <= r < 2 ^ 32 /\ n * r / 2 ^ 32 = v)).
      - intro r. symmetry. now apply accepted_iff.
      - apply count_result; lia. }
    assert (S2 : forall i, (Z.of_nat i <= n) -> first n (Z.of_nat i) = Z.of_nat i * k).
    { induction i as [|i IH]; intro Hi; [cbn [Z.of_nat]; rewrite first_0; lia|].
      specialize (S1 (Z.of_nat i) ltac:(lia)). rewrite IH in S1 by lia.
      replace (Z.of_nat (S i)) with (Z.of_nat i + 1) by lia. lia. }
    specialize (S2 (Z.to_nat n)). rewrite Z2Nat.id, first_n in S2 by lia. exists k. specialize (S2 ltac:(lia)). lia.
  - intro D. exists (2 ^ 32 / n). intros v Hv.
    apply (count_ext (fun r => 0 <= r < 2 ^ 32 /\ n * r / 2 ^ 32 = v)); [intro; symmetry; now apply accepted_iff|].
    replace (2 ^ 32 / n) with (first n (v + 1) - first n v) by (rewrite !first_exact by (try exact D; lia); ring).
    apply count_result; lia.
Qed.
Print Assumptions C22_next_unbiased_refuted.

Example C22_three_is_biased : ~ is_unbiased 3.
Proof. rewrite C22_next_unbiased_refuted by lia. intros [k Hk]. lia. Qed.

(** What holds: two results' counts differ by at most one. Missing: equality. *)
Theorem C22_next_unbiased_partial : forall n v v', 0 < n < 2 ^ 32 -> 0 <= v < n -> 0 <= v' < n ->
  exists k k', has_count (accepted n v) k /\ has_count (accepted n v') k' /\ Z.abs (k - k') <= 1.
Proof.
  intros n v v' Hn Hv Hv'. exists (first n (v + 1) - first n v), (first n (v' + 1) - first n v').
  split; [|split].
  - apply (count_ext (fun r => 0 <= r < 2 ^ 32 /\ n * r / 2 ^ 32 = v)); [intro; symmetry; now apply accepted_iff|]. apply count_result; lia.
  - apply (count_ext (fun r => 0 <= r < 2 ^ 32 /\ n * r / 2 ^ 32 = v')); [intro; symmetry; now apply accepted_iff|]. apply count_result; lia.
  - pose proof (first_step n v ltac:(lia)). pose proof (first_step n v' ltac:(lia)). lia.
Qed.
Print Assumptions C22_next_unbiased_partial.
