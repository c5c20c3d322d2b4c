(** Properties of clock (C35). *)
From Verif Require Import Base Clock_Model Clock_Spec.
Local Open Scope Z_scope.

Lemma frac_step a q Fn fd r : 0 < fd -> ((a + q * fd) * Fn + r) / fd = q * Fn + (a * Fn + r) / fd.
Proof. intro. replace ((a + q * fd) * Fn + r) with (a * Fn + r + q * Fn * fd) by ring. rewrite Z.div_add by lia. lia. Qed.

Section Clock.
Variables Fn Fd f : Z.
Hypothesis HFn : 0 <= Fn.
Hypothesis Hfd : 0 < f * Fd.
Hypothesis Hfit : (f * Fd - 1) * (Fn + 1) < 2 ^ 64.
Hypothesis Hfd64 : f * Fd < 2 ^ 64.

(** The clock after e units of time: nothing is lost in the residual. *)
Definition shows (e t : Z) (c : clock) : Prop :=
  k_frequency c = f /\ k_timestamp c = t /\ k_residual c = (e * Fn) mod (f * Fd) /\ k_tick c = ticks Fn Fd f e mod 2 ^ 64.

Lemma elapsed_shows e t c t' : 0 <= e -> shows e t c ->
  exists c', k_elapsed Fn Fd c t' = Ok (expected Fn Fd f e (e + (t' - t) mod 2 ^ 64) (Elapsed t'), c') /\ shows (e + (t' - t) mod 2 ^ 64) t' c'.
Proof.
  intros He (E1 & E2 & E3 & E4). unfold k_elapsed. rewrite E1, E2, E3.
  assert (Eu : u64 (f * Fd) = f * Fd) by (unfold u64; apply Z.mod_small; lia). rewrite Eu. clear Eu.
  destruct (Z.eqb_spec (f * Fd) 0); [lia|]. cbv zeta. unfold u64. remember ((t' - t) mod 2 ^ 64) as d eqn:Ed.
  assert (Hd : 0 <= d < 2 ^ 64) by (subst; apply Z.mod_pos_bound; lia). clear Ed.
  remember (f * Fd) as fd eqn:Efd.
  pose proof (Z.mod_pos_bound d fd Hfd) as Hm. pose proof (Z.mod_pos_bound (e * Fn) fd Hfd) as Hr.
  pose proof (Z.div_mod d fd ltac:(lia)) as Dd. pose proof (Z.div_mod (e * Fn) fd ltac:(lia)) as De.
  assert (B1 : 0 <= d mod fd * Fn <= (fd - 1) * Fn) by nia.
  rewrite (Z.mod_small (d mod fd * Fn)) by nia.
  rewrite (Z.mod_small (d mod fd * Fn + (e * Fn) mod fd)) by nia.
  assert (K : ticks Fn Fd f (e + d) = ticks Fn Fd f e + (d / fd * Fn + (d mod fd * Fn + (e * Fn) mod fd) / fd)).
  { unfold ticks. rewrite <- Efd. rewrite <- frac_step by assumption.
    replace ((e + d) * Fn) with ((d mod fd + d / fd * fd) * Fn + (e * Fn) mod fd + e * Fn / fd * fd) by nia. rewrite Z.div_add by lia. lia. }
  eexists. split.
  - f_equal. f_equal. unfold expected. rewrite K, Z.add_mod_idemp_l by lia. f_equal. lia.
  - unfold shows. cbn [k_frequency k_timestamp k_residual k_tick]. rewrite <- Efd. split; [reflexivity|]. split; [reflexivity|]. split.
    + replace ((e + d) * Fn) with (d mod fd * Fn + (e * Fn) mod fd + (d / fd * Fn + e * Fn / fd) * fd) by nia. now rewrite Z.mod_add by lia.
    + rewrite E4, K. rewrite (Z.add_mod_idemp_l (d / fd * Fn)) by lia. now rewrite <- Z.add_mod by lia.
Qed.

Lemma call_shows e t c k : 0 <= e -> shows e t c ->
  exists c', k_call Fn Fd c k = Ok (expected Fn Fd f e (e + (stamp k - t) mod 2 ^ 64) k, c') /\ shows (e + (stamp k - t) mod 2 ^ 64) (stamp k) c'.
Proof.
  intros He H. destruct k as [t'|t']; cbn [k_call stamp]; destruct (elapsed_shows e t c t' He H) as (c' & E & S).
  - eauto.
  - unfold k_current. rewrite E. cbn [bind]. eexists. split; [|exact S]. f_equal. f_equal. cbn [expected]. apply S.
Qed.

Lemma run_shows : forall ks e t c, 0 <= e -> shows e t c -> exists rs c', k_run Fn Fd c ks = Ok (rs, c') /\ length rs = length ks /\
  (exists t', shows (e + passed t ks) t' c') /\
  (forall ks1 k ks2, ks = ks1 ++ k :: ks2 -> nth_error rs (length ks1) = Some (expected Fn Fd f (e + passed t ks1) (e + passed t (ks1 ++ [k])) k)).
Proof.
  induction ks as [|k ks IH]; intros e t c He S.
  - exists [], c. split; [reflexivity|]. split; [reflexivity|]. cbn [passed]. rewrite Z.add_0_r. split; [eauto|]. intros [|? ?] ? ? E; discriminate.
  - destruct (call_shows e t c k He S) as (c1 & E1 & S1). cbn [k_run]. rewrite E1. cbn [bind].
    assert (Hd : 0 <= (stamp k - t) mod 2 ^ 64) by (apply Z.mod_pos_bound; lia).
    destruct (IH (e + (stamp k - t) mod 2 ^ 64) (stamp k) c1 ltac:(lia) S1) as (rs & c2 & E2 & L2 & S2 & N2). rewrite E2. cbn [bind]. eexists _, c2. split; [reflexivity|].
    split; [cbn [length]; lia|]. cbn [passed]. rewrite Z.add_assoc. split.
    + exact S2.
    + intros [|k1 ks1] k2 ks2 E; cbn [app] in E; injection E as -> ->.
      * cbn [length nth_error app passed]. rewrite !Z.add_0_r. reflexivity.
      * cbn [length nth_error app passed]. rewrite (N2 ks1 k2 ks2 eq_refl), !Z.add_assoc. reflexivity.
Qed.
End Clock.

(** C35: after reset, through any sequence of elapsed() and current() calls with any timestamps (also across a wrap of the counter),
    each result and the accumulated tick are exactly those of the total time passed, modulo the 2^64 range of a tick.
    The condition says that the one product that is divided afterwards fits 64 bits. *)
Theorem C35_no_drift : forall Fn Fd f t0, 0 <= Fn -> 0 < f * Fd < 2 ^ 64 -> (f * Fd - 1) * (Fn + 1) < 2 ^ 64 -> forall ks,
  exists rs c, k_run Fn Fd (k_reset f t0) ks = Ok (rs, c) /\ length rs = length ks /\
    k_tick c = ticks Fn Fd f (passed t0 ks) mod 2 ^ 64 /\
    forall ks1 k ks2, ks = ks1 ++ k :: ks2 ->
      nth_error rs (length ks1) = Some (expected Fn Fd f (passed t0 ks1) (passed t0 (ks1 ++ [k])) k).
Proof.
  intros Fn Fd f t0 HFn Hfd Hfit ks.
  destruct (run_shows Fn Fd f HFn (proj1 Hfd) Hfit (proj2 Hfd) ks 0 t0 (k_reset f t0)) as (rs & c & E & L & S & N); [lia| |].
  - unfold shows, k_reset, ticks. cbn [k_frequency k_timestamp k_residual k_tick]. rewrite Z.mul_0_l, Z.mod_0_l, Z.div_0_l, Z.mod_0_l by lia. auto.
  - exists rs, c. split; [assumption|]. split; [assumption|]. split; [destruct S as (t' & S); apply S|]. exact N.
Qed.
Print Assumptions C35_no_drift.

Lemma last_any (l : list Z) : forall y d d', last (y :: l) d = last (y :: l) d'.
Proof. induction l as [|z l IH]; intros y d d'; [reflexivity|]. exact (IH z d d'). Qed.
Lemma last_cons (x d : Z) l : last (x :: l) d = last l x.
Proof. destruct l as [|y l]; [reflexivity|]. exact (last_any l y d x). Qed.

Lemma passed_monotone : forall ks t0 t, 0 <= t0 -> (forall ks1 k ks2, ks ++ [Elapsed t] = ks1 ++ k :: ks2 -> last (map stamp ks1) t0 <= stamp k < 2 ^ 64) ->
  t0 <= t /\ passed t0 (ks ++ [Elapsed t]) = t - t0.
Proof.
  induction ks as [|k ks IH]; intros t0 t H0 M.
  - pose proof (M [] (Elapsed t) [] eq_refl) as H. cbn [map last stamp] in H. cbn [app passed stamp]. rewrite Z.mod_small by lia. lia.
  - pose proof (M [] k (ks ++ [Elapsed t]) eq_refl) as H. cbn [map last] in H. cbn [app passed].
    destruct (IH (stamp k) t) as [I1 I2]; [lia| |rewrite I2; rewrite Z.mod_small by lia; lia].
    intros ks1 k1 ks2 E. specialize (M (k :: ks1) k1 ks2 ltac:(cbn [app]; now rewrite E)). cbn [map] in M. rewrite last_cons in M. exact M.
Qed.

Lemma telescope Fn Fd f : forall ks e t0 rs, length rs = length ks -> (forall k, In k ks -> exists t, k = Elapsed t) ->
  (forall ks1 k ks2, ks = ks1 ++ k :: ks2 -> nth_error rs (length ks1) = Some (expected Fn Fd f (e + passed t0 ks1) (e + passed t0 (ks1 ++ [k])) k)) ->
  fold_right Z.add 0 rs mod 2 ^ 64 = (ticks Fn Fd f (e + passed t0 ks) - ticks Fn Fd f e) mod 2 ^ 64.
Proof.
  induction ks as [|k ks IH]; intros e t0 [|r rs] L A N; try discriminate; cbn [fold_right passed].
  - rewrite Z.add_0_r, Z.sub_diag. reflexivity.
  - pose proof (N [] k ks eq_refl) as H. cbn [length nth_error passed app] in H. injection H as ->. destruct (A k ltac:(now left)) as [t ->]. cbn [expected stamp] in *.
    rewrite !Z.add_0_r in *. rewrite Z.add_mod_idemp_l, <- Z.add_mod_idemp_r by lia. rewrite (IH (e + (t - t0) mod 2 ^ 64) t).
    + rewrite Z.add_mod_idemp_r by lia. f_equal. rewrite Z.add_assoc. change (Z.pow_pos 2 64) with (2 ^ 64). lia.
    + cbn [length] in L. lia.
    + intros k' I. apply A. now right.
    + intros ks1 k1 ks2 E. specialize (N (Elapsed t :: ks1) k1 ks2 ltac:(cbn [app]; now rewrite E)).
      cbn [length nth_error app passed stamp] in N. rewrite !Z.add_assoc in N. exact N.
Qed.

(** C35: the increments returned by elapsed() add up to the tick, however the time is sliced. *)
Theorem C35_increments_sum : forall Fn Fd f t0, 0 <= Fn -> 0 < f * Fd < 2 ^ 64 -> (f * Fd - 1) * (Fn + 1) < 2 ^ 64 -> forall ts,
  exists rs c, k_run Fn Fd (k_reset f t0) (map Elapsed ts) = Ok (rs, c) /\ fold_right Z.add 0 rs mod 2 ^ 64 = k_tick c.
Proof.
  intros Fn Fd f t0 H1 H2 H3 ts. destruct (C35_no_drift Fn Fd f t0 H1 H2 H3 (map Elapsed ts)) as (rs & c & E & L & T & N).
  exists rs, c. split; [assumption|]. rewrite T. rewrite (telescope Fn Fd f (map Elapsed ts) 0 t0 rs L).
  - unfold ticks at 2. rewrite Z.mul_0_l, Z.div_0_l, Z.sub_0_r by lia. reflexivity.
  - intros k I. apply in_map_iff in I. destruct I as (t & <- & _). eauto.
  - exact N.
Qed.
Print Assumptions C35_increments_sum.

(** C35 without any modulus: a counter that never goes back, read last at t, and a tick count that fits 64 bits. *)
Theorem C35_exact : forall Fn Fd f t0 t, 0 <= Fn -> 0 < f * Fd < 2 ^ 64 -> (f * Fd - 1) * (Fn + 1) < 2 ^ 64 -> 0 <= t0 -> forall ks,
  (forall ks1 k ks2, ks ++ [Elapsed t] = ks1 ++ k :: ks2 -> last (map stamp ks1) t0 <= stamp k < 2 ^ 64) ->
  (t - t0) * Fn / (f * Fd) < 2 ^ 64 ->
  exists rs c, k_run Fn Fd (k_reset f t0) (ks ++ [Elapsed t]) = Ok (rs, c) /\ k_tick c = (t - t0) * Fn / (f * Fd).
Proof.
  intros Fn Fd f t0 t H1 H2 H3 H0 ks M Hb. destruct (C35_no_drift Fn Fd f t0 H1 H2 H3 (ks ++ [Elapsed t])) as (rs & c & E & L & T & _).
  exists rs, c. split; [assumption|]. rewrite T. destruct (passed_monotone ks t0 t H0 M) as [Le ->]. unfold ticks. apply Z.mod_small.
  split; [apply Z.div_pos; nia|assumption].
Qed.
Print Assumptions C35_exact.

(** 60 frames per second on a 10 MHz counter, read at irregular times. *)
Example C35_nonvacuous : (10000000 * 1 - 1) * (60 + 1) < 2 ^ 64 /\
  k_run 60 1 (k_reset 10000000 1000) (map Elapsed [1100; 167666; 167667; 10001000; 10001001]) =
    Ok ([0; 0; 1; 59; 0], {| k_frequency := 10000000; k_timestamp := 10001001; k_residual := 60; k_tick := 60 |}).
Proof. split; reflexivity. Qed.

(** The condition is needed: with a rate of 2^33 per second on a 2^32 Hz counter a single read is already wrong. *)
Theorem C35_condition_needed : (2 ^ 32 * 1 - 1) * (2 ^ 33 + 1) >= 2 ^ 64 /\
  exists r c, k_elapsed (2 ^ 33) 1 (k_reset (2 ^ 32) 0) (2 ^ 32 - 1) = Ok (r, c) /\ r <> ticks (2 ^ 33) 1 (2 ^ 32) (2 ^ 32 - 1).
Proof. split; [vm_compute; discriminate|]. eexists _, _. split; [vm_compute; reflexivity|]. vm_compute. discriminate. Qed.
Print Assumptions C35_condition_needed.
