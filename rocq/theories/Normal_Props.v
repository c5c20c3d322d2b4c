(** C85: normal. *)
From Coq Require Import Reals Lra Psatz Floats.SpecFloat.
From Flocq Require Import Core.
From Verif Require Import Base Normal_Model Normal_Spec Normal_Proofs.
Local Open Scope R_scope.

Lemma pw e : powerRZ 2 e = bpow radix2 e. Proof. symmetry. exact (bpow_powerRZ radix2 e). Qed.

Lemma one_square d n q : 0 <= d <= / 1000 -> Rabs q <= 1 -> Rabs (n - q) <= d * Rabs q + eta ->
  Rabs (n * n - q * q) <= 21 / 10 * d * (q * q) + 3 * eta.
Proof.
  intros Hd Hq H. assert (EP : 0 < eta) by apply bpow_gt_0.
  assert (E1 : eta <= / 1000) by (unfold eta; apply Rle_trans with (bpow radix2 (-10)); [apply bpow_le; lia|]; change (bpow radix2 (-10)) with (/ 1024); lra).
  replace (n * n - q * q) with ((n - q) * (n - q + 2 * q)) by ring. rewrite Rabs_mult.
  assert (T : Rabs (n - q + 2 * q) <= Rabs (n - q) + 2 * Rabs q).
  { eapply Rle_trans; [apply Rabs_triang|]. rewrite (Rabs_mult 2 q). rewrite (Rabs_pos_eq 2) by lra. lra. }
  assert (QQ : q * q = Rabs q * Rabs q) by (rewrite <- Rabs_mult; symmetry; apply Rabs_pos_eq; apply Rle_0_sqr). rewrite QQ.
  assert (0 <= Rabs q) by apply Rabs_pos. assert (0 <= Rabs (n - q)) by apply Rabs_pos. assert (0 <= Rabs (n - q + 2 * q)) by apply Rabs_pos.
  set (aq := Rabs q) in *. set (d1 := Rabs (n - q)) in *. set (d2 := Rabs (n - q + 2 * q)) in *. clearbody aq d1 d2. clear QQ.
  apply Rle_trans with (d1 * (d1 + 2 * aq)); [nra|]. apply Rle_trans with ((d * aq + eta) * ((d * aq + eta) + 2 * aq)); [nra|].
  assert (eta * eta <= eta * / 1000) by nra. assert (d * (d * (aq * aq)) <= / 1000 * (d * (aq * aq))) by (assert (0 <= aq * aq) by nra; assert (0 <= d * (aq * aq)) by nra; nra).
  assert (d * aq * eta <= / 1000 * eta) by (assert (0 <= aq * eta) by nra; nra). assert (aq * eta <= eta) by nra. nra.
Qed.

Lemma normal_direction r_of eps d v : 0 <= eps <= / 2000 -> eps + 4 * u <= d <= / 1000 -> reasonable v ->
  (forall m, float32 m -> bpow radix2 (-126) <= real m <= bpow radix2 126 -> float32 (r_of m) /\ Rabs (real (r_of m) * sqrt (real m) - 1) <= eps) ->
  direction d (normal r_of v) v.
Proof.
  intros He Hd HV HR. destruct v as [[x y] z]. destruct HV as (Hx & Hy & Hz & L1 & L2). unfold direction, normal.
  assert (Xp := Rle_0_sqr (real x)). assert (Yp := Rle_0_sqr (real y)). assert (Zp := Rle_0_sqr (real z)). unfold Rsqr in *.
  set (l := len (real x) (real y) (real z)) in *. unfold len in l. rewrite pw in L1, L2.
  assert (LL := sqrt_sqrt (real x * real x + real y * real y + real z * real z) ltac:(lra)). fold l in LL.
  assert (P62 := bpow_gt_0 radix2 (-62)).
  assert (B : bpow radix2 (-124) <= real x * real x + real y * real y + real z * real z <= bpow radix2 124).
  { rewrite <- LL. replace (bpow radix2 (-124)) with (bpow radix2 (-62) * bpow radix2 (-62)) by (rewrite <- bpow_plus; reflexivity).
    replace (bpow radix2 124) with (bpow radix2 62 * bpow radix2 62) by (rewrite <- bpow_plus; reflexivity). split; apply Rmult_le_compat; lra. }
  destruct (sum_ok x y z Hx Hy Hz B) as (Fm & Em).
  set (m := fadd (fadd (fmul x x) (fmul y y)) (fmul z z)) in *.
  assert (Bm : bpow radix2 (-126) <= real m <= bpow radix2 126).
  { apply abs_bound in Em. unfold u in Em. assert (P := bpow_gt_0 radix2 (-126)). assert (P' := bpow_gt_0 radix2 124).
    assert (E1 : bpow radix2 (-124) = 4 * bpow radix2 (-126)) by (change (-124)%Z with (2 + -126)%Z; rewrite bpow_plus; reflexivity).
    assert (E2 : bpow radix2 126 = 4 * bpow radix2 124) by (change 126%Z with (2 + 124)%Z; rewrite bpow_plus; reflexivity). lra. }
  destruct (HR m Fm Bm) as (Fr & Er).
  assert (N := normal_ok r_of x y z eps Hx Hy Hz B ltac:(lra) Fr Er). fold m in N. fold l in N.
  destruct (N x Hx ltac:(lra)) as (Fx & Nx). destruct (N y Hy ltac:(lra)) as (Fy & Ny). destruct (N z Hz ltac:(lra)) as (Fz & Nz). clear N.
  set (nx := fmul x (r_of m)) in *. set (ny := fmul y (r_of m)) in *. set (nz := fmul z (r_of m)) in *. clearbody nx ny nz.
  assert (W : forall n v, Rabs (real n - real v / l) <= (eps + 4 * u) * Rabs (real v / l) + eta -> near d n v l).
  { intros n v H. unfold near. rewrite pw. eapply Rle_trans; [exact H|]. apply Rplus_le_compat_r. apply Rmult_le_compat_r; [apply Rabs_pos|lra]. }
  apply W in Nx, Ny, Nz. split; [assumption|]. split; [assumption|]. split; [assumption|]. split; [assumption|]. split; [assumption|]. split; [assumption|].
  unfold near in *. rewrite pw in Nx, Ny, Nz. fold eta in Nx, Ny, Nz.
  assert (lp : 0 < l) by lra.
  assert (ONE : (real x / l) * (real x / l) + (real y / l) * (real y / l) + (real z / l) * (real z / l) = 1).
  { replace (real x / l * (real x / l) + real y / l * (real y / l) + real z / l * (real z / l)) with ((real x * real x + real y * real y + real z * real z) / (l * l)) by (field; lra).
    rewrite <- LL. field. lra. }
  set (qx := real x / l) in *. set (qy := real y / l) in *. set (qz := real z / l) in *.
  assert (Qx := Rle_0_sqr qx). assert (Qy := Rle_0_sqr qy). assert (Qz := Rle_0_sqr qz). unfold Rsqr in *.
  assert (AQ : forall q, q * q <= 1 -> Rabs q <= 1) by (intros q Hq; apply Rabs_le; nra).
  assert (d0 : 0 <= d <= / 1000) by (unfold u in Hd; lra).
  assert (Sx := one_square d (real nx) qx d0 (AQ qx ltac:(lra)) Nx). assert (Sy := one_square d (real ny) qy d0 (AQ qy ltac:(lra)) Ny). assert (Sz := one_square d (real nz) qz d0 (AQ qz ltac:(lra)) Nz).
  apply abs_bound in Sx, Sy, Sz. unfold len.
  assert (Nxp := Rle_0_sqr (real nx)). assert (Nyp := Rle_0_sqr (real ny)). assert (Nzp := Rle_0_sqr (real nz)). unfold Rsqr in *.
  set (n2 := real nx * real nx + real ny * real ny + real nz * real nz).
  assert (T := sqrt_sqrt n2 ltac:(unfold n2; lra)). assert (T0 := sqrt_pos n2). set (t := sqrt n2) in *. clearbody t.
  assert (EU : 100 * eta <= u).
  { unfold eta. apply Rle_trans with (128 * bpow radix2 (-150)); [assert (P := bpow_gt_0 radix2 (-150)); lra|].
    change 128 with (bpow radix2 7). rewrite <- bpow_plus. unfold u. change (/ 16777216) with (bpow radix2 (-24)). apply bpow_le. lia. }
  assert (N2 : - (22 / 10 * d) <= n2 - 1 <= 22 / 10 * d).
  { unfold n2. set (a1 := qx * qx) in *. set (a2 := qy * qy) in *. set (a3 := qz * qz) in *.
    assert (D : 21 / 10 * d * a1 + 21 / 10 * d * a2 + 21 / 10 * d * a3 = 21 / 10 * d) by (replace (21 / 10 * d * a1 + 21 / 10 * d * a2 + 21 / 10 * d * a3) with (21 / 10 * d * (a1 + a2 + a3)) by ring; rewrite ONE; ring).
    lra. }
  rewrite <- T in N2. clear - N2 T0 d0. apply Rabs_le. split; nra.
Qed.

(** C85: with rsqrtss as documented, each component is right up to 2^-11. *)
Theorem C85_x86_partial : forall rs v, rsqrtss rs -> reasonable v -> direction (powerRZ 2 (-11)) (normal rs v) v.
Proof.
  intros rs v (R & _) V. apply normal_direction with (eps := 3 / 2 * powerRZ 2 (-12)).
  - rewrite pw. change (bpow radix2 (-12)) with (/ 4096). lra.
  - rewrite !pw. change (bpow radix2 (-12)) with (/ 4096). change (bpow radix2 (-11)) with (/ 2048). unfold u. lra.
  - exact V.
  - intros m Fm B. apply R; [assumption|]. rewrite pw. lra.
Qed.
Print Assumptions C85_x86_partial.

(** C85: elsewhere, up to 2^-21. *)
Theorem C85_portable_partial : forall v, reasonable v -> direction (powerRZ 2 (-21)) (normal r_portable v) v.
Proof.
  intros v V. apply normal_direction with (eps := 21 / 10 * u).
  - unfold u. lra.
  - rewrite pw. change (bpow radix2 (-21)) with (/ 2097152). unfold u. lra.
  - exact V.
  - intros m Fm B. apply portable_ok; [assumption|]. split; [apply B|]. eapply Rle_trans; [apply B|apply bpow_le; lia].
Qed.
Print Assumptions C85_portable_partial.

(** The full property fails: the zero vector gives NaNs in both builds, and vectors that are too short or too long
    do not give a direction although their components are ordinary numbers. *)
Theorem C85_zero_refuted : forall r_of, rsqrtss r_of \/ r_of = r_portable ->
  normal r_of (S754_zero false, S754_zero false, S754_zero false) = (S754_nan, S754_nan, S754_nan).
Proof.
  intros r_of H. unfold normal. replace (r_of _) with (S754_infinity false).
  - reflexivity.
  - destruct H as [(_ & H)| ->]; [symmetry; exact H|reflexivity].
Qed.
Print Assumptions C85_zero_refuted.

Theorem C85_extremes_refuted :
  let f e := S754_finite false 8388608 (e - 23) in
  (forall e, e = (-80)%Z \/ e = 64%Z -> float32 (f e)) /\
  normal r_portable (f (-80)%Z, S754_zero false, S754_zero false) = (S754_infinity false, S754_nan, S754_nan) /\
  normal r_portable (f 64%Z, S754_zero false, S754_zero false) = (S754_zero false, S754_zero false, S754_zero false).
Proof. split; [intros e [->| ->]; split; (reflexivity || exact I)|]. split; reflexivity. Qed.
Print Assumptions C85_extremes_refuted.

(** The documentation of rsqrtss can be met. *)
Example C85_rsqrtss : rsqrtss r_portable.
Proof.
  split; [|reflexivity]. intros m Fm B. rewrite pw in B. destruct (portable_ok m Fm) as (F & E); [split; [assumption|now apply float32_max]|].
  split; [assumption|]. eapply Rle_trans; [exact E|]. rewrite pw. change (bpow radix2 (-12)) with (/ 4096). unfold u. lra.
Qed.

(** (3, 0, -4) gives (0.6, 0, -0.8) rounded. *)
Example C85_case :
  let v := (S754_finite false 12582912 (-22), S754_zero false, S754_finite true 8388608 (-21)) in
  reasonable v /\ normal r_portable v = (S754_finite false 10066330 (-24), S754_zero false, S754_finite true 13421773 (-24)).
Proof.
  split; [|vm_compute; reflexivity].
  assert (E3 : real (S754_finite false 12582912 (-22)) = 3) by (cbn [real]; rewrite pw; change (bpow radix2 (-22)) with (/ 4194304); lra).
  assert (E4 : real (S754_finite true 8388608 (-21)) = -4) by (cbn [real]; rewrite pw; change (bpow radix2 (-21)) with (/ 2097152); lra).
  unfold reasonable. rewrite E3, E4. split; [split; [reflexivity|exact I]|]. split; [split; [reflexivity|exact I]|]. split; [split; [reflexivity|exact I]|].
  unfold len. cbn [real]. replace (3 * 3 + 0 * 0 + -4 * -4) with (5 * 5) by ring. rewrite sqrt_square by lra. rewrite !pw. split.
  - apply Rle_trans with (bpow radix2 0); [apply bpow_le; lia|]. cbn. lra.
  - apply Rle_trans with (bpow radix2 3); [cbn; lra|apply bpow_le; lia].
Qed.
