(** Rational bounds of atan(2^-i) and of PI, from the alternating series of the standard library, and the constants of
    the CORDIC loops compared with them. *)
From Coq Require Import Reals Ratan AltSeries QArith Qpower Qreals Lra.
From Verif Require Import Base Cordic_Model.
Local Open Scope Z_scope.

Definition ks_lit : list Z :=
  Eval vm_compute in ks.

Lemma ks_values : ks = ks_lit.
Proof. vm_compute. reflexivity. Qed.

Local Open Scope Q_scope.

(** The partial sums of x - x^3/3 + x^5/5 - ... *)
Definition at_term (x : Q) (n : nat) : Q := (-1) ^ Z.of_nat n * (x ^ Z.of_nat (2 * n + 1) / inject_Z (Z.of_nat (2 * n + 1))).
Fixpoint at_sum (x : Q) (n : nat) : Q :=
  match n with O => at_term x 0 | S m => at_sum x m + at_term x (S m) end.

Lemma Q2R_pow : forall x n, Q2R (x ^ Z.of_nat n) = (Q2R x ^ n)%R.
Proof.
  intros x n. induction n as [|n IH].
  - cbn. unfold Q2R. cbn. lra.
  - rewrite Nat2Z.inj_succ, <- Z.add_1_r.
    destruct (Qeq_dec x 0) as [E|E].
    + assert (H : x ^ (Z.of_nat n + 1) == 0).
      { rewrite E. rewrite Z.add_1_r. destruct n; [reflexivity|]. rewrite Qpower_0; [reflexivity|lia]. }
      rewrite (Qeq_eqR _ _ H). assert (Hx : Q2R x = 0%R) by (rewrite (Qeq_eqR _ _ E); unfold Q2R; cbn; lra).
      rewrite Hx. cbn [pow]. unfold Q2R; cbn; lra.
    + assert (H : x ^ (Z.of_nat n + 1) == x * x ^ Z.of_nat n).
      { rewrite Qpower_plus by exact E. cbn [Qpower Qpower_positive Pos.iter_op]. rewrite Qmult_comm. reflexivity. }
      rewrite (Qeq_eqR _ _ H), Q2R_mult, IH. reflexivity.
Qed.

Lemma Q2R_term : forall x n, Q2R (at_term x n) = tg_alt (Ratan_seq (Q2R x)) n.
Proof.
  intros x n. unfold at_term, tg_alt, Ratan_seq.
  rewrite Q2R_mult, Q2R_div, !Q2R_pow.
  - f_equal. f_equal. unfold Q2R; cbn; lra.
    f_equal. rewrite INR_IZR_INZ. unfold Q2R, inject_Z; cbn [Qnum Qden]. lra.
  - intro H. unfold Qeq, inject_Z in H. cbn [Qnum Qden] in H. lia.
Qed.

Lemma Q2R_sum : forall x n, Q2R (at_sum x n) = sum_f_R0 (tg_alt (Ratan_seq (Q2R x))) n.
Proof.
  intros x n. induction n as [|n IH]; cbn [at_sum sum_f_R0].
  - apply Q2R_term.
  - rewrite Q2R_plus, IH, Q2R_term. reflexivity.
Qed.

Lemma atan_bounds : forall x n, (0 < Q2R x < 1)%R ->
  (Q2R (at_sum x (S (2 * n))) <= atan (Q2R x) <= Q2R (at_sum x (2 * n)))%R.
Proof.
  intros x n Hx. rewrite !Q2R_sum. apply alternated_series_ineq.
  - apply Ratan_seq_decreasing. lra.
  - apply Ratan_seq_converging. lra.
  - rewrite atan_eq_ps_atan by exact Hx. unfold ps_atan. destruct (Ratan.in_int (Q2R x)) as [h|h]; [|lra].
    destruct (ps_atan_exists_1 (Q2R x) h) as [l Hl]. exact Hl.
Qed.

Definition pi_lo : Q := Eval vm_compute in Qred (16 * at_sum (1 # 5) 21 - 4 * at_sum (1 # 239) 8).
Definition pi_hi : Q := Eval vm_compute in Qred (16 * at_sum (1 # 5) 20 - 4 * at_sum (1 # 239) 9).

Lemma pi_bounds : (Q2R pi_lo <= PI <= Q2R pi_hi)%R.
Proof.
  assert (M := Machin_4_5_239).
  assert (E5 : Q2R (1 # 5) = (/ 5)%R) by (unfold Q2R; cbn; lra).
  assert (E239 : Q2R (1 # 239) = (/ 239)%R) by (unfold Q2R; cbn; lra).
  assert (A := atan_bounds (1 # 5) 10 ltac:(rewrite E5; lra)).
  assert (B := atan_bounds (1 # 239) 4 ltac:(rewrite E239; lra)).
  rewrite E5 in A. rewrite E239 in B.
  assert (L : Qle pi_lo (16 * at_sum (1 # 5) 21 - 4 * at_sum (1 # 239) 8)) by (vm_compute; discriminate).
  assert (H : Qle (16 * at_sum (1 # 5) 20 - 4 * at_sum (1 # 239) 9) pi_hi) by (vm_compute; discriminate).
  apply Qle_Rle in L, H. rewrite Q2R_minus, !Q2R_mult in L, H.
  replace (Q2R 16) with 16%R in L, H by (unfold Q2R; cbn; lra).
  replace (Q2R 4) with 4%R in L, H by (unfold Q2R; cbn; lra).
  change (S (2 * 10)) with 21%nat in A. change (2 * 10)%nat with 20%nat in A.
  change (S (2 * 4)) with 9%nat in B. change (2 * 4)%nat with 8%nat in B.
  lra.
Qed.

(** What vm_compute checks for each constant from the second on: atan(2^-i) * 2^62 / PI is within 2^18 of it. *)
Definition ks_ok (i : nat) (k : Z) : bool :=
  let x := 1 # Z.to_pos (2 ^ Z.of_nat i) in
  Qle_bool (at_sum x (2 * (12 / i + 1)) * inject_Z (2 ^ 62)) (pi_lo * inject_Z (k + 65536)) &&
  Qle_bool (pi_hi * inject_Z (k - 65536)) (at_sum x (S (2 * (12 / i + 1))) * inject_Z (2 ^ 62)).

Lemma ks_ok_all : forallb (fun i => ks_ok i (nth i ks_lit 0%Z)) (seq 1 31) = true.
Proof. vm_compute. reflexivity. Qed.

Local Open Scope R_scope.

(** atan(2^-i) in the units of z, where 2^62 is half a turn. *)
Definition theta (i : nat) : R := atan (/ 2 ^ i).
Definition unit_z : R := PI / 2 ^ 62.

Lemma Q2R_inject : forall z, Q2R (inject_Z z) = IZR z.
Proof. intro z. unfold Q2R, inject_Z. cbn [Qnum Qden]. lra. Qed.

Lemma shiftl_R : forall i, IZR (Z.pos (Z.to_pos (2 ^ Z.of_nat i))) = 2 ^ i.
Proof. intro i. rewrite Z2Pos.id by (apply Z.pow_pos_nonneg; lia). rewrite pow_IZR. reflexivity. Qed.

Lemma close_by_bounds : forall t b k a1 a2 pl ph, 0 < b -> 65536 <= k -> 0 < PI -> pl <= PI <= ph ->
  a2 <= t <= a1 -> a1 * b <= pl * (k + 65536) -> ph * (k - 65536) <= a2 * b ->
  Rabs (t - PI / b * k) <= PI / b * 65536.
Proof.
  intros t b k a1 a2 pl ph B K P0 P A F1 F2.
  assert (U : t * b <= PI * (k + 65536)).
  { apply Rle_trans with (a1 * b); [apply Rmult_le_compat_r; lra|].
    apply Rle_trans with (pl * (k + 65536)); [exact F1|]. apply Rmult_le_compat_r; lra. }
  assert (L : PI * (k - 65536) <= t * b).
  { apply Rle_trans with (a2 * b); [|apply Rmult_le_compat_r; lra].
    apply Rle_trans with (ph * (k - 65536)); [|exact F2]. apply Rmult_le_compat_r; lra. }
  apply Rabs_le. split.
  - apply Rmult_le_reg_r with b; [lra|]. replace (- (PI / b * 65536) * b) with (- (PI * 65536)) by (field; lra).
    replace ((t - PI / b * k) * b) with (t * b - PI * k) by (field; lra). lra.
  - apply Rmult_le_reg_r with b; [lra|]. replace (PI / b * 65536 * b) with (PI * 65536) by (field; lra).
    replace ((t - PI / b * k) * b) with (t * b - PI * k) by (field; lra). lra.
Qed.

Lemma ks_big : forall i, (i < 32)%nat -> 65536 <= IZR (nth i ks_lit 0%Z).
Proof.
  intros i Hi. apply IZR_le.
  assert (FF : forallb (fun i => (65536 <=? nth i ks_lit 0)%Z) (seq 0 32) = true) by (vm_compute; reflexivity).
  assert (F3 := proj1 (forallb_forall _ _) FF i (proj2 (in_seq 32 0 i) ltac:(lia))). cbn beta in F3. lia.
Qed.

Opaque at_sum.
Lemma ks_close : forall i, (i < 32)%nat -> Rabs (theta i - unit_z * IZR (nth i ks_lit 0%Z)) <= unit_z * 65536.
Proof.
  intros i Hi. unfold theta, unit_z.
  assert (P := pi_bounds).
  assert (P0 : 0 < PI) by apply PI_RGT_0.
  destruct i as [|i].
  - replace (/ 2 ^ 0) with 1 by (cbn; lra). rewrite atan_1. replace (IZR (nth 0 ks_lit 0%Z)) with (2 ^ 60).
    + replace (PI / 4 - PI / 2 ^ 62 * 2 ^ 60) with 0 by (field; lra).
      rewrite Rabs_R0. assert (0 < PI / 2 ^ 62) by (apply Rdiv_lt_0_compat; [lra|apply pow_lt; lra]). lra.
    + rewrite pow_IZR. reflexivity.
  - assert (F := proj1 (forallb_forall _ _) ks_ok_all (S i) (proj2 (in_seq 31 1 (S i)) ltac:(lia))).
    cbn beta in F. unfold ks_ok in F. apply andb_prop in F. destruct F as [F1 F2].
    apply Qle_bool_iff in F1, F2. apply Qle_Rle in F1, F2.
    rewrite !Q2R_mult, !Q2R_inject in F1, F2. rewrite plus_IZR in F1. rewrite minus_IZR in F2.
    assert (EX : Q2R (1 # Z.to_pos (2 ^ Z.of_nat (S i))) = / 2 ^ S i).
    { unfold Q2R. cbn [Qnum Qden]. rewrite shiftl_R. lra. }
    assert (P2 : 1 <= 2 ^ i) by (apply pow_R1_Rle; lra).
    assert (HX : 0 < / 2 ^ S i < 1).
    { cbn [pow]. split; [apply Rinv_0_lt_compat; lra|]. rewrite <- Rinv_1. apply Rinv_lt_contravar; lra. }
    assert (A := atan_bounds (1 # Z.to_pos (2 ^ Z.of_nat (S i))) (12 / S i + 1)).
    rewrite EX in A. specialize (A HX).
    replace (2 ^ 62) with (IZR (2 ^ 62)%Z) by (rewrite pow_IZR; reflexivity).
    eapply close_by_bounds; [| |exact P0|exact P|exact A|exact F1|exact F2].
    + apply IZR_lt. reflexivity.
    + apply ks_big. exact Hi.
Qed.

