(** C63: isqrt and hypot against the real square root. *)
From Coq Require Import Reals Lra Psatz.
From Flocq Require Import Core.
From Verif Require Import Base Cordic_Model Sqrt_Model Sqrt_Proofs Sqrt_Spec.
Local Open Scope R_scope.

(** Perfect squares: exact for every root that is an int32, through three roundings. *)
Theorem C63_squares : forall x, (Z.abs x < 2 ^ 31)%Z -> isqrt (x * x) = Z.abs x.
Proof.
  intros x Hx. rewrite <- Z.abs_square. rewrite isqrt_is by nia. apply near_square. lia.
Qed.
Print Assumptions C63_squares.

(** The nearest integer, below 2^50. *)
Theorem C63_nearest : forall v, (0 <= v <= 2 ^ 50 - 2 ^ 25)%Z -> nearest_root v (isqrt v).
Proof. intros v Hv. unfold nearest_root. rewrite isqrt_is by lia. apply near_root. exact Hv. Qed.
Print Assumptions C63_nearest.

(** Above 2^50 it is not: the root of n(n+1) is below n + 1/2, the double nearest to it is n + 1/2, and the tie goes to the
    even neighbour n + 1. *)
Theorem C63_nearest_refuted : exists v, (0 <= v < 2 ^ 51)%Z /\ ~ nearest_root v (isqrt v).
Proof.
  exists ((2 ^ 25 + 1) * (2 ^ 25 + 2))%Z. split; [lia|].
  replace (isqrt ((2 ^ 25 + 1) * (2 ^ 25 + 2))) with (2 ^ 25 + 2)%Z by (vm_compute; reflexivity).
  unfold nearest_root. intro H.
  assert (E := sqrt_sqrt (IZR ((2 ^ 25 + 1) * (2 ^ 25 + 2))) ltac:(apply IZR_le; lia)).
  assert (P := sqrt_pos (IZR ((2 ^ 25 + 1) * (2 ^ 25 + 2)))).
  set (s := sqrt _) in *. clearbody s.
  change (IZR (2 ^ 25 + 2)) with 33554434 in H. change (IZR ((2 ^ 25 + 1) * (2 ^ 25 + 2))) with 1125900007505922 in E.
  unfold Rabs in H. destruct (Rcase_abs (33554434 - s)); nra.
Qed.
Print Assumptions C63_nearest_refuted.

(** For every v up to the last one whose rounded root is an int32: within 1/2 + 2^-20 of the root. *)
Theorem C63_close : forall v, (0 <= v < 2 ^ 62 - 2 ^ 31 - 256)%Z ->
  Rabs (IZR (isqrt v) - sqrt (IZR v)) <= 1 / 2 + / 2 ^ 20.
Proof.
  intros v Hv. rewrite (proj1 (isqrt_low v Hv)). destruct (Z.eq_dec v 0) as [->|NZ].
  - rewrite (rnd_int 0), sqrt_0, (rnd_int 0) by (cbn; lia). rewrite (Zrnd_IZR ZnearestE 0), Rminus_0_r, Rabs_R0.
    assert (0 < / 2 ^ 20) by (apply Rinv_0_lt_compat; apply pow_lt; lra). lra.
  - assert (V : 1 <= IZR v) by (apply IZR_le; lia). destruct (root_err _ V) as [E _].
    assert (N := Znearest_half (fun n => negb (Z.even n)) (rnd (sqrt (rnd (IZR v))))).
    assert (SB : sqrt (IZR v) <= 2147483648).
    { rewrite <- (sqrt_Rsqr 2147483648) by lra. unfold Rsqr. apply sqrt_le_1_alt. rewrite <- mult_IZR. apply IZR_le. lia. }
    assert (P53 : 2 ^ 53 = 9007199254740992) by (rewrite pow_IZR; reflexivity).
    assert (P20 : 2 ^ 20 = 1048576) by (rewrite pow_IZR; reflexivity). rewrite P53 in E. rewrite P20.
    unfold Rabs in *. destruct (Rcase_abs (rnd (sqrt (rnd (IZR v))) - sqrt (IZR v)));
      destruct (Rcase_abs (rnd (sqrt (rnd (IZR v))) - IZR (ZnearestE (rnd (sqrt (rnd (IZR v)))))));
      destruct (Rcase_abs (IZR (ZnearestE (rnd (sqrt (rnd (IZR v))))) - sqrt (IZR v))); lra.
Qed.
Print Assumptions C63_close.

(** A larger v never has a smaller isqrt. *)
Theorem C63_monotone : forall v w, (0 <= v <= w)%Z -> (w < 2 ^ 62 - 2 ^ 31 - 256)%Z -> (isqrt v <= isqrt w)%Z.
Proof. intros v w H B. rewrite (proj1 (isqrt_low v ltac:(unfold edge; lia))), (proj1 (isqrt_low w ltac:(unfold edge; lia))). apply root_mono. exact H. Qed.
Print Assumptions C63_monotone.

(** Every int64: the result is the most negative int32 exactly for a negative argument and for the ones from 2^62 - 2^31 - 256 on,
    and else a non-negative int32. *)
Theorem C63_out_of_range : forall v, (- 2 ^ 63 <= v < 2 ^ 63)%Z ->
  (isqrt v = (- 2 ^ 31)%Z <-> (v < 0 \/ 2 ^ 62 - 2 ^ 31 - 256 <= v)%Z) /\ (isqrt v <> (- 2 ^ 31)%Z -> (0 <= isqrt v < 2 ^ 31)%Z).
Proof.
  intros v Hv. destruct (Z.ltb_spec v 0) as [N|N].
  { rewrite isqrt_neg by lia. split; [split; [left; exact N|reflexivity]|congruence]. }
  destruct (Z.leb_spec (2 ^ 62 - 2 ^ 31 - 256) v) as [H|H].
  { rewrite isqrt_high by (unfold edge; lia). split; [split; [right; exact H|reflexivity]|congruence]. }
  destruct (isqrt_low v ltac:(unfold edge; lia)) as [_ R]. split; [split; lia|intros _; exact R].
Qed.
Print Assumptions C63_out_of_range.

(** hypot: no overflow and the same accuracy, for every vector whose rounded length is an int32. *)
Theorem C63_hypot : forall x y, (x * x + y * y < 2 ^ 62 - 2 ^ 31 - 256)%Z ->
  exists n, hypot x y = Ok n /\ Rabs (IZR n - sqrt (IZR (x * x + y * y))) <= 1 / 2 + / 2 ^ 20 /\
    ((x * x + y * y <= 2 ^ 50 - 2 ^ 25)%Z -> nearest_root (x * x + y * y) n) /\
    (y = 0%Z -> n = Z.abs x) /\ (x = 0%Z -> n = Z.abs y).
Proof.
  intros x y H. exists (isqrt (x * x + y * y)). assert (0 <= x * x)%Z by nia. assert (0 <= y * y)%Z by nia.
  split; [|split; [apply C63_close; lia|split; [intro; apply C63_nearest; lia|]]].
  - unfold hypot. rewrite !chk64_ok by (unfold in_s; cbn in *; lia). cbn [bind]. rewrite chk64_ok by (unfold in_s; cbn in *; lia). reflexivity.
  - split; intros ->; [rewrite Z.add_0_r in *|rewrite Z.add_0_l in *]; apply C63_squares; nia.
Qed.
Print Assumptions C63_hypot.

Lemma hypot_ok : forall x y, (x * x + y * y < 2 ^ 63)%Z -> hypot x y = Ok (isqrt (x * x + y * y)).
Proof.
  intros x y H. assert (0 <= x * x)%Z by nia. assert (0 <= y * y)%Z by nia. unfold hypot.
  rewrite !chk64_ok by (unfold in_s; cbn in *; lia). cbn [bind]. rewrite chk64_ok by (unfold in_s; cbn in *; lia). reflexivity.
Qed.

(** All pairs of int32: undefined only for the two most negative, the most negative int32 exactly when the length is too large,
    and the sign of a coordinate or their order never matters. *)
Theorem C63_hypot_total : forall x y, (- 2 ^ 31 <= x < 2 ^ 31)%Z -> (- 2 ^ 31 <= y < 2 ^ 31)%Z ->
  (hypot x y = UB <-> (x = - 2 ^ 31 /\ y = - 2 ^ 31)%Z) /\
  (hypot x y <> UB -> exists n, hypot x y = Ok n /\ (n = (- 2 ^ 31)%Z <-> (2 ^ 62 - 2 ^ 31 - 256 <= x * x + y * y)%Z) /\ (n <> (- 2 ^ 31)%Z -> (0 <= n < 2 ^ 31)%Z)) /\
  hypot y x = hypot x y /\ (x <> (- 2 ^ 31)%Z -> hypot (- x) y = hypot x y).
Proof.
  intros x y Hx Hy. assert (X0 : (0 <= x * x <= 2 ^ 62)%Z) by nia. assert (Y0 : (0 <= y * y <= 2 ^ 62)%Z) by nia.
  assert (H : hypot x y = UB /\ (x = - 2 ^ 31 /\ y = - 2 ^ 31)%Z \/ ~ (x = - 2 ^ 31 /\ y = - 2 ^ 31)%Z /\ (x * x + y * y < 2 ^ 63)%Z /\ hypot x y = Ok (isqrt (x * x + y * y))).
  { destruct (Z.eq_dec x (- 2 ^ 31)) as [->|Nx].
    - destruct (Z.eq_dec y (- 2 ^ 31)) as [->|Ny].
      + left. split; [vm_compute; reflexivity|split; reflexivity].
      + right. assert (y * y < 2 ^ 62)%Z by nia. split; [tauto|]. split; [lia|]. apply hypot_ok. lia.
    - right. assert (x * x < 2 ^ 62)%Z by nia. split; [tauto|]. split; [lia|]. apply hypot_ok. lia. }
  split; [|split; [|split]].
  - destruct H as [[-> K]|(K & _ & ->)].
    + split; intro; [exact K|reflexivity].
    + split; intro Q; [discriminate Q|contradiction].
  - intro NU. destruct H as [[E _]|(_ & B & ->)]; [contradiction|]. eexists. split; [reflexivity|].
    destruct (C63_out_of_range (x * x + y * y) ltac:(lia)) as [I J]. split; [|exact J].
    split; [intro K; apply I in K; lia|intro K; apply I; right; exact K].
  - clear H. unfold hypot. rewrite !chk64_ok by (unfold in_s; cbn in *; lia). cbn [bind]. rewrite (Z.add_comm (y * y)). reflexivity.
  - intro. unfold hypot. replace (- x * - x)%Z with (x * x)%Z by ring. reflexivity.
Qed.
Print Assumptions C63_hypot_total.

(** Outside: two most negative coordinates overflow; a length over the int32 range comes back as the most negative int32. *)
Theorem C63_hypot_refuted : hypot (- 2 ^ 31) (- 2 ^ 31) = UB /\ hypot (2 ^ 31 - 1) (2 ^ 31 - 1) = Ok (- 2 ^ 31)%Z /\ hypot (- 2 ^ 31) 0 = Ok (- 2 ^ 31)%Z.
Proof. split; [vm_compute; reflexivity|]. split; vm_compute; reflexivity. Qed.
Print Assumptions C63_hypot_refuted.

(** The version for other processors truncates instead: it is the integer part of the root (24-bit coordinates), so the two
    builds disagree. *)
Theorem C63_hypot_portable : forall x y, (Z.abs x <= 2 ^ 24)%Z -> (Z.abs y <= 2 ^ 24)%Z ->
  hypot_portable x y = Ok (Z.sqrt (x * x + y * y)).
Proof. exact hypot_portable_ok. Qed.
Print Assumptions C63_hypot_portable.
Theorem C63_builds_agree_refuted : exists x y, hypot x y <> hypot_portable x y.
Proof. exists 2%Z, 2%Z. vm_compute. discriminate. Qed.
Print Assumptions C63_builds_agree_refuted.

Example C63_nonvacuous : isqrt (123456789 * 123456789) = 123456789%Z /\ isqrt 1000003 = 1000%Z /\ hypot 3000 (-4000) = Ok 5000%Z /\
  hypot_portable (-3000) 4001 = Ok 5000%Z.
Proof. vm_compute. auto. Qed.
