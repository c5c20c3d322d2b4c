(** Real analysis of the CORDIC loops: each step turns the vector by the angle atan(2^-i) and stretches it, up to one unit
    of rounding per coordinate. *)
From Coq Require Import Reals Ratan QArith Qreals Lra Psatz.
From Verif Require Import Base Vec_Model Cordic_Model Cordic_Atan.
Local Open Scope R_scope.

Lemma Rabs_le_inv : forall a b, Rabs a <= b -> - b <= a <= b.
Proof. intros a b H. unfold Rabs in H. destruct (Rcase_abs a); lra. Qed.

Definition tR (i : nat) : R := / 2 ^ i.
Definition gR (i : nat) : R := sqrt (1 + (tR i)²).

Lemma tR_bounds : forall i, 0 < tR i <= 1.
Proof.
  intro i. unfold tR. assert (1 <= 2 ^ i) by (apply pow_R1_Rle; lra).
  split; [apply Rinv_0_lt_compat; lra|]. rewrite <- Rinv_1. apply Rinv_le_contravar; lra.
Qed.

Lemma gR_ge1 : forall i, 1 <= gR i.
Proof.
  intro i. unfold gR. rewrite <- sqrt_1 at 1. apply sqrt_le_1_alt. assert (0 <= (tR i)²) by apply Rle_0_sqr. lra.
Qed.

Lemma g_cos : forall i, gR i * cos (theta i) = 1.
Proof.
  intro i. assert (G := gR_ge1 i). unfold theta. fold (tR i). rewrite cos_atan. fold (gR i). field. lra.
Qed.
Lemma g_sin : forall i, gR i * sin (theta i) = tR i.
Proof.
  intro i. assert (G := gR_ge1 i). unfold theta. fold (tR i). rewrite sin_atan. fold (gR i). field. lra.
Qed.

(** The vector (P, Q) turned by a. *)
Definition tx (P Q a : R) : R := P * cos a - Q * sin a.
Definition ty (P Q a : R) : R := P * sin a + Q * cos a.

Lemma turn_step : forall P Q a s i, s = 1 \/ s = -1 ->
  tx (gR i * P) (gR i * Q) (a + s * theta i) = tx P Q a - s * tR i * ty P Q a /\
  ty (gR i * P) (gR i * Q) (a + s * theta i) = ty P Q a + s * tR i * tx P Q a.
Proof.
  intros P Q a s i Hs. assert (C := g_cos i). assert (S := g_sin i). unfold tx, ty.
  assert (Cs : gR i * cos (s * theta i) = 1) by (destruct Hs; subst s; [rewrite Rmult_1_l|replace (-1 * theta i) with (- theta i) by ring; rewrite cos_neg]; exact C).
  assert (Ss : gR i * sin (s * theta i) = s * tR i).
  { destruct Hs; subst s; [rewrite !Rmult_1_l; exact S|]. replace (-1 * theta i) with (- theta i) by ring. rewrite sin_neg. lra. }
  rewrite cos_plus, sin_plus. rewrite <- Ss.
  generalize dependent (cos (s * theta i)). generalize dependent (sin (s * theta i)). intros sn Ss cs Cs.
  set (ca := cos a). set (sa := sin a). clearbody ca sa.
  split.
  - replace (gR i * P * (ca * cs - sa * sn) - gR i * Q * (sa * cs + ca * sn))
      with (P * ca * (gR i * cs) - P * sa * (gR i * sn) - Q * sa * (gR i * cs) - Q * ca * (gR i * sn)) by ring.
    rewrite Cs. ring.
  - replace (gR i * P * (sa * cs + ca * sn) + gR i * Q * (ca * cs - sa * sn))
      with (P * sa * (gR i * cs) + P * ca * (gR i * sn) + Q * ca * (gR i * cs) - Q * sa * (gR i * sn)) by ring.
    rewrite Cs. ring.
Qed.

Lemma turn_norm : forall P Q a, (tx P Q a)² + (ty P Q a)² = P² + Q².
Proof.
  intros P Q a. unfold tx, ty. assert (H := sin2_cos2 a). unfold Rsqr in *.
  replace (P * P + Q * Q) with ((P * P + Q * Q) * (sin a * sin a + cos a * cos a)) by (rewrite H; ring). ring.
Qed.

Lemma tx_bound : forall P Q a M, 0 <= M -> P² + Q² <= M² -> Rabs (tx P Q a) <= M.
Proof.
  intros P Q a M HM H. rewrite <- (turn_norm P Q a) in H. apply Rabs_le. assert (0 <= (ty P Q a)²) by apply Rle_0_sqr.
  assert (H1 : (tx P Q a)² <= M²) by lra. apply Rsqr_le_abs_0 in H1. rewrite (Rabs_pos_eq M HM) in H1.
  split; [apply Rabs_le_inv in H1|apply Rabs_le_inv in H1]; lra.
Qed.
Lemma ty_bound : forall P Q a M, 0 <= M -> P² + Q² <= M² -> Rabs (ty P Q a) <= M.
Proof.
  intros P Q a M HM H. rewrite <- (turn_norm P Q a) in H. assert (0 <= (tx P Q a)²) by apply Rle_0_sqr.
  assert (H1 : (ty P Q a)² <= M²) by lra. apply Rsqr_le_abs_0 in H1. rewrite (Rabs_pos_eq M HM) in H1. exact H1.
Qed.

Lemma err_step : forall t s x y X Y x' y' E, 0 <= t -> s = 1 \/ s = -1 ->
  Rabs (x - X) <= E -> Rabs (y - Y) <= E ->
  Rabs (x' - (x - s * t * y)) <= 1 -> Rabs (y' - (y + s * t * x)) <= 1 ->
  Rabs (x' - (X - s * t * Y)) <= E + t * E + 1 /\ Rabs (y' - (Y + s * t * X)) <= E + t * E + 1.
Proof.
  intros t s x y X Y x' y' E Ht Hs Hx Hy Hx' Hy'.
  apply Rabs_le_inv in Hx, Hy, Hx', Hy'.
  assert (A1 : - (t * E) <= t * (x - X) <= t * E) by nra.
  assert (A2 : - (t * E) <= t * (y - Y) <= t * E) by nra.
  destruct Hs; subst s; split; apply Rabs_le; lra.
Qed.

(** One integer shift. *)
Lemma shiftr_R : forall v i, IZR v * tR i - 1 < IZR (Z.shiftr v (Z.of_nat i)) <= IZR v * tR i.
Proof.
  intros v i. rewrite Z.shiftr_div_pow2 by lia.
  assert (P : (0 < 2 ^ Z.of_nat i)%Z) by (apply Z.pow_pos_nonneg; lia).
  assert (D := Z.div_mod v (2 ^ Z.of_nat i) ltac:(lia)).
  assert (B := Z.mod_pos_bound v (2 ^ Z.of_nat i) P).
  set (q := (v / 2 ^ Z.of_nat i)%Z) in *. set (r := (v mod 2 ^ Z.of_nat i)%Z) in *.
  assert (PR : IZR (2 ^ Z.of_nat i) = 2 ^ i) by (rewrite pow_IZR; reflexivity).
  unfold tR. rewrite <- PR. set (p := (2 ^ Z.of_nat i)%Z) in *. clearbody q r p.
  assert (DR : IZR v = IZR p * IZR q + IZR r) by (rewrite <- mult_IZR, <- plus_IZR; f_equal; lia).
  assert (P' : 0 < IZR p) by (apply IZR_lt; exact P).
  assert (B1 : 0 <= IZR r) by (apply IZR_le; lia). assert (B2 : IZR r < IZR p) by (apply IZR_lt; lia).
  rewrite DR. replace ((IZR p * IZR q + IZR r) * / IZR p) with (IZR q + IZR r * / IZR p) by (field; lra).
  assert (0 <= IZR r * / IZR p < 1).
  { split; [apply Rmult_le_pos; [lra|left; apply Rinv_0_lt_compat; lra]|].
    apply Rmult_lt_reg_r with (IZR p); [lra|]. rewrite Rmult_assoc, Rinv_l by lra. lra. }
  lra.
Qed.

Lemma chk64_in : forall v, (- 2 ^ 63 <= v < 2 ^ 63)%Z -> chk64 v = Ok v.
Proof. intros v H. now apply chk64_ok. Qed.

Lemma flip_by_0 : forall v, (- 2 ^ 63 <= v < 2 ^ 63)%Z -> flip_by v 0 = Ok v.
Proof. intros v H. unfold flip_by. rewrite Z.lxor_0_r, Z.sub_0_r. apply chk64_in. exact H. Qed.
Lemma flip_by_m1 : forall v, (- 2 ^ 63 < v <= 2 ^ 63)%Z -> flip_by v (-1) = Ok (- v)%Z.
Proof.
  intros v H. unfold flip_by. rewrite Z.lxor_m1_r. replace (Z.lnot v - -1)%Z with (- v)%Z by (unfold Z.lnot; lia).
  apply chk64_in. lia.
Qed.
Definition sgn (b : bool) : Z := if b then (-1)%Z else 1%Z.
Lemma flip_by_sgn : forall v (b : bool), (- 2 ^ 63 < v < 2 ^ 63)%Z -> flip_by v (if b then (-1)%Z else 0%Z) = Ok (sgn b * v)%Z.
Proof.
  intros v [|] H; unfold sgn.
  - rewrite flip_by_m1 by lia. f_equal; lia.
  - rewrite flip_by_0 by lia. f_equal; lia.
Qed.

(** The error after the steps, in integers. *)
Fixpoint errZ (e : Z) (i : nat) (l : list Z) : Z :=
  match l with [] => e | _ :: l => errZ (e + e / 2 ^ Z.of_nat i + 2)%Z (S i) l end.
Fixpoint gain (i : nat) (l : list Z) : R := match l with [] => 1 | _ :: l => gR i * gain (S i) l end.

Lemma errZ_ge : forall l i e, (0 <= e)%Z -> (e <= errZ e i l)%Z.
Proof.
  induction l as [|k l IH]; intros i e He; cbn [errZ]; [lia|].
  assert (0 <= e / 2 ^ Z.of_nat i)%Z by (apply Z.div_pos; [lia|apply Z.pow_pos_nonneg; lia]).
  specialize (IH (S i) (e + e / 2 ^ Z.of_nat i + 2)%Z ltac:(lia)). lia.
Qed.
Lemma gain_ge1 : forall l i, 1 <= gain i l.
Proof.
  induction l as [|k l IH]; intro i; cbn [gain]; [lra|]. assert (H := IH (S i)). assert (G := gR_ge1 i). nra.
Qed.

Lemma err_round : forall e i, (0 <= e)%Z -> IZR e + tR i * IZR e + 1 <= IZR (e + e / 2 ^ Z.of_nat i + 2).
Proof.
  intros e i He. assert (S := shiftr_R e i). rewrite Z.shiftr_div_pow2 in S by lia. rewrite !plus_IZR. lra.
Qed.

(** State of a loop before step i. *)
Definition near (x y : Z) (P Q a : R) (e : Z) : Prop :=
  Rabs (IZR x - tx P Q a) <= IZR e /\ Rabs (IZR y - ty P Q a) <= IZR e.

Lemma near_int : forall x y P Q a e M, near x y P Q a e -> 0 <= M -> P² + Q² <= M² -> M + IZR e < 2 ^ 63 ->
  (- 2 ^ 63 < x < 2 ^ 63)%Z /\ (- 2 ^ 63 < y < 2 ^ 63)%Z.
Proof.
  intros x y P Q a e M [Hx Hy] HM HN HB.
  assert (Bx := tx_bound P Q a M HM HN). assert (By := ty_bound P Q a M HM HN).
  apply Rabs_le_inv in Hx, Hy, Bx, By.
  assert (E63 : 2 ^ 63 = IZR (2 ^ 63)) by (rewrite pow_IZR; reflexivity). rewrite E63 in HB.
  assert (EN : - IZR (2 ^ 63) = IZR (- 2 ^ 63)) by (rewrite opp_IZR; reflexivity).
  repeat split; apply lt_IZR; rewrite <- ?EN; lra.
Qed.

Lemma near_step : forall x y P Q a e i (s : Z) x' y', (0 <= e)%Z -> near x y P Q a e -> s = 1%Z \/ s = (-1)%Z ->
  Rabs (IZR x' - (IZR x - IZR s * tR i * IZR y)) <= 1 -> Rabs (IZR y' - (IZR y + IZR s * tR i * IZR x)) <= 1 ->
  near x' y' (gR i * P) (gR i * Q) (a + IZR s * theta i) (e + e / 2 ^ Z.of_nat i + 2).
Proof.
  intros x y P Q a e i s x' y' He [Hx Hy] Hs Hx' Hy'.
  assert (Hs' : IZR s = 1 \/ IZR s = -1) by (destruct Hs; subst s; [left|right]; reflexivity).
  destruct (turn_step P Q a (IZR s) i Hs') as [Tx Ty]. unfold near. rewrite Tx, Ty.
  assert (R := err_round e i He). assert (T := tR_bounds i).
  destruct (err_step (tR i) (IZR s) (IZR x) (IZR y) (tx P Q a) (ty P Q a) (IZR x') (IZR y') (IZR e)) as [A B]; try assumption; try lra.
Qed.

Lemma norm_step : forall P Q i M, P² + Q² <= M² -> (gR i * P)² + (gR i * Q)² <= (gR i * M)².
Proof. intros P Q i M H. rewrite !Rsqr_mult. assert (0 <= (gR i)²) by apply Rle_0_sqr. nra. Qed.

Fixpoint zb (b : Z) (l : list Z) : Z := match l with [] => b | k :: l => zb (Z.max (b - k) k) l end.

(** The constants from index i on. *)
Definition consts (i : nat) (l : list Z) : Prop :=
  forall j k, nth_error l j = Some k ->
    (65536 <= k <= 2 ^ 60)%Z /\ Rabs (theta (i + j) - unit_z * IZR k) <= unit_z * 65536.

Lemma consts_cons : forall i k l, consts i (k :: l) ->
  ((65536 <= k <= 2 ^ 60)%Z /\ Rabs (theta i - unit_z * IZR k) <= unit_z * 65536) /\ consts (S i) l.
Proof.
  intros i k l H. split.
  - specialize (H 0%nat k eq_refl). rewrite Nat.add_0_r in H. exact H.
  - intros j k' Hj. specialize (H (S j) k' Hj). rewrite Nat.add_succ_r in H. exact H.
Qed.

Lemma consts_ks : consts 0 ks.
Proof.
  intros j k Hj. rewrite ks_values in Hj.
  assert (Hl : (j < 32)%nat) by (assert (H : nth_error ks_lit j <> None) by congruence; apply nth_error_Some in H; exact H).
  assert (E : k = nth j ks_lit 0%Z) by (symmetry; apply nth_error_nth; exact Hj). subst k. split.
  - split.
    + apply le_IZR. apply ks_big. exact Hl.
    + assert (FF : forallb (fun i => (nth i ks_lit 0 <=? 2 ^ 60)%Z) (seq 0 32) = true) by (vm_compute; reflexivity).
      assert (F := proj1 (forallb_forall _ _) FF j (proj2 (in_seq 32 0 j) ltac:(lia))). cbn beta in F. apply Z.leb_le. exact F.
  - apply ks_close. exact Hl.
Qed.

Lemma unit_pos : 0 < unit_z.
Proof. unfold unit_z. apply Rdiv_lt_0_compat; [apply PI_RGT_0|apply pow_lt; lra]. Qed.

Lemma rotate_loop_near : forall l i x y z P Q a e b M, consts i l -> (0 <= e)%Z ->
  near x y P Q a e -> 0 <= M -> P² + Q² <= M² -> gain i l * M + IZR (errZ e i l) < 2 ^ 63 ->
  (Z.abs z <= b <= 2 ^ 62)%Z ->
  exists x' y' z' a', rotate_loop (Z.of_nat i) x y z l = Ok (x', y', z') /\
    near x' y' (gain i l * P) (gain i l * Q) a' (errZ e i l) /\
    Rabs (a' + unit_z * IZR z' - (a + unit_z * IZR z)) <= INR (length l) * (unit_z * 65536) /\
    (Z.abs z' <= zb b l)%Z.
Proof.
  induction l as [|k l IH]; intros i x y z P Q a e b M HC He HN HM HPQ HB Hz.
  - exists x, y, z, a. cbn [rotate_loop gain errZ length zb]. split; [reflexivity|]. split.
    + rewrite !Rmult_1_l. exact HN.
    + split; [|lia]. replace (a + unit_z * IZR z - (a + unit_z * IZR z)) with 0 by ring. rewrite Rabs_R0. cbn [INR]. lra.
  - apply consts_cons in HC. destruct HC as [[Hk Ht] HC].
    cbn [gain errZ] in HB.
    set (e' := (e + e / 2 ^ Z.of_nat i + 2)%Z) in *.
    assert (Hd : (0 <= e / 2 ^ Z.of_nat i)%Z) by (apply Z.div_pos; [lia|apply Z.pow_pos_nonneg; lia]).
    assert (He' : (0 <= e')%Z) by (unfold e'; lia).
    assert (G1 := gR_ge1 i). assert (G2 := gain_ge1 l (S i)).
    assert (E1 : IZR e <= IZR e') by (apply IZR_le; unfold e'; lia).
    assert (E2 : IZR e' <= IZR (errZ e' (S i) l)) by (apply IZR_le; apply errZ_ge; exact He').
    assert (M0 : 0 <= gR i * M) by nra.
    assert (M1 : gR i * M <= gR i * gain (S i) l * M) by nra.
    assert (M2 : M <= gR i * M) by nra.
    assert (B0 : M + IZR e < 2 ^ 63) by lra.
    assert (B1 : gR i * M + IZR e' < 2 ^ 63) by lra.
    destruct (near_int x y P Q a e M HN HM HPQ B0) as [Ix Iy].
    cbn [rotate_loop].
    assert (Hd1 : exists s : bool, (if z <? 0 then (-1)%Z else 0%Z) = (if s then (-1)%Z else 0%Z) /\ s = (z <? 0)%Z) by (exists (z <? 0)%Z; split; reflexivity).
    destruct Hd1 as (s & Es & Hs). rewrite Es.
    rewrite (flip_by_sgn y s) by exact Iy. rewrite (flip_by_sgn x s) by exact Ix. rewrite (flip_by_sgn k s) by lia.
    cbn [bind].
    assert (S1 := shiftr_R (sgn s * y) i). assert (S2 := shiftr_R (sgn s * x) i). rewrite mult_IZR in S1, S2.
    assert (NS : near (x - Z.shiftr (sgn s * y) (Z.of_nat i)) (y + Z.shiftr (sgn s * x) (Z.of_nat i)) (gR i * P) (gR i * Q) (a + IZR (sgn s) * theta i) e').
    { apply near_step with (x := x) (y := y); [exact He|exact HN|destruct s; [right|left]; reflexivity| |].
      - rewrite minus_IZR. apply Rabs_le. lra.
      - rewrite plus_IZR. apply Rabs_le. lra. }
    assert (HPQ' := norm_step P Q i M HPQ).
    destruct (near_int _ _ _ _ _ _ (gR i * M) NS M0 HPQ' B1) as [Ix' Iy'].
    rewrite (chk64_in (x - _)) by lia. cbn [bind]. rewrite (chk64_in (y + _)) by lia. cbn [bind].
    assert (Hz' : (Z.abs (z - sgn s * k) <= Z.max (b - k) k <= 2 ^ 62)%Z).
    { subst s. unfold sgn. destruct (Z.ltb_spec z 0); lia. }
    rewrite (chk64_in (z - _)) by lia. cbn [bind].
    replace (Z.of_nat i + 1)%Z with (Z.of_nat (S i)) by lia.
    destruct (IH (S i) _ _ (z - sgn s * k)%Z (gR i * P) (gR i * Q) (a + IZR (sgn s) * theta i) e' (Z.max (b - k) k) (gR i * M) HC He' NS M0 HPQ') as (x' & y' & z' & a' & L & N & A & Z'); [|exact Hz'|].
    { lra. }
    exists x', y', z', a'. split; [exact L|]. cbn [gain errZ zb length]. fold e'.
    split; [|split; [|exact Z']].
    + replace (gR i * gain (S i) l * P) with (gain (S i) l * (gR i * P)) by ring.
      replace (gR i * gain (S i) l * Q) with (gain (S i) l * (gR i * Q)) by ring. exact N.
    + rewrite minus_IZR, mult_IZR in A. rewrite S_INR. apply Rabs_le_inv in A, Ht. apply Rabs_le.
      assert (Hsg : IZR (sgn s) = 1 \/ IZR (sgn s) = -1) by (destruct s; [right|left]; reflexivity).
      destruct Hsg as [Hsg|Hsg]; rewrite Hsg in A; lra.
Qed.

(** The stretch of all the steps against the constant k. *)
Fixpoint gq (i : nat) (l : list Z) : Q :=
  match l with [] => 1%Q | _ :: l => ((1 + (1 # Z.to_pos (4 ^ Z.of_nat i))) * gq (S i) l)%Q end.

Lemma gR_sq : forall i, (gR i)² = 1 + (tR i)².
Proof. intro i. unfold gR. apply Rsqr_sqrt. assert (0 <= (tR i)²) by apply Rle_0_sqr. lra. Qed.

Lemma gq_ok : forall l i, (gain i l)² = Q2R (gq i l).
Proof.
  induction l as [|k l IH]; intro i; cbn [gain gq].
  - unfold Rsqr, Q2R. cbn. lra.
  - rewrite Rsqr_mult, Q2R_mult, Q2R_plus, IH, gR_sq. f_equal. f_equal.
    + unfold Q2R. cbn. lra.
    + unfold Q2R, Rsqr, tR. cbn [Qnum Qden]. rewrite Z2Pos.id by (apply Z.pow_pos_nonneg; lia).
      rewrite <- pow_IZR. replace 4 with (2 * 2) by ring. rewrite Rpow_mult_distr.
      assert (0 < 2 ^ i) by (apply pow_lt; lra). field. lra.
Qed.

Definition kG : R := IZR cordic_k * gain 0 ks.

Lemma kG_bounds : 2 ^ 32 - 1 / 2 <= kG <= 2 ^ 32.
Proof.
  assert (K : 0 < IZR cordic_k) by (apply IZR_lt; reflexivity).
  assert (G := gain_ge1 ks 0). assert (KG : 0 < kG) by (unfold kG; nra).
  assert (S : kG² = Q2R (inject_Z (cordic_k * cordic_k) * gq 0 ks)).
  { unfold kG. rewrite Rsqr_mult, gq_ok, Q2R_mult, Q2R_inject, mult_IZR. reflexivity. }
  assert (U : Qle (inject_Z (cordic_k * cordic_k) * gq 0 ks) (inject_Z (2 ^ 64))) by (rewrite ks_values; vm_compute; discriminate).
  assert (L : Qle (inject_Z ((2 ^ 33 - 1) * (2 ^ 33 - 1)) * (1 # 4)) (inject_Z (cordic_k * cordic_k) * gq 0 ks)) by (rewrite ks_values; vm_compute; discriminate).
  apply Qle_Rle in U, L. rewrite <- S in U, L. rewrite Q2R_mult in L. rewrite !Q2R_inject in U, L.
  split.
  - apply Rsqr_incr_0; [|lra|lra]. 
    replace (2 ^ 32 - 1 / 2)² with (IZR ((2 ^ 33 - 1) * (2 ^ 33 - 1)) * Q2R (1 # 4)); [exact L|].
    unfold Rsqr, Q2R. cbn [Qnum Qden]. rewrite mult_IZR, minus_IZR. replace (IZR (2 ^ 33)) with (2 ^ 33) by (rewrite pow_IZR; reflexivity).
    replace (2 ^ 33) with (2 * 2 ^ 32) by (cbn [pow]; ring). field.
  - apply Rsqr_incr_0; [|lra|apply pow_le; lra].
    replace (2 ^ 32)² with (IZR (2 ^ 64)); [exact U|]. unfold Rsqr. rewrite <- pow_add, pow_IZR. reflexivity.
Qed.

Lemma err_ks : (errZ 0 0 ks <= 300)%Z.
Proof. rewrite ks_values. vm_compute. discriminate. Qed.
Lemma err_ks0 : (0 <= errZ 0 0 ks)%Z.
Proof. rewrite ks_values. vm_compute. discriminate. Qed.
Lemma zb_ks : (zb (2 ^ 61) ks <= 684000000)%Z.
Proof. rewrite ks_values. vm_compute. discriminate. Qed.
Lemma len_ks : length ks = 32%nat.
Proof. rewrite ks_values. reflexivity. Qed.

Lemma round32_ok : forall v B, (0 <= B < 2 ^ 31)%Z -> (Z.abs v <= B * 2 ^ 32 + 1000)%Z ->
  exists r, round32 v = Ok r /\ (Z.abs r <= B)%Z /\ Rabs (IZR r - IZR v / 2 ^ 32) <= 1 / 2.
Proof.
  intros v B HB Hv. unfold round32.
  change (2 ^ 32)%Z with 4294967296%Z in Hv. change (2 ^ 31)%Z with 2147483648%Z in HB.
  rewrite chk64_in by (change (2 ^ 63)%Z with 9223372036854775808%Z; lia). cbn [bind].
  assert (D := shiftr_R (v + 0x80000000) 32). change (Z.of_nat 32) with 32%Z in D.
  rewrite Z.shiftr_div_pow2 in * by lia. change (2 ^ 32)%Z with 4294967296%Z in *.
  assert (DM := Z.div_mod (v + 2147483648) 4294967296 ltac:(lia)).
  assert (MB := Z.mod_pos_bound (v + 2147483648) 4294967296 ltac:(lia)).
  set (r := ((v + 2147483648) / 4294967296)%Z) in *.
  exists r. split.
  - f_equal. apply swrap_id; [lia|]. unfold in_s. change (2 ^ (32 - 1))%Z with 2147483648%Z. lia.
  - split; [lia|]. unfold tR in D. rewrite plus_IZR in D.
    assert (E32 : 2 ^ 32 = 4294967296) by (rewrite pow_IZR; reflexivity). rewrite E32 in *. apply Rabs_le. lra.
Qed.

Lemma sin_abs : forall u, Rabs (sin u) <= Rabs u.
Proof.
  assert (H : forall u, 0 < u -> Rabs (sin u) <= u).
  { intros u Hu. destruct (Rle_lt_dec 1 u).
    - assert (B := SIN_bound u). apply Rabs_le. lra.
    - assert (L := sin_lt_x u Hu). assert (0 <= sin u) by (apply sin_ge_0; [lra|]; assert (Q := PI2_1); lra).
      rewrite Rabs_pos_eq; lra. }
  intro u. destruct (Rtotal_order u 0) as [L|[E|G]].
  - rewrite (Rabs_left u L). rewrite <- (Ropp_involutive u) at 1. rewrite sin_neg, Rabs_Ropp. apply H. lra.
  - subst u. rewrite sin_0. lra.
  - rewrite (Rabs_pos_eq u) by lra. apply H. exact G.
Qed.

Lemma cos_lip : forall a b, Rabs (cos a - cos b) <= Rabs (a - b).
Proof.
  intros a b. rewrite form2. rewrite !Rabs_mult.
  assert (A := sin_abs ((a - b) / 2)). assert (B := SIN_bound ((a + b) / 2)).
  assert (B' : Rabs (sin ((a + b) / 2)) <= 1) by (apply Rabs_le; lra).
  assert (C : Rabs (a - b) = 2 * Rabs ((a - b) / 2)).
  { unfold Rdiv. rewrite Rabs_mult. rewrite (Rabs_pos_eq (/ 2)) by lra. lra. }
  rewrite C. replace (Rabs (-2)) with 2 by (rewrite Rabs_left; lra).
  assert (P1 := Rabs_pos (sin ((a - b) / 2))). assert (P2 := Rabs_pos (sin ((a + b) / 2))). nra.
Qed.
Lemma sin_lip : forall a b, Rabs (sin a - sin b) <= Rabs (a - b).
Proof.
  intros a b. rewrite form4. rewrite !Rabs_mult.
  assert (A := sin_abs ((a - b) / 2)). assert (B := COS_bound ((a + b) / 2)).
  assert (B' : Rabs (cos ((a + b) / 2)) <= 1) by (apply Rabs_le; lra).
  assert (C : Rabs (a - b) = 2 * Rabs ((a - b) / 2)).
  { unfold Rdiv. rewrite Rabs_mult. rewrite (Rabs_pos_eq (/ 2)) by lra. lra. }
  rewrite C. replace (Rabs 2) with 2 by (rewrite Rabs_pos_eq; lra).
  assert (P1 := Rabs_pos (sin ((a - b) / 2))). assert (P2 := Rabs_pos (cos ((a + b) / 2))). nra.
Qed.

Lemma tx_lip : forall P Q a b, Rabs (tx P Q a - tx P Q b) <= (Rabs P + Rabs Q) * Rabs (a - b).
Proof.
  intros P Q a b. unfold tx.
  replace (P * cos a - Q * sin a - (P * cos b - Q * sin b)) with (P * (cos a - cos b) + - (Q * (sin a - sin b))) by ring.
  eapply Rle_trans; [apply Rabs_triang|]. rewrite Rabs_Ropp, !Rabs_mult.
  assert (A := cos_lip a b). assert (B := sin_lip a b). assert (P1 := Rabs_pos P). assert (P2 := Rabs_pos Q). nra.
Qed.
Lemma ty_lip : forall P Q a b, Rabs (ty P Q a - ty P Q b) <= (Rabs P + Rabs Q) * Rabs (a - b).
Proof.
  intros P Q a b. unfold ty.
  replace (P * sin a + Q * cos a - (P * sin b + Q * cos b)) with (P * (sin a - sin b) + Q * (cos a - cos b)) by ring.
  eapply Rle_trans; [apply Rabs_triang|]. rewrite !Rabs_mult.
  assert (A := cos_lip a b). assert (B := sin_lip a b). assert (P1 := Rabs_pos P). assert (P2 := Rabs_pos Q). nra.
Qed.
Lemma tx_abs : forall P Q a, Rabs (tx P Q a) <= Rabs P + Rabs Q.
Proof.
  intros P Q a. unfold tx. unfold Rminus. eapply Rle_trans; [apply Rabs_triang|]. rewrite Rabs_Ropp, !Rabs_mult.
  assert (A := COS_bound a). assert (B := SIN_bound a).
  assert (Rabs (cos a) <= 1) by (apply Rabs_le; lra). assert (Rabs (sin a) <= 1) by (apply Rabs_le; lra).
  assert (P1 := Rabs_pos P). assert (P2 := Rabs_pos Q). nra.
Qed.
Lemma ty_abs : forall P Q a, Rabs (ty P Q a) <= Rabs P + Rabs Q.
Proof.
  intros P Q a. unfold ty. eapply Rle_trans; [apply Rabs_triang|]. rewrite !Rabs_mult.
  assert (A := COS_bound a). assert (B := SIN_bound a).
  assert (Rabs (cos a) <= 1) by (apply Rabs_le; lra). assert (Rabs (sin a) <= 1) by (apply Rabs_le; lra).
  assert (P1 := Rabs_pos P). assert (P2 := Rabs_pos Q). nra.
Qed.

Lemma pi_num : 3.14159 < PI < 3.1416.
Proof.
  assert (P := pi_bounds).
  assert (L : Qle (314159265 # 100000000) pi_lo) by (vm_compute; discriminate).
  assert (U : Qle pi_hi (314159266 # 100000000)) by (vm_compute; discriminate).
  apply Qle_Rle in L, U. unfold Q2R in L at 1. unfold Q2R in U at 2. cbn [Qnum Qden] in L, U. lra.
Qed.

(** The error of the whole loop, in units of the result. S is |x0| + |y0|. *)
Lemma final_err : forall r v X X' S E c, Rabs (r - v / 2 ^ 32) <= 1 / 2 -> Rabs (v - kG * X') <= E ->
  Rabs X' <= S -> Rabs (X' - X) <= S * c -> E <= 300 -> 0 <= S ->
  Rabs (r - X) <= 501 / 1000 + S * (c + / 2 ^ 33).
Proof.
  intros r v X X' S E c Hr Hv HX' HX HE HS.
  assert (K := kG_bounds). apply Rabs_le_inv in Hr, Hv, HX', HX.
  assert (E32 : 2 ^ 32 = 4294967296) by (rewrite pow_IZR; reflexivity).
  assert (E33 : 2 ^ 33 = 8589934592) by (rewrite pow_IZR; reflexivity). rewrite E32, E33 in *.
  assert (A : - (S / 2) <= (4294967296 - kG) * X' <= S / 2) by nra.
  apply Rabs_le. lra.
Qed.

Definition eps : R := 126 / 100 / 2 ^ 31.

(** The first quadrant: z0 & 0x1fffffff is m. *)
Lemma rotate_base : forall x0 y0 m, (x0 * x0 + y0 * y0 <= (2 ^ 31 - 1) * (2 ^ 31 - 1))%Z -> (0 <= m < 2 ^ 29)%Z ->
  exists x y z rx ry, rotate_loop 0 (x0 * cordic_k) (y0 * cordic_k) (m * 0x100000000) ks = Ok (x, y, z) /\
    round32 x = Ok rx /\ round32 y = Ok ry /\ (Z.abs rx < 2 ^ 31)%Z /\ (Z.abs ry < 2 ^ 31)%Z /\
    let a := IZR m * (2 * PI / 2 ^ 31) in let S := Rabs (IZR x0) + Rabs (IZR y0) in
    Rabs (IZR rx - tx (IZR x0) (IZR y0) a) <= 501 / 1000 + S * eps /\
    Rabs (IZR ry - ty (IZR x0) (IZR y0) a) <= 501 / 1000 + S * eps.
Proof.
  intros x0 y0 m HN Hm.
  assert (K := kG_bounds). assert (K0 : 0 < IZR cordic_k) by (apply IZR_lt; reflexivity).
  assert (G1 := gain_ge1 ks 0).
  set (P := IZR cordic_k * IZR x0). set (Q := IZR cordic_k * IZR y0).
  set (M := IZR cordic_k * IZR (2 ^ 31 - 1)).
  assert (B31 : 0 < IZR (2 ^ 31 - 1)) by (apply IZR_lt; reflexivity).
  assert (M0 : 0 <= M) by (unfold M; nra).
  assert (HPQ : P² + Q² <= M²).
  { unfold P, Q, M. rewrite !Rsqr_mult. apply IZR_le in HN. rewrite plus_IZR, !mult_IZR in HN.
    assert (0 <= (IZR cordic_k)²) by apply Rle_0_sqr. unfold Rsqr at 2 4 6. nra. }
  assert (GM : gain 0 ks * M <= IZR ((2 ^ 31 - 1) * 2 ^ 32)).
  { unfold M. rewrite mult_IZR. replace (IZR (2 ^ 32)) with (2 ^ 32) by (rewrite pow_IZR; reflexivity).
    replace (gain 0 ks * (IZR cordic_k * IZR (2 ^ 31 - 1))) with (kG * IZR (2 ^ 31 - 1)) by (unfold kG; ring). nra. }
  assert (EK : IZR (errZ 0 0 ks) <= 300) by (apply IZR_le; apply err_ks).
  assert (EK0 : 0 <= IZR (errZ 0 0 ks)) by (apply IZR_le; apply err_ks0).
  assert (HB : gain 0 ks * M + IZR (errZ 0 0 ks) < 2 ^ 63).
  { replace (2 ^ 63) with (IZR (2 ^ 63)) by (rewrite pow_IZR; reflexivity).
    apply Rle_lt_trans with (IZR ((2 ^ 31 - 1) * 2 ^ 32 + 300)); [rewrite plus_IZR; lra|]. apply IZR_lt. reflexivity. }
  assert (HNr : near (x0 * cordic_k) (y0 * cordic_k) P Q 0 0).
  { unfold near, tx, ty. rewrite cos_0, sin_0, !mult_IZR. unfold P, Q. split; apply Rabs_le; lra. }
  destruct (rotate_loop_near ks 0 _ _ (m * 0x100000000)%Z P Q 0 0 (2 ^ 61)%Z M consts_ks ltac:(lia) HNr M0 HPQ HB)
    as (x & y & z & a & L & N & A & Z).
  { change (2 ^ 29)%Z with 536870912%Z in Hm. change (2 ^ 61)%Z with 2305843009213693952%Z. change (2 ^ 62)%Z with 4611686018427387904%Z. lia. }
  change (Z.of_nat 0) with 0%Z in L.
  destruct N as [Nx Ny].
  assert (HGN : (gain 0 ks * P)² + (gain 0 ks * Q)² <= (gain 0 ks * M)²).
  { rewrite !(Rsqr_mult (gain 0 ks)). assert (0 <= (gain 0 ks)²) by apply Rle_0_sqr. nra. }
  assert (GM0 : 0 <= gain 0 ks * M) by nra.
  assert (Bx := tx_bound _ _ a _ GM0 HGN). assert (By := ty_bound _ _ a _ GM0 HGN).
  assert (IB : forall v t, Rabs (IZR v - t) <= IZR (errZ 0 0 ks) -> Rabs t <= gain 0 ks * M -> (Z.abs v <= (2 ^ 31 - 1) * 2 ^ 32 + 1000)%Z).
  { intros v t H1 H2. apply Rabs_le_inv in H1, H2.
    assert (H3 : IZR v <= IZR ((2 ^ 31 - 1) * 2 ^ 32 + 1000)) by (rewrite plus_IZR; lra).
    assert (H4 : IZR (- ((2 ^ 31 - 1) * 2 ^ 32 + 1000)) <= IZR v) by (rewrite opp_IZR, plus_IZR; lra).
    apply le_IZR in H3, H4. lia. }
  destruct (round32_ok x (2 ^ 31 - 1) ltac:(lia) (IB _ _ Nx Bx)) as (rx & Rx & Bx' & Ex).
  destruct (round32_ok y (2 ^ 31 - 1) ltac:(lia) (IB _ _ Ny By)) as (ry & Ry & By' & Ey).
  exists x, y, z, rx, ry. split; [exact L|]. split; [exact Rx|]. split; [exact Ry|]. split; [lia|]. split; [lia|].
  cbv zeta. set (al := IZR m * (2 * PI / 2 ^ 31)). set (S := Rabs (IZR x0) + Rabs (IZR y0)).
  assert (S0 : 0 <= S) by (unfold S; assert (A1 := Rabs_pos (IZR x0)); assert (A2 := Rabs_pos (IZR y0)); lra).
  assert (AZ : unit_z * IZR (m * 0x100000000) = al).
  { unfold unit_z, al. rewrite mult_IZR. field. }
  rewrite AZ in A. rewrite len_ks in A.
  assert (U := unit_pos).
  assert (ZB : - 684000000 <= IZR z <= 684000000).
  { assert (ZK := zb_ks). split; apply IZR_le; lia. }
  assert (C : Rabs (a - al) <= unit_z * 687000000).
  { replace (INR 32) with 32 in A by (rewrite INR_IZR_INZ; reflexivity). apply Rabs_le_inv in A. apply Rabs_le. nra. }
  assert (PN := pi_num).
  assert (CE : unit_z * 687000000 + / 2 ^ 33 <= eps).
  { unfold unit_z, eps. assert (E62 : 2 ^ 62 = 4611686018427387904) by (rewrite pow_IZR; reflexivity).
    assert (E33 : 2 ^ 33 = 8589934592) by (rewrite pow_IZR; reflexivity).
    assert (E31 : 2 ^ 31 = 2147483648) by (rewrite pow_IZR; reflexivity). rewrite E62, E33, E31. lra. }
  assert (TX : forall b, tx (gain 0 ks * P) (gain 0 ks * Q) b = kG * tx (IZR x0) (IZR y0) b) by (intro b; unfold tx, P, Q, kG; ring).
  assert (TY : forall b, ty (gain 0 ks * P) (gain 0 ks * Q) b = kG * ty (IZR x0) (IZR y0) b) by (intro b; unfold ty, P, Q, kG; ring).
  rewrite TX in Nx. rewrite TY in Ny.
  assert (SC : S * (unit_z * 687000000 + / 2 ^ 33) <= S * eps) by (apply Rmult_le_compat_l; assumption).
  split.
  - eapply Rle_trans; [eapply (final_err _ _ _ _ S _ (unit_z * 687000000)); [exact Ex|exact Nx|apply tx_abs| |exact EK|exact S0]|].
    + eapply Rle_trans; [apply tx_lip|]. apply Rmult_le_compat_l; [exact S0|exact C].
    + lra.
  - eapply Rle_trans; [eapply (final_err _ _ _ _ S _ (unit_z * 687000000)); [exact Ey|exact Ny|apply ty_abs| |exact EK|exact S0]|].
    + eapply Rle_trans; [apply ty_lip|]. apply Rmult_le_compat_l; [exact S0|exact C].
    + lra.
Qed.
