(** C45, C68: the CORDIC functions of math.h against the real sine and cosine. *)
From Coq Require Import Reals Lra Psatz.
From Verif Require Import Base Vec_Model Cordic_Model Cordic_Atan Cordic_Proofs Cordic_Vector Cordic_Spec.
Local Open Scope R_scope.

Lemma land_quarter : forall z, Z.land z 0x1fffffff = (z mod 2 ^ 29)%Z.
Proof. intro z. change 0x1fffffff%Z with (Z.ones 29). apply Z.land_ones. lia. Qed.
Lemma land_quadrant : forall z, Z.land z 0x60000000 = ((z / 2 ^ 29) mod 4 * 2 ^ 29)%Z.
Proof.
  intro z. change 0x60000000%Z with (Z.shiftl (Z.ones 2) 29). change 4%Z with (2 ^ 2)%Z.
  rewrite <- (Z.land_ones (z / 2 ^ 29) 2) by lia. rewrite <- Z.shiftr_div_pow2 by lia. rewrite <- Z.shiftl_mul_pow2 by lia.
  rewrite Z.shiftl_land. apply Z.bits_inj'. intros n Hn. rewrite !Z.land_spec. destruct (Z.lt_ge_cases n 29) as [L|L].
  - rewrite !(Z.shiftl_spec_low _ 29 n L), !andb_false_r. reflexivity.
  - rewrite !(Z.shiftl_spec _ 29 n) by lia. rewrite Z.shiftr_spec by lia. replace (n - 29 + 29)%Z with n by lia. reflexivity.
Qed.

(** The four values the switch distinguishes are all there are, so CE_ERROR after it is dead code. *)
Theorem C45_no_error_branch : forall z0, In (Z.land z0 0x60000000) [0; 0x20000000; 0x40000000; 0x60000000]%Z.
Proof.
  intro z0. rewrite land_quadrant. assert (B := Z.mod_pos_bound (z0 / 2 ^ 29) 4 ltac:(lia)).
  set (q := ((z0 / 2 ^ 29) mod 4)%Z) in *. clearbody q.
  assert (q = 0 \/ q = 1 \/ q = 2 \/ q = 3)%Z as [->|[->|[->| ->]]] by lia; cbn; auto 10.
Qed.
Print Assumptions C45_no_error_branch.

(** A full turn changes nothing, whatever the inputs (undefined ones included). *)
Theorem C45_periodic : forall x0 y0 t t', (t mod 2 ^ 31 = t' mod 2 ^ 31)%Z -> rotate x0 y0 t = rotate x0 y0 t'.
Proof.
  intros x0 y0 t t' H. unfold rotate. rewrite !land_quarter, !land_quadrant.
  assert (E1 : (t mod 2 ^ 29 = t' mod 2 ^ 29)%Z).
  { assert (F : forall v, (v mod 2 ^ 29 = (v mod 2 ^ 31) mod 2 ^ 29)%Z).
    { intro v. change (2 ^ 31)%Z with (2 ^ 29 * 4)%Z. rewrite Z.rem_mul_r by lia. 
      rewrite (Z.mul_comm (2 ^ 29) ((v / 2 ^ 29) mod 4)), Z.mod_add, Z.mod_mod by lia. reflexivity. }
    rewrite (F t), (F t'), H. reflexivity. }
  assert (E2 : ((t / 2 ^ 29) mod 4 = (t' / 2 ^ 29) mod 4)%Z).
  { change (2 ^ 31)%Z with (2 ^ 29 * 4)%Z in H. rewrite !Z.rem_mul_r in H by lia. rewrite E1 in H.
    change (2 ^ 29)%Z with 536870912%Z in *. lia. }
  rewrite E1, E2. reflexivity.
Qed.
Print Assumptions C45_periodic.

Lemma quarter_x : forall P Q a, tx P Q (a + PI / 2) = - ty P Q a.
Proof. intros. unfold tx, ty. rewrite cos_plus, sin_plus, cos_PI2, sin_PI2. ring. Qed.
Lemma quarter_y : forall P Q a, ty P Q (a + PI / 2) = tx P Q a.
Proof. intros. unfold tx, ty. rewrite cos_plus, sin_plus, cos_PI2, sin_PI2. ring. Qed.
Lemma full_turn_back : forall P Q a, tx P Q (a - 2 * PI) = tx P Q a /\ ty P Q (a - 2 * PI) = ty P Q a.
Proof.
  intros. unfold tx, ty. rewrite <- (cos_period (a - 2 * PI) 1), <- (sin_period (a - 2 * PI) 1). cbn [INR].
  replace (a - 2 * PI + 2 * 1 * PI) with a by ring. split; reflexivity.
Qed.

(** The four quadrants around the result (u, v) of the first one. *)
Lemma rotate_quadrants : forall x0 y0 t, int32 x0 -> int32 y0 -> in_circle x0 y0 ->
  exists u v, (Z.abs u < 2 ^ 31)%Z /\ (Z.abs v < 2 ^ 31)%Z /\
    (let a := IZR (t mod 2 ^ 29) * (2 * PI / 2 ^ 31) in let S := Rabs (IZR x0) + Rabs (IZR y0) in
     Rabs (IZR u - tx (IZR x0) (IZR y0) a) <= 501 / 1000 + S * eps /\
     Rabs (IZR v - ty (IZR x0) (IZR y0) a) <= 501 / 1000 + S * eps) /\
    (forall t', (t' mod 2 ^ 29 = t mod 2 ^ 29)%Z ->
     rotate x0 y0 t' = Ok (if (t' / 2 ^ 29) mod 4 =? 0 then (u, v) else if (t' / 2 ^ 29) mod 4 =? 1 then (- v, u)
                          else if (t' / 2 ^ 29) mod 4 =? 2 then (- u, - v) else (v, - u))%Z).
Proof.
  intros x0 y0 t Hx Hy HN. unfold int32, in_circle in *.
  destruct (rotate_base x0 y0 (t mod 2 ^ 29) HN) as (x & y & z & u & v & L & Rx & Ry & Bu & Bv & EA).
  { apply Z.mod_pos_bound. lia. }
  exists u, v. split; [exact Bu|]. split; [exact Bv|]. split; [exact EA|].
  intros t' Ht. unfold rotate. rewrite land_quarter, land_quadrant, Ht.
  change cordic_k with 2608131496%Z in *.
  rewrite (chk64_in (x0 * _)) by (change (2 ^ 31)%Z with 2147483648%Z in *; change (2 ^ 63)%Z with 9223372036854775808%Z; lia).
  rewrite (chk64_in (y0 * _)) by (change (2 ^ 31)%Z with 2147483648%Z in *; change (2 ^ 63)%Z with 9223372036854775808%Z; lia).
  assert (B := Z.mod_pos_bound t (2 ^ 29) ltac:(lia)).
  rewrite (chk64_in (t mod 2 ^ 29 * _)) by (change (2 ^ 29)%Z with 536870912%Z in *; change (2 ^ 63)%Z with 9223372036854775808%Z; lia).
  cbn [bind]. rewrite L. cbn [bind]. rewrite Rx, Ry. cbn [bind].
  assert (B4 := Z.mod_pos_bound (t' / 2 ^ 29) 4 ltac:(lia)).
  set (q := ((t' / 2 ^ 29) mod 4)%Z) in *. clearbody q.
  assert (q = 0 \/ q = 1 \/ q = 2 \/ q = 3)%Z as [->|[->|[->| ->]]] by lia; cbn [Z.mul Z.eqb Pos.eqb Z.pow Z.pow_pos Pos.iter Pos.mul];
    repeat (rewrite chk32_ok by (unfold in_s; change (2 ^ (32 - 1))%Z with (2 ^ 31)%Z; lia); cbn [bind]); reflexivity.
Qed.

Lemma radians_split : forall t, radians t = IZR (t mod 2 ^ 29) * (2 * PI / 2 ^ 31) + IZR (t / 2 ^ 29) * (PI / 2).
Proof.
  intro t. unfold radians. rewrite (Z.div_mod t (2 ^ 29)) at 1 by lia. rewrite plus_IZR, mult_IZR.
  replace (IZR (2 ^ 29)) with (2 ^ 29) by (rewrite pow_IZR; reflexivity). field.
Qed.

(** A quarter turn more maps (x, y) to (-y, x), exactly, although every result is rounded. *)
Theorem C45_quarter_turn : forall x0 y0 t t' x y, int32 x0 -> int32 y0 -> in_circle x0 y0 ->
  (t' mod 2 ^ 31 = (t + 2 ^ 29) mod 2 ^ 31)%Z -> rotate x0 y0 t = Ok (x, y) -> rotate x0 y0 t' = Ok (- y, x)%Z.
Proof.
  intros x0 y0 t t' x y Hx Hy HN Ht E.
  rewrite (C45_periodic x0 y0 t' (t + 2 ^ 29) Ht).
  destruct (rotate_quadrants x0 y0 t Hx Hy HN) as (u & v & _ & _ & _ & Q).
  assert (Q1 := Q t eq_refl). rewrite E in Q1.
  assert (Q2 := Q (t + 2 ^ 29)%Z). replace (t + 2 ^ 29)%Z with (t + 1 * 2 ^ 29)%Z in * by lia.
  rewrite Z.mod_add in Q2 by lia. specialize (Q2 eq_refl). rewrite Q2. rewrite Z.div_add by lia.
  rewrite <- Z.add_mod_idemp_l by lia.
  assert (B4 := Z.mod_pos_bound (t / 2 ^ 29) 4 ltac:(lia)).
  set (q := ((t / 2 ^ 29) mod 4)%Z) in *. clearbody q.
  assert (q = 0 \/ q = 1 \/ q = 2 \/ q = 3)%Z as [->|[->|[->| ->]]] by lia;
    cbn in Q1; injection Q1 as -> ->; cbn; f_equal; f_equal; lia.
Qed.
Print Assumptions C45_quarter_turn.

(** Every vector of length at most 2^31 - 1 is rotated without overflow, and each coordinate is within
    0.501 + 1.26 (|x0|+|y0|) / 2^31 of the real rotation. *)
Theorem C45_accuracy : forall x0 y0 t, int32 x0 -> int32 y0 -> int32 t -> in_circle x0 y0 ->
  exists x y, rotate x0 y0 t = Ok (x, y) /\ int32 x /\ int32 y /\
    let d := 501 / 1000 + (Rabs (IZR x0) + Rabs (IZR y0)) * (126 / 100 / 2 ^ 31) in
    within x (turned_x x0 y0 t) d /\ within y (turned_y x0 y0 t) d.
Proof.
  intros x0 y0 t Hx Hy Ht HN.
  destruct (rotate_quadrants x0 y0 t Hx Hy HN) as (u & v & Bu & Bv & EA & Q).
  specialize (Q t eq_refl). cbv zeta in *. fold eps. unfold within, turned_x, turned_y.
  fold (tx (IZR x0) (IZR y0) (radians t)). fold (ty (IZR x0) (IZR y0) (radians t)). rewrite radians_split.
  set (a := IZR (t mod 2 ^ 29) * (2 * PI / 2 ^ 31)) in *.
  set (d := 501 / 1000 + (Rabs (IZR x0) + Rabs (IZR y0)) * eps) in *. clearbody d.
  set (P := IZR x0) in *. set (R := IZR y0) in *.
  assert (HQ : (- 4 <= t / 2 ^ 29 < 4)%Z).
  { unfold int32 in Ht. split; [apply Z.div_le_lower_bound|apply Z.div_lt_upper_bound]; lia. }
  assert (K1x : tx P R (a + PI / 2) = - ty P R a) by apply quarter_x.
  assert (K1y : ty P R (a + PI / 2) = tx P R a) by apply quarter_y.
  assert (K2x : tx P R (a + 2 * (PI / 2)) = - tx P R a).
  { replace (a + 2 * (PI / 2)) with (a + PI / 2 + PI / 2) by field. rewrite quarter_x, K1y. reflexivity. }
  assert (K2y : ty P R (a + 2 * (PI / 2)) = - ty P R a).
  { replace (a + 2 * (PI / 2)) with (a + PI / 2 + PI / 2) by field. rewrite quarter_y, K1x. reflexivity. }
  assert (K3x : tx P R (a + 3 * (PI / 2)) = ty P R a).
  { replace (a + 3 * (PI / 2)) with (a + 2 * (PI / 2) + PI / 2) by field. rewrite quarter_x, K2y. ring. }
  assert (K3y : ty P R (a + 3 * (PI / 2)) = - tx P R a).
  { replace (a + 3 * (PI / 2)) with (a + 2 * (PI / 2) + PI / 2) by field. rewrite quarter_y, K2x. reflexivity. }
  assert (N : forall w, (w = -4 \/ w = -3 \/ w = -2 \/ w = -1)%Z ->
    tx P R (a + IZR w * (PI / 2)) = tx P R (a + IZR (w + 4) * (PI / 2)) /\ ty P R (a + IZR w * (PI / 2)) = ty P R (a + IZR (w + 4) * (PI / 2))).
  { intros w _. replace (a + IZR w * (PI / 2)) with (a + IZR (w + 4) * (PI / 2) - 2 * PI) by (rewrite plus_IZR; field). apply full_turn_back. }
  assert (K0 : a + 0 * (PI / 2) = a) by ring.
  unfold int32.
  set (q := (t / 2 ^ 29)%Z) in *. clearbody q. destruct EA as [Eu Ev]. apply Rabs_le_inv in Eu, Ev.
  assert (q = -4 \/ q = -3 \/ q = -2 \/ q = -1 \/ q = 0 \/ q = 1 \/ q = 2 \/ q = 3)%Z as [->|[->|[->|[->|[->|[->|[->| ->]]]]]]] by lia;
    cbn in Q; eexists; eexists; (split; [exact Q|]); (split; [lia|]); (split; [lia|]).
  all: try (match goal with |- context [IZR ?w * (PI / 2)] => destruct (N w) as [-> ->]; [lia|] end).
  all: change (-4 + 4)%Z with 0%Z; change (-3 + 4)%Z with 1%Z; change (-2 + 4)%Z with 2%Z; change (-1 + 4)%Z with 3%Z.
  all: rewrite ?K0, ?Rmult_1_l, ?K1x, ?K1y, ?K2x, ?K2y, ?K3x, ?K3y, ?opp_IZR; split; apply Rabs_le; lra.
Qed.
Print Assumptions C45_accuracy.

(** r cos t and r sin t, for every angle and every radius but the most negative one, within two units. *)
Theorem C45_cos_sin : forall r t, int32 r -> int32 t -> r <> (- 2 ^ 31)%Z ->
  exists c s, cos_2pi r t = Ok c /\ sin_2pi r t = Ok s /\ to_cartesian r t = Ok (c, s) /\
    within c (IZR r * cos (radians t)) (501 / 1000 + Rabs (IZR r) * (126 / 100 / 2 ^ 31)) /\
    within s (IZR r * sin (radians t)) (501 / 1000 + Rabs (IZR r) * (126 / 100 / 2 ^ 31)) /\
    within c (IZR r * cos (radians t)) 2 /\ within s (IZR r * sin (radians t)) 2.
Proof.
  intros r t Hr Ht Hm.
  assert (HC : in_circle r 0) by (unfold in_circle, int32 in *; nia).
  destruct (C45_accuracy r 0 t Hr ltac:(unfold int32; lia) Ht HC) as (x & y & E & _ & _ & W). cbv zeta in W.
  exists x, y. unfold cos_2pi, sin_2pi, to_cartesian. rewrite E. cbn [bind fst snd].
  unfold within, turned_x, turned_y in *. rewrite Rabs_R0, !Rmult_0_l, Rplus_0_r, Rminus_0_r, Rplus_0_r in W.
  destruct W as [W1 W2]. 
  assert (B : Rabs (IZR r) <= 2 ^ 31).
  { replace (2 ^ 31) with (IZR (2 ^ 31)) by (rewrite pow_IZR; reflexivity). rewrite <- abs_IZR. apply IZR_le. unfold int32 in Hr. lia. }
  assert (E31 : 2 ^ 31 = 2147483648) by (rewrite pow_IZR; reflexivity). rewrite E31 in *.
  split; [reflexivity|]. split; [reflexivity|]. split; [reflexivity|]. split; [exact W1|]. split; [exact W2|].
  split; eapply Rle_trans; [exact W1| |exact W2|]; lra.
Qed.
Print Assumptions C45_cos_sin.

(** The one radius left out: half a turn of the most negative radius negates it, which overflows. *)
Theorem C45_min_radius_refuted : to_cartesian (- 2 ^ 31) (2 ^ 30) = UB.
Proof. unfold to_cartesian, rotate. rewrite ks_values. vm_compute. reflexivity. Qed.
Print Assumptions C45_min_radius_refuted.

Example C45_nonvacuous : in_circle 3000 4000 /\ rotate 3000 4000 100000000 = Ok (1719, 4695)%Z.
Proof. split; [unfold in_circle; lia|]. unfold rotate. rewrite ks_values. vm_compute. reflexivity. Qed.

(** Every vector but the origin, of length at most 2^31 - 1, is converted without overflow. The magnitude is within
    0.501 + r / 2^33 of the length r, and the angle is within 0.67 + 79 / r units (of which 2^31 make a turn) of an angle a
    in [-PI, PI] whose direction is that of the vector. *)
Theorem C68_polar : forall x0 y0, int32 x0 -> int32 y0 -> in_circle x0 y0 -> (x0, y0) <> (0, 0)%Z ->
  exists m t a, to_polar x0 y0 = Ok (m, t) /\ polar_mag x0 y0 = Ok m /\ polar_ang x0 y0 = Ok t /\ atan2_2pi y0 x0 = Ok t /\
    let r := length2 x0 y0 in
    within m r (501 / 1000 + r / 2 ^ 33) /\
    IZR x0 = r * cos a /\ IZR y0 = r * sin a /\ - PI <= a <= PI /\
    within t (a / (2 * PI / 2 ^ 31)) (67 / 100 + 79 / r).
Proof.
  intros x0 y0 Hx Hy HN H0. unfold int32, in_circle in *.
  assert (HP : (0 < x0 * x0 + y0 * y0)%Z).
  { assert (x0 <> 0 \/ y0 <> 0)%Z as [H|H]; [|nia|nia]. destruct (Z.eq_dec x0 0) as [->|]; [|lia]. destruct (Z.eq_dec y0 0) as [->|]; [congruence|lia]. }
  assert (PN := pi_num).
  cut (exists m t a, vector x0 y0 0 = Ok (m, t) /\
    let r := length2 x0 y0 in
    within m r (501 / 1000 + r / 2 ^ 33) /\
    IZR x0 = r * cos a /\ IZR y0 = r * sin a /\ - PI <= a <= PI /\
    within t (a / (2 * PI / 2 ^ 31)) (67 / 100 + 79 / r)).
  { intros (m & t & a & E & W). exists m, t, a. unfold to_polar, polar_mag, polar_ang, atan2_2pi. rewrite E. cbn [bind fst snd].
    split; [reflexivity|]. split; [reflexivity|]. split; [reflexivity|]. split; [reflexivity|]. exact W. }
  cbv zeta. unfold vector.
  rewrite (chk64_in (x0 * _)) by (change cordic_k with 2608131496%Z; change (2 ^ 31)%Z with 2147483648%Z in *; change (2 ^ 63)%Z with 9223372036854775808%Z; lia).
  rewrite (chk64_in (y0 * _)) by (change cordic_k with 2608131496%Z; change (2 ^ 31)%Z with 2147483648%Z in *; change (2 ^ 63)%Z with 9223372036854775808%Z; lia).
  rewrite (chk64_in (0 * _)) by lia. cbn [bind].
  change (0 * 0x100000000)%Z with 0%Z.
  assert (UE : forall b, b / (2 * PI / 2 ^ 31) = b * (2 ^ 30 / PI)) by (intro b; field; lra).
  destruct (Z.ltb_spec (x0 * cordic_k) 0) as [L|L].
  - rewrite (chk64_in (- (x0 * _))) by (change cordic_k with 2608131496%Z; change (2 ^ 31)%Z with 2147483648%Z in *; change (2 ^ 63)%Z with 9223372036854775808%Z; lia).
    rewrite (chk64_in (- (y0 * _))) by (change cordic_k with 2608131496%Z; change (2 ^ 31)%Z with 2147483648%Z in *; change (2 ^ 63)%Z with 9223372036854775808%Z; lia).
    cbn [bind].
    assert (SG : exists z, (if (- (y0 * cordic_k) <? 0)%Z then chk64 (0 + 0x4000000000000000) else chk64 (0 - 0x4000000000000000)) = Ok z /\
      ((z = 2 ^ 62 /\ 0 < y0) \/ (z = - 2 ^ 62 /\ y0 <= 0))%Z).
    { change cordic_k with 2608131496%Z. destruct (Z.ltb_spec (- (y0 * 2608131496)) 0).
      - exists (2 ^ 62)%Z. split; [reflexivity|left; lia].
      - exists (- 2 ^ 62)%Z. split; [reflexivity|right; lia]. }
    destruct SG as (z & Ez & Hz). rewrite Ez. cbn [bind].
    rewrite <- !Z.mul_opp_l.
    assert (X0 : (x0 < 0)%Z) by (change cordic_k with 2608131496%Z in L; lia).
    destruct (vector_base (- x0) (- y0) z) as (x & y & zf & rx & rz & a & VL & Rx & Rz & W); [lia|lia|lia|].
    cbv zeta in W. rewrite !Z.mul_opp_opp in W. fold (length2 x0 y0) in W. destruct W as (Cx & Cy & Ha & Wm & Wa).
    rewrite VL. cbn [bind]. rewrite Rx, Rz. cbn [bind].
    rewrite !opp_IZR in Cx, Cy. apply Rabs_le_inv in Ha.
    assert (R0 : 0 < length2 x0 y0).
    { unfold length2. apply sqrt_lt_R0. apply IZR_lt. lia. }
    assert (E62 : IZR (2 ^ 62) = 2 ^ 62) by (rewrite pow_IZR; reflexivity).
    destruct Hz as [[-> Y]|[-> Y]].
    + exists rx, rz, (a + PI). split; [reflexivity|]. split; [exact Wm|]. rewrite neg_cos, neg_sin. split; [lra|]. split; [lra|].
      split.
      * assert (S0 : sin a < 0) by (apply IZR_lt in Y; apply Rmult_lt_reg_l with (length2 x0 y0); [exact R0|lra]).
        split; [lra|]. apply Rnot_lt_le. intro C. assert (0 <= sin a) by (apply sin_ge_0; lra). lra.
      * unfold within. rewrite UE. replace ((a + PI) * (2 ^ 30 / PI)) with (IZR (2 ^ 62) / 2 ^ 32 + a * (2 ^ 30 / PI)) by (rewrite E62; field; lra). exact Wa.
    + exists rx, rz, (a - PI). split; [reflexivity|]. split; [exact Wm|].
      assert (C1 : cos (a - PI) = - cos a) by (rewrite <- (Ropp_involutive (cos (a - PI))), <- neg_cos; f_equal; f_equal; ring).
      assert (S1 : sin (a - PI) = - sin a) by (rewrite <- (Ropp_involutive (sin (a - PI))), <- neg_sin; f_equal; f_equal; ring).
      rewrite C1, S1. split; [lra|]. split; [lra|]. split.
      * split; [|lra]. apply IZR_le in Y. apply Rnot_lt_le. intro C.
        assert (A0 : a < 0) by lra. assert (sin a < 0) by (apply sin_lt_0_var; lra). nra.
      * unfold within. rewrite UE. replace ((a - PI) * (2 ^ 30 / PI)) with (IZR (- 2 ^ 62) / 2 ^ 32 + a * (2 ^ 30 / PI)) by (rewrite opp_IZR, E62; field; lra). exact Wa.
  - cbn [bind].
    assert (X0 : (0 <= x0)%Z) by (change cordic_k with 2608131496%Z in L; lia).
    destruct (vector_base x0 y0 0) as (x & y & zf & rx & rz & a & VL & Rx & Rz & W); [lia|lia|lia|].
    cbv zeta in W. fold (length2 x0 y0) in W. destruct W as (Cx & Cy & Ha & Wm & Wa).
    rewrite VL. cbn [bind]. rewrite Rx, Rz. cbn [bind]. apply Rabs_le_inv in Ha.
    exists rx, rz, a. split; [reflexivity|]. split; [exact Wm|]. split; [exact Cx|]. split; [exact Cy|]. split; [lra|].
    unfold within. rewrite UE. replace (a * (2 ^ 30 / PI)) with (0 / 2 ^ 32 + a * (2 ^ 30 / PI)) by (field; lra). exact Wa.
Qed.
Print Assumptions C68_polar.

Example C68_nonvacuous : in_circle (-3000) 4000 /\ to_polar (-3000) 4000 = Ok (5000, 756808418)%Z.
Proof. split; [unfold in_circle; lia|]. unfold to_polar, vector. rewrite ks_values. vm_compute. reflexivity. Qed.

(** The origin, left out above, gets the sum of all the steps (just under 100 degrees) as its angle, and not 0. *)
Theorem C68_origin_refuted : atan2_2pi 0 0 = Ok 595825099%Z.
Proof. unfold atan2_2pi, vector. rewrite ks_values. vm_compute. reflexivity. Qed.
Print Assumptions C68_origin_refuted.

(** A vector whose length is not an int32 overflows 64 bits on the way. *)
Theorem C68_long_vector_refuted : to_polar (2 ^ 31 - 1) (2 ^ 31 - 1) = UB.
Proof. unfold to_polar, vector. rewrite ks_values. vm_compute. reflexivity. Qed.
Print Assumptions C68_long_vector_refuted.
