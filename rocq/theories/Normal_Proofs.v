(** The binary32 operations of Normal_Model.v as roundings of real numbers, by Flocq, and the error of normal. *)
From Coq Require Import Reals Lra Psatz.
From Flocq Require Import Core BinarySingleNaN.
From Flocq Require Import Relative.
From Verif Require Import Base Normal_Model Normal_Spec.
Local Open Scope R_scope.

Notation fexp := (SpecFloat.fexp 24 128).
Definition rnd (x : R) : R := round radix2 fexp ZnearestE x.

Lemma Hprec : FLX.Prec_gt_0 24. Proof. reflexivity. Qed.
Lemma Hmax : Prec_lt_emax 24 128. Proof. reflexivity. Qed.
#[local] Existing Instance Hprec.
#[local] Existing Instance Hmax.

Lemma round_aux_equiv : forall s m e l,
  SpecFloat.binary_round_aux 24 128 s m e l = binary_round_aux 24 128 mode_NE s m e l.
Proof.
  intros s m e l. unfold SpecFloat.binary_round_aux, binary_round_aux.
  set (mrse := SpecFloat.shr_fexp _ _ _ _ _). case mrse as [mrs e']. simpl.
  replace (SpecFloat.round_nearest_even (SpecFloat.shr_m mrs) (SpecFloat.loc_of_shr_record mrs)) with
    (choice_mode mode_NE s (SpecFloat.shr_m mrs) (SpecFloat.loc_of_shr_record mrs)); [reflexivity|].
  destruct mrs as [mm [|] [|]]; cbn; try reflexivity; destruct (Z.even mm); reflexivity.
Qed.

Lemma normalize_equiv : forall m e z, SpecFloat.binary_normalize 24 128 m e z = B2SF (binary_normalize 24 128 Hprec Hmax mode_NE m e z).
Proof.
  assert (BR : forall s m e, SpecFloat.binary_round 24 128 s m e = binary_round 24 128 mode_NE s m e).
  { intros s m e. unfold SpecFloat.binary_round, binary_round, shl_align_fexp. set (mez := SpecFloat.shl_align _ _ _). case mez as [mz ez].
    apply round_aux_equiv. }
  intros m e z. destruct m as [|p|p]; simpl; [reflexivity| |]; rewrite B2SF_SF2B; apply BR.
Qed.

Lemma sqrt_equiv : forall x : binary_float 24 128, SpecFloat.SFsqrt 24 128 (B2SF x) = B2SF (Bsqrt mode_NE x).
Proof.
  intros [s|s| |s m e B]; [reflexivity|destruct s; reflexivity|reflexivity|].
  destruct s; [reflexivity|]. simpl. rewrite B2SF_SF2B. set (melz := SpecFloat.SFsqrt_core_binary _ _ _ _). case melz as [[mz ez] lz].
  apply round_aux_equiv.
Qed.

Lemma mul_equiv : forall x y : binary_float 24 128, SpecFloat.SFmul 24 128 (B2SF x) (B2SF y) = B2SF (Bmult mode_NE x y).
Proof.
  intros x y. case x as [sx|sx| |sx mx ex Bx]; case y as [sy|sy| |sy my ey By]; [now trivial.. | ].
  simpl. rewrite B2SF_SF2B. apply round_aux_equiv.
Qed.

Lemma div_equiv : forall x y : binary_float 24 128, SpecFloat.SFdiv 24 128 (B2SF x) (B2SF y) = B2SF (Bdiv mode_NE x y).
Proof.
  intros x y. case x as [sx|sx| |sx mx ex Bx]; case y as [sy|sy| |sy my ey By]; [now trivial.. | ].
  simpl. rewrite B2SF_SF2B. set (melz := SpecFloat.SFdiv_core_binary _ _ _ _ _ _). case melz as [[mz ez] lz].
  apply round_aux_equiv.
Qed.

Lemma add_equiv : forall x y : binary_float 24 128, SpecFloat.SFadd 24 128 (B2SF x) (B2SF y) = B2SF (Bplus mode_NE x y).
Proof.
  intros x y. case x as [sx|sx| |sx mx ex Bx]; case y as [sy|sy| |sy my ey By]; [now (trivial || simpl; case Bool.eqb).. | ].
  apply normalize_equiv.
Qed.

(** Floats of the model and of Flocq. *)
Lemma real_SF f : real f = SF2R radix2 f.
Proof.
  destruct f as [s|s| |s m e]; try reflexivity. cbn [real SF2R]. unfold F2R. cbn [Fnum Fexp]. rewrite bpow_powerRZ. destruct s; cbn [cond_Zopp]; [rewrite opp_IZR|]; reflexivity.
Qed.
Lemma float32_B f : float32 f -> exists b : binary_float 24 128, f = B2SF b /\ is_finite b = true /\ real f = B2R b.
Proof.
  intros (V & F). exists (SF2B f V). split; [symmetry; apply B2SF_SF2B|]. split.
  - rewrite is_finite_SF2B. destruct f; try contradiction; reflexivity.
  - rewrite real_SF, B2R_SF2B. reflexivity.
Qed.
Lemma B_float32 (b : binary_float 24 128) : is_finite b = true -> float32 (B2SF b) /\ real (B2SF b) = B2R b.
Proof.
  intro F. split.
  - split; [apply valid_binary_B2SF|]. destruct b; try discriminate; exact I.
  - rewrite real_SF. apply SF2R_B2SF.
Qed.

Lemma rnd_le : forall x y, x <= y -> rnd x <= rnd y.
Proof. intros. apply round_le; [apply fexp_correct; exact Hprec|auto with typeclass_instances|assumption]. Qed.
Lemma rnd_127 : rnd (bpow radix2 127) = bpow radix2 127.
Proof. apply round_generic; [auto with typeclass_instances|]. apply generic_format_bpow. cbn. lia. Qed.
Lemma rnd_opp x : rnd (- x) = - rnd x.
Proof. unfold rnd. apply round_NE_opp. Qed.
Lemma rnd_small x : Rabs x <= bpow radix2 127 -> Rlt_bool (Rabs (rnd x)) (bpow radix2 128) = true.
Proof.
  intro H. apply Rlt_bool_true. apply Rle_lt_trans with (bpow radix2 127); [|apply bpow_lt; lia].
  apply Rabs_le_inv in H as [H1 H2]. apply Rabs_le. split.
  - rewrite <- rnd_127, <- rnd_opp. now apply rnd_le.
  - rewrite <- rnd_127. now apply rnd_le.
Qed.

Lemma fmul_ok a b : float32 a -> float32 b -> Rabs (real a * real b) <= bpow radix2 127 ->
  float32 (fmul a b) /\ real (fmul a b) = rnd (real a * real b).
Proof.
  intros Ha Hb H. destruct (float32_B a Ha) as (A & -> & FA & RA). destruct (float32_B b Hb) as (B & -> & FB & RB). rewrite RA, RB in *.
  unfold fmul. rewrite mul_equiv. assert (C := Bmult_correct 24 128 Hprec Hmax mode_NE A B). cbn [round_mode] in C.
  fold (rnd (B2R A * B2R B)) in C. rewrite rnd_small in C by assumption. destruct C as (C1 & C2 & _). rewrite FA, FB in C2. cbn [andb] in C2.
  destruct (B_float32 _ C2) as (D1 & D2). split; [assumption|]. rewrite D2. exact C1.
Qed.
Lemma fadd_ok a b : float32 a -> float32 b -> Rabs (real a + real b) <= bpow radix2 127 ->
  float32 (fadd a b) /\ real (fadd a b) = rnd (real a + real b).
Proof.
  intros Ha Hb H. destruct (float32_B a Ha) as (A & -> & FA & RA). destruct (float32_B b Hb) as (B & -> & FB & RB). rewrite RA, RB in *.
  unfold fadd. rewrite add_equiv. assert (C := Bplus_correct 24 128 Hprec Hmax mode_NE A B FA FB). cbn [round_mode] in C.
  fold (rnd (B2R A + B2R B)) in C. rewrite rnd_small in C by assumption. destruct C as (C1 & C2 & _).
  destruct (B_float32 _ C2) as (D1 & D2). split; [assumption|]. rewrite D2. exact C1.
Qed.
Lemma fdiv_ok a b : float32 a -> float32 b -> real b <> 0 -> Rabs (real a / real b) <= bpow radix2 127 ->
  float32 (fdiv a b) /\ real (fdiv a b) = rnd (real a / real b).
Proof.
  intros Ha Hb Z H. destruct (float32_B a Ha) as (A & -> & FA & RA). destruct (float32_B b Hb) as (B & -> & FB & RB). rewrite RA, RB in *.
  unfold fdiv. rewrite div_equiv. assert (C := Bdiv_correct 24 128 Hprec Hmax mode_NE A B Z). cbn [round_mode] in C.
  fold (rnd (B2R A / B2R B)) in C. rewrite rnd_small in C by assumption. destruct C as (C1 & C2 & _). rewrite FA in C2.
  destruct (B_float32 _ C2) as (D1 & D2). split; [assumption|]. rewrite D2. exact C1.
Qed.
Lemma fsqrt_ok a : float32 a -> 0 < real a -> float32 (fsqrt a) /\ real (fsqrt a) = rnd (sqrt (real a)).
Proof.
  intros Ha P. destruct (float32_B a Ha) as (A & -> & FA & RA). rewrite RA in *.
  unfold fsqrt. rewrite sqrt_equiv. assert (C := Bsqrt_correct 24 128 Hprec Hmax mode_NE A). destruct C as (C1 & C2 & _).
  assert (F : is_finite (Bsqrt mode_NE A) = true).
  { rewrite C2. destruct A as [s|s| |s m e Bd]; try discriminate; try reflexivity. destruct s; [|reflexivity].
    exfalso. cbn [B2R] in P. assert (N : F2R (Float radix2 (cond_Zopp true (Z.pos m)) e) < 0) by (apply F2R_lt_0; reflexivity). lra. }
  destruct (B_float32 _ F) as (D1 & D2). split; [assumption|]. rewrite D2. exact C1.
Qed.

(** The error of a rounding. *)
Definition u : R := / 16777216.
Definition eta : R := bpow radix2 (-150).
Lemma rnd_err x : Rabs (rnd x - x) <= u * Rabs x + eta.
Proof.
  destruct (error_N_FLT radix2 (-149) 24 eq_refl (fun n => negb (Z.even n)) x) as (e & h & E & H & _ & Q).
  unfold rnd. change fexp with (FLT_exp (-149) 24). change ZnearestE with (Znearest (fun n => negb (Z.even n))). rewrite Q.
  replace (x * (1 + e) + h - x) with (x * e + h) by ring. eapply Rle_trans; [apply Rabs_triang|]. apply Rplus_le_compat.
  - rewrite Rabs_mult, Rmult_comm. apply Rmult_le_compat_r; [apply Rabs_pos|]. eapply Rle_trans; [exact E|]. unfold u. change (bpow radix2 (- (24) + 1)) with (/ 8388608). lra.
  - eapply Rle_trans; [exact H|]. unfold eta. replace (/ 2 * bpow radix2 (-149)) with (bpow radix2 (-150)); [lra|].
    change (-149)%Z with (1 + -150)%Z. rewrite bpow_plus. change (bpow radix2 1) with 2. lra.
Qed.
Lemma rnd_rel x : bpow radix2 (-126) <= x -> Rabs (rnd x - x) <= u * x.
Proof.
  intro Hx. assert (0 < bpow radix2 (-126)) by apply bpow_gt_0.
  assert (H0 := relative_error_N_FLT radix2 (-149) 24 eq_refl (fun n => negb (Z.even n)) x).
  rewrite (Rabs_pos_eq x) in H0 by lra. specialize (H0 Hx). unfold rnd. change fexp with (FLT_exp (-149) 24). change ZnearestE with (Znearest (fun n => negb (Z.even n))).
  eapply Rle_trans; [exact H0|]. unfold u. change (bpow radix2 (- (24) + 1)) with (/ 8388608). lra.
Qed.

(** * normal *)
Lemma bp126 : bpow radix2 (-126) = powerRZ 2 (-126). Proof. exact (bpow_powerRZ radix2 (-126)). Qed.

Lemma abs_bound a b : Rabs a <= b -> - b <= a <= b.
Proof. apply Rabs_le_inv. Qed.

(** The sum of the squares. *)
Lemma sum_ok x y z : float32 x -> float32 y -> float32 z ->
  bpow radix2 (-124) <= real x * real x + real y * real y + real z * real z <= bpow radix2 124 ->
  let S := real x * real x + real y * real y + real z * real z in
  let m := fadd (fadd (fmul x x) (fmul y y)) (fmul z z) in
  float32 m /\ Rabs (real m - S) <= 9 / 2 * u * S.
Proof.
  intros Hx Hy Hz B. assert (Xp := Rle_0_sqr (real x)). assert (Yp := Rle_0_sqr (real y)). assert (Zp := Rle_0_sqr (real z)). unfold Rsqr in *.
  assert (BIG : bpow radix2 124 + bpow radix2 124 + bpow radix2 124 <= bpow radix2 127).
  { replace 127%Z with (3 + 124)%Z by reflexivity. rewrite bpow_plus. change (bpow radix2 3) with 8. assert (0 < bpow radix2 124) by apply bpow_gt_0. lra. }
  assert (ETA : eta * 67108864 = bpow radix2 (-124)).
  { unfold eta. replace (-124)%Z with (-150 + 26)%Z by reflexivity. rewrite bpow_plus. reflexivity. }
  assert (EP : 0 < eta) by apply bpow_gt_0.
  set (S := real x * real x + real y * real y + real z * real z) in *. cbv zeta.
  set (XX := real x * real x) in *. set (YY := real y * real y) in *. set (ZZ := real z * real z) in *.
  assert (SE : S = XX + YY + ZZ) by reflexivity. clearbody S.
  destruct (fmul_ok x x Hx Hx) as (FA & RA); [fold XX; rewrite Rabs_pos_eq by lra; lra|].
  destruct (fmul_ok y y Hy Hy) as (FB & RB); [fold YY; rewrite Rabs_pos_eq by lra; lra|].
  destruct (fmul_ok z z Hz Hz) as (FC & RC); [fold ZZ; rewrite Rabs_pos_eq by lra; lra|]. fold XX in RA. fold YY in RB. fold ZZ in RC.
  assert (EA := rnd_err XX). assert (EB := rnd_err YY). assert (EC := rnd_err ZZ). rewrite <- RA in EA. rewrite <- RB in EB. rewrite <- RC in EC.
  rewrite (Rabs_pos_eq XX) in EA by lra. rewrite (Rabs_pos_eq YY) in EB by lra. rewrite (Rabs_pos_eq ZZ) in EC by lra.
  apply abs_bound in EA, EB, EC. clear RA RB RC. unfold u in *.
  set (a := fmul x x) in *. set (b := fmul y y) in *. set (c := fmul z z) in *. clearbody XX YY ZZ. clearbody a b c.
  destruct (fadd_ok a b FA FB) as (FD & RD); [apply Rabs_le; lra|].
  assert (ED := rnd_err (real a + real b)). rewrite <- RD in ED. unfold u in ED.
  assert (AB : Rabs (real a + real b) <= 101 / 100 * S) by (apply Rabs_le; lra). assert (AB' := Rabs_pos (real a + real b)). set (ab := Rabs (real a + real b)) in *. clearbody ab.
  apply abs_bound in ED. clear RD. set (d := fadd a b) in *. clearbody d.
  destruct (fadd_ok d c FD FC) as (FE & RE); [apply Rabs_le; lra|]. split; [assumption|].
  assert (EE := rnd_err (real d + real c)). rewrite <- RE in EE. unfold u in EE.
  assert (DC : Rabs (real d + real c) <= 102 / 100 * S) by (apply Rabs_le; lra). set (dc := Rabs (real d + real c)) in *. clearbody dc. apply abs_bound in EE.
  apply Rabs_le. lra.
Qed.

(** The square roots of close numbers are close. *)
Lemma root_close m S : 0 < S -> Rabs (m - S) <= 9 / 2 * u * S -> 0 < sqrt m /\ Rabs (sqrt S / sqrt m - 1) <= 5 / 2 * u.
Proof.
  intros P H. apply abs_bound in H. unfold u in *. assert (Pm : 0 < m) by lra.
  assert (W := sqrt_lt_R0 S P). assert (T := sqrt_lt_R0 m Pm). split; [assumption|].
  assert (WW := sqrt_sqrt S ltac:(lra)). assert (TT := sqrt_sqrt m ltac:(lra)).
  set (w := sqrt S) in *. set (t := sqrt m) in *. clearbody w t. subst S m.
  assert (K : w / t * t = w) by (field; lra). set (k := w / t) in *. clearbody k. subst w.
  assert (kp : 0 < k) by nra. set (q := t * t) in *. assert (Q : 0 < q) by (unfold q; nra).
  replace (k * t * (k * t)) with (k * k * q) in H by (unfold q; ring). clearbody q.
  assert (H1 : 1 - k * k <= 9 / 2 * / 16777216 * (k * k)) by nra.
  assert (H2 : - (9 / 2 * / 16777216 * (k * k)) <= 1 - k * k) by nra.
  apply Rabs_le. split; nra.
Qed.

(** The result, when r is the inverse root of m up to a relative error eps. *)
Lemma normal_ok r_of x y z eps : float32 x -> float32 y -> float32 z ->
  let S := real x * real x + real y * real y + real z * real z in
  let m := fadd (fadd (fmul x x) (fmul y y)) (fmul z z) in
  bpow radix2 (-124) <= S <= bpow radix2 124 -> eps <= / 1000 ->
  float32 (r_of m) -> Rabs (real (r_of m) * sqrt (real m) - 1) <= eps ->
  forall v, float32 v -> real v * real v <= S ->
  float32 (fmul v (r_of m)) /\ Rabs (real (fmul v (r_of m)) - real v / sqrt S) <= (eps + 4 * u) * Rabs (real v / sqrt S) + eta.
Proof.
  intros Hx Hy Hz S m B He Fr Er v Fv Vs. assert (P := bpow_gt_0 radix2 (-124)).
  destruct (sum_ok x y z Hx Hy Hz B) as (Fm & Em). fold S m in Em. destruct (root_close (real m) S ltac:(lra) Em) as (T & K).
  assert (W := sqrt_lt_R0 S ltac:(lra)). assert (WW := sqrt_sqrt S ltac:(lra)).
  set (r := real (r_of m)) in *. set (t := sqrt (real m)) in *. set (w := sqrt S) in *.
  set (k := w / t) in *. assert (RW : r = (r * t) * k / w) by (unfold k; field; lra).
  set (p := r * t) in *. set (q := real v / w).
  assert (VR : real v * r = q * (p * k)) by (rewrite RW; unfold q; field; lra).
  assert (Q : Rabs q <= 1).
  { unfold q. assert (real v / w * w = real v) by (field; lra). set (h := real v / w) in *. assert (h * h <= 1) by (apply Rmult_le_reg_r with (w * w); [nra|]; nra).
    apply Rabs_le. nra. }
  clearbody p k. apply abs_bound in Er, K. unfold u in *.
  assert (PK : Rabs (p * k - 1) <= eps + 26 / 10 * / 16777216) by (apply Rabs_le; nra).
  assert (PK' : Rabs (p * k) <= 101 / 100) by (apply abs_bound in PK; apply Rabs_le; lra).
  assert (ONE : 2 <= bpow radix2 127) by (change 2 with (bpow radix2 1); apply bpow_le; lia).
  assert (Rabs (q * (p * k)) <= 101 / 100) by (rewrite Rabs_mult; assert (0 <= Rabs q) by apply Rabs_pos; assert (0 <= Rabs (p * k)) by apply Rabs_pos; nra).
  destruct (fmul_ok v (r_of m) Fv Fr) as (FN & RN); [fold r; rewrite VR; lra|]. fold r in RN. rewrite VR in RN.
  split; [assumption|]. rewrite RN. assert (E := rnd_err (q * (p * k))). unfold u in E. fold q.
  replace (rnd (q * (p * k)) - q) with ((rnd (q * (p * k)) - q * (p * k)) + q * (p * k - 1)) by ring.
  eapply Rle_trans; [apply Rabs_triang|]. rewrite Rabs_mult. rewrite Rabs_mult in E.
  assert (0 <= Rabs q) by apply Rabs_pos. set (aq := Rabs q) in *. set (d := Rabs (rnd (q * (p * k)) - q * (p * k))) in *. set (g := Rabs (p * k - 1)) in *. set (h := Rabs (p * k)) in *. clearbody aq d g h.
  assert (0 <= eps) by lra. nra.
Qed.

Lemma portable_ok m : float32 m -> bpow radix2 (-126) <= real m <= bpow radix2 128 ->
  float32 (r_portable m) /\ Rabs (real (r_portable m) * sqrt (real m) - 1) <= 21 / 10 * u.
Proof.
  intros Fm B. unfold r_portable. assert (P := bpow_gt_0 radix2 (-126)). destruct (fsqrt_ok m Fm ltac:(lra)) as (Fs & Rs).
  assert (L1 : bpow radix2 (-63) <= sqrt (real m)).
  { rewrite <- (sqrt_Rsqr (bpow radix2 (-63))) by apply bpow_ge_0. apply sqrt_le_1_alt. unfold Rsqr. rewrite <- bpow_plus. apply B. }
  assert (L2 : sqrt (real m) <= bpow radix2 64).
  { rewrite <- (sqrt_Rsqr (bpow radix2 64)) by apply bpow_ge_0. apply sqrt_le_1_alt. unfold Rsqr. rewrite <- bpow_plus. apply B. }
  set (t := sqrt (real m)) in *. clearbody t.
  assert (Es := rnd_rel t). rewrite <- Rs in Es. assert (bpow radix2 (-126) <= bpow radix2 (-63)) by (apply bpow_le; lia). specialize (Es ltac:(lra)).
  apply abs_bound in Es. assert (P63 := bpow_gt_0 radix2 (-63)). assert (I63 : bpow radix2 (-63) * bpow radix2 63 = 1) by (rewrite <- bpow_plus; reflexivity).
  set (s := fsqrt m) in *. clearbody s. unfold u in *.
  assert (F1 : float32 f_one) by (split; [reflexivity|exact I]). assert (R1 : real f_one = 1) by (rewrite real_SF; unfold f_one; cbn [SF2R cond_Zopp]; unfold F2R; cbn [Fnum Fexp]; change (bpow radix2 (-23)) with (/ 8388608); lra).
  assert (Sp : 0 < real s) by lra. assert (IS := Rinv_0_lt_compat _ Sp). assert (II : real s * / real s = 1) by (field; lra).
  assert (Q : real f_one / real s = / real s) by (rewrite R1; field; lra).
  assert (U : / real s <= 2 * bpow radix2 63).
  { apply Rmult_le_reg_l with (real s); [assumption|]. rewrite II. nra. }
  assert (U' : 2 * bpow radix2 63 <= bpow radix2 127).
  { change 2 with (bpow radix2 1). rewrite <- bpow_plus. apply bpow_le. lia. }
  destruct (fdiv_ok f_one s F1 Fs ltac:(lra)) as (Fd & Rd); [rewrite Q, Rabs_pos_eq by lra; lra|]. rewrite Q in Rd.
  assert (Lo : bpow radix2 (-126) <= / real s).
  { apply Rmult_le_reg_l with (real s); [assumption|]. rewrite II. apply Rle_trans with (2 * bpow radix2 64 * bpow radix2 (-126)).
    - apply Rmult_le_compat_r; lra.
    - change 2 with (bpow radix2 1). rewrite <- !bpow_plus. change 1 with (bpow radix2 0). apply bpow_le. lia. }
  assert (Ed := rnd_rel _ Lo). rewrite <- Rd in Ed. apply abs_bound in Ed. split; [assumption|]. unfold u in Ed.
  set (d := real (fdiv f_one s)) in *. clearbody d. set (i := / real s) in *. clearbody i.
  assert (Pt : 0 < t) by lra. set (c := real s) in *. clearbody c.
  assert (IT : Rabs (i * t - 1) <= 10001 / 10000 * / 16777216) by (apply Rabs_le; nra). apply abs_bound in IT.
  assert (Pit : 0 < i * t) by nra. assert (DT : - (/ 16777216 * (i * t)) <= d * t - i * t <= / 16777216 * (i * t)) by nra.
  apply Rabs_le. lra.
Qed.

Lemma float32_max f : float32 f -> real f <= bpow radix2 128.
Proof.
  intro F. destruct (float32_B f F) as (b & _ & _ & ->). apply Rle_trans with (Rabs (B2R b)); [apply Rle_abs|]. apply Rlt_le. apply abs_B2R_lt_emax.
Qed.
