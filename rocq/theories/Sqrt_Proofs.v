(** The binary64 operations of Sqrt_Model.v as roundings of real numbers, by Flocq, and the error of their composition. *)
From Coq Require Import Reals Lra Psatz.
From Flocq Require Import Core BinarySingleNaN.
From Flocq Require Import Relative.
From Verif Require Import Base Cordic_Model Sqrt_Model.
Local Open Scope R_scope.

Notation fexp := (SpecFloat.fexp 53 1024).
Definition rnd (x : R) : R := round radix2 fexp ZnearestE x.

Lemma Hprec : FLX.Prec_gt_0 53. Proof. reflexivity. Qed.
Lemma Hmax : Prec_lt_emax 53 1024. Proof. reflexivity. Qed.
#[local] Existing Instance Hprec.
#[local] Existing Instance Hmax.

Lemma round_aux_equiv : forall s m e l,
  SpecFloat.binary_round_aux 53 1024 s m e l = binary_round_aux 53 1024 mode_NE s m e l.
Proof.
  intros s m e l. unfold SpecFloat.binary_round_aux, binary_round_aux.
  set (mrse := SpecFloat.shr_fexp _ _ _ _ _). case mrse as [mrs e']. simpl.
  replace (SpecFloat.round_nearest_even (SpecFloat.shr_m mrs) (SpecFloat.loc_of_shr_record mrs)) with
    (choice_mode mode_NE s (SpecFloat.shr_m mrs) (SpecFloat.loc_of_shr_record mrs)); [reflexivity|].
  destruct mrs as [mm [|] [|]]; cbn; try reflexivity; destruct (Z.even mm); reflexivity.
Qed.

Lemma normalize_equiv : forall m e z, SpecFloat.binary_normalize 53 1024 m e z = B2SF (binary_normalize 53 1024 Hprec Hmax mode_NE m e z).
Proof.
  assert (BR : forall s m e, SpecFloat.binary_round 53 1024 s m e = binary_round 53 1024 mode_NE s m e).
  { intros s m e. unfold SpecFloat.binary_round, binary_round, shl_align_fexp. set (mez := SpecFloat.shl_align _ _ _). case mez as [mz ez].
    apply round_aux_equiv. }
  intros m e z. destruct m as [|p|p]; simpl; [reflexivity| |]; rewrite B2SF_SF2B; apply BR.
Qed.

Lemma sqrt_equiv : forall x : binary_float 53 1024, SpecFloat.SFsqrt 53 1024 (B2SF x) = B2SF (Bsqrt mode_NE x).
Proof.
  intros [s|s| |s m e B]; [reflexivity|destruct s; reflexivity|reflexivity|].
  destruct s; [reflexivity|]. simpl. rewrite B2SF_SF2B. set (melz := SpecFloat.SFsqrt_core_binary _ _ _ _). case melz as [[mz ez] lz].
  apply round_aux_equiv.
Qed.

Lemma mul_equiv : forall x y : binary_float 53 1024, SpecFloat.SFmul 53 1024 (B2SF x) (B2SF y) = B2SF (Bmult mode_NE x y).
Proof.
  intros x y. case x as [sx|sx| |sx mx ex Bx]; case y as [sy|sy| |sy my ey By]; [now trivial.. | ].
  simpl. rewrite B2SF_SF2B. apply round_aux_equiv.
Qed.

Lemma add_equiv : forall x y : binary_float 53 1024, SpecFloat.SFadd 53 1024 (B2SF x) (B2SF y) = B2SF (Bplus mode_NE x y).
Proof.
  intros x y. case x as [sx|sx| |sx mx ex Bx]; case y as [sy|sy| |sy my ey By]; [now (trivial || simpl; case Bool.eqb).. | ].
  apply normalize_equiv.
Qed.

(** rnd is close, monotone and exact on small integers. *)
Lemma rnd_le : forall x y, x <= y -> rnd x <= rnd y.
Proof. intros. apply round_le; [apply fexp_correct; exact Hprec|auto with typeclass_instances|assumption]. Qed.

Lemma rnd_int : forall z, (Z.abs z <= 2 ^ 53)%Z -> rnd (IZR z) = IZR z.
Proof.
  intros z Hz. apply round_generic; [auto with typeclass_instances|].
  destruct (Z.eq_dec (Z.abs z) (2 ^ 53)) as [E|E].
  - assert (H : IZR z = F2R (Float radix2 (Z.sgn z) 53)).
    { unfold F2R. cbn [Fnum Fexp]. rewrite <- (Z.abs_sgn z) at 1. rewrite E, mult_IZR, Rmult_comm. f_equal. }
    rewrite H. apply generic_format_FLT. exists (Float radix2 (Z.sgn z) 53); [reflexivity| |cbn; lia].
    cbn [Fnum]. destruct z; cbn; reflexivity.
  - apply generic_format_FLT. exists (Float radix2 z 0); [unfold F2R; cbn; lra| |cbn; lia].
    cbn [Fnum]. change (Zpower radix2 53) with (2 ^ 53)%Z. lia.
Qed.

Lemma rnd_err : forall x, 1 <= x -> Rabs (rnd x - x) <= x / 2 ^ 53.
Proof.
  intros x Hx.
  assert (H := relative_error_N_FLT radix2 (-1074) 53 eq_refl (fun n => negb (Z.even n)) x).
  assert (P : Rabs x = x) by (apply Rabs_pos_eq; lra). rewrite P in H.
  assert (B : bpow radix2 (-1074 + 53 - 1) <= x).
  { apply Rle_trans with (bpow radix2 0); [apply bpow_le; lia|exact Hx]. }
  specialize (H B). unfold rnd. change fexp with (FLT_exp (-1074) 53).
  replace (x / 2 ^ 53) with (/ 2 * bpow radix2 (- 53 + 1) * x); [exact H|].
  change (bpow radix2 (- 53 + 1)) with (/ IZR (2 ^ 52)). replace (IZR (2 ^ 52)) with (2 ^ 52) by (rewrite pow_IZR; reflexivity).
  field.
Qed.

(** The rounding to an integer. *)
Lemma near_even_ok : forall m e, (0 <= m)%Z -> near_even m e = ZnearestE (F2R (Float radix2 m e)).
Proof.
  intros m e Hm. unfold near_even. destruct (Z.leb_spec 0 e) as [He|He].
  - replace (F2R (Float radix2 m e)) with (IZR (m * 2 ^ e)).
    + symmetry. apply Zrnd_IZR. apply valid_rnd_N.
    + unfold F2R. cbn [Fnum Fexp]. rewrite mult_IZR. f_equal. rewrite <- IZR_Zpower by exact He. reflexivity.
  - set (p := (2 ^ (- e))%Z). assert (Hp : (0 < p)%Z) by (apply Z.pow_pos_nonneg; lia).
    assert (E : F2R (Float radix2 m e) = IZR m / IZR p).
    { unfold F2R, Rdiv. cbn [Fnum Fexp]. f_equal. replace e with (- - e)%Z at 1 by lia. rewrite bpow_opp.
      rewrite <- IZR_Zpower by lia. reflexivity. }
    rewrite E. assert (Hp' : 0 < IZR p) by (apply IZR_lt; exact Hp).
    assert (D := Z.div_mod m p ltac:(lia)). assert (B := Z.mod_pos_bound m p Hp).
    set (q := (m / p)%Z) in *. set (r := (m mod p)%Z) in *.
    assert (F : Zfloor (IZR m / IZR p) = q) by (apply Zfloor_div; lia).
    assert (X : IZR m / IZR p - IZR q = IZR r / IZR p).
    { rewrite D, plus_IZR, mult_IZR. field. lra. }
    unfold Znearest. rewrite F, X.
    assert (CE : r <> 0%Z -> Zceil (IZR m / IZR p) = (q + 1)%Z).
    { intro NZ. rewrite <- F. apply Zceil_floor_neq. rewrite F. intro C. apply NZ.
      assert (IZR r / IZR p = 0) by (rewrite <- X, C; ring). assert (IZR r = 0) by (apply Rmult_eq_reg_r with (/ IZR p); [unfold Rdiv in *; lra|apply Rinv_neq_0_compat; lra]).
      apply eq_IZR in H0. exact H0. }
    assert (C2 : Rcompare (IZR r / IZR p) (/ 2) = (2 * r ?= p)%Z).
    { rewrite <- Rcompare_IZR. rewrite mult_IZR.
      rewrite <- (Rcompare_mult_r (2 * IZR p) (IZR r / IZR p)) by lra. f_equal; field; lra. }
    rewrite C2. clearbody q r.
    destruct (Z.compare_spec (2 * r) p) as [C|C|C].
    + destruct (Z.ltb_spec (2 * r) p); [lia|]. destruct (Z.ltb_spec p (2 * r)); [lia|].
      destruct (Z.even q); cbn [negb]; [reflexivity|]. rewrite CE by lia. reflexivity.
    + destruct (Z.ltb_spec (2 * r) p); [reflexivity|lia].
    + destruct (Z.ltb_spec (2 * r) p); [lia|]. destruct (Z.ltb_spec p (2 * r)); [|lia]. rewrite CE by lia. reflexivity.
Qed.

Lemma cvt_ok : forall x : binary_float 53 1024, is_finite x = true -> 0 <= B2R x ->
  (ZnearestE (B2R x) < 2 ^ 31)%Z -> cvtsd_si32 (B2SF x) = ZnearestE (B2R x).
Proof.
  intros [s|s| |s m e B] HF H0 HB; try discriminate.
  - cbn. symmetry. apply (Zrnd_IZR ZnearestE 0).
  - destruct s.
    + exfalso. cbn [B2R] in H0. assert (C : F2R (Float radix2 (cond_Zopp true (Z.pos m)) e) < 0) by (apply F2R_lt_0; reflexivity). lra.
    + cbn [B2SF cvtsd_si32]. cbn [B2R cond_Zopp] in *. rewrite near_even_ok by lia.
      assert (N : (0 <= ZnearestE (F2R (Float radix2 (Z.pos m) e)))%Z).
      { rewrite <- (Zrnd_IZR ZnearestE 0) by apply valid_rnd_N. apply Zrnd_le; [apply valid_rnd_N|exact H0]. }
      rewrite (proj2 (in_sb_spec 32 _)); [reflexivity|]. unfold in_s. change (2 ^ (32 - 1))%Z with (2 ^ 31)%Z. lia.
Qed.

Lemma bound_1024 : forall x, 0 <= x -> x <= 2 ^ 70 -> Rabs (rnd x) < bpow radix2 1024.
Proof.
  intros x H0 H1. assert (R0 : 0 <= rnd x) by (rewrite <- (rnd_int 0) by (cbn; lia); apply rnd_le; exact H0).
  rewrite Rabs_pos_eq by exact R0. apply Rle_lt_trans with (rnd (bpow radix2 70)).
  - apply rnd_le. eapply Rle_trans; [exact H1|]. rewrite <- (IZR_Zpower radix2 70) by lia. rewrite pow_IZR. apply Rle_refl.
  - unfold rnd. rewrite round_generic; [apply bpow_lt; lia|auto with typeclass_instances|].
    apply generic_format_bpow. cbn. lia.
Qed.

(** A double that is a rounded non-negative integer. *)
Lemma dbl_ok : forall v, (0 <= v < 2 ^ 64)%Z -> exists x : binary_float 53 1024, dbl v = B2SF x /\ B2R x = rnd (IZR v) /\
  is_finite x = true /\ Bsign x = false.
Proof.
  intros v Hv. exists (binary_normalize 53 1024 Hprec Hmax mode_NE v 0 false). split; [apply normalize_equiv|].
  assert (C := binary_normalize_correct 53 1024 Hprec Hmax mode_NE v 0 false). cbv zeta in C.
  assert (E : F2R (Float radix2 v 0) = IZR v) by (unfold F2R; cbn; lra). rewrite E in C. cbn [round_mode] in C. fold (rnd (IZR v)) in C.
  assert (V0 : 0 <= IZR v) by (apply IZR_le; lia).
  rewrite Rlt_bool_true in C.
  - destruct C as (C1 & C2 & C3). split; [exact C1|]. split; [exact C2|]. rewrite C3.
    destruct (Rcompare_spec (IZR v) 0); [lra|reflexivity|reflexivity].
  - apply bound_1024; [exact V0|]. rewrite pow_IZR. apply IZR_le. lia.
Qed.

Lemma rnd_nonneg : forall x, 0 <= x -> 0 <= rnd x.
Proof. intros x H. rewrite <- (rnd_int 0) by (cbn; lia). apply rnd_le. exact H. Qed.

Lemma sqrt_ok : forall x : binary_float 53 1024, is_finite x = true -> Bsign x = false ->
  exists y : binary_float 53 1024, SpecFloat.SFsqrt 53 1024 (B2SF x) = B2SF y /\ B2R y = rnd (sqrt (B2R x)) /\ is_finite y = true.
Proof.
  intros x HF HS. exists (Bsqrt mode_NE x). split; [apply sqrt_equiv|].
  destruct (Bsqrt_correct 53 1024 Hprec Hmax mode_NE x) as (R & F & _). split; [exact R|].
  rewrite F. destruct x as [s|s| |s m e B]; try discriminate; [reflexivity|]. cbn in HS. subst s. reflexivity.
Qed.

Lemma isqrt_real : forall v, (0 <= v < 2 ^ 64)%Z -> (ZnearestE (rnd (sqrt (rnd (IZR v)))) < 2 ^ 31)%Z ->
  isqrt v = ZnearestE (rnd (sqrt (rnd (IZR v)))).
Proof.
  intros v Hv HB. unfold isqrt. destruct (dbl_ok v Hv) as (x & -> & Rx & Fx & Sx).
  destruct (sqrt_ok x Fx Sx) as (y & -> & Ry & Fy). rewrite <- Rx, <- Ry. apply cvt_ok; [exact Fy| |].
  - rewrite Ry. apply rnd_nonneg. apply sqrt_pos.
  - rewrite Ry, Rx. exact HB.
Qed.

Lemma sqrt_close : forall v w d, 0 < v -> 0 <= w -> Rabs (w - v) <= d -> Rabs (sqrt w - sqrt v) <= d / sqrt v.
Proof.
  intros v w d Hv Hw H. assert (S : 0 < sqrt v) by (apply sqrt_lt_R0; exact Hv). assert (T := sqrt_pos w).
  assert (E1 := sqrt_sqrt v ltac:(lra)). assert (E2 := sqrt_sqrt w Hw).
  set (s := sqrt v) in *. set (t := sqrt w) in *. clearbody s t.
  assert (P : Rabs (t - s) * (t + s) = Rabs (w - v)).
  { rewrite <- (Rabs_pos_eq (t + s)) by lra. rewrite <- Rabs_mult. f_equal. rewrite <- E1, <- E2. ring. }
  assert (A := Rabs_pos (t - s)). apply Rmult_le_reg_r with s; [exact S|]. replace (d / s * s) with d by (field; lra). nra.
Qed.

(** Both roundings together. *)
Lemma root_err : forall v, 1 <= v -> Rabs (rnd (sqrt (rnd v)) - sqrt v) <= 3 * sqrt v / 2 ^ 53 /\ 1 <= rnd v.
Proof.
  intros v Hv. assert (E := rnd_err v Hv).
  assert (W : 1 <= rnd v) by (rewrite <- (rnd_int 1) by (cbn; lia); apply rnd_le; exact Hv).
  split; [|exact W].
  assert (C := sqrt_close v (rnd v) _ ltac:(lra) ltac:(lra) E).
  assert (S1 : 1 <= sqrt v) by (rewrite <- sqrt_1 at 1; apply sqrt_le_1_alt; exact Hv).
  assert (T1 : 1 <= sqrt (rnd v)) by (rewrite <- sqrt_1 at 1; apply sqrt_le_1_alt; exact W).
  assert (E1 := sqrt_sqrt v ltac:(lra)).
  assert (R := rnd_err _ T1).
  set (t := sqrt (rnd v)) in *. set (s := sqrt v) in *. set (r := rnd t) in *. clearbody t s r.
  assert (P53 : 2 ^ 53 = 9007199254740992) by (rewrite pow_IZR; reflexivity). rewrite P53 in *.
  assert (EV : v / 9007199254740992 / s = s / 9007199254740992) by (rewrite <- E1; field; lra). rewrite EV in C.
  assert (TS : t <= 2 * s) by (unfold Rabs in C; destruct (Rcase_abs (t - s)); lra).
  unfold Rabs in *. destruct (Rcase_abs (t - s)); destruct (Rcase_abs (r - t)); destruct (Rcase_abs (r - s)); lra.
Qed.

Lemma sqrt_square : forall x, sqrt (IZR (x * x)) = Rabs (IZR x).
Proof. intro x. rewrite mult_IZR. exact (sqrt_Rsqr_abs (IZR x)). Qed.

Lemma near_square : forall x, (0 <= x < 2 ^ 31)%Z -> ZnearestE (rnd (sqrt (rnd (IZR (x * x))))) = x.
Proof.
  intros x Hx. destruct (Z.eq_dec x 0) as [->|NZ].
  - cbn [Z.mul]. rewrite (rnd_int 0) by (cbn; lia). rewrite sqrt_0, (rnd_int 0) by (cbn; lia). apply (Zrnd_IZR ZnearestE 0).
  - apply Znearest_imp. assert (V : 1 <= IZR (x * x)) by (apply IZR_le; nia).
    destruct (root_err _ V) as [E _]. rewrite sqrt_square in E. rewrite (Rabs_pos_eq (IZR x)) in E by (apply IZR_le; lia).
    assert (B : IZR x <= 2147483648) by (apply IZR_le; lia).
    assert (P53 : 2 ^ 53 = 9007199254740992) by (rewrite pow_IZR; reflexivity). rewrite P53 in *. lra.
Qed.

Lemma root_mono : forall v w, (0 <= v <= w)%Z ->
  (ZnearestE (rnd (sqrt (rnd (IZR v)))) <= ZnearestE (rnd (sqrt (rnd (IZR w)))))%Z.
Proof.
  intros v w H. apply Zrnd_le; [apply valid_rnd_N|]. apply rnd_le. apply sqrt_le_1_alt. apply rnd_le. apply IZR_le. lia.
Qed.

Lemma isqrt_is : forall v, (0 <= v <= (2 ^ 31 - 1) * (2 ^ 31 - 1))%Z -> isqrt v = ZnearestE (rnd (sqrt (rnd (IZR v)))).
Proof.
  intros v Hv. apply isqrt_real; [lia|].
  eapply Z.le_lt_trans; [apply root_mono; exact Hv|]. rewrite near_square by lia. lia.
Qed.

(** Rounding once, below 2^50. *)
Lemma near_root : forall v, (0 <= v <= 2 ^ 50 - 2 ^ 25)%Z ->
  Rabs (IZR (ZnearestE (rnd (sqrt (rnd (IZR v))))) - sqrt (IZR v)) <= 1 / 2.
Proof.
  intros v Hv. rewrite (rnd_int v) by lia.
  destruct (Z.eq_dec v 0) as [->|NZ].
  { rewrite sqrt_0, (rnd_int 0) by (cbn; lia). rewrite (Zrnd_IZR ZnearestE 0). rewrite Rminus_0_r, Rabs_R0. lra. }
  assert (V : 1 <= IZR v) by (apply IZR_le; lia).
  assert (S1 : 1 <= sqrt (IZR v)) by (rewrite <- sqrt_1 at 1; apply sqrt_le_1_alt; exact V).
  assert (R := rnd_err _ S1).
  assert (N := Znearest_half (fun n => negb (Z.even n)) (sqrt (IZR v))).
  assert (E1 := sqrt_sqrt (IZR v) ltac:(lra)).
  assert (SB : sqrt (IZR v) <= 33554432).
  { apply Rsqr_incr_0; [|lra|lra]. unfold Rsqr. rewrite E1. rewrite <- mult_IZR. apply IZR_le. lia. }
  set (s := sqrt (IZR v)) in *. set (m := ZnearestE s) in *.
  replace (ZnearestE (rnd s)) with m.
  { rewrite Rabs_minus_sym. eapply Rle_trans; [exact N|]. lra. }
  symmetry. apply Znearest_imp.
  assert (N' : - / 2 <= s - IZR m <= / 2) by (unfold Rabs in N; destruct (Rcase_abs (s - IZR m)); lra).
  assert (M0 : (1 <= m)%Z).
  { assert (IZR 0 < IZR m) by lra. apply lt_IZR in H. lia. }
  assert (U : (v <= m * m + m)%Z).
  { assert (H : IZR (4 * v) <= IZR ((2 * m + 1) * (2 * m + 1))).
    { rewrite !mult_IZR, plus_IZR, mult_IZR, <- E1. nra. }
    apply le_IZR in H. lia. }
  assert (L : (m * m - m + 1 <= v)%Z).
  { assert (H : IZR ((2 * m - 1) * (2 * m - 1)) <= IZR (4 * v)).
    { assert (M1 : 1 <= IZR m) by (apply IZR_le; exact M0). rewrite !mult_IZR, minus_IZR, mult_IZR, <- E1. nra. }
    apply le_IZR in H. lia. }
  apply IZR_le in U, L. rewrite plus_IZR, mult_IZR in U. rewrite plus_IZR, minus_IZR, mult_IZR in L.
  assert (M1 : 1 <= IZR m) by (apply IZR_le; exact M0).
  assert (SV : 8 * (s * s) + 4 * s < 9007199254740992).
  { rewrite E1. assert (IZR v <= IZR (2 ^ 50 - 2 ^ 25)) by (apply IZR_le; lia). 
    assert (IZR (2 ^ 50 - 2 ^ 25) = 1125899873288192) by reflexivity. lra. }
  assert (P53 : 2 ^ 53 = 9007199254740992) by (rewrite pow_IZR; reflexivity). rewrite P53 in R.
  set (M := IZR m) in *. set (V' := IZR v) in *. set (r := rnd s) in *. clearbody s M V' r. clear - R N' U L M1 SV S1 E1.
  assert (R' : - (s / 9007199254740992) <= r - s <= s / 9007199254740992) by (unfold Rabs in R; destruct (Rcase_abs (r - s)); lra).
  assert (GU : 1 / 4 <= (M + 1 / 2 - s) * (2 * s + 1)) by nra.
  assert (GL : 3 / 4 <= (s - (M - 1 / 2)) * (2 * s)) by nra.
  assert (D : s / 9007199254740992 * (8 * s + 4) < 1) by lra.
  assert (A1 : s / 9007199254740992 < M + 1 / 2 - s) by nra.
  assert (A2 : s / 9007199254740992 < s - (M - 1 / 2)) by nra.
  apply Rabs_def1; lra.
Qed.

(** The portable hypot: exact products and sum of small integers. *)
Lemma dbl_small : forall v, (Z.abs v <= 2 ^ 53)%Z -> exists x : binary_float 53 1024, dbl v = B2SF x /\ B2R x = IZR v /\ is_finite x = true.
Proof.
  intros v Hv. exists (binary_normalize 53 1024 Hprec Hmax mode_NE v 0 false). split; [apply normalize_equiv|].
  assert (C := binary_normalize_correct 53 1024 Hprec Hmax mode_NE v 0 false). cbv zeta in C.
  assert (E : F2R (Float radix2 v 0) = IZR v) by (unfold F2R; cbn; lra). rewrite E in C. cbn [round_mode] in C. fold (rnd (IZR v)) in C.
  rewrite rnd_int in C by exact Hv. rewrite Rlt_bool_true in C.
  - destruct C as (C1 & C2 & _). split; assumption.
  - apply Rle_lt_trans with (bpow radix2 53); [|apply bpow_lt; lia]. rewrite <- abs_IZR. rewrite <- (IZR_Zpower radix2 53) by lia. apply IZR_le. exact Hv.
Qed.

Lemma int_lt_1024 : forall z, (Z.abs z <= 2 ^ 53)%Z -> Rlt_bool (Rabs (IZR z)) (bpow radix2 1024) = true.
Proof.
  intros z Hz. apply Rlt_bool_true. apply Rle_lt_trans with (bpow radix2 53); [|apply bpow_lt; lia].
  rewrite <- abs_IZR, <- (IZR_Zpower radix2 53) by lia. apply IZR_le. exact Hz.
Qed.

Lemma sq_small : forall v, (Z.abs v <= 2 ^ 24)%Z -> exists x : binary_float 53 1024, dmul (dbl v) (dbl v) = B2SF x /\ B2R x = IZR (v * v) /\
  is_finite x = true /\ Bsign x = false.
Proof.
  intros v Hv. destruct (dbl_small v ltac:(lia)) as (x & -> & Rx & Fx). exists (Bmult mode_NE x x). unfold dmul. split; [apply mul_equiv|].
  assert (C := Bmult_correct 53 1024 Hprec Hmax mode_NE x x). rewrite Rx in C. rewrite <- mult_IZR in C. cbn [round_mode] in C. fold (rnd (IZR (v * v))) in C.
  rewrite rnd_int in C by nia. rewrite int_lt_1024 in C by nia.
  destruct C as (C1 & C2 & C3). split; [exact C1|]. rewrite Fx in C2. split; [exact C2|].
  assert (NN : is_nan (Bmult mode_NE x x) = false) by (destruct (Bmult mode_NE x x); try discriminate; reflexivity).
  rewrite (C3 NN). apply xorb_nilpotent.
Qed.

Lemma sum_small : forall x y, (Z.abs x <= 2 ^ 24)%Z -> (Z.abs y <= 2 ^ 24)%Z ->
  exists s : binary_float 53 1024, dadd (dmul (dbl x) (dbl x)) (dmul (dbl y) (dbl y)) = B2SF s /\ B2R s = IZR (x * x + y * y) /\
  is_finite s = true /\ Bsign s = false.
Proof.
  intros x y Hx Hy. destruct (sq_small x Hx) as (a & -> & Ra & Fa & Sa). destruct (sq_small y Hy) as (b & -> & Rb & Fb & Sb).
  exists (Bplus mode_NE a b). unfold dadd. split; [apply add_equiv|].
  assert (C := Bplus_correct 53 1024 Hprec Hmax mode_NE a b Fa Fb). rewrite Ra, Rb, <- plus_IZR in C. cbn [round_mode] in C. fold (rnd (IZR (x * x + y * y))) in C.
  rewrite rnd_int in C by nia. rewrite int_lt_1024 in C by nia. destruct C as (C1 & C2 & C3).
  split; [exact C1|]. split; [exact C2|]. rewrite C3.
  assert (0 <= IZR (x * x + y * y)) by (apply IZR_le; nia).
  destruct (Rcompare_spec (IZR (x * x + y * y)) 0); [lra| |reflexivity]. rewrite Sa, Sb. reflexivity.
Qed.

Lemma trunc_ok : forall x : binary_float 53 1024, is_finite x = true -> 0 <= B2R x -> trunc (B2SF x) = Some (Zfloor (B2R x)).
Proof.
  intros [s|s| |s m e B] HF H0; try discriminate.
  - cbn. f_equal. symmetry. apply (Zfloor_IZR 0).
  - destruct s.
    + exfalso. cbn [B2R] in H0. assert (C : F2R (Float radix2 (cond_Zopp true (Z.pos m)) e) < 0) by (apply F2R_lt_0; reflexivity). lra.
    + cbn [B2SF trunc B2R cond_Zopp]. f_equal. destruct (Z.ltb_spec e 0) as [L|L].
      * symmetry. replace (F2R (Float radix2 (Z.pos m) e)) with (IZR (Z.pos m) / IZR (2 ^ (- e))).
        { apply Zfloor_div. assert (0 < 2 ^ (- e))%Z by (apply Z.pow_pos_nonneg; lia). lia. }
        unfold F2R, Rdiv. cbn [Fnum Fexp]. f_equal. replace e with (- - e)%Z at 2 by lia. rewrite bpow_opp. rewrite <- IZR_Zpower by lia. reflexivity.
      * symmetry. replace (F2R (Float radix2 (Z.pos m) e)) with (IZR (Z.pos m * 2 ^ e)); [apply Zfloor_IZR|].
        unfold F2R. cbn [Fnum Fexp]. rewrite mult_IZR. f_equal. rewrite <- IZR_Zpower by exact L. reflexivity.
Qed.

Lemma floor_root : forall v, (0 <= v <= 2 ^ 49)%Z -> Zfloor (rnd (sqrt (IZR v))) = Z.sqrt v.
Proof.
  intros v Hv. destruct (Z.eq_dec v 0) as [->|NZ].
  { rewrite sqrt_0, (rnd_int 0) by (cbn; lia). apply (Zfloor_IZR 0). }
  assert (V : 1 <= IZR v) by (apply IZR_le; lia).
  assert (S1 : 1 <= sqrt (IZR v)) by (rewrite <- sqrt_1 at 1; apply sqrt_le_1_alt; exact V).
  assert (R := rnd_err _ S1). assert (E1 := sqrt_sqrt (IZR v) ltac:(lra)).
  assert (Q := Z.sqrt_spec v ltac:(lia)). cbv zeta in Q. assert (N0 := Z.sqrt_nonneg v). set (n := Z.sqrt v) in *.
  assert (NB : (n <= 2 ^ 25)%Z) by (change (2 ^ 25)%Z with (Z.sqrt (2 ^ 50)); apply Z.sqrt_le_mono; lia). clearbody n.
  assert (L : IZR n <= sqrt (IZR v)).
  { apply Rsqr_incr_0; [|apply IZR_le; lia|lra]. unfold Rsqr. rewrite E1, <- mult_IZR. apply IZR_le. lia. }
  apply Zfloor_imp. split.
  - rewrite <- (rnd_int n) by lia. apply rnd_le. exact L.
  - rewrite plus_IZR.
    assert (U : IZR v <= (IZR n + 1) * (IZR n + 1) - 1).
    { destruct Q as [_ Q]. assert (Q' : (v <= (n + 1) * (n + 1) - 1)%Z) by lia. apply IZR_le in Q'. rewrite minus_IZR, mult_IZR, plus_IZR in Q'. exact Q'. }
    assert (VB : IZR v <= 562949953421312) by (apply IZR_le; lia).
    assert (N1 : 0 <= IZR n) by (apply IZR_le; lia).
    assert (P53 : 2 ^ 53 = 9007199254740992) by (rewrite pow_IZR; reflexivity). rewrite P53 in R.
    set (s := sqrt (IZR v)) in *. set (M := IZR n) in *. set (V' := IZR v) in *. set (r := rnd s) in *. clearbody s M V' r. clear - R L U VB S1 E1 N1.
    assert (R' : - (s / 9007199254740992) <= r - s <= s / 9007199254740992) by (unfold Rabs in R; destruct (Rcase_abs (r - s)); lra).
    assert (G : 1 <= (M + 1 - s) * (M + 1 + s)) by nra.
    assert (SB : s <= 33554432) by nra.
    assert (D : 1 <= (M + 1 - s) * 67108866) by (apply Rle_trans with ((M + 1 - s) * (M + 1 + s)); [exact G|apply Rmult_le_compat_l; nra]).
    lra.
Qed.

Lemma hypot_portable_ok : forall x y, (Z.abs x <= 2 ^ 24)%Z -> (Z.abs y <= 2 ^ 24)%Z ->
  hypot_portable x y = Ok (Z.sqrt (x * x + y * y)).
Proof.
  intros x y Hx Hy. unfold hypot_portable. destruct (sum_small x y Hx Hy) as (s & -> & Rs & Fs & Ss).
  destruct (sqrt_ok s Fs Ss) as (t & -> & Rt & Ft).
  rewrite trunc_ok; [|exact Ft|rewrite Rt; apply rnd_nonneg; apply sqrt_pos]. rewrite Rt, Rs.
  rewrite floor_root by nia. apply chk32_ok. unfold in_s. change (2 ^ (32 - 1))%Z with (2 ^ 31)%Z.
  assert (N0 := Z.sqrt_nonneg (x * x + y * y)). split; [lia|].
  apply Z.le_lt_trans with (Z.sqrt (2 ^ 50)); [apply Z.sqrt_le_mono; nia|reflexivity].
Qed.

(** The whole range: the two roots at the edge are computed, everything else follows by monotonicity. *)
Lemma B2R_of_SF : forall (x : binary_float 53 1024) m e, B2SF x = SpecFloat.S754_finite false m e -> B2R x = F2R (Float radix2 (Z.pos m) e).
Proof. intros [s|s| |s m' e' B] m e H; try discriminate. cbn [B2SF] in H. injection H as -> -> ->. reflexivity. Qed.

Definition edge : Z := 2 ^ 62 - 2 ^ 31 - 256.

Lemma root_at : forall v m e, (0 <= v < 2 ^ 64)%Z -> SpecFloat.SFsqrt 53 1024 (dbl v) = SpecFloat.S754_finite false m e ->
  ZnearestE (rnd (sqrt (rnd (IZR v)))) = near_even (Z.pos m) e.
Proof.
  intros v m e Hv H. destruct (dbl_ok v Hv) as (x & Ex & Rx & Fx & Sx). rewrite Ex in H.
  destruct (sqrt_ok x Fx Sx) as (y & Ey & Ry & Fy). rewrite Ey in H. rewrite <- Rx, <- Ry, (B2R_of_SF y m e H).
  symmetry. apply near_even_ok. lia.
Qed.

Lemma root_below_edge : ZnearestE (rnd (sqrt (rnd (IZR (edge - 1))))) = (2 ^ 31 - 1)%Z.
Proof.
  rewrite (root_at (edge - 1) 9007199252643839 (-22)); [vm_compute; reflexivity|unfold edge; lia|vm_compute; reflexivity].
Qed.

Lemma root_edge : ZnearestE (rnd (sqrt (rnd (IZR edge)))) = (2 ^ 31)%Z.
Proof.
  rewrite (root_at edge 9007199252643840 (-22)); [vm_compute; reflexivity|unfold edge; lia|vm_compute; reflexivity].
Qed.

Lemma isqrt_low : forall v, (0 <= v < edge)%Z -> isqrt v = ZnearestE (rnd (sqrt (rnd (IZR v)))) /\ (0 <= isqrt v < 2 ^ 31)%Z.
Proof.
  intros v Hv. assert (M := root_mono v (edge - 1) ltac:(lia)). rewrite root_below_edge in M.
  assert (M0 := root_mono 0 v ltac:(lia)).
  rewrite (rnd_int 0), sqrt_0, (rnd_int 0), (Zrnd_IZR ZnearestE 0) in M0 by (cbn; lia).
  rewrite isqrt_real; [|unfold edge in Hv; lia|lia]. split; [reflexivity|lia].
Qed.

Lemma isqrt_high : forall v, (edge <= v < 2 ^ 64)%Z -> isqrt v = (- 2 ^ 31)%Z.
Proof.
  intros v Hv. assert (M := root_mono edge v ltac:(unfold edge in *; lia)). rewrite root_edge in M.
  assert (V : (0 <= v < 2 ^ 64)%Z) by (unfold edge in *; lia).
  unfold isqrt. destruct (dbl_ok v V) as (x & -> & Rx & Fx & Sx).
  destruct (sqrt_ok x Fx Sx) as (y & -> & Ry & Fy). rewrite <- Rx, <- Ry in M.
  destruct y as [s|s| |s m e B]; try discriminate.
  - cbn [B2R] in M. rewrite (Zrnd_IZR ZnearestE 0) in M. lia.
  - destruct s.
    + exfalso. assert (N : 0 <= B2R (B754_finite true m e B)) by (rewrite Ry; apply rnd_nonneg; apply sqrt_pos).
      cbn [B2R] in N. assert (C : F2R (Float radix2 (cond_Zopp true (Z.pos m)) e) < 0) by (apply F2R_lt_0; reflexivity). lra.
    + cbn [B2R cond_Zopp] in M. rewrite <- near_even_ok in M by lia. cbn [B2SF cvtsd_si32].
      destruct (in_sb 32 (near_even (Z.pos m) e)) eqn:I; [|reflexivity].
      exfalso. unfold in_sb in I. apply andb_prop in I as [_ I]. apply Z.ltb_lt in I. cbn in I, M. lia.
Qed.

Lemma isqrt_neg : forall v, (- 2 ^ 63 <= v < 0)%Z -> isqrt v = (- 2 ^ 31)%Z.
Proof.
  intros v Hv. unfold isqrt, dbl. rewrite normalize_equiv.
  assert (C := binary_normalize_correct 53 1024 Hprec Hmax mode_NE v 0 false). cbv zeta in C.
  assert (E : F2R (Float radix2 v 0) = IZR v) by (unfold F2R; cbn; lra). rewrite E in C. cbn [round_mode] in C. fold (rnd (IZR v)) in C.
  assert (U : rnd (IZR v) <= -1).
  { rewrite <- (rnd_int (-1)) by (cbn; lia). apply rnd_le. apply IZR_le. lia. }
  assert (L : - bpow radix2 64 <= rnd (IZR v)).
  { rewrite <- (round_generic radix2 fexp ZnearestE (- bpow radix2 64)).
    - apply rnd_le. rewrite <- (IZR_Zpower radix2 64) by lia. rewrite <- opp_IZR. apply IZR_le. cbn. lia.
    - apply generic_format_opp. apply generic_format_bpow. cbn. lia. }
  rewrite Rlt_bool_true in C.
  2:{ apply Rle_lt_trans with (bpow radix2 64); [|apply bpow_lt; lia]. apply Rabs_le. split; [exact L|].
      assert (P := bpow_gt_0 radix2 64). lra. }
  destruct C as (C1 & C2 & _).
  destruct (binary_normalize 53 1024 Hprec Hmax mode_NE v 0 false) as [s|s| |s m e B]; try discriminate.
  - cbn [B2R] in C1. lra.
  - destruct s; [reflexivity|]. exfalso. cbn [B2R cond_Zopp] in C1.
    assert (P : 0 < F2R (Float radix2 (Z.pos m) e)) by (apply F2R_gt_0; reflexivity). lra.
Qed.
