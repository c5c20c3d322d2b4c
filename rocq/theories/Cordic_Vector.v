(** Real analysis of the vectoring loop. *)
From Coq Require Import Reals Ratan Rtrigo_alt QArith Qreals Lra Psatz.
From Verif Require Import Base Vec_Model Cordic_Model Cordic_Atan Cordic_Proofs.
Local Open Scope R_scope.

Lemma sin_half : forall u, 0 <= u -> u <= PI / 2 -> u / 2 <= sin u.
Proof.
  intros u H0 H1. assert (P := pi_num).
  assert (B := pre_sin_bound u 0 H0 ltac:(lra)). destruct B as [B _].
  unfold sin_approx, sum_f_R0, sin_term in B. cbn [Nat.mul Nat.add pow fact INR] in B.
  assert (U2 : u * u <= 3) by nra.
  assert (u / 2 <= 1 * (u * 1 / 1) + -1 * 1 * (u * (u * (u * 1)) / (1 + 1 + 1 + 1 + 1 + 1))) by nra.
  lra.
Qed.

(** A nearly non-negative sine of an angle within a quarter turn bounds the angle from below. *)
Lemma angle_from_sine : forall b A e h, 0 < A -> Rabs b <= PI / 2 -> - e <= A * sin b -> 2 * e <= h * A -> 0 <= h -> - h <= b.
Proof.
  intros b A e h HA Hb Hs He Hh. apply Rabs_le_inv in Hb. destruct (Rle_lt_dec 0 b) as [L|L]; [lra|].
  assert (S := sin_half (- b) ltac:(lra) ltac:(lra)). rewrite sin_neg in S.
  assert (A * (- b / 2) <= e) by nra. 
  apply Rnot_lt_le. intro C. assert (A * h < A * (- b)) by (apply Rmult_lt_compat_l; lra). lra.
Qed.

Fixpoint zbv (h b : Z) (l : list Z) : Z := match l with [] => b | k :: l => zbv h (Z.max (b - k) (k + h) + 65536) l end.
Fixpoint sumz (l : list Z) : Z := match l with [] => 0%Z | k :: l => (k + sumz l)%Z end.

Lemma zbv_shift : forall l h b b0, (b <= b0 + h)%Z -> (zbv h b l <= zbv 0 b0 l + h)%Z.
Proof.
  induction l as [|k l IH]; intros h b b0 H; cbn [zbv]; [exact H|]. apply IH. lia.
Qed.

Lemma sumz_nonneg : forall l i, consts i l -> (0 <= sumz l)%Z.
Proof.
  induction l as [|k l IH]; intros i H; cbn [sumz]; [lia|]. apply consts_cons in H. destruct H as [[Hk _] H].
  specialize (IH _ H). lia.
Qed.

Lemma unit_quarter : unit_z * IZR (2 ^ 61) = PI / 2.
Proof. unfold unit_z. replace (IZR (2 ^ 61)) with (2 ^ 61) by (rewrite pow_IZR; reflexivity). field. Qed.

Lemma vector_loop_near : forall l i x y z A a e h b, consts i l -> (0 <= e)%Z -> 0 < A -> near x y A 0 a e ->
  gain i l * A + IZR (errZ e i l) < 2 ^ 63 -> (0 <= h <= 2 ^ 59)%Z ->
  2 * IZR (errZ e i l) <= unit_z * IZR h * A -> (b <= 2 ^ 61)%Z -> Rabs a <= unit_z * IZR b ->
  (Z.abs z + sumz l < 2 ^ 63)%Z ->
  exists x' y' z' a', vector_loop (Z.of_nat i) x y z l = Ok (x', y', z') /\
    near x' y' (gain i l * A) 0 a' (errZ e i l) /\
    Rabs (a' + unit_z * IZR z' - (a + unit_z * IZR z)) <= INR (length l) * (unit_z * 65536) /\
    Rabs a' <= unit_z * IZR (zbv h b l) /\ (Z.abs z' <= Z.abs z + sumz l)%Z.
Proof.
  induction l as [|k l IH]; intros i x y z A a e h b HC He HA HN HB Hh HE Hb Ha Hz.
  - exists x, y, z, a. cbn [vector_loop gain errZ length zbv sumz]. split; [reflexivity|]. split.
    + rewrite !Rmult_1_l. exact HN.
    + split; [|split; [exact Ha|lia]]. replace (a + unit_z * IZR z - (a + unit_z * IZR z)) with 0 by ring. rewrite Rabs_R0. cbn [INR]. lra.
  - assert (HC0 := HC). apply consts_cons in HC. destruct HC as [[Hk Ht] HC].
    cbn [gain errZ] in HB, HE. cbn [sumz] in Hz.
    assert (Hsum := sumz_nonneg _ _ HC).
    set (e' := (e + e / 2 ^ Z.of_nat i + 2)%Z) in *.
    assert (Hd : (0 <= e / 2 ^ Z.of_nat i)%Z) by (apply Z.div_pos; [lia|apply Z.pow_pos_nonneg; lia]).
    assert (He' : (0 <= e')%Z) by (unfold e'; lia).
    assert (G1 := gR_ge1 i). assert (G2 := gain_ge1 l (S i)).
    assert (E1 : IZR e <= IZR e') by (apply IZR_le; unfold e'; lia).
    assert (E2 : IZR e' <= IZR (errZ e' (S i) l)) by (apply IZR_le; apply errZ_ge; exact He').
    assert (A0 : 0 < gR i * A) by nra.
    assert (A1 : gR i * A <= gR i * gain (S i) l * A) by nra.
    assert (A2 : A <= gR i * A) by nra.
    assert (B0 : A + IZR e < 2 ^ 63) by lra.
    assert (B1 : gR i * A + IZR e' < 2 ^ 63) by lra.
    assert (HPQ : A² + 0² <= A²) by (unfold Rsqr; lra).
    destruct (near_int x y A 0 a e A HN ltac:(lra) HPQ B0) as [Ix Iy].
    assert (U := unit_pos).
    assert (H0 : 0 <= IZR h) by (apply IZR_le; lia).
    assert (UH : 0 <= unit_z * IZR h) by nra.
    cbn [vector_loop].
    assert (Hd1 : exists s : bool, (if y <? 0 then (-1)%Z else 0%Z) = (if s then (-1)%Z else 0%Z) /\ s = (y <? 0)%Z) by (exists (y <? 0)%Z; split; reflexivity).
    destruct Hd1 as (s & Es & Hs). rewrite Es.
    rewrite (flip_by_sgn y s) by exact Iy. rewrite (flip_by_sgn x s) by exact Ix. rewrite (flip_by_sgn k s) by lia.
    cbn [bind].
    assert (S1 := shiftr_R (sgn s * y) i). assert (S2 := shiftr_R (sgn s * x) i). rewrite mult_IZR in S1, S2.
    assert (NS : near (x + Z.shiftr (sgn s * y) (Z.of_nat i)) (y - Z.shiftr (sgn s * x) (Z.of_nat i)) (gR i * A) 0 (a + IZR (- sgn s) * theta i) e').
    { rewrite <- (Rmult_0_r (gR i)).
      apply near_step with (x := x) (y := y); [exact He|exact HN|destruct s; [left|right]; reflexivity| |].
      - rewrite plus_IZR, opp_IZR. apply Rabs_le. lra.
      - rewrite minus_IZR, opp_IZR. apply Rabs_le. lra. }
    assert (HPQ' : (gR i * A)² + 0² <= (gR i * A)²) by (unfold Rsqr; lra).
    destruct (near_int _ _ _ _ _ _ (gR i * A) NS ltac:(lra) HPQ' B1) as [Ix' Iy'].
    rewrite (chk64_in (x + _)) by lia. cbn [bind]. rewrite (chk64_in (y - _)) by lia. cbn [bind].
    assert (Hz' : (Z.abs (z + sgn s * k) <= Z.abs z + k)%Z) by (destruct s; unfold sgn; lia).
    rewrite (chk64_in (z + _)) by lia. cbn [bind].
    replace (Z.of_nat i + 1)%Z with (Z.of_nat (S i)) by lia.
    (* the remaining angle *)
    assert (HQ : Rabs a <= PI / 2).
    { eapply Rle_trans; [exact Ha|]. rewrite <- unit_quarter. apply Rmult_le_compat_l; [lra|]. apply IZR_le. exact Hb. }
    assert (HE' : 2 * IZR e <= unit_z * IZR h * A) by lra.
    destruct HN as [_ Hy]. unfold ty in Hy. rewrite Rmult_0_l, Rplus_0_r in Hy. apply Rabs_le_inv in Hy.
    set (b' := (Z.max (b - k) (k + h) + 65536)%Z).
    assert (Ha' : Rabs (a + IZR (- sgn s) * theta i) <= unit_z * IZR b').
    { assert (M1 : IZR (b - k + 65536) <= IZR b') by (apply IZR_le; unfold b'; lia).
      assert (M2 : IZR (k + h + 65536) <= IZR b') by (apply IZR_le; unfold b'; lia).
      rewrite plus_IZR, minus_IZR in M1. rewrite !plus_IZR in M2.
      apply (Rmult_le_compat_l unit_z) in M1; [|lra]. apply (Rmult_le_compat_l unit_z) in M2; [|lra].
      rewrite !Rmult_plus_distr_l in M1, M2. unfold Rminus in M1. rewrite Rmult_plus_distr_l in M1.
      assert (HQ' := HQ). apply Rabs_le_inv in Ht, Ha.
      subst s. unfold sgn. destruct (Z.ltb_spec y 0) as [Y|Y].
      - change (- -1)%Z with 1%Z. rewrite Rmult_1_l.
        assert (LB : - (unit_z * IZR h) <= - a).
        { apply angle_from_sine with (A := A) (e := IZR e); [exact HA|rewrite Rabs_Ropp; exact HQ| |lra|exact UH].
          rewrite sin_neg. apply IZR_lt in Y. lra. }
        apply Rabs_le. lra.
      - change (- (1))%Z with (-1)%Z.
        assert (LB : - (unit_z * IZR h) <= a).
        { apply angle_from_sine with (A := A) (e := IZR e); [exact HA|exact HQ| |lra|exact UH].
          apply IZR_le in Y. lra. }
        apply Rabs_le. lra. }
    destruct (IH (S i) _ _ (z + sgn s * k)%Z (gR i * A) _ e' h b' HC He' A0 NS) as (x' & y' & z' & a' & L & N & AA & AB & Z'); [lra|exact Hh| |unfold b'; lia|exact Ha'|lia|].
    { assert (unit_z * IZR h * A <= unit_z * IZR h * (gR i * A)) by (apply Rmult_le_compat_l; lra). lra. }
    exists x', y', z', a'. split; [exact L|]. cbn [gain errZ zbv length sumz]. fold e'. fold b'.
    split; [|split; [|split; [exact AB|lia]]].
    + replace (gR i * gain (S i) l * A) with (gain (S i) l * (gR i * A)) by ring. exact N.
    + rewrite plus_IZR, mult_IZR, opp_IZR in AA. rewrite S_INR. apply Rabs_le_inv in AA, Ht. apply Rabs_le.
      assert (Hsg : IZR (sgn s) = 1 \/ IZR (sgn s) = -1) by (destruct s; [right|left]; reflexivity).
      destruct Hsg as [Hsg|Hsg]; rewrite Hsg in AA; lra.
Qed.

Lemma zbv_ks : (zbv 0 (2 ^ 61) ks <= 690000000)%Z.
Proof. rewrite ks_values. vm_compute. discriminate. Qed.
Lemma sum_ks : (sumz ks <= 2 ^ 61 + 2 ^ 60)%Z.
Proof. rewrite ks_values. vm_compute. discriminate. Qed.

Lemma polar_form : forall x y r, 0 <= x -> 0 < r -> x * x + y * y = r * r ->
  exists a, Rabs a <= PI / 2 /\ x = r * cos a /\ y = r * sin a.
Proof.
  intros x y r Hx Hr H. exists (asin (y / r)).
  assert (Hy : -1 <= y / r <= 1).
  { assert (y * y <= r * r) by nra. split.
    - apply Rmult_le_reg_r with r; [lra|]. replace (y / r * r) with y by (field; lra). nra.
    - apply Rmult_le_reg_r with r; [lra|]. replace (y / r * r) with y by (field; lra). nra. }
  assert (B := asin_bound (y / r)). split; [apply Rabs_le; lra|]. split.
  - rewrite cos_asin by exact Hy. 
    replace (1 - (y / r)²) with ((x / r)²).
    + rewrite sqrt_Rsqr; [field; lra|]. apply Rmult_le_pos; [exact Hx|left; apply Rinv_0_lt_compat; exact Hr].
    + unfold Rsqr. apply Rmult_eq_reg_r with (r * r); [|nra]. replace ((x / r * (x / r)) * (r * r)) with (x * x) by (field; lra).
      replace ((1 - y / r * (y / r)) * (r * r)) with (r * r - y * y) by (field; lra). lra.
  - rewrite sin_asin by exact Hy. field. lra.
Qed.

Lemma cos_near1 : forall b, 1 - b * b / 2 <= cos b.
Proof.
  intro b. replace b with (2 * (b / 2)) at 3 by field. rewrite cos_2a_sin.
  assert (S := sin_abs (b / 2)).
  assert (sin (b / 2) * sin (b / 2) <= b / 2 * (b / 2)).
  { assert (Q := Rsqr_le_abs_1 _ _ S). unfold Rsqr in Q. exact Q. }
  lra.
Qed.

Lemma mul_cos : forall m c, 0 <= m -> -1 <= c <= 1 -> - m <= m * c <= m.
Proof. intros. nra. Qed.
Lemma sq_le_abs : forall a b, - b <= a <= b -> a * a <= b * b.
Proof. intros. nra. Qed.
Lemma sq_le : forall a b, 0 <= a <= b -> a * a <= b * b.
Proof. intros. nra. Qed.

(** The right half plane; z is 0 or half a turn. *)
Lemma vector_base : forall x0 y0 z, (0 <= x0)%Z -> (0 < x0 * x0 + y0 * y0 <= (2 ^ 31 - 1) * (2 ^ 31 - 1))%Z -> (Z.abs z <= 2 ^ 62)%Z ->
  exists x y zf rx rz a, vector_loop 0 (x0 * cordic_k) (y0 * cordic_k) z ks = Ok (x, y, zf) /\
    round32 x = Ok rx /\ round32 zf = Ok rz /\
    let r := sqrt (IZR (x0 * x0 + y0 * y0)) in
    IZR x0 = r * cos a /\ IZR y0 = r * sin a /\ Rabs a <= PI / 2 /\
    Rabs (IZR rx - r) <= 501 / 1000 + r / 2 ^ 33 /\
    Rabs (IZR rz - (IZR z / 2 ^ 32 + a * (2 ^ 30 / PI))) <= 67 / 100 + 79 / r.
Proof.
  intros x0 y0 z Hx HN Hz.
  set (r := sqrt (IZR (x0 * x0 + y0 * y0))).
  assert (K := kG_bounds). assert (K0 : 0 < IZR cordic_k) by (apply IZR_lt; reflexivity).
  assert (G1 := gain_ge1 ks 0).
  assert (R2 : 1 <= IZR (x0 * x0 + y0 * y0)) by (apply IZR_le; lia).
  assert (RR : r * r = IZR (x0 * x0 + y0 * y0)) by (apply sqrt_sqrt; lra).
  assert (R1 : 1 <= r) by (unfold r; rewrite <- sqrt_1 at 1; apply sqrt_le_1_alt; exact R2).
  assert (B31 : 0 < IZR (2 ^ 31 - 1)) by (apply IZR_lt; reflexivity).
  assert (RB : r <= IZR (2 ^ 31 - 1)).
  { assert (H : r * r <= IZR (2 ^ 31 - 1) * IZR (2 ^ 31 - 1)) by (rewrite RR, <- mult_IZR; apply IZR_le; lia). nra. }
  destruct (polar_form (IZR x0) (IZR y0) r) as (a & Ha & Cx & Cy); [apply IZR_le; exact Hx|lra|rewrite RR, plus_IZR, !mult_IZR; reflexivity|].
  set (A := IZR cordic_k * r).
  assert (A0 : 0 < A) by (unfold A; nra).
  assert (NR : near (x0 * cordic_k) (y0 * cordic_k) A 0 a 0).
  { unfold near, tx, ty. rewrite !mult_IZR, Cx, Cy. unfold A. split; apply Rabs_le; lra. }
  assert (GA : gain 0 ks * A = kG * r) by (unfold A, kG; ring).
  assert (EK : IZR (errZ 0 0 ks) <= 300) by (apply IZR_le; apply err_ks).
  assert (EK0 : 0 <= IZR (errZ 0 0 ks)) by (apply IZR_le; apply err_ks0).
  assert (GM : kG * r <= IZR ((2 ^ 31 - 1) * 2 ^ 32)).
  { rewrite mult_IZR. replace (IZR (2 ^ 32)) with (2 ^ 32) by (rewrite pow_IZR; reflexivity). nra. }
  assert (HB : gain 0 ks * A + IZR (errZ 0 0 ks) < 2 ^ 63).
  { rewrite GA. replace (2 ^ 63) with (IZR (2 ^ 63)) by (rewrite pow_IZR; reflexivity).
    apply Rle_lt_trans with (IZR ((2 ^ 31 - 1) * 2 ^ 32 + 300)); [rewrite plus_IZR; lra|]. apply IZR_lt. reflexivity. }
  assert (U := unit_pos). assert (PN := pi_num).
  assert (E62 : 2 ^ 62 = 4611686018427387904) by (rewrite pow_IZR; reflexivity).
  assert (E32 : 2 ^ 32 = 4294967296) by (rewrite pow_IZR; reflexivity).
  assert (E33 : 2 ^ 33 = 8589934592) by (rewrite pow_IZR; reflexivity).
  assert (E30 : 2 ^ 30 = 1073741824) by (rewrite pow_IZR; reflexivity).
  assert (KV : IZR cordic_k = 2608131496) by reflexivity.
  (* h: the rounding noise of y as an angle *)
  set (hr := 338000000000 / r).
  assert (HR : hr * r = 338000000000) by (unfold hr; field; lra).
  assert (HR0 : 0 < hr) by (unfold hr; apply Rdiv_lt_0_compat; lra).
  assert (HR1 : hr <= 338000000000) by nra.
  assert (UP := archimed hr). set (h := up hr) in *.
  assert (Hh : (0 <= h <= 2 ^ 59)%Z).
  { split; [apply le_IZR; lra|]. apply le_IZR. apply Rle_trans with 338000000001; [lra|]. apply IZR_le. vm_compute. discriminate. }
  assert (HE : 2 * IZR (errZ 0 0 ks) <= unit_z * IZR h * A).
  { apply Rle_trans with 600; [lra|]. apply Rle_trans with (unit_z * hr * A).
    - unfold A. replace (unit_z * hr * (IZR cordic_k * r)) with (unit_z * IZR cordic_k * (hr * r)) by ring. rewrite HR, KV.
      unfold unit_z. rewrite E62. lra.
    - apply Rmult_le_compat_r; [lra|]. apply Rmult_le_compat_l; lra. }
  assert (SK := sum_ks).
  destruct (vector_loop_near ks 0 _ _ z A a 0 h (2 ^ 61)%Z consts_ks ltac:(lia) A0 NR HB Hh HE ltac:(lia))
    as (x & y & zf & af & L & [Nx Ny] & D & Baf & Bz).
  { rewrite unit_quarter. exact Ha. }
  { clear - SK Hz. change (2 ^ 61)%Z with 2305843009213693952%Z in *. change (2 ^ 60)%Z with 1152921504606846976%Z in *.
    change (2 ^ 62)%Z with 4611686018427387904%Z in *. change (2 ^ 63)%Z with 9223372036854775808%Z. lia. }
  change (Z.of_nat 0) with 0%Z in L.
  rewrite GA in Nx. unfold tx in Nx. rewrite Rmult_0_l, Rminus_0_r in Nx.
  (* the final angle *)
  assert (ZS : (zbv h (2 ^ 61) ks <= 690000000 + h)%Z).
  { assert (Z1 := zbv_shift ks h (2 ^ 61) (2 ^ 61) ltac:(lia)). assert (Z2 := zbv_ks). lia. }
  apply IZR_le in ZS. rewrite plus_IZR in ZS.
  assert (Baf' : Rabs af <= unit_z * (690000001 + hr)).
  { eapply Rle_trans; [exact Baf|]. apply Rmult_le_compat_l; lra. }
  assert (CB := COS_bound af).
  assert (KGr : 0 <= kG * r) by nra.
  assert (XB : Rabs (IZR x) <= IZR ((2 ^ 31 - 1) * 2 ^ 32 + 300)).
  { apply Rabs_le_inv in Nx. rewrite plus_IZR. assert (MC := mul_cos _ _ KGr CB). apply Rabs_le. lra. }
  destruct (round32_ok x (2 ^ 31 - 1)) as (rx & Rx & _ & Ex); [lia| |].
  { apply Rabs_le_inv in XB. rewrite <- opp_IZR in XB. destruct XB as [XB1 XB2]. apply le_IZR in XB1, XB2. lia. }
  destruct (round32_ok zf (2 ^ 30 + 2 ^ 29 + 2 ^ 28)) as (rz & Rz & _ & Ez); [lia| |].
  { clear - SK Bz Hz. change (2 ^ 61)%Z with 2305843009213693952%Z in *. change (2 ^ 60)%Z with 1152921504606846976%Z in *.
    change (2 ^ 62)%Z with 4611686018427387904%Z in *. change (2 ^ 32)%Z with 4294967296%Z. change (2 ^ 30)%Z with 1073741824%Z.
    change (2 ^ 29)%Z with 536870912%Z. change (2 ^ 28)%Z with 268435456%Z. lia. }
  exists x, y, zf, rx, rz, a. split; [exact L|]. split; [exact Rx|]. split; [exact Rz|]. cbv zeta.
  split; [exact Cx|]. split; [exact Cy|]. split; [exact Ha|]. split.
  - (* magnitude *)
    assert (C1 := cos_near1 af).
    assert (AF2 : r * (af * af) <= 1 / 10000).
    { assert (Q : af * af <= (unit_z * (690000001 + hr)) * (unit_z * (690000001 + hr))).
      { apply sq_le_abs. apply Rabs_le_inv. exact Baf'. }
      assert (W : r * (unit_z * (690000001 + hr) * (unit_z * (690000001 + hr))) = unit_z * unit_z * (690000001 * 690000001 * r + 2 * 690000001 * (hr * r) + hr * (hr * r))) by ring.
      rewrite HR in W.
      assert (UB : unit_z <= 1 / 1000000000000000000) by (unfold unit_z; rewrite E62; lra).
      assert (UU : unit_z * unit_z <= 1 / 1000000000000000000 * (1 / 1000000000000000000)) by (apply sq_le; lra).
      assert (RB' : r <= 2147483647) by exact RB.
      assert (V : 690000001 * 690000001 * r + 2 * 690000001 * 338000000000 + hr * 338000000000 <= 2000000000000000000000000000) by lra.
      assert (V0 : 0 <= 690000001 * 690000001 * r + 2 * 690000001 * 338000000000 + hr * 338000000000) by lra.
      assert (r * (af * af) <= r * (unit_z * (690000001 + hr) * (unit_z * (690000001 + hr)))) by (apply Rmult_le_compat_l; lra).
      set (V1 := 690000001 * 690000001 * r + 2 * 690000001 * 338000000000 + hr * 338000000000) in *. clearbody V1.
      assert (UU0 : 0 <= unit_z * unit_z) by (apply Rmult_le_pos; lra).
      assert (unit_z * unit_z * V1 <= 1 / 1000000000000000000 * (1 / 1000000000000000000) * 2000000000000000000000000000) by (apply Rmult_le_compat; lra).
      lra. }
    rewrite E32 in *. rewrite E33. apply Rabs_le_inv in Nx, Ex.
    assert (X0 : kG * r <= 4294967296 * r) by (apply Rmult_le_compat_r; lra).
    assert (X1 : kG * r * cos af <= 4294967296 * r) by (assert (MC := mul_cos _ _ KGr CB); lra).
    assert (X2 : 4294967296 * r - r / 2 - 4294967296 * (1 / 10000) / 2 <= kG * r * cos af).
    { assert (kG * r * (1 - af * af / 2) <= kG * r * cos af) by (apply Rmult_le_compat_l; lra).
      assert (kG * (r * (af * af)) <= 4294967296 * (1 / 10000)).
      { apply Rmult_le_compat; try lra. apply Rmult_le_pos; [lra|apply Rle_0_sqr]. }
      assert ((4294967296 - 1 / 2) * r <= kG * r) by (apply Rmult_le_compat_r; lra). lra. }
    apply Rabs_le. lra.
  - (* angle *)
    rewrite len_ks in D. replace (INR 32) with 32 in D by (rewrite INR_IZR_INZ; reflexivity).
    apply Rabs_le_inv in D, Baf', Ez.
    assert (AU : a * (2 ^ 30 / PI) = a / unit_z / 2 ^ 32) by (unfold unit_z; field; lra).
    rewrite AU. set (au := a / unit_z). assert (EA : a = unit_z * au) by (unfold au; field; lra). clearbody au.
    assert (T : Rabs (IZR zf - (IZR z + au)) <= 690000001 + hr + 32 * 65536).
    { rewrite EA in D. apply Rabs_le. split.
      - apply Rmult_le_reg_l with unit_z; [exact U|]. lra.
      - apply Rmult_le_reg_l with unit_z; [exact U|]. lra. }
    apply Rabs_le_inv in T. rewrite E32 in *.
    assert (79 / r = 79 / 338000000000 * hr) by (unfold hr; field; lra).
    apply Rabs_le. lra.
Qed.
