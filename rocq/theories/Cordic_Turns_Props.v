(** C106: turning again and again, and to polar form and back. *)
From Coq Require Import Reals Lra Psatz Rgeom.
From Verif Require Import Base Vec_Model Cordic_Model Cordic_Atan Cordic_Proofs Cordic_Vector Cordic_Spec Cordic_Props.
Local Open Scope R_scope.

(** rotate by each of ts in turn. *)
Fixpoint turns (x y : Z) (ts : list Z) : res (Z * Z) :=
  match ts with
  | [] => Ok (x, y)
  | t :: ts => '(x, y) <- rotate x y t ;; turns x y ts
  end.

(** The sum of the angles. *)
Definition total (ts : list Z) : Z := fold_right Z.add 0%Z ts.

(** How far a computed point is from a real one, and how long a vector of real components is. *)
Definition off (x y : Z) (u v : R) : R := dist_euc (IZR x) (IZR y) u v.
Definition norm (u v : R) : R := dist_euc u v 0 0.

(** The error of one turn of a vector of length r: at most 0.709, and a little more for very long vectors. *)
Definition slip (r : R) : R := 709 / 1000 + r * (253 / 100 / 2 ^ 31).

Lemma norm_Z x y : norm (IZR x) (IZR y) = length2 x y.
Proof. unfold norm, dist_euc, length2. rewrite plus_IZR, !mult_IZR. f_equal. unfold Rsqr. ring. Qed.

Lemma turn_norm u v a : norm (u * cos a - v * sin a) (u * sin a + v * cos a) = norm u v.
Proof.
  unfold norm, dist_euc. f_equal. pose proof (sin2_cos2 a) as H. unfold Rsqr in *.
  transitivity ((u * u + v * v) * (sin a * sin a + cos a * cos a)); [ring|rewrite H; ring].
Qed.
Lemma norm_sub u v u' v' : dist_euc u v u' v' = norm (u - u') (v - v').
Proof. unfold norm, dist_euc. f_equal. unfold Rsqr. ring. Qed.
Lemma turn_dist u v u' v' a :
  dist_euc (u * cos a - v * sin a) (u * sin a + v * cos a) (u' * cos a - v' * sin a) (u' * sin a + v' * cos a) = dist_euc u v u' v'.
Proof. rewrite !norm_sub. rewrite <- (turn_norm (u - u') (v - v') a). f_equal; ring. Qed.

Lemma norm_nonneg u v : 0 <= norm u v.
Proof. apply sqrt_pos. Qed.
Lemma norm_triangle u v u' v' : norm u v <= dist_euc u v u' v' + norm u' v'.
Proof. unfold norm. apply triangle. Qed.

(** A vector whose components are at most d is at most 1.4143 d long; and |x| + |y| is at most 1.4143 |(x, y)|. *)
Lemma norm_box u v d : Rabs u <= d -> Rabs v <= d -> norm u v <= 14143 / 10000 * d.
Proof.
  intros Hu Hv. assert (0 <= d) by (pose proof (Rabs_pos u); lra).
  unfold norm, dist_euc. rewrite <- (sqrt_Rsqr (14143 / 10000 * d)) by nra. apply sqrt_le_1_alt. unfold Rsqr.
  assert (Su : u * u <= d * d). { apply Rsqr_le_abs_1. rewrite (Rabs_right d) by lra. exact Hu. }
  assert (Sv : v * v <= d * d). { apply Rsqr_le_abs_1. rewrite (Rabs_right d) by lra. exact Hv. }
  nra.
Qed.
Lemma taxi_norm u v : Rabs u + Rabs v <= 14143 / 10000 * norm u v.
Proof.
  assert (H := norm_nonneg u v).
  assert (S : norm u v * norm u v = u * u + v * v).
  { unfold norm, dist_euc. rewrite sqrt_sqrt. - unfold Rsqr. ring. - pose proof (Rle_0_sqr (u - 0)). pose proof (Rle_0_sqr (v - 0)). lra. }
  assert (A : Rabs u * Rabs u = u * u). { rewrite <- Rabs_mult. apply Rabs_right. nra. }
  assert (B : Rabs v * Rabs v = v * v). { rewrite <- Rabs_mult. apply Rabs_right. nra. }
  pose proof (Rabs_pos u). pose proof (Rabs_pos v).
  apply Rsqr_incr_0_var; [|nra]. unfold Rsqr.
  assert (0 <= (Rabs u - Rabs v) * (Rabs u - Rabs v)) by apply Rle_0_sqr. nra.
Qed.

Lemma circle_length x y : length2 x y <= 2 ^ 31 - 1 -> in_circle x y.
Proof.
  unfold length2, in_circle. intro H. apply le_IZR. rewrite mult_IZR, minus_IZR.
  replace (IZR (2 ^ 31)) with (2 ^ 31) by (rewrite pow_IZR; reflexivity). change (IZR 1) with 1.
  assert (P : 0 <= IZR (x * x + y * y)) by (apply (IZR_le 0); nia).
  rewrite <- (sqrt_sqrt (IZR (x * x + y * y)) P). assert (Q := sqrt_pos (IZR (x * x + y * y))). nra.
Qed.
Lemma circle_int32 x y : in_circle x y -> int32 x /\ int32 y.
Proof. unfold in_circle, int32. intro H. nia. Qed.

(** One turn. *)
Lemma one_turn x y t : int32 t -> in_circle x y ->
  exists x' y', rotate x y t = Ok (x', y') /\ off x' y' (turned_x x y t) (turned_y x y t) <= slip (length2 x y).
Proof.
  intros Ht HC. destruct (circle_int32 x y HC) as [Hx Hy].
  destruct (C45_accuracy x y t Hx Hy Ht HC) as (x' & y' & E & _ & _ & W). cbv zeta in W. destruct W as [Wx Wy]. unfold within in *.
  exists x', y'. split; [exact E|]. unfold off. rewrite norm_sub. eapply Rle_trans; [apply (norm_box _ _ _ Wx Wy)|].
  assert (T := taxi_norm (IZR x) (IZR y)). rewrite norm_Z in T. unfold slip.
  assert (N := norm_nonneg (IZR x) (IZR y)). rewrite norm_Z in N. nra.
Qed.

Lemma turned_0 x y : turned_x x y 0 = IZR x /\ turned_y x y 0 = IZR y.
Proof. unfold turned_x, turned_y, radians. rewrite Rmult_0_l, cos_0, sin_0. split; ring. Qed.
Lemma turned_add x y s t :
  turned_x x y (s + t) = turned_x x y s * cos (radians t) - turned_y x y s * sin (radians t) /\
  turned_y x y (s + t) = turned_x x y s * sin (radians t) + turned_y x y s * cos (radians t).
Proof.
  unfold turned_x, turned_y. replace (radians (s + t)) with (radians s + radians t) by (unfold radians; rewrite plus_IZR; ring).
  rewrite cos_plus, sin_plus. split; ring.
Qed.
Lemma turned_norm x y s : norm (turned_x x y s) (turned_y x y s) = length2 x y.
Proof. unfold turned_x, turned_y. rewrite turn_norm. apply norm_Z. Qed.

Lemma slip_mono r r' : r <= r' -> slip r <= slip r'.
Proof. unfold slip. nra. Qed.
Lemma slip_4 r : r <= 2 ^ 31 -> slip r <= 4.
Proof. unfold slip. nra. Qed.

Lemma turns_gen x0 y0 : forall ts x y s (k : nat),
  Forall int32 ts -> length2 x0 y0 + 4 * INR (k + length ts) <= 2 ^ 31 - 1 ->
  off x y (turned_x x0 y0 s) (turned_y x0 y0 s) <= INR k * slip (length2 x0 y0 + 4 * INR (k + length ts)) ->
  exists x' y', turns x y ts = Ok (x', y') /\
    off x' y' (turned_x x0 y0 (s + total ts)) (turned_y x0 y0 (s + total ts)) <=
      INR (k + length ts) * slip (length2 x0 y0 + 4 * INR (k + length ts)).
Proof.
  induction ts as [|t ts IH]; intros x y s k Hts HL HO.
  - exists x, y. split; [reflexivity|]. cbn [total fold_right length] in *. rewrite Z.add_0_r. rewrite Nat.add_0_r in *. exact HO.
  - apply Forall_cons_iff in Hts as [Ht Hts]. cbn [length] in *.
    replace (k + S (length ts))%nat with (S k + length ts)%nat in * by lia.
    set (L := length2 x0 y0 + 4 * INR (S k + length ts)) in *.
    assert (R0 : 0 <= length2 x0 y0) by apply sqrt_pos.
    assert (S4 : slip L <= 4) by (apply slip_4; lra).
    assert (LL : length2 x y <= L).
    { rewrite <- norm_Z. eapply Rle_trans; [apply (norm_triangle _ _ (turned_x x0 y0 s) (turned_y x0 y0 s))|].
      rewrite turned_norm. unfold off in HO. unfold L at 1. rewrite plus_INR, S_INR.
      assert (P := pos_INR k). assert (P' := pos_INR (length ts)).
      assert (INR k * slip L <= INR k * 4) by (apply Rmult_le_compat_l; lra). lra. }
    assert (HC : in_circle x y) by (apply circle_length; lra).
    destruct (one_turn x y t Ht HC) as (x1 & y1 & E & D).
    destruct (IH x1 y1 (s + t)%Z (S k) Hts HL) as (x' & y' & E' & D').
    + fold L. unfold off in *. eapply Rle_trans; [apply (triangle _ _ _ _ (turned_x x y t) (turned_y x y t))|].
      assert (Q : dist_euc (turned_x x y t) (turned_y x y t) (turned_x x0 y0 (s + t)) (turned_y x0 y0 (s + t)) =
        dist_euc (IZR x) (IZR y) (turned_x x0 y0 s) (turned_y x0 y0 s)).
      { destruct (turned_add x0 y0 s t) as [-> ->]. unfold turned_x at 1, turned_y at 1. apply turn_dist. }
      rewrite Q, S_INR. assert (slip (length2 x y) <= slip L) by (apply slip_mono; exact LL). lra.
    + exists x', y'. split.
      * cbn [turns]. rewrite E. cbn [bind]. exact E'.
      * cbn [total fold_right]. fold (total ts). rewrite Z.add_assoc. exact D'.
Qed.

(** After n turns the point is where one exact turn by the sum of the angles would bring it, up to n times 0.709 (and a little more for
    vectors that are very long): the errors add up, they do not grow. Everything is defined as long as the vector, with 4 for
    each turn to come, fits. *)
Theorem C106_turns : forall x0 y0 ts, Forall int32 ts ->
  length2 x0 y0 + 4 * INR (length ts) <= 2 ^ 31 - 1 ->
  exists x y, turns x0 y0 ts = Ok (x, y) /\
    off x y (turned_x x0 y0 (total ts)) (turned_y x0 y0 (total ts)) <= INR (length ts) * slip (length2 x0 y0 + 4 * INR (length ts)).
Proof.
  intros x0 y0 ts Hts HL. destruct (turned_0 x0 y0) as [T0 T0'].
  destruct (turns_gen x0 y0 ts x0 y0 0%Z 0%nat Hts HL) as (x & y & E & D).
  - rewrite T0, T0'. unfold off. rewrite norm_sub. cbn [INR]. rewrite !Rminus_eq_0, Rmult_0_l.
    unfold norm, dist_euc, Rsqr. rewrite Rminus_eq_0, Rmult_0_l, Rplus_0_l, sqrt_0. lra.
  - exists x, y. split; [exact E|]. exact D.
Qed.
Print Assumptions C106_turns.

Lemma dist_coords u v u' v' : Rabs (u - u') <= dist_euc u v u' v' /\ Rabs (v - v') <= dist_euc u v u' v'.
Proof.
  unfold dist_euc. split; rewrite <- sqrt_Rsqr_abs; apply sqrt_le_1_alt.
  - pose proof (Rle_0_sqr (v - v')). lra.
  - pose proof (Rle_0_sqr (u - u')). lra.
Qed.
Lemma close_Z a b : Rabs (IZR a - IZR b) < 2 -> (Z.abs (a - b) <= 1)%Z.
Proof.
  rewrite <- minus_IZR. intro H. apply Rabs_def2 in H as [H1 H2].
  assert (a - b < 2)%Z by (apply lt_IZR; exact H1). assert (- (2) < a - b)%Z by (apply lt_IZR; rewrite opp_IZR; lra). lia.
Qed.
Lemma radians_turns k t : cos (radians (t + k * 2 ^ 31)) = cos (radians t) /\ sin (radians (t + k * 2 ^ 31)) = sin (radians t).
Proof.
  assert (E : radians (t + k * 2 ^ 31) = radians t + IZR k * (2 * PI)).
  { unfold radians. rewrite plus_IZR, mult_IZR. replace (IZR (2 ^ 31)) with (2 ^ 31) by (rewrite pow_IZR; reflexivity). field. }
  rewrite E. clear E. generalize (radians t). intro a. destruct (Z_le_dec 0 k) as [H|H].
  - replace (IZR k) with (INR (Z.to_nat k)) by (rewrite INR_IZR_INZ, Z2Nat.id by exact H; reflexivity).
    replace (a + INR (Z.to_nat k) * (2 * PI)) with (a + 2 * INR (Z.to_nat k) * PI) by ring. split; [apply cos_period|apply sin_period].
  - replace (IZR k) with (- INR (Z.to_nat (- k))) by (rewrite INR_IZR_INZ, Z2Nat.id, opp_IZR by lia; ring).
    set (b := a + - INR (Z.to_nat (- k)) * (2 * PI)).
    replace a with (b + 2 * INR (Z.to_nat (- k)) * PI) by (unfold b; ring). split; symmetry; [apply cos_period|apply sin_period].
Qed.

(** Turns that add up to whole turns bring every point back. *)
Theorem C106_closed : forall x0 y0 ts, Forall int32 ts -> (total ts mod 2 ^ 31 = 0)%Z ->
  length2 x0 y0 + 4 * INR (length ts) <= 2 ^ 31 - 1 ->
  exists x y, turns x0 y0 ts = Ok (x, y) /\
    off x y (IZR x0) (IZR y0) <= INR (length ts) * slip (length2 x0 y0 + 4 * INR (length ts)).
Proof.
  intros x0 y0 ts Hts HT HL. destruct (C106_turns x0 y0 ts Hts HL) as (x & y & E & D). exists x, y. split; [exact E|].
  assert (T : turned_x x0 y0 (total ts) = IZR x0 /\ turned_y x0 y0 (total ts) = IZR y0).
  { rewrite <- (proj1 (turned_0 x0 y0)), <- (proj2 (turned_0 x0 y0)). apply Z.mod_divide in HT as [k ->]; [|lia].
    unfold turned_x, turned_y. change (k * 2 ^ 31)%Z with (0 + k * 2 ^ 31)%Z. destruct (radians_turns k 0) as [-> ->]. auto. }
  destruct T as [T1 T2]. rewrite T1, T2 in D. exact D.
Qed.
Print Assumptions C106_closed.

(** There and back: a point at most 2^27 away from the origin comes back to where it was, or next to it. *)
Theorem C106_back : forall x0 y0 t, int32 t -> int32 (- t) -> (x0 * x0 + y0 * y0 <= 2 ^ 27 * 2 ^ 27)%Z ->
  exists x y x' y', rotate x0 y0 t = Ok (x, y) /\ rotate x y (- t) = Ok (x', y') /\ (Z.abs (x' - x0) <= 1)%Z /\ (Z.abs (y' - y0) <= 1)%Z.
Proof.
  intros x0 y0 t Ht Ht' HN.
  assert (L : length2 x0 y0 <= 2 ^ 27).
  { unfold length2. rewrite <- (sqrt_Rsqr (2 ^ 27)) by lra. apply sqrt_le_1_alt. unfold Rsqr.
    replace (2 ^ 27 * 2 ^ 27) with (IZR (2 ^ 27 * 2 ^ 27)) by (rewrite mult_IZR; replace (IZR (2 ^ 27)) with (2 ^ 27) by (rewrite pow_IZR; reflexivity); reflexivity).
    apply IZR_le. exact HN. }
  assert (S : slip (length2 x0 y0 + 4 * INR (length [t; (- t)%Z])) < 9 / 10) by (cbn [length INR]; unfold slip; lra).
  destruct (C106_closed x0 y0 [t; (- t)%Z]) as (x' & y' & E & D).
  - apply Forall_cons; [exact Ht|]. apply Forall_cons; [exact Ht'|]. apply Forall_nil.
  - unfold total. cbn [fold_right]. replace (t + (- t + 0))%Z with 0%Z by lia. reflexivity.
  - cbn [length INR]. lra.
  - cbn [turns] in E. destruct (rotate x0 y0 t) as [[x y]| |]; cbn [bind] in E; try discriminate.
    destruct (rotate x y (- t)) as [[x1 y1]| |] eqn:E1; cbn [bind] in E; try discriminate.
    assert (x1 = x' /\ y1 = y') as [-> ->] by (split; congruence).
    exists x, y, x', y'. split; [reflexivity|]. split; [exact E1|]. unfold off in D.
    destruct (dist_coords (IZR x') (IZR y') (IZR x0) (IZR y0)) as [A B].
    set (sl := slip _) in *. change (INR (length [t; (- t)%Z])) with (1 + 1) in D. split; apply close_Z; lra.
Qed.
Print Assumptions C106_back.

(** Turning keeps lengths, up to the same error. *)
Theorem C106_length : forall x0 y0 ts, Forall int32 ts ->
  length2 x0 y0 + 4 * INR (length ts) <= 2 ^ 31 - 1 ->
  exists x y, turns x0 y0 ts = Ok (x, y) /\
    Rabs (length2 x y - length2 x0 y0) <= INR (length ts) * slip (length2 x0 y0 + 4 * INR (length ts)).
Proof.
  intros x0 y0 ts Hts HL. destruct (C106_turns x0 y0 ts Hts HL) as (x & y & E & D). exists x, y. split; [exact E|].
  unfold off in D. assert (A := norm_triangle (IZR x) (IZR y) (turned_x x0 y0 (total ts)) (turned_y x0 y0 (total ts))).
  assert (B := norm_triangle (turned_x x0 y0 (total ts)) (turned_y x0 y0 (total ts)) (IZR x) (IZR y)).
  rewrite distance_symm in B. rewrite turned_norm in *. rewrite norm_Z in *. apply Rabs_le. lra.
Qed.
Print Assumptions C106_length.

(** |cos a - cos b| and |sin a - sin b| are at most |a - b|. *)
Lemma cos_lip a b : Rabs (cos a - cos b) <= Rabs (a - b).
Proof.
  destruct (Rtotal_order a b) as [H|[->|H]].
  - destruct (MVT_cor2 cos (fun x => - sin x) a b H) as (c & E & _); [intros; apply derivable_pt_lim_cos|].
    rewrite Rabs_minus_sym, E, Rabs_mult, (Rabs_minus_sym a b). assert (S := SIN_bound c). assert (Rabs (- sin c) <= 1) by (apply Rabs_le; lra).
    assert (P := Rabs_pos (b - a)). nra.
  - rewrite Rminus_eq_0. rewrite Rabs_R0. apply Rabs_pos.
  - destruct (MVT_cor2 cos (fun x => - sin x) b a H) as (c & E & _); [intros; apply derivable_pt_lim_cos|].
    rewrite E, Rabs_mult. assert (S := SIN_bound c). assert (Rabs (- sin c) <= 1) by (apply Rabs_le; lra).
    assert (P := Rabs_pos (a - b)). nra.
Qed.
Lemma sin_lip a b : Rabs (sin a - sin b) <= Rabs (a - b).
Proof.
  rewrite <- !cos_shift. eapply Rle_trans; [apply cos_lip|]. right. rewrite Rabs_minus_sym. f_equal. ring.
Qed.

(** To polar form and back: each coordinate is within 1.003 of what it was, and a little more for very long vectors. *)
Theorem C106_polar : forall x0 y0, in_circle x0 y0 -> (x0, y0) <> (0, 0)%Z ->
  exists m t x y, to_polar x0 y0 = Ok (m, t) /\ to_cartesian m t = Ok (x, y) /\
    let d := 1003 / 1000 + length2 x0 y0 * (58 / 10 / 2 ^ 31) in within x (IZR x0) d /\ within y (IZR y0) d.
Proof.
  intros x0 y0 HC H0. destruct (circle_int32 x0 y0 HC) as [Hx Hy].
  destruct (C68_polar x0 y0 Hx Hy HC H0) as (m & t & a & E & _ & _ & _ & W). cbv zeta in W. destruct W as (Wm & Ex & Ey & Ha & Wt).
  set (r := length2 x0 y0) in *.
  assert (R1 : 1 <= r).
  { unfold r, length2. rewrite <- sqrt_1. apply sqrt_le_1_alt. apply (IZR_le 1).
    destruct (Z.eq_dec x0 0) as [->|]; [|nia]. destruct (Z.eq_dec y0 0) as [->|]; [congruence|nia]. }
  assert (R2 : r <= 2 ^ 31 - 1).
  { unfold r, length2. unfold in_circle in HC. apply IZR_le in HC. rewrite (mult_IZR (2 ^ 31 - 1)), minus_IZR in HC.
    replace (IZR (2 ^ 31)) with (2 ^ 31) in HC by (rewrite pow_IZR; reflexivity). change (IZR 1) with 1 in HC.
    rewrite <- (sqrt_Rsqr (2 ^ 31 - 1)) by lra. apply sqrt_le_1_alt. exact HC. }
  unfold within in *. assert (PB := PI_4). assert (PP := PI_RGT_0).
  assert (I0 : 0 <= 79 / r) by (apply Rlt_le, Rdiv_lt_0_compat; lra).
  assert (I : 79 / r <= 79) by (apply Rmult_le_reg_r with r; [lra|]; replace (79 / r * r) with 79 by (field; lra); lra).
  assert (Wm' : -1 < IZR m - r < 1) by (assert (Rabs (IZR m - r) < 1) as W by lra; apply Rabs_def2 in W; lra).
  assert (M : (-1 < m < 2 ^ 31)%Z).
  { split; apply lt_IZR; [lra|]. replace (IZR (2 ^ 31)) with (2 ^ 31) by (rewrite pow_IZR; reflexivity). lra. }
  set (u := 2 * PI / 2 ^ 31) in *.
  assert (U : 0 < u /\ u * 2 ^ 31 < 6.2832) by (unfold u; pose proof pi_num; split; lra).
  destruct U as [U0 U1].
  assert (At : Rabs (a / u) <= 2 ^ 30).
  { unfold Rdiv. rewrite Rabs_mult, (Rabs_right (/ u)) by (apply Rle_ge, Rlt_le, Rinv_0_lt_compat; exact U0).
    apply Rmult_le_reg_r with u; [exact U0|]. rewrite Rmult_assoc, Rinv_l, Rmult_1_r by lra.
    replace (2 ^ 30 * u) with PI by (unfold u; field). apply Rabs_le. lra. }
  assert (T : int32 t).
  { assert (B : Rabs (IZR t) < 2 ^ 31).
    { replace (IZR t) with (IZR t - a / u + a / u) by ring. eapply Rle_lt_trans; [apply Rabs_triang|]. lra. }
    apply Rabs_def2 in B as [B1 B2]. unfold int32. split; [apply le_IZR|apply lt_IZR]; rewrite ?opp_IZR;
      replace (IZR (2 ^ 31)) with (2 ^ 31) by (rewrite pow_IZR; reflexivity); lra. }
  assert (D : Rabs (radians t - a) <= (67 / 100 + 79 / r) * u).
  { unfold radians. fold u. replace (IZR t * u - a) with ((IZR t - a / u) * u) by (field; lra). rewrite Rabs_mult, (Rabs_right u) by lra.
    apply Rmult_le_compat_r; [lra|exact Wt]. }
  assert (D' : r * Rabs (radians t - a) <= r * (4.21 / 2 ^ 31) + 1 / 2 ^ 20).
  { apply Rle_trans with (r * ((67 / 100 + 79 / r) * u)); [apply Rmult_le_compat_l; lra|].
    replace (r * ((67 / 100 + 79 / r) * u)) with ((67 / 100 * r + 79) * u) by (field; lra). nra. }
  destruct (C45_cos_sin m t ltac:(unfold int32; lia) T ltac:(lia)) as (c & s & _ & _ & EC & Wc & Ws & _). unfold within in *.
  exists m, t, c, s. split; [exact E|]. split; [exact EC|]. cbv zeta.
  assert (Mp : 0 <= IZR m) by (apply (IZR_le 0); lia). rewrite (Rabs_right (IZR m)) in Wc, Ws by lra.
  assert (K : forall f f', -1 <= f <= 1 -> Rabs (f - f') <= Rabs (radians t - a) -> Rabs (IZR m * f - r * f') <= 501 / 1000 + r / 2 ^ 33 + (r * (4.21 / 2 ^ 31) + 1 / 2 ^ 20)).
  { intros f f' Hf HD. replace (IZR m * f - r * f') with ((IZR m - r) * f + r * (f - f')) by ring.
    eapply Rle_trans; [apply Rabs_triang|]. rewrite !Rabs_mult, (Rabs_right r) by lra.
    assert (Rabs f <= 1) by (apply Rabs_le; lra). assert (P := Rabs_pos (IZR m - r)). assert (P' := Rabs_pos f).
    assert (Rabs (IZR m - r) * Rabs f <= 501 / 1000 + r / 2 ^ 33) by nra.
    assert (r * Rabs (f - f') <= r * Rabs (radians t - a)) by (apply Rmult_le_compat_l; lra). lra. }
  assert (Kc := K (cos (radians t)) (cos a) (COS_bound _) (cos_lip _ _)).
  assert (Ks := K (sin (radians t)) (sin a) (SIN_bound _) (sin_lip _ _)). clear K.
  assert (F : forall v w z : R, Rabs (v - w) <= 501 / 1000 + IZR m * (126 / 100 / 2 ^ 31) ->
    Rabs (w - z) <= 501 / 1000 + r / 2 ^ 33 + (r * (4.21 / 2 ^ 31) + 1 / 2 ^ 20) -> Rabs (v - z) <= 1003 / 1000 + r * (58 / 10 / 2 ^ 31)).
  { intros v w z A B. replace (v - z) with (v - w + (w - z)) by ring. eapply Rle_trans; [apply Rabs_triang|]. lra. }
  rewrite Ex, Ey. split; eapply F; eassumption.
Qed.
Print Assumptions C106_polar.

(** So a vector at most 2^28 long comes back with each coordinate changed by at most one. *)
Theorem C106_polar_back : forall x0 y0, (x0 * x0 + y0 * y0 <= 2 ^ 28 * 2 ^ 28)%Z -> (x0, y0) <> (0, 0)%Z ->
  exists m t x y, to_polar x0 y0 = Ok (m, t) /\ to_cartesian m t = Ok (x, y) /\ (Z.abs (x - x0) <= 1)%Z /\ (Z.abs (y - y0) <= 1)%Z.
Proof.
  intros x0 y0 HN H0. destruct (C106_polar x0 y0) as (m & t & x & y & E & E' & D); [unfold in_circle; lia|exact H0|].
  exists m, t, x, y. split; [exact E|]. split; [exact E'|]. cbv zeta in D. unfold within in D.
  assert (L : length2 x0 y0 <= 2 ^ 28).
  { unfold length2. rewrite <- (sqrt_Rsqr (2 ^ 28)) by lra. apply sqrt_le_1_alt. unfold Rsqr.
    replace (2 ^ 28 * 2 ^ 28) with (IZR (2 ^ 28 * 2 ^ 28)) by (rewrite mult_IZR; replace (IZR (2 ^ 28)) with (2 ^ 28) by (rewrite pow_IZR; reflexivity); reflexivity).
    apply IZR_le. exact HN. }
  split; apply close_Z; lra.
Qed.
Print Assumptions C106_polar_back.

(** The origin: its angle is arbitrary (C68_origin_refuted), its magnitude is 0, and so it comes back. *)
Theorem C106_polar_origin : exists t, to_polar 0 0 = Ok (0, t)%Z /\ to_cartesian 0 t = Ok (0, 0)%Z.
Proof.
  exists 595825099%Z. unfold to_polar, to_cartesian, vector, rotate. rewrite ks_values. vm_compute. auto.
Qed.
Print Assumptions C106_polar_origin.

(** Three turns of 120 degrees (almost: 2^31 is not a multiple of 3), and a vector and back. *)
Example C106_case : turns 100000 5 [715827883; 715827883; 715827882]%Z = Ok (100000, 5)%Z /\ (total [715827883; 715827883; 715827882] mod 2 ^ 31 = 0)%Z /\
  (p <- to_polar 3001 4002 ;; to_cartesian (fst p) (snd p)) = Ok (3001, 4002)%Z.
Proof. unfold turns, rotate, to_polar, to_cartesian, vector, rotate. rewrite ks_values. vm_compute. auto. Qed.
