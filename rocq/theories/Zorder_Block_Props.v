(** C27: aligned squares are ranges of codes. *)
From Verif Require Import Base Bits Zorder_Model Zorder_Spec Zorder_Proofs Zorder_Props.
Local Open Scope Z_scope.

Lemma same_high a b n : 0 <= n -> 0 <= a -> 0 <= b -> (a / 2 ^ n = b / 2 ^ n <-> forall i, n <= i -> Z.testbit a i = Z.testbit b i).
Proof.
  intros Hn Ha Hb. split.
  - intros E i Hi. replace i with (i - n + n) by lia. rewrite <- !Z.div_pow2_bits by lia. now rewrite E.
  - intro H. apply Z.bits_inj'. intros i Hi. rewrite !Z.div_pow2_bits by lia. apply H. lia.
Qed.
Lemma half_shift x k : 0 <= k <= 31 -> (x + 2 ^ 31) / 2 ^ k = x / 2 ^ k + 2 ^ (31 - k).
Proof.
  intro Hk. replace (2 ^ 31) with (2 ^ (31 - k) * 2 ^ k) by (rewrite <- Z.pow_add_r by lia; f_equal; lia).
  apply Z.div_add. apply Z.pow_nonzero; lia.
Qed.

(** *** C27: two points are in the same square of the grid with cells of size 2^k exactly when their codes are in the same of the ranges of
    length 4^k. *)
Theorem C27_blocks : forall x y x' y' k, int32 x -> int32 y -> int32 x' -> int32 y' -> 0 <= k <= 31 ->
  (z_encode x y / 4 ^ k = z_encode x' y' / 4 ^ k <-> x / 2 ^ k = x' / 2 ^ k /\ y / 2 ^ k = y' / 2 ^ k).
Proof.
  intros x y x' y' k X Y X' Y' Hk. destruct (C27_interleaves x y X Y) as [R H], (C27_interleaves x' y' X' Y') as [R' H'].
  replace (4 ^ k) with (2 ^ (2 * k)) by (rewrite Z.pow_mul_r by lia; reflexivity). rewrite same_high by lia.
  unfold int32 in *.
  assert (Ex : x / 2 ^ k = x' / 2 ^ k <-> (x + 2 ^ 31) / 2 ^ k = (x' + 2 ^ 31) / 2 ^ k) by (rewrite !half_shift by lia; lia).
  assert (Ey : y / 2 ^ k = y' / 2 ^ k <-> (y + 2 ^ 31) / 2 ^ k = (y' + 2 ^ 31) / 2 ^ k) by (rewrite !half_shift by lia; lia).
  rewrite Ex, Ey, !same_high by lia. split.
  - intro B. split; intros i Hi; (destruct (Z_lt_ge_dec i 32); [|rewrite !(bit_small _ 32) by lia; reflexivity]);
      destruct (H i ltac:(lia)) as [H1 H2], (H' i ltac:(lia)) as [H1' H2'].
    + rewrite <- H1, <- H1'. apply B. lia.
    + rewrite <- H2, <- H2'. apply B. lia.
  - intros [Bx By] j Hj. destruct (Z_lt_ge_dec j 64); [|rewrite !(bit_small _ 64) by lia; reflexivity].
    destruct (odd_cases j ltac:(lia)) as [(i & Hi & -> & _)|(i & Hi & -> & _)]; destruct (H i ltac:(lia)) as [H1 H2], (H' i ltac:(lia)) as [H1' H2'].
    + rewrite H1, H1'. apply Bx. lia.
    + rewrite H2, H2'. apply By. lia.
Qed.
Print Assumptions C27_blocks.

(** *** So the codes of an aligned square are the 4^k numbers from that of its lowest corner on. *)
Theorem C27_square : forall x0 y0 k, int32 x0 -> int32 y0 -> 0 <= k <= 31 -> (2 ^ k | x0) -> (2 ^ k | y0) ->
  forall x y, int32 x -> int32 y ->
    (z_encode x0 y0 <= z_encode x y < z_encode x0 y0 + 4 ^ k <-> (x0 <= x < x0 + 2 ^ k /\ y0 <= y < y0 + 2 ^ k)).
Proof.
  intros x0 y0 k X0 Y0 Hk Dx Dy x y X Y. pose proof (C27_blocks x0 y0 x y k X0 Y0 X Y Hk) as B.
  assert (P : 0 < 2 ^ k) by (apply Z.pow_pos_nonneg; lia). assert (Q : 0 < 4 ^ k) by (apply Z.pow_pos_nonneg; lia).
  assert (In : forall a v p, 0 < p -> (p | a) -> (a <= v < a + p <-> a / p = v / p)).
  { clear. intros a v p Hp (c & ->). rewrite Z.div_mul by lia. pose proof (Z.div_mod v p ltac:(lia)). pose proof (Z.mod_pos_bound v p Hp). split; intro; [apply (Z.div_unique v p c (v - c * p)); lia|]. subst c. lia. }
  assert (Dz : (4 ^ k | z_encode x0 y0)).
  { apply Z.mod_divide; [lia|]. replace (4 ^ k) with (2 ^ (2 * k)) by (rewrite Z.pow_mul_r by lia; reflexivity).
    destruct (C27_interleaves x0 y0 X0 Y0) as [R H]. apply Z.bits_inj'. intros j Hj. rewrite Z.bits_0.
    destruct (Z_lt_ge_dec j (2 * k)) as [L|L]; [|apply Z.mod_pow2_bits_high; lia]. rewrite Z.mod_pow2_bits_low by lia.
    assert (Low : forall a i, (2 ^ k | a) -> 0 <= i < k -> Z.testbit (a + 2 ^ 31) i = false).
    { clear - Hk. intros a i (c & ->) Hi. replace (c * 2 ^ k + 2 ^ 31) with ((c + 2 ^ (31 - k)) * 2 ^ k).
      - apply Z.mul_pow2_bits_low. lia.
      - rewrite Z.mul_add_distr_r, <- Z.pow_add_r by lia. do 2 f_equal. lia. }
    destruct (odd_cases j Hj) as [(i & Hi & -> & _)|(i & Hi & -> & _)]; destruct (H i ltac:(lia)) as [H1 H2]; [rewrite H1|rewrite H2]; apply Low; auto; lia. }
  rewrite (In _ _ _ Q Dz), (In _ _ _ P Dx), (In _ _ _ P Dy). exact B.
Qed.
Print Assumptions C27_square.

(** A square of 16 by 16 cells left of and below the origin. *)
Example C27_square_case : int32 (-16) /\ (2 ^ 4 | -16) /\ z_encode (-16) (-16) = 4611686018427387648 /\ z_encode (-1) (-1) = 4611686018427387648 + 4 ^ 4 - 1 /\
  z_encode (-17) (-16) < z_encode (-16) (-16).
Proof. unfold int32. split; [lia|]. split; [exists (-1); reflexivity|]. vm_compute. auto. Qed.

(** ** Queries for whole cells *)

Lemma query_cells lo hi data out : code lo -> code hi -> hi < 2 ^ 64 - 65535 -> D 0 lo <= D 0 hi -> D 1 lo <= D 1 hi ->
  ascending data -> Forall code data -> z_query lo hi data = Ok out ->
  subseq out data /\ Forall (fun z => lo <= z < hi + 65535) out /\
  forall z, code z -> inbox lo hi z -> lo <= z < hi + 65535 -> count out z = count data z.
Proof.
  intros Hl Hh Hb H0 H1 A F. unfold z_query.
  destruct (lower_bound_ok data 0 (Z.of_nat (length data)) (u64 (hi + 65535)) A ltac:(lia) ltac:(lia)) as (last & -> & Hlast & Lt & Ge). cbn [bind].
  pose proof (pot_always lo hi Hl Hh) as Pt.
  assert (G : good lo hi 48 lo hi []).
  { split; [split; auto|]. split; [lia|]. split; [lia|]. split; [auto|]. split; [|exact I]. exists 48. split; [assumption|cbn [length]; lia]. }
  pose proof (loop_ok lo hi 48 Hb data last Hlast A F (Z.to_nat last) 0 lo hi [] [] ltac:(lia) ltac:(lia) G ltac:(lia)) as L.
  intro E. rewrite E in L. destruct L as (out' & -> & Sb & Fo & C). cbn [app].
  unfold seg in Sb, C. change (Z.to_nat 0) with 0%nat in *. cbn [skipn] in Sb, C.
  unfold u64 in Lt, Ge. rewrite Z.mod_small in Lt, Ge by (unfold code in *; lia).
  split; [now apply subseq_firstn in Sb|]. split.
  - apply Forall_forall. intros z I. rewrite Forall_forall in Fo. split; [apply Fo; assumption|].
    assert (I' : In z (firstn (Z.to_nat last) data)).
    { clear - Sb I. induction Sb; [contradiction|right; auto|]. destruct I as [<-|I]; [now left|right; auto]. }
    apply In_nth_error in I'. destruct I' as (k & Ek).
    assert (Kl : (k < Z.to_nat last)%nat).
    { assert (nth_error (firstn (Z.to_nat last) data) k <> None) as Nn by congruence. apply nth_error_Some in Nn. rewrite firstn_length in Nn. lia. }
    apply (Lt (Z.of_nat k) z); [lia|]. unfold nthz. destruct (Z.ltb_spec (Z.of_nat k) 0); [lia|]. rewrite Nat2Z.id, <- Ek, <- (firstn_skipn (Z.to_nat last) data) at 1.
    apply nth_error_app1. apply nth_error_Some. congruence.
  - intros z Cz In R.
    rewrite C; [|assumption|lia|intros; left; assumption].
    rewrite <- (firstn_skipn (Z.to_nat last) data) at 2. rewrite count_app, (count_0 (skipn _ _)); [lia|].
    intro I. apply In_nth_error in I. destruct I as (k & Ek).
    assert (En : nthz data (last + Z.of_nat k) = Some z).
    { unfold nthz. destruct (Z.ltb_spec (last + Z.of_nat k) 0); [lia|]. rewrite <- Ek, <- (firstn_skipn (Z.to_nat last) data) at 1.
      rewrite nth_error_app2 by (rewrite firstn_length; lia). f_equal. rewrite firstn_length. lia. }
    assert (Kl : last + Z.of_nat k < Z.of_nat (length data)).
    { unfold nthz in En. destruct (Z.ltb_spec (last + Z.of_nat k) 0); [lia|].
      assert (nth_error data (Z.to_nat (last + Z.of_nat k)) <> None) as Nn by congruence. apply nth_error_Some in Nn. lia. }
    specialize (Ge (last + Z.of_nat k) z ltac:(lia) En). lia.
Qed.

Lemma cell_corner x y : int32 x -> int32 y -> (256 | x) -> (256 | y) ->
  z_encode (x + 255) (y + 255) = z_encode x y + 65535 /\ z_encode (x + 254) (y + 255) < z_encode x y + 65535 /\ z_encode x y <= z_encode (x + 254) (y + 255).
Proof.
  intros X Y Dx Dy. unfold int32 in *.
  assert (Tx : x + 255 < 2 ^ 31) by (destruct Dx as [c ->]; lia). assert (Ty : y + 255 < 2 ^ 31) by (destruct Dy as [c ->]; lia).
  pose proof (C27_square x y 8 X Y ltac:(lia) Dx Dy) as S. change (2 ^ 8) with 256 in S. change (4 ^ 8) with 65536 in S.
  destruct (proj2 (S (x + 255) (y + 255) ltac:(unfold int32; lia) ltac:(unfold int32; lia)) ltac:(lia)) as [L U].
  destruct (proj2 (S (x + 254) (y + 255) ltac:(unfold int32; lia) ltac:(unfold int32; lia)) ltac:(lia)) as [L' U'].
  pose proof (C27_interleaves x y X Y) as [R _].
  assert (Fin : exists u v, int32 u /\ int32 v /\ z_encode u v = z_encode x y + 65535).
  { apply C27_surjective. split; [lia|]. pose proof (C27_interleaves x y X Y) as [Rz H].
    destruct (Z_lt_ge_dec (z_encode x y) (2 ^ 64 - 65535)); [lia|]. exfalso.
    assert (Hm : z_encode x y mod 65536 = 0).
    { change 65536 with (2 ^ (2 * 8)). apply Z.bits_inj'. intros j Hj. rewrite Z.bits_0.
      destruct (Z_lt_ge_dec j 16) as [Lj|Lj]; [|apply Z.mod_pow2_bits_high; lia]. rewrite Z.mod_pow2_bits_low by lia.
      assert (Low : forall a i, (256 | a) -> 0 <= i < 8 -> Z.testbit (a + 2 ^ 31) i = false).
      { clear. intros a i (c & ->) Hi. replace (c * 256 + 2 ^ 31) with ((c + 2 ^ 23) * 2 ^ 8) by (change (2 ^ 31) with (2 ^ 23 * 256); change (2 ^ 8) with 256; ring).
        apply Z.mul_pow2_bits_low. lia. }
      destruct (odd_cases j Hj) as [(i & Hi & -> & _)|(i & Hi & -> & _)]; destruct (H i ltac:(lia)) as [H1 H2]; [rewrite H1|rewrite H2]; apply Low; auto; lia. }
    pose proof (Z.div_mod (z_encode x y) 65536 ltac:(lia)). lia. }
  destruct Fin as (u & v & Hu & Hv & Ez). destruct (proj1 (S u v Hu Hv) ltac:(lia)) as [Bu Bv].
  assert (M1 : z_encode u v <= z_encode (x + 255) v) by (apply C27_monotone; unfold int32 in *; lia).
  assert (M2 : z_encode (x + 255) v <= z_encode (x + 255) (y + 255)) by (apply C27_monotone; unfold int32 in *; lia).
  assert (E : z_encode (x + 255) (y + 255) = z_encode x y + 65535) by lia.
  split; [exact E|]. split; [|lia].
  assert (z_encode (x + 254) (y + 255) <> z_encode (x + 255) (y + 255)); [|lia].
  intro Q. apply C27_injective in Q; unfold int32; lia.
Qed.

(** *** C29 and C31: the query is for whole cells: a stored point of a cell of the rectangle is reported if its code is from the lower corner's
    on and before the last one of the upper corner's cell. *)
Theorem C29_cells_partial : forall x0 y0 x1 y1 data out x y,
  int32 x0 -> int32 y0 -> int32 x1 -> int32 y1 -> x0 <= x1 -> y0 <= y1 ->
  x1 < 2 ^ 31 - 256 \/ y1 < 2 ^ 31 - 256 ->
  ascending data -> Forall (fun z => 0 <= z < 2 ^ 64) data ->
  z_query (z_encode x0 y0) (z_encode x1 y1) data = Ok out ->
  int32 x -> int32 y -> x0 / 256 <= x / 256 <= x1 / 256 -> y0 / 256 <= y / 256 <= y1 / 256 ->
  z_encode x0 y0 <= z_encode x y < z_encode x1 y1 + 65535 ->
  count out (z_encode x y) = count data (z_encode x y).
Proof.
  intros x0 y0 x1 y1 data out x y X0 Y0 X1 Y1 Hx Hy Ht A F E X Y Cx Cy R.
  destruct (D_encode x0 y0 X0 Y0) as [A0 A1], (D_encode x1 y1 X1 Y1) as [B0 B1], (D_encode x y X Y) as [E0 E1].
  destruct (z_encode_eq x0 y0 X0 Y0) as [_ R0]. destruct (z_encode_eq x1 y1 X1 Y1) as [_ R1]. destruct (z_encode_eq x y X Y) as [_ Rz].
  assert (M : forall v, (v + 2 ^ 31) / 256 = v / 256 + 2 ^ 23) by (intro v; replace (2 ^ 31) with (2 ^ 23 * 256) by reflexivity; rewrite Z.div_add by lia; reflexivity).
  destruct (query_cells (z_encode x0 y0) (z_encode x1 y1) data out R0 R1 (top_cell x1 y1 X1 Y1 Ht)) as (_ & _ & Q); auto.
  - rewrite A0, B0. apply Z.div_le_mono; lia.
  - rewrite A1, B1. apply Z.div_le_mono; lia.
  - apply Q; auto. split; [rewrite A0, B0, E0, !M|rewrite A1, B1, E1, !M]; lia.
Qed.
Print Assumptions C29_cells_partial.

(** *** C29 and C31: at the granularity of cells the query leaves out one point: the last one of the last cell is never reported, whatever is
    stored, although its neighbour always is. *)
Theorem C29_last_point_refuted : forall x0 y0 x1 y1 data out,
  int32 x0 -> int32 y0 -> int32 x1 -> int32 y1 -> x0 <= x1 -> y0 <= y1 -> (256 | x1) -> (256 | y1) ->
  x1 < 2 ^ 31 - 256 \/ y1 < 2 ^ 31 - 256 ->
  ascending data -> Forall (fun z => 0 <= z < 2 ^ 64) data ->
  z_query (z_encode x0 y0) (z_encode x1 y1) data = Ok out ->
  count out (z_encode (x1 + 255) (y1 + 255)) = 0%nat /\
  count out (z_encode (x1 + 254) (y1 + 255)) = count data (z_encode (x1 + 254) (y1 + 255)).
Proof.
  intros x0 y0 x1 y1 data out X0 Y0 X1 Y1 Hx Hy Dx Dy Ht A F E.
  destruct (cell_corner x1 y1 X1 Y1 Dx Dy) as (L & N & N').
  destruct (z_encode_eq x0 y0 X0 Y0) as [_ R0]. destruct (z_encode_eq x1 y1 X1 Y1) as [_ R1].
  destruct (D_encode x0 y0 X0 Y0) as [A0 A1], (D_encode x1 y1 X1 Y1) as [B0 B1].
  assert (Tx : x1 + 255 < 2 ^ 31) by (unfold int32 in *; destruct Dx as [c ->]; lia). assert (Ty : y1 + 255 < 2 ^ 31) by (unfold int32 in *; destruct Dy as [c ->]; lia).
  split.
  - destruct (query_cells (z_encode x0 y0) (z_encode x1 y1) data out R0 R1 (top_cell x1 y1 X1 Y1 Ht)) as (_ & Q & _); auto.
    + rewrite A0, B0. apply Z.div_le_mono; lia.
    + rewrite A1, B1. apply Z.div_le_mono; lia.
    + apply count_0. intro I. rewrite Forall_forall in Q. specialize (Q _ I). lia.
  - assert (z_encode x0 y0 <= z_encode x1 y1).
    { transitivity (z_encode x1 y0); apply C27_monotone; unfold int32 in *; lia. }
    assert (Cell : forall v i, (256 | v) -> 0 <= i < 256 -> (v + i) / 256 = v / 256).
    { clear. intros v i (c & ->) Hi. rewrite Z.div_mul by lia. symmetry. apply (Z.div_unique _ _ _ i); lia. }
    apply (C29_cells_partial x0 y0 x1 y1 data out (x1 + 254) (y1 + 255)); auto; try (unfold int32 in *; lia).
    + rewrite (Cell x1 254 Dx) by lia. split; [apply Z.div_le_mono; lia|lia].
    + rewrite (Cell y1 255 Dy) by lia. split; [apply Z.div_le_mono; lia|lia].
Qed.
Print Assumptions C29_last_point_refuted.

Lemma square_corner x y k : int32 x -> int32 y -> 0 <= k <= 31 -> (2 ^ k | x) -> (2 ^ k | y) -> x + 2 ^ k <= 2 ^ 31 -> y + 2 ^ k <= 2 ^ 31 ->
  (4 ^ k | z_encode x y) /\ z_encode (x + 2 ^ k - 1) (y + 2 ^ k - 1) = z_encode x y + 4 ^ k - 1.
Proof.
  intros X Y Hk Dx Dy Tx Ty. assert (P : 0 < 2 ^ k) by (apply Z.pow_pos_nonneg; lia). assert (Q : 0 < 4 ^ k) by (apply Z.pow_pos_nonneg; lia).
  pose proof (C27_square x y k X Y Hk Dx Dy) as S.
  assert (Xl : int32 (x + 2 ^ k - 1)) by (unfold int32 in *; lia). assert (Yl : int32 (y + 2 ^ k - 1)) by (unfold int32 in *; lia).
  pose proof (proj2 (S _ _ Xl Yl) ltac:(lia)) as Rl. pose proof (C27_interleaves x y X Y) as [R H].
  assert (Dz : (4 ^ k | z_encode x y)).
  { apply Z.mod_divide; [lia|]. replace (4 ^ k) with (2 ^ (2 * k)) by (rewrite Z.pow_mul_r by lia; reflexivity).
    apply Z.bits_inj'. intros j Hj. rewrite Z.bits_0.
    destruct (Z_lt_ge_dec j (2 * k)) as [L|L]; [|apply Z.mod_pow2_bits_high; lia]. rewrite Z.mod_pow2_bits_low by lia.
    assert (Low : forall a i, (2 ^ k | a) -> 0 <= i < k -> Z.testbit (a + 2 ^ 31) i = false).
    { clear - Hk. intros a i (c & ->) Hi. replace (c * 2 ^ k + 2 ^ 31) with ((c + 2 ^ (31 - k)) * 2 ^ k).
      - apply Z.mul_pow2_bits_low. lia.
      - rewrite Z.mul_add_distr_r, <- Z.pow_add_r by lia. do 2 f_equal. lia. }
    destruct (odd_cases j Hj) as [(i & Hi & -> & _)|(i & Hi & -> & _)]; destruct (H i ltac:(lia)) as [H1 H2]; [rewrite H1|rewrite H2]; apply Low; auto; lia. }
  split; [exact Dz|].
  assert (Fit : z_encode x y + 4 ^ k <= 2 ^ 64).
  { destruct Dz as [c Ec]. rewrite Ec in R |- *. clear - R Q Hk. assert (E : 2 ^ 64 = 4 ^ (32 - k) * 4 ^ k) by (rewrite <- Z.pow_add_r by lia; replace (32 - k + k) with 32 by ring; reflexivity).
    rewrite E in R |- *. destruct R as [_ R]. apply Z.mul_lt_mono_pos_r in R; [|assumption]. nia. }
  destruct (C27_surjective (z_encode x y + 4 ^ k - 1) ltac:(lia)) as (u & v & Hu & Hv & Ez).
  destruct (proj1 (S u v Hu Hv) ltac:(lia)) as [Bu Bv].
  assert (M1 : z_encode u v <= z_encode (x + 2 ^ k - 1) v) by (apply C27_monotone; auto; lia).
  assert (M2 : z_encode (x + 2 ^ k - 1) v <= z_encode (x + 2 ^ k - 1) (y + 2 ^ k - 1)) by (apply C27_monotone; auto; lia).
  lia.
Qed.

Lemma sum_bit a w n j : 0 <= n -> (2 ^ n | a) -> 0 <= w < 2 ^ n -> 0 <= j -> Z.testbit (a + w) j = if j <? n then Z.testbit w j else Z.testbit a j.
Proof.
  intros Hn [c ->] Hw Hj. destruct (Z.ltb_spec j n).
  - rewrite <- (Z.mod_pow2_bits_low _ n j) by lia. rewrite Z.add_comm, Z.mod_add, Z.mod_small by lia. reflexivity.
  - replace j with (j - n + n) by lia. rewrite <- !Z.div_pow2_bits by lia. rewrite Z.div_add_l, Z.div_small, Z.div_mul, Z.add_0_r by lia. reflexivity.
Qed.
Lemma band_bit n j : 16 <= n -> 0 <= j -> Z.testbit (2 ^ n - 65536) j = (16 <=? j) && (j <? n).
Proof.
  intros Hn Hj. replace (2 ^ n - 65536) with (Z.ones (n - 16) * 2 ^ 16).
  2:{ rewrite Z.ones_equiv. unfold Z.pred. rewrite Z.mul_add_distr_r, <- Z.pow_add_r by lia. replace (n - 16 + 16) with n by ring. reflexivity. }
  destruct (Z.leb_spec 16 j); [|apply Z.mul_pow2_bits_low; lia]. rewrite Z.mul_pow2_bits by lia. cbn [andb].
  destruct (Z.ltb_spec j n); [apply Z.ones_spec_low|apply Z.ones_spec_high]; lia.
Qed.

(** A square is not split. *)
Lemma square_whole lo k : code lo -> 8 <= k <= 31 -> (4 ^ k | lo) -> lo + 4 ^ k <= 2 ^ 64 -> fst (fst (z_split lo (lo + 4 ^ k - 65536))) = false.
Proof.
  intros Hl Hk Dv Fit. assert (E4 : 4 ^ k = 2 ^ (2 * k)) by (rewrite Z.pow_mul_r by lia; reflexivity). rewrite E4 in *.
  assert (P : 2 ^ 16 <= 2 ^ (2 * k)) by (apply Z.pow_le_mono_r; lia). change (2 ^ 16) with 65536 in P.
  rewrite z_split_eq. cbn [fst]. apply Z.ltb_ge. set (hi := lo + 2 ^ (2 * k) - 65536).
  assert (Hh : code hi) by (unfold code, hi in *; lia).
  assert (Hb : forall j, 0 <= j -> Z.testbit hi j = if j <? 2 * k then 16 <=? j else Z.testbit lo j).
  { intros j Hj. unfold hi. rewrite <- Z.add_sub_assoc, (sum_bit _ _ (2 * k)) by (auto; lia). destruct (Z.ltb_spec j (2 * k)); [|reflexivity].
    rewrite band_bit by lia. destruct (Z.ltb_spec j (2 * k)); [|lia]. apply Bool.andb_true_r. }
  assert (Lb : forall j, 0 <= j < 2 * k -> Z.testbit lo j = false).
  { intros j Hj. destruct Dv as [c ->]. apply Z.mul_pow2_bits_low. lia. }
  destruct (Z.eq_dec k 8) as [->|Nk].
  { assert (hi = lo) as -> by (unfold hi; change (2 ^ (2 * 8)) with 65536; ring).
    assert (Em : split_mask lo lo = 0) by (unfold split_mask; rewrite Z.lxor_nilpotent; reflexivity).
    assert (split_ji lo lo = split_jo lo lo) as -> by (unfold split_ji, split_jo; rewrite Em; change (Z.shiftr 0 2) with 0; rewrite !Z.lor_0_r; reflexivity).
    rewrite Z.sub_diag. unfold u64. rewrite Z.mod_0_l; lia. }
  set (p := 2 * k - 1). assert (Op : Z.odd p = true) by (unfold p; rewrite Z.odd_sub, Z.odd_mul; reflexivity).
  assert (Df : Z.testbit lo p <> Z.testbit hi p).
  { rewrite Hb, Lb by (unfold p; lia). destruct (Z.ltb_spec p (2 * k)); [|unfold p in *; lia]. destruct (Z.leb_spec 16 p); [discriminate|unfold p in *; lia]. }
  assert (Sm : forall j, p < j -> Z.testbit lo j = Z.testbit hi j).
  { intros j Hj. rewrite Hb by (unfold p in *; lia). destruct (Z.ltb_spec j (2 * k)); [unfold p in *; lia|reflexivity]. }
  destruct (split_codes lo hi) as (Cj & Ci & Mj & Mi).
  assert (P2 : 2 ^ (2 * k) = 2 * 2 ^ p) by (unfold p; rewrite <- Z.pow_succ_r by lia; f_equal; lia).
  assert (P16 : 65536 <= 2 ^ p) by (change 65536 with (2 ^ 16); apply Z.pow_le_mono_r; unfold p; lia).
  assert (Low : forall z j, z mod 2 ^ 16 = 0 -> 0 <= j < 16 -> Z.testbit z j = false).
  { clear. intros z j E Hj. rewrite <- (Z.mod_pow2_bits_low z 16 j), E by lia. apply Z.bits_0. }
  assert (Ej : split_jo lo hi = lo + (2 ^ p - 65536)).
  { apply Z.bits_inj'. intros j Hj. rewrite (sum_bit _ _ (2 * k)) by (auto; lia). rewrite band_bit by (unfold p; lia).
    destruct (Z_lt_ge_dec j 16) as [L|L]; [rewrite Low by (auto; lia); destruct (Z.ltb_spec j (2 * k)); [|lia]; destruct (Z.leb_spec 16 j); [lia|reflexivity]|].
    rewrite (jo_bit lo hi p j) by (auto; unfold p; lia). rewrite Hb, Op by lia.
    destruct (Z.ltb_spec j (2 * k)).
    - destruct (Z.leb_spec 16 j); [|lia]. cbn [andb]. destruct (Z.ltb_spec j p) as [Lp|Lp].
      + destruct (Z.odd j); reflexivity.
      + assert (j = p) as -> by (unfold p in *; lia). rewrite Op, Z.eqb_refl. reflexivity.
    - destruct (Z.ltb_spec j p); [unfold p in *; lia|]. destruct (Z.eqb_spec j p); [unfold p in *; lia|]. destruct (Z.odd j); reflexivity. }
  assert (Ei : split_ji lo hi = lo + 2 ^ p).
  { apply Z.bits_inj'. intros j Hj. rewrite (sum_bit _ _ (2 * k)) by (auto; lia). rewrite Z.pow2_bits_eqb by (unfold p; lia).
    destruct (Z_lt_ge_dec j 16) as [L|L]; [rewrite Low by (auto; lia); destruct (Z.ltb_spec j (2 * k)); [|lia]; destruct (Z.eqb_spec p j); [unfold p in *; lia|reflexivity]|].
    rewrite (ji_bit lo hi p j) by (auto; unfold p; lia). rewrite Op.
    destruct (Z.ltb_spec j (2 * k)).
    - rewrite Lb by lia. destruct (Z.ltb_spec j p) as [Lp|Lp].
      + destruct (Z.eqb_spec p j); [lia|]. destruct (Z.odd j); reflexivity.
      + assert (j = p) as -> by (unfold p in *; lia). rewrite Op, Z.eqb_refl. reflexivity.
    - destruct (Z.ltb_spec j p); [unfold p in *; lia|]. destruct (Z.eqb_spec j p); [unfold p in *; lia|]. destruct (Z.odd j); reflexivity. }
  rewrite Ei, Ej. replace (lo + 2 ^ p - (lo + (2 ^ p - 65536))) with 65536 by ring. discriminate.
Qed.

Lemma whole_descend fuel zn lo hi spans : fst (fst (z_split lo hi)) = false -> z_descend (S fuel) true zn lo hi spans = Ok (negb (zn <? lo), lo, hi, spans).
Proof. intro Hs. cbn [z_descend]. destruct (z_split lo hi) as [[more mo] mi]. cbn [fst] in Hs. subst more. destruct (zn <? lo); reflexivity. Qed.
Lemma whole_loop data last lo hi : ascending data -> last <= Z.of_nat (length data) -> fst (fst (z_split lo hi)) = false ->
  forall fuel i out, 0 <= i -> z_loop fuel data last i lo hi [] out <> UB.
Proof.
  intros A Hl Hs. induction fuel as [|fuel IH]; intros i out Hi; cbn [z_loop]; (destruct (Z.ltb_spec i last); [|discriminate]); [discriminate|].
  destruct (getz_ok data i ltac:(lia)) as (zn & -> & En). cbn [bind]. cbv zeta. unfold z_pop. destruct (u64 (hi + 65535) <? zn); [discriminate|].
  rewrite (whole_descend 63 zn lo hi [] Hs). cbn [bind]. destruct (negb (zn <? lo)); [apply IH; lia|].
  destruct (lower_bound_ok data (i + 1) last lo A ltac:(lia) ltac:(lia)) as (r & -> & Hr & _). cbn [bind]. apply IH. lia.
Qed.
Lemma whole_query data lo hi : ascending data -> fst (fst (z_split lo hi)) = false -> z_query lo hi data <> UB.
Proof.
  intros A Hs. unfold z_query. destruct (lower_bound_ok data 0 (Z.of_nat (length data)) (u64 (hi + 65535)) A ltac:(lia) ltac:(lia)) as (last & -> & Hlast & _). cbn [bind].
  apply whole_loop; auto; lia.
Qed.

(** *** C31: for an aligned square of side 2^k, given by its first point and the first point of its last cell, the query reports exactly the
    stored points of the square, in their order, but for the square's last point; and it always returns, however large the square is. *)
Theorem C31_square_partial : forall x0 y0 k data,
  int32 x0 -> int32 y0 -> 8 <= k <= 31 -> (2 ^ k | x0) -> (2 ^ k | y0) ->
  x0 + 2 ^ k < 2 ^ 31 \/ y0 + 2 ^ k < 2 ^ 31 ->
  ascending data -> Forall (fun z => 0 <= z < 2 ^ 64) data ->
  let q := z_query (z_encode x0 y0) (z_encode (x0 + 2 ^ k - 256) (y0 + 2 ^ k - 256)) data in
  (exists out, q = Ok out) /\
  forall out, q = Ok out ->
    subseq out data /\
    forall x y, int32 x -> int32 y ->
      count out (z_encode x y) =
      if (x0 <=? x) && (x <? x0 + 2 ^ k) && (y0 <=? y) && (y <? y0 + 2 ^ k) && negb ((x =? x0 + 2 ^ k - 1) && (y =? y0 + 2 ^ k - 1))
      then count data (z_encode x y) else 0%nat.
Proof.
  intros x0 y0 k data X0 Y0 Hk Dx Dy Ht A F q.
  assert (Pk : 2 ^ k = 2 ^ (k - 8) * 256) by (change 256 with (2 ^ 8); rewrite <- Z.pow_add_r by lia; f_equal; lia).
  assert (P8 : 0 < 2 ^ (k - 8)) by (apply Z.pow_pos_nonneg; lia).
  assert (D8 : forall v, (2 ^ k | v) -> (256 | v + 2 ^ k - 256)).
  { clear - Pk. intros v [c ->]. rewrite Pk. exists (c * 2 ^ (k - 8) + 2 ^ (k - 8) - 1). ring. }
  assert (Top : forall v, int32 v -> (2 ^ k | v) -> v + 2 ^ k <= 2 ^ 31).
  { clear - Hk. intros v Hv [c ->]. unfold int32 in Hv. assert (Q : 2 ^ 31 = 2 ^ (31 - k) * 2 ^ k) by (rewrite <- Z.pow_add_r by lia; f_equal; lia).
    assert (Pb : 0 < 2 ^ k) by (apply Z.pow_pos_nonneg; lia). rewrite Q in Hv |- *. destruct Hv as [_ Hv]. clear Q.
    set (a := 2 ^ (31 - k)) in *. set (b := 2 ^ k) in *. clearbody a b. apply Z.mul_lt_mono_pos_r in Hv; [|assumption]. nia. }
  pose proof (Top x0 X0 Dx) as Tx. pose proof (Top y0 Y0 Dy) as Ty.
  assert (X1 : int32 (x0 + 2 ^ k - 256)) by (unfold int32 in *; lia). assert (Y1 : int32 (y0 + 2 ^ k - 256)) by (unfold int32 in *; lia).
  assert (T1 : x0 + 2 ^ k - 256 < 2 ^ 31 - 256 \/ y0 + 2 ^ k - 256 < 2 ^ 31 - 256) by lia.
  assert (Hx : x0 <= x0 + 2 ^ k - 256) by lia. assert (Hy : y0 <= y0 + 2 ^ k - 256) by lia.
  split.
  - destruct (square_corner x0 y0 k X0 Y0 ltac:(lia) Dx Dy Tx Ty) as [Dz Ez].
    destruct (cell_corner _ _ X1 Y1 (D8 _ Dx) (D8 _ Dy)) as (L & _ & _).
    replace (x0 + 2 ^ k - 256 + 255) with (x0 + 2 ^ k - 1) in L by ring. replace (y0 + 2 ^ k - 256 + 255) with (y0 + 2 ^ k - 1) in L by ring.
    assert (Eh : z_encode (x0 + 2 ^ k - 256) (y0 + 2 ^ k - 256) = z_encode x0 y0 + 4 ^ k - 65536) by lia.
    destruct (z_encode_eq x0 y0 X0 Y0) as [_ R0].
    assert (Xl : int32 (x0 + 2 ^ k - 1)) by (unfold int32 in *; lia). assert (Yl : int32 (y0 + 2 ^ k - 1)) by (unfold int32 in *; lia).
    destruct (z_encode_eq _ _ Xl Yl) as [_ Rl].
    assert (NU : q <> UB) by (unfold q; rewrite Eh; apply whole_query; [assumption|]; apply square_whole; auto; unfold code in *; lia).
    destruct (C30_no_overflow_partial x0 y0 _ _ data X0 Y0 X1 Y1 Hx Hy T1 A F) as [NT _]. fold q in NT.
    destruct q as [out| |]; [eauto|congruence|congruence].
  - intros out E. unfold q in E.
    destruct (z_encode_eq x0 y0 X0 Y0) as [_ R0]. destruct (z_encode_eq _ _ X1 Y1) as [_ R1].
    destruct (D_encode x0 y0 X0 Y0) as [A0 A1], (D_encode _ _ X1 Y1) as [B0 B1].
    destruct (query_cells _ _ data out R0 R1 (top_cell _ _ X1 Y1 T1)) as (S & Q & _); auto.
    { rewrite A0, B0. apply Z.div_le_mono; lia. }
    { rewrite A1, B1. apply Z.div_le_mono; lia. }
    split; [exact S|]. intros x y X Y.
    destruct (cell_corner _ _ X1 Y1 (D8 _ Dx) (D8 _ Dy)) as (L & _ & _).
    replace (x0 + 2 ^ k - 256 + 255) with (x0 + 2 ^ k - 1) in L by ring. replace (y0 + 2 ^ k - 256 + 255) with (y0 + 2 ^ k - 1) in L by ring.
    pose proof (C27_square x0 y0 k X0 Y0 ltac:(lia) Dx Dy) as Sq.
    assert (Xl : int32 (x0 + 2 ^ k - 1)) by (unfold int32 in *; lia). assert (Yl : int32 (y0 + 2 ^ k - 1)) by (unfold int32 in *; lia).
    pose proof (proj2 (Sq _ _ Xl Yl) ltac:(lia)) as Rl.
    assert (Iff : (x0 <= x < x0 + 2 ^ k /\ y0 <= y < y0 + 2 ^ k) /\ ~ (x = x0 + 2 ^ k - 1 /\ y = y0 + 2 ^ k - 1) <->
      z_encode x0 y0 <= z_encode x y < z_encode (x0 + 2 ^ k - 256) (y0 + 2 ^ k - 256) + 65535).
    { rewrite <- L. split.
      - intros [B N]. pose proof (proj2 (Sq x y X Y) B). split; [lia|].
        assert (z_encode x y <= z_encode (x0 + 2 ^ k - 1) (y0 + 2 ^ k - 1)).
        { transitivity (z_encode (x0 + 2 ^ k - 1) y); apply C27_monotone; auto; lia. }
        assert (z_encode x y <> z_encode (x0 + 2 ^ k - 1) (y0 + 2 ^ k - 1)); [|lia].
        intro Eq. apply C27_injective in Eq; auto.
      - intro B. split; [apply (Sq x y X Y); lia|]. intros [-> ->]. lia. }
    destruct ((x0 <=? x) && (x <? x0 + 2 ^ k) && (y0 <=? y) && (y <? y0 + 2 ^ k) && negb ((x =? x0 + 2 ^ k - 1) && (y =? y0 + 2 ^ k - 1))) eqn:Eb.
    + assert (B : (x0 <= x < x0 + 2 ^ k /\ y0 <= y < y0 + 2 ^ k) /\ ~ (x = x0 + 2 ^ k - 1 /\ y = y0 + 2 ^ k - 1)) by (clear - Eb; lia).
      apply (C29_cells_partial x0 y0 (x0 + 2 ^ k - 256) (y0 + 2 ^ k - 256) data out x y); auto; [| |now apply Iff];
        destruct B as [[Bx By] _]; split; try (apply Z.div_le_mono; lia).
      * destruct (D8 _ Dx) as [c Ec]. rewrite Ec, Z.div_mul by lia. apply Z.lt_succ_r, Z.div_lt_upper_bound; lia.
      * destruct (D8 _ Dy) as [c Ec]. rewrite Ec, Z.div_mul by lia. apply Z.lt_succ_r, Z.div_lt_upper_bound; lia.
    + apply count_0. intro I. rewrite Forall_forall in Q. specialize (Q _ I). apply Iff in Q. clear - Q Eb. lia.
Qed.
Print Assumptions C31_square_partial.

(** The cell at the origin: its last point is left out; a square of 4 by 4 cells with points in and around it. *)
Example C31_square_case :
  z_query (z_encode 0 0) (z_encode 0 0) [z_encode 254 255; z_encode 255 255] = Ok [z_encode 254 255] /\
  z_query (z_encode (-1024) 0) (z_encode (-256) 768) [z_encode (-1025) 700; z_encode (-1024) 0; z_encode (-2) 1023; z_encode (-1) 1023; z_encode (-1024) 1024] =
    Ok [z_encode (-1024) 0; z_encode (-2) 1023] /\ ((2 ^ 10 | -1024) /\ (2 ^ 10 | 0)).
Proof. split; [vm_compute; reflexivity|]. split; [vm_compute; reflexivity|]. split; [exists (-1)|exists 0]; reflexivity. Qed.
