(** Proofs about crc32 and fnv1a. *)
From Verif Require Import Base Bits Hash_Model Hash_Spec.
Local Open Scope Z_scope.

Section Crc.
Variable P : Z.
Hypothesis HP : 0 <= P < 2 ^ 32.

Lemma crc_alt i : crc P i = Z.lxor (Z.div2 i) (if Z.odd i then P else 0).
Proof.
  unfold crc. rewrite Z.div2_div. f_equal.
  rewrite Zmod_odd. destruct (Z.odd i).
  - rewrite Z.mul_1_l. apply Z.mod_small. auto.
  - reflexivity.
Qed.

Lemma crc_lin a b : crc P (Z.lxor a b) = Z.lxor (crc P a) (crc P b).
Proof.
  rewrite !crc_alt, odd_lxor, div2_lxor.
  destruct (Z.odd a), (Z.odd b); cbn [xorb]; rewrite ?Z.lxor_0_r.
  - rewrite (Z.lxor_comm (Z.div2 b)), Z.lxor_assoc, <- (Z.lxor_assoc P), Z.lxor_nilpotent, Z.lxor_0_l. reflexivity.
  - rewrite !Z.lxor_assoc. f_equal. apply Z.lxor_comm.
  - rewrite !Z.lxor_assoc. reflexivity.
  - reflexivity.
Qed.

Lemma crc_double a : crc P (2 * a) = a.
Proof.
  rewrite crc_alt, Z.odd_mul. cbn [Z.odd andb]. rewrite Z.lxor_0_r, Z.div2_div, (Z.mul_comm 2), Z.div_mul; lia.
Qed.

Fixpoint it (n : nat) (v : Z) : Z := match n with O => v | S n => crc P (it n v) end.

Lemma it_lin n a b : it n (Z.lxor a b) = Z.lxor (it n a) (it n b).
Proof. induction n; cbn [it]; [reflexivity|]. now rewrite IHn, crc_lin. Qed.

Lemma it_add n m v : it (n + m) v = it n (it m v).
Proof. induction n; cbn [it]; [reflexivity|]. now rewrite <- IHn. Qed.

Lemma it_S n v : it (S n) v = it n (crc P v).
Proof. replace (S n) with (n + 1)%nat by lia. apply it_add. Qed.

Lemma it_0 n : it n 0 = 0.
Proof. induction n; cbn [it]; [reflexivity|]. rewrite IHn, crc_alt. reflexivity. Qed.

Lemma it_shift n a : it n (Z.shiftl a (Z.of_nat n)) = a.
Proof.
  revert a. induction n; intro a; [apply Z.shiftl_0_r|].
  rewrite it_S. replace (Z.shiftl a (Z.of_nat (S n))) with (2 * Z.shiftl a (Z.of_nat n)).
  - now rewrite crc_double.
  - rewrite !Z.shiftl_mul_pow2 by lia. rewrite Nat2Z.inj_succ, Z.pow_succ_r by lia. lia.
Qed.

Lemma it_split n v : it (n + 8) v = Z.lxor (it (n + 8) (v mod 256)) (it n (v / 256)).
Proof.
  rewrite (split_lxor v 8) at 1 by lia. rewrite it_lin. f_equal.
  rewrite it_add. f_equal. apply (it_shift 8).
Qed.

Lemma crc_bit_crc v b : crc_bit P v b = crc P (Z.lxor v (Z.b2z b)).
Proof.
  rewrite crc_alt, odd_lxor, div2_lxor. unfold crc_bit.
  replace (Z.odd (Z.b2z b)) with b by (destruct b; reflexivity).
  replace (Z.div2 (Z.b2z b)) with 0 by (destruct b; reflexivity). rewrite Z.lxor_0_r.
  destruct (xorb (Z.odd v) b); [reflexivity | now rewrite Z.lxor_0_r].
Qed.

(** The number whose binary digits, least significant first, are bs. *)
Fixpoint pack (bs : list bool) : Z :=
  match bs with [] => 0 | b :: bs => Z.b2z b + 2 * pack bs end.

Lemma pack_lxor b bs : pack (b :: bs) = Z.lxor (Z.b2z b) (2 * pack bs).
Proof.
  cbn [pack]. apply Z.bits_inj'. intros k Hk. rewrite Z.lxor_spec.
  destruct (Z.eq_dec k 0) as [->|].
  - rewrite !Z.bit0_odd, Z.odd_add, Z.odd_mul. cbn [Z.odd andb]. reflexivity.
  - replace k with (Z.succ (k - 1)) by lia. rewrite Z.add_comm.
    rewrite Z.testbit_succ_r by lia.
    rewrite Z.double_bits_succ.
    replace (Z.testbit (Z.b2z b) (Z.succ (k - 1))) with false; [now rewrite xorb_false_l|].
    symmetry. destruct b; [|apply Z.bits_0]. cbn [Z.b2z].
    apply Z.bits_above_log2; [lia|]. cbn. lia.
Qed.

Lemma feed bs v : fold_left (crc_bit P) bs v = it (length bs) (Z.lxor v (pack bs)).
Proof.
  revert v. induction bs as [|b bs IH]; intro v; cbn [fold_left length].
  - cbn. now rewrite Z.lxor_0_r.
  - rewrite IH, it_S, crc_bit_crc. f_equal. rewrite pack_lxor. rewrite <- (crc_double (pack bs)) at 1.
    rewrite <- crc_lin. f_equal. apply Z.lxor_assoc.
Qed.

Lemma bits_length n x : length (bits n x) = n.
Proof. revert x; induction n; intro x; cbn; [reflexivity | now rewrite IHn]. Qed.

Lemma pack_bits n : forall x, pack (bits n x) = x mod 2 ^ Z.of_nat n.
Proof.
  induction n; intro x.
  - cbn. now rewrite Z.mod_1_r.
  - cbn [bits pack]. rewrite IHn, Nat2Z.inj_succ, Z.pow_succ_r by lia.
    rewrite Z.rem_mul_r by lia. rewrite Zmod_odd, Z.div2_div. destruct (Z.odd x); cbn [Z.b2z]; lia.
Qed.

Lemma it_range n v : 0 <= v < 2 ^ 32 -> 0 <= it n v < 2 ^ 32.
Proof.
  intro H. induction n; cbn [it]; [auto|]. rewrite crc_alt.
  apply lxor_range; [lia | |].
  - rewrite Z.div2_div. split; [apply Z.div_pos; lia|]. apply Z.div_lt_upper_bound; lia.
  - destruct (Z.odd _); lia.
Qed.

Lemma crc_bits_range bs v : 0 <= v < 2 ^ 32 -> 0 <= fold_left (crc_bit P) bs v < 2 ^ 32.
Proof.
  revert v. induction bs as [|b bs IH]; intros v H; cbn [fold_left]; [auto|]. apply IH.
  rewrite crc_bit_crc. apply (it_range 1). apply lxor_range; [lia|auto|]. destruct b; cbn [Z.b2z]; lia.
Qed.

Lemma x8_it v : x8 P v = it 8 v.
Proof. unfold x8. cbn [it]. reflexivity. Qed.

Lemma table_ok N : table P N = map (fun i => it (8 * (N + 1)) (Z.of_nat i)) (seq 0 256).
Proof.
  induction N.
  - unfold table. apply map_ext. intro i. apply x8_it.
  - cbn [table]. rewrite IHN, map_map. apply map_ext. intro i.
    replace (8 * (S N + 1))%nat with (8 + 8 * (N + 1))%nat by lia.
    rewrite (it_add 8). generalize (it (8 * (N + 1)) (Z.of_nat i)). intro v.
    pose proof (it_split 0 v) as Es. rewrite Nat.add_0_l in Es. rewrite Es, x8_it. apply Z.lxor_comm.
Qed.

Lemma vs_ok N i : 0 <= i < 256 -> vs P N i = Ok (it (8 * (N + 1)) i).
Proof.
  intro H. unfold vs, getz. rewrite (proj2 (Z.ltb_ge i 0)) by lia.
  apply get_Ok. rewrite table_ok.
  set (f := fun i0 : nat => it (8 * (N + 1)) (Z.of_nat i0)).
  replace (it (8 * (N + 1)) i) with (f (Z.to_nat i)) by (unfold f; f_equal; lia).
  apply map_nth_error. rewrite nth_error_nth' with (d := 0%nat) by (rewrite seq_length; lia).
  f_equal. rewrite seq_nth; lia.
Qed.

Lemma step8_ok v q : 0 <= v < 2 ^ 32 -> is_byte q ->
  step8 P v q = Ok (fold_left (crc_bit P) (bits 8 q) v).
Proof.
  intros Hv Hq. unfold step8, is_byte in *.
  pose proof (Z.mod_pos_bound v 256 ltac:(lia)).
  rewrite vs_ok by (apply (lxor_range _ _ 8); lia). cbn [bind]. f_equal.
  rewrite feed, bits_length, pack_bits. change (2 ^ Z.of_nat 8) with 256. rewrite (Z.mod_small q) by lia.
  change (8 * (0 + 1))%nat with 8%nat.
  rewrite !it_lin. pose proof (it_split 0 v) as Es. rewrite Nat.add_0_l in Es. rewrite Es.
  change (it 0 (v / 256)) with (v / 256).
  rewrite (Z.lxor_comm (it 8 (v mod 256)) (v / 256)), <- !Z.lxor_assoc. reflexivity.
Qed.

Lemma split4 n v : 0 <= v < 2 ^ 32 ->
  it (n + 32) v =
  Z.lxor (it (n + 32) (v mod 256)) (Z.lxor (it (n + 24) (v / 256 mod 256))
    (Z.lxor (it (n + 16) (v / 65536 mod 256)) (it (n + 8) (v / 16777216)))).
Proof.
  intro H.
  replace (n + 32)%nat with (n + 24 + 8)%nat by lia. rewrite (it_split (n + 24) v). f_equal.
  replace (n + 24)%nat with (n + 16 + 8)%nat by lia. rewrite (it_split (n + 16)). f_equal.
  replace (n + 16)%nat with (n + 8 + 8)%nat by lia. rewrite (it_split (n + 8)).
  rewrite !Z.div_div by lia. reflexivity.
Qed.

Lemma step32_ok v q : 0 <= v < 2 ^ 32 -> 0 <= q < 2 ^ 32 ->
  step32 P v q = Ok (fold_left (crc_bit P) (bits 32 q) v).
Proof.
  intros Hv Hq. unfold step32. cbv zeta.
  pose proof (lxor_range v q 32 ltac:(lia) Hv Hq) as Hx.
  rewrite feed, bits_length, pack_bits. rewrite (Z.mod_small q) by (change (Z.of_nat 32) with 32; lia).
  set (x := Z.lxor v q) in *. clearbody x.
  assert (x / 16777216 < 256) by (apply Z.div_lt_upper_bound; lia).
  assert (0 <= x / 16777216) by (apply Z.div_pos; lia).
  rewrite !vs_ok by (try apply Z.mod_pos_bound; lia). cbn [bind]. f_equal.
  change 32%nat with (0 + 32)%nat. rewrite (split4 0 x) by auto. cbn [Nat.add Nat.mul].
  xor_solve.
Qed.

Lemma step64_ok v q : 0 <= v < 2 ^ 32 -> 0 <= q < 2 ^ 64 ->
  step64 P v q = Ok (fold_left (crc_bit P) (bits 64 q) v).
Proof.
  intros Hv Hq. unfold step64. cbv zeta.
  rewrite feed, bits_length, pack_bits. change (2 ^ Z.of_nat 64) with (2 ^ 64). rewrite (Z.mod_small q) by lia.
  assert (Hu : 0 <= u32 q < 2 ^ 32) by (apply Z.mod_pos_bound; lia).
  assert (Hw : 0 <= q / 2 ^ 32 < 2 ^ 32).
  { split; [apply Z.div_pos; lia|]. apply Z.div_lt_upper_bound; lia. }
  replace (u32 (Z.shiftr q 32)) with (q / 2 ^ 32)
    by (rewrite Z.shiftr_div_pow2 by lia; unfold u32; now rewrite Z.mod_small).
  assert (E : it 64 (Z.lxor v q) = Z.lxor (it 64 (Z.lxor v (u32 q))) (it 32 (q / 2 ^ 32))).
  { rewrite (split_lxor q 32) at 1 by lia. rewrite <- Z.lxor_assoc, it_lin. f_equal.
    change 64%nat with (32 + 32)%nat. rewrite it_add. f_equal. apply (it_shift 32). }
  rewrite E. clear E.
  pose proof (lxor_range v (u32 q) 32 ltac:(lia) Hv Hu) as Hx.
  set (x := Z.lxor v (u32 q)) in *. clearbody x.
  set (w := q / 2 ^ 32) in *. clearbody w.
  assert (0 <= x / 16777216 < 256) by (split; [apply Z.div_pos; lia | apply Z.div_lt_upper_bound; lia]).
  assert (0 <= w / 16777216 < 256) by (split; [apply Z.div_pos; lia | apply Z.div_lt_upper_bound; lia]).
  rewrite !vs_ok by (try apply Z.mod_pos_bound; lia). cbn [bind]. f_equal.
  change 64%nat with (32 + 32)%nat. rewrite (split4 32 x) by auto.
  pose proof (split4 0 w Hw) as Ew. cbn [Nat.add] in Ew. rewrite Ew. cbn [Nat.add Nat.mul].
  xor_solve.
Qed.

(** Little-endian bytes of an element give the bits of the element. *)
Lemma bits_app a b x : bits (a + b) x = bits a x ++ bits b (Z.shiftr x (Z.of_nat a)).
Proof.
  revert x. induction a; intro x.
  - cbn [Nat.add bits app]. change (Z.of_nat 0) with 0. now rewrite Z.shiftr_0_r.
  - cbn [Nat.add bits app]. rewrite IHa. do 3 f_equal.
    rewrite Z.div2_spec, Z.shiftr_shiftr by lia. f_equal. lia.
Qed.

Lemma bits_mod n : forall m x, Z.of_nat n <= m -> bits n (x mod 2 ^ m) = bits n x.
Proof.
  induction n; intros m x H; [reflexivity|]. cbn [bits]. f_equal.
  - rewrite <- !Z.bit0_odd. apply Z.mod_pow2_bits_low. lia.
  - rewrite <- (IHn (m - 1) (Z.div2 x)) by lia. f_equal.
    rewrite !Z.div2_spec, !Z.shiftr_div_pow2 by lia. change (2 ^ 1) with 2.
    replace m with (1 + (m - 1)) at 1 by lia. rewrite Z.pow_add_r by lia. change (2 ^ 1) with 2.
    pose proof (Z.pow_pos_nonneg 2 (m - 1) ltac:(lia) ltac:(lia)).
    rewrite Z.rem_mul_r by lia. rewrite (Z.mul_comm 2), Z.div_add by lia.
    rewrite (Z.div_small (x mod 2)) by (apply Z.mod_pos_bound; lia). lia.
Qed.

Lemma le_bytes_bits sz : forall x, bit_stream (le_bytes sz x) = bits (8 * sz) x.
Proof.
  induction sz; intro x; [reflexivity|].
  cbn [le_bytes]. unfold bit_stream. cbn [flat_map]. fold (bit_stream (le_bytes sz (x / 256))).
  rewrite IHsz. replace (8 * S sz)%nat with (8 + 8 * sz)%nat by lia. rewrite bits_app.
  f_equal; [apply (bits_mod 8 8); lia | f_equal; rewrite Z.shiftr_div_pow2 by lia; reflexivity].
Qed.

Lemma bit_stream_app p q : bit_stream (p ++ q) = bit_stream p ++ bit_stream q.
Proof. unfold bit_stream. apply flat_map_app. Qed.

Lemma crc_loop_ok step sz (Q : Z -> Prop) : 
  (forall v q, 0 <= v < 2 ^ 32 -> Q q -> step v q = Ok (fold_left (crc_bit P) (bits (8 * sz) q) v)) ->
  forall p v, 0 <= v < 2 ^ 32 -> Forall Q p ->
  crc_loop step v p = Ok (fold_left (crc_bit P) (bit_stream (flat_map (le_bytes sz) p)) v).
Proof.
  intros Hs p. induction p as [|q p IH]; intros v Hv F; [reflexivity|]. inversion F; subst.
  cbn [crc_loop flat_map]. rewrite Hs by auto. cbn [bind].
  rewrite bit_stream_app, fold_left_app, le_bytes_bits. apply IH; auto. now apply crc_bits_range.
Qed.

Lemma not32_invert v : 0 <= v < 2 ^ 32 -> not32 v = invert32 v.
Proof. intro H. unfold not32, invert32, Z.lnot, u32. rewrite <- (Z.mod_add _ 1) by lia. rewrite Z.mod_small; lia. Qed.

Lemma invert_range v : 0 <= v < 2 ^ 32 -> 0 <= invert32 v < 2 ^ 32.
Proof. unfold invert32. lia. Qed.

Lemma crc32_w_ok step sz (Q : Z -> Prop) c p :
  (forall v q, 0 <= v < 2 ^ 32 -> Q q -> step v q = Ok (fold_left (crc_bit P) (bits (8 * sz) q) v)) ->
  0 <= c < 2 ^ 32 -> Forall Q p ->
  (v <- crc_loop step (not32 c) p ;; Ok (not32 v)) = Ok (crc32_spec P c (flat_map (le_bytes sz) p)).
Proof.
  intros Hs Hc F. rewrite not32_invert by auto. rewrite (crc_loop_ok step sz Q Hs) by (auto using invert_range).
  cbn [bind]. rewrite not32_invert by (apply crc_bits_range, invert_range; auto). reflexivity.
Qed.

Lemma flat_bytes p : Forall is_byte p -> flat_map (le_bytes 1) p = p.
Proof.
  induction 1 as [|b p Hb F IH]; [reflexivity|]. cbn [flat_map]. rewrite IH. cbn [le_bytes app].
  unfold is_byte in Hb. now rewrite Z.mod_small.
Qed.

(** Injectivity of the register when the polynomial's top bit is set. *)
Hypothesis HT : 2 ^ 31 <= P.

Lemma crc_inj a b : 0 <= a < 2 ^ 32 -> 0 <= b < 2 ^ 32 -> crc P a = crc P b -> a = b.
Proof.
  intros Ha Hb H.
  assert (Top : forall x, 0 <= x < 2 ^ 32 -> Z.testbit (crc P x) 31 = Z.odd x).
  { intros x Hx. rewrite crc_alt, Z.lxor_spec.
    rewrite (bit_small (Z.div2 x) 31).
    - rewrite xorb_false_l. destruct (Z.odd x); [|apply Z.bits_0].
      replace 31 with (Z.log2 P); [apply Z.bit_log2; lia|].
      apply Z.log2_unique; lia.
    - rewrite Z.div2_div. split; [apply Z.div_pos; lia|]. apply Z.div_lt_upper_bound; lia.
    - lia. }
  assert (O : Z.odd a = Z.odd b) by (rewrite <- (Top a), <- (Top b) by auto; now rewrite H).
  rewrite !crc_alt, O in H. apply lxor_cancel_r in H.
  rewrite (Z.div2_odd a), (Z.div2_odd b), H, O. reflexivity.
Qed.

Lemma it_inj n a b : 0 <= a < 2 ^ 32 -> 0 <= b < 2 ^ 32 -> it n a = it n b -> a = b.
Proof.
  intros Ha Hb. induction n; cbn [it]; [auto|]. intro H. apply IHn.
  apply crc_inj; auto; now apply it_range.
Qed.

Lemma pack_range bs : 0 <= pack bs < 2 ^ Z.of_nat (length bs).
Proof.
  induction bs as [|b bs IH]; cbn [pack length]; [cbn; lia|].
  rewrite Nat2Z.inj_succ, Z.pow_succ_r by lia. destruct b; cbn [Z.b2z]; lia.
Qed.

Lemma pack_inj a : forall b, length a = length b -> pack a = pack b -> a = b.
Proof.
  induction a as [|x a IH]; intros [|y b] L H; try discriminate; [reflexivity|].
  cbn [pack] in H. cbn in L.
  assert (x = y) by (destruct x, y; cbn [Z.b2z] in H; auto; lia). subst y.
  f_equal. apply IH; [lia|]. lia.
Qed.

Lemma burst x y v s : length x = length y -> (length x <= 32)%nat -> x <> y -> 0 <= v < 2 ^ 32 ->
  fold_left (crc_bit P) (x ++ s) v <> fold_left (crc_bit P) (y ++ s) v.
Proof.
  intros L H N Hv E. rewrite !fold_left_app in E.
  assert (R : forall b, (length b <= 32)%nat -> 0 <= pack b < 2 ^ 32).
  { intros b Hb. pose proof (pack_range b). 
    pose proof (Z.pow_le_mono_r 2 (Z.of_nat (length b)) 32 ltac:(lia) ltac:(lia)). lia. }
  rewrite (feed s), (feed s) in E.
  rewrite !it_lin in E. apply lxor_cancel_r in E.
  apply it_inj in E; [| now apply crc_bits_range | now apply crc_bits_range].
  rewrite !feed, <- L in E. apply it_inj in E; [| apply lxor_range; auto; lia | apply lxor_range; [lia | auto | apply R; lia]].
  apply lxor_cancel_l in E. apply N, pack_inj; auto.
Qed.
End Crc.

(** * fnv1a *)
Lemma u8_shiftr v : u8 v = v mod 256. Proof. reflexivity. Qed.

Lemma fnv_more_ok w n : forall h v,
  fnv_more w h v n = fnv1a_spec w (fnv_prime w) (le_bytes n (v / 256)) h.
Proof.
  induction n; intros h v; [reflexivity|]. cbn [fnv_more le_bytes]. rewrite IHn.
  unfold fnv1a_spec. cbn [fold_left]. rewrite Z.shiftr_div_pow2 by lia. reflexivity.
Qed.

Lemma fnv1a_ok w sz data : (1 <= sz)%nat -> forall h,
  fnv1a w sz data h = fnv1a_spec w (fnv_prime w) (flat_map (le_bytes sz) data) h.
Proof.
  intro Hs. induction data as [|v data IH]; intro h; [reflexivity|].
  cbn [fnv1a flat_map]. rewrite IH, fnv_more_ok. unfold fnv1a_spec. rewrite fold_left_app.
  f_equal. destruct sz; [lia|]. cbn [le_bytes fold_left]. replace (S sz - 1)%nat with sz by lia. reflexivity.
Qed.

Lemma fnv_step_range w prime b h : 0 <= w -> 0 <= (Z.lxor h b * prime) mod 2 ^ w < 2 ^ w.
Proof. intros. apply Z.mod_pos_bound. apply Z.pow_pos_nonneg; lia. Qed.

Lemma fnv_range w prime bytes : forall h, 0 <= w -> 0 <= h < 2 ^ w -> 0 <= fnv1a_spec w prime bytes h < 2 ^ w.
Proof.
  unfold fnv1a_spec. induction bytes as [|b bytes IH]; intros h Hw Hh; cbn [fold_left]; [auto|].
  apply IH; auto. now apply fnv_step_range.
Qed.

Lemma fnv_step_inj w prime b b' h h' : 8 <= w -> Z.odd prime = true ->
  0 <= h < 2 ^ w -> 0 <= h' < 2 ^ w -> is_byte b -> is_byte b' ->
  (Z.lxor h b * prime) mod 2 ^ w = (Z.lxor h' b' * prime) mod 2 ^ w -> Z.lxor h b = Z.lxor h' b'.
Proof.
  intros Hw Hp Hh Hh' Hb Hb' H. unfold is_byte in *.
  pose proof (Z.pow_le_mono_r 2 8 w ltac:(lia) ltac:(lia)).
  apply (odd_mul_inj w prime); auto; [lia | |]; apply lxor_range; lia.
Qed.

Lemma fnv_basis_inj w prime bytes : forall h h', 8 <= w -> Z.odd prime = true ->
  0 <= h < 2 ^ w -> 0 <= h' < 2 ^ w -> Forall is_byte bytes ->
  fnv1a_spec w prime bytes h = fnv1a_spec w prime bytes h' -> h = h'.
Proof.
  unfold fnv1a_spec. induction bytes as [|b bytes IH]; intros h h' Hw Hp Hh Hh' F E; cbn [fold_left] in E; [auto|].
  inversion F; subst. apply IH in E; auto; try (apply fnv_step_range; lia).
  apply fnv_step_inj in E; auto. now apply lxor_cancel_r in E.
Qed.
