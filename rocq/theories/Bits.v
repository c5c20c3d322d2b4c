(** Bit-level facts about integers shared by several proofs. Nothing here models code. *)
From Verif Require Import Base.
Local Open Scope Z_scope.

Lemma bit_small x n k : 0 <= x < 2 ^ n -> n <= k -> Z.testbit x k = false.
Proof.
  intros H Hk. destruct (Z.eq_dec x 0) as [->|]; [apply Z.bits_0|].
  assert (0 <= n). { destruct (Z.neg_nonneg_cases n); [|auto]. rewrite Z.pow_neg_r in H; lia. }
  apply Z.bits_above_log2; [lia|]. apply Z.log2_lt_pow2; [lia|].
  apply Z.lt_le_trans with (2 ^ n); [lia|]. apply Z.pow_le_mono_r; lia.
Qed.

Lemma range_of_bits x n : 0 <= n -> 0 <= x -> (forall k, n <= k -> Z.testbit x k = false) -> x < 2 ^ n.
Proof.
  intros Hn Hx H. replace x with (x mod 2 ^ n); [apply Z.mod_pos_bound; lia|].
  apply Z.bits_inj'. intros k Hk. destruct (Z.lt_ge_cases k n).
  - apply Z.mod_pow2_bits_low. lia.
  - rewrite Z.mod_pow2_bits_high by lia. rewrite H by lia. reflexivity.
Qed.

Lemma lxor_range a b n : 0 <= n -> 0 <= a < 2 ^ n -> 0 <= b < 2 ^ n -> 0 <= Z.lxor a b < 2 ^ n.
Proof.
  intros Hn Ha Hb. split; [apply Z.lxor_nonneg; lia|].
  apply range_of_bits; [auto | apply Z.lxor_nonneg; lia |].
  intros k Hk. rewrite Z.lxor_spec, (bit_small a n), (bit_small b n) by auto. reflexivity.
Qed.

Lemma land_range_l a b n : 0 <= n -> 0 <= a < 2 ^ n -> 0 <= Z.land a b < 2 ^ n.
Proof.
  intros Hn Ha. assert (0 <= Z.land a b) by (apply Z.land_nonneg; lia). split; [auto|].
  apply range_of_bits; auto. intros k Hk. rewrite Z.land_spec, (bit_small a n) by auto. reflexivity.
Qed.

Lemma lor_range a b n : 0 <= n -> 0 <= a < 2 ^ n -> 0 <= b < 2 ^ n -> 0 <= Z.lor a b < 2 ^ n.
Proof.
  intros Hn Ha Hb. assert (0 <= Z.lor a b) by (apply Z.lor_nonneg; lia). split; [auto|].
  apply range_of_bits; auto. intros k Hk. rewrite Z.lor_spec, (bit_small a n), (bit_small b n) by auto. reflexivity.
Qed.

(** A number is its low part exclusive-or its shifted high part. *)
Lemma split_lxor x n : 0 <= n -> x = Z.lxor (x mod 2 ^ n) (Z.shiftl (x / 2 ^ n) n).
Proof.
  intros Hn. apply Z.bits_inj'. intros k Hk. rewrite Z.lxor_spec.
  destruct (Z.lt_ge_cases k n).
  - rewrite Z.mod_pow2_bits_low, Z.shiftl_spec_low by lia. symmetry. apply xorb_false_r.
  - rewrite Z.mod_pow2_bits_high by lia. rewrite Z.shiftl_spec by lia. rewrite <- Z.shiftr_div_pow2 by lia.
    rewrite Z.shiftr_spec by lia. rewrite xorb_false_l. f_equal. lia.
Qed.

Lemma lxor_cancel_l a b c : Z.lxor a b = Z.lxor a c -> b = c.
Proof.
  intro H. apply (f_equal (Z.lxor a)) in H. rewrite <- !Z.lxor_assoc, Z.lxor_nilpotent, !Z.lxor_0_l in H. exact H.
Qed.

Lemma lxor_cancel_r a b c : Z.lxor b a = Z.lxor c a -> b = c.
Proof. rewrite !(Z.lxor_comm _ a). apply lxor_cancel_l. Qed.

Ltac xor_solve :=
  apply Z.bits_inj'; intros ? ?; rewrite ?Z.lxor_spec, ?Z.bits_0;
  repeat match goal with |- context [Z.testbit ?a ?k] => destruct (Z.testbit a k) end; reflexivity.

Lemma odd_lxor a b : Z.odd (Z.lxor a b) = xorb (Z.odd a) (Z.odd b).
Proof. rewrite <- !Z.bit0_odd. apply Z.lxor_spec. Qed.

Lemma div2_lxor a b : Z.div2 (Z.lxor a b) = Z.lxor (Z.div2 a) (Z.div2 b).
Proof. rewrite !Z.div2_spec. apply Z.shiftr_lxor. Qed.

(** Multiplication by an odd number is injective modulo 2^w. *)
Lemma odd_mul_inj w p a b : 0 <= w -> Z.odd p = true -> 0 <= a < 2 ^ w -> 0 <= b < 2 ^ w ->
  (a * p) mod 2 ^ w = (b * p) mod 2 ^ w -> a = b.
Proof.
  intros Hw Hp Ha Hb H.
  assert (G : forall k, 0 <= k <= w -> (2 ^ k | a - b)).
  { intros k [K1 K2]. revert K2. pattern k. apply natlike_ind; [| |auto].
    - intros _. exists (a - b). lia.
    - clear k K1. intros k K1 IH K2. destruct IH as [c Hc]; [lia|].
      assert (D : (2 ^ w | (a - b) * p)).
      { exists (a * p / 2 ^ w - b * p / 2 ^ w).
        pose proof (Z.div_mod (a * p) (2 ^ w) ltac:(lia)). pose proof (Z.div_mod (b * p) (2 ^ w) ltac:(lia)). nia. }
      destruct D as [d D].
      assert (E : c * p = d * 2 ^ (w - k)).
      { apply (Z.mul_cancel_r _ _ (2 ^ k)); [lia|]. replace (c * p * 2 ^ k) with ((a - b) * p) by (rewrite Hc; ring). rewrite D.
        rewrite <- Z.mul_assoc, <- Z.pow_add_r by lia. do 2 f_equal. lia. }
      assert (Ec : Z.even c = true).
      { assert (X : Z.even (c * p) = true).
        { rewrite E, Z.even_mul. rewrite Z.even_pow by lia. cbn. apply orb_true_r. }
        rewrite Z.even_mul in X. rewrite <- (Z.negb_odd p), Hp in X. cbn in X. now rewrite orb_false_r in X. }
      apply Z.even_spec in Ec. destruct Ec as [e ->]. exists e. rewrite Z.pow_succ_r by lia. lia. }
  destruct (G w ltac:(lia)) as [c Hc]. assert (c = 0) by nia. lia.
Qed.
