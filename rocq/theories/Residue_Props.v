(** C105: what follows from the checksum of a message with its checksum appended, of messages with the same difference, and how often each checksum comes. *)
From Verif Require Import Base Bits Hash_Model Hash_Spec Hash_Proofs Hash_Props Random_Spec Random_Proofs Crc_Spec.
Local Open Scope Z_scope.

Lemma invert_lxor v : 0 <= v < 2 ^ 32 -> invert32 v = Z.lxor v (2 ^ 32 - 1).
Proof.
  intro H. rewrite <- not32_invert by assumption. unfold not32, u32. apply Z.bits_inj'. intros i Hi. rewrite Z.lxor_spec.
  replace (2 ^ 32 - 1) with (Z.ones 32) by reflexivity. destruct (Z_lt_ge_dec i 32).
  - rewrite Z.mod_pow2_bits_low, Z.lnot_spec, Z.ones_spec_low by lia. now rewrite xorb_true_r.
  - rewrite Z.mod_pow2_bits_high, Z.ones_spec_high, (bit_small v 32) by lia. reflexivity.
Qed.

Section Register.
Variable P : Z.
Hypothesis HP : 0 <= P < 2 ^ 32.

Lemma word_feed v x : 0 <= v < 2 ^ 32 -> 0 <= x < 2 ^ 32 -> fold_left (crc_bit P) (bit_stream (le_bytes 4 x)) v = it P 32 (Z.lxor v x).
Proof. intros Hv Hx. rewrite le_bytes_bits. rewrite feed, bits_length, pack_bits by assumption. now rewrite Z.mod_small. Qed.

(** Feeding the same differences. *)
Lemma bits_par n : forall x y x' y' v w v' w', Z.lxor x y = Z.lxor x' y' -> Z.lxor v w = Z.lxor v' w' ->
  Z.lxor (fold_left (crc_bit P) (bits n x) v) (fold_left (crc_bit P) (bits n y) w) = Z.lxor (fold_left (crc_bit P) (bits n x') v') (fold_left (crc_bit P) (bits n y') w').
Proof.
  induction n as [|n IH]; intros x y x' y' v w v' w' E1 E2; cbn [bits fold_left]; [assumption|]. apply IH; [now rewrite <- !div2_lxor, E1|].
  rewrite !crc_bit_crc, <- !crc_lin by assumption. f_equal.
  assert (E3 : Z.lxor (Z.b2z (Z.odd x)) (Z.b2z (Z.odd y)) = Z.lxor (Z.b2z (Z.odd x')) (Z.b2z (Z.odd y'))).
  { apply (f_equal Z.odd) in E1. rewrite !odd_lxor in E1. destruct (Z.odd x), (Z.odd y), (Z.odd x'), (Z.odd y'); try discriminate E1; reflexivity. }
  apply Z.bits_inj'. intros i Hi. apply (f_equal (fun z => Z.testbit z i)) in E2, E3. rewrite !Z.lxor_spec in *.
  destruct (Z.testbit v i), (Z.testbit w i), (Z.testbit v' i), (Z.testbit w' i), (Z.testbit (Z.b2z (Z.odd x)) i), (Z.testbit (Z.b2z (Z.odd y)) i), (Z.testbit (Z.b2z (Z.odd x')) i), (Z.testbit (Z.b2z (Z.odd y')) i); try discriminate E2; try discriminate E3; reflexivity.
Qed.

Lemma bytes_par a : forall b d e v w v' w', length a = length b -> length a = length d -> length a = length e -> xor_bytes a b = xor_bytes d e -> Z.lxor v w = Z.lxor v' w' ->
  Z.lxor (fold_left (crc_bit P) (bit_stream a) v) (fold_left (crc_bit P) (bit_stream b) w) = Z.lxor (fold_left (crc_bit P) (bit_stream d) v') (fold_left (crc_bit P) (bit_stream e) w').
Proof.
  induction a as [|x a IH]; intros [|y b] [|x' d] [|y' e] v w v' w' L1 L2 L3 E1 E2; try discriminate; [assumption|].
  change (xor_bytes (x :: a) (y :: b)) with (Z.lxor x y :: xor_bytes a b) in E1. change (xor_bytes (x' :: d) (y' :: e)) with (Z.lxor x' y' :: xor_bytes d e) in E1. injection E1 as E0 E1.
  cbn [length] in *. unfold bit_stream. cbn [flat_map]. rewrite !fold_left_app. apply IH; try lia; [assumption|]. now apply bits_par.
Qed.

Hypothesis HT : 2 ^ 31 <= P.

Lemma crc_onto r : 0 <= r < 2 ^ 32 -> exists v, 0 <= v < 2 ^ 32 /\ crc P v = r.
Proof.
  intro H. destruct (Z_lt_ge_dec r (2 ^ 31)).
  - exists (2 * r). split; [lia|]. now apply crc_double.
  - assert (R : 0 <= Z.lxor r P < 2 ^ 31).
    { pose proof (lxor_range r P 32 ltac:(lia) H HP) as R. destruct (Z_lt_ge_dec (Z.lxor r P) (2 ^ 31)); [lia|exfalso].
      assert (T : forall z, 2 ^ 31 <= z < 2 ^ 32 -> Z.testbit z 31 = true). { intros z Hz. replace 31 with (Z.log2 z) by (apply Z.log2_unique; lia). apply Z.bit_log2. lia. }
      pose proof (T (Z.lxor r P) ltac:(lia)) as T1. rewrite Z.lxor_spec, (T r), (T P) in T1 by lia. discriminate. }
    exists (2 * Z.lxor r P + 1). split; [lia|]. rewrite crc_alt by assumption. rewrite Z.add_comm, Z.odd_add_mul_2. cbn [Z.odd].
    rewrite Z.div2_div. replace ((1 + 2 * Z.lxor r P) / 2) with (Z.lxor r P) by (apply (Z.div_unique _ 2 _ 1); lia).
    rewrite Z.lxor_assoc, Z.lxor_nilpotent. apply Z.lxor_0_r.
Qed.

Lemma it_onto n : forall r, 0 <= r < 2 ^ 32 -> exists v, 0 <= v < 2 ^ 32 /\ it P n v = r.
Proof.
  induction n as [|n IH]; intros r H; cbn [it]; [eauto|]. destruct (crc_onto r H) as (u & Hu & <-). destruct (IH u Hu) as (v & Hv & <-). eauto.
Qed.

Lemma patch c a b t : 0 <= c < 2 ^ 32 -> 0 <= t < 2 ^ 32 -> exists! x, 0 <= x < 2 ^ 32 /\ crc32_spec P c (a ++ le_bytes 4 x ++ b) = t.
Proof.
  intros Hc Ht. set (v := fold_left (crc_bit P) (bit_stream a) (invert32 c)). assert (Hv : 0 <= v < 2 ^ 32) by (apply crc_bits_range; auto using invert_range).
  set (k := length (bit_stream b)). set (f := it P k (pack (bit_stream b))).
  assert (Hf : 0 <= f < 2 ^ 32). { replace f with (fold_left (crc_bit P) (bit_stream b) 0) by (rewrite feed by assumption; now rewrite Z.lxor_0_l). apply crc_bits_range; [assumption|lia]. }
  assert (E : forall x, 0 <= x < 2 ^ 32 -> crc32_spec P c (a ++ le_bytes 4 x ++ b) = invert32 (Z.lxor (it P k (it P 32 (Z.lxor v x))) f)).
  { intros x Hx. unfold crc32_spec. rewrite !bit_stream_app, !fold_left_app. fold v. rewrite word_feed by assumption. rewrite feed by assumption. rewrite it_lin by assumption. reflexivity. }
  destruct (it_onto k (Z.lxor (invert32 t) f)) as (u & Hu & Eu); [apply lxor_range; auto using invert_range; lia|].
  destruct (it_onto 32 u Hu) as (w & Hw & Ew). exists (Z.lxor v w). assert (Hx : 0 <= Z.lxor v w < 2 ^ 32) by (apply lxor_range; auto; lia).
  assert (Ex : crc32_spec P c (a ++ le_bytes 4 (Z.lxor v w) ++ b) = t).
  { rewrite E by assumption. rewrite <- Z.lxor_assoc, Z.lxor_nilpotent, Z.lxor_0_l, Ew, Eu. rewrite Z.lxor_assoc, Z.lxor_nilpotent, Z.lxor_0_r. unfold invert32. lia. }
  split; [auto|]. intros y (Hy & Ey). rewrite <- Ex in Ey. rewrite !E in Ey by assumption.
  assert (E2 : Z.lxor (it P k (it P 32 (Z.lxor v y))) f = Z.lxor (it P k (it P 32 (Z.lxor v (Z.lxor v w)))) f) by (unfold invert32 in Ey; lia).
  assert (R : forall z, 0 <= z < 2 ^ 32 -> 0 <= Z.lxor v z < 2 ^ 32) by (intros; apply lxor_range; auto; lia).
  apply lxor_cancel_r in E2. apply it_inj in E2; auto using it_range. apply it_inj in E2; auto. now apply lxor_cancel_l in E2.
Qed.
End Register.

Lemma patch_bytes a x b : Forall is_byte a -> Forall is_byte b -> Forall is_byte (a ++ le_bytes 4 x ++ b).
Proof. intros A B. apply Forall_app. split; [assumption|]. apply Forall_app. auto using le_bytes_byte. Qed.

(** The checksum of a message with its checksum appended, low byte first, is the same number for every message and every start value:
    that of four bytes 255 after the start value 0xffffffff. *)
Theorem C105_residue : forall P c m, 0 <= P < 2 ^ 32 -> 0 <= c < 2 ^ 32 -> Forall is_byte m ->
  exists v, crc32_8 P c m = Ok v /\ 0 <= v < 2 ^ 32 /\ crc32_8 P c (m ++ le_bytes 4 v) = crc32_8 P (2 ^ 32 - 1) [255; 255; 255; 255].
Proof.
  intros P c m HP Hc F. exists (crc32_spec P c m). split; [now apply C11_crc32_bytes|]. split; [now apply spec_range|].
  rewrite !C11_crc32_bytes; auto; [|lia|repeat constructor; unfold is_byte; lia|apply Forall_app; auto using le_bytes_byte]. f_equal.
  rewrite <- spec_incremental by assumption. pose proof (spec_range P c m HP Hc) as R. set (v := crc32_spec P c m) in *.
  unfold crc32_spec. f_equal. rewrite word_feed; auto using invert_range.
  change [255; 255; 255; 255] with (le_bytes 4 (2 ^ 32 - 1)). rewrite word_feed; auto; [|unfold invert32; lia|lia]. f_equal.
  rewrite invert_lxor by assumption. rewrite (Z.lxor_comm v), Z.lxor_assoc, Z.lxor_nilpotent. reflexivity.
Qed.
Print Assumptions C105_residue.

(** For crc32c the number is 0x48674bc7, the published residue of CRC-32C (inverted: 0xb798b438). *)
Theorem C105_residue_crc32c : forall c m, 0 <= c < 2 ^ 32 -> Forall is_byte m ->
  exists v, crc32_8 crc32c_poly c m = Ok v /\ crc32_8 crc32c_poly c (m ++ le_bytes 4 v) = Ok 0x48674bc7.
Proof.
  intros c m Hc F. destruct (C105_residue crc32c_poly c m ltac:(unfold crc32c_poly; lia) Hc F) as (v & E1 & _ & E2). exists v. split; [assumption|]. rewrite E2. vm_compute. reflexivity.
Qed.
Print Assumptions C105_residue_crc32c.

(** The same with whole words: the checksum is one more word. *)
Theorem C105_residue_words32 : forall c p, 0 <= c < 2 ^ 32 -> Forall (fun q => 0 <= q < 2 ^ 32) p ->
  exists v, crc32_32 crc32c_poly c p = Ok v /\ crc32_32 crc32c_poly c (p ++ [v]) = Ok 0x48674bc7.
Proof.
  intros c p Hc F. assert (HP : 0 <= crc32c_poly < 2 ^ 32) by (unfold crc32c_poly; lia). set (m := flat_map (le_bytes 4) p).
  assert (Fm : Forall is_byte m) by (apply Forall_flat_map, Forall_forall; intros; apply le_bytes_byte).
  destruct (C105_residue_crc32c c m Hc Fm) as (v & E1 & E2). exists v. rewrite C11_crc32_bytes in E1 by auto. rewrite C11_crc32_words32 by auto. split; [assumption|].
  injection E1 as E1. pose proof (spec_range crc32c_poly c m HP Hc). rewrite C11_crc32_words32; auto; [|apply Forall_app; split; [assumption|]; constructor; auto; lia].
  rewrite flat_map_app. cbn [flat_map]. rewrite app_nil_r. fold m. rewrite C11_crc32_bytes in E2; auto. apply Forall_app. auto using le_bytes_byte.
Qed.
Print Assumptions C105_residue_words32.

(** Four bytes anywhere in a message can be chosen in exactly one way for the message to have a given checksum. *)
Theorem C105_patch : forall P c a b t, 2 ^ 31 <= P < 2 ^ 32 -> 0 <= c < 2 ^ 32 -> Forall is_byte a -> Forall is_byte b -> 0 <= t < 2 ^ 32 ->
  exists! x, 0 <= x < 2 ^ 32 /\ crc32_8 P c (a ++ le_bytes 4 x ++ b) = Ok t.
Proof.
  intros P c a b t HP Hc A B Ht. destruct (patch P ltac:(lia) ltac:(lia) c a b t Hc Ht) as (x & (Hx & Ex) & U). exists x. split.
  - split; [assumption|]. rewrite C11_crc32_bytes; auto using patch_bytes; [|lia]. now f_equal.
  - intros y (Hy & Ey). apply U. split; [assumption|]. rewrite C11_crc32_bytes in Ey; auto using patch_bytes; [|lia]. congruence.
Qed.
Print Assumptions C105_patch.

(** So a receiver who finds the residue knows that the last four bytes are the checksum of the rest. *)
Theorem C105_receiver : forall c m t, 0 <= c < 2 ^ 32 -> Forall is_byte m -> 0 <= t < 2 ^ 32 ->
  (crc32_8 crc32c_poly c (m ++ le_bytes 4 t) = Ok 0x48674bc7 <-> crc32_8 crc32c_poly c m = Ok t).
Proof.
  intros c m t Hc F Ht. destruct (C105_residue_crc32c c m Hc F) as (v & E1 & E2).
  assert (HP : 2 ^ 31 <= crc32c_poly < 2 ^ 32) by (unfold crc32c_poly; lia).
  destruct (C105_patch crc32c_poly c m [] 0x48674bc7 HP Hc F ltac:(constructor) ltac:(lia)) as (x & _ & U).
  assert (R : 0 <= v < 2 ^ 32). { rewrite C11_crc32_bytes in E1 by (auto; lia). injection E1 as <-. apply spec_range; [lia|assumption]. }
  split; intro E; [|rewrite E1 in E; injection E as <-; assumption].
  rewrite <- (U t), (U v); [assumption| |]; rewrite app_nil_r; auto.
Qed.
Print Assumptions C105_receiver.

(** Two messages of the same length: how their checksums differ depends only on how the messages differ (and not on the start value, if it is the same for both). *)
Theorem C105_difference : forall P c c' a b d e, 0 <= P < 2 ^ 32 -> 0 <= c < 2 ^ 32 -> 0 <= c' < 2 ^ 32 ->
  Forall is_byte a -> Forall is_byte b -> Forall is_byte d -> Forall is_byte e ->
  length a = length b -> length a = length d -> length a = length e -> xor_bytes a b = xor_bytes d e ->
  exists va vb vd ve, crc32_8 P c a = Ok va /\ crc32_8 P c b = Ok vb /\ crc32_8 P c' d = Ok vd /\ crc32_8 P c' e = Ok ve /\ Z.lxor va vb = Z.lxor vd ve.
Proof.
  intros P c c' a b d e HP Hc Hc' A B D E L1 L2 L3 X. exists (crc32_spec P c a), (crc32_spec P c b), (crc32_spec P c' d), (crc32_spec P c' e).
  split; [now apply C11_crc32_bytes|]. split; [now apply C11_crc32_bytes|]. split; [now apply C11_crc32_bytes|]. split; [now apply C11_crc32_bytes|].
  unfold crc32_spec. assert (I : forall m x, 0 <= x < 2 ^ 32 -> invert32 (fold_left (crc_bit P) m (invert32 x)) = Z.lxor (fold_left (crc_bit P) m (invert32 x)) (2 ^ 32 - 1)) by (intros; apply invert_lxor, crc_bits_range; auto using invert_range).
  rewrite !I by assumption. clear I.
  assert (G : forall x y, Z.lxor (Z.lxor x (2 ^ 32 - 1)) (Z.lxor y (2 ^ 32 - 1)) = Z.lxor x y).
  { intros x y. rewrite (Z.lxor_comm y), Z.lxor_assoc, <- (Z.lxor_assoc (2 ^ 32 - 1)), Z.lxor_nilpotent, Z.lxor_0_l. reflexivity. }
  rewrite !G. apply bytes_par; auto. now rewrite !Z.lxor_nilpotent.
Qed.
Print Assumptions C105_difference.

Lemma le_bytes_app n k x y : 0 <= x < 256 ^ Z.of_nat n -> le_bytes (n + k) (x + 256 ^ Z.of_nat n * y) = le_bytes n x ++ le_bytes k y.
Proof.
  revert x. induction n as [|n IH]; intros x Hx; cbn [Nat.add le_bytes app].
  - cbn [Z.of_nat] in Hx. change (256 ^ Z.of_nat 0) with 1. replace (x + 1 * y) with y by lia. reflexivity.
  - rewrite Nat2Z.inj_succ, Z.pow_succ_r in * by lia. set (w := 256 ^ Z.of_nat n) in *.
    replace (x + 256 * w * y) with (x + (w * y) * 256) by ring. f_equal.
    + now rewrite Z.mod_add by lia.
    + rewrite Z.div_add by lia. apply IH. split; [apply Z.div_pos; lia|]. apply Z.div_lt_upper_bound; lia.
Qed.

(** Among the messages of n bytes, n >= 4, every checksum comes equally often. The messages are numbered by their bytes read as one number, low byte first. *)
Theorem C105_balanced : forall P c n t, 2 ^ 31 <= P < 2 ^ 32 -> 0 <= c < 2 ^ 32 -> (4 <= n)%nat -> 0 <= t < 2 ^ 32 ->
  has_count (fun x => 0 <= x < 256 ^ Z.of_nat n /\ crc32_8 P c (le_bytes n x) = Ok t) (256 ^ (Z.of_nat n - 4)).
Proof.
  intros P c n t HP Hc Hn Ht. replace n with (4 + (n - 4))%nat by lia. set (k := (n - 4)%nat). replace (Z.of_nat (4 + k) - 4) with (Z.of_nat k) by lia.
  assert (EW : 256 ^ Z.of_nat (4 + k) = 2 ^ 32 * 256 ^ Z.of_nat k) by (rewrite Nat2Z.inj_add, Z.pow_add_r by lia; reflexivity). rewrite EW.
  assert (Wk : 0 < 256 ^ Z.of_nat k) by (apply Z.pow_pos_nonneg; lia).
  assert (Hl : exists l, NoDup l /\ (forall y, In y l <-> 0 <= y < 256 ^ Z.of_nat k) /\ Z.of_nat (length l) = 256 ^ Z.of_nat k).
  { set (N := Z.to_nat (256 ^ Z.of_nat k)). exists (map Z.of_nat (seq 0 N)). split; [apply FinFun.Injective_map_NoDup; [intros ? ?; lia|apply seq_NoDup]|]. split.
    - intro y. rewrite in_map_iff. split; [intros (i & <- & I); apply in_seq in I; lia|]. intro Hy. exists (Z.to_nat y). split; [lia|]. apply in_seq. lia.
    - rewrite map_length, seq_length. unfold N. lia. }
  destruct Hl as (l & N & I & L).
  assert (Hs : forall ys, Forall (fun y => 0 <= y < 256 ^ Z.of_nat k) ys -> exists xs, map (fun x => x / 2 ^ 32) xs = ys /\
    Forall (fun x => 0 <= x < 2 ^ 32 * 256 ^ Z.of_nat k /\ crc32_8 P c (le_bytes (4 + k) x) = Ok t) xs).
  { induction 1 as [|y ys Hy F (xs & E & G)]; [exists []; auto|].
    destruct (C105_patch P c [] (le_bytes k y) t HP Hc ltac:(constructor) ltac:(apply le_bytes_byte) Ht) as (x & (Hx & Ex) & _).
    exists (x + 2 ^ 32 * y :: xs). split.
    - cbn [map]. rewrite E. f_equal. rewrite Z.mul_comm, Z.div_add, Z.div_small by lia. lia.
    - constructor; [|assumption]. split; [nia|]. change (2 ^ 32) with (256 ^ Z.of_nat 4). rewrite le_bytes_app; [exact Ex|]. exact Hx. }
  destruct (Hs l) as (xs & E & G); [apply Forall_forall; intros y J; now apply I|]. rewrite Forall_forall in G.
  exists xs. split; [|split].
  - apply (NoDup_map_inv (fun x => x / 2 ^ 32)). now rewrite E.
  - intro x. split; [apply G|]. intros (Hx & Ex).
    assert (J : In (x / 2 ^ 32) l). { apply I. split; [apply Z.div_pos; lia|]. apply Z.div_lt_upper_bound; lia. }
    rewrite <- E in J. apply in_map_iff in J as (x' & D & J). destruct (G x' J) as (Hx' & Ex').
    destruct (C105_patch P c [] (le_bytes k (x / 2 ^ 32)) t HP Hc ltac:(constructor) ltac:(apply le_bytes_byte) Ht) as (z & _ & U).
    assert (S : forall w, 0 <= w < 2 ^ 32 * 256 ^ Z.of_nat k -> w / 2 ^ 32 = x / 2 ^ 32 -> crc32_8 P c (le_bytes (4 + k) w) = Ok t -> z = w mod 2 ^ 32).
    { intros w Hw Dw Ew. pose proof (Z.mod_pos_bound w (2 ^ 32) ltac:(lia)) as Rw. apply U. split; [assumption|]. cbn [app]. rewrite <- le_bytes_app by exact Rw.
      rewrite <- Ew. do 2 f_equal. rewrite <- Dw. change (256 ^ Z.of_nat 4) with (2 ^ 32). pose proof (Z.div_mod w (2 ^ 32) ltac:(lia)). lia. }
    pose proof (S x Hx eq_refl Ex). pose proof (S x' Hx' D Ex'). replace x with x'; [assumption|].
    rewrite (Z.div_mod x (2 ^ 32)), (Z.div_mod x' (2 ^ 32)), D by lia. lia.
  - rewrite <- L, <- E, map_length. reflexivity.
Qed.
Print Assumptions C105_balanced.

(** Concrete cases: "abc" and its checksum; the last four bytes of a message with checksum 0; two pairs of messages with the same difference. *)
Example C105_case : crc32_8 crc32c_poly 0 [97; 98; 99] = Ok 0x364b3fb7 /\ le_bytes 4 0x364b3fb7 = [0xb7; 0x3f; 0x4b; 0x36] /\
  crc32_8 crc32c_poly 0 [97; 98; 99; 0xb7; 0x3f; 0x4b; 0x36] = Ok 0x48674bc7 /\ xor_bytes [97; 98] [96; 106] = xor_bytes [1; 8] [0; 0].
Proof. vm_compute. auto. Qed.
