(** C11-C15: crc32 and fnv1a. *)
From Verif Require Import Base Bits Hash_Model Hash_Spec Hash_Proofs.
Local Open Scope Z_scope.

(** C11: each overload is the bit-at-a-time CRC of the little-endian byte stream, with no access
    outside the tables. *)
Theorem C11_crc32_bytes : forall P c p, 0 <= P < 2 ^ 32 -> 0 <= c < 2 ^ 32 -> Forall is_byte p ->
  crc32_8 P c p = Ok (crc32_spec P c p).
Proof.
  intros P c p HP Hc F. unfold crc32_8.
  rewrite (crc32_w_ok P HP (step8 P) 1 is_byte c p (fun v q => step8_ok P HP v q)) by auto.
  now rewrite flat_bytes.
Qed.
Print Assumptions C11_crc32_bytes.

Theorem C11_crc32_words32 : forall P c p, 0 <= P < 2 ^ 32 -> 0 <= c < 2 ^ 32 ->
  Forall (fun q => 0 <= q < 2 ^ 32) p ->
  crc32_32 P c p = Ok (crc32_spec P c (flat_map (le_bytes 4) p)).
Proof.
  intros P c p HP Hc F. unfold crc32_32.
  apply (crc32_w_ok P HP (step32 P) 4 (fun q => 0 <= q < 2 ^ 32) c p (fun v q => step32_ok P HP v q)); auto.
Qed.
Print Assumptions C11_crc32_words32.

Theorem C11_crc32_words64 : forall P c p, 0 <= P < 2 ^ 32 -> 0 <= c < 2 ^ 32 ->
  Forall (fun q => 0 <= q < 2 ^ 64) p ->
  crc32_64 P c p = Ok (crc32_spec P c (flat_map (le_bytes 8) p)).
Proof.
  intros P c p HP Hc F. unfold crc32_64.
  apply (crc32_w_ok P HP (step64 P) 8 (fun q => 0 <= q < 2 ^ 64) c p (fun v q => step64_ok P HP v q)); auto.
Qed.
Print Assumptions C11_crc32_words64.

(** crc32c of a string literal: the CRC of its characters (as bytes, whatever the signedness of
    char) with the reflected Castagnoli polynomial
    x^32+x^28+x^27+x^26+x^25+x^23+x^22+x^20+x^19+x^18+x^14+x^13+x^11+x^10+x^9+x^8+x^6+1:
    the coefficient of x^(31-i) is bit i. *)
Definition castagnoli : Z :=
  fold_right Z.add 0 (map (fun e => 2 ^ (31 - e)) [28;27;26;25;23;22;20;19;18;14;13;11;10;9;8;6;0]).

Theorem C11_crc32c : forall chars nul,
  crc32c (chars ++ [nul]) = Ok (crc32_spec castagnoli 0 (map (fun ch => ch mod 256) chars)).
Proof.
  intros chars nul.
  assert (E : castagnoli = crc32c_poly) by reflexivity.
  assert (F : Forall is_byte (map (fun ch => ch mod 256) chars)).
  { apply Forall_map, Forall_forall. intros x _. apply Z.mod_pos_bound. lia. }
  pose proof (C11_crc32_bytes crc32c_poly 0 _ ltac:(unfold crc32c_poly; lia) ltac:(lia) F) as H.
  rewrite <- E in H. rewrite <- H. unfold crc32c, crc32_8. rewrite removelast_last, E.
  change (map u8 chars) with (map (fun ch => ch mod 256) chars).
  destruct (chars ++ [nul]) eqn:X; [destruct chars; discriminate | reflexivity].
Qed.
Print Assumptions C11_crc32c.

(** Check value of CRC-32C on "123456789", from the literature: 0xE3069283. *)
Example C11_check : crc32_8 crc32c_poly 0 [49;50;51;52;53;54;55;56;57] = Ok 3808858755.
Proof. vm_compute. reflexivity. Qed.

(** C12: continuing from the crc of a prefix. *)
Lemma spec_incremental P c a b : 0 <= P < 2 ^ 32 -> 0 <= c < 2 ^ 32 ->
  crc32_spec P (crc32_spec P c a) b = crc32_spec P c (a ++ b).
Proof.
  intros HP Hc. unfold crc32_spec. rewrite bit_stream_app, fold_left_app.
  do 2 f_equal. unfold invert32. lia.
Qed.

Lemma spec_range P c a : 0 <= P < 2 ^ 32 -> 0 <= c < 2 ^ 32 -> 0 <= crc32_spec P c a < 2 ^ 32.
Proof. intros HP Hc. unfold crc32_spec. now apply invert_range, crc_bits_range, invert_range. Qed.

Theorem C12_crc32_incremental_bytes : forall P c a b, 0 <= P < 2 ^ 32 -> 0 <= c < 2 ^ 32 ->
  Forall is_byte a -> Forall is_byte b ->
  (c' <- crc32_8 P c a ;; crc32_8 P c' b) = crc32_8 P c (a ++ b).
Proof.
  intros P c a b HP Hc Fa Fb. rewrite !C11_crc32_bytes; auto; [|apply Forall_app; auto]. cbn [bind].
  rewrite C11_crc32_bytes; auto using spec_range. now rewrite spec_incremental.
Qed.
Print Assumptions C12_crc32_incremental_bytes.

Theorem C12_crc32_incremental_words32 : forall P c a b, 0 <= P < 2 ^ 32 -> 0 <= c < 2 ^ 32 ->
  Forall (fun q => 0 <= q < 2 ^ 32) a -> Forall (fun q => 0 <= q < 2 ^ 32) b ->
  (c' <- crc32_32 P c a ;; crc32_32 P c' b) = crc32_32 P c (a ++ b).
Proof.
  intros P c a b HP Hc Fa Fb. rewrite !C11_crc32_words32; auto; [|apply Forall_app; auto]. cbn [bind].
  rewrite C11_crc32_words32; auto using spec_range. rewrite spec_incremental, flat_map_app by auto. reflexivity.
Qed.
Print Assumptions C12_crc32_incremental_words32.

Theorem C12_crc32_incremental_words64 : forall P c a b, 0 <= P < 2 ^ 32 -> 0 <= c < 2 ^ 32 ->
  Forall (fun q => 0 <= q < 2 ^ 64) a -> Forall (fun q => 0 <= q < 2 ^ 64) b ->
  (c' <- crc32_64 P c a ;; crc32_64 P c' b) = crc32_64 P c (a ++ b).
Proof.
  intros P c a b HP Hc Fa Fb. rewrite !C11_crc32_words64; auto; [|apply Forall_app; auto]. cbn [bind].
  rewrite C11_crc32_words64; auto using spec_range. rewrite spec_incremental, flat_map_app by auto. reflexivity.
Qed.
Print Assumptions C12_crc32_incremental_words64.

(** The widths can be mixed: hashing words then bytes is hashing all the bytes. *)
Theorem C12_crc32_mixed : forall P c a b, 0 <= P < 2 ^ 32 -> 0 <= c < 2 ^ 32 ->
  Forall (fun q => 0 <= q < 2 ^ 64) a -> Forall is_byte b ->
  (c' <- crc32_64 P c a ;; crc32_8 P c' b) = crc32_8 P c (flat_map (le_bytes 8) a ++ b).
Proof.
  intros P c a b HP Hc Fa Fb. rewrite C11_crc32_words64 by auto. cbn [bind].
  assert (Forall is_byte (flat_map (le_bytes 8) a)).
  { apply Forall_flat_map, Forall_forall. intros x _. generalize 8%nat. intro n. revert x.
    induction n; intro x; cbn [le_bytes]; constructor; auto. apply Z.mod_pos_bound. lia. }
  rewrite !C11_crc32_bytes; auto using spec_range; [|apply Forall_app; auto]. now rewrite spec_incremental.
Qed.
Print Assumptions C12_crc32_mixed.

Example C12_example : (c' <- crc32_8 crc32c_poly 0 [49;50;51;52] ;; crc32_8 crc32c_poly c' [53;54;55;56;57]) = Ok 3808858755.
Proof. vm_compute. reflexivity. Qed.

(** C13: messages whose bit streams agree outside one window of at most 32 bits, and differ in it,
    have different crcs. *)
Theorem C13_crc32_burst : forall P c m1 m2 pre x y suf, 2 ^ 31 <= P < 2 ^ 32 -> 0 <= c < 2 ^ 32 ->
  Forall is_byte m1 -> Forall is_byte m2 ->
  bit_stream m1 = pre ++ x ++ suf -> bit_stream m2 = pre ++ y ++ suf ->
  length x = length y -> (length x <= 32)%nat -> x <> y ->
  exists v1 v2, crc32_8 P c m1 = Ok v1 /\ crc32_8 P c m2 = Ok v2 /\ v1 <> v2.
Proof.
  intros P c m1 m2 pre x y suf HP Hc F1 F2 E1 E2 L H N.
  assert (HP' : 0 <= P < 2 ^ 32) by lia.
  exists (crc32_spec P c m1), (crc32_spec P c m2).
  repeat split; [now apply C11_crc32_bytes | now apply C11_crc32_bytes |].
  unfold crc32_spec, invert32. rewrite E1, E2, !(fold_left_app _ pre). intro E.
  apply (burst P HP' ltac:(lia) x y (fold_left (crc_bit P) pre (2 ^ 32 - 1 - c)) suf L H N).
  - apply crc_bits_range; lia.
  - lia.
Qed.
Print Assumptions C13_crc32_burst.

(** In particular for crc32c_t, and for a single changed byte. *)
Theorem C13_crc32c_one_byte : forall c a x y b, 0 <= c < 2 ^ 32 -> Forall is_byte a -> Forall is_byte b ->
  is_byte x -> is_byte y -> x <> y ->
  exists v1 v2, crc32_8 crc32c_poly c (a ++ x :: b) = Ok v1 /\ crc32_8 crc32c_poly c (a ++ y :: b) = Ok v2 /\ v1 <> v2.
Proof.
  intros c a x y b Hc Fa Fb Hx Hy N.
  apply (C13_crc32_burst crc32c_poly c _ _ (bit_stream a) (bits 8 x) (bits 8 y) (bit_stream b)); auto.
  - unfold crc32c_poly; lia.
  - apply Forall_app; auto.
  - apply Forall_app; auto.
  - rewrite bit_stream_app. reflexivity.
  - rewrite bit_stream_app. reflexivity.
  - rewrite bits_length. lia.
  - intro E. apply (f_equal pack) in E. rewrite !pack_bits in E. change (2 ^ Z.of_nat 8) with 256 in E.
    unfold is_byte in *. rewrite !Z.mod_small in E; lia.
Qed.
Print Assumptions C13_crc32c_one_byte.

(** Non-vacuity of the burst theorem: two 6-byte messages differing in a 31-bit window. *)
Example C13_example :
  bit_stream [1;2;3;4;5;6] = bit_stream [1] ++ (bits 32 84148994) ++ bit_stream [6] /\
  bit_stream [1;3;3;4;69;6] = bit_stream [1] ++ (bits 32 1157890819) ++ bit_stream [6] /\
  bits 32 84148994 <> bits 32 1157890819 /\
  crc32_8 crc32c_poly 0 [1;2;3;4;5;6] <> crc32_8 crc32c_poly 0 [1;3;3;4;69;6].
Proof. vm_compute. repeat split; congruence. Qed.

(** The condition on the polynomial is needed. *)
Theorem C13_polynomial_condition_needed_refuted : exists P m1 m2,
  0 <= P < 2 ^ 31 /\ Forall is_byte m1 /\ Forall is_byte m2 /\ m1 <> m2 /\ length m1 = length m2 /\
  crc32_8 P 0 m1 = crc32_8 P 0 m2.
Proof.
  exists 0, [0; 0; 0; 0; 0], [1; 0; 0; 0; 0]. repeat split; try lia; try (repeat constructor; unfold is_byte; lia).
  discriminate.
Qed.
Print Assumptions C13_polynomial_condition_needed_refuted.

(** C14: fnv1a is FNV-1a, with the published primes, of the little-endian bytes of its elements.
    Elements may be given as signed or unsigned integers of sz bytes. *)
Theorem C14_fnv1a32_bytes : forall sz data basis, (1 <= sz)%nat ->
  fnv1a 32 sz data basis = fnv1a_spec 32 FNV32_prime (flat_map (le_bytes sz) data) basis.
Proof. intros. now rewrite fnv1a_ok. Qed.
Print Assumptions C14_fnv1a32_bytes.

Theorem C14_fnv1a64_bytes : forall sz data basis, (1 <= sz)%nat ->
  fnv1a 64 sz data basis = fnv1a_spec 64 FNV64_prime (flat_map (le_bytes sz) data) basis.
Proof. intros. now rewrite fnv1a_ok. Qed.
Print Assumptions C14_fnv1a64_bytes.

(** Signedness does not matter: congruent elements have the same bytes. *)
Theorem C14_signedness : forall w sz v v' basis, (1 <= sz)%nat ->
  v mod 2 ^ (8 * Z.of_nat sz) = v' mod 2 ^ (8 * Z.of_nat sz) ->
  fnv1a w sz [v] basis = fnv1a w sz [v'] basis.
Proof.
  intros w sz v v' basis Hs H. rewrite !fnv1a_ok by auto. f_equal. cbn [flat_map]. f_equal.
  clear Hs basis w. revert v v' H. induction sz; intros v v' H; [reflexivity|].
  assert (E8 : 2 ^ (8 * Z.of_nat (S sz)) = 256 * 2 ^ (8 * Z.of_nat sz)).
  { replace (8 * Z.of_nat (S sz)) with (8 + 8 * Z.of_nat sz) by lia. rewrite Z.pow_add_r by lia. reflexivity. }
  rewrite E8, !Z.rem_mul_r in H by lia.
  pose proof (Z.mod_pos_bound v 256 ltac:(lia)). pose proof (Z.mod_pos_bound v' 256 ltac:(lia)).
  cbn [le_bytes]. f_equal; [lia|]. apply IHsz. lia.
Qed.
Print Assumptions C14_signedness.

Theorem C14_concat : forall w sz a b basis, fnv1a w sz (a ++ b) basis = fnv1a w sz b (fnv1a w sz a basis).
Proof. intros w sz a b. induction a; intro basis; cbn; auto. Qed.
Print Assumptions C14_concat.

(** The default bases are the published ones. *)
Theorem C14_bases : fnv1a32 1 [] = 2166136261 /\ fnv1a64 1 [] = 14695981039346656037.
Proof. split; reflexivity. Qed.
Print Assumptions C14_bases.

Theorem C14_c_string : forall chars rest, Forall (fun c => c <> 0) chars ->
  fnv1a_str (chars ++ 0 :: rest) = Ok (fnv1a32 1 chars).
Proof.
  intros chars rest. unfold fnv1a_str, fnv1a32. generalize (fnv_basis 32).
  induction chars as [|c chars IH]; intros h F; [reflexivity|]. inversion F; subst.
  cbn [app fnv1a_str_loop fnv1a fnv_more Nat.sub]. destruct (Z.eqb_spec c 0); [contradiction|]. now apply IH.
Qed.
Print Assumptions C14_c_string.

(** The forms without a basis start from the published ones. *)
Theorem C14_default_basis : forall sz data, (1 <= sz)%nat ->
  fnv1a32 sz data = fnv1a_spec 32 FNV32_prime (flat_map (le_bytes sz) data) 0x811C9DC5 /\
  fnv1a64 sz data = fnv1a_spec 64 FNV64_prime (flat_map (le_bytes sz) data) 0xCBF29CE484222325.
Proof. intros sz data H. split; [exact (C14_fnv1a32_bytes sz data _ H)|exact (C14_fnv1a64_bytes sz data _ H)]. Qed.
Print Assumptions C14_default_basis.

(** FNV-1a-32 of "a" is 0xe40c292c, of "foobar" 0xbf9cf968. *)
Example C14_example : fnv1a_str [97; 0] = Ok 3826002220 /\ fnv1a_str [102;111;111;98;97;114;0] = Ok 3214735720 /\
  fnv1a32 2 [-2] = fnv1a32 1 [254; 255].
Proof. vm_compute. repeat split. Qed.

(** C15: a one-byte change always changes the hash; so does a change of basis. *)
Theorem C15_fnv1a_one_byte : forall w a x y b basis, w = 32 \/ w = 64 -> 0 <= basis < 2 ^ w ->
  Forall is_byte a -> Forall is_byte b -> is_byte x -> is_byte y -> x <> y ->
  fnv1a w 1 (a ++ x :: b) basis <> fnv1a w 1 (a ++ y :: b) basis.
Proof.
  intros w a x y b basis Hw Hbs Fa Fb Hx Hy N.
  assert (8 <= w) by (destruct Hw; subst; lia).
  assert (Z.odd (fnv_prime w) = true) by (destruct Hw; subst; reflexivity).
  rewrite !fnv1a_ok, !flat_bytes by (try lia; apply Forall_app; auto). unfold fnv1a_spec. rewrite !fold_left_app.
  cbn [fold_left]. fold (fnv1a_spec w (fnv_prime w) a basis).
  set (h := fnv1a_spec w (fnv_prime w) a basis).
  assert (Hh : 0 <= h < 2 ^ w) by (apply fnv_range; auto; lia).
  intro E. apply fnv_basis_inj in E; auto; try (apply fnv_step_range; lia).
  apply fnv_step_inj in E; auto. apply lxor_cancel_l in E. contradiction.
Qed.
Print Assumptions C15_fnv1a_one_byte.

Theorem C15_fnv1a_basis_injective : forall w data h h', w = 32 \/ w = 64 ->
  0 <= h < 2 ^ w -> 0 <= h' < 2 ^ w -> Forall is_byte data ->
  h <> h' -> fnv1a w 1 data h <> fnv1a w 1 data h'.
Proof.
  intros w data h h' Hw Hh Hh' F N E.
  assert (8 <= w) by (destruct Hw; subst; lia).
  assert (Z.odd (fnv_prime w) = true) by (destruct Hw; subst; reflexivity).
  rewrite !fnv1a_ok, !flat_bytes in E by (auto; lia). apply fnv_basis_inj in E; auto.
Qed.
Print Assumptions C15_fnv1a_basis_injective.

Example C15_example : fnv1a 32 1 [1; 2; 3] (fnv_basis 32) <> fnv1a 32 1 [1; 7; 3] (fnv_basis 32).
Proof. vm_compute. discriminate. Qed.
