(** C102: crc32c detects every error of one, two or three bits in messages of up to 2^28 - 1 bytes, and every error of an odd number of bits. *)
From Verif Require Import Base Bits Hash_Model Hash_Spec Hash_Proofs Hash_Props Random_Proofs Crc_Spec Crc_Proofs.
Local Open Scope Z_scope.

Lemma stream_lengths a b : length a = length b -> length (bit_stream a) = length (bit_stream b).
Proof. intro L. now rewrite !bit_stream_length, L. Qed.
Lemma spec_feed P c m1 m2 : crc32_spec P c m1 = crc32_spec P c m2 <-> fold_left (crc_bit P) (bit_stream m1) (invert32 c) = fold_left (crc_bit P) (bit_stream m2) (invert32 c).
Proof. unfold crc32_spec, invert32. split; intro E; [lia|now rewrite E]. Qed.

(** Odd numbers of errors, for every polynomial with an even number of terms (a multiple of x + 1; the term x^32 is not in P). *)
Theorem C102_odd : forall P c m1 m2, 0 <= P < 2 ^ 32 -> Nat.odd (weight 32 P) = true -> 0 <= c < 2 ^ 32 -> Forall is_byte m1 -> Forall is_byte m2 ->
  length m1 = length m2 -> Nat.odd (differences (bit_stream m1) (bit_stream m2)) = true ->
  exists v1 v2, crc32_8 P c m1 = Ok v1 /\ crc32_8 P c m2 = Ok v2 /\ v1 <> v2.
Proof.
  intros P c m1 m2 HP HW Hc F1 F2 L O. exists (crc32_spec P c m1), (crc32_spec P c m2). split; [now apply C11_crc32_bytes|]. split; [now apply C11_crc32_bytes|]. rewrite spec_feed.
  apply odd_detected; auto using invert_range, stream_lengths.
Qed.
Print Assumptions C102_odd.

(** The polynomial of crc32c is one of these. *)
Theorem C102_odd_crc32c : Nat.odd (weight 32 crc32c_poly) = true.
Proof. reflexivity. Qed.
Print Assumptions C102_odd_crc32c.

(** Two errors: exactly when the distance of the two bits is a multiple of 2^31 - 1 does crc32c not see them. *)
Theorem C102_two : forall c m1 m2 a x b y s, 0 <= c < 2 ^ 32 -> Forall is_byte m1 -> Forall is_byte m2 ->
  bit_stream m1 = a ++ x :: b ++ y :: s -> bit_stream m2 = a ++ negb x :: b ++ negb y :: s ->
  exists v1 v2, crc32_8 crc32c_poly c m1 = Ok v1 /\ crc32_8 crc32c_poly c m2 = Ok v2 /\ (v1 = v2 <-> (2 ^ 31 - 1 | Z.of_nat (length b) + 1)).
Proof.
  intros c m1 m2 a x b y s Hc F1 F2 E1 E2. assert (HP : 0 <= crc32c_poly < 2 ^ 32) by (unfold crc32c_poly; lia). exists (crc32_spec crc32c_poly c m1), (crc32_spec crc32c_poly c m2).
  split; [now apply C11_crc32_bytes|]. split; [now apply C11_crc32_bytes|]. rewrite spec_feed, E1, E2. rewrite two_bits; [|assumption|unfold crc32c_poly; lia|now apply invert_range]. rewrite crc32c_order. unfold mersenne.
  replace (Z.of_nat (S (length b))) with (Z.of_nat (length b) + 1) by lia. reflexivity.
Qed.
Print Assumptions C102_two.

(** One to three errors anywhere in a message of fewer than 2^28 bytes. *)
Lemma three_spec c m1 m2 : 0 <= c < 2 ^ 32 -> length m1 = length m2 -> Z.of_nat (length m1) < 2 ^ 28 ->
  (1 <= differences (bit_stream m1) (bit_stream m2) <= 3)%nat -> crc32_spec crc32c_poly c m1 <> crc32_spec crc32c_poly c m2.
Proof.
  intros Hc L B D. assert (HP : 0 <= crc32c_poly < 2 ^ 32) by (unfold crc32c_poly; lia). pose proof (stream_lengths m1 m2 L) as Ls. rewrite spec_feed. destruct (Nat.odd (differences (bit_stream m1) (bit_stream m2))) eqn:O.
  - apply odd_detected; auto using invert_range.
  - assert (D2 : differences (bit_stream m1) (bit_stream m2) = 2%nat). { destruct (differences (bit_stream m1) (bit_stream m2)) as [|[|[|[|n]]]]; try discriminate O; lia. }
    destruct (differences_S _ _ _ Ls D2) as (a & x & r & t & E1 & E2 & Lr & D1). destruct (differences_S _ _ _ Lr D1) as (b & y & s & s' & -> & -> & L3 & D0). apply differences_0 in D0; [subst s'|assumption].
    rewrite E1, E2. rewrite two_bits; [|assumption|unfold crc32c_poly; lia|now apply invert_range]. rewrite crc32c_order. intro K. apply Z.divide_pos_le in K; [|lia]. apply (f_equal (@length bool)) in E1. rewrite bit_stream_length, !app_length in E1. cbn [length] in E1. rewrite app_length in E1. cbn [length] in E1. unfold mersenne in K. lia.
Qed.
Theorem C102_three : forall c m1 m2, 0 <= c < 2 ^ 32 -> Forall is_byte m1 -> Forall is_byte m2 -> length m1 = length m2 -> Z.of_nat (length m1) < 2 ^ 28 ->
  (1 <= differences (bit_stream m1) (bit_stream m2) <= 3)%nat ->
  exists v1 v2, crc32_8 crc32c_poly c m1 = Ok v1 /\ crc32_8 crc32c_poly c m2 = Ok v2 /\ v1 <> v2.
Proof.
  intros c m1 m2 Hc F1 F2 L B D. assert (HP : 0 <= crc32c_poly < 2 ^ 32) by (unfold crc32c_poly; lia). exists (crc32_spec crc32c_poly c m1), (crc32_spec crc32c_poly c m2). split; [now apply C11_crc32_bytes|]. split; [now apply C11_crc32_bytes|]. now apply three_spec.
Qed.
Print Assumptions C102_three.

(** The overloads for 32 and 64 bit words, on their bytes in little-endian order; and string literals. *)
Lemma flat_length sz p : length (flat_map (le_bytes sz) p) = (sz * length p)%nat.
Proof. induction p as [|x p IH]; cbn [flat_map length]; [lia|]. rewrite app_length, le_bytes_length, IH. lia. Qed.
Theorem C102_three_words32 : forall c p1 p2, 0 <= c < 2 ^ 32 -> Forall (fun q => 0 <= q < 2 ^ 32) p1 -> Forall (fun q => 0 <= q < 2 ^ 32) p2 -> length p1 = length p2 -> 4 * Z.of_nat (length p1) < 2 ^ 28 ->
  (1 <= differences (bit_stream (flat_map (le_bytes 4) p1)) (bit_stream (flat_map (le_bytes 4) p2)) <= 3)%nat ->
  exists v1 v2, crc32_32 crc32c_poly c p1 = Ok v1 /\ crc32_32 crc32c_poly c p2 = Ok v2 /\ v1 <> v2.
Proof.
  intros c p1 p2 Hc F1 F2 L B D. assert (HP : 0 <= crc32c_poly < 2 ^ 32) by (unfold crc32c_poly; lia). eexists _, _. split; [now apply C11_crc32_words32|]. split; [now apply C11_crc32_words32|]. apply three_spec; auto; rewrite !flat_length; [now rewrite L|lia].
Qed.
Print Assumptions C102_three_words32.
Theorem C102_three_words64 : forall c p1 p2, 0 <= c < 2 ^ 32 -> Forall (fun q => 0 <= q < 2 ^ 64) p1 -> Forall (fun q => 0 <= q < 2 ^ 64) p2 -> length p1 = length p2 -> 8 * Z.of_nat (length p1) < 2 ^ 28 ->
  (1 <= differences (bit_stream (flat_map (le_bytes 8) p1)) (bit_stream (flat_map (le_bytes 8) p2)) <= 3)%nat ->
  exists v1 v2, crc32_64 crc32c_poly c p1 = Ok v1 /\ crc32_64 crc32c_poly c p2 = Ok v2 /\ v1 <> v2.
Proof.
  intros c p1 p2 Hc F1 F2 L B D. assert (HP : 0 <= crc32c_poly < 2 ^ 32) by (unfold crc32c_poly; lia). eexists _, _. split; [now apply C11_crc32_words64|]. split; [now apply C11_crc32_words64|]. apply three_spec; auto; rewrite !flat_length; [now rewrite L|lia].
Qed.
Print Assumptions C102_three_words64.
Theorem C102_three_text : forall (s1 s2 : list Z) (n1 n2 : Z), length s1 = length s2 -> Z.of_nat (length s1) < 2 ^ 28 ->
  (1 <= Z.of_nat (differences (bit_stream (map (fun ch => ch mod 256) s1)) (bit_stream (map (fun ch => ch mod 256) s2))) <= 3) ->
  exists v1 v2, crc32c (s1 ++ [n1]) = Ok v1 /\ crc32c (s2 ++ [n2]) = Ok v2 /\ v1 <> v2.
Proof.
  intros s1 s2 n1 n2 L B D. eexists _, _. split; [apply C11_crc32c|]. split; [apply C11_crc32c|]. change castagnoli with crc32c_poly. apply three_spec; rewrite ?map_length; auto; lia.
Qed.
Print Assumptions C102_three_text.

(** The bound is sharp: there are two messages of 2^28 bytes that differ in two bits and have the same crc. *)
Lemma stream_zeros n : bit_stream (repeat 0 n) = repeat false (8 * n).
Proof. induction n as [|n IH]; [reflexivity|]. replace (8 * S n)%nat with (8 + 8 * n)%nat by lia. rewrite repeat_app, <- IH. reflexivity. Qed.
Lemma differences_same a : differences a a = 0%nat.
Proof. induction a as [|x a IH]; [reflexivity|]. cbn [differences]. now rewrite Bool.eqb_reflx. Qed.
Lemma differences_app a : forall b s t, length a = length b -> differences (a ++ s) (b ++ t) = (differences a b + differences s t)%nat.
Proof. induction a as [|x a IH]; intros [|y b] s t L; try discriminate L; [reflexivity|]. injection L as L. cbn [app differences]. rewrite IH by assumption. lia. Qed.
Theorem C102_sharp : exists m1 m2, Forall is_byte m1 /\ Forall is_byte m2 /\ length m1 = length m2 /\ Z.of_nat (length m1) = 2 ^ 28 /\ differences (bit_stream m1) (bit_stream m2) = 2%nat /\
  exists v, crc32_8 crc32c_poly 0 m1 = Ok v /\ crc32_8 crc32c_poly 0 m2 = Ok v.
Proof.
  assert (Hn : exists n, Z.of_nat n = 2 ^ 28 - 2) by (exists (Z.to_nat (2 ^ 28 - 2)); lia). destruct Hn as (n & Hn).
  assert (F0 : forall k, Forall is_byte (repeat 0 k)) by (intro k; apply Forall_forall; intros z Hz; apply repeat_spec in Hz; subst; unfold is_byte; lia).
  set (m1 := [0] ++ repeat 0 n ++ [0]). set (m2 := [1] ++ repeat 0 n ++ [128]).
  assert (F1 : Forall is_byte m1) by (apply Forall_app; split; [|apply Forall_app; split; auto]; constructor; auto; unfold is_byte; lia).
  assert (F2 : Forall is_byte m2) by (apply Forall_app; split; [|apply Forall_app; split; auto]; constructor; auto; unfold is_byte; lia).
  assert (E1 : bit_stream m1 = [] ++ false :: (repeat false 7 ++ repeat false (8 * n) ++ repeat false 7) ++ false :: []) by (unfold m1; rewrite !bit_stream_app, stream_zeros; cbn [app]; rewrite <- !app_assoc; reflexivity).
  assert (E2 : bit_stream m2 = [] ++ negb false :: (repeat false 7 ++ repeat false (8 * n) ++ repeat false 7) ++ negb false :: []) by (unfold m2; rewrite !bit_stream_app, stream_zeros; cbn [app]; rewrite <- !app_assoc; reflexivity).
  exists m1, m2. split; [assumption|]. split; [assumption|]. split; [unfold m1, m2; now rewrite !app_length|]. split; [unfold m1; rewrite !app_length, repeat_length; cbn [length]; lia|]. split.
  - rewrite E1, E2. cbn [app differences negb Bool.eqb]. rewrite differences_app by reflexivity. rewrite differences_same. reflexivity.
  - destruct (C102_two 0 m1 m2 _ _ _ _ _ ltac:(lia) F1 F2 E1 E2) as (v1 & v2 & V1 & V2 & K). exists v1. split; [assumption|]. rewrite V2. f_equal. symmetry. apply K. exists 1. rewrite !app_length, !repeat_length. lia.
Qed.
Print Assumptions C102_sharp.

(** Concrete cases: "abc" with three flipped bits, and two messages with an odd number of differences. *)
Example C102_nonvacuous : exists v1 v2, crc32_8 crc32c_poly 0 [97; 98; 99] = Ok v1 /\ crc32_8 crc32c_poly 0 [96; 99; 227] = Ok v2 /\ v1 <> v2 /\ differences (bit_stream [97; 98; 99]) (bit_stream [96; 99; 227]) = 3%nat.
Proof. eexists _, _. split; [vm_compute; reflexivity|]. split; [vm_compute; reflexivity|]. split; [discriminate|reflexivity]. Qed.
Example C102_nonvacuous_two : bit_stream [97; 98] = [] ++ true :: [false; false; false; false; true; true; false; false; true; false] ++ false :: [false; true; true; false] /\
  bit_stream [96; 106] = [] ++ negb true :: [false; false; false; false; true; true; false; false; true; false] ++ negb false :: [false; true; true; false].
Proof. split; reflexivity. Qed.
