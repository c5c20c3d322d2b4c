(** Lemmas behind Random_Props.v: seeding, pcg32, ranges and counts. *)
From Coq Require Import Znumtheory.
From Verif Require Import Base Bits Orbit Hash_Model Hash_Spec Hash_Proofs Hash_Props Random_Model Random_Spec.
Local Open Scope Z_scope.

Lemma lxor_twice a b : Z.lxor a (Z.lxor a b) = b.
Proof. now rewrite <- Z.lxor_assoc, Z.lxor_nilpotent, Z.lxor_0_l. Qed.

(** * Seeding xoroshiro64ss *)
Notation P := crc32c_poly.
Lemma P_range : 0 <= P < 2 ^ 32. Proof. unfold P. lia. Qed.
Lemma P_top : 2 ^ 31 <= P. Proof. unfold P. lia. Qed.

Lemma bit_stream_length p : length (bit_stream p) = (8 * length p)%nat.
Proof.
  induction p as [|x p IH]; [reflexivity|].
  change (bit_stream (x :: p)) with (bits 8 x ++ bit_stream p).
  rewrite app_length, IH, bits_length. cbn [length]. lia.
Qed.

Lemma crc_zero_iff v p : 0 <= v < 2 ^ 32 ->
  fold_left (crc_bit P) (bit_stream p) v = it P (8 * length p) (Z.lxor v (pack (bit_stream p))).
Proof. intros. rewrite (feed P P_range). now rewrite bit_stream_length. Qed.

(** The preimages of the all-ones register by one, two, three and four zero bytes. *)
Lemma pre1 : it P 8 2839733948 = 2 ^ 32 - 1. Proof. vm_compute. reflexivity. Qed.
Lemma pre2 : it P 16 671364667 = 2 ^ 32 - 1. Proof. vm_compute. reflexivity. Qed.
Lemma pre3 : it P 24 2530955944 = 2 ^ 32 - 1. Proof. vm_compute. reflexivity. Qed.
Lemma pre4 : it P 32 1679778900 = 2 ^ 32 - 1. Proof. vm_compute. reflexivity. Qed.

Lemma spec_zero p : crc32_spec P 0 p = 0 <->
  it P (8 * length p) (Z.lxor (2 ^ 32 - 1) (pack (bit_stream p))) = 2 ^ 32 - 1.
Proof.
  unfold crc32_spec, invert32. rewrite crc_zero_iff by lia. replace (2 ^ 32 - 1 - 0) with (2 ^ 32 - 1) by lia.
  split; intro; lia.
Qed.

Lemma short_nonzero p : (1 <= length p <= 3)%nat -> crc32_spec P 0 p <> 0.
Proof.
  intros Hl E. apply spec_zero in E.
  pose proof (pack_range (bit_stream p)) as R. rewrite bit_stream_length in R.
  assert (Rm : 2 ^ Z.of_nat (8 * length p) <= 2 ^ 24) by (apply Z.pow_le_mono_r; lia).
  assert (Rx : 0 <= Z.lxor (2 ^ 32 - 1) (pack (bit_stream p)) < 2 ^ 32) by (apply lxor_range; lia).
  assert (Done : forall K, 0 <= K < 2 ^ 32 -> 2 ^ 24 <= Z.lxor (2 ^ 32 - 1) K -> it P (8 * length p) K = 2 ^ 32 - 1 -> False).
  { intros K HK Big EK. pose proof (eq_trans E (eq_sym EK)) as E'. apply (it_inj P P_range P_top) in E'; try lia.
    rewrite <- E' in Big. rewrite lxor_twice in Big. lia. }
  assert (C : length p = 1%nat \/ length p = 2%nat \/ length p = 3%nat) by lia.
  destruct C as [C | [C | C]]; rewrite C in Done.
  - refine (Done _ _ _ pre1); [lia | vm_compute; discriminate].
  - refine (Done _ _ _ pre2); [lia | vm_compute; discriminate].
  - refine (Done _ _ _ pre3); [lia | vm_compute; discriminate].
Qed.

Lemma le_bytes_byte n : forall x, Forall is_byte (le_bytes n x).
Proof.
  induction n as [|n IH]; intro x; cbn [le_bytes]; [constructor|].
  constructor; [|apply IH]. apply Z.mod_pos_bound. lia.
Qed.
Lemma le_bytes_length n : forall x, length (le_bytes n x) = n.
Proof. induction n as [|n IH]; intro x; cbn; auto. Qed.

Lemma long_zero n : (4 <= n)%nat -> exists p, length p = n /\ Forall is_byte p /\ crc32_spec P 0 p = 0.
Proof.
  intro Hn.
  set (z := repeat 0 (n - 4)).
  assert (Fz : Forall is_byte z).
  { apply Forall_forall. intros x Hx. apply repeat_spec in Hx. subst. unfold is_byte. lia. }
  set (v := fold_left (crc_bit P) (bit_stream z) (invert32 0)).
  assert (Hv : 0 <= v < 2 ^ 32) by (apply (crc_bits_range P P_range); unfold invert32; lia).
  exists (z ++ le_bytes 4 (Z.lxor v 1679778900)). split; [|split].
  - rewrite app_length, le_bytes_length. unfold z. rewrite repeat_length. lia.
  - apply Forall_app. split; [exact Fz | apply le_bytes_byte].
  - unfold crc32_spec. rewrite bit_stream_app, fold_left_app. fold v.
    rewrite crc_zero_iff by lia. rewrite le_bytes_length.
    change (bit_stream (le_bytes 4 (Z.lxor v 1679778900))) with (flat_map (bits 8) (le_bytes 4 (Z.lxor v 1679778900))).
    fold (bit_stream (le_bytes 4 (Z.lxor v 1679778900))).
    rewrite le_bytes_bits, pack_bits.
    assert (0 <= Z.lxor v 1679778900 < 2 ^ 32) by (apply lxor_range; lia).
    rewrite Z.mod_small by (change (Z.of_nat (8 * 4)) with 32; lia).
    rewrite lxor_twice. change (8 * 4)%nat with 32%nat. rewrite pre4. reflexivity.
Qed.

Lemma seed64ss_spec data : Forall is_byte data ->
  seed64ss data = Ok (crc32_spec P 0 (firstn (length data / 2) data),
                      crc32_spec P (crc32_spec P 0 (firstn (length data / 2) data)) (skipn (length data / 2) data)).
Proof.
  intro F. unfold seed64ss.
  assert (F1 : Forall is_byte (firstn (length data / 2) data)).
  { rewrite Forall_forall in *. intros x Hx. apply F. rewrite <- (firstn_skipn (length data / 2) data). apply in_or_app. now left. }
  assert (F2 : Forall is_byte (skipn (length data / 2) data)).
  { rewrite Forall_forall in *. intros x Hx. apply F. rewrite <- (firstn_skipn (length data / 2) data). apply in_or_app. now right. }
  pose proof P_range.
  rewrite C11_crc32_bytes by (auto; lia). cbn [bind].
  rewrite C11_crc32_bytes; auto.
  pose proof (crc_bits_range P P_range (bit_stream (firstn (length data / 2) data)) (invert32 0)) as R.
  unfold crc32_spec, invert32 in *. lia.
Qed.

(** * pcg32: the geometric sum *)
Section Geo.
Variable a : Z.
Hypothesis Ha : a mod 4 = 1.
Definition geo (n : N) : Z := N.iter n (fun s => 1 + a * s) 0.

Lemma geo_succ n : geo (N.succ n) = 1 + a * geo n.
Proof. unfold geo. now rewrite N.iter_succ. Qed.
Lemma geo_pow n : a ^ Z.of_N n - 1 = (a - 1) * geo n.
Proof.
  revert n. apply N.peano_ind; [unfold geo; cbn [N.iter Z.of_N]; rewrite Z.pow_0_r; ring|].
  intros n IH. rewrite geo_succ, N2Z.inj_succ, Z.pow_succ_r by lia. nia.
Qed.
Lemma geo_add n m : geo (n + m) = geo n + a ^ Z.of_N n * geo m.
Proof.
  revert n. apply N.peano_ind.
  - rewrite N.add_0_l. unfold geo at 2. cbn [N.iter Z.of_N]. rewrite Z.pow_0_r. ring.
  - intros n IH. rewrite N.add_succ_l, !geo_succ, IH, N2Z.inj_succ, Z.pow_succ_r by lia. ring.
Qed.
Lemma pow_mod4 n : a ^ Z.of_N n mod 4 = 1.
Proof.
  revert n. apply N.peano_ind; [reflexivity|]. intros n IH.
  rewrite N2Z.inj_succ, Z.pow_succ_r by lia. rewrite Z.mul_mod, IH, Ha by lia. reflexivity.
Qed.
Lemma geo_mod2 n : geo n mod 2 = Z.of_N n mod 2.
Proof.
  assert (A : a mod 2 = 1).
  { pose proof (Z.div_mod a 4 ltac:(lia)). rewrite Ha in H. rewrite H. replace (4 * (a / 4) + 1) with (1 + (2 * (a / 4)) * 2) by ring.
    rewrite Z.mod_add by lia. reflexivity. }
  revert n. apply N.peano_ind; [reflexivity|]. intros n IH.
  rewrite geo_succ, N2Z.inj_succ. unfold Z.succ.
  rewrite Z.add_mod, (Z.mul_mod a), A, IH by lia. rewrite Z.mul_1_l, !Z.mod_mod by lia.
  rewrite <- Z.add_mod by lia. f_equal. lia.
Qed.
Lemma geo_double m : geo (2 * m) = geo m * (1 + a ^ Z.of_N m).
Proof. replace (2 * m)%N with (m + m)%N by lia. rewrite geo_add. ring. Qed.

Lemma odd_pow2_rel k x : x mod 2 = 1 -> rel_prime (2 ^ Z.of_nat k) x.
Proof.
  intro Hx. apply rel_prime_sym, Zpow_facts.rel_prime_Zpower_r; [lia|].
  apply rel_prime_sym, prime_rel_prime; [apply prime_2|].
  intros [c Hc]. subst x. rewrite Z.mod_mul in Hx; lia.
Qed.

Lemma geo_divide k : forall n, (2 ^ Z.of_nat k | geo n) <-> (2 ^ Z.of_nat k | Z.of_N n).
Proof.
  induction k as [|k IH]; intro n; [split; intro; apply Z.divide_1_l|].
  rewrite Nat2Z.inj_succ, Z.pow_succ_r by lia.
  assert (Par : forall y, (2 * 2 ^ Z.of_nat k | y) -> y mod 2 = 0).
  { intros y [c ->]. replace (c * (2 * 2 ^ Z.of_nat k)) with (c * 2 ^ Z.of_nat k * 2) by ring. apply Z.mod_mul. lia. }
  destruct (Z.eq_dec (Z.of_N n mod 2) 0) as [E|E].
  - assert (En : n = (2 * (n / 2))%N).
    { pose proof (N.div_mod n 2 ltac:(lia)). assert (n mod 2 = 0)%N by (apply N2Z.inj; rewrite N2Z.inj_mod; exact E). lia. }
    remember (n / 2)%N as m. clear Heqm. subst n. rewrite geo_double, N2Z.inj_mul.
    assert (O : exists o, 1 + a ^ Z.of_N m = 2 * o /\ o mod 2 = 1).
    { pose proof (pow_mod4 m) as M. remember (a ^ Z.of_N m) as A. clear HeqA.
      exists (2 * (A / 4) + 1). split; [pose proof (Z.div_mod A 4); lia|].
      replace (2 * (A / 4) + 1) with (1 + A / 4 * 2) by ring. rewrite Z.mod_add by lia. reflexivity. }
    destruct O as (o & -> & Ho). change (Z.of_N 2) with 2.
    replace (geo m * (2 * o)) with (2 * (o * geo m)) by ring.
    rewrite !Z.mul_divide_cancel_l by lia.
    rewrite <- IH. split.
    + intro D. apply Gauss with o; auto. now apply odd_pow2_rel.
    + intro D. now apply Z.divide_mul_r.
  - split; intro D; exfalso; apply E; [rewrite <- geo_mod2|]; now apply Par.
Qed.
End Geo.

(** * pcg32: full period *)
Definition pa : Z := 6364136223846793005.
Definition pc : Z := 15726070495360670683.

Lemma pcg_iter n x : 0 <= x < 2 ^ 64 -> N.iter n pcg_step x = u64 (pa ^ Z.of_N n * x + pc * geo pa n).
Proof.
  intro Hx. revert n. apply N.peano_ind.
  - cbn [N.iter Z.of_N]. rewrite Z.pow_0_r. unfold geo. cbn [N.iter]. unfold u64.
    rewrite Z.mod_small; lia.
  - intros n IH. rewrite N.iter_succ, IH, geo_succ, N2Z.inj_succ, Z.pow_succ_r by lia.
    unfold pcg_step, u64. fold pa pc. set (A := pa ^ Z.of_N n). set (g := geo pa n). clearbody A g.
    rewrite Z.add_mod_idemp_l, <- Z.add_mod_idemp_l, Z.mul_mod_idemp_r, Z.add_mod_idemp_l by lia.
    f_equal. ring.
Qed.

Lemma pcg_range x : 0 <= pcg_step x < 2 ^ 64.
Proof. apply Z.mod_pos_bound. lia. Qed.

Lemma pcg_fix n x : 0 <= x < 2 ^ 64 -> N.iter n pcg_step x = x <-> (2 ^ 64 | Z.of_N n).
Proof.
  intro Hx. rewrite pcg_iter by auto.
  assert (A4 : pa mod 4 = 1) by reflexivity.
  change 64 with (Z.of_nat 64). rewrite <- (geo_divide pa A4).
  set (g := geo pa n). pose proof (geo_pow pa n) as Hp. fold g in Hp.
  assert (Od : ((pa - 1) * x + pc) mod 2 = 1).
  { replace ((pa - 1) * x + pc) with (pc + ((pa - 1) / 2 * x) * 2).
    - rewrite Z.mod_add by lia. reflexivity.
    - replace (pa - 1) with ((pa - 1) / 2 * 2) at 2 by reflexivity. ring. }
  set (o := (pa - 1) * x + pc) in *.
  assert (E : pa ^ Z.of_N n * x + pc * g = x + o * g) by (unfold o; nia).
  rewrite E. clearbody g o. change (Z.of_nat 64) with 64. unfold u64. split.
  - intro H. apply Gauss with o; [|now apply (odd_pow2_rel 64)].
    apply Z.mod_divide; [lia|].
    replace (o * g) with (x + o * g - x) by ring. rewrite Zminus_mod, H, (Z.mod_small x), Z.sub_diag by lia. reflexivity.
  - intros [c ->]. rewrite Z.mul_assoc, Z.mod_add by lia. now apply Z.mod_small.
Qed.

Lemma pcg_cycle :
  forall s t, 0 <= s < 2 ^ 64 -> 0 <= t < 2 ^ 64 -> exists k, (k < 2 ^ 64)%N /\ N.iter k pcg_step s = t.
Proof.
  assert (Hn : Z.of_N (2 ^ 64)%N = 2 ^ 64) by reflexivity.
  apply (full_cycle pcg_step (2 ^ 64)%N (fun x => x + 1) (fun x => 0 <= x < 2 ^ 64) 0).
  - reflexivity.
  - intro i. rewrite Hn. apply pcg_fix. lia.
  - intro i. revert i. apply N.peano_ind; [change (N.iter 0 pcg_step 0) with 0; lia|].
    intros. rewrite N.iter_succ. apply pcg_range.
  - intros x Hx. rewrite Hn. lia.
  - intros. lia.
Qed.

(** * pcg32: output *)
Lemma pcg_read_ok q : 2 ^ 59 <= q < 2 ^ 64 ->
  exists y, pcg_read q = Ok y /\
    is_ror 32 (Z.lxor (Z.shiftr q 27) (Z.shiftr q 45) mod 2 ^ 32) (q / 2 ^ 59) y.
Proof.
  intro Hq. unfold pcg_read, shr64, shr32, shl32.
  assert (A : 1 <= Z.shiftr q 59 <= 31).
  { rewrite Z.shiftr_div_pow2 by lia. split; [apply Z.div_le_lower_bound | apply Z.lt_succ_r, Z.div_lt_upper_bound]; lia. }
  rewrite <- (Z.shiftr_div_pow2 q 59) by lia.
  remember (Z.shiftr q 59) as a eqn:Ea. clear Ea.
  change ((0 <=? 59) && (59 <? 64)) with true. change ((0 <=? 27) && (27 <? 64)) with true.
  change ((0 <=? 45) && (45 <? 64)) with true. cbn [bind]. unfold u32.
  set (b := Z.lxor (Z.shiftr q 27) (Z.shiftr q 45) mod 2 ^ 32).
  assert (Hb : 0 <= b < 2 ^ 32) by (apply Z.mod_pos_bound; lia). clearbody b.
  replace ((0 <=? a) && (a <? 32)) with true by (symmetry; apply andb_true_iff; split; [apply Z.leb_le | apply Z.ltb_lt]; lia).
  replace ((0 <=? 32 - a) && (32 - a <? 32)) with true by (symmetry; apply andb_true_iff; split; [apply Z.leb_le | apply Z.ltb_lt]; lia).
  cbn [bind]. eexists. split; [reflexivity|]. split.
  - apply lor_range; [lia| |apply Z.mod_pos_bound; lia].
    rewrite Z.shiftr_div_pow2 by lia. split; [apply Z.div_pos; lia|].
    apply Z.le_lt_trans with b; [|lia]. apply Z.div_le_upper_bound; [lia|]. nia.
  - intros i Hi. rewrite Z.lor_spec, Z.shiftr_spec by lia.
    rewrite Z.mod_pow2_bits_low by lia. rewrite Z.shiftl_spec by lia.
    destruct (Z_lt_ge_dec (i + a) 32).
    + rewrite (Z.testbit_neg_r b (i - (32 - a))) by lia. rewrite Z.mod_small by lia. now rewrite Bool.orb_false_r.
    + rewrite (bit_small b 32 (i + a)) by lia. cbn [orb]. f_equal.
      replace (i + a) with (i - (32 - a) + 1 * 32) by ring. rewrite Z.mod_add, Z.mod_small by lia. reflexivity.
Qed.

Lemma pcg_read_ub q : 0 <= q < 2 ^ 59 -> pcg_read q = UB.
Proof.
  intro Hq. unfold pcg_read, shr64, shr32, shl32.
  assert (A : Z.shiftr q 59 = 0) by (rewrite Z.shiftr_div_pow2 by lia; apply Z.div_small; lia).
  rewrite A. reflexivity.
Qed.

(** * Ranged results *)
Section Ranged.
Context {G : Type} (read : G -> res Z) (step : G -> G).

Lemma ranged_eq g n r : read g = Ok r -> next_ranged read step g n = Ok (u32 (Z.shiftr (n * r) 32), step g).
Proof. intro E. unfold next_ranged. now rewrite E. Qed.

Lemma unbiased_eq fuel g n r : read g = Ok r -> 0 <= n ->
  next_unbiased read step fuel g n = Ok (u32 (Z.shiftr (n * r) 32), step g).
Proof.
  intros E Hn. unfold next_unbiased. rewrite E. cbn [bind].
  destruct (Z.ltb_spec (u32 (n * r)) n); [|reflexivity].
  pose proof (Z.mod_pos_bound (n * r) (2 ^ 32) ltac:(lia)) as B. unfold u32 in *.
  replace (n =? 0) with false by (symmetry; apply Z.eqb_neq; lia).
  rewrite Z.mod_same by lia. replace ((0 - 0) mod 2 ^ 32) with 0 by reflexivity.
  destruct fuel; cbn [reject_loop]; unfold u32;
    replace ((n * r) mod 2 ^ 32 <? 0) with false by (symmetry; apply Z.ltb_ge; lia); reflexivity.
Qed.

Lemma mul_hi n r : 0 <= n < 2 ^ 32 -> 0 <= r < 2 ^ 32 ->
  u32 (Z.shiftr (n * r) 32) = n * r / 2 ^ 32 /\ 0 <= n * r / 2 ^ 32 <= n /\ (0 < n -> n * r / 2 ^ 32 < n).
Proof.
  intros Hn Hr. rewrite Z.shiftr_div_pow2 by lia.
  assert (0 <= n * r / 2 ^ 32) by (apply Z.div_pos; nia).
  assert (n * r / 2 ^ 32 <= n) by (apply Z.div_le_upper_bound; nia).
  assert (0 < n -> n * r / 2 ^ 32 < n) by (intro; apply Z.div_lt_upper_bound; nia).
  unfold u32. rewrite Z.mod_small by lia. auto.
Qed.
End Ranged.

(** * Counting *)
Definition zseq (lo : Z) (n : nat) : list Z := map (fun i => lo + Z.of_nat i) (seq 0 n).

Lemma count_interval (Q : Z -> Prop) lo hi : lo <= hi -> (forall x, Q x <-> lo <= x < hi) -> has_count Q (hi - lo).
Proof.
  intros Hl HQ. exists (zseq lo (Z.to_nat (hi - lo))). split; [|split].
  - apply FinFun.Injective_map_NoDup; [|apply seq_NoDup]. intros i j H. lia.
  - intro x. rewrite HQ. unfold zseq. rewrite in_map_iff. split.
    + intros (i & <- & Hi). apply in_seq in Hi. lia.
    + intro Hx. exists (Z.to_nat (x - lo)). split; [lia|]. apply in_seq. lia.
  - unfold zseq. rewrite map_length, seq_length. lia.
Qed.

Lemma count_unique Q k k' : has_count Q k -> has_count Q k' -> k = k'.
Proof.
  intros (l & N1 & I1 & <-) (l' & N2 & I2 & <-). f_equal. apply Nat.le_antisymm.
  - apply NoDup_incl_length; auto. intros x Hx. apply I2, I1, Hx.
  - apply NoDup_incl_length; auto. intros x Hx. apply I1, I2, Hx.
Qed.

Lemma count_ext (Q R : Z -> Prop) k : (forall x, Q x <-> R x) -> has_count Q k -> has_count R k.
Proof. intros H (l & N1 & I1 & E). exists l. split; [auto|]. split; [|auto]. intro x. now rewrite I1. Qed.

(** The first raw value whose result is at least v. *)
Definition first (n v : Z) : Z := (v * 2 ^ 32 + n - 1) / n.

Lemma first_spec n v r : 0 < n -> (first n v <= r <-> v <= n * r / 2 ^ 32).
Proof.
  intro Hn. unfold first. split; intro H.
  - apply Z.div_le_lower_bound; [lia|].
    pose proof (Z.div_mod (v * 2 ^ 32 + n - 1) n ltac:(lia)). pose proof (Z.mod_pos_bound (v * 2 ^ 32 + n - 1) n ltac:(lia)). nia.
  - apply Z.lt_succ_r. apply Z.div_lt_upper_bound; [lia|].
    pose proof (Z.div_mod (n * r) (2 ^ 32) ltac:(lia)). pose proof (Z.mod_pos_bound (n * r) (2 ^ 32) ltac:(lia)). nia.
Qed.
Lemma first_0 n : 0 < n -> first n 0 = 0.
Proof. intro. unfold first. apply Z.div_small. lia. Qed.
Lemma first_n n : 0 < n -> first n n = 2 ^ 32.
Proof.
  intro. unfold first. replace (n * 2 ^ 32 + n - 1) with (n - 1 + 2 ^ 32 * n) by ring.
  rewrite Z.div_add, Z.div_small by lia. lia.
Qed.
Lemma first_mono n v v' : 0 < n -> v <= v' -> first n v <= first n v'.
Proof. intros. unfold first. apply Z.div_le_mono; lia. Qed.

Lemma count_result n v : 0 < n -> 0 <= v < n ->
  has_count (fun r => 0 <= r < 2 ^ 32 /\ n * r / 2 ^ 32 = v) (first n (v + 1) - first n v).
Proof.
  intros Hn Hv. apply count_interval; [apply first_mono; lia|]. intro r.
  pose proof (first_spec n v r Hn). pose proof (first_spec n (v + 1) r Hn).
  pose proof (first_mono n 0 v Hn ltac:(lia)). pose proof (first_mono n (v + 1) n Hn ltac:(lia)).
  rewrite first_0 in * by lia. rewrite first_n in * by lia. lia.
Qed.

Lemma first_step n v : 0 < n -> 2 ^ 32 / n <= first n (v + 1) - first n v <= 2 ^ 32 / n + 1.
Proof.
  intro Hn. unfold first.
  pose proof (Z.div_mod (v * 2 ^ 32 + n - 1) n ltac:(lia)). pose proof (Z.mod_pos_bound (v * 2 ^ 32 + n - 1) n ltac:(lia)).
  pose proof (Z.div_mod ((v + 1) * 2 ^ 32 + n - 1) n ltac:(lia)). pose proof (Z.mod_pos_bound ((v + 1) * 2 ^ 32 + n - 1) n ltac:(lia)).
  pose proof (Z.div_mod (2 ^ 32) n ltac:(lia)). pose proof (Z.mod_pos_bound (2 ^ 32) n ltac:(lia)).
  nia.
Qed.

Lemma first_exact n v : 0 < n -> (n | 2 ^ 32) -> first n v = v * (2 ^ 32 / n).
Proof.
  intros Hn [c Hc]. unfold first. rewrite Hc. rewrite Z.div_mul by lia.
  replace (v * (c * n) + n - 1) with (n - 1 + (v * c) * n) by ring. rewrite Z.div_add, Z.div_small by lia. lia.
Qed.
