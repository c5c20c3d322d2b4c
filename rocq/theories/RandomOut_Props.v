(** What the xoroshiro engines return (C16, C17) and how often each number comes (C83). *)
From Coq Require Import Znumtheory.
From Verif Require Import Base Bits Hash_Model Hash_Spec Hash_Props Random_Model Random_Spec Xoroshiro_Proofs Random_Proofs.
Local Open Scope Z_scope.

(** * The results *)

Lemma rol_ok w x k : 0 < k < w -> 0 <= x < 2 ^ w ->
  is_rol w x k (Z.lor (Z.shiftl x k mod 2 ^ w) (Z.shiftr x (w - k))).
Proof.
  intros Hk Hx. assert (P1 : 0 < 2 ^ k) by (apply Z.pow_pos_nonneg; lia). assert (P2 : 0 < 2 ^ (w - k)) by (apply Z.pow_pos_nonneg; lia).
  assert (E : 2 ^ w = 2 ^ (w - k) * 2 ^ k) by (rewrite <- Z.pow_add_r by lia; f_equal; lia).
  exists (x / 2 ^ (w - k)), (x mod 2 ^ (w - k)).
  split; [split; [apply Z.div_pos; lia|apply Z.div_lt_upper_bound; lia]|].
  split; [apply Z.mod_pos_bound; lia|]. split; [rewrite Z.mul_comm; apply Z.div_mod; lia|].
  rewrite lshl_mod by lia. rewrite lrot_lor by lia. unfold lrot. rewrite <- Z.add_nocarry_lxor.
  - rewrite u_ones by lia. rewrite Z.shiftl_mul_pow2, Z.shiftr_div_pow2 by lia. f_equal. rewrite E. now rewrite Z.mul_mod_distr_r by lia.
  - apply Z.bits_inj'. intros i Hi. rewrite !Z.land_spec, Z.bits_0, Z.shiftl_spec, Z.shiftr_spec by lia.
    destruct (Z_lt_ge_dec i k).
    + rewrite (Z.testbit_neg_r x (i - k)) by lia. reflexivity.
    + rewrite (bit_small x w (i + (w - k))) by lia. now rewrite Bool.andb_false_r.
Qed.

Lemma rol_range w x k y : 0 < k < w -> is_rol w x k y -> 0 <= y < 2 ^ w.
Proof.
  intros Hk (hi & lo & H1 & H2 & _ & ->). assert (E : 2 ^ w = 2 ^ (w - k) * 2 ^ k) by (rewrite <- Z.pow_add_r by lia; f_equal; lia). nia.
Qed.

Lemma rol_inj w x k y x' y' : 0 < k < w -> is_rol w x k y -> is_rol w x' k y' -> (x = x' <-> y = y').
Proof.
  intros Hk (hi & lo & H1 & H2 & -> & ->) (hi' & lo' & H1' & H2' & -> & ->).
  split; intro E.
  - destruct (Z.div_mod_unique (2 ^ (w - k)) hi hi' lo lo'); [left; assumption..|lia|]. now subst.
  - destruct (Z.div_mod_unique (2 ^ k) lo lo' hi hi'); [left; assumption..|lia|]. now subst.
Qed.

Lemma rol_onto w y k : 0 < k < w -> 0 <= y < 2 ^ w -> exists x, 0 <= x < 2 ^ w /\ is_rol w x k y.
Proof.
  intros Hk Hy. assert (P1 : 0 < 2 ^ k) by (apply Z.pow_pos_nonneg; lia). assert (P2 : 0 < 2 ^ (w - k)) by (apply Z.pow_pos_nonneg; lia).
  assert (E : 2 ^ w = 2 ^ (w - k) * 2 ^ k) by (rewrite <- Z.pow_add_r by lia; f_equal; lia).
  assert (A : 0 <= y mod 2 ^ k < 2 ^ k) by (apply Z.mod_pos_bound; lia).
  assert (B : 0 <= y / 2 ^ k < 2 ^ (w - k)) by (split; [apply Z.div_pos; lia|apply Z.div_lt_upper_bound; lia]).
  exists (y mod 2 ^ k * 2 ^ (w - k) + y / 2 ^ k). split; [nia|].
  exists (y mod 2 ^ k), (y / 2 ^ k). repeat (split; [first [assumption|reflexivity]|]). rewrite Z.mul_comm. apply Z.div_mod. lia.
Qed.

Lemma rotl32_eq x k : 0 < k < 32 -> rotl32 x k = Ok (Z.lor (Z.shiftl x k mod 2 ^ 32) (Z.shiftr x (32 - k))).
Proof.
  intro H. assert (E : Z.land k 31 = k) by (change 31 with (Z.ones 5); rewrite Z.land_ones by lia; apply Z.mod_small; lia).
  unfold rotl32, shl32, shr32. rewrite E.
  replace ((0 <=? k) && (k <? 32)) with true by (symmetry; apply andb_true_iff; split; [apply Z.leb_le | apply Z.ltb_lt]; lia).
  replace ((0 <=? 32 - k) && (32 - k <? 32)) with true by (symmetry; apply andb_true_iff; split; [apply Z.leb_le | apply Z.ltb_lt]; lia). reflexivity.
Qed.
Lemma rotl64_eq x k : 0 < k < 64 -> rotl64 x k = Ok (Z.lor (Z.shiftl x k mod 2 ^ 64) (Z.shiftr x (64 - k))).
Proof.
  intro H. unfold rotl64, shl64, shr64.
  replace ((0 <=? k) && (k <? 64)) with true by (symmetry; apply andb_true_iff; split; [apply Z.leb_le | apply Z.ltb_lt]; lia).
  replace ((0 <=? 64 - k) && (64 - k <? 64)) with true by (symmetry; apply andb_true_iff; split; [apply Z.leb_le | apply Z.ltb_lt]; lia). reflexivity.
Qed.

(** C16: next is xoroshiro64**. *)
Theorem C16_xoroshiro64ss_reference : forall s, words 32 s -> exists r t, next64ss s = Ok (r, t) /\ xoroshiro64starstar s r t.
Proof.
  intros [a b] [Ha Hb]. cbn [fst snd] in *. unfold next64ss. assert (Hx : 0 <= Z.lxor b a < 2 ^ 32) by (apply lxor_range; lia).
  assert (Hm : 0 <= a * 2654435771 mod 2 ^ 32 < 2 ^ 32) by (apply Z.mod_pos_bound; lia).
  rewrite !rotl32_eq by lia. cbn [bind]. unfold shl32. change ((0 <=? 9) && (9 <? 32)) with true. cbn [bind].
  eexists _, _. split; [reflexivity|]. unfold xoroshiro64starstar. cbn [fst snd].
  eexists _, _, _. split; [apply rol_ok; [lia|exact Hm]|]. split; [apply rol_ok; lia|]. split; [apply rol_ok; lia|]. split; [reflexivity|].
  unfold u32. now rewrite (Z.shiftl_mul_pow2 (Z.lxor b a) 9) by lia.
Qed.
Print Assumptions C16_xoroshiro64ss_reference.

(** C17: next is xoroshiro128++. *)
Theorem C17_xoroshiro128pp_reference : forall s, words 64 s -> exists r t, next128pp s = Ok (r, t) /\ xoroshiro128plusplus s r t.
Proof.
  intros [a b] [Ha Hb]. cbn [fst snd] in *. unfold next128pp. rewrite (Z.lxor_comm a b). assert (Hx : 0 <= Z.lxor b a < 2 ^ 64) by (apply lxor_range; lia).
  assert (Hm : 0 <= (a + b) mod 2 ^ 64 < 2 ^ 64) by (apply Z.mod_pos_bound; lia).
  rewrite !rotl64_eq by lia. cbn [bind]. unfold shl64. change ((0 <=? 21) && (21 <? 64)) with true. cbn [bind].
  eexists _, _. split; [reflexivity|]. unfold xoroshiro128plusplus. cbn [fst snd].
  eexists _, _, _. split; [apply rol_ok; [lia|exact Hm]|]. split; [apply rol_ok; lia|]. split; [apply rol_ok; lia|]. split; [reflexivity|].
  unfold u64. now rewrite (Z.shiftl_mul_pow2 (Z.lxor b a) 21) by lia.
Qed.
Print Assumptions C17_xoroshiro128pp_reference.

(** C16: next64 puts the results of two calls of next together, the first one on top, and leaves the state after both. *)
Theorem C16_next64 : forall s, words 32 s ->
  exists hi t lo u, next64ss s = Ok (hi, t) /\ next64ss t = Ok (lo, u) /\ next64ss_64 s = Ok (hi * 2 ^ 32 + lo, u) /\
    0 <= hi < 2 ^ 32 /\ 0 <= lo < 2 ^ 32.
Proof.
  intros s W. destruct (C16_xoroshiro64ss_reference s W) as (hi & t & E1 & (r1 & _ & _ & _ & _ & _ & R1 & _)).
  assert (W' : words 32 t). { destruct (next64ss_T s W) as (r & E). rewrite E1 in E. inversion E; subst. apply T_words; [lia..|assumption]. }
  destruct (C16_xoroshiro64ss_reference t W') as (lo & u & E2 & (r2 & _ & _ & _ & _ & _ & R2 & _)).
  assert (B1 : 0 <= hi < 2 ^ 32) by (rewrite R1; apply Z.mod_pos_bound; lia). assert (B2 : 0 <= lo < 2 ^ 32) by (rewrite R2; apply Z.mod_pos_bound; lia).
  exists hi, t, lo, u. split; [assumption|]. split; [assumption|]. split; [|split; assumption].
  unfold next64ss_64. rewrite E1. cbn [bind]. rewrite E2. cbn [bind]. unfold shl64. change ((0 <=? 32) && (32 <? 64)) with true. cbn [bind].
  unfold u64. rewrite Z.shiftl_mul_pow2 by lia. rewrite Z.mod_small by lia. f_equal. f_equal.
  rewrite <- Z.lxor_lor, <- Z.add_nocarry_lxor; [reflexivity| |]; apply Z.bits_inj'; intros i Hi; rewrite Z.land_spec, Z.bits_0, <- Z.shiftl_mul_pow2, Z.shiftl_spec by lia;
    (destruct (Z_lt_ge_dec i 32); [rewrite (Z.testbit_neg_r hi) by lia; reflexivity|rewrite (bit_small lo 32 i) by lia; apply Bool.andb_false_r]).
Qed.
Print Assumptions C16_next64.

Example C16_case_output : exists t, next64ss (1, 2) = Ok (3802928447, t) /\ exists u, next64ss_64 (1, 2) = Ok (3802928447 * 2 ^ 32 + 813792938, u).
Proof. eexists. split; [reflexivity|]. eexists. reflexivity. Qed.

(** * How often *)

Section Count.
Context {S : Type} (next : S -> res (Z * S)) (M : Z) (P : S -> Prop).
Hypothesis period : forall s k, P s -> (after next k s = Ok s <-> (M | Z.of_N k)).
Hypothesis reach : forall s t, P s -> P t -> exists k, Z.of_N k < M /\ after next k s = Ok t.
Hypothesis stay : forall s k, P s -> exists t, after next k s = Ok t /\ P t.

Lemma after_add a b s t : after next b s = Ok t -> after next (a + b) s = after next a t.
Proof. intro E. unfold after in *. rewrite N.iter_add. now rewrite E. Qed.

Lemma index_unique s t k l : P s -> after next k s = Ok t -> after next l s = Ok t -> Z.of_N k < M -> Z.of_N l < M -> k = l.
Proof.
  intros Hs.
  assert (G : forall k l, after next k s = Ok t -> after next l s = Ok t -> Z.of_N l < M -> (k <= l)%N -> k = l).
  { clear k l. intros k l Ek El Hl L. assert (Pt : P t) by (destruct (stay s k Hs) as (t' & E & H); congruence).
    assert (D : after next (l - k) t = Ok t) by (rewrite <- (after_add (l - k) k s t Ek); replace (l - k + k)%N with l by lia; exact El).
    apply (period t (l - k) Pt) in D.
    destruct (N.eq_dec (l - k) 0) as [Z|Z]; [lia|]. apply Z.divide_pos_le in D; lia. }
  intros Ek El Hk Hl. destruct (N.le_ge_cases k l) as [L|L]; [now apply G|symmetry; now apply G].
Qed.

Lemma count_states s : P s -> forall L, NoDup L -> Forall P L ->
  has_count (fun k => 0 <= k < M /\ exists t, after next (Z.to_N k) s = Ok t /\ In t L) (Z.of_nat (length L)).
Proof.
  intros Hs. induction L as [|t L IH]; intros N F.
  - exists []. split; [constructor|]. split; [|reflexivity]. intro x. cbn. split; [tauto|]. intros (_ & t & _ & []).
  - inversion N as [|? ? Nt N']; subst. inversion F as [|? ? Pt F']; subst. destruct (IH N' F') as (K & NK & IK & LK).
    destruct (reach s t Hs Pt) as (k & Hk & Ek). exists (Z.of_N k :: K). split; [|split].
    + constructor; [|assumption]. intro I. apply IK in I as (_ & t' & E & I). rewrite N2Z.id in E. congruence.
    + intro x. cbn [In]. rewrite IK. split.
      * intros [<-|(R & t' & E & I)]; [split; [lia|]; exists t; rewrite N2Z.id; auto|]. split; [assumption|]. exists t'. auto.
      * intros (R & t' & E & [<-|I]); [left|right; eauto]. rewrite <- (Z2N.id x) by lia. f_equal. apply (index_unique s t); try assumption. rewrite Z2N.id; lia.
    + cbn [length]. lia.
Qed.

(** The results that are v, when exactly the states of the list L give it. *)
Lemma count_outputs s v L : P s -> NoDup L -> (forall t, In t L <-> P t /\ exists u, next t = Ok (v, u)) ->
  has_count (fun k => 0 <= k < M /\ nth_output next (Z.to_N k) s = Ok v) (Z.of_nat (length L)).
Proof.
  intros Hs N I. assert (F : Forall P L) by (apply Forall_forall; intros t H; now apply I in H).
  eapply count_ext; [|exact (count_states s Hs L N F)]. intro k. cbn beta. split; intros (R & H); (split; [assumption|]).
  - destruct H as (t & E & J). unfold nth_output. rewrite E. cbn [bind]. apply I in J as (_ & u & ->). reflexivity.
  - unfold nth_output in H. apply bind_Ok_inv in H as (t & E & H). exists t. split; [assumption|]. apply I.
    split; [destruct (stay s (Z.to_N k) Hs) as (t' & E' & Q); congruence|]. apply bind_Ok_inv in H as ([o u] & E' & H). inversion H; subst. eauto.
Qed.
End Count.

Lemma interval lo hi : lo <= hi -> exists l, NoDup l /\ (forall x, In x l <-> lo <= x < hi) /\ Z.of_nat (length l) = hi - lo.
Proof. intro H. destruct (count_interval (fun x => lo <= x < hi) lo hi H (fun x => iff_refl _)) as (l & A & B & C). eauto. Qed.

(** Which first words give v, for the 64 bit engine. *)
Lemma out64 v : 0 <= v < 2 ^ 32 -> exists a, 0 <= a < 2 ^ 32 /\ (a = 0 <-> v = 0) /\
  forall s, words 32 s -> ((exists u, next64ss s = Ok (v, u)) <-> fst s = a).
Proof.
  intro Hv.
  assert (INJ : forall s s' r r' t t', words 32 s -> words 32 s' -> xoroshiro64starstar s r t -> xoroshiro64starstar s' r' t' -> (fst s = fst s' <-> r = r')).
  { intros s s' r r' t t' W W' (x & _ & _ & X & _ & _ & -> & _) (x' & _ & _ & X' & _ & _ & -> & _).
    pose proof (rol_inj 32 _ 5 x _ x' ltac:(lia) X X') as J. pose proof (rol_range 32 _ 5 x ltac:(lia) X). pose proof (rol_range 32 _ 5 x' ltac:(lia) X').
    destruct W, W'. split; intro E.
    - rewrite E in J. assert (x = x') as -> by (now apply J). reflexivity.
    - apply (odd_mul_inj 32 5) in E; [|lia|reflexivity|assumption|assumption]. apply J in E. now apply (odd_mul_inj 32 0x9E3779BB) in E; [|lia|reflexivity|..]. }
  set (r := v * 3435973837 mod 2 ^ 32). assert (Hr : 0 <= r < 2 ^ 32) by (apply Z.mod_pos_bound; lia).
  assert (E5 : r * 5 mod 2 ^ 32 = v).
  { unfold r. rewrite Z.mul_mod_idemp_l by lia. replace (v * 3435973837 * 5) with (v + v * 4 * 2 ^ 32) by ring. rewrite Z.mod_add by lia. now apply Z.mod_small. }
  destruct (rol_onto 32 r 5 ltac:(lia) Hr) as (x & Hx & X). set (a := x * 3195233139 mod 2 ^ 32).
  assert (Ha : 0 <= a < 2 ^ 32) by (apply Z.mod_pos_bound; lia).
  assert (EM : a * 0x9E3779BB mod 2 ^ 32 = x).
  { unfold a. rewrite Z.mul_mod_idemp_l by lia. replace (x * 3195233139 * 0x9E3779BB) with (x + x * 1974762683 * 2 ^ 32) by ring.
    rewrite Z.mod_add by lia. now apply Z.mod_small. }
  assert (OUT : forall b, 0 <= b < 2 ^ 32 -> exists u, next64ss (a, b) = Ok (v, u)).
  { intros b Hb. destruct (C16_xoroshiro64ss_reference (a, b)) as (o & u & E & (y & _ & _ & Y & _ & _ & R & _)); [split; assumption|].
    cbn [fst snd] in Y. rewrite EM in Y. assert (Yr : y = r) by (apply (rol_inj 32 x 5 y x r); [lia|assumption|assumption|reflexivity]).
    rewrite Yr, E5 in R.
    exists u. rewrite E. congruence. }
  exists a. split; [assumption|]. split.
  - destruct (OUT 0 ltac:(lia)) as (u & E). split; intro Z.
    + rewrite Z in E. vm_compute in E. congruence.
    + assert (r = 0) by (unfold r; rewrite Z; reflexivity). assert (x = 0) as ZX.
      { destruct X as (hi & lo & B1 & B2 & -> & Y). nia. }
      unfold a. rewrite ZX. reflexivity.
  - intros [a' b] W. cbn [fst]. split.
    + intros (u & E). destruct (OUT b ltac:(apply W)) as (u' & E').
      destruct (C16_xoroshiro64ss_reference (a', b) W) as (o & q & Eo & X1). destruct (C16_xoroshiro64ss_reference (a, b)) as (o' & q' & Eo' & X2); [split; [assumption|apply W]|].
      apply (INJ (a', b) (a, b) o o' q q' W); [split; [assumption|apply W]|assumption|assumption|congruence].
    + intros ->. apply OUT. apply W.
Qed.

(** C83: xoroshiro64**: over a period from any nonzero state every number comes exactly 2^32 times, and 0 once less. *)
Theorem C83_xoroshiro64ss : forall s v, nonzero_words 32 s -> 0 <= v < 2 ^ 32 ->
  has_count (fun k => 0 <= k < 2 ^ 64 - 1 /\ nth_output next64ss (Z.to_N k) s = Ok v) (if v =? 0 then 2 ^ 32 - 1 else 2 ^ 32).
Proof.
  intros s v Hs Hv. destruct cycle64 as (C1 & C2 & C3). destruct (out64 v Hv) as (a & Ha & Z & O).
  set (lo := if v =? 0 then 1 else 0). destruct (interval lo (2 ^ 32)) as (l & N & I & L); [unfold lo; destruct (v =? 0); lia|].
  assert (H := count_outputs next64ss (2 ^ 64 - 1) (nonzero_words 32) C1 C2 C3 s v (map (fun b => (a, b)) l) Hs).
  rewrite map_length, L in H. replace (if v =? 0 then 2 ^ 32 - 1 else 2 ^ 32) with (2 ^ 32 - lo) by (unfold lo; destruct (v =? 0); lia).
  apply H.
  - apply FinFun.Injective_map_NoDup; [|assumption]. intros x y E. congruence.
  - intros [a' b']. rewrite in_map_iff. split.
    + intros (b & E & J). inversion E; subst a' b'. apply I in J. assert (W : words 32 (a, b)) by (split; cbn [fst snd]; unfold lo in J; destruct (v =? 0); lia).
      split; [|now apply O]. split; [assumption|]. intro F. inversion F; subst. unfold lo in J. destruct (Z.eqb_spec v 0); [lia|]. apply n. now apply Z.
    + intros ((W & NZ) & U). apply O in U; [|assumption]. cbn [fst] in U. subst a'. exists b'. split; [reflexivity|]. apply I.
      destruct W as [_ Wb]. cbn [snd] in Wb. unfold lo. destruct (Z.eqb_spec v 0) as [E|E]; [|lia]. split; [|lia].
      destruct (Z.eq_dec b' 0) as [->|]; [|lia]. exfalso. apply NZ. f_equal. now apply Z.
Qed.
Print Assumptions C83_xoroshiro64ss.

(** Which second words give v, for the 128 bit engine. *)
Lemma out128 v a : 0 <= v < 2 ^ 64 -> 0 <= a < 2 ^ 64 -> exists b, 0 <= b < 2 ^ 64 /\
  forall b', 0 <= b' < 2 ^ 64 -> ((exists u, next128pp (a, b') = Ok (v, u)) <-> b' = b).
Proof.
  intros Hv Ha. set (r := (v - a) mod 2 ^ 64). assert (Hr : 0 <= r < 2 ^ 64) by (apply Z.mod_pos_bound; lia).
  destruct (rol_onto 64 r 17 ltac:(lia) Hr) as (x & Hx & X). set (b := (x - a) mod 2 ^ 64). assert (Hb : 0 <= b < 2 ^ 64) by (apply Z.mod_pos_bound; lia).
  exists b. split; [assumption|]. intros b' Hb'.
  destruct (C17_xoroshiro128pp_reference (a, b')) as (o & u & E & (y & _ & _ & Y & _ & _ & R & _)); [split; assumption|]. cbn [fst snd] in *.
  pose proof (rol_range 64 _ 17 y ltac:(lia) Y) as Ry. pose proof (rol_inj 64 _ 17 y x r ltac:(lia) Y X) as J.
  assert (A1 : v = o <-> y = r).
  { rewrite R. unfold r. split.
    - intro E'. rewrite E', Zminus_mod_idemp_l. replace (y + a - a) with y by lia. now rewrite Z.mod_small.
    - intros ->. rewrite Z.add_mod_idemp_l by lia. replace (v - a + a) with v by lia. now rewrite Z.mod_small. }
  assert (A2 : (a + b') mod 2 ^ 64 = x <-> b' = b).
  { unfold b. split.
    - intros <-. rewrite Zminus_mod_idemp_l. replace (a + b' - a) with b' by lia. now rewrite Z.mod_small.
    - intros ->. rewrite Z.add_mod_idemp_r by lia. replace (a + (x - a)) with x by lia. now apply Z.mod_small. }
  split.
  - intros (u' & E'). apply A2, J, A1. congruence.
  - intro E'. apply A2, J, A1 in E'. exists u. congruence.
Qed.

Lemma second_words v l : 0 <= v < 2 ^ 64 -> Forall (fun a => 0 <= a < 2 ^ 64) l ->
  exists L, map fst L = l /\ Forall (fun s => words 64 s /\ exists u, next128pp s = Ok (v, u)) L.
Proof.
  intros Hv. induction 1 as [|a l Ha F (L & E & H)]; [exists []; auto|]. destruct (out128 v a Hv Ha) as (b & Hb & O).
  exists ((a, b) :: L). split; [cbn; now f_equal|]. constructor; [|assumption]. split; [split; assumption|]. now apply O.
Qed.

(** C83: xoroshiro128++: over a period every number comes exactly 2^64 times, and 0 once less. *)
Theorem C83_xoroshiro128pp : forall s v, nonzero_words 64 s -> 0 <= v < 2 ^ 64 ->
  has_count (fun k => 0 <= k < 2 ^ 128 - 1 /\ nth_output next128pp (Z.to_N k) s = Ok v) (if v =? 0 then 2 ^ 64 - 1 else 2 ^ 64).
Proof.
  intros s v Hs Hv. destruct cycle128 as (C1 & C2 & C3).
  set (lo := if v =? 0 then 1 else 0). destruct (interval lo (2 ^ 64)) as (l & N & I & L); [unfold lo; destruct (v =? 0); lia|].
  destruct (second_words v l Hv) as (LL & E & F). { apply Forall_forall. intros a J. apply I in J. unfold lo in J. destruct (v =? 0); lia. }
  assert (H := count_outputs next128pp (2 ^ 128 - 1) (nonzero_words 64) C1 C2 C3 s v LL Hs).
  assert (EL : Z.of_nat (length LL) = 2 ^ 64 - lo) by (rewrite <- L, <- E, map_length; reflexivity).
  replace (if v =? 0 then 2 ^ 64 - 1 else 2 ^ 64) with (Z.of_nat (length LL)) by (rewrite EL; unfold lo; destruct (v =? 0); lia).
  rewrite Forall_forall in F. assert (Z0 : forall u, next128pp (0, 0) = Ok (v, u) -> v = 0) by (intros u E'; vm_compute in E'; congruence).
  apply H.
  - apply (NoDup_map_inv fst). now rewrite E.
  - intros [a b]. split.
    + intro J. destruct (F _ J) as (W & U). split; [|assumption]. split; [assumption|]. intro Q. inversion Q; subst a b.
      assert (K : In 0 l) by (rewrite <- E; apply in_map_iff; exists (0, 0); auto). apply I in K. destruct U as (u & U). apply Z0 in U. subst v. cbn in lo. unfold lo in K. lia.
    + intros ((W & NZ) & U). destruct W as [Wa Wb]. cbn [fst snd] in Wa, Wb. destruct (out128 v a Hv Wa) as (b0 & Hb0 & O).
      assert (K : In a l).
      { apply I. unfold lo. destruct (Z.eqb_spec v 0) as [->|]; [|lia]. split; [|lia]. destruct (Z.eq_dec a 0) as [->|]; [|lia]. exfalso. apply NZ. f_equal.
        assert (b = b0) by (apply O; assumption). assert (0 = b0) by (apply O; [lia|]; eexists; vm_compute; reflexivity). congruence. }
      rewrite <- E in K. apply in_map_iff in K as ([a' b'] & Ea & K). cbn [fst] in Ea. subst a'. destruct (F _ K) as ((_ & Wb') & U'). cbn [snd] in Wb'.
      assert (b = b0) by (apply O; assumption). assert (b' = b0) by (apply O; assumption). replace b with b' by congruence. exact K.
Qed.
Print Assumptions C83_xoroshiro128pp.

Lemma NoDup_app_intro {A} (l1 l2 : list A) : NoDup l1 -> NoDup l2 -> (forall x, In x l1 -> In x l2 -> False) -> NoDup (l1 ++ l2).
Proof.
  intros H1 H2 D. induction H1 as [|x l1 NI H1 IH]; [assumption|]. cbn [app]. constructor.
  - rewrite in_app_iff. intros [I|I]; [auto|]. apply (D x); [left; reflexivity|assumption].
  - apply IH. intros y I J. apply (D y); [right; assumption|assumption].
Qed.

(** pcg32: a state is fixed by its top five bits, its low 27 bits and what read gives. *)
Definition pcg_key (q : Z) : Z * Z := (q / 2 ^ 59, q mod 2 ^ 27).

Lemma pcg_unique q q' v : 2 ^ 59 <= q < 2 ^ 64 -> 2 ^ 59 <= q' < 2 ^ 64 -> pcg_key q = pcg_key q' ->
  pcg_read q = Ok v -> pcg_read q' = Ok v -> q = q'.
Proof.
  intros Hq Hq' K E E'. destruct (pcg_read_ok q Hq) as (y & Y & R). destruct (pcg_read_ok q' Hq') as (y' & Y' & R').
  assert (y = v) as -> by congruence. assert (y' = v) as -> by congruence. assert (K1 : q / 2 ^ 59 = q' / 2 ^ 59) by exact (f_equal fst K). assert (K2 : q mod 2 ^ 27 = q' mod 2 ^ 27) by exact (f_equal snd K). rewrite <- K1 in R'.
  assert (A : 1 <= q / 2 ^ 59 <= 31) by (split; [apply Z.div_le_lower_bound | apply Z.lt_succ_r, Z.div_lt_upper_bound]; lia).
  set (a := q / 2 ^ 59) in *.
  assert (X : forall i, 0 <= i < 32 -> xorb (Z.testbit q (i + 27)) (Z.testbit q (i + 45)) = xorb (Z.testbit q' (i + 27)) (Z.testbit q' (i + 45))).
  { intros i Hi. destruct R as (_ & R). destruct R' as (_ & R'). set (j := (i - a) mod 32). assert (Hj : 0 <= j < 32) by (apply Z.mod_pos_bound; lia).
    specialize (R j Hj). specialize (R' j Hj). assert (I : (j + a) mod 32 = i) by (unfold j; rewrite Z.add_mod_idemp_l by lia; replace (i - a + a) with i by lia; apply Z.mod_small; lia).
    rewrite I in R, R'. rewrite Z.mod_pow2_bits_low, Z.lxor_spec, !Z.shiftr_spec in R, R' by lia. congruence. }
  assert (TOP : forall i, 59 <= i -> Z.testbit q i = Z.testbit q' i).
  { intros i Hi. replace i with (i - 59 + 59) by lia. rewrite <- !Z.div_pow2_bits by lia. fold a. now rewrite K1. }
  assert (LOW : forall i, 0 <= i < 27 -> Z.testbit q i = Z.testbit q' i).
  { intros i Hi. rewrite <- (Z.mod_pow2_bits_low q 27 i), <- (Z.mod_pow2_bits_low q' 27 i) by lia. now rewrite K2. }
  assert (M1 : forall i, 41 <= i < 59 -> Z.testbit q i = Z.testbit q' i).
  { intros i Hi. specialize (X (i - 27) ltac:(lia)). replace (i - 27 + 27) with i in X by lia. rewrite (TOP (i - 27 + 45)) in X by lia.
    destruct (Z.testbit q i), (Z.testbit q' i), (Z.testbit q' (i - 27 + 45)); cbn in X; congruence. }
  assert (M2 : forall i, 27 <= i < 41 -> Z.testbit q i = Z.testbit q' i).
  { intros i Hi. specialize (X (i - 27) ltac:(lia)). replace (i - 27 + 27) with i in X by lia. rewrite (M1 (i - 27 + 45)) in X by lia.
    destruct (Z.testbit q i), (Z.testbit q' i), (Z.testbit q' (i - 27 + 45)); cbn in X; congruence. }
  apply Z.bits_inj'. intros i Hi. destruct (Z_lt_ge_dec i 27); [apply LOW; lia|]. destruct (Z_lt_ge_dec i 41); [apply M2; lia|].
  destruct (Z_lt_ge_dec i 59); [apply M1; lia|apply TOP; lia].
Qed.

Lemma pcg_exists v a low : 0 <= v < 2 ^ 32 -> 1 <= a < 32 -> 0 <= low < 2 ^ 27 ->
  exists q, 2 ^ 59 <= q < 2 ^ 64 /\ pcg_key q = (a, low) /\ pcg_read q = Ok v.
Proof.
  intros Hv Ha Hl. set (x := Z.lor (Z.shiftl v a mod 2 ^ 32) (Z.shiftr v (32 - a))).
  assert (Hx : 0 <= x < 2 ^ 32) by (apply (rol_range 32 v a); [lia|apply rol_ok; lia]).
  assert (BX : forall i, 0 <= i < 32 -> Z.testbit x ((i + a) mod 32) = Z.testbit v i).
  { intros i Hi. unfold x. pose proof (Z.mod_pos_bound (i + a) 32 ltac:(lia)). rewrite Z.lor_spec, Z.mod_pow2_bits_low, Z.shiftl_spec, Z.shiftr_spec by lia.
    destruct (Z_lt_ge_dec (i + a) 32).
    - rewrite Z.mod_small by lia. rewrite (bit_small v 32 (i + a + (32 - a))) by lia. rewrite Bool.orb_false_r. f_equal. lia.
    - assert (EE : (i + a) mod 32 = i + a - 32) by (symmetry; apply (Z.mod_unique _ _ 1); lia). rewrite EE.
      rewrite (Z.testbit_neg_r v (i + a - 32 - a)) by lia. cbn [orb]. f_equal. lia. }
  set (z := Z.lxor x (Z.shiftl a 14)). assert (Hs : 0 <= Z.shiftl a 14 < 2 ^ 32) by (rewrite Z.shiftl_mul_pow2 by lia; lia).
  assert (Hz : 0 <= z < 2 ^ 32) by (apply lxor_range; lia).
  set (c := Z.lxor z (Z.shiftr z 18)).
  assert (Hzs : 0 <= Z.shiftr z 18 < 2 ^ 32).
  { rewrite Z.shiftr_div_pow2 by lia. split; [apply Z.div_pos; lia|]. apply Z.div_lt_upper_bound; lia. }
  assert (Hc : 0 <= c < 2 ^ 32) by (apply lxor_range; lia).
  set (q := a * 2 ^ 59 + c * 2 ^ 27 + low).
  assert (Hq : 2 ^ 59 <= q < 2 ^ 64) by (unfold q; lia).
  assert (KA : q / 2 ^ 59 = a) by (symmetry; apply (Z.div_unique q (2 ^ 59) a (c * 2 ^ 27 + low)); unfold q; lia).
  assert (KC : q / 2 ^ 27 = a * 2 ^ 32 + c) by (symmetry; apply (Z.div_unique q (2 ^ 27) _ low); unfold q; lia).
  assert (KL : q mod 2 ^ 27 = low) by (symmetry; apply (Z.mod_unique q (2 ^ 27) (a * 2 ^ 32 + c)); unfold q; lia).
  exists q. split; [assumption|]. split; [unfold pcg_key; now rewrite KA, KL|].
  destruct (pcg_read_ok q Hq) as (y & Y & (Hy & R)). rewrite Y. f_equal. rewrite KA in R.
  assert (TC : forall i, 0 <= i < 32 -> Z.testbit q (i + 27) = Z.testbit c i).
  { intros i Hi. rewrite <- Z.div_pow2_bits by lia. rewrite KC. rewrite <- (Z.mod_pow2_bits_low (a * 2 ^ 32 + c) 32 i) by lia.
    rewrite Z.add_comm, Z.mod_add, Z.mod_small by lia. reflexivity. }
  assert (TA : forall i, 0 <= i -> Z.testbit q (i + 59) = Z.testbit a i) by (intros i Hi; rewrite <- Z.div_pow2_bits by lia; now rewrite KA).
  assert (ZB : forall i, Z.testbit z i = xorb (Z.testbit x i) (Z.testbit (Z.shiftl a 14) i)) by (intro i; apply Z.lxor_spec).
  assert (CB : forall i, 0 <= i -> Z.testbit c i = xorb (Z.testbit z i) (Z.testbit z (i + 18))) by (intros i Hi; unfold c; rewrite Z.lxor_spec, Z.shiftr_spec by lia; reflexivity).
  assert (B : Z.lxor (Z.shiftr q 27) (Z.shiftr q 45) mod 2 ^ 32 = x).
  { apply Z.bits_inj'. intros i Hi. destruct (Z_lt_ge_dec i 32); [|rewrite Z.mod_pow2_bits_high by lia; symmetry; apply (bit_small x 32); lia].
    rewrite Z.mod_pow2_bits_low, Z.lxor_spec, !Z.shiftr_spec by lia. rewrite TC, CB by lia.
    destruct (Z_lt_ge_dec i 14).
    - replace (i + 45) with (i + 18 + 27) by lia. rewrite TC, CB by lia. rewrite (bit_small z 32 (i + 18 + 18)) by lia.
      rewrite ZB. rewrite (Z.shiftl_spec_low a 14 i) by lia. destruct (Z.testbit x i), (Z.testbit z (i + 18)); reflexivity.
    - replace (i + 45) with (i - 14 + 59) by lia. rewrite TA by lia. rewrite (bit_small z 32 (i + 18)) by lia.
      rewrite ZB. rewrite Z.shiftl_spec by lia. destruct (Z.testbit x i), (Z.testbit a (i - 14)); reflexivity. }
  rewrite B in R. apply Z.bits_inj'. intros i Hi. destruct (Z_lt_ge_dec i 32); [rewrite R by lia; apply BX; lia|].
  rewrite (bit_small y 32), (bit_small v 32) by lia. reflexivity.
Qed.

Lemma pcg_states v l : 0 <= v < 2 ^ 32 -> Forall (fun k => 1 <= fst k < 32 /\ 0 <= snd k < 2 ^ 27) l ->
  exists L, map pcg_key L = l /\ Forall (fun q => 2 ^ 59 <= q < 2 ^ 64 /\ pcg_read q = Ok v) L.
Proof.
  intros Hv. induction 1 as [|[a low] l [Ha Hl] F (L & E & H)]; [exists []; auto|]. destruct (pcg_exists v a low Hv Ha Hl) as (q & Hq & K & R).
  exists (q :: L). split; [cbn [map]; now f_equal|]. constructor; [auto|assumption].
Qed.

Definition pcg_next (q : Z) : res (Z * Z) := Ok (0, pcg_step q).
Lemma pcg_after k s : after pcg_next k s = Ok (N.iter k pcg_step s).
Proof. unfold after. revert k. apply N.peano_ind; [reflexivity|]. intros k IH. rewrite !N.iter_succ, IH. reflexivity. Qed.

(** C83: pcg32: over the 2^64 states of its period, read gives every number the same 31 * 2^27 times; at the other
    2^59 states it has no defined result (C20). *)
Theorem C83_pcg32_partial : forall s v, 0 <= s < 2 ^ 64 -> 0 <= v < 2 ^ 32 ->
  has_count (fun k => 0 <= k < 2 ^ 64 /\ pcg_read (N.iter (Z.to_N k) pcg_step s) = Ok v) (31 * 2 ^ 27).
Proof.
  intros s v Hs Hv. destruct (interval 1 32 ltac:(lia)) as (la & Na & Ia & La). destruct (interval 0 (2 ^ 27) ltac:(lia)) as (ll & Nl & Il & Ll).
  destruct (pcg_states v (list_prod la ll) Hv) as (L & E & F).
  { apply Forall_forall. intros [a low] J. apply in_prod_iff in J as [J1 J2]. cbn [fst snd]. split; [now apply Ia|now apply Il]. }
  assert (NP : NoDup (list_prod la ll)).
  { clear - Na Nl. induction Na as [|a la NI Na IH]; [constructor|]. cbn [list_prod]. apply NoDup_app_intro.
    - apply FinFun.Injective_map_NoDup; [|assumption]. intros x y E. congruence.
    - assumption.
    - intros [x y] J1 J2. apply in_map_iff in J1 as (? & E & _). inversion E; subst. apply in_prod_iff in J2. tauto. }
  assert (NL : NoDup L) by (apply (NoDup_map_inv pcg_key); now rewrite E).
  assert (CNT : Z.of_nat (length L) = 31 * 2 ^ 27).
  { rewrite <- (map_length pcg_key L), E, prod_length, Nat2Z.inj_mul, La, Ll. reflexivity. }
  rewrite <- CNT. rewrite Forall_forall in F.
  assert (R : forall n, 0 <= N.iter n pcg_step s < 2 ^ 64). { apply N.peano_ind; [exact Hs|]. intros n _. rewrite N.iter_succ. apply pcg_range. }
  eapply count_ext; [|apply (count_states pcg_next (2 ^ 64) (fun q => 0 <= q < 2 ^ 64)) with (s := s) (L := L)].
  - intro k. cbn beta. rewrite pcg_after. split; intros (K & H); (split; [assumption|]).
    + destruct H as (t & T & J). injection T as <-. now apply F.
    + eexists. split; [reflexivity|]. set (q := N.iter (Z.to_N k) pcg_step s) in *. assert (Q := R (Z.to_N k)). fold q in Q.
      assert (Hq : 2 ^ 59 <= q < 2 ^ 64). { split; [|lia]. destruct (Z_lt_ge_dec q (2 ^ 59)); [|lia]. rewrite pcg_read_ub in H by lia. discriminate. }
      assert (J : In (pcg_key q) (list_prod la ll)).
      { apply in_prod_iff. split; [apply Ia|apply Il; apply Z.mod_pos_bound; lia]. split; [apply Z.div_le_lower_bound; lia|apply Z.div_lt_upper_bound; lia]. }
      rewrite <- E in J. apply in_map_iff in J as (q' & EK & J). destruct (F _ J) as (Hq' & Rq'). replace q with q'; [assumption|]. now apply (pcg_unique q' q v).
  - intros x k Hx. rewrite pcg_after. rewrite <- (pcg_fix k x) by exact Hx. split; congruence.
  - intros x y Hx Hy. destruct (pcg_cycle x y Hx Hy) as (k & Hk & Ek). exists k. split; [lia|]. rewrite pcg_after. congruence.
  - intros x k Hx. rewrite pcg_after. eexists. split; [reflexivity|]. revert k. apply N.peano_ind; [exact Hx|]. intros n _. rewrite N.iter_succ. apply pcg_range.
  - exact Hs.
  - exact NL.
  - apply Forall_forall. intros q J. apply F in J. lia.
Qed.
Print Assumptions C83_pcg32_partial.

Lemma count_fibers (Q : Z -> Prop) (P : Z -> Z -> Prop) c m : has_count Q c -> (forall r, Q r -> has_count (P r) m) ->
  (forall r r' k, P r k -> P r' k -> r = r') -> has_count (fun k => exists r, Q r /\ P r k) (m * c).
Proof.
  intros (l & N & I & <-) HP U.
  assert (G : forall l, NoDup l -> (forall r, In r l -> Q r) -> has_count (fun k => exists r, In r l /\ P r k) (m * Z.of_nat (length l))).
  { clear l N I. induction l as [|r l IH]; intros N I.
    - exists []. split; [constructor|]. split; [|cbn [length]; lia]. intro x. split; [intros []|]. intros (r & [] & _).
    - inversion N; subst. destruct IH as (L & NL & IL & EL); [assumption|intros; apply I; now right|].
      destruct (HP r) as (K & NK & IK & EK); [apply I; now left|]. exists (K ++ L). split; [|split].
      + apply NoDup_app_intro; [assumption|assumption|]. intros x J1 J2. apply IK in J1. apply IL in J2. destruct J2 as (r' & J & J2).
        assert (r = r') as <- by (eapply U; eassumption). contradiction.
      + intro x. rewrite in_app_iff, IK, IL. split.
        * intros [H|(r' & J & H)]; [exists r; split; [now left|assumption]|exists r'; split; [now right|assumption]].
        * intros (r' & [<-|J] & H); [now left|right; exists r'; now split].
      + rewrite app_length. cbn [length]. lia. }
  eapply count_ext; [|apply (G l N)]; [|intros r J; now apply I].
  intro k. split; intros (r & J & H); exists r; (split; [now apply I|assumption]).
Qed.

(** C83: pcg32: over its period, next_ranged(n) and next_unbiased(n) give v as often as the share of the 2^32 numbers r with
    n r / 2^32 = v demands: c * 31 * 2^27 times, with c one of the two integers next to 2^32 / n. *)
Theorem C83_pcg32_ranged_partial : forall s n v fuel, 0 <= s < 2 ^ 64 -> 0 < n < 2 ^ 32 -> 0 <= v < n ->
  exists c, has_count (fun r => 0 <= r < 2 ^ 32 /\ n * r / 2 ^ 32 = v) c /\ 2 ^ 32 / n <= c <= 2 ^ 32 / n + 1 /\
    has_count (fun k => 0 <= k < 2 ^ 64 /\ exists t, next_ranged pcg_read pcg_step (N.iter (Z.to_N k) pcg_step s) n = Ok (v, t)) (31 * 2 ^ 27 * c) /\
    has_count (fun k => 0 <= k < 2 ^ 64 /\ exists t, next_unbiased pcg_read pcg_step fuel (N.iter (Z.to_N k) pcg_step s) n = Ok (v, t)) (31 * 2 ^ 27 * c).
Proof.
  intros s n v fuel Hs Hn Hv. exists (first n (v + 1) - first n v).
  assert (C := count_result n v ltac:(lia) Hv). split; [exact C|]. split; [apply first_step; lia|].
  assert (F := count_fibers _ (fun r k => 0 <= k < 2 ^ 64 /\ pcg_read (N.iter (Z.to_N k) pcg_step s) = Ok r) _ (31 * 2 ^ 27) C).
  cbv beta in F. specialize (F (fun r H => C83_pcg32_partial s r Hs (proj1 H))).
  specialize (F (fun r r' k H H' => match eq_trans (eq_sym (proj2 H)) (proj2 H') in _ = y return match y with Ok z => r = z | _ => True end with eq_refl => eq_refl end)).
  assert (RD : forall q, 0 <= q < 2 ^ 64 -> forall r, pcg_read q = Ok r -> 0 <= r < 2 ^ 32).
  { intros q Hq r E. destruct (Z_lt_ge_dec q (2 ^ 59)); [rewrite pcg_read_ub in E by lia; discriminate|].
    destruct (pcg_read_ok q ltac:(lia)) as (r' & E' & B). rewrite E in E'. injection E' as ->. exact (proj1 B). }
  assert (R : forall n, 0 <= N.iter n pcg_step s < 2 ^ 64). { apply N.peano_ind; [exact Hs|]. intros i _. rewrite N.iter_succ. apply pcg_range. }
  split; (eapply count_ext; [|exact F]); intro k; cbv beta; set (q := N.iter (Z.to_N k) pcg_step s); specialize (RD q (R _)); split.
  - intros (r & (Br & E) & (K & D)). split; [exact K|]. exists (pcg_step q). unfold next_ranged. rewrite D. cbn [bind]. now rewrite (proj1 (mul_hi n r ltac:(lia) Br)), E.
  - intros (K & t & E). unfold next_ranged in E. destruct (pcg_read q) as [r| |] eqn:D; cbn [bind] in E; [|discriminate|discriminate].
    specialize (RD r eq_refl). rewrite (proj1 (mul_hi n r ltac:(lia) RD)) in E. injection E as E _. exists r. auto.
  - intros (r & (Br & E) & (K & D)). split; [exact K|]. exists (pcg_step q). rewrite (unbiased_eq pcg_read pcg_step fuel q n r D) by lia. now rewrite (proj1 (mul_hi n r ltac:(lia) Br)), E.
  - intros (K & t & E). destruct (pcg_read q) as [r| |] eqn:D.
    + specialize (RD r eq_refl). rewrite (unbiased_eq pcg_read pcg_step fuel q n r D) in E by lia. rewrite (proj1 (mul_hi n r ltac:(lia) RD)) in E. injection E as E _. exists r. auto.
    + unfold next_unbiased in E. rewrite D in E. discriminate.
    + unfold next_unbiased in E. rewrite D in E. discriminate.
Qed.
Print Assumptions C83_pcg32_ranged_partial.

(** C19: step and seed are those of the published pcg32 with its default increment; a buffer is hashed with FNV-1a first. *)
Theorem C19_pcg_reference : forall s data,
  pcg_step s = (s * 0x5851F42D4C957F2D + 0xDA3E39CB94B95BDB) mod 2 ^ 64 /\
  pcg_seed s = pcg_step ((pcg_step 0 + s) mod 2 ^ 64) /\
  (Forall is_byte data -> pcg_seed_data data = pcg_seed (fnv1a_spec 64 FNV64_prime data 0xCBF29CE484222325)).
Proof.
  intros s data. split; [|split; [reflexivity|]].
  - unfold pcg_step, u64. rewrite Z.add_mod_idemp_l by lia. f_equal. f_equal. apply Z.mul_comm.
  - intro F. unfold pcg_seed_data, fnv1a64. f_equal. rewrite C14_fnv1a64_bytes by lia. f_equal.
    induction F as [|b data Hb F IH]; [reflexivity|]. cbn [flat_map le_bytes app]. rewrite Z.mod_small by exact Hb. now f_equal.
Qed.
Print Assumptions C19_pcg_reference.

Example C83_case : nonzero_words 32 (5, 4294967295) /\ nth_output next64ss 0 (1, 2) = Ok 3802928447 /\ nth_output next64ss 1 (1, 2) = Ok 813792938.
Proof. split; [split; [split; cbn [fst snd]; lia | discriminate]|]. split; reflexivity. Qed.
Example C83_case_pcg : pcg_read 12345678901234567890 = Ok 2203698004 /\ pcg_key 12345678901234567890 = (21, 52366034).
Proof. split; reflexivity. Qed.
