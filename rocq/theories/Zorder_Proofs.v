(** Proofs about Zorder_Model. *)
From Verif Require Import Base Bits Zorder_Model Zorder_Spec.
Local Open Scope Z_scope.

(** * Comparing numbers by their bits *)

Lemma lt_bits_intro a b k : 0 <= k -> 0 <= a -> 0 <= b -> Z.testbit a k = false -> Z.testbit b k = true ->
  (forall j, k < j -> Z.testbit a j = Z.testbit b j) -> a < b.
Proof.
  intros Hk Ha Hb Ta Tb Hj.
  assert (E : a / 2 ^ (k + 1) = b / 2 ^ (k + 1)).
  { apply Z.bits_inj'. intros j Hj0. rewrite !Z.div_pow2_bits by lia. apply Hj. lia. }
  assert (A : a / 2 ^ k = 2 * (a / 2 ^ (k + 1))).
  { rewrite Z.pow_add_r, <- Z.div_div by lia. change (2 ^ 1) with 2.
    pose proof (Z.div_mod (a / 2 ^ k) 2 ltac:(lia)) as D. rewrite <- Z.bit0_mod, Z.div_pow2_bits, Z.add_0_l, Ta in D by lia.
    cbn [Z.b2z] in D. lia. }
  assert (B : b / 2 ^ k = 2 * (b / 2 ^ (k + 1)) + 1).
  { rewrite Z.pow_add_r, <- Z.div_div by lia. change (2 ^ 1) with 2.
    pose proof (Z.div_mod (b / 2 ^ k) 2 ltac:(lia)) as D. rewrite <- Z.bit0_mod, Z.div_pow2_bits, Z.add_0_l, Tb in D by lia.
    cbn [Z.b2z] in D. lia. }
  assert (P : 0 < 2 ^ k) by (apply Z.pow_pos_nonneg; lia).
  pose proof (Z.div_mod a (2 ^ k) ltac:(lia)) as Da. pose proof (Z.div_mod b (2 ^ k) ltac:(lia)) as Db.
  pose proof (Z.mod_pos_bound a (2 ^ k) P). pose proof (Z.mod_pos_bound b (2 ^ k) P). nia.
Qed.

Lemma top_differing a b : 0 <= a -> 0 <= b -> a <> b ->
  exists k, 0 <= k /\ Z.testbit a k <> Z.testbit b k /\ forall j, k < j -> Z.testbit a j = Z.testbit b j.
Proof.
  intros Ha Hb Hn. exists (Z.log2 (Z.lxor a b)).
  assert (N : 0 <= Z.lxor a b) by (apply Z.lxor_nonneg; tauto).
  assert (N0 : Z.lxor a b <> 0) by (intro E; apply Z.lxor_eq in E; auto).
  split; [apply Z.log2_nonneg|]. split.
  - intro E. pose proof (Z.bit_log2 (Z.lxor a b) ltac:(lia)) as T. rewrite Z.lxor_spec, E, xorb_nilpotent in T. discriminate.
  - intros j Hj. pose proof (Z.bits_above_log2 (Z.lxor a b) j ltac:(lia) Hj) as T. rewrite Z.lxor_spec in T.
    destruct (Z.testbit a j), (Z.testbit b j); auto; discriminate.
Qed.

Lemma lt_bits_elim a b : 0 <= a -> a < b ->
  exists k, 0 <= k /\ Z.testbit a k = false /\ Z.testbit b k = true /\ forall j, k < j -> Z.testbit a j = Z.testbit b j.
Proof.
  intros Ha H. destruct (top_differing a b Ha ltac:(lia) ltac:(lia)) as (k & Hk & Hd & Hj).
  exists k. split; [assumption|]. destruct (Z.testbit a k) eqn:Ea, (Z.testbit b k) eqn:Eb; try congruence; [|auto].
  exfalso. assert (b < a) by (apply (lt_bits_intro b a k); auto; try lia; intros; symmetry; auto). lia.
Qed.

(** * C27: expanding and encoding *)

Lemma u64_shl_bit m s j : 0 <= s -> 0 <= j < 64 -> Z.testbit (u64 (Z.shiftl m s)) j = Z.testbit m (j - s).
Proof. intros. unfold u64. rewrite Z.mod_pow2_bits_low by lia. apply Z.shiftl_spec. lia. Qed.

Lemma below64 (P : Z -> Prop) : (forall j, In j (map Z.of_nat (seq 0 64)) -> P j) -> forall j, 0 <= j < 64 -> P j.
Proof. intros H j Hj. apply H. apply in_map_iff. exists (Z.to_nat j). split; [lia|]. apply in_seq. lia. Qed.

Lemma z_expand_range n : 0 <= z_expand n < 2 ^ 64.
Proof.
  unfold z_expand. rewrite Z.land_comm. cbv zeta. match goal with |- 0 <= Z.land ?x ?m < _ => rewrite (Z.land_comm x m) end.
  apply land_range_l; lia.
Qed.

Ltac stage := rewrite Z.land_spec, Z.lor_spec, u64_shl_bit by lia.

Lemma z_expand_bit n j : 0 <= n < 2 ^ 32 -> 0 <= j < 64 ->
  Z.testbit (z_expand n) j = (if Z.odd j then false else Z.testbit n (j / 2)).
Proof.
  intros Hn. revert j.
  assert (F : forall k, 32 <= k -> Z.testbit n k = false) by (intros; now apply (bit_small n 32)).
  assert (G : forall k, k < 0 -> Z.testbit n k = false) by (intros; now apply Z.testbit_neg_r).
  unfold z_expand. cbv zeta.
  set (m3 := Z.land 0x0000ffff0000ffff _).
  assert (B3 : forall j, 0 <= j < 64 -> Z.testbit m3 j = Z.testbit 0x0000ffff0000ffff j && (Z.testbit n j || Z.testbit n (j - 16))) by (intros; unfold m3; now stage).
  clearbody m3. set (m2 := Z.land 0x00ff00ff00ff00ff _).
  assert (B2 : forall j, 0 <= j < 64 -> Z.testbit m2 j = Z.testbit 0x00ff00ff00ff00ff j && (Z.testbit m3 j || Z.testbit m3 (j - 8))) by (intros; unfold m2; now stage).
  clearbody m2. set (m1 := Z.land 0x0f0f0f0f0f0f0f0f _).
  assert (B1 : forall j, 0 <= j < 64 -> Z.testbit m1 j = Z.testbit 0x0f0f0f0f0f0f0f0f j && (Z.testbit m2 j || Z.testbit m2 (j - 4))) by (intros; unfold m1; now stage).
  clearbody m1. set (m0 := Z.land 0x3333333333333333 _).
  assert (B0 : forall j, 0 <= j < 64 -> Z.testbit m0 j = Z.testbit 0x3333333333333333 j && (Z.testbit m1 j || Z.testbit m1 (j - 2))) by (intros; unfold m0; now stage).
  clearbody m0.
  apply below64. intros j Hj.
  assert (Hr : 0 <= j < 64) by (apply in_map_iff in Hj; destruct Hj as (i & <- & Hi); apply in_seq in Hi; lia).
  stage. clear Hr. cbn in Hj.
  Local Ltac ev := repeat match goal with
    | |- context [Z.testbit (Z.pos ?p) ?j] => let v := eval vm_compute in (Z.testbit (Z.pos p) j) in change (Z.testbit (Z.pos p) j) with v
    | |- context [?a - ?b] => let v := eval vm_compute in (a - b) in change (a - b) with v
    end; rewrite ?Bool.andb_true_l, ?Bool.andb_false_l, ?Bool.orb_false_l, ?Bool.orb_false_r.
  Local Ltac neg0 := repeat match goal with |- context [Z.testbit ?m (Z.neg ?q)] => rewrite (Z.testbit_neg_r m (Z.neg q)) by lia end.
  repeat (destruct Hj as [<- | Hj]; [
    repeat (ev; neg0; rewrite ?Bool.orb_false_r; first [rewrite B0 by lia | rewrite B1 by lia | rewrite B2 by lia | rewrite B3 by lia]); ev; neg0;
    rewrite ?F by lia; rewrite ?Bool.orb_false_r; reflexivity |]).
  contradiction.
Qed.

Lemma offset32 x : int32 x -> Z.lxor (u32 x) 0x80000000 = x + 2 ^ 31.
Proof.
  unfold int32, u32. intro H. destruct (Z_lt_ge_dec x 0) as [L|L].
  - assert (E : x mod 2 ^ 32 = x + 2 ^ 32) by (symmetry; apply Z.mod_unique with (-1); lia).
    rewrite E. replace (x + 2 ^ 32) with ((x + 2 ^ 31) + 2 ^ 31) by lia.
    rewrite (Z.add_nocarry_lxor (x + 2 ^ 31)).
    + change 0x80000000 with (2 ^ 31). rewrite Z.lxor_assoc, Z.lxor_nilpotent. apply Z.lxor_0_r.
    + apply Z.bits_inj'. intros j Hj. rewrite Z.land_spec, Z.pow2_bits_eqb, Z.bits_0 by lia.
      destruct (Z.eqb_spec 31 j) as [<-|]; [|apply Bool.andb_false_r]. rewrite (bit_small _ 31) by lia. reflexivity.
  - rewrite Z.mod_small by lia. symmetry. apply Z.add_nocarry_lxor.
    apply Z.bits_inj'. intros j Hj. rewrite Z.land_spec, Z.bits_0. change 0x80000000 with (2 ^ 31). rewrite Z.pow2_bits_eqb by lia.
    destruct (Z.eqb_spec 31 j) as [<-|]; [|apply Bool.andb_false_r]. rewrite (bit_small _ 31) by lia. reflexivity.
Qed.

Lemma odd_cases j : 0 <= j -> (exists i, 0 <= i /\ j = 2 * i /\ Z.odd j = false /\ j / 2 = i) \/ (exists i, 0 <= i /\ j = 2 * i + 1 /\ Z.odd j = true /\ j / 2 = i).
Proof.
  intro H. pose proof (Z.div_mod j 2 ltac:(lia)) as D. rewrite Zmod_odd in D. assert (0 <= j / 2) by (apply Z.div_pos; lia).
  destruct (Z.odd j); [right | left]; exists (j / 2); lia.
Qed.

Lemma z_expand_bit' n j : 0 <= n < 2 ^ 32 -> 0 <= j ->
  Z.testbit (z_expand n) j = (if Z.odd j then false else Z.testbit n (j / 2)).
Proof.
  intros Hn Hj. destruct (Z_lt_ge_dec j 64); [apply z_expand_bit; lia|].
  rewrite (bit_small _ 64) by (try apply z_expand_range; lia).
  destruct (odd_cases j Hj) as [(i & Hi & -> & -> & ->)|(i & Hi & -> & -> & _)]; [|reflexivity].
  symmetry. apply (bit_small n 32); lia.
Qed.

Lemma dbl_bit v j : 0 <= j -> Z.testbit (2 * v) j = if j =? 0 then false else Z.testbit v (j - 1).
Proof.
  intro H. destruct (Z.eqb_spec j 0) as [->|]; [apply Z.testbit_even_0|].
  replace j with (Z.succ (j - 1)) at 1 by lia. rewrite Z.testbit_even_succ by lia. reflexivity.
Qed.

Lemma z_encode_eq x y : int32 x -> int32 y -> z_encode x y = Z.lxor (2 * z_expand (y + 2 ^ 31)) (z_expand (x + 2 ^ 31)) /\ 0 <= z_encode x y < 2 ^ 64.
Proof.
  intros Hx Hy. unfold z_encode. rewrite !offset32 by assumption. cbv zeta.
  set (u := z_expand (x + 2 ^ 31)). set (v := z_expand (y + 2 ^ 31)).
  assert (Bu : forall j, 0 <= j -> Z.testbit u j = (if Z.odd j then false else Z.testbit (x + 2 ^ 31) (j / 2))) by (intros; apply z_expand_bit'; unfold int32 in *; lia).
  assert (Bv : forall j, 0 <= j -> Z.testbit v j = (if Z.odd j then false else Z.testbit (y + 2 ^ 31) (j / 2))) by (intros; apply z_expand_bit'; unfold int32 in *; lia).
  pose proof (z_expand_range (x + 2 ^ 31)) as Ru. pose proof (z_expand_range (y + 2 ^ 31)) as Rv. fold u in Ru. fold v in Rv.
  assert (R63 : v < 2 ^ 63).
  { apply range_of_bits; [lia|lia|]. intros k Hk. destruct (Z_lt_ge_dec k 64); [|apply (bit_small v 64); lia].
    assert (k = 63) by lia. subst k. rewrite Bv by lia. reflexivity. }
  clearbody u v.
  assert (Ad : v + v + u = Z.lxor (2 * v) u).
  { replace (v + v) with (2 * v) by ring. apply Z.add_nocarry_lxor. apply Z.bits_inj'. intros j Hj.
    rewrite Z.land_spec, Z.bits_0, dbl_bit by lia. destruct (Z.eqb_spec j 0); [reflexivity|].
    rewrite Bv, Bu by lia. rewrite Z.odd_sub. destruct (Z.odd j); cbn; [apply Bool.andb_false_r|reflexivity]. }
  assert (R : 0 <= Z.lxor (2 * v) u < 2 ^ 64) by (apply lxor_range; lia).
  unfold u64. rewrite (Z.mod_small (v + v)) by lia. rewrite Ad, Z.mod_small by lia. auto.
Qed.

Lemma z_encode_bit x y j : int32 x -> int32 y -> 0 <= j ->
  Z.testbit (z_encode x y) j = Z.testbit ((if Z.odd j then y else x) + 2 ^ 31) (j / 2).
Proof.
  intros Hx Hy Hj. destruct (z_encode_eq x y Hx Hy) as [-> _]. rewrite Z.lxor_spec, dbl_bit by lia.
  rewrite (z_expand_bit' (x + 2 ^ 31)) by (unfold int32 in *; lia).
  destruct (Z.eqb_spec j 0) as [->|N]; [change (Z.odd 0) with false; apply Bool.xorb_false_l|].
  rewrite z_expand_bit' by (unfold int32 in *; lia). rewrite Z.odd_sub.
  destruct (odd_cases j Hj) as [(i & Hi & -> & -> & ->)|(i & Hi & -> & -> & ->)]; cbn [xorb].
  - apply Bool.xorb_false_l.
  - replace (2 * i + 1 - 1) with (i * 2) by ring. rewrite Z.div_mul by lia. apply Bool.xorb_false_r.
Qed.

(** * C28: comparing interleaved bits *)

(** A holds the bits of a at the positions s, s + 2, s + 4 ... *)
Definition spread_of (s a A : Z) : Prop := 0 <= A /\ 0 <= a /\
  (forall i, 0 <= i -> Z.testbit A (2 * i + s) = Z.testbit a i) /\
  (forall j, 0 <= j -> (forall i, 0 <= i -> j <> 2 * i + s) -> Z.testbit A j = false).

Lemma spread_lt1 s a A b B : 0 <= s -> spread_of s a A -> spread_of s b B -> a < b -> A < B.
Proof.
  intros Hs (HA & Ha & HA1 & HA2) (HB & Hb & HB1 & HB2) H.
  destruct (lt_bits_elim a b Ha H) as (k & Hk & Ta & Tb & Hj).
  apply (lt_bits_intro A B (2 * k + s)); auto; try lia.
  - rewrite HA1 by lia. exact Ta.
  - rewrite HB1 by lia. exact Tb.
  - intros j Hjk. destruct (Z_lt_ge_dec j s); [lia|].
    destruct (odd_cases (j - s) ltac:(lia)) as [(i & Hi & E & _)|(i & Hi & E & _)].
    + replace j with (2 * i + s) by lia. rewrite HA1, HB1 by lia. apply Hj. lia.
    + rewrite HA2, HB2; auto; lia.
Qed.

Lemma spread_lt s a A b B : 0 <= s -> spread_of s a A -> spread_of s b B -> (A < B <-> a < b).
Proof.
  intros Hs SA SB. split; [|now apply (spread_lt1 s)]. intro H.
  destruct (Z.lt_trichotomy a b) as [L|[E|L]]; [assumption| |].
  - exfalso. subst b. assert (A = B); [|lia]. destruct SA as (_ & _ & HA1 & HA2), SB as (_ & _ & HB1 & HB2).
    apply Z.bits_inj'. intros j Hj. destruct (Z_lt_ge_dec j s); [rewrite HA2, HB2; auto; lia|].
    destruct (odd_cases (j - s) ltac:(lia)) as [(i & Hi & E & _)|(i & Hi & E & _)].
    + replace j with (2 * i + s) by lia. rewrite HA1, HB1 by lia. reflexivity.
    + rewrite HA2, HB2; auto; lia.
  - apply (spread_lt1 s b B a A) in L; auto. lia.
Qed.

Lemma even_bit j : 0 <= j -> Z.testbit even_bits j = negb (Z.odd j) && (j <? 64).
Proof.
  intro H. destruct (Z.ltb_spec j 64).
  - revert j H H0. assert (G : forall j, 0 <= j < 64 -> Z.testbit even_bits j = negb (Z.odd j) && true); [|intros; apply G; lia].
    apply below64. intros j Hj. cbn in Hj. repeat (destruct Hj as [<- | Hj]; [reflexivity|]). contradiction.
  - rewrite Bool.andb_false_r. apply (bit_small _ 64); unfold even_bits; lia.
Qed.

Lemma odd_bit j : 0 <= j -> Z.testbit odd_bits j = Z.odd j && (j <? 64).
Proof.
  intro H. destruct (Z.ltb_spec j 64).
  - revert j H H0. assert (G : forall j, 0 <= j < 64 -> Z.testbit odd_bits j = Z.odd j && true); [|intros; apply G; lia].
    apply below64. intros j Hj. cbn in Hj. repeat (destruct Hj as [<- | Hj]; [reflexivity|]). contradiction.
  - rewrite Bool.andb_false_r. apply (bit_small _ 64); unfold odd_bits; lia.
Qed.

Lemma odd_2i i : Z.odd (2 * i) = false.
Proof. rewrite Z.odd_mul. reflexivity. Qed.
Lemma odd_2i1 i : Z.odd (2 * i + 1) = true.
Proof. rewrite Z.odd_add, odd_2i. reflexivity. Qed.
Lemma half_2i i : 2 * i / 2 = i.
Proof. rewrite Z.mul_comm. apply Z.div_mul. lia. Qed.
Lemma half_2i1 i : (2 * i + 1) / 2 = i.
Proof. rewrite Z.add_comm, Z.mul_comm, Z.div_add by lia. change (1 / 2) with 0. lia. Qed.

Lemma code_x x y : int32 x -> int32 y -> spread_of 0 (x + 2 ^ 31) (Z.land (z_encode x y) even_bits).
Proof.
  intros Hx Hy. destruct (z_encode_eq x y Hx Hy) as [_ R]. split; [|split; [unfold int32 in *; lia|split]].
  - apply Z.land_nonneg. lia.
  - intros i Hi. rewrite Z.add_0_r, Z.land_spec, z_encode_bit, even_bit by (auto; lia). rewrite odd_2i, half_2i. cbn [negb andb].
    destruct (Z.ltb_spec (2 * i) 64); [apply Bool.andb_true_r|]. rewrite Bool.andb_false_r. symmetry. apply (bit_small _ 32); unfold int32 in *; lia.
  - intros j Hj Hn. rewrite Z.land_spec, even_bit by lia. destruct (odd_cases j Hj) as [(i & Hi & E & _)|(i & Hi & -> & -> & _)].
    + specialize (Hn i Hi). lia.
    + apply Bool.andb_false_r.
Qed.

Lemma code_y x y : int32 x -> int32 y -> spread_of 1 (y + 2 ^ 31) (Z.land (z_encode x y) odd_bits).
Proof.
  intros Hx Hy. destruct (z_encode_eq x y Hx Hy) as [_ R]. split; [|split; [unfold int32 in *; lia|split]].
  - apply Z.land_nonneg. lia.
  - intros i Hi. rewrite Z.land_spec, z_encode_bit, odd_bit by (auto; lia). rewrite odd_2i1, half_2i1. cbn [negb andb].
    destruct (Z.ltb_spec (2 * i + 1) 64); [apply Bool.andb_true_r|]. rewrite Bool.andb_false_r. symmetry. apply (bit_small _ 32); unfold int32 in *; lia.
  - intros j Hj Hn. rewrite Z.land_spec, odd_bit by lia. destruct (odd_cases j Hj) as [(i & Hi & -> & -> & _)|(i & Hi & E & _)].
    + apply Bool.andb_false_r.
    + specialize (Hn i Hi). lia.
Qed.

Lemma z_inside_spec lo hi z : z_inside lo hi z = true <->
  Z.land lo even_bits <= Z.land z even_bits <= Z.land hi even_bits /\ Z.land lo odd_bits <= Z.land z odd_bits <= Z.land hi odd_bits.
Proof.
  unfold z_inside. repeat match goal with |- context [?a <? ?b] => destruct (Z.ltb_spec a b) end; cbn [orb]; split; intro; try discriminate; try reflexivity; lia.
Qed.

Lemma z_inside_rect x0 y0 x1 y1 x y : int32 x0 -> int32 y0 -> int32 x1 -> int32 y1 -> int32 x -> int32 y ->
  (z_inside (z_encode x0 y0) (z_encode x1 y1) (z_encode x y) = true <-> in_rect x0 y0 x1 y1 x y).
Proof.
  intros X0 Y0 X1 Y1 X Y. rewrite z_inside_spec. unfold in_rect.
  pose proof (spread_lt 0 _ _ _ _ ltac:(lia) (code_x x y X Y) (code_x x0 y0 X0 Y0)).
  pose proof (spread_lt 0 _ _ _ _ ltac:(lia) (code_x x1 y1 X1 Y1) (code_x x y X Y)).
  pose proof (spread_lt 1 _ _ _ _ ltac:(lia) (code_y x y X Y) (code_y x0 y0 X0 Y0)).
  pose proof (spread_lt 1 _ _ _ _ ltac:(lia) (code_y x1 y1 X1 Y1) (code_y x y X Y)).
  lia.
Qed.

(** * Cells: the coordinates of the 256 x 256 cell of a code *)

Fixpoint ev (n : nat) (c : Z) : Z :=
  match n with O => 0 | S n => 2 * ev n (c / 4) + Z.b2z (Z.odd c) end.

Lemma ev_bit n : forall c i, 0 <= i -> Z.testbit (ev n c) i = (i <? Z.of_nat n) && Z.testbit c (2 * i).
Proof.
  induction n as [|n IH]; intros c i Hi.
  - cbn [ev]. rewrite Z.bits_0. destruct (Z.ltb_spec i (Z.of_nat 0)); [lia|reflexivity].
  - cbn [ev]. destruct (Z.eq_dec i 0) as [->|].
    + rewrite Z.testbit_0_r. change (2 * 0) with 0. rewrite Z.bit0_odd. destruct (Z.ltb_spec 0 (Z.of_nat (S n))); [reflexivity|lia].
    + replace i with (Z.succ (i - 1)) at 1 by lia. rewrite Z.testbit_succ_r, IH by lia.
      change 4 with (2 ^ 2). rewrite Z.div_pow2_bits by lia. replace (2 * (i - 1) + 2) with (2 * i) by ring.
      f_equal. destruct (Z.ltb_spec (i - 1) (Z.of_nat n)), (Z.ltb_spec i (Z.of_nat (S n))); lia.
Qed.

Lemma ev_nonneg n : forall c, 0 <= ev n c.
Proof. induction n; intro c; cbn [ev]; [lia|]. specialize (IHn (c / 4)). destruct (Z.odd c); cbn [Z.b2z]; lia. Qed.

(** Coordinate s (0: x, 1: y) of the cell of z. *)
Definition D (s z : Z) : Z := ev 24 (z / 2 ^ (16 + s)).

Definition code (z : Z) : Prop := 0 <= z < 2 ^ 64.

Lemma D_bit s z i : s = 0 \/ s = 1 -> code z -> 0 <= i -> Z.testbit (D s z) i = Z.testbit z (16 + s + 2 * i).
Proof.
  intros Hs Hz Hi. unfold D. rewrite ev_bit, Z.div_pow2_bits by lia. rewrite (Z.add_comm (2 * i)).
  destruct (Z.ltb_spec i (Z.of_nat 24)); [reflexivity|]. symmetry. apply (bit_small z 64); unfold code in *; lia.
Qed.

Lemma D_range s z : s = 0 \/ s = 1 -> code z -> 0 <= D s z < 2 ^ 24.
Proof.
  intros Hs Hz. split; [apply ev_nonneg|]. apply range_of_bits; [lia|apply ev_nonneg|].
  intros k Hk. rewrite D_bit by (auto; lia). apply (bit_small z 64); unfold code in *; lia.
Qed.

Definition cell (z : Z) : Z := z / 2 ^ 16.

Lemma cell_range z : code z -> 0 <= cell z < 2 ^ 48.
Proof. unfold code, cell. intro. split; [apply Z.div_pos; lia | apply Z.div_lt_upper_bound; lia]. Qed.

Lemma cell_bit z j : 0 <= j -> Z.testbit (cell z) j = Z.testbit z (j + 16).
Proof. intro. unfold cell. now rewrite Z.div_pow2_bits by lia. Qed.

Lemma cell_bounds z : 65536 * cell z <= z <= 65536 * cell z + 65535.
Proof. unfold cell. pose proof (Z.div_mod z (2 ^ 16) ltac:(lia)). pose proof (Z.mod_pos_bound z (2 ^ 16) ltac:(lia)). lia. Qed.

Lemma cell_bit_D z k : code z -> 0 <= k -> exists s i, (s = 0 \/ s = 1) /\ 0 <= i /\ k = s + 2 * i /\ Z.testbit (cell z) k = Z.testbit (D s z) i.
Proof.
  intros Hz Hk. destruct (odd_cases k Hk) as [(i & Hi & E & _)|(i & Hi & E & _)].
  - exists 0, i. split; [auto|split; [auto|split; [lia|]]]. rewrite D_bit, cell_bit by (auto; lia). f_equal. lia.
  - exists 1, i. split; [auto|split; [auto|split; [lia|]]]. rewrite D_bit, cell_bit by (auto; lia). f_equal. lia.
Qed.

Lemma cell_D_bit z s i : code z -> s = 0 \/ s = 1 -> 0 <= i -> Z.testbit (cell z) (s + 2 * i) = Z.testbit (D s z) i.
Proof. intros. rewrite D_bit, cell_bit by (auto; lia). f_equal. lia. Qed.

Lemma cell_mono a b : code a -> code b -> D 0 a <= D 0 b -> D 1 a <= D 1 b -> cell a <= cell b.
Proof.
  intros Ha Hb H0 H1. apply Z.le_ngt. intro L.
  destruct (lt_bits_elim (cell b) (cell a) ltac:(apply cell_range; auto) L) as (k & Hk & Tb & Ta & Hj).
  destruct (cell_bit_D a k Ha Hk) as (s & i & Hs & Hi & -> & E). rewrite E in Ta. rewrite cell_D_bit in Tb by auto.
  assert (D s b < D s a); [|destruct Hs; subst; lia].
  apply (lt_bits_intro _ _ i); auto; try (apply D_range; auto).
  intros j Hij. rewrite <- !cell_D_bit by (auto; lia). apply Hj. lia.
Qed.

Lemma inside_cells lo hi z : code lo -> code hi -> code z -> z_inside lo hi z = true ->
  lo <= z <= hi /\ D 0 lo <= D 0 z <= D 0 hi /\ D 1 lo <= D 1 z <= D 1 hi.
Proof.
  intros Hl Hh Hz H. apply z_inside_spec in H. destruct H as [Hx Hy].
  assert (G : forall a b, code a -> code b -> Z.land a even_bits <= Z.land b even_bits -> Z.land a odd_bits <= Z.land b odd_bits ->
    a <= b /\ D 0 a <= D 0 b /\ D 1 a <= D 1 b).
  { clear. intros a b Ha Hb Hx Hy.
    assert (Nn : forall m, 0 <= Z.land a m /\ 0 <= Z.land b m) by (intro m; unfold code in *; split; apply Z.land_nonneg; lia).
    split; [|split]; apply Z.le_ngt; intro L.
    - destruct (lt_bits_elim b a ltac:(unfold code in *; lia) L) as (k & Hk & Tb & Ta & Hj).
      assert (K64 : k < 64) by (destruct (Z_lt_ge_dec k 64); [assumption|]; rewrite (bit_small a 64) in Ta; [discriminate|exact Ha|lia]).
      destruct (Z.odd k) eqn:Ok.
      + assert (Z.land b odd_bits < Z.land a odd_bits); [|lia]. apply (lt_bits_intro _ _ k); try apply Nn; auto.
        * rewrite Z.land_spec, Tb. reflexivity.
        * rewrite Z.land_spec, Ta, odd_bit, Ok by lia. destruct (Z.ltb_spec k 64); [reflexivity|lia].
        * intros j Hjk. rewrite !Z.land_spec, Hj by lia. reflexivity.
      + assert (Z.land b even_bits < Z.land a even_bits); [|lia]. apply (lt_bits_intro _ _ k); try apply Nn; auto.
        * rewrite Z.land_spec, Tb. reflexivity.
        * rewrite Z.land_spec, Ta, even_bit, Ok by lia. destruct (Z.ltb_spec k 64); [reflexivity|lia].
        * intros j Hjk. rewrite !Z.land_spec, Hj by lia. reflexivity.
    - destruct (lt_bits_elim (D 0 b) (D 0 a) ltac:(apply ev_nonneg) L) as (k & Hk & Tb & Ta & Hj). rewrite D_bit in Ta, Tb by auto.
      assert (K64 : 16 + 0 + 2 * k < 64) by (destruct (Z_lt_ge_dec (16 + 0 + 2 * k) 64); [assumption|]; rewrite (bit_small a 64) in Ta; [discriminate|exact Ha|lia]).
      assert (O : Z.odd (16 + 0 + 2 * k) = false) by (replace (16 + 0 + 2 * k) with (2 * (8 + k)) by ring; apply odd_2i).
      assert (Z.land b even_bits < Z.land a even_bits); [|lia]. apply (lt_bits_intro _ _ (16 + 0 + 2 * k)); try apply Nn; [lia|..].
      + rewrite Z.land_spec, Tb. reflexivity.
      + rewrite Z.land_spec, Ta, even_bit, O by lia. destruct (Z.ltb_spec (16 + 0 + 2 * k) 64); [reflexivity|lia].
      + intros j Hjk. rewrite !Z.land_spec, even_bit by lia. destruct (odd_cases j ltac:(lia)) as [(i & Hi & E & -> & _)|(i & Hi & E & -> & _)]; [|now rewrite !Bool.andb_false_r].
        f_equal. specialize (Hj (i - 8) ltac:(lia)). rewrite !D_bit in Hj by (auto; lia). replace (16 + 0 + 2 * (i - 8)) with j in Hj by lia. auto.
    - destruct (lt_bits_elim (D 1 b) (D 1 a) ltac:(apply ev_nonneg) L) as (k & Hk & Tb & Ta & Hj). rewrite D_bit in Ta, Tb by auto.
      assert (K64 : 16 + 1 + 2 * k < 64) by (destruct (Z_lt_ge_dec (16 + 1 + 2 * k) 64); [assumption|]; rewrite (bit_small a 64) in Ta; [discriminate|exact Ha|lia]).
      assert (O : Z.odd (16 + 1 + 2 * k) = true) by (replace (16 + 1 + 2 * k) with (2 * (8 + k) + 1) by ring; apply odd_2i1).
      assert (Z.land b odd_bits < Z.land a odd_bits); [|lia]. apply (lt_bits_intro _ _ (16 + 1 + 2 * k)); try apply Nn; [lia|..].
      + rewrite Z.land_spec, Tb. reflexivity.
      + rewrite Z.land_spec, Ta, odd_bit, O by lia. destruct (Z.ltb_spec (16 + 1 + 2 * k) 64); [reflexivity|lia].
      + intros j Hjk. rewrite !Z.land_spec, odd_bit by lia. destruct (odd_cases j ltac:(lia)) as [(i & Hi & E & -> & _)|(i & Hi & E & -> & _)]; [now rewrite !Bool.andb_false_r|].
        f_equal. specialize (Hj (i - 8) ltac:(lia)). rewrite !D_bit in Hj by (auto; lia). replace (16 + 1 + 2 * (i - 8)) with j in Hj by lia. auto. }
  destruct (G lo z Hl Hz) as (A1 & A2 & A3); [lia..|]. destruct (G z hi Hz Hh) as (B1 & B2 & B3); lia.
Qed.

(** * z_split *)

Lemma smear_stage m m' n : 0 < n ->
  (forall j, 0 <= j -> (Z.testbit m' j = true <-> exists t, 0 <= t < n /\ Z.testbit m (j + 2 * t) = true)) ->
  forall j, 0 <= j -> (Z.testbit (Z.lor m' (Z.shiftr m' (2 * n))) j = true <-> exists t, 0 <= t < 2 * n /\ Z.testbit m (j + 2 * t) = true).
Proof.
  intros Hn H j Hj. rewrite Z.lor_spec, Z.shiftr_spec, Bool.orb_true_iff, !H by lia. split.
  - intros [(t & Ht & E)|(t & Ht & E)]; [exists t; split; [lia|auto] | exists (t + n); split; [lia|]].
    replace (j + 2 * (t + n)) with (j + 2 * n + 2 * t) by ring. exact E.
  - intros (t & Ht & E). destruct (Z_lt_ge_dec t n); [left; exists t; auto with zarith|]. right. exists (t - n). split; [lia|].
    replace (j + 2 * n + 2 * (t - n)) with (j + 2 * t) by ring. exact E.
Qed.

Lemma smear_bit m j : 0 <= j -> (Z.testbit (z_smear m) j = true <-> exists t, 0 <= t < 32 /\ Z.testbit m (j + 2 * t) = true).
Proof.
  assert (H0 : forall j, 0 <= j -> (Z.testbit m j = true <-> exists t, 0 <= t < 1 /\ Z.testbit m (j + 2 * t) = true)).
  { clear. intros j Hj. split.
    - intro H. exists 0. split; [lia|]. now replace (j + 2 * 0) with j by lia.
    - intros (t & Ht & E). assert (t = 0) by lia. subst t. now replace (j + 2 * 0) with j in E by lia. }
  pose proof (smear_stage m _ 1 ltac:(lia) H0) as H1. pose proof (smear_stage m _ (2 * 1) ltac:(lia) H1) as H2.
  pose proof (smear_stage m _ (2 * (2 * 1)) ltac:(lia) H2) as H3. pose proof (smear_stage m _ (2 * (2 * (2 * 1))) ltac:(lia) H3) as H4.
  exact (smear_stage m _ (2 * (2 * (2 * (2 * 1)))) ltac:(lia) H4 j).
Qed.

(** The mask z_split builds. *)
Definition split_mask (lo hi : Z) : Z :=
  z_smear (if Z.land (Z.lxor lo hi) even_bits <? Z.land (Z.lxor lo hi) odd_bits
           then Z.land (Z.lxor lo hi) odd_bits else Z.land (Z.lxor lo hi) even_bits).

Lemma max_bit d p : code d -> 0 <= p < 64 -> Z.testbit d p = true -> (forall j, p < j -> Z.testbit d j = false) ->
  forall j, 0 <= j -> Z.testbit (if Z.land d even_bits <? Z.land d odd_bits then Z.land d odd_bits else Z.land d even_bits) j =
    Z.testbit d j && Bool.eqb (Z.odd j) (Z.odd p).
Proof.
  intros Rd P64 Dp Da.
  assert (Nn : forall k, 0 <= Z.land d k) by (intro; apply Z.land_nonneg; unfold code in Rd; lia).
  pose proof (even_bit p ltac:(lia)) as Ep. pose proof (odd_bit p ltac:(lia)) as Op'.
  destruct (Z.ltb_spec p 64); [|lia]. rewrite Bool.andb_true_r in Ep, Op'.
  assert (Above : forall j, p < j -> forall k, Z.testbit (Z.land d k) j = false) by (intros j Hj k; now rewrite Z.land_spec, Da by lia).
  destruct (Z.odd p) eqn:Op; cbn [negb] in Ep.
  - assert (L : Z.land d even_bits < Z.land d odd_bits).
    { apply (lt_bits_intro _ _ p); [lia|apply Nn|apply Nn| | |].
      - rewrite Z.land_spec, Dp, Ep. reflexivity.
      - rewrite Z.land_spec, Dp, Op'. reflexivity.
      - intros j Hj. rewrite !Above by lia. reflexivity. }
    intros j Hj. destruct (Z.ltb_spec (Z.land d even_bits) (Z.land d odd_bits)); [|lia].
    rewrite Z.land_spec, odd_bit by lia. destruct (Z.ltb_spec j 64).
    + rewrite Bool.andb_true_r. now destruct (Z.odd j).
    + rewrite (Da j) by lia. reflexivity.
  - assert (L : Z.land d odd_bits < Z.land d even_bits).
    { apply (lt_bits_intro _ _ p); [lia|apply Nn|apply Nn| | |].
      - rewrite Z.land_spec, Dp, Op'. reflexivity.
      - rewrite Z.land_spec, Dp, Ep. reflexivity.
      - intros j Hj. rewrite !Above by lia. reflexivity. }
    intros j Hj. destruct (Z.ltb_spec (Z.land d even_bits) (Z.land d odd_bits)); [lia|].
    rewrite Z.land_spec, even_bit by lia. destruct (Z.ltb_spec j 64).
    + rewrite Bool.andb_true_r. now destruct (Z.odd j).
    + rewrite (Da j) by lia. reflexivity.
Qed.

Lemma split_mask_bit lo hi p : code lo -> code hi -> 0 <= p ->
  Z.testbit lo p <> Z.testbit hi p -> (forall j, p < j -> Z.testbit lo j = Z.testbit hi j) ->
  forall j, 0 <= j -> Z.testbit (split_mask lo hi) j = (j <=? p) && Bool.eqb (Z.odd j) (Z.odd p).
Proof.
  intros Hl Hh Hp Hd Ht.
  unfold split_mask. remember (Z.lxor lo hi) as d eqn:Ed.
  assert (Rd : code d) by (subst d; apply lxor_range; auto; lia).
  assert (Dp : Z.testbit d p = true).
  { subst d. rewrite Z.lxor_spec. destruct (Z.testbit lo p), (Z.testbit hi p); auto; congruence. }
  assert (P64 : p < 64) by (destruct (Z_lt_ge_dec p 64); [assumption|]; rewrite (bit_small d 64) in Dp; [discriminate|exact Rd|lia]).
  assert (Da : forall j, p < j -> Z.testbit d j = false).
  { intros j Hj. subst d. rewrite Z.lxor_spec, Ht by lia. apply xorb_nilpotent. }
  pose proof (max_bit d p Rd ltac:(lia) Dp Da) as Bm.
  remember (if Z.land d even_bits <? Z.land d odd_bits then Z.land d odd_bits else Z.land d even_bits) as m eqn:Em. clear Em.
  intros j Hj. apply Bool.eq_iff_eq_true.
  rewrite smear_bit, Bool.andb_true_iff, Z.leb_le, Bool.eqb_true_iff by lia. split.
  - intros (t & Ht32 & E). rewrite Bm in E by lia. apply Bool.andb_true_iff in E. destruct E as [E1 E2].
    rewrite Bool.eqb_true_iff, Z.odd_add, odd_2i, Bool.xorb_false_r in E2. split; [|assumption].
    destruct (Z_lt_ge_dec p (j + 2 * t)); [rewrite Da in E1 by lia; discriminate|lia].
  - intros [Hjp Ho]. exists ((p - j) / 2). pose proof (Z.div_mod (p - j) 2 ltac:(lia)) as DM.
    rewrite Zmod_odd, Z.odd_sub, Ho, xorb_nilpotent in DM. split; [lia|]. replace (j + 2 * ((p - j) / 2)) with p by lia.
    rewrite Bm, Dp, Bool.eqb_reflx by lia. reflexivity.
Qed.

Lemma not64_bit n j : code n -> 0 <= j -> Z.testbit (not64 n) j = (j <? 64) && negb (Z.testbit n j).
Proof.
  intros Hn Hj. unfold not64. rewrite Z.lxor_spec. change (2 ^ 64 - 1) with (Z.ones 64).
  destruct (Z.ltb_spec j 64).
  - rewrite Z.ones_spec_low by lia. now destruct (Z.testbit n j).
  - rewrite Z.ones_spec_high, (bit_small n 64) by (auto; lia). reflexivity.
Qed.

Lemma mask16_bit j : 0 <= j -> Z.testbit (2 ^ 64 - 65536) j = (16 <=? j) && (j <? 64).
Proof.
  intro H. change (2 ^ 64 - 65536) with (Z.shiftl (Z.ones 48) 16). rewrite Z.shiftl_spec by lia.
  destruct (Z.leb_spec 16 j), (Z.ltb_spec j 64); cbn [andb].
  - apply Z.ones_spec_low. lia.
  - apply Z.ones_spec_high. lia.
  - apply Z.testbit_neg_r. lia.
  - apply Z.testbit_neg_r. lia.
Qed.

Definition split_jo (lo hi : Z) : Z :=
  Z.land (Z.lor (Z.land hi (not64 (split_mask lo hi))) (Z.shiftr (split_mask lo hi) 2)) (2 ^ 64 - 65536).
Definition split_ji (lo hi : Z) : Z :=
  Z.land (Z.land (Z.lor lo (split_mask lo hi)) (not64 (Z.shiftr (split_mask lo hi) 2))) (2 ^ 64 - 65536).

Lemma z_split_eq lo hi : z_split lo hi = (0x010000 <? u64 (split_ji lo hi - split_jo lo hi), split_jo lo hi, split_ji lo hi).
Proof. unfold z_split, split_jo, split_ji, split_mask. cbv zeta. reflexivity. Qed.

Lemma split_codes lo hi : code (split_jo lo hi) /\ code (split_ji lo hi) /\ split_jo lo hi mod 2 ^ 16 = 0 /\ split_ji lo hi mod 2 ^ 16 = 0.
Proof.
  assert (G : forall x, code (Z.land x (2 ^ 64 - 65536)) /\ Z.land x (2 ^ 64 - 65536) mod 2 ^ 16 = 0).
  { intro x. split; [rewrite Z.land_comm; apply land_range_l; lia|].
    apply Z.bits_inj'. intros j Hj. rewrite Z.bits_0. destruct (Z_lt_ge_dec j 16).
    - rewrite Z.mod_pow2_bits_low, Z.land_spec, mask16_bit by lia. destruct (Z.leb_spec 16 j); [lia|]. apply Bool.andb_false_r.
    - apply Z.mod_pow2_bits_high. lia. }
  pose proof (G (Z.lor (Z.land hi (not64 (split_mask lo hi))) (Z.shiftr (split_mask lo hi) 2))).
  pose proof (G (Z.land (Z.lor lo (split_mask lo hi)) (not64 (Z.shiftr (split_mask lo hi) 2)))).
  unfold split_jo, split_ji. tauto.
Qed.

Lemma mask_code lo hi p : code lo -> code hi -> 0 <= p ->
  Z.testbit lo p <> Z.testbit hi p -> (forall j, p < j -> Z.testbit lo j = Z.testbit hi j) -> code (split_mask lo hi).
Proof.
  intros Hl Hh Hp Hd Ht. pose proof (split_mask_bit lo hi p Hl Hh Hp Hd Ht) as B.
  assert (P64 : p < 64).
  { destruct (Z_lt_ge_dec p 64); [assumption|]. exfalso. apply Hd. rewrite !(bit_small _ 64); auto; lia. }
  assert (0 <= split_mask lo hi).
  { unfold split_mask, z_smear. destruct (_ <? _); repeat first [apply Z.lor_nonneg; split | apply Z.shiftr_nonneg]; apply Z.land_nonneg; right; discriminate. }
  split; [assumption|]. apply range_of_bits; [lia|assumption|]. intros k Hk. rewrite B by lia. destruct (Z.leb_spec k p); [lia|reflexivity].
Qed.

Lemma jo_bit lo hi p j : code lo -> code hi -> 0 <= p ->
  Z.testbit lo p <> Z.testbit hi p -> (forall j, p < j -> Z.testbit lo j = Z.testbit hi j) -> 16 <= j ->
  Z.testbit (split_jo lo hi) j = if Bool.eqb (Z.odd j) (Z.odd p) then (if j <? p then true else if j =? p then false else Z.testbit hi j) else Z.testbit hi j.
Proof.
  intros Hl Hh Hp Hd Ht Hj. pose proof (split_mask_bit lo hi p Hl Hh Hp Hd Ht) as B. pose proof (mask_code lo hi p Hl Hh Hp Hd Ht) as Mc.
  assert (P64 : p < 64).
  { destruct (Z_lt_ge_dec p 64); [assumption|]. exfalso. apply Hd. rewrite !(bit_small _ 64); auto; lia. }
  unfold split_jo. rewrite Z.land_spec, Z.lor_spec, Z.land_spec, not64_bit, Z.shiftr_spec, mask16_bit, !B by (auto; lia).
  rewrite Z.odd_add. change (Z.odd 2) with false. rewrite Bool.xorb_false_r.
  destruct (Bool.eqb_spec (Z.odd j) (Z.odd p)) as [E|E].
  - destruct (Z.leb_spec 16 j); [|lia]. rewrite !Bool.andb_true_r. cbn [andb].
    destruct (Z.ltb_spec j 64).
    + destruct (Z.leb_spec j p), (Z.leb_spec (j + 2) p), (Z.ltb_spec j p), (Z.eqb_spec j p); try lia; cbn [negb andb orb]; rewrite ?Bool.andb_true_r, ?Bool.orb_false_r, ?Bool.andb_false_r; auto.
      (* j = p - 1 has the other parity *)
      exfalso. assert (j = p - 1) by lia. subst j. rewrite Z.odd_sub in E. destruct (Z.odd p); discriminate.
    + rewrite Bool.andb_false_r. destruct (Z.ltb_spec j p), (Z.eqb_spec j p); try lia. symmetry. apply (bit_small hi 64); auto; lia.
  - rewrite !Bool.andb_false_r. destruct (Z.leb_spec 16 j); [|lia]. cbn [negb andb]. rewrite Bool.orb_false_r, Bool.andb_true_r.
    destruct (Z.ltb_spec j 64); [now rewrite !Bool.andb_true_r|]. rewrite (bit_small hi 64) by (auto; lia). reflexivity.
Qed.

Lemma ji_bit lo hi p j : code lo -> code hi -> 0 <= p ->
  Z.testbit lo p <> Z.testbit hi p -> (forall j, p < j -> Z.testbit lo j = Z.testbit hi j) -> 16 <= j ->
  Z.testbit (split_ji lo hi) j = if Bool.eqb (Z.odd j) (Z.odd p) then (if j <? p then false else if j =? p then true else Z.testbit lo j) else Z.testbit lo j.
Proof.
  intros Hl Hh Hp Hd Ht Hj. pose proof (split_mask_bit lo hi p Hl Hh Hp Hd Ht) as B. pose proof (mask_code lo hi p Hl Hh Hp Hd Ht) as Mc.
  assert (P64 : p < 64).
  { destruct (Z_lt_ge_dec p 64); [assumption|]. exfalso. apply Hd. rewrite !(bit_small _ 64); auto; lia. }
  assert (Sc : code (Z.shiftr (split_mask lo hi) 2)).
  { rewrite Z.shiftr_div_pow2 by lia. unfold code in *. split; [apply Z.div_pos; lia|apply Z.div_lt_upper_bound; lia]. }
  unfold split_ji. rewrite !Z.land_spec, Z.lor_spec, not64_bit, Z.shiftr_spec, mask16_bit, !B by (auto; lia).
  rewrite Z.odd_add. change (Z.odd 2) with false. rewrite Bool.xorb_false_r.
  destruct (Bool.eqb_spec (Z.odd j) (Z.odd p)) as [E|E].
  - destruct (Z.leb_spec 16 j); [|lia]. rewrite !Bool.andb_true_r. cbn [andb].
    destruct (Z.ltb_spec j 64).
    + destruct (Z.leb_spec j p), (Z.leb_spec (j + 2) p), (Z.ltb_spec j p), (Z.eqb_spec j p); try lia; cbn [negb andb orb]; rewrite ?Bool.andb_true_r, ?Bool.orb_false_r, ?Bool.andb_false_r, ?Bool.orb_true_r; auto.
      exfalso. assert (j = p - 1) by lia. subst j. rewrite Z.odd_sub in E. destruct (Z.odd p); discriminate.
    + rewrite Bool.andb_false_r. destruct (Z.ltb_spec j p), (Z.eqb_spec j p); try lia. symmetry. apply (bit_small lo 64); auto; lia.
  - rewrite !Bool.andb_false_r. destruct (Z.leb_spec 16 j); [|lia]. cbn [negb andb]. rewrite Bool.orb_false_r, Bool.andb_true_r.
    destruct (Z.ltb_spec j 64); [now rewrite !Bool.andb_true_r|]. rewrite (bit_small lo 64) by (auto; lia). reflexivity.
Qed.

(** A box in cells, and what splitting it does. *)
Definition box (lo hi : Z) : Prop := code lo /\ code hi /\ D 0 lo <= D 0 hi /\ D 1 lo <= D 1 hi.
Definition inbox (lo hi z : Z) : Prop := D 0 lo <= D 0 z <= D 0 hi /\ D 1 lo <= D 1 z <= D 1 hi.

Lemma boundary_up a n q : 0 <= a -> 0 <= n -> 0 <= q ->
  (forall i, q < i -> Z.testbit n i = Z.testbit a i) -> Z.testbit n q = true -> (forall i, 0 <= i < q -> Z.testbit n i = false) ->
  n = a / 2 ^ (q + 1) * 2 ^ (q + 1) + 2 ^ q.
Proof.
  intros Ha Hn Hq H1 H2 H3. rewrite (Z.div_mod n (2 ^ (q + 1))) by (apply Z.pow_nonzero; lia).
  f_equal.
  - rewrite Z.mul_comm. f_equal. apply Z.bits_inj'. intros j Hj. rewrite !Z.div_pow2_bits by lia. apply H1. lia.
  - apply Z.bits_inj'. intros j Hj. rewrite Z.pow2_bits_eqb by lia. destruct (Z_lt_ge_dec j (q + 1)).
    + rewrite Z.mod_pow2_bits_low by lia. destruct (Z.eqb_spec q j) as [<-|]; [assumption|]. apply H3. lia.
    + rewrite Z.mod_pow2_bits_high by lia. destruct (Z.eqb_spec q j); [lia|reflexivity].
Qed.

Lemma boundary_down a n q : 0 <= a -> 0 <= n -> 0 <= q ->
  (forall i, q < i -> Z.testbit n i = Z.testbit a i) -> Z.testbit n q = false -> (forall i, 0 <= i < q -> Z.testbit n i = true) ->
  n = a / 2 ^ (q + 1) * 2 ^ (q + 1) + 2 ^ q - 1.
Proof.
  intros Ha Hn Hq H1 H2 H3. rewrite (Z.div_mod n (2 ^ (q + 1))) by (apply Z.pow_nonzero; lia).
  rewrite <- Z.add_sub_assoc. f_equal.
  - rewrite Z.mul_comm. f_equal. apply Z.bits_inj'. intros j Hj. rewrite !Z.div_pow2_bits by lia. apply H1. lia.
  - replace (2 ^ q - 1) with (Z.ones q) by (rewrite Z.ones_equiv; lia). apply Z.bits_inj'. intros j Hj. destruct (Z_lt_ge_dec j (q + 1)).
    + rewrite Z.mod_pow2_bits_low by lia. destruct (Z.eq_dec q j) as [<-|]; [rewrite Z.ones_spec_high by lia; assumption|].
      rewrite Z.ones_spec_low by lia. apply H3. lia.
    + rewrite Z.mod_pow2_bits_high, Z.ones_spec_high by lia. reflexivity.
Qed.

(** The halves of a split in direction s at the boundary b, a multiple of 2^q. *)
Definition halves (s q lo hi jo ji : Z) : Prop :=
  D s ji mod 2 ^ q = 0 /\ D s lo < D s ji <= D s hi /\ D s jo = D s ji - 1 /\
  D (1 - s) jo = D (1 - s) hi /\ D (1 - s) ji = D (1 - s) lo /\ Z.lxor (D s lo) (D s hi) < 2 ^ (q + 1) /\
  Z.lxor (D s lo) (D s jo) < 2 ^ q /\ Z.lxor (D s ji) (D s hi) < 2 ^ q /\ 2 ^ q <= Z.lxor (D s lo) (D s hi).

Lemma bit_le x q : 0 <= x -> 0 <= q -> Z.testbit x q = true -> 2 ^ q <= x.
Proof. intros Hx Hq H. apply Z.le_ngt. intro L. rewrite (bit_small x q q) in H by lia. discriminate. Qed.

Lemma xor_below a b q : 0 <= a -> 0 <= b -> 0 <= q -> (forall i, q <= i -> Z.testbit a i = Z.testbit b i) -> Z.lxor a b < 2 ^ q.
Proof.
  intros Ha Hb Hq H. apply range_of_bits; [assumption|apply Z.lxor_nonneg; tauto|].
  intros k Hk. rewrite Z.lxor_spec, H by lia. apply xorb_nilpotent.
Qed.

Lemma split_spec lo hi : box lo hi -> let '(more, jo, ji) := z_split lo hi in
  code jo /\ code ji /\ jo mod 2 ^ 16 = 0 /\ ji mod 2 ^ 16 = 0 /\
  ((cell lo = cell hi /\ more = false) \/
   (cell jo < cell ji /\ exists s q, (s = 0 \/ s = 1) /\ 0 <= q < 24 /\ halves s q lo hi jo ji)).
Proof.
  intros (Hl & Hh & H0 & H1). rewrite z_split_eq. destruct (split_codes lo hi) as (Cj & Ci & Mj & Mi).
  set (jo := split_jo lo hi) in *. set (ji := split_ji lo hi) in *.
  split; [assumption|]. split; [assumption|]. split; [assumption|]. split; [assumption|].
  destruct (Z.eq_dec lo hi) as [Eq|Neq].
  { left. split; [now f_equal|]. subst hi. apply Z.ltb_ge.
    assert (Em : split_mask lo lo = 0) by (unfold split_mask; rewrite Z.lxor_nilpotent; reflexivity).
    assert (ji = jo); [|replace (ji - jo) with 0 by lia; unfold u64; rewrite Z.mod_0_l; lia].
    unfold ji, jo, split_ji, split_jo. rewrite Em. change (Z.shiftr 0 2) with 0. rewrite !Z.lor_0_r. reflexivity. }
  unfold code in Hl, Hh. destruct (top_differing lo hi ltac:(lia) ltac:(lia) Neq) as (p & Hp & Hd & Ha).
  assert (Bjo := fun j => jo_bit lo hi p j Hl Hh Hp Hd Ha). assert (Bji := fun j => ji_bit lo hi p j Hl Hh Hp Hd Ha).
  fold jo in Bjo. fold ji in Bji. clearbody jo ji.
  assert (P64 : p < 64).
  { destruct (Z_lt_ge_dec p 64); [assumption|]. exfalso. apply Hd. rewrite !(bit_small _ 64); auto; lia. }
  destruct (Z_lt_ge_dec p 16) as [Hs|Hs].
  - left. assert (Ec : cell lo = cell hi).
    { apply Z.bits_inj'. intros j Hj. rewrite !cell_bit by lia. apply Ha. lia. }
    split; [assumption|]. apply Z.ltb_ge.
    assert (ji = jo); [|replace (ji - jo) with 0 by lia; unfold u64; rewrite Z.mod_0_l; lia].
    assert (cell ji = cell jo).
    { apply Z.bits_inj'. intros j Hj. rewrite !cell_bit, Bji, Bjo by lia.
      destruct (Z.ltb_spec (j + 16) p), (Z.eqb_spec (j + 16) p); try lia. rewrite Ha by lia. reflexivity. }
    unfold cell in *. pose proof (Z.div_mod ji (2 ^ 16) ltac:(lia)). pose proof (Z.div_mod jo (2 ^ 16) ltac:(lia)). lia.
  - right.
    assert (Sq : exists s q, (s = 0 \/ s = 1) /\ 0 <= q < 24 /\ p = 16 + s + 2 * q /\ Z.odd p = (s =? 1)).
    { destruct (odd_cases (p - 16) ltac:(lia)) as [(i & Hi & E & O & _)|(i & Hi & E & O & _)]; rewrite Z.odd_sub in O; cbn in O; rewrite Bool.xorb_false_r in O.
      - exists 0, i. rewrite O. repeat split; auto; lia.
      - exists 1, i. rewrite O. repeat split; auto; lia. }
    destruct Sq as (s & q & Ss & Hq & Ep & Op).
    assert (S1 : 1 - s = 0 \/ 1 - s = 1) by lia.
    assert (O1 : forall i, Z.odd (16 + s + 2 * i) = (s =? 1)).
    { intro i. rewrite Z.odd_add, odd_2i, Bool.xorb_false_r, Z.odd_add. destruct Ss; subst; reflexivity. }
    assert (O2 : forall i, Z.odd (16 + (1 - s) + 2 * i) = negb (s =? 1)).
    { intro i. rewrite Z.odd_add, odd_2i, Bool.xorb_false_r, Z.odd_add. destruct Ss; subst; reflexivity. }
    assert (Rlo := D_range s lo Ss Hl). assert (Rhi := D_range s hi Ss Hh). assert (Rjo := D_range s jo Ss Cj). assert (Rji := D_range s ji Ss Ci).
    (* bits of the coordinates *)
    assert (Lq : Z.testbit (D s lo) q <> Z.testbit (D s hi) q) by (rewrite !D_bit by (auto; lia); rewrite <- Ep; assumption).
    assert (La : forall i, q < i -> Z.testbit (D s lo) i = Z.testbit (D s hi) i) by (intros i Hi; rewrite !D_bit by (auto; lia); apply Ha; lia).
    assert (Ll : Z.testbit (D s lo) q = false /\ Z.testbit (D s hi) q = true).
    { destruct (Z.testbit (D s lo) q) eqn:E1, (Z.testbit (D s hi) q) eqn:E2; auto; try congruence. exfalso.
      assert (D s hi < D s lo); [|destruct Ss; subst s; lia]. apply (lt_bits_intro _ _ q); auto; try lia. intros; symmetry; auto. }
    destruct Ll as [Llo Lhi].
    assert (Jb : forall i, 0 <= i -> Z.testbit (D s jo) i = if i <? q then true else if i =? q then false else Z.testbit (D s lo) i).
    { intros i Hi. rewrite D_bit, Bjo, O1, Op, Bool.eqb_reflx by (auto; lia).
      destruct (Z.ltb_spec (16 + s + 2 * i) p), (Z.ltb_spec i q), (Z.eqb_spec (16 + s + 2 * i) p), (Z.eqb_spec i q); try lia; auto.
      rewrite La by lia. rewrite D_bit by (auto; lia). reflexivity. }
    assert (Ib : forall i, 0 <= i -> Z.testbit (D s ji) i = if i <? q then false else if i =? q then true else Z.testbit (D s lo) i).
    { intros i Hi. rewrite D_bit, Bji, O1, Op, Bool.eqb_reflx by (auto; lia).
      destruct (Z.ltb_spec (16 + s + 2 * i) p), (Z.ltb_spec i q), (Z.eqb_spec (16 + s + 2 * i) p), (Z.eqb_spec i q); try lia; auto.
      rewrite D_bit by (auto; lia). reflexivity. }
    assert (Other : D (1 - s) jo = D (1 - s) hi /\ D (1 - s) ji = D (1 - s) lo).
    { split; apply Z.bits_inj'; intros i Hi; rewrite !D_bit by auto; [rewrite Bjo by lia|rewrite Bji by lia]; rewrite O2, Op; destruct (s =? 1); reflexivity. }
    assert (Eji : D s ji = D s lo / 2 ^ (q + 1) * 2 ^ (q + 1) + 2 ^ q).
    { apply boundary_up; try lia.
      - intros i Hi. rewrite Ib by lia. destruct (Z.ltb_spec i q), (Z.eqb_spec i q); try lia; auto.
      - rewrite Ib by lia. destruct (Z.ltb_spec q q), (Z.eqb_spec q q); try lia; auto.
      - intros i Hi. rewrite Ib by lia. destruct (Z.ltb_spec i q); [reflexivity|lia]. }
    assert (Ejo : D s jo = D s lo / 2 ^ (q + 1) * 2 ^ (q + 1) + 2 ^ q - 1).
    { apply boundary_down; try lia.
      - intros i Hi. rewrite Jb by lia. destruct (Z.ltb_spec i q), (Z.eqb_spec i q); try lia; auto.
      - rewrite Jb by lia. destruct (Z.ltb_spec q q), (Z.eqb_spec q q); try lia; auto.
      - intros i Hi. rewrite Jb by lia. destruct (Z.ltb_spec i q); [reflexivity|lia]. }
    split.
    + (* the order of the halves *)
      apply (lt_bits_intro _ _ (s + 2 * q)); [lia|apply cell_range; auto|apply cell_range; auto| | |].
      * rewrite cell_D_bit, Jb by (auto; lia). destruct (Z.ltb_spec q q), (Z.eqb_spec q q); try lia; auto.
      * rewrite cell_D_bit, Ib by (auto; lia). destruct (Z.ltb_spec q q), (Z.eqb_spec q q); try lia; auto.
      * intros j Hj. rewrite !cell_bit, Bjo, Bji by lia. destruct (Z.ltb_spec (j + 16) p), (Z.eqb_spec (j + 16) p); try lia. rewrite Ha by lia. reflexivity.
    + exists s, q. split; [assumption|]. split; [assumption|]. split; [|split; [|split; [|split; [|split; [|split; [|split; [|split]]]]]]]; try tauto.
      * rewrite Eji. rewrite Z.pow_add_r, Z.mul_assoc by lia. change (2 ^ 1) with 2.
        generalize (D s lo / (2 ^ q * 2)). intro h. generalize (Z.pow_nonzero 2 q ltac:(lia) ltac:(lia)). generalize (2 ^ q). intros w Hw.
        replace (h * w * 2 + w) with ((h * 2 + 1) * w) by ring. now apply Z.mod_mul.
      * split.
        -- apply (lt_bits_intro _ _ q); try lia; auto.
           ++ rewrite Ib by lia. destruct (Z.ltb_spec q q), (Z.eqb_spec q q); try lia; auto.
           ++ intros i Hi. rewrite Ib by lia. destruct (Z.ltb_spec i q), (Z.eqb_spec i q); try lia; auto.
        -- apply Z.le_ngt. intro L. destruct (lt_bits_elim (D s hi) (D s ji) ltac:(lia) L) as (k & Hk & T1 & T2 & Hab).
           rewrite Ib in T2 by lia. destruct (Z.ltb_spec k q); [discriminate|]. destruct (Z.eqb_spec k q) as [->|]; [congruence|].
           rewrite La in T2 by lia. congruence.
      * lia.
      * apply xor_below; try lia. intros i Hi. apply La. lia.
      * apply xor_below; try lia. intros i Hi. rewrite Jb by lia. destruct (Z.ltb_spec i q), (Z.eqb_spec i q); try lia; auto. now subst.
      * apply xor_below; try lia. intros i Hi. rewrite Ib by lia. destruct (Z.ltb_spec i q), (Z.eqb_spec i q); try lia; subst; auto. apply La. lia.
      * apply bit_le; [apply Z.lxor_nonneg; lia|lia|]. rewrite Z.lxor_spec, Llo, Lhi. reflexivity.
Qed.

Global Opaque D.

Lemma halves_box s q lo hi jo ji : box lo hi -> code jo -> code ji -> s = 0 \/ s = 1 -> halves s q lo hi jo ji ->
  box lo jo /\ box ji hi /\ forall z, inbox lo hi z -> inbox lo jo z \/ inbox ji hi z.
Proof.
  unfold box, inbox, halves. intros (Hl & Hh & H0 & H1) Cj Ci [-> | ->] (A1 & A2 & A3 & A4 & A5 & _);
    [change (1 - 0) with 1 in * | change (1 - 1) with 0 in *]; (split; [|split]);
    try (split; [assumption|split; [assumption|lia]]).
  - intros z [Z0 Z1]. destruct (Z_lt_ge_dec (D 0 z) (D 0 ji)); [left | right]; lia.
  - intros z [Z0 Z1]. destruct (Z_lt_ge_dec (D 1 z) (D 1 ji)); [left | right]; lia.
Qed.

(** * How often a box can be split *)

(** At most n more splits in a direction where the box covers [a, b]. *)
Definition P (n a b : Z) : Prop := exists k, 0 <= k /\ ((Z.lxor a b < 2 ^ k /\ k <= n) \/ (b - a < 2 ^ k /\ k + 1 <= n)).

Lemma same_high a b k : 0 <= a -> 0 <= b -> 0 <= k -> a / 2 ^ k = b / 2 ^ k -> Z.lxor a b < 2 ^ k.
Proof.
  intros Ha Hb Hk E. apply xor_below; auto. intros i Hi.
  replace i with (i - k + k) by lia. rewrite <- !Z.div_pow2_bits by lia. now rewrite E.
Qed.

Lemma P_split n s q lo hi jo ji : box lo hi -> code jo -> code ji -> s = 0 \/ s = 1 -> 0 <= q -> halves s q lo hi jo ji -> P n (D s lo) (D s hi) ->
  P (n - 1) (D s lo) (D s jo) /\ P (n - 1) (D s ji) (D s hi) /\ 1 <= n.
Proof.
  intros (Hl & Hh & _) Cj Ci Hs Hq (M & R & J & _ & _ & X1 & X2 & X3 & X4) (k & Hk & H).
  assert (Q : q < k -> k <= n -> P (n - 1) (D s lo) (D s jo) /\ P (n - 1) (D s ji) (D s hi) /\ 1 <= n).
  { intros. split; [|split; [|lia]]; exists q; (split; [assumption|]); left; lia. }
  destruct H as [[H Kn]|[H Kn]].
  - apply Q; [|assumption]. apply (Z.pow_lt_mono_r_iff 2); lia.
  - destruct (Z_lt_ge_dec q k); [apply Q; lia|].
    assert (Mk : D s ji mod 2 ^ k = 0).
    { replace q with ((q - k) + k) in M by lia. rewrite Z.pow_add_r in M by lia.
      apply Z.mod_divide; [apply Z.pow_nonzero; lia|]. apply Z.mod_divide in M; [|nia].
      destruct M as [w Hw]. exists (w * 2 ^ (q - k)). rewrite Hw. ring. }
    assert (W : 0 < 2 ^ k) by (apply Z.pow_pos_nonneg; lia).
    pose proof (Z.div_mod (D s ji) (2 ^ k) ltac:(lia)) as DM. rewrite Mk, Z.add_0_r in DM.
    pose proof (D_range s lo Hs Hl). pose proof (D_range s hi Hs Hh). pose proof (D_range s jo Hs Cj). pose proof (D_range s ji Hs Ci).
    set (w := D s ji / 2 ^ k) in *. clearbody w.
    split; [|split; [|lia]]; exists k; (split; [assumption|]); left; (split; [|lia]); apply same_high; try lia.
    + transitivity (w - 1); [symmetry; apply Z.div_unique with (D s lo - 2 ^ k * (w - 1)) | apply Z.div_unique with (D s jo - 2 ^ k * (w - 1))]; nia.
    + transitivity w; [symmetry; apply Z.div_unique with (D s ji - 2 ^ k * w) | apply Z.div_unique with (D s hi - 2 ^ k * w)]; nia.
Qed.

Lemma P_nonneg n a b : P n a b -> 0 <= n.
Proof. intros (k & Hk & H). lia. Qed.

Definition pot (n lo hi : Z) : Prop := exists nx ny, P nx (D 0 lo) (D 0 hi) /\ P ny (D 1 lo) (D 1 hi) /\ nx + ny <= n.

Lemma pot_split n s q lo hi jo ji : box lo hi -> code jo -> code ji -> s = 0 \/ s = 1 -> 0 <= q -> halves s q lo hi jo ji -> pot n lo hi ->
  pot (n - 1) lo jo /\ pot (n - 1) ji hi /\ 1 <= n.
Proof.
  intros B Cj Ci Hs Hq H (nx & ny & Hx & Hy & Hn). pose proof (P_nonneg _ _ _ Hx). pose proof (P_nonneg _ _ _ Hy).
  pose proof H as (_ & _ & _ & O1 & O2 & _).
  destruct Hs as [-> | ->]; [change (1 - 0) with 1 in * | change (1 - 1) with 0 in *].
  - destruct (P_split nx 0 q lo hi jo ji B Cj Ci ltac:(now left) Hq H Hx) as (A1 & A2 & A3).
    split; [|split; [|lia]]; exists (nx - 1), ny; (split; [assumption|split; [|lia]]); congruence.
  - destruct (P_split ny 1 q lo hi jo ji B Cj Ci ltac:(now right) Hq H Hy) as (A1 & A2 & A3).
    split; [|split; [|lia]]; exists nx, (ny - 1); (split; [|split; [assumption|lia]]); congruence.
Qed.

Lemma pot_always lo hi : code lo -> code hi -> pot 48 lo hi.
Proof.
  intros Hl Hh.
  assert (G : forall s, s = 0 \/ s = 1 -> P 24 (D s lo) (D s hi)).
  { intros s Hs. exists 24. split; [lia|]. left. split; [|lia]. apply lxor_range; [lia|apply D_range; auto|apply D_range; auto]. }
  exists 24, 24. split; [apply G; auto|]. split; [apply G; auto|lia].
Qed.

(** * The binary search *)

Definition nthz (l : list Z) (i : Z) : option Z := if i <? 0 then None else nth_error l (Z.to_nat i).

Lemma getz_ok (l : list Z) i : 0 <= i < Z.of_nat (length l) -> exists v, getz l i = Ok v /\ nthz l i = Some v.
Proof.
  intro H. unfold getz, get, nthz. destruct (Z.ltb_spec i 0); [lia|].
  destruct (nth_error l (Z.to_nat i)) eqn:E; [eauto|]. apply nth_error_None in E. lia.
Qed.

Lemma asc_nthz l i j a b : ascending l -> i <= j -> nthz l i = Some a -> nthz l j = Some b -> a <= b.
Proof.
  unfold nthz. intros A L Hi Hj. destruct (Z.ltb_spec i 0); [discriminate|]. destruct (Z.ltb_spec j 0); [discriminate|].
  destruct (Z.eq_dec i j) as [->|]; [rewrite Hi in Hj; injection Hj; lia|].
  apply (A (Z.to_nat i) (Z.to_nat j) a b); auto. lia.
Qed.

Lemma lower_loop_ok fuel : forall data a0 b0 a n z, ascending data -> 0 <= a0 <= a -> 0 <= n -> a + n <= b0 <= Z.of_nat (length data) ->
  n <= Z.of_nat fuel ->
  (forall k v, a0 <= k < a -> nthz data k = Some v -> v < z) -> (forall k v, a + n <= k < b0 -> nthz data k = Some v -> z <= v) ->
  exists r, z_lower_loop fuel data a n z = Ok r /\ a0 <= r <= b0 /\ (forall k v, a0 <= k < r -> nthz data k = Some v -> v < z) /\
    (forall k v, r <= k < b0 -> nthz data k = Some v -> z <= v).
Proof.
  induction fuel as [|fuel IH]; intros data a0 b0 a n z A Ha Hn Hb Hf Lt Ge; cbn [z_lower_loop].
  - destruct (Z.ltb_spec 0 n); [lia|]. exists a. split; [reflexivity|]. split; [lia|]. split; [assumption|]. intros k v Hk. apply Ge. lia.
  - destruct (Z.ltb_spec 0 n); [|exists a; split; [reflexivity|]; split; [lia|]; split; [assumption|]; intros k v Hk; apply Ge; lia].
    cbv zeta. assert (H2 : 0 <= n / 2 < n) by (split; [apply Z.div_pos; lia | apply Z.div_lt; lia]).
    destruct (getz_ok data (a + n / 2) ltac:(lia)) as (v & -> & Ev). cbn [bind]. destruct (Z.ltb_spec v z) as [L|L].
    + apply IH; auto; try lia.
      * intros k w Hk Ew. pose proof (asc_nthz data k (a + n / 2) w v A ltac:(lia) Ew Ev). lia.
      * intros k w Hk. apply Ge. lia.
    + apply IH; auto; try lia. intros k w Hk Ew. pose proof (asc_nthz data (a + n / 2) k v w A ltac:(lia) Ev Ew). lia.
Qed.

Lemma lower_bound_ok data a b z : ascending data -> 0 <= a <= b -> b <= Z.of_nat (length data) ->
  exists r, z_lower_bound data a b z = Ok r /\ a <= r <= b /\ (forall k v, a <= k < r -> nthz data k = Some v -> v < z) /\
    (forall k v, r <= k < b -> nthz data k = Some v -> z <= v).
Proof.
  intros A Ha Hb. unfold z_lower_bound. apply lower_loop_ok; auto; try lia; intros k v Hk; lia.
Qed.

(** * The pending boxes *)

Section Query.
Variables lo0 hi0 B : Z.
Hypothesis Hhi0 : hi0 < 2 ^ 64 - 65535.

Definition budget (l h : Z) (below : list (Z * Z)) : Prop := exists n, pot n l h /\ Z.of_nat (length below) + n <= B.

Fixpoint chain (hi : Z) (spans : list (Z * Z)) : Prop :=
  match spans with
  | [] => True
  | (l, h) :: r => cell hi < cell l /\ l mod 2 ^ 16 = 0 /\ box l h /\ h <= hi0 /\ budget l h r /\ chain h r
  end.

Definition good (lo hi : Z) (spans : list (Z * Z)) : Prop :=
  box lo hi /\ hi <= hi0 /\ lo0 <= lo /\ (lo = lo0 \/ lo mod 2 ^ 16 = 0) /\ budget lo hi spans /\ chain hi spans.

Definition pending (lo hi : Z) (spans : list (Z * Z)) (z : Z) : Prop :=
  inbox lo hi z \/ exists l h, In (l, h) spans /\ inbox l h z.

Lemma box_cells lo hi : box lo hi -> cell lo <= cell hi.
Proof. intros (Hl & Hh & H0 & H1). now apply cell_mono. Qed.

Lemma inbox_cells lo hi z : box lo hi -> code z -> inbox lo hi z -> cell lo <= cell z <= cell hi.
Proof. intros (Hl & Hh & _) Hz [I0 I1]. split; apply cell_mono; auto; lia. Qed.

Lemma masked l : l mod 2 ^ 16 = 0 -> l = 65536 * cell l.
Proof. intro M. unfold cell. pose proof (Z.div_mod l (2 ^ 16) ltac:(lia)). lia. Qed.

Lemma chain_in spans : forall hi l h, chain hi spans -> In (l, h) spans -> cell hi < cell l /\ l mod 2 ^ 16 = 0 /\ box l h.
Proof.
  induction spans as [|(l1, h1) r IH]; intros hi l h C I; [contradiction|]. destruct C as (C1 & C2 & C3 & C4 & C5 & C6).
  destruct I as [E|I]; [injection E as -> ->; auto|]. destruct (IH h1 l h C6 I) as (A1 & A2 & A3).
  apply box_cells in C3. split; [lia|auto].
Qed.

Lemma pending_ge lo hi spans z : good lo hi spans -> code z -> lo0 <= z -> pending lo hi spans z -> lo <= z.
Proof.
  intros (Bx & _ & _ & Lo & _ & C) Hz H0 [I|(l & h & I1 & I2)].
  - destruct Lo as [->|M]; [assumption|]. apply masked in M. pose proof (inbox_cells lo hi z Bx Hz I). pose proof (cell_bounds z). lia.
  - destruct (chain_in _ _ _ _ C I1) as (A1 & A2 & A3). apply masked in A2. pose proof (inbox_cells l h z A3 Hz I2).
    pose proof (box_cells _ _ Bx). pose proof (cell_bounds z). pose proof (cell_bounds lo). lia.
Qed.

Lemma add_ffff h : code h -> h <= hi0 -> u64 (h + 65535) = h + 65535.
Proof. unfold code. intros. unfold u64. apply Z.mod_small. lia. Qed.

Lemma pop_ok spans : forall lo hi zn, good lo hi spans ->
  match z_pop zn lo hi spans with
  | None => forall z, code z -> zn <= z -> ~ pending lo hi spans z
  | Some (lo', hi', spans') => good lo' hi' spans' /\ zn <= hi' + 65535 /\
      forall z, code z -> zn <= z -> pending lo hi spans z -> pending lo' hi' spans' z
  end.
Proof.
  induction spans as [|(l, h) r IH]; intros lo hi zn G; cbn [z_pop]; pose proof G as (Bx & Hh & Hl & Lo & Bu & C);
    rewrite add_ffff by (try assumption; apply Bx).
  - destruct (Z.ltb_spec (hi + 65535) zn).
    + intros z Hz Lz [I|(l & h & [] & _)]. pose proof (inbox_cells _ _ _ Bx Hz I). pose proof (cell_bounds z). pose proof (cell_bounds hi). lia.
    + auto.
  - destruct (Z.ltb_spec (hi + 65535) zn); [|auto].
    destruct C as (C1 & C2 & C3 & C4 & C5 & C6).
    assert (G' : good l h r).
    { split; [assumption|]. split; [assumption|]. split; [|auto]. apply masked in C2. pose proof (box_cells _ _ Bx). pose proof (cell_bounds lo). lia. }
    assert (Sub : forall z, code z -> zn <= z -> pending lo hi ((l, h) :: r) z -> pending l h r z).
    { intros z Hz Lz [I|(l1 & h1 & [E|I1] & I2)].
      - pose proof (inbox_cells _ _ _ Bx Hz I). pose proof (cell_bounds z). pose proof (cell_bounds hi). lia.
      - injection E as -> ->. now left.
      - right. eauto. }
    specialize (IH l h zn G'). destruct (z_pop zn l h r) as [[[lo' hi'] spans']|].
    + destruct IH as (I1 & I2 & I3). split; [assumption|]. split; [assumption|]. auto.
    + intros z Hz Lz Pz. apply (IH z Hz Lz). auto.
Qed.

Lemma descend_ok fuel : forall test zn lo hi spans n, good lo hi spans -> pot n lo hi -> Z.of_nat (length spans) + n <= B ->
  n < Z.of_nat fuel -> code zn -> zn <= hi + 65535 -> (test = false -> lo <= zn) ->
  match z_descend fuel test zn lo hi spans with
  | Timeout => False
  | UB => 32 < B
  | Ok (found, lo', hi', spans') => good lo' hi' spans' /\
      (if found : bool then lo' <= zn <= hi' + 65535 else zn < lo') /\
      forall z, code z -> zn <= z -> pending lo hi spans z -> pending lo' hi' spans' z
  end.
Proof.
  induction fuel as [|fuel IH]; intros test zn lo hi spans n G Pt Hn Hf Hz Hhi Ht.
  { destruct Pt as (nx & ny & Hx & Hy & Hs). apply P_nonneg in Hx, Hy. lia. }
  cbn [z_descend]. destruct (test && (zn <? lo)) eqn:Et.
  { apply Bool.andb_true_iff in Et. destruct Et as [_ Et]. apply Z.ltb_lt in Et. auto. }
  assert (Lz : lo <= zn).
  { destruct test; [apply Z.ltb_ge; exact Et | auto]. }
  pose proof G as (Bx & Hh & Hl & Lo & Bu & C).
  pose proof (split_spec lo hi Bx) as Sp. destruct (z_split lo hi) as [[more mo] mi].
  destruct Sp as (Cj & Ci & Mj & Mi & Sp). destruct more; [|split; [assumption|split; [lia|auto]]].
  destruct Sp as [[_ E]|(Jc & s & q & Hs & Hq & H)]; [discriminate|].
  destruct (halves_box s q lo hi mo mi Bx Cj Ci Hs H) as (B1 & B2 & Sub).
  destruct (pot_split n s q lo hi mo mi Bx Cj Ci Hs ltac:(lia) H Pt) as (P1 & P2 & N1).
  pose proof (box_cells _ _ B1) as K1. pose proof (box_cells _ _ B2) as K2.
  assert (Mo : mo <= hi).
  { apply masked in Mj. pose proof (cell_bounds hi). lia. }
  assert (Ml : lo <= mi).
  { apply masked in Mi. pose proof (cell_bounds lo). lia. }
  rewrite add_ffff by (auto; lia). destruct (Z.ltb_spec (mo + 65535) zn) as [L|L].
  - assert (G' : good mi hi spans).
    { split; [assumption|]. split; [assumption|]. split; [lia|]. split; [auto|]. split; [|assumption]. exists (n - 1). split; [assumption|lia]. }
    specialize (IH true zn mi hi spans (n - 1) G' P2 ltac:(lia) ltac:(lia) Hz Hhi ltac:(discriminate)).
    assert (Keep : forall z, code z -> zn <= z -> pending lo hi spans z -> pending mi hi spans z).
    { intros z Cz Hzz [I|I]; [|now right]. destruct (Sub z I) as [I'|I']; [|now left].
      pose proof (inbox_cells _ _ _ B1 Cz I'). pose proof (cell_bounds z). apply masked in Mj. lia. }
    destruct (z_descend fuel true zn mi hi spans) as [[[[found lo'] hi'] spans']| |]; auto.
    destruct IH as (I1 & I2 & I3). split; [assumption|]. split; [assumption|]. auto.
  - destruct (Z.leb_spec 32 (Z.of_nat (length spans))); [lia|].
    assert (G' : good lo mo ((mi, hi) :: spans)).
    { split; [assumption|]. split; [lia|]. split; [assumption|]. split; [assumption|]. split.
      - exists (n - 1). split; [assumption|]. cbn [length]. lia.
      - cbn [chain]. split; [assumption|]. split; [assumption|]. split; [assumption|]. split; [assumption|]. split; [|assumption].
        exists (n - 1). split; [assumption|lia]. }
    specialize (IH false zn lo mo ((mi, hi) :: spans) (n - 1) G' P1 ltac:(cbn [length]; lia) ltac:(lia) Hz ltac:(lia) ltac:(auto)).
    assert (Keep : forall z, code z -> zn <= z -> pending lo hi spans z -> pending lo mo ((mi, hi) :: spans) z).
    { intros z Cz Hzz [I|(l & h & I1 & I2)]; [|right; exists l, h; split; [now right|assumption]].
      destruct (Sub z I) as [I'|I']; [now left|]. right. exists mi, hi. split; [now left|assumption]. }
    destruct (z_descend fuel false zn lo mo ((mi, hi) :: spans)) as [[[[found lo'] hi'] spans']| |]; auto.
    destruct IH as (I1 & I2 & I3). split; [assumption|]. split; [assumption|]. auto.
Qed.

(** * The main loop *)

Variable data : list Z.
Variable last : Z.
Hypothesis Hlast : 0 <= last <= Z.of_nat (length data).
Hypothesis Hasc : ascending data.
Hypothesis Hcodes : Forall code data.

Definition seg (i : Z) : list Z := skipn (Z.to_nat i) (firstn (Z.to_nat last) data).

Lemma seg_cons i v : 0 <= i < last -> nthz data i = Some v -> seg i = v :: seg (i + 1).
Proof.
  intros Hi E. unfold seg, nthz in *. destruct (Z.ltb_spec i 0); [lia|].
  replace (Z.to_nat (i + 1)) with (S (Z.to_nat i)) by lia.
  assert (E' : nth_error (firstn (Z.to_nat last) data) (Z.to_nat i) = Some v).
  { rewrite <- E. rewrite <- (firstn_skipn (Z.to_nat last) data) at 2. rewrite nth_error_app1; [reflexivity|]. rewrite firstn_length. lia. }
  clear - E'. revert E'. generalize (firstn (Z.to_nat last) data) as l. generalize (Z.to_nat i) as n.
  induction n; intros [|x l] E; try discriminate; cbn [nth_error skipn] in *; [congruence|]. now apply IHn.
Qed.

Lemma seg_nil i : last <= i -> seg i = [].
Proof. intro. unfold seg. apply skipn_all2. rewrite firstn_length. lia. Qed.

Lemma data_nthz i v : nthz data i = Some v -> code v.
Proof.
  unfold nthz. destruct (i <? 0); [discriminate|]. intro E. apply nth_error_In in E. rewrite Forall_forall in Hcodes. auto.
Qed.

Lemma nthz_some i : 0 <= i < last -> exists v, nthz data i = Some v.
Proof. intro H. destruct (getz_ok data i ltac:(lia)) as (v & _ & E). eauto. Qed.

Lemma seg_skip n : forall i r, Z.of_nat n = r - i -> 0 <= i -> r <= last -> exists pre, seg i = pre ++ seg r /\
  forall z, In z pre -> exists k, i <= k < r /\ nthz data k = Some z.
Proof.
  induction n as [|n IH]; intros i r E Hi Hr.
  - replace r with i by lia. exists []. split; [reflexivity|]. intros z [].
  - destruct (nthz_some i ltac:(lia)) as (v & Ev). destruct (IH (i + 1) r ltac:(lia) ltac:(lia) Hr) as (pre & E1 & E2).
    exists (v :: pre). split; [rewrite (seg_cons i v), E1 by (auto; lia); reflexivity|].
    intros z [<-|I]; [exists i; split; [lia|assumption]|]. destruct (E2 z I) as (k & Hk & Ek). exists k. split; [lia|assumption].
Qed.

Lemma seg_in i z : 0 <= i -> In z (seg i) -> exists k, i <= k < last /\ nthz data k = Some z.
Proof.
  intros Hi I. destruct (Z_lt_ge_dec i last); [|rewrite seg_nil in I by lia; contradiction].
  destruct (seg_skip (Z.to_nat (last - i)) i last ltac:(lia) Hi ltac:(lia)) as (pre & E & H).
  rewrite E, (seg_nil last), app_nil_r in I by lia. auto.
Qed.

Lemma subseq_app_l (pre l m : list Z) : subseq l m -> subseq l (pre ++ m).
Proof. intro H. induction pre; cbn [app]; [assumption|now constructor]. Qed.

Lemma subseq_nil (l : list Z) : subseq [] l.
Proof. induction l; now constructor. Qed.

Lemma count_app l m z : count (l ++ m) z = (count l z + count m z)%nat.
Proof. apply count_occ_app. Qed.

Lemma count_0 l z : ~ In z l -> count l z = 0%nat.
Proof. intro H. now apply count_occ_not_In. Qed.

Definition exact (z : Z) : Prop := code z /\ lo0 <= z.

Lemma loop_ok fuel : forall i lo hi spans out, 0 <= i -> last - i <= Z.of_nat fuel -> good lo hi spans -> B <= 48 ->
  match z_loop fuel data last i lo hi spans out with
  | Timeout => False
  | UB => 32 < B
  | Ok r => exists out', r = out ++ out' /\ subseq out' (seg i) /\ Forall (fun z => lo0 <= z <= hi0 + 65535) out' /\
      forall z, code z -> lo0 <= z -> (forall k, i <= k < last -> nthz data k = Some z -> pending lo hi spans z) -> count out' z = count (seg i) z
  end.
Proof.
  induction fuel as [|fuel IH]; intros i lo hi spans out Hi Hf G HB; cbn [z_loop].
  - destruct (Z.ltb_spec i last); [lia|]. rewrite seg_nil by lia. exists []. rewrite app_nil_r. split; [reflexivity|]. split; [constructor|]. split; [constructor|]. reflexivity.
  - destruct (Z.ltb_spec i last).
    2:{ rewrite seg_nil by lia. exists []. rewrite app_nil_r. split; [reflexivity|]. split; [constructor|]. split; [constructor|]. reflexivity. }
    destruct (getz_ok data i ltac:(lia)) as (zn & -> & En). cbn [bind]. cbv zeta.
    pose proof (data_nthz i zn En) as Cn.
    assert (Later : forall k z, i <= k < last -> nthz data k = Some z -> zn <= z) by (intros k z Hk Ek; apply (asc_nthz data i k zn z); auto; lia).
    pose proof (pop_ok spans lo hi zn G) as Pp. destruct (z_pop zn lo hi spans) as [[[lo1 hi1] spans1]|].
    2:{ exists []. rewrite app_nil_r. split; [reflexivity|]. split; [apply subseq_nil|]. split; [constructor|].
        intros z Cz H0 Hp. symmetry. apply count_0. intro I. apply seg_in in I; [|lia]. destruct I as (k & Hk & Ek).
        apply (Pp z Cz (Later k z Hk Ek)). eauto. }
    destruct Pp as (G1 & Z1 & Keep1). pose proof G1 as (_ & _ & _ & _ & (n & Pn & Bn) & _).
    assert (N : n < Z.of_nat 64) by (pose proof (Zle_0_nat (length spans1)); lia).
    pose proof (descend_ok 64 true zn lo1 hi1 spans1 n G1 Pn Bn N Cn Z1 ltac:(discriminate)) as De.
    destruct (z_descend 64 true zn lo1 hi1 spans1) as [[[[found lo2] hi2] spans2]| |]; cbn [bind]; auto.
    destruct De as (G2 & Fo & Keep2). destruct found.
    + specialize (IH (i + 1) lo2 hi2 spans2 (out ++ [zn]) ltac:(lia) ltac:(lia) G2 HB).
      destruct (z_loop fuel data last (i + 1) lo2 hi2 spans2 (out ++ [zn])) as [r| |]; auto.
      destruct IH as (out' & -> & S & F & C). exists (zn :: out'). rewrite <- app_assoc. split; [reflexivity|].
      rewrite (seg_cons i zn) by (auto; lia). split; [now constructor|]. split.
      * constructor; [|assumption]. destruct G2 as (_ & A1 & A2 & _). lia.
      * intros z Cz H0 Hp. change (count (zn :: out') z) with (count ([zn] ++ out') z). change (zn :: seg (i + 1)) with ([zn] ++ seg (i + 1)).
        rewrite !count_app. f_equal. apply C; auto. intros k Hk Ek. apply Keep2; auto; [apply (Later k); auto; lia|].
        apply Keep1; auto; [apply (Later k); auto; lia|]. apply (Hp k); auto. lia.
    + destruct (lower_bound_ok data (i + 1) last lo2 Hasc ltac:(lia) ltac:(lia)) as (r0 & -> & Hr & Lt & Ge). cbn [bind].
      specialize (IH r0 lo2 hi2 spans2 out ltac:(lia) ltac:(lia) G2 HB).
      destruct (z_loop fuel data last r0 lo2 hi2 spans2 out) as [r| |]; auto.
      destruct IH as (out' & -> & S & F & C). exists out'. split; [reflexivity|].
      rewrite (seg_cons i zn) by (auto; lia).
      destruct (seg_skip (Z.to_nat (r0 - (i + 1))) (i + 1) r0 ltac:(lia) ltac:(lia) ltac:(lia)) as (pre & E & Hpre). rewrite E.
      split; [apply (subseq_app_l (zn :: pre)); assumption|]. split; [assumption|].
      intros z Cz H0 Hp. change (zn :: pre ++ seg r0) with ((zn :: pre) ++ seg r0). rewrite count_app.
      assert (P2 : forall k, i <= k < last -> nthz data k = Some z -> pending lo2 hi2 spans2 z).
      { intros k Hk Ek. apply Keep2; auto; [apply (Later k); auto|]. apply Keep1; auto; [apply (Later k); auto|]. apply (Hp k); auto. }
      rewrite (count_0 (zn :: pre)).
      * apply C; auto. intros k Hk. apply P2. lia.
      * intros [<-|I].
        -- pose proof (pending_ge lo2 hi2 spans2 zn G2 Cn H0 (P2 i ltac:(lia) En)). lia.
        -- destruct (Hpre z I) as (k & Hk & Ek). pose proof (pending_ge lo2 hi2 spans2 z G2 Cz H0 (P2 k ltac:(lia) Ek)).
           specialize (Lt k z ltac:(lia) Ek). lia.
Qed.

End Query.

Lemma subseq_firstn (l m : list Z) n : subseq l (firstn n m) -> subseq l m.
Proof.
  revert l m. induction n as [|n IH]; intros l m H.
  - cbn in H. inversion H. apply subseq_nil.
  - destruct m as [|x m]; [exact H|]. cbn [firstn] in H. inversion H; subst; [apply sub_skip | apply sub_take]; auto.
Qed.

Theorem query_ok lo hi data B : code lo -> code hi -> hi < 2 ^ 64 - 65535 -> D 0 lo <= D 0 hi -> D 1 lo <= D 1 hi ->
  ascending data -> Forall code data -> pot B lo hi -> B <= 48 ->
  match z_query lo hi data with
  | Timeout => False
  | UB => 32 < B
  | Ok out => subseq out data /\ Forall (fun z => lo <= z <= hi + 65535) out /\
      forall z, code z -> z_inside lo hi z = true -> count out z = count data z
  end.
Proof.
  intros Hl Hh Hb H0 H1 A F Pt HB. unfold z_query.
  destruct (lower_bound_ok data 0 (Z.of_nat (length data)) (u64 (hi + 65535)) A ltac:(lia) ltac:(lia)) as (last & -> & Hlast & Lt & Ge). cbn [bind].
  assert (G : good lo hi B lo hi []).
  { split; [split; auto|]. split; [lia|]. split; [lia|]. split; [auto|]. split; [|exact I]. exists B. split; [assumption|cbn [length]; lia]. }
  pose proof (loop_ok lo hi B Hb data last Hlast A F (Z.to_nat last) 0 lo hi [] [] ltac:(lia) ltac:(lia) G HB) as L.
  destruct (z_loop (Z.to_nat last) data last 0 lo hi [] []) as [out| |]; auto.
  destruct L as (out' & -> & Sb & Fo & C). cbn [app].
  unfold seg in Sb, C. change (Z.to_nat 0) with 0%nat in *. cbn [skipn] in Sb, C.
  split; [now apply subseq_firstn in Sb|]. split; [assumption|].
  intros z Cz In. destruct (inside_cells lo hi z Hl Hh Cz In) as (R & R0 & R1).
  rewrite C; [|assumption|lia|intros; left; split; assumption].
  rewrite <- (firstn_skipn (Z.to_nat last) data) at 2. rewrite count_app, (count_0 (skipn _ _)); [lia|].
  intro I. apply In_nth_error in I. destruct I as (k & Ek).
  assert (En : nthz data (last + Z.of_nat k) = Some z).
  { unfold nthz. destruct (Z.ltb_spec (last + Z.of_nat k) 0); [lia|]. rewrite <- Ek, <- (firstn_skipn (Z.to_nat last) data) at 1.
    rewrite nth_error_app2 by (rewrite firstn_length; lia). f_equal. rewrite firstn_length. lia. }
  specialize (Ge (last + Z.of_nat k) z). unfold u64 in Ge. rewrite Z.mod_small in Ge by (unfold code in *; lia).
  assert (Kl : last + Z.of_nat k < Z.of_nat (length data)).
  { unfold nthz in En. destruct (Z.ltb_spec (last + Z.of_nat k) 0); [lia|].
    assert (nth_error data (Z.to_nat (last + Z.of_nat k)) <> None) as Nn by congruence. apply nth_error_Some in Nn. lia. }
  specialize (Ge ltac:(lia) En). lia.
Qed.
