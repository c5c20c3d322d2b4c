From Verif Require Import Base ToText_Model ToText_Spec.
Open Scope Z_scope.
Ltac Zify.zify_post_hook ::= Z.div_mod_to_equations.

Definition p10 (k : nat) : Z := 10 ^ Z.of_nat k.
Lemma p10_S k : p10 (S k) = 10 * p10 k.
Proof. unfold p10. rewrite Nat2Z.inj_succ, Z.pow_succ_r by lia. reflexivity. Qed.
Lemma p10_pos k : 0 < p10 k.
Proof. unfold p10. apply Z.pow_pos_nonneg; lia. Qed.

(** Fixed-width digits. *)
Fixpoint digs (k : nat) (n : Z) : list Z :=
  match k with
  | O => []
  | S k => 48 + n / p10 k :: digs k (n mod p10 k)
  end.

Lemma digs_length k n : length (digs k n) = k.
Proof. revert n; induction k; cbn; auto. Qed.

Lemma div_small_range n p q : 0 < p -> 0 <= n < p * q -> 0 <= n / p < q.
Proof. intros. split. apply Z.div_pos; lia. apply Z.div_lt_upper_bound; lia. Qed.

Lemma digs_digits k n : 0 <= n < p10 k -> Forall is_digit (digs k n).
Proof.
  revert n; induction k; intros n H; cbn [digs]; constructor.
  - pose proof (p10_pos k). rewrite p10_S in H. unfold is_digit.
    pose proof (div_small_range n (p10 k) 10). lia.
  - apply IHk. apply Z.mod_pos_bound, p10_pos.
Qed.

Lemma fold_value l acc :
  fold_left (fun acc c => 10 * acc + (c - 48)) l acc = acc * p10 (length l) + digits_value l.
Proof.
  unfold digits_value. revert acc; induction l; intro acc; cbn [fold_left length].
  - unfold p10. cbn. lia.
  - rewrite IHl, p10_S. rewrite (IHl (10 * 0 + (a - 48))). lia.
Qed.

Lemma digs_value k n : 0 <= n < p10 k -> digits_value (digs k n) = n.
Proof.
  revert n; induction k; intros n H.
  - unfold p10 in H. cbn in *. lia.
  - cbn [digs]. unfold digits_value. cbn [fold_left]. rewrite fold_value, digs_length.
    pose proof (p10_pos k).
    rewrite IHk by (apply Z.mod_pos_bound; lia).
    pose proof (Z.div_mod n (p10 k)). lia.
Qed.

Lemma p10_add a b : p10 (a + b) = p10 a * p10 b.
Proof. unfold p10. rewrite Nat2Z.inj_add, Z.pow_add_r; lia. Qed.

Lemma digs_app k m n r :
  0 <= n < p10 k -> 0 <= r < p10 m -> digs (k + m) (n * p10 m + r) = digs k n ++ digs m r.
Proof.
  revert n; induction k; intros n Hn Hr.
  - unfold p10 in Hn; cbn in Hn. assert (n = 0) by lia. subst. reflexivity.
  - cbn [digs Nat.add app]. pose proof (p10_pos k). pose proof (p10_pos m).
    rewrite p10_add.
    assert (E1 : (n * p10 m + r) / (p10 k * p10 m) = n / p10 k).
    { rewrite Z.mul_comm with (n := p10 k), <- Z.div_div by lia.
      f_equal. rewrite Z.div_add_l by lia. rewrite Z.div_small; lia. }
    assert (E2 : (n * p10 m + r) mod (p10 k * p10 m) = (n mod p10 k) * p10 m + r).
    { rewrite Z.mod_eq, E1 by nia. rewrite Z.mod_eq by lia. lia. }
    rewrite E1, E2. f_equal. apply IHk; auto. apply Z.mod_pos_bound; lia.
Qed.

(** The digit-pair table. *)
Lemma table_ok : forall U, 0 <= U < 100 ->
  getz digits_00_99 (U * 2) = Ok (48 + U / 10) /\ getz digits_00_99 (U * 2 + 1) = Ok (48 + U mod 10).
Proof.
  assert (H : forallb (fun n : nat => let U := Z.of_nat n in
     match getz digits_00_99 (U * 2), getz digits_00_99 (U * 2 + 1) with
     | Ok a, Ok b => (a =? 48 + U / 10) && (b =? 48 + U mod 10)
     | _, _ => false end) (seq 0 100) = true) by (vm_compute; reflexivity).
  intros U HU. rewrite forallb_forall in H.
  specialize (H (Z.to_nat U)). cbv zeta in H. rewrite Z2Nat.id in H by lia.
  assert (I : In (Z.to_nat U) (seq 0 100)) by (apply in_seq; lia).
  apply H in I. clear H.
  destruct (getz digits_00_99 (U * 2)); try discriminate.
  destruct (getz digits_00_99 (U * 2 + 1)); try discriminate.
  apply andb_true_iff in I. rewrite !Z.eqb_eq in I. destruct I; subst; auto.
Qed.

Lemma digs2 U : 0 <= U < 100 -> digs 2 U = [48 + U / 10; 48 + U mod 10].
Proof.
  intro H. unfold digs, p10. change (10 ^ Z.of_nat 1) with 10. change (10 ^ Z.of_nat 0) with 1.
  rewrite Z.div_1_r. reflexivity.
Qed.

Lemma W_step b i l U j :
  0 <= U < 100 -> (i + length l + 2 <= length b)%nat -> j = (i + length l)%nat ->
  W (splice b i l) j U = Ok (splice b i (l ++ digs 2 U)).
Proof.
  intros HU HL ->. unfold W. destruct (table_ok U HU) as [E1 E2]. rewrite E1, E2. cbn [bind].
  rewrite splice_snoc by lia. cbn [bind].
  replace (i + length l + 1)%nat with (i + length (l ++ [(48 + U / 10)%Z]))%nat
    by (rewrite app_length; cbn; lia).
  rewrite splice_snoc by (rewrite app_length; cbn; lia).
  rewrite <- app_assoc, digs2 by lia. reflexivity.
Qed.

Lemma W_step0 b i U :
  0 <= U < 100 -> (i + 2 <= length b)%nat -> W b i U = Ok (splice b i (digs 2 U)).
Proof.
  intros HU HL. pose proof (W_step b i [] U i HU) as H. rewrite splice_nil in H.
  apply H; cbn [length]; lia.
Qed.

(** [Inv k r t]: the fraction [u32 t] still encodes the [k] remaining digits of [r]. *)
Definition Inv (k : nat) (r t : Z) : Prop :=
  0 <= r < p10 k /\ 2 ^ 32 * r <= p10 k * u32 t < 2 ^ 32 * (r + 1).

Lemma mul_lt_inv p a b : 0 < p -> p * a < p * b -> a < b.
Proof. nia. Qed.

Lemma fixed_point k r lo P :
  P = p10 k -> 0 <= r -> 2 ^ 32 * r <= P * lo < 2 ^ 32 * (r + 1) ->
  lo / 2 ^ 32 = r / P /\
  2 ^ 32 * (r mod P) <= P * (lo mod 2 ^ 32) < 2 ^ 32 * (r mod P + 1).
Proof.
  intros HP Hr H. pose proof (p10_pos k) as Hp. rewrite <- HP in Hp. clear HP k.
  assert (E : lo / 2 ^ 32 = r / P).
  { assert (E1 : lo / 2 ^ 32 = (P * lo) / (P * 2 ^ 32)) by (rewrite Z.div_mul_cancel_l; lia).
    rewrite E1, Z.mul_comm with (n := P) (m := 2 ^ 32), <- Z.div_div by lia.
    f_equal. symmetry. apply Z.div_unique with (r := P * lo - 2 ^ 32 * r); lia. }
  split; [exact E|].
  rewrite (Z.mod_eq r P), (Z.mod_eq lo (2 ^ 32)), E by lia. lia.
Qed.

Lemma D_step b i l k r t j :
  Inv (S (S k)) r t -> (i + length l + 2 <= length b)%nat -> j = (i + length l)%nat ->
  exists t', D j (splice b i l, t) = Ok (splice b i (l ++ digs 2 (r / p10 k)), t')
             /\ Inv k (r mod p10 k) t'.
Proof.
  intros [Hr H] HL Hj. pose proof (p10_pos k) as Hp. rewrite !p10_S in *.
  unfold D.
  assert (B : 0 <= u32 t < 2 ^ 32) by (unfold u32; apply Z.mod_pos_bound; lia).
  assert (E : u64 (100 * u32 t) = 100 * u32 t) by (unfold u64; apply Z.mod_small; lia).
  rewrite E, Z.shiftr_div_pow2 by lia.
  destruct (fixed_point k r (100 * u32 t) _ eq_refl) as [F1 F2]; [lia|lia|].
  rewrite F1.
  rewrite W_step; auto.
  2:{ pose proof (div_small_range r (p10 k) 100). lia. }
  cbn [bind]. eexists; split; [reflexivity|].
  split. apply Z.mod_pos_bound; lia. exact F2.
Qed.

Lemma S_step b i l r t j :
  Inv 1 r t -> (i + length l + 1 <= length b)%nat -> j = (i + length l)%nat ->
  S1 j (splice b i l, t) = Ok (splice b i (l ++ digs 1 r)).
Proof.
  intros [Hr H] HL ->. unfold S1.
  change (p10 1) with 10 in *.
  assert (B : 0 <= u32 t < 2 ^ 32) by (unfold u32; apply Z.mod_pos_bound; lia).
  assert (E : u64 (10 * u32 t) = 10 * u32 t) by (unfold u64; apply Z.mod_small; lia).
  rewrite E, Z.shiftr_div_pow2 by lia.
  assert (E2 : 10 * u32 t / 2 ^ 32 = r) by lia.
  rewrite E2.
  assert (E3 : u8 (u8 r + 48) = 48 + r).
  { unfold u8. rewrite (Z.mod_small r) by lia. rewrite Z.mod_small by lia. lia. }
  rewrite E3, splice_snoc by lia.
  cbn [digs]. change (p10 0) with 1. rewrite Z.div_1_r. reflexivity.
Qed.

(** The reciprocal multiplication: t is the fixed-point quotient. *)
Lemma recip c u sh a P m lo :
  0 <= sh -> 0 <= lo <= u -> u < m -> 0 <= c -> 0 <= a -> 
  c * (m-1) < 2 ^ 64 -> c * (m-1) / 2 ^ sh + a < 2^64 ->
  0 < P -> 0 <= c * P - 2 ^ (32 + sh) ->
  (c * P - 2 ^ (32 + sh)) * lo + 2 ^ sh * (a * P) >= (2^sh - 1) * P ->
  (c * P - 2 ^ (32 + sh)) * (m-1) + 2^sh * (a * P) < 2 ^ (32 + sh) ->
  let t := u64 (Z.shiftr (u64 (c * u)) sh + a) in
  0 <= t /\ 2 ^ 32 * u <= P * t < 2 ^ 32 * (u + 1).
Proof.
  intros H1 H2 H3 H4 H5 H6 H7 H8 H9 H10 H11. cbv zeta. unfold u64.
  assert (HS : 0 < 2 ^ sh) by (apply Z.pow_pos_nonneg; lia).
  assert (M : c * u <= c * (m - 1)) by (apply Z.mul_le_mono_nonneg_l; lia).
  assert (M0 : 0 <= c * u) by (apply Z.mul_nonneg_nonneg; lia).
  rewrite (Z.mod_small (c * u)) by lia.
  rewrite Z.shiftr_div_pow2 by lia.
  assert (c * u / 2 ^ sh <= c * (m-1) / 2 ^ sh) by (apply Z.div_le_mono; lia).
  assert (0 <= c * u / 2 ^ sh) by (apply Z.div_pos; lia).
  rewrite Z.mod_small by lia.
  split; [lia|].
  pose proof (Z.div_mod (c * u) (2 ^ sh) ltac:(lia)) as E.
  pose proof (Z.mod_pos_bound (c * u) (2 ^ sh) ltac:(lia)) as B.
  rewrite Z.pow_add_r in * by lia.
  set (q := c * u / 2 ^ sh) in *. set (r := (c * u) mod 2 ^ sh) in *. clearbody q r.
  set (Sh := 2 ^ sh) in *. set (B32 := 2 ^ 32) in *.
  assert (0 < B32) by (unfold B32; lia). clearbody Sh B32.
  set (e := c * P - B32 * Sh) in *. 
  assert (E2 : Sh * (P * (q + a)) = B32 * Sh * u + e * u - P * r + Sh * (a * P)).
  { replace (Sh * (P * (q + a))) with (P * (Sh * q) + Sh * (a * P)) by ring.
    replace (Sh * q) with (c * u - r) by lia. unfold e. ring. }
  assert (P * r <= P * (Sh - 1)) by (apply Z.mul_le_mono_nonneg_l; lia).
  assert (0 <= P * r) by (apply Z.mul_nonneg_nonneg; lia).
  assert (e * lo <= e * u) by (apply Z.mul_le_mono_nonneg_l; lia).
  assert (e * u <= e * (m-1)) by (apply Z.mul_le_mono_nonneg_l; lia).
  clearbody e.
  split.
  - apply (Z.mul_le_mono_pos_l _ _ Sh HS). lia.
  - apply (Z.mul_lt_mono_pos_l Sh _ _ HS). lia.
Qed.

(** For N = 5 the code relies on u having at least six digits. *)
Definition low (k : nat) : Z := if Nat.eqb k 5 then 100000 else 0.

Lemma A_t_ok (k : nat) u :
  (1 <= k <= 8)%nat -> low k <= u < p10 (S (S k)) -> u < 2 ^ 32 ->
  Z.shiftr (A_t (Z.of_nat k) u) 32 = u / p10 k /\ Inv k (u mod p10 k) (A_t (Z.of_nat k) u).
Proof.
  intros Hk Hu Hu2.
  assert (L0 : 0 <= low k) by (unfold low; destruct (Nat.eqb k 5); lia).
  assert (G : 0 <= A_t (Z.of_nat k) u /\
     2 ^ 32 * u <= p10 k * A_t (Z.of_nat k) u < 2 ^ 32 * (u + 1)).
  { unfold A_t.
    apply recip with (m := Z.min (p10 (S (S k))) (2 ^ 32)) (lo := low k);
      try lia;
      destruct k as [|[|[|[|[|[|[|[|[|k]]]]]]]]]; try lia; vm_compute; congruence. }
  destruct G as [G0 G].
  destruct (fixed_point k u (A_t (Z.of_nat k) u) _ eq_refl) as [F1 F2]; [lia|lia|].
  rewrite Z.shiftr_div_pow2 by lia. split; [exact F1|].
  split; [apply Z.mod_pos_bound, p10_pos|exact F2].
Qed.

Lemma A_step b i (k : nat) N u :
  (1 <= k <= 8)%nat -> N = Z.of_nat k -> low k <= u < p10 (S (S k)) -> u < 2 ^ 32 ->
  (i + 2 <= length b)%nat ->
  exists t, A b i N u = Ok (splice b i (digs 2 (u / p10 k)), t) /\ Inv k (u mod p10 k) t.
Proof.
  intros Hk -> Hu Hu2 HL. destruct (A_t_ok k u Hk Hu Hu2) as [E I].
  unfold A. cbv zeta. rewrite E.
  rewrite W_step0; try lia.
  - cbn [bind app]. eauto.
  - assert (0 <= low k) by (unfold low; destruct (Nat.eqb k 5); lia).
    pose proof (p10_pos k). rewrite !p10_S in Hu. pose proof (div_small_range u (p10 k) 100). lia.
Qed.

Lemma digs_split k n : 0 <= n < p10 (S (S k)) -> digs (S (S k)) n = digs 2 (n / p10 k) ++ digs k (n mod p10 k).
Proof.
  intro H. pose proof (p10_pos k).
  rewrite <- digs_app.
  - f_equal. pose proof (Z.div_mod n (p10 k)). lia.
  - apply div_small_range; auto. rewrite !p10_S in H. change (p10 2) with 100. lia.
  - apply Z.mod_pos_bound; lia.
Qed.

Ltac lens := repeat rewrite ?app_length, ?digs_length; cbn [length]; lia.

Ltac dgo k I t' E' I' :=
  match goal with |- context [D ?j (splice ?b ?i ?l, ?t)] =>
    destruct (D_step b i l k _ t j I) as (t' & E' & I'); [lens|lens|] end.

(** C_n writes exactly the n+1 fixed-width digits of u. *)
Lemma C_ok n b i u :
  (n <= 9)%nat -> 0 <= u < p10 (S n) -> (n = 6%nat -> 100000 <= u) -> u < 2 ^ 32 -> (i + S n <= length b)%nat ->
  C n b i u = Ok (splice b i (digs (S n) u)).
Proof.
  intros Hn Hu H6 Hu2 HL.
  destruct n as [|n].
  { cbn [C]. change (p10 1) with 10 in Hu.
    assert (E3 : u8 (u8 u + 48) = 48 + u).
    { unfold u8. rewrite (Z.mod_small u) by lia. rewrite Z.mod_small by lia. lia. }
    rewrite E3.
    pose proof (splice_snoc b i [] (48 + u)) as SP. rewrite splice_nil in SP.
    cbn [length app] in SP. rewrite Nat.add_0_r in SP. rewrite SP by lia.
    cbn [digs app]. change (p10 0) with 1. rewrite Z.div_1_r. reflexivity. }
  destruct n as [|n].
  { cbn [C]. change (p10 2) with 100 in Hu.
    apply W_step0; lia. }
  assert (K : (1 <= S n <= 8)%nat) by lia.
  assert (Hlow : low (S n) <= u < p10 (S (S (S n)))).
  { unfold low. destruct (Nat.eqb_spec (S n) 5); [assert (n = 4%nat) by lia; subst; intuition lia | lia]. }
  destruct (A_step b i (S n) _ u K eq_refl Hlow Hu2) as (t & EA & I); [lia|].
  rewrite digs_split by assumption.
  set (r := u mod p10 (S n)) in *. clearbody r. clear Hu K Hlow.
  assert (Ln : length (digs 2 (u / p10 (S n))) = 2%nat) by apply digs_length.
  set (l := digs 2 (u / p10 (S n))) in *. clearbody l.
  destruct n as [|[|[|[|[|[|[|[|n]]]]]]]]; try lia; cbn [C];
    cbn [Z.of_nat Pos.of_succ_nat Pos.succ] in EA; rewrite EA; cbn [bind].
  - rewrite S_step with (r := r); auto; try lens.
  - dgo 0%nat I t1 E1 I1.
    rewrite E1. cbn [bind fin fst]. change (p10 0) with 1. rewrite Z.div_1_r. reflexivity.
  - dgo 1%nat I t1 E1 I1.
    rewrite E1. cbn [bind fin fst]. rewrite S_step with (r := r mod p10 1); auto; try lens.
    destruct I. rewrite (digs_split 1), <- app_assoc by assumption. reflexivity.
  - dgo 2%nat I t1 E1 I1.
    rewrite E1. cbn [bind fin fst].
    dgo 0%nat I1 t2 E2 I2.
    rewrite E2. cbn [bind fin fst].
    destruct I. rewrite (digs_split 2), <- app_assoc by assumption. 
    change (p10 0) with 1. rewrite Z.div_1_r. reflexivity.
  - dgo 3%nat I t1 E1 I1.
    rewrite E1. cbn [bind fin fst].
    dgo 1%nat I1 t2 E2 I2.
    rewrite E2. cbn [bind fin fst]. rewrite S_step with (r := (r mod p10 3) mod p10 1); auto; try lens.
    destruct I, I1. rewrite (digs_split 3), (digs_split 1) by assumption.
    rewrite <- !app_assoc. reflexivity.
  - dgo 4%nat I t1 E1 I1.
    rewrite E1. cbn [bind fin fst].
    dgo 2%nat I1 t2 E2 I2.
    rewrite E2. cbn [bind fin fst].
    dgo 0%nat I2 t3 E3 I3.
    rewrite E3. cbn [bind fin fst].
    destruct I, I1. rewrite (digs_split 4), (digs_split 2) by assumption.
    rewrite <- !app_assoc. change (p10 0) with 1. rewrite Z.div_1_r. reflexivity.
  - dgo 5%nat I t1 E1 I1.
    rewrite E1. cbn [bind fin fst].
    dgo 3%nat I1 t2 E2 I2.
    rewrite E2. cbn [bind fin fst].
    dgo 1%nat I2 t3 E3 I3.
    rewrite E3. cbn [bind fin fst].
    rewrite S_step with (r := ((r mod p10 5) mod p10 3) mod p10 1); auto; try lens.
    destruct I, I1, I2. rewrite (digs_split 5), (digs_split 3), (digs_split 1) by assumption.
    rewrite <- !app_assoc. reflexivity.
  - dgo 6%nat I t1 E1 I1.
    rewrite E1. cbn [bind fin fst].
    dgo 4%nat I1 t2 E2 I2.
    rewrite E2. cbn [bind fin fst].
    dgo 2%nat I2 t3 E3 I3.
    rewrite E3. cbn [bind fin fst].
    dgo 0%nat I3 t4 E4 I4.
    rewrite E4. cbn [bind fin fst].
    destruct I, I1, I2. rewrite (digs_split 6), (digs_split 4), (digs_split 2) by assumption.
    rewrite <- !app_assoc. change (p10 0) with 1. rewrite Z.div_1_r. reflexivity.
Qed.
