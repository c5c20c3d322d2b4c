(** C89: the operators of vectors of float and double. C90: the products of vectors of float. *)
From Coq Require Import Reals Lra Psatz Floats.SpecFloat.
From Verif Require Import Base VecFloat_Model VecFloat_Spec VecFloat_Proofs.
Local Open Scope R_scope.

Lemma ok_type T : float_type T -> FLX.Prec_gt_0 (prec T) /\ BinarySingleNaN.Prec_lt_emax (prec T) (emax T) /\ (1 < prec T)%Z /\ T = {| prec := prec T; emax := emax T |}.
Proof. intros [->| ->]; repeat apply conj; reflexivity. Qed.

Definition prim (op : operator) : fty -> spec_float -> spec_float -> spec_float := match op with Add => plus | Sub => minus | Mul => times | Div => over end.
Lemma prim_result T op x y : float_type T -> number_of T x -> number_of T y -> (op = Div -> number y <> 0) -> result T (exact op (number x) (number y)) (prim op T x y).
Proof.
  intros F Hx Hy D. destruct (ok_type T F) as (A & B & C & ->). destruct op; cbn [prim exact].
  - now apply plus_result.
  - now apply minus_result.
  - now apply times_result.
  - apply over_result; auto.
Qed.
Ltac each_step := repeat (apply each_cons; [intros; first [apply (prim_result _ Add)|apply (prim_result _ Sub)|apply (prim_result _ Mul)|apply (prim_result _ Div)]; assumption|]); apply each_nil.

Definition list2 (v : vec2f) : list spec_float := let '(x, y) := v in [x; y].
Definition list3 (v : vec3f) : list spec_float := let '(x, y, z) := v in [x; y; z].

(** C89: the numbers that float and double have. *)
Theorem C89_formats : forall x : R,
  ((exists f, number_of binary32 f /\ number f = x) <-> (exists m e, (Z.abs m < 2 ^ 24)%Z /\ (-149 <= e <= 104)%Z /\ x = IZR m * powerRZ 2 e)) /\
  ((exists f, number_of binary64 f /\ number f = x) <-> (exists m e, (Z.abs m < 2 ^ 53)%Z /\ (-1074 <= e <= 971)%Z /\ x = IZR m * powerRZ 2 e)).
Proof. intro x. split; [exact (values 24 128 eq_refl eq_refl eq_refl x)|exact (values 53 1024 eq_refl eq_refl eq_refl x)]. Qed.
Print Assumptions C89_formats.

(** C89: each component of the result is the exact result of that component, correctly rounded. *)
Theorem C89_binary : forall T, float_type T ->
  (forall a b s, each T Add (list2 a) (list2 b) (list2 (add2 T a b)) /\ each T Sub (list2 a) (list2 b) (list2 (sub2 T a b)) /\
     each T Mul (list2 a) [s; s] (list2 (mul2 T a s)) /\ each T Div (list2 a) [s; s] (list2 (div2 T a s))) /\
  (forall a b s, each T Add (list3 a) (list3 b) (list3 (add3 T a b)) /\ each T Sub (list3 a) (list3 b) (list3 (sub3 T a b)) /\
     each T Mul (list3 a) [s; s; s] (list3 (mul3 T a s)) /\ each T Div (list3 a) [s; s; s] (list3 (div3 T a s))).
Proof.
  intros T F. split.
  - intros [ax ay] [bx by_] s. unfold list2, add2, sub2, mul2, div2. split; [each_step|]. split; [each_step|]. split; each_step.
  - intros [[ax ay] az] [[bx by_] bz] s. unfold list3, add3, sub3, mul3, div3. split; [each_step|]. split; [each_step|]. split; each_step.
Qed.
Print Assumptions C89_binary.

(** C89: the rounded value is unique: nothing is left open but the sign of a zero. *)
Theorem C89_rounded_unique : forall T x r r', float_type T -> Rabs x < limit T -> rounded T x r -> rounded T x r' -> number r = number r'.
Proof.
  intros T x r r' F L R R'. destruct (ok_type T F) as (A & B & C & Q). rewrite Q in L, R, R'. exact (rounded_unique _ _ A B C x r r' L R R').
Qed.
Print Assumptions C89_rounded_unique.

(** C89: == says that all components are the same numbers, or infinities; a NaN is not equal to anything. != is the negation. *)
Definition value_of (T : fty) (f : spec_float) : Prop := valid_binary (prec T) (emax T) f = true.
Lemma equal_same T a b : float_type T -> value_of T a -> value_of T b -> equal a b = true <-> same a b.
Proof.
  intros F Ha Hb. destruct (ok_type T F) as (A & B & C & E). unfold equal.
  assert (K : match a, b with S754_infinity _, _ | _, S754_infinity _ | S754_nan, _ | _, S754_nan => True | _, _ => SFeqb a b = true <-> number a = number b end).
  { unfold value_of in Ha, Hb. destruct a, b; try exact I; apply (compare_number (prec T) (emax T)); (split; [assumption|exact I]). }
  destruct a as [s|s| |s m e], b as [s'|s'| |s' m' e']; cbn [same]; try exact K; unfold SFeqb; cbn [SFcompare]; try tauto;
    try (destruct s); try (destruct s'); split; intro H; try discriminate H; try contradiction H; reflexivity.
Qed.
Theorem C89_compare : forall T, float_type T ->
  (forall a b, Forall (value_of T) (list2 a) -> Forall (value_of T) (list2 b) -> (eq2 a b = true <-> Forall2 same (list2 a) (list2 b)) /\ ne2 a b = negb (eq2 a b)) /\
  (forall a s, Forall (value_of T) (list2 a) -> value_of T s -> (eqs2 a s = true <-> Forall2 same (list2 a) [s; s]) /\ nes2 a s = negb (eqs2 a s)) /\
  (forall a b, Forall (value_of T) (list3 a) -> Forall (value_of T) (list3 b) -> (eq3 a b = true <-> Forall2 same (list3 a) (list3 b)) /\ ne3 a b = negb (eq3 a b)) /\
  (forall a s, Forall (value_of T) (list3 a) -> value_of T s -> (eqs3 a s = true <-> Forall2 same (list3 a) [s; s; s]) /\ nes3 a s = negb (eqs3 a s)).
Proof.
  intros T F. pose proof (fun a b => equal_same T a b F) as K.
  assert (W2 : forall a b c d, Forall2 same [a; b] [c; d] <-> same a c /\ same b d) by (intros; split; [intro Q0; inversion Q0 as [|? ? ? ? X1 Q1]; inversion Q1; auto|intros []; auto]).
  assert (W3 : forall a b c d e f, Forall2 same [a; b; c] [d; e; f] <-> (same a d /\ same b e) /\ same c f) by (intros; split; [intro Q0; inversion Q0 as [|? ? ? ? X1 Q1]; inversion Q1 as [|? ? ? ? X2 Q2]; inversion Q2; auto|intros [[] ]; auto]).
  assert (L2 : forall a b, Forall (value_of T) [a; b] -> value_of T a /\ value_of T b) by (intros a b Q0; inversion Q0 as [|? ? X1 Q1]; inversion Q1; auto).
  assert (L3 : forall a b c, Forall (value_of T) [a; b; c] -> value_of T a /\ value_of T b /\ value_of T c) by (intros a b c Q0; inversion Q0 as [|? ? X1 Q1]; inversion Q1 as [|? ? X2 Q2]; inversion Q2; auto).
  split; [|split; [|split]].
  - intros [ax ay] [bx by_] Ha Hb. apply L2 in Ha as [? ?]. apply L2 in Hb as [? ?]. unfold eq2, ne2, list2, unequal. fold (equal ax bx). fold (equal ay by_). rewrite W2, andb_true_iff, !K, negb_andb by assumption. tauto.
  - intros [ax ay] s Ha Hb. apply L2 in Ha as [? ?]. unfold eqs2, nes2, list2, unequal. fold (equal ax s). fold (equal ay s). rewrite W2, andb_true_iff, !K, negb_andb by assumption. tauto.
  - intros [[ax ay] az] [[bx by_] bz] Ha Hb. apply L3 in Ha as (? & ? & ?). apply L3 in Hb as (? & ? & ?). unfold eq3, ne3, list3, unequal. fold (equal ax bx). fold (equal ay by_). fold (equal az bz). rewrite W3, !andb_true_iff, !K, !negb_andb by assumption. tauto.
  - intros [[ax ay] az] s Ha Hb. apply L3 in Ha as (? & ? & ?). unfold eqs3, nes3, list3, unequal. fold (equal ax s). fold (equal ay s). fold (equal az s). rewrite W3, !andb_true_iff, !K, !negb_andb by assumption. tauto.
Qed.
Print Assumptions C89_compare.

Lemma poke_same m p v : poke m p v p = v.
Proof. unfold poke. now rewrite Nat.eqb_refl. Qed.
Lemma poke_other m p v q : q <> p -> poke m p v q = m q.
Proof. intro H. unfold poke. apply Nat.eqb_neq in H. now rewrite H. Qed.

(** [m'] is [m] with the results for its n cells at a and ys stored into those cells, and nothing else changed. *)
Definition stores (T : fty) (op : operator) (n : nat) (m : memory) (a : nat) (ys : list spec_float) (m' : memory) : Prop :=
  each T op (cells m a n) ys (cells m' a n) /\ forall q, (q < a \/ a + n <= q)%nat -> m' q = m q.

Lemma two_stores T op m a q0 q1 : float_type T -> q1 <> a ->
  stores T op 2 m a [m q0; m q1] (let m := assign (prim op T) m a q0 in assign (prim op T) m (a + 1)%nat q1).
Proof.
  intros F N1. unfold stores, cells. cbn [seq map]. replace (S a) with (a + 1)%nat by lia. cbv zeta. split.
  - unfold assign. rewrite poke_same, (poke_other _ (a + 1)%nat _ a), poke_same by lia. rewrite !(poke_other m a) by lia.
    apply each_cons; [intros; now apply prim_result|]. apply each_cons; [intros; now apply prim_result|]. apply each_nil.
  - intros q Hq. unfold assign. now rewrite !poke_other by lia.
Qed.
Lemma three_stores T op m a q0 q1 q2 : float_type T -> q1 <> a -> q2 <> a -> q2 <> (a + 1)%nat ->
  stores T op 3 m a [m q0; m q1; m q2] (let m := assign (prim op T) m a q0 in let m := assign (prim op T) m (a + 1)%nat q1 in assign (prim op T) m (a + 2)%nat q2).
Proof.
  intros F N1 N2 N3. unfold stores, cells. cbn [seq map]. replace (S (S a)) with (a + 2)%nat by lia. replace (S a) with (a + 1)%nat by lia. cbv zeta. split.
  - unfold assign. rewrite poke_same, (poke_other _ (a + 2)%nat _ a), (poke_other _ (a + 2)%nat _ (a + 1)%nat), poke_same, (poke_other _ (a + 1)%nat _ a), poke_same by lia.
    rewrite !(poke_other _ (a + 1)%nat) by lia. rewrite !(poke_other m a) by lia.
    apply each_cons; [intros; now apply prim_result|]. apply each_cons; [intros; now apply prim_result|]. apply each_cons; [intros; now apply prim_result|]. apply each_nil.
  - intros q Hq. unfold assign. now rewrite !poke_other by lia.
Qed.

(** C89: += and -= store what + and - give, for two vectors or a vector and itself, and touch nothing else. *)
Theorem C89_compound_vector : forall T m a b, float_type T ->
  (a = b \/ a + 2 <= b \/ b + 2 <= a -> stores T Add 2 m a (cells m b 2) (add2_a T m a b) /\ stores T Sub 2 m a (cells m b 2) (sub2_a T m a b))%nat /\
  (a = b \/ a + 3 <= b \/ b + 3 <= a -> stores T Add 3 m a (cells m b 3) (add3_a T m a b) /\ stores T Sub 3 m a (cells m b 3) (sub3_a T m a b))%nat.
Proof.
  intros T m a b F. unfold cells. cbn [seq map]. replace (S (S b)) with (b + 2)%nat by lia. replace (S b) with (b + 1)%nat by lia. split; intro D.
  - split; [apply (two_stores T Add)|apply (two_stores T Sub)]; (assumption || lia).
  - split; [apply (three_stores T Add)|apply (three_stores T Sub)]; (assumption || lia).
Qed.
Print Assumptions C89_compound_vector.

(** C89: *= and /= store what * and / give, when the scalar is not a component of the vector before the last one. *)
Theorem C89_compound_scalar_partial : forall T m a b, float_type T ->
  (b < a \/ a + 1 <= b -> stores T Mul 2 m a [m b; m b] (mul2_a T m a b) /\ stores T Div 2 m a [m b; m b] (div2_a T m a b))%nat /\
  (b < a \/ a + 2 <= b -> stores T Mul 3 m a [m b; m b; m b] (mul3_a T m a b) /\ stores T Div 3 m a [m b; m b; m b] (div3_a T m a b))%nat.
Proof.
  intros T m a b F. split; intro D.
  - split; [apply (two_stores T Mul)|apply (two_stores T Div)]; (assumption || lia).
  - split; [apply (three_stores T Mul)|apply (three_stores T Div)]; (assumption || lia).
Qed.
Print Assumptions C89_compound_scalar_partial.

(** C89: without that restriction it is false: (8, 12) /= its own x gives (1, 12), not (1, 3/2). *)
Definition f8 : spec_float := S754_finite false 8388608 (-20).
Definition f12 : spec_float := S754_finite false 12582912 (-20).
Lemma f8_number : number_of binary32 f8 /\ number f8 = 8.
Proof. split; [split; [reflexivity|exact I]|]. unfold number, f8. cbn [powerRZ]. simpl. lra. Qed.
Lemma f12_number : number_of binary32 f12 /\ number f12 = 12.
Proof. split; [split; [reflexivity|exact I]|]. unfold number, f12. simpl. lra. Qed.
Theorem C89_alias_refuted : ~ (forall T m a b, float_type T -> stores T Div 2 m a [m b; m b] (div2_a T m a b)).
Proof.
  intro H. destruct (H binary32 (fun q => match q with O => f8 | _ => f12 end) 0%nat 0%nat (or_introl eq_refl)) as [H1 _]. cbn [cells seq map] in H1.
  inversion H1 as [|? ? ? ? ? ? _ H2]; subst. inversion H2 as [|? ? ? ? ? ? R _]; subst.
  destruct f8_number as [N8 V8], f12_number as [N12 V12]. specialize (R N12 N8 ltac:(intros _; lra)). destruct R as [R _]. cbn [exact] in R. rewrite V8, V12 in R.
  assert (L : Rabs (12 / 8) < limit binary32).
  { rewrite Rabs_pos_eq by lra. unfold limit. cbn [emax prec binary32]. apply Rlt_le_trans with (2 ^ 2); [lra|]. change (powerRZ 2 128) with (2 ^ 128). change (powerRZ 2 (128 - 24 - 1)) with (2 ^ 103).
    replace (2 ^ 128) with (2 ^ 103 * 2 ^ 25) by (rewrite <- pow_add; reflexivity). assert (2 ^ 103 >= 1) by (apply Rle_ge, pow_R1_Rle; lra). simpl (2 ^ 25). simpl (2 ^ 2). nra. }
  destruct (R L) as (_ & N & _). specialize (N f8 N8). rewrite V8 in N.
  replace (div2_a binary32 (fun q => match q with O => f8 | _ => f12 end) 0 0 1%nat) with f12 in N by (vm_compute; reflexivity).
  rewrite V12 in N. rewrite !Rabs_pos_eq in N by lra. lra.
Qed.
Print Assumptions C89_alias_refuted.

(** ** Products *)
Lemma times_comm T a b : times T a b = times T b a.
Proof.
  unfold times. destruct a as [s|s| |s m e], b as [s'|s'| |s' m' e']; cbn [SFmul]; try reflexivity; try (now rewrite xorb_comm).
  now rewrite xorb_comm, Pos.mul_comm, Z.add_comm.
Qed.
Lemma round_aux_opp P E s m e l : SFopp (binary_round_aux P E s m e l) = binary_round_aux P E (negb s) m e l.
Proof.
  unfold binary_round_aux. destruct (shr_fexp P E m e l) as [r e']. destruct (shr_fexp P E _ e' loc_Exact) as [r2 e2]. destruct (shr_m r2) as [|p|p]; try reflexivity. destruct (e2 <=? E - P)%Z; reflexivity.
Qed.
Lemma minus_opposite T a b : opposite (minus T a b) (minus T b a).
Proof.
  unfold minus, opposite. destruct a as [s|s| |s m e], b as [s'|s'| |s' m' e']; cbn [SFsub]; try (now left);
    try (destruct s, s'; cbn [Bool.eqb negb SFopp]; solve [left; reflexivity|right; exact I]); try (left; cbn [SFopp]; now rewrite negb_involutive).
  rewrite (Z.min_comm e' e). set (x := cond_Zopp s _). set (y := cond_Zopp s' _). replace (y - x)%Z with (- (x - y))%Z by lia.
  destruct (x - y)%Z as [|p|p]; cbn [Z.opp binary_normalize]; [right; exact I|left|left]; unfold binary_round; destruct (shl_align p _ _); now rewrite round_aux_opp.
Qed.

(** C90: for all floats, infinities and NaNs too: the products are symmetric, the cross products antisymmetric up to the sign of a zero. *)
Theorem C90_symmetric :
  (forall a b, dotx1 a b = dotx1 b a /\ sqrx1 a = dotx1 a a) /\
  (forall a b, dotx2 a b = dotx2 b a /\ sqrx2 a = dotx2 a a /\ opposite (crossx2 a b) (crossx2 b a)) /\
  (forall a b, dotx3 a b = dotx3 b a /\ Forall2 opposite (list3 (crossx3 a b)) (list3 (crossx3 b a))).
Proof.
  assert (Q : forall a b c d, opposite (minus binary32 (times binary32 a b) (times binary32 c d)) (minus binary32 (times binary32 d c) (times binary32 b a))).
  { intros. rewrite (times_comm binary32 d c), (times_comm binary32 b a). apply minus_opposite. }
  split; [|split].
  - intros a b. split; [apply times_comm|reflexivity].
  - intros [ax ay] [bx by_]. unfold dotx2, sqrx2, crossx2. split; [f_equal; apply times_comm|]. split; [reflexivity|].  apply Q.
  - intros [[ax ay] az] [[bx by_] bz]. unfold dotx3, crossx3, list3. split; [f_equal; [f_equal|]; apply times_comm|]. constructor; [apply Q|]. constructor; [apply Q|]. constructor; [apply Q|constructor].
Qed.
Print Assumptions C90_symmetric.

(** C90: a square is not negative (nor is it -0). *)
Definition not_negative (f : spec_float) : Prop := match f with S754_nan => True | S754_zero s | S754_infinity s | S754_finite s _ _ => s = false end.
Lemma round_aux_positive P E m e l : not_negative (binary_round_aux P E false m e l).
Proof. unfold binary_round_aux. destruct (shr_fexp P E m e l) as [r e']. destruct (shr_fexp P E _ e' loc_Exact) as [r2 e2]. destruct (shr_m r2) as [|p|p]; cbn; try reflexivity; try exact I. destruct (e2 <=? E - P)%Z; reflexivity. Qed.
Lemma square_positive T a : not_negative (times T a a).
Proof. unfold times. destruct a as [s|s| |s m e]; cbn [SFmul not_negative]; try (now destruct s); try exact I. rewrite xorb_nilpotent. apply round_aux_positive. Qed.
Lemma plus_positive T a b : not_negative a -> not_negative b -> not_negative (plus T a b).
Proof.
  unfold plus. destruct a as [s|s| |s m e], b as [s'|s'| |s' m' e']; cbn [not_negative SFadd]; intros Ha Hb; subst; try exact I; try reflexivity.
  cbn [cond_Zopp Z.add binary_normalize]. unfold binary_round. destruct (shl_align _ _ _). apply round_aux_positive.
Qed.
Theorem C90_squares : (forall a, not_negative (sqrx1 a)) /\ (forall a, not_negative (sqrx2 a)) /\ (forall a, not_negative (dotx3 a a)).
Proof.
  split; [intro a; apply square_positive|]. split.
  - intros [ax ay]. unfold sqrx2. apply plus_positive; apply square_positive.
  - intros [[ax ay] az]. unfold dotx3. apply plus_positive; [apply plus_positive|]; apply square_positive.
Qed.
Print Assumptions C90_squares.

(** ** Errors *)
Notation number32 := (number_of binary32).
Definition u : R := / 16777216.
Definition eta : R := powerRZ 2 (-150).
Lemma p32 : FLX.Prec_gt_0 24. Proof. reflexivity. Qed.
Lemma m32 : BinarySingleNaN.Prec_lt_emax 24 128. Proof. reflexivity. Qed.
Definition rnd32 (x : R) : R := rnd 24 128 x.
Lemma rnd32_err x : Rabs (rnd32 x - x) <= u * Rabs x + eta.
Proof.
  assert (H := rnd_err 24 128 p32 x). fold (rnd32 x) in H. replace (/ 2 * Raux.bpow Zaux.radix2 (1 - 24)) with u in H by (unfold u; change (Raux.bpow Zaux.radix2 (1 - 24)) with (/ 8388608); lra).
  replace (/ 2 * Raux.bpow Zaux.radix2 (emin 24 128)) with eta in H; [exact H|]. unfold eta. rewrite <- bp. change (emin 24 128) with (-149)%Z. rewrite (bpow_half (-149)). change (-149 - 1)%Z with (-150)%Z. lra.
Qed.
Lemma big : powerRZ 2 127 < limit binary32.
Proof.
  unfold limit. cbn [prec emax binary32]. rewrite <- !bp. rewrite (bpow_half 128). change (128 - 1)%Z with 127%Z. change (128 - 24 - 1)%Z with 103%Z.
  assert (Raux.bpow Zaux.radix2 103 < Raux.bpow Zaux.radix2 127) by (apply Raux.bpow_lt; lia). lra.
Qed.
Lemma eta_pos : 0 < eta. Proof. unfold eta. rewrite <- bp. apply Raux.bpow_gt_0. Qed.
Lemma eta_small : eta <= / 1000.
Proof. unfold eta. rewrite <- bp. apply Rle_trans with (Raux.bpow Zaux.radix2 (-10)); [apply Raux.bpow_le; lia|]. change (Raux.bpow Zaux.radix2 (-10)) with (/ 1024). lra. Qed.
Lemma times_ok a b : number32 a -> number32 b -> Rabs (number a * number b) <= powerRZ 2 126 ->
  number32 (times binary32 a b) /\ number (times binary32 a b) = rnd32 (number a * number b).
Proof. intros Ha Hb L. apply (times_rnd 24 128 p32 m32 eq_refl); try assumption. assert (B := big). assert (powerRZ 2 126 <= powerRZ 2 127) by (rewrite <- !bp; apply Raux.bpow_le; lia). change {| prec := 24; emax := 128 |} with binary32. lra. Qed.
Lemma plus_ok a b : number32 a -> number32 b -> Rabs (number a + number b) <= powerRZ 2 127 ->
  number32 (plus binary32 a b) /\ number (plus binary32 a b) = rnd32 (number a + number b).
Proof. intros Ha Hb L. apply (plus_rnd 24 128 p32 m32 eq_refl); try assumption. assert (B := big). change {| prec := 24; emax := 128 |} with binary32. lra. Qed.
Lemma minus_ok a b : number32 a -> number32 b -> Rabs (number a - number b) <= powerRZ 2 127 ->
  number32 (minus binary32 a b) /\ number (minus binary32 a b) = rnd32 (number a - number b).
Proof. intros Ha Hb L. apply (minus_rnd 24 128 p32 m32 eq_refl); try assumption. assert (B := big). change {| prec := 24; emax := 128 |} with binary32. lra. Qed.
Lemma double : powerRZ 2 127 = 2 * powerRZ 2 126.
Proof. rewrite <- !bp. now rewrite (bpow_half 127). Qed.
Lemma one_big : 1 <= powerRZ 2 126.
Proof. rewrite <- bp. change 1 with (Raux.bpow Zaux.radix2 0). apply Raux.bpow_le. lia. Qed.

(** x * x' + y * y' and x * x' - y * y'. *)
Lemma two_products x x' y y' : number32 x -> number32 x' -> number32 y -> number32 y' ->
  let S := Rabs (number x * number x') + Rabs (number y * number y') in S <= powerRZ 2 126 ->
  (number32 (plus binary32 (times binary32 x x') (times binary32 y y')) /\
   Rabs (number (plus binary32 (times binary32 x x') (times binary32 y y')) - (number x * number x' + number y * number y')) <= 9 / 4 * u * S + 4 * eta) /\
  (number32 (minus binary32 (times binary32 x x') (times binary32 y y')) /\
   Rabs (number (minus binary32 (times binary32 x x') (times binary32 y y')) - (number x * number x' - number y * number y')) <= 9 / 4 * u * S + 4 * eta).
Proof.
  intros Hx Hx' Hy Hy' S L. assert (D := double). assert (E := eta_pos). assert (O := one_big). assert (Es := eta_small).
  assert (A1 := Rabs_pos (number x * number x')). assert (A2 := Rabs_pos (number y * number y')).
  destruct (times_ok x x' Hx Hx' ltac:(unfold S in L; lra)) as (NP & VP). destruct (times_ok y y' Hy Hy' ltac:(unfold S in L; lra)) as (NQ & VQ).
  assert (EP := rnd32_err (number x * number x')). assert (EQ := rnd32_err (number y * number y')). rewrite <- VP in EP. rewrite <- VQ in EQ.
  set (p := times binary32 x x') in *. set (q := times binary32 y y') in *. set (X := number x * number x') in *. set (Y := number y * number y') in *. clearbody p q X Y.
  assert (BP : Rabs (number p) <= (1 + u) * Rabs X + eta).
  { replace (number p) with ((number p - X) + X) by ring. eapply Rle_trans; [apply Rabs_triang|]. lra. }
  assert (BQ : Rabs (number q) <= (1 + u) * Rabs Y + eta).
  { replace (number q) with ((number q - Y) + Y) by ring. eapply Rle_trans; [apply Rabs_triang|]. lra. }
  assert (G : forall w W, Rabs w <= Rabs (number p) + Rabs (number q) -> Rabs (w - W) <= Rabs (number p - X) + Rabs (number q - Y) ->
    Rabs w <= powerRZ 2 127 /\ Rabs (rnd32 w - W) <= 9 / 4 * u * S + 4 * eta).
  { intros w W H1 H2. unfold S in *. unfold u in *. split; [lra|]. assert (ER := rnd32_err w). replace (rnd32 w - W) with ((rnd32 w - w) + (w - W)) by ring.
    eapply Rle_trans; [apply Rabs_triang|]. unfold u in ER. set (rw := Rabs (rnd32 w - w)) in *. set (aw := Rabs w) in *. set (ww := Rabs (w - W)) in *. clearbody rw aw ww. lra. }
  split.
  - destruct (G (number p + number q) (X + Y)) as (G1 & G2); [apply Rabs_triang|replace (number p + number q - (X + Y)) with ((number p - X) + (number q - Y)) by ring; apply Rabs_triang|].
    destruct (plus_ok p q NP NQ G1) as (N & V). split; [assumption|]. now rewrite V.
  - destruct (G (number p - number q) (X - Y)) as (G1 & G2).
    + unfold Rminus. rewrite <- (Rabs_Ropp (number q)). apply Rabs_triang.
    + replace (number p - number q - (X - Y)) with ((number p - X) + - (number q - Y)) by ring. rewrite <- (Rabs_Ropp (number q - Y)). apply Rabs_triang.
    + destruct (minus_ok p q NP NQ G1) as (N & V). split; [assumption|]. now rewrite V.
Qed.
Lemma eta4 : 4 * eta = powerRZ 2 (-148).
Proof. unfold eta. rewrite <- !bp. rewrite (bpow_half (-148)), (bpow_half (-148 - 1)). change (-148 - 1 - 1)%Z with (-150)%Z. ring. Qed.
Lemma eta8 : 8 * eta = powerRZ 2 (-147).
Proof. replace (8 * eta) with (2 * (4 * eta)) by ring. rewrite eta4, <- !bp. rewrite (bpow_half (-147)). reflexivity. Qed.

(** x x' + y y' + z z'. *)
Lemma three_products x x' y y' z z' : number32 x -> number32 x' -> number32 y -> number32 y' -> number32 z -> number32 z' ->
  let S := Rabs (number x * number x') + Rabs (number y * number y') + Rabs (number z * number z') in S <= powerRZ 2 126 ->
  let r := plus binary32 (plus binary32 (times binary32 x x') (times binary32 y y')) (times binary32 z z') in
  number32 r /\ Rabs (number r - (number x * number x' + number y * number y' + number z * number z')) <= 7 / 2 * u * S + 8 * eta.
Proof.
  intros Hx Hx' Hy Hy' Hz Hz' S L. cbv zeta. assert (D := double). assert (E := eta_pos). assert (O := one_big). assert (Es := eta_small).
  assert (A1 := Rabs_pos (number x * number x')). assert (A2 := Rabs_pos (number y * number y')). assert (A3 := Rabs_pos (number z * number z')).
  destruct (two_products x x' y y' Hx Hx' Hy Hy' ltac:(unfold S in L; lra)) as ((NP & EP) & _).
  destruct (times_ok z z' Hz Hz' ltac:(unfold S in L; lra)) as (NQ & VQ). assert (EQ := rnd32_err (number z * number z')). rewrite <- VQ in EQ.
  set (p := plus binary32 (times binary32 x x') (times binary32 y y')) in *. set (q := times binary32 z z') in *.
  set (X := number x * number x') in *. set (Y := number y * number y') in *. set (Z := number z * number z') in *. clearbody p q X Y Z.
  assert (B : Rabs (number p + number q) <= (1 + 3 * u) * S + 6 * eta).
  { replace (number p + number q) with ((number p - (X + Y)) + (number q - Z) + (X + Y + Z)) by ring. eapply Rle_trans; [apply Rabs_triang|].
    assert (T1 := Rabs_triang (number p - (X + Y)) (number q - Z)). assert (T2 := Rabs_triang (X + Y) Z). assert (T3 := Rabs_triang X Y). unfold S. unfold u in *. lra. }
  unfold S, u in *. destruct (plus_ok p q NP NQ ltac:(lra)) as (N & V). split; [assumption|]. rewrite V. assert (ER := rnd32_err (number p + number q)). unfold u in ER.
  replace (rnd32 (number p + number q) - (X + Y + Z)) with ((rnd32 (number p + number q) - (number p + number q)) + ((number p - (X + Y)) + (number q - Z))) by ring.
  eapply Rle_trans; [apply Rabs_triang|]. assert (T1 := Rabs_triang (number p - (X + Y)) (number q - Z)). lra.
Qed.

(** C90: for vectors of numbers whose products are not too large the results are right up to a few units in the last place of the
    products. *)
Definition close (d tiny : R) (r : spec_float) (x size : R) : Prop := number32 r /\ Rabs (number r - x) <= d * size + tiny.
Theorem C90_error :
  (forall ax ay bx by_, let a := (ax, ay) in let b := (bx, by_) in number32 ax -> number32 ay -> number32 bx -> number32 by_ ->
    (Rabs (number ax * number bx) + Rabs (number ay * number by_) <= powerRZ 2 126 ->
     close (9 / 4 * / 2 ^ 24) (powerRZ 2 (-148)) (dotx2 a b) (number ax * number bx + number ay * number by_) (Rabs (number ax * number bx) + Rabs (number ay * number by_))) /\
    (Rabs (number ax * number by_) + Rabs (number ay * number bx) <= powerRZ 2 126 ->
     close (9 / 4 * / 2 ^ 24) (powerRZ 2 (-148)) (crossx2 a b) (number ax * number by_ - number ay * number bx) (Rabs (number ax * number by_) + Rabs (number ay * number bx)))) /\
  (forall ax ay az bx by_ bz, let a := (ax, ay, az) in let b := (bx, by_, bz) in
    number32 ax -> number32 ay -> number32 az -> number32 bx -> number32 by_ -> number32 bz ->
    (Rabs (number ax * number bx) + Rabs (number ay * number by_) + Rabs (number az * number bz) <= powerRZ 2 126 ->
     close (7 / 2 * / 2 ^ 24) (powerRZ 2 (-147)) (dotx3 a b) (number ax * number bx + number ay * number by_ + number az * number bz)
       (Rabs (number ax * number bx) + Rabs (number ay * number by_) + Rabs (number az * number bz))) /\
    (let '(cx, cy, cz) := crossx3 a b in
     (Rabs (number ay * number bz) + Rabs (number az * number by_) <= powerRZ 2 126 ->
      close (9 / 4 * / 2 ^ 24) (powerRZ 2 (-148)) cx (number ay * number bz - number az * number by_) (Rabs (number ay * number bz) + Rabs (number az * number by_))) /\
     (Rabs (number az * number bx) + Rabs (number ax * number bz) <= powerRZ 2 126 ->
      close (9 / 4 * / 2 ^ 24) (powerRZ 2 (-148)) cy (number az * number bx - number ax * number bz) (Rabs (number az * number bx) + Rabs (number ax * number bz))) /\
     (Rabs (number ax * number by_) + Rabs (number ay * number bx) <= powerRZ 2 126 ->
      close (9 / 4 * / 2 ^ 24) (powerRZ 2 (-148)) cz (number ax * number by_ - number ay * number bx) (Rabs (number ax * number by_) + Rabs (number ay * number bx))))).
Proof.
  assert (U : / 2 ^ 24 = u) by (unfold u; f_equal; simpl; lra). rewrite U, <- eta4, <- eta8. unfold close, dotx2, crossx2, dotx3, crossx3. split.
  - intros ax ay bx by_ Ha1 Ha2 Hb1 Hb2. split; intro L; [exact (proj1 (two_products ax bx ay by_ Ha1 Hb1 Ha2 Hb2 L))|exact (proj2 (two_products ax by_ ay bx Ha1 Hb2 Ha2 Hb1 L))].
  - intros ax ay az bx by_ bz Ha1 Ha2 Ha3 Hb1 Hb2 Hb3. split; [intro L; exact (three_products ax bx ay by_ az bz Ha1 Hb1 Ha2 Hb2 Ha3 Hb3 L)|].
    split; [intro L; exact (proj2 (two_products ay bz az by_ Ha2 Hb3 Ha3 Hb2 L))|]. split; intro L; [exact (proj2 (two_products az bx ax bz Ha3 Hb1 Ha1 Hb3 L))|exact (proj2 (two_products ax by_ ay bx Ha1 Hb2 Ha2 Hb1 L))].
Qed.
Print Assumptions C90_error.

(** C90: small whole numbers: the products are exact, so their signs are. *)
Lemma times_whole a b m n : number32 a -> number32 b -> number a = IZR m -> number b = IZR n -> (Z.abs (m * n) < 2 ^ 24)%Z ->
  number32 (times binary32 a b) /\ number (times binary32 a b) = IZR (m * n).
Proof.
  intros Ha Hb Va Vb L. assert (K : number a * number b = IZR (m * n)) by (rewrite Va, Vb, mult_IZR; reflexivity).
  destruct (times_ok a b Ha Hb) as (N & V).
  { rewrite K, <- abs_IZR. apply Rle_trans with (IZR (2 ^ 24)); [apply IZR_le; lia|]. rewrite <- bp. change (IZR (2 ^ 24)) with (Raux.bpow Zaux.radix2 24). apply Raux.bpow_le. lia. }
  split; [assumption|]. rewrite V, K. apply (rnd_whole 24 128 p32 eq_refl); [lia|exact L].
Qed.
Lemma sum_whole a b m n : number32 a -> number32 b -> number a = IZR m -> number b = IZR n ->
  ((Z.abs (m + n) < 2 ^ 24)%Z -> number32 (plus binary32 a b) /\ number (plus binary32 a b) = IZR (m + n)) /\
  ((Z.abs (m - n) < 2 ^ 24)%Z -> number32 (minus binary32 a b) /\ number (minus binary32 a b) = IZR (m - n)).
Proof.
  intros Ha Hb Va Vb. assert (Q : IZR (2 ^ 24) <= powerRZ 2 127) by (rewrite <- bp; change (IZR (2 ^ 24)) with (Raux.bpow Zaux.radix2 24); apply Raux.bpow_le; lia).
  split; intro L.
  - assert (K : number a + number b = IZR (m + n)) by (rewrite Va, Vb, plus_IZR; reflexivity).
    destruct (plus_ok a b Ha Hb) as (N & V); [rewrite K, <- abs_IZR; eapply Rle_trans; [apply IZR_le; apply Z.lt_le_incl; exact L|exact Q]|].
    split; [assumption|]. rewrite V, K. apply (rnd_whole 24 128 p32 eq_refl); [lia|exact L].
  - assert (K : number a - number b = IZR (m - n)) by (rewrite Va, Vb, minus_IZR; reflexivity).
    destruct (minus_ok a b Ha Hb) as (N & V); [rewrite K, <- abs_IZR; eapply Rle_trans; [apply IZR_le; apply Z.lt_le_incl; exact L|exact Q]|].
    split; [assumption|]. rewrite V, K. apply (rnd_whole 24 128 p32 eq_refl); [lia|exact L].
Qed.
(** f is the whole number n, of at most 2364 in size. *)
Definition small (f : spec_float) (n : Z) : Prop := number32 f /\ number f = IZR n /\ (Z.abs n <= 2364)%Z.
Lemma small_product m n : (Z.abs m <= 2364 -> Z.abs n <= 2364 -> Z.abs (m * n) <= 5588496)%Z.
Proof. intros. rewrite Z.abs_mul. nia. Qed.
Theorem C90_whole :
  (forall ax ay bx by_ m n m' n', small ax m -> small ay n -> small bx m' -> small by_ n' ->
     number (dotx2 (ax, ay) (bx, by_)) = IZR (m * m' + n * n') /\ number (sqrx2 (ax, ay)) = IZR (m * m + n * n) /\ number (crossx2 (ax, ay) (bx, by_)) = IZR (m * n' - n * m')) /\
  (forall ax ay az bx by_ bz m n o m' n' o', small ax m -> small ay n -> small az o -> small bx m' -> small by_ n' -> small bz o' ->
     number (dotx3 (ax, ay, az) (bx, by_, bz)) = IZR (m * m' + n * n' + o * o') /\
     map number (list3 (crossx3 (ax, ay, az) (bx, by_, bz))) = [IZR (n * o' - o * n'); IZR (o * m' - m * o'); IZR (m * n' - n * m')]).
Proof.
  assert (Q : forall a b c d m n m' n', small a m -> small b n -> small c m' -> small d n' ->
     (number32 (plus binary32 (times binary32 a b) (times binary32 c d)) /\ number (plus binary32 (times binary32 a b) (times binary32 c d)) = IZR (m * n + m' * n')) /\
     number (minus binary32 (times binary32 a b) (times binary32 c d)) = IZR (m * n - m' * n')).
  { intros a b c d m n m' n' (Na & Va & Ba) (Nb & Vb & Bb) (Nc & Vc & Bc) (Nd & Vd & Bd). assert (P1 := small_product m n Ba Bb). assert (P2 := small_product m' n' Bc Bd).
    destruct (times_whole a b m n Na Nb Va Vb ltac:(lia)) as (N1 & V1). destruct (times_whole c d m' n' Nc Nd Vc Vd ltac:(lia)) as (N2 & V2).
    destruct (sum_whole _ _ _ _ N1 N2 V1 V2) as (S1 & S2). split; [apply S1|apply S2]; lia. }
  split.
  - intros ax ay bx by_ m n m' n' A1 A2 B1 B2. unfold dotx2, sqrx2, crossx2. split; [exact (proj2 (proj1 (Q _ _ _ _ _ _ _ _ A1 B1 A2 B2)))|]. split; [exact (proj2 (proj1 (Q _ _ _ _ _ _ _ _ A1 A1 A2 A2)))|exact (proj2 (Q _ _ _ _ _ _ _ _ A1 B2 A2 B1))].
  - intros ax ay az bx by_ bz m n o m' n' o' A1 A2 A3 B1 B2 B3. unfold dotx3, crossx3, list3. split.
    + destruct (proj1 (Q _ _ _ _ _ _ _ _ A1 B1 A2 B2)) as (N1 & V1). destruct A3 as (N3 & V3 & S3), B3 as (N3' & V3' & S3'). assert (P3 := small_product o o' S3 S3').
      destruct (times_whole az bz o o' N3 N3' V3 V3' ltac:(lia)) as (N2 & V2). destruct A1 as (_ & _ & S1), A2 as (_ & _ & S2), B1 as (_ & _ & S1'), B2 as (_ & _ & S2').
      assert (P1 := small_product m m' S1 S1'). assert (P2 := small_product n n' S2 S2'). apply (proj1 (sum_whole _ _ _ _ N1 N2 V1 V2)). lia.
    + cbn [map]. rewrite (proj2 (Q _ _ _ _ _ _ _ _ A2 B3 A3 B2)), (proj2 (Q _ _ _ _ _ _ _ _ A3 B1 A1 B3)), (proj2 (Q _ _ _ _ _ _ _ _ A1 B2 A2 B1)). reflexivity.
Qed.
Print Assumptions C90_whole.

(** C90: the cross product of a vector with itself is zero, unless it overflows. *)
Theorem C90_parallel :
  (forall ax ay, number32 (times binary32 ax ay) -> number (crossx2 (ax, ay) (ax, ay)) = 0 /\ crossx2 (ax, ay) (ax, ay) = S754_zero false) /\
  (forall ax ay, number32 ax -> number32 ay -> Rabs (number ax * number ay) < limit binary32 -> number32 (times binary32 ax ay)).
Proof.
  split.
  - intros ax ay [V F]. unfold crossx2. rewrite (times_comm _ ay ax). destruct (times binary32 ax ay) as [s|s| |s m e]; try contradiction F; unfold minus; cbn [SFsub].
    + destruct s; split; reflexivity.
    + rewrite Z.sub_diag. split; reflexivity.
  - intros ax ay Ha Hb L. exact (proj1 (times_rnd 24 128 p32 m32 eq_refl ax ay Ha Hb L)).
Qed.
Print Assumptions C90_parallel.

(** The cases: 1/10 + 2/10 in double, an overflow, a NaN, a tie, -0; products in which a digit is lost. *)
Definition whole (n : Z) : spec_float := SFdiv 24 128 (binary_normalize 24 128 n 0 false) (binary_normalize 24 128 1 0 false).
Example C89_case :
  let tenth := S754_finite false 7205759403792794 (-56) in let fifth := S754_finite false 7205759403792794 (-55) in
  add2 binary64 (tenth, fifth) (fifth, tenth) = (S754_finite false 5404319552844596 (-54), S754_finite false 5404319552844596 (-54)) /\
  number_of binary64 tenth /\
  mul2 binary32 (S754_finite false 8388608 104, S754_zero true) (whole 2) = (S754_infinity false, S754_zero true) /\
  eq2 (S754_nan, whole 1) (S754_nan, whole 1) = false /\ eq2 (S754_zero true, whole 1) (S754_zero false, whole 1) = true /\
  add2 binary32 (whole 16777216, whole 16777218) (whole 1, whole 1) = (whole 16777216, S754_finite false 8388610 1).
Proof. repeat apply conj; try reflexivity. Qed.
Example C90_case : dotx2 (whole 3, whole 4) (whole 2000, whole (-5)) = whole 5980 /\
  small (whole 2000) 2000 /\ number32 (whole 4097) /\
  dotx2 (whole 4097, whole 1) (whole 4097, whole 1) = whole 16785408 /\
  crossx2 (whole 4097, whole 4098) (whole 4098, whole 4099) = S754_zero false /\
  crossx3 (whole 1, whole 2, whole 3) (whole 4, whole 5, whole 6) = (whole (-3), whole 6, whole (-3)) /\
  crossx2 (S754_infinity false, whole 1) (whole 1, S754_infinity false) = S754_infinity false.
Proof.
  assert (V : number (whole 2000) = IZR 2000).
  { replace (whole 2000) with (S754_finite false 16384000 (-13)) by (vm_compute; reflexivity). cbn [number]. change (powerRZ 2 (-13)) with (/ 2 ^ 13). replace (2 ^ 13) with 8192 by (simpl; ring). lra. }
  split; [vm_compute; reflexivity|]. split; [split; [split; [vm_compute; reflexivity|exact I]|split; [exact V|lia]]|].
  split; [split; [vm_compute; reflexivity|exact I]|]. repeat apply conj; vm_compute; reflexivity.
Qed.
