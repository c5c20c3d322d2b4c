(** Errors of few bits, anywhere in the message. *)
From Coq Require Import Znumtheory.
From Verif Require Import Base Bits Primes Orbit Hash_Model Hash_Spec Hash_Proofs Crc_Spec.
Local Open Scope Z_scope.

(** ** 2^31 - 1 is prime: a prime divisor is 1 modulo 331 and modulo 151, so its square is too large. *)
Definition mersenne : Z := 2147483647.
Lemma prime_331 : prime 331. Proof. apply (prime_by_trial _ 30); [lia | reflexivity]. Qed.
Lemma prime_151 : prime 151. Proof. apply (prime_by_trial _ 30); [lia | reflexivity]. Qed.
Lemma prime_mersenne : prime mersenne.
Proof.
  destruct (prime_dec mersenne) as [P|P]; [auto|exfalso].
  destruct (small_prime_divisor mersenne ltac:(reflexivity) P) as (p & Pp & D & Hs). pose proof (prime_ge_2 p Pp).
  assert (H1 : 7 ^ (mersenne - 1) mod mersenne = 1).
  { replace (mersenne - 1) with (Z.pos 2147483646) by reflexivity. rewrite <- powm_ok by reflexivity. vm_compute. reflexivity. }
  assert (Q1 : (331 | p - 1)).
  { assert (H2 : ((7 ^ 6487866 - 1) * 1924809196) mod mersenne = 1).
    { rewrite Z.mul_mod, Zminus_mod by discriminate. rewrite <- powm_ok by reflexivity. vm_compute. reflexivity. }
    exact (pocklington mersenne 331 6487866 7 1924809196 p prime_331 eq_refl eq_refl eq_refl Pp D H1 H2). }
  assert (Q2 : (151 | p - 1)).
  { assert (H2 : ((7 ^ 14221746 - 1) * 1648395377) mod mersenne = 1).
    { rewrite Z.mul_mod, Zminus_mod by discriminate. rewrite <- powm_ok by reflexivity. vm_compute. reflexivity. }
    exact (pocklington mersenne 151 14221746 7 1648395377 p prime_151 eq_refl eq_refl eq_refl Pp D H1 H2). }
  clear H1. destruct Q1 as [k Hk]. destruct Q2 as [j Hj]. assert (D2 : (151 | k)).
  { apply Gauss with 331; [exists j; lia|]. apply prime_rel_prime; [exact prime_151|]. intros [z Hz]. lia. }
  destruct D2 as [i ->]. unfold mersenne in Hs. nia.
Qed.

Section Crc.
  Variable P : Z.
  Hypothesis HP : 0 <= P < 2 ^ 32.
  Hypothesis HT : 2 ^ 31 <= P.
  Notation it := (it P).
  Notation feed_all := (fold_left (crc_bit P)).

  Lemma crc_bit_lin v d b : crc_bit P (Z.lxor v d) b = Z.lxor (crc_bit P v b) (crc P d).
  Proof. rewrite !crc_bit_crc by assumption. rewrite <- crc_lin by assumption. f_equal. rewrite !Z.lxor_assoc. f_equal. apply Z.lxor_comm. Qed.
  Lemma crc_bit_negb v b : crc_bit P v (negb b) = Z.lxor (crc_bit P v b) (crc P 1).
  Proof. rewrite !crc_bit_crc by assumption. rewrite <- crc_lin by assumption. f_equal. rewrite Z.lxor_assoc. f_equal. now destruct b. Qed.
  Lemma feed_lin bs : forall v d, feed_all bs (Z.lxor v d) = Z.lxor (feed_all bs v) (it (length bs) d).
  Proof. induction bs as [|b bs IH]; intros v d; [reflexivity|]. cbn [fold_left length]. rewrite crc_bit_lin, IH. now rewrite it_S by assumption. Qed.

  (** Two flipped bits cancel exactly when the register comes back to 1 in between. *)
  Lemma two_bits a x b y c v : 0 <= v < 2 ^ 32 ->
    (feed_all (a ++ x :: b ++ y :: c) v = feed_all (a ++ negb x :: b ++ negb y :: c) v <-> it (S (length b)) 1 = 1).
  Proof.
    intro Hv. rewrite !fold_left_app. cbn [fold_left]. rewrite !fold_left_app. cbn [fold_left].
    assert (Hw : 0 <= feed_all a v < 2 ^ 32) by (now apply crc_bits_range). set (w := feed_all a v) in *.
    rewrite (crc_bit_negb w x), feed_lin, crc_bit_lin, crc_bit_negb, Z.lxor_assoc, <- crc_lin, feed_lin by assumption.
    rewrite <- (it_S P 
      (length b) 1). set (d := it (S (length b)) 1). assert (Hd : 0 <= d < 2 ^ 32) by (apply it_range; [assumption|lia]).
    assert (H1 : 0 <= Z.lxor 1 d < 2 ^ 32) by (apply lxor_range; lia).
    set (r := feed_all c _). split.
    - intro E. assert (E0 : it (length c) (crc P (Z.lxor 1 d)) = 0).
      { rewrite <- (Z.lxor_0_r r) in E at 1. now apply lxor_cancel_l in E. }
      rewrite <- it_S, <- (it_0 P HP (S (length c))) in E0 by assumption. apply it_inj in E0; [|assumption|assumption|assumption|lia]. apply Z.lxor_eq in E0. now symmetry.
    - intros ->. rewrite Z.lxor_nilpotent. replace (crc P 0) with 0 by reflexivity. rewrite it_0 by assumption. now rewrite Z.lxor_0_r.
  Qed.

  (** ** Parity *)
  Fixpoint parity (n : nat) (v : Z) : bool := match n with O => false | S n => xorb (Z.odd v) (parity n (Z.div2 v)) end.
  Lemma parity_lxor n : forall v w, parity n (Z.lxor v w) = xorb (parity n v) (parity n w).
  Proof.
    induction n as [|n IH]; intros v w; [reflexivity|]. cbn [parity]. rewrite odd_lxor, div2_lxor, IH. destruct (Z.odd v), (Z.odd w), (parity n (Z.div2 v)), (parity n (Z.div2 w)); reflexivity.
  Qed.
  Lemma parity_small n : forall v, 0 <= v < 2 ^ Z.of_nat n -> parity (S n) v = parity n v.
  Proof.
    induction n as [|n IH]; intros v Hv; [replace v with 0 by (cbn in Hv; lia); reflexivity|]. change (xorb (Z.odd v) (parity (S n) (Z.div2 v)) = xorb (Z.odd v) (parity n (Z.div2 v))). f_equal. apply IH.
    rewrite Nat2Z.inj_succ, Z.pow_succ_r in Hv by lia. rewrite Z.div2_div. split; [apply Z.div_pos; lia|]. apply Z.div_lt_upper_bound; lia.
  Qed.
  Lemma parity_weight n v : parity n v = Nat.odd (weight n v).
  Proof.
    unfold weight. revert v. induction n as [|n IH]; intro v; [reflexivity|]. cbn [parity bits filter]. rewrite IH. destruct (Z.odd v); [|apply xorb_false_l]. cbn [length]. rewrite Nat.odd_succ, <- Nat.negb_odd. reflexivity.
  Qed.
  Hypothesis HW : Nat.odd (weight 32 P) = true.
  Lemma parity_S n v : parity (S n) v = xorb (Z.odd v) (parity n (Z.div2 v)). Proof. reflexivity. Qed.
  Lemma parity_0 n : parity n 0 = false. Proof. induction n as [|n IH]; [reflexivity|]. rewrite parity_S. change (Z.div2 0) with 0. rewrite IH. reflexivity. Qed.
  Lemma div2_small v : 0 <= v < 2 ^ 32 -> 0 <= Z.div2 v < 2 ^ Z.of_nat 31.
  Proof. intro Hv. rewrite Z.div2_div. split; [apply Z.div_pos; lia|]. apply Z.div_lt_upper_bound; [lia|]. change (2 * 2 ^ Z.of_nat 31) with (2 ^ 32). lia. Qed.
  Lemma crc_parity_k k v : Nat.odd (weight (S k) P) = true -> 0 <= Z.div2 v < 2 ^ Z.of_nat k -> parity (S k) (crc P v) = parity (S k) v.
  Proof.
    intros W Hv. rewrite <- parity_weight in W. rewrite crc_alt, parity_lxor by assumption. rewrite (parity_small k _ Hv), (parity_S k v). generalize (parity k (Z.div2 v)). intro x.
    destruct (Z.odd v); [rewrite W|rewrite parity_0]; destruct x; reflexivity.
  Qed.
  Lemma crc_parity v : 0 <= v < 2 ^ 32 -> parity 32 (crc P v) = parity 32 v.
  Proof. intro Hv. apply (crc_parity_k 31); [exact HW|now apply div2_small]. Qed.
  Lemma b2z_parity b : parity 32 (Z.b2z b) = b. Proof. now destruct b. Qed.
  Fixpoint xor_all (bs : list bool) : bool := match bs with [] => false | b :: bs => xorb b (xor_all bs) end.
  Lemma feed_parity bs : forall v, 0 <= v < 2 ^ 32 -> parity 32 (feed_all bs v) = xorb (parity 32 v) (xor_all bs).
  Proof.
    induction bs as [|b bs IH]; intros v Hv; cbn [fold_left xor_all]; [now rewrite xorb_false_r|]. assert (Hb : 0 <= Z.lxor v (Z.b2z b) < 2 ^ 32) by (apply lxor_range; [lia|assumption|destruct b; cbn; lia]).
    rewrite IH by (rewrite crc_bit_crc by assumption; now apply (it_range P HP 1)). rewrite crc_bit_crc, crc_parity, parity_lxor, b2z_parity by assumption. apply xorb_assoc.
  Qed.
  Lemma xor_differences a : forall b, length a = length b -> xorb (xor_all a) (xor_all b) = Nat.odd (differences a b).
  Proof.
    induction a as [|x a IH]; intros [|y b] L; try discriminate L; [reflexivity|]. cbn [xor_all differences]. injection L as L. specialize (IH b L).
    destruct x, y; cbn [Bool.eqb Nat.add]; rewrite ?Nat.odd_succ, <- ?Nat.negb_odd, <- IH; destruct (xor_all a), (xor_all b); reflexivity.
  Qed.
  Lemma odd_detected a b v : 0 <= v < 2 ^ 32 -> length a = length b -> Nat.odd (differences a b) = true -> feed_all a v <> feed_all b v.
  Proof.
    intros Hv L O E. rewrite <- xor_differences in O by assumption. apply (f_equal (parity 32)) in E. rewrite !feed_parity in E by assumption. destruct (parity 32 v), (xor_all a), (xor_all b); discriminate.
  Qed.
End Crc.

(** ** Where two strings differ *)
Lemma differences_0 a : forall b, length a = length b -> differences a b = 0%nat -> a = b.
Proof.
  induction a as [|x a IH]; intros [|y b] L D; try discriminate L; [reflexivity|]. injection L as L. cbn [differences] in D. destruct (Bool.eqb x y) eqn:E; [|discriminate D]. apply Bool.eqb_prop in E as <-. f_equal. now apply IH.
Qed.
Lemma differences_S a : forall b n, length a = length b -> differences a b = S n -> exists p x s t, a = p ++ x :: s /\ b = p ++ negb x :: t /\ length s = length t /\ differences s t = n.
Proof.
  induction a as [|x a IH]; intros [|y b] n L D; try discriminate L; [discriminate D|]. injection L as L. cbn [differences] in D. destruct (Bool.eqb x y) eqn:E.
  - apply Bool.eqb_prop in E as <-. destruct (IH b n L D) as (p & z & s & t & -> & -> & Ls & Ds). exists (x :: p), z, s, t. auto.
  - exists [], x, a, b. injection D as D. repeat split; auto. cbn. f_equal. apply Bool.eqb_false_iff in E. now destruct x, y.
Qed.

(** ** The register of crc32c comes back to 1 after 2^31 - 1 steps, not earlier *)
Definition poly : N := 4812730177. (* 0x11edc6f41 *)
Lemma poly_zero : ev 0 Z.lxor (crc crc32c_poly) poly 1 = 0.
Proof. vm_compute. reflexivity. Qed.
Lemma poly_pow : xpow poly 32 2147483647 = 1%N.
Proof. vm_compute. reflexivity. Qed.
Lemma it_iter n v : it crc32c_poly n v = N.iter (N.of_nat n) (crc crc32c_poly) v.
Proof. induction n as [|n IH]; [reflexivity|]. cbn [it]. replace (N.of_nat (S n)) with (N.succ (N.of_nat n)) by lia. now rewrite N.iter_succ, IH. Qed.
Lemma crc32c_order n : it crc32c_poly n 1 = 1 <-> (mersenne | Z.of_nat n).
Proof.
  assert (HP : 0 <= crc32c_poly < 2 ^ 32) by (unfold crc32c_poly; lia). rewrite it_iter. rewrite (order_exact (crc crc32c_poly) 2147483647 [mersenne] 1).
  - rewrite nat_N_Z. reflexivity.
  - reflexivity.
  - constructor; [exact prime_mersenne|constructor].
  - reflexivity.
  - symmetry. replace 1 with (ev 0 Z.lxor (crc crc32c_poly) (xpow poly 32 2147483647) 1) at 1 by (now rewrite poly_pow).
    apply (xpow_ok 0 Z.lxor (crc crc32c_poly)); auto using Z.lxor_comm, Z.lxor_0_r, Z.lxor_nilpotent, poly_zero; [intros; now rewrite Z.lxor_assoc|intros; now apply crc_lin].
  - intros q [<-|[]]. vm_compute. discriminate.
Qed.
