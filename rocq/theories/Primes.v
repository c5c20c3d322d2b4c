(** Primality of the factors of 2^64-1 and 2^128-1. Nothing here models code. *)
From Coq Require Import Znumtheory Zpow_facts Permutation.
From Verif Require Import Base.
Local Open Scope Z_scope.

(** Trial division. *)
Lemma prime_trial p : 1 < p -> (forall d, 2 <= d -> d * d <= p -> p mod d <> 0) -> prime p.
Proof.
  intros Hp H. apply prime_alt. split; [auto|]. intros n Hn [m Hm].
  assert (0 < m) by nia.
  destruct (Z.le_ge_cases n m).
  - apply (H n); [lia | nia |]. rewrite Hm. apply Z.mod_mul. lia.
  - assert (m <> 1) by nia. apply (H m); [lia | nia |]. rewrite Hm, Z.mul_comm. apply Z.mod_mul. lia.
Qed.

Fixpoint trial (p d : Z) (fuel : nat) : bool :=
  match fuel with
  | O => false
  | S fuel => if p <? d * d then true else if p mod d =? 0 then false else trial p (d + 1) fuel
  end.

Lemma trial_ok fuel : forall p d, 0 <= d -> trial p d fuel = true -> forall e, d <= e -> e * e <= p -> p mod e <> 0.
Proof.
  induction fuel; intros p d Hd H e He Hee; cbn [trial] in H; [discriminate|].
  destruct (Z.ltb_spec p (d * d)); [nia|].
  destruct (Z.eqb_spec (p mod d) 0); [discriminate|].
  destruct (Z.eq_dec e d) as [->|]; [auto|].
  apply (IHfuel p (d + 1)); auto; lia.
Qed.

Lemma prime_by_trial p fuel : 1 < p -> trial p 2 fuel = true -> prime p.
Proof. intros Hp H. apply prime_trial; auto. intros d Hd. apply (trial_ok fuel p 2); auto. lia. Qed.

Lemma NoDup_map_on {A B} (f : A -> B) l :
  (forall x y, In x l -> In y l -> f x = f y -> x = y) -> NoDup l -> NoDup (map f l).
Proof.
  induction l as [|a l IH]; intros H N; cbn; [constructor|]. inversion N; subst. constructor.
  - intro I. apply in_map_iff in I. destruct I as (x & E & Ix).
    assert (x = a) by (apply H; [now right | now left | auto]). now subst.
  - apply IH; auto. intros x y Hx Hy. apply H; now right.
Qed.

(** Fermat's little theorem. *)
Definition range (n : nat) : list Z := map (fun i => Z.of_nat i + 1) (seq 0 n).

Lemma in_range n x : In x (range n) <-> 1 <= x <= Z.of_nat n.
Proof.
  unfold range. rewrite in_map_iff. split.
  - intros (i & <- & Hi). apply in_seq in Hi. lia.
  - intro H. exists (Z.to_nat (x - 1)). split; [lia|]. apply in_seq. lia.
Qed.

Lemma range_NoDup n : NoDup (range n).
Proof. unfold range. apply FinFun.Injective_map_NoDup; [|apply seq_NoDup]. intros i j H. lia. Qed.

Lemma range_length n : length (range n) = n.
Proof. unfold range. now rewrite map_length, seq_length. Qed.

Definition prod (l : list Z) : Z := fold_right Z.mul 1 l.

Lemma prod_perm l l' : Permutation l l' -> prod l = prod l'.
Proof. induction 1; cbn; try lia. fold (prod l) (prod l'). now rewrite IHPermutation. Qed.

Lemma prod_map_mod p a l : 0 < p ->
  prod (map (fun i => (a * i) mod p) l) mod p = (a ^ Z.of_nat (length l) * prod l) mod p.
Proof.
  intro Hp. induction l as [|x l IH]; [reflexivity|].
  cbn [map prod fold_right length]. fold (prod (map (fun i => (a * i) mod p) l)) (prod l).
  rewrite Z.mul_mod, IH, Z.mod_mod, <- Z.mul_mod by lia.
  rewrite Nat2Z.inj_succ, Z.pow_succ_r by lia. f_equal. ring.
Qed.

Lemma prod_coprime p l : prime p -> (forall x, In x l -> 1 <= x < p) -> rel_prime (prod l) p.
Proof.
  intros Hp H. induction l as [|x l IH]; [apply rel_prime_1|].
  cbn [prod fold_right]. fold (prod l). apply rel_prime_sym, rel_prime_mult; apply rel_prime_sym.
  - apply rel_prime_le_prime; auto. apply H. now left.
  - apply IH. intros. apply H. now right.
Qed.

Lemma fermat p a : prime p -> ~ (p | a) -> a ^ (p - 1) mod p = 1.
Proof.
  intros Hp Ha. pose proof (prime_ge_2 p Hp) as H2.
  set (n := Z.to_nat (p - 1)). assert (Hn : Z.of_nat n = p - 1) by (unfold n; lia). clearbody n.
  assert (Pm : Permutation (range n) (map (fun i => (a * i) mod p) (range n))).
  { symmetry. apply NoDup_Permutation_bis.
    - apply NoDup_map_on; [|apply range_NoDup]. intros x y Ri Rj E.
      apply in_range in Ri, Rj. rewrite Hn in Ri, Rj.
      assert (D : (p | a * (x - y))).
      { rewrite Z.mul_sub_distr_l. apply Zmod_divide; [lia|]. rewrite Zminus_mod, E, Z.sub_diag. reflexivity. }
      apply prime_mult in D; auto. destruct D as [D|D]; [contradiction|].
      destruct D as [c D]. assert (c = 0) by nia. lia.
    - rewrite map_length. lia.
    - intros y Hy. apply in_map_iff in Hy. destruct Hy as (x & <- & Hx). apply in_range in Hx. rewrite Hn in Hx.
      apply in_range. rewrite Hn. pose proof (Z.mod_pos_bound (a * x) p ltac:(lia)).
      enough ((a * x) mod p <> 0) by lia. intro E. apply Zmod_divide in E; [|lia].
      apply prime_mult in E; auto. destruct E as [E|E]; [contradiction|].
      apply Z.divide_pos_le in E; lia. }
  apply prod_perm in Pm.
  pose proof (prod_map_mod p a (range n) ltac:(lia)) as E. rewrite <- Pm, range_length, Hn in E.
  assert (C : rel_prime p (prod (range n))).
  { apply rel_prime_sym, prod_coprime; auto. intros x Hx. apply in_range in Hx. lia. }
  assert (D : (p | prod (range n) * (a ^ (p - 1) - 1))).
  { replace (prod (range n) * (a ^ (p - 1) - 1)) with (a ^ (p - 1) * prod (range n) - prod (range n)) by ring.
    apply Zmod_divide; [lia|]. rewrite Zminus_mod, E, Z.sub_diag. reflexivity. }
  apply Gauss in D; auto. destruct D as [c D].
  replace (a ^ (p - 1)) with (1 + c * p) by lia. rewrite Z.mod_add by lia. apply Z.mod_small. lia.
Qed.

(** Powers modulo m. *)
Lemma pow_mod_1 m a n k : 1 < m -> 0 <= n -> 0 <= k -> a ^ n mod m = 1 -> a ^ (k * n) mod m = 1.
Proof.
  intros Hm Hn Hk H. rewrite Z.mul_comm, Z.pow_mul_r by lia. rewrite Zpower_mod, H by lia.
  rewrite Z.pow_1_l by lia. apply Z.mod_small. lia.
Qed.

(** If n - 1 = q * r with q prime, a^(n-1) = 1 and a^r - 1 is invertible modulo n, then every prime
    divisor of n is 1 modulo q. *)
Lemma pocklington n q r a u p : prime q -> n - 1 = q * r -> 0 < r -> 1 < n -> prime p -> (p | n) ->
  a ^ (n - 1) mod n = 1 -> ((a ^ r - 1) * u) mod n = 1 -> (q | p - 1).
Proof.
  intros Hq Hn Hr Hn1 Hp [c Hc] H1 H2. pose proof (prime_ge_2 p Hp). pose proof (prime_ge_2 q Hq).
  assert (MM : forall x, x mod n = 1 -> x mod p = 1).
  { intros x Hx. rewrite (Z.div_mod x n) by lia. rewrite Hx, Hc.
    replace (c * p * (x / (c * p)) + 1) with (1 + c * (x / (c * p)) * p) by ring.
    rewrite Z.mod_add by lia. apply Z.mod_small. lia. }
  apply MM in H1. apply MM in H2.
  destruct (Zdivide_dec q (p - 1)) as [D|D]; [auto|exfalso].
  assert (Ha : ~ (p | a)).
  { intros [k ->]. replace (n - 1) with (Z.succ (n - 2)) in H1 by lia. rewrite Z.pow_succ_r in H1 by lia.
    replace (k * p * (k * p) ^ (n - 2)) with (k * (k * p) ^ (n - 2) * p) in H1 by ring.
    rewrite Z.mod_mul in H1; lia. }
  pose proof (fermat p a Hp Ha) as F.
  (* b = a^r has b^q = 1 and b^(p-1) = 1 modulo p, with q and p-1 coprime: b = 1 *)
  assert (Bq : (a ^ r) ^ q mod p = 1).
  { rewrite <- Z.pow_mul_r by lia. rewrite Z.mul_comm, <- Hn. exact H1. }
  assert (Bp : (a ^ r) ^ (p - 1) mod p = 1).
  { rewrite <- Z.pow_mul_r by lia. apply pow_mod_1; auto; lia. }
  assert (R : rel_prime (p - 1) q).
  { apply rel_prime_sym, prime_rel_prime; auto. }
  destruct (rel_prime_bezout _ _ R) as [s t E].
  (* make the coefficients non-negative: s' (p-1) = t' q + 1 *)
  set (s' := s + q * (Z.abs s + Z.abs t)). set (t' := - t + (p - 1) * (Z.abs s + Z.abs t)).
  assert (S1 : 0 <= s') by (unfold s'; nia). assert (T1 : 0 <= t') by (unfold t'; nia).
  assert (E' : s' * (p - 1) = t' * q + 1) by (unfold s', t'; nia).
  clearbody s' t'. assert (0 <= t' * q) by (apply Z.mul_nonneg_nonneg; lia).
  assert (B1 : (a ^ r) ^ (s' * (p - 1)) mod p = 1) by (apply pow_mod_1; auto; lia).
  rewrite E', Z.pow_add_r, Z.pow_1_r, Z.mul_mod in B1 by lia.
  rewrite (pow_mod_1 p (a ^ r) q t') in B1 by (auto; lia).
  rewrite Z.mul_1_l, Z.mod_mod in B1 by lia.
  assert (Z0 : (a ^ r - 1) mod p = 0).
  { rewrite Zminus_mod, B1, (Z.mod_small 1) by lia. apply Z.mod_0_l. lia. }
  rewrite Z.mul_mod, Z0, Z.mul_0_l, Z.mod_0_l in H2 by lia. lia.
Qed.

(** Every number above 1 that is not prime has a prime divisor at most its square root. *)
Lemma small_prime_divisor : forall n, 1 < n -> ~ prime n -> exists p, prime p /\ (p | n) /\ p * p <= n.
Proof.
  assert (G : forall k n, (Z.to_nat n <= k)%nat -> 1 < n -> exists p, prime p /\ (p | n)).
  { induction k; intros n Hk Hn; [lia|]. destruct (prime_dec n) as [P|P]; [exists n; auto using Z.divide_refl|].
    apply not_prime_divide in P; [|auto]. destruct P as (d & Hd & D).
    destruct (IHk d) as (p & Pp & Dp); [lia | lia |]. exists p. split; [auto|]. now apply Z.divide_trans with d. }
  intros n Hn P. apply not_prime_divide in P; [|auto]. destruct P as (d & Hd & [m Hm]).
  assert (1 < m) by nia.
  destruct (Z.le_ge_cases d m).
  - destruct (G (Z.to_nat d) d) as (p & Pp & Dp); [lia | lia |]. exists p. split; [auto|]. split.
    + apply Z.divide_trans with d; auto. now exists m.
    + apply Z.divide_pos_le in Dp; [|lia]. pose proof (prime_ge_2 p Pp). nia.
  - destruct (G (Z.to_nat m) m) as (p & Pp & Dp); [lia | lia |]. exists p. split; [auto|]. split.
    + apply Z.divide_trans with m; auto. exists d. lia.
    + apply Z.divide_pos_le in Dp; [|lia]. pose proof (prime_ge_2 p Pp). nia.
Qed.

(** Modular power, to compute with. *)
Fixpoint powm (m a : Z) (e : positive) : Z :=
  match e with
  | xH => a mod m
  | xO e => let t := powm m a e in (t * t) mod m
  | xI e => let t := powm m a e in (t * t mod m * a) mod m
  end.
Lemma powm_ok m a e : 0 < m -> powm m a e = a ^ Z.pos e mod m.
Proof.
  intro Hm. induction e; cbn [powm]; cbv zeta.
  - rewrite IHe. rewrite <- Z.mul_mod by lia.
    replace (Z.pos e~1) with (Z.pos e + Z.pos e + 1) by lia. rewrite !Z.pow_add_r, Z.pow_1_r by lia.
    rewrite Z.mul_mod_idemp_l by lia. reflexivity.
  - rewrite IHe, <- Z.mul_mod by lia. replace (Z.pos e~0) with (Z.pos e + Z.pos e) by lia.
    now rewrite Z.pow_add_r by lia.
  - now rewrite Z.pow_1_r.
Qed.

Lemma prime_3 : prime 3. Proof. apply (prime_by_trial _ 10); [lia | reflexivity]. Qed.
Lemma prime_5 : prime 5. Proof. apply (prime_by_trial _ 10); [lia | reflexivity]. Qed.
Lemma prime_17 : prime 17. Proof. apply (prime_by_trial _ 10); [lia | reflexivity]. Qed.
Lemma prime_257 : prime 257. Proof. apply (prime_by_trial _ 20); [lia | reflexivity]. Qed.
Lemma prime_641 : prime 641. Proof. apply (prime_by_trial _ 30); [lia | reflexivity]. Qed.
Lemma prime_65537 : prime 65537. Proof. apply (prime_by_trial _ 300); [lia | vm_compute; reflexivity]. Qed.
Lemma prime_274177 : prime 274177. Proof. apply (prime_by_trial _ 600); [lia | vm_compute; reflexivity]. Qed.
Lemma prime_6700417 : prime 6700417. Proof. apply (prime_by_trial _ 3000); [lia | vm_compute; reflexivity]. Qed.
Lemma prime_2998279 : prime 2998279. Proof. apply (prime_by_trial _ 2000); [lia | vm_compute; reflexivity]. Qed.

Definition big : Z := 67280421310721.

Lemma prime_big : prime big.
Proof.
  destruct (prime_dec big) as [P|P]; [auto|exfalso].
  destruct (small_prime_divisor big ltac:(reflexivity) P) as (p & Pp & D & Hs).
  pose proof (prime_ge_2 p Pp).
  assert (Q : (2998279 | p - 1)).
  { assert (H1 : 3 ^ (big - 1) mod big = 1).
    { replace (big - 1) with (Z.pos 67280421310720) by reflexivity. rewrite <- powm_ok by reflexivity. vm_compute. reflexivity. }
    assert (H2 : ((3 ^ 22439680 - 1) * 47000331560307) mod big = 1).
    { rewrite Z.mul_mod, Zminus_mod by discriminate. rewrite <- powm_ok by reflexivity. vm_compute. reflexivity. }
    exact (pocklington big 2998279 22439680 3 47000331560307 p prime_2998279 eq_refl eq_refl eq_refl Pp D H1 H2). }
  destruct Q as [k Hk].
  assert (Hp : p = 2998279 * k + 1) by lia. clear Hk. unfold big in Hs.
  assert (k = 0 \/ k = 1 \/ k = 2) as [-> | [-> | -> ]] by nia.
  - lia.
  - apply Z.mod_divide in D; [|lia]. subst p. vm_compute in D. discriminate.
  - apply Z.mod_divide in D; [|lia]. subst p. vm_compute in D. discriminate.
Qed.
Print Assumptions prime_big.
