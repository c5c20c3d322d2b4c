(** Period of the two xoroshiro engines. Lemmas behind Random_Props.v. *)
From Coq Require Import Znumtheory.
From Verif Require Import Base Bits Primes Orbit Hash_Model Random_Model Random_Spec.
Local Open Scope Z_scope.

(** * The engine as a linear map *)
Section Engine.
Variables (w k1 k2 k3 : Z).
Hypothesis (K1 : 0 < k1 < w) (K2 : 0 < k2 < w) (K3 : 0 < k3 < w).

Definition lrot (x k : Z) : Z := Z.lxor (Z.land (Z.shiftl x k) (Z.ones w)) (Z.shiftr x (w - k)).
Definition lshl (x k : Z) : Z := Z.land (Z.shiftl x k) (Z.ones w).
Definition T (s : Z * Z) : Z * Z :=
  let '(a, b) := s in
  let c := Z.lxor b a in
  (Z.lxor (Z.lxor (lrot a k1) c) (lshl c k2), lrot c k3).
Definition sxor (s t : Z * Z) : Z * Z := (Z.lxor (fst s) (fst t), Z.lxor (snd s) (snd t)).

Ltac bits := apply Z.bits_inj'; intros i Hi; rewrite ?Z.lxor_spec, ?Z.land_spec, ?Z.lxor_spec, ?Z.shiftl_lxor, ?Z.shiftr_lxor, ?Z.lxor_spec.

Lemma land_lxor x y m : Z.land (Z.lxor x y) m = Z.lxor (Z.land x m) (Z.land y m).
Proof. bits. now destruct (Z.testbit x i), (Z.testbit y i), (Z.testbit m i). Qed.
Lemma lrot_lxor x y k : lrot (Z.lxor x y) k = Z.lxor (lrot x k) (lrot y k).
Proof. unfold lrot. rewrite Z.shiftl_lxor, Z.shiftr_lxor, land_lxor. xor_solve. Qed.
Lemma lshl_lxor x y k : lshl (Z.lxor x y) k = Z.lxor (lshl x k) (lshl y k).
Proof. unfold lshl. now rewrite Z.shiftl_lxor, land_lxor. Qed.

Lemma T_sxor s t : T (sxor s t) = sxor (T s) (T t).
Proof.
  destruct s as [a b], t as [c d]. unfold T, sxor. cbn [fst snd].
  replace (Z.lxor (Z.lxor b d) (Z.lxor a c)) with (Z.lxor (Z.lxor b a) (Z.lxor d c)) by xor_solve.
  rewrite !lrot_lxor, !lshl_lxor. f_equal. xor_solve.
Qed.

Lemma lrot_range x k : 0 < k < w -> 0 <= x < 2 ^ w -> 0 <= lrot x k < 2 ^ w.
Proof.
  intros Hk Hx. unfold lrot. apply lxor_range; try lia.
  - rewrite Z.land_ones by lia. apply Z.mod_pos_bound. lia.
  - rewrite Z.shiftr_div_pow2 by lia. split; [apply Z.div_pos; lia|].
    apply Z.le_lt_trans with x; [|lia]. apply Z.div_le_upper_bound; [lia|]. nia.
Qed.
Lemma lshl_range x k : 0 <= lshl x k < 2 ^ w.
Proof. unfold lshl. rewrite Z.land_ones by lia. apply Z.mod_pos_bound. lia. Qed.

Lemma T_words s : words w s -> words w (T s).
Proof.
  destruct s as [a b]. unfold words, T. cbn [fst snd]. intros [Ha Hb].
  assert (0 <= Z.lxor b a < 2 ^ w) by (apply lxor_range; lia).
  split; [|now apply lrot_range].
  apply lxor_range; [lia| |apply lshl_range]. apply lxor_range; [lia|now apply lrot_range|lia].
Qed.

Lemma lrot_lor x k : 0 < k < w -> 0 <= x < 2 ^ w -> Z.lor (lshl x k) (Z.shiftr x (w - k)) = lrot x k.
Proof.
  intros Hk Hx. unfold lrot, lshl. rewrite Z.lxor_lor; auto.
  apply Z.bits_inj'. intros i Hi. rewrite !Z.land_spec, Z.bits_0, Z.shiftl_spec, Z.shiftr_spec by lia.
  destruct (Z_lt_ge_dec i k).
  - rewrite (Z.testbit_neg_r x (i - k)) by lia. reflexivity.
  - rewrite (bit_small x w (i + (w - k))) by lia. now rewrite Bool.andb_false_r.
Qed.

(** * Every nonzero state lies on one cycle *)
Variables (p n : N) (qs : list Z).
Let e : Z * Z := (1, 0).
Hypothesis Hn : Z.of_N n = 2 ^ (2 * w) - 1.
Hypothesis Hqs : Forall prime qs.
Hypothesis Hprod : prod qs = Z.of_N n.
Hypothesis Hp : ev (0, 0) sxor T p e = (0, 0).
Hypothesis Hpow : xpow p (Z.to_N (2 * w)) (Z.to_pos (Z.of_N n)) = 1%N.
Hypothesis Hpowq : Forall (fun q => ev (0, 0) sxor T (xpow p (Z.to_N (2 * w)) (Z.to_pos (Z.of_N n / q))) e <> e) qs.

Lemma sxor_assoc a b c : sxor a (sxor b c) = sxor (sxor a b) c.
Proof. unfold sxor. cbn. now rewrite !Z.lxor_assoc. Qed.
Lemma sxor_comm a b : sxor a b = sxor b a.
Proof. unfold sxor. f_equal; apply Z.lxor_comm. Qed.
Lemma sxor_0 a : sxor a (0, 0) = a.
Proof. unfold sxor. destruct a. cbn [fst snd]. now rewrite !Z.lxor_0_r. Qed.
Lemma sxor_self a : sxor a a = (0, 0).
Proof. unfold sxor. now rewrite !Z.lxor_nilpotent. Qed.

Lemma n_pos : (0 < n)%N.
Proof. assert (2 ^ 1 <= 2 ^ (2 * w)) by (apply Z.pow_le_mono_r; lia). lia. Qed.

Lemma xpow_T m : ev (0, 0) sxor T (xpow p (Z.to_N (2 * w)) m) e = N.iter (Npos m) T e.
Proof. apply xpow_ok; auto using sxor_assoc, sxor_comm, sxor_0, sxor_self, T_sxor. Qed.

Lemma period i : N.iter i T e = e <-> (Z.of_N n | Z.of_N i).
Proof.
  pose proof n_pos.
  apply (order_exact T n qs e); auto.
  - assert (E : Npos (Z.to_pos (Z.of_N n)) = n) by lia.
    pose proof (xpow_T (Z.to_pos (Z.of_N n))) as X. rewrite Hpow, E in X. symmetry. exact X.
  - intros q Hq. rewrite Forall_forall in Hpowq, Hqs. specialize (Hpowq q Hq). rewrite xpow_T in Hpowq.
    pose proof (prime_ge_2 q (Hqs q Hq)).
    assert (1 <= Z.of_N n / q).
    { apply Z.div_le_lower_bound; [lia|].
      assert (q | Z.of_N n).
      { rewrite <- Hprod. clear - Hq. induction qs as [|x l IH]; [destruct Hq|]. cbn. fold (prod l).
        destruct Hq as [-> | Hq]; [apply Z.divide_factor_l|]. apply Z.divide_mul_r. auto. }
      apply Z.divide_pos_le in H1; lia. }
    replace (Z.to_N (Z.of_N n / q)) with (Npos (Z.to_pos (Z.of_N n / q))) by lia. exact Hpowq.
Qed.

Lemma iter_words i s : words w s -> words w (N.iter i T s).
Proof.
  intro H. revert i. apply N.peano_ind; [exact H|]. intros i IH. rewrite N.iter_succ. now apply T_words.
Qed.

Lemma T_zero : T (0, 0) = (0, 0).
Proof. apply (T_0 (0, 0) sxor); auto using sxor_self, T_sxor. Qed.

Lemma e_words : words w e.
Proof. unfold words, e. cbn. assert (2 ^ 1 <= 2 ^ w) by (apply Z.pow_le_mono_r; lia). lia. Qed.

Lemma orbit_nonzero i : nonzero_words w (N.iter i T e).
Proof.
  split; [apply iter_words, e_words|]. intro Z0. pose proof n_pos.
  assert (E : N.iter (n * i)%N T e = e).
  { apply period. exists (Z.of_N i). lia. }
  replace (n * i)%N with ((n * i - i) + i)%N in E by nia.
  rewrite N.iter_add, Z0 in E.
  rewrite (iter_zero (0, 0) sxor T) in E; auto using sxor_self, T_sxor. discriminate.
Qed.

Lemma cycle :
  (forall s t, nonzero_words w s -> nonzero_words w t -> exists k, (k < n)%N /\ N.iter k T s = t) /\
  (forall s k, nonzero_words w s -> (N.iter k T s = s <-> (Z.of_N n | Z.of_N k))).
Proof.
  apply (full_cycle T n (fun s => fst s + snd s * 2 ^ w) (nonzero_words w) e); auto using n_pos, period, orbit_nonzero.
  - intros [a b] [[Ha Hb] N0]. cbn [fst snd] in *. rewrite Hn.
    replace (2 * w) with (w + w) by lia. rewrite Z.pow_add_r by lia.
    assert (a <> 0 \/ b <> 0).
    { destruct (Z.eq_dec a 0), (Z.eq_dec b 0); subst; auto. }
    nia.
  - intros [a b] [c d] [[Ha Hb] _] [[Hc Hd] _] E. cbn [fst snd] in *.
    assert (b = d) by nia. subst. f_equal. lia.
Qed.

(** * From the map to the engine *)
Variable next : Z * Z -> res (Z * (Z * Z)).
Hypothesis Hnext : forall s, words w s -> exists r, next s = Ok (r, T s).

Lemma after_T s k : words w s -> after next k s = Ok (N.iter k T s).
Proof.
  intro H. unfold after. revert k. apply N.peano_ind; [reflexivity|]. intros k IH.
  rewrite !N.iter_succ, IH. cbn [bind]. destruct (Hnext (N.iter k T s)) as [r ->]; [now apply iter_words|]. reflexivity.
Qed.

Lemma engine_period s k : nonzero_words w s -> (after next k s = Ok s <-> (2 ^ (2 * w) - 1 | Z.of_N k)).
Proof.
  intro H. rewrite after_T by apply H. rewrite <- Hn. rewrite <- (proj2 cycle s k H).
  split; [now intros [= E] | now intros ->].
Qed.

Lemma engine_reach s t : nonzero_words w s -> nonzero_words w t ->
  exists k, Z.of_N k < 2 ^ (2 * w) - 1 /\ after next k s = Ok t.
Proof.
  intros Hs Ht. destruct (proj1 cycle s t Hs Ht) as (k & Hk & E). exists k. split; [lia|].
  rewrite after_T by apply Hs. now rewrite E.
Qed.

Lemma engine_nonzero s k : nonzero_words w s -> exists t, after next k s = Ok t /\ nonzero_words w t.
Proof.
  intro H. exists (N.iter k T s). split; [apply after_T, H|].
  destruct (proj1 cycle e s) as (i & Hi & E); auto.
  { split; [apply e_words | discriminate]. }
  rewrite <- E, <- N.iter_add. apply orbit_nonzero.
Qed.
End Engine.

Lemma u_ones w x : 0 <= w -> Z.land x (Z.ones w) = x mod 2 ^ w.
Proof. intro. now apply Z.land_ones. Qed.

Lemma lshl_mod w x k : 0 <= w -> Z.shiftl x k mod 2 ^ w = lshl w x k.
Proof. intro. unfold lshl. now rewrite u_ones. Qed.

(** * xoroshiro64 *)
Lemma next64ss_T s : words 32 s -> exists r, next64ss s = Ok (r, T 32 26 9 13 s).
Proof.
  destruct s as [a b]. intros [Ha Hb]. cbn [fst snd] in *.
  unfold next64ss, rotl32, shl32, shr32, T.
  change (Z.land 26 31) with 26. change (Z.land 13 31) with 13. change (Z.land 5 31) with 5.
  assert (0 <= Z.lxor b a < 2 ^ 32) by (apply lxor_range; lia).
  rewrite <- (lrot_lor 32 a 26), <- (lrot_lor 32 (Z.lxor b a) 13), <- !lshl_mod by lia.
  eexists. reflexivity.
Qed.

Definition p64 : N := 18823896191885018817.
Definition n64 : N := 18446744073709551615.
Definition qs64 : list Z := [3; 5; 17; 257; 641; 65537; 6700417].

Lemma qs64_prime : Forall prime qs64.
Proof. repeat apply Forall_cons; try apply Forall_nil; auto using prime_3, prime_5, prime_17, prime_257, prime_641, prime_65537, prime_6700417. Qed.

Lemma p64_zero : ev (0, 0) sxor (T 32 26 9 13) p64 (1, 0) = (0, 0).
Proof. vm_compute. reflexivity. Qed.

Lemma p64_pow : xpow p64 (Z.to_N (2 * 32)) (Z.to_pos (Z.of_N n64)) = 1%N.
Proof. vm_compute. reflexivity. Qed.

Lemma p64_powq : Forall (fun q => ev (0, 0) sxor (T 32 26 9 13) (xpow p64 (Z.to_N (2 * 32)) (Z.to_pos (Z.of_N n64 / q))) (1, 0) <> (1, 0)) qs64.
Proof. unfold qs64. repeat (apply Forall_cons; [vm_compute; discriminate|]). apply Forall_nil. Qed.

Lemma cycle64 : (forall s k, nonzero_words 32 s -> (after next64ss k s = Ok s <-> (2 ^ 64 - 1 | Z.of_N k))) /\
  (forall s t, nonzero_words 32 s -> nonzero_words 32 t -> exists k, Z.of_N k < 2 ^ 64 - 1 /\ after next64ss k s = Ok t) /\
  (forall s k, nonzero_words 32 s -> exists t, after next64ss k s = Ok t /\ nonzero_words 32 t).
Proof.
  assert (Hn : Z.of_N n64 = 2 ^ (2 * 32) - 1) by reflexivity.
  assert (Hq : prod qs64 = Z.of_N n64) by reflexivity.
  change 64 with (2 * 32).
  split; [|split].
  - intros s k. apply (engine_period 32 26 9 13) with (p := p64) (n := n64) (qs := qs64);
      auto using qs64_prime, p64_zero, p64_pow, p64_powq, next64ss_T; lia.
  - intros s t. apply (engine_reach 32 26 9 13) with (p := p64) (n := n64) (qs := qs64);
      auto using qs64_prime, p64_zero, p64_pow, p64_powq, next64ss_T; lia.
  - intros s t. apply (engine_nonzero 32 26 9 13) with (p := p64) (n := n64) (qs := qs64);
      auto using qs64_prime, p64_zero, p64_pow, p64_powq, next64ss_T; lia.
Qed.

(** * xoroshiro128 *)
Lemma next128pp_T s : words 64 s -> exists r, next128pp s = Ok (r, T 64 49 21 28 s).
Proof.
  destruct s as [a b]. intros [Ha Hb]. cbn [fst snd] in *.
  unfold next128pp, rotl64, shl64, shr64, T. rewrite (Z.lxor_comm a b).
  assert (0 <= Z.lxor b a < 2 ^ 64) by (apply lxor_range; lia).
  rewrite <- (lrot_lor 64 a 49), <- (lrot_lor 64 (Z.lxor b a) 28), <- !lshl_mod by lia.
  eexists. reflexivity.
Qed.

Definition p128 : N := 340540621810083540934483770044175134849.
Definition n128 : N := 340282366920938463463374607431768211455.
Definition qs128 : list Z := [3; 5; 17; 257; 641; 65537; 274177; 6700417; 67280421310721].

Lemma qs128_prime : Forall prime qs128.
Proof. repeat apply Forall_cons; try apply Forall_nil; auto using prime_3, prime_5, prime_17, prime_257, prime_641, prime_65537, prime_6700417, prime_274177, prime_big. Qed.

Lemma p128_zero : ev (0, 0) sxor (T 64 49 21 28) p128 (1, 0) = (0, 0).
Proof. vm_compute. reflexivity. Qed.

Lemma p128_pow : xpow p128 (Z.to_N (2 * 64)) (Z.to_pos (Z.of_N n128)) = 1%N.
Proof. vm_compute. reflexivity. Qed.

Lemma p128_powq : Forall (fun q => ev (0, 0) sxor (T 64 49 21 28) (xpow p128 (Z.to_N (2 * 64)) (Z.to_pos (Z.of_N n128 / q))) (1, 0) <> (1, 0)) qs128.
Proof. unfold qs128. repeat (apply Forall_cons; [vm_compute; discriminate|]). apply Forall_nil. Qed.

Lemma cycle128 : (forall s k, nonzero_words 64 s -> (after next128pp k s = Ok s <-> (2 ^ 128 - 1 | Z.of_N k))) /\
  (forall s t, nonzero_words 64 s -> nonzero_words 64 t -> exists k, Z.of_N k < 2 ^ 128 - 1 /\ after next128pp k s = Ok t) /\
  (forall s k, nonzero_words 64 s -> exists t, after next128pp k s = Ok t /\ nonzero_words 64 t).
Proof.
  assert (Hn : Z.of_N n128 = 2 ^ (2 * 64) - 1) by reflexivity.
  assert (Hq : prod qs128 = Z.of_N n128) by reflexivity.
  change 128 with (2 * 64).
  split; [|split].
  - intros s k. apply (engine_period 64 49 21 28) with (p := p128) (n := n128) (qs := qs128);
      auto using qs128_prime, p128_zero, p128_pow, p128_powq, next128pp_T; lia.
  - intros s t. apply (engine_reach 64 49 21 28) with (p := p128) (n := n128) (qs := qs128);
      auto using qs128_prime, p128_zero, p128_pow, p128_powq, next128pp_T; lia.
  - intros s t. apply (engine_nonzero 64 49 21 28) with (p := p128) (n := n128) (qs := qs128);
      auto using qs128_prime, p128_zero, p128_pow, p128_powq, next128pp_T; lia.
Qed.
