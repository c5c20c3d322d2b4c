(** Orbits of iterated maps, and of linear maps over GF(2). Nothing here models code. *)
From Coq Require Import Znumtheory.
From Verif Require Import Base Primes.
Local Open Scope Z_scope.

(** * Order of a point *)
Section Order.
Context {X : Type} (f : X -> X).
Notation iter n x := (N.iter n f x).

Lemma iter_add n m x : iter (n + m)%N x = iter n (iter m x).
Proof. apply N.iter_add. Qed.

Lemma iter_0 x : iter 0%N x = x. Proof. reflexivity. Qed.

Lemma iter_mul n k x : iter n x = x -> iter (k * n)%N x = x.
Proof.
  intro H. revert k. apply N.peano_ind; [reflexivity|]. intros k IH.
  rewrite N.mul_succ_l, iter_add, H. exact IH.
Qed.

(** Two periods give their greatest common divisor as a period. *)
Lemma iter_gcd n m x : (0 < n)%N -> (0 < m)%N -> iter n x = x -> iter m x = x -> iter (N.gcd n m) x = x.
Proof.
  intros Hn Hm En Em.
  destruct (N.gcd_bezout_pos n m Hn) as (u & v & E).
  rewrite <- (iter_mul n u x En) at 2. rewrite E, iter_add.
  now rewrite (iter_mul m v x Em).
Qed.

(** If x has period n = product of the primes qs, and none of the n/q is a period, then the periods
    are exactly the multiples of n. *)
Lemma prod_divisor qs : forall h, Forall prime qs -> 0 < h -> (h | prod qs) -> (forall q, In q qs -> ~ (q | h)) -> h = 1.
Proof.
  induction qs as [|q qs IH]; intros h F Hh D H.
  - cbn in D. apply Z.divide_1_r_nonneg in D; lia.
  - inversion F; subst. cbn [prod fold_right] in D. fold (prod qs) in D. apply IH; auto.
    + apply Gauss with q; auto. apply rel_prime_sym, prime_rel_prime; auto. apply H. now left.
    + intros q' Hq'. apply H. now right.
Qed.

Lemma order_exact n qs x : (0 < n)%N -> Forall prime qs -> Z.of_N n = prod qs ->
  iter n x = x -> (forall q, In q qs -> iter (Z.to_N (Z.of_N n / q)) x <> x) ->
  forall i, iter i x = x <-> (Z.of_N n | Z.of_N i).
Proof.
  intros Hn F Ep En Hq i. split.
  - intro Ei. destruct (N.eq_dec i 0) as [->|Hi]; [exists 0; reflexivity|].
    pose proof (iter_gcd n i x Hn ltac:(lia) En Ei) as Eg.
    assert (D1 : N.divide (N.gcd n i) n) by apply N.gcd_divide_l.
    assert (D2 : N.divide (N.gcd n i) i) by apply N.gcd_divide_r.
    set (g := N.gcd n i) in *. clearbody g.
    destruct D1 as [h Dh]. destruct D2 as [c Dc].
    enough (H1 : Z.of_N h = 1) by (exists (Z.of_N c); subst i; nia).
    apply (prod_divisor qs); auto; [lia | exists (Z.of_N g); lia |].
    intros q Iq [k Hk]. apply (Hq q Iq).
    assert (prime q) by (rewrite Forall_forall in F; auto). pose proof (prime_ge_2 q ltac:(auto)).
    replace (Z.of_N n / q) with (k * Z.of_N g).
    + assert (0 <= k) by nia. replace (Z.to_N (k * Z.of_N g)) with (Z.to_N k * g)%N by lia. now apply iter_mul.
    + subst n. rewrite N2Z.inj_mul, Hk. replace (k * q * Z.of_N g) with (k * Z.of_N g * q) by ring.
      symmetry. apply Z.div_mul. lia.
  - intros [k Hk]. assert (0 <= k) by nia. replace i with (Z.to_N k * n)%N by lia. now apply iter_mul.
Qed.

(** Distinct points on the orbit. *)
Lemma order_distinct n x : (0 < n)%N -> (forall i, iter i x = x <-> (Z.of_N n | Z.of_N i)) ->
  forall i j, (i < n)%N -> (j < n)%N -> iter i x = iter j x -> i = j.
Proof.
  intros Hn H.
  assert (G : forall i j, (i <= j)%N -> (j < n)%N -> iter i x = iter j x -> i = j).
  { intros i j Hij Hj E.
    apply (f_equal (N.iter (n - i)%N f)) in E. rewrite <- !iter_add in E.
    replace (n - i + i)%N with n in E by lia. replace (n - i + j)%N with ((j - i) + n)%N in E by lia.
    rewrite iter_add in E.
    assert (En : iter n x = x) by (apply H; apply Z.divide_refl). rewrite !En in E.
    symmetry in E. apply H in E. destruct (N.eq_dec (j - i) 0); [lia|].
    apply Z.divide_pos_le in E; lia. }
  intros i j Hi Hj E. destruct (N.le_ge_cases i j); [now apply G | symmetry; now apply G].
Qed.
End Order.

(** * Counting *)
Lemma pigeon (n : N) (g : N -> Z) :
  (forall i, (i < n)%N -> 1 <= g i <= Z.of_N n) ->
  (forall i j, (i < n)%N -> (j < n)%N -> g i = g j -> i = j) ->
  forall y, 1 <= y <= Z.of_N n -> exists i, (i < n)%N /\ g i = y.
Proof.
  intros R I y Hy.
  set (l := map (fun i => g (N.of_nat i)) (seq 0 (N.to_nat n))).
  assert (In y l) as Hin.
  { apply (NoDup_length_incl (l := l) (l' := range (N.to_nat n))).
    - apply NoDup_map_on; [|apply seq_NoDup]. intros a b Ha Hb E. apply in_seq in Ha, Hb.
      apply I in E; lia.
    - unfold l. rewrite map_length, seq_length, range_length. lia.
    - intros z Hz. apply in_map_iff in Hz. destruct Hz as (i & <- & Hi). apply in_seq in Hi.
      apply in_range. specialize (R (N.of_nat i) ltac:(lia)). lia.
    - apply in_range. lia. }
  apply in_map_iff in Hin. destruct Hin as (i & E & Hi). apply in_seq in Hi.
  exists (N.of_nat i). split; [lia | exact E].
Qed.

(** A point whose periods are the multiples of n, in a set of n points closed under f, reaches every
    point of the set, and every point of the set has the same periods. *)
Lemma full_cycle {X} (f : X -> X) (n : N) (code : X -> Z) (P : X -> Prop) e :
  (0 < n)%N -> (forall i, N.iter i f e = e <-> (Z.of_N n | Z.of_N i)) ->
  (forall i, P (N.iter i f e)) ->
  (forall x, P x -> 1 <= code x <= Z.of_N n) -> (forall x y, P x -> P y -> code x = code y -> x = y) ->
  (forall s t, P s -> P t -> exists k, (k < n)%N /\ N.iter k f s = t) /\
  (forall s k, P s -> (N.iter k f s = s <-> (Z.of_N n | Z.of_N k))).
Proof.
  intros Hn Ho HP Hc Hi.
  assert (Reach : forall t, P t -> exists i, (i < n)%N /\ N.iter i f e = t).
  { intros t Ht. destruct (pigeon n (fun i => code (N.iter i f e))) with (y := code t) as (i & Hin & E); auto.
    - intros i j Hin Hj E. apply Hi in E; auto. now apply (order_distinct f n e) in E.
    - exists i. split; auto. }
  assert (En : N.iter n f e = e) by (apply Ho; apply Z.divide_refl).
  split.
  - intros s t Hs Ht. destruct (Reach s Hs) as (i & Hin & <-). destruct (Reach t Ht) as (j & Hj & <-).
    destruct (N.le_gt_cases i j).
    + exists (j - i)%N. split; [lia|]. rewrite <- N.iter_add. f_equal. lia.
    + exists (n + j - i)%N. split; [lia|]. rewrite <- N.iter_add.
      replace (n + j - i + i)%N with (j + n)%N by lia. now rewrite N.iter_add, En.
  - intros s k Hs. destruct (Reach s Hs) as (i & Hin & <-). rewrite <- Ho. split; intro E.
    + apply (f_equal (N.iter (n - i)%N f)) in E. rewrite <- !N.iter_add in E.
      replace (n - i + i)%N with n in E by lia.
      replace (n - i + k + i)%N with (k + n)%N in E by lia.
      now rewrite N.iter_add, En in E.
    + rewrite <- N.iter_add, N.add_comm, N.iter_add, E. reflexivity.
Qed.

(** * Linear maps over GF(2) *)
Section Linear.
Context {X : Type} (zero : X) (add : X -> X -> X) (T : X -> X).
Hypothesis add_assoc : forall a b c, add a (add b c) = add (add a b) c.
Hypothesis add_comm : forall a b, add a b = add b a.
Hypothesis add_0 : forall a, add a zero = a.
Hypothesis add_self : forall a, add a a = zero.
Hypothesis T_add : forall a b, T (add a b) = add (T a) (T b).

Lemma T_0 : T zero = zero.
Proof. rewrite <- (add_self zero) at 1. rewrite T_add. apply add_self. Qed.

(** r(T) v for a polynomial r over GF(2) given by its bits. *)
Fixpoint evp (r : positive) (v : X) : X :=
  match r with
  | xH => v
  | xO r => T (evp r v)
  | xI r => add v (T (evp r v))
  end.
Definition ev (r : N) (v : X) : X := match r with N0 => zero | Npos r => evp r v end.

Lemma add_0_l a : add zero a = a. Proof. now rewrite add_comm. Qed.

Lemma ev_double r v : ev (Pos.Ndouble r) v = T (ev r v).
Proof. destruct r; cbn; [symmetry; apply T_0 | reflexivity]. Qed.
Lemma ev_succ_double r v : ev (Pos.Nsucc_double r) v = add v (T (ev r v)).
Proof. destruct r; cbn; [now rewrite T_0, add_0 | reflexivity]. Qed.

Lemma add_swap a b c : add a (add b c) = add b (add a c).
Proof. now rewrite !add_assoc, (add_comm a b). Qed.
Lemma add_cancel a b : add a (add a b) = b.
Proof. now rewrite add_assoc, add_self, add_0_l. Qed.

Lemma ev_lxor r s v : ev (N.lxor r s) v = add (ev r v) (ev s v).
Proof.
  destruct r as [|r], s as [|s]; cbn [N.lxor]; [symmetry; apply add_0 | symmetry; apply add_0_l | symmetry; apply add_0 |].
  change (ev (Npos r) v) with (evp r v). change (ev (Npos s) v) with (evp s v).
  revert s. induction r as [r IH|r IH|]; intros [s|s|]; cbn [Pos.lxor evp].
  - rewrite ev_double, IH, T_add, <- add_assoc, (add_swap (T (evp r v)) v), add_cancel. reflexivity.
  - rewrite ev_succ_double, IH, T_add, add_assoc. reflexivity.
  - cbn [ev evp]. now rewrite add_comm, add_cancel.
  - rewrite ev_succ_double, IH, T_add. apply add_swap.
  - rewrite ev_double, IH, T_add. reflexivity.
  - cbn [ev evp]. apply add_comm.
  - cbn [ev evp]. now rewrite add_cancel.
  - cbn [ev evp]. reflexivity.
  - cbn [ev]. symmetry. apply add_self.
Qed.

Lemma evp_T r v : evp r (T v) = T (evp r v).
Proof. induction r as [r IH|r IH|]; cbn [evp]; rewrite ?IH, ?T_add; reflexivity. Qed.
Lemma ev_T r v : ev r (T v) = T (ev r v).
Proof. destruct r; cbn; [symmetry; apply T_0 | apply evp_T]. Qed.
Lemma ev_iter r n v : ev r (N.iter n T v) = N.iter n T (ev r v).
Proof.
  revert n. apply N.peano_ind; [reflexivity|]. intros n IH. rewrite !N.iter_succ, ev_T, IH. reflexivity.
Qed.
Lemma iter_zero n : N.iter n T zero = zero.
Proof. revert n. apply N.peano_ind; [reflexivity|]. intros n IH. now rewrite N.iter_succ, IH, T_0. Qed.

(** Arithmetic modulo a polynomial p of degree w. *)
Variable (p w : N).
Definition xtimes (m : N) : N := let d := N.double m in if N.testbit d w then N.lxor d p else d.
Fixpoint mulmod (r : positive) (s : N) : N :=
  match r with
  | xH => s
  | xO r => xtimes (mulmod r s)
  | xI r => N.lxor s (xtimes (mulmod r s))
  end.
Definition sqr (r : N) : N := match r with N0 => N0 | Npos r => mulmod r (Npos r) end.
Fixpoint xpow (n : positive) : N :=
  match n with
  | xH => 2%N
  | xO n => sqr (xpow n)
  | xI n => xtimes (sqr (xpow n))
  end.

Lemma xtimes_ok m v : ev p v = zero -> ev (xtimes m) v = T (ev m v).
Proof.
  intro Hp. unfold xtimes. cbv zeta. change (N.double m) with (Pos.Ndouble m).
  destruct (N.testbit _ w); rewrite ?ev_lxor, ev_double, ?Hp, ?add_0; reflexivity.
Qed.

Lemma mulmod_ok r s v : ev p v = zero -> ev (mulmod r s) v = evp r (ev s v).
Proof.
  intro Hp. induction r as [r IH|r IH|]; cbn [mulmod evp].
  - rewrite ev_lxor, xtimes_ok, IH by auto. reflexivity.
  - rewrite xtimes_ok, IH by auto. reflexivity.
  - reflexivity.
Qed.

Lemma sqr_ok r v : ev p v = zero -> ev (sqr r) v = ev r (ev r v).
Proof. intro Hp. destruct r; cbn [sqr ev]; [reflexivity|]. now rewrite mulmod_ok. Qed.

Lemma xpow_ok n : forall v, ev p v = zero -> ev (xpow n) v = N.iter (Npos n) T v.
Proof.
  induction n as [n IH|n IH|]; intros v Hp; cbn [xpow].
  - rewrite xtimes_ok, sqr_ok by auto. rewrite (IH v Hp), (IH (N.iter (N.pos n) T v)).
    + replace (N.pos n~1) with (N.succ (N.pos n + N.pos n)) by lia. now rewrite N.iter_succ, N.iter_add.
    + rewrite ev_iter, Hp. apply iter_zero.
  - rewrite sqr_ok by auto. rewrite (IH v Hp), (IH (N.iter (N.pos n) T v)).
    + replace (N.pos n~0) with (N.pos n + N.pos n)%N by lia. now rewrite N.iter_add.
    + rewrite ev_iter, Hp. apply iter_zero.
  - reflexivity.
Qed.
End Linear.
