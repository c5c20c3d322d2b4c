(** The operators of vec2 and vec3 (C81). *)
From Verif Require Import Base Vec_Model VecOps_Model VecOps_Spec.
Local Open Scope Z_scope.

(** The integer types. *)
Definition integer_type (T : ety) : Prop := bits T = 8 \/ bits T = 16 \/ bits T = 32 \/ bits T = 64.
Definition wide_type (T : ety) : Prop := bits T = 32 \/ bits T = 64.

Definition prim (op : operator) : ety -> Z -> Z -> res Z :=
  match op with Add => plus | Sub => minus | Mul => times | Div => over end.

Lemma result_cases T op x y : 0 < bits T -> (op = Div -> y <> 0) ->
  (defined T op x y -> result (prom T) (math op x y) = Ok (if signed (prom T) then math op x y else math op x y mod 2 ^ bits T)) /\
  (~ defined T op x y -> result (prom T) (math op x y) = UB).
Proof.
  intros Hb Hd. unfold result, prom, defined. destruct (Z.ltb_spec (bits T) 32) as [L|L]; cbn [bits signed].
  - destruct (in_sb 32 (math op x y)) eqn:E.
    + apply in_sb_spec in E. unfold in_s in E. change (32 - 1) with 31 in E. split; [reflexivity|]. intro N. exfalso. apply N.
      split; [assumption|]. split; [now intro|]. intro. lia.
    + split; [|reflexivity]. intros (_ & D & _). specialize (D L). exfalso.
      assert (in_sb 32 (math op x y) = true) by (apply in_sb_spec; exact D). congruence.
  - destruct (signed T) eqn:S.
    + destruct (in_sb (bits T) (math op x y)) eqn:E.
      * apply in_sb_spec in E. split; [reflexivity|]. intro N. exfalso. apply N. split; [assumption|]. split; [intro; lia|]. now intros.
      * split; [|reflexivity]. intros (_ & _ & D). specialize (D L eq_refl). exfalso.
        assert (in_sb (bits T) (math op x y) = true) by (apply in_sb_spec; exact D). congruence.
    + split; [reflexivity|]. intro N. exfalso. apply N. split; [assumption|]. split; [intro; lia|]. intros _ F. discriminate.
Qed.

Lemma prim_cases T op x y : 0 < bits T ->
  (defined T op x y -> prim op T x y = Ok (if signed (prom T) then math op x y else math op x y mod 2 ^ bits T)) /\
  (~ defined T op x y -> prim op T x y = UB).
Proof.
  intro Hb. destruct op; cbn [prim].
  1: apply (result_cases T Add x y Hb); congruence.
  1: apply (result_cases T Sub x y Hb); congruence.
  1: apply (result_cases T Mul x y Hb); congruence.
  unfold over. destruct (Z.eqb_spec y 0) as [->|N].
  - split; [|reflexivity]. intros (D & _). now destruct (D eq_refl).
  - apply (result_cases T Div x y Hb). now intros _.
Qed.

Lemma conv_value T op x y : 0 < bits T ->
  value T op x y (conv T (if signed (prom T) then math op x y else math op x y mod 2 ^ bits T)).
Proof.
  intro Hb. assert (P : 0 < 2 ^ bits T) by (apply Z.pow_pos_nonneg; lia).
  assert (G : forall z, (exists k, z = math op x y + k * 2 ^ bits T) -> value T op x y (conv T z)).
  { intros z [k Hk]. unfold value, values_of, conv. destruct (signed T) eqn:S.
    - split; [apply swrap_range; lia|]. unfold swrap.
      pose proof (Z.div_mod (z + 2 ^ (bits T - 1)) (2 ^ bits T) ltac:(lia)). exists (k - (z + 2 ^ (bits T - 1)) / 2 ^ bits T). lia.
    - split; [apply Z.mod_pos_bound; lia|]. pose proof (Z.div_mod z (2 ^ bits T) ltac:(lia)). exists (k - z / 2 ^ bits T). lia. }
  apply G. destruct (signed (prom T)); [exists 0; lia|].
  pose proof (Z.div_mod (math op x y) (2 ^ bits T) ltac:(lia)). exists (- (math op x y / 2 ^ bits T)). lia.
Qed.

Lemma wide_value T op x y : wide_type T -> defined T op x y ->
  value T op x y (if signed (prom T) then math op x y else math op x y mod 2 ^ bits T).
Proof.
  intros W D. assert (Hb : 32 <= bits T) by (destruct W; lia). assert (P : 0 < 2 ^ bits T) by (apply Z.pow_pos_nonneg; lia).
  assert (EP : prom T = T) by (unfold prom; destruct (Z.ltb_spec (bits T) 32); [lia|reflexivity]).
  rewrite EP. unfold value, values_of. destruct (signed T) eqn:S.
  - destruct D as (_ & _ & D). split; [now apply D|]. exists 0. lia.
  - split; [apply Z.mod_pos_bound; lia|]. pose proof (Z.div_mod (math op x y) (2 ^ bits T) ltac:(lia)).
    exists (- (math op x y / 2 ^ bits T)). lia.
Qed.

Lemma defined_dec T op x y : defined T op x y \/ ~ defined T op x y.
Proof.
  assert (A : (op = Div -> y <> 0) \/ ~ (op = Div -> y <> 0)) by (destruct op; try (left; congruence); destruct (Z.eq_dec y 0) as [->|N]; [right|left; auto]; intro H; now apply H).
  assert (B : forall (P : Prop) lo hi, P \/ ~ P -> (P -> lo <= math op x y < hi) \/ ~ (P -> lo <= math op x y < hi)) by (intros P lo hi []; destruct (Z_le_dec lo (math op x y)), (Z_lt_dec (math op x y) hi); tauto).
  pose proof (B (bits T < 32) (- 2 ^ 31) (2 ^ 31) ltac:(lia)) as B1.
  pose proof (B (32 <= bits T /\ signed T = true) (- 2 ^ (bits T - 1)) (2 ^ (bits T - 1))) as B2.
  unfold defined. destruct B2; [destruct (signed T); [lia|right; intros []; congruence]| |]; tauto.
Qed.

Ltac ea := repeat (apply each_cons; [assumption|]); apply each_nil.
Ltac fa := repeat (apply Forall2_cons; [assumption|]); apply Forall2_nil.

(** One component of a binary operator. *)
Lemma step_cases T op x y : wide_type T ->
  (defined T op x y /\ exists v, prim op T x y = Ok v /\ value T op x y v) \/ (~ defined T op x y /\ prim op T x y = UB).
Proof.
  intro W. assert (Hb : 0 < bits T) by (destruct W; lia). destruct (prim_cases T op x y Hb) as [A B].
  destruct (defined_dec T op x y) as [D|D]; [left|right; auto]. split; [assumption|]. eexists. split; [now apply A|now apply wide_value].
Qed.

(** One component of a compound assignment. *)
Lemma assign_cases T op m p q : 0 < bits T ->
  (defined T op (m p) (m q) /\ exists v, assign (prim op) T m p q = Ok (poke m p v) /\ value T op (m p) (m q) v) \/
  (~ defined T op (m p) (m q) /\ assign (prim op) T m p q = UB).
Proof.
  intro Hb. unfold assign. destruct (prim_cases T op (m p) (m q) Hb) as [A B]. destruct (defined_dec T op (m p) (m q)) as [D|D].
  - left. split; [assumption|]. rewrite (A D). cbn [bind]. eexists. split; [reflexivity|now apply conv_value].
  - right. split; [assumption|]. now rewrite (B D).
Qed.

Definition list2 (v : vec2) : list Z := let '(x, y) := v in [x; y].
Definition list3 (v : vec3) : list Z := let '(x, y, z) := v in [x; y; z].
Definition map_res {A B} (f : A -> B) (r : res A) : res B := match r with Ok a => Ok (f a) | UB => UB | Timeout => Timeout end.

Lemma pair_computes T op ax ay bx by_ : wide_type T ->
  computes T op [ax; ay] [bx; by_] (map_res list2 (x <- prim op T ax bx ;; y <- prim op T ay by_ ;; Ok (x, y))).
Proof.
  intro W. destruct (step_cases T op ax bx W) as [(D1 & v1 & E1 & V1)|(D1 & E1)].
  2:{ rewrite E1. cbn [bind map_res]. split; intro F; [|reflexivity]. inversion F. contradiction. }
  destruct (step_cases T op ay by_ W) as [(D2 & v2 & E2 & V2)|(D2 & E2)].
  2:{ rewrite E1. cbn [bind]. rewrite E2. cbn [bind map_res]. split; intro F; [|reflexivity]. inversion F as [|? ? ? ? ? F']. inversion F'. contradiction. }
  rewrite E1. cbn [bind]. rewrite E2. cbn [bind map_res list2]. split; intro F.
  - eexists. split; [reflexivity|ea].
  - exfalso. apply F. fa.
Qed.

Lemma triple_computes T op ax ay az bx by_ bz : wide_type T ->
  computes T op [ax; ay; az] [bx; by_; bz] (map_res list3 (x <- prim op T ax bx ;; y <- prim op T ay by_ ;; z <- prim op T az bz ;; Ok (x, y, z))).
Proof.
  intro W. destruct (step_cases T op ax bx W) as [(D1 & v1 & E1 & V1)|(D1 & E1)].
  2:{ rewrite E1. cbn [bind map_res]. split; intro F; [|reflexivity]. inversion F. contradiction. }
  destruct (step_cases T op ay by_ W) as [(D2 & v2 & E2 & V2)|(D2 & E2)].
  2:{ rewrite E1. cbn [bind]. rewrite E2. cbn [bind map_res]. split; intro F; [|reflexivity]. inversion F as [|? ? ? ? ? F']. inversion F'. contradiction. }
  destruct (step_cases T op az bz W) as [(D3 & v3 & E3 & V3)|(D3 & E3)].
  2:{ rewrite E1. cbn [bind]. rewrite E2. cbn [bind]. rewrite E3. cbn [bind map_res]. split; intro F; [|reflexivity]. inversion F as [|? ? ? ? ? F']. inversion F' as [|? ? ? ? ? F'']. inversion F''. contradiction. }
  rewrite E1. cbn [bind]. rewrite E2. cbn [bind]. rewrite E3. cbn [bind map_res list3]. split; intro F.
  - eexists. split; [reflexivity|ea].
  - exfalso. apply F. fa.
Qed.

(** C81: the binary operators work on each component: they are defined exactly when every component is, and the result is exact
    (modulo 2 ^ bits for unsigned types). *)
Theorem C81_binary : forall T, wide_type T ->
  (forall a b s,
     computes T Add (list2 a) (list2 b) (map_res list2 (add2_t T a b)) /\ computes T Sub (list2 a) (list2 b) (map_res list2 (sub2_t T a b)) /\
     computes T Mul (list2 a) [s; s] (map_res list2 (mul2_t T a s)) /\ computes T Div (list2 a) [s; s] (map_res list2 (div2_t T a s))) /\
  (forall a b s,
     computes T Add (list3 a) (list3 b) (map_res list3 (add3_t T a b)) /\ computes T Sub (list3 a) (list3 b) (map_res list3 (sub3_t T a b)) /\
     computes T Mul (list3 a) [s; s; s] (map_res list3 (mul3_t T a s)) /\ computes T Div (list3 a) [s; s; s] (map_res list3 (div3_t T a s))).
Proof.
  intros T W. split.
  - intros [ax ay] [bx by_] s. split; [|split; [|split]]; [exact (pair_computes T Add ax ay bx by_ W)|exact (pair_computes T Sub ax ay bx by_ W)|exact (pair_computes T Mul ax ay s s W)|exact (pair_computes T Div ax ay s s W)].
  - intros [[ax ay] az] [[bx by_] bz] s. split; [|split; [|split]]; [exact (triple_computes T Add ax ay az bx by_ bz W)|exact (triple_computes T Sub ax ay az bx by_ bz W)|exact (triple_computes T Mul ax ay az s s s W)|exact (triple_computes T Div ax ay az s s s W)].
Qed.
Print Assumptions C81_binary.

(** C81: the value the specification asks for is unique. *)
Theorem C81_value_unique : forall T op x y v w, 0 < bits T -> value T op x y v -> value T op x y w -> v = w.
Proof.
  intros T op x y v w Hb [R [k K]] [R' [l L]]. unfold values_of in *.
  assert (E : 2 ^ bits T = 2 * 2 ^ (bits T - 1)) by (rewrite <- Z.pow_succ_r by lia; f_equal; lia).
  assert (P : 0 < 2 ^ (bits T - 1)) by (apply Z.pow_pos_nonneg; lia).
  assert (k = l); [|congruence]. destruct (signed T); nia.
Qed.
Print Assumptions C81_value_unique.

(** C81: == compares all components, != is its negation. *)
Theorem C81_compare :
  (forall a b, (eq2 a b = true <-> a = b) /\ ne2 a b = negb (eq2 a b)) /\
  (forall a s, (eqs2 a s = true <-> a = (s, s)) /\ nes2 a s = negb (eqs2 a s)) /\
  (forall a b, (eq3 a b = true <-> a = b) /\ ne3 a b = negb (eq3 a b)) /\
  (forall a s, (eqs3 a s = true <-> a = (s, s, s)) /\ nes3 a s = negb (eqs3 a s)).
Proof.
  assert (I2 : forall x y x' y' : Z, (x, y) = (x', y') <-> x = x' /\ y = y') by (intros; split; [intro H; now inversion H|intros [-> ->]; reflexivity]).
  assert (I3 : forall x y z x' y' z' : Z, (x, y, z) = (x', y', z') <-> (x = x' /\ y = y') /\ z = z') by (intros; split; [intro H; now inversion H|intros [[-> ->] ->]; reflexivity]).
  split; [|split; [|split]].
  - intros [ax ay] [bx by_]. unfold eq2, ne2. rewrite andb_true_iff, !Z.eqb_eq, I2, negb_andb. tauto.
  - intros [ax ay] s. unfold eqs2, nes2. rewrite andb_true_iff, !Z.eqb_eq, I2, negb_andb. tauto.
  - intros [[ax ay] az] [[bx by_] bz]. unfold eq3, ne3. rewrite !andb_true_iff, !Z.eqb_eq, I3, !negb_andb. tauto.
  - intros [[ax ay] az] s. unfold eqs3, nes3. rewrite !andb_true_iff, !Z.eqb_eq, I3, !negb_andb. tauto.
Qed.
Print Assumptions C81_compare.

Lemma poke_same m p v : poke m p v p = v.
Proof. unfold poke. now rewrite Nat.eqb_refl. Qed.
Lemma poke_other m p v q : q <> p -> poke m p v q = m q.
Proof. intro H. unfold poke. apply Nat.eqb_neq in H. now rewrite H. Qed.

(** Two assignments one after the other, where the second reads what was there before the first. *)
Lemma two_stores T op m a q0 q1 : 0 < bits T -> q1 <> a ->
  stores T op 2 m a [m q0; m q1] (m <- assign (prim op) T m a q0 ;; assign (prim op) T m (a + 1)%nat q1).
Proof.
  intros Hb N1. unfold stores, cells. cbn [seq map]. replace (S a) with (a + 1)%nat by lia.
  destruct (assign_cases T op m a q0 Hb) as [(D1 & v1 & E1 & V1)|(D1 & E1)]; rewrite E1; cbn [bind].
  2:{ split; intro F; [|reflexivity]. inversion F. contradiction. }
  pose proof (assign_cases T op (poke m a v1) (a + 1)%nat q1 Hb) as C. rewrite !(poke_other m a) in C by lia.
  destruct C as [(D2 & v2 & E2 & V2)|(D2 & E2)]; rewrite E2.
  2:{ split; intro F; [|reflexivity]. inversion F as [|? ? ? ? ? F']. inversion F'. contradiction. }
  split; intro F; [|exfalso; apply F; fa].
  eexists. split; [reflexivity|]. split.
  - rewrite poke_same, poke_other, poke_same by lia. ea.
  - intros q Hq. now rewrite !poke_other by lia.
Qed.

Lemma three_stores T op m a q0 q1 q2 : 0 < bits T -> q1 <> a -> q2 <> a -> q2 <> (a + 1)%nat ->
  stores T op 3 m a [m q0; m q1; m q2]
    (m <- assign (prim op) T m a q0 ;; m <- assign (prim op) T m (a + 1)%nat q1 ;; assign (prim op) T m (a + 2)%nat q2).
Proof.
  intros Hb N1 N2 N3. unfold stores, cells. cbn [seq map]. replace (S (S a)) with (a + 2)%nat by lia. replace (S a) with (a + 1)%nat by lia.
  destruct (assign_cases T op m a q0 Hb) as [(D1 & v1 & E1 & V1)|(D1 & E1)]; rewrite E1; cbn [bind].
  2:{ split; intro F; [|reflexivity]. inversion F. contradiction. }
  pose proof (assign_cases T op (poke m a v1) (a + 1)%nat q1 Hb) as C. rewrite !(poke_other m a) in C by lia.
  destruct C as [(D2 & v2 & E2 & V2)|(D2 & E2)]; rewrite E2; cbn [bind].
  2:{ split; intro F; [|reflexivity]. inversion F as [|? ? ? ? ? F']. inversion F'. contradiction. }
  pose proof (assign_cases T op (poke (poke m a v1) (a + 1)%nat v2) (a + 2)%nat q2 Hb) as C.
  rewrite !(poke_other _ (a + 1)%nat) in C by lia. rewrite !(poke_other m a) in C by lia.
  destruct C as [(D3 & v3 & E3 & V3)|(D3 & E3)]; rewrite E3.
  2:{ split; intro F; [|reflexivity]. inversion F as [|? ? ? ? ? F']. inversion F' as [|? ? ? ? ? F'']. inversion F''. contradiction. }
  split; intro F; [|exfalso; apply F; fa].
  eexists. split; [reflexivity|]. split.
  - rewrite poke_same. rewrite (poke_other _ (a + 2)%nat v3 a), (poke_other _ (a + 2)%nat v3 (a + 1)%nat) by lia.
    rewrite poke_same, (poke_other _ (a + 1)%nat v2 a), poke_same by lia. ea.
  - intros q Hq. now rewrite !poke_other by lia.
Qed.

(** C81: += and -= store what + and - give, for two vectors or a vector and itself, and touch nothing else. All integer types. *)
Theorem C81_compound_vector : forall T m a b, integer_type T ->
  (a = b \/ a + 2 <= b \/ b + 2 <= a -> stores T Add 2 m a (cells m b 2) (add2_a T m a b) /\ stores T Sub 2 m a (cells m b 2) (sub2_a T m a b))%nat /\
  (a = b \/ a + 3 <= b \/ b + 3 <= a -> stores T Add 3 m a (cells m b 3) (add3_a T m a b) /\ stores T Sub 3 m a (cells m b 3) (sub3_a T m a b))%nat.
Proof.
  intros T m a b I. assert (Hb : 0 < bits T) by (destruct I as [H|[H|[H|H]]]; lia).
  unfold cells. cbn [seq map]. replace (S (S b)) with (b + 2)%nat by lia. replace (S b) with (b + 1)%nat by lia. split; intro D.
  - split; [apply (two_stores T Add)|apply (two_stores T Sub)]; lia.
  - split; [apply (three_stores T Add)|apply (three_stores T Sub)]; lia.
Qed.
Print Assumptions C81_compound_vector.

(** C81: *= and /= store what * and / give, when the scalar is not a component of the vector before the last one. *)
Theorem C81_compound_scalar_partial : forall T m a b, integer_type T ->
  (b < a \/ a + 1 <= b -> stores T Mul 2 m a [m b; m b] (mul2_a T m a b) /\ stores T Div 2 m a [m b; m b] (div2_a T m a b))%nat /\
  (b < a \/ a + 2 <= b -> stores T Mul 3 m a [m b; m b; m b] (mul3_a T m a b) /\ stores T Div 3 m a [m b; m b; m b] (div3_a T m a b))%nat.
Proof.
  intros T m a b I. assert (Hb : 0 < bits T) by (destruct I as [H|[H|[H|H]]]; lia). split; intro D.
  - split; [apply (two_stores T Mul)|apply (two_stores T Div)]; lia.
  - split; [apply (three_stores T Mul)|apply (three_stores T Div)]; lia.
Qed.
Print Assumptions C81_compound_scalar_partial.

(** C81: without that restriction it is false: the scalar is read again after x has changed. (8, 12) /= its own x gives (1, 12), not
    (1, 1), and (3, 5) *= its own x gives (9, 45). *)
Theorem C81_alias_refuted :
  ~ (forall T m a b, integer_type T -> stores T Div 2 m a [m b; m b] (div2_a T m a b)) /\
  ~ (forall T m a b, integer_type T -> stores T Mul 2 m a [m b; m b] (mul2_a T m a b)).
Proof.
  set (T := {| bits := 32; signed := true |}). assert (I : integer_type T) by (right; right; now left).
  split; intro H.
  - specialize (H T (fun q => match q with O => 8 | _ => 12 end) 0%nat 0%nat I). destruct H as [H _].
    destruct H as (m' & E & F & _).
    { unfold cells. cbn [seq map]. repeat constructor; cbn; intros; try congruence; lia. }
    vm_compute in E. inversion E; subst m'. unfold cells in F. cbn [seq map] in F. inversion F as [|? ? ? ? ? ? _ F']; subst.
    inversion F' as [|? ? ? ? ? ? [_ [k K]] _]; subst. change (12 = 1 + k * 4294967296) in K. lia.
  - specialize (H T (fun q => match q with O => 3 | _ => 5 end) 0%nat 0%nat I). destruct H as [H _].
    destruct H as (m' & E & F & _).
    { unfold cells. cbn [seq map]. repeat constructor; cbn; intros; try congruence; lia. }
    vm_compute in E. inversion E; subst m'. unfold cells in F. cbn [seq map] in F. inversion F as [|? ? ? ? ? ? _ F']; subst.
    inversion F' as [|? ? ? ? ? ? [_ [k K]] _]; subst. change (45 = 15 + k * 4294967296) in K. lia.
Qed.
Print Assumptions C81_alias_refuted.

(** C81: what each operator does, the inverse undoes. *)
Theorem C81_inverse : forall T, wide_type T ->
  (forall a b c, Forall (values_of T) (list2 a) -> add2_t T a b = Ok c -> sub2_t T c b = Ok a) /\
  (forall a b c, Forall (values_of T) (list3 a) -> add3_t T a b = Ok c -> sub3_t T c b = Ok a) /\
  (forall a s c, signed T = true -> s <> 0 -> Forall (values_of T) (list2 a) -> mul2_t T a s = Ok c -> div2_t T c s = Ok a) /\
  (forall a s c, signed T = true -> s <> 0 -> Forall (values_of T) (list3 a) -> mul3_t T a s = Ok c -> div3_t T c s = Ok a).
Proof.
  intros T W. assert (Hb : 32 <= bits T) by (destruct W; lia). assert (P : 0 < 2 ^ bits T) by (apply Z.pow_pos_nonneg; lia).
  assert (EP : prom T = T) by (unfold prom; destruct (Z.ltb_spec (bits T) 32); [lia|reflexivity]).
  assert (A : forall x y z, values_of T x -> plus T x y = Ok z -> minus T z y = Ok x).
  { intros x y z V E. unfold plus, minus, result in *. rewrite EP in *. unfold values_of in V. destruct (signed T).
    - destruct (in_sb (bits T) (x + y)); inversion E; subst. replace (x + y - y) with x by lia.
      assert (in_sb (bits T) x = true) as -> by (apply in_sb_spec; exact V). reflexivity.
    - inversion E; subst. rewrite Zminus_mod_idemp_l. replace (x + y - y) with x by lia. now rewrite Z.mod_small. }
  assert (M : forall x s z, signed T = true -> s <> 0 -> values_of T x -> times T x s = Ok z -> over T z s = Ok x).
  { intros x s z S N V E. unfold times, over, result in *. rewrite EP in *. unfold values_of in V. rewrite S in *.
    destruct (in_sb (bits T) (x * s)); inversion E; subst. destruct (Z.eqb_spec s 0); [contradiction|]. rewrite Z.quot_mul by assumption.
    assert (in_sb (bits T) x = true) as -> by (apply in_sb_spec; exact V). reflexivity. }
  repeat apply conj.
  - intros [ax ay] [bx by_] c F E. unfold list2 in F. inversion F as [|? ? V1 F1]. inversion F1 as [|? ? V2 _]. unfold add2_t in E.
    apply bind_Ok_inv in E as (vx & E1 & E). apply bind_Ok_inv in E as (vy & E2 & E). inversion E; subst. unfold sub2_t.
    rewrite (A _ _ _ V1 E1), (A _ _ _ V2 E2). reflexivity.
  - intros [[ax ay] az] [[bx by_] bz] c F E. unfold list3 in F. inversion F as [|? ? V1 F1]. inversion F1 as [|? ? V2 F2]. inversion F2 as [|? ? V3 _]. unfold add3_t in E.
    apply bind_Ok_inv in E as (vx & E1 & E). apply bind_Ok_inv in E as (vy & E2 & E). apply bind_Ok_inv in E as (vz & E3 & E). inversion E; subst. unfold sub3_t.
    rewrite (A _ _ _ V1 E1), (A _ _ _ V2 E2), (A _ _ _ V3 E3). reflexivity.
  - intros [ax ay] s c S N F E. unfold list2 in F. inversion F as [|? ? V1 F1]. inversion F1 as [|? ? V2 _]. unfold mul2_t in E.
    apply bind_Ok_inv in E as (vx & E1 & E). apply bind_Ok_inv in E as (vy & E2 & E). inversion E; subst. unfold div2_t.
    rewrite (M _ _ _ S N V1 E1), (M _ _ _ S N V2 E2). reflexivity.
  - intros [[ax ay] az] s c S N F E. unfold list3 in F. inversion F as [|? ? V1 F1]. inversion F1 as [|? ? V2 F2]. inversion F2 as [|? ? V3 _]. unfold mul3_t in E.
    apply bind_Ok_inv in E as (vx & E1 & E). apply bind_Ok_inv in E as (vy & E2 & E). apply bind_Ok_inv in E as (vz & E3 & E). inversion E; subst. unfold div3_t.
    rewrite (M _ _ _ S N V1 E1), (M _ _ _ S N V2 E2), (M _ _ _ S N V3 E3). reflexivity.
Qed.
Print Assumptions C81_inverse.

(** The cases: int, unsigned that wraps, unsigned short that overflows int, a component as the last operand. *)
Example C81_case :
  add3_t {| bits := 32; signed := true |} (1, -2, 3) (10, 20, -30) = Ok (11, 18, -27) /\
  add2_t {| bits := 32; signed := true |} (2147483647, 0) (1, 0) = UB /\
  sub2_t {| bits := 32; signed := false |} (1, 5) (2, 3) = Ok (4294967295, 2) /\
  div2_t {| bits := 64; signed := true |} (-7, 7) 2 = Ok (-3, 3) /\
  mul2_a {| bits := 16; signed := false |} (fun _ => 65535) 0 5 = UB /\
  map_res (fun m => cells m 0 4) (mul2_a {| bits := 8; signed := false |} (fun q => match q with O => 100 | _ => 3 end) 0 1) = Ok [44; 9; 3; 3].
Proof. repeat split. Qed.
