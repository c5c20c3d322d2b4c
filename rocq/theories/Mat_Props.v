(** The operators of vectors of vectors, of any nesting (C95). *)
From Coq Require Import Arith.
From Verif Require Import Base Vec_Model VecOps_Model VecOps_Spec VecOps_Props Mat_Model.
Local Open Scope Z_scope.

(** The scalars of a value, in the order they lie in memory. *)
Fixpoint scalars (s : shape) : val s -> list Z :=
  match s return val s -> list Z with
  | Scalar => fun v => [v]
  | V2 s => fun v => let '(x, y) := v in scalars s x ++ scalars s y
  | V3 s => fun v => let '(x, y, z) := v in scalars s x ++ scalars s y ++ scalars s z
  end.

Lemma scalars_length s : forall v, length (scalars s v) = width s.
Proof.
  induction s as [|s IH|s IH]; intro v; [reflexivity|destruct v as [x y]|destruct v as [[x y] z]];
    cbn [scalars width]; rewrite !app_length, !IH; lia.
Qed.

Lemma each_app T op xs ys vs xs' ys' vs' : each T op xs ys vs -> each T op xs' ys' vs' -> each T op (xs ++ xs') (ys ++ ys') (vs ++ vs').
Proof. intros E E'. induction E; cbn [app]; [assumption|now constructor]. Qed.

Lemma Forall2_split {A B} (R : A -> B -> Prop) xs ys xs' ys' : length xs = length ys ->
  Forall2 R (xs ++ xs') (ys ++ ys') -> Forall2 R xs ys /\ Forall2 R xs' ys'.
Proof.
  revert ys. induction xs as [|x xs IH]; intros [|y ys] L F; try discriminate; [split; [constructor|assumption]|].
  cbn [app] in F. inversion F; subst. destruct (IH ys) as [P Q]; [now injection L|assumption|]. split; [now constructor|assumption].
Qed.

Lemma Forall2_defined_dec T op xs : forall ys, Forall2 (defined T op) xs ys \/ ~ Forall2 (defined T op) xs ys.
Proof.
  induction xs as [|x xs IH]; intros [|y ys]; try (right; intro F; now inversion F); [left; constructor|].
  destruct (defined_dec T op x y) as [D|D]; [|right; intro F; now inversion F].
  destruct (IH ys) as [F|F]; [left; now constructor|right; intro G; now inversion G].
Qed.

Lemma computes_app {A B C} (f : res A) (g : res B) (k : A -> B -> C) fa fb fc T op xs ys xs' ys' :
  length xs = length ys -> (forall a b, fc (k a b) = fa a ++ fb b) ->
  computes T op xs ys (map_res fa f) -> computes T op xs' ys' (map_res fb g) ->
  computes T op (xs ++ xs') (ys ++ ys') (map_res fc (a <- f ;; b <- g ;; Ok (k a b))).
Proof.
  intros L K [A1 A2] [B1 B2]. split; intro F.
  - destruct (Forall2_split _ _ _ _ _ L F) as [P Q]. destruct (A1 P) as (vs & E & V). destruct (B1 Q) as (ws & E' & W).
    destruct f as [a| |]; try discriminate. destruct g as [b| |]; try discriminate. cbn [map_res bind] in *.
    exists (vs ++ ws). injection E as E. injection E' as E'. rewrite K, E, E'. split; [reflexivity|now apply each_app].
  - destruct (Forall2_defined_dec T op xs ys) as [P|P].
    + destruct (A1 P) as (vs & E & _). destruct f as [a| |]; try discriminate. cbn [bind].
      assert (Q : ~ Forall2 (defined T op) xs' ys') by (intro Q; apply F; now apply Forall2_app).
      specialize (B2 Q). destruct g; try discriminate. reflexivity.
    + specialize (A2 P). destruct f; try discriminate. reflexivity.
Qed.

Lemma scalar_computes T op x y : wide_type T -> computes T op [x] [y] (map_res (scalars Scalar) (prim op T x y)).
Proof.
  intro W. destruct (step_cases T op x y W) as [(D & v & E & V)|(D & E)]; rewrite E; cbn [map_res scalars]; split; intro F.
  - exists [v]. split; [reflexivity|ea].
  - exfalso. apply F. fa.
  - inversion F. contradiction.
  - reflexivity.
Qed.

Lemma bind_assoc {A B C} (f : res A) (g : A -> res B) (h : B -> res C) : (y <- (x <- f ;; g x) ;; h y) = (x <- f ;; y <- g x ;; h y).
Proof. destruct f; reflexivity. Qed.

Lemma binary_computes T op s : wide_type T -> forall a b, computes T op (scalars s a) (scalars s b) (map_res (scalars s) (binary (prim op T) s a b)).
Proof.
  intro W. induction s as [|s IH|s IH].
  - intros a b. apply scalar_computes, W.
  - intros [ax ay] [bx by_]. cbn [scalars binary].
    apply (computes_app _ _ (fun x y => (x, y)) (scalars s) (scalars s)); [now rewrite !scalars_length|reflexivity|apply IH|apply IH].
  - intros [[ax ay] az] [[bx by_] bz]. cbn [scalars binary].
    pose proof (computes_app (binary (prim op T) s ay by_) (binary (prim op T) s az bz) (fun y z => (y, z)) (scalars s) (scalars s)
      (fun p => scalars s (fst p) ++ scalars s (snd p)) T op _ _ _ _
      ltac:(rewrite (scalars_length s ay), (scalars_length s by_); reflexivity) ltac:(reflexivity) (IH ay by_) (IH az bz)) as R.
    pose proof (computes_app (binary (prim op T) s ax bx) _ (fun x (p : val s * val s) => (x, fst p, snd p)) (scalars s) _
      (scalars (V3 s)) T op _ _ _ _ ltac:(rewrite (scalars_length s ax), (scalars_length s bx); reflexivity) ltac:(reflexivity) (IH ax bx) R) as Q.
    match type of Q with computes _ _ _ _ (map_res _ ?p) => match goal with |- computes _ _ _ _ (map_res _ ?q) => replace q with p; [exact Q|] end end.
    destruct (binary (prim op T) s ax bx); cbn [bind]; try reflexivity. destruct (binary (prim op T) s ay by_); cbn [bind]; try reflexivity.
    destruct (binary (prim op T) s az bz); reflexivity.
Qed.

(** C95: the sum and the difference of two matrices are defined exactly when the sum or the difference of each pair of scalars is, and hold
    those, for every nesting of vec2 and vec3. *)
Theorem C95_binary : forall T s a b, wide_type T ->
  computes T Add (scalars s a) (scalars s b) (map_res (scalars s) (add_m T s a b)) /\
  computes T Sub (scalars s a) (scalars s b) (map_res (scalars s) (sub_m T s a b)).
Proof. intros T s a b W. split; [apply (binary_computes T Add)|apply (binary_computes T Sub)]; assumption. Qed.
Print Assumptions C95_binary.

(** The scalars tell the whole value. *)
Lemma scalars_inj s : forall a b, scalars s a = scalars s b -> a = b.
Proof.
  assert (L : forall {A} (x y x' y' : list A), length x = length y -> x ++ x' = y ++ y' -> x = y /\ x' = y').
  { intros A x. induction x as [|u x IH]; intros [|v y] x' y' H E; try discriminate; [now split|].
    cbn [app] in E. injection E as -> E. destruct (IH y x' y') as [-> ->]; [now injection H|assumption|now split]. }
  induction s as [|s IH|s IH]; [intros a b E; cbn [scalars] in E; now injection E|intros [ax ay] [bx by_] E|intros [[ax ay] az] [[bx by_] bz] E]; cbn [scalars] in E.
  - apply L in E as [E1 E2]; [|now rewrite !scalars_length]. f_equal; now apply IH.
  - apply L in E as [E1 E2]; [|now rewrite !scalars_length]. apply L in E2 as [E2 E3]; [|now rewrite !scalars_length].
    f_equal; [f_equal|]; now apply IH.
Qed.

Lemma eq_m_spec s : forall a b, eq_m s a b = true <-> a = b.
Proof.
  induction s as [|s IH|s IH]; [intros a b; apply Z.eqb_eq|intros [ax ay] [bx by_]|intros [[ax ay] az] [[bx by_] bz]];
    cbn [eq_m]; rewrite !andb_true_iff, !IH; split.
  - now intros [-> ->].
  - intro E. now inversion E.
  - now intros [[-> ->] ->].
  - intro E. now inversion E.
Qed.

Lemma ne_m_spec s : forall a b, ne_m s a b = negb (eq_m s a b).
Proof.
  induction s as [|s IH|s IH]; [reflexivity|intros [ax ay] [bx by_]|intros [[ax ay] az] [[bx by_] bz]];
    cbn [eq_m ne_m]; now rewrite !IH, !negb_andb.
Qed.

(** C95: two matrices are equal exactly when their scalars are; a matrix equals a row exactly when each of its rows does; != is the opposite. *)
Theorem C95_compare : forall s,
  (forall a b : val s, (eq_m s a b = true <-> scalars s a = scalars s b) /\ ne_m s a b = negb (eq_m s a b)) /\
  (forall x y r, (eq_row2 s (x, y) r = true <-> scalars s x = scalars s r /\ scalars s y = scalars s r) /\
     ne_row2 s (x, y) r = negb (eq_row2 s (x, y) r)) /\
  (forall x y z r, (eq_row3 s (x, y, z) r = true <-> scalars s x = scalars s r /\ scalars s y = scalars s r /\ scalars s z = scalars s r) /\
     ne_row3 s (x, y, z) r = negb (eq_row3 s (x, y, z) r)).
Proof.
  intro s. assert (Q : forall a b : val s, eq_m s a b = true <-> scalars s a = scalars s b).
  { intros a b. rewrite eq_m_spec. split; [now intros ->|apply scalars_inj]. }
  split; [|split].
  - intros a b. split; [apply Q|apply ne_m_spec].
  - intros x y r. unfold eq_row2, ne_row2. rewrite andb_true_iff, !Q, !ne_m_spec, negb_andb. split; [tauto|reflexivity].
  - intros x y z r. unfold eq_row3, ne_row3. rewrite !andb_true_iff, !Q, !ne_m_spec, !negb_andb. split; [tauto|reflexivity].
Qed.
Print Assumptions C95_compare.

Lemma cells_app m a n k : cells m a (n + k) = cells m a n ++ cells m (a + n) k.
Proof. unfold cells. now rewrite seq_app, map_app. Qed.

Lemma cells_length m a n : length (cells m a n) = n.
Proof. unfold cells. now rewrite map_length, seq_length. Qed.

Lemma cells_ext m m' a n : (forall q, (a <= q < a + n)%nat -> m q = m' q) -> cells m a n = cells m' a n.
Proof. intro E. unfold cells. apply map_ext_in. intros q Hq. apply in_seq in Hq. apply E. lia. Qed.

(** Two blocks one after the other. *)
Lemma stores_app T op n k m a b f g : (a = b \/ a + (n + k) <= b \/ b + (n + k) <= a)%nat ->
  stores T op n m a (cells m b n) f ->
  (forall m', stores T op k m' (a + n) (cells m' (b + n) k) (g m')) ->
  stores T op (n + k) m a (cells m b (n + k)) (bind f g).
Proof.
  intros D [A1 A2] G. unfold stores. rewrite !cells_app.
  assert (L : length (cells m a n) = length (cells m b n)) by now rewrite !cells_length.
  destruct (Forall2_defined_dec T op (cells m a n) (cells m b n)) as [P|P].
  2:{ split; intro F; [destruct (Forall2_split _ _ _ _ _ L F); contradiction|now rewrite (A2 P)]. }
  destruct (A1 P) as (m1 & E & V & K). rewrite E. cbn [bind].
  assert (C1 : cells m1 (a + n) k = cells m (a + n) k) by (apply cells_ext; intros; apply K; lia).
  assert (C2 : cells m1 (b + n) k = cells m (b + n) k) by (apply cells_ext; intros; apply K; lia).
  specialize (G m1). unfold stores in G. rewrite C1, C2 in G. destruct G as [B1 B2]. split; intro F.
  - destruct (Forall2_split _ _ _ _ _ L F) as [_ Q]. destruct (B1 Q) as (m2 & E2 & V2 & K2). exists m2. split; [assumption|]. split.
    + rewrite (cells_app m2). apply each_app; [|assumption].
      replace (cells m2 a n) with (cells m1 a n); [assumption|]. apply cells_ext. intros q Hq. symmetry. apply K2. lia.
    + intros q Hq. rewrite K2 by lia. apply K. lia.
  - apply B2. intro Q. apply F. now apply Forall2_app.
Qed.

Lemma scalar_stores T op m a b : 0 < bits T -> stores T op 1 m a (cells m b 1) (assign (prim op) T m a b).
Proof.
  intro Hb. unfold stores, cells. cbn [seq map]. destruct (assign_cases T op m a b Hb) as [(D & v & E & V)|(D & E)]; rewrite E; split; intro F.
  - exists (poke m a v). split; [reflexivity|]. split; [rewrite poke_same; ea|]. intros q Hq. apply poke_other. lia.
  - exfalso. apply F. fa.
  - inversion F. contradiction.
  - reflexivity.
Qed.

Lemma compound_stores T op s : 0 < bits T -> forall m a b, (a = b \/ a + width s <= b \/ b + width s <= a)%nat ->
  stores T op (width s) m a (cells m b (width s)) (compound (prim op) T s m a b).
Proof.
  intro Hb. induction s as [|s IH|s IH]; intros m a b D; cbn [width compound] in *.
  - now apply scalar_stores.
  - apply stores_app; [lia|apply IH; lia|]. intro m'. apply IH. lia.
  - rewrite <- Nat.add_assoc. apply stores_app; [lia|apply IH; lia|]. intro m'. apply stores_app; [lia|apply IH; lia|]. intro m''.
    apply IH. lia.
Qed.

(** C95: += and -= store what + and - give, for two matrices or a matrix and itself, and touch nothing else. All integer types. *)
Theorem C95_compound : forall T s m a b, integer_type T -> (a = b \/ a + width s <= b \/ b + width s <= a)%nat ->
  stores T Add (width s) m a (cells m b (width s)) (add_a T s m a b) /\
  stores T Sub (width s) m a (cells m b (width s)) (sub_a T s m a b).
Proof.
  intros T s m a b I D. assert (Hb : 0 < bits T) by (destruct I as [H|[H|[H|H]]]; lia).
  split; [apply (compound_stores T Add)|apply (compound_stores T Sub)]; assumption.
Qed.
Print Assumptions C95_compound.

(** C95: without nesting these are the operators of C81. *)
Theorem C95_flat : forall T,
  (forall a b, add_m T (V2 Scalar) a b = add2_t T a b /\ sub_m T (V2 Scalar) a b = sub2_t T a b) /\
  (forall a b, add_m T (V3 Scalar) a b = add3_t T a b /\ sub_m T (V3 Scalar) a b = sub3_t T a b) /\
  (forall m a b, add_a T (V2 Scalar) m a b = add2_a T m a b /\ sub_a T (V2 Scalar) m a b = sub2_a T m a b).
Proof. intro T. split; [|split]; intros; split; reflexivity. Qed.
Print Assumptions C95_flat.

(** A matrix of two rows of three; one overflow makes all undefined; adding a matrix to itself; a vec3 of vec2 of vec2. *)
Example C95_case :
  let T := {| bits := 32; signed := true |} in
  wide_type T /\ integer_type T /\
  add_m T (V2 (V3 Scalar)) ((1, 2, 3), (4, 5, 6)) ((10, 20, 30), (40, 50, 60)) = Ok ((11, 22, 33), (44, 55, 66)) /\
  add_m T (V2 (V2 Scalar)) ((1, 2), (3, 2147483647)) ((1, 1), (1, 1)) = UB /\
  eq_row2 (V2 Scalar) ((1, 2), (1, 2)) (1, 2) = true /\ eq_row2 (V2 Scalar) ((1, 2), (1, 3)) (1, 2) = false /\
  map_res (fun m => cells m 0 6) (add_a T (V2 (V2 Scalar)) (fun q => Z.of_nat q + 1) 0 0) = Ok [2; 4; 6; 8; 5; 6] /\
  width (V3 (V2 (V2 Scalar))) = 12%nat.
Proof. cbv zeta. split; [now left|]. split; [right; right; now left|]. repeat split. Qed.
