(** incircle computes the sign of the determinant; flip keeps the invariant and ends. *)
From Coq Require FinFun.
From Verif Require Import Base Vec_Model Math_Model Vec_Spec Cdt_Model Cdt_Geom Cdt_Mesh Cdt_Flip.
Local Open Scope Z_scope.

Lemma chk64_b x : - 9223372036854775808 <= x < 9223372036854775808 -> chk64 x = Ok x.
Proof. intro H. apply chk64_ok. unfold in_s. change (2 ^ (64 - 1)) with 9223372036854775808. lia. Qed.

Lemma det_shift a b c v k : incircle_det (fst a + k, snd a + k) (fst b + k, snd b + k) (fst c + k, snd c + k) (fst v + k, snd v + k) = incircle_det a b c v.
Proof. unfold incircle_det, det6. cbn [fst snd]. ring. Qed.

Lemma det_range a b c v : inbox a -> inbox b -> inbox c -> inbox v -> - 9223372036854775808 <= incircle_det a b c v < 9223372036854775808.
Proof.
  intros Ha Hb Hc Hv. rewrite <- (det_shift a b c v 32768).
  assert (B : forall p, inbox p -> box 65535 (fst p + 32768, snd p + 32768)).
  { intros p Hp. unfold inbox, lo, hi in Hp. change (2 ^ 15) with 32768 in Hp. unfold box. cbn [fst snd]. lia. }
  pose proof (det_bound 65535 ltac:(lia) _ _ _ _ (B a Ha) (B b Hb) (B c Hc) (B v Hv)) as D. lia.
Qed.

Lemma s64_mod x : exists k, s64 x = x + k * 18446744073709551616.
Proof.
  unfold s64, swrap. change (2 ^ (64 - 1)) with 9223372036854775808. change (2 ^ 64) with 18446744073709551616.
  exists (- ((x + 9223372036854775808) / 18446744073709551616)). pose proof (Z.div_mod (x + 9223372036854775808) 18446744073709551616 ltac:(lia)). lia.
Qed.
Lemma s64_range x : - 9223372036854775808 <= s64 x < 9223372036854775808.
Proof. pose proof (swrap_range 64 x ltac:(lia)) as H. unfold in_s in H. change (2 ^ (64 - 1)) with 9223372036854775808 in H. exact H. Qed.

(** 64-bit sums of products: right when nothing overflows, and right modulo 2^64 when overflow wraps around. *)
Lemma ar_sum wrap x y z : - 9223372036854775808 <= x + y + z < 9223372036854775808 ->
  let m := (a <- ar wrap x ;; b <- ar wrap y ;; c <- ar wrap z ;; t <- ar wrap (a + b) ;; t <- ar wrap (t + c) ;; Ok (t <? 0)) in
  (wrap = true -> m = Ok (x + y + z <? 0)) /\ (m = Ok (x + y + z <? 0) \/ m = UB).
Proof.
  intros H m. unfold m, ar. destruct wrap; cbn [bind].
  - assert (E : s64 (s64 (s64 x + s64 y) + s64 z) = x + y + z).
    { destruct (s64_mod x) as (i & Ei). destruct (s64_mod y) as (j & Ej). destruct (s64_mod z) as (k & Ek).
      destruct (s64_mod (s64 x + s64 y)) as (l & El). destruct (s64_mod (s64 (s64 x + s64 y) + s64 z)) as (n & En).
      pose proof (s64_range (s64 (s64 x + s64 y) + s64 z)). lia. }
    rewrite E. auto.
  - split; [discriminate|].
    destruct (chk64 x) eqn:E1; cbn [bind]; auto; [|unfold chk64 in E1; destruct (in_sb 64 x); discriminate]. apply chk64_inv in E1. destruct E1 as [-> _].
    destruct (chk64 y) eqn:E1; cbn [bind]; auto; [|unfold chk64 in E1; destruct (in_sb 64 y); discriminate]. apply chk64_inv in E1. destruct E1 as [-> _].
    destruct (chk64 z) eqn:E1; cbn [bind]; auto; [|unfold chk64 in E1; destruct (in_sb 64 z); discriminate]. apply chk64_inv in E1. destruct E1 as [-> _].
    destruct (chk64 (x + y)) eqn:E1; cbn [bind]; auto; [|unfold chk64 in E1; destruct (in_sb 64 (x + y)); discriminate]. apply chk64_inv in E1. destruct E1 as [-> _].
    rewrite chk64_b by assumption. cbn [bind]. auto.
Qed.

Section Circle.
  Context (limit q : Z) (wrap : bool).

  (** A node that is the first of its face. *)
  Definition base (n : Z) : Z := n / 4 * 4.
  Lemma base_node s n : node s n -> node s (base n) /\ node s (base n + 1) /\ node s (base n + 2) /\ base n mod 4 = 0 /\ base n / 4 = n / 4 /\ 4 * (n / 4) = base n.
  Proof.
    intros [H1 H2]. unfold base, node. pose proof (Z.mod_pos_bound n 4 ltac:(lia)). pose proof (Z.div_mod n 4 ltac:(lia)).
    assert (n / 4 * 4 mod 4 = 0) by (apply Z.mod_mul; lia). assert (E1 : (n / 4 * 4 + 1) mod 4 = 1) by (rewrite Z.add_comm, Z.mod_add by lia; reflexivity).
    assert (E2 : (n / 4 * 4 + 2) mod 4 = 2) by (rewrite Z.add_comm, Z.mod_add by lia; reflexivity). rewrite E1, E2, Z.div_mul by lia.
    assert (8 * size s = 4 * (2 * size s)) by lia. repeat split; try lia.
  Qed.
  Lemma base_nxt n : base n mod 4 = 0 -> nxt (base n) = base n + 1 /\ prv (base n) = base n + 2.
  Proof. intro H. unfold nxt, prv. rewrite H. cbn. auto. Qed.

  Definition det_at (s : mesh) (n : Z) (v : point) : Z := incircle_det (P s n) (P s (nxt n)) (P s (prv n)) v.
  Lemma det_nxt s n v : n mod 4 <> 3 -> det_at s (nxt n) v = det_at s n v.
  Proof. intro H. unfold det_at. rewrite (nxt_nxt n H), (prv_nxt n H). apply det_rot. Qed.
  Lemma det_prv s n v : n mod 4 <> 3 -> det_at s (prv n) v = det_at s n v.
  Proof. intro H. rewrite <- (det_nxt s (prv n)) by now apply prv_mod. now rewrite nxt_prv. Qed.
  Lemma det_face s n m v : n mod 4 <> 3 -> m mod 4 <> 3 -> n / 4 = m / 4 -> det_at s m v = det_at s n v.
  Proof. intros Hn Hm E. destruct (same_face n m Hn Hm E) as [-> |[-> | ->]]; [reflexivity|now apply det_nxt|now apply det_prv]. Qed.

  Lemma P_box s n : good limit s -> node s n -> inbox (P s n).
  Proof. intros G H. apply (g_box _ _ G), (g_pt _ _ G), H. Qed.

  Lemma prod_small a b : - 65535 <= a <= 65535 -> - 65535 <= b <= 65535 -> - 4294836225 <= a * b <= 4294836225.
  Proof. intros. nia. Qed.

  Lemma incircle_ok s n v : good limit s -> node s n -> 0 <= v < size s ->
    (wrap = true -> incircle limit wrap s (n / 4) v = Ok (det_at s n (V s v) <? 0)) /\
    (incircle limit wrap s (n / 4) v = Ok (det_at s n (V s v) <? 0) \/ incircle limit wrap s (n / 4) v = UB).
  Proof.
    intros G Hn Hv. destruct (base_node s n Hn) as (B0 & B1 & B2 & Bm & Bf & B4).
    rewrite (det_face s (base n) n (V s v) (node_mod s _ B0) (node_mod s n Hn) Bf).
    unfold det_at. destruct (base_nxt n Bm) as [-> ->].
    unfold incircle. rewrite (get_v_ok limit s v G Hv). cbn [bind]. rewrite B4.
    rewrite (get_p_ok limit s _ G B0), (get_p_ok limit s _ G B1), (get_p_ok limit s _ G B2). cbn [bind].
    rewrite !(get_v_ok limit s _ G) by (apply (g_pt _ _ G); assumption). cbn [bind].
    pose proof (P_box s _ G B0) as I0. pose proof (P_box s _ G B1) as I1. pose proof (P_box s _ G B2) as I2. pose proof (g_box _ _ G v Hv) as Iv.
    pose proof (det_range _ _ _ _ I0 I1 I2 Iv) as R. unfold P, V in *. unfold incircle_det, det6 in *. cbn [fst snd] in *.
    unfold inbox, lo, hi in *. change (2 ^ 15) with 32768 in *. cbn [fst snd] in *.
    generalize dependent (vx s (pt s (base n))). generalize dependent (vy s (pt s (base n))). generalize dependent (vx s (pt s (base n + 1))). generalize dependent (vy s (pt s (base n + 1))).
    generalize dependent (vx s (pt s (base n + 2))). generalize dependent (vy s (pt s (base n + 2))). generalize dependent (vx s v). generalize dependent (vy s v).
    clear. intros y x Iv cy cx I2 by_ bx I1 ay ax I0 R.
    rewrite !chk64_b by lia. cbn [bind].
    assert (Ex : - 65535 <= ax - x <= 65535) by lia. assert (Ey : - 65535 <= ay - y <= 65535) by lia.
    assert (Fx : - 65535 <= bx - x <= 65535) by lia. assert (Fy : - 65535 <= by_ - y <= 65535) by lia.
    assert (Gx : - 65535 <= cx - x <= 65535) by lia. assert (Gy : - 65535 <= cy - y <= 65535) by lia.
    clear I0 I1 I2 Iv.
    generalize dependent (ax - x). generalize dependent (ay - y). generalize dependent (bx - x). generalize dependent (by_ - y). generalize dependent (cx - x). generalize dependent (cy - y).
    clear. intros.
    unfold dot64, crossx2.
    assert (M : forall a b, - 65535 <= a <= 65535 -> - 65535 <= b <= 65535 -> chk64 (a * b) = Ok (a * b)) by (intros a b Ha Hb; apply chk64_b; pose proof (prod_small a b Ha Hb); lia).
    assert (M2 : forall a b c d, - 65535 <= a <= 65535 -> - 65535 <= b <= 65535 -> - 65535 <= c <= 65535 -> - 65535 <= d <= 65535 -> chk64 (a * b + c * d) = Ok (a * b + c * d))
      by (intros a b c d Ha Hb Hc Hd; apply chk64_b; pose proof (prod_small a b Ha Hb); pose proof (prod_small c d Hc Hd); lia).
    assert (M3 : forall a b c d, - 65535 <= a <= 65535 -> - 65535 <= b <= 65535 -> - 65535 <= c <= 65535 -> - 65535 <= d <= 65535 -> chk64 (a * b - c * d) = Ok (a * b - c * d))
      by (intros a b c d Ha Hb Hc Hd; apply chk64_b; pose proof (prod_small a b Ha Hb); pose proof (prod_small c d Hc Hd); lia).
    cbn [fst snd]. repeat first [rewrite M by assumption | rewrite M2 by assumption | rewrite M3 by assumption | progress cbn [bind]].
    apply (ar_sum wrap _ _ _ R).
  Qed.

  (** ** Sums over the faces *)
  Definition faces_of (n : Z) : list Z := map Z.of_nat (seq 6 (Z.to_nat (2 * n - 6))).
  Lemma faces_of_in n f : 3 <= n -> In f (faces_of n) <-> 6 <= f < 2 * n.
  Proof.
    intro Hn. unfold faces_of. rewrite in_map_iff. split.
    - intros (k & <- & Hk). apply in_seq in Hk. lia.
    - intro Hf. exists (Z.to_nat f). split; [lia|]. apply in_seq. lia.
  Qed.
  Lemma faces_of_nodup n : NoDup (faces_of n).
  Proof. apply FinFun.Injective_map_NoDup; [intros a b E; lia|apply seq_NoDup]. Qed.

  Definition sum (f : Z -> Z) (l : list Z) : Z := fold_right (fun x a => f x + a) 0 l.
  Lemma sum_ext f g l : (forall x, In x l -> f x = g x) -> sum f l = sum g l.
  Proof. induction l as [|x l IH]; intro H; [reflexivity|]. cbn [sum fold_right]. rewrite (H x (or_introl eq_refl)). f_equal. apply IH. intros y Hy. apply H. now right. Qed.
  Lemma sum_one f g l i : NoDup l -> In i l -> (forall x, In x l -> x <> i -> f x = g x) -> sum f l = sum g l + (f i - g i).
  Proof.
    induction l as [|x l IH]; intros ND Hi H; [destruct Hi|]. inversion ND as [|? ? Hx ND']. subst. cbn [sum fold_right]. fold (sum f l) (sum g l).
    destruct Hi as [-> |Hi].
    - rewrite (sum_ext f g l); [lia|]. intros y Hy. apply H; [now right|]. intros ->. contradiction.
    - rewrite (H x (or_introl eq_refl)) by (intros ->; contradiction). rewrite (IH ND' Hi); [lia|]. intros y Hy. apply H. now right.
  Qed.
  Lemma sum_two f g l i j : NoDup l -> In i l -> In j l -> i <> j -> (forall x, In x l -> x <> i -> x <> j -> f x = g x) -> sum f l = sum g l + (f i - g i) + (f j - g j).
  Proof.
    intros ND Hi Hj D H. set (h := fun x => if x =? i then f i else g x).
    assert (E1 : sum h l = sum g l + (h i - g i)). { apply sum_one; [assumption..|]. intros x _ Hx. unfold h. apply Z.eqb_neq in Hx. now rewrite Hx. }
    assert (E2 : sum f l = sum h l + (f j - h j)).
    { apply sum_one; [assumption..|]. intros x Hx Dx. unfold h. destruct (Z.eqb_spec x i) as [-> |Di]; [reflexivity|]. apply H; assumption. }
    rewrite E2, E1. unfold h. rewrite Z.eqb_refl. apply not_eq_sym, Z.eqb_neq in D. rewrite D. lia.
  Qed.
  Lemma sum_nonneg f l : (forall x, In x l -> 0 <= f x) -> 0 <= sum f l.
  Proof. induction l as [|x l IH]; intro H; [reflexivity|]. cbn [sum fold_right]. apply Z.add_nonneg_nonneg; [apply H; now left|apply IH; intros y Hy; apply H; now right]. Qed.

  (** The volume under the lifted triangulation, and its area. *)
  Definition lift_at (s : mesh) (n : Z) : Z := lift (P s n) (P s (nxt n)) (P s (prv n)).
  Definition volume (s : mesh) : Z := sum (fun f => lift_at s (4 * f)) (faces_of (size s)).
  Definition area2 (s : mesh) : Z := sum (fun f => - turn s (4 * f)) (faces_of (size s)).

  Lemma lift_nxt s n : n mod 4 <> 3 -> lift_at s (nxt n) = lift_at s n.
  Proof. intro H. unfold lift_at. rewrite (nxt_nxt n H), (prv_nxt n H). unfold lift. rewrite orient_rot. ring. Qed.
  Lemma lift_prv s n : n mod 4 <> 3 -> lift_at s (prv n) = lift_at s n.
  Proof. intro H. rewrite <- (lift_nxt s (prv n)) by now apply prv_mod. now rewrite nxt_prv. Qed.
  Lemma lift_face s n m : n mod 4 <> 3 -> m mod 4 <> 3 -> n / 4 = m / 4 -> lift_at s m = lift_at s n.
  Proof. intros Hn Hm E. destruct (same_face n m Hn Hm E) as [-> |[-> | ->]]; [reflexivity|now apply lift_nxt|now apply lift_prv]. Qed.

  Lemma face4 f : 4 * f mod 4 = 0 /\ 4 * f / 4 = f.
  Proof. rewrite Z.mul_comm. split; [apply Z.mod_mul; lia|apply Z.div_mul; lia]. Qed.
  Lemma face_node s f : 6 <= f < 2 * size s -> node s (4 * f).
  Proof. intro H. split; [lia|]. rewrite (proj1 (face4 f)). lia. Qed.
  Lemma node_face s n : node s n -> 6 <= n / 4 < 2 * size s.
  Proof. intros [H _]. pose proof (Z.div_mod n 4 ltac:(lia)). pose proof (Z.mod_pos_bound n 4 ltac:(lia)). lia. Qed.

  Lemma flipped_lift s ae n : around s ae -> node s n ->
    lift_at (flipped s ae) n = if n / 4 =? ae / 4 then lift (P s ae) (P s (tw s ae)) (P s (prv ae))
      else if n / 4 =? tw s ae / 4 then lift (P s (tw s ae)) (P s ae) (P s (nxt ae)) else lift_at s n.
  Proof.
    intros R Hn. pose proof (around_ne s ae R) as N. destruct R as [A0 A1 A2 B0 B1 B2 Htt Hcc P1 P2 F U Vv]. cbv zeta in N.
    destruct N as (N1 & N2 & N3 & N4 & N5 & N6 & N7 & N8 & N9 & N10 & N11 & N12 & N13 & N14 & N15 & _).
    pose proof (node_mod s ae A0) as Ma. pose proof (node_mod s _ B0) as Mb. pose proof (node_mod s n Hn) as Mn.
    destruct (Z.eqb_spec (n / 4) (ae / 4)) as [E|E]; [|destruct (Z.eqb_spec (n / 4) (tw s ae / 4)) as [E'|E']].
    - rewrite (lift_face _ ae n Ma Mn (eq_sym E)). unfold lift_at, P. rewrite !flipped_pt. unfold V, flipped. cbn [vx vy].
      repeat match goal with |- context [?a =? ?a] => rewrite Z.eqb_refl | |- context [?a =? ?b] => rewrite (proj2 (Z.eqb_neq a b)) by neq end. reflexivity.
    - rewrite (lift_face _ _ n Mb Mn (eq_sym E')). unfold lift_at, P. rewrite !flipped_pt. unfold V, flipped. cbn [vx vy].
      repeat match goal with |- context [?a =? ?a] => rewrite Z.eqb_refl | |- context [?a =? ?b] => rewrite (proj2 (Z.eqb_neq a b)) by neq end. rewrite P2. reflexivity.
    - assert (X : forall m, m / 4 = n / 4 -> m <> nxt (tw s ae) /\ m <> nxt ae).
      { intros m Em. split; intro Y; rewrite Y, nxt_face in Em; congruence. }
      pose proof (X n eq_refl). pose proof (X (nxt n) (nxt_face n)). pose proof (X (prv n) (prv_face n Mn)).
      unfold lift_at, P. rewrite !flipped_pt. unfold V, flipped. cbn [vx vy].
      repeat match goal with |- context [?a =? ?b] => rewrite (proj2 (Z.eqb_neq a b)) by tauto end. reflexivity.
  Qed.

  Lemma lift_pos s n : good limit s -> node s n -> 0 <= lift_at s n.
  Proof.
    intros G H. pose proof (g_cw _ _ G n H) as C. unfold lift_at, lift. apply Z.mul_nonneg_nonneg; [lia|].
    assert (X : forall p, 0 <= nrm p) by (intro p; unfold nrm; pose proof (Z.square_nonneg (fst p)); pose proof (Z.square_nonneg (snd p)); lia).
    pose proof (X (P s n)). pose proof (X (P s (nxt n))). pose proof (X (P s (prv n))). lia.
  Qed.
  Lemma volume_nonneg s : good limit s -> 0 <= volume s.
  Proof.
    intro G. apply sum_nonneg. intros f Hf. apply faces_of_in in Hf; [|pose proof (g_size _ _ G); lia]. now apply lift_pos, face_node.
  Qed.

  Lemma sum_flipped (g : mesh -> Z -> Z) s ae x y : good limit s -> around s ae ->
    (forall t n m, n mod 4 <> 3 -> m mod 4 <> 3 -> n / 4 = m / 4 -> g t m = g t n) ->
    (forall n, node s n -> g (flipped s ae) n = if n / 4 =? ae / 4 then x else if n / 4 =? tw s ae / 4 then y else g s n) ->
    sum (fun f => g (flipped s ae) (4 * f)) (faces_of (size s)) = sum (fun f => g s (4 * f)) (faces_of (size s)) + (x - g s ae) + (y - g s (tw s ae)).
  Proof.
    intros G R Hf H. pose proof (g_size _ _ G) as Hs. pose proof (node_face s _ (ar_a _ _ R)) as Fa. pose proof (node_face s _ (ar_b _ _ R)) as Fb.
    assert (Q4 : forall n, node s n -> g s (4 * (n / 4)) = g s n).
    { intros n Hn. symmetry. apply Hf; [rewrite (proj1 (face4 _)); lia|exact (node_mod s n Hn)|apply (face4 (n / 4))]. }
    assert (E1 : forall f, 6 <= f < 2 * size s -> g (flipped s ae) (4 * f) = if f =? ae / 4 then x else if f =? tw s ae / 4 then y else g s (4 * f)).
    { intros f Hr. rewrite (H _ (face_node s f Hr)). rewrite (proj2 (face4 f)). reflexivity. }
    rewrite (sum_two (fun f => g (flipped s ae) (4 * f)) (fun f => g s (4 * f)) _ (ae / 4) (tw s ae / 4)).
    - rewrite !E1 by assumption. rewrite !Z.eqb_refl. pose proof (ar_f _ _ R) as D. apply not_eq_sym, Z.eqb_neq in D. rewrite D.
      rewrite (Q4 _ (ar_a _ _ R)), (Q4 _ (ar_b _ _ R)). reflexivity.
    - apply faces_of_nodup.
    - apply faces_of_in; [lia|assumption].
    - apply faces_of_in; [lia|assumption].
    - apply (ar_f _ _ R).
    - intros f Hr Da Db. apply faces_of_in in Hr; [|lia]. rewrite (E1 f Hr). apply Z.eqb_neq in Da, Db. now rewrite Da, Db.
  Qed.

  (** The face on the other side, in terms of the vertices of both. *)
  Lemma quad s ae : around s ae -> turn s (tw s ae) = orient (P s (tw s ae)) (P s (prv ae)) (P s (nxt ae)) /\ lift_at s (tw s ae) = lift (P s (tw s ae)) (P s (prv ae)) (P s (nxt ae)).
  Proof. intros R. unfold turn, lift_at, P. now rewrite (ar_p1 _ _ R), (ar_p2 _ _ R). Qed.

  Lemma flipped_volume s ae : good limit s -> around s ae -> volume (flipped s ae) = volume s + det_at s ae (P s (tw s ae)).
  Proof.
    intros G R. unfold volume. change (size (flipped s ae)) with (size s).
    rewrite (sum_flipped lift_at s ae _ _ G R lift_face (fun n Hn => flipped_lift s ae n R Hn)).
    rewrite (proj2 (quad s ae R)). unfold lift_at at 2, det_at. pose proof (lift_flip (P s ae) (P s (nxt ae)) (P s (prv ae)) (P s (tw s ae))). lia.
  Qed.
  Lemma flipped_area s ae : good limit s -> around s ae -> area2 (flipped s ae) = area2 s.
  Proof.
    intros G R. unfold area2. change (size (flipped s ae)) with (size s).
    rewrite (sum_flipped (fun t n => - turn t n) s ae (- orient (P s ae) (P s (tw s ae)) (P s (prv ae))) (- orient (P s (tw s ae)) (P s ae) (P s (nxt ae))) G R).
    - rewrite (proj1 (quad s ae R)). unfold turn at 2. pose proof (orient_sum (P s ae) (P s (nxt ae)) (P s (prv ae)) (P s (tw s ae))). lia.
    - intros t n m Hn Hm E. f_equal. now apply turn_face.
    - intros n Hn. rewrite (flipped_turn s ae n R Hn). destruct (n / 4 =? ae / 4); [reflexivity|]. destruct (n / 4 =? tw s ae / 4); reflexivity.
  Qed.

  (** ** Sequences of flips that move towards Delaunay *)
  Definition can_improve (s : mesh) (ae : Z) : Prop := node s ae /\ co s ae = 0 /\ det_at s ae (P s (tw s ae)) < 0.
  Inductive flips : mesh -> mesh -> Prop :=
  | fl_refl s : flips s s
  | fl_step s ae s' : can_improve s ae -> flips (flipped s ae) s' -> flips s s'.
  Lemma flips_trans s1 s2 s3 : flips s1 s2 -> flips s2 s3 -> flips s1 s3.
  Proof. induction 1; [auto|]. intro H1. eapply fl_step; [eassumption|auto]. Qed.

  Lemma good_improve s ae : good limit s -> can_improve s ae -> tw s ae <> 0 /\ around s ae /\ good limit (flipped s ae).
  Proof.
    intros G (Hn & Hc & Hd). pose proof (co_open limit s G ae Hn Hc) as Hz. pose proof (around_ok limit s ae G Hn Hz) as R. split; [assumption|]. split; [assumption|].
    pose proof (g_cw _ _ G ae Hn) as C1. pose proof (g_cw _ _ G _ (ar_b _ _ R)) as C2. change (turn s (tw s ae) < 0) in C2. rewrite (proj1 (quad s ae R)) in C2.
    destruct (incircle_convex _ _ _ _ C1 C2 Hd) as [O1 O2]. apply (good_flipped limit s ae G Hn Hz O1 O2).
  Qed.

  Lemma flips_good s s' : flips s s' -> good limit s -> good limit s' /\ volume s' <= volume s /\ area2 s' = area2 s /\ size s' = size s /\ fi s' = fi s /\ (forall v, V s' v = V s v).
  Proof.
    induction 1 as [s|s ae s' Hi H IH]; intro G; [split; [exact G|]; split; [lia|]; auto|].
    destruct (good_improve s ae G Hi) as (Hz & R & G'). destruct (IH G') as (I1 & I2 & I3 & I4 & I5 & I6).
    rewrite (flipped_volume s ae G R) in I2. rewrite (flipped_area s ae G R) in I3. destruct Hi as (_ & _ & Hd).
    split; [exact I1|]. split; [lia|]. split; [exact I3|]. split; [exact I4|]. split; [exact I5|exact I6].
  Qed.

  Definition nil_node (n : Z) : Prop := 0 <= n < 3.
  Lemma get_c_nil s n : good limit s -> nil_node n -> get_c limit s n = Ok 1.
  Proof.
    intros G H. unfold get_c. rewrite (edge_ok' limit n); [f_equal; now apply (g_nil _ _ G)|pose proof (g_size _ _ G); unfold nil_node in H; lia|].
    unfold nil_node in H. rewrite Z.mod_small by lia. lia.
  Qed.

  Lemma flip_ok fuel : forall s ae, good limit s -> node s ae \/ nil_node ae ->
    match flip limit wrap fuel s ae with
    | Ok (s', _) => flips s s'
    | UB => wrap = false
    | Timeout => Z.of_nat fuel <= volume s
    end.
  Proof.
    induction fuel as [|fuel IH]; intros s ae G Hn; [cbn [flip]; apply volume_nonneg, G|]. cbn [flip].
    destruct Hn as [Hn|Hn]; [|rewrite (get_c_nil s ae G Hn); cbn; constructor].
    rewrite (get_c_ok limit s ae G Hn). cbn [bind]. destruct (Z.eqb_spec (co s ae) 0) as [Ec|Ec]; cbn [negb]; [|constructor].
    pose proof (co_open limit s G ae Hn Ec) as Hz. pose proof (around_ok limit s ae G Hn Hz) as R.
    rewrite (get_e_ok limit s ae G Hn). cbn [bind]. rewrite (get_p_ok limit s _ G (ar_b _ _ R)). cbn [bind].
    destruct (incircle_ok s ae (pt s (tw s ae)) G Hn (g_pt _ _ G _ (ar_b _ _ R))) as [I1 [I2|I2]].
    2: { rewrite I2. cbn [bind]. destruct wrap; [|reflexivity]. rewrite I1 in I2 by reflexivity. discriminate. }
    rewrite I2. clear I1 I2. cbn [bind]. fold (P s (tw s ae)). destruct (Z.ltb_spec (det_at s ae (P s (tw s ae))) 0) as [Hd|Hd]; cbn [negb]; [|constructor].
    assert (Hi : can_improve s ae) by (repeat split; assumption || apply Hn). destruct (good_improve s ae G Hi) as (_ & _ & G1).
    rewrite (do_flip_ok limit s ae G Hn Hz). cbn [bind]. pose proof (flipped_volume s ae G R) as Vd.
    assert (Na : forall t, size t = size s -> node t ae /\ node t (nxt ae) /\ node t (tw s ae) /\ node t (nxt (tw s ae))).
    { intros t Et. unfold node. rewrite Et. split; [apply Hn|]. split; [apply (ar_a1 _ _ R)|]. split; [apply (ar_b _ _ R)|apply (ar_b1 _ _ R)]. }
    assert (Step : forall t n, good limit t -> flips (flipped s ae) t -> node t n -> match flip limit wrap fuel t n with Ok (s', _) => good limit s' /\ flips (flipped s ae) s' /\ size s' = size s | UB => wrap = false | Timeout => Z.of_nat (S fuel) <= volume s end).
    { intros t n Gt Ft Nt. specialize (IH t n Gt (or_introl Nt)). destruct (flip limit wrap fuel t n) as [[t' b]| |]; [|assumption|].
      - pose proof (flips_trans _ _ _ Ft IH) as F'. destruct (flips_good _ _ F' G1) as (G' & _ & _ & S' & _). split; [exact G'|]. split; [exact F'|exact S'].
      - destruct (flips_good _ _ Ft G1) as (_ & V' & _). lia. }
    pose proof (Step _ ae G1 (fl_refl _) (proj1 (Na _ eq_refl))) as X1. destruct (flip limit wrap fuel (flipped s ae) ae) as [[s1 b1]| |]; cbn [bind]; [|assumption|assumption]. destruct X1 as (Gs1 & Fs1 & Es1).
    pose proof (Step s1 (nxt ae) Gs1 Fs1 (proj1 (proj2 (Na s1 Es1)))) as X2. destruct (flip limit wrap fuel s1 (nxt ae)) as [[s2 b2]| |]; cbn [bind]; [|assumption|assumption]. destruct X2 as (Gs2 & Fs2 & Es2).
    pose proof (Step s2 (tw s ae) Gs2 Fs2 (proj1 (proj2 (proj2 (Na s2 Es2))))) as X3. destruct (flip limit wrap fuel s2 (tw s ae)) as [[s3 b3]| |]; cbn [bind]; [|assumption|assumption]. destruct X3 as (Gs3 & Fs3 & Es3).
    pose proof (Step s3 (nxt (tw s ae)) Gs3 Fs3 (proj2 (proj2 (proj2 (Na s3 Es3))))) as X4. destruct (flip limit wrap fuel s3 (nxt (tw s ae))) as [[s4 b4]| |]; cbn [bind]; [|assumption|assumption]. destruct X4 as (Gs4 & Fs4 & Es4).
    apply (fl_step s ae s4 Hi Fs4).
  Qed.
End Circle.
