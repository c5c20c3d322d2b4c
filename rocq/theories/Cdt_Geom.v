(** Plane geometry over the integers for the triangulation: in-circle determinants. *)
From Coq Require Import ZArith Lia List.
From Verif Require Import Vec_Spec.
Local Open Scope Z_scope.

(** The in-circle determinant of a, b, c seen from v. *)
Definition det6 (ax ay bx by_ cx cy : Z) : Z :=
  (ax * ax + ay * ay) * (bx * cy - by_ * cx) + (bx * bx + by_ * by_) * (cx * ay - cy * ax) + (cx * cx + cy * cy) * (ax * by_ - ay * bx).
Definition incircle_det (a b c v : point) : Z :=
  det6 (fst a - fst v) (snd a - snd v) (fst b - fst v) (snd b - snd v) (fst c - fst v) (snd c - snd v).

Lemma det_rot a b c v : incircle_det b c a v = incircle_det a b c v.
Proof. unfold incircle_det, det6. ring. Qed.
Lemma det_swap a b c d : incircle_det a d c b = - incircle_det a b c d.
Proof. unfold incircle_det, det6. ring. Qed.
Lemma det_rev a b c d : incircle_det d c b a = incircle_det a b c d.
Proof. unfold incircle_det, det6. ring. Qed.
Lemma orient_rot a b c : orient b c a = orient a b c.
Proof. unfold orient. ring. Qed.
Lemma orient_swap a b c : orient a c b = - orient a b c.
Proof. unfold orient. ring. Qed.
Lemma orient_sum a b c d : orient a d c + orient d a b = orient a b c + orient d c b.
Proof. unfold orient. ring. Qed.
Lemma orient_split a b c p : orient p b c + orient a p c + orient a b p = orient a b c.
Proof. unfold orient. ring. Qed.

(** The volume under the lifted triangle (times 6). *)
Definition nrm (a : point) : Z := fst a * fst a + snd a * snd a.
Definition lift (a b c : point) : Z := - orient a b c * (nrm a + nrm b + nrm c).
Lemma lift_flip a b c d : lift a d c + lift d a b = lift a b c + lift d c b + incircle_det a b c d.
Proof. unfold lift, nrm, orient, incircle_det, det6. ring. Qed.

Lemma convex6 ax ay bx by_ cx cy :
  0 < bx * cy - by_ * cx -> (bx * cy - by_ * cx) + (cx * ay - cy * ax) + (ax * by_ - ay * bx) < 0 ->
  det6 ax ay bx by_ cx cy < 0 -> ax * by_ - ay * bx < 0.
Proof.
  unfold det6. intros Ha Hs Hd.
  destruct (Z_lt_ge_dec (ax * by_ - ay * bx) 0) as [|Hg]; [assumption|exfalso].
  set (al := bx * cy - by_ * cx) in *. set (be := cx * ay - cy * ax) in *. set (ga := ax * by_ - ay * bx) in *.
  assert (Ix : al * ax + be * bx + ga * cx = 0) by (unfold al, be, ga; ring).
  assert (Iy : al * ay + be * by_ + ga * cy = 0) by (unfold al, be, ga; ring).
  clearbody al be ga.
  set (aa := ax * ax + ay * ay) in *. set (bb := bx * bx + by_ * by_) in *. set (cc := cx * cx + cy * cy) in *.
  assert (E : bb * (be * be) = (al + ga) * (al * aa + ga * cc) - al * ga * ((ax - cx) * (ax - cx) + (ay - cy) * (ay - cy))).
  { assert (Hx : be * bx = - (al * ax + ga * cx)) by lia. assert (Hy : be * by_ = - (al * ay + ga * cy)) by lia.
    replace (bb * (be * be)) with ((be * bx) * (be * bx) + (be * by_) * (be * by_)) by (unfold bb; ring).
    rewrite Hx, Hy. unfold aa, cc. ring. }
  assert (P1 : 0 <= al * ga * ((ax - cx) * (ax - cx) + (ay - cy) * (ay - cy))).
  { apply Z.mul_nonneg_nonneg; [apply Z.mul_nonneg_nonneg; lia|]. pose proof (Z.square_nonneg (ax - cx)). pose proof (Z.square_nonneg (ay - cy)). lia. }
  assert (P2 : 0 <= al * aa + ga * cc).
  { assert (0 <= aa) by (unfold aa; pose proof (Z.square_nonneg ax); pose proof (Z.square_nonneg ay); lia).
    assert (0 <= cc) by (unfold cc; pose proof (Z.square_nonneg cx); pose proof (Z.square_nonneg cy); lia).
    apply Z.add_nonneg_nonneg; apply Z.mul_nonneg_nonneg; lia. }
  assert (P3 : (al + ga) * (al * aa + ga * cc) <= (- be) * (al * aa + ga * cc)) by (apply Z.mul_le_mono_nonneg_r; lia).
  assert (P4 : 0 <= (- be) * (al * aa + bb * be + ga * cc)) by (clear - E P1 P3; nia).
  clear - P4 Hd Hs Ha Hg. nia.
Qed.

Lemma convex6' ax ay bx by_ cx cy :
  0 < bx * cy - by_ * cx -> (bx * cy - by_ * cx) + (cx * ay - cy * ax) + (ax * by_ - ay * bx) < 0 ->
  det6 ax ay bx by_ cx cy < 0 -> cx * ay - cy * ax < 0.
Proof.
  intros Ha Hs Hd.
  assert (- ax * cy - ay * (- cx) < 0); [|lia].
  apply (convex6 (- ax) ay (- cx) cy (- bx) by_); [lia|lia|]. unfold det6 in *. lia.
Qed.

(** A vertex strictly inside the circle of the face across the edge b c: the quadrilateral is strictly convex. *)
Lemma incircle_convex a b c d : orient a b c < 0 -> orient d c b < 0 -> incircle_det a b c d < 0 ->
  orient a d c < 0 /\ orient d a b < 0.
Proof.
  intros H1 H2 H3. unfold incircle_det in H3.
  set (ax := fst a - fst d) in *. set (ay := snd a - snd d) in *. set (bx := fst b - fst d) in *. set (by_ := snd b - snd d) in *.
  set (cx := fst c - fst d) in *. set (cy := snd c - snd d) in *.
  assert (A : 0 < bx * cy - by_ * cx) by (unfold orient in H2; unfold bx, by_, cx, cy; lia).
  assert (S : (bx * cy - by_ * cx) + (cx * ay - cy * ax) + (ax * by_ - ay * bx) < 0) by (unfold orient in H1; unfold ax, ay, bx, by_, cx, cy; lia).
  pose proof (convex6 _ _ _ _ _ _ A S H3) as G. pose proof (convex6' _ _ _ _ _ _ A S H3) as B.
  unfold orient. split; [unfold ax, ay, cx, cy in B|unfold ax, ay, bx, by_ in G]; lia.
Qed.

(** ** The determinant of points of the square fits in 64 bits. *)
(** f * c is bounded by its positive part. *)
Lemma one f c M : 0 <= f -> 2 * f <= M -> c <= M -> 0 <= M -> 2 * (f * c) <= M * M.
Proof. intros. destruct (Z_le_gt_dec c 0); nia. Qed.
Lemma three f g h c d e M : 0 <= f -> 0 <= g -> 0 <= h -> 2 * f <= M -> 2 * g <= M -> 2 * h <= M -> 0 <= c -> 0 <= d -> 0 <= e -> c + d + e <= M ->
  2 * (f * c + g * d + h * e) <= M * M.
Proof. intros. assert (2 * f * c <= M * c) by nia. assert (2 * g * d <= M * d) by nia. assert (2 * h * e <= M * e) by nia. nia. Qed.

Section Bound.
  Context (S : Z) (HS : 0 < S).
  Definition F (p : point) : Z := fst p * (S - fst p) + snd p * (S - snd p).
  Definition box (p : point) : Prop := 0 <= fst p <= S /\ 0 <= snd p <= S.

  Lemma F_range p : box p -> 0 <= F p /\ 2 * F p <= S * S.
  Proof.
    unfold box, F. intros [Hx Hy]. set (x := fst p) in *. set (y := snd p) in *. clearbody x y. split; [nia|].
    assert (4 * (x * (S - x)) <= S * S) by (pose proof (Z.square_nonneg (S - 2 * x)); nia).
    assert (4 * (y * (S - y)) <= S * S) by (pose proof (Z.square_nonneg (S - 2 * y)); nia). lia.
  Qed.

  Lemma F_diag p : 2 * F p <= S * S - (fst p + snd p - S) * (fst p + snd p - S).
  Proof. unfold F. pose proof (Z.square_nonneg (fst p - snd p)). nia. Qed.
  Lemma F_anti p : 2 * F p <= S * S - (fst p - snd p) * (fst p - snd p).
  Proof. unfold F. pose proof (Z.square_nonneg (fst p + snd p - S)). nia. Qed.

  (** An affine function on [0, S] is at most its larger end. *)
  Lemma affine (u v t M : Z) : 0 <= t <= S -> u <= M -> u + v * S <= M -> u + v * t <= M.
  Proof. intros Ht H0 H1. destruct (Z_le_gt_dec v 0); nia. Qed.

  (** |p| F(b) + |q| F(a) <= S^3 / 2 when 2 F(a) <= S^2 - p^2 and 2 F(b) <= S^2 - q^2. *)
  Lemma diag_core Fa Fv P R : 0 <= P <= S -> 0 <= R <= S -> 2 * Fa <= S * S - P * P -> 2 * Fv <= S * S - R * R ->
    2 * (Fv * P + Fa * R) <= S * S * S.
  Proof.
    intros HP HR Ba Bv.
    assert (A : 2 * (Fv * P + Fa * R) <= (S * S - R * R) * P + (S * S - P * P) * R) by nia.
    assert (B : (S * S - R * R) * P + (S * S - P * P) * R = (P + R) * (S * S - P * R)) by ring.
    assert (C : S * (P + R) <= S * S + P * R) by nia.
    assert (D : 0 <= S * S - P * R) by nia.
    assert (E : S * (P + R) * (S * S - P * R) <= (S * S + P * R) * (S * S - P * R)) by (apply Z.mul_le_mono_nonneg_r; assumption).
    assert (H : (S * S + P * R) * (S * S - P * R) <= S * S * (S * S)) by nia.
    assert (I : S * ((P + R) * (S * S - P * R)) <= S * (S * S * S)) by lia.
    assert ((P + R) * (S * S - P * R) <= S * S * S) by (clear - I HS; nia). lia.
  Qed.

  Lemma diag_bound Fa Fv p q_ : 0 <= Fa -> 0 <= Fv -> - S <= p <= S -> - S <= q_ <= S -> 2 * Fa <= S * S - p * p -> 2 * Fv <= S * S - q_ * q_ ->
    2 * (Fv * p + Fa * q_) <= S * S * S.
  Proof.
    intros Ha Hv Hp Hq Ba Bv.
    assert (EP : p * p = Z.abs p * Z.abs p) by lia. assert (ER : q_ * q_ = Z.abs q_ * Z.abs q_) by lia.
    rewrite EP in Ba. rewrite ER in Bv.
    pose proof (diag_core Fa Fv (Z.abs p) (Z.abs q_) ltac:(lia) ltac:(lia) Ba Bv) as H.
    assert (L1 : Fv * p <= Fv * Z.abs p) by (apply Z.mul_le_mono_nonneg_l; lia).
    assert (L2 : Fa * q_ <= Fa * Z.abs q_) by (apply Z.mul_le_mono_nonneg_l; lia). lia.
  Qed.

  (** The part of the determinant of the two end points of a diagonal: affine in each coordinate of b and c, so extreme at the corners. *)
  Definition G (a v b c : point) : Z := F v * orient a b c + F a * orient v c b.

  Lemma G_corner a v bx by_ cx cy : box a -> box v -> (bx = 0 \/ bx = S) -> (by_ = 0 \/ by_ = S) -> (cx = 0 \/ cx = S) -> (cy = 0 \/ cy = S) ->
    2 * G a v (bx, by_) (cx, cy) <= S * S * (S * S).
  Proof.
    intros Ba Bv Hbx Hby Hcx Hcy.
    pose proof (F_range a Ba) as [A0 A1]. pose proof (F_range v Bv) as [V0 V1].
    pose proof (F_diag a) as A2. pose proof (F_anti a) as A3. pose proof (F_diag v) as V2. pose proof (F_anti v) as V3.
    unfold G, orient. destruct a as [x y], v as [z w]. unfold box in *. cbn [fst snd] in *.
    remember (F (x, y)) as Fa eqn:HFa. remember (F (z, w)) as Fv eqn:HFv. clear HFa HFv.
    assert (D1 := diag_bound Fa Fv (x + y - S) (S - z - w) A0 V0 ltac:(lia) ltac:(lia) ltac:(lia) ltac:(lia)).
    assert (D2 := diag_bound Fa Fv (S - x - y) (z + w - S) A0 V0 ltac:(lia) ltac:(lia) ltac:(lia) ltac:(lia)).
    assert (D3 := diag_bound Fa Fv (x - y) (w - z) A0 V0 ltac:(lia) ltac:(lia) ltac:(lia) ltac:(lia)).
    assert (D4 := diag_bound Fa Fv (y - x) (z - w) A0 V0 ltac:(lia) ltac:(lia) ltac:(lia) ltac:(lia)).
    assert (E : forall Fp Fq t r, 0 <= Fp -> 0 <= Fq -> 2 * Fp <= S * S -> 0 <= t <= S -> 0 <= r -> 2 * (Fp * t - Fq * r) <= S * S * S) by (clear; intros; nia).
    assert (E1 := E Fv Fa y w V0 A0 V1 ltac:(lia) ltac:(lia)). assert (E2 := E Fa Fv w y A0 V0 A1 ltac:(lia) ltac:(lia)).
    assert (E3 := E Fv Fa x z V0 A0 V1 ltac:(lia) ltac:(lia)). assert (E4 := E Fa Fv z x A0 V0 A1 ltac:(lia) ltac:(lia)).
    assert (E5 := E Fv Fa (S - y) (S - w) V0 A0 V1 ltac:(lia) ltac:(lia)). assert (E6 := E Fa Fv (S - w) (S - y) A0 V0 A1 ltac:(lia) ltac:(lia)).
    assert (E7 := E Fv Fa (S - x) (S - z) V0 A0 V1 ltac:(lia) ltac:(lia)). assert (E8 := E Fa Fv (S - z) (S - x) A0 V0 A1 ltac:(lia) ltac:(lia)).
    clear E A0 A1 V0 V1 A2 A3 V2 V3 Ba Bv.
    assert (M : forall X, 2 * X <= S * S * S -> 2 * (S * X) <= S * S * (S * S)) by (clear - HS; intros; nia).
    apply M in D1, D2, D3, D4, E1, E2, E3, E4, E5, E6, E7, E8. clear M.
    assert (Z0 : 0 <= S * S * (S * S)) by (clear - HS; nia). clear HS.
    destruct Hbx as [-> | ->], Hby as [-> | ->], Hcx as [-> | ->], Hcy as [-> | ->]; lia.
  Qed.

  Lemma G_bound a v b c : box a -> box v -> box b -> box c -> 2 * G a v b c <= S * S * (S * S).
  Proof.
    intros Ba Bv Bb Bc. destruct b as [bx by_], c as [cx cy]. unfold box in Bb, Bc. cbn [fst snd] in Bb, Bc.
    assert (K : forall (f : Z -> Z), (exists u v, forall t, f t = u + v * t) -> forall t, 0 <= t <= S -> f 0 <= S * S * (S * S) -> f S <= S * S * (S * S) -> f t <= S * S * (S * S)).
    { intros f (u & w & E) t Ht H0 H1. rewrite E in *. apply affine; [exact Ht|lia|lia]. }
    assert (S1 : forall bx by_ cx, (bx = 0 \/ bx = S) -> (by_ = 0 \/ by_ = S) -> (cx = 0 \/ cx = S) -> 2 * G a v (bx, by_) (cx, cy) <= S * S * (S * S)).
    { intros bx' by' cx' H1 H2 H3. apply (K (fun t => 2 * G a v (bx', by') (cx', t))); [|lia|apply G_corner; auto|apply G_corner; auto].
      exists (2 * G a v (bx', by') (cx', 0)), (2 * (F v * (bx' - fst a) - F a * (bx' - fst v))).
      intro t. unfold G, orient. cbn [fst snd]. ring. }
    assert (S2 : forall bx by_, (bx = 0 \/ bx = S) -> (by_ = 0 \/ by_ = S) -> 2 * G a v (bx, by_) (cx, cy) <= S * S * (S * S)).
    { intros bx' by' H1 H2. apply (K (fun t => 2 * G a v (bx', by') (t, cy))); [|lia|apply S1; auto|apply S1; auto].
      exists (2 * G a v (bx', by') (0, cy)), (2 * (F a * (by' - snd v) - F v * (by' - snd a))).
      intro t. unfold G, orient. cbn [fst snd]. ring. }
    assert (S3 : forall bx, (bx = 0 \/ bx = S) -> 2 * G a v (bx, by_) (cx, cy) <= S * S * (S * S)).
    { intros bx' H1. apply (K (fun t => 2 * G a v (bx', t) (cx, cy))); [|lia|apply S2; auto|apply S2; auto].
      exists (2 * G a v (bx', 0) (cx, cy)), (2 * (F a * (cx - fst v) - F v * (cx - fst a))).
      intro t. unfold G, orient. cbn [fst snd]. ring. }
    apply (K (fun t => 2 * G a v (t, by_) (cx, cy))); [|lia|apply S3; auto|apply S3; auto].
    exists (2 * G a v (0, by_) (cx, cy)), (2 * (F v * (cy - snd a) - F a * (cy - snd v))).
    intro t. unfold G, orient. cbn [fst snd]. ring.
  Qed.

  Lemma orient_box a b c : box a -> box b -> box c -> orient a b c <= S * S.
  Proof.
    intros Ba Bb Bc. destruct a as [x y], b as [bx by_], c as [cx cy]. unfold box in *. cbn [fst snd] in *.
    assert (K : forall (f : Z -> Z), (exists u v, forall t, f t = u + v * t) -> forall t, 0 <= t <= S -> f 0 <= S * S -> f S <= S * S -> f t <= S * S).
    { intros f (u & w & E) t Ht H0 H1. rewrite E in *. apply affine; [exact Ht|lia|lia]. }
    assert (S0 : forall bx by_ cx cy, (bx = 0 \/ bx = S) -> (by_ = 0 \/ by_ = S) -> (cx = 0 \/ cx = S) -> (cy = 0 \/ cy = S) -> orient (x, y) (bx, by_) (cx, cy) <= S * S).
    { clear - HS Ba. intros bx by_ cx cy H1 H2 H3 H4. unfold orient. cbn [fst snd].
      destruct H1 as [-> | ->], H2 as [-> | ->], H3 as [-> | ->], H4 as [-> | ->]; nia. }
    assert (S1 : forall bx by_ cx, (bx = 0 \/ bx = S) -> (by_ = 0 \/ by_ = S) -> (cx = 0 \/ cx = S) -> orient (x, y) (bx, by_) (cx, cy) <= S * S).
    { intros bx' by' cx' H1 H2 H3. apply (K (fun t => orient (x, y) (bx', by') (cx', t))); [|lia|apply S0; auto|apply S0; auto].
      exists (orient (x, y) (bx', by') (cx', 0)), (bx' - x). intro t. unfold orient. cbn [fst snd]. ring. }
    assert (S2 : forall bx by_, (bx = 0 \/ bx = S) -> (by_ = 0 \/ by_ = S) -> orient (x, y) (bx, by_) (cx, cy) <= S * S).
    { intros bx' by' H1 H2. apply (K (fun t => orient (x, y) (bx', by') (t, cy))); [|lia|apply S1; auto|apply S1; auto].
      exists (orient (x, y) (bx', by') (0, cy)), (y - by'). intro t. unfold orient. cbn [fst snd]. ring. }
    assert (S3 : forall bx, (bx = 0 \/ bx = S) -> orient (x, y) (bx, by_) (cx, cy) <= S * S).
    { intros bx' H1. apply (K (fun t => orient (x, y) (bx', t) (cx, cy))); [|lia|apply S2; auto|apply S2; auto].
      exists (orient (x, y) (bx', 0) (cx, cy)), (x - cx). intro t. unfold orient. cbn [fst snd]. ring. }
    apply (K (fun t => orient (x, y) (t, by_) (cx, cy))); [|lia|apply S3; auto|apply S3; auto].
    exists (orient (x, y) (0, by_) (cx, cy)), (cy - y). intro t. unfold orient. cbn [fst snd]. ring.
  Qed.

  Lemma det_F a b c v : incircle_det a b c v = F v * orient a b c + F a * orient v c b + F b * orient v a c + F c * orient v b a.
  Proof. unfold incircle_det, det6, F, orient. ring. Qed.

  Lemma det_upper a b c v : box a -> box b -> box c -> box v -> 2 * incircle_det a b c v <= S * S * (S * S).
  Proof.
    intros Ba Bb Bc Bv. rewrite det_F.
    pose proof (F_range a Ba) as [A0 A1]. pose proof (F_range b Bb) as [B0 B1]. pose proof (F_range c Bc) as [C0 C1]. pose proof (F_range v Bv) as [V0 V1].
    assert (T1 := orient_box a b c Ba Bb Bc). assert (T2 := orient_box a c b Ba Bc Bb).
    assert (P1 := orient_box v c b Bv Bc Bb). assert (P2 := orient_box v b c Bv Bb Bc).
    assert (Q1 := orient_box v a c Bv Ba Bc). assert (Q2 := orient_box v c a Bv Bc Ba).
    assert (R1 := orient_box v b a Bv Bb Ba). assert (R2 := orient_box v a b Bv Ba Bb).
    assert (G1 := G_bound a v b c Ba Bv Bb Bc). assert (G2 := G_bound b v c a Bb Bv Bc Ba). assert (G3 := G_bound c v a b Bc Bv Ba Bb).
    assert (G4 := G_bound b a v c Bb Ba Bv Bc). assert (G5 := G_bound c b v a Bc Bb Bv Ba). assert (G6 := G_bound a c v b Ba Bc Bv Bb).
    unfold G in *.
    replace (orient b c a) with (orient a b c) in * by (unfold orient; ring). replace (orient c a b) with (orient a b c) in * by (unfold orient; ring).
    replace (orient b v c) with (orient v c b) in * by (unfold orient; ring). replace (orient a c v) with (orient v a c) in * by (unfold orient; ring).
    replace (orient c v a) with (orient v a c) in * by (unfold orient; ring). replace (orient b a v) with (orient v b a) in * by (unfold orient; ring).
    replace (orient a v b) with (orient v b a) in * by (unfold orient; ring). replace (orient c b v) with (orient v c b) in * by (unfold orient; ring).
    replace (orient a c b) with (- orient a b c) in * by (unfold orient; ring). replace (orient v b c) with (- orient v c b) in * by (unfold orient; ring).
    replace (orient v c a) with (- orient v a c) in * by (unfold orient; ring). replace (orient v a b) with (- orient v b a) in * by (unfold orient; ring).
    assert (Sum : orient a b c + orient v c b + orient v a c + orient v b a = 0) by (unfold orient; ring).
    generalize dependent (orient a b c). intro t. generalize dependent (orient v c b). intro p. generalize dependent (orient v a c). intro q_. generalize dependent (orient v b a). intro r.
    generalize dependent (F a). intro fa. generalize dependent (F b). intro fb. generalize dependent (F c). intro fc. generalize dependent (F v). intro fv.
    clear Ba Bb Bc Bv. intros.
    assert (M0 : 0 <= S * S) by nia. revert M0. generalize dependent (S * S). clear HS. intros M.
    intros.
    assert (N : forall f x, 0 <= f -> x <= 0 -> f * x <= 0) by (clear; intros; nia).
    assert (Nv := N fv t V0). assert (Na := N fa p A0). assert (Nb := N fb q_ B0). assert (Nc := N fc r C0). clear N.
    assert (MM : 0 <= M * M) by nia.
    pose proof (one fv t M V0 V1 T1 M0). pose proof (one fa p M A0 A1 P1 M0). pose proof (one fb q_ M B0 B1 Q1 M0). pose proof (one fc r M C0 C1 R1 M0).
    destruct (Z_le_gt_dec t 0) as [Ht|Ht], (Z_le_gt_dec p 0) as [Hp|Hp], (Z_le_gt_dec q_ 0) as [Hq|Hq], (Z_le_gt_dec r 0) as [Hr|Hr];
      repeat match goal with H : ?X <= 0 -> _, H' : ?X <= 0 |- _ => specialize (H H') | H : ?X <= 0 -> _, H' : ?X > 0 |- _ => clear H end; try lia.
    - pose proof (three fa fb fc p q_ r M). lia.
    - pose proof (three fv fb fc t q_ r M). lia.
    - pose proof (three fv fa fc t p r M). lia.
    - pose proof (three fv fa fb t p q_ M). lia.
  Qed.

  Lemma det_bound a b c v : box a -> box b -> box c -> box v -> - (S * S * (S * S)) <= 2 * incircle_det a b c v <= S * S * (S * S).
  Proof.
    intros Ba Bb Bc Bv. split; [|apply det_upper; assumption].
    pose proof (det_upper a c b v Ba Bc Bb Bv). replace (incircle_det a c b v) with (- incircle_det a b c v) in * by (unfold incircle_det, det6; ring). lia.
  Qed.
End Bound.
