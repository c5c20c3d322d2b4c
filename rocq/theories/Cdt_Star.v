(** Circles through the points of the plane, and the star of a new vertex: the plane geometry behind the restoration of
    the Delaunay property by edge flips. Nothing here mentions the program. *)
From Verif Require Import Base Vec_Model Math_Model Vec_Spec Cdt_Geom.
Local Open Scope Z_scope.

(** ** Circles as quadratic functions  l |w|^2 + u x + v y + k, negative inside when l > 0. *)
Record circ := { cl : Z; cu : Z; cv : Z; ck : Z }.
Definition val (Q : circ) (w : point) : Z := cl Q * nrm w + cu Q * fst w + cv Q * snd w + ck Q.

Definition of_tri (a b c : point) : circ :=
  let o := (0, 0) in
  let k := incircle_det a b c o in
  {| cl := - orient a b c; ck := k;
     cu := incircle_det a b c (1, 0) - k + orient a b c;
     cv := incircle_det a b c (0, 1) - k + orient a b c |}.
Lemma of_tri_val a b c w : val (of_tri a b c) w = incircle_det a b c w.
Proof. unfold val, of_tri, nrm, incircle_det, det6, orient. cbn [cl cu cv ck fst snd]. ring. Qed.
Lemma det_own1 a b c : incircle_det a b c a = 0.
Proof. unfold incircle_det, det6. ring. Qed.
Lemma det_own2 a b c : incircle_det a b c b = 0.
Proof. unfold incircle_det, det6. ring. Qed.
Lemma det_own3 a b c : incircle_det a b c c = 0.
Proof. unfold incircle_det, det6. ring. Qed.

(** Two circles through a and b differ, after scaling, by a multiple of the line a b. *)
Lemma pencil Q1 Q2 a b w1 w2 : val Q1 a = 0 -> val Q1 b = 0 -> val Q2 a = 0 -> val Q2 b = 0 ->
  (cl Q1 * val Q2 w1 - cl Q2 * val Q1 w1) * orient a b w2 = (cl Q1 * val Q2 w2 - cl Q2 * val Q1 w2) * orient a b w1.
Proof.
  intros A1 B1 A2 B2. pose (U := cl Q1 * cu Q2 - cl Q2 * cu Q1). pose (W := cl Q1 * cv Q2 - cl Q2 * cv Q1).
  assert (E : forall w, cl Q1 * val Q2 w - cl Q2 * val Q1 w = U * (fst w - fst a) + W * (snd w - snd a)).
  { intro w. assert (X : cl Q1 * val Q2 a - cl Q2 * val Q1 a = 0) by (rewrite A1, A2; ring).
    replace (cl Q1 * val Q2 w - cl Q2 * val Q1 w) with (cl Q1 * val Q2 w - cl Q2 * val Q1 w - (cl Q1 * val Q2 a - cl Q2 * val Q1 a)) by (rewrite X; ring).
    unfold val, U, W. ring. }
  pose proof (E b) as Eb. rewrite B1, B2 in Eb. rewrite !E. clearbody U W. unfold orient.
  destruct a as [ax ay], b as [bx by_], w1 as [x1 y1], w2 as [x2 y2]. cbn [fst snd] in *.
  assert (K : U * (bx - ax) + W * (by_ - ay) = 0) by lia. clear - K.
  transitivity ((U * (bx - ax) + W * (by_ - ay)) * ((x1 - ax) * (y2 - ay) - (x2 - ax) * (y1 - ay)) + (U * (x2 - ax) + W * (y2 - ay)) * ((bx - ax) * (y1 - ay) - (by_ - ay) * (x1 - ax))); [ring|].
  rewrite K. ring.
Qed.

Lemma sgn_pp x y : 0 <= x * y -> 0 < y -> 0 <= x.
Proof. nia. Qed.
Lemma sgn_pos x y : 0 < x * y -> 0 < y -> 0 < x.
Proof. nia. Qed.

(** On the same side of the line the sign of the difference is the same. *)
Lemma pencil_same Q1 Q2 a b w1 w2 : val Q1 a = 0 -> val Q1 b = 0 -> val Q2 a = 0 -> val Q2 b = 0 -> orient a b w1 < 0 -> orient a b w2 < 0 ->
  0 < cl Q1 * val Q2 w1 - cl Q2 * val Q1 w1 -> 0 < cl Q1 * val Q2 w2 - cl Q2 * val Q1 w2.
Proof. intros A1 B1 A2 B2 O1 O2 H. pose proof (pencil Q1 Q2 a b w1 w2 A1 B1 A2 B2) as E. nia. Qed.
Lemma pencil_opp Q1 Q2 a b w1 w2 : val Q1 a = 0 -> val Q1 b = 0 -> val Q2 a = 0 -> val Q2 b = 0 -> 0 < orient a b w1 -> orient a b w2 < 0 ->
  cl Q1 * val Q2 w1 - cl Q2 * val Q1 w1 <= 0 -> 0 <= cl Q1 * val Q2 w2 - cl Q2 * val Q1 w2.
Proof. intros A1 B1 A2 B2 O1 O2 H. pose proof (pencil Q1 Q2 a b w1 w2 A1 B1 A2 B2) as E. nia. Qed.

(** The circle of p a b does not contain c when a circle through a and b does contain p but not c. *)
Lemma spoke_empty Q p a b c : 0 < cl Q -> val Q a = 0 -> val Q b = 0 -> val Q p < 0 -> orient p a b < 0 -> orient c a b < 0 -> 0 <= val Q c -> 0 < incircle_det p a b c.
Proof.
  intros L A B Hp O1 O2 Hc.
  pose proof (pencil_same Q (of_tri p a b) a b p c A B) as X. rewrite !of_tri_val, det_own1, det_own2, det_own3 in X.
  specialize (X eq_refl eq_refl). rewrite !(orient_rot _ a b) in X. specialize (X O1 O2). cbn [of_tri cl] in X.
  assert (0 < cl Q * 0 - - orient p a b * val Q p) by nia. specialize (X H). assert (0 <= - orient p a b * val Q c) by nia.
  assert (0 < cl Q * incircle_det p a b c) by lia. nia.
Qed.

(** A point of the plane inside a triangle is inside its circle. *)
Definition sqd (a b : point) : Z := (fst a - fst b) * (fst a - fst b) + (snd a - snd b) * (snd a - snd b).
Lemma inside_power a b c p :
  orient a b c * incircle_det a b c p = orient p b c * orient p c a * sqd a b + orient p c a * orient p a b * sqd b c + orient p a b * orient p b c * sqd c a.
Proof. unfold sqd, incircle_det, det6, orient. ring. Qed.
Lemma sqd_pos a b : a <> b -> 0 < sqd a b.
Proof.
  intro H. unfold sqd. destruct a as [ax ay], b as [bx by_]. cbn [fst snd].
  assert (S : forall t, 0 <= t * t /\ (t <> 0 -> 0 < t * t)) by (intro t; nia).
  pose proof (S (ax - bx)) as [S1 S2]. pose proof (S (ay - by_)) as [S3 S4]. destruct (Z.eq_dec ax bx) as [-> |Ex]; [destruct (Z.eq_dec ay by_) as [-> |Ey]; [congruence|]|]; lia.
Qed.
Lemma orient_ne a b c : orient a b c <> 0 -> a <> b /\ b <> c /\ a <> c.
Proof. intro H. repeat split; intros ->; apply H; unfold orient; ring. Qed.
Lemma inside_face a b c p : orient a b c < 0 -> orient p b c <= 0 -> orient p c a < 0 -> orient p a b <= 0 -> (orient p b c < 0 \/ orient p a b < 0) -> incircle_det a b c p < 0.
Proof.
  intros O H1 H2 H3 H4. pose proof (inside_power a b c p) as E. destruct (orient_ne a b c ltac:(lia)) as (N1 & N2 & N3).
  pose proof (sqd_pos a b N1) as S1. pose proof (sqd_pos b c N2) as S2. pose proof (sqd_pos c a (not_eq_sym N3)) as S3.
  assert (0 <= orient p b c * orient p c a) by nia. assert (0 <= orient p c a * orient p a b) by nia. assert (0 <= orient p a b * orient p b c) by nia.
  assert (0 < orient p b c * orient p c a * sqd a b + orient p c a * orient p a b * sqd b c + orient p a b * orient p b c * sqd c a).
  { assert (0 <= orient p a b * orient p b c * sqd c a) by nia. destruct H4 as [H4|H4].
    - assert (0 < orient p b c * orient p c a) by nia. assert (0 < orient p b c * orient p c a * sqd a b) by nia. assert (0 <= orient p c a * orient p a b * sqd b c) by nia. lia.
    - assert (0 < orient p c a * orient p a b) by nia. assert (0 < orient p c a * orient p a b * sqd b c) by nia. assert (0 <= orient p b c * orient p c a * sqd a b) by nia. lia. }
  nia.
Qed.

(** ** The spokes after a flip *)

(** Four directions around b, in the order d, a, p, c. *)
Lemma plucker b a c d p : orient d b a * orient p b c = orient p d b * orient c a b - orient c d b * orient p a b.
Proof. unfold orient. ring. Qed.
Lemma reflex_right b a c d p : orient p a b < 0 -> orient d b a < 0 -> orient p d b < 0 -> orient p b c < 0 -> 0 <= orient c a b -> 0 <= orient c d b.
Proof. intros O1 O2 O3 O4 H. pose proof (plucker b a c d p) as E. nia. Qed.
Lemma plucker' b a e d p : orient d b a * orient p e a = orient d p a * orient b e a - orient p a b * orient d e a.
Proof. unfold orient. ring. Qed.
Lemma reflex_left b a e d p : orient p a b < 0 -> orient d b a < 0 -> orient d p a < 0 -> orient p e a < 0 -> 0 <= orient b e a -> 0 <= orient d e a.
Proof. intros O1 O2 O3 O4 H. pose proof (plucker' b a e d p) as E. nia. Qed.

Definition spoke_ok (Q1 Q2 : circ) (a b c : point) : Prop := 0 <= orient c a b \/ (0 <= val Q1 c /\ 0 <= val Q2 a).

(** A circle through a and b without d inside: c, on the other side of a b, is outside of the circle of d b a if it is outside of that one. *)
Lemma beyond Q a b c d : 0 < cl Q -> val Q a = 0 -> val Q b = 0 -> 0 <= val Q d -> orient d b a < 0 -> orient c a b < 0 -> 0 <= val Q c -> 0 <= val (of_tri d b a) c.
Proof.
  intros L A B D O1 O2 Hc. pose proof (pencil_opp Q (of_tri d b a) a b d c A B) as X. rewrite !of_tri_val, det_own1, det_own2, det_own3 in X. specialize (X eq_refl eq_refl).
  assert (X1 : 0 < orient a b d) by (replace (orient a b d) with (- orient d b a) by (unfold orient; ring); lia).
  assert (X2 : orient a b c < 0) by (replace (orient a b c) with (orient c a b) by (unfold orient; ring); lia).
  specialize (X X1 X2). cbn [of_tri cl] in X. rewrite of_tri_val. assert (X3 : cl Q * 0 - - orient d b a * val Q d <= 0) by nia. specialize (X X3).
  assert (0 <= - orient d b a * val Q c) by nia. assert (0 <= cl Q * incircle_det d b a c) by lia. nia.
Qed.

(** a is between d and c as seen from b: the difference of two circles through b. *)
Lemma between Q1 Q2 a b c d : val Q1 b = 0 -> val Q2 b = 0 -> 0 < cl Q1 -> 0 < cl Q2 ->
  orient d b a < 0 -> orient c a b < 0 -> orient c d b < 0 ->
  val Q1 a = 0 -> 0 <= val Q2 a -> val Q2 c = 0 -> 0 <= val Q1 c -> 0 <= val Q1 d -> 0 <= val Q2 d.
Proof.
  intros B1 B2 L1 L2 O1 O2 O3 A1 A2 C2 C1 D1.
  pose (f := fun w => cl Q2 * val Q1 w - cl Q1 * val Q2 w).
  assert (Fb : f b = 0) by (unfold f; rewrite B1, B2; ring). assert (Fa : f a <= 0) by (unfold f; rewrite A1; nia). assert (Fc : 0 <= f c) by (unfold f; rewrite C2; nia).
  assert (E : orient c d b * (f a - f b) = orient c a b * (f d - f b) + orient d b a * (f c - f b)) by (unfold f, val, nrm, orient; ring).
  rewrite Fb, !Z.sub_0_r in E. assert (Fd : f d <= 0) by nia. unfold f in Fd. assert (0 <= cl Q2 * val Q1 d) by nia. assert (0 <= cl Q1 * val Q2 d) by lia. nia.
Qed.
Lemma between' Q1 Q0 a b e d : val Q1 a = 0 -> val Q0 a = 0 -> 0 < cl Q1 -> 0 < cl Q0 ->
  orient d b a < 0 -> orient b e a < 0 -> orient d e a < 0 ->
  val Q1 b = 0 -> 0 <= val Q0 b -> val Q0 e = 0 -> 0 <= val Q1 e -> 0 <= val Q1 d -> 0 <= val Q0 d.
Proof.
  intros B1 B2 L1 L2 O1 O2 O3 A1 A2 C2 C1 D1.
  pose (f := fun w => cl Q0 * val Q1 w - cl Q1 * val Q0 w).
  assert (Fb : f a = 0) by (unfold f; rewrite B1, B2; ring). assert (Fa : f b <= 0) by (unfold f; rewrite A1; nia). assert (Fc : 0 <= f e) by (unfold f; rewrite C2; nia).
  assert (E : orient d e a * (f b - f a) = orient b e a * (f d - f a) + orient d b a * (f e - f a)) by (unfold f, val, nrm, orient; ring).
  rewrite Fb, !Z.sub_0_r in E. assert (Fd : f d <= 0) by nia. unfold f in Fd. assert (0 <= cl Q0 * val Q1 d) by nia. assert (0 <= cl Q1 * val Q0 d) by lia. nia.
Qed.

(** The spoke p b when the triangle p a b is replaced by p d b. *)
Lemma spoke_right Q1 Q2 p a b c d :
  0 < cl Q1 -> val Q1 a = 0 -> val Q1 b = 0 -> 0 <= val Q1 d -> 0 < cl Q2 -> val Q2 b = 0 -> val Q2 c = 0 ->
  orient p a b < 0 -> orient d b a < 0 -> orient p d b < 0 -> orient p b c < 0 ->
  spoke_ok Q1 Q2 a b c -> spoke_ok (of_tri d b a) Q2 d b c.
Proof.
  intros L1 A1 B1 D1 L2 B2 C2 O1 O2 O3 O4 H. unfold spoke_ok.
  destruct (Z_lt_ge_dec (orient c a b) 0) as [Hc|Hc]; [|left; apply (reflex_right b a c d p); lia].
  destruct H as [H|[H1 H2]]; [lia|]. destruct (Z_lt_ge_dec (orient c d b) 0) as [Hd|Hd]; [|left; lia]. right. split.
  - now apply (beyond Q1).
  - now apply (between Q1 Q2 a b c d).
Qed.
(** The spoke p a when the triangle p a b is replaced by p a d. *)
Lemma spoke_left Q1 Q0 p a b e d :
  0 < cl Q1 -> val Q1 a = 0 -> val Q1 b = 0 -> 0 <= val Q1 d -> 0 < cl Q0 -> val Q0 a = 0 -> val Q0 e = 0 ->
  orient p a b < 0 -> orient d b a < 0 -> orient d p a < 0 -> orient p e a < 0 ->
  spoke_ok Q0 Q1 e a b -> spoke_ok Q0 (of_tri d b a) e a d.
Proof.
  intros L1 A1 B1 D1 L2 B2 C2 O1 O2 O3 O4 H. unfold spoke_ok.
  destruct (Z_lt_ge_dec (orient b e a) 0) as [Hc|Hc]; [|left; apply (reflex_left b a e d p); lia].
  destruct H as [H|[H1 H2]]; [lia|]. destruct (Z_lt_ge_dec (orient d e a) 0) as [Hd|Hd]; [|left; lia]. right. split.
  - now apply (between' Q1 Q0 a b e d).
  - apply (beyond Q1); try assumption. replace (orient e a b) with (orient b e a) by (unfold orient; ring). lia.
Qed.

(** A spoke that is in order is locally Delaunay. *)
Lemma spoke_det Q1 Q2 p a b c : 0 < cl Q1 -> val Q1 a = 0 -> val Q1 b = 0 -> val Q1 p < 0 -> orient p a b < 0 -> orient p b c < 0 -> spoke_ok Q1 Q2 a b c -> 0 <= incircle_det p a b c.
Proof.
  intros L A B Hp O1 O2 H. destruct (Z_lt_ge_dec (orient c a b) 0) as [Hc|Hc].
  - destruct H as [H|[H _]]; [lia|]. pose proof (spoke_empty Q1 p a b c L A B Hp O1 Hc H). lia.
  - destruct (Z_lt_ge_dec (incircle_det p a b c) 0) as [Hd|Hd]; [exfalso|lia].
    rewrite <- (det_rot p a b c) in Hd. destruct (incircle_convex a b p c) as [_ X]; [rewrite (orient_rot p a b); assumption|replace (orient c p b) with (orient p b c) by (unfold orient; ring); assumption|assumption|lia].
Qed.

(** ** Triangulations as sets of clockwise triangles with some edges free *)
Definition rot3 (x y z a b c : point) : Prop := (x = a /\ y = b /\ z = c) \/ (x = b /\ y = c /\ z = a) \/ (x = c /\ y = a /\ z = b).

Record tri_ok (T : point -> point -> point -> Prop) (E : point -> point -> Prop) : Prop := {
  t_rot : forall a b c, T a b c -> T b c a;
  t_cw : forall a b c, T a b c -> orient a b c < 0;
  t_uniq : forall a b c c', T a b c -> T a b c' -> c = c';
  t_sym : forall a b, E a b -> E b a }.

(** The star of p: every triangle at p has a circle through its far side that contains p and none of the points it has to avoid. *)
Record star (T : point -> point -> point -> Prop) (E : point -> point -> Prop) (p : point) (Q : point -> point -> circ) : Prop := {
  st_lead : forall a b, T p a b -> 0 < cl (Q a b) /\ val (Q a b) a = 0 /\ val (Q a b) b = 0 /\ val (Q a b) p < 0;
  st_out : forall a b d, T p a b -> E a b -> T d b a -> 0 <= val (Q a b) d;
  st_spoke : forall a b c, T p a b -> T p b c -> E b p -> spoke_ok (Q a b) (Q b c) a b c }.

(** All free edges locally Delaunay but for some far sides of the star of p. *)
Definition delaunay_but (T : point -> point -> point -> Prop) (E : point -> point -> Prop) (p : point) (Pd : point -> point -> Prop) : Prop :=
  forall a b c e, T a b c -> T e c b -> E b c -> 0 <= incircle_det a b c e \/ (a = p /\ Pd b c) \/ (e = p /\ Pd c b).

Definition pt_dec (a b : point) : {a = b} + {a <> b}.
Proof. decide equality; apply Z.eq_dec. Defined.

Lemma t_rot' T E a b c : tri_ok T E -> T a b c -> T c a b.
Proof. intros W H. apply (t_rot _ _ W), (t_rot _ _ W), H. Qed.
Lemma t_ne T E a b c : tri_ok T E -> T a b c -> a <> b /\ b <> c /\ a <> c.
Proof. intros W H. apply orient_ne. pose proof (t_cw _ _ W _ _ _ H). lia. Qed.
(** No two triangles on the same side of an edge. *)
Lemma t_flip T E a b c : tri_ok T E -> T a b c -> T a c b -> False.
Proof. intros W H1 H2. pose proof (t_cw _ _ W _ _ _ H1) as O1. pose proof (t_cw _ _ W _ _ _ H2) as O2. rewrite orient_swap in O2. lia. Qed.

Section FlipStep.
  Context (T T' : point -> point -> point -> Prop) (E E' : point -> point -> Prop) (p a b d : point).
  Context (W : tri_ok T E) (W' : tri_ok T' E').
  Context (H1 : T p a b) (H2 : T d b a) (He : E a b).
  Context (N1 : T' p d b) (N2 : T' d p a).
  Context (HT : forall x y z, T' x y z -> T x y z \/ rot3 x y z p d b \/ rot3 x y z d p a).
  Context (HE : forall x y, E' x y -> E x y \/ (x = p /\ y = d) \/ (x = d /\ y = p)).
  Context (Hd : incircle_det p a b d < 0).

  Definition newQ (Q : point -> point -> circ) (x y : point) : circ :=
    if pt_dec x a then if pt_dec y d then of_tri d b a else Q x y else if pt_dec x d then if pt_dec y b then of_tri d b a else Q x y else Q x y.

  Lemma fs_ne : p <> a /\ p <> b /\ p <> d /\ a <> b /\ a <> d /\ b <> d.
  Proof.
    destruct (t_ne _ _ _ _ _ W H1) as (X1 & X2 & X3). destruct (t_ne _ _ _ _ _ W H2) as (X4 & X5 & X6). destruct (t_ne _ _ _ _ _ W' N1) as (X7 & X8 & X9). repeat split; congruence.
  Qed.

  Lemma newQ_left Q : newQ Q a d = of_tri d b a.
  Proof. unfold newQ. destruct (pt_dec a a); [|congruence]. destruct (pt_dec d d); [reflexivity|congruence]. Qed.
  Lemma newQ_right Q : newQ Q d b = of_tri d b a.
  Proof.
    destruct fs_ne as (_ & _ & _ & _ & X & _). unfold newQ. destruct (pt_dec d a); [congruence|]. destruct (pt_dec d d); [|congruence]. destruct (pt_dec b b); [reflexivity|congruence].
  Qed.
  Lemma newQ_old Q x y : ~ (x = a /\ y = d) -> ~ (x = d /\ y = b) -> newQ Q x y = Q x y.
  Proof. intros X Y. unfold newQ. destruct (pt_dec x a); [destruct (pt_dec y d); [tauto|reflexivity]|]. destruct (pt_dec x d); [destruct (pt_dec y b); [tauto|reflexivity]|reflexivity]. Qed.

  (** The triangles at p afterwards. *)
  Lemma at_p x y : T' p x y -> (x = d /\ y = b) \/ (x = a /\ y = d) \/ (T p x y /\ ~ (x = a /\ y = d) /\ ~ (x = d /\ y = b) /\ ~ (x = a /\ y = b) /\ x <> d /\ y <> d).
  Proof.
    intro H. destruct fs_ne as (X1 & X2 & X3 & X4 & X5 & X6).
    destruct (pt_dec x d) as [-> |Dx]; [left; split; [reflexivity|apply (t_uniq _ _ W' p d); assumption]|].
    destruct (pt_dec y d) as [-> |Dy]; [right; left; split; [|reflexivity]; apply (t_uniq _ _ W' d p); [|assumption]; apply (t_rot' _ _ _ _ _ W' H)|].
    destruct (HT _ _ _ H) as [Ho|[R|R]].
    - right. right. split; [assumption|]. split; [tauto|]. split; [tauto|]. split; [|tauto]. intros [-> ->].
      apply X6. apply (t_uniq _ _ W' p a); [assumption|]. apply (t_rot _ _ W'), N2.
    - exfalso. unfold rot3 in R. destruct R as [(? & ? & ?)|[(? & ? & ?)|(? & ? & ?)]]; congruence.
    - exfalso. unfold rot3 in R. destruct R as [(? & ? & ?)|[(? & ? & ?)|(? & ? & ?)]]; congruence.
  Qed.

  Lemma star_flip Q Pd : star T E p Q -> delaunay_but T E p Pd -> star T' E' p (newQ Q).
  Proof.
    intros S L. destruct fs_ne as (X1 & X2 & X3 & X4 & X5 & X6).
    destruct (st_lead _ _ _ _ S a b H1) as (L1 & L2 & L3 & L4). pose proof (st_out _ _ _ _ S a b d H1 He H2) as L5.
    pose proof (t_cw _ _ W _ _ _ H1) as O1. pose proof (t_cw _ _ W _ _ _ H2) as O2. pose proof (t_cw _ _ W' _ _ _ N1) as O3. pose proof (t_cw _ _ W' _ _ _ N2) as O4.
    assert (Rlead : 0 < cl (of_tri d b a)) by (cbn [of_tri cl]; lia).
    assert (Ra : val (of_tri d b a) a = 0) by (rewrite of_tri_val; apply det_own3). assert (Rb : val (of_tri d b a) b = 0) by (rewrite of_tri_val; apply det_own2).
    assert (Rd : val (of_tri d b a) d = 0) by (rewrite of_tri_val; apply det_own1).
    assert (Rp : val (of_tri d b a) p < 0) by (rewrite of_tri_val; replace (incircle_det d b a p) with (incircle_det p a b d) by (unfold incircle_det, det6; ring); exact Hd).
    split.
    - intros x y H. destruct (at_p x y H) as [[-> ->]|[[-> ->]|(Ho & D1 & D2 & _)]].
      + rewrite newQ_right. auto.
      + rewrite newQ_left. auto.
      + rewrite (newQ_old Q x y D1 D2). apply (st_lead _ _ _ _ S x y Ho).
    - intros x y e H HEe He'. destruct (at_p x y H) as [[-> ->]|[[-> ->]|(Ho & D1 & D2 & D3 & D4 & D5)]].
      + rewrite newQ_right, of_tri_val. destruct (HT _ _ _ He') as [Hx|[R|R]].
        * destruct (HE _ _ HEe) as [Ex|[[? ?]|[? ?]]]; [|congruence|congruence].
          destruct (L a d b e (t_rot' _ _ _ _ _ W H2) Hx Ex) as [Y|[[Y _]|[Y _]]]; [|congruence|].
          -- rewrite <- (det_rot a d b e) in Y. exact Y.
          -- subst e. exfalso. pose proof (t_cw _ _ W _ _ _ Hx) as O. rewrite orient_swap in O. lia.
        * exfalso. destruct R as [(? & ? & ?)|[(? & ? & ?)|(? & ? & ?)]]; congruence.
        * exfalso. destruct R as [(? & ? & ?)|[(? & ? & ?)|(? & ? & ?)]]; congruence.
      + rewrite newQ_left, of_tri_val. destruct (HT _ _ _ He') as [Hx|[R|R]].
        * destruct (HE _ _ HEe) as [Ex|[[? ?]|[? ?]]]; [|congruence|congruence].
          destruct (L b a d e (t_rot _ _ W _ _ _ H2) Hx Ex) as [Y|[[Y _]|[Y _]]]; [|congruence|].
          -- rewrite (det_rot d b a e) in Y. exact Y.
          -- subst e. exfalso. pose proof (t_cw _ _ W _ _ _ Hx) as O. replace (orient p d a) with (- orient d p a) in O by (unfold orient; ring). lia.
        * exfalso. destruct R as [(? & ? & ?)|[(? & ? & ?)|(? & ? & ?)]]; congruence.
        * exfalso. destruct R as [(? & ? & ?)|[(? & ? & ?)|(? & ? & ?)]]; congruence.
      + rewrite (newQ_old Q x y D1 D2). destruct (t_ne _ _ _ _ _ W' H) as (Y1 & Y2 & Y3). destruct (HT _ _ _ He') as [Hx|[R|R]].
        * destruct (HE _ _ HEe) as [Ex|[[? ?]|[? ?]]]; [|congruence|congruence]. exact (st_out _ _ _ _ S x y e Ho Ex Hx).
        * exfalso. destruct R as [(? & ? & ?)|[(? & ? & ?)|(? & ? & ?)]]; congruence.
        * exfalso. destruct R as [(? & ? & ?)|[(? & ? & ?)|(? & ? & ?)]]; congruence.
    - intros x y z Hxy Hyz HEy. destruct (at_p x y Hxy) as [[-> ->]|[[-> ->]|(Ho & D1 & D2 & D3 & D4 & D5)]].
      + (* the spoke p b *)
        destruct (at_p b z Hyz) as [[? ?]|[[? ?]|(Ho & D1 & D2 & D3 & D4 & D5)]]; [congruence|congruence|].
        rewrite newQ_right, (newQ_old Q b z D1 D2). destruct (HE _ _ HEy) as [Ey|[[? ?]|[? ?]]]; [|congruence|congruence].
        destruct (st_lead _ _ _ _ S b z Ho) as (M1 & M2 & M3 & M4).
        apply (spoke_right (Q a b) (Q b z) p a b z d); try assumption; [exact (t_cw _ _ W _ _ _ Ho)|]. exact (st_spoke _ _ _ _ S a b z H1 Ho Ey).
      + (* the new spoke p d *)
        destruct (at_p d z Hyz) as [[_ ->]|[[? ?]|(Ho & D1 & D2 & D3 & D4 & D5)]]; [|congruence|congruence].
        rewrite newQ_left, newQ_right. right. rewrite Ra, Rb. lia.
      + destruct (at_p y z Hyz) as [[? ?]|[[-> ->]|(Ho' & D1' & D2' & D3' & D4' & D5')]]; [congruence| |].
        * (* the spoke p a *)
          rewrite newQ_left, (newQ_old Q x a D1 D2). destruct (HE _ _ HEy) as [Ey|[[? ?]|[? ?]]]; [|congruence|congruence].
          destruct (st_lead _ _ _ _ S x a Ho) as (M1 & M2 & M3 & M4).
          apply (spoke_left (Q a b) (Q x a) p a b x d); try assumption; [exact (t_cw _ _ W _ _ _ Ho)|]. exact (st_spoke _ _ _ _ S x a b Ho H1 Ey).
        * rewrite (newQ_old Q x y D1 D2), (newQ_old Q y z D1' D2'). destruct (HE _ _ HEy) as [Ey|[[? ?]|[? ?]]]; [|congruence|congruence].
          exact (st_spoke _ _ _ _ S x y z Ho Ho' Ey).
  Qed.

  Definition after (Pd : point -> point -> Prop) (x y : point) : Prop := (Pd x y /\ ~ (x = a /\ y = b)) \/ (x = a /\ y = d) \/ (x = d /\ y = b).

  Lemma but_flip Q Pd : star T' E' p Q -> delaunay_but T E p Pd -> delaunay_but T' E' p (after Pd).
  Proof.
    intros S L. destruct fs_ne as (X1 & X2 & X3 & X4 & X5 & X6).
    (* one of the two triangles is new *)
    assert (Half : forall x y z e, rot3 x y z p d b \/ rot3 x y z d p a -> T' e z y -> E' y z -> 0 <= incircle_det x y z e \/ (x = p /\ after Pd y z)).
    { assert (Right : forall e, T' e p b -> E' b p -> 0 <= incircle_det d b p e).
      { intros e K KE. destruct (st_lead _ _ _ _ S d b N1) as (M1 & M2 & M3 & M4). pose proof (t_rot _ _ W' _ _ _ K) as K'.
        rewrite (det_rot p d b e). apply (spoke_det (Q d b) (Q b e) p d b e); try assumption; [exact (t_cw _ _ W' _ _ _ N1)|exact (t_cw _ _ W' _ _ _ K')|].
        exact (st_spoke _ _ _ _ S d b e N1 K' KE). }
      assert (Left : forall e, T' e a p -> E' p a -> 0 <= incircle_det d p a e).
      { intros e K KE. pose proof (t_rot' _ _ _ _ _ W' K) as K'. pose proof (t_rot _ _ W' _ _ _ N2) as N2'. destruct (st_lead _ _ _ _ S e a K') as (M1 & M2 & M3 & M4).
        replace (incircle_det d p a e) with (incircle_det p e a d) by (unfold incircle_det, det6; ring). apply (spoke_det (Q e a) (Q a d) p e a d); try assumption; [exact (t_cw _ _ W' _ _ _ K')|exact (t_cw _ _ W' _ _ _ N2')|].
        apply (st_spoke _ _ _ _ S e a d K' N2'). apply (t_sym _ _ W'), KE. }
      intros x y z e [[(-> & -> & ->)|[(-> & -> & ->)|(-> & -> & ->)]]|[(-> & -> & ->)|[(-> & -> & ->)|(-> & -> & ->)]]] K KE.
      - right. unfold after. auto.
      - left. now apply Right.
      - left. assert (e = a) as -> by (apply (t_uniq _ _ W' d p); [apply (t_rot _ _ W'), K|exact N2]).
        replace (incircle_det b p d a) with (- incircle_det p a b d) by (unfold incircle_det, det6; ring). lia.
      - left. now apply Left.
      - right. unfold after. auto.
      - left. assert (e = b) as -> by (apply (t_uniq _ _ W' p d); [apply (t_rot _ _ W'), K|exact N1]).
        replace (incircle_det a d p b) with (- incircle_det p a b d) by (unfold incircle_det, det6; ring). lia. }
    intros x y z e K1 K2 KE. destruct (HT _ _ _ K1) as [Ho|R].
    2: { destruct (Half x y z e R K2 KE) as [?|?]; [left; assumption|right; left; assumption]. }
    destruct (HT _ _ _ K2) as [Ho'|R].
    2: { destruct (Half e z y x R K1 (t_sym _ _ W' _ _ KE)) as [K|?]; [left; rewrite det_rev in K; exact K|right; right; assumption]. }
    assert (No : T' p a b -> False). { intro K. apply X6. apply (t_uniq _ _ W' p a); [assumption|]. apply (t_rot _ _ W'), N2. }
    destruct (HE _ _ KE) as [Ey|[[-> ->]|[-> ->]]].
    - destruct (L x y z e Ho Ho' Ey) as [?|[[-> K]|[-> K]]]; [left; assumption|right; left|right; right]; (split; [reflexivity|]); left; (split; [assumption|]); intros [-> ->]; contradiction.
    - (* y z = p d *)
      assert (e = a) as -> by (apply (t_uniq _ _ W' d p); [apply (t_rot _ _ W'), K2|exact N2]). assert (x = b) as -> by (apply (t_uniq _ _ W' p d); [apply (t_rot _ _ W'), K1|exact N1]).
      left. replace (incircle_det b p d a) with (- incircle_det p a b d) by (unfold incircle_det, det6; ring). lia.
    - assert (x = a) as -> by (apply (t_uniq _ _ W' d p); [apply (t_rot _ _ W'), K1|exact N2]). assert (e = b) as -> by (apply (t_uniq _ _ W' p d); [apply (t_rot _ _ W'), K2|exact N1]).
      left. replace (incircle_det a d p b) with (- incircle_det p a b d) by (unfold incircle_det, det6; ring). lia.
  Qed.
End FlipStep.

(** ** A new vertex *)
Section Start.
  Context (T T' : point -> point -> point -> Prop) (E E' : point -> point -> Prop) (p : point).
  Context (W : tri_ok T E) (W' : tri_ok T' E').
  Context (Fresh : forall x y z, T x y z -> x <> p).
  Context (HE : forall x y, E' x y -> x = p \/ y = p \/ E x y).
  Context (L : delaunay_but T E p (fun _ _ => False)).

  Lemma fresh3 x y z : T x y z -> x <> p /\ y <> p /\ z <> p.
  Proof. intro H. split; [exact (Fresh _ _ _ H)|]. split; [exact (Fresh _ _ _ (t_rot _ _ W _ _ _ H))|exact (Fresh _ _ _ (t_rot' _ _ _ _ _ W H))]. Qed.

  Lemma but_start Q : (forall x y z, T' x y z -> T x y z \/ x = p \/ y = p \/ z = p) -> star T' E' p Q -> delaunay_but T' E' p (T' p).
  Proof.
    intros HT S a b c e K1 K2 KE.
    destruct (pt_dec b p) as [-> |Db].
    { left. pose proof (t_rot _ _ W' _ _ _ K1) as K1'. pose proof (t_rot' _ _ _ _ _ W' K2) as K2'. destruct (st_lead _ _ _ _ S e c K2') as (M1 & M2 & M3 & M4).
      replace (incircle_det a p c e) with (incircle_det p e c a) by (unfold incircle_det, det6; ring).
      apply (spoke_det (Q e c) (Q c a) p e c a); try assumption; [exact (t_cw _ _ W' _ _ _ K2')|exact (t_cw _ _ W' _ _ _ K1')|]. apply (st_spoke _ _ _ _ S e c a K2' K1'), (t_sym _ _ W'), KE. }
    destruct (pt_dec c p) as [-> |Dc].
    { left. pose proof (t_rot' _ _ _ _ _ W' K1) as K1'. pose proof (t_rot _ _ W' _ _ _ K2) as K2'. destruct (st_lead _ _ _ _ S a b K1') as (M1 & M2 & M3 & M4).
      rewrite (det_rot p a b e). apply (spoke_det (Q a b) (Q b e) p a b e); try assumption; [exact (t_cw _ _ W' _ _ _ K1')|exact (t_cw _ _ W' _ _ _ K2')|]. apply (st_spoke _ _ _ _ S a b e K1' K2'), KE. }
    destruct (HT _ _ _ K1) as [Ho|[-> |[?|?]]]; [|right; left; auto|contradiction|contradiction].
    destruct (HT _ _ _ K2) as [Ho'|[-> |[?|?]]]; [|right; right; auto|contradiction|contradiction].
    destruct (HE _ _ KE) as [?|[?|Ey]]; [contradiction|contradiction|]. left. destruct (L _ _ _ _ Ho Ho' Ey) as [?|[[_ []]|[_ []]]]. assumption.
  Qed.

  (** In a triangle a b c. *)
  Section InFace.
    Context (a b c : point) (H : T a b c) (N1 : T' p a b) (N2 : T' p b c) (N3 : T' p c a).
    Context (HT : forall x y z, T' x y z -> T x y z \/ rot3 x y z p a b \/ rot3 x y z p b c \/ rot3 x y z p c a).

    Lemma in_face_at x y : T' p x y -> (x = a /\ y = b) \/ (x = b /\ y = c) \/ (x = c /\ y = a).
    Proof.
      intro K. destruct (fresh3 _ _ _ H) as (X1 & X2 & X3). destruct (HT _ _ _ K) as [Ho|R]; [exfalso; exact (Fresh _ _ _ Ho eq_refl)|]. unfold rot3 in R.
      destruct R as [[(? & ? & ?)|[(? & ? & ?)|(? & ? & ?)]]|[[(? & ? & ?)|[(? & ? & ?)|(? & ? & ?)]]|[(? & ? & ?)|[(? & ? & ?)|(? & ? & ?)]]]]; try congruence; auto.
    Qed.

    Lemma in_face_star : star T' E' p (fun _ _ => of_tri a b c).
    Proof.
      destruct (fresh3 _ _ _ H) as (X1 & X2 & X3). pose proof (t_cw _ _ W _ _ _ H) as O. pose proof (t_cw _ _ W' _ _ _ N1) as O1. pose proof (t_cw _ _ W' _ _ _ N2) as O2. pose proof (t_cw _ _ W' _ _ _ N3) as O3.
      assert (Ra : val (of_tri a b c) a = 0) by (rewrite of_tri_val; apply det_own1). assert (Rb : val (of_tri a b c) b = 0) by (rewrite of_tri_val; apply det_own2). assert (Rc : val (of_tri a b c) c = 0) by (rewrite of_tri_val; apply det_own3).
      split.
      - intros x y K. assert (Rp : val (of_tri a b c) p < 0) by (rewrite of_tri_val; apply inside_face; lia). assert (Rl : 0 < cl (of_tri a b c)) by (cbn [of_tri cl]; lia).
        destruct (in_face_at x y K) as [[-> ->]|[[-> ->]|[-> ->]]]; auto.
      - intros x y e K Ke Kd. rewrite of_tri_val.
        assert (Ho : T e y x).
        { destruct (HT _ _ _ Kd) as [Ho|R]; [assumption|exfalso]. unfold rot3 in R. destruct (t_ne _ _ _ _ _ W' K) as (Y1 & Y2 & Y3).
          assert (e = p) as -> by (destruct R as [[(? & ? & ?)|[(? & ? & ?)|(? & ? & ?)]]|[[(? & ? & ?)|[(? & ? & ?)|(? & ? & ?)]]|[(? & ? & ?)|[(? & ? & ?)|(? & ? & ?)]]]]; congruence).
          exact (t_flip _ _ _ _ _ W' K Kd). }
        destruct (t_ne _ _ _ _ _ W' K) as (Y1 & Y2 & Y3). assert (Ex : E x y) by (destruct (HE _ _ Ke) as [?|[?|?]]; [congruence|congruence|assumption]).
        destruct (in_face_at x y K) as [[-> ->]|[[-> ->]|[-> ->]]].
        + destruct (L c a b e (t_rot' _ _ _ _ _ W H) Ho Ex) as [Y|[[_ []]|[_ []]]]. rewrite <- (det_rot c a b e) in Y. exact Y.
        + destruct (L a b c e H Ho Ex) as [Y|[[_ []]|[_ []]]]. exact Y.
        + destruct (L b c a e (t_rot _ _ W _ _ _ H) Ho Ex) as [Y|[[_ []]|[_ []]]]. rewrite (det_rot a b c e) in Y. exact Y.
      - intros x y z K1 K2 _. right. destruct (in_face_at x y K1) as [[-> ->]|[[-> ->]|[-> ->]]]; destruct (in_face_at _ z K2) as [[? ->]|[[? ->]|[? ->]]]; rewrite ?Ra, ?Rb, ?Rc; lia.
    Qed.
  End InFace.

  (** On an edge a b between the triangles o a b and q b a. *)
  Section OnEdge.
    Context (a b o q : point) (Ho : T o a b) (Hq : T q b a) (N1 : T' p o a) (N2 : T' p b o) (N3 : T' p q b) (N4 : T' p a q).
    Context (HT : forall x y z, T' x y z -> T x y z \/ rot3 x y z p o a \/ rot3 x y z p b o \/ rot3 x y z p q b \/ rot3 x y z p a q).
    Context (HEa : E' a p -> E a b) (HEb : E' b p -> E a b).
    Context (Hab : orient p a b = 0).

    Lemma on_edge_at x y : T' p x y -> (x = o /\ y = a) \/ (x = b /\ y = o) \/ (x = q /\ y = b) \/ (x = a /\ y = q).
    Proof.
      intro K. destruct (fresh3 _ _ _ Ho) as (X1 & X2 & X3). destruct (fresh3 _ _ _ Hq) as (X4 & X5 & X6). destruct (HT _ _ _ K) as [Hx|R]; [exfalso; exact (Fresh _ _ _ Hx eq_refl)|]. unfold rot3 in R.
      destruct R as [R|[R|[R|R]]]; destruct R as [(? & ? & ?)|[(? & ? & ?)|(? & ? & ?)]]; try congruence; auto.
    Qed.

    Definition edgeQ (x y : point) : circ := if pt_dec x o then of_tri o a b else if pt_dec y o then of_tri o a b else of_tri q b a.

    Lemma on_edge_star : star T' E' p edgeQ.
    Proof.
      destruct (fresh3 _ _ _ Ho) as (X1 & X2 & X3). destruct (fresh3 _ _ _ Hq) as (X4 & X5 & X6). destruct (t_ne _ _ _ _ _ W Ho) as (Z1 & Z2 & Z3). destruct (t_ne _ _ _ _ _ W Hq) as (Z4 & Z5 & Z6).
      pose proof (t_cw _ _ W _ _ _ Ho) as Oo. pose proof (t_cw _ _ W _ _ _ Hq) as Oq.
      assert (Doq : o <> q) by (intros ->; exact (t_flip _ _ _ _ _ W Ho Hq)).
      pose proof (t_cw _ _ W' _ _ _ N1) as O1. pose proof (t_cw _ _ W' _ _ _ N2) as O2. pose proof (t_cw _ _ W' _ _ _ N3) as O3. pose proof (t_cw _ _ W' _ _ _ N4) as O4.
      assert (Ro : val (of_tri o a b) o = 0) by (rewrite of_tri_val; apply det_own1). assert (Ra : val (of_tri o a b) a = 0) by (rewrite of_tri_val; apply det_own2). assert (Rb : val (of_tri o a b) b = 0) by (rewrite of_tri_val; apply det_own3).
      assert (Sq : val (of_tri q b a) q = 0) by (rewrite of_tri_val; apply det_own1). assert (Sb : val (of_tri q b a) b = 0) by (rewrite of_tri_val; apply det_own2). assert (Sa : val (of_tri q b a) a = 0) by (rewrite of_tri_val; apply det_own3).
      assert (Qx : edgeQ o a = of_tri o a b /\ edgeQ b o = of_tri o a b /\ edgeQ q b = of_tri q b a /\ edgeQ a q = of_tri q b a).
      { unfold edgeQ. destruct (pt_dec o o); [|congruence]. destruct (pt_dec b o); [congruence|]. destruct (pt_dec q o); [congruence|]. destruct (pt_dec a o); [congruence|]. auto. }
      destruct Qx as (Q1 & Q2 & Q3 & Q4).
      assert (Rp : val (of_tri o a b) p < 0). { rewrite of_tri_val, <- (det_rot o a b p). apply inside_face; [rewrite orient_rot; assumption|lia|lia|lia|left; lia]. }
      assert (Sp : val (of_tri q b a) p < 0). { rewrite of_tri_val, <- (det_rot q b a p). assert (orient p b a = 0) by (rewrite orient_swap; lia). apply inside_face; [rewrite orient_rot; assumption|lia|lia|lia|left; lia]. }
      assert (Rl : 0 < cl (of_tri o a b)) by (cbn [of_tri cl]; lia). assert (Sl : 0 < cl (of_tri q b a)) by (cbn [of_tri cl]; lia).
      assert (Old : forall e x y, T' p x y -> T' e y x -> E' x y -> T e y x /\ E x y).
      { intros e x y K Kd Ke. destruct (t_ne _ _ _ _ _ W' K) as (Y1 & Y2 & Y3). split; [|destruct (HE _ _ Ke) as [?|[?|?]]; [congruence|congruence|assumption]].
        destruct (HT _ _ _ Kd) as [Hx|R]; [assumption|exfalso]. unfold rot3 in R.
        assert (e = p) as -> by (destruct R as [R|[R|[R|R]]]; destruct R as [(? & ? & ?)|[(? & ? & ?)|(? & ? & ?)]]; congruence). exact (t_flip _ _ _ _ _ W' K Kd). }
      split.
      - intros x y K. destruct (on_edge_at x y K) as [[-> ->]|[[-> ->]|[[-> ->]|[-> ->]]]]; rewrite ?Q1, ?Q2, ?Q3, ?Q4; auto.
      - intros x y e K Ke Kd. destruct (Old e x y K Kd Ke) as [Kt Kx]. destruct (on_edge_at x y K) as [[-> ->]|[[-> ->]|[[-> ->]|[-> ->]]]]; rewrite ?Q1, ?Q2, ?Q3, ?Q4, of_tri_val.
        + destruct (L b o a e (t_rot' _ _ _ _ _ W Ho) Kt Kx) as [Y|[[_ []]|[_ []]]]. rewrite <- (det_rot b o a e) in Y. exact Y.
        + destruct (L a b o e (t_rot _ _ W _ _ _ Ho) Kt Kx) as [Y|[[_ []]|[_ []]]]. rewrite (det_rot o a b e) in Y. exact Y.
        + destruct (L a q b e (t_rot' _ _ _ _ _ W Hq) Kt Kx) as [Y|[[_ []]|[_ []]]]. rewrite <- (det_rot a q b e) in Y. exact Y.
        + destruct (L b a q e (t_rot _ _ W _ _ _ Hq) Kt Kx) as [Y|[[_ []]|[_ []]]]. rewrite (det_rot q b a e) in Y. exact Y.
      - assert (Cross : E a b -> 0 <= val (of_tri o a b) q /\ 0 <= val (of_tri q b a) o).
        { intro Ex. destruct (L o a b q Ho Hq Ex) as [Y|[[_ []]|[_ []]]]. rewrite !of_tri_val. split; [assumption|]. now rewrite det_rev. }
        intros x y z K1 K2 Ke. destruct (on_edge_at x y K1) as [[-> ->]|[[-> ->]|[[-> ->]|[-> ->]]]]; destruct (on_edge_at _ z K2) as [[? ->]|[[? ->]|[[? ->]|[? ->]]]];
          try congruence; rewrite ?Q1, ?Q2, ?Q3, ?Q4; right; rewrite ?Ro, ?Ra, ?Rb, ?Sq, ?Sa, ?Sb.
        + apply Cross, HEa, Ke.
        + lia.
        + destruct (Cross (HEb Ke)). auto.
        + lia.
    Qed.
  End OnEdge.
End Start.

Lemma but_weaken T E p (P1 P2 : point -> point -> Prop) : (forall x y, P1 x y -> P2 x y) -> delaunay_but T E p P1 -> delaunay_but T E p P2.
Proof. intros H L a b c e K1 K2 K3. destruct (L a b c e K1 K2 K3) as [?|[[? ?]|[? ?]]]; auto. Qed.
