(** Two Delaunay triangulations of the same points have the same triangles: the geometry. *)
From Coq Require Import List Permutation ZArith Lia.
Import ListNotations.
From Verif Require Import Base Vec_Model Math_Model Vec_Spec Vec_Props Math_Spec Math_Proofs Cdt_Model Cdt_Geom Cdt_Mesh Cdt_Flip Cdt_Circle Cdt_Insert Cdt_OnEdge Cdt_Walk Cdt_Spec Cdt_Tile Cdt_Planar Cdt_Props.
Local Open Scope Z_scope.

(** The sum of the corners: three times the centre of the triangle. *)
Definition sum3 (a b c : point) : point := (fst a + fst b + fst c, snd a + snd b + snd c).
Lemma line_sum d e a b c : line 3 d e (sum3 a b c) = orient d e a + orient d e b + orient d e c.
Proof. unfold line, sum3, orient. cbn [fst snd]. ring. Qed.

(** The paraboloid over the centre of abc, seen from the planes of the two triangles. *)
Lemma two_planes a b c d e f :
  - orient a b c * (incircle_det d e f a + incircle_det d e f b + incircle_det d e f c) =
  line 3 e f (sum3 a b c) * incircle_det a b c d + line 3 f d (sum3 a b c) * incircle_det a b c e + line 3 d e (sum3 a b c) * incircle_det a b c f.
Proof.
  rewrite !line_sum. unfold incircle_det, det6, orient. destruct a as [ax ay], b as [bx by_], c as [cx cy], d as [dx dy], e as [ex ey], f as [fx fy]. cbn [fst snd]. ring.
Qed.
Lemma same_circle a b c d e f : orient a b c < 0 ->
  line 3 d e (sum3 a b c) <= 0 -> line 3 e f (sum3 a b c) <= 0 -> line 3 f d (sum3 a b c) <= 0 ->
  0 <= incircle_det d e f a -> 0 <= incircle_det d e f b -> 0 <= incircle_det d e f c ->
  0 <= incircle_det a b c d -> 0 <= incircle_det a b c e -> 0 <= incircle_det a b c f ->
  incircle_det d e f a = 0 /\ incircle_det d e f b = 0 /\ incircle_det d e f c = 0.
Proof.
  intros O L1 L2 L3 A B C D E F. pose proof (two_planes a b c d e f) as T.
  set (da := incircle_det d e f a) in *. set (db := incircle_det d e f b) in *. set (dc := incircle_det d e f c) in *.
  set (dd := incircle_det a b c d) in *. set (de := incircle_det a b c e) in *. set (df := incircle_det a b c f) in *.
  clearbody da db dc dd de df. set (o := - orient a b c) in *. assert (0 < o) by (unfold o; lia). clearbody o.
  set (l1 := line 3 e f (sum3 a b c)) in *. set (l2 := line 3 f d (sum3 a b c)) in *. set (l3 := line 3 d e (sum3 a b c)) in *. clearbody l1 l2 l3.
  assert (l1 * dd <= 0) by nia. assert (l2 * de <= 0) by nia. assert (l3 * df <= 0) by nia.
  assert (da + db + dc <= 0) by nia. lia.
Qed.

(** A face of the mesh has the centre of a triangle inside it. *)
Lemma centre_inside a b c : inbox a -> inbox b -> inbox c -> orient a b c < 0 ->
  forallb (fun e => orient (fst e) (snd e) (query (sum3 a b c)) <? 0) (edges (map (vbig 3) square)) = true.
Proof.
  intros Ha Hb Hc O. apply forallb_forall. intros e He. rewrite edges_big in He. apply in_map_iff in He. destruct He as ([p r] & <- & Hin). unfold ebig. cbn [fst snd]. apply Z.ltb_lt.
  pose proof square_box as F. rewrite Forall_forall in F.
  assert (K : In p square /\ In r square /\ line 3 p r (sum3 a b c) < 0).
  { rewrite line_sum. destruct a as [ax ay], b as [bx by_], c as [cx cy]. unfold inbox, lo, hi in Ha, Hb, Hc. change (2 ^ 15) with 32768 in *. cbn [fst snd] in *.
    assert (Nx : ~ (ax = bx /\ bx = cx)) by (intros [-> ->]; unfold orient in O; cbn [fst snd] in O; lia).
    assert (Ny : ~ (ay = by_ /\ by_ = cy)) by (intros [-> ->]; unfold orient in O; cbn [fst snd] in O; lia). clear O.
    cbn in Hin. unfold low, high in Hin. cbn [In square]. unfold low, high. unfold orient.
    destruct Hin as [E|[E|[E|[E|[]]]]]; injection E as <- <-; cbn [fst snd]; (split; [tauto|]); (split; [tauto|]); lia. }
  destruct K as (Hp & Hr & L). apply (orient_line 3 p r (sum3 a b c)); [lia|now apply F|now apply F|assumption].
Qed.

Section Centre.
  Context (limit : Z).
  Lemma centre_face s a b c : good limit s -> inbox a -> inbox b -> inbox c -> orient a b c < 0 ->
    exists f, face s f /\ let '(d, e, g) := face_triangle s f in
      line 3 d e (sum3 a b c) <= 0 /\ line 3 e g (sum3 a b c) <= 0 /\ line 3 g d (sum3 a b c) <= 0.
  Proof.
    intros G Ha Hb Hc O. set (x := sum3 a b c).
    pose proof (count_big 3 x (triangles s) ltac:(lia) (good_box_tri limit s G) (good_cw_tri limit s G)) as C.
    rewrite (sides_big 3 _ _ _ (tiles limit s G)), (square_total 3 _ ltac:(lia)) in C. unfold x in C at 2. rewrite (centre_inside a b c Ha Hb Hc O) in C.
    destruct (filter (contains 3 x) (triangles s)) as [|t l] eqn:E; [cbn in C; lia|]. clear C.
    assert (Ht : In t (filter (contains 3 x) (triangles s))) by (rewrite E; now left). apply filter_In in Ht. destruct Ht as [Ht C]. clear E l.
    pose proof (good_box_tri limit s G) as BT. rewrite Forall_forall in BT. specialize (BT t Ht).
    apply in_map_iff in Ht. destruct Ht as (f & <- & Hf). assert (Hf' : 6 <= f < 2 * size s) by (apply faces_of_in; [pose proof (g_size _ _ G); lia|exact Hf]).
    exists f. split; [exact Hf'|]. destruct (face_triangle s f) as [[d e] g]. destruct BT as (B1 & B2 & B3).
    unfold contains in C. rewrite !Bool.andb_true_iff, !Z.ltb_lt in C. destruct C as ((C1 & C2) & C3).
    split; [|split]; [apply (orient_line 3 d e x)|apply (orient_line 3 e g x)|apply (orient_line 3 g d x)]; try lia; assumption.
  Qed.
End Centre.
