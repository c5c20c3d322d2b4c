(** C88: the triangulation of points depends on the points only, not on the order, the hints or the repetition of the calls. *)
From Coq Require Import List Permutation ZArith Lia.
Import ListNotations.
From Verif Require Import Base Vec_Model Math_Model Vec_Spec Math_Spec Cdt_Model Cdt_Geom Cdt_Mesh Cdt_Spec Cdt_Reset Cdt_Props Cdt_EdgeSpec Cdt_Edge_Props Cdt_Delaunay_Props Cdt_Unique.
Local Open Scope Z_scope.

(** ** What is claimed *)

(** The same triangle, named from another corner. *)
Definition turned (t u : triangle) : Prop := let '(a, b, c) := t in u = (a, b, c) \/ u = (b, c, a) \/ u = (c, a, b).
Definition has_triangle (s : mesh) (t : triangle) : Prop := exists f, face s f /\ turned (face_triangle s f) t.
Definition same_triangles (s s' : mesh) : Prop := forall t, has_triangle s t <-> has_triangle s' t.

(** Whenever four of the points are on a circle, another one is inside it. The circle's centre is (x / d, y / d). *)
Definition generic (S : point -> Prop) : Prop :=
  forall p1 p2 p3 p4 d x y, S p1 -> S p2 -> S p3 -> S p4 -> NoDup [p1; p2; p3; p4] -> 0 < d ->
    distance2 d x y p1 = distance2 d x y p2 -> distance2 d x y p2 = distance2 d x y p3 -> distance2 d x y p3 = distance2 d x y p4 ->
    exists p, S p /\ distance2 d x y p < distance2 d x y p1.

(** The corners of the square, and the cells of the points that are strictly inside it. *)
Definition sites (q : Z) (l : list (point * Z)) (p : point) : Prop :=
  In p square \/ (strictly_inside p /\ exists u h, In (u, h) l /\ p = cell_point q u).
(** The calls insert_point(u, hint). *)
Definition inserts (l : list (point * Z)) : list op := map (fun '(u, h) => Point u h) l.
Definition int32s (l : list (point * Z)) : Prop := forall u h, In (u, h) l -> int32p u.

(** ** Proofs *)
Lemma det_zero a b c v d x y : orient a b c < 0 -> 0 < d -> distance2 d x y a = distance2 d x y b -> distance2 d x y b = distance2 d x y c ->
  incircle_det a b c v = 0 -> distance2 d x y v = distance2 d x y a.
Proof.
  intros O Hd E1 E2 Z0. pose proof (circle_identity d x y a b c v (distance2 d x y a)) as I. rewrite <- E2, <- E1, !Z.sub_diag, !Z.mul_0_l, !Z.add_0_l, Z0, Z.mul_0_r in I.
  assert (K : (distance2 d x y v - distance2 d x y a) * orient a b c = 0) by lia. apply Z.mul_eq_0 in K. lia.
Qed.
Lemma distinct_corners a b c : orient a b c < 0 -> a <> b /\ b <> c /\ c <> a.
Proof. intro O. unfold orient in O. split; [|split]; intros ->; lia. Qed.
Lemma orient_flip a b c : orient b a c = - orient a b c.
Proof. unfold orient. ring. Qed.
Lemma same_corners a b c d e f : orient a b c < 0 -> orient d e f < 0 -> In a [d; e; f] -> In b [d; e; f] -> In c [d; e; f] -> turned (a, b, c) (d, e, f).
Proof.
  intros O O' Ha Hb Hc. destruct (distinct_corners a b c O) as (N1 & N2 & N3). cbn [In] in Ha, Hb, Hc.
  destruct Ha as [<-|[<-|[<-|[]]]], Hb as [<-|[<-|[<-|[]]]]; try congruence; destruct Hc as [<-|[<-|[<-|[]]]]; try congruence; unfold turned; auto; exfalso; unfold orient in *; lia.
Qed.
Lemma turned_sym t u : turned t u -> turned u t.
Proof. destruct t as [[a b] c], u as [[d e] f]. unfold turned. intros [E|[E|E]]; injection E as -> -> ->; auto. Qed.
Lemma turned_trans t u v : turned t u -> turned u v -> turned t v.
Proof. destruct t as [[a b] c], u as [[d e] f]. unfold turned. intros [E|[E|E]]; injection E as -> -> ->; intros [E|[E|E]]; subst v; auto. Qed.

Section Same.
  Context (limit limit' : Z) (s s' : mesh).
  Hypothesis (G : good limit s) (G' : good limit' s').
  Hypothesis (B : empty_circles s) (B' : empty_circles s').
  Hypothesis V : forall p, vertex_at s p <-> vertex_at s' p.
  Hypothesis X : generic (vertex_at s).

  Lemma corner_vertex limit0 t f i : good limit0 t -> face t f -> side i -> vertex_at t (where_is t (corner t f i)).
  Proof.
    intros Gt Hf Hi. exists (corner t f i). split; [|reflexivity]. destruct (good_consistent limit0 t Gt f i Hf Hi) as (R & _). exact R.
  Qed.
  Lemma same_face : forall f, face s f -> exists g, face s' g /\ turned (face_triangle s' g) (face_triangle s f).
  Proof.
    intros f Hf. pose proof (B f) as Bf. assert (W : forall i, side i -> vertex_at s (where_is s (corner s f i))) by (intros; now apply (corner_vertex limit)).
    pose proof (W 0 ltac:(now left)) as Wa. pose proof (W 1 ltac:(right; now left)) as Wb. pose proof (W 2 ltac:(right; now right)) as Wc. clear W.
    assert (O : clockwise (face_triangle s f)) by (pose proof (good_clockwise limit s G) as K; rewrite Forall_forall in K; apply K, in_map, all_faces_in; [apply (g_size _ _ G)|assumption]).
    unfold face_triangle in *. set (a := where_is s (corner s f 0)) in *. set (b := where_is s (corner s f 1)) in *. set (c := where_is s (corner s f 2)) in *. clearbody a b c. cbn [clockwise] in O.
    assert (box : forall p, vertex_at s p -> inbox p) by (intros p (v & Hv & <-); exact (g_box _ _ G v Hv)).
    destruct (centre_face limit' s' a b c G' (box a Wa) (box b Wb) (box c Wc) O) as (g & Hg & L). exists g. split; [assumption|]. pose proof (B' g) as Bg.
    assert (W : forall i, side i -> vertex_at s (where_is s' (corner s' g i))) by (intros; apply V; now apply (corner_vertex limit')).
    pose proof (W 0 ltac:(now left)) as Wd. pose proof (W 1 ltac:(right; now left)) as We. pose proof (W 2 ltac:(right; now right)) as Wf. clear W.
    assert (O' : clockwise (face_triangle s' g)) by (pose proof (good_clockwise limit' s' G') as K; rewrite Forall_forall in K; apply K, in_map, all_faces_in; [apply (g_size _ _ G')|assumption]).
    unfold face_triangle in *. set (d := where_is s' (corner s' g 0)) in *. set (e := where_is s' (corner s' g 1)) in *. set (h := where_is s' (corner s' g 2)) in *. clearbody d e h. cbn [clockwise] in O'.
    destruct L as (L1 & L2 & L3).
    assert (E : forall p, vertex_at s p -> 0 <= incircle_det a b c p).
    { intros p (v & Hv & <-). specialize (Bf v Hf Hv). cbv beta iota in Bf. rewrite (inside_circle_det a b c _ O) in Bf. now apply Z.nlt_ge. }
    assert (E' : forall p, vertex_at s p -> 0 <= incircle_det d e h p).
    { intros p Hp. apply V in Hp. destruct Hp as (v & Hv & <-). specialize (Bg v Hg Hv). cbv beta iota in Bg. rewrite (inside_circle_det d e h _ O') in Bg. now apply Z.nlt_ge. }
    destruct (same_circle a b c d e h O L1 L2 L3 (E' a Wa) (E' b Wb) (E' c Wc) (E d Wd) (E e We) (E h Wf)) as (Za & Zb & Zc).
    destruct (circle_centre d e h O') as (m & x & y & Hm & M1 & M2).
    assert (K : forall p, vertex_at s p -> incircle_det d e h p = 0 -> In p [d; e; h]).
    { intros p Hp Zp. pose proof (det_zero d e h p m x y O' Hm M1 M2 Zp) as Dp. destruct (distinct_corners d e h O') as (N1 & N2 & N3).
      assert (Dec : forall u v : point, {u = v} + {u <> v}) by (decide equality; apply Z.eq_dec).
      destruct (in_dec Dec p [d; e; h]) as [?|Hn]; [assumption|]. exfalso.
      destruct (X p d e h m x y Hp Wd We Wf) as (r & Hr & Lr); try assumption.
      - constructor; [assumption|]. constructor; [cbn [In]; intros [K|[K|[]]]; congruence|]. constructor; [cbn [In]; intros [K|[]]; congruence|]. constructor; [intros []|constructor].
      - assert (I : inside_circle d e h r) by (exists m, x, y; split; [assumption|]; split; [assumption|]; split; [assumption|]; now rewrite <- Dp). apply (inside_circle_det d e h r O') in I. specialize (E' r Hr). lia. }
    apply turned_sym. apply same_corners; auto.
  Qed.
End Same.

Lemma generic_iff S S' : (forall p, S p <-> S' p) -> generic S -> generic S'.
Proof.
  intros E H p1 p2 p3 p4 d x y H1 H2 H3 H4 ND Hd E1 E2 E3. apply E in H1, H2, H3, H4. destruct (H p1 p2 p3 p4 d x y H1 H2 H3 H4 ND Hd E1 E2 E3) as (p & Hp & L). exists p. split; [now apply E|assumption].
Qed.

(** C88: two meshes made by any calls of reset, insert_point and fill that have vertices at the same places have the same triangles, when
    no empty circle goes through four vertices. *)
Theorem C88_unique : forall limit limit' q q' wrap wrap' s s', 4 <= limit <= 8192 -> 4 <= limit' <= 8192 -> 0 <= q -> 0 <= q' ->
  point_reachable limit q wrap s -> point_reachable limit' q' wrap' s' ->
  (forall p, vertex_at s p <-> vertex_at s' p) -> generic (vertex_at s) -> same_triangles s s'.
Proof.
  intros limit limit' q q' wrap wrap' s s' Hl Hl' Hq Hq' R R' V X.
  pose proof (proj2 (C70_delaunay limit q wrap s Hl Hq R)) as B. pose proof (proj2 (C70_delaunay limit' q' wrap' s' Hl' Hq' R')) as B'.
  pose proof (proj1 (reachable_sound limit q wrap Hl Hq s (point_reachable_ok _ _ _ _ R))) as G. pose proof (proj1 (reachable_sound limit' q' wrap' Hl' Hq' s' (point_reachable_ok _ _ _ _ R'))) as G'.
  intro t. split; intros (f & Hf & T).
  - destruct (same_face limit limit' s s' G G' B B' V X f Hf) as (g & Hg & T'). exists g. split; [assumption|]. now apply (turned_trans _ (face_triangle s f)).
  - destruct (same_face limit' limit s' s G' G B' B (fun p => iff_sym (V p)) (generic_iff _ _ V X) f Hf) as (g & Hg & T'). exists g. split; [assumption|]. now apply (turned_trans _ (face_triangle s' f)).
Qed.
Print Assumptions C88_unique.

(** ** The calls *)
Lemma reset_sites limit q s0 s : 4 <= limit <= 8192 -> reset limit s0 = Ok s -> size s = 4 /\ forall p, vertex_at s p <-> sites q [] p.
Proof.
  intros Hl E. destruct (reset_ok limit s0 Hl) as (s' & E' & F). rewrite E in E'. injection E' as <-.
  destruct F as (Es & _ & _ & _ & _ & V0 & V1 & V2 & V3 & _). split; [assumption|]. unfold V in V0, V1, V2, V3. unfold lo, hi in *. change (2 ^ 15) with 32768 in *.
  intro p. unfold vertex_at, sites, square, low, high, where_is. rewrite Es. cbn [In]. split.
  - intros (v & Hv & <-). left. assert (Hc : v = 0 \/ v = 1 \/ v = 2 \/ v = 3) by lia. destruct Hc as [-> |[-> |[-> | ->]]]; rewrite ?V0, ?V1, ?V2, ?V3; auto.
  - intros [H|(_ & u & h & [] & _)]. repeat destruct H as [<-|H]; try contradiction.
    all: first [exists 0; split; [lia|exact V0]|exists 1; split; [lia|exact V1]|exists 2; split; [lia|exact V2]|exists 3; split; [lia|exact V3]].
Qed.

Lemma point_dec (u v : point) : {u = v} + {u <> v}.
Proof. decide equality; apply Z.eq_dec. Defined.
Lemma sites_dec q l p : sites q l p \/ ~ sites q l p.
Proof.
  unfold sites. destruct (in_dec point_dec p square) as [K|K]; [left; now left|]. assert (Dec : strictly_inside p \/ ~ strictly_inside p) by (unfold strictly_inside; lia).
  destruct Dec as [S|S]; [|right; intros [?|(? & _)]; contradiction].
  destruct (in_dec point_dec p (map (fun o => cell_point q (fst o)) l)) as [J|J].
  - left. right. split; [assumption|]. apply in_map_iff in J. destruct J as ((v & k) & J1 & J2). exists v, k. split; [assumption|symmetry; exact J1].
  - right. intros [?|(_ & v & k & J1 & J2)]; [contradiction|]. apply J. apply in_map_iff. exists (v, k). split; [symmetry; exact J2|assumption].
Qed.
Lemma insert_sites limit q wrap fuel : 4 <= limit <= 8192 -> 0 <= q -> forall l done s s', int32s l ->
  point_reachable limit q wrap s -> size s <= 4 + Z.of_nat (length done) -> (forall p, vertex_at s p <-> sites q done p) ->
  4 + Z.of_nat (length (done ++ l)) <= limit -> run limit q wrap fuel s (inserts l) = Ok s' ->
  point_reachable limit q wrap s' /\ forall p, vertex_at s' p <-> sites q (done ++ l) p.
Proof.
  intros Hl Hq. induction l as [|[u h] l IH]; intros done s s' Hi R Hs Hv Hc E.
  - cbn in E. injection E as <-. rewrite app_nil_r. auto.
  - cbn [inserts map run run_op] in E. destruct (insert_point limit q wrap fuel s u h) as [[t b]| |] eqn:Ei; cbn [bind] in E; try discriminate E.
    assert (Hu : int32p u) by (apply (Hi u h); now left).
    destruct (C72_point limit q wrap s fuel u h t b Hl Hq (point_reachable_ok _ _ _ _ R) Hu Ei) as (Hb & Hsame & Hnew).
    assert (Ha : (done ++ [(u, h)]) ++ l = done ++ (u, h) :: l) by now rewrite <- app_assoc. rewrite <- Ha in Hc |- *. rewrite app_length, app_length in Hc. cbn [length] in Hc.
    assert (Rt : point_reachable limit q wrap t) by (apply (pr_op limit q wrap fuel s (Point u h)); [assumption|exact Hu|exact I|cbn [run_op]; now rewrite Ei]).
    assert (Old : sites q (done ++ [(u, h)]) (cell_point q u) \/ ~ strictly_inside (cell_point q u) -> forall p, sites q (done ++ [(u, h)]) p <-> sites q done p \/ (strictly_inside p /\ p = cell_point q u)).
    { intros _ p. unfold sites. split.
      - intros [H|(S & v & k & Hin & ->)]; [left; now left|]. apply in_app_iff in Hin. destruct Hin as [Hin|[K|[]]]; [left; right; split; [assumption|now exists v, k]|injection K as <- <-; right; auto].
      - intros [[H|(S & v & k & Hin & ->)]|[S ->]]; [now left|right; split; [assumption|exists v, k; split; [apply in_app_iff; now left|reflexivity]]|right; split; [assumption|exists u, h; split; [apply in_app_iff; right; now left|reflexivity]]]. }
    assert (Dec : strictly_inside (cell_point q u) \/ ~ strictly_inside (cell_point q u)) by (unfold strictly_inside; lia).
    assert (Split : forall p, sites q (done ++ [(u, h)]) p <-> sites q done p \/ (strictly_inside p /\ p = cell_point q u)).
    { apply Old. destruct Dec as [S|S]; [left|now right]. right. split; [assumption|]. exists u, h. split; [apply in_app_iff; right; now left|reflexivity]. }
    clear Old. assert (VD : vertex_at s (cell_point q u) \/ ~ vertex_at s (cell_point q u)) by (rewrite Hv; apply sites_dec).
    apply (IH (done ++ [(u, h)]) t s'); try assumption.
    + intros v k Hin. apply (Hi v k). now right.
    + rewrite app_length. cbn [length]. destruct b.
      * destruct VD as [VD|VD]; [rewrite (Hsame (or_intror VD)); lia|]. destruct (Hnew eq_refl VD) as (-> & _). lia.
      * rewrite (Hsame (or_introl eq_refl)). lia.
    + intro p. rewrite Split. destruct b.
      * pose proof (proj1 Hb eq_refl) as [VD'|[_ S]].
        { rewrite (Hsame (or_intror VD')), Hv. split; [now left|]. intros [H|[_ ->]]; [assumption|]. now apply Hv. }
        destruct VD as [VD|VD]; [rewrite (Hsame (or_intror VD)), Hv; split; [now left|]; intros [H|[_ ->]]; [assumption|now apply Hv]|].
        destruct (Hnew eq_refl VD) as (Et & Ew & Eo). rewrite <- Hv. unfold vertex_at. rewrite Et. split.
        { intros (v & Hr & <-). destruct (Z.eq_dec v (size s)) as [-> |N]; [right; rewrite Ew; auto|left]. exists v. split; [lia|]. symmetry. apply Eo. lia. }
        { intros [(v & Hr & <-)|[_ ->]]; [exists v; split; [lia|apply Eo; lia]|]. exists (size s). split; [|assumption]. pose proof (g_size _ _ (proj1 (reachable_sound limit q wrap Hl Hq s (point_reachable_ok _ _ _ _ R)))). lia. }
      * rewrite (Hsame (or_introl eq_refl)), Hv. split; [now left|]. intros [H|[S ->]]; [assumption|]. exfalso. assert (false = true) by (apply Hb; right; split; [lia|assumption]). discriminate.
    + rewrite app_length, app_length. cbn [length]. lia.
Qed.

(** What the mesh is after a reset and some insertions, from any earlier state. *)
Definition triangulate (limit q : Z) (wrap : bool) (fuel : nat) (s0 : mesh) (l : list (point * Z)) : res mesh :=
  s <- reset limit s0 ;; run limit q wrap fuel s (inserts l).

(** C88: after a reset and insertions for which there is room, the vertices are the corners of the square and the cells of the points
    inside it. *)
Theorem C88_vertices : forall limit q wrap fuel s0 l s, 4 <= limit <= 8192 -> 0 <= q -> int32s l -> 4 + Z.of_nat (length l) <= limit ->
  triangulate limit q wrap fuel s0 l = Ok s -> forall p, vertex_at s p <-> sites q l p.
Proof.
  intros limit q wrap fuel s0 l s Hl Hq Hi Hc E. unfold triangulate in E. destruct (reset limit s0) as [r| |] eqn:Er; cbn [bind] in E; try discriminate E.
  destruct (reset_sites limit q s0 r Hl Er) as [Es Ev]. refine (proj2 (insert_sites limit q wrap fuel Hl Hq l [] r s Hi _ _ Ev Hc E)); [now apply (pr_reset _ _ _ s0)|cbn; lia].
Qed.
Print Assumptions C88_vertices.

(** C88: the triangles do not depend on the order of the insertions, on hints, on points that come twice or are outside, nor on what was in
    the mesh before the reset. *)
Theorem C88_order : forall limit limit' q wrap wrap' fuel fuel' s0 s0' l l' s s', 4 <= limit <= 8192 -> 4 <= limit' <= 8192 -> 0 <= q ->
  int32s l -> int32s l' -> 4 + Z.of_nat (length l) <= limit -> 4 + Z.of_nat (length l') <= limit' ->
  triangulate limit q wrap fuel s0 l = Ok s -> triangulate limit' q wrap' fuel' s0' l' = Ok s' ->
  (forall p, sites q l p <-> sites q l' p) -> generic (sites q l) -> same_triangles s s'.
Proof.
  intros limit limit' q wrap wrap' fuel fuel' s0 s0' l l' s s' Hl Hl' Hq Hi Hi' Hc Hc' E E' S X.
  pose proof (C88_vertices _ _ _ _ _ _ _ Hl Hq Hi Hc E) as Vs. pose proof (C88_vertices _ _ _ _ _ _ _ Hl' Hq Hi' Hc' E') as Vs'.
  unfold triangulate in E, E'. destruct (reset limit s0) as [r| |] eqn:Er; cbn [bind] in E; try discriminate E. destruct (reset limit' s0') as [r'| |] eqn:Er'; cbn [bind] in E'; try discriminate E'.
  destruct (reset_sites limit q s0 r Hl Er) as [Es Ev]. destruct (reset_sites limit' q s0' r' Hl' Er') as [Es' Ev'].
  pose proof (proj1 (insert_sites limit q wrap fuel Hl Hq l [] r s Hi (pr_reset _ _ _ s0 r Er) ltac:(cbn; lia) Ev Hc E)) as R.
  pose proof (proj1 (insert_sites limit' q wrap' fuel' Hl' Hq l' [] r' s' Hi' (pr_reset _ _ _ s0' r' Er') ltac:(cbn; lia) Ev' Hc' E')) as R'.
  apply (C88_unique limit limit' q q wrap wrap'); try assumption; [intro p; now rewrite Vs, Vs'|]. apply (generic_iff (sites q l)); [intro p; now rewrite Vs|assumption].
Qed.
Print Assumptions C88_order.

(** C88: with wrap-around arithmetic these calls always have a result, after a number of steps that is linear in the capacity. *)
Theorem C88_result : forall limit q fuel s0 l, 4 <= limit <= 8192 -> 0 <= q -> int32s l -> 8 * limit + 8 < Z.of_nat fuel ->
  exists s, triangulate limit q true fuel s0 l = Ok s.
Proof.
  intros limit q fuel s0 l Hl Hq Hi Hf. unfold triangulate. destruct (reset_ok limit s0 Hl) as (r & E & _). rewrite E. cbn [bind].
  assert (R : point_reachable limit q true r) by now apply (pr_reset _ _ _ s0). clear E s0. revert r R. induction l as [|[u h] l IH]; intros r R; [now exists r|].
  cbn [inserts map run run_op]. assert (Hu : int32p u) by (apply (Hi u h); now left).
  pose proof (g_size _ _ (proj1 (reachable_sound limit q true Hl Hq r (point_reachable_ok _ _ _ _ R)))) as Hs.
  destruct (proj2 (C76_insert_point limit q true r fuel u h Hl Hq R Hu ltac:(lia)) eq_refl) as (t & b & Et). rewrite Et. cbn [bind].
  apply IH; [intros v k Hin; apply (Hi v k); now right|]. apply (pr_op limit q true fuel r (Point u h)); [assumption|exact Hu|exact I|cbn [run_op]; now rewrite Et].
Qed.
Print Assumptions C88_result.

(** ** A concrete case *)
Lemma parallel_on_circle d ux uy wx wy px py : 0 < d ->
  d * (ux * ux + uy * uy) + 2 * (ux * px + uy * py) = 0 -> d * (wx * wx + wy * wy) + 2 * (wx * px + wy * py) = 0 -> ux * wy - uy * wx = 0 ->
  0 < ux * ux + uy * uy -> 0 < wx * wx + wy * wy -> 0 < (ux - wx) * (ux - wx) + (uy - wy) * (uy - wy) -> False.
Proof.
  intros Hd U W C NU NW NV. set (uu := ux * ux + uy * uy) in *. set (ww := wx * wx + wy * wy) in *. set (uw := ux * wx + uy * wy).
  assert (X1 : wx * uu - uw * ux = - uy * (ux * wy - uy * wx)) by (unfold uu, uw; ring). assert (X2 : wy * uu - uw * uy = ux * (ux * wy - uy * wx)) by (unfold uu, uw; ring).
  assert (X3 : uu * ww - uw * uw = (ux * wy - uy * wx) * (ux * wy - uy * wx)) by (unfold uu, uw, ww; ring). rewrite C in X1, X2, X3. rewrite Z.mul_0_r in X1, X2, X3.
  assert (Y : uu * (2 * (wx * px + wy * py)) = uw * (2 * (ux * px + uy * py))).
  { replace (uu * (2 * (wx * px + wy * py))) with (2 * (wx * uu * px + wy * uu * py)) by ring. replace (wx * uu) with (uw * ux) by lia. replace (wy * uu) with (uw * uy) by lia. ring. }
  replace (2 * (wx * px + wy * py)) with (- (d * ww)) in Y by lia. replace (2 * (ux * px + uy * py)) with (- (d * uu)) in Y by lia.
  assert (X4 : d * (uw * (uu - uw)) = 0) by (replace (d * (uw * (uu - uw))) with (- (uw * - (d * uu)) - d * (uw * uw)) by ring; rewrite <- Y; replace (uw * uw) with (uu * ww) by lia; ring).
  assert (V : (ux - wx) * (ux - wx) + (uy - wy) * (uy - wy) = uu + ww - 2 * uw) by (unfold uu, ww, uw; ring). rewrite V in NV.
  clearbody uu ww uw. clear - Hd X3 X4 NU NW NV. apply Z.mul_eq_0 in X4. destruct X4 as [X4|X4]; [lia|]. apply Z.mul_eq_0 in X4. destruct X4 as [-> |X4]; [nia|]. assert (uw = uu) as -> by lia. assert (K : uu * (ww - uu) = 0) by lia. apply Z.mul_eq_0 in K. lia.
Qed.
Lemma on_circle_step d x y a b : 0 < d -> distance2 d x y a = distance2 d x y b ->
  d * ((fst b - fst a) * (fst b - fst a) + (snd b - snd a) * (snd b - snd a)) + 2 * ((fst b - fst a) * (d * fst a - x) + (snd b - snd a) * (d * snd a - y)) = 0.
Proof.
  intros Hd E. apply (Z.mul_reg_l _ _ d); [lia|]. rewrite Z.mul_0_r. unfold distance2 in E.
  match goal with |- ?l = 0 => replace l with ((d * fst b - x) * (d * fst b - x) + (d * snd b - y) * (d * snd b - y) - ((d * fst a - x) * (d * fst a - x) + (d * snd a - y) * (d * snd a - y))) by ring end. lia.
Qed.
Lemma apart (a b : point) : a <> b -> 0 < (fst b - fst a) * (fst b - fst a) + (snd b - snd a) * (snd b - snd a).
Proof.
  intro N. destruct a as [ax ay], b as [bx by_]. cbn [fst snd]. assert (K : bx - ax <> 0 \/ by_ - ay <> 0) by (destruct (Z.eq_dec bx ax), (Z.eq_dec by_ ay); [exfalso; apply N; congruence|lia..]).
  set (u := bx - ax) in *. set (w := by_ - ay) in *. clearbody u w. clear N. destruct K; nia.
Qed.
Lemma not_collinear d x y p1 p2 p3 : 0 < d -> p1 <> p2 -> p2 <> p3 -> p3 <> p1 -> distance2 d x y p1 = distance2 d x y p2 -> distance2 d x y p2 = distance2 d x y p3 -> orient p1 p2 p3 <> 0.
Proof.
  intros Hd N1 N2 N3 E1 E2 O.
  apply (parallel_on_circle d (fst p2 - fst p1) (snd p2 - snd p1) (fst p3 - fst p1) (snd p3 - snd p1) (d * fst p1 - x) (d * snd p1 - y) Hd).
  - now apply on_circle_step.
  - apply on_circle_step; [assumption|congruence].
  - unfold orient in O. lia.
  - now apply apart.
  - apply apart. congruence.
  - replace (fst p2 - fst p1 - (fst p3 - fst p1)) with (fst p2 - fst p3) by ring. replace (snd p2 - snd p1 - (snd p3 - snd p1)) with (snd p2 - snd p3) by ring. apply apart. congruence.
Qed.
Definition generic_check (l : list point) : bool :=
  forallb (fun a => forallb (fun b => forallb (fun c => if 0 <=? orient a b c then true else forallb (fun e =>
    if incircle_det a b c e =? 0 then if in_dec point_dec e [a; b; c] then true else existsb (fun p => incircle_det a b c p <? 0) l else true) l) l) l) l.
Lemma generic_check_ok l S : (forall p, S p <-> In p l) -> generic_check l = true -> generic S.
Proof.
  intros HS C. assert (K : forall a b c e d x y, In a l -> In b l -> In c l -> In e l -> NoDup [a; b; c; e] -> 0 < d -> orient a b c < 0 ->
    distance2 d x y a = distance2 d x y b -> distance2 d x y b = distance2 d x y c -> distance2 d x y c = distance2 d x y e -> exists p, S p /\ distance2 d x y p < distance2 d x y a).
  { intros a b c e d x y Ha Hb Hc He ND Hd O E1 E2 E3. unfold generic_check in C. rewrite forallb_forall in C. specialize (C a Ha). rewrite forallb_forall in C. specialize (C b Hb). rewrite forallb_forall in C. specialize (C c Hc).
    destruct (Z.leb_spec 0 (orient a b c)) as [?|_]; [lia|]. rewrite forallb_forall in C. specialize (C e He).
    assert (Z0 : incircle_det a b c e = 0).
    { pose proof (circle_identity d x y a b c e (distance2 d x y a)) as I. rewrite <- E3, <- E2, <- E1, !Z.sub_diag in I. clear - I Hd. nia. }
    rewrite Z0 in C. cbn [Z.eqb] in C. destruct (in_dec point_dec e [a; b; c]) as [J|_].
    - exfalso. clear - ND J. inversion ND as [|? ? N1 ND1]; inversion ND1 as [|? ? N2 ND2]; inversion ND2 as [|? ? N3 ND3]; subst. cbn [In] in *. intuition.
    - apply existsb_exists in C. destruct C as (p & Hp & L). apply Z.ltb_lt in L. exists p. split; [now apply HS|].
      pose proof (circle_identity d x y a b c p (distance2 d x y a)) as I. rewrite <- E2, <- E1, !Z.sub_diag, !Z.mul_0_l in I.
      assert (d * d * incircle_det a b c p < 0) by (apply Z.mul_pos_neg; nia). apply Z.nle_gt. intro Q. assert ((distance2 d x y p - distance2 d x y a) * orient a b c <= 0) by (apply Z.mul_nonneg_nonpos; lia). lia. }
  intros p1 p2 p3 p4 d x y H1 H2 H3 H4 ND Hd E1 E2 E3. apply HS in H1, H2, H3, H4.
  inversion ND as [|? ? N1 ND1]; inversion ND1 as [|? ? N2 ND2]; subst. cbn [In] in N1, N2.
  assert (O : orient p1 p2 p3 <> 0) by (apply (not_collinear d x y); auto).
  assert (O' : orient p1 p2 p3 < 0 \/ orient p2 p1 p3 < 0) by (rewrite (orient_flip p1 p2 p3); lia). destruct O' as [O'|O']; [now apply (K p1 p2 p3 p4)|].
  rewrite E1. apply (K p2 p1 p3 p4); auto; [|congruence]. apply (Permutation_NoDup (l := [p1; p2; p3; p4])); [apply perm_swap|assumption].
Qed.

(** Six points, one of them twice and one outside, in two orders with different hints. *)
Definition some_sites : list (point * Z) := [((100, 200), 0); ((-3000, 40), 24); ((600, 900), 9999); ((20, -7000), 3); ((-1450, 120), 0); ((40000, 0), 0)].
Definition other_sites : list (point * Z) := [((20, -7000), 0); ((600, 901), 0); ((-3000, 40), 77); ((-1450, 120), 25); ((101, 200), 0); ((-3000, 40), 24)].
Example C88_case : exists s s', triangulate 32 0 true 300 blank some_sites = Ok s /\ triangulate 16 0 true 300 s other_sites = Ok s' /\
  size s = 9 /\ (forall p, sites 0 some_sites p <-> sites 0 other_sites p) /\ generic (sites 0 some_sites) /\ same_triangles s s'.
Proof.
  assert (I1 : int32s some_sites) by (intros u h H; unfold int32p; repeat (destruct H as [E|H]; [injection E as <- <-; cbn [fst snd]; lia|]); destruct H).
  assert (I2 : int32s other_sites) by (intros u h H; unfold int32p; repeat (destruct H as [E|H]; [injection E as <- <-; cbn [fst snd]; lia|]); destruct H).
  set (l := square ++ [(100, 200); (-3000, 40); (600, 900); (20, -7000); (-1450, 120)]).
  assert (S1 : forall p, sites 0 some_sites p <-> In p l).
  { intro p. unfold sites, l. rewrite in_app_iff. split.
    - intros [H|(S & u & h & H & ->)]; [now left|]. cbn [In some_sites] in H. repeat (destruct H as [E|H]; [injection E as <- <-; first [right; cbn; now auto 10|exfalso; unfold strictly_inside in S; vm_compute in S; intuition congruence]|]). destruct H.
    - intros [H|H]; [now left|right]. cbn [In] in H. repeat (destruct H as [<-|H]; [split; [unfold strictly_inside, low, high; cbn [fst snd]; lia|]|]).
      + exists (100, 200), 0. split; [cbn; auto 10|reflexivity].
      + exists (-3000, 40), 24. split; [cbn; auto 10|reflexivity].
      + exists (600, 900), 9999. split; [cbn; auto 10|reflexivity].
      + exists (20, -7000), 3. split; [cbn; auto 10|reflexivity].
      + exists (-1450, 120), 0. split; [cbn; auto 10|reflexivity].
      + destruct H. }
  assert (S2 : forall p, sites 0 other_sites p <-> In p l).
  { intro p. unfold sites, l. rewrite in_app_iff. split.
    - intros [H|(S & u & h & H & ->)]; [now left|]. cbn [In other_sites] in H. repeat (destruct H as [E|H]; [injection E as <- <-; right; cbn; now auto 10|]). destruct H.
    - intros [H|H]; [now left|right]. cbn [In] in H. repeat (destruct H as [<-|H]; [split; [unfold strictly_inside, low, high; cbn [fst snd]; lia|]|]).
      + exists (101, 200), 0. split; [cbn; auto 10|reflexivity].
      + exists (-3000, 40), 24. split; [cbn; auto 10|reflexivity].
      + exists (600, 901), 0. split; [cbn; auto 10|reflexivity].
      + exists (20, -7000), 0. split; [cbn; auto 10|reflexivity].
      + exists (-1450, 120), 25. split; [cbn; auto 10|reflexivity].
      + destruct H. }
  assert (S : forall p, sites 0 some_sites p <-> sites 0 other_sites p) by (intro p; now rewrite S1, S2).
  assert (X : generic (sites 0 some_sites)) by (apply (generic_check_ok l); [exact S1|vm_compute; reflexivity]).
  destruct (C88_result 32 0 300 blank some_sites ltac:(lia) ltac:(lia) I1 ltac:(lia)) as (s & Es). destruct (C88_result 16 0 300 s other_sites ltac:(lia) ltac:(lia) I2 ltac:(lia)) as (s' & Es').
  exists s, s'. split; [exact Es|]. split; [exact Es'|]. split; [|split; [exact S|]; split; [exact X|]].
  - clear Es' S X S1 S2. assert (K : match triangulate 32 0 true 300 blank some_sites with Ok s => size s | _ => 0 end = 9) by (vm_compute; reflexivity). now rewrite Es in K.
  - exact (C88_order 32 16 0 true true 300 300 blank s some_sites other_sites s s' ltac:(lia) ltac:(lia) ltac:(lia) I1 I2 ltac:(cbn; lia) ltac:(cbn; lia) Es Es' S X).
Qed.

(** C88 (refuted without that condition): when an empty circle goes through four vertices, which way the quadrilateral is cut depends on
    the order of the insertions. *)
Definition round_sites : list (point * Z) := [((100, 0), 0); ((0, 100), 0); ((-100, 0), 0); ((0, -100), 0)].
Definition triangle_eqb (t u : triangle) : bool :=
  let '(a, b, c) := t in let '(d, e, f) := u in if point_dec a d then if point_dec b e then if point_dec c f then true else false else false else false.
Definition turned_b (t u : triangle) : bool := let '(a, b, c) := t in (triangle_eqb (a, b, c) u || triangle_eqb (b, c, a) u || triangle_eqb (c, a, b) u)%bool.
Definition lacks (s s' : mesh) : bool := existsb (fun t => negb (existsb (fun u => turned_b u t) (triangles s'))) (triangles s).
Lemma turned_b_ok t u : turned_b t u = true <-> turned t u.
Proof.
  assert (K : forall t u, triangle_eqb t u = true <-> t = u).
  { intros [[a b] c] [[d e] f]. unfold triangle_eqb. destruct (point_dec a d), (point_dec b e), (point_dec c f); split; intro H; try discriminate H; congruence. }
  destruct t as [[a b] c]. unfold turned_b, turned. rewrite !Bool.orb_true_iff, !K. intuition congruence.
Qed.
Lemma lacks_ok s s' : 4 <= size s' -> 4 <= size s -> lacks s s' = true -> ~ same_triangles s s'.
Proof.
  intros Hs Hs' L T. apply existsb_exists in L. destruct L as (t & Ht & N). apply Bool.negb_true_iff in N. apply in_map_iff in Ht. destruct Ht as (f & <- & Hf). apply all_faces_in in Hf; [|assumption].
  assert (K : has_triangle s (face_triangle s f)) by (exists f; split; [assumption|destruct (face_triangle s f) as [[a b] c]; now left]).
  apply T in K. destruct K as (g & Hg & K). assert (existsb (fun u => turned_b u (face_triangle s f)) (triangles s') = true); [|congruence].
  apply existsb_exists. exists (face_triangle s' g). split; [apply in_map, all_faces_in; assumption|now apply turned_b_ok].
Qed.
Definition differ (r r' : res mesh) : bool := match r, r' with Ok s, Ok s' => ((4 <=? size s) && (4 <=? size s') && lacks s s')%bool | _, _ => false end.
Lemma differ_ok r r' : differ r r' = true -> exists s s', r = Ok s /\ r' = Ok s' /\ ~ same_triangles s s'.
Proof.
  intro K. destruct r as [s| |], r' as [s'| |]; try discriminate K. exists s, s'. split; [reflexivity|]. split; [reflexivity|].
  apply andb_prop in K as [K L]. apply andb_prop in K as [K1 K2]. apply Z.leb_le in K1, K2. now apply lacks_ok.
Qed.
Lemma round_sites_range : int32s round_sites.
Proof. intros u h H; unfold int32p; repeat (destruct H as [E|H]; [injection E as <- <-; cbn [fst snd]; lia|]); destruct H. Qed.
Lemma round_sites_rev p : sites 0 round_sites p <-> sites 0 (rev round_sites) p.
Proof.
  unfold sites. split; (intros [H|(S & u & h & H & ->)]; [now left|right; split; [assumption|]; exists u, h; split; [|reflexivity]]); [now apply -> in_rev|now apply in_rev].
Qed.
Theorem C88_cocircular_refuted : exists l l' s s', int32s l /\ int32s l' /\ (length l <= 28)%nat /\ (length l' <= 28)%nat /\
  triangulate 32 0 true 300 blank l = Ok s /\ triangulate 32 0 true 300 blank l' = Ok s' /\ (forall p, sites 0 l p <-> sites 0 l' p) /\ ~ same_triangles s s'.
Proof.
  exists round_sites, (rev round_sites).
  assert (K : differ (triangulate 32 0 true 300 blank round_sites) (triangulate 32 0 true 300 blank (rev round_sites)) = true) by (vm_compute; reflexivity).
  destruct (differ_ok _ _ K) as (s & s' & E & E' & N). exists s, s'.
  split; [exact round_sites_range|]. split; [intros u h H; apply (round_sites_range u h); exact (proj2 (in_rev _ _) H)|]. split; [cbn [length round_sites]; lia|]. split; [rewrite rev_length; cbn [length round_sites]; lia|].
  split; [exact E|]. split; [exact E'|]. split; [exact round_sites_rev|exact N].
Qed.
Print Assumptions C88_cocircular_refuted.
