(** C103: the edges of a triangulation of points as a graph. *)
From Coq Require Import List ZArith Lia Bool.
Import ListNotations.
From Verif Require Import Base Vec_Model Math_Model Vec_Spec Vec_Props Math_Spec Cdt_Model Cdt_Geom Cdt_Mesh Cdt_Flip Cdt_Insert Cdt_OnEdge Cdt_Walk Cdt_Spec Cdt_Tile Cdt_Reset Cdt_Steps Cdt_History Cdt_Props Cdt_Planar Cdt_EdgeSpec Cdt_Edge_Props Cdt_Circle Cdt_Delaunay_Props Cdt_Existing Cdt_Existing_Props Cdt_Graph.
Local Open Scope Z_scope.

(** ** Specification *)

(** The square of the distance of two points. *)
Definition apart (a b : point) : Z := (fst a - fst b) * (fst a - fst b) + (snd a - snd b) * (snd a - snd b).
(** v is in the circle, or on it, that has the segment from p to r as a diameter: twice the distance from v to the middle is at most the
    length of the segment. *)
Definition in_diameter (p r v : point) : Prop := distance2 2 (fst p + fst r) (snd p + snd r) v <= apart p r.
(** Vertices joined by a chain whose links are all at most so long (squared): any jumps, and jumps along edges of the mesh. *)
Inductive hops (s : mesh) (len : Z) : point -> point -> Prop :=
| hop_none p : hops s len p p
| hop_next p u r : vertex_at s u -> apart p u <= len -> hops s len u r -> hops s len p r.
Inductive path (s : mesh) (len : Z) : point -> point -> Prop :=
| path_none p : path s len p p
| path_next p u r : edge_between s p u -> apart p u <= len -> path s len u r -> path s len p r.
(** A walk along edges that comes closer to (x / d, y / d) with every step. *)
Inductive approach (s : mesh) (d x y : Z) : point -> point -> Prop :=
| app_none p : approach s d x y p p
| app_next p u r : edge_between s p u -> distance2 d x y u < distance2 d x y p -> approach s d x y u r -> approach s d x y p r.

(** ** Proofs *)
Lemma dot_disc p r v : ~ in_diameter p r v <-> 0 < dot v p r.
Proof.
  unfold in_diameter, apart, distance2, dot. destruct p as [px py], r as [rx ry], v as [vx vy]. cbn [fst snd].
  replace ((2 * vx - (px + rx)) * (2 * vx - (px + rx)) + (2 * vy - (py + ry)) * (2 * vy - (py + ry)))
    with (4 * ((vx - px) * (vx - rx) + (vy - py) * (vy - ry)) + ((px - rx) * (px - rx) + (py - ry) * (py - ry))) by ring. lia.
Qed.
(** The triangle over the diagonal: of three points, with v on or in the circle, both other sides are shorter. *)
Lemma in_disc_shorter p r v : v <> p -> v <> r -> in_diameter p r v -> apart p v < apart p r /\ apart v r < apart p r.
Proof.
  intros N1 N2 H. assert (D : dot v p r <= 0) by (destruct (Z.lt_ge_cases 0 (dot v p r)) as [K|K]; [apply dot_disc in K; contradiction|assumption]). clear H.
  assert (E : apart p r = apart p v + apart v r - 2 * dot v p r) by (unfold apart, dot; ring).
  assert (Q : forall a b : point, a <> b -> 0 < apart a b).
  { intros [ax ay] [bx by_] N. unfold apart. cbn [fst snd]. assert (ax <> bx \/ ay <> by_) as [K|K] by (destruct (Z.eq_dec ax bx) as [-> |]; [right; congruence|now left]).
    all: pose proof (Z.square_nonneg (ax - bx)); pose proof (Z.square_nonneg (ay - by_)); first [assert ((ax - bx) * (ax - bx) <> 0) by (intro E0; apply Z.mul_eq_0 in E0; lia); lia|assert ((ay - by_) * (ay - by_) <> 0) by (intro E0; apply Z.mul_eq_0 in E0; lia); lia]. }
  pose proof (Q p v (fun e => N1 (eq_sym e))). pose proof (Q v r N2). lia.
Qed.

Section Graph.
  Context (limit : Z) (s : mesh).
  Hypothesis G : good limit s.
  Hypothesis U : forall v, 0 <= v < size s -> exists m, node s m /\ pt s m = v.
  Hypothesis B : empty_circles s.

  Lemma vertex_box p : vertex_at s p -> inbox p.
  Proof. intros (v & Hv & <-). exact (g_box _ _ G v Hv). Qed.
  Lemma face_at f : face s f -> face_triangle s f = (P s (4 * f), P s (nxt (4 * f)), P s (prv (4 * f))).
  Proof. intros _. unfold face_triangle, corner. destruct (four f) as (-> & -> & _). change (0 mod 3) with 0. rewrite Z.add_0_r. reflexivity. Qed.
  Lemma face_empty f p : face s f -> vertex_at s p -> 0 <= incircle_det (P s (4 * f)) (P s (nxt (4 * f))) (P s (prv (4 * f))) p.
  Proof.
    intros Hf (v & Hv & <-). pose proof (B f v Hf Hv) as K. rewrite (face_at f Hf) in K. rewrite (inside_circle_det _ _ _ _ (g_cw _ _ G _ (face_node s f Hf))) in K. now apply Z.nlt_ge.
  Qed.
  Lemma corner_at f v : face s f -> v = P s (4 * f) \/ v = P s (nxt (4 * f)) \/ v = P s (prv (4 * f)) -> vertex_at s v.
  Proof.
    intros Hf H. pose proof (good_consistent limit s G f) as C. destruct (four f) as (E1 & E2 & _).
    destruct H as [-> |[-> | ->]]; [exists (corner s f 0)|exists (corner s f 1)|exists (corner s f 2)]; (split; [apply C; [assumption|unfold side; auto]|]); unfold corner, where_is, P, V; rewrite ?E1, ?E2;
      [change (0 mod 3) with 0; rewrite Z.add_0_r; reflexivity|reflexivity..].
  Qed.
  (** Two different corners of a face are joined by an edge. *)
  Lemma corners_joined f p r : face s f -> p <> r -> In p [P s (4 * f); P s (nxt (4 * f)); P s (prv (4 * f))] -> In r [P s (4 * f); P s (nxt (4 * f)); P s (prv (4 * f))] -> edge_between s p r.
  Proof.
    intros Hf N Hp Hr. cbn [In] in Hp, Hr. destruct (four f) as (E1 & E2 & _).
    assert (X0 : where_is s (edge_from s f 0) = P s (nxt (4 * f)) /\ where_is s (edge_to s f 0) = P s (prv (4 * f))) by (unfold edge_from, edge_to, corner, where_is, P, V; rewrite E1, E2; split; reflexivity).
    assert (X1 : where_is s (edge_from s f 1) = P s (prv (4 * f)) /\ where_is s (edge_to s f 1) = P s (4 * f)) by (unfold edge_from, edge_to, corner, where_is, P, V; rewrite E2; change ((1 + 2) mod 3) with 0; rewrite Z.add_0_r; split; reflexivity).
    assert (X2 : where_is s (edge_from s f 2) = P s (4 * f) /\ where_is s (edge_to s f 2) = P s (nxt (4 * f))) by (unfold edge_from, edge_to, corner, where_is, P, V; rewrite E1; change ((2 + 1) mod 3) with 0; rewrite Z.add_0_r; split; reflexivity).
    destruct Hp as [Hp|[Hp|[Hp|[]]]], Hr as [Hr|[Hr|[Hr|[]]]]; try congruence.
    all: first [exists f, 0; split; [assumption|split; [unfold side; auto|]]; destruct X0 as [-> ->]; rewrite <- Hp, <- Hr in *; solve [left; split; congruence|right; split; congruence]
               |exists f, 1; split; [assumption|split; [unfold side; auto|]]; destruct X1 as [-> ->]; rewrite <- Hp, <- Hr in *; solve [left; split; congruence|right; split; congruence]
               |exists f, 2; split; [assumption|split; [unfold side; auto|]]; destruct X2 as [-> ->]; rewrite <- Hp, <- Hr in *; solve [left; split; congruence|right; split; congruence]].
  Qed.

  Lemma gabriel p r : vertex_at s p -> vertex_at s r -> p <> r -> (forall v, vertex_at s v -> v = p \/ v = r \/ ~ in_diameter p r v) -> edge_between s p r.
  Proof.
    intros Hp Hr N H. pose proof (vertex_box p Hp) as Bp. pose proof (vertex_box r Hr) as Br.
    destruct (cover_scaled limit s 2 (plus p r) G ltac:(lia)) as (f & Hf & L1 & L2 & L3).
    { unfold in_scaled, plus, inbox, lo, hi, low, high in *. change (2 ^ 15) with 32768 in *. cbn [fst snd]. lia. }
    destruct (diameter_corners _ _ _ p r (g_cw _ _ G _ (face_node s f Hf)) N L1 L2 L3 (face_empty f p Hf Hp) (face_empty f r Hf Hr)) as [I1 I2].
    - intros v Hv. destruct (H v (corner_at f v Hf Hv)) as [?|[?|K]]; [auto|auto|]. right. right. now apply dot_disc.
    - now apply (corners_joined f).
  Qed.

  Lemma greedy d x y p r : vertex_at s p -> vertex_at s r -> distance2 d x y r < distance2 d x y p -> exists u, vertex_at s u /\ edge_between s p u /\ distance2 d x y u < distance2 d x y p.
  Proof.
    intros Hp Hr C. pose proof (vertex_box p Hp) as Bp. pose proof (vertex_box r Hr) as Br.
    destruct (cover_scaled limit s bigk (toward bigk p r) G ltac:(unfold bigk; lia) (toward_in p r Bp Br)) as (f & Hf & L1 & L2 & L3).
    pose proof (face_node s f Hf) as Hn. pose proof (g_cw _ _ G _ Hn) as O.
    pose proof (fn_box limit s _ G (or_introl Hn)) as B0. pose proof (fn_box limit s _ G (or_introl (nxt_node s _ Hn))) as B1. pose proof (fn_box limit s _ G (or_introl (prv_node s _ Hn))) as B2.
    destruct (toward_side _ _ p r B0 B1 Br L1) as [S1 T1]. destruct (toward_side _ _ p r B1 B2 Br L2) as [S2 T2]. destruct (toward_side _ _ p r B2 B0 Br L3) as [S3 T3].
    assert (K : is_corner s p (4 * f)).
    { destruct Hp as (v & Hv & <-). destruct (U v Hv) as (m & Hm & Em). subst v. change (where_is s (pt s m)) with (P s m) in *. apply (vertex_in_face limit s (4 * f) m G Hn Hm).
      unfold closed_face. rewrite <- !(orient_rot (P s m)). auto. }
    pose proof (face_empty f r Hf Hr) as D. pose proof (corner_at f) as CA. pose proof (corners_joined f) as CJ. cbn [In] in CJ. unfold is_corner in K.
    set (a := P s (4 * f)) in *. set (b := P s (nxt (4 * f))) in *. set (c := P s (prv (4 * f))) in *. clearbody a b c.
    assert (Z0 : forall u v : point, orient u v u = 0 /\ orient v u u = 0) by (intros; unfold orient; split; ring).
    assert (Nd : forall u, distance2 d x y u < distance2 d x y p -> p <> u) by (intros u Hu ->; lia).
    assert (Fin : forall u, u = a \/ u = b \/ u = c -> p = a \/ p = b \/ p = c -> distance2 d x y u < distance2 d x y p -> exists u, vertex_at s u /\ edge_between s p u /\ distance2 d x y u < distance2 d x y p).
    { intros u Hu Hp' L. exists u. split; [now apply CA|]. split; [|assumption]. apply CJ; [assumption|now apply Nd|intuition|intuition]. }
    destruct K as [-> |[-> | ->]].
    - destruct (closer d x y a b c r O (T1 (proj1 (Z0 a b))) (T3 (proj2 (Z0 a c))) D C) as [E|E]; (eapply Fin; [| |exact E]; auto).
    - rewrite <- det_rot in D. rewrite <- orient_rot in O.
      destruct (closer d x y b c a r O (T2 (proj1 (Z0 b c))) (T1 (proj2 (Z0 b a))) D C) as [E|E]; (eapply Fin; [| |exact E]; auto).
    - rewrite <- det_rot, <- det_rot in D. rewrite <- orient_rot, <- orient_rot in O.
      destruct (closer d x y c a b r O (T3 (proj1 (Z0 c a))) (T2 (proj2 (Z0 c b))) D C) as [E|E]; (eapply Fin; [| |exact E]; auto).
  Qed.
End Graph.
Lemma point_eq (a b : point) : {a = b} + {a <> b}.
Proof. decide equality; apply Z.eq_dec. Defined.
Lemma vertices_dec s (Q : point -> bool) : (exists v, vertex_at s v /\ Q v = true) \/ (forall v, vertex_at s v -> Q v = false).
Proof.
  destruct (existsb (fun i => Q (where_is s (Z.of_nat i))) (seq 0 (Z.to_nat (size s)))) eqn:E.
  - left. apply existsb_exists in E. destruct E as (i & Hi & E). apply in_seq in Hi. exists (where_is s (Z.of_nat i)). split; [|assumption]. exists (Z.of_nat i). split; [lia|reflexivity].
  - right. intros v (i & Hi & <-). destruct (Q (where_is s i)) eqn:Ev; [|reflexivity]. exfalso. rewrite <- Bool.not_true_iff_false in E. apply E. apply existsb_exists. exists (Z.to_nat i). split; [apply in_seq; lia|]. rewrite Z2Nat.id by lia. assumption.
Qed.
Lemma edge_vertices limit s a b : good limit s -> edge_between s a b -> vertex_at s a /\ vertex_at s b.
Proof.
  intros G (f & i & Hf & Hi & H).
  assert (K : vertex_at s (where_is s (edge_from s f i)) /\ vertex_at s (where_is s (edge_to s f i))).
  { assert (C : forall j, side j -> vertex_at s (where_is s (corner s f j))) by (intros j Hj; exists (corner s f j); split; [apply (good_consistent limit s G f j Hf Hj)|reflexivity]).
    unfold edge_from, edge_to, corner in *. destruct Hi as [-> |[-> | ->]]; split; [apply (C 1)|apply (C 2)|apply (C 2)|apply (C 0)|apply (C 0)|apply (C 1)]; unfold side; auto. }
  destruct H as [[<- <-]|[<- <-]]; tauto.
Qed.
Lemma path_app s len p u r : path s len p u -> path s len u r -> path s len p r.
Proof. induction 1 as [|p w u E L H IH]; intro K; [assumption|]. apply (path_next _ _ p w); auto. Qed.
Lemma path_mono s len len' p r : len <= len' -> path s len p r -> path s len' p r.
Proof. intros L. induction 1 as [|p w u E L' H IH]; [constructor|]. apply (path_next _ _ p w); [assumption|lia|assumption]. Qed.

(** ** C103 *)

(** C103: two vertices are joined by an edge when no other vertex is in the circle between them, or on it. *)
Theorem C103_circle : forall limit q wrap s p r, 4 <= limit <= 8192 -> 0 <= q -> point_reachable limit q wrap s -> vertex_at s p -> vertex_at s r -> p <> r ->
  (forall v, vertex_at s v -> in_diameter p r v -> v = p \/ v = r) -> edge_between s p r.
Proof.
  intros limit q wrap s p r Hl Hq R Hp Hr N H. pose proof (reachable_sound limit q wrap Hl Hq s (point_reachable_ok _ _ _ _ R)) as (G & _).
  pose proof (proj2 (C70_delaunay limit q wrap s Hl Hq R)) as B. apply (gabriel limit s G B); try assumption.
  intros v Hv. destruct (point_eq v p) as [?|N1]; [now left|]. destruct (point_eq v r) as [?|N2]; [right; now left|]. right. right. intro K. destruct (H v Hv K); contradiction.
Qed.
Print Assumptions C103_circle.

(** C103: every vertex is joined to its nearest vertex; when several are nearest, to all of them. *)
Theorem C103_nearest : forall limit q wrap s p r, 4 <= limit <= 8192 -> 0 <= q -> point_reachable limit q wrap s -> vertex_at s p -> vertex_at s r -> p <> r ->
  (forall v, vertex_at s v -> v <> p -> apart p r <= apart p v) -> edge_between s p r.
Proof.
  intros limit q wrap s p r Hl Hq R Hp Hr N H. apply (C103_circle limit q wrap); try assumption. intros v Hv D.
  destruct (point_eq v p) as [?|N1]; [now left|]. destruct (point_eq v r) as [?|N2]; [now right|]. destruct (in_disc_shorter p r v N1 N2 D) as [K _]. specialize (H v Hv N1). lia.
Qed.
Print Assumptions C103_nearest.

(** C103: however the vertices are put into two groups, the shortest connections between the groups are edges; so the edges contain a
    shortest tree that connects all vertices. *)
Theorem C103_groups : forall limit q wrap s (group : point -> bool) p r, 4 <= limit <= 8192 -> 0 <= q -> point_reachable limit q wrap s -> vertex_at s p -> vertex_at s r ->
  group p = true -> group r = false -> (forall u v, vertex_at s u -> vertex_at s v -> group u = true -> group v = false -> apart p r <= apart u v) -> edge_between s p r.
Proof.
  intros limit q wrap s group p r Hl Hq R Hp Hr E1 E2 H. apply (C103_circle limit q wrap); try assumption; [congruence|]. intros v Hv D.
  destruct (point_eq v p) as [?|N1]; [now left|]. destruct (point_eq v r) as [?|N2]; [now right|]. exfalso. destruct (in_disc_shorter p r v N1 N2 D) as [K1 K2].
  destruct (group v) eqn:E; [specialize (H v r Hv Hr E E2); lia|specialize (H p v Hp Hv E1 E); lia].
Qed.
Print Assumptions C103_groups.

(** C103: whoever can get from p to r by jumps between vertices that are at most so long can do it along edges that are at most so long. *)
Theorem C103_jumps : forall limit q wrap s len p r, 4 <= limit <= 8192 -> 0 <= q -> point_reachable limit q wrap s -> vertex_at s p ->
  hops s len p r <-> path s len p r.
Proof.
  intros limit q wrap s len p r Hl Hq R Hp. pose proof (reachable_sound limit q wrap Hl Hq s (point_reachable_ok _ _ _ _ R)) as (G & _).
  assert (One : forall n p r, (Z.to_nat (apart p r) < n)%nat -> vertex_at s p -> vertex_at s r -> path s (apart p r) p r).
  { clear p r Hp. induction n as [|n IH]; intros p r Hn Hp Hr; [lia|]. destruct (point_eq p r) as [<-|N]; [constructor|].
    destruct (vertices_dec s (fun v => negb (same_point v p) && negb (same_point v r) && (distance2 2 (fst p + fst r) (snd p + snd r) v <=? apart p r))) as [(v & Hv & E)|E].
    - rewrite !andb_true_iff, !negb_true_iff, Z.leb_le in E. destruct E as ((E1 & E2) & D).
      assert (S : forall a, same_point a a = true) by (intro a; unfold same_point; now rewrite !Z.eqb_refl).
      assert (N1 : v <> p) by (intros ->; rewrite S in E1; discriminate). assert (N2 : v <> r) by (intros ->; rewrite S in E2; discriminate).
      destruct (in_disc_shorter p r v N1 N2 D) as [K1 K2]. assert (0 <= apart p v /\ 0 <= apart v r) by (unfold apart; split; apply Z.add_nonneg_nonneg; apply Z.square_nonneg).
      apply (path_app _ _ p v); [apply (path_mono s (apart p v)); [lia|apply IH; [lia|assumption..]]|apply (path_mono s (apart v r)); [lia|apply IH; [lia|assumption..]]].
    - apply (path_next _ _ p r); [|lia|constructor]. apply (C103_circle limit q wrap); try assumption. intros v Hv D.
      destruct (point_eq v p) as [?|N1]; [now left|]. destruct (point_eq v r) as [?|N2]; [now right|]. exfalso. specialize (E v Hv). cbv beta in E. rewrite !andb_false_iff, !negb_false_iff, Z.leb_gt in E.
      destruct E as [[E|E]|E]; [now apply same_point_ok in E|now apply same_point_ok in E|unfold in_diameter in D; lia]. }
  split.
  - intro H. revert Hp. induction H as [p|p u r Hu L H IH]; intro Hp; [constructor|]. apply (path_app _ _ p u); [|now apply IH]. apply (path_mono s (apart p u)); [assumption|]. now apply (One (S (Z.to_nat (apart p u)))); [lia|..].
  - intro H. clear Hp. induction H as [p|p u r E L H IH]; [constructor|]. apply (hop_next _ _ p u); [apply (edge_vertices limit s p u G E)|assumption..].
Qed.
Print Assumptions C103_jumps.

(** C103: from a vertex that is not the nearest one to a point, at (x / d, y / d), there is an edge to a vertex that is nearer to it. *)
Theorem C103_step : forall limit q wrap s d x y p r, 4 <= limit <= 8192 -> 0 <= q -> point_reachable limit q wrap s -> vertex_at s p -> vertex_at s r ->
  distance2 d x y r < distance2 d x y p -> exists u, edge_between s p u /\ distance2 d x y u < distance2 d x y p.
Proof.
  intros limit q wrap s d x y p r Hl Hq R Hp Hr C. pose proof (reachable_sound limit q wrap Hl Hq s (point_reachable_ok _ _ _ _ R)) as (G & U & _).
  pose proof (proj2 (C70_delaunay limit q wrap s Hl Hq R)) as B. destruct (greedy limit s G U B d x y p r Hp Hr C) as (u & _ & E & L). exists u. auto.
Qed.
Print Assumptions C103_step.

(** C103: so every walk along edges that comes nearer with each step can be continued until it is at the nearest vertex. *)
Theorem C103_walk : forall limit q wrap s d x y p, 4 <= limit <= 8192 -> 0 <= q -> point_reachable limit q wrap s -> vertex_at s p ->
  exists r, approach s d x y p r /\ vertex_at s r /\ forall v, vertex_at s v -> distance2 d x y r <= distance2 d x y v.
Proof.
  intros limit q wrap s d x y p Hl Hq R Hp. pose proof (reachable_sound limit q wrap Hl Hq s (point_reachable_ok _ _ _ _ R)) as (G & _).
  assert (W : forall n p, (Z.to_nat (distance2 d x y p) < n)%nat -> vertex_at s p -> exists r, approach s d x y p r /\ vertex_at s r /\ forall v, vertex_at s v -> distance2 d x y r <= distance2 d x y v); [|now apply (W (S (Z.to_nat (distance2 d x y p)))); [lia|]].
  clear p Hp. induction n as [|n IH]; intros p Hn Hp; [lia|].
  destruct (vertices_dec s (fun v => distance2 d x y v <? distance2 d x y p)) as [(v & Hv & E)|E].
  - apply Z.ltb_lt in E. destruct (C103_step limit q wrap s d x y p v Hl Hq R Hp Hv E) as (u & Eu & L).
    assert (0 <= distance2 d x y u) by (unfold distance2; apply Z.add_nonneg_nonneg; apply Z.square_nonneg).
    destruct (IH u ltac:(lia) (proj2 (edge_vertices limit s p u G Eu))) as (r & A & Hr & M). exists r. split; [now apply (app_next _ _ _ _ p u)|auto].
  - exists p. split; [constructor|]. split; [assumption|]. intros v Hv. specialize (E v Hv). cbv beta in E. apply Z.ltb_ge in E. assumption.
Qed.
Print Assumptions C103_walk.
(** ** The hypotheses are met, and what is not claimed *)
Definition everyb (s : mesh) (Q : point -> bool) : bool := forallb (fun i => Q (where_is s (Z.of_nat i))) (seq 0 (Z.to_nat (size s))).
Lemma everyb_ok s Q : everyb s Q = true -> forall v, vertex_at s v -> Q v = true.
Proof. intros H v (i & Hi & <-). unfold everyb in H. rewrite forallb_forall in H. specialize (H (Z.to_nat i)). rewrite Z2Nat.id in H by lia. apply H, in_seq. lia. Qed.
Lemma same_point_refl a : same_point a a = true.
Proof. unfold same_point. now rewrite !Z.eqb_refl. Qed.
Definition four_points : list op := [Point (0, 0) 0; Point (100, 0) 0; Point (40, 300) 0; Point (-200, -100) 0].

(** In a mesh of eight vertices: a nearest vertex, the shortest connection of two groups, an empty circle, a vertex that is not the nearest one to a
    point, and jumps of at most 350 from end to end. *)
Example C103_nonvacuous : exists s, point_reachable 32 0 true s /\ size s = 8 /\ vertex_at s (0, 0) /\ vertex_at s (100, 0) /\ vertex_at s (40, 300) /\ vertex_at s (-200, -100) /\
  (forall v, vertex_at s v -> v <> (0, 0) -> apart (0, 0) (100, 0) <= apart (0, 0) v) /\
  (forall v, vertex_at s v -> in_diameter (0, 0) (40, 300) v -> v = (0, 0) \/ v = (40, 300)) /\
  hops s (350 * 350) (-200, -100) (40, 300) /\ distance2 1 3 250 (40, 300) < distance2 1 3 250 (-200, -100) /\
  (forall u v, vertex_at s u -> vertex_at s v -> (fst u <? 50) = true -> (fst v <? 50) = false -> apart (0, 0) (100, 0) <= apart u v).
Proof.
  assert (K : match history 32 true 200 four_points with
    | Ok s => (size s =? 8) && same_point (where_is s 4) (0, 0) && same_point (where_is s 5) (100, 0) && same_point (where_is s 6) (40, 300) && same_point (where_is s 7) (-200, -100)
        && everyb s (fun v => same_point v (0, 0) || (apart (0, 0) (100, 0) <=? apart (0, 0) v))
        && everyb s (fun v => negb (distance2 2 40 300 v <=? apart (0, 0) (40, 300)) || same_point v (0, 0) || same_point v (40, 300))
        && everyb s (fun u => everyb s (fun v => negb (fst u <? 50) || (fst v <? 50) || (apart (0, 0) (100, 0) <=? apart u v)))
    | _ => false end = true) by (vm_compute; reflexivity).
  destruct (history 32 true 200 four_points) as [s| |] eqn:Es; try discriminate K. rewrite !andb_true_iff, Z.eqb_eq in K. destruct K as (((((((K1 & K2) & K3) & K4) & K5) & K6) & K7) & K8).
  apply same_point_ok in K2, K3, K4, K5. exists s. split; [apply (history_points 32 true 200 four_points); [reflexivity|cbn [four_points In]; intros o H; repeat destruct H as [<-|H]; try exact I; contradiction|assumption]|].
  split; [assumption|]. assert (V0 : vertex_at s (0, 0)) by (exists 4; split; [lia|assumption]). assert (V1 : vertex_at s (100, 0)) by (exists 5; split; [lia|assumption]).
  assert (V2 : vertex_at s (40, 300)) by (exists 6; split; [lia|assumption]). assert (V3 : vertex_at s (-200, -100)) by (exists 7; split; [lia|assumption]).
  split; [assumption|]. split; [assumption|]. split; [assumption|]. split; [assumption|]. split; [|split; [|split; [|split]]].
  - intros v Hv N. pose proof (everyb_ok s _ K6 v Hv) as E. cbv beta in E. apply orb_true_iff in E. destruct E as [E|E]; [apply same_point_ok in E; contradiction|now apply Z.leb_le].
  - intros v Hv D. pose proof (everyb_ok s _ K7 v Hv) as E. cbv beta in E. rewrite !orb_true_iff, negb_true_iff, Z.leb_gt in E. unfold in_diameter in D. cbn [fst snd] in D. change (0 + 40) with 40 in D. change (0 + 300) with 300 in D.
    destruct E as [[E|E]|E]; [lia|left; now apply same_point_ok|right; now apply same_point_ok].
  - apply (hop_next _ _ _ (0, 0)); [assumption|vm_compute; discriminate|]. apply (hop_next _ _ _ (40, 300)); [assumption|vm_compute; discriminate|constructor].
  - reflexivity.
  - intros u v Hu Hv E1 E2. pose proof (everyb_ok s _ K8 u Hu) as E. cbv beta in E. pose proof (everyb_ok s _ E v Hv) as F. cbv beta in F. rewrite E1, E2 in F. cbn [negb orb] in F. now apply Z.leb_le.
Qed.

(** Not so after insert_edge: here a constrained edge keeps two nearest vertices apart. *)
Theorem C103_edge_refuted : exists s, reachable 32 0 true s /\ size s = 8 /\ vertex_at s (0, 100) /\ vertex_at s (0, -100) /\
  (forall v, vertex_at s v -> v <> (0, 100) -> apart (0, 100) (0, -100) <= apart (0, 100) v) /\ ~ edge_between s (0, 100) (0, -100).
Proof.
  set (l := [Point (0, 100) 0; Point (0, -100) 0; Edge (-3000, 0) (3000, 0) 0]).
  assert (K : match history 32 true 200 l with
    | Ok s => (size s =? 8) && same_point (where_is s 4) (0, 100) && same_point (where_is s 5) (0, -100)
        && everyb s (fun v => same_point v (0, 100) || (apart (0, 100) (0, -100) <=? apart (0, 100) v))
        && negb (find_edge (fun _ => true) s (0, 100) (0, -100)) && negb (find_edge (fun _ => true) s (0, -100) (0, 100))
    | _ => false end = true) by (vm_compute; reflexivity).
  destruct (history 32 true 200 l) as [s| |] eqn:Es; try discriminate K. rewrite !andb_true_iff, !negb_true_iff, Z.eqb_eq in K. destruct K as (((((K1 & K2) & K3) & K4) & K5) & K6).
  apply same_point_ok in K2, K3. exists s. split; [apply (history_reachable 32 true 200 l); [reflexivity|assumption]|]. split; [assumption|].
  split; [exists 4; split; [lia|assumption]|]. split; [exists 5; split; [lia|assumption]|]. split.
  - intros v Hv N. pose proof (everyb_ok s _ K4 v Hv) as E. cbv beta in E. apply orb_true_iff in E. destruct E as [E|E]; [apply same_point_ok in E; contradiction|now apply Z.leb_le].
  - intros (f & i & Hf & Hi & H). assert (Fi : forall a b, where_is s (edge_from s f i) = a -> where_is s (edge_to s f i) = b -> find_edge (fun _ => true) s a b = true).
    { intros a b <- <-. unfold find_edge. apply existsb_exists. exists f. split; [apply all_faces_in; [lia|assumption]|]. unfold face in Hf. apply andb_true_iff. split; [apply Z.leb_le; lia|].
      apply existsb_exists. exists i. split; [destruct Hi as [-> |[-> | ->]]; cbn [In]; auto|]. now rewrite !same_point_refl. }
    destruct H as [[H1 H2]|[H1 H2]]; rewrite (Fi _ _ H1 H2) in *; discriminate.
Qed.
Print Assumptions C103_edge_refuted.

(** Nor is the nearest vertex always a corner of the face around a point: the walk of C103_walk is needed. *)
Theorem C103_locate_refuted : exists s f v, point_reachable 32 0 true s /\ face s f /\ vertex_at s v /\ covers (face_triangle s f) (0, 2) /\
  (let '(a, b, c) := face_triangle s f in apart (0, 2) v < apart (0, 2) a /\ apart (0, 2) v < apart (0, 2) b /\ apart (0, 2) v < apart (0, 2) c).
Proof.
  set (l := [Point (-1000, 0) 0; Point (1000, 0) 0; Point (0, 2000) 0; Point (0, -510) 0]).
  assert (K : match history 32 true 200 l with
    | Ok s => (size s =? 8) && same_point (where_is s 7) (0, -510) && existsb (fun f => let '(a, b, c) := face_triangle s f in
        (orient a b (0, 2) <=? 0) && (orient b c (0, 2) <=? 0) && (orient c a (0, 2) <=? 0) && (apart (0, 2) (0, -510) <? apart (0, 2) a) && (apart (0, 2) (0, -510) <? apart (0, 2) b) && (apart (0, 2) (0, -510) <? apart (0, 2) c)) (all_faces s)
    | _ => false end = true) by (vm_compute; reflexivity).
  destruct (history 32 true 200 l) as [s| |] eqn:Es; try discriminate K. rewrite !andb_true_iff, Z.eqb_eq in K. destruct K as ((K1 & K2) & K3). apply same_point_ok in K2.
  apply existsb_exists in K3. destruct K3 as (f & Hf & K3). exists s, f, (0, -510).
  split; [apply (history_points 32 true 200 l); [reflexivity|subst l; cbn [In]; intros o H; repeat destruct H as [<-|H]; try exact I; contradiction|assumption]|].
  split; [unfold all_faces in Hf; apply in_map_iff in Hf; destruct Hf as (k & <- & Hk); apply in_seq in Hk; unfold face; lia|]. split; [exists 7; split; [lia|assumption]|].
  unfold covers. destruct (face_triangle s f) as [[a b] c]. rewrite !andb_true_iff, !Z.leb_le, !Z.ltb_lt in K3. tauto.
Qed.
Print Assumptions C103_locate_refuted.
