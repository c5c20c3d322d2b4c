(** C98: a fill stays within the closed polygons of constrained edges. *)
From Coq Require Import List ZArith Lia.
Import ListNotations.
From Verif Require Import Base Vec_Model Math_Model Vec_Spec Vec_Props Math_Spec Cdt_Model Cdt_Geom Cdt_Mesh Cdt_Spec Cdt_Tile Cdt_Fill Cdt_Locate Cdt_History Cdt_Props Cdt_Planar Cdt_EdgeSpec Cdt_Steps Cdt_Follow Cdt_Edge_Props Cdt_Circle Cdt_Winding.
Local Open Scope Z_scope.
Local Notation vtotal := Vec_Props.total.

(** ** Specification *)

(** Points in units of 1 / k: k = 1 is the grid of the mesh, with k = 2^q they are the user's coordinates, and any rational point has such a k. *)
Definition times (k : Z) (a : point) : point := (k * fst a, k * snd a).
(** x / k is strictly inside the clockwise triangle. *)
Definition strictly_in (k : Z) (t : triangle) (x : point) : Prop :=
  let '(a, b, c) := t in orient (times k a) (times k b) x < 0 /\ orient (times k b) (times k c) x < 0 /\ orient (times k c) (times k a) x < 0.
(** Constrained edges cover all sides of the closed polygon ps, which may cross itself. *)
Definition walled (s : mesh) (ps : list point) : Prop := forall a b, In (a, b) (edges ps) -> covered s a b.
(** The points l between p and q where constrained edges that follow the segment (Cdt_EdgeSpec.follows) meet: points of the segment, and
    vertices less than one unit beside the part of the segment, or of the detour, that they replace. *)
Inductive detour (s : mesh) : point -> list point -> point -> Prop :=
| det_straight p q : covered s p q -> detour s p [] q
| det_part p m l q : on_segment m p q -> covered s p m -> detour s m l q -> detour s p (m :: l) q
| det_bend p l r l' q : vertex_at s r -> beside r p q -> detour s p l r -> detour s r l' q -> detour s p (l ++ r :: l') q.
(** The path a, l' is the path a, l with a detour on each of its sides. *)
Inductive outline (s : mesh) : point -> list point -> list point -> Prop :=
| out_end a : outline s a [] []
| out_side a m b l l' : detour s a m b -> outline s b l l' -> outline s a (b :: l) (m ++ b :: l').

(** ** Proofs *)
Lemma orient_times k a b x : orient (times k a) (times k b) x = k * line k a b x.
Proof. unfold orient, times, line. cbn [fst snd]. ring. Qed.

Lemma strictly_strict s k f x : 0 < k -> strictly_in k (face_triangle s f) x -> strict s k x (4 * f).
Proof.
  intros Hk H. unfold face_triangle, strictly_in, corner in H. destruct (four f) as (E1 & E2 & _). change (0 mod 3) with 0 in H. change (1 mod 3) with 1 in H. change (2 mod 3) with 2 in H.
  rewrite Z.add_0_r, <- E1, <- E2, !orient_times in H. change (where_is s (pt s (4 * f))) with (P s (4 * f)) in H. change (where_is s (pt s (nxt (4 * f)))) with (P s (nxt (4 * f))) in H. change (where_is s (pt s (prv (4 * f)))) with (P s (prv (4 * f))) in H.
  destruct H as (H1 & H2 & H3). split; [|split]; nia.
Qed.

Section Off.
  Context (limit : Z) (s : mesh) (S : sound limit s) (ps : list point) (W : walled s ps).

  (** Points strictly inside a face are on no side of the polygon. *)
  Lemma strict_off k x n : 0 < k -> node s n -> strict s k x n -> off_edges x (map (times k) ps).
  Proof.
    intros Hk Hn Sx a' b' Hab On. destruct S as (G & U & _). rewrite edges_map in Hab. apply in_map_iff in Hab. destruct Hab as ([a b] & E & Hab). cbn [fst snd] in E. injection E as <- <-. specialize (W a b Hab).
    destruct (seg_weights x _ _ On) as (r & t & R & T & RT & E1 & E2).
    assert (D : a = b \/ a <> b). { destruct (Z.eq_dec (fst a) (fst b)) as [Ex|Ex]; [destruct (Z.eq_dec (snd a) (snd b)) as [Ey|Ey]; [left; destruct a, b; cbn [fst snd] in *; congruence|]|]; right; intros ->; congruence. }
    destruct D as [<-|D].
    - destruct (covered_ends limit s a a G W) as [(v & Hv & <-) _]. destruct (U v Hv) as (m & Hm & Em). pose proof (node_mod s m Hm) as Mm.
      apply (face_no_edge limit s k x n (prv m) k 0 G Hn (prv_node s m Hm) Hk Sx ltac:(lia) ltac:(lia) ltac:(lia)). rewrite nxt_prv by assumption.
      change (where_is s v) with (V s v) in E1, E2. rewrite <- Em in E1, E2. change (V s (pt s m)) with (P s m) in E1, E2. unfold times in E1, E2. cbn [fst snd] in E1, E2. unfold mean. destruct x as [x1 x2]. cbn [fst snd] in *. f_equal; nia.
    - destruct (covered_meets s a b k x x W D) as (m & Hm & Hc & c & d & r' & t' & C1 & C2 & C3 & C4 & C5 & C6 & C7 & C8).
      { exists (r + t), 0, r, t. unfold times in E1, E2. unfold big. cbn [fst snd] in *. repeat split; lia. }
      unfold big in C7, C8. cbn [fst snd] in C7, C8.
      apply (face_no_edge limit s ((c + d) * k) (big (c + d) x) n m (r' * k) (t' * k) G Hn Hm); [nia| |nia|nia|rewrite C6; ring|].
      + apply strict_scale; assumption.
      + unfold mean, big. f_equal; [transitivity (c * fst x + d * fst x); [ring|rewrite C7; ring]|transitivity (c * snd x + d * snd x); [ring|rewrite C8; ring]].
  Qed.
End Off.

Lemma fill_around limit q wrap s n info fuel s' g ps k k' x y : 4 <= limit <= 8192 -> 0 <= q -> reachable limit q wrap s ->
  24 <= n < 8 * size s -> 0 <= info < 65536 -> fill limit fuel s n info = Ok s' -> walled s ps -> fi s' g <> fi s g ->
  0 < k -> 0 < k' -> strictly_in k (face_triangle s (n / 4)) x -> strictly_in k' (face_triangle s g) y ->
  face s (n / 4) /\ face s g /\ strict s k x (4 * (n / 4)) /\ strict s k' y (4 * g) /\ vtotal x (edges (map (times k) ps)) = vtotal y (edges (map (times k') ps)).
Proof.
  intros Hl Hq R Hn Hi E W D Hk Hk' X Y. pose proof (reachable_good limit q wrap Hl Hq s R) as G.
  apply (strictly_strict s k _ x Hk) in X. apply (strictly_strict s k' _ y Hk') in Y.
  pose proof (fill_ok limit fuel s n info G ltac:(lia) ltac:(lia) Hi) as F. rewrite E in F. destruct F as (_ & _ & F).
  assert (Hf : face s (n / 4)). { unfold face. clear - Hn. Z.to_euclidean_division_equations. lia. }
  assert (N : ~ ~ (reach s info (n / 4) g)) by (intro N; apply D, F; now right).
  assert (Q : ~ ~ (face s g /\ vtotal x (edges (map (times k) ps)) = vtotal y (edges (map (times k') ps)))).
  { intro Q. apply N. intro Rg. apply Q. destruct (reach_around limit s ps info (n / 4) g G W Hf Rg) as [Hg A]. split; [assumption|]. exact (A k x k' y Hk Hk' X Y). }
  assert (Hg : face s g). { unfold face in *. destruct (Z_le_gt_dec 6 g), (Z_lt_ge_dec g (2 * size s)); [split; assumption|exfalso; apply Q; lia..]. }
  repeat (split; [assumption|]). destruct (Z.eq_dec (vtotal x (edges (map (times k) ps))) (vtotal y (edges (map (times k') ps)))) as [|Ne]; [assumption|exfalso; apply Q; tauto].
Qed.

(** ** Theorems *)

(** C98: if a fill changes the face g, then a closed polygon whose sides constrained edges cover goes round the points strictly inside g
    as often as round those strictly inside the face where the fill starts (for points with any rational coordinates, and counted from
    any two apexes). So a fill that starts inside a polygon does not leave it, and one that starts outside does not enter. *)
Theorem C98_fill : forall limit q wrap s n info fuel s' g ps k k' x y o o', 4 <= limit <= 8192 -> 0 <= q -> reachable limit q wrap s ->
  24 <= n < 8 * size s -> 0 <= info < 65536 -> fill limit fuel s n info = Ok s' -> walled s ps -> fi s' g <> fi s g ->
  0 < k -> 0 < k' -> strictly_in k (face_triangle s (n / 4)) x -> strictly_in k' (face_triangle s g) y ->
  off_spokes o x (map (times k) ps) -> off_spokes o' y (map (times k') ps) ->
  winding o x (map (times k) ps) = winding o' y (map (times k') ps).
Proof.
  intros limit q wrap s n info fuel s' g ps k k' x y o o' Hl Hq R Hn Hi E W D Hk Hk' X Y O O'.
  destruct (fill_around limit q wrap s n info fuel s' g ps k k' x y Hl Hq R Hn Hi E W D Hk Hk' X Y) as (Hf & Hg & Sx & Sy & A).
  pose proof (reachable_sound limit q wrap Hl Hq s R) as S.
  rewrite (fan_closed x o), (fan_closed y o'); try assumption.
  - apply (strict_off limit s S ps W k' y (4 * g)); [assumption|now apply face_node|assumption].
  - apply (strict_off limit s S ps W k x (4 * (n / 4))); [assumption|now apply face_node|assumption].
Qed.
Print Assumptions C98_fill.

(** C98: so in_polygon says the same of the points inside the faces that the fill changes and of those inside the face where it starts
    (in the grid, k = 1, or in the user's coordinates, k = 2^q, if they are at most 2^30). *)
Theorem C98_in_polygon : forall limit q wrap s n info fuel s' g ps k k' x y, 4 <= limit <= 8192 -> 0 <= q -> reachable limit q wrap s ->
  24 <= n < 8 * size s -> 0 <= info < 65536 -> fill limit fuel s n info = Ok s' -> walled s ps -> fi s' g <> fi s g ->
  0 < k -> 0 < k' -> strictly_in k (face_triangle s (n / 4)) x -> strictly_in k' (face_triangle s g) y ->
  within (2 ^ 30) x -> within (2 ^ 30) y -> Forall (fun p => within (2 ^ 30) (times k p) /\ within (2 ^ 30) (times k' p)) ps ->
  exists w, in_polygon x (map (times k) ps) = Ok w /\ in_polygon y (map (times k') ps) = Ok w.
Proof.
  intros limit q wrap s n info fuel s' g ps k k' x y Hl Hq R Hn Hi E W D Hk Hk' X Y Bx By F.
  destruct (fill_around limit q wrap s n info fuel s' g ps k k' x y Hl Hq R Hn Hi E W D Hk Hk' X Y) as (_ & _ & _ & _ & A).
  exists (u64 (vtotal x (edges (map (times k) ps)))). split; [|rewrite A]; apply in_polygon_total; try assumption; rewrite Forall_map, Forall_forall in *; intros p Hp; now apply F.
Qed.
Print Assumptions C98_in_polygon.

(** What insert_edge leaves between two points is a path of covered segments. *)
Lemma follows_detour s a b : follows s a b -> exists l, detour s a l b.
Proof.
  induction 1 as [p r H|p m r H1 H2 _ (l & IH)|p m r H1 H2 _ (l & IH) _ (l' & IH')].
  - exists []. now apply det_straight.
  - exists (m :: l). now apply det_part.
  - exists (l ++ m :: l'). now apply det_bend.
Qed.
Lemma detour_covered s a l b : detour s a l b -> forall u v, In (u, v) (chain a (l ++ [b])) -> covered s u v.
Proof.
  induction 1 as [p r H|p m l r _ H _ IH|p l m l' r _ _ _ IH _ IH'].
  - cbn [app chain In]. intros u v [E|[]]. now injection E as <- <-.
  - cbn [app chain In]. intros u v [E|K]; [injection E as <- <-; assumption|auto].
  - rewrite <- app_assoc. cbn [app]. change (m :: l' ++ [r]) with ([m] ++ (l' ++ [r])). rewrite app_assoc, chain_app, last_last. intros u v K. apply in_app_or in K. destruct K; auto.
Qed.
Lemma outline_last s a l l' : outline s a l l' -> last l' a = last l a.
Proof.
  assert (Lb : forall (b a : point) t, last (b :: t) a = last t b). { intros b a0 [|c t]; [reflexivity|]. change (last (b :: c :: t) a0) with (last (c :: t) a0). apply last_ind_dep. discriminate. }
  induction 1 as [a|a m b l l' _ _ IH]; [reflexivity|]. rewrite Lb, <- IH, <- (Lb b a l'). destruct (exists_last (l := b :: l') ltac:(discriminate)) as (t & x & ->). rewrite app_assoc. now rewrite !last_last.
Qed.
Lemma outline_covered s a l l' : outline s a l l' -> forall u v, In (u, v) (chain a l') -> covered s u v.
Proof.
  induction 1 as [a|a m b l l' H _ IH]; [contradiction|]. change (b :: l') with ([b] ++ l'). rewrite app_assoc, chain_app, last_last. intros u v K. apply in_app_or in K. destruct K as [K|K]; [now apply (detour_covered s a m b)|auto].
Qed.

(** C98: when the sides of a polygon were inserted as edges (C73), there is such a polygon: it has the given vertices, in order, and
    between them the points where the inserted edges bend, if they do. *)
Theorem C98_outline : forall s ps, (forall a b, In (a, b) (edges ps) -> follows s a b) -> exists ps', outline s (last ps (0, 0)) ps ps' /\ walled s ps'.
Proof.
  intros s ps H.
  assert (X : forall l a, (forall u v, In (u, v) (chain a l) -> follows s u v) -> exists l', outline s a l l').
  { induction l as [|b l IH]; intros a K; [exists []; constructor|]. destruct (IH b) as (l' & A); [intros u v Q; apply K; now right|]. destruct (follows_detour s a b (K a b (or_introl eq_refl))) as (m & M).
    exists (m ++ b :: l'). now apply out_side. }
  destruct (X ps (last ps (0, 0)) H) as (ps' & O). exists ps'. split; [assumption|]. unfold walled, edges. pose proof (outline_last s _ _ _ O) as L. destruct ps' as [|c t]; [contradiction|].
  rewrite (last_ind_dep (c :: t) (0, 0) (last ps (0, 0))) by discriminate. rewrite L. destruct ps as [|d ps]; [inversion O|]. rewrite (last_ind_dep (d :: ps) (last (d :: ps) (0, 0)) (0, 0)) by discriminate. now apply (outline_covered s _ (d :: ps)).
Qed.
Print Assumptions C98_outline.

(** ** Examples *)
Definition constrainedb (s : mesh) (a b : point) : bool :=
  let same p q := (fst p =? fst q) && (snd p =? snd q) in
  existsb (fun f => existsb (fun i => (co s (4 * f + i) =? 1) && same (where_is s (edge_from s f i)) a && same (where_is s (edge_to s f i)) b) [0; 1; 2]) (all_faces s).
Lemma constrainedb_ok s a b : constrainedb s a b = true -> constrained s a b.
Proof.
  unfold constrainedb. intro H. apply existsb_exists in H. destruct H as (f & Hf & H). apply existsb_exists in H. destruct H as (i & Hi & H).
  apply andb_prop in H. destruct H as [H H3]. apply andb_prop in H. destruct H as [H1 H2]. apply andb_prop in H2, H3. destruct H2 as [A B], H3 as [C D]. apply Z.eqb_eq in H1, A, B, C, D.
  exists f, i. split; [|split; [cbn [In] in Hi; unfold side; lia|split; [assumption|left]]].
  - unfold all_faces in Hf. apply in_map_iff in Hf. destruct Hf as (m & <- & Hm). apply in_seq in Hm. unfold face. lia.
  - split; [destruct (where_is s (edge_from s f i)), a|destruct (where_is s (edge_to s f i)), b]; cbn [fst snd] in *; congruence.
Qed.

Definition triangle_wall : list point := [(-1000, 0); (0, 1000); (1000, 50)].
Definition strictly_inb (k : Z) (t : triangle) (x : point) : bool :=
  let '(a, b, c) := t in (orient (times k a) (times k b) x <? 0) && (orient (times k b) (times k c) x <? 0) && (orient (times k c) (times k a) x <? 0).
Lemma strictly_inb_ok k t x : strictly_inb k t x = true -> strictly_in k t x.
Proof. destruct t as [[a b] c]. unfold strictly_inb, strictly_in. rewrite !andb_true_iff, !Z.ltb_lt. tauto. Qed.

(** The mesh of the demo: a fill that starts at (90, 200), in the face of node 43, which the triangle goes round once clockwise. Face 15, with
    the point (366, 416), changes; face 6, with (9000, -9000), does not: the triangle does not go round that point. Points in halves: the
    fill starts at (90.5, 200.5) as well. *)
Example C98_nonvacuous : exists s s', reachable 32 0 true s /\ 24 <= 43 < 8 * size s /\ fill 32 100 s 43 7 = Ok s' /\ walled s triangle_wall /\ fi s' 15 <> fi s 15 /\ fi s' 6 = fi s 6 /\
  strictly_in 1 (face_triangle s (43 / 4)) (90, 200) /\ strictly_in 2 (face_triangle s (43 / 4)) (181, 401) /\ strictly_in 1 (face_triangle s 15) (366, 416) /\ strictly_in 1 (face_triangle s 6) (9000, -9000) /\
  off_spokes (9999, 9) (90, 200) triangle_wall /\ winding (9999, 9) (90, 200) triangle_wall = -1 /\ in_polygon (366, 416) triangle_wall = Ok (2 ^ 64 - 1) /\ in_polygon (9000, -9000) triangle_wall = Ok 0.
Proof.
  assert (K : match history 32 true 200 demo with
    | Ok s => match fill 32 100 s 43 7 with
       | Ok s' => (43 <? 8 * size s) && forallb (fun e => constrainedb s (fst e) (snd e)) (edges triangle_wall) && negb (fi s' 15 =? fi s 15) && (fi s' 6 =? fi s 6) &&
           strictly_inb 1 (face_triangle s (43 / 4)) (90, 200) && strictly_inb 2 (face_triangle s (43 / 4)) (181, 401) && strictly_inb 1 (face_triangle s 15) (366, 416) && strictly_inb 1 (face_triangle s 6) (9000, -9000)
       | _ => false end
    | _ => false end = true) by (vm_compute; reflexivity).
  destruct (history 32 true 200 demo) as [s| |] eqn:Es; try discriminate K. destruct (fill 32 100 s 43 7) as [s'| |] eqn:Ef; try discriminate K.
  rewrite !andb_true_iff in K. destruct K as (((((((K1 & K2) & K3) & K4) & K5) & K6) & K7) & K8). exists s, s'.
  split; [apply (history_reachable 32 true 200 demo); [reflexivity|assumption]|]. split; [apply Z.ltb_lt in K1; lia|]. split; [assumption|]. split.
  { intros a b Hab. apply cov_edge, constrainedb_ok. rewrite forallb_forall in K2. exact (K2 (a, b) Hab). }
  split; [apply negb_true_iff, Z.eqb_neq in K3; exact K3|]. split; [now apply Z.eqb_eq|]. split; [now apply strictly_inb_ok|]. split; [now apply strictly_inb_ok|]. split; [now apply strictly_inb_ok|]. split; [now apply strictly_inb_ok|].
  split; [|split; [reflexivity|split; reflexivity]]. intros a Ha [O _]. unfold triangle_wall in Ha. cbn [In] in Ha. destruct Ha as [<-|[<-|[<-|[]]]]; unfold orient in O; cbn [fst snd] in O; lia.
Qed.
(** The sides of the triangle were inserted as edges, in another order and direction. *)
Example C98_outline_case : exists s, reachable 32 0 true s /\ (forall a b, In (a, b) (edges triangle_wall) -> follows s a b) /\ outline s (1000, 50) triangle_wall triangle_wall.
Proof.
  destruct C98_nonvacuous as (s & _ & R & _ & _ & W & _). exists s. split; [assumption|]. split; [intros a b H; now apply fol_covered, W|].
  assert (D : forall a b, In (a, b) (edges triangle_wall) -> detour s a [] b) by (intros; now apply det_straight, W). unfold edges, triangle_wall in D. cbn [last chain In] in D.
  apply (out_side s _ [] _ _ [(0, 1000); (1000, 50)]); [apply D; auto|]. apply (out_side s _ [] _ _ [(1000, 50)]); [apply D; auto|]. apply (out_side s _ [] _ _ []); [apply D; auto|constructor].
Qed.
