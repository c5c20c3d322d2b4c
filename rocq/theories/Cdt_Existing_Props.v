(** C100: inserting an edge that the triangulation already has. *)
From Coq Require Import List ZArith Lia Bool.
Import ListNotations.
From Verif Require Import Base Vec_Model Math_Model Vec_Spec Vec_Props Math_Spec Cdt_Model Cdt_Geom Cdt_Mesh Cdt_Spec Cdt_Tile Cdt_Reset Cdt_Fill Cdt_Locate Cdt_History Cdt_Props Cdt_Planar Cdt_EdgeSpec Cdt_Steps Cdt_Follow Cdt_Edge_Props Cdt_Circle Cdt_Winding Cdt_Existing.
Local Open Scope Z_scope.

(** ** Specification *)

(** Some face has a side between a and b, constrained or not. *)
Definition edge_between (s : mesh) (a b : point) : Prop :=
  exists f i, face s f /\ side i /\
    ((where_is s (edge_from s f i) = a /\ where_is s (edge_to s f i) = b) \/ (where_is s (edge_from s f i) = b /\ where_is s (edge_to s f i) = a)).
(** The vertices of s' are those of s: as many, in the same places. *)
Definition same_vertices (s s' : mesh) : Prop := size s' = size s /\ forall v, where_is s' v = where_is s v.
(** No edge is constrained but those at the sides of the square. *)
Definition unconstrained (s : mesh) : Prop := forall f i, face s f -> side i -> tw s (4 * f + i) <> 0 -> co s (4 * f + i) = 0.

(** ** Proofs *)
Lemma edge_joins s a b : edge_between s a b -> joins s a b.
Proof.
  intros (f & i & Hf & Hi & E). exists (4 * f + i). split; [now apply node_of|].
  assert (X : where_is s (edge_from s f i) = P s (nxt (4 * f + i)) /\ where_is s (edge_to s f i) = P s (prv (4 * f + i))).
  { unfold edge_from, edge_to, corner, P, V, where_is. destruct (four f) as (E1 & E2 & E3 & E4 & E5 & E6).
    destruct Hi as [-> |[-> | ->]]; [change ((0 + 1) mod 3) with 1; change ((0 + 2) mod 3) with 2|change ((1 + 1) mod 3) with 2; change ((1 + 2) mod 3) with 0|change ((2 + 1) mod 3) with 0; change ((2 + 2) mod 3) with 1];
      rewrite ?Z.add_0_r, ?E1, ?E2, ?E3, ?E4, ?E5, ?E6; split; reflexivity. }
  destruct X as [<- <-]. exact E.
Qed.
Lemma edge_again limit q wrap fuel s p r hint s' b : 4 <= limit <= 8192 -> 0 <= q -> reachable limit q wrap s -> int32p p -> int32p r ->
  covered s (cell_point q p) (cell_point q r) \/ joins s (cell_point q p) (cell_point q r) -> insert_edge limit q wrap fuel s p r hint = Ok (s', b) ->
  b = true /\ same_vertices s s' /\ (forall x y, constrained s' x y <-> constrained s x y \/ (joins s (cell_point q p) (cell_point q r) /\ ends_are (cell_point q p) (cell_point q r) x y)).
Proof.
  intros Hl Hq R Hp Hr H E. pose proof (reachable_sound limit q wrap Hl Hq s R) as S.
  pose proof (again_edge limit wrap fuel s (cell_point q p) (cell_point q r) hint S H) as X. unfold insert_edge in E. unfold cell_point in X at 3 4 5 6. cbn [fst snd] in X. rewrite <- !grid_cell in X by assumption. rewrite E in X. exact X.
Qed.

(** C100: constrained edges already cover the segment from p to r (inserted before, as one edge or in parts): insert_edge, when it
    returns, returns true, and it leaves the vertices and the constrained edges as they are. *)
Theorem C100_again : forall limit q wrap s fuel p r hint s' b, 4 <= limit <= 8192 -> 0 <= q -> reachable limit q wrap s -> int32p p -> int32p r ->
  covered s (cell_point q p) (cell_point q r) -> insert_edge limit q wrap fuel s p r hint = Ok (s', b) ->
  b = true /\ same_vertices s s' /\ (forall x y, constrained s' x y <-> constrained s x y) /\ covered s' (cell_point q p) (cell_point q r).
Proof.
  intros limit q wrap s fuel p r hint s' b Hl Hq R Hp Hr C E. destruct (edge_again limit q wrap fuel s p r hint s' b Hl Hq R Hp Hr (or_introl C) E) as (-> & V & K).
  pose proof (reachable_sound limit q wrap Hl Hq s R) as S. split; [reflexivity|]. split; [assumption|]. assert (K' : forall x y, constrained s' x y <-> constrained s x y).
  { intros x y. rewrite K. split; [|auto]. intros [H|[J H]]; [assumption|]. pose proof (covered_joins limit s _ _ S C J) as X. destruct H as [[-> ->]|[-> ->]]; [assumption|now apply constrained_sym]. }
  split; [assumption|]. clear - C V K'. induction C as [a H|a c H|a m c H _ IH1 _ IH2].
  - apply cov_vertex. destruct H as (v & Hv & <-), V as [V1 V2]. exists v. split; [lia|apply V2].
  - apply cov_edge. now apply K'.
  - now apply (cov_join s' a m c).
Qed.
Print Assumptions C100_again.

(** C100: an edge of the triangulation already joins p and r: insert_edge, when it returns, returns true, adds no vertex, and that edge is
    the only one that it constrains. *)
Theorem C100_edge : forall limit q wrap s fuel p r hint s' b, 4 <= limit <= 8192 -> 0 <= q -> reachable limit q wrap s -> int32p p -> int32p r ->
  edge_between s (cell_point q p) (cell_point q r) -> insert_edge limit q wrap fuel s p r hint = Ok (s', b) ->
  b = true /\ same_vertices s s' /\
  (forall x y, constrained s' x y <-> constrained s x y \/ (x = cell_point q p /\ y = cell_point q r) \/ (x = cell_point q r /\ y = cell_point q p)).
Proof.
  intros limit q wrap s fuel p r hint s' b Hl Hq R Hp Hr C E. apply edge_joins in C. destruct (edge_again limit q wrap fuel s p r hint s' b Hl Hq R Hp Hr (or_intror C) E) as (-> & V & K).
  split; [reflexivity|]. split; [assumption|]. intros x y. rewrite K. unfold ends_are. tauto.
Qed.
Print Assumptions C100_edge.

(** C100: so the same call once more changes nothing that can be seen, when the first one left constrained edges on all of the segment. *)
Theorem C100_twice : forall limit q wrap s fuel fuel2 p r hint hint2 s1 s2 b, 4 <= limit <= 8192 -> 0 <= q -> reachable limit q wrap s -> int32p p -> int32p r ->
  insert_edge limit q wrap fuel s p r hint = Ok (s1, true) -> covered s1 (cell_point q p) (cell_point q r) -> insert_edge limit q wrap fuel2 s1 p r hint2 = Ok (s2, b) ->
  b = true /\ same_vertices s1 s2 /\ (forall x y, constrained s2 x y <-> constrained s1 x y).
Proof.
  intros limit q wrap s fuel fuel2 p r hint hint2 s1 s2 b Hl Hq R Hp Hr E1 C E2.
  assert (R1 : reachable limit q wrap s1) by (apply (r_op limit q wrap fuel s (Edge p r hint)); [assumption|split; assumption|cbn [run_op]; now rewrite E1]).
  destruct (C100_again limit q wrap s1 fuel2 p r hint2 s2 b Hl Hq R1 Hp Hr C E2) as (H1 & H2 & H3 & _). auto.
Qed.
Print Assumptions C100_twice.

Definition unconstrainedb (s : mesh) : bool := forallb (fun f => forallb (fun i => (f <? 6) || (tw s (4 * f + i) =? 0) || (co s (4 * f + i) =? 0)) [0; 1; 2]) (all_faces s).
Lemma unconstrainedb_ok s : unconstrainedb s = true -> unconstrained s.
Proof.
  intros H f i [F1 F2] Hi Hz. unfold unconstrainedb in H. rewrite forallb_forall in H. assert (I : In f (all_faces s)) by (unfold all_faces; apply in_map_iff; exists (Z.to_nat f); split; [lia|]; apply in_seq; lia).
  specialize (H f I). rewrite forallb_forall in H. assert (J : In i [0; 1; 2]) by (destruct Hi as [-> |[-> | ->]]; cbn [In]; tauto). specialize (H i J).
  apply orb_true_iff in H. destruct H as [H|H]; [|now apply Z.eqb_eq]. apply orb_true_iff in H. destruct H as [H|H]; [apply Z.ltb_lt in H; lia|]. apply Z.eqb_eq in H. contradiction.
Qed.

(** C100 (refuted): an edge between two vertices can cost a vertex beside the segment although there is no constrained edge in the whole
    square: where the two faces at an edge that is in the way do not form a convex quad, the edge is not flipped but split, at a point
    that is rounded to the grid. *)
Definition beside_points : list op := [Point (-48, 38) 0; Point (44, -58) 0; Point (12, 26) 0; Point (34, -44) 0; Point (-22, 4) 0; Point (-32, 22) 0].
Theorem C100_free_refuted : exists s s' p r, reachable 64 0 true s /\ unconstrained s /\ vertex_at s p /\ vertex_at s r /\ strictly_inside p /\ strictly_inside r /\
  insert_edge 64 0 true 1000 s p r 0 = Ok (s', true) /\ size s' = size s + 1 /\ ~ on_segment (where_is s' (size s)) p r.
Proof.
  assert (K : match history 64 true 300 beside_points with
    | Ok s => match insert_edge 64 0 true 1000 s (-48, 38) (44, -58) 0 with
       | Ok (s', b) => b && (size s =? 10) && (size s' =? 11) && unconstrainedb s && (vx s 4 =? -48) && (vy s 4 =? 38) && (vx s 5 =? 44) && (vy s 5 =? -58) && (vx s' 10 =? -32) && (vy s' 10 =? 21) | _ => false end
    | _ => false end = true) by (vm_compute; reflexivity).
  destruct (history 64 true 300 beside_points) as [s| |] eqn:Es; try discriminate K. destruct (insert_edge 64 0 true 1000 s (-48, 38) (44, -58) 0) as [[s' b]| |] eqn:Ee; try discriminate K.
  rewrite !andb_true_iff, !Z.eqb_eq in K. destruct K as (((((((((-> & K1) & K2) & K3) & K4) & K5) & K6) & K7) & K8) & K9).
  exists s, s', (-48, 38), (44, -58). split; [apply (history_reachable 64 true 300 beside_points); [reflexivity|assumption]|]. split; [now apply unconstrainedb_ok|].
  split; [exists 4; split; [lia|unfold where_is; congruence]|]. split; [exists 5; split; [lia|unfold where_is; congruence]|].
  split; [unfold strictly_inside, low, high; cbn [fst snd]; lia|]. split; [unfold strictly_inside, low, high; cbn [fst snd]; lia|]. split; [assumption|]. split; [lia|].
  rewrite K1. unfold on_segment, where_is, orient. rewrite K8, K9. cbn [fst snd]. lia.
Qed.
Print Assumptions C100_free_refuted.

(** C100 (refuted): one crossing with a constrained edge can cost many vertices: the crossing is rounded to a place beside the constrained
    edge, so that the rest of the new edge crosses it again. Here the square has one constrained edge, and a second edge that crosses it
    adds its two ends and 21 more. *)
Theorem C100_crossing_refuted : exists s s', history 32 true 1000 [Edge (-1000, 0) (1000, 50) 0] = Ok s /\ reachable 32 0 true s /\ size s = 6 /\
  insert_edge 32 0 true 3000 s (-400, 300) (700, -300) 0 = Ok (s', true) /\ size s' = size s + 2 + 21.
Proof.
  assert (K : match history 32 true 1000 [Edge (-1000, 0) (1000, 50) 0] with
    | Ok s => match insert_edge 32 0 true 3000 s (-400, 300) (700, -300) 0 with Ok (s', b) => b && (size s =? 6) && (size s' =? 29) | _ => false end
    | _ => false end = true) by (vm_compute; reflexivity).
  destruct (history 32 true 1000 [Edge (-1000, 0) (1000, 50) 0]) as [s| |] eqn:Es; try discriminate K. destruct (insert_edge 32 0 true 3000 s (-400, 300) (700, -300) 0) as [[s' b]| |] eqn:Ee; try discriminate K.
  rewrite !andb_true_iff, !Z.eqb_eq in K. destruct K as ((-> & K1) & K2). exists s, s'. split; [reflexivity|]. split; [apply (history_reachable 32 true 1000 [Edge (-1000, 0) (1000, 50) 0]); [reflexivity|assumption]|].
  split; [assumption|]. split; [assumption|]. lia.
Qed.
Print Assumptions C100_crossing_refuted.

(** ** Concrete cases *)
Definition same_point (a b : point) : bool := (fst a =? fst b) && (snd a =? snd b).
Lemma same_point_ok a b : same_point a b = true -> a = b.
Proof. intro H. apply andb_true_iff in H. rewrite !Z.eqb_eq in H. destruct a, b. cbn [fst snd] in H. f_equal; tauto. Qed.
Definition find_edge (c : Z -> bool) (s : mesh) (a b : point) : bool :=
  existsb (fun f => (6 <=? f) && existsb (fun i => c (4 * f + i) && same_point (where_is s (edge_from s f i)) a && same_point (where_is s (edge_to s f i)) b) [0; 1; 2]) (all_faces s).
Lemma find_edge_ok c s a b : find_edge c s a b = true -> exists f i, face s f /\ side i /\ c (4 * f + i) = true /\ where_is s (edge_from s f i) = a /\ where_is s (edge_to s f i) = b.
Proof.
  intro H. apply existsb_exists in H. destruct H as (f & If & H). apply andb_true_iff in H. destruct H as [H1 H]. apply Z.leb_le in H1. apply existsb_exists in H. destruct H as (i & Ii & H).
  rewrite !andb_true_iff in H. destruct H as ((H2 & H3) & H4). unfold all_faces in If. apply in_map_iff in If. destruct If as (k & <- & Ik). apply in_seq in Ik.
  exists (Z.of_nat k), i. split; [unfold face; lia|]. split; [cbn [In] in Ii; unfold side; intuition|]. split; [assumption|]. split; now apply same_point_ok.
Qed.
Lemma find_constrained s a b : find_edge (fun n => co s n =? 1) s a b = true -> constrained s a b.
Proof. intro H. apply find_edge_ok in H. destruct H as (f & i & Hf & Hi & H1 & H2 & H3). apply Z.eqb_eq in H1. exists f, i. auto 10. Qed.
Lemma find_between s a b : find_edge (fun _ => true) s a b = true -> edge_between s a b.
Proof. intro H. apply find_edge_ok in H. destruct H as (f & i & Hf & Hi & _ & H2 & H3). exists f, i. auto 10. Qed.

(** C100_again is about something: an edge inserted in two parts, and then once more as a whole; the call returns. *)
Example C100_nonvacuous_again : exists s s', reachable 32 0 true s /\ covered s (-100, -50) (200, 100) /\ ~ edge_between s (-100, -50) (200, 100) /\ size s = 7 /\
  insert_edge 32 0 true 200 s (-100, -50) (200, 100) 0 = Ok (s', true).
Proof.
  assert (K : match history 32 true 200 [Edge (-100, -50) (0, 0) 0; Edge (0, 0) (200, 100) 0] with
    | Ok s => match insert_edge 32 0 true 200 s (-100, -50) (200, 100) 0 with
       | Ok (s', b) => b && (size s =? 7) && find_edge (fun n => co s n =? 1) s (-100, -50) (0, 0) && find_edge (fun n => co s n =? 1) s (0, 0) (200, 100) && (vx s 5 =? 0) && (vy s 5 =? 0) | _ => false end
    | _ => false end = true) by (vm_compute; reflexivity).
  destruct (history 32 true 200 [Edge (-100, -50) (0, 0) 0; Edge (0, 0) (200, 100) 0]) as [s| |] eqn:Es; try discriminate K. destruct (insert_edge 32 0 true 200 s (-100, -50) (200, 100) 0) as [[s' b]| |] eqn:Ee; try discriminate K.
  rewrite !andb_true_iff, !Z.eqb_eq in K. destruct K as (((((-> & K1) & K2) & K3) & K4) & K5). apply find_constrained in K2, K3.
  assert (R : reachable 32 0 true s) by (apply (history_reachable 32 true 200 [Edge (-100, -50) (0, 0) 0; Edge (0, 0) (200, 100) 0]); [reflexivity|assumption]).
  exists s, s'. split; [assumption|]. assert (O : on_segment (0, 0) (-100, -50) (200, 100)) by (unfold on_segment, orient; cbn [fst snd]; lia).
  split; [apply (cov_join s _ (0, 0) _ O); now apply cov_edge|]. split; [|split; assumption]. intro J. apply edge_joins in J. pose proof (reachable_sound 32 0 true ltac:(lia) ltac:(lia) s R) as S.
  assert (Hv : vertex_at s (0, 0)) by (exists 5; split; [lia|]; unfold where_is; congruence). destruct (end_of_join 32 s _ _ (0, 0) S J Hv O); discriminate.
Qed.
(** C100_edge is about something: an edge that no constraint is on yet. *)
Example C100_nonvacuous_edge : exists s s', reachable 32 0 true s /\ edge_between s (-100, -50) (200, 100) /\ unconstrained s /\ insert_edge 32 0 true 200 s (-100, -50) (200, 100) 0 = Ok (s', true) /\ size s = 8 /\
  constrained s' (-100, -50) (200, 100).
Proof.
  assert (K : match history 32 true 200 [Point (-100, -50) 0; Point (200, 100) 0; Point (-150, 250) 0; Point (300, -200) 0] with
    | Ok s => match insert_edge 32 0 true 200 s (-100, -50) (200, 100) 0 with Ok (s', b) => b && (size s =? 8) && find_edge (fun _ => true) s (-100, -50) (200, 100) && unconstrainedb s | _ => false end
    | _ => false end = true) by (vm_compute; reflexivity).
  destruct (history 32 true 200 [Point (-100, -50) 0; Point (200, 100) 0; Point (-150, 250) 0; Point (300, -200) 0]) as [s| |] eqn:Es; try discriminate K. destruct (insert_edge 32 0 true 200 s (-100, -50) (200, 100) 0) as [[s' b]| |] eqn:Ee; try discriminate K.
  rewrite !andb_true_iff, !Z.eqb_eq in K. destruct K as (((-> & K1) & K2) & K3). apply find_between in K2. apply unconstrainedb_ok in K3.
  assert (R : reachable 32 0 true s) by (apply (history_reachable 32 true 200 [Point (-100, -50) 0; Point (200, 100) 0; Point (-150, 250) 0; Point (300, -200) 0]); [reflexivity|assumption]).
  exists s, s'. split; [assumption|]. split; [assumption|]. split; [assumption|]. split; [assumption|]. split; [assumption|].
  assert (I1 : int32p (-100, -50)) by (unfold int32p; cbn [fst snd]; lia). assert (I2 : int32p (200, 100)) by (unfold int32p; cbn [fst snd]; lia).
  destruct (C100_edge 32 0 true s 200 (-100, -50) (200, 100) 0 s' true ltac:(lia) ltac:(lia) R I1 I2 K2 Ee) as (_ & _ & X). apply X. right. left. split; reflexivity.
Qed.
