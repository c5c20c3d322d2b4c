(** C70, C76: inserting points keeps the mesh Delaunay, and on such meshes the calls end. *)
From Coq Require Import List Permutation ZArith Lia.
Import ListNotations.
From Verif Require Import Base Vec_Model Math_Model Vec_Spec Vec_Props Math_Spec Math_Proofs Cdt_Model Cdt_Geom Cdt_Mesh Cdt_Flip Cdt_Circle Cdt_Insert Cdt_OnEdge Cdt_Walk Cdt_Edge Cdt_Spec Cdt_Tile Cdt_Reset Cdt_Fill Cdt_Locate Cdt_History Cdt_Props Cdt_Planar Cdt_EdgeSpec Cdt_Steps Cdt_Follow Cdt_Fuel Cdt_Edge_Props Cdt_Star Cdt_View_Props Cdt_Delaunay Cdt_Global Cdt_Ends.
Local Open Scope Z_scope.

(** ** Specification *)

(** Every edge that is not constrained is locally Delaunay: the corner of the face across it is not inside the circle of the face. *)
Definition delaunay_edges (s : mesh) : Prop :=
  forall f i g j, face s f -> side i -> face s g -> side j -> tw s (4 * f + i) = 4 * g + j -> co s (4 * f + i) = 0 ->
    let '(a, b, c) := face_triangle s f in ~ inside_circle a b c (where_is s (corner s g j)).
(** No vertex is inside the circle of any face: the Delaunay triangulation. *)
Definition empty_circles (s : mesh) : Prop :=
  forall f v, face s f -> 0 <= v < size s -> let '(a, b, c) := face_triangle s f in ~ inside_circle a b c (where_is s v).
(** The meshes that a user can reach without insert_edge. *)
Definition no_edge (o : op) : Prop := match o with Edge _ _ _ => False | _ => True end.
Inductive point_reachable (limit q : Z) (wrap : bool) : mesh -> Prop :=
| pr_reset s0 s : reset limit s0 = Ok s -> point_reachable limit q wrap s
| pr_op fuel s o s' : point_reachable limit q wrap s -> valid s o -> no_edge o -> run_op limit q wrap fuel s o = Ok s' -> point_reachable limit q wrap s'.

(** ** Proofs *)
Lemma point_reachable_ok limit q wrap s : point_reachable limit q wrap s -> reachable limit q wrap s.
Proof. induction 1 as [s0 s E|fuel s o s' R IH Hv _ E]; [now apply (r_reset _ _ _ s0)|now apply (r_op _ _ _ fuel s o)]. Qed.

Lemma face_det s f i v : face s f -> side i -> det_at s (4 * f + i) v = let '(a, b, c) := face_triangle s f in incircle_det a b c v.
Proof.
  intros Hf Hi. rewrite triangle_node. change (det_at s (4 * f + i) v = det_at s (4 * f) v). destruct (four f) as (F1 & F2 & F3 & F4 & F5 & F6).
  pose proof (node_mod s _ (face_node s f Hf)) as M. destruct Hi as [-> |[-> | ->]]; [now rewrite Z.add_0_r|rewrite <- F1; now apply det_nxt|].
  rewrite <- (det_prv s (4 * f) v M). f_equal. symmetry. exact F2.
Qed.
Lemma face_inside limit s f i v : good limit s -> face s f -> side i ->
  (let '(a, b, c) := face_triangle s f in ~ inside_circle a b c v) <-> 0 <= det_at s (4 * f + i) v.
Proof.
  intros G Hf Hi. rewrite (face_det s f i v Hf Hi), triangle_node. rewrite (inside_circle_det _ _ _ v (g_cw _ _ G _ (face_node s f Hf))). lia.
Qed.

Lemma delaunay_ld limit s : good limit s -> delaunay_edges s <-> all_ld s.
Proof.
  intro G. split.
  - intros D a b c e (n & Hn & <- & <- & <-) (m & Hm & <- & Em1 & Em2) (k & Hk & Ck & Ek1 & Ek2).
    assert (k = n) as -> by (apply (same_ends limit s); assumption). pose proof (co_open limit s G n Hn Ck) as Hz. destruct (tw_ends limit s G n Hn Hz) as [T1 T2].
    pose proof (tw_node limit s G n Hn Hz) as Ht. assert (m = tw s n) as -> by (apply (same_ends limit s); try assumption; congruence).
    destruct (node_side s n Hn) as (f & i & -> & Hf & Hi & _). destruct (node_side s _ Ht) as (g & j & Et & Hg & Hj & _).
    pose proof (D f i g j Hf Hi Hg Hj Et Ck) as X. apply (face_inside limit s f i _ G Hf Hi) in X. destruct (edge_ends s g j Hj) as (_ & _ & Ec). rewrite Ec, <- Et in X. exact X.
  - intros L f i g j Hf Hi Hg Hj Et Ck. apply (face_inside limit s f i _ G Hf Hi). pose proof (side_node s f i Hf Hi) as Hn. pose proof (co_open limit s G _ Hn Ck) as Hz.
    destruct (edge_ends s g j Hj) as (_ & _ & Ec). rewrite Ec, <- Et. apply L; [now apply tri_node|now apply (tri_across limit)|]. exists (4 * f + i). auto.
Qed.
Lemma fresh_open s0 s : fresh s0 s -> open s.
Proof.
  intros (Es & _ & (T1 & T2 & T3 & T4 & T5 & T6) & (C1 & C2 & C3 & C4 & C5 & C6) & _) n Hn Hz.
  assert (K : n = 24 \/ n = 25 \/ n = 26 \/ n = 28 \/ n = 29 \/ n = 30).
  { destruct Hn as [B M]. rewrite Es in B. assert (J : n <> 27 /\ n <> 31) by (split; intros ->; apply M; reflexivity). lia. }
  repeat destruct K as [-> |K]; try subst n; congruence.
Qed.
Lemma fresh_ld limit s0 s : 4 <= limit <= 8192 -> fresh s0 s -> all_ld s.
Proof.
  intros Hl F. pose proof (fresh_good limit s0 s Hl F) as G. apply (delaunay_ld limit s G). intros f i g j Hf Hi Hg Hj Et Ck. apply (face_inside limit s f i _ G Hf Hi).
  destruct F as (Es & _ & (T1 & T2 & T3 & T4 & T5 & T6) & (C1 & C2 & C3 & C4 & C5 & C6) & (P1 & P2 & P3 & P4 & P5 & P6) & V0 & V1 & V2 & V3 & _).
  destruct (edge_ends s g j Hj) as (_ & _ & Ec). rewrite Ec, <- Et. change (where_is s (pt s (tw s (4 * f + i)))) with (P s (tw s (4 * f + i))).
  assert (K : f = 6 \/ f = 7) by (unfold face in Hf; lia).
  destruct K as [-> | ->]; destruct Hi as [-> |[-> | ->]]; cbn [Z.mul Z.add Pos.mul Pos.add Pos.succ] in *; try congruence.
  - rewrite T1. unfold det_at, P. change (nxt 24) with 25. change (prv 24) with 26. rewrite P1, P2, P3, P4, V0, V1, V2, V3. vm_compute. discriminate.
  - rewrite T4. unfold det_at, P. change (nxt 28) with 29. change (prv 28) with 30. rewrite P1, P4, P5, P6, V0, V1, V2, V3. vm_compute. discriminate.
Qed.
Lemma open_same s s' : size s' = size s -> tw s' = tw s -> co s' = co s -> open s -> open s'.
Proof. intros E1 E2 E3 O n. unfold node. rewrite E1, E2, E3. apply O. Qed.
Lemma ld_same s s' : size s' = size s -> pt s' = pt s -> co s' = co s -> vx s' = vx s -> vy s' = vy s -> all_ld s -> all_ld s'.
Proof. intros E1 E2 E3 E4 E5. unfold all_ld, tri, free, node, P, V. now rewrite E1, E2, E3, E4, E5. Qed.

Section Point70.
  Context (limit q : Z) (wrap : bool).
  Hypothesis Hl : 4 <= limit <= 8192.
  Hypothesis Hq : 0 <= q.

  Lemma insert_point_case fuel s p h s' b : sound limit s -> int32p p -> insert_point limit q wrap fuel s p h = Ok (s', b) ->
    exists n r, (n = 0 \/ (node s n /\ closed_face s (grid q (fst p), grid q (snd p)) n)) /\ near (grid q (fst p), grid q (snd p)) /\
      insert_point_at_node limit wrap fuel s (grid q (fst p)) (grid q (snd p)) n = Ok (s', r).
  Proof.
    intros S Hp E. pose proof (grid_near q Hq p Hp) as N. unfold insert_point, insert_point64 in E.
    pose proof (locate_insertion_ok limit fuel s _ h (proj1 S) N) as X. cbn [fst snd] in X.
    destruct (locate_insertion_node limit fuel s (grid q (fst p)) (grid q (snd p)) h) as [n| |]; cbn [bind] in E; [|discriminate E..].
    destruct (insert_point_at_node limit wrap fuel s (grid q (fst p)) (grid q (snd p)) n) as [[t r]| |] eqn:Ei; cbn [bind] in E; [|discriminate E..]. injection E as <- _. exists n, r. auto.
  Qed.
  Lemma point_ld fuel s p h s' b : sound limit s -> int32p p -> all_ld s -> insert_point limit q wrap fuel s p h = Ok (s', b) -> all_ld s'.
  Proof.
    intros S Hp L E. destruct (insert_point_case fuel s p h s' b S Hp E) as (n & r & Hn & N & Ei). destruct S as (G & U & _).
    exact (insert_node_ld limit wrap fuel s (grid q (fst p), grid q (snd p)) n s' r G U N Hn L Ei).
  Qed.
  Lemma point_open fuel s p h s' b : sound limit s -> int32p p -> open s -> insert_point limit q wrap fuel s p h = Ok (s', b) -> open s'.
  Proof.
    intros S Hp L E. destruct (insert_point_case fuel s p h s' b S Hp E) as (n & r & Hn & N & Ei). destruct S as (G & U & _).
    exact (insert_node_open limit wrap fuel s (grid q (fst p), grid q (snd p)) n s' r G N Hn L Ei).
  Qed.
  Lemma point_reachable_open s : point_reachable limit q wrap s -> open s /\ all_ld s.
  Proof.
    induction 1 as [s0 s E|fuel s o s' R IH Hv Ho E].
    - destruct (reset_ok limit s0 Hl) as (s' & E' & F). rewrite E in E'. injection E' as <-. split; [now apply (fresh_open s0)|now apply (fresh_ld limit s0)].
    - pose proof (reachable_sound limit q wrap Hl Hq s (point_reachable_ok _ _ _ _ R)) as S. destruct o as [|p h|p r h|n info]; cbn [no_edge] in Ho; [| |contradiction|].
      + cbn [run_op] in E. destruct (reset_ok limit s Hl) as (t & E' & F). rewrite E in E'. injection E' as <-. split; [now apply (fresh_open s)|now apply (fresh_ld limit s)].
      + cbn [run_op] in E. destruct (insert_point limit q wrap fuel s p h) as [[t b]| |] eqn:Ei; cbn [bind] in E; [|discriminate E..]. injection E as <-. destruct IH as [IH1 IH2]. split; [now apply (point_open fuel s p h t b)|now apply (point_ld fuel s p h t b)].
      + cbn [run_op] in E. destruct Hv as [[-> |Hn] Hi].
        * unfold fill in E. change (0 / 4 =? 0) with true in E. cbn beta iota zeta in E. injection E as <-. exact IH.
        * pose proof (fill_ok limit fuel s n info (proj1 S) ltac:(lia) ltac:(lia) Hi) as X. rewrite E in X. destruct X as ((E1 & E2 & E3 & E4 & E5 & E6) & _). destruct IH as [IH1 IH2]. split; [now apply (open_same s)|now apply (ld_same s)].
  Qed.
End Point70.

(** ** C70 Delaunay *)

(** C70: insert_point keeps every unconstrained edge locally Delaunay, whatever edges are constrained. *)
Theorem C70_point : forall limit q wrap s fuel p hint s' b, 4 <= limit <= 8192 -> 0 <= q -> reachable limit q wrap s -> int32p p -> delaunay_edges s ->
  insert_point limit q wrap fuel s p hint = Ok (s', b) -> delaunay_edges s'.
Proof.
  intros limit q wrap s fuel p hint s' b Hl Hq R Hp D E. pose proof (reachable_sound limit q wrap Hl Hq s R) as S.
  assert (E' : run_op limit q wrap fuel s (Point p hint) = Ok s') by (cbn [run_op]; rewrite E; reflexivity).
  pose proof (run_sound limit q wrap Hl Hq fuel s (Point p hint) s' S Hp E') as S'. apply (delaunay_ld limit s' (proj1 S')). apply (delaunay_ld limit s (proj1 S)) in D.
  exact (point_ld limit q wrap Hq fuel s p hint s' b S Hp D E).
Qed.
Print Assumptions C70_point.

(** C70: after any history of resets, points and fills the mesh is the Delaunay triangulation of its vertices: no vertex is inside the
    circle of any face. *)
Theorem C70_delaunay : forall limit q wrap s, 4 <= limit <= 8192 -> 0 <= q -> point_reachable limit q wrap s -> delaunay_edges s /\ empty_circles s.
Proof.
  intros limit q wrap s Hl Hq R. pose proof (reachable_sound limit q wrap Hl Hq s (point_reachable_ok _ _ _ _ R)) as (G & U & _).
  destruct (point_reachable_open limit q wrap Hl Hq s R) as [O L]. split; [now apply (delaunay_ld limit)|]. intros f v Hf Hv. assert (H0 : side 0) by now left.
  apply (face_inside limit s f 0 _ G Hf H0). destruct (U v Hv) as (m & Hm & <-). exact (empty_circle limit s G O L (4 * f + 0) m (side_node s f 0 Hf H0) Hm).
Qed.
Print Assumptions C70_delaunay.

(** The hypotheses hold on a mesh of nine vertices. *)
Definition some_points : list op := [Point (100, 200) 0; Point (-3000, 40) 24; Point (600, 900) 9999; Point (601, 900) 0; Point (20, -7000) 3; Point (-1450, 120) 0].
Lemma history_points limit wrap fuel l s : forallb plain l = true -> (forall o, In o l -> no_edge o) -> history limit wrap fuel l = Ok s -> point_reachable limit 0 wrap s.
Proof.
  intros H N E. unfold history in E. destruct (reset limit blank) as [r| |] eqn:Er; cbn [bind] in E; try discriminate E.
  assert (R : point_reachable limit 0 wrap r) by now apply (pr_reset _ _ _ blank). clear Er. rewrite forallb_forall in H. revert r R E. induction l as [|o l IH]; intros r R E; cbn [run] in E; [injection E as <-; exact R|].
  destruct (run_op limit 0 wrap fuel r o) as [t| |] eqn:Et; cbn [bind] in E; try discriminate E. apply (IH ltac:(intros; apply H; now right) ltac:(intros; apply N; now right) t); [|assumption].
  apply (pr_op _ _ _ fuel r o); [assumption|apply plain_valid, H; now left|apply N; now left|assumption].
Qed.
Example C70_nonvacuous : exists s, point_reachable 32 0 true s /\ size s = 9 /\ delaunay_edges s /\ empty_circles s.
Proof.
  destruct (history 32 true 100 some_points) as [s| |] eqn:Es; [|vm_compute in Es; discriminate Es..].
  assert (R : point_reachable 32 0 true s) by (apply (history_points 32 true 100 some_points); [reflexivity|intros o Ho; repeat (destruct Ho as [<-|Ho]; [exact I|]); contradiction|assumption]).
  exists s. split; [assumption|]. split; [|now apply (C70_delaunay 32 0 true); [lia..|]].
  assert (K : match history 32 true 100 some_points with Ok s => size s | _ => 0 end = 9) by (vm_compute; reflexivity). rewrite Es in K. exact K.
Qed.

(** C70 (refuted for insert_edge): after a constrained edge, unconstrained edges need not be locally Delaunay. *)
Definition bad_edge (s : mesh) : bool :=
  existsb (fun f => existsb (fun i => let t := tw s (4 * f + i) in
    (24 <=? t) && (t <? 8 * size s) && negb (t mod 4 =? 3) && (co s (4 * f + i) =? 0) && (det_at s (4 * f + i) (where_is s (pt s t)) <? 0))%bool [0; 1; 2]) (all_faces s).
Lemma bad_edge_ok limit s : good limit s -> bad_edge s = true -> ~ delaunay_edges s.
Proof.
  intros G B D. apply existsb_exists in B as (f & Hf & B). apply existsb_exists in B as (i & Hi & B). cbv zeta in B. apply all_faces_in in Hf; [|apply (g_size _ _ G)].
  assert (Hs : side i) by (destruct Hi as [<-|[<-|[<-|[]]]]; unfold side; lia). repeat (apply andb_prop in B as [B ?]). apply Z.leb_le in B. apply Z.ltb_lt in H2, H. apply Z.eqb_eq in H0. apply Bool.negb_true_iff, Z.eqb_neq in H1.
  destruct (node_side s (tw s (4 * f + i)) (conj (conj B H2) H1)) as (g & j & Et & Hg & Hj & _). pose proof (D f i g j Hf Hs Hg Hj Et H0) as X. apply (face_inside limit s f i _ G Hf Hs) in X.
  destruct (edge_ends s g j Hj) as (_ & _ & Ec). rewrite Ec, <- Et in X. lia.
Qed.
Definition three_points : list op := [Point (-248, 756) 0; Point (-740, 206) 0; Point (610, -412) 0].
Theorem C70_edge_refuted : exists s s' p r, point_reachable 32 0 true s /\ int32p p /\ int32p r /\ insert_edge 32 0 true 100 s p r 0 = Ok (s', true) /\
  delaunay_edges s /\ ~ delaunay_edges s'.
Proof.
  assert (K : match history 32 true 100 three_points with
    | Ok s => match insert_edge 32 0 true 100 s (944, -156) (-472, 922) 0 with Ok (s', b) => b && bad_edge s' | _ => false end
    | _ => false end = true) by (vm_compute; reflexivity).
  destruct (history 32 true 100 three_points) as [s| |] eqn:Es; try discriminate K. destruct (insert_edge 32 0 true 100 s (944, -156) (-472, 922) 0) as [[s' b]| |] eqn:Ee; try discriminate K.
  apply andb_prop in K as [-> K].
  assert (R : point_reachable 32 0 true s) by (apply (history_points 32 true 100 three_points); [reflexivity|intros o Ho; repeat (destruct Ho as [<-|Ho]; [exact I|]); contradiction|assumption]).
  assert (H1 : int32p (944, -156)) by (unfold int32p; cbn [fst snd]; lia). assert (H2 : int32p (-472, 922)) by (unfold int32p; cbn [fst snd]; lia).
  exists s, s', (944, -156), (-472, 922). split; [assumption|]. split; [assumption|]. split; [assumption|]. split; [assumption|]. split; [now apply (C70_delaunay 32 0 true); [lia..|]|].
  assert (R' : reachable 32 0 true s') by (apply (r_op 32 0 true 100 s (Edge (944, -156) (-472, 922) 0)); [now apply point_reachable_ok|split; assumption|cbn [run_op]; rewrite Ee; reflexivity]).
  apply (bad_edge_ok 32); [|assumption]. exact (proj1 (reachable_sound 32 0 true ltac:(lia) ltac:(lia) s' R')).
Qed.
Print Assumptions C70_edge_refuted.

(** ** C76 Termination on meshes of points *)

(** C76: on a mesh without inserted edges insert_point ends, for every hint, after a number of steps and with a depth of recursion that
    is at most linear in the number of vertices. With wrap-around arithmetic it has a result. *)
Theorem C76_insert_point : forall limit q wrap s fuel p hint, 4 <= limit <= 8192 -> 0 <= q -> point_reachable limit q wrap s -> int32p p ->
  8 * size s + 8 < Z.of_nat fuel ->
  insert_point limit q wrap fuel s p hint <> Timeout /\ (wrap = true -> exists s' b, insert_point limit q wrap fuel s p hint = Ok (s', b)).
Proof.
  intros limit q wrap s fuel p hint Hl Hq R Hp Hf. pose proof (reachable_sound limit q wrap Hl Hq s (point_reachable_ok _ _ _ _ R)) as S.
  destruct (point_reachable_open limit q wrap Hl Hq s R) as [O L]. pose proof (grid_near q Hq p Hp) as N.
  assert (T : insert_point limit q wrap fuel s p hint <> Timeout).
  { unfold insert_point, insert_point64. pose proof (locate_insertion_ok limit fuel s _ hint (proj1 S) N) as X. pose proof (locate_insertion_ends limit s _ (proj1 S) O L N fuel hint ltac:(lia)) as Y. cbn [fst snd] in X, Y.
    destruct (locate_insertion_node limit fuel s (grid q (fst p)) (grid q (snd p)) hint) as [n| |]; cbn [bind]; [|discriminate|contradiction].
    pose proof (insert_node_ends limit wrap fuel s _ n (proj1 S) (proj1 (proj2 S)) N X L Hf) as Z. cbn [fst snd] in Z.
    destruct (insert_point_at_node limit wrap fuel s (grid q (fst p)) (grid q (snd p)) n) as [[t r]| |]; cbn [bind]; [discriminate|discriminate|contradiction]. }
  split; [assumption|]. intro W. pose proof (point_result limit q wrap Hq fuel s p hint S Hp) as X. cbv zeta in X.
  destruct (insert_point limit q wrap fuel s p hint) as [[s' b]| |]; [eauto|congruence|contradiction].
Qed.
Print Assumptions C76_insert_point.

(** C76: on such a mesh locate ends and has a result, for every hint and every point whose differences to the square fit an int32_t. *)
Theorem C76_locate : forall limit q wrap s fuel p hint, 4 <= limit <= 8192 -> 0 <= q -> point_reachable limit q wrap s ->
  (forall c, low <= c <= high -> - 2 ^ 31 <= c * 2 ^ q < 2 ^ 31 /\ - 2 ^ 31 <= c * 2 ^ q - fst p < 2 ^ 31 /\ - 2 ^ 31 <= c * 2 ^ q - snd p < 2 ^ 31) ->
  8 * size s < Z.of_nat fuel -> exists n, locate limit q fuel s (fst p) (snd p) hint = Ok n.
Proof.
  intros limit q wrap s fuel p hint Hl Hq R Hp Hf. pose proof (reachable_sound limit q wrap Hl Hq s (point_reachable_ok _ _ _ _ R)) as S.
  destruct (point_reachable_open limit q wrap Hl Hq s R) as [O L]. assert (Fp : fits q p) by exact Hp.
  pose proof (locate_ends limit q s p Hq (proj1 S) O L Fp fuel hint Hf) as T. pose proof (locate_ok limit q Hq fuel s p hint (proj1 S) Fp) as X. unfold found32 in X.
  destruct (locate limit q fuel s (fst p) (snd p) hint) as [n| |]; [eauto|contradiction|contradiction].
Qed.
Print Assumptions C76_locate.

Example C76_nonvacuous : exists s, point_reachable 32 0 true s /\ size s = 9 /\ int32p (-77, 4000) /\ 8 * size s + 8 < Z.of_nat 100 /\ exists s' b, insert_point 32 0 true 100 s (-77, 4000) 0 = Ok (s', b).
Proof.
  destruct C70_nonvacuous as (s & R & E & _). exists s. split; [assumption|]. split; [assumption|]. assert (Hp : int32p (-77, 4000)) by (unfold int32p; cbn [fst snd]; lia). split; [assumption|]. assert (Hf : 8 * size s + 8 < Z.of_nat 100) by (rewrite E; cbn; lia). split; [assumption|].
  now apply (proj2 (C76_insert_point 32 0 true s 100 (-77, 4000) 0 ltac:(lia) ltac:(lia) R Hp Hf)).
Qed.
