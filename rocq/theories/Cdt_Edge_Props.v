(** C72-C75: what insert_point and insert_edge achieve, what they do not, and that the mesh is planar. *)
From Coq Require Import List Permutation ZArith Lia.
Import ListNotations.
From Verif Require Import Base Vec_Model Math_Model Vec_Spec Cdt_Model Cdt_Geom Cdt_Mesh Cdt_Flip Cdt_Circle Cdt_Insert Cdt_OnEdge Cdt_Walk Cdt_Edge Cdt_Spec Cdt_Tile Cdt_Reset Cdt_Fill Cdt_Locate Cdt_History Cdt_Props Cdt_Planar Cdt_EdgeSpec Cdt_Steps Cdt_Follow Cdt_Fuel.
Local Open Scope Z_scope.

(** ** Histories *)
Section Histories.
  Context (limit q : Z) (wrap : bool).
  Hypothesis Hl : 4 <= limit <= 8192.
  Hypothesis Hq : 0 <= q.

  Lemma fresh_sound s0 s : fresh s0 s -> sound limit s.
  Proof.
    intro F. pose proof (fresh_good limit s0 s Hl F) as G. split; [assumption|]. destruct F as (Es & _ & _ & _ & (P1 & P2 & P3 & P4 & P5 & P6) & V0 & V1 & V2 & V3 & _).
    assert (Cs : forall v, 0 <= v < size s -> v = 0 \/ v = 1 \/ v = 2 \/ v = 3) by (intros; lia).
    assert (Nd : forall n, n = 24 \/ n = 25 \/ n = 26 \/ n = 28 -> node s n).
    { intros n Hn. split; [lia|]. repeat destruct Hn as [-> |Hn]; try subst n; cbn; lia. }
    split.
    - intros v Hv. destruct (Cs v Hv) as [-> |[-> |[-> | ->]]]; [exists 24|exists 26|exists 25|exists 28]; (split; [apply Nd; tauto|assumption]).
    - intros v w Hv Hw. destruct (Cs v Hv) as [-> |[-> |[-> | ->]]], (Cs w Hw) as [-> |[-> |[-> | ->]]]; rewrite ?V0, ?V1, ?V2, ?V3; unfold lo, hi; change (2 ^ 15) with 32768; intro E; (reflexivity || discriminate E).
  Qed.
  Lemma sound_same s s' : size s' = size s -> pt s' = pt s -> tw s' = tw s -> co s' = co s -> vx s' = vx s -> vy s' = vy s -> sound limit s -> sound limit s'.
  Proof.
    intros E1 E2 E3 E4 E5 E6 (G & U & D). split; [now apply (good_same limit s)|]. split.
    - intros v Hv. rewrite E1 in Hv. destruct (U v Hv) as (n & Hn & E). exists n. split; [unfold node in *; now rewrite E1|congruence].
    - intros v w Hv Hw. unfold V. rewrite E5, E6. rewrite E1 in Hv, Hw. now apply D.
  Qed.

  Lemma point_result fuel s p h : sound limit s -> int32p p -> let g := (grid q (fst p), grid q (snd p)) in
    match insert_point limit q wrap fuel s p h with
    | Ok (s', b) => exists r, b = negb (r =? 0) /\ ((inserted limit s g s' r /\ inbox g) \/ (s' = s /\ r = 0 /\ ~ inbox g))
    | UB => wrap = false | Timeout => True
    end.
  Proof.
    intros S Hp g. pose proof (grid_near q Hq p Hp) as N. fold g in N. unfold insert_point, insert_point64.
    pose proof (insert_any limit wrap fuel s g h S N) as X. unfold g in X at 1 2 3 4. cbn [fst snd] in X.
    destruct (locate_insertion_node limit fuel s (grid q (fst p)) (grid q (snd p)) h) as [n| |]; cbn [bind]; [|contradiction|exact I].
    destruct (insert_point_at_node limit wrap fuel s (grid q (fst p)) (grid q (snd p)) n) as [[s' r]| |]; cbn [bind]; [|exact X|exact I]. exists r. split; [reflexivity|assumption].
  Qed.
  Lemma edge_follow fuel s p r h : sound limit s -> int32p p -> int32p r ->
    edge_result limit wrap s (grid q (fst p), grid q (snd p)) (grid q (fst r), grid q (snd r)) (insert_edge limit q wrap fuel s p r h).
  Proof. intros S Hp Hr. unfold insert_edge. apply (proj1 (follow_all limit wrap fuel) s (grid q (fst p), grid q (snd p)) (grid q (fst r), grid q (snd r))); [assumption|now apply grid_near..]. Qed.

  (** A call other than reset takes the mesh to a later one, up to the infos of faces. *)
  Lemma run_steps fuel s o s' : sound limit s -> valid s o -> o <> Reset_ -> run_op limit q wrap fuel s o = Ok s' ->
    steps limit s s' \/ (size s' = size s /\ pt s' = pt s /\ tw s' = tw s /\ co s' = co s /\ vx s' = vx s /\ vy s' = vy s).
  Proof.
    intros S Hv Ho E. pose proof (proj1 S) as G. destruct o as [|p h|p r h|n info]; cbn [run_op] in E; [congruence| | |].
    - left. pose proof (point_result fuel s p h S Hv) as X. cbv zeta in X. destruct (insert_point limit q wrap fuel s p h) as [[t b]| |]; cbn [bind] in E; [|discriminate E..]. injection E as <-.
      destruct X as (r & _ & [[X _]|(-> & _)]); [exact (proj1 (inserted_has limit s _ t r G X))|constructor].
    - left. destruct Hv as [Hp Hr]. pose proof (edge_follow fuel s p r h S Hp Hr) as X. unfold edge_result in X. destruct (insert_edge limit q wrap fuel s p r h) as [[t b]| |]; cbn [bind] in E; [|discriminate E..]. injection E as <-. apply X.
    - right. destruct Hv as [[-> |Hn] Hi].
      + unfold fill in E. change (0 / 4 =? 0) with true in E. cbn beta iota zeta in E. injection E as <-. auto 10.
      + pose proof (fill_ok limit fuel s n info G ltac:(lia) ltac:(lia) Hi) as X. rewrite E in X. apply X.
  Qed.
  Lemma run_sound fuel s o s' : sound limit s -> valid s o -> run_op limit q wrap fuel s o = Ok s' -> sound limit s'.
  Proof.
    intros S Hv E. assert (Dec : o = Reset_ \/ o <> Reset_) by (destruct o; [now left|right; discriminate..]). destruct Dec as [-> |Ho].
    - cbn [run_op] in E. destruct (reset_ok limit s Hl) as (t & E' & F). rewrite E in E'. injection E' as <-. now apply (fresh_sound s).
    - destruct (run_steps fuel s o s' S Hv Ho E) as [X|(E1 & E2 & E3 & E4 & E5 & E6)]; [now apply (steps_sound limit s)|now apply (sound_same s)].
  Qed.
  Theorem reachable_sound s : reachable limit q wrap s -> sound limit s.
  Proof.
    induction 1 as [s0 s E|fuel s o s' R IH Hv E].
    - destruct (reset_ok limit s0 Hl) as (s' & E' & F). rewrite E in E'. injection E' as <-. now apply (fresh_sound s0).
    - now apply (run_sound fuel s o).
  Qed.

  Lemma constrained_same s s' a b : size s' = size s -> pt s' = pt s -> co s' = co s -> vx s' = vx s -> vy s' = vy s -> constrained s a b -> constrained s' a b.
  Proof. intros E1 E2 E4 E5 E6. unfold constrained, face, where_is, edge_from, edge_to, corner. now rewrite E1, E2, E4, E5, E6. Qed.
  Lemma vertex_same s s' a : size s' = size s -> vx s' = vx s -> vy s' = vy s -> vertex_at s a -> vertex_at s' a.
  Proof. intros E1 E5 E6. unfold vertex_at, where_is. now rewrite E1, E5, E6. Qed.
  Lemma covered_same s s' a b : size s' = size s -> pt s' = pt s -> co s' = co s -> vx s' = vx s -> vy s' = vy s -> covered s a b -> covered s' a b.
  Proof. intros E1 E2 E4 E5 E6 H. induction H as [p H|a b H|a m b H1 _ IH1 _ IH2]; [apply cov_vertex; now apply (vertex_same s)|apply cov_edge; now apply (constrained_same s)|now apply (cov_join _ a m b)]. Qed.
  Lemma follows_same s s' a b : size s' = size s -> pt s' = pt s -> co s' = co s -> vx s' = vx s -> vy s' = vy s -> follows s a b -> follows s' a b.
  Proof.
    intros E1 E2 E4 E5 E6 H. induction H as [p r H|p m r H1 H2 _ IH|p m r H1 H2 _ IH1 _ IH2]; [apply fol_covered; now apply (covered_same s)|apply (fol_part _ p m r); [assumption|now apply (covered_same s)|assumption]|].
    apply (fol_bend _ p m r); auto. now apply (vertex_same s).
  Qed.
End Histories.

(** ** C53 fuel *)

(** C53: the fuel only decides how long a call may take: more of it never changes a result. *)
Theorem C53_fuel : forall limit q wrap s o n m, (n <= m)%nat -> run_op limit q wrap n s o <> Timeout -> run_op limit q wrap m s o = run_op limit q wrap n s o.
Proof. intros limit q wrap s o n m L H. destruct (run_mono limit q wrap n m s o L); [contradiction|assumption]. Qed.
Print Assumptions C53_fuel.

(** ** C72 points *)

(** The point of the grid at which the mesh puts a point of the user: the coordinates are rounded down to a multiple of 2^(q+1) and
    counted in units of 2^q. *)
Definition cell (q x : Z) : Z := 2 * (x / 2 ^ (q + 1)).
Definition cell_point (q : Z) (p : point) : point := (cell q (fst p), cell q (snd p)).
Definition strictly_inside (p : point) : Prop := low < fst p < high /\ low < snd p < high.
Lemma grid_cell q x : 0 <= q -> grid q x = cell q x.
Proof.
  intro Hq. unfold grid, cell. rewrite Z.shiftr_div_pow2 by assumption. rewrite Z.pow_add_r by lia. change (2 ^ 1) with 2. rewrite <- Z.div_div; [ring|apply Z.pow_nonzero; lia|lia].
Qed.
Lemma has_vertex s p : has s p <-> vertex_at s p.
Proof. unfold has, vertex_at, where_is, V. tauto. Qed.
Lemma inside_inbox p : strictly_inside p <-> inbox p /\ ~ on_rim p.
Proof. unfold strictly_inside, inbox, on_rim, low, high, lo, hi. change (2 ^ 15) with 32768. lia. Qed.

(** C72: insert_point says true exactly when the point is a vertex already, or is strictly inside the square and there is room for it.
    If it says false, or if the vertex was there, nothing changes. Otherwise the mesh has one vertex more, at the point, and the others
    are where they were. *)
Theorem C72_point : forall limit q wrap s fuel p hint s' b, 4 <= limit <= 8192 -> 0 <= q -> reachable limit q wrap s -> int32p p ->
  insert_point limit q wrap fuel s p hint = Ok (s', b) ->
  (b = true <-> vertex_at s (cell_point q p) \/ (size s < limit /\ strictly_inside (cell_point q p))) /\
  (b = false \/ vertex_at s (cell_point q p) -> s' = s) /\
  (b = true -> ~ vertex_at s (cell_point q p) -> size s' = size s + 1 /\ where_is s' (size s) = cell_point q p /\ forall v, 0 <= v < size s -> where_is s' v = where_is s v).
Proof.
  intros limit q wrap s fuel p hint s' b Hl Hq R Hp E. pose proof (reachable_sound limit q wrap Hl Hq s R) as S.
  pose proof (point_result limit q wrap Hq fuel s p hint S Hp) as X. cbv zeta in X. rewrite E in X. rewrite !grid_cell in X by assumption. fold (cell_point q p) in X. set (g := cell_point q p) in *.
  rewrite inside_inbox, <- has_vertex. destruct X as (r & -> & [[X Hb]|(-> & -> & Hb)]).
  - destruct X as [(-> & Hr & H)|[(-> & -> & H & C)|(Hr & H & C1 & C2 & St & Es & Ev & _)]].
    + apply Z.eqb_neq in Hr. rewrite Hr. cbn [negb]. split; [tauto|]. split; [reflexivity|contradiction].
    + cbn [Z.eqb negb]. split; [split; [discriminate|intros [K|[K1 [_ K2]]]; [contradiction|destruct C; [lia|contradiction]]]|]. split; [reflexivity|discriminate].
    + apply Z.eqb_neq in Hr. rewrite Hr. cbn [negb]. split; [tauto|]. split; [intros [K|K]; [discriminate K|contradiction]|]. intros _ _. split; [assumption|]. split; [assumption|].
      pose proof (steps_extends limit s s' St (proj1 S)) as [_ Ex]. exact Ex.
  - cbn [Z.eqb negb]. split; [split; [discriminate|]|split; [reflexivity|discriminate]]. intros [(v & Hv & Ev)|[_ [K _]]]; [|contradiction]. exfalso. apply Hb. rewrite <- Ev. exact (g_box _ _ (proj1 S) v Hv).
Qed.
Print Assumptions C72_point.

(** C72: the first corner of the grid cell of a point is at most 2^(q+1) - 1 below it. *)
Theorem C72_cell : forall q x, 0 <= q -> cell q x * 2 ^ q <= x < cell q x * 2 ^ q + 2 ^ (q + 1) /\ Z.even (cell q x) = true.
Proof.
  intros q x Hq. unfold cell. rewrite Z.pow_add_r by lia. change (2 ^ 1) with 2. assert (Hp : 0 < 2 ^ q) by (apply Z.pow_pos_nonneg; lia). split.
  - pose proof (Z.div_mod x (2 ^ q * 2) ltac:(lia)). pose proof (Z.mod_pos_bound x (2 ^ q * 2) ltac:(lia)). nia.
  - rewrite Z.even_mul. reflexivity.
Qed.
Print Assumptions C72_cell.

(** ** C73 edges *)
Lemma joined_trans s a b c : joined s a b -> joined s b c -> joined s a c.
Proof. induction 1 as [p _|a b' b H _ IH]; intro K; [assumption|]. apply (joined_step _ a b' c); auto. Qed.
Lemma constrained_vertex limit s a b : good limit s -> constrained s a b -> vertex_at s b.
Proof. intros G H. exact (proj2 (covered_ends limit s a b G (cov_edge s a b H))). Qed.
Lemma covered_joined limit s a b : good limit s -> covered s a b -> joined s a b.
Proof.
  intros G H. induction H as [p H|a b H|a m b _ _ IH1 _ IH2]; [now constructor| |now apply (joined_trans s a m b)].
  apply (joined_step s a b b H). constructor. now apply (constrained_vertex limit s a b).
Qed.
Lemma follows_joined limit s a b : good limit s -> follows s a b -> joined s a b.
Proof.
  intros G H. induction H as [p q H|p m q _ H _ IH|p r q _ _ _ IH1 _ IH2]; [now apply (covered_joined limit)| |now apply (joined_trans s p r q)].
  apply (joined_trans s p m q); [now apply (covered_joined limit)|assumption].
Qed.

(** C73: when insert_edge says true, constrained edges lead from the one point to the other along the segment, bending only at vertices
    less than one grid unit beside the segment that they replace; so there is a chain of constrained edges between the two points. *)
Theorem C73_follows : forall limit q wrap s fuel p r hint s', 4 <= limit <= 8192 -> 0 <= q -> reachable limit q wrap s -> int32p p -> int32p r ->
  insert_edge limit q wrap fuel s p r hint = Ok (s', true) -> follows s' (cell_point q p) (cell_point q r) /\ joined s' (cell_point q p) (cell_point q r).
Proof.
  intros limit q wrap s fuel p r hint s' Hl Hq R Hp Hr E. pose proof (reachable_sound limit q wrap Hl Hq s R) as S.
  pose proof (edge_follow limit q wrap Hq fuel s p r hint S Hp Hr) as X. rewrite E in X. rewrite !grid_cell in X by assumption. destruct X as [St F]. specialize (F eq_refl). split; [exact F|].
  apply (follows_joined limit); [exact (steps_good limit s s' St (proj1 S))|exact F].
Qed.
Print Assumptions C73_follows.

(** C73: what constrained edges cover, and what they follow, stays so whatever is called later (other than reset): points and edges
    only split constrained edges, and nothing ever frees one. *)
Theorem C73_persists : forall limit q wrap s fuel o s' a b, 4 <= limit <= 8192 -> 0 <= q -> reachable limit q wrap s -> valid s o -> o <> Reset_ ->
  run_op limit q wrap fuel s o = Ok s' -> (covered s a b -> covered s' a b) /\ (follows s a b -> follows s' a b).
Proof.
  intros limit q wrap s fuel o s' a b Hl Hq R Hv Ho E. pose proof (reachable_sound limit q wrap Hl Hq s R) as S.
  destruct (run_steps limit q wrap Hq fuel s o s' S Hv Ho E) as [X|(E1 & E2 & E3 & E4 & E5 & E6)].
  - split; intro K; [apply (steps_covered limit s)|apply (steps_follows limit s)]; (assumption || exact (proj1 S)).
  - split; intro K; [now apply (covered_same s)|now apply (follows_same s)].
Qed.
Print Assumptions C73_persists.

(** ** C75 planarity *)

(** C75: different vertices are at different places, every vertex is a corner of a face, and a face contains, inside or on its edges, no
    vertex other than its corners: the edges cross nowhere but at vertices. *)
Theorem C75_planar : forall limit q wrap s, 4 <= limit <= 8192 -> 0 <= q -> reachable limit q wrap s ->
  (forall v w, 0 <= v < size s -> 0 <= w < size s -> where_is s v = where_is s w -> v = w) /\
  (forall v, 0 <= v < size s -> exists f i, face s f /\ side i /\ corner s f i = v) /\
  (forall v f, 0 <= v < size s -> face s f -> covers (face_triangle s f) (where_is s v) -> exists i, side i /\ corner s f i = v).
Proof.
  intros limit q wrap s Hl Hq R. destruct (reachable_sound limit q wrap Hl Hq s R) as (G & U & D). split; [exact D|]. split.
  - intros v Hv. destruct (U v Hv) as (n & Hn & En). destruct (node_side s n Hn) as (f & i & -> & Hf & Hi & _). exists f, i. split; [assumption|]. split; [assumption|]. now rewrite (proj2 (proj2 (edge_ends s f i Hi))).
  - intros v f Hv Hf Hc. destruct (U v Hv) as (m & Hm & Em). pose proof (side_node s f 0 Hf (or_introl eq_refl)) as Hn.
    destruct (edge_ends s f 0 (or_introl eq_refl)) as (A1 & A2 & A3). unfold edge_from, edge_to, ea, eb in A1, A2. cbn [Z.add] in A1, A2. set (n := 4 * f + 0) in *.
    assert (W : where_is s v = P s m) by (unfold P; rewrite Em; reflexivity).
    assert (C : closed_face s (P s m) n).
    { unfold face_triangle, covers in Hc. rewrite W, A1, A2, A3 in Hc. change (where_is s (pt s n)) with (P s n) in Hc. change (where_is s (pt s (nxt n))) with (P s (nxt n)) in Hc. change (where_is s (pt s (prv n))) with (P s (prv n)) in Hc.
      unfold closed_face. rewrite <- !(orient_rot (P s m)). tauto. }
    assert (Pe : forall k, node s k -> P s m = P s k -> v = pt s k). { intros k Hk E. apply D; [assumption|apply (g_pt _ _ G); assumption|]. rewrite <- Em. exact E. }
    destruct (vertex_in_face limit s n m G Hn Hm C) as [E|[E|E]].
    + exists 0. split; [now left|]. rewrite A3. symmetry. now apply Pe.
    + exists 1. split; [right; now left|]. rewrite A1. symmetry. apply Pe; [now apply nxt_node|assumption].
    + exists 2. split; [right; now right|]. rewrite A2. symmetry. apply Pe; [now apply prv_node|assumption].
Qed.
Print Assumptions C75_planar.

(** ** The limits of insert_edge *)

(** A history from the empty mesh, with what a test of the last mesh says. *)
Definition history (limit : Z) (wrap : bool) (fuel : nat) (l : list op) : res mesh := s <- reset limit blank ;; run limit 0 wrap fuel s l.
Definition plain (o : op) : bool :=
  let ok x := (- 2 ^ 31 <=? x) && (x <? 2 ^ 31) in
  match o with Reset_ => true | Point p _ => ok (fst p) && ok (snd p) | Edge p r _ => ok (fst p) && ok (snd p) && ok (fst r) && ok (snd r) | Fill _ _ => false end.
Lemma plain_valid s o : plain o = true -> valid s o.
Proof.
  destruct o as [|p h|p r h|n i]; cbn [plain valid]; [trivial| | |discriminate].
  - intro H. apply andb_prop in H as [H1 H2]. apply andb_prop in H1 as [A B], H2 as [C D]. apply Z.leb_le in A, C. apply Z.ltb_lt in B, D. unfold int32p. repeat split; assumption.
  - intro H. apply andb_prop in H as [H H4]. apply andb_prop in H as [H H3]. apply andb_prop in H as [H1 H2]. apply andb_prop in H1 as [A B], H2 as [C D], H3 as [E F], H4 as [K L].
    apply Z.leb_le in A, C, E, K. apply Z.ltb_lt in B, D, F, L. unfold int32p. repeat split; assumption.
Qed.
Lemma history_reachable limit wrap fuel l s : forallb plain l = true -> history limit wrap fuel l = Ok s -> reachable limit 0 wrap s.
Proof.
  intros H E. unfold history in E. destruct (reset limit blank) as [r| |] eqn:Er; cbn [bind] in E; try discriminate E. apply (run_reachable limit 0 wrap fuel l r s); [now apply (r_reset limit 0 wrap blank)| |assumption].
  intros t _ o Ho. apply plain_valid. rewrite forallb_forall in H. now apply H.
Qed.

(** A covered segment starts with a constrained edge on its line. *)
Lemma covered_first s a b : covered s a b -> a <> b -> exists c, constrained s a c /\ orient a b c = 0.
Proof.
  induction 1 as [p _|a b H|a m b H1 _ IH1 _ IH2]; intro N; [congruence| |].
  - exists b. split; [assumption|]. unfold orient. ring.
  - assert (Dec : a = m \/ a <> m). { destruct a as [x y], m as [x' y']. destruct (Z.eq_dec x x'), (Z.eq_dec y y'); subst; (now left) || (right; congruence). }
    destruct Dec as [-> |Na]; [now apply IH2|]. destruct (IH1 Na) as (c & Hc & Ec). exists c. split; [assumption|]. destruct H1 as [O _].
    assert (X1 : (fst m - fst a) * orient a b c = (fst b - fst a) * orient a m c - (fst c - fst a) * orient a m b) by (unfold orient; ring).
    assert (X2 : (snd m - snd a) * orient a b c = (snd b - snd a) * orient a m c - (snd c - snd a) * orient a m b) by (unfold orient; ring).
    assert (Om : orient a m b = 0) by (rewrite orient_anti; lia). rewrite Ec, Om, !Z.mul_0_r in X1, X2. apply Z.mul_eq_0 in X1, X2. destruct X1 as [X1|X1]; [|assumption]. destruct X2 as [X2|X2]; [|assumption].
    exfalso. apply Na. destruct a, m. cbn [fst snd] in *. f_equal; lia.
Qed.
Definition starts_along (s : mesh) (a b : point) : bool :=
  existsb (fun f => existsb (fun i => (co s (4 * f + i) =? 1) &&
    let u := where_is s (edge_from s f i) in let w := where_is s (edge_to s f i) in
    ((fst u =? fst a) && (snd u =? snd a) && (orient a b w =? 0)) || ((fst w =? fst a) && (snd w =? snd a) && (orient a b u =? 0)))%bool [0; 1; 2]) (all_faces s).
Lemma starts_along_ok s a b : a <> b -> covered s a b -> starts_along s a b = true.
Proof.
  intros N H. destruct (covered_first s a b H N) as (c & (f & i & Hf & Hi & C & E) & O). unfold starts_along. apply existsb_exists. exists f. split.
  - unfold all_faces. apply in_map_iff. exists (Z.to_nat f). destruct Hf. split; [lia|]. apply in_seq. lia.
  - apply existsb_exists. exists i. split; [destruct Hi as [-> |[-> | ->]]; cbn [In]; tauto|]. rewrite C. cbn [Z.eqb andb Pos.eqb]. cbv zeta. apply orb_true_iff. destruct E as [[E1 E2]|[E1 E2]]; [left|right]; rewrite E1, E2, !Z.eqb_refl, O; reflexivity.
Qed.

(** C73 (refuted): insert_edge can say true although the constrained edges that it leaves do not cover the segment: where the segment
    crosses another constrained edge, the crossing is rounded to the grid, and both edges are bent to it. *)
Theorem C73_exact_refuted : exists s s' p r, reachable 32 0 true s /\ int32p p /\ int32p r /\ strictly_inside (cell_point 0 p) /\ strictly_inside (cell_point 0 r) /\
  insert_edge 32 0 true 100 s p r 0 = Ok (s', true) /\ ~ covered s' (cell_point 0 p) (cell_point 0 r).
Proof.
  assert (K : match history 32 true 100 [Edge (34, -8) (-8, 34) 0] with
    | Ok s => match insert_edge 32 0 true 100 s (28, 30) (-48, -2) 0 with Ok (s', b) => b && negb (starts_along s' (28, 30) (-48, -2)) | _ => false end
    | _ => false end = true) by (vm_compute; reflexivity).
  destruct (history 32 true 100 [Edge (34, -8) (-8, 34) 0]) as [s| |] eqn:Es; try discriminate K. destruct (insert_edge 32 0 true 100 s (28, 30) (-48, -2) 0) as [[s' b]| |] eqn:Ee; try discriminate K.
  apply andb_prop in K as [-> K]. exists s, s', (28, 30), (-48, -2). split; [apply (history_reachable 32 true 100 [Edge (34, -8) (-8, 34) 0]); [reflexivity|assumption]|].
  split; [unfold int32p; cbn [fst snd]; lia|]. split; [unfold int32p; cbn [fst snd]; lia|]. change (cell_point 0 (28, 30)) with (28, 30). change (cell_point 0 (-48, -2)) with (-48, -2).
  split; [unfold strictly_inside, low, high; cbn [fst snd]; lia|]. split; [unfold strictly_inside, low, high; cbn [fst snd]; lia|]. split; [assumption|].
  intro C. apply starts_along_ok in C; [|discriminate]. rewrite C in K. discriminate K.
Qed.
Print Assumptions C73_exact_refuted.

(** C73 (refuted): insert_edge can say false although both points are inside the square and there is room for many more vertices; the
    points, and part of the edge, are in the mesh then. *)
Theorem C73_false_refuted : exists s s' p r, reachable 64 0 true s /\ int32p p /\ int32p r /\ strictly_inside (cell_point 0 p) /\ strictly_inside (cell_point 0 r) /\
  insert_edge 64 0 true 1000 s p r 0 = Ok (s', false) /\ size s' + 40 < 64 /\ size s < size s'.
Proof.
  assert (K : match history 64 true 100 [Edge (-436, -930) (554, 916) 0] with
    | Ok s => match insert_edge 64 0 true 1000 s (932, 8) (68, 462) 0 with Ok (s', b) => negb b && (size s' + 40 <? 64) && (size s <? size s') | _ => false end
    | _ => false end = true) by (vm_compute; reflexivity).
  destruct (history 64 true 100 [Edge (-436, -930) (554, 916) 0]) as [s| |] eqn:Es; try discriminate K. destruct (insert_edge 64 0 true 1000 s (932, 8) (68, 462) 0) as [[s' b]| |] eqn:Ee; try discriminate K.
  apply andb_prop in K as [K K2]. apply andb_prop in K as [Kb K1]. destruct b; [discriminate Kb|]. apply Z.ltb_lt in K1, K2.
  exists s, s', (932, 8), (68, 462). split; [apply (history_reachable 64 true 100 [Edge (-436, -930) (554, 916) 0]); [reflexivity|assumption]|].
  split; [unfold int32p; cbn [fst snd]; lia|]. split; [unfold int32p; cbn [fst snd]; lia|]. change (cell_point 0 (932, 8)) with (932, 8). change (cell_point 0 (68, 462)) with (68, 462).
  split; [unfold strictly_inside, low, high; cbn [fst snd]; lia|]. split; [unfold strictly_inside, low, high; cbn [fst snd]; lia|]. split; [assumption|]. split; assumption.
Qed.
Print Assumptions C73_false_refuted.

(** ** C74 termination of insert_edge *)

(** The turns of the loop of insert_edge that only go on to the next face around the point. *)
Definition turn (limit : Z) (s : mesh) (px py qx qy pn : Z) : res (option Z) :=
  let n := pn / 4 * 4 in
  p0 <- rel limit s px py n ;; p1 <- rel limit s px py (n + 1) ;; p2 <- rel limit s px py (n + 2) ;;
  x <- chk64 (qx - px) ;; y <- chk64 (qy - py) ;;
  let qv := (x, y) in
  if is_zero qv then Ok None
  else
    let '(k, r, l) := if is_zero p0 then (0, p1, p2) else if is_zero p1 then (1, p2, p0) else (2, p0, p1) in
    let k2 := (if k =? 0 then 2 else if k =? 1 then 0 else 1) in
    a <- crossx2 r qv ;;
    b <- crossx2 l qv ;;
    if (a <? 0) && (b >=? 0) then Ok None
    else pn <- get_e limit s (n + k2) ;; Ok (Some pn).
Lemma turn_loop limit wrap fuel s px py qx qy pn pn' : turn limit s px py qx qy pn = Ok (Some pn') ->
  edge_loop limit wrap (S fuel) s px py qx qy pn = edge_loop limit wrap fuel s px py qx qy pn'.
Proof.
  unfold turn. cbn [edge_loop]. fold (edge_loop limit wrap) (insert_edge64 limit wrap). cbv zeta.
  destruct (rel limit s px py (pn / 4 * 4)) as [p0| |]; cbn [bind]; try discriminate. destruct (rel limit s px py (pn / 4 * 4 + 1)) as [p1| |]; cbn [bind]; try discriminate. destruct (rel limit s px py (pn / 4 * 4 + 2)) as [p2| |]; cbn [bind]; try discriminate.
  destruct (chk64 (qx - px)) as [x| |]; cbn [bind]; try discriminate. destruct (chk64 (qy - py)) as [y| |]; cbn [bind]; try discriminate. destruct (is_zero (x, y)); [discriminate|].
  destruct (if is_zero p0 then (0, p1, p2) else if is_zero p1 then (1, p2, p0) else (2, p0, p1)) as [[k r] l].
  destruct (crossx2 r (x, y)) as [a| |]; cbn [bind]; try discriminate. destruct (crossx2 l (x, y)) as [b| |]; cbn [bind]; try discriminate. destruct ((a <? 0) && (b >=? 0)); [discriminate|].
  destruct (get_e limit s (pn / 4 * 4 + (if k =? 0 then 2 else if k =? 1 then 0 else 1))) as [e| |]; cbn [bind]; try discriminate. now intros [= ->].
Qed.

(** C74 (refuted): an edge from a corner of the square need not come to an end, with any fuel: the loop of insert_edge goes around
    the point in one direction only, and passes the side of the square. *)
Theorem C74_refuted : exists s p r hint, reachable 32 0 true s /\ int32p p /\ int32p r /\ in_square (cell_point 0 p) /\ strictly_inside (cell_point 0 r) /\
  forall fuel, insert_edge 32 0 true fuel s p r hint = Timeout.
Proof.
  assert (K : match history 32 true 100 [Point (-44, 4) 28] with
    | Ok s => match locate_insertion_node 32 100 s (-32768) (-32768) 0 with
      | Ok n1 => match insert_point_at_node 32 true 100 s (-32768) (-32768) n1 with
        | Ok (s1, pn) => match locate_insertion_node 32 100 s1 46 (-46) pn with
          | Ok n2 => match insert_point_at_node 32 true 100 s1 46 (-46) n2 with
            | Ok (s2, qn) => match locate_insertion_node 32 100 s2 (-32768) (-32768) pn with Ok k => match turn 32 s2 (-32768) (-32768) 46 (-46) k with Ok (Some k') => negb (pn =? 0) && negb (qn =? 0) && (k' =? 0) | _ => false end | _ => false end
            | _ => false end
          | _ => false end
        | _ => false end
      | _ => false end
    | _ => false end = true) by (vm_compute; reflexivity).
  destruct (history 32 true 100 [Point (-44, 4) 28]) as [s| |] eqn:Es; try discriminate K.
  destruct (locate_insertion_node 32 100 s (-32768) (-32768) 0) as [n1| |] eqn:E1; try discriminate K. destruct (insert_point_at_node 32 true 100 s (-32768) (-32768) n1) as [[s1 pn]| |] eqn:E2; try discriminate K.
  destruct (locate_insertion_node 32 100 s1 46 (-46) pn) as [n2| |] eqn:E3; try discriminate K. destruct (insert_point_at_node 32 true 100 s1 46 (-46) n2) as [[s2 qn]| |] eqn:E4; try discriminate K.
  destruct (locate_insertion_node 32 100 s2 (-32768) (-32768) pn) as [k| |] eqn:E5; try discriminate K. destruct (turn 32 s2 (-32768) (-32768) 46 (-46) k) as [[k'|]| |] eqn:E6; try discriminate K.
  apply andb_prop in K as [K K']. apply andb_prop in K as [K1 K2]. apply Z.eqb_eq in K'. subst k'.
  assert (R : reachable 32 0 true s) by (apply (history_reachable 32 true 100 [Point (-44, 4) 28]); [reflexivity|assumption]).
  exists s, (-32768, -32768), (46, -46), 0. split; [assumption|]. split; [unfold int32p; cbn [fst snd]; lia|]. split; [unfold int32p; cbn [fst snd]; lia|].
  change (cell_point 0 (-32768, -32768)) with (-32768, -32768). change (cell_point 0 (46, -46)) with (46, -46). split; [unfold in_square, low, high; cbn [fst snd]; lia|]. split; [unfold strictly_inside, low, high; cbn [fst snd]; lia|].
  pose proof (reachable_sound 32 0 true ltac:(lia) ltac:(lia) s R) as S.
  assert (S2 : sound 32 s2).
  { pose proof (insert_any 32 true 100 s (-32768, -32768) 0 S ltac:(split; cbn [fst snd]; lia)) as X. cbn [fst snd] in X. rewrite E1, E2 in X.
    assert (St : steps 32 s s1) by (destruct X as [[X _]|(-> & _)]; [exact (proj1 (inserted_has 32 s _ s1 pn (proj1 S) X))|constructor]). pose proof (steps_sound 32 s s1 St S) as S1.
    pose proof (insert_any 32 true 100 s1 (46, -46) pn S1 ltac:(split; cbn [fst snd]; lia)) as Y. cbn [fst snd] in Y. rewrite E3, E4 in Y.
    assert (St2 : steps 32 s1 s2) by (destruct Y as [[Y _]|(-> & _)]; [exact (proj1 (inserted_has 32 s1 _ s2 qn (proj1 S1) Y))|constructor]). exact (steps_sound 32 s1 s2 St2 S1). }
  assert (Big : forall m, (100 <= m)%nat -> insert_edge 32 0 true (Datatypes.S (Datatypes.S m)) s (-32768, -32768) (46, -46) 0 = Timeout).
  { intros m L. unfold insert_edge. cbn [fst snd]. change (grid 0 (-32768)) with (-32768). change (grid 0 46) with 46. change (grid 0 (-46)) with (-46). remember (Datatypes.S m) as m' eqn:Em. cbn [insert_edge64]. fold (insert_edge64 32 true) (edge_loop 32 true).
    assert (L' : (100 <= m')%nat) by lia.
    rewrite (upto_ok _ _ _ (locate_mono 32 100 m' s (-32768) (-32768) 0 L') E1). cbn [bind]. rewrite (upto_ok _ _ _ (at_node_mono 32 true 100 m' s (-32768) (-32768) n1 L') E2). cbn [bind].
    destruct (pn =? 0); [discriminate K1|]. change ((-32768 =? 46) && (-32768 =? -46)) with false. cbn beta iota.
    rewrite (upto_ok _ _ _ (locate_mono 32 100 m' s1 46 (-46) pn L') E3). cbn [bind]. rewrite (upto_ok _ _ _ (at_node_mono 32 true 100 m' s1 46 (-46) n2 L') E4). cbn [bind]. destruct (qn =? 0); [discriminate K2|].
    rewrite (upto_ok _ _ _ (locate_mono 32 100 m' s2 (-32768) (-32768) pn L') E5). cbn [bind]. rewrite Em, (turn_loop 32 true m s2 _ _ _ _ k 0 E6).
    apply (nil_loop 32 true m s2 (-32768, -32768) (46, -46) (proj1 S2)); [unfold inbox, lo, hi; cbn [fst snd]; lia|unfold inbox, lo, hi; cbn [fst snd]; lia|discriminate]. }
  intro fuel. pose proof (edge_mono 32 true fuel) as [M _]. specialize (M (Datatypes.S (Datatypes.S (100 + fuel))) s (grid 0 (-32768)) (grid 0 (-32768)) (grid 0 46) (grid 0 (-46)) 0 ltac:(lia)).
  specialize (Big (100 + fuel)%nat ltac:(lia)). unfold insert_edge in Big |- *. cbn [fst snd] in Big |- *. rewrite Big in M. destruct M as [M|M]; [assumption|now symmetry].
Qed.
Print Assumptions C74_refuted.

(** ** Examples *)

(** The mesh of the demo of C53 to C58: a point, and the edges of a triangle around it. A point that is there, one on the side of the
    square, one that is new, and an edge across the triangle. *)
Example C72_to_C75_nonvacuous : exists s t t' s' s'', reachable 32 0 true s /\ size s = 8 /\ insert_point 32 0 true 100 s (101, 201) 0 = Ok (t, true) /\ size t = 8 /\
  insert_point 32 0 true 100 s (-32768, 0) 0 = Ok (t', false) /\ insert_point 32 0 true 100 s (321, -123) 0 = Ok (s', true) /\ size s' = 9 /\ where_is s' 8 = (320, -124) /\
  insert_edge 32 0 true 100 s (-300, 500) (500, -500) 0 = Ok (s'', true) /\ size s'' = 12.
Proof.
  assert (K : match history 32 true 200 demo with
    | Ok s => match insert_point 32 0 true 100 s (321, -123) 0, insert_edge 32 0 true 100 s (-300, 500) (500, -500) 0 with
       | Ok (s', b), Ok (s'', b') => (size s, b, size s', where_is s' 8, b', size s'') | _, _ => (0, false, 0, (0, 0), false, 0) end
    | _ => (0, false, 0, (0, 0), false, 0) end = (8, true, 9, (320, -124), true, 12)) by (vm_compute; reflexivity).
  assert (K1 : match history 32 true 200 demo with
    | Ok s => match insert_point 32 0 true 100 s (101, 201) 0, insert_point 32 0 true 100 s (-32768, 0) 0 with Ok (t, b), Ok (_, b') => (b, size t, b') | _, _ => (false, 0, true) end
    | _ => (false, 0, true) end = (true, 8, false)) by (vm_compute; reflexivity).
  destruct (history 32 true 200 demo) as [s| |] eqn:Es; try discriminate K.
  assert (R : reachable 32 0 true s) by (apply (history_reachable 32 true 200 demo); [reflexivity|assumption]).
  destruct (insert_point 32 0 true 100 s (321, -123) 0) as [[s' b]| |] eqn:E1; try discriminate K. destruct (insert_edge 32 0 true 100 s (-300, 500) (500, -500) 0) as [[s'' b']| |] eqn:E2; try discriminate K.
  destruct (insert_point 32 0 true 100 s (101, 201) 0) as [[t c]| |] eqn:E3; try discriminate K1. destruct (insert_point 32 0 true 100 s (-32768, 0) 0) as [[t' c']| |] eqn:E4; try discriminate K1.
  injection K as K2 -> K3 K4 K5 -> K6. injection K1 as -> K1 ->. exists s, t, t', s', s''. rewrite E1, E2, E3, E4. unfold where_is in *. auto 20 using f_equal2.
Qed.
