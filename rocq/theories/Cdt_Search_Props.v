(** C54 and C74: the faces cover the square; insert_edge ends unless one of its walks does not, and always with the exhaustive search. *)
From Coq Require Import List ZArith Lia.
Import ListNotations.
From Verif Require Import Base Vec_Model Math_Model Vec_Spec Cdt_Model Cdt_Geom Cdt_Mesh Cdt_Flip Cdt_Circle Cdt_Insert Cdt_OnEdge Cdt_Walk Cdt_Edge Cdt_Spec Cdt_Tile Cdt_Reset Cdt_History Cdt_Props Cdt_Steps Cdt_Follow Cdt_Fuel Cdt_Edge_Props Cdt_Cycle_Props Cdt_Search_Model Cdt_Search Cdt_Cover Cdt_Bound.
Local Open Scope Z_scope.

(** ** C54 the faces cover the square *)

(** C54: every point of the square, also one on its sides, is in a face or on the sides of one. *)
Theorem C54_cover : forall limit q wrap s p, 4 <= limit <= 8192 -> 0 <= q -> reachable limit q wrap s -> in_square p ->
  exists f, face s f /\ covers (face_triangle s f) p.
Proof.
  intros limit q wrap s p Hl Hq R Hp. pose proof (reachable_good limit q wrap Hl Hq s R) as G.
  destruct (cover limit s p G) as (f & Hf & (C1 & C2 & C3)); [unfold in_square, low, high, inbox, lo, hi in *; change (2 ^ 15) with 32768; lia|].
  exists f. split; [exact Hf|]. unfold face_triangle, Cdt_Spec.corner, where_is, covers. destruct (four f) as (E1 & E2 & _). change (0 mod 3) with 0. change (1 mod 3) with 1. change (2 mod 3) with 2. rewrite Z.add_0_r, <- E1, <- E2.
  change (orient (P s (4 * f)) (P s (nxt (4 * f))) p <= 0 /\ orient (P s (nxt (4 * f))) (P s (prv (4 * f))) p <= 0 /\ orient (P s (prv (4 * f))) (P s (4 * f)) p <= 0).
  rewrite (orient_rot p (P s (4 * f))), (orient_rot p (P s (nxt (4 * f)))), (orient_rot p (P s (prv (4 * f)))). auto.
Qed.
Print Assumptions C54_cover.

(** ** C74 *)
Lemma walk_finds limit F : finds limit (walk_at_most limit F).
Proof.
  intros s p h S Np. unfold walk_at_most. assert (D : inbox p \/ ~ inbox p) by (unfold inbox; lia). destruct D as [Hp|Hp].
  - pose proof (locate_in limit F s p h (proj1 S) Hp) as X. destruct (locate_insertion_node limit F s (fst p) (snd p) h) as [n| |]; [now right|contradiction|exact I].
  - pose proof (locate_out limit F s p h (proj1 S) Np Hp) as X. destruct (locate_insertion_node limit F s (fst p) (snd p) h) as [n| |]; [now left|contradiction|exact I].
Qed.
Lemma search_finds limit : finds limit (by_search limit).
Proof. intros s p h S Np. unfold by_search. destruct (search_ok limit s p (proj1 S) Np) as (n & -> & H). cbn [bind]. exact H. Qed.

Lemma odd_corner q p : 0 <= q -> cell_point q p <> (low, low) -> ~ Cdt_Search.corner (cell_point q p).
Proof.
  intros Hq N C. destruct (C72_cell q (fst p) Hq) as [_ E1]. destruct (C72_cell q (snd p) Hq) as [_ E2]. unfold cell_point in *. unfold low, Cdt_Search.corner, lo, hi in *. change (2 ^ 15) with 32768 in *.
  destruct C as [C|[C|[C|C]]]; injection C as C1 C2; [apply N; congruence| | |]; solve [rewrite C1 in E1; discriminate E1 | rewrite C2 in E2; discriminate E2].
Qed.

(** insert_edge(p, r, hint) with another way to find the face of a point: the one of the code, but given up after F turns, or the
    exhaustive search that the source has under #if 0. None: a walk was given up. *)
Definition edge_cut (limit q : Z) (F fuel : nat) (s : mesh) (p r : point) (hint : Z) : res (option (mesh * bool)) :=
  insert_edge_by limit true (walk_at_most limit F) fuel s (grid q (fst p)) (grid q (snd p)) (grid q (fst r)) (grid q (snd r)) hint.
Definition edge_search (limit q : Z) (fuel : nat) (s : mesh) (p r : point) (hint : Z) : res (option (mesh * bool)) :=
  insert_edge_by limit true (by_search limit) fuel s (grid q (fst p)) (grid q (snd p)) (grid q (fst r)) (grid q (snd r)) hint.

(** C74 (partial): an edge that does not start at the low corner of the square (the only corner that a user's point can be at) comes to
    an end, if its walks do: with the walks given up after F turns, for any F, there is an end; and when no walk was given up, the code
    comes to the same end. Missing: a start at the corner (C74_refuted), and walks that never end (C77_refuted). *)
Theorem C74_walks_partial : forall limit q s p r hint F, 4 <= limit <= 8192 -> 0 <= q -> reachable limit q true s -> int32p p -> int32p r ->
  cell_point q p <> (low, low) ->
  exists k o, (forall fuel, (k <= fuel)%nat -> edge_cut limit q F fuel s p r hint = Ok o) /\
    forall s' b, o = Some (s', b) -> forall fuel, (k + F <= fuel)%nat -> insert_edge limit q true fuel s p r hint = Ok (s', b).
Proof.
  intros limit q s p r hint F Hl Hq R Hp Hr Nc. pose proof (reachable_sound limit q true Hl Hq s R) as S.
  assert (Eg : (grid q (fst p), grid q (snd p)) = cell_point q p) by (unfold cell_point; now rewrite !grid_cell).
  destruct (edge_ends limit (walk_at_most limit F) (walk_finds limit F) s (grid q (fst p), grid q (snd p)) (grid q (fst r), grid q (snd r)) hint S (grid_near q Hq p Hp) (grid_near q Hq r Hr)) as (k & o & _ & H).
  { rewrite Eg. now apply odd_corner. }
  exists k, o. split; [exact H|]. intros s' b -> fuel L. exact (proj1 (cut_gives limit true F k) fuel s _ _ _ _ hint L (s', b) (H k (Nat.le_refl k))).
Qed.
Print Assumptions C74_walks_partial.

(** C74 (partial): such an edge ends, or a walk of it never does. The number of turns after which a walk that has not ended never will
    depends on the capacity of the mesh only. *)
Theorem C74_dichotomy_partial : forall limit q s p r hint, 4 <= limit <= 8192 -> 0 <= q -> reachable limit q true s -> int32p p -> int32p r ->
  cell_point q p <> (low, low) ->
  (exists k s' b, forall fuel, (k <= fuel)%nat -> insert_edge limit q true fuel s p r hint = Ok (s', b)) \/
  ((forall fuel, insert_edge limit q true fuel s p r hint = Timeout) /\
   exists k, forall fuel, (k <= fuel)%nat -> edge_cut limit q (walk_turns limit) fuel s p r hint = Ok None).
Proof.
  intros limit q s p r hint Hl Hq R Hp Hr Nc. destruct (C74_walks_partial limit q s p r hint (walk_turns limit) Hl Hq R Hp Hr Nc) as (k & [[s' b]|] & H1 & H2).
  - left. exists (k + walk_turns limit)%nat, s', b. intros fuel L. now apply H2.
  - right. split; [|exists k; exact H1]. intro fuel. pose proof (proj1 (cut_stuck limit true k) fuel s (grid q (fst p)) (grid q (snd p)) (grid q (fst r)) (grid q (snd r)) hint) as X.
    specialize (H1 k (Nat.le_refl k)). unfold edge_cut in H1. rewrite H1 in X. exact X.
Qed.
Print Assumptions C74_dichotomy_partial.

(** The bound of C74_dichotomy_partial: after it a walk has ended, or never will, in any mesh and for any point. *)
Theorem C74_walk_bound : forall limit s x y hint, locate_insertion_node limit (walk_turns limit) s x y hint = Timeout ->
  forall fuel, locate_insertion_node limit fuel s x y hint = Timeout.
Proof. exact locate_never. Qed.
Print Assumptions C74_walk_bound.

Lemma search_some limit fuel :
  (forall s px py qx qy h, insert_edge_by limit true (by_search limit) fuel s px py qx qy h <> Ok None) /\
  (forall s px py qx qy pn, edge_loop_by limit true (by_search limit) fuel s px py qx qy pn <> Ok None).
Proof.
  assert (B : forall {A B} (r : res A) (k : A -> res (option B)), (forall x, k x <> Ok None) -> bind r k <> Ok None) by (intros A B [x| |] k H; cbn [bind]; [apply H|discriminate..]).
  assert (T : forall {A B} (o : res (option A)) (k : A -> res (option B)), o <> Ok None -> (forall x, k x <> Ok None) -> try o k <> Ok None) by (intros A B' [[x|]| |] k N H; unfold try; cbn [bind]; [apply H|congruence|discriminate..]).
  assert (Sr : forall s px py h, by_search limit s px py h <> Ok None) by (intros; unfold by_search; apply B; discriminate).
  induction fuel as [|fuel [IHe IHl]]; [split; discriminate|]. split; intros s px py qx qy h.
  - cbn [insert_edge_by]. fold (insert_edge_by limit true (by_search limit)) (edge_loop_by limit true (by_search limit)).
    repeat first [apply IHe | apply IHl | apply Sr | discriminate | apply T; [|intro] | apply B; intro | match goal with |- (match ?x with _ => _ end) <> _ => destruct x end].
  - cbn [edge_loop_by]. fold (insert_edge_by limit true (by_search limit)) (edge_loop_by limit true (by_search limit)). cbv zeta.
    repeat first [apply IHe | apply IHl | apply Sr | discriminate | apply T; [|intro] | apply B; intro | match goal with |- (match ?x with _ => _ end) <> _ => destruct x end].
Qed.

(** C74: with the exhaustive search that the source has in place of the walk, insert_edge always ends, unless it starts at the low
    corner of the square. *)
Theorem C74_search_partial : forall limit q s p r hint, 4 <= limit <= 8192 -> 0 <= q -> reachable limit q true s -> int32p p -> int32p r ->
  cell_point q p <> (low, low) ->
  exists k s' b, forall fuel, (k <= fuel)%nat -> edge_search limit q fuel s p r hint = Ok (Some (s', b)).
Proof.
  intros limit q s p r hint Hl Hq R Hp Hr Nc. pose proof (reachable_sound limit q true Hl Hq s R) as S.
  assert (Eg : (grid q (fst p), grid q (snd p)) = cell_point q p) by (unfold cell_point; now rewrite !grid_cell).
  destruct (edge_ends limit (by_search limit) (search_finds limit) s (grid q (fst p), grid q (snd p)) (grid q (fst r), grid q (snd r)) hint S (grid_near q Hq p Hp) (grid_near q Hq r Hr)) as (k & [[s' b]|] & _ & H).
  { rewrite Eg. now apply odd_corner. }
  - exists k, s', b. exact H.
  - exfalso. now apply (proj1 (search_some limit k) s (grid q (fst p)) (grid q (snd p)) (grid q (fst r)) (grid q (snd r)) hint), (H k).
Qed.
Print Assumptions C74_search_partial.

(** The pinwheel of C77, in which the walk to the origin never ends: with the exhaustive search the edge from there is inserted. And an
    edge whose walks do end, across the triangle of the demo. *)
Example C74_nonvacuous : exists s t s' t', reachable 32 0 true s /\ cell_point 0 (0, 0) <> (low, low) /\
  edge_search 32 0 200 s (0, 0) (400, 400) 0 = Ok (Some (t, true)) /\ edge_cut 32 0 50 200 s (0, 0) (400, 400) 0 = Ok None /\
  reachable 32 0 true s' /\ edge_cut 32 0 50 200 s' (-300, 500) (500, -500) 0 = Ok (Some (t', true)).
Proof.
  assert (K : match history 32 true 200 pinwheel with
    | Ok s => match edge_search 32 0 200 s (0, 0) (400, 400) 0, edge_cut 32 0 50 200 s (0, 0) (400, 400) 0 with Ok (Some (_, b)), Ok None => b | _, _ => false end
    | _ => false end = true) by (vm_compute; reflexivity).
  assert (K1 : match history 32 true 200 demo with
    | Ok s => match edge_cut 32 0 50 200 s (-300, 500) (500, -500) 0 with Ok (Some (_, b)) => b | _ => false end | _ => false end = true) by (vm_compute; reflexivity).
  destruct (history 32 true 200 pinwheel) as [s| |] eqn:Es; try discriminate K. destruct (history 32 true 200 demo) as [s'| |] eqn:Es'; try discriminate K1.
  destruct (edge_search 32 0 200 s (0, 0) (400, 400) 0) as [[[t b]|]| |] eqn:E1; try discriminate K. destruct (edge_cut 32 0 50 200 s (0, 0) (400, 400) 0) as [[x|]| |] eqn:E2; try discriminate K.
  destruct (edge_cut 32 0 50 200 s' (-300, 500) (500, -500) 0) as [[[t' b']|]| |] eqn:E3; try discriminate K1. subst b b'.
  exists s, t, s', t'. split; [apply (history_reachable 32 true 200 pinwheel); [reflexivity|assumption]|]. split; [discriminate|]. split; [assumption|]. split; [assumption|]. split; [|assumption].
  apply (history_reachable 32 true 200 demo); [reflexivity|assumption].
Qed.
