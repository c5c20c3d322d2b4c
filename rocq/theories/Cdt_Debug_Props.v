(** C78: the assertions of the triangulation. *)
From Coq Require Import List ZArith Lia.
Import ListNotations.
From Verif Require Import Base Vec_Model Math_Model Vec_Spec Cdt_Model Cdt_Geom Cdt_Mesh Cdt_Walk Cdt_Spec Cdt_History Cdt_Props Cdt_Steps Cdt_Follow Cdt_Edge_Props Cdt_Search_Model Cdt_Search Cdt_Search_Props Cdt_Debug_Model Cdt_Debug.
Local Open Scope Z_scope.

(** A call that does not start a constraint at the low corner of the square (the only corner that a user's point can be at). *)
Definition off_corner (q : Z) (o : op) : Prop := match o with Edge p _ _ => cell_point q p <> (low, low) | _ => True end.

(** What a build with assertions does (Ok None: an assertion failed) compared with what one without does. *)
Definition agrees {A} (with_assertions : res (option A)) (without : res A) : Prop :=
  match with_assertions, without with
  | Ok (Some x), Ok y => x = y
  | UB, UB => True
  | Timeout, Timeout => True
  | _, _ => False
  end.
Lemma lift_agrees {A} (r : res A) : agrees (lift r) r.
Proof. now destruct r. Qed.

Section Calls.
  Context (limit q : Z) (wrap : bool) (Hl : 4 <= limit <= 8192) (Hq : 0 <= q).

  Lemma point_d_same fuel s p hint : sound limit s -> int32p p -> insert_point_d limit q wrap fuel s p hint = lift (insert_point limit q wrap fuel s p hint).
  Proof.
    intros S Hp. pose proof (grid_near q Hq p Hp) as N. unfold insert_point_d, insert_point, insert_point64_d, insert_point64. pose proof (located_ok limit s (grid q (fst p), grid q (snd p)) fuel hint S N) as L. cbn [fst snd] in L.
    rewrite locate_same, try_lift, !lift_bind. destruct (locate_insertion_node limit fuel s (grid q (fst p)) (grid q (snd p)) hint) as [n| |]; cbn [bind]; [|reflexivity..].
    pose proof (at_node_same limit wrap fuel s (grid q (fst p), grid q (snd p)) n (proj1 S) N L) as E. cbn [fst snd] in E. rewrite E. destruct (insert_point_at_node limit wrap fuel s (grid q (fst p)) (grid q (snd p)) n) as [[s' r]| |]; reflexivity.
  Qed.
  Lemma edge_d_same fuel s p r hint : sound limit s -> int32p p -> int32p r -> cell_point q p <> (low, low) -> insert_edge_d limit q wrap fuel s p r hint = lift (insert_edge limit q wrap fuel s p r hint).
  Proof.
    intros S Hp Hr Nc. assert (Eg : (grid q (fst p), grid q (snd p)) = cell_point q p) by (unfold cell_point; now rewrite !grid_cell).
    apply (proj1 (edge_same limit wrap fuel) s (grid q (fst p), grid q (snd p)) (grid q (fst r), grid q (snd r)) hint S (grid_near q Hq p Hp) (grid_near q Hq r Hr)). rewrite Eg. now apply odd_corner.
  Qed.
End Calls.

(** C78 (partial): in every mesh that calls can lead to, no assertion fails in a call that does not start a constraint at the low corner
    of the square, and the call does the same as in a build without assertions. Missing: that corner (C78_corner_refuted). *)
Theorem C78_no_assertion_partial : forall limit q wrap fuel s o, 4 <= limit <= 8192 -> 0 <= q -> reachable limit q wrap s -> valid s o -> off_corner q o ->
  agrees (run_op_d limit q wrap fuel s o) (run_op limit q wrap fuel s o).
Proof.
  intros limit q wrap fuel s o Hl Hq R Hv Ho. pose proof (reachable_sound limit q wrap Hl Hq s R) as S. destruct o as [|p h|p r h|n info]; cbn [run_op_d run_op valid off_corner] in *; try apply lift_agrees.
  - rewrite (point_d_same limit q wrap Hq fuel s p h S Hv), try_lift. destruct (insert_point limit q wrap fuel s p h) as [[s' b]| |]; exact I || reflexivity.
  - destruct Hv as [Hp Hr]. rewrite (edge_d_same limit q wrap Hq fuel s p r h S Hp Hr Ho), try_lift. destruct (insert_edge limit q wrap fuel s p r h) as [[s' b]| |]; exact I || reflexivity.
Qed.
Print Assumptions C78_no_assertion_partial.

(** What insert_point and insert_edge return is the same, too. *)
Theorem C78_point : forall limit q wrap fuel s p hint, 4 <= limit <= 8192 -> 0 <= q -> reachable limit q wrap s -> int32p p ->
  agrees (insert_point_d limit q wrap fuel s p hint) (insert_point limit q wrap fuel s p hint).
Proof. intros limit q wrap fuel s p hint Hl Hq R Hp. rewrite (point_d_same limit q wrap Hq); [apply lift_agrees|now apply (reachable_sound limit q wrap)|assumption]. Qed.
Print Assumptions C78_point.
Theorem C78_edge_partial : forall limit q wrap fuel s p r hint, 4 <= limit <= 8192 -> 0 <= q -> reachable limit q wrap s -> int32p p -> int32p r -> cell_point q p <> (low, low) ->
  agrees (insert_edge_d limit q wrap fuel s p r hint) (insert_edge limit q wrap fuel s p r hint).
Proof. intros limit q wrap fuel s p r hint Hl Hq R Hp Hr Nc. rewrite (edge_d_same limit q wrap Hq); [apply lift_agrees|now apply (reachable_sound limit q wrap)|assumption..]. Qed.
Print Assumptions C78_edge_partial.

(** C78 (refuted): a constraint from the low corner of the square fails an assertion, with two points in the mesh and the points of the
    constraint among them, although without assertions the call ends well: the flip at the corner makes a face with two sides of the square,
    and the check of the new face takes the two missing neighbours for one neighbour met twice. *)
Definition corner_history : list op := [Point (-16384, 0) 0; Point (3000, 32766) 0].
Theorem C78_corner_refuted : exists s s' p r, reachable 32 0 true s /\ int32p p /\ int32p r /\ in_square (cell_point 0 p) /\ in_square (cell_point 0 r) /\
  insert_edge_d 32 0 true 100 s p r 24 = Ok None /\ insert_edge 32 0 true 100 s p r 24 = Ok (s', true).
Proof.
  assert (K : match history 32 true 100 corner_history with
    | Ok s => match insert_edge_d 32 0 true 100 s (-32768, -32768) (3000, 32766) 24, insert_edge 32 0 true 100 s (-32768, -32768) (3000, 32766) 24 with Ok None, Ok (_, true) => true | _, _ => false end
    | _ => false end = true) by (vm_compute; reflexivity).
  destruct (history 32 true 100 corner_history) as [s| |] eqn:Es; try discriminate K.
  destruct (insert_edge_d 32 0 true 100 s (-32768, -32768) (3000, 32766) 24) as [[x|]| |] eqn:Ed; try discriminate K. destruct (insert_edge 32 0 true 100 s (-32768, -32768) (3000, 32766) 24) as [[s' [|]]| |] eqn:Ee; try discriminate K.
  exists s, s', (-32768, -32768), (3000, 32766). split; [apply (history_reachable 32 true 100 corner_history); [reflexivity|assumption]|].
  split; [unfold int32p; cbn [fst snd]; lia|]. split; [unfold int32p; cbn [fst snd]; lia|]. change (cell_point 0 (-32768, -32768)) with (-32768, -32768). change (cell_point 0 (3000, 32766)) with (3000, 32766).
  split; [unfold in_square, low, high; cbn [fst snd]; lia|]. split; [unfold in_square, low, high; cbn [fst snd]; lia|]. auto.
Qed.
Print Assumptions C78_corner_refuted.

(** The hypotheses are met, and the calls come to an end: crossing constraints, then a fill, with assertions. *)
Example C78_run : match history 32 true 100 [Point (100, 100) 0; Edge (34, -8) (-8, 34) 0] with
  | Ok s => match run_op_d 32 0 true 100 s (Edge (28, 30) (-48, -2) 0) with Ok (Some s') => (size s <? size s') | _ => false end
  | _ => false end = true.
Proof. vm_compute. reflexivity. Qed.
Example C78_off : off_corner 0 (Edge (28, 30) (-48, -2) 0) /\ off_corner 4 (Point (1, 2) 0) /\ ~ off_corner 0 (Edge (-32768, -32767) (0, 0) 0).
Proof. split; [|split]; cbn; [discriminate|exact I|intro H; now apply H]. Qed.
(** Assertions can fail in the model: next_edge of an info node. *)
Example C78_fails : next_edge_d 27 = Ok None /\ affirm (1 <? 2) = Ok (Some tt).
Proof. split; reflexivity. Qed.
