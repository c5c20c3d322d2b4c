(** C99: the info of the faces belongs to the regions between the constrained edges. *)
From Coq Require Import List ZArith Lia.
Import ListNotations.
From Verif Require Import Base Vec_Model Math_Model Vec_Spec Vec_Props Math_Spec Cdt_Model Cdt_Geom Cdt_Mesh Cdt_Spec Cdt_Tile Cdt_Reset Cdt_Fill Cdt_Locate Cdt_History Cdt_Props Cdt_Planar Cdt_EdgeSpec Cdt_Steps Cdt_Follow Cdt_Edge_Props Cdt_Circle Cdt_Winding Cdt_Winding_Props Cdt_Info.
Local Open Scope Z_scope.

(** ** Specification *)

(** The faces of the region of f: those that are connected with it through unconstrained edges. *)
Inductive region (s : mesh) (f : Z) : Z -> Prop :=
| reg_self : region s f f
| reg_next g i : region s f g -> side i -> co s (4 * g + i) = 0 -> region s f (tw s (4 * g + i) / 4).
(** s' is s after any number of calls of insert_point and insert_edge. *)
Definition inserts (o : op) : Prop := match o with Point _ _ | Edge _ _ _ => True | _ => False end.
Inductive later (limit q : Z) (wrap : bool) (s : mesh) : mesh -> Prop :=
| later_now : later limit q wrap s s
| later_op fuel t o s' : later limit q wrap s t -> inserts o -> valid t o -> run_op limit q wrap fuel t o = Ok s' -> later limit q wrap s s'.

(** ** Proofs *)
Lemma side_node s f i : face s f -> side i -> node s (4 * f + i) /\ (4 * f + i) / 4 = f.
Proof.
  intros [H1 H2] Hi. split; [split; [destruct Hi as [-> |[-> | ->]]; lia|]|]; destruct Hi as [-> |[-> | ->]]; Z.to_euclidean_division_equations; lia.
Qed.
Lemma node_side s n : node s n -> exists f i, face s f /\ side i /\ n = 4 * f + i /\ n / 4 = f.
Proof.
  intros [H M]. exists (n / 4), (n mod 4). unfold face, side. pose proof (Z.div_mod n 4 ltac:(lia)). pose proof (Z.mod_pos_bound n 4 ltac:(lia)). repeat split; lia.
Qed.
Lemma across_face limit s f i : good limit s -> face s f -> side i -> co s (4 * f + i) = 0 -> face s (tw s (4 * f + i) / 4).
Proof.
  intros G Hf Hi Hc. destruct (side_node s f i Hf Hi) as [Hn _]. apply (node_face s), (tw_node limit s G); [assumption|]. now apply (co_open limit s G).
Qed.
Lemma fresh_uniform s0 s : fresh s0 s -> uniform s.
Proof.
  intros (Es & _ & (T1 & _ & _ & T2 & _) & (C1 & C2 & C3 & C4 & C5 & C6) & _ & _ & _ & _ & _ & F) n Hn. pose proof (node_face s n Hn) as Fn. rewrite Es in Fn. destruct Hn as [Hn Mn]. rewrite Es in Hn.
  rewrite (F (n / 4)) by lia. split; [lia|]. intro Hc.
  assert (K : n = 24 \/ n = 25 \/ n = 26 \/ n = 28 \/ n = 29 \/ n = 30). { assert (n <> 27) by (intros ->; apply Mn; reflexivity). assert (n <> 31) by (intros ->; apply Mn; reflexivity). lia. }
  destruct K as [-> |[-> |[-> |[-> |[-> | ->]]]]]; try congruence; [rewrite T1|rewrite T2]; apply F; cbn; lia.
Qed.

Lemma region_info limit s f g : good limit s -> uniform s -> face s f -> region s f g -> face s g /\ fi s g = fi s f.
Proof.
  intros G U Hf. induction 1 as [|g i _ [IF IH] Hi Hc]; [auto|]. split; [now apply (across_face limit)|]. destruct (side_node s g i IF Hi) as [Hn Eg]. destruct (U _ Hn) as [_ X]. rewrite (X Hc), Eg. assumption.
Qed.
Lemma reach_region s info f g : reach s info f g -> region s f g.
Proof. induction 1 as [|g i _ IH Hi Hc _]; [constructor|now constructor]. Qed.
Lemma region_reach limit s info f g : good limit s -> uniform s -> face s f -> fi s f <> info -> region s f g -> reach s info f g.
Proof.
  intros G U Hf Ne. induction 1 as [|g i Hg IH Hi Hc]; [constructor|]. constructor; [assumption|assumption|assumption|]. destruct (region_info limit s f _ G U Hf (reg_next s f g i Hg Hi Hc)) as [_ ->]. assumption.
Qed.

Lemma fill_uniform limit fuel s n info s' : good limit s -> uniform s -> 24 <= n < 8 * size s -> 0 <= info < 65536 -> fill limit fuel s n info = Ok s' -> uniform s'.
Proof.
  intros G U Hn Hi E. pose proof (fill_ok limit fuel s n info G ltac:(lia) ltac:(lia) Hi) as F. rewrite E in F. destruct F as ((E1 & E2 & E3 & E4 & _) & F1 & F2).
  assert (Hf : face s (n / 4)). { unfold face. clear - Hn. Z.to_euclidean_division_equations. lia. }
  intros m Hm. assert (Hm' : node s m) by (unfold node in *; now rewrite E1 in Hm). rewrite E3, E4. destruct (U m Hm') as [U1 U2].
  destruct (Z.eq_dec (fi s (n / 4)) info) as [Ei|Ni]; [rewrite !F2 by (now left); auto|].
  assert (Rg : forall g, ~ ~ ((reach s info (n / 4) g /\ fi s' g = info) \/ (~ reach s info (n / 4) g /\ fi s' g = fi s g))).
  { intros g N. assert (X : ~ reach s info (n / 4) g) by (intro X; apply N; left; split; [assumption|apply F1; assumption]). apply N. right. split; [assumption|]. apply F2. now right. }
  split.
  - assert (X : ~ ~ (0 <= fi s' (m / 4) < 65536)) by (intro N; apply (Rg (m / 4)); intros [[_ X]|[_ X]]; apply N; rewrite X; assumption). lia.
  - intro Hc. specialize (U2 Hc). destruct (Z.eq_dec (fi s' (tw s m / 4)) (fi s' (m / 4))) as [|D]; [assumption|exfalso].
    pose proof (tw_node limit s G m Hm' (co_open limit s G m Hm' Hc)) as Ht. pose proof (tw_tw limit s G m Hm' (co_open limit s G m Hm' Hc)) as Tt.
    assert (Sym : forall a, node s a -> co s a = 0 -> reach s info (n / 4) (a / 4) -> reach s info (n / 4) (tw s a / 4)).
    { intros a Ha Hca X. destruct (node_side s a Ha) as (f & i & Ff & Fi & Ea & Ef). rewrite Ef in X. rewrite Ea in *. apply (region_reach limit); [assumption..|]. apply reg_next; [now apply (reach_region s info)|assumption|assumption]. }
    assert (Hct : co s (tw s m) = 0). { rewrite <- Hc. apply (co_tw limit s G m Hm'). now apply (co_open limit s G). }
    apply (Rg (m / 4)). intro A. apply (Rg (tw s m / 4)). intro B. destruct A as [[A1 A2]|[A1 A2]], B as [[B1 B2]|[B1 B2]].
    + congruence.
    + apply B1. now apply Sym.
    + apply A1. rewrite <- Tt. now apply Sym.
    + congruence.
Qed.

Lemma inserts_steps limit q wrap fuel s o s' : 4 <= limit <= 8192 -> 0 <= q -> sound limit s -> valid s o -> inserts o -> run_op limit q wrap fuel s o = Ok s' -> steps limit s s'.
Proof.
  intros Hl Hq S Hv Ho E. pose proof (proj1 S) as G. destruct o as [|p h|p r h|n info]; [contradiction| | |contradiction]; cbn [run_op] in E.
  - pose proof (point_result limit q wrap Hq fuel s p h S Hv) as X. cbv zeta in X. destruct (insert_point limit q wrap fuel s p h) as [[t b]| |]; cbn [bind] in E; [|discriminate E..]. injection E as <-.
    destruct X as (r & _ & [[X _]|(-> & _)]); [exact (proj1 (inserted_has limit s _ t r G X))|constructor].
  - destruct Hv as [Hp Hr]. pose proof (edge_follow limit q wrap Hq fuel s p r h S Hp Hr) as X. unfold edge_result in X. destruct (insert_edge limit q wrap fuel s p r h) as [[t b]| |]; cbn [bind] in E; [|discriminate E..]. injection E as <-. apply X.
Qed.
Lemma reachable_uniform limit q wrap s : 4 <= limit <= 8192 -> 0 <= q -> reachable limit q wrap s -> uniform s.
Proof.
  intros Hl Hq. induction 1 as [s0 s E|fuel s o s' R IH Hv E].
  - destruct (reset_ok limit s0 Hl) as (s' & E' & F). rewrite E in E'. injection E' as <-. now apply (fresh_uniform s0).
  - pose proof (reachable_sound limit q wrap Hl Hq s R) as S. pose proof (proj1 S) as G. destruct o as [|p h|p r h|n info].
    + cbn [run_op] in E. destruct (reset_ok limit s Hl) as (t & E' & F). rewrite E in E'. injection E' as <-. now apply (fresh_uniform s).
    + apply (steps_info limit s); [|assumption..]. now apply (inserts_steps limit q wrap fuel s (Point p h)).
    + apply (steps_info limit s); [|assumption..]. now apply (inserts_steps limit q wrap fuel s (Edge p r h)).
    + cbn [run_op] in E. destruct Hv as [[-> |Hn] Hi]; [|now apply (fill_uniform limit fuel s n info)]. unfold fill in E. change (0 / 4 =? 0) with true in E. cbn beta iota zeta in E. injection E as <-. assumption.
Qed.
Lemma later_steps limit q wrap s s' : 4 <= limit <= 8192 -> 0 <= q -> reachable limit q wrap s -> later limit q wrap s s' -> reachable limit q wrap s' /\ steps limit s s'.
Proof.
  intros Hl Hq R. induction 1 as [|fuel t o s' _ [IR IS] Ho Hv E]; [split; [assumption|constructor]|]. split; [now apply (r_op limit q wrap fuel t o)|].
  apply (steps_trans limit s t s' IS). apply (inserts_steps limit q wrap fuel t o); try assumption. now apply (reachable_sound limit q wrap).
Qed.

(** ** Theorems *)

(** C99: the faces on both sides of an unconstrained edge have the same info, in every mesh that calls have made; so all faces of a
    region have. The info is an uint16_t. *)
Theorem C99_edges : forall limit q wrap s f i, 4 <= limit <= 8192 -> 0 <= q -> reachable limit q wrap s -> face s f -> side i ->
  0 <= fi s f < 65536 /\ (co s (4 * f + i) = 0 -> face s (tw s (4 * f + i) / 4) /\ fi s (tw s (4 * f + i) / 4) = fi s f).
Proof.
  intros limit q wrap s f i Hl Hq R Hf Hi. pose proof (reachable_good limit q wrap Hl Hq s R) as G. destruct (side_node s f i Hf Hi) as [Hn Ef].
  destruct (reachable_uniform limit q wrap s Hl Hq R _ Hn) as [U1 U2]. rewrite Ef in *. split; [assumption|]. intro Hc. split; [now apply (across_face limit)|auto].
Qed.
Print Assumptions C99_edges.
Theorem C99_regions : forall limit q wrap s f g, 4 <= limit <= 8192 -> 0 <= q -> reachable limit q wrap s -> face s f -> region s f g -> face s g /\ fi s g = fi s f.
Proof.
  intros limit q wrap s f g Hl Hq R. apply (region_info limit); [now apply (reachable_good limit q wrap)|now apply (reachable_uniform limit q wrap)].
Qed.
Print Assumptions C99_regions.

(** C99: insert_point and insert_edge, however often they are called, do not change the info at any place: a point x / k that is strictly
    inside a face before and strictly inside a face after them has the same info, whatever was split, flipped or constrained. *)
Theorem C99_places : forall limit q wrap s s' f g k x, 4 <= limit <= 8192 -> 0 <= q -> reachable limit q wrap s -> later limit q wrap s s' ->
  face s f -> face s' g -> 0 < k -> strictly_in k (face_triangle s f) x -> strictly_in k (face_triangle s' g) x -> fi s' g = fi s f.
Proof.
  intros limit q wrap s s' f g k x Hl Hq R L Hf Hg Hk Xf Xg. destruct (later_steps limit q wrap s s' Hl Hq R L) as [R' St].
  apply (strictly_strict s k f x Hk) in Xf. apply (strictly_strict s' k g x Hk) in Xg.
  pose proof (steps_place limit s s' St (reachable_good limit q wrap Hl Hq s R) (reachable_uniform limit q wrap s Hl Hq R) k x (4 * f) (4 * g) Hk (face_node s f Hf) (face_node s' g Hg) Xf Xg) as E.
  now rewrite !(proj2 (face4 _)) in E.
Qed.
Print Assumptions C99_places.

(** C99: a fill gives the info to all faces of the region where it starts, whatever infos there are, and to no other face. *)
Theorem C99_fill : forall limit q wrap s n info fuel s', 4 <= limit <= 8192 -> 0 <= q -> reachable limit q wrap s -> 24 <= n < 8 * size s -> 0 <= info < 65536 -> fill limit fuel s n info = Ok s' ->
  (forall g, region s (n / 4) g -> fi s' g = info) /\ (forall g, ~ region s (n / 4) g -> fi s' g = fi s g).
Proof.
  intros limit q wrap s n info fuel s' Hl Hq R Hn Hi E. pose proof (reachable_good limit q wrap Hl Hq s R) as G. pose proof (reachable_uniform limit q wrap s Hl Hq R) as U.
  pose proof (fill_ok limit fuel s n info G ltac:(lia) ltac:(lia) Hi) as F. rewrite E in F. destruct F as (_ & F1 & F2).
  assert (Hf : face s (n / 4)). { unfold face. clear - Hn. Z.to_euclidean_division_equations. lia. }
  split; intros g Hg.
  - destruct (Z.eq_dec (fi s (n / 4)) info) as [Ei|Ni]; [|apply F1; [assumption|]; now apply (region_reach limit)]. rewrite F2 by now left. destruct (region_info limit s _ g G U Hf Hg) as [_ ->]. assumption.
  - apply F2. right. intro X. apply Hg. now apply (reach_region s info).
Qed.
Print Assumptions C99_fill.

(** ** Example *)
(** The mesh of the demo after its triangle has been filled with 7. A point on a side of the triangle splits the faces 6 (outside) and 9
    (inside); then an edge is inserted inside the triangle. The new face 17 is outside and the new face 19 is inside. The region of face 9
    has the faces 10 and 15. *)
Example C99_nonvacuous : exists s s1 s2, reachable 32 0 true s /\ fill 32 100 s 43 7 = Ok s1 /\ reachable 32 0 true s1 /\ later 32 0 true s1 s2 /\ size s1 = 8 /\ size s2 = 11 /\
  (face s1 6 /\ face s2 17 /\ strictly_in 3 (face_triangle s1 6) (0, 74) /\ strictly_in 3 (face_triangle s2 17) (0, 74) /\ fi s1 6 = 0 /\ fi s2 17 = 0) /\
  (face s1 9 /\ face s2 19 /\ strictly_in 3 (face_triangle s1 9) (-300, 200) /\ strictly_in 3 (face_triangle s2 19) (-300, 200) /\ fi s1 9 = 7 /\ fi s2 19 = 7) /\
  region s1 9 10 /\ region s1 9 15.
Proof.
  assert (K : match history 32 true 200 demo with
    | Ok s => match fill 32 100 s 43 7 with
       | Ok s1 => match run_op 32 0 true 200 s1 (Point (0, 25) 0) with
          | Ok t => match run_op 32 0 true 200 t (Edge (-300, 150) (50, 400) 0) with
             | Ok s2 => (43 <? 8 * size s) && (size s1 =? 8) && (size s2 =? 11) && strictly_inb 3 (face_triangle s1 6) (0, 74) && strictly_inb 3 (face_triangle s2 17) (0, 74) && (fi s1 6 =? 0) && (fi s2 17 =? 0) &&
                 strictly_inb 3 (face_triangle s1 9) (-300, 200) && strictly_inb 3 (face_triangle s2 19) (-300, 200) && (fi s1 9 =? 7) && (fi s2 19 =? 7) &&
                 (co s1 (4 * 9 + 0) =? 0) && (tw s1 (4 * 9 + 0) / 4 =? 10) && (co s1 (4 * 9 + 1) =? 0) && (tw s1 (4 * 9 + 1) / 4 =? 15)
             | _ => false end
          | _ => false end
       | _ => false end
    | _ => false end = true) by (vm_compute; reflexivity).
  destruct (history 32 true 200 demo) as [s| |] eqn:Es; try discriminate K. destruct (fill 32 100 s 43 7) as [s1| |] eqn:Ef; try discriminate K.
  destruct (run_op 32 0 true 200 s1 (Point (0, 25) 0)) as [t| |] eqn:Et; try discriminate K. destruct (run_op 32 0 true 200 t (Edge (-300, 150) (50, 400) 0)) as [s2| |] eqn:E2; try discriminate K.
  rewrite !andb_true_iff in K. destruct K as ((((((((((((((K0 & K1) & K2) & K3) & K4) & K5) & K6) & K7) & K8) & K9) & K10) & K11) & K12) & K13) & K14).
  apply Z.eqb_eq in K1, K2, K5, K6, K9, K10, K11, K12, K13, K14. apply Z.ltb_lt in K0. exists s, s1, s2.
  assert (R : reachable 32 0 true s) by (apply (history_reachable 32 true 200 demo); [reflexivity|assumption]). split; [assumption|]. split; [assumption|].
  assert (R1 : reachable 32 0 true s1) by (apply (r_op 32 0 true 100 s (Fill 43 7)); [assumption|cbn [valid]; lia|assumption]). split; [assumption|]. split.
  { apply (later_op 32 0 true s1 200 t (Edge (-300, 150) (50, 400) 0)); [|exact I|apply plain_valid; reflexivity|assumption].
    apply (later_op 32 0 true s1 200 s1 (Point (0, 25) 0)); [constructor|exact I|apply plain_valid; reflexivity|assumption]. }
  split; [assumption|]. split; [assumption|]. split.
  { split; [unfold face; lia|]. split; [unfold face; lia|]. split; [now apply strictly_inb_ok|]. split; [now apply strictly_inb_ok|]. auto. }
  split.
  { split; [unfold face; lia|]. split; [unfold face; lia|]. split; [now apply strictly_inb_ok|]. split; [now apply strictly_inb_ok|]. auto. }
  pose proof (reg_next s1 9 9 0 (reg_self s1 9) (or_introl eq_refl) K11) as X. rewrite K12 in X. pose proof (reg_next s1 9 9 1 (reg_self s1 9) (or_intror (or_introl eq_refl)) K13) as Y. rewrite K14 in Y. split; assumption.
Qed.
