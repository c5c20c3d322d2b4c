(** C71: what the views of faces and edges list. *)
From Coq Require Import List Permutation ZArith Lia Bool.
Import ListNotations.
From Verif Require Import Base Vec_Model Math_Model Vec_Spec Cdt_Model Cdt_View_Model Cdt_Geom Cdt_Mesh Cdt_Flip Cdt_Circle Cdt_Insert Cdt_OnEdge Cdt_Walk Cdt_Edge Cdt_Spec Cdt_Tile Cdt_Reset Cdt_Fill Cdt_Locate Cdt_History Cdt_Props Cdt_Planar Cdt_EdgeSpec Cdt_Steps Cdt_Follow Cdt_Fuel Cdt_Edge_Props.
Local Open Scope Z_scope.

(** ** Specification *)

(** What the views should say: the corners of face f, and the edge that is side i of face f, in the user's units. *)
Definition all_sides (s : mesh) : list (Z * Z) := flat_map (fun f => [(f, 0); (f, 1); (f, 2)]) (all_faces s).
Definition face_entry (q : Z) (s : mesh) (f : Z) : face_info :=
  {| f_ps := map (fun i => scaled q (where_is s (corner s f i))) [0; 1; 2]; f_es := map (fun i => tw s (4 * f + i)) [0; 1; 2];
     f_cs := map (fun i => negb (co s (4 * f + i) =? 0)) [0; 1; 2]; f_data := fi s f |}.
Definition edge_entry (q : Z) (s : mesh) (x : Z * Z) : edge_info :=
  {| e_u := scaled q (where_is s (edge_from s (fst x) (snd x))); e_v := scaled q (where_is s (edge_to s (fst x) (snd x)));
     e_primary := tw s (4 * fst x + snd x) <? 4 * fst x + snd x; e_constrained := negb (co s (4 * fst x + snd x) =? 0) |}.
Definition point_eqb (a b : point) : bool := (fst a =? fst b) && (snd a =? snd b).
(** The entry is the edge between a and b, in one direction or the other. *)
Definition joins (a b : point) (e : edge_info) : bool := (point_eqb (e_u e) a && point_eqb (e_v e) b) || (point_eqb (e_u e) b && point_eqb (e_v e) a).

(** ** Proofs *)
Lemma point_eqb_eq a b : point_eqb a b = true <-> a = b.
Proof. destruct a, b. unfold point_eqb. cbn [fst snd]. rewrite andb_true_iff, !Z.eqb_eq. split; [intros [-> ->]; reflexivity|intros [= -> ->]; auto]. Qed.

Section View.
  Context (limit q : Z).
  Hypothesis Hq : 0 <= q <= 16.

  Lemma node_in_range s n : good limit s -> node s n -> edge_node limit n = true.
  Proof.
    intros G [Hn Mn]. pose proof (g_size _ _ G). unfold edge_node. apply andb_true_iff. split; [apply andb_true_iff; split; [apply Z.leb_le|apply Z.ltb_lt]; lia|]. now apply negb_true_iff, Z.eqb_neq.
  Qed.
  Lemma world_ok s n : good limit s -> node s n -> world limit q s n = Ok (scaled q (P s n)).
  Proof.
    intros G Hn. unfold world, get_p. rewrite (node_in_range s n G Hn). cbn [bind]. pose proof (g_pt _ _ G n Hn) as Hp. pose proof (g_box _ _ G _ Hp) as [B1 B2]. pose proof (g_size _ _ G) as Gs.
    unfold get_v, vert_index. rewrite (proj2 (Z.leb_le 0 (pt s n))), (proj2 (Z.ltb_lt (pt s n) limit)) by lia. cbn [andb bind].
    assert (Pw : 1 <= 2 ^ q <= 65536). { change 1 with (2 ^ 0). change 65536 with (2 ^ 16). split; apply Z.pow_le_mono_r; lia. }
    unfold V, lo, hi in B1, B2. cbn [fst snd] in B1, B2. change (2 ^ 15) with 32768 in *.
    assert (R : forall x, - 32768 <= x <= 32768 - 1 -> chk32 (x * 2 ^ q) = Ok (x * 2 ^ q)).
    { intros x Hx. apply chk32_ok. unfold in_s. change (2 ^ (32 - 1)) with 2147483648. nia. }
    rewrite !R by assumption. cbn [bind]. reflexivity.
  Qed.
  Lemma edge_at_ok s f i : good limit s -> face s f -> side i -> edge_at limit q s (4 * f + i) = Ok (edge_entry q s (f, i)).
  Proof.
    intros G Hf Hi. pose proof (side_node s f i Hf Hi) as Hn. unfold edge_at. rewrite (world_ok s _ G (nxt_node s _ Hn)), (world_ok s _ G (prv_node s _ Hn)). cbn [bind].
    unfold get_e, get_c. rewrite (node_in_range s _ G Hn). cbn [bind]. unfold edge_entry. cbn [fst snd]. destruct (edge_ends s f i Hi) as (-> & -> & _). reflexivity.
  Qed.
  Lemma face_at_ok s f : good limit s -> face s f -> face_at limit q s (4 * f) = Ok (face_entry q s f).
  Proof.
    intros G Hf. unfold face_at. cbv zeta. replace (4 * f / 4) with f by (rewrite Z.mul_comm; symmetry; apply Z.div_mul; lia).
    assert (N0 : node s (4 * f)) by (rewrite <- (Z.add_0_r (4 * f)); apply side_node; [assumption|now left]). pose proof (side_node s f 1 Hf ltac:(right; now left)) as N1. pose proof (side_node s f 2 Hf ltac:(right; now right)) as N2.
    rewrite !world_ok by assumption. unfold get_e, get_c. rewrite !(node_in_range s) by assumption. cbn [bind]. unfold get_fi, face_index. destruct Hf as [F1 F2]. pose proof (g_size _ _ G).
    rewrite (proj2 (Z.leb_le 0 f)), (proj2 (Z.ltb_lt f (2 * limit))) by lia. cbn [andb bind]. unfold face_entry. cbn [map]. rewrite !Z.add_0_r. unfold P, where_is, corner, V.
    change (0 mod 3) with 0. change (1 mod 3) with 1. change (2 mod 3) with 2. rewrite Z.add_0_r. reflexivity.
  Qed.

  Lemma end_ok s : good limit s -> view_end s = 8 * size s.
  Proof. intro G. pose proof (g_size _ _ G). unfold view_end. destruct (Z.ltb_spec (size s) 4); lia. Qed.
  Lemma faces_from_ok s : good limit s -> forall k f fuel, 6 <= f -> f + Z.of_nat k = 2 * size s -> (k < fuel)%nat ->
    faces_from limit q fuel s (4 * f) = Ok (map (face_entry q s) (map Z.of_nat (seq (Z.to_nat f) k))).
  Proof.
    intros G k. induction k as [|k IH]; intros f [|fuel] Hf E L; try lia.
    - cbn [faces_from seq map]. rewrite end_ok by assumption. destruct (Z.eqb_spec (4 * f) (8 * size s)); [reflexivity|lia].
    - cbn [faces_from seq map]. rewrite end_ok by assumption. destruct (Z.eqb_spec (4 * f) (8 * size s)); [lia|]. rewrite face_at_ok by (assumption || unfold face; lia). cbn [bind].
      replace (4 * f + 4) with (4 * (f + 1)) by ring. rewrite (IH (f + 1) fuel) by lia. cbn [bind]. rewrite Z2Nat.id by lia. replace (Z.to_nat (f + 1)) with (S (Z.to_nat f)) by lia. reflexivity.
  Qed.
  Lemma edges_from_ok s : good limit s -> forall k f fuel, 6 <= f -> f + Z.of_nat k = 2 * size s -> (3 * k < fuel)%nat ->
    edges_from limit q fuel s (4 * f) = Ok (map (edge_entry q s) (flat_map (fun f => [(f, 0); (f, 1); (f, 2)]) (map Z.of_nat (seq (Z.to_nat f) k)))).
  Proof.
    intros G k. induction k as [|k IH]; intros f fuel Hf E L.
    - destruct fuel as [|fuel]; [lia|]. cbn [edges_from seq map flat_map]. rewrite end_ok by assumption. destruct (Z.eqb_spec (4 * f) (8 * size s)); [reflexivity|lia].
    - destruct fuel as [|[|[|fuel]]]; try lia. assert (Hf' : face s f) by (unfold face; lia).
      assert (S0 : edge_step (4 * f) = 4 * f + 1). { unfold edge_step. replace (4 * f mod 4) with 0 by (Z.to_euclidean_division_equations; lia). reflexivity. }
      assert (S1 : edge_step (4 * f + 1) = 4 * f + 2). { unfold edge_step. replace ((4 * f + 1) mod 4) with 1 by (Z.to_euclidean_division_equations; lia). cbn [Z.ltb Z.compare Pos.compare Pos.compare_cont]. lia. }
      assert (S2 : edge_step (4 * f + 2) = 4 * (f + 1)). { unfold edge_step. replace ((4 * f + 2) mod 4) with 2 by (Z.to_euclidean_division_equations; lia). cbn [Z.ltb Z.compare Pos.compare Pos.compare_cont]. lia. }
      cbn [edges_from]. rewrite end_ok by assumption. destruct (Z.eqb_spec (4 * f) (8 * size s)); [lia|].
      pose proof (edge_at_ok s f 0 G Hf' ltac:(now left)) as A0. rewrite Z.add_0_r in A0. rewrite A0. cbn [bind]. rewrite S0. destruct (Z.eqb_spec (4 * f + 1) (8 * size s)); [lia|]. rewrite edge_at_ok by (assumption || (right; now left)). cbn [bind].
      rewrite S1. destruct (Z.eqb_spec (4 * f + 2) (8 * size s)); [lia|]. rewrite edge_at_ok by (assumption || (right; now right)). cbn [bind]. rewrite S2.
      rewrite (IH (f + 1) fuel) by lia. cbn [bind seq map flat_map app]. rewrite Z2Nat.id by lia. replace (Z.to_nat (f + 1)) with (S (Z.to_nat f)) by lia. reflexivity.
  Qed.

  (** A node is determined by the ends of its edge. *)
  Lemma same_ends s n m : good limit s -> node s n -> node s m -> P s (nxt n) = P s (nxt m) -> P s (prv n) = P s (prv m) -> n = m.
  Proof.
    intros G Hn Hm E1 E2. pose proof (node_mod s n Hn) as Mn. pose proof (node_mod s m Hm) as Mm. pose proof (g_cw _ _ G n Hn) as C1. pose proof (g_cw _ _ G m Hm) as C2.
    assert (E : n / 4 = m / 4).
    { pose proof (fn_box limit s _ G (or_introl Hn)) as B0. pose proof (fn_box limit s _ G (or_introl (nxt_node s _ Hn))) as B1. pose proof (fn_box limit s _ G (or_introl (prv_node s _ Hn))) as B2. pose proof (fn_box limit s _ G (or_introl Hm)) as B3.
      rewrite <- E1, <- E2 in C2. set (a := P s (nxt n)) in *. set (b := P s (prv n)) in *. set (c := P s n) in *. set (d := P s m) in *.
      pose (x := (bigk * fst a + bigk * fst b + fst c, bigk * snd a + bigk * snd b + snd c)).
      assert (Lx : forall u v, line (2 * bigk + 1) u v x = bigk * orient u v a + bigk * orient u v b + orient u v c) by (intros u v; unfold line, x, orient; cbn [fst snd]; ring).
      pose proof (orient_small d a c B3 B1 B0) as O1. pose proof (orient_small b d c B2 B3 B0) as O2.
      apply (disjoint limit s (2 * bigk + 1) x n m G); [reflexivity|assumption|assumption| |].
      - unfold strict. fold a b c. rewrite !Lx. clear - C1. assert (R1 : orient c a a = 0 /\ orient c a c = 0 /\ orient a b a = 0 /\ orient a b b = 0 /\ orient b c b = 0 /\ orient b c c = 0) by (unfold orient; repeat split; ring).
        destruct R1 as (-> & -> & -> & -> & -> & ->). rewrite (orient_rot c a b). replace (orient b c a) with (orient c a b) by (unfold orient; ring). unfold bigk. lia.
      - unfold strict. rewrite <- E1, <- E2. fold a b d. rewrite !Lx. clear - C1 C2 O1 O2. assert (R1 : orient d a a = 0 /\ orient a b a = 0 /\ orient a b b = 0 /\ orient b d b = 0) by (unfold orient; repeat split; ring).
        destruct R1 as (-> & -> & -> & ->). rewrite (orient_rot c a b). replace (orient b d a) with (orient d a b) by (unfold orient; ring). unfold bigk. lia. }
    destruct (same_face m n Mm Mn (eq_sym E)) as [-> |[-> | ->]]; [reflexivity| |]; exfalso.
    - rewrite nxt_nxt, prv_nxt in * by assumption. rewrite E2 in C1. rewrite E1 in C1. revert C1. unfold orient. lia.
    - rewrite nxt_prv, prv_prv in * by assumption. rewrite E1, <- E2 in C1. revert C1. unfold orient. lia.
  Qed.
End View.

(** ** Theorems *)

(** C71: faces() lists every face once, in order, with its corners, the twins of its sides, their constraints and its info. *)
Theorem C71_faces : forall limit q wrap s fuel, 4 <= limit <= 8192 -> 0 <= q <= 16 -> reachable limit q wrap s -> (2 * Z.to_nat (size s) <= fuel)%nat ->
  faces_view limit q fuel s = Ok (map (face_entry q s) (all_faces s)).
Proof.
  intros limit q wrap s fuel Hl Hq R L. pose proof (reachable_good limit q wrap Hl (proj1 Hq) s R) as G. pose proof (g_size _ _ G).
  unfold faces_view, all_faces. exact (faces_from_ok limit q Hq s G (Z.to_nat (2 * size s - 6)) 6 fuel ltac:(lia) ltac:(lia) ltac:(lia)).
Qed.
Print Assumptions C71_faces.

(** C71: edges() lists the three sides of every face, in order. *)
Theorem C71_edges : forall limit q wrap s fuel, 4 <= limit <= 8192 -> 0 <= q <= 16 -> reachable limit q wrap s -> (6 * Z.to_nat (size s) <= fuel)%nat ->
  edges_view limit q fuel s = Ok (map (edge_entry q s) (all_sides s)).
Proof.
  intros limit q wrap s fuel Hl Hq R L. pose proof (reachable_good limit q wrap Hl (proj1 Hq) s R) as G. pose proof (g_size _ _ G).
  unfold edges_view, all_sides, all_faces. exact (edges_from_ok limit q Hq s G (Z.to_nat (2 * size s - 6)) 6 fuel ltac:(lia) ltac:(lia) ltac:(lia)).
Qed.
Print Assumptions C71_edges.

Lemma filter_map {A B} (f : A -> B) (p : B -> bool) l : filter p (map f l) = map f (filter (fun x => p (f x)) l).
Proof. induction l as [|x l IH]; [reflexivity|]. cbn [map filter]. destruct (p (f x)); cbn [map]; now rewrite IH. Qed.
Lemma count_unique {A} (p : A -> bool) l x : NoDup l -> In x l -> p x = true -> (forall y, In y l -> p y = true -> y = x) -> length (filter p l) = 1%nat.
Proof.
  induction 1 as [|y l Hy ND IH]; intros Hx Px U; [contradiction|]. cbn [filter]. destruct Hx as [-> |Hx].
  - rewrite Px. cbn [length]. f_equal. assert (E : filter p l = []); [|now rewrite E]. destruct (filter p l) as [|z t] eqn:F; [reflexivity|exfalso].
    assert (Hz : In z (filter p l)) by (rewrite F; now left). apply filter_In in Hz. destruct Hz as [Hz Pz]. rewrite (U z (or_intror Hz) Pz) in Hz. contradiction.
  - destruct (p y) eqn:Py; [exfalso; rewrite (U y (or_introl eq_refl) Py) in Hy; contradiction|]. apply IH; [assumption|assumption|]. intros z Hz. apply U. now right.
Qed.
Lemma all_sides_in s f i : 4 <= size s -> In (f, i) (all_sides s) <-> face s f /\ side i.
Proof.
  intro Hs. unfold all_sides. rewrite in_flat_map. split.
  - intros (g & Hg & H). apply all_faces_in in Hg; [|lia]. cbn [In] in H. unfold side. destruct H as [[= -> <-]|[[= -> <-]|[[= -> <-]|[]]]]; auto.
  - intros [Hf Hi]. exists f. split; [now apply all_faces_in|]. destruct Hi as [-> |[-> | ->]]; cbn [In]; auto.
Qed.
Lemma all_sides_nodup s : NoDup (all_sides s).
Proof.
  unfold all_sides. assert (ND : NoDup (all_faces s)) by apply faces_of_nodup. induction ND as [|f l Hf ND IH]; [constructor|]. cbn [flat_map app].
  assert (X : forall k, ~ In (f, k) (flat_map (fun f => [(f, 0); (f, 1); (f, 2)]) l)).
  { intros k H. apply in_flat_map in H. destruct H as (g & Hg & H). apply Hf. replace f with g; [assumption|]. cbn [In] in H. destruct H as [[=]|[[=]|[[=]|[]]]]; assumption. }
  constructor; [intros [[=]|[[=]|H]]; now apply (X 0)|]. constructor; [intros [[=]|H]; now apply (X 1)|]. constructor; [apply X|assumption].
Qed.

(** C71: of the entries of edges() for the edge between two vertices, in either direction, exactly one is primary; so a loop over the
    primary edges sees every edge of the triangulation once. *)
Theorem C71_primary : forall limit q wrap s fuel l f i, 4 <= limit <= 8192 -> 0 <= q <= 16 -> reachable limit q wrap s -> (6 * Z.to_nat (size s) <= fuel)%nat ->
  edges_view limit q fuel s = Ok l -> face s f -> side i ->
  length (filter (fun e => e_primary e && joins (scaled q (where_is s (edge_from s f i))) (scaled q (where_is s (edge_to s f i))) e) l) = 1%nat.
Proof.
  intros limit q wrap s fuel l f i Hl Hq R L E Hf Hi. rewrite (C71_edges limit q wrap s fuel Hl Hq R L) in E. injection E as <-. pose proof (reachable_good limit q wrap Hl (proj1 Hq) s R) as G. pose proof (g_size _ _ G) as Gs.
  rewrite filter_map, map_length. pose proof (side_node s f i Hf Hi) as Hn. destruct (edge_ends s f i Hi) as (Ef & Et & _). rewrite Ef, Et. set (n := 4 * f + i) in *.
  change (where_is s (ea s n)) with (P s (nxt n)). change (where_is s (eb s n)) with (P s (prv n)).
  (* the primary node of the edge *)
  assert (M : exists m, node s m /\ tw s m < m /\ ((P s (nxt m) = P s (nxt n) /\ P s (prv m) = P s (prv n)) \/ (P s (nxt m) = P s (prv n) /\ P s (prv m) = P s (nxt n)))).
  { destruct (Z.lt_ge_cases (tw s n) n) as [C|C]; [exists n; auto|]. assert (Hz : tw s n <> 0) by (destruct Hn; lia). exists (tw s n). split; [now apply (tw_node limit s G)|].
    rewrite (tw_tw limit s G n Hn Hz). pose proof (tw_other limit s G n Hn Hz) as O. assert (tw s n <> n) by (intro K; apply O; now rewrite K). split; [lia|right].
    pose proof (ea_tw limit s G n Hn Hz) as E1. pose proof (eb_tw limit s G n Hn Hz) as E2. unfold ea, eb in E1, E2. unfold P. now rewrite E1, E2. }
  destruct M as (m & Hm & Tm & Em). destruct (node_side s m Hm) as (g & j & Eg & Hg & Hj & _).
  assert (Sc : forall a b, point_eqb (scaled q a) (scaled q b) = true <-> a = b).
  { intros a b. rewrite point_eqb_eq. split; [apply (scaled_inj q (proj1 Hq))|now intros ->]. }
  apply (count_unique _ _ (g, j)); [apply all_sides_nodup|apply all_sides_in; [lia|auto]| |].
  - cbn [fst snd edge_entry e_primary e_u e_v joins]. unfold joins, edge_entry. cbn [fst snd e_u e_v]. destruct (edge_ends s g j Hj) as (-> & -> & _). rewrite <- Eg. change (where_is s (ea s m)) with (P s (nxt m)). change (where_is s (eb s m)) with (P s (prv m)).
    rewrite andb_true_iff, orb_true_iff, !andb_true_iff, !Sc. split; [now apply Z.ltb_lt|assumption].
  - intros [h k] Hin. apply all_sides_in in Hin; [|lia]. destruct Hin as [Hh Hk]. unfold joins, edge_entry. cbn [fst snd e_u e_v e_primary]. destruct (edge_ends s h k Hk) as (-> & -> & _). pose proof (side_node s h k Hh Hk) as Hx. set (x := 4 * h + k) in *.
    change (where_is s (ea s x)) with (P s (nxt x)). change (where_is s (eb s x)) with (P s (prv x)). rewrite andb_true_iff, orb_true_iff, !andb_true_iff, !Sc, Z.ltb_lt. intros [Tx Ex].
    assert (Exm : (P s (nxt x) = P s (nxt m) /\ P s (prv x) = P s (prv m)) \/ (P s (nxt x) = P s (prv m) /\ P s (prv x) = P s (nxt m))).
    { destruct Ex as [[X1 X2]|[X1 X2]], Em as [[M1 M2]|[M1 M2]]; rewrite X1, X2, M1, M2; auto. }
    assert (x = m).
    { destruct Exm as [[X1 X2]|[X1 X2]]; [now apply (same_ends limit s)|exfalso].
      destruct (Z.eq_dec (tw s m) 0) as [Ez|Nz].
      - pose proof (boundary_side limit s m (P s x) G Hm Ez (fn_box limit s _ G (or_introl Hx))) as B. pose proof (g_cw _ _ G x Hx) as C. rewrite X1, X2 in C.
        replace (orient (P s x) (P s (prv m)) (P s (nxt m))) with (- orient (P s (nxt m)) (P s (prv m)) (P s x)) in C by (unfold orient; ring). lia.
      - pose proof (ea_tw limit s G m Hm Nz) as E1. pose proof (eb_tw limit s G m Hm Nz) as E2. unfold ea, eb in E1, E2.
        assert (x = tw s m). { apply (same_ends limit s); [assumption|assumption|now apply (tw_node limit s G)| |]; [rewrite X1; unfold P; now rewrite E1|rewrite X2; unfold P; now rewrite E2]. }
        subst x. rewrite H in Tx. rewrite (tw_tw limit s G m Hm Nz) in Tx. lia. }
    unfold x in H. rewrite Eg in H. f_equal; unfold side in *; lia.
Qed.
Print Assumptions C71_primary.

Lemma filter_length {A} (p : A -> bool) l : (length (filter p l) + length (filter (fun x => negb (p x)) l) = length l)%nat.
Proof. induction l as [|x l IH]; [reflexivity|]. cbn [filter]. destruct (p x); cbn [negb length]; lia. Qed.
Lemma filter_ext_len {A} (p p' : A -> bool) l : (forall x, In x l -> p x = p' x) -> filter p l = filter p' l.
Proof. induction l as [|x l IH]; intro H; [reflexivity|]. cbn [filter]. rewrite (H x (or_introl eq_refl)), IH; [reflexivity|]. intros y Hy. apply H. now right. Qed.

(** C71: a triangulation with V vertices has 2 V - 6 faces and 3 V - 7 edges (Euler's formula for a square with V - 4 points inside). *)
Theorem C71_euler : forall limit q wrap s fuel l, 4 <= limit <= 8192 -> 0 <= q <= 16 -> reachable limit q wrap s -> (6 * Z.to_nat (size s) <= fuel)%nat ->
  edges_view limit q fuel s = Ok l -> Z.of_nat (length (all_faces s)) = 2 * size s - 6 /\ Z.of_nat (length (filter e_primary l)) = 3 * size s - 7.
Proof.
  intros limit q wrap s fuel l Hl Hq R L E. rewrite (C71_edges limit q wrap s fuel Hl Hq R L) in E. injection E as <-. pose proof (reachable_good limit q wrap Hl (proj1 Hq) s R) as G. pose proof (g_size _ _ G) as Gs.
  assert (Lf : Z.of_nat (length (all_faces s)) = 2 * size s - 6) by (unfold all_faces; rewrite map_length, seq_length; lia). split; [assumption|].
  rewrite filter_map, map_length. set (pr := fun n => tw s n <? n).
  assert (E1 : length (filter (fun x => e_primary (edge_entry q s x)) (all_sides s)) = length (filter pr (nodes_of s))).
  { assert (Ep : forall x, e_primary (edge_entry q s x) = pr (4 * fst x + snd x)) by reflexivity. unfold all_sides, nodes_of. change (faces_of (size s)) with (all_faces s). clear Lf. induction (all_faces s) as [|f fs IH]; [reflexivity|]. cbn [flat_map app filter].
    rewrite !Ep. cbn [fst snd]. rewrite Z.add_0_r. destruct (pr (4 * f)), (pr (4 * f + 1)), (pr (4 * f + 2)); cbn [length]; rewrite IH; reflexivity. }
  rewrite E1. set (N := nodes_of s). assert (Ln : Z.of_nat (length N) = 6 * size s - 18).
  { unfold N, nodes_of. change (faces_of (size s)) with (all_faces s). assert (X : forall fs, length (flat_map (fun f : Z => [4 * f + 2; 4 * f; 4 * f + 1]) fs) = (3 * length fs)%nat) by (induction fs as [|f fs IH]; [reflexivity|]; cbn [flat_map app length]; lia). rewrite X. lia. }
  assert (Nn : forall n, In n N <-> node s n) by (intro n; apply nodes_in; lia).
  pose proof (filter_length pr N) as S1.
  pose proof (filter_length (fun n => tw s n =? 0) (filter pr N)) as S2. rewrite !filter_both in S2.
  assert (B : length (filter (fun n => tw s n =? 0) N) = 4%nat) by (unfold N; rewrite <- (map_length (edge_pts s)), (Permutation_length (boundary_edges limit s G)); reflexivity).
  assert (E2 : filter (fun x => pr x && (tw s x =? 0)) N = filter (fun n => tw s n =? 0) N).
  { apply filter_ext_len. intros n Hn. apply Nn in Hn. unfold pr. destruct (Z.eqb_spec (tw s n) 0) as [Ez|_]; [|now rewrite andb_false_r]. rewrite Ez. destruct Hn. rewrite (proj2 (Z.ltb_lt 0 n)) by lia. reflexivity. }
  assert (E3 : Permutation (filter (fun x => pr x && negb (tw s x =? 0)) N) (map (tw s) (filter (fun x => negb (pr x)) N))).
  { assert (In2 : forall n, In n (filter (fun x => negb (pr x)) N) <-> node s n /\ tw s n <> 0 /\ n < tw s n).
    { intro n. rewrite filter_In, Nn. unfold pr. rewrite negb_true_iff, Z.ltb_ge. split.
      - intros [Hn Ht]. assert (Hz : tw s n <> 0) by (destruct Hn; lia). pose proof (tw_other limit s G n Hn Hz) as O. assert (tw s n <> n) by (intro K; apply O; now rewrite K). split; [assumption|]. split; [assumption|lia].
      - intros (Hn & _ & Ht). split; [assumption|lia]. }
    apply NoDup_Permutation.
    - apply NoDup_filter, nodes_nodup.
    - assert (X : forall l, NoDup l -> (forall n, In n l -> node s n /\ tw s n <> 0) -> NoDup (map (tw s) l)).
      { induction 1 as [|n l Hn ND IH]; intro H; [constructor|]. cbn [map]. constructor; [|apply IH; intros m Hm; apply H; now right].
        intro Hi. apply in_map_iff in Hi. destruct Hi as (m & E & Hm). apply Hn. replace n with m; [assumption|].
        destruct (H n (or_introl eq_refl)) as [N1 T1]. destruct (H m (or_intror Hm)) as [N2 T2]. now apply (tw_inj limit s G m n). }
      apply X; [apply NoDup_filter, nodes_nodup|]. intros n Hn. apply In2 in Hn. tauto.
    - intro n. rewrite filter_In, Nn, andb_true_iff, negb_true_iff, Z.eqb_neq, in_map_iff. unfold pr. rewrite Z.ltb_lt. split.
      + intros (Hn & Ht & Hz). exists (tw s n). pose proof (tw_tw limit s G n Hn Hz) as Tt. split; [assumption|]. apply In2. split; [now apply (tw_node limit s G)|]. rewrite Tt. destruct Hn; lia.
      + intros (m & <- & Hm). apply In2 in Hm. destruct Hm as (Hm & Hz & Ht). split; [now apply (tw_node limit s G)|]. rewrite (tw_tw limit s G m Hm Hz). destruct Hm; lia. }
  apply Permutation_length in E3. rewrite map_length in E3. rewrite E2, B in S2. lia.
Qed.
Print Assumptions C71_euler.

(** The mesh of the demo of C53 to C58: 8 vertices, 10 faces, 30 sides, 17 edges. *)
Example C71_nonvacuous : exists s l, reachable 32 0 true s /\ size s = 8 /\ edges_view 32 0 48 s = Ok l /\ length l = 30%nat /\ length (filter e_primary l) = 17%nat /\ length (filter (fun e => e_primary e && e_constrained e) l) = 7%nat.
Proof.
  assert (K : match history 32 true 200 demo with
    | Ok s => match edges_view 32 0 48 s with Ok l => (size s, length l, length (filter e_primary l), length (filter (fun e => e_primary e && e_constrained e) l)) | _ => (0, 0%nat, 0%nat, 0%nat) end
    | _ => (0, 0%nat, 0%nat, 0%nat) end = (8, 30%nat, 17%nat, 7%nat)) by (vm_compute; reflexivity).
  destruct (history 32 true 200 demo) as [s| |] eqn:Es; try discriminate K. destruct (edges_view 32 0 48 s) as [l| |] eqn:El; try discriminate K. injection K as K1 K2 K3 K4.
  exists s, l. split; [apply (history_reachable 32 true 200 demo); [reflexivity|assumption]|]. auto 10.
Qed.
