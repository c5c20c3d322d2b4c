(** Theorems about the triangulation (cdt.h). *)
From Coq Require Import Permutation.
From Verif Require Import Base Vec_Model Math_Model Vec_Spec Vec_Props Math_Spec Math_Proofs Math_Props Cdt_Model Cdt_Geom Cdt_Mesh Cdt_Flip Cdt_Circle Cdt_Insert Cdt_OnEdge Cdt_Walk Cdt_Edge Cdt_Spec Cdt_Tile Cdt_Reset Cdt_Fill Cdt_Locate Cdt_History.
Local Open Scope Z_scope.

Local Notation square := Cdt_Spec.square.

(** Corners of a face as nodes. *)
Lemma side_node s f i : face s f -> side i -> node s (4 * f + i).
Proof. intros [H1 H2] Hi. split; [destruct Hi as [-> |[-> | ->]]; lia|]. destruct Hi as [-> |[-> | ->]]; Z.to_euclidean_division_equations; lia. Qed.
Lemma node_side s n : node s n -> exists f i, n = 4 * f + i /\ face s f /\ side i /\ f = n / 4.
Proof.
  intros Hn. exists (n / 4), (n mod 4). pose proof (Z.div_mod n 4 ltac:(lia)). pose proof (Z.mod_pos_bound n 4 ltac:(lia)). pose proof (node_face s n Hn). destruct Hn. unfold face, side. lia.
Qed.
Lemma edge_ends s f i : side i -> edge_from s f i = ea s (4 * f + i) /\ edge_to s f i = eb s (4 * f + i) /\ corner s f i = pt s (4 * f + i).
Proof.
  intro Hi. destruct (four f) as (F1 & F2 & F3 & F4 & F5 & F6). unfold edge_from, edge_to, corner, ea, eb.
  destruct Hi as [-> |[-> | ->]]; [change ((0 + 1) mod 3) with 1; change ((0 + 2) mod 3) with 2; change (0 mod 3) with 0|change ((1 + 1) mod 3) with 2; change ((1 + 2) mod 3) with 0; change (1 mod 3) with 1|change ((2 + 1) mod 3) with 0; change ((2 + 2) mod 3) with 1; change (2 mod 3) with 2];
  rewrite ?Z.add_0_r, ?F1, ?F2, ?F3, ?F4, ?F5, ?F6; auto.
Qed.

Lemma good_consistent limit s : good limit s -> consistent s.
Proof.
  intros G f i Hf Hi. pose proof (side_node s f i Hf Hi) as Hn. destruct (edge_ends s f i Hi) as (-> & -> & ->).
  split; [now apply (g_pt _ _ G)|]. split; [now apply (g_co _ _ G)|]. split.
  { intro E. pose proof (g_cw _ _ G _ Hn) as C. unfold P in C. unfold ea, eb, where_is in E. unfold V in C. rewrite E in C. unfold orient in C. lia. }
  unfold linked. destruct (Z.eq_dec (tw s (4 * f + i)) 0) as [Hz|Hz].
  { left. split; [assumption|]. destruct (g_link _ _ G _ Hn) as [[_ C]|(K & _)]; [assumption|]. rewrite Hz in K. destruct K; lia. }
  right. pose proof (tw_node limit s G _ Hn Hz) as Ht. destruct (node_side s _ Ht) as (g & j & E & Hg & Hj & Eg). exists g, j. split; [assumption|]. split; [assumption|].
  pose proof (tw_other limit s G _ Hn Hz) as O. pose proof (tw_tw limit s G _ Hn Hz) as T. pose proof (ea_tw limit s G _ Hn Hz) as A. pose proof (eb_tw limit s G _ Hn Hz) as B.
  destruct (edge_ends s g j Hj) as (-> & -> & _). destruct (edge_ends s f i Hi) as (-> & -> & _). rewrite <- E. split.
  { rewrite Eg. intro K. apply O. rewrite K. destruct Hi as [-> |[-> | ->]]; Z.to_euclidean_division_equations; lia. }
  split; [reflexivity|]. split; [assumption|]. split; [|auto].
  destruct (g_link _ _ G _ Hn) as [[K _]|(_ & _ & C & _)]; [contradiction|assumption].
Qed.

(** ** C53 links *)

(** C53: after a reset and any sequence of calls, with any hints and fills, the links between the faces are consistent. *)
Theorem C53_consistent : forall limit q wrap s, 4 <= limit <= 8192 -> 0 <= q -> reachable limit q wrap s -> consistent s.
Proof. intros limit q wrap s Hl Hq R. now apply (good_consistent limit), (reachable_good limit q wrap Hl Hq). Qed.
Print Assumptions C53_consistent.

(** C53: no call on a mesh that calls have made goes outside its arrays, divides by zero or overflows (with in-circle arithmetic
    that wraps around); 4 <= size <= limit stays true. Without wrap-around only the in-circle test of C56 can overflow. *)
Theorem C53_safe : forall limit q wrap fuel s o, 4 <= limit <= 8192 -> 0 <= q -> reachable limit q wrap s -> valid s o ->
  4 <= size s <= limit /\ (wrap = true -> run_op limit q wrap fuel s o <> UB).
Proof.
  intros limit q wrap fuel s o Hl Hq R Hv. pose proof (reachable_good limit q wrap Hl Hq s R) as G. split; [apply (g_size _ _ G)|].
  intros W E. pose proof (run_ok limit q wrap Hl Hq fuel s o G Hv) as X. rewrite E in X. congruence.
Qed.
Print Assumptions C53_safe.

(** ** C54 tiling *)
Lemma triangle_node s f : face_triangle s f = (P s (4 * f), P s (nxt (4 * f)), P s (prv (4 * f))).
Proof. unfold face_triangle, corner. destruct (four f) as (-> & -> & _). change (0 mod 3) with 0. rewrite Z.add_0_r. reflexivity. Qed.
Lemma all_faces_in s f : 4 <= size s -> In f (all_faces s) <-> face s f.
Proof. intro H. unfold face. apply faces_of_in. lia. Qed.
Lemma good_clockwise limit s : good limit s -> Forall clockwise (triangles s).
Proof.
  intro G. apply Forall_forall. intros t Ht. apply in_map_iff in Ht. destruct Ht as (f & <- & Hf). apply all_faces_in in Hf; [|pose proof (g_size _ _ G); lia].
  rewrite triangle_node. apply (g_cw _ _ G). now apply face_node.
Qed.

(** C54: every face is strictly clockwise, and the areas of the faces add up to that of the square. *)
Theorem C54_clockwise_area : forall limit q wrap s, 4 <= limit <= 8192 -> 0 <= q -> reachable limit q wrap s ->
  Forall clockwise (triangles s) /\ total (map area (triangles s)) = 2 * (65535 * 65535) /\ forall v, 0 <= v < size s -> in_square (where_is s v).
Proof.
  intros limit q wrap s Hl Hq R. pose proof (reachable_good limit q wrap Hl Hq s R) as G. split; [now apply (good_clockwise limit)|]. split; [now apply (whole_area limit)|].
  intros v Hv. exact (g_box _ _ G v Hv).
Qed.
Print Assumptions C54_clockwise_area.

(** C54: the sides of the faces are the four sides of the square, and pairs of opposite sides. *)
Theorem C54_mesh : forall limit q wrap s, 4 <= limit <= 8192 -> 0 <= q -> reachable limit q wrap s -> mesh_with_boundary (triangles s) square.
Proof. intros limit q wrap s Hl Hq R. apply (tiles limit). now apply (reachable_good limit q wrap). Qed.
Print Assumptions C54_mesh.

Lemma within_box p : inbox p -> within KM p.
Proof. unfold inbox, within, KM, lo, hi. change (2 ^ 15) with 32768. change (2 ^ 30 - 1) with 1073741823. lia. Qed.
Lemma good_tri limit s : good limit s -> Forall tri_ok (triangles s).
Proof.
  intro G. apply Forall_forall. intros t Ht. apply in_map_iff in Ht. destruct Ht as (f & <- & Hf). apply all_faces_in in Hf; [|pose proof (g_size _ _ G); lia].
  rewrite triangle_node. pose proof (face_node s f Hf) as Hn. unfold tri_ok. split; [|split]; apply within_box, (fn_box limit s _ G); left; [assumption|now apply nxt_node|now apply prv_node].
Qed.
Lemma square_convex : convex_clockwise square.
Proof. unfold square. cbn [convex_clockwise turn_around]. repeat split; intros c Hc; cbn [In] in Hc; intuition; subst; reflexivity. Qed.
Lemma square_within : Forall (within KM) square.
Proof. unfold square, within, KM, low, high. change (2 ^ 30 - 1) with 1073741823. repeat constructor; cbn [fst snd]; lia. Qed.

Lemma count_two (l : list bool) i j : (i < j)%nat -> nth_error l i = Some true -> nth_error l j = Some true -> (2 <= count_true l)%nat.
Proof.
  assert (One : forall (l : list bool) j, nth_error l j = Some true -> (1 <= count_true l)%nat).
  { induction l0 as [|b l0 IH]; intros [|k] H; cbn in H; try discriminate; unfold count_true in *; cbn [filter].
    - injection H as ->. cbn. lia.
    - specialize (IH k H). destruct b; cbn [length]; lia. }
  revert i j. induction l as [|b l IH]; intros [|i] [|j] L Hi Hj; try lia; cbn in Hi, Hj; try discriminate.
  - injection Hi as ->. specialize (One l j Hj). unfold count_true in *. cbn [filter length]. lia.
  - specialize (IH i j ltac:(lia) Hi Hj). unfold count_true in *. cbn [filter]. destruct b; cbn [length]; lia.
Qed.

(** C54: the interiors of the faces do not overlap, and they cover the interior of the square: each point strictly inside the
    square passes the test of exactly one face, and a point strictly outside passes none. *)
Theorem C54_partition : forall limit q wrap s p, 4 <= limit <= 8192 -> 0 <= q -> reachable limit q wrap s -> within (2 ^ 30 - 1) p ->
  exists rs, map (inside3_of p) (triangles s) = map Ok rs /\
    (low < fst p < high /\ low < snd p < high -> count_true rs = 1%nat) /\ (~ in_square p -> count_true rs = 0%nat).
Proof.
  intros limit q wrap s p Hl Hq R Hp. pose proof (reachable_good limit q wrap Hl Hq s R) as G.
  destruct (C40_interior_exterior p (triangles s) square Hp (good_tri limit s G) square_within (good_clockwise limit s G) (tiles limit s G) square_convex ltac:(cbn; lia)) as (rs & E & H1 & H0).
  exists rs. split; [assumption|].
  assert (Ed : edges square = [((high, low), (low, low)); ((low, low), (low, high)); ((low, high), (high, high)); ((high, high), (high, low))]) by reflexivity. rewrite Ed in H1, H0. split.
  - intros [Hx Hy]. apply H1. intros a b Hab. unfold low, high in *. cbn [In] in Hab. destruct Hab as [E'|[E'|[E'|[E'|[]]]]]; injection E' as <- <-; unfold orient; cbn [fst snd]; lia.
  - intro Ho. apply H0. unfold in_square, low, high in *.
    assert (C : fst p < - 32768 \/ 32767 < fst p \/ snd p < - 32768 \/ 32767 < snd p) by lia. destruct C as [C|[C|[C|C]]].
    + exists (- 32768, - 32768), (- 32768, 32767). split; [cbn [In]; auto|unfold orient; cbn [fst snd]; lia].
    + exists (32767, 32767), (32767, - 32768). split; [cbn [In]; auto|unfold orient; cbn [fst snd]; lia].
    + exists (32767, - 32768), (- 32768, - 32768). split; [cbn [In]; auto|unfold orient; cbn [fst snd]; lia].
    + exists (- 32768, 32767), (32767, 32767). split; [cbn [In]; auto|unfold orient; cbn [fst snd]; lia].
Qed.
Print Assumptions C54_partition.

(** ** C55 the circle *)
Lemma circle_identity d x y a b c v K :
  d * d * incircle_det a b c v =
    (distance2 d x y a - K) * orient v b c + (distance2 d x y b - K) * orient v c a + (distance2 d x y c - K) * orient v a b - (distance2 d x y v - K) * orient a b c.
Proof. destruct a as [ax ay], b as [bx by_], c as [cx cy], v as [vx vy]. unfold incircle_det, det6, distance2, orient. cbn [fst snd]. ring. Qed.

Lemma circle_centre a b c : orient a b c < 0 -> exists d x y, 0 < d /\ distance2 d x y a = distance2 d x y b /\ distance2 d x y b = distance2 d x y c.
Proof.
  intro O. destruct a as [ax ay], b as [bx by_], c as [cx cy].
  pose (ux := ax - cx). pose (uy := ay - cy). pose (wx := bx - cx). pose (wy := by_ - cy). pose (uu := ux * ux + uy * uy). pose (ww := wx * wx + wy * wy).
  exists (- (2 * (ux * wy - uy * wx))), (- (2 * (ux * wy - uy * wx)) * cx - (wy * uu - uy * ww)), (- (2 * (ux * wy - uy * wx)) * cy - (ux * ww - wx * uu)).
  split; [|split].
  - unfold orient in O. cbn [fst snd] in O. unfold ux, uy, wx, wy. lia.
  - unfold distance2, uu, ww, ux, uy, wx, wy. cbn [fst snd]. ring.
  - unfold distance2, uu, ww, ux, uy, wx, wy. cbn [fst snd]. ring.
Qed.

Lemma inside_circle_det a b c v : orient a b c < 0 -> inside_circle a b c v <-> incircle_det a b c v < 0.
Proof.
  intro O. split.
  - intros (d & x & y & Hd & E1 & E2 & L). pose proof (circle_identity d x y a b c v (distance2 d x y a)) as I. rewrite <- E2, <- E1, !Z.sub_diag, !Z.mul_0_l, !Z.add_0_l in I.
    assert (0 < (distance2 d x y v - distance2 d x y a) * orient a b c) by (apply Z.mul_neg_neg; lia). assert (0 < d * d) by nia. clear - I H H0. nia.
  - intro L. destruct (circle_centre a b c O) as (d & x & y & Hd & E1 & E2). exists d, x, y. split; [assumption|]. split; [assumption|]. split; [assumption|].
    pose proof (circle_identity d x y a b c v (distance2 d x y a)) as I. rewrite <- E2, <- E1, !Z.sub_diag, !Z.mul_0_l, !Z.add_0_l in I.
    assert (d * d * incircle_det a b c v < 0) by (apply Z.mul_pos_neg; nia). apply Z.nle_gt. intro K.
    assert ((distance2 d x y v - distance2 d x y a) * orient a b c <= 0) by (apply Z.mul_nonneg_nonpos; lia). lia.
Qed.

(** C55: on every mesh that calls can make, the in-circle test of a face and a vertex is exact: with wrap-around always, and
    without it whenever it does not overflow. *)
Theorem C55_incircle : forall limit q wrap s f v, 4 <= limit <= 8192 -> 0 <= q -> reachable limit q wrap s -> face s f -> 0 <= v < size s ->
  let '(a, b, c) := face_triangle s f in
  (incircle limit true s f v = Ok true <-> inside_circle a b c (where_is s v)) /\
  (incircle limit true s f v = Ok false <-> ~ inside_circle a b c (where_is s v)) /\
  (incircle limit false s f v = incircle limit true s f v \/ incircle limit false s f v = UB).
Proof.
  intros limit q wrap s f v Hl Hq R Hf Hv. pose proof (reachable_good limit q wrap Hl Hq s R) as G. rewrite triangle_node. pose proof (face_node s f Hf) as Hn.
  destruct (incircle_ok limit true s (4 * f) v G Hn Hv) as [I1 _]. destruct (incircle_ok limit false s (4 * f) v G Hn Hv) as [_ I2].
  assert (E : 4 * f / 4 = f) by (rewrite Z.mul_comm; apply Z.div_mul; lia). rewrite E in I1, I2. specialize (I1 eq_refl).
  pose proof (inside_circle_det _ _ _ (where_is s v) (g_cw _ _ G _ Hn)) as C. change (incircle_det (P s (4 * f)) (P s (nxt (4 * f))) (P s (prv (4 * f))) (where_is s v)) with (det_at s (4 * f) (V s v)) in C.
  rewrite I1, C. destruct (Z.ltb_spec (det_at s (4 * f) (V s v)) 0) as [L|L].
  - split; [intuition|]. split; [split; [discriminate|intro K; contradiction]|assumption].
  - split; [split; [discriminate|lia]|]. split; [intuition lia|assumption].
Qed.
Print Assumptions C55_incircle.

(** ** C56 overflow *)
Definition blank : mesh := {| size := 0; pt := fun _ => 0; tw := fun _ => 0; co := fun _ => 0; fi := fun _ => 0; vx := fun _ => 0; vy := fun _ => 0 |}.
Fixpoint run (limit q : Z) (wrap : bool) (fuel : nat) (s : mesh) (l : list op) : res mesh :=
  match l with [] => Ok s | o :: l => s <- run_op limit q wrap fuel s o ;; run limit q wrap fuel s l end.
Lemma run_reachable limit q wrap fuel : forall l s s', reachable limit q wrap s -> (forall t, reachable limit q wrap t -> forall o, In o l -> valid t o) -> run limit q wrap fuel s l = Ok s' -> reachable limit q wrap s'.
Proof.
  induction l as [|o l IH]; intros s s' R Hv E; cbn [run] in E; [injection E as <-; assumption|]. destruct (run_op limit q wrap fuel s o) as [t| |] eqn:Et; cbn [bind] in E; try discriminate.
  apply (IH t); [|intros t' Rt' o' Ho'; apply Hv; [assumption|now right]|assumption]. apply (r_op _ _ _ fuel s o); [assumption|apply Hv; [assumption|now left]|assumption].
Qed.

(** C56 (refuted): the first point that a user inserts in a fresh mesh makes the 64-bit arithmetic of the in-circle test overflow:
    the vertices of the square are 65535 apart, and the products of their squared distances and areas need 67 bits. *)
Theorem C56_refuted : exists limit q s p, 4 <= limit <= 8192 /\ 0 <= q /\ reset limit blank = Ok s /\ int32p p /\ run_op limit q false 100 s (Point p 0) = UB.
Proof.
  exists 4096, 0. destruct (reset_ok 4096 blank ltac:(lia)) as (s & E & _). exists s, (2, 2). split; [lia|]. split; [lia|]. split; [assumption|]. split; [unfold int32p; cbn [fst snd]; lia|].
  assert (K : (s <- reset 4096 blank ;; run_op 4096 0 false 100 s (Point (2, 2) 0)) = UB) by (vm_compute; reflexivity). rewrite E in K. exact K.
Qed.
Print Assumptions C56_refuted.

(** C56: what overflow does: where the machine wraps around, the test still has the sign of the exact determinant (C55), and no
    other arithmetic of any call overflows (C53_safe). *)
Theorem C56_wraparound_exact : forall limit q wrap s f v, 4 <= limit <= 8192 -> 0 <= q -> reachable limit q wrap s -> face s f -> 0 <= v < size s ->
  let '(a, b, c) := face_triangle s f in exists r, incircle limit true s f v = Ok r /\ (r = true <-> inside_circle a b c (where_is s v)).
Proof.
  intros limit q wrap s f v Hl Hq R Hf Hv. pose proof (C55_incircle limit q wrap s f v Hl Hq R Hf Hv) as C. pose proof (reachable_good limit q wrap Hl Hq s R) as G. pose proof (face_node s f Hf) as Hn.
  destruct (face_triangle s f) as [[a b] c]. destruct C as (C & _). destruct (incircle_ok limit true s (4 * f) v G Hn Hv) as [I1 _]. assert (E : 4 * f / 4 = f) by (rewrite Z.mul_comm; apply Z.div_mul; lia). rewrite E in I1.
  specialize (I1 eq_refl). eexists. split; [exact I1|]. rewrite <- C, I1. split; [intros ->; reflexivity|congruence].
Qed.
Print Assumptions C56_wraparound_exact.

(** ** C57 fill *)

(** C57: fill gives its info to exactly the faces that can be reached from the start through unconstrained edges without passing a
    face that has the info, and changes nothing else; it does not overrun its stack of 256 faces (never UB), and it ends. *)
Theorem C57_fill : forall limit q wrap s n info fuel, 4 <= limit <= 8192 -> 0 <= q -> reachable limit q wrap s -> 24 <= n < 8 * size s -> 0 <= info < 65536 ->
  (4 * Z.to_nat (size s) <= fuel)%nat ->
  exists s', fill limit fuel s n info = Ok s' /\
    (size s' = size s /\ pt s' = pt s /\ tw s' = tw s /\ co s' = co s /\ vx s' = vx s /\ vy s' = vy s) /\
    (fi s (n / 4) = info -> fi s' = fi s \/ forall g, fi s' g = fi s g) /\
    (fi s (n / 4) <> info -> forall g, (reach s info (n / 4) g -> fi s' g = info) /\ (~ reach s info (n / 4) g -> fi s' g = fi s g)).
Proof.
  intros limit q wrap s n info fuel Hl Hq R Hn Hi Hf. pose proof (reachable_good limit q wrap Hl Hq s R) as G.
  pose proof (fill_ok limit fuel s n info G ltac:(lia) ltac:(lia) Hi) as X. destruct (fill limit fuel s n info) as [s'| |]; [|contradiction|lia]. exists s'. destruct X as (X1 & X2 & X3).
  split; [reflexivity|]. split; [assumption|]. split; [intro E; right; intro g; apply X3; now left|]. intros N g. split; [now apply X2|]. intro H. apply X3. now right.
Qed.
Print Assumptions C57_fill.

(** C57: at node 0, which is what locate returns for a point outside, fill does nothing. *)
Theorem C57_fill_outside : forall limit fuel s info n, 0 <= n < 4 -> fill limit fuel s n info = Ok s.
Proof. intros limit fuel s info n Hn. unfold fill. rewrite Z.div_small by lia. reflexivity. Qed.
Print Assumptions C57_fill_outside.

(** ** C58 locate *)
Definition scaled_face (q : Z) (s : mesh) (f : Z) : triangle := let '(a, b, c) := face_triangle s f in (scaled q a, scaled q b, scaled q c).

Section Locate58.
  Context (limit q : Z) (s : mesh) (p : point).
  Hypothesis G : good limit s.
  Hypothesis Hq : 0 <= q.
  Hypothesis Hp : fits q p.

  Lemma lor3 n : 0 <= n -> Z.lor n 3 = 4 * (n / 4) + 3.
  Proof.
    intro Hn. pose proof (Z.div_mod n 4 ltac:(lia)) as E. pose proof (Z.mod_pos_bound n 4 ltac:(lia)) as B. set (f := n / 4) in *. set (r := n mod 4) in *.
    assert (F : forall k, 0 <= k < 4 -> 4 * f + k = Z.lor (Z.shiftl f 2) k).
    { intros k Hk. rewrite <- Z.lxor_lor, <- Z.add_nocarry_lxor.
      - rewrite Z.shiftl_mul_pow2 by lia. change (2 ^ 2) with 4. lia.
      - apply Z.bits_inj'. intros i Hi. rewrite Z.land_spec, Z.bits_0. destruct (Z_lt_ge_dec i 2); [rewrite Z.shiftl_spec_low by lia; reflexivity|].
        replace (Z.testbit k i) with false; [apply andb_false_r|]. symmetry. apply Z.bits_above_log2; [lia|]. destruct (Z.eq_dec k 0) as [-> |]; [cbn; lia|]. apply Z.log2_lt_pow2; [lia|]. apply Z.lt_le_trans with (2 ^ 2); [lia|]. apply Z.pow_le_mono_r; lia.
      - apply Z.bits_inj'. intros i Hi. rewrite Z.land_spec, Z.bits_0. destruct (Z_lt_ge_dec i 2); [rewrite Z.shiftl_spec_low by lia; reflexivity|].
        replace (Z.testbit k i) with false; [apply andb_false_r|]. symmetry. apply Z.bits_above_log2; [lia|]. destruct (Z.eq_dec k 0) as [-> |]; [cbn; lia|]. apply Z.log2_lt_pow2; [lia|]. apply Z.lt_le_trans with (2 ^ 2); [lia|]. apply Z.pow_le_mono_r; lia. }
    clearbody f r. rewrite E. rewrite (F r B), (F 3 ltac:(lia)), <- Z.lor_assoc. f_equal. clear - B.
    assert (r = 0 \/ r = 1 \/ r = 2 \/ r = 3) as [-> |[-> |[-> | ->]]] by lia; reflexivity.
  Qed.

  Lemma inside_face_base n : node s n -> inside_face q s p n -> inside_face q s p (4 * (n / 4)).
  Proof.
    intros Hn (C1 & C2 & C3). replace (4 * (n / 4)) with (n / 4 * 4) by ring. destruct (base_of s n Hn) as (Hu & Mu & Fu). set (u := n / 4 * 4) in *. destruct (offs u Mu) as (O1 & O2 & O3 & O4 & O5 & O6 & _). unfold inside_face.
    destruct (same_face u n (node_mod s u Hu) (node_mod s n Hn) Fu) as [E|[E|E]]; rewrite E in *; rewrite ?O1, ?O2, ?O3, ?O4, ?O5, ?O6 in *; auto.
  Qed.

  Lemma sub_fits n : face_or_nil s n -> sub2 (PS q s n) p = Ok (vsub (PS q s n) p).
  Proof.
    intro Hn. destruct (fn_box limit s n G Hn) as [B1 B2]. destruct (Hp _ B1) as (_ & X & _). destruct (Hp _ B2) as (_ & _ & Y). unfold sub2, vsub, PS, scaled. cbn [fst snd]. rewrite (chk32_ok _ X). cbn [bind]. rewrite (chk32_ok _ Y). reflexivity.
  Qed.
  Lemma inside3_face f : face s f -> exists r, inside3_of p (scaled_face q s f) = Ok r /\ (r = true <-> inside_face q s p (4 * f)).
  Proof.
    intro Hf. pose proof (face_node s f Hf) as Hn. assert (F0 : face_or_nil s (4 * f)) by now left. assert (F1 : face_or_nil s (nxt (4 * f))) by (left; now apply nxt_node). assert (F2 : face_or_nil s (prv (4 * f))) by (left; now apply prv_node).
    unfold scaled_face. rewrite triangle_node. unfold inside3_of, inside3. fold (PS q s (4 * f)) (PS q s (nxt (4 * f))) (PS q s (prv (4 * f))).
    rewrite (sub_fits _ F0), (sub_fits _ F1), (sub_fits _ F2). cbn [bind]. unfold inside_face.
    destruct (inside_turn limit q s p _ _ G Hp F0 F1) as (r1 & -> & R1 & _). destruct (inside_turn limit q s p _ _ G Hp F1 F2) as (r2 & E2 & R2 & _). destruct (inside_turn limit q s p _ _ G Hp F2 F0) as (r3 & E3 & R3 & _). cbn [bind].
    destruct r1; [|exists false; split; [reflexivity|rewrite <- R1; intuition discriminate]]. rewrite E2. cbn [bind]. destruct r2; [|exists false; split; [reflexivity|rewrite <- R2; intuition discriminate]].
    exists r3. split; [assumption|]. rewrite <- R1, <- R2, <- R3. destruct r3; intuition discriminate.
  Qed.

  (** Beyond a side of the square: the side's own test says so. *)
  Lemma outside_test : outside q s p -> exists a b, In (a, b) (edges square) /\ inside (vsub (scaled q a) p) (vsub (scaled q b) p) = Ok false.
  Proof.
    intros (m & Hm & Hz & L). exists (P s (nxt m)), (P s (prv m)). split.
    - apply (Permutation_in _ (boundary_edges limit s G)). change (P s (nxt m), P s (prv m)) with (edge_pts s m). apply in_map, filter_In. split; [apply nodes_in; [pose proof (g_size _ _ G); lia|assumption]|now apply Z.eqb_eq].
    - fold (PS q s (nxt m)) (PS q s (prv m)). destruct (inside_turn limit q s p _ _ G Hp (or_introl (nxt_node s m Hm)) (or_introl (prv_node s m Hm))) as (r & -> & R & _). destruct r; [|reflexivity]. pose proof (proj1 R eq_refl). lia.
  Qed.
End Locate58.

(** C58: locate returns 0, and then the point is on the wrong side of a side of the square, or the node 4 f + 3 of a face f that passes
    the three tests. The differences between the point and the square, in the user's units, must fit an int32_t. *)
Theorem C58_locate : forall limit q wrap s fuel p hint, 4 <= limit <= 8192 -> 0 <= q -> reachable limit q wrap s ->
  (forall c, low <= c <= high -> - 2 ^ 31 <= c * 2 ^ q < 2 ^ 31 /\ - 2 ^ 31 <= c * 2 ^ q - fst p < 2 ^ 31 /\ - 2 ^ 31 <= c * 2 ^ q - snd p < 2 ^ 31) ->
  match locate limit q fuel s (fst p) (snd p) hint with
  | Ok n => (n = 0 /\ exists a b, In (a, b) (edges square) /\ inside (vsub (scaled q a) p) (vsub (scaled q b) p) = Ok false) \/
            (exists f, n = 4 * f + 3 /\ face s f /\ inside3_of p (scaled_face q s f) = Ok true)
  | UB => False
  | Timeout => True
  end.
Proof.
  intros limit q wrap s fuel p hint Hl Hq R Hf. pose proof (reachable_good limit q wrap Hl Hq s R) as G. assert (Hp : fits q p) by exact Hf.
  pose proof (locate_ok limit q Hq fuel s p hint G Hp) as X. unfold found32 in X. destruct (locate limit q fuel s (fst p) (snd p) hint) as [n| |]; [|assumption|exact I].
  destruct X as [[-> O]|(e & He & -> & I)]; [left; split; [reflexivity|now apply (outside_test limit q s p G Hp)]|right].
  exists (e / 4). split; [apply lor3; destruct He; lia|]. split; [now apply (node_face s)|]. destruct (inside3_face limit q s p G Hp (e / 4) (node_face s e He)) as (r & -> & Rr). f_equal. apply Rr. now apply inside_face_base.
Qed.
Print Assumptions C58_locate.

Lemma orient_scaled q a b c : orient (scaled q a) (scaled q b) (scaled q c) = 2 ^ q * 2 ^ q * orient a b c.
Proof. unfold orient, scaled. cbn [fst snd]. ring. Qed.
Definition scaled_tri (q : Z) (t : triangle) : triangle := let '(a, b, c) := t in (scaled q a, scaled q b, scaled q c).
Lemma scaled_sides q ts : flat_map sides (map (scaled_tri q) ts) = map (fun e => (scaled q (fst e), scaled q (snd e))) (flat_map sides ts).
Proof. induction ts as [|[[a b] c] ts IH]; [reflexivity|]. cbn [map flat_map scaled_tri sides app]. now rewrite IH. Qed.
Lemma scaled_mesh q ts b : mesh_with_boundary ts b -> mesh_with_boundary (map (scaled_tri q) ts) (map (scaled q) b).
Proof.
  intros (inner & Hp). exists (map (fun e => (scaled q (fst e), scaled q (snd e))) inner). rewrite scaled_sides.
  assert (Ee : edges (map (scaled q) b) = map (fun e => (scaled q (fst e), scaled q (snd e))) (edges b)).
  { assert (C : forall l x, chain (scaled q x) (map (scaled q) l) = map (fun e => (scaled q (fst e), scaled q (snd e))) (chain x l)) by (induction l as [|y l IH]; intro x; [reflexivity|]; cbn [map chain]; now rewrite IH).
    unfold edges. destruct b as [|x l]; [reflexivity|]. change (map (scaled q) (x :: l)) with (scaled q x :: map (scaled q) l) at 2. rewrite <- C. cbn [map]. f_equal. change (scaled q x :: map (scaled q) l) with (map (scaled q) (x :: l)).
    generalize (x :: l) as m. intro m. destruct m as [|y m]; [reflexivity|]. revert y. induction m as [|z m IH]; intro y; [reflexivity|]. exact (IH z). }
  rewrite Ee. eapply Permutation_trans; [apply Permutation_map, Hp|]. rewrite !map_app, !map_map. apply Permutation_app_head, Permutation_app_head. apply Permutation_refl'. apply map_ext. now intros [x y].
Qed.
Lemma nth_map_ok {A} (f : A -> res bool) l rs i : map f l = map Ok rs -> forall x, nth_error l i = Some x -> f x = Ok true -> nth_error rs i = Some true.
Proof.
  revert rs i. induction l as [|y l IH]; intros [|r rs] [|i] E x Hx Hf; try discriminate.
  - cbn in Hx. injection Hx as ->. cbn [map] in E. injection E as E _. cbn. congruence.
  - cbn in Hx. cbn [map] in E. injection E as _ E. cbn. now apply (IH rs i E x).
Qed.

(** C58: for a point strictly inside the square locate finds a face, and that face is the only one that passes the tests; for a
    point strictly outside it returns 0 (for Q up to 14 and coordinates below 2^30). *)
Theorem C58_unique : forall limit q wrap s fuel p hint n, 4 <= limit <= 8192 -> 0 <= q <= 14 -> reachable limit q wrap s -> within (2 ^ 30 - 1) p ->
  locate limit q fuel s (fst p) (snd p) hint = Ok n ->
  (low * 2 ^ q < fst p < high * 2 ^ q /\ low * 2 ^ q < snd p < high * 2 ^ q ->
    exists f, n = 4 * f + 3 /\ face s f /\ inside3_of p (scaled_face q s f) = Ok true /\ forall g, face s g -> inside3_of p (scaled_face q s g) = Ok true -> g = f) /\
  (~ (low * 2 ^ q <= fst p <= high * 2 ^ q /\ low * 2 ^ q <= snd p <= high * 2 ^ q) -> n = 0).
Proof.
  intros limit q wrap s fuel p hint n Hl Hq R Hp E. pose proof (reachable_good limit q wrap Hl (proj1 Hq) s R) as G.
  assert (Pw : 1 <= 2 ^ q <= 16384). { change 1 with (2 ^ 0). change 16384 with (2 ^ 14). split; apply Z.pow_le_mono_r; lia. }
  pose proof (C58_locate limit q wrap s fuel p hint Hl (proj1 Hq) R) as X. rewrite E in X.
  unfold within in Hp. assert (Hb : - 1073741823 <= fst p <= 1073741823 /\ - 1073741823 <= snd p <= 1073741823) by (change (2 ^ 30 - 1) with 1073741823 in Hp; lia).
  assert (Wc : forall c, low <= c <= high -> - 536870912 <= c * 2 ^ q <= 536870912) by (unfold low, high; intros c Hc; nia).
  specialize (X ltac:(intros c Hc; specialize (Wc c Hc); change (2 ^ 31) with 2147483648; lia)).
  assert (Wb : forall a, inbox a -> within KM (scaled q a)).
  { intros a [B1 B2]. unfold within, KM, scaled. change (2 ^ 30 - 1) with 1073741823. cbn [fst snd]. pose proof (Wc _ B1). pose proof (Wc _ B2). lia. }
  assert (Gs : 4 <= size s) by (pose proof (g_size _ _ G); lia).
  set (ts := map (scaled_tri q) (triangles s)). assert (Tri : Forall tri_ok ts /\ Forall clockwise ts).
  { split; apply Forall_forall; intros t Ht; apply in_map_iff in Ht; destruct Ht as (t0 & <- & Ht); apply in_map_iff in Ht; destruct Ht as (f & <- & Hf); apply (all_faces_in s f Gs) in Hf; rewrite triangle_node; pose proof (face_node s f Hf) as Hn; unfold scaled_tri.
    - unfold tri_ok. split; [|split]; apply Wb, (fn_box limit s _ G); left; [assumption|now apply nxt_node|now apply prv_node].
    - unfold clockwise. rewrite orient_scaled. apply Z.mul_pos_neg; [nia|]. now apply (g_cw _ _ G). }
  assert (Sq : Forall (within KM) (map (scaled q) square)).
  { apply Forall_forall. intros a Ha. apply in_map_iff in Ha. destruct Ha as (a0 & <- & Ha). apply Wb. unfold square, low, high in Ha. cbn [In] in Ha. unfold inbox, lo, hi. change (2 ^ 15) with 32768. destruct Ha as [<-|[<-|[<-|[<-|[]]]]]; cbn [fst snd]; lia. }
  assert (Cv : convex_clockwise (map (scaled q) square)).
  { unfold square. cbn [map convex_clockwise turn_around]. repeat split; intros c Hc; cbn [In] in Hc; repeat destruct Hc as [<-|Hc]; try contradiction; rewrite orient_scaled; apply Z.mul_pos_neg; try nia; reflexivity. }
  destruct (C40_interior_exterior p ts (map (scaled q) square) Hp (proj1 Tri) Sq (proj2 Tri) (scaled_mesh q _ _ (tiles limit s G)) Cv ltac:(cbn; lia)) as (rs & Er & H1 & H0).
  assert (Ed : edges (map (scaled q) square) = [(scaled q (high, low), scaled q (low, low)); (scaled q (low, low), scaled q (low, high)); (scaled q (low, high), scaled q (high, high)); (scaled q (high, high), scaled q (high, low))]) by reflexivity. rewrite Ed in H1, H0.
  assert (Ix : forall g, face s g -> nth_error ts (Z.to_nat g - 6) = Some (scaled_face q s g)).
  { intros g Hg. unfold ts, triangles, all_faces. rewrite !map_map. unfold scaled_face, scaled_tri. unfold face in Hg.
    erewrite (map_nth_error (fun x => let '(a, b, c) := face_triangle s (Z.of_nat x) in (scaled q a, scaled q b, scaled q c)) (Z.to_nat g - 6)) with (d := Z.to_nat g).
    - now rewrite Z2Nat.id by lia.
    - rewrite nth_error_nth' with (d := 0%nat) by (rewrite seq_length; lia). rewrite seq_nth by lia. f_equal. lia. }
  assert (Hit : forall g, face s g -> inside3_of p (scaled_face q s g) = Ok true -> nth_error rs (Z.to_nat g - 6) = Some true) by (intros g Hg Hi; apply (nth_map_ok _ _ _ _ Er _ (Ix g Hg) Hi)).
  split.
  - intros [Hx Hy].
    assert (Strict : forall a b, In (a, b) (edges (map (scaled q) square)) -> orient a b p < 0).
    { rewrite Ed. intros a b Hab. unfold low, high in *. cbn [In] in Hab. destruct Hab as [E'|[E'|[E'|[E'|[]]]]]; injection E' as <- <-; unfold orient, scaled; cbn [fst snd]; nia. }
    rewrite Ed in Strict. specialize (H1 Strict). destruct X as [[_ (a & b & Hab & Hi)]|(f & -> & Hf & Hi)].
    + exfalso. assert (Hs : orient (scaled q a) (scaled q b) p < 0).
      { apply Strict. unfold square, edges in Hab. cbn [last chain In] in Hab. cbn [In]. destruct Hab as [E'|[E'|[E'|[E'|[]]]]]; injection E' as <- <-; auto. }
      assert (Ba : inbox a /\ inbox b). { unfold square, edges, low, high in Hab. cbn [last chain In] in Hab. unfold inbox, lo, hi. change (2 ^ 15) with 32768. destruct Hab as [E'|[E'|[E'|[E'|[]]]]]; injection E' as <- <-; cbn [fst snd]; lia. }
      destruct (Wb a (proj1 Ba)) as [A1 A2]. destruct (Wb b (proj2 Ba)) as [B1 B2]. unfold KM in *. change (2 ^ 30 - 1) with 1073741823 in *.
      assert (Eo : orient (scaled q a) (scaled q b) p = cross_product (vsub (scaled q a) p) (vsub (scaled q b) p)) by (unfold orient, cross_product, vsub; cbn [fst snd]; ring). rewrite Eo in Hs.
      rewrite (C39_sign (vsub (scaled q a) p) (vsub (scaled q b) p)) in Hi; [|unfold int32, vsub; change (2 ^ 31) with 2147483648; cbn [fst snd]; lia..|lia].
      injection Hi as Hi. apply Z.ltb_ge in Hi. lia.
    + exists f. split; [reflexivity|]. split; [assumption|]. split; [assumption|]. intros g Hg Hig. pose proof (Hit f Hf Hi) as Nf. pose proof (Hit g Hg Hig) as Ng. unfold face in Hf, Hg.
      destruct (Nat.lt_trichotomy (Z.to_nat g - 6) (Z.to_nat f - 6)) as [L|[L|L]]; [pose proof (count_two rs _ _ L Ng Nf); lia|lia|pose proof (count_two rs _ _ L Nf Ng); lia].
  - intro Ho. destruct X as [[-> _]|(f & -> & Hf & Hi)]; [reflexivity|exfalso].
    assert (Z0 : count_true rs = 0%nat).
    { apply H0. unfold low, high in *.
      assert (C : fst p < - 32768 * 2 ^ q \/ 32767 * 2 ^ q < fst p \/ snd p < - 32768 * 2 ^ q \/ 32767 * 2 ^ q < snd p) by lia. destruct C as [C|[C|[C|C]]].
      + exists (scaled q (- 32768, - 32768)), (scaled q (- 32768, 32767)). split; [cbn [In]; auto|unfold orient, scaled; cbn [fst snd]; nia].
      + exists (scaled q (32767, 32767)), (scaled q (32767, - 32768)). split; [cbn [In]; auto|unfold orient, scaled; cbn [fst snd]; nia].
      + exists (scaled q (32767, - 32768)), (scaled q (- 32768, - 32768)). split; [cbn [In]; auto|unfold orient, scaled; cbn [fst snd]; nia].
      + exists (scaled q (- 32768, 32767)), (scaled q (32767, 32767)). split; [cbn [In]; auto|unfold orient, scaled; cbn [fst snd]; nia]. }
    pose proof (Hit f Hf Hi) as N. clear - Z0 N. assert (One : forall (l : list bool) j, nth_error l j = Some true -> (1 <= count_true l)%nat).
    { induction l as [|b l IH]; intros [|k] H; cbn in H; try discriminate; unfold count_true in *; cbn [filter].
      - injection H as ->. cbn. lia.
      - specialize (IH k H). destruct b; cbn [length]; lia. }
    specialize (One _ _ N). lia.
Qed.
Print Assumptions C58_unique.

(** The precondition matters: with Q = 16, where the square is as large as the int32_t plane, the difference between a point inside
    it and the square's corner overflows. *)
Theorem C58_overflow_refuted : exists s p, reset 32 blank = Ok s /\ int32p p /\ low * 2 ^ 16 < fst p < high * 2 ^ 16 /\ low * 2 ^ 16 < snd p < high * 2 ^ 16 /\
  locate 32 16 100 s (fst p) (snd p) 0 = UB.
Proof.
  destruct (reset_ok 32 blank ltac:(lia)) as (s & E & _). exists s, (2000000000, 0). split; [assumption|]. split; [unfold int32p; cbn [fst snd]; lia|]. split; [unfold low, high; cbn [fst snd]; lia|]. split; [unfold low, high; cbn [fst snd]; lia|].
  assert (K : (s <- reset 32 blank ;; locate 32 16 100 s 2000000000 0 0) = UB) by (vm_compute; reflexivity). rewrite E in K. exact K.
Qed.
Print Assumptions C58_overflow_refuted.

(** A mesh with a constrained triangle around a vertex; locate finds a face inside the triangle, fill colours its three faces only. *)
Definition demo : list op := [Point (100, 200) 0; Edge (-1000, 0) (1000, 50) 0; Edge (1000, 50) (0, 1000) 24; Edge (0, 1000) (-1000, 0) 9999].
Example C53_to_C58_nonvacuous : exists s s', reachable 32 0 true s /\ size s = 8 /\ map (fun n => co s n) [24; 25; 26] = [0; 0; 1] /\ locate 32 0 100 s 90 200 0 = Ok 43 /\
  fill 32 100 s 43 7 = Ok s' /\ map (fi s') (all_faces s') = [0; 0; 0; 7; 7; 0; 0; 0; 0; 7].
Proof.
  destruct (reset 32 blank) as [r| |] eqn:Er; [|vm_compute in Er; discriminate..].
  assert (K : match (s <- reset 32 blank ;; run 32 0 true 200 s demo) with
    | Ok s => match fill 32 100 s 43 7 with Ok s' => (size s, map (fun n => co s n) [24; 25; 26], locate 32 0 100 s 90 200 0, map (fi s') (all_faces s')) | _ => (0, [], UB, []) end
    | _ => (0, [], UB, []) end = (8, [0; 0; 1], Ok 43, [0; 0; 0; 7; 7; 0; 0; 0; 0; 7])) by (vm_compute; reflexivity).
  rewrite Er in K. cbn [bind] in K. destruct (run 32 0 true 200 r demo) as [s| |] eqn:Es; [|discriminate K..]. destruct (fill 32 100 s 43 7) as [s'| |] eqn:Ef; [|discriminate K..].
  injection K as K1 K2 K2' K2'' K3 K4. exists s, s'. split; [|split; [exact K1|split; [cbn [map]; congruence|split; [exact K3|split; [exact Ef|exact K4]]]]].
  apply (run_reachable 32 0 true 200 demo r s); [now apply (r_reset 32 0 true blank)| |assumption].
  intros t _ o Ho. unfold demo in Ho. cbn [In] in Ho. destruct Ho as [<-|[<-|[<-|[<-|[]]]]]; unfold valid, int32p; cbn [fst snd]; lia.
Qed.
