(** Inserting an edge where the mesh already has it: constrained edges cover the segment, or an edge joins its ends. *)
From Coq Require Import List ZArith Lia.
From Verif Require Import Base Vec_Model Math_Model Vec_Spec Math_Spec Cdt_Model Cdt_Geom Cdt_Mesh Cdt_Flip Cdt_Circle Cdt_Insert Cdt_OnEdge Cdt_Walk Cdt_Edge Cdt_Spec Cdt_Tile Cdt_Reset Cdt_Fill Cdt_EdgeSpec Cdt_Planar Cdt_Steps Cdt_Follow Cdt_Winding.
Local Open Scope Z_scope.

(** ** Points of a segment *)
Lemma scale_sign d e x1 y1 x2 y2 : d <> 0 -> d * y1 = e * x1 -> d * y2 = e * x2 -> x1 * x2 <= 0 -> y1 * y2 <= 0.
Proof.
  intros D E1 E2 H. assert (X : (d * d) * (y1 * y2) = (e * e) * (x1 * x2)) by (transitivity ((d * y1) * (d * y2)); [ring|rewrite E1, E2; ring]).
  assert (0 < d * d) by nia. pose proof (Z.square_nonneg e). assert ((e * e) * (x1 * x2) <= 0) by nia. nia.
Qed.
Lemma scale_orient d e x1 y1 x2 y2 : d <> 0 -> d * y1 = e * x1 -> d * y2 = e * x2 -> x1 * y2 - y1 * x2 = 0.
Proof. intros D E1 E2. assert (X : d * (x1 * y2 - y1 * x2) = 0) by (transitivity (x1 * (d * y2) - (d * y1) * x2); [ring|rewrite E1, E2; ring]). nia. Qed.
Lemma order1 x m d : m * (m - d) <= 0 -> x * (x - d) <= 0 -> (x * (x - m) <= 0 /\ (m - x) * (m - d) <= 0) \/ ((x - m) * (x - d) <= 0 /\ m * (m - x) <= 0).
Proof.
  assert (K : forall y, y * (y - d) <= 0 -> (0 <= y <= d) \/ (d <= y <= 0)) by (intros y; nia). intros H1 H2. apply K in H1, H2. clear K.
  assert (K1 : forall u v, u <= 0 -> 0 <= v -> u * v <= 0) by (intros; nia). assert (K2 : forall u v, 0 <= u -> v <= 0 -> u * v <= 0) by (intros; nia).
  destruct H1, H2; destruct (Z_le_gt_dec x m); solve [left; split; [apply K1; lia|apply K2; lia]|left; split; [apply K2; lia|apply K1; lia]|left; split; [apply K2; lia|apply K2; lia]|left; split; [apply K1; lia|apply K1; lia]|
    right; split; [apply K1; lia|apply K2; lia]|right; split; [apply K2; lia|apply K1; lia]|right; split; [apply K2; lia|apply K2; lia]|right; split; [apply K1; lia|apply K1; lia]].
Qed.
Lemma order2 d e x y m n : d <> 0 -> d * n = e * m -> d * y = e * x -> m * (m - d) <= 0 -> x * (x - d) <= 0 ->
  (x * (x - m) <= 0 /\ y * (y - n) <= 0 /\ (m - x) * (m - d) <= 0 /\ (n - y) * (n - e) <= 0) \/
  ((x - m) * (x - d) <= 0 /\ (y - n) * (y - e) <= 0 /\ m * (m - x) <= 0 /\ n * (n - y) <= 0).
Proof.
  intros D E1 E2 H1 H2. destruct (order1 x m d H1 H2) as [[A B]|[A B]]; [left|right]; (split; [exact A|]; split; [|split; [exact B|]]).
  - apply (scale_sign d e x y (x - m) (y - n)); [assumption|assumption|lia|assumption].
  - apply (scale_sign d e (m - x) (n - y) (m - d) (n - e)); [assumption|lia|lia|assumption].
  - apply (scale_sign d e (x - m) (y - n) (x - d) (y - e)); [assumption|lia|lia|assumption].
  - apply (scale_sign d e m n (m - x) (n - y)); [assumption|assumption|lia|assumption].
Qed.
Lemma on_order m v a b : on_segment m a b -> on_segment v a b -> (on_segment v a m /\ on_segment m v b) \/ (on_segment v m b /\ on_segment m a v).
Proof.
  destruct a as [ax ay], b as [bx bz], m as [mx my], v as [vx vy]. unfold on_segment, orient. cbn [fst snd]. intros (M1 & M2 & M3) (V1 & V2 & V3).
  assert (Ex : exists dx dy x y m n, bx = ax + dx /\ bz = ay + dy /\ vx = ax + x /\ vy = ay + y /\ mx = ax + m /\ my = ay + n) by (exists (bx - ax), (bz - ay), (vx - ax), (vy - ay), (mx - ax), (my - ay); lia).
  destruct Ex as (d & e & x & y & m & n & -> & -> & -> & -> & -> & ->).
  assert (M1' : d * n = e * m) by lia. assert (V1' : d * y = e * x) by lia. assert (M2' : m * (m - d) <= 0) by lia. assert (M3' : n * (n - e) <= 0) by lia. assert (V2' : x * (x - d) <= 0) by lia. assert (V3' : y * (y - e) <= 0) by lia.
  clear M1 M2 M3 V1 V2 V3.
  assert (G : (x * (x - m) <= 0 /\ y * (y - n) <= 0 /\ (m - x) * (m - d) <= 0 /\ (n - y) * (n - e) <= 0) \/ ((x - m) * (x - d) <= 0 /\ (y - n) * (y - e) <= 0 /\ m * (m - x) <= 0 /\ n * (n - y) <= 0)).
  { destruct (Z.eq_dec d 0) as [Ed|Nd]; [destruct (Z.eq_dec e 0) as [Ee|Ne]|].
    - left. assert (m = 0) by nia. assert (n = 0) by nia. assert (x = 0) by nia. assert (y = 0) by nia. subst. lia.
    - pose proof (order2 e d y x n m Ne (eq_sym M1') (eq_sym V1') M3' V3') as K. tauto.
    - exact (order2 d e x y m n Nd M1' V1' M2' V2'). }
  assert (O : d <> 0 \/ e <> 0 \/ (d = 0 /\ e = 0)) by lia.
  assert (C : m * y - n * x = 0 /\ (d - x) * (n - y) - (e - y) * (m - x) = 0 /\ (d - m) * (y - n) - (e - n) * (x - m) = 0).
  { destruct O as [Nd|[Ne|[-> ->]]].
    - split; [|split]; [apply (scale_orient d e); [assumption|lia|lia]|apply (scale_orient d e (d - x) (e - y) (m - x) (n - y)); [assumption|lia|lia]|apply (scale_orient d e (d - m) (e - n) (x - m) (y - n)); [assumption|lia|lia]].
    - pose proof (scale_orient e d n m y x Ne (eq_sym M1') (eq_sym V1')). pose proof (scale_orient e d (e - y) (d - x) (n - y) (m - x) Ne ltac:(lia) ltac:(lia)). pose proof (scale_orient e d (e - n) (d - m) (y - n) (x - m) Ne ltac:(lia) ltac:(lia)). lia.
    - assert (m = 0) by nia. assert (n = 0) by nia. assert (x = 0) by nia. assert (y = 0) by nia. subst. lia. }
  destruct C as (C1 & C2 & C3). destruct G as [(G1 & G2 & G3 & G4)|(G1 & G2 & G3 & G4)]; [left|right]; (split; [split; [|split]|split; [|split]]); lia.
Qed.

Section Existing.
  Context (limit : Z) (wrap : bool).

  (** An edge of the mesh joins a and b. *)
  Definition joins (s : mesh) (a b : point) : Prop :=
    exists n, node s n /\ ((P s (nxt n) = a /\ P s (prv n) = b) \/ (P s (nxt n) = b /\ P s (prv n) = a)).
  Lemma joins_apart s a b : good limit s -> joins s a b -> a <> b.
  Proof. intros G (n & Hn & H) E. pose proof (g_cw _ _ G n Hn) as C. assert (X : P s (nxt n) = P s (prv n)) by (destruct H as [[-> ->]|[-> ->]]; congruence). rewrite X in C. unfold orient in C. lia. Qed.
  Lemma constrained_joins s a b : constrained s a b -> joins s a b.
  Proof. intro H. apply Cdt_Steps.constrained_node in H. destruct H as (n & Hn & _ & H). exists n. auto. Qed.

  (** ** A vertex on an edge is an end of it *)
  Lemma end_of_edge s n v : sound limit s -> node s n -> has s v -> on_segment v (P s (nxt n)) (P s (prv n)) -> v = P s (nxt n) \/ v = P s (prv n).
  Proof.
    intros (G & U & _) Hn (w & Hw & E) S. destruct (U w Hw) as (m & Hm & <-). fold (P s m) in E. subst v. pose proof (g_cw _ _ G n Hn) as C.
    assert (Z0 : orient (P s m) (P s (nxt n)) (P s (prv n)) = 0) by (destruct S as [S _]; rewrite <- S; unfold orient; ring).
    assert (Cl : closed_face s (P s m) n).
    { destruct (seg_weights _ _ _ S) as (r & t & R & T & RT & E1 & E2). unfold closed_face. split; [|split; [lia|]].
      - assert (X : (r + t) * orient (P s m) (P s n) (P s (nxt n)) = t * orient (P s n) (P s (nxt n)) (P s (prv n))).
        { unfold orient. revert E1 E2. generalize (P s m) (P s n) (P s (nxt n)) (P s (prv n)). intros [mx my] [nx ny] [ax ay] [bx bz]. cbn [fst snd]. clear. intros E1 E2.
          assert (Ex : (r + t) * mx = r * ax + t * bx) by lia. assert (Ey : (r + t) * my = r * ay + t * bz) by lia.
          transitivity ((ax - nx) * ((r + t) * my - (r + t) * ny) - (ay - ny) * ((r + t) * mx - (r + t) * nx)); [ring|]. rewrite Ex, Ey. ring. }
        clear - X C R T RT. nia.
      - assert (X : (r + t) * orient (P s m) (P s (prv n)) (P s n) = r * orient (P s n) (P s (nxt n)) (P s (prv n))).
        { unfold orient. revert E1 E2. generalize (P s m) (P s n) (P s (nxt n)) (P s (prv n)). intros [mx my] [nx ny] [ax ay] [bx bz]. cbn [fst snd]. clear. intros E1 E2.
          assert (Ex : (r + t) * mx = r * ax + t * bx) by lia. assert (Ey : (r + t) * my = r * ay + t * bz) by lia.
          transitivity ((nx - bx) * ((r + t) * my - (r + t) * bz) - (ny - bz) * ((r + t) * mx - (r + t) * bx)); [ring|]. rewrite Ex, Ey. ring. }
        clear - X C R T RT. nia. }
    destruct (vertex_in_face limit s n m G Hn Hm Cl) as [K|[K|K]]; [|auto|auto]. rewrite K in Z0. lia.
  Qed.
  Lemma end_of_join s a b v : sound limit s -> joins s a b -> has s v -> on_segment v a b -> v = a \/ v = b.
  Proof.
    intros S (n & Hn & [[<- <-]|[<- <-]]) Hv O; [now apply end_of_edge|]. apply on_segment_sym in O. destruct (end_of_edge s n v S Hn Hv O); auto.
  Qed.

  (** A covered segment can be split at a vertex. *)
  Lemma covered_split s a b v : sound limit s -> has s v -> covered s a b -> on_segment v a b -> covered s a v /\ covered s v b.
  Proof.
    intros S Hv H. induction H as [p Hp|a b H|a m b H H1 IH1 H2 IH2]; intro O.
    - assert (v = p) as ->. { destruct O as (_ & X & Y). destruct v as [x y], p as [x' y']. cbn [fst snd] in *. assert (x = x') by nia. assert (y = y') by nia. congruence. }
      split; now apply cov_vertex.
    - destruct (end_of_join s a b v S (constrained_joins s a b H) Hv O) as [-> | ->]; (split; [|]); first [now apply cov_edge|now apply cov_vertex].
    - destruct (on_order m v a b H O) as [[O1 O2]|[O1 O2]].
      + destruct (IH1 O1) as [K1 K2]. split; [assumption|]. now apply (cov_join s v m b).
      + destruct (IH2 O1) as [K1 K2]. split; [|assumption]. now apply (cov_join s a m v).
  Qed.

  (** ** There is at most one edge between two points *)
  Lemma same_edge s n m : good limit s -> node s n -> node s m ->
    (P s (nxt m) = P s (nxt n) /\ P s (prv m) = P s (prv n)) \/ (P s (nxt m) = P s (prv n) /\ P s (prv m) = P s (nxt n)) -> co s m = co s n.
  Proof.
    intros G Hn Hm E. assert (C := g_cw _ _ G n Hn). assert (Cm := g_cw _ _ G m Hm).
    destruct (Z.eq_dec (tw s n) 0) as [Ez|Hz]; [destruct (Z.eq_dec (tw s m) 0) as [Ey|Hy]|].
    - assert (Bn : co s n = 1) by (destruct (g_co _ _ G n Hn) as [K|K]; [exfalso; now apply (co_open limit s G n Hn K)|assumption]).
      assert (Bm : co s m = 1) by (destruct (g_co _ _ G m Hm) as [K|K]; [exfalso; now apply (co_open limit s G m Hm K)|assumption]). congruence.
    - exfalso. assert (Hw := tw_node limit s G m Hm Hy). assert (Cw := g_cw _ _ G _ Hw).
      pose proof (ea_tw limit s G m Hm Hy) as E1. pose proof (eb_tw limit s G m Hm Hy) as E2. unfold ea, eb in E1, E2.
      assert (Q1 : P s (nxt (tw s m)) = P s (prv m)) by (unfold P; now rewrite E1). assert (Q2 : P s (prv (tw s m)) = P s (nxt m)) by (unfold P; now rewrite E2). rewrite Q1, Q2 in Cw.
      pose proof (boundary_side limit s n (P s m) G Hn Ez (fn_box limit s _ G (or_introl Hm))) as B1. pose proof (boundary_side limit s n (P s (tw s m)) G Hn Ez (fn_box limit s _ G (or_introl Hw))) as B2.
      destruct E as [[E3 E4]|[E3 E4]]; rewrite E3, E4 in *; unfold orient in *; lia.
    - destruct (Z.eq_dec m n) as [->|N1]; [reflexivity|]. destruct (Z.eq_dec m (tw s n)) as [->|N2]; [now apply (co_tw limit s G)|]. exfalso.
      pose proof (tw_node limit s G n Hn Hz) as Hw. assert (Cw := g_cw _ _ G _ Hw). pose proof (ea_tw limit s G n Hn Hz) as E1. pose proof (eb_tw limit s G n Hn Hz) as E2. unfold ea, eb in E1, E2.
      assert (Q1 : P s (nxt (tw s n)) = P s (prv n)) by (unfold P; now rewrite E1). assert (Q2 : P s (prv (tw s n)) = P s (nxt n)) by (unfold P; now rewrite E2). rewrite Q1, Q2 in Cw.
      apply (edge_no_edge limit s 2 (mean 1 1 (P s (nxt n)) (P s (prv n))) n m 1 1); try assumption; try lia.
      + unfold around_edge. change 2 with (1 + 1). rewrite !line_mean. unfold orient in *. split; [|split; [|split]]; lia.
      + destruct E as [[-> ->]|[-> ->]]; [reflexivity|]. unfold mean. f_equal; lia.
  Qed.

  Lemma covered_edge s n : sound limit s -> node s n -> forall a b, covered s a b -> (P s (nxt n) = a /\ P s (prv n) = b) \/ (P s (nxt n) = b /\ P s (prv n) = a) -> co s n = 1.
  Proof.
    intros S Hn a b H. assert (G : good limit s) by apply S. induction H as [p Hp|a b H|a m b H H1 IH1 H2 IH2]; intro E.
    - exfalso. apply (joins_apart s p p G); [exists n; auto|reflexivity].
    - apply Cdt_Steps.constrained_node in H. destruct H as (k & Hk & Hc & H). rewrite <- (same_edge s n k G Hn Hk); [assumption|]. destruct H as [[-> ->]|[-> ->]], E as [[-> ->]|[-> ->]]; auto.
    - assert (J : joins s a b) by (exists n; auto). pose proof (proj2 (covered_ends limit s a m G H1)) as Hv.
      destruct (end_of_join s a b m S J Hv H) as [-> | ->]; [now apply IH2|now apply IH1].
  Qed.
  Lemma covered_joins s a b : sound limit s -> covered s a b -> joins s a b -> constrained s a b.
  Proof. intros S C (n & Hn & E). apply Cdt_Steps.constrained_node. exists n. split; [assumption|]. split; [now apply (covered_edge s n S Hn a b)|assumption]. Qed.

  (** ** No edge starts into a face *)
  Lemma inside_none s m k z : good limit s -> node s m -> 0 < k -> strict s k z m ->
    ~ exists n c r t, node s n /\ 0 < c /\ 0 <= r /\ 0 <= t /\ r + t = c * k /\ big c z = mean r t (P s (nxt n)) (P s (prv n)).
  Proof.
    intros G Hm Hk S (n & c & r & t & Hn & Hc & Hr & Ht & E & Ez). apply (face_no_edge limit s (c * k) (big c z) m n r t); try assumption; [nia|].
    assert (X : forall a b, line (c * k) a b (big c z) = c * line k a b z) by (intros; unfold line, big; cbn [fst snd]; ring).
    destruct S as (S1 & S2 & S3). unfold strict. rewrite !X. split; [|split]; nia.
  Qed.

  Lemma no_crossing s m q : sound limit s -> node s m -> inbox q -> P s m <> q -> covered s (P s m) q \/ joins s (P s m) q ->
    orient (P s m) (P s (nxt m)) q < 0 -> orient (P s m) (P s (prv m)) q <= 0.
  Proof.
    intros S Hm Hq Ne H La. apply Z.nlt_ge. intro Lb. assert (G : good limit s) by apply S. pose proof (g_cw _ _ G m Hm) as C.
    pose (z := mean (bigk - 1) 1 (P s m) q). assert (Hk : 0 < bigk) by reflexivity.
    assert (St : strict s bigk z m).
    { unfold z, strict. pose proof (fun a b => line_mean a b (bigk - 1) 1 (P s m) q) as L. replace (bigk - 1 + 1) with bigk in L by lia. rewrite !L.
      pose proof (orient_small (P s (nxt m)) (P s (prv m)) q (fn_box limit s _ G (or_introl (nxt_node s m Hm))) (fn_box limit s _ G (or_introl (prv_node s m Hm))) Hq) as B.
      set (A := P s (nxt m)) in *. set (B' := P s (prv m)) in *. set (p := P s m) in *. clearbody A B' p.
      assert (O1 : orient p A p = 0) by (unfold orient; ring). assert (O2 : orient B' p p = 0) by (unfold orient; ring). assert (O3 : orient B' p q = - orient p B' q) by (unfold orient; ring).
      assert (O4 : orient A B' p = orient p A B') by (unfold orient; ring). rewrite O1, O2, O3, O4. unfold bigk. split; [lia|]. split; [lia|lia]. }
    apply (inside_none s m bigk z G Hm Hk St). destruct H as [H|(n & Hn & H)].
    - destruct (covered_meets s (P s m) q bigk z z H Ne) as (n & Hn & _ & c & d & r & t & Hc & Hd & Hr & Ht & HS & ES & Ex & Ey).
      { exists bigk, 0, (bigk - 1), 1. unfold z, mean, big. cbn [fst snd]. generalize (P s m) q. intros [px py] [qx qy]. cbn [fst snd]. unfold bigk. repeat split; try lia. }
      exists n, (c + d), (r * bigk), (t * bigk). split; [assumption|]. split; [assumption|]. split; [nia|]. split; [nia|]. split; [rewrite ES; ring|].
      unfold big, mean in *. cbn [fst snd] in *. f_equal; lia.
    - destruct H as [[E1 E2]|[E1 E2]]; [exists n, 1, (bigk - 1), 1|exists n, 1, 1, (bigk - 1)]; unfold z; rewrite E1, E2; (split; [assumption|]); unfold big, mean; cbn [fst snd]; (split; [lia|]); unfold bigk; (split; [lia|]); (split; [lia|]); (split; [lia|]); f_equal; lia.
  Qed.

  (** ** Flips and marks *)
  Definition still (s t : mesh) : Prop := size t = size s /\ forall v, V t v = V s v.
  Lemma still_refl s : still s s.
  Proof. split; auto. Qed.
  Lemma still_trans s t u : still s t -> still t u -> still s u.
  Proof. intros [A1 A2] [B1 B2]. split; [congruence|]. intro v. now rewrite B2. Qed.

  Lemma flip_constrained s n a b : good limit s -> node s n -> co s n = 0 -> constrained (flipped s n) a b -> constrained s a b.
  Proof.
    intros G Hn Hc H. pose proof (co_open limit s G n Hn Hc) as Hz. destruct (flip_relabel limit s n G Hn Hz) as (R1 & R2 & _).
    apply Cdt_Steps.constrained_node in H. destruct H as (m & Hm & Cm & H). destruct (R2 m Hm) as [N|(k & Hk & Dk & <-)].
    - exfalso. revert Cm. unfold flipped. cbn [co]. unfold put. destruct N as [-> | ->]; [rewrite Z.eqb_refl; discriminate|].
      destruct (prv (tw s n) =? prv n); [discriminate|]. destruct (prv (tw s n) =? tw s n) eqn:E; [|rewrite Z.eqb_refl; discriminate].
      exfalso. apply Z.eqb_eq in E. pose proof (tw_node limit s G n Hn Hz) as Hw. pose proof (g_cw _ _ G _ Hw) as C. rewrite E in C. unfold orient in C. lia.
    - destruct (R1 k Hk Dk) as (_ & _ & J3 & J4 & J5 & _). unfold ea, eb in J4, J5. apply Cdt_Steps.constrained_node. exists k. split; [assumption|]. split; [congruence|].
      assert (Q : P (flipped s n) (nxt (fphi s n k)) = P s (nxt k) /\ P (flipped s n) (prv (fphi s n k)) = P s (prv k)) by (unfold P; rewrite J4, J5; split; reflexivity).
      destruct Q as [Q1 Q2]. rewrite Q1, Q2 in H. exact H.
  Qed.
  Lemma flips_constrained s t : flips s t -> good limit s -> still s t /\ forall a b, constrained t a b <-> constrained s a b.
  Proof.
    induction 1 as [s|s n t Hi F IH]; intro G; [split; [apply still_refl|tauto]|]. pose proof (improve_step limit s n G Hi) as St. destruct (IH (step_good limit s _ G St)) as [I1 I2].
    split; [apply (still_trans s (flipped s n)); [split; reflexivity|assumption]|]. intros a b. rewrite I2. destruct Hi as (Hn & Hc & _). split; [now apply flip_constrained|].
    intro H. apply Cdt_Steps.constrained_node in H. destruct H as (m & Hm & Cm & H). pose proof (co_open limit s G n Hn Hc) as Hz.
    assert (K : constrained (flipped s n) (P s (nxt m)) (P s (prv m))).
    { apply (relabel_constrained limit _ _ _ _ _ m G (step_extends limit s _ G St) (flip_relabel limit s n G Hn Hz)); [assumption| |assumption].
      intros [-> | ->]; [congruence|]. rewrite (co_tw limit s G n Hn Hz) in Cm. congruence. }
    destruct H as [[<- <-]|[<- <-]]; [assumption|now apply constrained_sym].
  Qed.
  Definition ends_are (p q a b : point) : Prop := (a = p /\ b = q) \/ (a = q /\ b = p).
  Lemma mark_constrained s n a b : good limit s -> node s n -> constrained (marked s n) a b <-> constrained s a b \/ ends_are (P s (nxt n)) (P s (prv n)) a b.
  Proof.
    intros G Hn. rewrite !Cdt_Steps.constrained_node. split.
    - intros (m & Hm & Cm & H). change (P (marked s n)) with (P s) in H. change (node s m) in Hm. unfold marked in Cm. cbn [co] in Cm. unfold put in Cm.
      destruct (Z.eqb_spec m n) as [->|N1]; [right; unfold ends_are; destruct H as [[-> ->]|[-> ->]]; auto|].
      destruct (Z.eqb_spec m (tw s n)) as [Em|N2]; [|left; exists m; auto]. right. assert (Hz : tw s n <> 0) by (intro K; rewrite K in Em; subst m; destruct Hm; lia).
      pose proof (ea_tw limit s G n Hn Hz) as E1. pose proof (eb_tw limit s G n Hn Hz) as E2. unfold ea, eb in E1, E2. rewrite <- Em in *.
      assert (Q1 : P s (nxt m) = P s (prv n)) by (unfold P; now rewrite E1). assert (Q2 : P s (prv m) = P s (nxt n)) by (unfold P; now rewrite E2). rewrite Q1, Q2 in H. unfold ends_are. destruct H as [[-> ->]|[-> ->]]; auto.
    - intros [(m & Hm & Cm & H)|H].
      + exists m. split; [exact Hm|]. split; [|exact H]. unfold marked. cbn [co]. unfold put. destruct (m =? n); [reflexivity|]. destruct (m =? tw s n); [reflexivity|assumption].
      + exists n. split; [exact Hn|]. split; [unfold marked; cbn [co]; apply put_eq|]. change (P (marked s n)) with (P s). unfold ends_are in H. destruct H as [[-> ->]|[-> ->]]; auto.
  Qed.

  (** ** The loop *)
  Definition again_result (s : mesh) (p q : point) (r : res (mesh * bool)) : Prop :=
    match r with
    | Ok (s', b) => b = true /\ still s s' /\ forall a b, constrained s' a b <-> constrained s a b \/ (joins s p q /\ ends_are p q a b)
    | _ => True
    end.
  Lemma again_same s p : good limit s -> again_result s p p (Ok (s, true)).
  Proof. intros G. split; [reflexivity|]. split; [apply still_refl|]. intros a b. split; [auto|]. intros [H|[J _]]; [assumption|]. exfalso. now apply (joins_apart s p p G J). Qed.

  Lemma again_loop fuel : forall s p q pn, sound limit s -> has s p -> has s q -> pn = 0 \/ (node s pn /\ is_corner s p pn) -> covered s p q \/ joins s p q ->
    again_result s p q (edge_loop limit wrap fuel s (fst p) (snd p) (fst q) (snd q) pn).
  Proof.
    induction fuel as [|fuel IHl]; [intros; exact I|].
    intros s p q pn S Hp Hq Hpn Hcov. assert (G : good limit s) by apply S.
    assert (Hbp : inbox p) by (destruct Hp as (v & Hv & <-); now apply (g_box _ _ G)). assert (Hbq : inbox q) by (destruct Hq as (v & Hv & <-); now apply (g_box _ _ G)).
    assert (Dec : p = q \/ p <> q). { destruct p as [x y], q as [x' y']. destruct (Z.eq_dec x x') as [->|N]; [|right; congruence]. destruct (Z.eq_dec y y') as [->|N]; [now left|right; congruence]. }
    destruct Hpn as [-> |[Hpn Hc]].
    { destruct Dec as [<-|Ne]; [|rewrite (nil_loop limit wrap (Datatypes.S fuel) s p q G Hbp Hbq Ne); exact I].
      cbn [edge_loop]. fold (insert_edge64 limit wrap) (edge_loop limit wrap). cbv zeta. rewrite !Z.sub_diag.
      change (0 / 4 * 4) with 0. pose proof (inbox_near _ Hbp) as Np. rewrite !(rel_ok limit s p) by (assumption || (right; unfold nil_node; lia)). cbn [bind]. rewrite !chk64_ok by (apply in_s64; lia). cbn [bind].
      change (is_zero (0, 0)) with true. cbn beta iota. now apply again_same. }
    cbn [edge_loop]. fold (insert_edge64 limit wrap) (edge_loop limit wrap). cbv zeta.
    destruct (base_of s pn Hpn) as (Hn & Mn & Fn). set (n := pn / 4 * 4) in *. clearbody n.
    apply (is_corner_face s p n pn (node_mod s n Hn) (node_mod s pn Hpn) Fn) in Hc.
    destruct (offs n Mn) as (O1 & O2 & O3 & O4 & O5 & O6 & _). pose proof (nxt_node s n Hn) as Hn1. rewrite O1 in Hn1. pose proof (prv_node s n Hn) as Hn2. rewrite O2 in Hn2.
    pose proof (inbox_near _ Hbp) as Np. rewrite !(rel_ok limit s p) by (assumption || now left). cbn [bind].
    assert (Hqv : vec17 (fst q - fst p, snd q - snd p)). { destruct Hbp as [P1 P2], Hbq as [Q1 Q2]. unfold lo, hi in *. change (2 ^ 15) with 32768 in *. unfold vec17. cbn [fst snd]. lia. }
    rewrite !chk64_ok by (apply in_s64; unfold vec17 in Hqv; cbn [fst snd] in Hqv; lia). cbn [bind].
    destruct (is_zero (fst q - fst p, snd q - snd p)) eqn:Ez.
    { apply is_zero_eq in Ez. injection Ez as E1 E2. assert (p = q) as <- by (destruct p, q; cbn [fst snd] in *; f_equal; lia). now apply again_same. }
    destruct Dec as [<-|Ne]; [exfalso; rewrite !Z.sub_diag in Ez; discriminate|]. clear Ez.
    pose (a := (if is_zero (rv s p n) then (0, rv s p (n + 1), rv s p (n + 2)) else if is_zero (rv s p (n + 1)) then (1, rv s p (n + 2), rv s p n) else (2, rv s p n, rv s p (n + 1))) : Z * (Z * Z) * (Z * Z)).
    assert (Sel : exists k k1 k2, a = (k, rv s p (n + k1), rv s p (n + k2)) /\ (if k =? 0 then 1 else if k =? 1 then 2 else 0) = k1 /\ (if k =? 0 then 2 else if k =? 1 then 0 else 1) = k2 /\
      node s (n + k) /\ P s (n + k) = p /\ n + k1 = nxt (n + k) /\ n + k2 = prv (n + k)).
    { unfold a. destruct (is_zero (rv s p n)) eqn:Z0; [|destruct (is_zero (rv s p (n + 1))) eqn:Z1].
      - exists 0, 1, 2. rewrite Z.add_0_r. apply is_zero_eq, rv_zero in Z0. auto 10.
      - exists 1, 2, 0. rewrite Z.add_0_r. apply is_zero_eq, rv_zero in Z1. auto 10.
      - exists 2, 0, 1. rewrite Z.add_0_r. do 4 (split; [first [reflexivity|assumption]|]). split; [|auto]. unfold is_corner in Hc. rewrite O1, O2 in Hc. destruct Hc as [K|[K|K]]; [| |now symmetry].
        + exfalso. symmetry in K. apply (rv_zero s p n), is_zero_eq in K. congruence.
        + exfalso. symmetry in K. apply (rv_zero s p (n + 1)), is_zero_eq in K. congruence. }
    fold a. destruct Sel as (k & k1 & k2 & -> & Ek1 & Ek2 & Nm & Pm & Em1 & Em2). rewrite Ek1, Ek2, Em1, Em2. clear Ek1 Ek2 Em1 Em2.
    set (m := n + k) in *. clearbody m. clear O1 O2 O3 O4 O5 O6 Hn1 Hn2 Hc Fn Mn Hn n k k1 k2.
    pose proof (nxt_node s m Nm) as Nm1. pose proof (prv_node s m Nm) as Nm2. pose proof (node_mod s m Nm) as Mm.
    pose proof (rv_vec limit s p _ G Hbp (or_introl Nm1)) as V1. pose proof (rv_vec limit s p _ G Hbp (or_introl Nm2)) as V2.
    destruct (cross_ok _ _ V1 Hqv) as [-> _]. cbn [bind]. destruct (cross_ok _ _ V2 Hqv) as [-> _]. cbn [bind].
    assert (E1 : fst (rv s p (nxt m)) * snd (fst q - fst p, snd q - snd p) - snd (rv s p (nxt m)) * fst (fst q - fst p, snd q - snd p) = orient p (P s (nxt m)) q) by (unfold rv, orient; cbn [fst snd]; ring).
    assert (E2 : fst (rv s p (prv m)) * snd (fst q - fst p, snd q - snd p) - snd (rv s p (prv m)) * fst (fst q - fst p, snd q - snd p) = orient p (P s (prv m)) q) by (unfold rv, orient; cbn [fst snd]; ring).
    rewrite E1, E2.
    destruct (Z.ltb_spec (orient p (P s (nxt m)) q) 0) as [La|La]; destruct (Z.geb_spec (orient p (P s (prv m)) q) 0) as [Lb|Lb]; cbn [andb].
    2, 3, 4: rewrite (proj1 (fn_e limit s _ G (or_introl Nm2))); cbn [bind]; apply IHl; [assumption..| |assumption];
      destruct (Z.eq_dec (tw s (prv m)) 0) as [Ez|Hz]; [now left|right]; split; [now apply (tw_node limit s G)|]; unfold is_corner; right; right;
      pose proof (eb_tw limit s G _ Nm2 Hz) as Eb; unfold ea, eb in Eb; rewrite (nxt_prv m Mm) in Eb; unfold P; rewrite Eb; now symmetry.
    assert (Nq : q <> P s m) by congruence.
    assert (Lz : orient p (P s (prv m)) q = 0).
    { pose proof (no_crossing s m q S Nm Hbq) as K. rewrite Pm in K. specialize (K Ne Hcov La). lia. }
    rewrite Lz, Z.eqb_refl.
    assert (Sg : on_segment (P s (prv m)) p q) by (rewrite <- Pm in La, Lz |- *; now apply (along limit)).
    assert (Hv : has s (P s (prv m))) by (exists (pt s (prv m)); split; [now apply (g_pt _ _ G)|reflexivity]).
    pose proof (constrain_ok limit wrap fuel s (nxt m) G Nm1) as X. destruct (constrain_edge limit wrap fuel s (nxt m)) as [s1| |]; cbn [bind]; [|exact I|exact I]. destruct X as [G1 F].
    assert (S01 : steps limit s s1). { eapply steps_cons; [apply (st_mark limit s (nxt m)); assumption|]. apply flips_steps; [assumption|now apply marked_good]. }
    pose proof (steps_sound limit _ _ S01 S) as S1. pose proof (steps_extends limit _ _ S01 G) as Ex.
    assert (N1 : node s1 (nxt m)) by (destruct Nm1 as [Nka Nkb]; split; [destruct Ex; lia|assumption]).
    rewrite (proj1 (fn_e limit s1 _ G1 (or_introl N1))). cbn [bind].
    assert (Hx : fst p + fst (rv s p (prv m)) = fst (P s (prv m)) /\ snd p + snd (rv s p (prv m)) = snd (P s (prv m))) by (unfold rv; cbn [fst snd]; lia).
    destruct Hx as [-> ->]. pose proof (fn_box limit s _ G (or_introl Nm2)) as Hb. rewrite !chk64_ok by (apply in_s64; destruct Hb as [Hb1 Hb2]; unfold lo, hi in *; change (2 ^ 15) with 32768 in *; lia). cbn [bind].
    assert (Hh : has s1 (P s (prv m))) by (now apply (has_extends s s1 _ Ex)).
    pose proof (at_corner limit fuel s1 (P s (prv m)) (tw s1 (nxt m)) S1 Hh) as Z.
    destruct (locate_insertion_node limit fuel s1 (fst (P s (prv m))) (snd (P s (prv m))) (tw s1 (nxt m))) as [n3| |]; cbn [bind]; [|exact I|exact I].
    set (B := P s (prv m)) in *.
    assert (JB : joins s p B) by (exists (nxt m); rewrite (nxt_nxt m Mm), (prv_nxt m Mm); split; [assumption|right; rewrite Pm; split; reflexivity]).
    assert (Kj : joins s p q -> B = q). { intro J. destruct (end_of_join s p q B S J Hv Sg) as [K|K]; [|assumption]. exfalso. now apply (joins_apart s p B G JB). }
    assert (Kc : covered s p q -> constrained s p B /\ covered s B q).
    { intro C. destruct (covered_split s p q B S Hv C Sg) as [C1 C2]. split; [|assumption]. now apply covered_joins. }
    assert (C1 : covered s1 B q).
    { destruct Hcov as [C|J]; [apply (steps_covered limit s s1 B q S01 G); now apply Kc|]. rewrite (Kj J). apply cov_vertex. apply (has_extends s s1 q Ex Hq). }
    pose proof (IHl s1 B q n3 S1 Hh (has_extends s s1 q Ex Hq) (or_intror Z) (or_introl C1)) as Y.
    destruct (edge_loop limit wrap fuel s1 (fst B) (snd B) (fst q) (snd q) n3) as [[s2 b]| |]; [|exact I|exact I].
    destruct Y as (-> & St & Y). split; [reflexivity|]. destruct (flips_constrained _ _ F (marked_good limit s (nxt m) G Nm1)) as [St1 Y1].
    split; [apply (still_trans s s1); [apply (still_trans s (marked s (nxt m))); [split; reflexivity|assumption]|assumption]|].
    intros x y. rewrite Y. assert (Col : constrained s1 x y \/ (joins s1 B q /\ ends_are B q x y) <-> constrained s1 x y).
    { split; [|auto]. intros [H|[J H]]; [assumption|]. pose proof (covered_joins s1 B q S1 C1 J) as K. destruct H as [[-> ->]|[-> ->]]; [assumption|now apply constrained_sym]. }
    rewrite Col, Y1, (mark_constrained s (nxt m) x y G Nm1), (nxt_nxt m Mm), (prv_nxt m Mm), Pm. fold B. split.
    - intros [H|H]; [now left|]. destruct Hcov as [C|J].
      + left. destruct (Kc C) as [K _]. destruct H as [[-> ->]|[-> ->]]; [now apply constrained_sym|assumption].
      + right. split; [assumption|]. rewrite <- (Kj J). unfold ends_are in *. tauto.
    - intros [H|[J H]]; [now left|right]. rewrite <- (Kj J) in H. unfold ends_are in *. tauto.
  Qed.

  Lemma insert_there fuel s p h : sound limit s -> has s p -> forall n s' r, locate_insertion_node limit fuel s (fst p) (snd p) h = Ok n -> insert_point_at_node limit wrap fuel s (fst p) (snd p) n = Ok (s', r) -> s' = s /\ r <> 0.
  Proof.
    intros S Hp n s' r E1 E2. assert (G : good limit s) by apply S. assert (Hbp : inbox p) by (destruct Hp as (v & Hv & <-); now apply (g_box _ _ G)).
    pose proof (insert_any limit wrap fuel s p h S (inbox_near _ Hbp)) as X. rewrite E1, E2 in X. destruct X as [[X _]|(_ & _ & X)]; [|contradiction].
    destruct X as [(-> & Hr & _)|[(_ & _ & X & _)|(_ & X & _)]]; [auto|contradiction|contradiction].
  Qed.
  Lemma again_edge fuel s p q h : sound limit s -> covered s p q \/ joins s p q -> again_result s p q (insert_edge64 limit wrap fuel s (fst p) (snd p) (fst q) (snd q) h).
  Proof.
    intros S H. assert (G : good limit s) by apply S.
    assert (Hpq : has s p /\ has s q).
    { destruct H as [H|(n & Hn & H)]; [exact (covered_ends limit s p q G H)|].
      assert (K : has s (P s (nxt n)) /\ has s (P s (prv n))) by (split; [exists (pt s (nxt n))|exists (pt s (prv n))]; (split; [apply (g_pt _ _ G); first [now apply nxt_node|now apply prv_node]|reflexivity])).
      destruct H as [[<- <-]|[<- <-]]; tauto. }
    destruct Hpq as [Hp Hq]. destruct fuel as [|fuel]; [exact I|]. cbn [insert_edge64]. fold (insert_edge64 limit wrap) (edge_loop limit wrap).
    pose proof (insert_there fuel s p h S Hp) as X. destruct (locate_insertion_node limit fuel s (fst p) (snd p) h) as [n| |]; cbn [bind]; [|exact I|exact I].
    destruct (insert_point_at_node limit wrap fuel s (fst p) (snd p) n) as [[s1 pn]| |] eqn:Ei; cbn [bind]; [|exact I|exact I].
    destruct (X n s1 pn eq_refl Ei) as [-> Hr]. destruct (Z.eqb_spec pn 0) as [K|_]; [contradiction|].
    destruct ((fst p =? fst q) && (snd p =? snd q)) eqn:E.
    { apply andb_true_iff in E. rewrite !Z.eqb_eq in E. assert (p = q) as <- by (destruct p, q; cbn [fst snd] in *; f_equal; tauto). now apply again_same. }
    pose proof (insert_there fuel s q pn S Hq) as Y. destruct (locate_insertion_node limit fuel s (fst q) (snd q) pn) as [n2| |]; cbn [bind]; [|exact I|exact I].
    destruct (insert_point_at_node limit wrap fuel s (fst q) (snd q) n2) as [[s2 qn]| |] eqn:Ej; cbn [bind]; [|exact I|exact I].
    destruct (Y n2 s2 qn eq_refl Ej) as [-> Hr2]. destruct (Z.eqb_spec qn 0) as [K|_]; [contradiction|].
    pose proof (at_corner limit fuel s p pn S Hp) as Z. destruct (locate_insertion_node limit fuel s (fst p) (snd p) pn) as [n3| |]; cbn [bind]; [|exact I|exact I].
    apply again_loop; auto.
  Qed.
End Existing.
