(** C110: the corners of the face around a place are the best data to interpolate from at the place. *)
From Coq Require Import List ZArith Lia Bool.
Import ListNotations.
From Verif Require Import Base Vec_Model Math_Model Vec_Spec Vec_Props Math_Spec Cdt_Model Cdt_Geom Cdt_Mesh Cdt_Flip Cdt_Insert Cdt_OnEdge Cdt_Walk Cdt_Spec Cdt_Tile Cdt_Reset Cdt_Steps Cdt_History Cdt_Props Cdt_Planar Cdt_EdgeSpec Cdt_Edge_Props Cdt_Circle Cdt_Delaunay_Props.
Local Open Scope Z_scope.

(** ** Specification *)

(** Points with weights that are not negative; the sum of a quantity over them, each times its weight. *)
Definition sum (g : point -> Z) (ws : list (Z * point)) : Z := fold_right (fun wp n => fst wp * g (snd wp) + n) 0 ws.
(** Their centre of mass is the place (x / w, y / w), and w the sum of the weights. *)
Definition centred (w x y : Z) (ws : list (Z * point)) : Prop :=
  Forall (fun wp => 0 <= fst wp) ws /\ sum (fun _ => 1) ws = w /\ sum fst ws = x /\ sum snd ws = y.
(** The sum of the squared distances (in units of 1 / w) of the points to the place. *)
Definition spread (w x y : Z) (ws : list (Z * point)) : Z := sum (distance2 w x y) ws.

(** v is outside of the circle through a, b and c: farther from its centre (x / d, y / d) than they are. *)
Definition outside_circle (a b c v : point) : Prop :=
  exists d x y, 0 < d /\ distance2 d x y a = distance2 d x y b /\ distance2 d x y b = distance2 d x y c /\ distance2 d x y a < distance2 d x y v.

(** ** Proof *)
Lemma outside_det a b c v : orient a b c < 0 -> outside_circle a b c v -> 0 < incircle_det a b c v.
Proof.
  intros O (d & x & y & Hd & E1 & E2 & L). pose proof (circle_identity d x y a b c v (distance2 d x y a)) as I. rewrite <- E2, <- E1, !Z.sub_diag, !Z.mul_0_l, !Z.add_0_l in I.
  assert ((distance2 d x y v - distance2 d x y a) * orient a b c < 0) by (apply Z.mul_pos_neg; lia). assert (0 < d * d) by nia. clear - I H H0. nia.
Qed.
Definition norm (v : point) : Z := fst v * fst v + snd v * snd v.
Lemma sum_lin g h k l c ws : (forall v, g v = c * norm v + h * fst v + k * snd v + l) ->
  sum g ws = c * sum norm ws + h * sum fst ws + k * sum snd ws + l * sum (fun _ => 1) ws.
Proof.
  intro E. induction ws as [|[w v] ws IH]; [cbn; lia|].
  assert (U : forall q, sum q ((w, v) :: ws) = w * q v + sum q ws) by reflexivity. rewrite !U, IH, E. ring.
Qed.
Lemma spread_norm w x y ws : centred w x y ws -> spread w x y ws = w * w * sum norm ws - w * (x * x + y * y).
Proof.
  intros (_ & E1 & E2 & E3). unfold spread. rewrite (sum_lin _ (- 2 * w * x) (- 2 * w * y) (x * x + y * y) (w * w)); [rewrite E1, E2, E3; ring|].
  intro v. unfold distance2, norm. ring.
Qed.
Lemma det_lin a b c v : let f := incircle_det a b c in let k := - orient a b c in
  f v = k * norm v + (f (1, 0) - f (0, 0) - k) * fst v + (f (0, 1) - f (0, 0) - k) * snd v + f (0, 0).
Proof. cbv zeta. unfold incircle_det, det6, orient, norm. cbn [fst snd]. ring. Qed.
Lemma sum_nonneg g ws : Forall (fun wp => 0 <= fst wp) ws -> Forall (fun wp => 0 <= g (snd wp)) ws -> 0 <= sum g ws.
Proof. intro F. induction F as [|wp ws H F IH]; intro K; [cbn; lia|]. inversion K; subst. change (0 <= fst wp * g (snd wp) + sum g ws). specialize (IH ltac:(assumption)). nia. Qed.
Lemma least_spread a b c w x y wa wb wc ws : orient a b c < 0 ->
  centred w x y [(wa, a); (wb, b); (wc, c)] -> centred w x y ws -> Forall (fun wp => 0 <= incircle_det a b c (snd wp)) ws ->
  spread w x y [(wa, a); (wb, b); (wc, c)] <= spread w x y ws /\
  ((exists k v, In (k, v) ws /\ 0 < k /\ 0 < incircle_det a b c v) -> 0 < w -> spread w x y [(wa, a); (wb, b); (wc, c)] < spread w x y ws).
Proof.
  intros O C0 C1 F. rewrite (spread_norm _ _ _ _ C0), (spread_norm _ _ _ _ C1).
  pose proof (sum_lin _ _ _ _ _ [(wa, a); (wb, b); (wc, c)] (det_lin a b c)) as D0. pose proof (sum_lin _ _ _ _ _ ws (det_lin a b c)) as D1.
  destruct C0 as (_ & E1 & E2 & E3). destruct C1 as (W & G1 & G2 & G3). rewrite E1, E2, E3 in D0. rewrite G1, G2, G3 in D1.
  assert (Z0 : sum (incircle_det a b c) [(wa, a); (wb, b); (wc, c)] = 0).
  { unfold sum. cbn [fold_right fst snd]. unfold incircle_det, det6. ring. }
  assert (Z1 : 0 <= sum (incircle_det a b c) ws) by now apply sum_nonneg.
  set (S0 := sum norm [(wa, a); (wb, b); (wc, c)]) in *. set (S1 := sum norm ws) in *.
  assert (K : sum (incircle_det a b c) ws = - orient a b c * (S1 - S0)) by lia.
  split.
  - assert (S0 <= S1) by (clear - K Z1 O; nia). clear - H. nia.
  - intros (k & v & I & Hk & Hv) Hw. assert (Z2 : 0 < sum (incircle_det a b c) ws).
    { clear - W F I Hk Hv. induction W as [|[k' v'] ws H W IH]; [destruct I|]. inversion F as [|? ? F1 F2]; subst. cbn [fst snd] in *.
      change (0 < k' * incircle_det a b c v' + sum (incircle_det a b c) ws). destruct I as [E|I].
      - injection E as -> ->. pose proof (sum_nonneg (incircle_det a b c) ws W F2). nia.
      - specialize (IH F2 I). nia. }
    assert (S0 < S1) by (clear - K Z2 O; nia). clear - H Hw. nia.
Qed.

(** *** C110: whatever vertices a place is the weighted mean of, the corners of the face around it are on average (with these weights, in
    squares) no farther from it; and they are nearer if any of the others is outside of the circle of the face. So a value at the place is
    interpolated from the nearest data. *)
Theorem C110_nearest_data : forall limit q wrap s f wa wb wc w x y ws, 4 <= limit <= 8192 -> 0 <= q -> point_reachable limit q wrap s -> face s f ->
  let '(a, b, c) := face_triangle s f in
  centred w x y [(wa, a); (wb, b); (wc, c)] -> centred w x y ws -> (forall k v, In (k, v) ws -> vertex_at s v) ->
  spread w x y [(wa, a); (wb, b); (wc, c)] <= spread w x y ws /\
  (0 < w -> (exists k v, In (k, v) ws /\ 0 < k /\ outside_circle a b c v) -> spread w x y [(wa, a); (wb, b); (wc, c)] < spread w x y ws).
Proof.
  intros limit q wrap s f wa wb wc w x y ws Hl Hq R Hf. pose proof (reachable_good limit q wrap Hl Hq s (point_reachable_ok _ _ _ _ R)) as G.
  pose proof (proj2 (C70_delaunay limit q wrap s Hl Hq R) f) as B. rewrite triangle_node in B. rewrite triangle_node. pose proof (g_cw _ _ G _ (face_node s f Hf)) as O.
  intros C0 C1 V.
  assert (F : Forall (fun wp => 0 <= incircle_det (P s (4 * f)) (P s (nxt (4 * f))) (P s (prv (4 * f))) (snd wp)) ws).
  { apply Forall_forall. intros [k p] I. cbn [snd]. destruct (V k p I) as (v & Hv & <-). specialize (B v Hf Hv).
    rewrite (inside_circle_det _ _ _ _ O) in B. now apply Z.nlt_ge. }
  destruct (least_spread _ _ _ w x y wa wb wc ws O C0 C1 F) as [L1 L2]. split; [exact L1|].
  intros Hw (k & v & I & Hk & Hv). apply L2; [|exact Hw]. exists k, v. split; [exact I|]. split; [exact Hk|]. now apply outside_det.
Qed.
Print Assumptions C110_nearest_data.

(** The centre of one of the twelve faces of the mesh of C70_nonvacuous, as the mean of its corners and as a mean of three vertices farther
    away. *)
Example C110_case : exists s, point_reachable 32 0 true s /\ face s 17 /\ face_triangle s 17 = ((600, 900), (100, 200), (-1450, 120)) /\
  centred 105190566 (-26297641500) 42777496840 [(35063522, (600, 900)); (35063522, (100, 200)); (35063522, (-1450, 120))] /\
  let ws := [(6140200, (32767, 32767)); (75984961, (-3000, 40)); (23065405, (20, -7000))] in
  centred 105190566 (-26297641500) 42777496840 ws /\ forall k v, In (k, v) ws -> vertex_at s v.
Proof.
  assert (K : match history 32 true 100 some_points with
    | Ok s => (size s, face_triangle s 17, where_is s 3, where_is s 5, where_is s 7) | _ => (0, ((0, 0), (0, 0), (0, 0)), (0, 0), (0, 0), (0, 0)) end =
    (9, ((600, 900), (100, 200), (-1450, 120)), (32767, 32767), (-3000, 40), (20, -7000))) by (vm_compute; reflexivity).
  destruct (history 32 true 100 some_points) as [s| |] eqn:Es; try discriminate K.
  assert (Ks : size s = 9) by congruence. assert (Kt : face_triangle s 17 = ((600, 900), (100, 200), (-1450, 120))) by congruence.
  assert (K3 : where_is s 3 = (32767, 32767)) by congruence. assert (K5 : where_is s 5 = (-3000, 40)) by congruence. assert (K7 : where_is s 7 = (20, -7000)) by congruence. clear K.
  assert (R : point_reachable 32 0 true s) by (apply (history_points 32 true 100 some_points); [reflexivity|intros o Ho; repeat (destruct Ho as [<-|Ho]; [exact I|]); contradiction|assumption]).
  exists s. split; [exact R|]. split; [unfold face; lia|]. split; [exact Kt|].
  split; [split; [repeat constructor; cbn; lia|vm_compute; auto]|]. cbv zeta. split; [split; [repeat constructor; cbn; lia|vm_compute; auto]|].
  intros k v [E|[E|[E|[]]]]; injection E as <- <-; [exists 3|exists 5|exists 7]; (split; [lia|assumption]).
Qed.

(** C110 (refuted for insert_edge): beside a constrained edge there is a place whose face, although it is not cut off from them by the
    constrained edge, has corners farther from it than other vertices around it. *)
Theorem C110_edge_refuted : exists s f wa wb wc w x y ws, reachable 32 0 true s /\ face s f /\
  (let '(a, b, c) := face_triangle s f in centred w x y [(wa, a); (wb, b); (wc, c)] /\ spread w x y ws < spread w x y [(wa, a); (wb, b); (wc, c)]) /\
  centred w x y ws /\ (forall k v, In (k, v) ws -> vertex_at s v).
Proof.
  assert (K : match history 32 true 100 three_points with
    | Ok s => match insert_edge 32 0 true 100 s (944, -156) (-472, 922) 0 with Ok (s', _) => (size s', face_triangle s' 11, where_is s' 8, where_is s' 6) | _ => (0, ((0, 0), (0, 0), (0, 0)), (0, 0), (0, 0)) end
    | _ => (0, ((0, 0), (0, 0), (0, 0)), (0, 0), (0, 0)) end = (9, ((-472, 922), (944, -156), (-740, 206)), (-472, 922), (610, -412))) by (vm_compute; reflexivity).
  destruct (history 32 true 100 three_points) as [s| |] eqn:Es; try discriminate K. destruct (insert_edge 32 0 true 100 s (944, -156) (-472, 922) 0) as [[s' b]| |] eqn:Ee; try discriminate K.
  assert (R : point_reachable 32 0 true s) by (apply (history_points 32 true 100 three_points); [reflexivity|intros o Ho; repeat (destruct Ho as [<-|Ho]; [exact I|]); contradiction|assumption]).
  assert (R' : reachable 32 0 true s').
  { apply (r_op 32 0 true 100 s (Edge (944, -156) (-472, 922) 0)); [now apply point_reachable_ok|split; unfold int32p; cbn [fst snd]; lia|cbn [run_op]; rewrite Ee; reflexivity]. }
  assert (Ks : size s' = 9) by congruence. assert (Kt : face_triangle s' 11 = ((-472, 922), (944, -156), (-740, 206))) by congruence.
  assert (K8 : where_is s' 8 = (-472, 922)) by congruence. assert (K6 : where_is s' 6 = (610, -412)) by congruence. clear K.
  exists s', 11, 0, 1132224, 722548, 1854772, 534133936, (-27782056), [(552012, (-472, 922)); (1302760, (610, -412))].
  split; [exact R'|]. split; [unfold face; lia|]. rewrite Kt. split; [|split].
  - split; [split; [repeat constructor; cbn; lia|vm_compute; auto]|vm_compute; reflexivity].
  - split; [repeat constructor; cbn; lia|vm_compute; auto].
  - intros k v [E|[E|[]]]; injection E as <- <-; [exists 8|exists 6]; (split; [lia|assumption]).
Qed.
Print Assumptions C110_edge_refuted.
