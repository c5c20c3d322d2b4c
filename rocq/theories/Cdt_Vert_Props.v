(** C86: the three vertices of an edge of a face, and the test for three points on a line. *)
From Coq Require Import List ZArith Lia Bool QArith.
Import ListNotations.
From Verif Require Import Base Vec_Model Math_Model Vec_Spec Cdt_Model Cdt_View_Model Cdt_Geom Cdt_Mesh Cdt_Spec Cdt_Reset Cdt_Locate Cdt_History Cdt_Props Cdt_Edge_Props Cdt_View_Props.
Local Open Scope Z_scope.

(** ** Specification *)

(** Points of the plane with rational coordinates. *)
Definition place : Type := (Q * Q)%type.
Definition at_ (p : point) : place := (inject_Z (fst p), inject_Z (snd p)).
(** The mixture of two and three points. *)
Definition mix2 (t u : Q) (a b : place) : place := (t * fst a + u * fst b, t * snd a + u * snd b)%Q.
Definition mix3 (t u v : Q) (a b c : place) : place := (t * fst a + u * fst b + v * fst c, t * snd a + u * snd b + v * snd c)%Q.
(** m is a point between a and b, other than these. *)
Definition between (a b m : place) : Prop := exists t u, (0 < t /\ 0 < u /\ t + u == 1 /\ m = mix2 t u a b)%Q.
(** p is in the triangle a b o, and not on the side from a to b. *)
Definition inside_off (a b o p : place) : Prop := exists t u v, (0 <= t /\ 0 <= u /\ 0 < v /\ t + u + v == 1 /\ p = mix3 t u v a b o)%Q.
(** For somebody at p who looks at m, with the x axis to the right and the y axis upwards: x is on their left, on their right. *)
Definition on_left (p m x : place) : Prop := (0 < (fst m - fst p) * (snd x - snd p) - (snd m - snd p) * (fst x - fst p))%Q.
Definition on_right (p m x : place) : Prop := ((fst m - fst p) * (snd x - snd p) - (snd m - snd p) * (fst x - fst p) < 0)%Q.

(** Three points on a line: u x + v y = w with u and v not both zero. *)
Definition on_a_line (a b c : point) : Prop :=
  exists u v w, (u <> 0 \/ v <> 0) /\ u * fst a + v * snd a = w /\ u * fst b + v * snd b = w /\ u * fst c + v * snd c = w.

(** ** Theorems *)
Lemma at_mix_cross (a b o : point) t u v x y :
  (t + u + v == 1 -> x + y == 1 ->
   let p := mix3 t u v (at_ a) (at_ b) (at_ o) in let m := mix2 x y (at_ a) (at_ b) in
   (fst m - fst p) * (snd (at_ a) - snd p) - (snd m - snd p) * (fst (at_ a) - fst p) == y * v * inject_Z (- orient o a b) /\
   (fst m - fst p) * (snd (at_ b) - snd p) - (snd m - snd p) * (fst (at_ b) - fst p) == - (x * v * inject_Z (- orient o a b)))%Q.
Proof.
  intros Et Ex p m. unfold p, m, mix3, mix2, at_. cbn [fst snd]. unfold orient.
  unfold Z.sub. rewrite !inject_Z_opp, !inject_Z_plus, !inject_Z_mult, !inject_Z_plus, !inject_Z_opp, !inject_Z_mult, !inject_Z_plus, !inject_Z_opp.
  set (ax := inject_Z (fst a)). set (ay := inject_Z (snd a)). set (bx := inject_Z (fst b)). set (by_ := inject_Z (snd b)). set (ox := inject_Z (fst o)). set (oy := inject_Z (snd o)).
  assert (E1 : (t == 1 - u - v)%Q) by (rewrite <- Et; ring). assert (E2 : (x == 1 - y)%Q) by (rewrite <- Ex; ring). rewrite E1, E2. split; ring.
Qed.

(** C86: for every edge of every face of every mesh, the three functions give the corners of the face in the user's units: o is the
    corner that is not on the edge, and for somebody in the face (anywhere but on the edge) who looks at the edge, a is on the left and b on
    the right. *)
Theorem C86_verts : forall limit q wrap s f i, 4 <= limit <= 8192 -> 0 <= q <= 16 -> reachable limit q wrap s -> face s f -> side i ->
  exists a b o,
    edge_vert_a limit q s (4 * f + i) = Ok a /\ edge_vert_b limit q s (4 * f + i) = Ok b /\ edge_vert_o limit q s (4 * f + i) = Ok o /\
    o = scaled q (where_is s (corner s f i)) /\ a = scaled q (where_is s (corner s f (i + 1))) /\ b = scaled q (where_is s (corner s f (i + 2))) /\
    forall p m, inside_off (at_ a) (at_ b) (at_ o) p -> between (at_ a) (at_ b) m -> on_left p m (at_ a) /\ on_right p m (at_ b).
Proof.
  intros limit q wrap s f i Hl Hq R Hf Hi. pose proof (reachable_good limit q wrap Hl (proj1 Hq) s R) as G. pose proof (side_node s f i Hf Hi) as Hn.
  unfold edge_vert_a, edge_vert_b, edge_vert_o. fold (nxt (4 * f + i)). fold (prv (4 * f + i)).
  rewrite (world_ok limit q Hq s _ G (nxt_node s _ Hn)), (world_ok limit q Hq s _ G (prv_node s _ Hn)), (world_ok limit q Hq s _ G Hn).
  destruct (edge_ends s f i Hi) as (E1 & E2 & E3). unfold edge_from, edge_to in E1, E2.
  eexists _, _, _. split; [reflexivity|]. split; [reflexivity|]. split; [reflexivity|]. split; [now rewrite E3|]. split; [now rewrite E1|]. split; [now rewrite E2|].
  pose proof (g_cw _ _ G _ Hn) as C. set (n := 4 * f + i) in *.
  assert (O : 0 < - orient (scaled q (P s n)) (scaled q (P s (nxt n))) (scaled q (P s (prv n)))).
  { assert (Pw : 0 < 2 ^ q) by (apply Z.pow_pos_nonneg; lia). replace (orient (scaled q (P s n)) (scaled q (P s (nxt n))) (scaled q (P s (prv n)))) with (2 ^ q * 2 ^ q * orient (P s n) (P s (nxt n)) (P s (prv n))) by (unfold orient, scaled; cbn [fst snd]; ring). nia. }
  set (a := scaled q (P s (nxt n))) in *. set (b := scaled q (P s (prv n))) in *. set (o := scaled q (P s n)) in *.
  intros p m (t & u & v & _ & _ & Hv & Et & ->) (x & y & Hx & Hy & Ex & ->). destruct (at_mix_cross a b o t u v x y Et Ex) as [L1 L2]. cbv zeta in L1, L2.
  assert (Oq : (0 < inject_Z (- orient o a b))%Q) by (rewrite Zlt_Qlt in O; exact O).
  unfold on_left, on_right. rewrite L1, L2. split.
  - apply Qmult_lt_0_compat; [apply Qmult_lt_0_compat|]; assumption.
  - rewrite <- (Qplus_lt_l _ _ (x * v * inject_Z (- orient o a b))). setoid_replace (- (x * v * inject_Z (- orient o a b)) + x * v * inject_Z (- orient o a b))%Q with 0%Q by ring. rewrite Qplus_0_l.
    apply Qmult_lt_0_compat; [apply Qmult_lt_0_compat|]; assumption.
Qed.
Print Assumptions C86_verts.

(** C86: seen from the face on the other side of the edge, a and b change places. *)
Theorem C86_twin : forall limit q wrap s f i t, 4 <= limit <= 8192 -> 0 <= q <= 16 -> reachable limit q wrap s -> face s f -> side i ->
  get_e limit s (4 * f + i) = Ok t -> t <> 0 ->
  edge_vert_a limit q s t = edge_vert_b limit q s (4 * f + i) /\ edge_vert_b limit q s t = edge_vert_a limit q s (4 * f + i) /\
  exists o o', edge_vert_o limit q s t = Ok o /\ edge_vert_o limit q s (4 * f + i) = Ok o' /\ o <> o'.
Proof.
  intros limit q wrap s f i t Hl Hq R Hf Hi Et Nz. pose proof (reachable_good limit q wrap Hl (proj1 Hq) s R) as G. pose proof (side_node s f i Hf Hi) as Hn.
  set (n := 4 * f + i) in *. clearbody n. unfold get_e in Et. rewrite (node_in_range limit s _ G Hn) in Et. injection Et as <-. pose proof (tw_node limit s G n Hn Nz) as Ht.
  change (edge_vert_a limit q s) with (fun e => world limit q s (nxt e)). change (edge_vert_b limit q s) with (fun e => world limit q s (prv e)). change (edge_vert_o limit q s) with (fun e => world limit q s e). cbv beta.
  rewrite (world_ok limit q Hq s _ G (nxt_node s _ Hn)), (world_ok limit q Hq s _ G (prv_node s _ Hn)), (world_ok limit q Hq s _ G Hn).
  rewrite (world_ok limit q Hq s _ G (nxt_node s _ Ht)), (world_ok limit q Hq s _ G (prv_node s _ Ht)), (world_ok limit q Hq s _ G Ht).
  pose proof (ea_tw limit s G n Hn Nz) as E1. pose proof (eb_tw limit s G n Hn Nz) as E2. unfold ea, eb in E1, E2.
  assert (E1' : P s (nxt (tw s n)) = P s (prv n)) by (unfold P; now rewrite E1). assert (E2' : P s (prv (tw s n)) = P s (nxt n)) by (unfold P; now rewrite E2).
  rewrite E1', E2'. split; [reflexivity|]. split; [reflexivity|]. eexists _, _. split; [reflexivity|]. split; [reflexivity|].
  intro K. apply (scaled_inj q (proj1 Hq)) in K. pose proof (g_cw _ _ G _ Hn) as C1. pose proof (g_cw _ _ G _ Ht) as C2. rewrite E1', E2', K in C2. revert C1 C2. unfold orient. lia.
Qed.
Print Assumptions C86_twin.

(** C86: the test for three points on a line is exact while the products of differences fit an int64_t. *)
Theorem C86_collinear : forall a b c, let near x y := - 3037000499 <= x - y <= 3037000499 in
  near (fst b) (fst a) -> near (snd b) (snd a) -> near (fst c) (fst a) -> near (snd c) (snd a) ->
  exists r, collinear (fst a) (snd a) (fst b) (snd b) (fst c) (snd c) = Ok r /\ (r = true <-> on_a_line a b c).
Proof.
  intros [ax ay] [bx by_] [cx cy] near. unfold near. clear near. cbn [fst snd]. intros H1 H2 H3 H4. unfold collinear, on.
  assert (R : forall x, - 3037000499 <= x <= 3037000499 -> in_s 64 x) by (intros x Hx; unfold in_s; change (2 ^ (64 - 1)) with 9223372036854775808; lia).
  assert (R2 : forall x y, - 3037000499 <= x <= 3037000499 -> - 3037000499 <= y <= 3037000499 -> in_s 64 (x * y)) by (intros x y Hx Hy; unfold in_s; change (2 ^ (64 - 1)) with 9223372036854775808; nia).
  rewrite !(chk64_ok (bx - ax)), !(chk64_ok (by_ - ay)), !(chk64_ok (cx - ax)), !(chk64_ok (cy - ay)) by now apply R. cbn [bind]. rewrite !chk64_ok by now apply R2. cbn [bind].
  eexists. split; [reflexivity|]. rewrite Z.eqb_eq. unfold on_a_line. cbn [fst snd]. clear. split.
  - intro E. destruct (Z.eq_dec bx ax) as [Ex|Nx]; [destruct (Z.eq_dec by_ ay) as [Ey|Ny]|].
    + subst bx by_. destruct (Z.eq_dec cx ax) as [->|N]; [exists 1, 0, ax; lia|]. exists (cy - ay), (- (cx - ax)), ((cy - ay) * ax - (cx - ax) * ay). repeat split; [right; lia|ring|ring|ring].
    + exists (by_ - ay), (- (bx - ax)), ((by_ - ay) * ax - (bx - ax) * ay). repeat split; [left; lia|ring|ring|nia].
    + exists (by_ - ay), (- (bx - ax)), ((by_ - ay) * ax - (bx - ax) * ay). repeat split; [right; lia|ring|ring|nia].
  - intros (u & v & w & N & E1 & E2 & E3). assert (K1 : u * (bx - ax) + v * (by_ - ay) = 0) by lia. assert (K2 : u * (cx - ax) + v * (cy - ay) = 0) by lia.
    set (x1 := bx - ax) in *. set (y1 := by_ - ay) in *. set (x2 := cx - ax) in *. set (y2 := cy - ay) in *.
    assert (Z1 : u * (x1 * y2 - y1 * x2) = 0) by (transitivity ((u * x1 + v * y1) * y2 - (u * x2 + v * y2) * y1); [ring|rewrite K1, K2; ring]).
    assert (Z2 : v * (x1 * y2 - y1 * x2) = 0) by (transitivity ((u * x2 + v * y2) * x1 - (u * x1 + v * y1) * x2); [ring|rewrite K1, K2; ring]).
    destruct N as [N|N]; [apply Z.mul_eq_0 in Z1|apply Z.mul_eq_0 in Z2]; lia.
Qed.
Print Assumptions C86_collinear.

(** What fails beyond that: three points with int32_t coordinates for which the test overflows an int64_t. *)
Theorem C86_overflow_refuted : exists a b c, int32p a /\ int32p b /\ int32p c /\ collinear (fst a) (snd a) (fst b) (snd b) (fst c) (snd c) = UB.
Proof. exists (- 2 ^ 31, - 2 ^ 31), (2 ^ 31 - 1, 0), (0, 2 ^ 31 - 1). unfold int32p. cbn [fst snd]. repeat split; try lia. Qed.
Print Assumptions C86_overflow_refuted.

(** The mesh of the demo of C53 to C58: the three sides of a face, and somebody in it. *)
Example C86_case : exists s a b o t, reachable 32 0 true s /\ face s 10 /\ edge_vert_a 32 0 s 41 = Ok a /\ edge_vert_b 32 0 s 41 = Ok b /\ edge_vert_o 32 0 s 41 = Ok o /\
  get_e 32 s 41 = Ok t /\ t <> 0 /\ NoDup [a; b; o] /\ (exists p, inside_off (at_ a) (at_ b) (at_ o) p) /\ exists m, between (at_ a) (at_ b) m.
Proof.
  assert (K : match history 32 true 200 demo with Ok s => (size s, edge_vert_a 32 0 s 41, edge_vert_b 32 0 s 41, edge_vert_o 32 0 s 41, get_e 32 s 41) | _ => (0, UB, UB, UB, UB) end
    = (8, Ok (0, 1000), Ok (100, 200), Ok (-1000, 0), Ok 60)) by (vm_compute; reflexivity).
  destruct (history 32 true 200 demo) as [s| |] eqn:Es; try discriminate K.
  pose proof (f_equal (fun x => fst (fst (fst (fst x)))) K) as K1. pose proof (f_equal (fun x => snd (fst (fst (fst x)))) K) as K2. pose proof (f_equal (fun x => snd (fst (fst x))) K) as K3. pose proof (f_equal (fun x => snd (fst x)) K) as K4. pose proof (f_equal snd K) as K5. cbn [fst snd] in K1, K2, K3, K4, K5. clear K.
  exists s, (0, 1000), (100, 200), (-1000, 0), 60. split; [apply (history_reachable 32 true 200 demo); [reflexivity|assumption]|]. split; [unfold face; lia|].
  split; [assumption|]. split; [assumption|]. split; [assumption|]. split; [assumption|]. split; [discriminate|]. split; [repeat constructor; cbn [In]; intuition discriminate|].
  split; eexists; [exists (1 # 2)%Q, (1 # 4)%Q, (1 # 4)%Q|exists (1 # 2)%Q, (1 # 2)%Q]; repeat split; discriminate.
Qed.
