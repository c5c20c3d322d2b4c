(** C94: where a point lies in relation to a face (refine). *)
From Coq Require Import List ZArith Lia Bool.
Import ListNotations.
From Verif Require Import Base Vec_Spec Math_Spec Cdt_Model Cdt_Geom Cdt_Mesh Cdt_Spec Cdt_Reset Cdt_Insert Cdt_Walk Cdt_History Cdt_Props.
Local Open Scope Z_scope.

(** ** Specification *)

(** p is in the triangle, and not on its sides. *)
Definition within_triangle (t : triangle) (p : point) : Prop := covers t p /\ let '(a, b, c) := t in ~ on_segment p a b /\ ~ on_segment p b c /\ ~ on_segment p c a.
(** p is on the segment from a to b, and not at its ends. *)
Definition inside_segment (p a b : point) : Prop := on_segment p a b /\ p <> a /\ p <> b.
(** The ends of side i of a face, and the line through them: p is on this line, or on the other side of it than the face. *)
Definition side_start (s : mesh) (f i : Z) : point := where_is s (edge_from s f i).
Definition side_end (s : mesh) (f i : Z) : point := where_is s (edge_to s f i).
Definition past (s : mesh) (f i : Z) (p : point) : Prop := 0 <= orient (side_start s f i) (side_end s f i) p.

(** ** Theorems *)

Lemma turn a b p : orient p a b = orient a b p.
Proof. unfold orient. ring. Qed.

Lemma segment_strict a b c p : orient a b c < 0 -> inside_segment p a b -> orient a b p = 0 /\ orient b c p < 0 /\ orient c a p < 0.
Proof.
  intros O ((E & X & Y) & Na & Nb). split; [exact E|]. destruct a as [ax ay], b as [bx by_], c as [cx cy], p as [px py]. unfold orient in *. cbn [fst snd] in *.
  set (D := (bx - ax) * (cy - ay) - (by_ - ay) * (cx - ax)) in *.
  set (U := (ax - cx) * (py - cy) - (ay - cy) * (px - cx)). set (W := (cx - bx) * (py - by_) - (cy - by_) * (px - bx)).
  assert (Ux : (bx - ax) * U = (px - ax) * D) by (apply Zminus_eq; transitivity (- (cx - ax) * ((bx - ax) * (py - ay) - (by_ - ay) * (px - ax))); [unfold U, D; ring|rewrite E; ring]).
  assert (Uy : (by_ - ay) * U = (py - ay) * D) by (apply Zminus_eq; transitivity (- (cy - ay) * ((bx - ax) * (py - ay) - (by_ - ay) * (px - ax))); [unfold U, D; ring|rewrite E; ring]).
  assert (S : U + W = D) by (transitivity (U + W + ((bx - ax) * (py - ay) - (by_ - ay) * (px - ax))); [rewrite E; ring|unfold U, W, D; ring]).
  assert (Wx : (bx - ax) * W = (bx - px) * D) by nia.
  assert (Wy : (by_ - ay) * W = (by_ - py) * D) by nia.
  clearbody U W. assert (Hab : bx <> ax \/ by_ <> ay) by (unfold D in O; clear - O; destruct (Z.eq_dec bx ax), (Z.eq_dec by_ ay); auto; subst; nia).
  clearbody D. clear S. assert (Ax : px <> ax \/ py <> ay) by (destruct (Z.eq_dec px ax), (Z.eq_dec py ay); auto; subst; congruence).
  assert (Bx : px <> bx \/ py <> by_) by (destruct (Z.eq_dec px bx), (Z.eq_dec py by_); auto; subst; congruence).
  destruct Hab as [H|H].
  - assert (px <> ax) by (intros ->; destruct Ax as [A|A]; [congruence|]; assert ((bx - ax) * (py - ay) = 0) by lia; nia).
    assert (px <> bx) by (intros ->; destruct Bx as [B|B]; [congruence|]; assert ((bx - ax) * (py - by_) = 0) by nia; nia).
    clear - O X Ux Wx H H0 H1. destruct (Z.lt_trichotomy ax bx) as [L|[L|L]]; [|lia|]; split; nia.
  - assert (py <> ay) by (intros ->; destruct Ax as [A|A]; [|congruence]; assert ((by_ - ay) * (px - ax) = 0) by lia; nia).
    assert (py <> by_) by (intros ->; destruct Bx as [B|B]; [|congruence]; assert ((by_ - ay) * (px - bx) = 0) by nia; nia).
    clear - O Y Uy Wy H H0 H1. destruct (Z.lt_trichotomy ay by_) as [L|[L|L]]; [|lia|]; split; nia.
Qed.

Lemma strict_not_segment a b p : orient a b p < 0 -> ~ on_segment p a b.
Proof. intros H (E & _). lia. Qed.

Lemma closed_segment a b c p : orient a b c < 0 -> orient a b p = 0 -> orient b c p <= 0 -> orient c a p <= 0 -> on_segment p a b.
Proof.
  intros O E B C. split; [exact E|]. destruct a as [ax ay], b as [bx by_], c as [cx cy], p as [px py]. unfold orient in *. cbn [fst snd] in *.
  set (D := (bx - ax) * (cy - ay) - (by_ - ay) * (cx - ax)) in *.
  set (U := (ax - cx) * (py - cy) - (ay - cy) * (px - cx)) in *. set (W := (cx - bx) * (py - by_) - (cy - by_) * (px - bx)) in *.
  assert (Ux : (bx - ax) * U = (px - ax) * D) by (apply Zminus_eq; transitivity (- (cx - ax) * ((bx - ax) * (py - ay) - (by_ - ay) * (px - ax))); [unfold U, D; ring|rewrite E; ring]).
  assert (Uy : (by_ - ay) * U = (py - ay) * D) by (apply Zminus_eq; transitivity (- (cy - ay) * ((bx - ax) * (py - ay) - (by_ - ay) * (px - ax))); [unfold U, D; ring|rewrite E; ring]).
  assert (S : U + W = D) by (transitivity (U + W + ((bx - ax) * (py - ay) - (by_ - ay) * (px - ax))); [rewrite E; ring|unfold U, W, D; ring]).
  assert (Wx : (bx - ax) * W = (bx - px) * D) by nia.
  assert (Wy : (by_ - ay) * W = (by_ - py) * D) by nia.
  clearbody U W D. clear E S.
  assert (K : forall u v w, w * U = u * D -> w * W = v * D -> u * - v <= 0).
  { intros u v w A1 A2. assert (F : (u * v) * (D * D) = (w * w) * (U * W)) by (transitivity ((u * D) * (v * D)); [ring|rewrite <- A1, <- A2; ring]).
    assert (0 <= U * W) by nia. assert (0 <= w * w) by nia. assert (0 < D * D) by nia. assert (0 <= (u * v) * (D * D)) by (rewrite F; apply Z.mul_nonneg_nonneg; assumption). nia. }
  split; [replace (px - bx) with (- (bx - px)) by ring; exact (K _ _ _ Ux Wx)|replace (py - by_) with (- (by_ - py)) by ring; exact (K _ _ _ Uy Wy)].
Qed.

(** C94: for every face f of every mesh and every point: refine gives 4 f + 3 exactly for the points inside the face, 4 f + i for the
    points between the ends of side i, and 0 for the corners. In general it gives 4 f + i when side i is the only one that the point is
    on or past, and 0 when there are two. *)
Theorem C94_refine : forall limit q wrap s f p, 4 <= limit <= 8192 -> 0 <= q -> reachable limit q wrap s -> face s f -> within (2 ^ 31) p ->
  exists r, refine limit s (fst p) (snd p) (4 * f) = Ok r /\
    (r = 4 * f + 3 <-> within_triangle (face_triangle s f) p) /\
    (forall i, side i -> inside_segment p (side_start s f i) (side_end s f i) -> r = 4 * f + i) /\
    (forall i, side i -> p = where_is s (corner s f i) -> r = 0) /\
    (forall i, side i -> (r = 4 * f + i <-> past s f i p /\ forall j, side j -> past s f j p -> j = i)) /\
    (r = 0 <-> exists i j, side i /\ side j /\ i <> j /\ past s f i p /\ past s f j p).
Proof.
  intros limit q wrap s f p Hl Hq R Hf Hp. pose proof (reachable_good limit q wrap Hl Hq s R) as G.
  assert (Np : near p) by (destruct Hp as [Hx Hy]; split; assumption).
  assert (H0 : node s (4 * f)) by (pose proof (side_node s f 0 Hf (or_introl eq_refl)) as X; rewrite Z.add_0_r in X; exact X).
  pose proof (side_node s f 1 Hf (or_intror (or_introl eq_refl))) as H1. pose proof (side_node s f 2 Hf (or_intror (or_intror eq_refl))) as H2.
  assert (M : (4 * f) mod 4 = 0) by (rewrite Z.mul_comm; apply Z.mod_mul; lia). destruct (offs (4 * f) M) as (O1 & O2 & _).
  unfold refine. rewrite !(rel_ok limit s p) by (assumption || now left). cbn [bind]. rewrite (edge_bits_ok limit s p (4 * f) G Np H0 M). cbn [bind].
  pose proof (g_cw _ _ G _ H0) as CW. rewrite O1, O2 in CW.
  assert (E : where_is s (corner s f 0) = P s (4 * f) /\ where_is s (corner s f 1) = P s (4 * f + 1) /\ where_is s (corner s f 2) = P s (4 * f + 2)).
  { unfold where_is, corner, P, V. change (0 mod 3) with 0. change (1 mod 3) with 1. change (2 mod 3) with 2. rewrite Z.add_0_r. auto. }
  destruct E as (E0 & E1 & E2).
  assert (S0 : side_start s f 0 = P s (4 * f + 1) /\ side_end s f 0 = P s (4 * f + 2)) by (split; assumption).
  assert (S1 : side_start s f 1 = P s (4 * f + 2) /\ side_end s f 1 = P s (4 * f)) by (split; assumption).
  assert (S2 : side_start s f 2 = P s (4 * f) /\ side_end s f 2 = P s (4 * f + 1)) by (split; assumption).
  unfold within_triangle, face_triangle, covers, past. rewrite E0, E1, E2.
  set (a := P s (4 * f)) in *. set (b := P s (4 * f + 1)) in *. set (c := P s (4 * f + 2)) in *. clearbody a b c.
  rewrite (turn b c p), (turn c a p), (turn a b p). eexists. split; [reflexivity|].
  assert (Sum : orient a b p + orient b c p + orient c a p = orient a b c) by (unfold orient; ring).
  assert (Fpos : 24 <= 4 * f) by (destruct Hf; lia).
  assert (SG0 : inside_segment p b c -> orient b c p = 0 /\ orient c a p < 0 /\ orient a b p < 0).
  { intro I. apply segment_strict; [|exact I]. replace (orient b c a) with (orient a b c) by (unfold orient; ring). exact CW. }
  assert (SG1 : inside_segment p c a -> orient c a p = 0 /\ orient a b p < 0 /\ orient b c p < 0).
  { intro I. apply segment_strict; [|exact I]. replace (orient c a b) with (orient a b c) by (unfold orient; ring). exact CW. }
  assert (SG2 : inside_segment p a b -> orient a b p = 0 /\ orient b c p < 0 /\ orient c a p < 0).
  { intro I. apply segment_strict; [exact CW|exact I]. }
  assert (NS : forall x y, orient x y p < 0 -> ~ on_segment p x y) by (intros x y; apply strict_not_segment).
  assert (T0 : orient b c p = 0 -> orient c a p <= 0 -> orient a b p <= 0 -> on_segment p b c).
  { intros Z A B. apply (closed_segment b c a); try assumption. replace (orient b c a) with (orient a b c) by (unfold orient; ring). exact CW. }
  assert (T1 : orient c a p = 0 -> orient a b p <= 0 -> orient b c p <= 0 -> on_segment p c a).
  { intros Z A B. apply (closed_segment c a b); try assumption. replace (orient c a b) with (orient a b c) by (unfold orient; ring). exact CW. }
  assert (T2 : orient a b p = 0 -> orient b c p <= 0 -> orient c a p <= 0 -> on_segment p a b).
  { intros Z A B. now apply (closed_segment a b c). }
  assert (CA : p = a -> orient a b p = 0 /\ orient c a p = 0) by (intros ->; unfold orient; split; ring).
  assert (CB : p = b -> orient a b p = 0 /\ orient b c p = 0) by (intros ->; unfold orient; split; ring).
  assert (CC : p = c -> orient b c p = 0 /\ orient c a p = 0) by (intros ->; unfold orient; split; ring).
  destruct S0 as [S0 S0'], S1 as [S1 S1'], S2 as [S2 S2'].
  assert (Sides : forall (Q : Z -> Prop), (forall i, side i -> Q i) <-> Q 0 /\ Q 1 /\ Q 2).
  { intro Q. split; [intro A; repeat split; apply A; unfold side; auto|]. intros (A & B & C) i [-> |[-> | ->]]; assumption. }
  rewrite !Sides. rewrite S0, S0', S1, S1', S2, S2', E0, E1, E2.
  set (z := orient a b p) in *. set (x := orient b c p) in *. set (y := orient c a p) in *.
  assert (Two : (exists i j, side i /\ side j /\ i <> j /\ 0 <= orient (side_start s f i) (side_end s f i) p /\ 0 <= orient (side_start s f j) (side_end s f j) p) <->
    (0 <= x /\ 0 <= y) \/ (0 <= y /\ 0 <= z) \/ (0 <= z /\ 0 <= x)).
  { split.
    - intros (i & j & Hi & Hj & D & A & B). destruct Hi as [-> |[-> | ->]]; destruct Hj as [-> |[-> | ->]]; try congruence; rewrite ?S0, ?S0', ?S1, ?S1', ?S2, ?S2' in A; rewrite ?S0, ?S0', ?S1, ?S1', ?S2, ?S2' in B; fold x y z in A, B; tauto.
    - unfold side. intros [[A B]|[[A B]|[A B]]]; [exists 0, 1|exists 1, 2|exists 2, 0]; rewrite ?S0, ?S0', ?S1, ?S1', ?S2, ?S2'; fold x y z; repeat split; auto; discriminate. }
  rewrite Two. clear Two Sides. fold x y z.
  clear - Sum CW Fpos SG0 SG1 SG2 NS T0 T1 T2 CA CB CC x y z.
  assert (N0 := NS b c). assert (N1 := NS c a). assert (N2 := NS a b). clear NS. fold x in N0. fold y in N1. fold z in N2. clearbody x y z.
  destruct (Z.ltb_spec x 0) as [Hx|Hx]; destruct (Z.ltb_spec y 0) as [Hy|Hy]; destruct (Z.ltb_spec z 0) as [Hz|Hz]; [| | | | | | |exfalso; lia];
    cbn [Z.eqb Z.add Pos.eqb Pos.add Pos.succ Pos.add_carry];
    (split; [first [split; [intros _; split; [repeat split; lia|repeat split; auto]|reflexivity]|split; [intro; exfalso; lia|intros ((A & B & C) & D2 & D0 & D1); exfalso; first [apply D0, T0; lia|apply D1, T1; lia|apply D2, T2; lia]]]|]);
    clear T0 T1 T2 N0 N1 N2;
    (split; [split; [intro I; apply SG0 in I; lia|split; [intro I; apply SG1 in I; lia|intro I; apply SG2 in I; lia]]|]);
    (split; [split; [intro I; apply CA in I; lia|split; [intro I; apply CB in I; lia|intro I; apply CC in I; lia]]|]);
    clear - Fpos Hx Hy Hz Sum CW; lia.
Qed.
Print Assumptions C94_refine.

(** The faces of an empty mesh: a point inside, one on each of two sides, one past a side, a corner, and one far away past two sides. *)
Example C94_nonvacuous : exists s, reset 32 blank = Ok s /\ reachable 32 0 true s /\ face s 6 /\
  face_triangle s 6 = ((low, low), (low, high), (high, low)) /\
  refine 32 s (-5) (-7) 24 = Ok 27 /\ refine 32 s 0 low 24 = Ok 25 /\ refine 32 s low 0 24 = Ok 26 /\ refine 32 s 5 5 24 = Ok 24 /\
  refine 32 s low low 24 = Ok 0 /\ refine 32 s (- 2 ^ 31) (- 2 ^ 31) 24 = Ok 0 /\
  inside_segment (0, low) (side_start s 6 1) (side_end s 6 1).
Proof.
  eexists. split; [vm_compute; reflexivity|]. split; [apply (r_reset 32 0 true blank); vm_compute; reflexivity|].
  repeat split; vm_compute; congruence.
Qed.
