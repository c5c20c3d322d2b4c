(** What a triangulation is, in terms of the arrays of the mesh. *)
From Coq Require Import List ZArith.
From Verif Require Import Base Vec_Spec Math_Spec Cdt_Model.
Import ListNotations.
Local Open Scope Z_scope.

(** The faces in use are 6 .. 2 size - 1. Corner i of a face and the edge opposite to it, which runs from corner i + 1 to corner i + 2. *)
Definition face (s : mesh) (f : Z) : Prop := 6 <= f < 2 * size s.
Definition side (i : Z) : Prop := i = 0 \/ i = 1 \/ i = 2.
Definition corner (s : mesh) (f i : Z) : Z := pt s (4 * f + i mod 3).
Definition edge_from (s : mesh) (f i : Z) : Z := corner s f (i + 1).
Definition edge_to (s : mesh) (f i : Z) : Z := corner s f (i + 2).
Definition where_is (s : mesh) (v : Z) : point := (vx s v, vy s v).
Definition face_triangle (s : mesh) (f : Z) : triangle := (where_is s (corner s f 0), where_is s (corner s f 1), where_is s (corner s f 2)).
Definition all_faces (s : mesh) : list Z := map Z.of_nat (seq 6 (Z.to_nat (2 * size s - 6))).
Definition triangles (s : mesh) : list triangle := map (face_triangle s) (all_faces s).

(** Every edge is on the boundary, and then constrained, or has a twin in another face that is its reverse. *)
Definition linked (s : mesh) (f i : Z) : Prop :=
  (tw s (4 * f + i) = 0 /\ co s (4 * f + i) = 1) \/
  exists g j, face s g /\ side j /\ g <> f /\ tw s (4 * f + i) = 4 * g + j /\ tw s (4 * g + j) = 4 * f + i /\
    co s (4 * g + j) = co s (4 * f + i) /\ edge_from s g j = edge_to s f i /\ edge_to s g j = edge_from s f i.
Definition consistent (s : mesh) : Prop :=
  forall f i, face s f -> side i ->
    0 <= corner s f i < size s /\ (co s (4 * f + i) = 0 \/ co s (4 * f + i) = 1) /\
    where_is s (edge_from s f i) <> where_is s (edge_to s f i) /\ linked s f i.

(** The square of all points with 16-bit coordinates, clockwise. *)
Definition low : Z := - 32768.
Definition high : Z := 32767.
Definition square : list point := [(low, low); (low, high); (high, high); (high, low)].
Definition in_square (p : point) : Prop := low <= fst p <= high /\ low <= snd p <= high.

(** Twice the area of a clockwise triangle. *)
Definition area (t : triangle) : Z := let '(a, b, c) := t in - orient a b c.
Definition total (l : list Z) : Z := fold_right Z.add 0 l.

(** p is in the triangle or on its sides. *)
Definition covers (t : triangle) (p : point) : Prop := let '(a, b, c) := t in orient a b p <= 0 /\ orient b c p <= 0 /\ orient c a p <= 0.

(** v is strictly inside the circle through a, b and c: the circle's centre is (x / d, y / d). *)
Definition distance2 (d : Z) (x y : Z) (p : point) : Z := (d * fst p - x) * (d * fst p - x) + (d * snd p - y) * (d * snd p - y).
Definition inside_circle (a b c v : point) : Prop :=
  exists d x y, 0 < d /\ distance2 d x y a = distance2 d x y b /\ distance2 d x y b = distance2 d x y c /\ distance2 d x y v < distance2 d x y a.

(** The faces that a fill from face f with the given info can reach: it passes unconstrained edges and stops at faces that have the info. *)
Inductive reach (s : mesh) (info f : Z) : Z -> Prop :=
| reach_start : reach s info f f
| reach_step g i : reach s info f g -> side i -> co s (4 * g + i) = 0 -> fi s (tw s (4 * g + i) / 4) <> info ->
    reach s info f (tw s (4 * g + i) / 4).

(** The calls of the interface. Points are int32_t pairs; hints and node numbers are any values. *)
Inductive op : Type :=
| Reset_
| Point (p : point) (hint : Z)
| Edge (p r : point) (hint : Z)
| Fill (n info : Z).
Definition int32p (p : point) : Prop := - 2 ^ 31 <= fst p < 2 ^ 31 /\ - 2 ^ 31 <= snd p < 2 ^ 31.
(** A fill starts in a face of the mesh (or at node 0, which locate returns for a point outside); its info is an uint16_t. *)
Definition valid (s : mesh) (o : op) : Prop :=
  match o with
  | Reset_ => True
  | Point p _ => int32p p
  | Edge p r _ => int32p p /\ int32p r
  | Fill n info => (n = 0 \/ 24 <= n < 8 * size s) /\ 0 <= info < 65536
  end.
Definition run_op (limit q : Z) (wrap : bool) (fuel : nat) (s : mesh) (o : op) : res mesh :=
  match o with
  | Reset_ => reset limit s
  | Point p h => '(s, _) <- insert_point limit q wrap fuel s p h ;; Ok s
  | Edge p r h => '(s, _) <- insert_edge limit q wrap fuel s p r h ;; Ok s
  | Fill n info => fill limit fuel s n info
  end.
(** The meshes that a user can reach from a reset, with any number of calls. *)
Inductive reachable (limit q : Z) (wrap : bool) : mesh -> Prop :=
| r_reset s0 s : reset limit s0 = Ok s -> reachable limit q wrap s
| r_op fuel s o s' : reachable limit q wrap s -> valid s o -> run_op limit q wrap fuel s o = Ok s' -> reachable limit q wrap s'.
