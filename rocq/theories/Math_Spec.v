(** What the predicates of math.h mean, over the integers. *)
From Coq Require Import List ZArith Bool Permutation.
From Verif Require Import Vec_Spec.
Import ListNotations.
Local Open Scope Z_scope.

(** A vector (or point) moved by (1/N, 1/N^2), in units of 1/N^2: a small step in x and a much smaller one in y. *)
Definition moved (N : Z) (a : point) : point := (N * N * fst a + N, N * N * snd a + 1).
Definition cross_product (a b : point) : Z := fst a * snd b - snd a * fst b.

(** A point p moved back by (1/N, 1/N^2) and a vertex, both in units of 1/N^2, for N = 2^33. No line through two different
    vertices (with 31-bit coordinates) goes through the moved point. *)
Definition M0 : Z := 2 ^ 33.
Definition query (p : point) : point := (M0 * M0 * fst p - M0, M0 * M0 * snd p - 1).
Definition vertex (a : point) : point := (M0 * M0 * fst a, M0 * M0 * snd a).

(** The squared distance from p to the point (n/m) * d is less than rr (both sides multiplied by m^2). *)
Definition closer (rr px py dx dy n m : Z) : Prop :=
  (m * px - n * dx) * (m * px - n * dx) + (m * py - n * dy) * (m * py - n * dy) < rr * (m * m).

(** p is closer than sqrt(rr) to the line through 0 and d; to the ray from 0 through d; to the segment from 0 to d.
    The closest point has rational coordinates, so n/m ranges over the rationals. *)
Definition near_line (px py rr dx dy : Z) : Prop := exists n m, 0 < m /\ closer rr px py dx dy n m.
Definition near_ray (px py rr dx dy : Z) : Prop := exists n m, 0 < m /\ 0 <= n /\ closer rr px py dx dy n m.
Definition near_segment (px py rr dx dy : Z) : Prop := exists n m, 0 < m /\ 0 <= n <= m /\ closer rr px py dx dy n m.
(** The projection of p on the line through 0 and d lies between 0 and d. *)
Definition projects_on (px py dx dy : Z) : Prop := 0 <= px * dx + py * dy <= dx * dx + dy * dy.

(** Triangle meshes. *)
Definition triangle : Type := (point * point * point)%type.
Definition flip (e : point * point) : point * point := (snd e, fst e).
Definition sides (t : triangle) : list (point * point) := let '(a, b, c) := t in [(a, b); (b, c); (c, a)].
Definition clockwise (t : triangle) : Prop := let '(a, b, c) := t in orient a b c < 0.
(** Each side of each triangle is an edge of the boundary, or is matched with the same side, reversed, of another triangle. *)
Definition mesh_with_boundary (ts : list triangle) (boundary : list point) : Prop :=
  exists inner, Permutation (flat_map sides ts) (edges boundary ++ inner ++ map flip inner).

(** Any three vertices, taken in list order, turn clockwise: a strictly convex polygon. *)
Fixpoint turn_around (a : point) (l : list point) : Prop :=
  match l with [] => True | b :: l => (forall c, In c l -> orient a b c < 0) /\ turn_around a l end.
Fixpoint convex_clockwise (l : list point) : Prop :=
  match l with [] => True | a :: l => turn_around a l /\ convex_clockwise l end.

Definition count_true (l : list bool) : nat := length (filter (fun b => b) l).
