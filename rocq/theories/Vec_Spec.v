(** Plane geometry over the integers: orientation, segments, and the winding number of a closed polygon around a point. *)
From Coq Require Import List ZArith Bool.
Import ListNotations.
Local Open Scope Z_scope.

Definition point : Type := (Z * Z)%type.

(** Twice the signed area of the triangle a b c: positive when c is to the left of the line from a to b. *)
Definition orient (a b c : point) : Z :=
  (fst b - fst a) * (snd c - snd a) - (snd b - snd a) * (fst c - fst a).

(** p lies on the closed segment from a to b. *)
Definition on_segment (p a b : point) : Prop :=
  orient a b p = 0 /\ (fst p - fst a) * (fst p - fst b) <= 0 /\ (snd p - snd a) * (snd p - snd b) <= 0.

(** How often the triangle a b c goes round p: +1 (-1) when it is counterclockwise (clockwise) and p is strictly inside, else 0. *)
Definition triangle_winding (p a b c : point) : Z :=
  if (0 <? orient a b p) && (0 <? orient b c p) && (0 <? orient c a p) then 1
  else if (orient a b p <? 0) && (orient b c p <? 0) && (orient c a p <? 0) then -1
  else 0.

(** The edges of a closed polygon, each vertex with its successor: the first one ends at the first vertex. *)
Fixpoint chain (prev : point) (ps : list point) : list (point * point) :=
  match ps with [] => [] | p :: ps => (prev, p) :: chain p ps end.
Definition edges (ps : list point) : list (point * point) := chain (last ps (0, 0)) ps.

(** The winding number: cut the polygon into the triangles between a point o and its edges, and add them up. This is
    the usual number when p is on no edge and on no segment from o to a vertex. *)
Definition winding (o p : point) (ps : list point) : Z :=
  fold_right Z.add 0 (map (fun e => triangle_winding p o (fst e) (snd e)) (edges ps)).

Definition off_edges (p : point) (ps : list point) : Prop := forall a b, In (a, b) (edges ps) -> ~ on_segment p a b.
Definition off_spokes (o p : point) (ps : list point) : Prop := forall a, In a ps -> ~ on_segment p o a.

Definition within (k : Z) (p : point) : Prop := - k <= fst p <= k /\ - k <= snd p <= k.
