(** What it means that a segment is in the triangulation as constrained edges. *)
From Coq Require Import List ZArith.
From Verif Require Import Base Vec_Spec Cdt_Model Cdt_Spec.
Local Open Scope Z_scope.

(** There is a vertex at the point p. *)
Definition vertex_at (s : mesh) (p : point) : Prop := exists v, 0 <= v < size s /\ where_is s v = p.

(** There is a constrained edge between a and b. *)
Definition constrained (s : mesh) (a b : point) : Prop :=
  exists f i, face s f /\ side i /\ co s (4 * f + i) = 1 /\
    ((where_is s (edge_from s f i) = a /\ where_is s (edge_to s f i) = b) \/ (where_is s (edge_from s f i) = b /\ where_is s (edge_to s f i) = a)).

(** Constrained edges cover the segment from a to b: it is a vertex, a constrained edge, or made of two such parts that meet on it. *)
Inductive covered (s : mesh) : point -> point -> Prop :=
| cov_vertex p : vertex_at s p -> covered s p p
| cov_edge a b : constrained s a b -> covered s a b
| cov_join a m b : on_segment m a b -> covered s a m -> covered s m b -> covered s a b.

(** r is less than one unit, in x and in y, from the point p + (n / d) (q - p) of the segment from p to q. *)
Definition beside (r p q : point) : Prop :=
  exists n d, 0 < d /\ 0 <= n <= d /\
    Z.abs (d * (fst r - fst p) - n * (fst q - fst p)) < d /\ Z.abs (d * (snd r - snd p) - n * (snd q - snd p)) < d.

(** Constrained edges lead from p to q along the segment: they cover it, or they cover an initial part of it and lead on from there, or
    they lead from p to a vertex beside the segment and from there to q. *)
Inductive follows (s : mesh) : point -> point -> Prop :=
| fol_covered p q : covered s p q -> follows s p q
| fol_part p m q : on_segment m p q -> covered s p m -> follows s m q -> follows s p q
| fol_bend p r q : vertex_at s r -> beside r p q -> follows s p r -> follows s r q -> follows s p q.

(** A chain of constrained edges from a to b. *)
Inductive joined (s : mesh) : point -> point -> Prop :=
| joined_refl p : vertex_at s p -> joined s p p
| joined_step a b c : constrained s a b -> joined s b c -> joined s a c.
