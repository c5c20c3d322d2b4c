(** What a rotation and a polar form are, over the reals. *)
From Coq Require Import Reals.
From Verif Require Import Base.
Local Open Scope R_scope.

(** math.h measures angles in units of which 2^31 make a full turn (_90 is 2^29, _360 is 2^31). *)
Definition radians (t : Z) : R := IZR t * (2 * PI / 2 ^ 31).

(** The point (x, y) turned about the origin by t. *)
Definition turned_x (x y t : Z) : R := IZR x * cos (radians t) - IZR y * sin (radians t).
Definition turned_y (x y t : Z) : R := IZR x * sin (radians t) + IZR y * cos (radians t).

(** v is within d of r. *)
Definition within (v : Z) (r d : R) : Prop := Rabs (IZR v - r) <= d.

(** Length of (x, y). *)
Definition length2 (x y : Z) : R := sqrt (IZR (x * x + y * y)).

(** (x, y) lies within the circle of the largest int32. *)
Definition in_circle (x y : Z) : Prop := (x * x + y * y <= (2 ^ 31 - 1) * (2 ^ 31 - 1))%Z.

Definition int32 (v : Z) : Prop := (- 2 ^ 31 <= v < 2 ^ 31)%Z.
