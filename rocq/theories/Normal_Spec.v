(** Floats as real numbers, and what Intel's manual says of rsqrtss. *)
From Coq Require Import Reals Floats.SpecFloat.
Local Open Scope R_scope.

(** The number that a float is, m * 2^e; 0 for those that are not numbers. *)
Definition real (f : spec_float) : R :=
  match f with
  | S754_finite s m e => (if s then - IZR (Z.pos m) else IZR (Z.pos m)) * powerRZ 2 e
  | _ => 0
  end.

(** f is one of the floats that are numbers: not an infinity, not a NaN, with a 24 bit mantissa and an 8 bit exponent. *)
Definition float32 (f : spec_float) : Prop :=
  valid_binary 24 128 f = true /\ match f with S754_infinity _ | S754_nan => False | _ => True end.

(** rsqrtss: relative error at most 1.5 * 2^-12 for positive normal numbers, infinity for zero. *)
Definition rsqrtss (rs : spec_float -> spec_float) : Prop :=
  (forall m, float32 m -> powerRZ 2 (-126) <= real m -> float32 (rs m) /\ Rabs (real (rs m) * sqrt (real m) - 1) <= 3 / 2 * powerRZ 2 (-12)) /\
  rs (S754_zero false) = S754_infinity false.

(** The length of a vector. *)
Definition len (x y z : R) : R := sqrt (x * x + y * y + z * z).

(** n is v / l with the relative error d, up to the smallest numbers that a float can be. *)
Definition near (d : R) (n v : spec_float) (l : R) : Prop :=
  Rabs (real n - real v / l) <= d * Rabs (real v / l) + powerRZ 2 (-150).

(** The result n of normal is the direction of v: floats, each component right up to d, and a length of 1 up to 2 d. *)
Definition direction (d : R) (n v : spec_float * spec_float * spec_float) : Prop :=
  let '(nx, ny, nz) := n in
  let '(x, y, z) := v in
  let l := len (real x) (real y) (real z) in
  float32 nx /\ float32 ny /\ float32 nz /\ near d nx x l /\ near d ny y l /\ near d nz z l /\
  Rabs (len (real nx) (real ny) (real nz) - 1) <= 2 * d.

(** The vectors that normal handles: finite floats and a length from 2^-62 to 2^62. *)
Definition reasonable (v : spec_float * spec_float * spec_float) : Prop :=
  let '(x, y, z) := v in
  float32 x /\ float32 y /\ float32 z /\ powerRZ 2 (-62) <= len (real x) (real y) (real z) <= powerRZ 2 62.
