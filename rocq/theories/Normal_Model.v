(** Model of normal of lib/h/ce/math.h. No proofs.
    float is IEEE 754 binary32 with rounding to nearest even, from Coq's SpecFloat. Every operation is rounded to float
    (no contraction to fused multiply-add, no wider intermediate results). *)
From Coq Require Import Floats.SpecFloat.
From Verif Require Import Base.
Local Open Scope Z_scope.

(** float arithmetic. *)
Definition fadd := SFadd 24 128.
Definition fmul := SFmul 24 128.
Definition fdiv := SFdiv 24 128.
Definition fsqrt := SFsqrt 24 128.

(** 1.0f *)
Definition f_one : spec_float := S754_finite false 8388608 (-23).

Definition vec3f : Type := spec_float * spec_float * spec_float.

(** math.h:230-236 and 250-256 normal. The builds differ in r, which is a function of m: rsqrtss on x86. *)
Definition normal (r_of : spec_float -> spec_float) (v : vec3f) : vec3f :=
  let '(x, y, z) := v in
  let m := fadd (fadd (fmul x x) (fmul y y)) (fmul z z) in
  let r := r_of m in
  (fmul x r, fmul y r, fmul z r).

(** math.h:254 elsewhere. No sqrt is declared in ce::math, so the function compiles only after <cmath>, whose sqrt(float) this is. *)
Definition r_portable (m : spec_float) : spec_float := fdiv f_one (fsqrt m).
