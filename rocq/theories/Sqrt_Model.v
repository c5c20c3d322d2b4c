(** Model of isqrt and hypot of lib/h/ce/math.h. No proofs.
    double is IEEE 754 binary64 with rounding to nearest even (the default MXCSR), from Coq's SpecFloat. *)
From Coq Require Import Floats.SpecFloat.
From Verif Require Import Base Cordic_Model.
Local Open Scope Z_scope.

(** Integer part and rounding of a magnitude m * 2^e, to nearest, ties to even. *)
Definition near_even (m e : Z) : Z :=
  if 0 <=? e then m * 2 ^ e
  else let q := m / 2 ^ (- e) in
       let r := m mod 2 ^ (- e) in
       if 2 * r <? 2 ^ (- e) then q else if 2 ^ (- e) <? 2 * r then q + 1 else if Z.even q then q else q + 1.

(** _mm_cvtsd_si32 (cvtsd2si): to nearest even; NaN, infinities and values outside int32 give 0x80000000. *)
Definition cvtsd_si32 (f : spec_float) : Z :=
  match f with
  | S754_zero _ => 0
  | S754_finite s m e => let v := if s then - near_even (Z.pos m) e else near_even (Z.pos m) e in
                         if in_sb 32 v then v else - 2 ^ 31
  | _ => - 2 ^ 31
  end.

(** math.h:216-221 isqrt of an int64_t, x86. _mm_cvtsi64_sd is dbl and _mm_sqrt_sd is SFsqrt. *)
Definition isqrt (v : Z) : Z := cvtsd_si32 (SFsqrt 53 1024 (dbl v)).

(** math.h:223-228 hypot, x86. *)
Definition hypot (x y : Z) : res Z :=
  xx <- chk64 (x * x) ;;
  yy <- chk64 (y * y) ;;
  s <- chk64 (xx + yy) ;;
  Ok (isqrt s).

(** math.h:245-248 hypot, elsewhere: int() of a double truncates, and is undefined when the result is not an int. *)
Definition hypot_portable (x y : Z) : res Z :=
  match trunc (SFsqrt 53 1024 (dadd (dmul (dbl x) (dbl x)) (dmul (dbl y) (dbl y)))) with
  | Some v => chk32 v
  | None => UB
  end.
