(** Model of the CORDIC routines of lib/h/ce/math.h. No proofs.
    int32_t and int64_t with checked overflow; >> of a negative value is arithmetic; casts to int wrap. The constants are
    computed as the compiler computes them: IEEE 754 binary64, rounding to nearest even, from Coq's SpecFloat. *)
From Coq Require Import Floats.SpecFloat.
From Verif Require Import Base Vec_Model.
Local Open Scope Z_scope.

(** double arithmetic. *)
Definition dbl (z : Z) : spec_float := binary_normalize 53 1024 z 0 false.
Definition dadd := SFadd 53 1024.
Definition dsub := SFsub 53 1024.
Definition dmul := SFmul 53 1024.
Definition ddiv := SFdiv 53 1024.

(** math.h:297 f_eq: a - b == 0. *)
Definition f_eq (a b : spec_float) : bool := SFeqb (dsub a b) (dbl 0).

(** math.h:299-302 c_arctan with four arguments; fuel for the recursion, None when it is not enough. *)
Fixpoint c_arctan4 (fuel : nat) (a xx n d : spec_float) : option spec_float :=
  match fuel with
  | O => None
  | S fuel =>
      if f_eq a (dadd a (ddiv n d)) then Some (dadd a (ddiv n d))
      else c_arctan4 fuel (dadd a (ddiv n d)) xx (dmul n xx) (dadd d (dbl 2))
  end.

(** math.h:304-307 c_arctan. The literal .2 is the double nearest to 1/5, so ddiv 1 5. *)
Definition c_arctan1 (x : spec_float) : option spec_float :=
  match c_arctan4 100 (dbl 0) (dmul (SFopp x) x) (dmul (dmul (dmul (dmul x x) x) x) x) (dbl 5) with
  | Some s => Some (dadd (dsub x (ddiv (dmul (dmul x x) x) (dbl 3))) s)
  | None => None
  end.
Definition c_arctan (x : spec_float) : option spec_float :=
  if SFeqb x (dbl 1) then
    match c_arctan1 (ddiv (dbl 1) (dbl 5)), c_arctan1 (ddiv (dbl 1) (dbl 239)) with
    | Some a, Some b => Some (dsub (dmul (dbl 4) a) b)
    | _, _ => None
    end
  else c_arctan1 x.

(** math.h:309 c_pi. *)
Definition c_pi : option spec_float := match c_arctan (dbl 1) with Some a => Some (dmul a (dbl 4)) | None => None end.

(** The cast of a double to int64_t: towards zero (the values here are positive and far below 2^63). *)
Definition trunc (f : spec_float) : option Z :=
  match f with
  | S754_zero _ => Some 0
  | S754_finite s m e => let v := if e <? 0 then Z.pos m / 2 ^ (- e) else Z.pos m * 2 ^ e in Some (if s then - v else v)
  | _ => None
  end.

(** math.h:311 dki. *)
Definition dki (n : Z) : option Z :=
  match c_arctan (ddiv (dbl 1) (dbl (2 ^ n))), c_pi with
  | Some a, Some pi => trunc (dadd (ddiv (dmul a (dbl (2 ^ 62))) pi) (ddiv (dbl 1) (dbl 2)))
  | _, _ => None
  end.

(** math.h:316 k: 0.6072529350088812561694 * (1ll << 32), towards zero. The double nearest to the literal is within 2^-53
    of it, which does not change the integer part. *)
Definition cordic_k : Z := 6072529350088812561694 * 2 ^ 32 / 10 ^ 22.

(** math.h:317 ks, indices 0..31 (a missing value would be 0; none is, see ks_values in Cordic_Proofs.v). *)
Definition ks : list Z := map (fun n => match dki (Z.of_nat n) with Some v => v | None => 0 end) (seq 0 32).

(** (v ^ d) - d for d = 0 or -1. *)
Definition flip_by (v d : Z) : res Z := chk64 (Z.lxor v d - d).

(** math.h:325-336 the loop of rotate from index i, with the remaining ks. *)
Fixpoint rotate_loop (i : Z) (x y z : Z) (ks : list Z) : res (Z * Z * Z) :=
  match ks with
  | [] => Ok (x, y, z)
  | k :: ks =>
      let d := if z <? 0 then -1 else 0 in
      dx <- flip_by y d ;;
      dy <- flip_by x d ;;
      dz <- flip_by k d ;;
      x <- chk64 (x - Z.shiftr dx i) ;;
      y <- chk64 (y + Z.shiftr dy i) ;;
      z <- chk64 (z - dz) ;;
      rotate_loop (i + 1) x y z ks
  end.

(** int((v + 0x80000000) >> 32). *)
Definition round32 (v : Z) : res Z := w <- chk64 (v + 0x80000000) ;; Ok (s32 (Z.shiftr w 32)).

(** math.h:319-356 rotate. CE_ERROR() after the switch is the outcome UB here: C45 shows it is never reached. *)
Definition rotate (x0 y0 z0 : Z) : res vec2 :=
  x <- chk64 (x0 * cordic_k) ;;
  y <- chk64 (y0 * cordic_k) ;;
  z <- chk64 (Z.land z0 0x1fffffff * 0x100000000) ;;
  '(x, y, z) <- rotate_loop 0 x y z ks ;;
  x0 <- round32 x ;;
  y0 <- round32 y ;;
  let q := Z.land z0 0x60000000 in
  if q =? 0 then Ok (x0, y0)
  else if q =? 0x20000000 then n <- chk32 (- y0) ;; Ok (n, x0)
  else if q =? 0x40000000 then m <- chk32 (- x0) ;; n <- chk32 (- y0) ;; Ok (m, n)
  else if q =? 0x60000000 then m <- chk32 (- x0) ;; Ok (y0, m)
  else UB.

(** math.h:377-388 the loop of vector. *)
Fixpoint vector_loop (i : Z) (x y z : Z) (ks : list Z) : res (Z * Z * Z) :=
  match ks with
  | [] => Ok (x, y, z)
  | k :: ks =>
      let d := if y <? 0 then -1 else 0 in
      dx <- flip_by y d ;;
      dy <- flip_by x d ;;
      dz <- flip_by k d ;;
      x <- chk64 (x + Z.shiftr dx i) ;;
      y <- chk64 (y - Z.shiftr dy i) ;;
      z <- chk64 (z + dz) ;;
      vector_loop (i + 1) x y z ks
  end.

(** math.h:358-395 vector. *)
Definition vector (x0 y0 z0 : Z) : res vec2 :=
  x <- chk64 (x0 * cordic_k) ;;
  y <- chk64 (y0 * cordic_k) ;;
  z <- chk64 (z0 * 0x100000000) ;;
  '(x, y, z) <- (if x <? 0 then
                   x <- chk64 (- x) ;;
                   y <- chk64 (- y) ;;
                   z <- (if y <? 0 then chk64 (z + 0x4000000000000000) else chk64 (z - 0x4000000000000000)) ;;
                   Ok (x, y, z)
                 else Ok (x, y, z)) ;;
  '(x, y, z) <- vector_loop 0 x y z ks ;;
  x0 <- round32 x ;;
  z0 <- round32 z ;;
  Ok (x0, z0).

(** math.h:401-415 the public functions. *)
Definition to_cartesian (r t : Z) : res vec2 := rotate r 0 t.
Definition cos_2pi (r t : Z) : res Z := v <- rotate r 0 t ;; Ok (fst v).
Definition sin_2pi (r t : Z) : res Z := v <- rotate r 0 t ;; Ok (snd v).
Definition to_polar (x y : Z) : res vec2 := vector x y 0.
Definition polar_mag (x y : Z) : res Z := v <- vector x y 0 ;; Ok (fst v).
Definition polar_ang (x y : Z) : res Z := v <- vector x y 0 ;; Ok (snd v).
Definition atan2_2pi (y x : Z) : res Z := v <- vector x y 0 ;; Ok (snd v).
