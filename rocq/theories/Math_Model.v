(** Model of the exact integer part of lib/h/ce/math.h. No proofs.
    Coordinates are int32_t, products int64_t; signed overflow is UB. A left shift of a signed value is a multiplication that
    must not overflow (C++20 and every supported compiler accept negative operands; an overflowing shift is treated as UB).
    A narrowing cast wraps. *)
From Verif Require Import Base Vec_Model.
Local Open Scope Z_scope.

(** ce.h:643-644 operator+ and operator- of vec2, on int32_t. *)
Definition sub2 (a b : vec2) : res vec2 := x <- chk32 (fst a - fst b) ;; y <- chk32 (snd a - snd b) ;; Ok (x, y).
Definition add2 (a b : vec2) : res vec2 := x <- chk32 (fst a + fst b) ;; y <- chk32 (snd a + snd b) ;; Ok (x, y).

(** math.h:40-50 ab_less_cd of the MSVC build. _mul128 returns the low half (as unsigned) and stores the signed high half. *)
Definition mul128 (a b : Z) : Z * Z := (a * b mod 2 ^ 64, a * b / 2 ^ 64).
Definition ab_less_cd_msvc (a b c d : Z) : res bool :=
  let '(ablo, abhi) := mul128 a b in
  let '(cdlo, cdhi) := mul128 c d in
  h <- chk64 (cdhi + (if ablo <? cdlo then 1 else 0)) ;;
  Ok (abhi <? h).

(** math.h:53-56 ab_less_cd of the other builds: products in __int128, overflow checked. *)
Definition chk128 (x : Z) : res Z := if in_sb 128 x then Ok x else UB.
Definition ab_less_cd (a b c d : Z) : res bool := ab <- chk128 (a * b) ;; cd <- chk128 (c * d) ;; Ok (ab <? cd).

(** math.h:82-93 muldiv with int64_t ratio. d >> 16 is arithmetic; division truncates; dividing -2^63 by -1 is UB. *)
Definition div64 (a b : Z) : res Z := if b =? 0 then UB else chk64 (Z.quot a b).
Definition muldiv64 (b : vec2) (n d : Z) : res vec2 :=
  let d16 := Z.shiftr d 16 in
  if d16 =? 0 then Ok b
  else
    n16 <- chk64 (n * 2 ^ 16) ;;
    t <- div64 n16 d16 ;;
    x <- chk64 (fst b * t) ;;
    y <- chk64 (snd b * t) ;;
    Ok (s32 (Z.shiftr x 32), s32 (Z.shiftr y 32)).

(** math.h:95-98 muldiv with int32_t ratio. *)
Definition muldiv32 (b : vec2) (n d : Z) : res vec2 :=
  x <- chk64 (fst b * n) ;; x <- div64 x d ;; y <- chk64 (snd b * n) ;; y <- div64 y d ;; Ok (s32 x, s32 y).

(** math.h:113-129 inside. *)
Definition inside (a b : vec2) : res bool :=
  axby <- chk64 (fst a * snd b) ;;
  aybx <- chk64 (snd a * fst b) ;;
  if negb (axby =? aybx) then Ok (axby <? aybx)
  else if negb (snd a =? snd b) then Ok (snd b <? snd a)
  else Ok (fst a <? fst b).

(** math.h:108 the test the comment gives: `inside(a - p, b - p) && inside(b - p, c - p) && inside(c - p, a - p)`. *)
Definition inside3 (p a b c : vec2) : res bool :=
  a <- sub2 a p ;; b <- sub2 b p ;; c <- sub2 c p ;;
  i <- inside a b ;;
  if i then (j <- inside b c ;; if j then inside c a else Ok false) else Ok false.

Definition dot64 (a b c d : Z) : res Z := p <- chk64 (a * b) ;; q <- chk64 (c * d) ;; chk64 (p + q).

(** math.h:131 in_range_rr. *)
Definition in_range_rr (x y rr : Z) : res bool := s <- dot64 x x y y ;; Ok (s <? rr).

(** math.h:135-145 in_range_rr_line. *)
Definition in_range_rr_line (px py rr dx dy : Z) : res bool :=
  pp <- dot64 px px py py ;;
  if pp <? rr then Ok true
  else
    dp <- dot64 px dx py dy ;;
    dd <- dot64 dx dx dy dy ;;
    e <- chk64 (pp - rr) ;;
    ab_less_cd dd e dp dp.

(** math.h:148-163 in_range_rr_edge. *)
Definition in_range_rr_edge (px py rr dx dy : Z) : res bool :=
  dp <- dot64 px dx py dy ;;
  if dp <? 0 then Ok false
  else
    pp <- dot64 px px py py ;;
    if pp <? rr then Ok true
    else
      dd <- dot64 dx dx dy dy ;;
      if dd <? dp then Ok false
      else
        e <- chk64 (pp - rr) ;;
        ab_less_cd dd e dp dp.

(** math.h:166-179 in_range_rr_ray. *)
Definition in_range_rr_ray (px py rr dx dy : Z) : res bool :=
  pp <- dot64 px px py py ;;
  if pp <? rr then Ok true
  else
    dp <- dot64 px dx py dy ;;
    if dp <? 0 then Ok false
    else
      dd <- dot64 dx dx dy dy ;;
      e <- chk64 (pp - rr) ;;
      ab_less_cd dd e dp dp.

(** math.h:182-202 in_range_rr_segment. *)
Definition in_range_rr_segment (px py rr dx dy : Z) : res bool :=
  pp <- dot64 px px py py ;;
  if pp <? rr then Ok true
  else
    dp <- dot64 px dx py dy ;;
    if dp <? 0 then Ok false
    else
      ux <- chk64 (px - dx) ;;
      uy <- chk64 (py - dy) ;;
      uu <- dot64 ux ux uy uy ;;
      if uu <? rr then Ok true
      else
        dd <- dot64 dx dx dy dy ;;
        if dd <? dp then Ok false
        else
          e <- chk64 (pp - rr) ;;
          ab_less_cd dd e dp dp.

(** math.h:204-207 ball_hits_edge and 209-212 ball_hits_ray. *)
Definition ball_hits_edge (p : vec2) (rr : Z) (a b : vec2) : res bool :=
  v <- sub2 p a ;; d <- sub2 b a ;; in_range_rr_edge (fst v) (snd v) rr (fst d) (snd d).
Definition ball_hits_ray (p : vec2) (rr : Z) (a b : vec2) : res bool :=
  v <- sub2 p a ;; d <- sub2 b a ;; in_range_rr_ray (fst v) (snd v) rr (fst d) (snd d).

(** math.h:261-277 intersect with T = int32_t: the flag and the result. *)
Definition intersect (p0 p1 q0 q1 : vec2) : res (bool * vec2) :=
  p <- sub2 p1 p0 ;;
  q <- sub2 q1 q0 ;;
  d <- crossx2 p q ;;
  if d =? 0 then Ok (false, p0)
  else
    r <- sub2 q0 p0 ;;
    t <- crossx2 r q ;;
    m <- muldiv64 p t d ;;
    s <- add2 p0 m ;;
    Ok (true, s).

(** math.h:418 degrees_to_angle. *)
Definition degrees_to_angle (d : Z) : res Z := m <- chk64 (d * 0x10000000) ;; q <- div64 m 45 ;; Ok (s32 q).
