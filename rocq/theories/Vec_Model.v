(** Model of the vector products and of in_polygon in lib/h/ce/ce.h. No proofs.
    Vectors of int32_t; the products are int64_t (the type of dotx of two int32_t), and signed overflow is UB. *)
From Verif Require Import Base.
Local Open Scope Z_scope.

Definition vec2 : Type := (Z * Z)%type.
Definition vec3 : Type := (Z * Z * Z)%type.

(** ce.h:600-604 sqrx and dotx of scalars, int32_t and int64_t. An int64_t product of two int32_t is exact. *)
Definition sqrx32 (a : Z) : res Z := chk64 (a * a).
Definition dotx32 (a b : Z) : res Z := chk64 (a * b).
Definition sqrx64 (a : Z) : res Z := chk64 (a * a).
Definition dotx64 (a b : Z) : res Z := chk64 (a * b).

(** ce.h:609-613 sqrx of vec2. *)
Definition sqrx2 (a : vec2) : res Z :=
  p <- chk64 (fst a * fst a) ;; q <- chk64 (snd a * snd a) ;; chk64 (p + q).

(** ce.h:615-619 dotx of vec2. *)
Definition dotx2 (a b : vec2) : res Z :=
  p <- chk64 (fst a * fst b) ;; q <- chk64 (snd a * snd b) ;; chk64 (p + q).

(** ce.h:621-625 dotx of vec3. *)
Definition dotx3 (a b : vec3) : res Z :=
  let '(ax, ay, az) := a in
  let '(bx, by_, bz) := b in
  p <- chk64 (ax * bx) ;; q <- chk64 (ay * by_) ;; s <- chk64 (p + q) ;; r <- chk64 (az * bz) ;; chk64 (s + r).

(** ce.h:627-631 crossx of vec2. *)
Definition crossx2 (a b : vec2) : res Z :=
  p <- chk64 (fst a * snd b) ;; q <- chk64 (snd a * fst b) ;; chk64 (p - q).

(** ce.h:633-637 crossx of vec3. *)
Definition crossx3 (a b : vec3) : res vec3 :=
  let '(ax, ay, az) := a in
  let '(bx, by_, bz) := b in
  x <- crossx2 (ay, az) (by_, bz) ;; y <- crossx2 (az, ax) (bz, bx) ;; z <- crossx2 (ax, ay) (bx, by_) ;; Ok (x, y, z).

(** ce.h:674-692 the loop of in_polygon_xy, in the int64_t instantiation that in_polygon makes; w is a size_t.
    The ^ of two int64_t is negative when their sign bits differ. *)
Fixpoint ip_loop (x y bx by_ w : Z) (ps : list vec2) : res Z :=
  match ps with
  | [] => Ok w
  | p :: ps =>
      let ax := bx in
      let ay := by_ in
      bx <- chk64 (x - fst p) ;;
      by_ <- chk64 (y - snd p) ;;
      if Z.lxor ay by_ <? 0 then
        m <- chk64 (ax * by_) ;;
        n <- chk64 (ay * bx) ;;
        ab <- chk64 (m - n) ;;
        let d := if Z.lxor by_ ab <? 0 then (if 0 <? ab then 1 else 0) - (if ab <? 0 then 1 else 0) else 0 in
        ip_loop x y bx by_ (u64 (w + d)) ps
      else ip_loop x y bx by_ w ps
  end.

(** ce.h:665-699 in_polygon (in_polygon_xy with T = int64_t). *)
Definition in_polygon (p : vec2) (ps : list vec2) : res Z :=
  match ps with
  | [] => Ok 0
  | _ =>
      let q := last ps (0, 0) in
      bx <- chk64 (fst p - fst q) ;;
      by_ <- chk64 (snd p - snd q) ;;
      ip_loop (fst p) (snd p) bx by_ 0 ps
  end.
