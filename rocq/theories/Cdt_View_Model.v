(** Model of the read access of lib/h/ce/cdt.h: faces, edges and their views. No proofs. *)
From Coq Require Import List.
Import ListNotations.
From Verif Require Import Base Vec_Model Math_Model Cdt_Model.
Local Open Scope Z_scope.

(** cdt.h:129-135 struct face and 153-159 struct edge. *)
Record face_info := { f_ps : list (Z * Z); f_es : list Z; f_cs : list bool; f_data : Z }.
Record edge_info := { e_u : Z * Z; e_v : Z * Z; e_primary : bool; e_constrained : bool }.

Section View.
  Context (limit q : Z).

  (** { vs[p].x * m2w32, vs[p].y * m2w32 } with p the point of node n (cdt.h:143-145, 171-172, 197-198). m2w32 is 1 << Q. *)
  Definition world (s : mesh) (n : Z) : res (Z * Z) :=
    p <- get_p limit s n ;; '(x, y) <- get_v limit s p ;; x <- chk32 (x * 2 ^ q) ;; y <- chk32 (y * 2 ^ q) ;; Ok (x, y).

  (** cdt.h:137-151 operator[](face_id_t). *)
  Definition face_at (s : mesh) (f : Z) : res face_info :=
    let n := f / 4 in
    p0 <- world s (4 * n) ;; p1 <- world s (4 * n + 1) ;; p2 <- world s (4 * n + 2) ;;
    e0 <- get_e limit s (4 * n) ;; e1 <- get_e limit s (4 * n + 1) ;; e2 <- get_e limit s (4 * n + 2) ;;
    c0 <- get_c limit s (4 * n) ;; c1 <- get_c limit s (4 * n + 1) ;; c2 <- get_c limit s (4 * n + 2) ;;
    d <- get_fi limit s n ;;
    Ok {| f_ps := [p0; p1; p2]; f_es := [e0; e1; e2]; f_cs := [negb (c0 =? 0); negb (c1 =? 0); negb (c2 =? 0)]; f_data := d |}.

  (** cdt.h:161-176 operator[](edge_id_t), and 187-202 operator* of the edge iterator, which is the same. *)
  Definition edge_at (s : mesh) (en : Z) : res edge_info :=
    u <- world s (nxt en) ;; v <- world s (prv en) ;; e <- get_e limit s en ;; c <- get_c limit s en ;;
    Ok {| e_u := u; e_v := v; e_primary := e <? en; e_constrained := negb (c =? 0) |}.

  (** cdt.h:204-208 ++ of the edge iterator, 210 its !=, 213-214 begin and end. What a range-based for over edges() sees. *)
  Definition view_end (s : mesh) : Z := if size s <? 4 then 24 else 4 * 2 * size s.
  Definition edge_step (en : Z) : Z := if en mod 4 <? 2 then en + 1 else en + 2.
  Fixpoint edges_from (fuel : nat) (s : mesh) (en : Z) : res (list edge_info) :=
    match fuel with
    | O => Timeout
    | S fuel =>
        if en =? view_end s then Ok []
        else (x <- edge_at s en ;; l <- edges_from fuel s (edge_step en) ;; Ok (x :: l))
    end.
  Definition edges_view (fuel : nat) (s : mesh) : res (list edge_info) := edges_from fuel s 24.

  (** cdt.h:219-243 the face view: ++ is fn += 4. *)
  Fixpoint faces_from (fuel : nat) (s : mesh) (fn : Z) : res (list face_info) :=
    match fuel with
    | O => Timeout
    | S fuel =>
        if fn =? view_end s then Ok []
        else (x <- face_at s fn ;; l <- faces_from fuel s (fn + 4) ;; Ok (x :: l))
    end.
  Definition faces_view (fuel : nat) (s : mesh) : res (list face_info) := faces_from fuel s 24.

  (** cdt.h:485-490 edge_vert_a, 492-497 edge_vert_b, 499-504 edge_vert_o. *)
  Definition edge_vert_a (s : mesh) (e : Z) : res (Z * Z) := world s (if e mod 4 <? 2 then e + 1 else e - 2).
  Definition edge_vert_b (s : mesh) (e : Z) : res (Z * Z) := world s (if e mod 4 >? 0 then e - 1 else e + 2).
  Definition edge_vert_o (s : mesh) (e : Z) : res (Z * Z) := world s e.
End View.

(** cdt.h:475-478 on. *)
Definition on (ax ay bx by_ : Z) : res bool := l <- chk64 (ax * by_) ;; r <- chk64 (ay * bx) ;; Ok (l =? r).
(** cdt.h:480-483 collinear. *)
Definition collinear (ax ay bx by_ cx cy : Z) : res bool :=
  u <- chk64 (bx - ax) ;; v <- chk64 (by_ - ay) ;; w <- chk64 (cx - ax) ;; z <- chk64 (cy - ay) ;; on u v w z.
