(** Model of lib/h/ce/cdt.h: the constrained Delaunay triangulation. No proofs.
    The CE_ASSERTs are left out here (they change nothing as long as they hold); Cdt_Debug_Model has the code with them. *)
From Verif Require Import Base Vec_Model Math_Model.
Local Open Scope Z_scope.

(** cdt.h:57-127: the arrays. A node n is 4 * face + {0, 1, 2}: es[n] has pt (p), tw (e) and co (c). Node 4 * face + 3 is fi and one
    coordinate; the model keeps these apart, and using such a node (or one beyond the array) as an edge is UB. Vertex v is (vx v, vy v).
    Faces 2v and 2v+1 are stored with vertex v (the union), so the new vertex's nodes are 8v .. 8v+7. *)
Record mesh := {
  size : Z;
  pt : Z -> Z; tw : Z -> Z; co : Z -> Z;
  fi : Z -> Z;
  vx : Z -> Z; vy : Z -> Z
}.

Definition put (f : Z -> Z) (i v : Z) : Z -> Z := fun j => if j =? i then v else f j.

(** cdt.h:355-361 and elsewhere: n % 4 < 2 ? n + 1 : n - 2 and n % 4 > 0 ? n - 1 : n + 2. *)
Definition nxt (n : Z) : Z := if n mod 4 <? 2 then n + 1 else n - 2.
Definition prv (n : Z) : Z := if n mod 4 >? 0 then n - 1 else n + 2.

Section Cdt.
  (** c_limit (cdt.h:43), at most 8192; Q (cdt.h:33, m2w32 = 1 << Q at 39); and whether 64-bit overflow in incircle wraps around
      (wrap = true: what the supported compilers generate, or -fwrapv) or is undefined (wrap = false: the language). *)
  Context (limit q : Z) (wrap : bool).

  Definition edge_node (n : Z) : bool := (0 <=? n) && (n <? 8 * limit) && negb (n mod 4 =? 3).
  Definition face_index (f : Z) : bool := (0 <=? f) && (f <? 2 * limit).
  Definition vert_index (v : Z) : bool := (0 <=? v) && (v <? limit).

  (** Array reads and writes. p has 13 bits, c has 3, e and fi have 16 and x and y are int16_t. *)
  Definition get_p (s : mesh) (n : Z) : res Z := if edge_node n then Ok (pt s n) else UB.
  Definition get_e (s : mesh) (n : Z) : res Z := if edge_node n then Ok (tw s n) else UB.
  Definition get_c (s : mesh) (n : Z) : res Z := if edge_node n then Ok (co s n) else UB.
  Definition get_fi (s : mesh) (f : Z) : res Z := if face_index f then Ok (fi s f) else UB.
  Definition get_v (s : mesh) (v : Z) : res (Z * Z) := if vert_index v then Ok (vx s v, vy s v) else UB.
  Definition set_p (s : mesh) (n v : Z) : res mesh :=
    if edge_node n then Ok {| size := size s; pt := put (pt s) n (v mod 2 ^ 13); tw := tw s; co := co s; fi := fi s; vx := vx s; vy := vy s |} else UB.
  Definition set_e (s : mesh) (n v : Z) : res mesh :=
    if edge_node n then Ok {| size := size s; pt := pt s; tw := put (tw s) n (u16 v); co := co s; fi := fi s; vx := vx s; vy := vy s |} else UB.
  Definition set_c (s : mesh) (n v : Z) : res mesh :=
    if edge_node n then Ok {| size := size s; pt := pt s; tw := tw s; co := put (co s) n (v mod 2 ^ 3); fi := fi s; vx := vx s; vy := vy s |} else UB.
  Definition set_fi (s : mesh) (f v : Z) : res mesh :=
    if face_index f then Ok {| size := size s; pt := pt s; tw := tw s; co := co s; fi := put (fi s) f (u16 v); vx := vx s; vy := vy s |} else UB.
  Definition set_v (s : mesh) (v x y : Z) : res mesh :=
    if vert_index v then Ok {| size := size s; pt := pt s; tw := tw s; co := co s; fi := fi s; vx := put (vx s) v (s16 x); vy := put (vy s) v (s16 y) |} else UB.
  Definition set_size (s : mesh) (n : Z) : mesh :=
    {| size := n; pt := pt s; tw := tw s; co := co s; fi := fi s; vx := vx s; vy := vy s |}.
  (** All of es[n] at once. *)
  Definition set_edge (s : mesh) (n c p e : Z) : res mesh := s <- set_c s n c ;; s <- set_p s n p ;; set_e s n e.

  (** cdt.h:245-282 reset. What was in the arrays before stays beyond the first four vertices. *)
  Definition lo : Z := - 2 ^ 15.
  Definition hi : Z := 2 ^ 15 - 1.
  Definition reset_face (s : mesh) (f : Z) : res mesh :=
    s <- set_edge s (4 * f) 1 0 0 ;; s <- set_edge s (4 * f + 1) 1 0 0 ;; s <- set_edge s (4 * f + 2) 1 0 0 ;; set_fi s f 0.
  Definition reset (s : mesh) : res mesh :=
    let s := set_size s 4 in
    s <- reset_face s 0 ;; s <- reset_face s 1 ;; s <- set_v s 0 lo lo ;;
    s <- reset_face s 2 ;; s <- reset_face s 3 ;; s <- set_v s 1 hi lo ;;
    s <- reset_face s 4 ;; s <- reset_face s 5 ;; s <- set_v s 2 lo hi ;;
    s <- set_edge s 24 0 0 28 ;; s <- set_edge s 25 1 2 0 ;; s <- set_edge s 26 1 1 0 ;; s <- set_fi s 6 0 ;;
    s <- set_edge s 28 0 3 24 ;; s <- set_edge s 29 1 1 0 ;; s <- set_edge s 30 1 2 0 ;; s <- set_fi s 7 0 ;;
    set_v s 3 hi hi.

  (** 64-bit arithmetic in incircle. *)
  Definition ar (x : Z) : res Z := if wrap then Ok (s64 x) else chk64 x.

  (** cdt.h:314-341 incircle(f, v). The differences and the terms up to ab are at most 2^34 in magnitude: only the last five
      operations can overflow. *)
  Definition incircle (s : mesh) (f v : Z) : res bool :=
    '(x, y) <- get_v s v ;;
    pa <- get_p s (4 * f) ;; pb <- get_p s (4 * f + 1) ;; pc <- get_p s (4 * f + 2) ;;
    '(ax, ay) <- get_v s pa ;; '(bx, by_) <- get_v s pb ;; '(cx, cy) <- get_v s pc ;;
    ax <- chk64 (ax - x) ;; ay <- chk64 (ay - y) ;;
    bx <- chk64 (bx - x) ;; by_ <- chk64 (by_ - y) ;;
    cx <- chk64 (cx - x) ;; cy <- chk64 (cy - y) ;;
    aa <- dot64 ax ax ay ay ;; bb <- dot64 bx bx by_ by_ ;; cc <- dot64 cx cx cy cy ;;
    bc <- crossx2 (bx, by_) (cx, cy) ;; ca <- crossx2 (cx, cy) (ax, ay) ;; ab <- crossx2 (ax, ay) (bx, by_) ;;
    aabc <- ar (aa * bc) ;; bbca <- ar (bb * ca) ;; ccab <- ar (cc * ab) ;;
    t <- ar (aabc + bbca) ;; t <- ar (t + ccab) ;;
    Ok (t <? 0).

  (** cdt.h:343-387 do_flip without the four flips that follow when More. *)
  Definition do_flip (s : mesh) (ae : Z) : res mesh :=
    be <- get_e s ae ;;
    let a1 := nxt ae in
    let a2 := prv ae in
    let b1 := nxt be in
    let b2 := prv be in
    p <- get_p s be ;; s <- set_p s a1 p ;;
    p <- get_p s ae ;; s <- set_p s b1 p ;;
    u2 <- get_e s a2 ;;
    v2 <- get_e s b2 ;;
    s <- set_e s ae v2 ;;
    s <- (if negb (v2 =? 0) then set_e s v2 ae else Ok s) ;;
    s <- set_e s be u2 ;;
    s <- (if negb (u2 =? 0) then set_e s u2 be else Ok s) ;;
    c <- get_c s b2 ;; s <- set_c s ae c ;;
    s <- set_c s b2 0 ;;
    c <- get_c s a2 ;; s <- set_c s be c ;;
    s <- set_c s a2 0 ;;
    s <- set_e s a2 b2 ;;
    set_e s b2 a2.

  (** cdt.h:398-422 can_flip. *)
  Definition can_flip (s : mesh) (e : Z) : res bool :=
    c <- get_c s e ;;
    if negb (c =? 0) then Ok false
    else
      p <- get_p s e ;; '(x, y) <- get_v s p ;;
      p1 <- get_p s (nxt e) ;; '(p1x, p1y) <- get_v s p1 ;;
      ax <- chk64 (p1x - x) ;; ay <- chk64 (p1y - y) ;;
      t <- get_e s e ;;
      p <- get_p s t ;; '(q0x, q0y) <- get_v s p ;;
      p <- get_p s (nxt t) ;; '(q1x, q1y) <- get_v s p ;;
      bx <- chk64 (q0x - x) ;; by_ <- chk64 (q0y - y) ;;
      cx <- chk64 (q1x - x) ;; cy <- chk64 (q1y - y) ;;
      l <- chk64 (ax * by_) ;; r <- chk64 (ay * bx) ;;
      if l <? r then (l <- chk64 (bx * cy) ;; r <- chk64 (by_ * cx) ;; Ok (l <? r)) else Ok false.

  (** cdt.h:424-432 try_flip. *)
  Definition try_flip (s : mesh) (e : Z) : res (mesh * bool) :=
    b <- can_flip s e ;;
    if negb b then Ok (s, false) else (s <- do_flip s e ;; Ok (s, true)).

  (** cdt.h:434-450 flip, with the calls of do_flip<true> (389-395). *)
  Fixpoint flip (fuel : nat) (s : mesh) (ae : Z) : res (mesh * bool) :=
    match fuel with
    | O => Timeout
    | S fuel =>
        c <- get_c s ae ;;
        if negb (c =? 0) then Ok (s, false)
        else
          be <- get_e s ae ;;
          p <- get_p s be ;;
          b <- incircle s (ae / 4) p ;;
          if negb b then Ok (s, false)
          else
            s <- do_flip s ae ;;
            '(s, _) <- flip fuel s ae ;;
            '(s, _) <- flip fuel s (nxt ae) ;;
            '(s, _) <- flip fuel s be ;;
            '(s, _) <- flip fuel s (nxt be) ;;
            Ok (s, true)
    end.

  (** vec2<int64_t>{ vs[v].x - px, vs[v].y - py } for the vertex of node n. *)
  Definition rel (s : mesh) (px py n : Z) : res (Z * Z) :=
    v <- get_p s n ;; '(x, y) <- get_v s v ;; x <- chk64 (x - px) ;; y <- chk64 (y - py) ;; Ok (x, y).

  (** cdt.h:470-473 in; the strict test of refine and insert_point_at_node. *)
  Definition in_ (a b : Z * Z) : res bool := l <- chk64 (fst a * snd b) ;; r <- chk64 (snd a * fst b) ;; Ok (l <=? r).
  Definition in_strict (a b : Z * Z) : res bool := l <- chk64 (fst a * snd b) ;; r <- chk64 (snd a * fst b) ;; Ok (l <? r).

  (** cdt.h:452-468 refine. *)
  Definition edge_bits (a b c : Z * Z) : res Z :=
    i <- in_strict b c ;; j <- in_strict c a ;; k <- in_strict a b ;;
    Ok ((if i : bool then 1 else 0) + (if j : bool then 2 else 0) + (if k : bool then 4 else 0)).
  Definition refine (s : mesh) (x y n : Z) : res Z :=
    a <- rel s x y n ;; b <- rel s x y (n + 1) ;; c <- rel s x y (n + 2) ;;
    e <- edge_bits a b c ;;
    Ok (if e =? 3 then n + 2 else if e =? 5 then n + 1 else if e =? 6 then n else if e =? 7 then n + 3 else 0).

  (** cdt.h:561-575 the spin: None is return 0, else (e, p0, p2) after the break. *)
  Fixpoint spin (fuel : nat) (s : mesh) (px py e : Z) (p1 p2 : Z * Z) : res (option (Z * (Z * Z) * (Z * Z))) :=
    match fuel with
    | O => Timeout
    | S fuel =>
        if e =? 0 then Ok None
        else
          p0 <- rel s px py e ;;
          i <- in_ p0 p1 ;;
          if (i : bool) then Ok (Some (e, p0, p2))
          else (e <- get_e s (prv e) ;; spin fuel s px py e p1 p0)
    end.

  (** cdt.h:540-583 the walk. *)
  Fixpoint walk (fuel : nat) (s : mesh) (px py e : Z) (p1 p2 : Z * Z) : res Z :=
    match fuel with
    | O => Timeout
    | S fuel =>
        if e =? 0 then Ok 0
        else
          p0 <- rel s px py e ;;
          in1 <- in_ p2 p0 ;;
          in2 <- in_ p0 p1 ;;
          if (in1 && in2)%bool then Ok e
          else if (in1 && negb in2)%bool then (e <- get_e s (prv e) ;; walk fuel s px py e p1 p0)
          else if (negb in1 && in2)%bool then (e <- get_e s (nxt e) ;; walk fuel s px py e p0 p2)
          else
            e <- get_e s (nxt e) ;;
            r <- spin fuel s px py e p0 p2 ;;
            match r with
            | None => Ok 0
            | Some (e, p0', p2) =>
                i <- in_ p2 p0' ;;
                if (i : bool) then Ok e
                else (e <- get_e s (nxt e) ;; walk fuel s px py e p0' p2)
            end
    end.

  (** cdt.h:513-586 locate_insertion_node (the part that is compiled). *)
  Definition locate_insertion_node (fuel : nat) (s : mesh) (px py hint : Z) : res Z :=
    let hint := if (hint <? 24) || (hint >=? size s * 8) then size s * 8 - 4 else hint in
    let e := hint / 4 * 4 in
    p1 <- rel s px py (e + 1) ;;
    p2 <- rel s px py (e + 2) ;;
    i <- in_ p1 p2 ;;
    if negb i then (e <- get_e s e ;; walk fuel s px py e p2 p1) else walk fuel s px py e p1 p2.

  (** cdt.h:639-700 insert_point_at_node, in face: u0 is the face's first node. *)
  Definition insert_in_face (fuel : nat) (s : mesh) (px py u0 : Z) : res mesh :=
    let pn := size s in
    let s := set_size s (pn + 1) in
    let v0 := pn * 8 in
    let w0 := v0 + 4 in
    p0 <- get_p s u0 ;; p1 <- get_p s (u0 + 1) ;; p2 <- get_p s (u0 + 2) ;;
    c1 <- get_c s (u0 + 1) ;; c2 <- get_c s (u0 + 2) ;;
    f <- get_fi s (u0 / 4) ;;
    s <- set_edge s v0 0 p0 (u0 + 1) ;;
    e1 <- get_e s (u0 + 1) ;;
    s <- set_edge s (v0 + 1) c1 pn e1 ;;
    s <- (if negb (e1 =? 0) then set_e s e1 (v0 + 1) else Ok s) ;;
    s <- set_edge s (v0 + 2) 0 p2 (w0 + 1) ;;
    s <- set_fi s (v0 / 4) f ;;
    s <- set_edge s w0 0 p0 (u0 + 2) ;;
    s <- set_edge s (w0 + 1) 0 p1 (v0 + 2) ;;
    e2 <- get_e s (u0 + 2) ;;
    s <- set_edge s (w0 + 2) c2 pn e2 ;;
    s <- (if negb (e2 =? 0) then set_e s e2 (w0 + 2) else Ok s) ;;
    s <- set_fi s (w0 / 4) f ;;
    s <- set_v s pn px py ;;
    s <- set_p s u0 pn ;;
    s <- set_c s (u0 + 1) 0 ;; s <- set_e s (u0 + 1) v0 ;;
    s <- set_c s (u0 + 2) 0 ;; s <- set_e s (u0 + 2) w0 ;;
    '(s, _) <- flip fuel s u0 ;;
    '(s, _) <- flip fuel s (v0 + 1) ;;
    '(s, _) <- flip fuel s (w0 + 2) ;;
    Ok s.

  (** cdt.h:701-778 insert_point_at_node, on edge un. false: the edge is on the boundary (return false, 707). *)
  Definition insert_on_edge (fuel : nat) (s : mesh) (px py un : Z) : res (mesh * bool) :=
    let pn := size s in
    ve <- get_e s un ;;
    if ve =? 0 then Ok (s, false)
    else
      let '(ue, ve) := if ve <? un then (ve, un) else (un, ve) in
      let s := set_size s (pn + 1) in
      let u1 := nxt ue in
      let u2 := prv ue in
      let v1 := nxt ve in
      let v2 := prv ve in
      let xn := pn * 8 in
      let yn := pn * 8 + 4 in
      c <- get_c s ue ;; p <- get_p s ue ;;
      s <- set_edge s xn c p yn ;;
      c <- get_c s u1 ;; e <- get_e s u1 ;;
      s <- set_edge s (xn + 1) c pn e ;;
      e <- get_e s u1 ;;
      s <- (if negb (e =? 0) then set_e s e (xn + 1) else Ok s) ;;
      p <- get_p s u2 ;;
      s <- set_edge s (xn + 2) 0 p u1 ;;
      f <- get_fi s (ue / 4) ;; s <- set_fi s (xn / 4) f ;;
      s <- set_e s u1 (xn + 2) ;;
      s <- set_c s u1 0 ;;
      s <- set_p s u2 pn ;;
      c <- get_c s ve ;; p <- get_p s ve ;;
      s <- set_edge s yn c p xn ;;
      p <- get_p s v1 ;;
      s <- set_edge s (yn + 1) 0 p v2 ;;
      c <- get_c s v2 ;; e <- get_e s v2 ;;
      s <- set_edge s (yn + 2) c pn e ;;
      e <- get_e s v2 ;;
      s <- (if negb (e =? 0) then set_e s e (yn + 2) else Ok s) ;;
      f <- get_fi s (ve / 4) ;; s <- set_fi s (yn / 4) f ;;
      s <- set_v s pn px py ;;
      s <- set_e s v2 (yn + 1) ;;
      s <- set_c s v2 0 ;;
      s <- set_p s v1 pn ;;
      '(s, _) <- flip fuel s u2 ;;
      '(s, _) <- flip fuel s (xn + 1) ;;
      '(s, _) <- flip fuel s v1 ;;
      '(s, _) <- flip fuel s (yn + 2) ;;
      Ok (s, true).

  (** cdt.h:588-781 insert_point_at_node. *)
  Definition insert_point_at_node (fuel : nat) (s : mesh) (px py n : Z) : res (mesh * Z) :=
    if n =? 0 then Ok (s, 0)
    else
      let un := n / 4 * 4 in
      a <- rel s px py un ;; b <- rel s px py (un + 1) ;; c <- rel s px py (un + 2) ;;
      e <- edge_bits a b c ;;
      let k := if e =? 3 then 2 else if e =? 5 then 1 else if e =? 6 then 0 else if e =? 7 then 3 else 4 in
      if e =? 0 then Ok (s, 0)
      else if k =? 4 then Ok (s, un)
      else if size s >=? limit then Ok (s, 0)
      else if k =? 3 then (s <- insert_in_face fuel s px py un ;; Ok (s, un + 3))
      else ('(s, b) <- insert_on_edge fuel s px py (un + k) ;; Ok (s, if (b : bool) then un + k else 0)).

  (** cdt.h:783-786 insert_point. *)
  Definition insert_point64 (fuel : nat) (s : mesh) (px py hint : Z) : res (mesh * Z) :=
    n <- locate_insertion_node fuel s px py hint ;; insert_point_at_node fuel s px py n.

  (** cdt.h:506-511 next_edge. *)
  Definition next_edge (e : Z) : Z := let e := e + 1 in if e mod 4 =? 3 then e / 4 * 4 else e.

  (** cdt.h:788-809 constrain_edge. *)
  Definition constrain_edge (fuel : nat) (s : mesh) (en : Z) : res mesh :=
    t <- get_e s en ;;
    s <- set_c s t 1 ;; s <- set_c s en 1 ;;
    let e1 := next_edge en in
    let e2 := next_edge e1 in
    '(s, _) <- flip fuel s (next_edge e1) ;;
    '(s, _) <- flip fuel s (next_edge e2) ;;
    t <- get_e s en ;;
    let e1 := next_edge t in
    let e2 := next_edge e1 in
    '(s, _) <- flip fuel s (next_edge e1) ;;
    '(s, _) <- flip fuel s (next_edge e2) ;;
    Ok s.

  (** cdt.h:811-825 intersect_edges. *)
  Definition intersect_edges (q a b : Z * Z) : res (Z * Z) :=
    ux <- chk64 (fst b - fst a) ;; uy <- chk64 (snd b - snd a) ;;
    d <- crossx2 (ux, uy) q ;;
    t <- crossx2 q a ;;
    x <- chk64 (ux * t) ;; x <- div64 x d ;; x <- chk64 (fst a + x) ;;
    y <- chk64 (uy * t) ;; y <- div64 y d ;; y <- chk64 (snd a + y) ;;
    Ok (x, y).

  Definition is_zero (v : Z * Z) : bool := (fst v =? 0) && (snd v =? 0).
  Definition same_vec (v w : Z * Z) : bool := (fst v =? fst w) && (snd v =? snd w).

  (** cdt.h:827-845 split_constraint and 847-943 insert_edge. Each turn of the loop of insert_edge is edge_loop; the three cases differ
      only in which vertex of the face is the point: k is its index. *)
  Fixpoint insert_edge64 (fuel : nat) (s : mesh) (px py qx qy hint : Z) : res (mesh * bool) :=
    match fuel with
    | O => Timeout
    | S fuel =>
        n <- locate_insertion_node fuel s px py hint ;;
        '(s, pn) <- insert_point_at_node fuel s px py n ;;
        if pn =? 0 then Ok (s, false)
        else if (px =? qx) && (py =? qy) then Ok (s, true)
        else
          n <- locate_insertion_node fuel s qx qy pn ;;
          '(s, qn) <- insert_point_at_node fuel s qx qy n ;;
          if qn =? 0 then Ok (s, false)
          else
            pn <- locate_insertion_node fuel s px py pn ;;
            edge_loop fuel s px py qx qy pn
    end
  with edge_loop (fuel : nat) (s : mesh) (px py qx qy pn : Z) : res (mesh * bool) :=
    match fuel with
    | O => Timeout
    | S fuel =>
        let n := pn / 4 * 4 in
        p0 <- rel s px py n ;; p1 <- rel s px py (n + 1) ;; p2 <- rel s px py (n + 2) ;;
        x <- chk64 (qx - px) ;; y <- chk64 (qy - py) ;;
        let qv := (x, y) in
        if is_zero qv then Ok (s, true)
        else
          let '(k, r, l) := if is_zero p0 then (0, p1, p2) else if is_zero p1 then (1, p2, p0) else (2, p0, p1) in
          let k1 := (if k =? 0 then 1 else if k =? 1 then 2 else 0) in
          let k2 := (if k =? 0 then 2 else if k =? 1 then 0 else 1) in
          a <- crossx2 r qv ;;
          b <- crossx2 l qv ;;
          if (a <? 0) && (b >=? 0) then
            if b =? 0 then
              s <- constrain_edge fuel s (n + k1) ;;
              pn <- get_e s (n + k1) ;;
              px <- chk64 (px + fst l) ;; py <- chk64 (py + snd l) ;;
              pn <- locate_insertion_node fuel s px py pn ;;
              edge_loop fuel s px py qx qy pn
            else
              '(s, flipped) <- try_flip s (n + k) ;;
              if negb flipped then
                r' <- intersect_edges qv r l ;;
                if is_zero r' || same_vec r' qv then Ok (s, false)
                else
                  rx <- chk64 (px + fst r') ;; ry <- chk64 (py + snd r') ;;
                  '(s, pr) <- insert_edge64 fuel s px py rx ry pn ;;
                  qx <- chk64 (px + fst qv) ;; qy <- chk64 (py + snd qv) ;;
                  '(s, rq) <- insert_edge64 fuel s rx ry qx qy pn ;;
                  Ok (s, pr && rq)
              else
                pn <- locate_insertion_node fuel s px py pn ;;
                edge_loop fuel s px py qx qy pn
          else
            pn <- get_e s (n + k2) ;;
            edge_loop fuel s px py qx qy pn
    end.

  (** cdt.h:945-957 insert_point and insert_edge of the user's int32_t points: p >> Q & ~1. *)
  Definition grid (x : Z) : Z := Z.shiftr x q / 2 * 2.
  Definition insert_point (fuel : nat) (s : mesh) (p : Z * Z) (hint : Z) : res (mesh * bool) :=
    '(s, n) <- insert_point64 fuel s (grid (fst p)) (grid (snd p)) hint ;; Ok (s, negb (n =? 0)).
  Definition insert_edge (fuel : nat) (s : mesh) (p r : Z * Z) (hint : Z) : res (mesh * bool) :=
    insert_edge64 fuel s (grid (fst p)) (grid (snd p)) (grid (fst r)) (grid (snd r)) hint.

  (** cdt.h:959-1030 locate. vs.x * m2w32 - px in 32 bits, and math.h's inside. *)
  Definition rel32 (s : mesh) (px py n : Z) : res (Z * Z) :=
    v <- get_p s n ;; '(x, y) <- get_v s v ;;
    x <- chk32 (x * 2 ^ q) ;; x <- chk32 (x - px) ;; y <- chk32 (y * 2 ^ q) ;; y <- chk32 (y - py) ;; Ok (x, y).
  Fixpoint spin32 (fuel : nat) (s : mesh) (px py e : Z) (p1 p2 : Z * Z) : res (option (Z * (Z * Z) * (Z * Z))) :=
    match fuel with
    | O => Timeout
    | S fuel =>
        if e =? 0 then Ok None
        else
          p0 <- rel32 s px py e ;;
          i <- inside p0 p1 ;;
          if (i : bool) then Ok (Some (e, p0, p2))
          else (e <- get_e s (prv e) ;; spin32 fuel s px py e p1 p0)
    end.
  Fixpoint walk32 (fuel : nat) (s : mesh) (px py e : Z) (p1 p2 : Z * Z) : res Z :=
    match fuel with
    | O => Timeout
    | S fuel =>
        if e =? 0 then Ok 0
        else
          p0 <- rel32 s px py e ;;
          in1 <- inside p2 p0 ;;
          in2 <- inside p0 p1 ;;
          if (in1 && in2)%bool then Ok (Z.lor e 3)
          else if (in1 && negb in2)%bool then (e <- get_e s (prv e) ;; walk32 fuel s px py e p1 p0)
          else if (negb in1 && in2)%bool then (e <- get_e s (nxt e) ;; walk32 fuel s px py e p0 p2)
          else
            e <- get_e s (nxt e) ;;
            r <- spin32 fuel s px py e p0 p2 ;;
            match r with
            | None => Ok 0
            | Some (e, p0', p2) =>
                i <- inside p2 p0' ;;
                if (i : bool) then Ok (Z.lor e 3)
                else (e <- get_e s (nxt e) ;; walk32 fuel s px py e p0' p2)
            end
    end.
  Definition locate (fuel : nat) (s : mesh) (px py hint : Z) : res Z :=
    let e := hint / 4 * 4 in
    let e := if (e <? 24) || (e >? size s * 8 - 4) then size s * 8 - 4 else e in
    p1 <- rel32 s px py (e + 1) ;;
    p2 <- rel32 s px py (e + 2) ;;
    i <- inside p1 p2 ;;
    if negb i then (e <- get_e s e ;; walk32 fuel s px py e p2 p1) else walk32 fuel s px py e p1 p2.

  (** cdt.h:1035-1055 fill_ex: q is a stack of at most 256 faces, the first is the last pushed. push is one of the three ifs. *)
  Definition fill_push (s : mesh) (q : list Z) (f k info : Z) : res (mesh * list Z) :=
    c <- get_c s (4 * f + k) ;;
    if negb (c =? 0) then Ok (s, q)
    else
      e <- get_e s (4 * f + k) ;;
      v <- get_fi s (e / 4) ;;
      if v =? info then Ok (s, q)
      else if (length q <? 256)%nat then (s <- set_fi s (e / 4) info ;; Ok (s, e / 4 :: q))
      else UB.
  Fixpoint fill_ex (fuel : nat) (s : mesh) (f info : Z) (q : list Z) : res mesh :=
    match fuel with
    | O => Timeout
    | S fuel =>
        '(s, q) <- fill_push s q f 0 info ;;
        '(s, q) <- fill_push s q f 1 info ;;
        '(s, q) <- fill_push s q f 2 info ;;
        match q with
        | [] => Ok s
        | _ => fill_more fuel s info q
        end
    end
  (** while (i > 253) fill_ex(q[--i], info); then f = q[--i]. *)
  with fill_more (fuel : nat) (s : mesh) (info : Z) (q : list Z) : res mesh :=
    match fuel with
    | O => Timeout
    | S fuel =>
        match q with
        | [] => UB
        | f :: q' =>
            if (253 <? length q)%nat then (s <- fill_ex fuel s f info [] ;; fill_more fuel s info q')
            else fill_ex fuel s f info q'
        end
    end.

  (** cdt.h:1057-1070 fill. *)
  Definition fill (fuel : nat) (s : mesh) (n info : Z) : res mesh :=
    let f := n / 4 in
    if f =? 0 then Ok s
    else
      v <- get_fi s f ;;
      if v =? info then Ok s else (s <- set_fi s f info ;; fill_ex fuel s f info []).
End Cdt.
