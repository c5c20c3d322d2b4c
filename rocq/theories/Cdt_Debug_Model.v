(** Model of lib/h/ce/cdt.h with its CE_ASSERTs: what a build with CE_ERROR_LEVEL 1 runs, which is the default (ce.h:199-203). No proofs.
    The outcome Ok None is a failed assertion: ce.h:232-239 reports it to the error hook and breaks into the debugger if the hook says so;
    the model stops there. With another level only the test is evaluated, which has no effect. Where a function
    asserts only before or after its work, the work is the function of Cdt_Model. *)
From Verif Require Import Base Vec_Model Math_Model Cdt_Model Cdt_Search_Model Cdt_Spec.
Local Open Scope Z_scope.

(** CE_ASSERT(b), and a call that may fail an assertion followed by the rest. *)
Definition affirm (b : bool) : res (option unit) := Ok (if b then Some tt else None).
Definition lift {A} (r : res A) : res (option A) := x <- r ;; Ok (Some x).
Notation "x <-? r ;; k" := (try r (fun x => k)) (at level 61, r at next level, right associativity).
Notation "' p <-? r ;; k" := (try r (fun p => k)) (at level 61, p pattern, r at next level, right associativity).

Section Debug.
  Context (limit q : Z) (wrap : bool).

  (** cdt.h:284-312 validate_face. The face's p, e and c are those of the nodes 4 f, 4 f + 1 and 4 f + 2 (the union). The differences
      are in 32 bits; crossx of vec2<int32_t> is computed in 64 (ce.h:601, 627). *)
  Definition same_link (s : mesh) (e : Z) : res bool := t <- get_e limit s e ;; u <- get_e limit s t ;; Ok (u =? e).
  Definition turns_right (s : mesh) (a b c : Z * Z) : res bool :=
    ux <- chk32 (fst b - fst a) ;; uy <- chk32 (snd b - snd a) ;; vx <- chk32 (fst c - fst a) ;; vy <- chk32 (snd c - snd a) ;;
    d <- crossx2 (ux, uy) (vx, vy) ;; Ok (d <? 0).
  Definition validate_face (s : mesh) (n : Z) : res (option unit) :=
    let f := n / 4 * 4 in
    p0 <- get_p limit s f ;; p1 <- get_p limit s (f + 1) ;; p2 <- get_p limit s (f + 2) ;;
    _ <-? affirm (negb (p0 =? p1)) ;; _ <-? affirm (negb (p1 =? p2)) ;; _ <-? affirm (negb (p2 =? p0)) ;;
    e0 <- get_e limit s f ;; e1 <- get_e limit s (f + 1) ;; e2 <- get_e limit s (f + 2) ;;
    _ <-? affirm (negb (e0 =? e1)) ;; _ <-? affirm (negb (e1 =? e2)) ;; _ <-? affirm (negb (e2 =? e0)) ;;
    i <- same_link s e0 ;; _ <-? affirm i ;; i <- same_link s e1 ;; _ <-? affirm i ;; i <- same_link s e2 ;; _ <-? affirm i ;;
    c <- get_c limit s e0 ;; c' <- get_c limit s f ;; _ <-? affirm (c =? c') ;;
    c <- get_c limit s e1 ;; c' <- get_c limit s (f + 1) ;; _ <-? affirm (c =? c') ;;
    c <- get_c limit s e2 ;; c' <- get_c limit s (f + 2) ;; _ <-? affirm (c =? c') ;;
    a <- get_v limit s p0 ;; b <- get_v limit s p1 ;; c <- get_v limit s p2 ;;
    i <- turns_right s a b c ;; _ <-? affirm i ;; i <- turns_right s b c a ;; _ <-? affirm i ;; i <- turns_right s c a b ;; affirm i.

  (** cdt.h:314-341 incircle, asserts at 316-317. *)
  Definition incircle_d (s : mesh) (f v : Z) : res (option bool) :=
    _ <-? affirm (v <? size s) ;; _ <-? affirm (f <? size s * 2) ;; lift (incircle limit wrap s f v).

  (** cdt.h:343-396 do_flip, asserts at 348, 350, 351, 354 and 359 and the two validate_face; the four flips of More are in flip_d. *)
  Definition do_flip_d (s : mesh) (ae : Z) : res (option mesh) :=
    c <- get_c limit s ae ;; _ <-? affirm (c =? 0) ;;
    be <- get_e limit s ae ;;
    e <- get_e limit s be ;; _ <-? affirm (e =? ae) ;;
    c <- get_c limit s be ;; _ <-? affirm (c =? 0) ;;
    _ <-? affirm (ae mod 4 <? 3) ;; _ <-? affirm (be mod 4 <? 3) ;;
    s <-? lift (do_flip limit s ae) ;;
    _ <-? validate_face s ae ;; _ <-? validate_face s be ;; Ok (Some s).

  (** cdt.h:424-432 try_flip. *)
  Definition try_flip_d (s : mesh) (e : Z) : res (option (mesh * bool)) :=
    b <- can_flip limit s e ;;
    if negb b then Ok (Some (s, false)) else (s <-? do_flip_d s e ;; Ok (Some (s, true))).

  (** cdt.h:434-450 flip (asserts at 436, 442, 443), with the calls of do_flip<true> (389-395). *)
  Fixpoint flip_d (fuel : nat) (s : mesh) (ae : Z) : res (option (mesh * bool)) :=
    match fuel with
    | O => Timeout
    | S fuel =>
        _ <-? affirm (negb (ae mod 4 =? 3)) ;;
        c <- get_c limit s ae ;;
        if negb (c =? 0) then Ok (Some (s, false))
        else
          be <- get_e limit s ae ;;
          _ <-? affirm (negb (be mod 4 =? 3)) ;;
          e <- get_e limit s be ;; _ <-? affirm (e =? ae) ;;
          p <- get_p limit s be ;;
          b <-? incircle_d s (ae / 4) p ;;
          if negb b then Ok (Some (s, false))
          else
            s <-? do_flip_d s ae ;;
            '(s, _) <-? flip_d fuel s ae ;;
            '(s, _) <-? flip_d fuel s (nxt ae) ;;
            '(s, _) <-? flip_d fuel s be ;;
            '(s, _) <-? flip_d fuel s (nxt be) ;;
            Ok (Some (s, true))
    end.

  (** cdt.h:506-511 next_edge. *)
  Definition next_edge_d (e : Z) : res (option Z) := _ <-? affirm (negb (e mod 4 =? 3)) ;; Ok (Some (next_edge e)).

  (** cdt.h:561-575 the spin, assert at 563: before the test for node 0. *)
  Fixpoint spin_d (fuel : nat) (s : mesh) (px py e : Z) (p1 p2 : Z * Z) : res (option (option (Z * (Z * Z) * (Z * Z)))) :=
    match fuel with
    | O => Timeout
    | S fuel =>
        i <- in_ p1 p2 ;; _ <-? affirm i ;;
        if e =? 0 then Ok (Some None)
        else
          p0 <- rel limit s px py e ;;
          i <- in_ p0 p1 ;;
          if (i : bool) then Ok (Some (Some (e, p0, p2)))
          else (e <- get_e limit s (prv e) ;; spin_d fuel s px py e p1 p0)
    end.

  (** cdt.h:540-583 the walk. *)
  Fixpoint walk_d (fuel : nat) (s : mesh) (px py e : Z) (p1 p2 : Z * Z) : res (option Z) :=
    match fuel with
    | O => Timeout
    | S fuel =>
        if e =? 0 then Ok (Some 0)
        else
          p0 <- rel limit s px py e ;;
          in1 <- in_ p2 p0 ;;
          in2 <- in_ p0 p1 ;;
          if (in1 && in2)%bool then Ok (Some e)
          else if (in1 && negb in2)%bool then (e <- get_e limit s (prv e) ;; walk_d fuel s px py e p1 p0)
          else if (negb in1 && in2)%bool then (e <- get_e limit s (nxt e) ;; walk_d fuel s px py e p0 p2)
          else
            e <- get_e limit s (nxt e) ;;
            r <-? spin_d fuel s px py e p0 p2 ;;
            match r with
            | None => Ok (Some 0)
            | Some (e, p0', p2) =>
                i <- in_ p2 p0' ;;
                if (i : bool) then Ok (Some e)
                else (e <- get_e limit s (nxt e) ;; walk_d fuel s px py e p0' p2)
            end
    end.

  (** cdt.h:513-586 locate_insertion_node. *)
  Definition locate_d (fuel : nat) (s : mesh) (px py hint : Z) : res (option Z) :=
    let hint := if (hint <? 24) || (hint >=? size s * 8) then size s * 8 - 4 else hint in
    let e := hint / 4 * 4 in
    p1 <- rel limit s px py (e + 1) ;;
    p2 <- rel limit s px py (e + 2) ;;
    i <- in_ p1 p2 ;;
    if negb i then (e <- get_e limit s e ;; walk_d fuel s px py e p2 p1) else walk_d fuel s px py e p1 p2.

  (** cdt.h:639-700 insert_point_at_node, in face; validate_face at 693-695. *)
  Definition insert_in_face_d (fuel : nat) (s : mesh) (px py u0 : Z) : res (option mesh) :=
    let pn := size s in
    let s := set_size s (pn + 1) in
    let v0 := pn * 8 in
    let w0 := v0 + 4 in
    p0 <- get_p limit s u0 ;; p1 <- get_p limit s (u0 + 1) ;; p2 <- get_p limit s (u0 + 2) ;;
    c1 <- get_c limit s (u0 + 1) ;; c2 <- get_c limit s (u0 + 2) ;;
    f <- get_fi limit s (u0 / 4) ;;
    s <- set_edge limit s v0 0 p0 (u0 + 1) ;;
    e1 <- get_e limit s (u0 + 1) ;;
    s <- set_edge limit s (v0 + 1) c1 pn e1 ;;
    s <- (if negb (e1 =? 0) then set_e limit s e1 (v0 + 1) else Ok s) ;;
    s <- set_edge limit s (v0 + 2) 0 p2 (w0 + 1) ;;
    s <- set_fi limit s (v0 / 4) f ;;
    s <- set_edge limit s w0 0 p0 (u0 + 2) ;;
    s <- set_edge limit s (w0 + 1) 0 p1 (v0 + 2) ;;
    e2 <- get_e limit s (u0 + 2) ;;
    s <- set_edge limit s (w0 + 2) c2 pn e2 ;;
    s <- (if negb (e2 =? 0) then set_e limit s e2 (w0 + 2) else Ok s) ;;
    s <- set_fi limit s (w0 / 4) f ;;
    s <- set_v limit s pn px py ;;
    s <- set_p limit s u0 pn ;;
    s <- set_c limit s (u0 + 1) 0 ;; s <- set_e limit s (u0 + 1) v0 ;;
    s <- set_c limit s (u0 + 2) 0 ;; s <- set_e limit s (u0 + 2) w0 ;;
    _ <-? validate_face s u0 ;; _ <-? validate_face s v0 ;; _ <-? validate_face s w0 ;;
    '(s, _) <-? flip_d fuel s u0 ;;
    '(s, _) <-? flip_d fuel s (v0 + 1) ;;
    '(s, _) <-? flip_d fuel s (w0 + 2) ;;
    Ok (Some s).

  (** cdt.h:701-778 insert_point_at_node, on edge un; assert at 709, validate_face at 769-772. *)
  Definition insert_on_edge_d (fuel : nat) (s : mesh) (px py un : Z) : res (option (mesh * bool)) :=
    let pn := size s in
    ve <- get_e limit s un ;;
    if ve =? 0 then Ok (Some (s, false))
    else
      t <- get_e limit s ve ;; _ <-? affirm (t =? un) ;;
      let '(ue, ve) := if ve <? un then (ve, un) else (un, ve) in
      let s := set_size s (pn + 1) in
      let u1 := nxt ue in
      let u2 := prv ue in
      let v1 := nxt ve in
      let v2 := prv ve in
      let xn := pn * 8 in
      let yn := pn * 8 + 4 in
      c <- get_c limit s ue ;; p <- get_p limit s ue ;;
      s <- set_edge limit s xn c p yn ;;
      c <- get_c limit s u1 ;; e <- get_e limit s u1 ;;
      s <- set_edge limit s (xn + 1) c pn e ;;
      e <- get_e limit s u1 ;;
      s <- (if negb (e =? 0) then set_e limit s e (xn + 1) else Ok s) ;;
      p <- get_p limit s u2 ;;
      s <- set_edge limit s (xn + 2) 0 p u1 ;;
      f <- get_fi limit s (ue / 4) ;; s <- set_fi limit s (xn / 4) f ;;
      s <- set_e limit s u1 (xn + 2) ;;
      s <- set_c limit s u1 0 ;;
      s <- set_p limit s u2 pn ;;
      c <- get_c limit s ve ;; p <- get_p limit s ve ;;
      s <- set_edge limit s yn c p xn ;;
      p <- get_p limit s v1 ;;
      s <- set_edge limit s (yn + 1) 0 p v2 ;;
      c <- get_c limit s v2 ;; e <- get_e limit s v2 ;;
      s <- set_edge limit s (yn + 2) c pn e ;;
      e <- get_e limit s v2 ;;
      s <- (if negb (e =? 0) then set_e limit s e (yn + 2) else Ok s) ;;
      f <- get_fi limit s (ve / 4) ;; s <- set_fi limit s (yn / 4) f ;;
      s <- set_v limit s pn px py ;;
      s <- set_e limit s v2 (yn + 1) ;;
      s <- set_c limit s v2 0 ;;
      s <- set_p limit s v1 pn ;;
      _ <-? validate_face s ue ;; _ <-? validate_face s ve ;; _ <-? validate_face s xn ;; _ <-? validate_face s yn ;;
      '(s, _) <-? flip_d fuel s u2 ;;
      '(s, _) <-? flip_d fuel s (xn + 1) ;;
      '(s, _) <-? flip_d fuel s v1 ;;
      '(s, _) <-? flip_d fuel s (yn + 2) ;;
      Ok (Some (s, true)).

  (** cdt.h:588-781 insert_point_at_node; asserts at 601 (&& does not evaluate what follows a false operand), 605, 614 and 620. *)
  Definition insert_point_at_node_d (fuel : nat) (s : mesh) (px py n : Z) : res (option (mesh * Z)) :=
    if n =? 0 then Ok (Some (s, 0))
    else
      let un := n / 4 * 4 in
      a <- rel limit s px py un ;; b <- rel limit s px py (un + 1) ;; c <- rel limit s px py (un + 2) ;;
      i <- in_ a b ;; i <- (if (i : bool) then in_ b c else Ok false) ;; i <- (if (i : bool) then in_ c a else Ok false) ;;
      _ <-? affirm i ;;
      e <- edge_bits a b c ;;
      _ <-? affirm (negb (e =? 0)) ;;
      let k := if e =? 3 then 2 else if e =? 5 then 1 else if e =? 6 then 0 else if e =? 7 then 3 else 4 in
      if k =? 4 then Ok (Some (s, un))
      else
        _ <-? affirm (negb (is_zero a) && negb (is_zero b) && negb (is_zero c)) ;;
        if size s >=? limit then Ok (Some (s, 0))
        else if k =? 3 then (s <-? insert_in_face_d fuel s px py un ;; Ok (Some (s, un + 3)))
        else ('(s, b) <-? insert_on_edge_d fuel s px py (un + k) ;; Ok (Some (s, if (b : bool) then un + k else 0))).

  (** cdt.h:783-786 insert_point. *)
  Definition insert_point64_d (fuel : nat) (s : mesh) (px py hint : Z) : res (option (mesh * Z)) :=
    n <-? locate_d fuel s px py hint ;; insert_point_at_node_d fuel s px py n.

  (** cdt.h:788-809 constrain_edge. *)
  Definition constrain_edge_d (fuel : nat) (s : mesh) (en : Z) : res (option mesh) :=
    t <- get_e limit s en ;;
    s <- set_c limit s t 1 ;; s <- set_c limit s en 1 ;;
    e1 <-? next_edge_d en ;; e2 <-? next_edge_d e1 ;;
    n <-? next_edge_d e1 ;; '(s, _) <-? flip_d fuel s n ;;
    n <-? next_edge_d e2 ;; '(s, _) <-? flip_d fuel s n ;;
    t <- get_e limit s en ;;
    e1 <-? next_edge_d t ;; e2 <-? next_edge_d e1 ;;
    n <-? next_edge_d e1 ;; '(s, _) <-? flip_d fuel s n ;;
    n <-? next_edge_d e2 ;; '(s, _) <-? flip_d fuel s n ;;
    Ok (Some s).

  (** cdt.h:811-825 intersect_edges, asserts at 818 and 822. *)
  Definition intersect_edges_d (q a b : Z * Z) : res (option (Z * Z)) :=
    ux <- chk64 (fst b - fst a) ;; uy <- chk64 (snd b - snd a) ;;
    d <- crossx2 (ux, uy) q ;;
    _ <-? affirm (d >? 0) ;;
    t <- crossx2 q a ;;
    _ <-? affirm ((t >=? 0) && (t <=? d)) ;;
    lift (intersect_edges q a b).

  (** cdt.h:827-943 split_constraint and insert_edge, asserts at 872-874 and 921. *)
  Fixpoint insert_edge64_d (fuel : nat) (s : mesh) (px py qx qy hint : Z) : res (option (mesh * bool)) :=
    match fuel with
    | O => Timeout
    | S fuel =>
        n <-? locate_d fuel s px py hint ;;
        '(s, pn) <-? insert_point_at_node_d fuel s px py n ;;
        if pn =? 0 then Ok (Some (s, false))
        else if (px =? qx) && (py =? qy) then Ok (Some (s, true))
        else
          n <-? locate_d fuel s qx qy pn ;;
          '(s, qn) <-? insert_point_at_node_d fuel s qx qy n ;;
          if qn =? 0 then Ok (Some (s, false))
          else
            pn <-? locate_d fuel s px py pn ;;
            edge_loop_d fuel s px py qx qy pn
    end
  with edge_loop_d (fuel : nat) (s : mesh) (px py qx qy pn : Z) : res (option (mesh * bool)) :=
    match fuel with
    | O => Timeout
    | S fuel =>
        let n := pn / 4 * 4 in
        p0 <- rel limit s px py n ;; p1 <- rel limit s px py (n + 1) ;; p2 <- rel limit s px py (n + 2) ;;
        x <- chk64 (qx - px) ;; y <- chk64 (qy - py) ;;
        let qv := (x, y) in
        if is_zero qv then Ok (Some (s, true))
        else
          _ <-? affirm (negb (same_vec p0 p1)) ;; _ <-? affirm (negb (same_vec p1 p2)) ;; _ <-? affirm (negb (same_vec p2 p0)) ;;
          _ <-? affirm (is_zero p0 || is_zero p1 || is_zero p2) ;;
          let '(k, r, l) := if is_zero p0 then (0, p1, p2) else if is_zero p1 then (1, p2, p0) else (2, p0, p1) in
          let k1 := (if k =? 0 then 1 else if k =? 1 then 2 else 0) in
          let k2 := (if k =? 0 then 2 else if k =? 1 then 0 else 1) in
          a <- crossx2 r qv ;;
          b <- crossx2 l qv ;;
          if (a <? 0) && (b >=? 0) then
            if b =? 0 then
              s <-? constrain_edge_d fuel s (n + k1) ;;
              pn <- get_e limit s (n + k1) ;;
              px <- chk64 (px + fst l) ;; py <- chk64 (py + snd l) ;;
              pn <-? locate_d fuel s px py pn ;;
              edge_loop_d fuel s px py qx qy pn
            else
              '(s, flipped) <-? try_flip_d s (n + k) ;;
              if negb flipped then
                r' <-? intersect_edges_d qv r l ;;
                if is_zero r' || same_vec r' qv then Ok (Some (s, false))
                else
                  rx <- chk64 (px + fst r') ;; ry <- chk64 (py + snd r') ;;
                  '(s, pr) <-? insert_edge64_d fuel s px py rx ry pn ;;
                  qx <- chk64 (px + fst qv) ;; qy <- chk64 (py + snd qv) ;;
                  '(s, rq) <-? insert_edge64_d fuel s rx ry qx qy pn ;;
                  Ok (Some (s, pr && rq))
              else
                pn <-? locate_d fuel s px py pn ;;
                edge_loop_d fuel s px py qx qy pn
          else
            pn <- get_e limit s (n + k2) ;;
            edge_loop_d fuel s px py qx qy pn
    end.

  (** cdt.h:945-957 insert_point and insert_edge of the user's points. *)
  Definition insert_point_d (fuel : nat) (s : mesh) (p : Z * Z) (hint : Z) : res (option (mesh * bool)) :=
    '(s, n) <-? insert_point64_d fuel s (grid q (fst p)) (grid q (snd p)) hint ;; Ok (Some (s, negb (n =? 0))).
  Definition insert_edge_d (fuel : nat) (s : mesh) (p r : Z * Z) (hint : Z) : res (option (mesh * bool)) :=
    insert_edge64_d fuel s (grid q (fst p)) (grid q (snd p)) (grid q (fst r)) (grid q (snd r)) hint.
End Debug.

(** A call of the interface in a build with assertions. reset and fill have none. *)
Definition run_op_d (limit q : Z) (wrap : bool) (fuel : nat) (s : mesh) (o : op) : res (option mesh) :=
  match o with
  | Reset_ => lift (reset limit s)
  | Point p h => '(s, _) <-? insert_point_d limit q wrap fuel s p h ;; Ok (Some s)
  | Edge p r h => '(s, _) <-? insert_edge_d limit q wrap fuel s p r h ;; Ok (Some s)
  | Fill n info => lift (fill limit fuel s n info)
  end.
