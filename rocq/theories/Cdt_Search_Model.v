(** Model of the exhaustive search that cdt.h has in place of the walk under #if 0, and of insert_edge over any way of finding the face
    of a point. No proofs. *)
From Verif Require Import Base Vec_Model Math_Model Cdt_Model.
Local Open Scope Z_scope.

Section Search.
  Context (limit : Z) (wrap : bool).

  (** cdt.h:516-525, the variant of locate_insertion_node under #if 0: for (size_t f = size * 2; --f >= 6;). [k] faces are left to try:
      f = k + 5 downto 6. fs[f].p0, p1, p2 are es[4 f].p, es[4 f + 1].p, es[4 f + 2].p (the union). && does not evaluate what follows a
      false operand. *)
  Fixpoint search_from (k : nat) (s : mesh) (px py : Z) : res Z :=
    match k with
    | O => Ok 0
    | S k =>
        let f := Z.of_nat k + 6 in
        a <- rel limit s px py (4 * f) ;; b <- rel limit s px py (4 * f + 1) ;; c <- rel limit s px py (4 * f + 2) ;;
        i <- in_ a b ;;
        i <- (if (i : bool) then in_ b c else Ok false) ;;
        i <- (if (i : bool) then in_ c a else Ok false) ;;
        if (i : bool) then Ok (f * 4) else search_from k s px py
    end.
  Definition search (s : mesh) (px py : Z) : res Z := search_from (Z.to_nat (size s * 2 - 6)) s px py.

  (** cdt.h:827-943 split_constraint and insert_edge as in Cdt_Model, with [loc] in place of locate_insertion_node. When [loc] gives up
      (None), so does insert_edge. *)
  Context (loc : mesh -> Z -> Z -> Z -> res (option Z)).
  Definition try {A B} (r : res (option A)) (f : A -> res (option B)) : res (option B) :=
    o <- r ;; match o with None => Ok None | Some x => f x end.

  Fixpoint insert_edge_by (fuel : nat) (s : mesh) (px py qx qy hint : Z) : res (option (mesh * bool)) :=
    match fuel with
    | O => Timeout
    | S fuel =>
        try (loc s px py hint) (fun n =>
        '(s, pn) <- insert_point_at_node limit wrap fuel s px py n ;;
        if pn =? 0 then Ok (Some (s, false))
        else if (px =? qx) && (py =? qy) then Ok (Some (s, true))
        else
          try (loc s qx qy pn) (fun n =>
          '(s, qn) <- insert_point_at_node limit wrap fuel s qx qy n ;;
          if qn =? 0 then Ok (Some (s, false))
          else
            try (loc s px py pn) (fun pn =>
            edge_loop_by fuel s px py qx qy pn)))
    end
  with edge_loop_by (fuel : nat) (s : mesh) (px py qx qy pn : Z) : res (option (mesh * bool)) :=
    match fuel with
    | O => Timeout
    | S fuel =>
        let n := pn / 4 * 4 in
        p0 <- rel limit s px py n ;; p1 <- rel limit s px py (n + 1) ;; p2 <- rel limit s px py (n + 2) ;;
        x <- chk64 (qx - px) ;; y <- chk64 (qy - py) ;;
        let qv := (x, y) in
        if is_zero qv then Ok (Some (s, true))
        else
          let '(k, r, l) := if is_zero p0 then (0, p1, p2) else if is_zero p1 then (1, p2, p0) else (2, p0, p1) in
          let k1 := (if k =? 0 then 1 else if k =? 1 then 2 else 0) in
          let k2 := (if k =? 0 then 2 else if k =? 1 then 0 else 1) in
          a <- crossx2 r qv ;;
          b <- crossx2 l qv ;;
          if (a <? 0) && (b >=? 0) then
            if b =? 0 then
              s <- constrain_edge limit wrap fuel s (n + k1) ;;
              pn <- get_e limit s (n + k1) ;;
              px <- chk64 (px + fst l) ;; py <- chk64 (py + snd l) ;;
              try (loc s px py pn) (fun pn =>
              edge_loop_by fuel s px py qx qy pn)
            else
              '(s, flipped) <- try_flip limit s (n + k) ;;
              if negb flipped then
                r' <- intersect_edges qv r l ;;
                if is_zero r' || same_vec r' qv then Ok (Some (s, false))
                else
                  rx <- chk64 (px + fst r') ;; ry <- chk64 (py + snd r') ;;
                  try (insert_edge_by fuel s px py rx ry pn) (fun '(s, pr) =>
                  qx <- chk64 (px + fst qv) ;; qy <- chk64 (py + snd qv) ;;
                  try (insert_edge_by fuel s rx ry qx qy pn) (fun '(s, rq) =>
                  Ok (Some (s, pr && rq))))
              else
                try (loc s px py pn) (fun pn =>
                edge_loop_by fuel s px py qx qy pn)
          else
            pn <- get_e limit s (n + k2) ;;
            edge_loop_by fuel s px py qx qy pn
    end.
End Search.

Section Finders.
  Context (limit : Z) (wrap : bool).

  (** The walk of the code (cdt.h:513-586), given up after [F] turns. *)
  Definition walk_at_most (F : nat) (s : mesh) (px py hint : Z) : res (option Z) :=
    match locate_insertion_node limit F s px py hint with Ok n => Ok (Some n) | UB => UB | Timeout => Ok None end.
  (** The exhaustive search never gives up; it has no use for the hint. *)
  Definition by_search (s : mesh) (px py hint : Z) : res (option Z) := n <- search limit s px py ;; Ok (Some n).
End Finders.
