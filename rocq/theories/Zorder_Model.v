(** Model of lib/h/ce/zorder.h. No proofs.
    An int32_t is an integer in [-2^31, 2^31); a uint64_t one in [0, 2^64). *)
From Verif Require Import Base.
Local Open Scope Z_scope.

Definition even_bits : Z := 0x5555555555555555.
Definition odd_bits : Z := 0xaaaaaaaaaaaaaaaa.

(** zorder.h:30-39 z_expand. The shifts are on uint64_t. *)
Definition z_expand (n : Z) : Z :=
  let m4 := n in
  let m3 := Z.land 0x0000ffff0000ffff (Z.lor m4 (u64 (Z.shiftl m4 16))) in
  let m2 := Z.land 0x00ff00ff00ff00ff (Z.lor m3 (u64 (Z.shiftl m3 8))) in
  let m1 := Z.land 0x0f0f0f0f0f0f0f0f (Z.lor m2 (u64 (Z.shiftl m2 4))) in
  let m0 := Z.land 0x3333333333333333 (Z.lor m1 (u64 (Z.shiftl m1 2))) in
  Z.land 0x5555555555555555 (Z.lor m0 (u64 (Z.shiftl m0 1))).

(** zorder.h:41-46 z_encode. *)
Definition z_encode (x y : Z) : Z :=
  let u := z_expand (Z.lxor (u32 x) 0x80000000) in
  let v := z_expand (Z.lxor (u32 y) 0x80000000) in
  u64 (u64 (v + v) + u).

(** ~ on uint64_t, used at zorder.h:63 and 67. *)
Definition not64 (n : Z) : Z := Z.lxor n (2 ^ 64 - 1).

(** zorder.h:55-59 the smearing of m. *)
Definition z_smear (m : Z) : Z :=
  let m := Z.lor m (Z.shiftr m 2) in
  let m := Z.lor m (Z.shiftr m 4) in
  let m := Z.lor m (Z.shiftr m 8) in
  let m := Z.lor m (Z.shiftr m 16) in
  Z.lor m (Z.shiftr m 32).

(** zorder.h:48-74 z_split: the returned flag, jo and ji. The constant ~0x0ffff is an int, -65536, that
    becomes 2^64 - 65536 in the conversion to uint64_t. *)
Definition z_split (lo hi : Z) : bool * Z * Z :=
  let d := Z.lxor lo hi in
  let dx := Z.land d even_bits in
  let dy := Z.land d odd_bits in
  let m := z_smear (if dx <? dy then dy else dx) in
  let jo := Z.lor (Z.land hi (not64 m)) (Z.shiftr m 2) in
  let ji := Z.land (Z.lor lo m) (not64 (Z.shiftr m 2)) in
  let jo := Z.land jo (2 ^ 64 - 65536) in
  let ji := Z.land ji (2 ^ 64 - 65536) in
  (0x010000 <? u64 (ji - jo), jo, ji).

(** zorder.h:78-88 the loop of z_lower_bound; a pointer into the array is its index. *)
Fixpoint z_lower_loop (fuel : nat) (data : list Z) (a n z : Z) : res Z :=
  if 0 <? n then
    match fuel with
    | O => Timeout
    | S fuel =>
        let step := n / 2 in
        v <- getz data (a + step) ;;
        if v <? z then z_lower_loop fuel data (a + step + 1) (n - (step + 1)) z
        else z_lower_loop fuel data a step z
    end
  else Ok a.
(** zorder.h:76-90 z_lower_bound(a, b, z). n at least halves, so b - a is enough fuel. *)
Definition z_lower_bound (data : list Z) (a b z : Z) : res Z :=
  z_lower_loop (Z.to_nat (b - a)) data a (b - a) z.

(** zorder.h:92-109 z_inside. *)
Definition z_inside (lo hi zn : Z) : bool :=
  let zn_x := Z.land zn even_bits in
  let lo_x := Z.land lo even_bits in
  let hi_x := Z.land hi even_bits in
  let zn_y := Z.land zn odd_bits in
  let lo_y := Z.land lo odd_bits in
  let hi_y := Z.land hi odd_bits in
  if (zn_x <? lo_x) || (hi_x <? zn_x) then false
  else if (zn_y <? lo_y) || (hi_y <? zn_y) then false
  else true.

(** zorder.h:126-135 the popping loop. The spans are a stack with the top first; None is the return at 130. *)
Fixpoint z_pop (zn lo hi : Z) (spans : list (Z * Z)) : option (Z * Z * list (Z * Z)) :=
  if u64 (hi + 0x0ffff) <? zn then
    match spans with
    | [] => None
    | (lo, hi) :: spans => z_pop zn lo hi spans
    end
  else Some (lo, hi, spans).

(** zorder.h:137-164 from the label test_lo ([test] is true) or from the head of the while ([test] is false).
    The result says whether zn is written to out (166) or skipped by the continue at 141, with the new
    lo, hi and spans. Pushing a 33rd span writes past the end of spans[32 * 2]: UB. *)
Fixpoint z_descend (fuel : nat) (test : bool) (zn lo hi : Z) (spans : list (Z * Z))
  : res (bool * Z * Z * list (Z * Z)) :=
  match fuel with
  | O => Timeout
  | S fuel =>
      if test && (zn <? lo) then Ok (false, lo, hi, spans)
      else
        let '(more, mo, mi) := z_split lo hi in
        if more then
          if u64 (mo + 0x0ffff) <? zn then z_descend fuel true zn mi hi spans
          else if 32 <=? Z.of_nat (length spans) then UB
          else z_descend fuel false zn lo mo ((mi, hi) :: spans)
        else Ok (true, lo, hi, spans)
  end.

(** zorder.h:122-167 the main loop; [i] is the position of data. out is a growing list: the caller provides
    an array that is large enough. *)
Fixpoint z_loop (fuel : nat) (data : list Z) (last i lo hi : Z) (spans : list (Z * Z)) (out : list Z) : res (list Z) :=
  if i <? last then
    match fuel with
    | O => Timeout
    | S fuel =>
        zn <- getz data i ;;
        let i := i + 1 in
        match z_pop zn lo hi spans with
        | None => Ok out
        | Some (lo, hi, spans) =>
            '(found, lo, hi, spans) <- z_descend 64 true zn lo hi spans ;;
            if found : bool then z_loop fuel data last i lo hi spans (out ++ [zn])
            else
              i <- z_lower_bound data i last lo ;;
              z_loop fuel data last i lo hi spans out
        end
    end
  else Ok out.

(** zorder.h:111-170 z_query. The result is the list written to out. *)
Definition z_query (lo hi : Z) (data : list Z) : res (list Z) :=
  last <- z_lower_bound data 0 (Z.of_nat (length data)) (u64 (hi + 0x0ffff)) ;;
  z_loop (Z.to_nat last) data last 0 lo hi [] [].
