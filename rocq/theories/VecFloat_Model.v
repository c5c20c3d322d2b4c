(** Model of the operators and products of vec2 and vec3 of float and double (lib/h/ce/ce.h:606-663). No proofs.
    IEEE 754 arithmetic, rounding to nearest even, from Coq's SpecFloat; there is one NaN. Every operation is rounded to the
    element type (no contraction to fused multiply-add, no wider intermediate results). A vector that is passed by value or
    returned is a tuple of values, a vector or scalar that is passed by reference is an address: x at the address, y and z in
    the next cells. Every cell of the memory has the element type. *)
From Coq Require Import Floats.SpecFloat.
From Verif Require Import Base.
Local Open Scope Z_scope.

(** The element type: the digits of the mantissa and the bound of the exponent. *)
Record fty := { prec : Z; emax : Z }.
Definition binary32 : fty := {| prec := 24; emax := 128 |}.
Definition binary64 : fty := {| prec := 53; emax := 1024 |}.

Definition vec2f : Type := spec_float * spec_float.
Definition vec3f : Type := spec_float * spec_float * spec_float.

(** The built-in operators. == is false when an operand is a NaN, != is its negation. *)
Definition plus (T : fty) : spec_float -> spec_float -> spec_float := SFadd (prec T) (emax T).
Definition minus (T : fty) : spec_float -> spec_float -> spec_float := SFsub (prec T) (emax T).
Definition times (T : fty) : spec_float -> spec_float -> spec_float := SFmul (prec T) (emax T).
Definition over (T : fty) : spec_float -> spec_float -> spec_float := SFdiv (prec T) (emax T).
Definition equal (a b : spec_float) : bool := SFeqb a b.
Definition unequal (a b : spec_float) : bool := negb (SFeqb a b).

Definition memory := nat -> spec_float.
Definition poke (m : memory) (p : nat) (v : spec_float) : memory := fun q => if Nat.eqb q p then v else m q.

(** A built-in compound assignment *p op= *q. *)
Definition assign (op : spec_float -> spec_float -> spec_float) (m : memory) (p q : nat) : memory := poke m p (op (m p) (m q)).

(** ce.h:639 operator==. *)
Definition eq2 (a b : vec2f) : bool := let '(ax, ay) := a in let '(bx, by_) := b in equal ax bx && equal ay by_.
(** ce.h:640 operator== with a scalar. *)
Definition eqs2 (a : vec2f) (b : spec_float) : bool := let '(ax, ay) := a in equal ax b && equal ay b.
(** ce.h:641 operator!=. *)
Definition ne2 (a b : vec2f) : bool := let '(ax, ay) := a in let '(bx, by_) := b in unequal ax bx || unequal ay by_.
(** ce.h:642 operator!= with a scalar. *)
Definition nes2 (a : vec2f) (b : spec_float) : bool := let '(ax, ay) := a in unequal ax b || unequal ay b.
(** ce.h:643 operator+. *)
Definition add2 (T : fty) (a b : vec2f) : vec2f := let '(ax, ay) := a in let '(bx, by_) := b in (plus T ax bx, plus T ay by_).
(** ce.h:644 operator-. *)
Definition sub2 (T : fty) (a b : vec2f) : vec2f := let '(ax, ay) := a in let '(bx, by_) := b in (minus T ax bx, minus T ay by_).
(** ce.h:645 operator * with a scalar. *)
Definition mul2 (T : fty) (a : vec2f) (b : spec_float) : vec2f := let '(ax, ay) := a in (times T ax b, times T ay b).
(** ce.h:646 operator / with a scalar. *)
Definition div2 (T : fty) (a : vec2f) (b : spec_float) : vec2f := let '(ax, ay) := a in (over T ax b, over T ay b).
(** ce.h:647 operator +=. *)
Definition add2_a (T : fty) (m : memory) (a b : nat) : memory :=
  let m := assign (plus T) m a b in assign (plus T) m (a + 1)%nat (b + 1)%nat.
(** ce.h:648 operator -=. *)
Definition sub2_a (T : fty) (m : memory) (a b : nat) : memory :=
  let m := assign (minus T) m a b in assign (minus T) m (a + 1)%nat (b + 1)%nat.
(** ce.h:649 operator *= with a scalar, which is read again for each component. *)
Definition mul2_a (T : fty) (m : memory) (a b : nat) : memory :=
  let m := assign (times T) m a b in assign (times T) m (a + 1)%nat b.
(** ce.h:650 operator /= with a scalar, which is read again for each component. *)
Definition div2_a (T : fty) (m : memory) (a b : nat) : memory :=
  let m := assign (over T) m a b in assign (over T) m (a + 1)%nat b.
(** ce.h:652 operator==. *)
Definition eq3 (a b : vec3f) : bool := let '(ax, ay, az) := a in let '(bx, by_, bz) := b in equal ax bx && equal ay by_ && equal az bz.
(** ce.h:653 operator== with a scalar. *)
Definition eqs3 (a : vec3f) (b : spec_float) : bool := let '(ax, ay, az) := a in equal ax b && equal ay b && equal az b.
(** ce.h:654 operator!=. *)
Definition ne3 (a b : vec3f) : bool := let '(ax, ay, az) := a in let '(bx, by_, bz) := b in unequal ax bx || unequal ay by_ || unequal az bz.
(** ce.h:655 operator!= with a scalar. *)
Definition nes3 (a : vec3f) (b : spec_float) : bool := let '(ax, ay, az) := a in unequal ax b || unequal ay b || unequal az b.
(** ce.h:656 operator+. *)
Definition add3 (T : fty) (a b : vec3f) : vec3f := let '(ax, ay, az) := a in let '(bx, by_, bz) := b in (plus T ax bx, plus T ay by_, plus T az bz).
(** ce.h:657 operator-. *)
Definition sub3 (T : fty) (a b : vec3f) : vec3f := let '(ax, ay, az) := a in let '(bx, by_, bz) := b in (minus T ax bx, minus T ay by_, minus T az bz).
(** ce.h:658 operator * with a scalar. *)
Definition mul3 (T : fty) (a : vec3f) (b : spec_float) : vec3f := let '(ax, ay, az) := a in (times T ax b, times T ay b, times T az b).
(** ce.h:659 operator / with a scalar. *)
Definition div3 (T : fty) (a : vec3f) (b : spec_float) : vec3f := let '(ax, ay, az) := a in (over T ax b, over T ay b, over T az b).
(** ce.h:660 operator +=. *)
Definition add3_a (T : fty) (m : memory) (a b : nat) : memory :=
  let m := assign (plus T) m a b in let m := assign (plus T) m (a + 1)%nat (b + 1)%nat in assign (plus T) m (a + 2)%nat (b + 2)%nat.
(** ce.h:661 operator -=. *)
Definition sub3_a (T : fty) (m : memory) (a b : nat) : memory :=
  let m := assign (minus T) m a b in let m := assign (minus T) m (a + 1)%nat (b + 1)%nat in assign (minus T) m (a + 2)%nat (b + 2)%nat.
(** ce.h:662 operator *= with a scalar, which is read again for each component. *)
Definition mul3_a (T : fty) (m : memory) (a b : nat) : memory :=
  let m := assign (times T) m a b in let m := assign (times T) m (a + 1)%nat b in assign (times T) m (a + 2)%nat b.
(** ce.h:663 operator /= with a scalar, which is read again for each component. *)
Definition div3_a (T : fty) (m : memory) (a b : nat) : memory :=
  let m := assign (over T) m a b in let m := assign (over T) m (a + 1)%nat b in assign (over T) m (a + 2)%nat b.

(** ce.h:606-607 sqrx and dotx of float. *)
Definition sqrx1 (a : spec_float) : spec_float := times binary32 a a.
Definition dotx1 (a b : spec_float) : spec_float := times binary32 a b.
(** ce.h:609-613 sqrx of vec2<float>; E is float. *)
Definition sqrx2 (a : vec2f) : spec_float := let '(ax, ay) := a in plus binary32 (times binary32 ax ax) (times binary32 ay ay).
(** ce.h:615-619 dotx of vec2<float>. *)
Definition dotx2 (a b : vec2f) : spec_float := let '(ax, ay) := a in let '(bx, by_) := b in plus binary32 (times binary32 ax bx) (times binary32 ay by_).
(** ce.h:621-625 dotx of vec3<float>. *)
Definition dotx3 (a b : vec3f) : spec_float := let '(ax, ay, az) := a in let '(bx, by_, bz) := b in
  plus binary32 (plus binary32 (times binary32 ax bx) (times binary32 ay by_)) (times binary32 az bz).
(** ce.h:627-631 crossx of vec2<float>. *)
Definition crossx2 (a b : vec2f) : spec_float := let '(ax, ay) := a in let '(bx, by_) := b in minus binary32 (times binary32 ax by_) (times binary32 ay bx).
(** ce.h:633-637 crossx of vec3<float>. *)
Definition crossx3 (a b : vec3f) : vec3f := let '(ax, ay, az) := a in let '(bx, by_, bz) := b in
  (minus binary32 (times binary32 ay bz) (times binary32 az by_),
   minus binary32 (times binary32 az bx) (times binary32 ax bz),
   minus binary32 (times binary32 ax by_) (times binary32 ay bx)).
