(** Model of the operators of vec2 and vec3 (lib/h/ce/ce.h:639-663). No proofs.
    The element type T is an integer type of 8 to 64 bits; a vector that is passed by value or returned is a tuple of values, a
    vector or scalar that is passed by reference is an address: x at the address, y and z in the next cells. Every cell of the
    memory has type T. *)
From Verif Require Import Base Vec_Model.
Local Open Scope Z_scope.

Record ety := { bits : Z; signed : bool }.

(** Integral promotion: operands narrower than int become int. *)
Definition prom (T : ety) : ety := if bits T <? 32 then {| bits := 32; signed := true |} else T.

(** The result of an operation in type P: signed overflow is UB, unsigned wraps. *)
Definition result (P : ety) (z : Z) : res Z :=
  if signed P then (if in_sb (bits P) z then Ok z else UB) else Ok (z mod 2 ^ bits P).

(** Conversion to T. *)
Definition conv (T : ety) (z : Z) : Z := if signed T then swrap (bits T) z else z mod 2 ^ bits T.

(** The built-in operators on promoted operands; / truncates, and dividing by 0 is UB. *)
Definition plus (T : ety) (a b : Z) : res Z := result (prom T) (a + b).
Definition minus (T : ety) (a b : Z) : res Z := result (prom T) (a - b).
Definition times (T : ety) (a b : Z) : res Z := result (prom T) (a * b).
Definition over (T : ety) (a b : Z) : res Z := if b =? 0 then UB else result (prom T) (Z.quot a b).

Definition memory := nat -> Z.
Definition poke (m : memory) (p : nat) (v : Z) : memory := fun q => if Nat.eqb q p then v else m q.

(** A built-in compound assignment *p op= *q: the result is converted to T. *)
Definition assign (op : ety -> Z -> Z -> res Z) (T : ety) (m : memory) (p q : nat) : res memory :=
  r <- op T (m p) (m q) ;; Ok (poke m p (conv T r)).

(** ce.h:639 operator==. *)
Definition eq2 (a b : vec2) : bool := let '(ax, ay) := a in let '(bx, by_) := b in (ax =? bx) && (ay =? by_).

(** ce.h:640 operator== with a scalar. *)
Definition eqs2 (a : vec2) (b : Z) : bool := let '(ax, ay) := a in (ax =? b) && (ay =? b).

(** ce.h:641 operator!=. *)
Definition ne2 (a b : vec2) : bool := let '(ax, ay) := a in let '(bx, by_) := b in negb (ax =? bx) || negb (ay =? by_).

(** ce.h:642 operator!= with a scalar. *)
Definition nes2 (a : vec2) (b : Z) : bool := let '(ax, ay) := a in negb (ax =? b) || negb (ay =? b).

(** ce.h:643 operator+. Its braces reject the narrowing of a promoted result: T has 32 or 64 bits. *)
Definition add2_t (T : ety) (a b : vec2) : res vec2 := let '(ax, ay) := a in let '(bx, by_) := b in
  x <- plus T ax bx ;; y <- plus T ay by_ ;; Ok (x, y).

(** ce.h:644 operator-. Its braces reject the narrowing of a promoted result: T has 32 or 64 bits. *)
Definition sub2_t (T : ety) (a b : vec2) : res vec2 := let '(ax, ay) := a in let '(bx, by_) := b in
  x <- minus T ax bx ;; y <- minus T ay by_ ;; Ok (x, y).

(** ce.h:645 operator* with a scalar. *)
Definition mul2_t (T : ety) (a : vec2) (b : Z) : res vec2 := let '(ax, ay) := a in
  x <- times T ax b ;; y <- times T ay b ;; Ok (x, y).

(** ce.h:646 operator/ with a scalar. *)
Definition div2_t (T : ety) (a : vec2) (b : Z) : res vec2 := let '(ax, ay) := a in
  x <- over T ax b ;; y <- over T ay b ;; Ok (x, y).

(** ce.h:647 operator+=. *)
Definition add2_a (T : ety) (m : memory) (a b : nat) : res memory :=
  m <- assign plus T m a b ;; assign plus T m (a + 1)%nat (b + 1)%nat.

(** ce.h:648 operator-=. *)
Definition sub2_a (T : ety) (m : memory) (a b : nat) : res memory :=
  m <- assign minus T m a b ;; assign minus T m (a + 1)%nat (b + 1)%nat.

(** ce.h:649 operator*= with a scalar, which is read again for each component. *)
Definition mul2_a (T : ety) (m : memory) (a b : nat) : res memory :=
  m <- assign times T m a b ;; assign times T m (a + 1)%nat b.

(** ce.h:650 operator/= with a scalar, which is read again for each component. *)
Definition div2_a (T : ety) (m : memory) (a b : nat) : res memory :=
  m <- assign over T m a b ;; assign over T m (a + 1)%nat b.

(** ce.h:652 operator==. *)
Definition eq3 (a b : vec3) : bool := let '(ax, ay, az) := a in let '(bx, by_, bz) := b in (ax =? bx) && (ay =? by_) && (az =? bz).

(** ce.h:653 operator== with a scalar. *)
Definition eqs3 (a : vec3) (b : Z) : bool := let '(ax, ay, az) := a in (ax =? b) && (ay =? b) && (az =? b).

(** ce.h:654 operator!=. *)
Definition ne3 (a b : vec3) : bool := let '(ax, ay, az) := a in let '(bx, by_, bz) := b in negb (ax =? bx) || negb (ay =? by_) || negb (az =? bz).

(** ce.h:655 operator!= with a scalar. *)
Definition nes3 (a : vec3) (b : Z) : bool := let '(ax, ay, az) := a in negb (ax =? b) || negb (ay =? b) || negb (az =? b).

(** ce.h:656 operator+. Its braces reject the narrowing of a promoted result: T has 32 or 64 bits. *)
Definition add3_t (T : ety) (a b : vec3) : res vec3 := let '(ax, ay, az) := a in let '(bx, by_, bz) := b in
  x <- plus T ax bx ;; y <- plus T ay by_ ;; z <- plus T az bz ;; Ok (x, y, z).

(** ce.h:657 operator-. Its braces reject the narrowing of a promoted result: T has 32 or 64 bits. *)
Definition sub3_t (T : ety) (a b : vec3) : res vec3 := let '(ax, ay, az) := a in let '(bx, by_, bz) := b in
  x <- minus T ax bx ;; y <- minus T ay by_ ;; z <- minus T az bz ;; Ok (x, y, z).

(** ce.h:658 operator* with a scalar. *)
Definition mul3_t (T : ety) (a : vec3) (b : Z) : res vec3 := let '(ax, ay, az) := a in
  x <- times T ax b ;; y <- times T ay b ;; z <- times T az b ;; Ok (x, y, z).

(** ce.h:659 operator/ with a scalar. *)
Definition div3_t (T : ety) (a : vec3) (b : Z) : res vec3 := let '(ax, ay, az) := a in
  x <- over T ax b ;; y <- over T ay b ;; z <- over T az b ;; Ok (x, y, z).

(** ce.h:660 operator+=. *)
Definition add3_a (T : ety) (m : memory) (a b : nat) : res memory :=
  m <- assign plus T m a b ;; m <- assign plus T m (a + 1)%nat (b + 1)%nat ;; assign plus T m (a + 2)%nat (b + 2)%nat.

(** ce.h:661 operator-=. *)
Definition sub3_a (T : ety) (m : memory) (a b : nat) : res memory :=
  m <- assign minus T m a b ;; m <- assign minus T m (a + 1)%nat (b + 1)%nat ;; assign minus T m (a + 2)%nat (b + 2)%nat.

(** ce.h:662 operator*= with a scalar, which is read again for each component. *)
Definition mul3_a (T : ety) (m : memory) (a b : nat) : res memory :=
  m <- assign times T m a b ;; m <- assign times T m (a + 1)%nat b ;; assign times T m (a + 2)%nat b.

(** ce.h:663 operator/= with a scalar, which is read again for each component. *)
Definition div3_a (T : ety) (m : memory) (a b : nat) : res memory :=
  m <- assign over T m a b ;; m <- assign over T m (a + 1)%nat b ;; assign over T m (a + 2)%nat b.
