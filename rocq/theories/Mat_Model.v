(** Model of the operators of vec2 and vec3 when the elements are vectors themselves: `mat` (lib/h/ce/ce.h:599) and deeper nestings.
    No proofs. The scalars are of an integer type T, as in VecOps_Model. `*`, `/`, `*=` and `/=` do not compile for such elements,
    because they would multiply or divide two rows, and there is no such operator; vec1 and vec4 have no operators. *)
From Verif Require Import Base Vec_Model VecOps_Model.
Local Open Scope Z_scope.

(** The types made from T with vec2 and vec3 (ce.h:588-589, 599): vec2<vec3<T>> is [V2 (V3 Scalar)]. *)
Inductive shape := Scalar | V2 (s : shape) | V3 (s : shape).

(** The values of such a type. *)
Fixpoint val (s : shape) : Type :=
  match s with
  | Scalar => Z
  | V2 s => (val s * val s)%type
  | V3 s => (val s * val s * val s)%type
  end.

(** The number of scalars in it; the layout has no gaps. *)
Fixpoint width (s : shape) : nat :=
  match s with
  | Scalar => 1
  | V2 s => width s + width s
  | V3 s => width s + width s + width s
  end.

(** operator+ and operator- (ce.h:643-644, 656-657); [op] is what they do to scalars. *)
Fixpoint binary (op : Z -> Z -> res Z) (s : shape) : val s -> val s -> res (val s) :=
  match s return val s -> val s -> res (val s) with
  | Scalar => op
  | V2 s => fun a b =>
      let '(ax, ay) := a in let '(bx, by_) := b in
      x <- binary op s ax bx ;; y <- binary op s ay by_ ;; Ok (x, y)
  | V3 s => fun a b =>
      let '(ax, ay, az) := a in let '(bx, by_, bz) := b in
      x <- binary op s ax bx ;; y <- binary op s ay by_ ;; z <- binary op s az bz ;; Ok (x, y, z)
  end.

(** ce.h:643, 656: operator+. T has 32 or 64 bits (the braces reject narrowing). *)
Definition add_m (T : ety) (s : shape) : val s -> val s -> res (val s) := binary (plus T) s.

(** ce.h:644, 657: operator-. *)
Definition sub_m (T : ety) (s : shape) : val s -> val s -> res (val s) := binary (minus T) s.

(** ce.h:639, 652: operator==. *)
Fixpoint eq_m (s : shape) : val s -> val s -> bool :=
  match s return val s -> val s -> bool with
  | Scalar => Z.eqb
  | V2 s => fun a b => let '(ax, ay) := a in let '(bx, by_) := b in eq_m s ax bx && eq_m s ay by_
  | V3 s => fun a b => let '(ax, ay, az) := a in let '(bx, by_, bz) := b in eq_m s ax bx && eq_m s ay by_ && eq_m s az bz
  end.

(** ce.h:641, 654: operator!=. *)
Fixpoint ne_m (s : shape) : val s -> val s -> bool :=
  match s return val s -> val s -> bool with
  | Scalar => fun a b => negb (a =? b)
  | V2 s => fun a b => let '(ax, ay) := a in let '(bx, by_) := b in ne_m s ax bx || ne_m s ay by_
  | V3 s => fun a b => let '(ax, ay, az) := a in let '(bx, by_, bz) := b in ne_m s ax bx || ne_m s ay by_ || ne_m s az bz
  end.

(** ce.h:640, 642 and 653, 655: operator== and operator!= with one element, here a row. *)
Definition eq_row2 (s : shape) (a : val (V2 s)) (b : val s) : bool := let '(ax, ay) := a in eq_m s ax b && eq_m s ay b.
Definition ne_row2 (s : shape) (a : val (V2 s)) (b : val s) : bool := let '(ax, ay) := a in ne_m s ax b || ne_m s ay b.
Definition eq_row3 (s : shape) (a : val (V3 s)) (b : val s) : bool := let '(ax, ay, az) := a in eq_m s ax b && eq_m s ay b && eq_m s az b.
Definition ne_row3 (s : shape) (a : val (V3 s)) (b : val s) : bool := let '(ax, ay, az) := a in ne_m s ax b || ne_m s ay b || ne_m s az b.

(** operator+= and operator-= (ce.h:647-648, 660-661) on the objects at the addresses a and b. *)
Fixpoint compound (op : ety -> Z -> Z -> res Z) (T : ety) (s : shape) (m : memory) (a b : nat) : res memory :=
  match s with
  | Scalar => assign op T m a b
  | V2 s =>
      m <- compound op T s m a b ;;
      compound op T s m (a + width s)%nat (b + width s)%nat
  | V3 s =>
      m <- compound op T s m a b ;;
      m <- compound op T s m (a + width s)%nat (b + width s)%nat ;;
      compound op T s m (a + width s + width s)%nat (b + width s + width s)%nat
  end.

(** ce.h:647, 660: operator+=. *)
Definition add_a (T : ety) (s : shape) (m : memory) (a b : nat) : res memory := compound plus T s m a b.

(** ce.h:648, 661: operator-=. *)
Definition sub_a (T : ety) (s : shape) (m : memory) (a b : nat) : res memory := compound minus T s m a b.
