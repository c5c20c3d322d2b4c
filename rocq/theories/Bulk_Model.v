(** Model of bulk<N,T> (lib/h/ce/ce.h:1247-1415), with object lifetimes. No proofs. *)
From Verif Require Import Base.
Local Open Scope nat_scope.

(** What the code asks about the element type T, and what T's operations do.
    [triv_ctor] __is_trivially_constructible(T); [triv_dtor] __is_trivially_destructible(T);
    [has_default]: T{ } is well formed; [dflt]: value made by default-initialisation when it is
    not trivial; [moved v]: the value an object holding v is left with when moved from. *)
Record traits (V : Type) := {
  triv_ctor : bool; triv_dtor : bool; has_default : bool; dflt : V; moved : V -> V }.
Arguments triv_ctor {V}. Arguments triv_dtor {V}. Arguments has_default {V}.
Arguments dflt {V}. Arguments moved {V}.

(** A storage slot: no object with a value, or an object. For a T with trivial default
    initialisation a [Raw] slot may be used as an object of indeterminate value. *)
Inductive slot (V : Type) := Raw | Live (v : V).
Arguments Raw {V}. Arguments Live {V}.

(** ce.h:1316-1319 the object: size and N slots (N = length). *)
Record bulk (V : Type) := { bsize : nat; bdata : list (slot V) }.
Arguments bsize {V}. Arguments bdata {V}. Arguments Build_bulk {V}.

Section Bulk.
Context {V : Type} (T : traits V).

(** Instrumentation: number of constructor and destructor calls so far (both only counted
    where the code performs them). *)
Record count := { ctors : nat; dtors : nat }.

(** Placement new of an object with slot contents [s]. Reusing the storage of an object that needs
    destruction is not UB in C++ but leaks it; the model treats it as an error. *)
Definition construct (c : count) (d : list (slot V)) (i : nat) (s : slot V) : res (count * list (slot V)) :=
  old <- get d i ;;
  match old, triv_dtor T with
  | Live _, false => UB
  | _, _ => d <- set d i s ;; Ok ({| ctors := S (ctors c); dtors := dtors c |}, d)
  end.

(** Destructor call: the object must be alive. *)
Definition destroy (c : count) (d : list (slot V)) (i : nat) : res (count * list (slot V)) :=
  old <- get d i ;;
  match old, triv_ctor T with
  | Raw, false => UB
  | _, _ => d <- set d i Raw ;; Ok ({| ctors := ctors c; dtors := S (dtors c) |}, d)
  end.

(** dst = src: both must be alive. Copying an indeterminate value of a trivially initialised T
    leaves an indeterminate value (simplification: not UB). *)
Definition assign (d : list (slot V)) (i : nat) (src : slot V) : res (list (slot V)) :=
  old <- get d i ;;
  match old, src, triv_ctor T with
  | Raw, _, false => UB
  | _, Raw, false => UB
  | _, _, _ => set d i src
  end.

(** The slot after its value has been moved away. *)
Definition moved_from (s : slot V) : slot V := match s with Raw => Raw | Live v => Live (moved T v) end.

(** ce.h:1250-1257 construct_at(data, head, tail): default-initialise. *)
Fixpoint construct_loop (c : count) (d : list (slot V)) (head n : nat) : res (count * list (slot V)) :=
  match n with
  | O => Ok (c, d)
  | S n => '(c, d) <- construct c d head (Live (dflt T)) ;; construct_loop c d (S head) n
  end.
Definition construct_at (c : count) (d : list (slot V)) (head tail : nat) : res (count * list (slot V) * nat) :=
  '(c, d) <- (if triv_ctor T then Ok (c, d) else construct_loop c d head (tail - head)) ;; Ok (c, d, tail).

(** ce.h:1259-1266 destroy_at(data, head, tail): from the back. *)
Fixpoint destroy_loop (c : count) (d : list (slot V)) (head n : nat) : res (count * list (slot V)) :=
  match n with
  | O => Ok (c, d)
  | S n => '(c, d) <- destroy c d (head + n) ;; destroy_loop c d head n
  end.
Definition destroy_at (c : count) (d : list (slot V)) (head tail : nat) : res (count * list (slot V) * nat) :=
  '(c, d) <- (if triv_dtor T then Ok (c, d) else destroy_loop c d head (tail - head)) ;; Ok (c, d, head).

(** ce.h:1268-1273 is_constructible_with<T, T>: both overloads of test return false. *)
Definition is_constructible_with_T : bool := false.
(** ce.h:1275-1280 is_constructible_with<T>. *)
Definition is_constructible_default : bool := has_default T.

(** ce.h:1282-1296 construct_copy(dst, src). *)
Definition construct_copy (c : count) (d : list (slot V)) (i : nat) (src : slot V) : res (count * list (slot V)) :=
  if is_constructible_with_T then construct c d i src
  else if is_constructible_default then
    '(c, d) <- construct c d i (if triv_ctor T then Raw else Live (dflt T)) ;;
    d <- assign d i src ;; Ok (c, d)
  else d <- assign d i src ;; Ok (c, d).

Fixpoint construct_copies (c : count) (d : list (slot V)) (i : nat) (src : list (slot V)) (n : nat)
  : res (count * list (slot V)) :=
  match n with
  | O => Ok (c, d)
  | S n => s <- get src i ;; '(c, d) <- construct_copy c d i s ;; construct_copies c d (S i) src n
  end.

Fixpoint assigns (d : list (slot V)) (i : nat) (src : list (slot V)) (n : nat) : res (list (slot V)) :=
  match n with
  | O => Ok d
  | S n => s <- get src i ;; d <- assign d i s ;; assigns d (S i) src n
  end.

(** ce.h:1298-1314 assign_items. *)
Definition assign_items (c : count) (dst_size : nat) (d : list (slot V)) (src_size : nat) (src : list (slot V))
  : res (count * list (slot V) * nat) :=
  if dst_size <? src_size then
    d <- assigns d 0 src dst_size ;;
    '(c, d) <- construct_copies c d dst_size src (src_size - dst_size) ;;
    Ok (c, d, src_size)
  else
    d <- assigns d 0 src src_size ;;
    '(c, d, _) <- destroy_at c d src_size dst_size ;;
    Ok (c, d, src_size).

(** ce.h:1321 bulk(). *)
Definition bulk_new (N : nat) : bulk V := {| bsize := 0; bdata := repeat Raw N |}.

(** ce.h:1322 ~bulk(). *)
Definition bulk_destroy (c : count) (b : bulk V) : res (count * list (slot V)) :=
  '(c, d, _) <- destroy_at c (bdata b) 0 (bsize b) ;; Ok (c, d).

(** ce.h:1324-1331 bulk(bulk const&). A failed CE_ASSERT is the outcome UB, here and in operator=. *)
Definition bulk_copy (c : count) (N : nat) (b : bulk V) : res (count * bulk V) :=
  guard (bsize b <=? N)
  ('(c, d) <- construct_copies c (repeat Raw N) 0 (bdata b) (bsize b) ;;
  Ok (c, {| bsize := bsize b; bdata := d |})).

(** ce.h:1333-1338 operator=. *)
Definition bulk_assign (c : count) (a b : bulk V) : res (count * bulk V) :=
  guard ((bsize a <=? length (bdata a)) && (bsize b <=? length (bdata a)))
  ('(c, d, n) <- assign_items c (bsize a) (bdata a) (bsize b) (bdata b) ;;
  Ok (c, {| bsize := n; bdata := d |})).

(** ce.h:1345 clear(). *)
Definition bulk_clear (c : count) (b : bulk V) : res (count * bulk V) :=
  '(c, d, n) <- destroy_at c (bdata b) 0 (bsize b) ;; Ok (c, {| bsize := n; bdata := d |}).

(** ce.h:1349-1356 resize(n). *)
Definition bulk_resize (c : count) (b : bulk V) (n : nat) : res (count * bool * bulk V) :=
  if length (bdata b) <? n then Ok (c, false, b)
  else
    '(c, d, n) <- (if n <=? bsize b then destroy_at c (bdata b) n (bsize b)
                   else construct_at c (bdata b) (bsize b) n) ;;
    Ok (c, true, {| bsize := n; bdata := d |}).

(** ce.h:1359 room(). *)
Definition bulk_room (b : bulk V) : nat := length (bdata b) - bsize b.

(** ce.h:1370-1371 operator[]: reading an element; a slot without a value is UB. *)
Definition bulk_read (b : bulk V) (i : nat) : res V :=
  s <- get (bdata b) i ;; match s with Live v => Ok v | Raw => UB end.
(** ce.h:1370 writing through operator[]. *)
Definition bulk_write (b : bulk V) (i : nat) (v : V) : res (bulk V) :=
  d <- assign (bdata b) i (Live v) ;; Ok {| bsize := bsize b; bdata := d |}.
(** ce.h:1367-1368 back(): a null reference when empty. *)
Definition bulk_back (b : bulk V) : res V :=
  if 0 <? bsize b then bulk_read b (bsize b - 1) else UB.

(** ce.h:1373-1380 append_n(n). *)
Definition bulk_append_n (c : count) (b : bulk V) (n : nat) : res (count * bool * bulk V) :=
  if length (bdata b) - bsize b <? n then Ok (c, false, b)
  else
    '(c, d, n) <- construct_at c (bdata b) (bsize b) (bsize b + n) ;;
    Ok (c, true, {| bsize := n; bdata := d |}).

(** ce.h:1382-1388 append(us...): [v] is the value of T{ us... }. *)
Definition bulk_append (c : count) (b : bulk V) (v : V) : res (count * bool * bulk V) :=
  if bsize b <? length (bdata b) then
    '(c, d) <- construct c (bdata b) (bsize b) (Live v) ;;
    Ok (c, true, {| bsize := S (bsize b); bdata := d |})
  else Ok (c, false, b).

(** data[i] = static_cast<T&&>(data[j]). *)
Definition move_slot (d : list (slot V)) (i j : nat) : res (list (slot V)) :=
  s <- get d j ;; d <- assign d i s ;; set d j (moved_from s).

Fixpoint shift_down (d : list (slot V)) (i n : nat) : res (list (slot V)) :=
  match n with
  | O => Ok d
  | S n => d <- move_slot d i (i + 1) ;; shift_down d (S i) n
  end.

(** ce.h:1390-1411 remove_at<Ordered>(i). *)
Definition bulk_remove_at (ordered : bool) (c : count) (b : bulk V) (i : nat) : res (count * bool * bulk V) :=
  if bsize b <=? i then Ok (c, false, b)
  else
    let size := bsize b - 1 in
    d <- (if ordered then shift_down (bdata b) i (size - i)
          else if i <? size then move_slot (bdata b) i size else Ok (bdata b)) ;;
    '(c, d) <- destroy c d size ;;
    Ok (c, true, {| bsize := size; bdata := d |}).

(** A client program works on any number of bulks of one type, named by number of creation. *)
Inductive op :=
| New | Copy (j : nat) | Destroy (i : nat) | Assign (i j : nat) | Clear (i : nat)
| Resize (i n : nat) | AppendN (i n : nat) | Append (i : nat) (v : V)
| RemoveAt (ordered : bool) (i k : nat)
| Read (i k : nat) | Write (i k : nat) (v : V) | Back (i : nat) | Size (i : nat) | Room (i : nat).

Inductive ret := Unit | Bool (b : bool) | Val (v : V) | Nat (n : nat).

Record state := { cnt : count; objs : list (option (bulk V)) }.

Definition obj (s : state) (i : nat) : res (bulk V) :=
  o <- get (objs s) i ;; match o with Some b => Ok b | None => UB end.
Definition put (s : state) (c : count) (i : nat) (b : bulk V) : state :=
  {| cnt := c; objs := upd (objs s) i (Some b) |}.

Definition step (N : nat) (s : state) (o : op) : res (ret * state) :=
  match o with
  | New => Ok (Unit, {| cnt := cnt s; objs := objs s ++ [Some (bulk_new N)] |})
  | Copy j => b <- obj s j ;; '(c, b) <- bulk_copy (cnt s) N b ;;
      Ok (Unit, {| cnt := c; objs := objs s ++ [Some b] |})
  | Destroy i => b <- obj s i ;; '(c, _) <- bulk_destroy (cnt s) b ;;
      Ok (Unit, {| cnt := c; objs := upd (objs s) i None |})
  | Assign i j => a <- obj s i ;; b <- obj s j ;; '(c, a) <- bulk_assign (cnt s) a b ;; Ok (Unit, put s c i a)
  | Clear i => b <- obj s i ;; '(c, b) <- bulk_clear (cnt s) b ;; Ok (Unit, put s c i b)
  | Resize i n => b <- obj s i ;; '(c, r, b) <- bulk_resize (cnt s) b n ;; Ok (Bool r, put s c i b)
  | AppendN i n => b <- obj s i ;; '(c, r, b) <- bulk_append_n (cnt s) b n ;; Ok (Bool r, put s c i b)
  | Append i v => b <- obj s i ;; '(c, r, b) <- bulk_append (cnt s) b v ;; Ok (Bool r, put s c i b)
  | RemoveAt ord i k => b <- obj s i ;; '(c, r, b) <- bulk_remove_at ord (cnt s) b k ;; Ok (Bool r, put s c i b)
  | Read i k => b <- obj s i ;; v <- bulk_read b k ;; Ok (Val v, s)
  | Write i k v => b <- obj s i ;; b <- bulk_write b k v ;; Ok (Unit, put s (cnt s) i b)
  | Back i => b <- obj s i ;; v <- bulk_back b ;; Ok (Val v, s)
  | Size i => b <- obj s i ;; Ok (Nat (bsize b), s)
  | Room i => b <- obj s i ;; Ok (Nat (bulk_room b), s)
  end.

Fixpoint run (N : nat) (s : state) (os : list op) : res (list ret * state) :=
  match os with
  | [] => Ok ([], s)
  | o :: os => '(r, s) <- step N s o ;; '(rs, s) <- run N s os ;; Ok (r :: rs, s)
  end.

Definition start : state := {| cnt := {| ctors := 0; dtors := 0 |}; objs := [] |}.
End Bulk.
Arguments New {V}. Arguments Copy {V}. Arguments Destroy {V}. Arguments Assign {V}. Arguments Clear {V}.
Arguments Resize {V}. Arguments AppendN {V}. Arguments Append {V}. Arguments RemoveAt {V}. Arguments Read {V}.
Arguments Write {V}. Arguments Back {V}. Arguments Size {V}. Arguments Room {V}.
Arguments Unit {V}. Arguments Bool {V}. Arguments Val {V}. Arguments Nat {V}.
