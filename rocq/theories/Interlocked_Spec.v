(** What the atomics are for: an atomic object behaves as if every call were made at one instant. No proofs, nothing of how calls work. *)
From Verif Require Import Base Interlocked_Model.
Local Open Scope Z_scope.

(** A call on an object of type t that nobody else uses: the new value and what the call gives back. Integers wrap round;
    pointers move by whole objects. *)
Definition effect (t : ty) (c : call) (m : Z) : Z * ret :=
  let M := 2 ^ (8 * t_size t) in
  match c with
  | CLoad => (m, (m, true))
  | CStore v => (v, (0, true))
  | CExchange v => (v, (m, true))
  | CCas b c => if m =? b then (c, (m, true)) else (m, (m, false))
  | CAdd n =>
      (match t_kind t with
       | KInt _ => (m + n) mod M
       | KPtr stride => (m + n * stride) mod M
       | KFloat plus _ | KUser plus _ | KMember _ plus _ => plus m n
       end, (m, true))
  | CSub n =>
      (match t_kind t with
       | KInt _ => (m - n) mod M
       | KPtr stride => (m - n * stride) mod M
       | KFloat _ minus | KUser _ minus | KMember _ _ minus => minus m n
       end, (m, true))
  | CXor v => (Z.lxor m v, (m, true))
  | CAnd v => (Z.land m v, (m, true))
  | COr v => (Z.lor m v, (m, true))
  end.

(** An execution together with the instants at which the calls take effect: At i o c r. *)
Inductive moment := Seen (e : event) | At (i o : nat) (c : call) (r : ret).

(** What the client sees of it. *)
Definition seen (h : list moment) : list event := flat_map (fun x => match x with Seen e => [e] | At _ _ _ _ => [] end) h.

(** Thread i's part: every call takes effect exactly once, after it began and before it returned, and returns the result it had there. *)
Inductive phase := Outside | Called (o : nat) (c : call) | Effective (r : ret).
Definition who (x : moment) : nat := match x with Seen (Inv i _ _) => i | Seen (Ret i _) => i | At i _ _ _ => i end.
Inductive follows : phase -> moment -> phase -> Prop :=
  | f_call i o c : follows Outside (Seen (Inv i o c)) (Called o c)
  | f_effect i o c r : follows (Called o c) (At i o c r) (Effective r)
  | f_return i r : follows (Effective r) (Seen (Ret i r)) Outside.
Inductive in_order (i : nat) : list moment -> phase -> Prop :=
  | io_nil : in_order i [] Outside
  | io_mine h p x q : in_order i h p -> who x = i -> follows p x q -> in_order i (h ++ [x]) q
  | io_other h p x : in_order i h p -> who x <> i -> in_order i (h ++ [x]) p.

(** The effects, one after the other: each result is that of the call on the object as the effects before left it. *)
Inductive one_by_one (ts : list ty) (objs : list Z) : list moment -> list Z -> Prop :=
  | o_nil : one_by_one ts objs [] objs
  | o_seen h now e : one_by_one ts objs h now -> one_by_one ts objs (h ++ [Seen e]) now
  | o_at h now i o c t m m' r : one_by_one ts objs h now -> nth_error ts o = Some t -> nth_error now o = Some m ->
      effect t c m = (m', r) -> one_by_one ts objs (h ++ [At i o c r]) (upd now o m').

(** Herlihy and Wing: instants can be chosen for the effects. *)
Definition linearizable (ts : list ty) (objs : list Z) (tr : list event) (final : list Z) : Prop :=
  exists h, seen h = tr /\ (forall i, exists p, in_order i h p) /\ one_by_one ts objs h final.

(** The calls of thread i, in order. *)
Definition calls (i : nat) (tr : list event) : list (nat * call) :=
  flat_map (fun e => match e with Inv j o c => if Nat.eqb j i then [(o, c)] else [] | Ret _ _ => [] end) tr.
(** Each thread has made calls of its program, from the first on. *)
Definition of_programs (programs : list (list (nat * call))) (tr : list event) : Prop :=
  forall i, exists rest, nth i programs [] = calls i tr ++ rest.

(** Types that the processor handles itself: integers and pointers of 1, 2, 4 or 8 bytes, floating point of 4 or 8. *)
Definition builtin (t : ty) : Prop :=
  match t_kind t with
  | KInt _ => t_size t = 1 \/ t_size t = 2 \/ t_size t = 4 \/ t_size t = 8
  | KPtr _ => t_size t = 4 \/ t_size t = 8
  | KFloat _ _ => t_size t = 4 \/ t_size t = 8
  | KUser _ _ | KMember _ _ _ => False
  end.

(** The values an object of type t can have. *)
Definition value (t : ty) (m : Z) : Prop := 0 <= m < 2 ^ (8 * t_size t).
(** The arguments n that the type of the parameter admits. For KInt this is T for 4 and 8 bytes and int below. *)
Definition count (t : ty) (n : Z) : Prop :=
  let p := Z.max (8 * t_size t) 32 in
  match t_kind t with
  | KInt true => - 2 ^ (p - 1) <= n < 2 ^ (p - 1)
  | KInt false => if t_size t <? 4 then - 2 ^ 31 <= n < 2 ^ 31 else 0 <= n < 2 ^ p
  | KPtr _ => - 2 ^ 63 <= n < 2 ^ 63
  | _ => value t n
  end.

(** T{ } - n exists: n is not the least signed number. *)
Definition negatable (t : ty) (n : Z) : Prop :=
  match t_kind t with
  | KInt signed => signed = true \/ t_size t < 4 -> n <> - 2 ^ (Z.max (8 * t_size t) 32 - 1)
  | _ => True
  end.
(** The calls of atomic_msvc_x86.h with arguments of the right type. *)
Definition allowed (t : ty) (c : call) : Prop :=
  match c with
  | CAdd n => count t n
  | CSub n => count t n /\ negatable t n
  | CXor _ | CAnd _ | COr _ => False
  | _ => True
  end.
(** Types whose objects can be changed by one access: the built-in ones and classes of 1, 2, 4 or 8 bytes. *)
Definition small (t : ty) : Prop :=
  match t_kind t with KUser _ _ | KMember _ _ _ => t_size t = 1 \/ t_size t = 2 \/ t_size t = 4 \/ t_size t = 8 | _ => builtin t end.
(** The calls that keep the promise: all but the load of a class, which takes a lock that the other calls ignore (C60), on a 32 bit
    processor the load of 8 bytes, and atomic_fetch_add and atomic_fetch_sub of a class whose operators, ^ among them, are members. *)
Definition sound (k : cpu) (t : ty) (c : call) : Prop :=
  allowed t c /\ (c = CLoad -> builtin t /\ (k = X32 -> t_size t <> 8)) /\
  (forall n, c = CAdd n \/ c = CSub n -> forall plus minus, t_kind t <> KMember true plus minus).
(** The calls of atomic_std.h: ^, & and | are for integers. *)
Definition offered (t : ty) (c : call) : Prop :=
  match c with CXor _ | CAnd _ | COr _ => exists signed, t_kind t = KInt signed | _ => True end.
(** Every call of the programs is on one of the objects, and allowed for its type. *)
Definition well_typed (ok : ty -> call -> Prop) (ts : list ty) (programs : list (list (nat * call))) : Prop :=
  forall p o c, In p programs -> In (o, c) p -> exists t, nth_error ts o = Some t /\ ok t c.
