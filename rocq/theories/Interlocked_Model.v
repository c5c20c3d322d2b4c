(** Model of every operation of lib/h/ce/atomic_std.h and lib/h/ce/atomic_msvc_x86.h on objects that need no lock, for threads that make
    any number of calls. No proofs.
    A value is its object representation, a number below 2^(8 size). Threads interleave at every access to shared memory. *)
From Verif Require Import Base.
Local Open Scope Z_scope.

(** What the code asks about T. KInt: an integer type. KPtr: a pointer to objects of [stride] bytes. KFloat: a floating point type whose
    += and -= are these functions on representations. KUser: a class with non-member operators - and ^, and these += and -=.
    KMember: a class whose operators are members, among them ^ or not, and these += and -=. *)
Inductive kind :=
  | KInt (signed : bool)
  | KPtr (stride : Z)
  | KFloat (plus minus : Z -> Z -> Z)
  | KUser (plus minus : Z -> Z -> Z)
  | KMember (xor : bool) (plus minus : Z -> Z -> Z).
Record ty := { t_size : Z; t_kind : kind }.

(** atomic_msvc_x86.h:97-106 which of the expressions compile for T. operator-(U(), U()) finds non-member operators only. *)
Definition can_sub (t : ty) : bool := true.
Definition can_user_sub (t : ty) : bool := match t_kind t with KUser _ _ => true | _ => false end.
Definition can_xor (t : ty) : bool := match t_kind t with KInt _ | KUser _ _ => true | KMember xor _ _ => xor | _ => false end.
Definition can_user_xor (t : ty) : bool := match t_kind t with KUser _ _ => true | _ => false end.
(** ce.h:362-365 is_ptr. *)
Definition is_ptr (t : ty) : bool := match t_kind t with KPtr _ => true | _ => false end.

(** atomic_msvc_x86.h:108-109. *)
Definition can_cpu_sub (t : ty) : bool := can_sub t && negb (can_user_sub t).
Definition can_cpu_xor (t : ty) : bool := can_xor t && negb (can_user_xor t).

(** atomic_msvc_x86.h:111-129 struct info. *)
Definition is_cpu (t : ty) : bool := can_cpu_sub t.
Definition is_fpu (t : ty) : bool := can_cpu_sub t && negb (can_cpu_xor t) && negb (is_ptr t).
Definition is_mem (t : ty) : bool := (Z.land (t_size t) (t_size t - 1) =? 0) && (t_size t <=? 16).
Definition is_m8 (t : ty) : bool := t_size t =? 1.
Definition is_m16 (t : ty) : bool := t_size t =? 2.
Definition is_m32 (t : ty) : bool := t_size t =? 4.
Definition is_m64 (t : ty) : bool := t_size t =? 8.
Definition is_i8 (t : ty) : bool := is_m8 t && is_cpu t && negb (is_fpu t).
Definition is_i16 (t : ty) : bool := is_m16 t && is_cpu t && negb (is_fpu t).
Definition is_i32 (t : ty) : bool := is_m32 t && is_cpu t && negb (is_fpu t).
Definition is_i64 (t : ty) : bool := is_m64 t && is_cpu t && negb (is_fpu t).

(** A call of the API. CCas b c is atomic_compare_exchange(a, b, c). The argument of CAdd and CSub is the number n for integers and
    pointers, and the representation of n otherwise. CXor, CAnd and COr exist in atomic_std.h only. *)
Inductive call :=
  | CLoad | CStore (v : Z) | CExchange (v : Z) | CCas (b c : Z) | CAdd (n : Z) | CSub (n : Z)
  | CXor (v : Z) | CAnd (v : Z) | COr (v : Z).

(** What a call gives back: the returned value, or for CCas the new value of b; and for CCas the returned bool. *)
Definition ret := (Z * bool)%type.

(** How a call is carried out: by one indivisible access; by a compare-exchange loop that computes the new value with [op]; by reading
    the two halves of the object one after the other; under the spin lock of scope_spin_lock (see Atomic_Model);
    or the function ends without a return statement; or there is no such function. *)
Inductive impl :=
  | IStep (f : Z -> option (Z * ret))   (* None: undefined behaviour *)
  | ILoop (op : Z -> Z)
  | IHalves
  | ILock
  | INoReturn
  | INone.

(** as_atom<T>{ T{ } + n } and as_atom<T>{ T{ } - n } (atomic_msvc_x86.h:254-260, 292-298). T{ } - n is computed in T, or in int when T is
    narrower (where as_atom then narrows, which a compiler may reject); a signed result out of range is undefined.
    For pointers it is the null pointer moved by n objects, taken as arithmetic on flat addresses. For a class it is the class's own + or
    -, which is taken to do what += and -= do to T{ }, and T{ } is taken to be all zeros. *)
Definition delta (t : ty) (sub : bool) (n : Z) : option Z :=
  let w := 8 * t_size t in
  match t_kind t with
  | KInt signed =>
      let v := if sub then 0 - n else 0 + n in
      let p := Z.max w 32 in
      if (signed || (w <? 32)) && negb ((- 2 ^ (p - 1) <=? v) && (v <? 2 ^ (p - 1))) then None else Some (v mod 2 ^ w)
  | KPtr stride => Some ((if sub then 0 - n * stride else 0 + n * stride) mod 2 ^ w)
  | KMember _ plus minus => Some ((if sub then minus else plus) 0 n)
  | _ => None
  end.
(** T u = b; u += n or u -= n (atomic_msvc_x86.h:265-266, 303-304; atomic_std.h:68, 78). *)
Definition assign_op (t : ty) (sub : bool) (n : Z) (u : Z) : Z :=
  match t_kind t with
  | KInt _ => (if sub then u - n else u + n) mod 2 ^ (8 * t_size t)
  | KPtr stride => (if sub then u - n * stride else u + n * stride) mod 2 ^ (8 * t_size t)
  | KFloat plus minus | KUser plus minus | KMember _ plus minus => (if sub then minus else plus) u n
  end.

(** The intrinsics _InterlockedExchange.., _InterlockedExchangeAdd.., _InterlockedCompareExchange.. on an object of w bits. *)
Definition interlocked_exchange (v : Z) (m : Z) : Z * Z := (v, m).
Definition interlocked_exchange_add (w v : Z) (m : Z) : Z * Z := ((m + v) mod 2 ^ w, m).
Definition interlocked_compare_exchange (n p : Z) (m : Z) : Z * Z := (if m =? p then n else m, m).

(** The processor: 64 or 32 bit (CE_CPU_X86_64, CE_CPU_X86_32). *)
Inductive cpu := X64 | X32.

(** atomic_msvc_x86.h:178-192 atomic_load. On a 32 bit processor a volatile read of 8 bytes is two reads.
    A class has no constructor that copies a volatile object, unless it declares one: there is no such function. *)
Definition msvc_load (k : cpu) (t : ty) : impl :=
  if is_cpu t then
    match t_kind t with
    | KMember _ _ _ => INone
    | _ =>
    match k with
    | X32 => if is_m64 t then IHalves else IStep (fun m => Some (m, (m, true)))
    | X64 => IStep (fun m => Some (m, (m, true)))
    end
    end
  else ILock.

(** atomic_msvc_x86.h:194-209 atomic_store. *)
Definition msvc_store (t : ty) (b : Z) : impl :=
  let go := IStep (fun m => let '(m, _) := interlocked_exchange b m in Some (m, (0, true))) in
  if is_m8 t then go else if is_m16 t then go else if is_m32 t then go else if is_m64 t then go else ILock.

(** atomic_msvc_x86.h:211-228 atomic_exchange. *)
Definition msvc_exchange (t : ty) (b : Z) : impl :=
  let go := IStep (fun m => let '(m, u) := interlocked_exchange b m in Some (m, (u, true))) in
  if is_m8 t then go else if is_m16 t then go else if is_m32 t then go else if is_m64 t then go else ILock.

(** atomic_msvc_x86.h:230-249 atomic_compare_exchange. For 16 bytes n and p are arrays, which do not initialise like this: no such
    function. When is_mem is false the function has no return statement. *)
Definition msvc_cas (t : ty) (b c : Z) : impl :=
  let go := IStep (fun m => let '(m, n) := interlocked_compare_exchange c b m in Some (m, (n, n =? b))) in
  if is_mem t then
    if is_m8 t then go else if is_m16 t then go else if is_m32 t then go else if is_m64 t then go else INone
  else INoReturn.

(** atomic_msvc_x86.h:251-287 atomic_fetch_add, 289-325 atomic_fetch_sub. *)
Definition msvc_fetch (t : ty) (sub : bool) (n : Z) : impl :=
  let go := IStep (fun m =>
    match delta t sub n with
    | Some v => let '(m, u) := interlocked_exchange_add (8 * t_size t) v m in Some (m, (u, true))
    | None => None
    end) in
  if is_i8 t then go else if is_i16 t then go else if is_i32 t then go else if is_i64 t then go
  else if is_mem t then (if t_size t =? 16 then INone else ILoop (assign_op t sub n))
  else ILock.

Definition msvc_impl (k : cpu) (t : ty) (c : call) : impl :=
  match c with
  | CLoad => msvc_load k t
  | CStore v => msvc_store t v
  | CExchange v => msvc_exchange t v
  | CCas b c => msvc_cas t b c
  | CAdd n => msvc_fetch t false n
  | CSub n => msvc_fetch t true n
  | CXor _ | CAnd _ | COr _ => INone
  end.

(** atomic_std.h:51-84: the members of std::atomic<T> are single accesses, except that fetch_add and fetch_sub are loops when
    std::atomic<T> has no fetch_add: [has] says whether a floating point T has one (C++20); classes have none. *)
Definition std_impl (has : bool) (t : ty) (c : call) : impl :=
  match c with
  | CLoad => IStep (fun m => Some (m, (m, true)))
  | CStore v => IStep (fun m => Some (v, (0, true)))
  | CExchange v => IStep (fun m => Some (v, (m, true)))
  | CCas b c => IStep (fun m => if m =? b then Some (c, (b, true)) else Some (m, (m, false)))
  | CAdd n | CSub n =>
      let sub := match c with CSub _ => true | _ => false end in
      match t_kind t with
      | KInt _ | KPtr _ => IStep (fun m => Some (assign_op t sub n m, (m, true)))
      | KFloat _ _ => if has then IStep (fun m => Some (assign_op t sub n m, (m, true))) else ILoop (assign_op t sub n)
      | KUser _ _ | KMember _ _ _ => ILoop (assign_op t sub n)
      end
  | CXor v => match t_kind t with KInt _ => IStep (fun m => Some (Z.lxor m v, (m, true))) | _ => INone end
  | CAnd v => match t_kind t with KInt _ => IStep (fun m => Some (Z.land m v, (m, true))) | _ => INone end
  | COr v => match t_kind t with KInt _ => IStep (fun m => Some (Z.lor m v, (m, true))) | _ => INone end
  end.

(** ** Threads *)

(** What a client sees of an execution: thread i calls c on object o; the call of thread i returns r. *)
Inductive event := Inv (i o : nat) (c : call) | Ret (i : nat) (r : ret).

(** A thread: between calls; inside a call, before its first access; after half of a read; before a compare-exchange that expects e; after
    its last access. *)
Inductive pc := Idle | Begin (o : nat) (c : call) | Half (o : nat) (low : Z) | Loop (o : nat) (c : call) (e : Z) | End (r : ret).
Record thread := { th_pc : pc; th_todo : list (nat * call) }.
Record state := { mem : list Z; threads : list thread }.

(** What is left open at an access: the value that the first load of a loop gives ([None]: that in memory; the relaxed load of
    atomic_std.h:67 may give another) and whether compare_exchange_weak fails for no reason. *)
Record choice := { stale : option Z; spurious : bool }.
Definition exact : choice := {| stale := None; spurious := false |}.

(** A step of a thread: its new program counter and memory, or undefined behaviour, or no step. *)
Inductive access := AGo (m : Z) (p : pc) | AUndefined | ANothing.

(** The accesses of a call to its object, whose representation is m. *)
Definition access_step (how : impl) (t : ty) (ch : choice) (o : nat) (c : call) (p : pc) (m : Z) : access :=
  match how, p with
  | IStep f, Begin _ _ => match f m with Some (m, r) => AGo m (End r) | None => AUndefined end
  | ILoop _, Begin _ _ => AGo m (Loop o c (match stale ch with Some x => x | None => m end))
  (* the intrinsic or compare_exchange_weak: on success the object gets op e and the call returns e; else e becomes m *)
  | ILoop op, Loop _ _ e => if (m =? e) && negb (spurious ch) then AGo (op e) (End (e, true)) else AGo m (Loop o c m)
  | IHalves, Begin _ _ => AGo m (Half o (m mod 2 ^ 32))
  | IHalves, Half _ low => AGo m (End (low + 2 ^ 32 * (m / 2 ^ 32), true))
  | INoReturn, Begin _ _ => AUndefined
  | _, _ => ANothing
  end.

Inductive outcome := Next (s : state) (tr : list event) | Undefined | Disabled.

(** A step of thread i. [how] is msvc_impl or std_impl; ts are the types of the objects. *)
Definition step (how : ty -> call -> impl) (ts : list ty) (i : nat) (ch : choice) (s : state) : outcome :=
  match nth_error (threads s) i with
  | None => Disabled
  | Some th =>
      let go o c :=
        match nth_error ts o, nth_error (mem s) o with
        | Some t, Some m =>
            match access_step (how t c) t ch o c (th_pc th) m with
            | AGo m p => Next {| mem := upd (mem s) o m; threads := upd (threads s) i {| th_pc := p; th_todo := th_todo th |} |} []
            | AUndefined => Undefined
            | ANothing => Disabled
            end
        | _, _ => Disabled
        end in
      match th_pc th with
      | Idle =>
          match th_todo th with
          | [] => Disabled
          | (o, c) :: todo => Next {| mem := mem s; threads := upd (threads s) i {| th_pc := Begin o c; th_todo := todo |} |} [Inv i o c]
          end
      | Begin o c => go o c
      | Half o _ => go o CLoad
      | Loop o c _ => go o c
      | End r => Next {| mem := mem s; threads := upd (threads s) i {| th_pc := Idle; th_todo := th_todo th |} |} [Ret i r]
      end
  end.

(** An execution: which thread goes, again and again. *)
Fixpoint run (how : ty -> call -> impl) (ts : list ty) (sched : list (nat * choice)) (s : state) : outcome :=
  match sched with
  | [] => Next s []
  | (i, ch) :: sched =>
      match step how ts i ch s with
      | Next s tr =>
          match run how ts sched s with
          | Next s tr' => Next s (tr ++ tr')
          | o => o
          end
      | o => o
      end
  end.

(** The threads before their first calls. *)
Definition start (objs : list Z) (programs : list (list (nat * call))) : state :=
  {| mem := objs; threads := map (fun p => {| th_pc := Idle; th_todo := p |}) programs |}.
