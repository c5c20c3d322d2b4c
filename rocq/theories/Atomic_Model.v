(** Model of lib/h/ce/atomic_std.h (fetch_add and fetch_sub by compare-exchange), of lib/h/ce/atomic_msvc_x86.h (the same, the
    hashed spin locks and the operations they guard) and of lib/mutex_std.cpp, lib/mutex_win32.cpp. No proofs.
    Threads interleave at every access to shared memory. *)
From Verif Require Import Base.
Local Open Scope nat_scope.

(** ** fetch_add and fetch_sub by compare-exchange *)

Section Fetch.
  (** The object representation of the atomic's type (compare-exchange compares representations), and n += v or n -= v. *)
  Context {T V : Type} (eqb : T -> T -> bool) (op : T -> V -> T).

  (** A thread inside atomic_fetch_add(a, v): before the first load, before a compare-exchange that expects e, or returned. *)
  Inductive fetch_pc := FStart | FLoop (e : T) | FDone (r : T).
  Record fetch_state := { f_mem : T; f_pcs : list fetch_pc }.

  (** One access of thread i with argument v. The relaxed first load may return a stale value: any. flag is a spurious failure. *)
  Inductive fetch_choice := FLoad (stale : T) | FCas (spurious : bool).

  (** atomic_std.h:62-70 and 72-80: for (T e = load(relaxed);;) if (T n = e; compare_exchange_weak(e, n += v)) return e; *)
  Definition fetch_std (c : fetch_choice) (v : V) (mem : T) (pc : fetch_pc) : option (T * fetch_pc) :=
    match c, pc with
    | FLoad x, FStart => Some (mem, FLoop x)
    | FCas spurious, FLoop e =>
        let n := op e v in
        if eqb mem e && negb spurious then Some (n, FDone e) else Some (mem, FLoop mem)
    | _, _ => None
    end.

  (** atomic_msvc_x86.h:262-280 and 300-318: for (auto b = a.atom;;) { p = b; u = b; b = (u += n); b = CompareExchange(&a, b, p);
      if (b == p) return b; } The intrinsic is strong: it returns the old value, and stores when that was p. *)
  Definition fetch_msvc (c : fetch_choice) (v : V) (mem : T) (pc : fetch_pc) : option (T * fetch_pc) :=
    match c, pc with
    | FLoad x, FStart => Some (mem, FLoop x)
    | FCas _, FLoop b =>
        let p := b in
        let u := op b v in
        let '(b, mem) := (mem, if eqb mem p then u else mem) in
        if eqb b p then Some (mem, FDone b) else Some (mem, FLoop b)
    | _, _ => None
    end.

  (** A step of thread i, and executions of any schedule. vs are the arguments of the threads. *)
  Definition fetch_step (impl : fetch_choice -> V -> T -> fetch_pc -> option (T * fetch_pc)) (vs : list V) (i : nat) (c : fetch_choice)
      (s : fetch_state) : option fetch_state :=
    match nth_error vs i, nth_error (f_pcs s) i with
    | Some v, Some pc =>
        match impl c v (f_mem s) pc with
        | Some (mem, pc) => Some {| f_mem := mem; f_pcs := upd (f_pcs s) i pc |}
        | None => None
        end
    | _, _ => None
    end.
  Fixpoint fetch_run impl (vs : list V) (sched : list (nat * fetch_choice)) (s : fetch_state) : option fetch_state :=
    match sched with
    | [] => Some s
    | (i, c) :: sched => match fetch_step impl vs i c s with Some s => fetch_run impl vs sched s | None => None end
    end.
  Definition fetch_init (x : T) (vs : list V) : fetch_state := {| f_mem := x; f_pcs := map (fun _ => FStart) vs |}.
End Fetch.

(** ** The hashed spin locks *)

(** atomic_msvc_x86.h:81 the lock of an object at address p: 255 & (p as a void** minus null). ptr is sizeof(void* ). *)
Definition lock_index (ptr p : Z) : nat := Z.to_nat (Z.land 255 (p / ptr)).

(** Operations on an atomic object of several words, guarded by scope_spin_lock:
    atomic_load 188-190, atomic_store 206-207, atomic_exchange 223-226, atomic_fetch_add and fetch_sub 282-285, 320-323.
    f is a.data += n or a.data -= n as a function of the words (simplified: a.data is read once, for u, and f of it is written). *)
Inductive aop := ALoad | AStore (v : list Z) | AExchange (v : list Z) | AFetch (f : list Z -> list Z).

(** A thread: waiting at the compare-exchange of line 82; pausing at lines 83-84; copying a.data out word by word; writing a.data
    word by word; about to release (lines 74-78: lock = 0); returned. *)
Inductive apc :=
  | AWait | APause
  | ARead (got : list Z)
  | AWrite (new : list Z) (k : nat) (old : list Z)
  | ARelease (r : list Z)
  | ADone (r : list Z).

(** The 256 locks (held or not), the objects, and the threads. *)
Record astate := { a_locks : list bool; a_objs : list (list Z); a_pcs : list apc }.

(** A call: the object it works on, and the operation. *)
Definition acall := (nat * aop)%type.

(** What a thread does once it has copied old out. *)
Definition after_read (op : aop) (old : list Z) : apc :=
  match op with
  | ALoad => ARelease old
  | AStore v => AWrite v 0 old
  | AExchange v => AWrite v 0 old
  | AFetch f => AWrite (f old) 0 old
  end.

(** Entering: atomic_store does not copy the old value out (its result is empty). *)
Definition enter (op : aop) : apc := match op with AStore v => AWrite v 0 [] | _ => ARead [] end.

(** One access by a thread: lock and data are those of its object. *)
Definition astep_pc (op : aop) (lock : bool) (data : list Z) (pc : apc) : option (bool * list Z * apc) :=
  match pc with
  | AWait => if lock then Some (lock, data, APause) else Some (true, data, enter op)
  | APause => if lock then Some (lock, data, APause) else Some (lock, data, AWait)
  | ARead got =>
      match nth_error data (length got) with
      | Some w => Some (lock, data, ARead (got ++ [w]))
      | None => Some (lock, data, after_read op got)
      end
  | AWrite new k old =>
      match nth_error new k with
      | Some w => Some (lock, upd data k w, AWrite new (S k) old)
      | None => Some (lock, data, ARelease old)
      end
  | ARelease r => Some (false, data, ADone r)
  | ADone _ => None
  end.

(** A step of thread i: addrs are the addresses of the objects. Objects at different addresses may share a lock. *)
Definition astep (ptr : Z) (addrs : list Z) (calls : list acall) (i : nat) (s : astate) : option astate :=
  match nth_error calls i, nth_error (a_pcs s) i with
  | Some (o, op), Some pc =>
      let l := lock_index ptr (nth o addrs 0%Z) in
      match nth_error (a_locks s) l, nth_error (a_objs s) o with
      | Some lock, Some data =>
          match astep_pc op lock data pc with
          | Some (lock, data, pc) => Some {| a_locks := upd (a_locks s) l lock; a_objs := upd (a_objs s) o data; a_pcs := upd (a_pcs s) i pc |}
          | None => None
          end
      | _, _ => None
      end
  | _, _ => None
  end.
Fixpoint arun (ptr : Z) (addrs : list Z) (calls : list acall) (sched : list nat) (s : astate) : option astate :=
  match sched with
  | [] => Some s
  | i :: sched => match astep ptr addrs calls i s with Some s => arun ptr addrs calls sched s | None => None end
  end.
(** atomic_msvc_x86.h:69 static void* locks[256]: all free. *)
Definition ainit (objs : list (list Z)) (calls : list acall) : astate :=
  {| a_locks := repeat false 256; a_objs := objs; a_pcs := map (fun _ => AWait) calls |}.

(** The same object when its size is 1, 2, 4 or 8 and its type is not a built-in one: atomic_store (196-203) is one interlocked
    exchange that does not take the lock, while atomic_load (188-190) copies a.data under the lock. Here the copy is made in words. *)
Definition mixed_store (o : nat) (v : list Z) (s : astate) : astate :=
  {| a_locks := a_locks s; a_objs := upd (a_objs s) o v; a_pcs := a_pcs s |}.

(** ** Mutexes *)

(** The primitives of std::mutex, std::shared_mutex and SRWLOCK. *)
Inductive prim := PInit | PLock | PTryLock | PUnlock | PLockShared | PTryLockShared | PUnlockShared.
(** The functions of mutex.h. *)
Inductive mcall :=
  | construct_mutex | destroy_mutex | try_acquire_mutex | acquire_mutex | release_mutex
  | try_acquire_mutex_shared | acquire_mutex_shared | release_mutex_shared.

(** mutex_std.cpp:30-43 *)
Definition mutex_std (c : mcall) : prim :=
  match c with
  | construct_mutex => PInit
  | destroy_mutex => PInit
  | try_acquire_mutex => PTryLock
  | acquire_mutex => PLock
  | release_mutex => PUnlock
  | try_acquire_mutex_shared => PTryLockShared
  | acquire_mutex_shared => PLockShared
  | release_mutex_shared => PUnlockShared
  end.
(** mutex_win32.cpp:32-45: PLock is AcquireSRWLockExclusive, and so on. *)
Definition mutex_win32 (c : mcall) : prim :=
  match c with
  | construct_mutex => PInit
  | destroy_mutex => PInit
  | try_acquire_mutex => PTryLock
  | acquire_mutex => PLock
  | release_mutex => PUnlock
  | try_acquire_mutex_shared => PTryLockShared
  | acquire_mutex_shared => PLockShared
  | release_mutex_shared => PUnlockShared
  end.

(** The primitive lock: how many hold it shared, and whether one holds it exclusively. None: the call blocks. The result of a
    try is whether it took the lock; fail is a spurious failure, which std::mutex::try_lock allows. Unlocking a lock that is not
    held that way is undefined. *)
Record lock_state := { l_excl : bool; l_shared : nat }.
Definition prim_step (p : prim) (fail : bool) (l : lock_state) : res (option (lock_state * bool)) :=
  match p with
  | PInit => Ok (Some ({| l_excl := false; l_shared := 0 |}, true))
  | PLock => if l_excl l || negb (Nat.eqb (l_shared l) 0) then Ok None else Ok (Some ({| l_excl := true; l_shared := 0 |}, true))
  | PTryLock =>
      if l_excl l || negb (Nat.eqb (l_shared l) 0) || fail then Ok (Some (l, false)) else Ok (Some ({| l_excl := true; l_shared := 0 |}, true))
  | PUnlock => if l_excl l then Ok (Some ({| l_excl := false; l_shared := l_shared l |}, true)) else UB
  | PLockShared => if l_excl l then Ok None else Ok (Some ({| l_excl := false; l_shared := S (l_shared l) |}, true))
  | PTryLockShared => if l_excl l || fail then Ok (Some (l, false)) else Ok (Some ({| l_excl := false; l_shared := S (l_shared l) |}, true))
  | PUnlockShared => match l_shared l with O => UB | S n => Ok (Some ({| l_excl := l_excl l; l_shared := n |}, true)) end
  end.

(** A call by thread t; what each thread holds is its own knowledge of the calls that returned. *)
Inductive held := HNone | HShared | HExclusive.
Definition call_held (c : mcall) (ok : bool) (h : held) : held :=
  match c with
  | try_acquire_mutex | acquire_mutex => if ok then HExclusive else h
  | try_acquire_mutex_shared | acquire_mutex_shared => if ok then HShared else h
  | release_mutex | release_mutex_shared => HNone
  | construct_mutex | destroy_mutex => h
  end.
(** The calls a thread may make: acquire when it holds nothing, release what it holds. *)
Definition allowed (c : mcall) (h : held) : bool :=
  match c, h with
  | (try_acquire_mutex | acquire_mutex | try_acquire_mutex_shared | acquire_mutex_shared), HNone => true
  | release_mutex, HExclusive => true
  | release_mutex_shared, HShared => true
  | _, _ => false
  end.
Record mstate := { m_lock : lock_state; m_held : list held }.
Definition mcall_step (impl : mcall -> prim) (t : nat) (c : mcall) (fail : bool) (s : mstate) : res (option mstate) :=
  h <- get (m_held s) t ;;
  if negb (allowed c h) then Ok None
  else
    r <- prim_step (impl c) fail (m_lock s) ;;
    match r with
    | None => Ok None
    | Some (l, ok) => Ok (Some {| m_lock := l; m_held := upd (m_held s) t (call_held c ok h) |})
    end.
(** Any schedule of calls; calls that block or are not allowed leave the state as it was. *)
Fixpoint mrun (impl : mcall -> prim) (sched : list (nat * mcall * bool)) (s : mstate) : res mstate :=
  match sched with
  | [] => Ok s
  | (t, c, fail) :: sched => r <- mcall_step impl t c fail s ;; mrun impl sched (match r with Some s => s | None => s end)
  end.
Definition minit (threads : nat) : mstate := {| m_lock := {| l_excl := false; l_shared := 0 |}; m_held := repeat HNone threads |}.
