(** Model of lib/h/ce/atomic_msvc_x86.h on x86 processors, which delay stores: each processor has a first-in first-out store buffer
    that reaches memory one entry at a time, loads see the processor's own buffer first, and locked instructions (_Interlocked...)
    wait until the buffer is empty and work on memory (x86-TSO). _ReadWriteBarrier keeps the compiler from moving accesses. No proofs. *)
From Verif Require Import Base Atomic_Model.
Local Open Scope nat_scope.

(** A store that is not in memory yet: word k of the guarded object o; lock l = 0; a variable of the user's program. *)
Inductive entry := EWord (o k : nat) (w : Z) | EUnlock (l : nat) | EPlain (x : nat) (w : Z).

(** Memory: the locks of line 69, the objects they guard, the atomics of 1, 2, 4 or 8 bytes that need no lock, and the variables of the
    user's program that are not atomic. *)
Record memory := { m_locks : list bool; m_objs : list (list Z); m_atoms : list Z; m_plain : list Z }.
(** Memory, the calls (as in Atomic_Model) and the store buffers of the processors, oldest store first. *)
Record tstate := { t_mem : memory; t_pcs : list apc; t_bufs : list (list entry) }.

(** A store reaches memory. *)
Definition commit (m : memory) (e : entry) : memory :=
  match e with
  | EWord o k w => {| m_locks := m_locks m; m_objs := upd (m_objs m) o (upd (nth o (m_objs m) []) k w); m_atoms := m_atoms m; m_plain := m_plain m |}
  | EUnlock l => {| m_locks := upd (m_locks m) l false; m_objs := m_objs m; m_atoms := m_atoms m; m_plain := m_plain m |}
  | EPlain x w => {| m_locks := m_locks m; m_objs := m_objs m; m_atoms := m_atoms m; m_plain := upd (m_plain m) x w |}
  end.

(** What a processor reads: the newest store to that address in its own buffer, and else memory. *)
Fixpoint newest {A} (at_ : entry -> option A) (b : list entry) (v : A) : A :=
  match b with
  | [] => v
  | e :: b => newest at_ b (match at_ e with Some w => w | None => v end)
  end.
Definition word_at (o k : nat) (e : entry) : option Z :=
  match e with EWord o' k' w => if (o =? o') && (k =? k') then Some w else None | _ => None end.
Definition lock_at (l : nat) (e : entry) : option bool := match e with EUnlock l' => if l =? l' then Some false else None | _ => None end.
Definition plain_at (x : nat) (e : entry) : option Z := match e with EPlain y w => if x =? y then Some w else None | _ => None end.

(** What the processors execute. TLocked: the functions of Atomic_Model, which take a spin lock. TLoad: atomic_load of a built-in type,
    a volatile read (182-187). TRmw: one interlocked instruction, which leaves f of the word it finds and returns the word: atomic_store
    and atomic_exchange (196-203, 213-220), atomic_fetch_add and fetch_sub of integers (254-261, 292-299), and atomic_compare_exchange
    (230-250: f x is c when x = b, and x otherwise). TGet, TPut: reads and writes of the user's own variables. *)
Inductive tcall := TLocked (c : acall) | TLoad (a : nat) | TRmw (a : nat) (f : Z -> Z) | TGet (x : nat) | TPut (x : nat) (w : Z).

(** One access of a guarded call to object o with lock l: the lock in memory, a store for the buffer, and where the call goes on.
    67-88 scope_spin_lock and the functions of Atomic_Model. None: the interlocked compare-exchange waits for the buffer. *)
Definition locked_step (op : aop) (o l : nat) (b : list entry) (lock : bool) (data : list Z) (pc : apc) : option (bool * list entry * apc) :=
  match pc with
  | AWait =>
      match b with
      | [] => if lock then Some (lock, [], APause) else Some (true, [], enter op)
      | _ => None
      end
  | APause => if newest (lock_at l) b lock then Some (lock, [], APause) else Some (lock, [], AWait)
  | ARead got =>
      match nth_error data (length got) with
      | Some w => Some (lock, [], ARead (got ++ [newest (word_at o (length got)) b w]))
      | None => Some (lock, [], after_read op got)
      end
  | AWrite new k old =>
      match nth_error new k with
      | Some w => Some (lock, [EWord o k w], AWrite new (S k) old)
      | None => Some (lock, [], ARelease old)
      end
  | ARelease r => Some (lock, [EUnlock l], ADone r)
  | ADone _ => None
  end.

(** One access of a call by a processor with buffer b: memory after it, the stores it adds to the buffer, and where it goes on. *)
Definition call_step (ptr : Z) (addrs : list Z) (c : tcall) (b : list entry) (m : memory) (pc : apc) : option (memory * list entry * apc) :=
  match c, pc with
  | TLocked (o, op), _ =>
      let l := lock_index ptr (nth o addrs 0%Z) in
      match nth_error (m_locks m) l, nth_error (m_objs m) o with
      | Some lock, Some data =>
          match locked_step op o l b lock data pc with
          | Some (lock, e, pc) =>
              Some ({| m_locks := upd (m_locks m) l lock; m_objs := m_objs m; m_atoms := m_atoms m; m_plain := m_plain m |}, e, pc)
          | None => None
          end
      | _, _ => None
      end
  | TLoad a, AWait => match nth_error (m_atoms m) a with Some v => Some (m, [], ADone [v]) | None => None end
  | TRmw a f, AWait =>
      match b, nth_error (m_atoms m) a with
      | [], Some v =>
          Some ({| m_locks := m_locks m; m_objs := m_objs m; m_atoms := upd (m_atoms m) a (f v); m_plain := m_plain m |}, [], ADone [v])
      | _, _ => None
      end
  | TGet x, AWait => match nth_error (m_plain m) x with Some v => Some (m, [], ADone [newest (plain_at x) b v]) | None => None end
  | TPut x w, AWait => match nth_error (m_plain m) x with Some _ => Some (m, [EPlain x w], ADone []) | None => None end
  | _, _ => None
  end.

(** calls: the processor that makes each call, and the call. A processor makes its calls in the order of the list, one after the other.
    (An execution of a program with branches is an execution of the list of the calls it made.) *)
Definition is_done (pc : apc) : bool := match pc with ADone _ => true | _ => false end.
Fixpoint ready (p : nat) (calls : list (nat * tcall)) (pcs : list apc) (j : nat) : bool :=
  match j, calls, pcs with
  | S j, c :: calls, pc :: pcs => (negb (fst c =? p) || is_done pc) && ready p calls pcs j
  | _, _, _ => true
  end.

(** A step: call j makes its next access, or the oldest store of processor p reaches memory. *)
Inductive tchoice := TRun (j : nat) | TFlush (p : nat).
Definition tstep (ptr : Z) (addrs : list Z) (calls : list (nat * tcall)) (c : tchoice) (s : tstate) : option tstate :=
  match c with
  | TRun j =>
      match nth_error calls j, nth_error (t_pcs s) j with
      | Some (p, c), Some pc =>
          match nth_error (t_bufs s) p with
          | Some b =>
              if negb (ready p calls (t_pcs s) j) then None
              else
                match call_step ptr addrs c b (t_mem s) pc with
                | Some (m, e, pc) => Some {| t_mem := m; t_pcs := upd (t_pcs s) j pc; t_bufs := upd (t_bufs s) p (b ++ e) |}
                | None => None
                end
          | None => None
          end
      | _, _ => None
      end
  | TFlush p =>
      match nth_error (t_bufs s) p with
      | Some (e :: b) => Some {| t_mem := commit (t_mem s) e; t_pcs := t_pcs s; t_bufs := upd (t_bufs s) p b |}
      | _ => None
      end
  end.
Fixpoint trun (ptr : Z) (addrs : list Z) (calls : list (nat * tcall)) (sched : list tchoice) (s : tstate) : option tstate :=
  match sched with
  | [] => Some s
  | c :: sched => match tstep ptr addrs calls c s with Some s => trun ptr addrs calls sched s | None => None end
  end.
(** procs processors with empty buffers; all locks are free. *)
Definition tinit (procs : nat) (objs : list (list Z)) (atoms plain : list Z) (calls : list (nat * tcall)) : tstate :=
  {| t_mem := {| m_locks := repeat false 256; m_objs := objs; m_atoms := atoms; m_plain := plain |};
     t_pcs := map (fun _ => AWait) calls; t_bufs := repeat [] procs |}.
