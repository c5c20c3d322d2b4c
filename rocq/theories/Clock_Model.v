(** Model of lib/h/ce/clock.h. No proofs. All fields are uint64_t; the value of ce::os::monotonic_timestamp() is an argument
    of each call, and that of monotonic_frequency() one of reset. *)
From Verif Require Import Base.
Local Open Scope Z_scope.

(** clock.h:33-36. *)
Record clock := { k_frequency : Z; k_timestamp : Z; k_residual : Z; k_tick : Z }.

(** clock.h:38-44 reset. *)
Definition k_reset (frequency timestamp : Z) : clock :=
  {| k_frequency := frequency; k_timestamp := timestamp; k_residual := 0; k_tick := 0 |}.

(** clock.h:46-63 elapsed. Division by zero is UB. *)
Definition k_elapsed (Fn Fd : Z) (c : clock) (current_ts : Z) : res (Z * clock) :=
  let elapsed_ts := u64 (current_ts - k_timestamp c) in
  let fd := u64 (k_frequency c * Fd) in
  if fd =? 0 then UB
  else
    let whole := u64 (elapsed_ts / fd * Fn) in
    let fract := u64 (u64 (elapsed_ts mod fd * Fn) + k_residual c) in
    let dt := u64 (whole + fract / fd) in
    Ok (dt, {| k_frequency := k_frequency c; k_timestamp := current_ts; k_residual := fract mod fd; k_tick := u64 (k_tick c + dt) |}).

(** clock.h:65-69 current. *)
Definition k_current (Fn Fd : Z) (c : clock) (current_ts : Z) : res (Z * clock) :=
  '(_, c) <- k_elapsed Fn Fd c current_ts ;; Ok (k_tick c, c).

(** A history of calls, each with the timestamp it observes; the results in order and the final clock. *)
Inductive kcall := Elapsed (t : Z) | Current (t : Z).
Definition k_call (Fn Fd : Z) (c : clock) (k : kcall) : res (Z * clock) :=
  match k with Elapsed t => k_elapsed Fn Fd c t | Current t => k_current Fn Fd c t end.
Fixpoint k_run (Fn Fd : Z) (c : clock) (ks : list kcall) : res (list Z * clock) :=
  match ks with
  | [] => Ok ([], c)
  | k :: ks => '(r, c) <- k_call Fn Fd c k ;; '(rs, c) <- k_run Fn Fd c ks ;; Ok (r :: rs, c)
  end.
