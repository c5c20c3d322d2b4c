(** What a clock of Fn / Fd ticks per second should show. *)
From Coq Require Import List ZArith.
From Verif Require Import Clock_Model.
Import ListNotations.
Local Open Scope Z_scope.

Definition stamp (k : kcall) : Z := match k with Elapsed t => t | Current t => t end.

(** The time that passed from timestamp t0 through the given calls: a timestamp counter that wraps at 2^64
    has advanced by the difference modulo 2^64. *)
Fixpoint passed (t0 : Z) (ks : list kcall) : Z :=
  match ks with [] => 0 | k :: ks => (stamp k - t0) mod 2 ^ 64 + passed (stamp k) ks end.

(** The number of whole ticks in e units of time, at frequency f units per second. *)
Definition ticks (Fn Fd f e : Z) : Z := e * Fn / (f * Fd).

(** The result of a call when e units had passed before it and e' have passed at it. *)
Definition expected (Fn Fd f e e' : Z) (k : kcall) : Z :=
  match k with
  | Elapsed _ => (ticks Fn Fd f e' - ticks Fn Fd f e) mod 2 ^ 64
  | Current _ => ticks Fn Fd f e' mod 2 ^ 64
  end.
