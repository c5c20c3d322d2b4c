(** n is an integer nearest to the square root of v: at most one half away from it. *)
From Coq Require Import Reals.
From Verif Require Import Base.
Local Open Scope R_scope.

Definition nearest_root (v n : Z) : Prop := Rabs (IZR n - sqrt (IZR v)) <= 1 / 2.
