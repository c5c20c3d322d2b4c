(** A bounded finite map, specified by its history of binds: (key, value, accepted) in order. *)
From Coq Require Import List.
Import ListNotations.

Section Map.
Variables K V : Type.

Definition event : Type := (K * V * bool)%type.

(** k was bound successfully in the history. *)
Definition bound (h : list event) (k : K) : Prop := exists v, In (k, v, true) h.

(** v is the value k was last bound to successfully. *)
Inductive last_value (k : K) (v : V) : list event -> Prop :=
| lv_here h : last_value k v (h ++ [(k, v, true)])
| lv_other h k' v' b : last_value k v h -> k' <> k \/ b = false -> last_value k v (h ++ [(k', v', b)]).

(** The number of distinct keys bound so far is n. *)
Definition stored (h : list event) (n : nat) : Prop :=
  exists ks, NoDup ks /\ length ks = n /\ forall k, In k ks <-> bound h k.
End Map.

(** A table of names indexed from 1 is laid out as a binary search tree of size h - 1: the children of i are 2i and 2i+1,
    j is in the subtree of c when some j / 2^t is c, everything in the subtree of 2i is greater than the name at i
    and everything in the subtree of 2i+1 is smaller. *)
From Coq Require Import ZArith.
Definition search_tree {K} (lt : K -> K -> Prop) (names : list K) (h : Z) : Prop :=
  forall i j t ki kj, (1 <= i < h)%Z -> (1 <= j < h)%Z -> (0 <= t)%Z ->
    nth_error names (Z.to_nat i) = Some ki -> nth_error names (Z.to_nat j) = Some kj ->
    ((j / 2 ^ t = 2 * i)%Z -> lt ki kj) /\ ((j / 2 ^ t = 2 * i + 1)%Z -> lt kj ki).
