(** C08, C09: bulk<N, T>. *)
From Coq Require Import List Arith Bool Lia.
From Verif Require Import Base Bulk_Model Bulk_Spec Bulk_Proofs.
Import ListNotations.
Local Open Scope nat_scope.

(** C08: every history of calls, on any number of bulks, that respects the preconditions of the list
    specification runs without UB and returns what the same history on plain lists returns. Since
    [Size], [Read] are calls, the contents are pinned down by the returns. *)
Theorem C08_bulk_is_bounded_list : forall (V : Type) (T : traits V) (N : nat) (os : list op) rs a,
  arun T N [] os = Some (rs, a) ->
  exists s, run T N start os = Ok (rs, s).
Proof.
  intros V T N os rs a H. destruct (run_ok T N os start [] rs a (start_ok T N) H) as (s & E & _). eauto.
Qed.
Print Assumptions C08_bulk_is_bounded_list.

(** The list specification itself never exceeds N elements. *)
Lemma astep_bound {V} (T : traits V) N (a : @astate V) o r a' :
  Forall (fun o : option (@alist V) => match o with Some l => length l <= N | None => True end) a ->
  astep T N a o = Some (r, a') ->
  Forall (fun o : option (@alist V) => match o with Some l => length l <= N | None => True end) a'.
Proof.
  intros F H.
  assert (G : forall i l, aobj a i = Some l -> length l <= N).
  { intros i l E. unfold aobj in E. destruct (nth_error a i) as [o'|] eqn:En; [|discriminate E]. subst o'.
    apply nth_error_In in En. rewrite Forall_forall in F. now apply (F _ En). }
  assert (U : forall i x, match x with Some l => length l <= N | None => True end ->
              Forall (fun o : option (@alist V) => match o with Some l => length l <= N | None => True end) (upd a i x)).
  { clear -F. induction F; intros [|i] z Hz; cbn; constructor; auto. }
  destruct o; cbn [astep] in H;
    repeat match type of H with
    | context [aobj a ?i] => let E := fresh "E" in destruct (aobj a i) eqn:E; [apply G in E|discriminate]
    end.
  - inversion H; subst. apply Forall_app. split; auto. repeat constructor. cbn. lia.
  - destruct (can_copy T (length a0)); inversion H; subst. apply Forall_app. auto.
  - inversion H; subst. apply U. exact I.
  - destruct (can_copy _ _); inversion H; subst. apply U; auto.
  - inversion H; subst. apply U. cbn. lia.
  - destruct (has_default T); [|discriminate]. destruct (Nat.leb_spec n N); inversion H; subst; auto.
    apply U. rewrite app_length, firstn_length. unfold fresh. rewrite repeat_length. lia.
  - destruct (has_default T); [|discriminate]. destruct (Nat.leb_spec (length a0 + n) N); inversion H; subst; auto.
    apply U. rewrite app_length. unfold fresh. rewrite repeat_length. lia.
  - destruct (Nat.ltb_spec (length a0) N); inversion H; subst; auto.
    apply U. rewrite app_length. cbn. lia.
  - destruct (Nat.ltb_spec k (length a0)); inversion H; subst; auto.
    apply U. destruct ordered; [rewrite remove_nth_length by auto | rewrite (proj1 (remove_swap_spec a0 k ltac:(auto)))]; lia.
  - destruct (nth_error a0 k) as [[v|]|]; inversion H; subst; auto.
  - destruct (k <? length a0); inversion H; subst. apply U. now rewrite upd_length.
  - destruct (nth_error a0 _) as [[v|]|]; inversion H; subst; auto.
  - inversion H; subst; auto.
  - inversion H; subst; auto.
Qed.

Theorem C08_size_bounded : forall (V : Type) (T : traits V) (N : nat) (os : list op) rs a,
  arun T N [] os = Some (rs, a) ->
  Forall (fun o : option (@alist V) => match o with Some l => length l <= N | None => True end) a.
Proof.
  intros V T N os.
  assert (G : forall a0 rs a, Forall (fun o : option alist => match o with Some l => length l <= N | None => True end) a0 ->
     arun T N a0 os = Some (rs, a) ->
     Forall (fun o : option alist => match o with Some l => length l <= N | None => True end) a).
  { induction os as [|o os IH]; intros a0 rs a F H; cbn [arun] in H.
    - inversion H; subst; auto.
    - destruct (astep T N a0 o) as [[r a1]|] eqn:E; [|discriminate].
      destruct (arun T N a1 os) as [[rs1 a2]|] eqn:E2; [|discriminate]. inversion H; subst.
      eapply IH; [|exact E2]. eapply astep_bound; eauto. }
  intros rs a. apply G. constructor.
Qed.
Print Assumptions C08_size_bounded.

(** The objects themselves: the size never exceeds the capacity, which is what the assertions of the copy constructor and of operator=
    test, and room() is the rest. *)
Theorem C08_objects : forall (V : Type) (T : traits V) (N : nat) (os : list op) rs a,
  arun T N [] os = Some (rs, a) ->
  exists s, run T N start os = Ok (rs, s) /\ forall i b, nth_error (objs s) i = Some (Some b) -> length (bdata b) = N /\ bsize b <= N /\ bsize b + bulk_room b = N.
Proof.
  intros V T N os rs a H. destruct (run_ok T N os start [] rs a (start_ok T N) H) as (s & E & [R _]).
  exists s. split; [auto|]. intros i b Hb.
  assert (exists l, Rel T N b l) as [l Rb].
  { clear -R Hb. revert i Hb. induction R; intros [|i] Hb; try discriminate; cbn in Hb.
    - inversion Hb; subst. destruct y; [eauto | contradiction].
    - eauto. }
  destruct Rb as (L & Z & B & _). unfold bulk_room. lia.
Qed.
Print Assumptions C08_objects.

(** C09: the run above never touches a dead object, never constructs over a living one (both are UB in
    the model), and constructor minus destructor calls is the number of elements held. *)
Theorem C09_construct_destroy_balance : forall (V : Type) (T : traits V) (N : nat) (os : list op) rs a,
  triv_ctor T = false -> triv_dtor T = false ->
  arun T N [] os = Some (rs, a) ->
  exists s, run T N start os = Ok (rs, s) /\ ctors (cnt s) = dtors (cnt s) + total a.
Proof.
  intros V T N os rs a TC TD H. destruct (run_ok T N os start [] rs a (start_ok T N) H) as (s & E & [_ B]). eauto.
Qed.
Print Assumptions C09_construct_destroy_balance.

(** Exactly the first size slots hold an object (for types with real constructors and destructors). *)
Theorem C09_exactly_first_size_alive : forall (V : Type) (T : traits V) (N : nat) (os : list op) rs a,
  triv_ctor T = false -> triv_dtor T = false ->
  arun T N [] os = Some (rs, a) ->
  exists s, run T N start os = Ok (rs, s) /\
    forall i b k, nth_error (objs s) i = Some (Some b) -> k < N ->
      (k < bsize b <-> nth k (bdata b) Raw <> Raw).
Proof.
  intros V T N os rs a TC TD H. destruct (run_ok T N os start [] rs a (start_ok T N) H) as (s & E & [R _]).
  exists s. split; [auto|]. intros i b k Hb Hk.
  assert (exists l, Rel T N b l) as [l Rb].
  { clear -R Hb. revert i Hb. induction R; intros [|i] Hb; try discriminate; cbn in Hb.
    - inversion Hb; subst. destruct y; [eauto | contradiction].
    - eauto. }
  pose proof Rb as (L & Z & B & R1 & F). split; intro Hx.
  - destruct (rel_alive T N b l k Rb) as [X|X]; [lia | congruence | auto].
  - destruct (Nat.lt_ge_cases k (bsize b)); [auto|].
    destruct (F k) as [X|X]; [lia | congruence | contradiction].
Qed.
Print Assumptions C09_exactly_first_size_alive.

(** When every bulk has been destroyed, every object constructed has been destroyed. *)
Theorem C09_no_leak : forall (V : Type) (T : traits V) (N : nat) (os : list op) rs a,
  triv_ctor T = false -> triv_dtor T = false ->
  arun T N [] os = Some (rs, a) -> Forall (fun o => o = None) a ->
  exists s, run T N start os = Ok (rs, s) /\ ctors (cnt s) = dtors (cnt s).
Proof.
  intros V T N os rs a TC TD H F.
  destruct (C09_construct_destroy_balance V T N os rs a TC TD H) as (s & E & B). exists s. split; [auto|].
  rewrite B. enough (total a = 0) by lia. clear -F. induction F; cbn; [auto | subst; auto].
Qed.
Print Assumptions C09_no_leak.

(** The restriction on copying is needed: for every type that is neither trivially nor default
    constructible, copying any bulk whose elements are alive assigns to dead storage. *)
Theorem C09_copy_not_default_constructible_refuted : forall (V : Type) (T : traits V) (N : nat) (v : V),
  triv_ctor T = false -> has_default T = false -> 0 < N ->
  run T N start [New; Append 0 v; Copy 0] = UB.
Proof.
  intros V [tc td hd df mv] N v TC HD HN. cbn in TC, HD. subst. destruct N as [|N]; [lia|]. destruct td; reflexivity.
Qed.
Print Assumptions C09_copy_not_default_constructible_refuted.

(** back() on an empty bulk is UB for every type. *)
Theorem C08_back_empty_refuted : forall (V : Type) (T : traits V) (N : nat),
  run T N start [New; Back 0] = UB.
Proof. reflexivity. Qed.
Print Assumptions C08_back_empty_refuted.

(** Non-vacuity: a history using every operation, for a type with real constructors (values are
    numbers, default 7, moved-from 0). *)
Definition ex_traits : traits nat := {| triv_ctor := false; triv_dtor := false; has_default := true; dflt := 7; moved := fun _ => 0 |}.
Definition ex_history : list (@op nat) :=
  [New; Append 0 1; Append 0 2; Append 0 3; AppendN 0 1; AppendN 0 1; RemoveAt true 0 0; Read 0 0; Copy 0;
   RemoveAt false 1 0; Read 1 0; Assign 0 1; Resize 0 4; Resize 0 5; Write 0 3 9; Back 0; Size 0; Room 0;
   Assign 1 0; Clear 0; Size 0; Destroy 0; Read 1 2; Destroy 1].
Example C08_example :
  arun ex_traits 4 [] ex_history =
  Some ([Unit; Bool true; Bool true; Bool true; Bool true; Bool false; Bool true; Val 2; Unit; Bool true;
         Val 7; Unit; Bool true; Bool false; Unit; Val 9; Nat 4; Nat 0; Unit; Unit; Nat 0; Unit; Val 7; Unit],
        [None; None]).
Proof. vm_compute. reflexivity. Qed.
