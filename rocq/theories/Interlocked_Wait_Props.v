(** Which calls of the atomics without locks return after a fixed number of steps of their own thread, whatever the others do. *)
From Verif Require Import Base Interlocked_Model Interlocked_Spec Interlocked.
Local Open Scope Z_scope.

(** ** Specification *)

(** The calls that try again when another thread was faster: atomic_fetch_add and atomic_fetch_sub, except on integers and pointers, and
    on floating point types when std::atomic has them ([has]; never with atomic_msvc_x86.h). *)
Definition retries (has : bool) (t : ty) (c : call) : Prop :=
  (exists n, c = CAdd n \/ c = CSub n) /\
  match t_kind t with KInt _ | KPtr _ => False | KFloat _ _ => has = false | KUser _ _ | KMember _ _ _ => True end.
(** How often it was the turn of thread i, and how many of its calls returned. *)
Definition turns (i : nat) (sched : list (nat * choice)) : nat := length (filter (fun x => Nat.eqb (fst x) i) sched).
Definition returned (i : nat) (tr : list event) : nat :=
  length (filter (fun e => match e with Ret j _ => Nat.eqb j i | Inv _ _ _ => false end) tr).
(** atomic_msvc_x86.h or atomic_std.h, on the types and calls that C80 is about. *)
Definition library (how : ty -> call -> impl) (has : bool) (ts : list ty) (ok : ty -> call -> Prop) : Prop :=
  (exists k, how = msvc_impl k /\ ok = sound k /\ Forall small ts /\ has = false) \/ (how = std_impl has /\ ok = offered).

(** ** Proofs *)

Lemma one_access how has ts ok t c : library how has ts ok -> In t ts -> ok t c -> ~ retries has t c -> exists f, how t c = IStep f.
Proof.
  intros H I O N.
  assert (C : carries (how t c) t c).
  { destruct H as [(k & -> & -> & B & _)|(-> & ->)]; [|now apply std_carries]. rewrite Forall_forall in B. apply msvc_carries; auto. }
  destruct C as [(f & E & _)|(op & E & _)]; [eauto|]. exfalso. apply N. clear N.
  destruct H as [(k & -> & -> & B & ->)|(-> & ->)].
  - rewrite Forall_forall in B. specialize (B t I). pose proof (small_size t B) as Z.
    destruct c as [|v|v|b c|n|n|v|v|v]; cbn [msvc_impl] in E; try discriminate.
    + unfold msvc_load in E. destruct (is_cpu t), (t_kind t), k, (is_m64 t); discriminate.
    + unfold msvc_store in E. destruct (is_m8 t), (is_m16 t), (is_m32 t), (is_m64 t); discriminate.
    + unfold msvc_exchange in E. destruct (is_m8 t), (is_m16 t), (is_m32 t), (is_m64 t); discriminate.
    + unfold msvc_cas in E. destruct (is_mem t), (is_m8 t), (is_m16 t), (is_m32 t), (is_m64 t); discriminate.
    + split; [exists n; now left|]. destruct t as [z [s|st|p q|p q|x p q]]; cbn [t_kind t_size] in *; auto;
        destruct Z as [-> | [-> | [-> | ->]]]; discriminate.
    + split; [exists n; now right|]. destruct t as [z [s|st|p q|p q|x p q]]; cbn [t_kind t_size] in *; auto;
        destruct Z as [-> | [-> | [-> | ->]]]; discriminate.
  - destruct c as [|v|v|b c|n|n|v|v|v]; cbn [std_impl] in E; try discriminate.
    + split; [exists n; now left|]. destruct (t_kind t); try discriminate; auto. destruct has; [discriminate|reflexivity].
    + split; [exists n; now right|]. destruct (t_kind t); try discriminate; auto. destruct has; [discriminate|reflexivity].
    + destruct (t_kind t); discriminate.
    + destruct (t_kind t); discriminate.
    + destruct (t_kind t); discriminate.
Qed.

Section Steps.
  Variables (how : ty -> call -> impl) (ts : list ty) (i : nat).
  Definition direct (x : nat * call) : Prop := forall t, nth_error ts (fst x) = Some t -> exists f, how t (snd x) = IStep f.
  (** How far a thread is in its call, when its calls are single accesses. *)
  Definition stage (p : pc) : nat := match p with Idle => 0 | Begin _ _ => 1 | _ => 2 end.
  Definition good (th : thread) : Prop :=
    Forall direct (th_todo th) /\ match th_pc th with Idle | End _ => True | Begin o c => direct (o, c) | _ => False end.

  Lemma direct_step j ch s s' tr th : step how ts j ch s = Next s' tr -> nth_error (threads s) i = Some th -> good th ->
    exists th', nth_error (threads s') i = Some th' /\ good th' /\
      (turns i [(j, ch)] + stage (th_pc th) = 3 * returned i tr + stage (th_pc th'))%nat.
  Proof.
    intros S T G. unfold turns, returned, step in *. cbn [filter fst].
    destruct (Nat.eqb_spec j i) as [->|N].
    - rewrite T in S. destruct G as [G1 G2]. destruct th as [p todo]. cbn [th_pc th_todo] in *.
      assert (U : forall y, nth_error (upd (threads s) i y) i = Some y).
      { intro y. now rewrite nth_upd, Nat.eqb_refl, T. }
      destruct p as [|o c|o l|o c e|r]; try contradiction.
      + destruct todo as [|[o c] todo]; [discriminate|]. injection S as <- <-. eexists. split; [apply U|]. inversion G1; subst.
        split; [split; assumption|]. reflexivity.
      + destruct (nth_error ts o) as [t|] eqn:Et; [|discriminate]. destruct (nth_error (mem s) o) as [m|]; [|discriminate].
        destruct (G2 t Et) as [f F]. cbn [snd] in F. rewrite F in S. cbn [access_step] in S.
        destruct (f m) as [[m' r]|]; [|discriminate]. injection S as <- <-. eexists. split; [apply U|]. split; [split; [assumption|exact I]|]. reflexivity.
      + injection S as <- <-. eexists. split; [apply U|]. split; [split; [assumption|exact I]|].
        cbn [filter]. rewrite Nat.eqb_refl. reflexivity.
    - assert (K : nth_error (threads s') i = Some th /\ returned i tr = 0%nat).
      { destruct (nth_error (threads s) j) as [tj|] eqn:Tj; [|discriminate].
        assert (U : forall y, nth_error (upd (threads s) j y) i = Some th).
        { intro y. rewrite nth_upd. rewrite (proj2 (Nat.eqb_neq j i)) by congruence. exact T. }
        assert (U0 : forall o c p s2 tr2, match nth_error ts o, nth_error (mem s) o with
          | Some t, Some m => match access_step (how t c) t ch o c p m with
            | AGo m p => Next {| mem := upd (mem s) o m; threads := upd (threads s) j {| th_pc := p; th_todo := th_todo tj |} |} []
            | AUndefined => Undefined | ANothing => Disabled end
          | _, _ => Disabled end = Next s2 tr2 -> nth_error (threads s2) i = Some th /\ returned i tr2 = 0%nat).
        { intros o c p s2 tr2 E. destruct (nth_error ts o); [|discriminate]. destruct (nth_error (mem s) o); [|discriminate].
          destruct (access_step _ _ _ _ _ _ _); try discriminate. injection E as <- <-. split; [apply U|reflexivity]. }
        destruct (th_pc tj) as [|o c|o l|o c e|r]; try (now apply U0 in S).
        - destruct (th_todo tj) as [|[o c] todo]; [discriminate|]. injection S as <- <-. split; [apply U|reflexivity].
        - injection S as <- <-. split; [apply U|]. unfold returned. cbn [filter]. now rewrite (proj2 (Nat.eqb_neq j i) N). }
      destruct K as [K1 K2]. exists th. split; [exact K1|]. split; [exact G|]. unfold returned in K2. rewrite K2. reflexivity.
  Qed.

  Lemma turns_cons x sched : turns i (x :: sched) = (turns i [x] + turns i sched)%nat.
  Proof. unfold turns. cbn [filter]. destruct (Nat.eqb (fst x) i); reflexivity. Qed.
  Lemma returned_app a b : returned i (a ++ b) = (returned i a + returned i b)%nat.
  Proof. unfold returned. now rewrite filter_app, app_length. Qed.

  Lemma direct_run sched : forall s s' tr th, run how ts sched s = Next s' tr -> nth_error (threads s) i = Some th -> good th ->
    exists th', nth_error (threads s') i = Some th' /\
      (turns i sched + stage (th_pc th) = 3 * returned i tr + stage (th_pc th'))%nat.
  Proof.
    induction sched as [|[j ch] sched IH]; intros s s' tr th R T G; cbn [run] in R.
    - injection R as <- <-. exists th. auto.
    - destruct (step how ts j ch s) as [s1 tr1| |] eqn:S; try discriminate.
      destruct (run how ts sched s1) as [s2 tr2| |] eqn:R2; try discriminate. injection R as <- <-.
      destruct (direct_step j ch s s1 tr1 th S T G) as (th1 & T1 & G1 & E1).
      destruct (IH s1 s2 tr2 th1 R2 T1 G1) as (th2 & T2 & E2). exists th2. split; [exact T2|].
      rewrite turns_cons, returned_app. lia.
  Qed.
End Steps.

(** ** C80: calls that do not retry are wait free *)

(** A thread whose calls do not retry returns from one of them at every third of its own turns: it calls, makes one access, and returns.
    What the other threads do, and how often it is their turn, makes no difference. *)
Theorem C80_wait_free (how : ty -> call -> impl) (has : bool) ok (ts : list ty) (objs : list Z) (programs : list (list (nat * call)))
    sched s tr (i : nat) :
  library how has ts ok -> length objs = length ts -> well_typed ok ts programs ->
  (forall o c t, In (o, c) (nth i programs []) -> nth_error ts o = Some t -> ~ retries has t c) ->
  run how ts sched (start objs programs) = Next s tr ->
  returned i tr = (turns i sched / 3)%nat.
Proof.
  intros H L W N R. destruct (nth_error programs i) as [p|] eqn:P.
  - pose proof (nth_error_nth programs i [] P) as Q. rewrite Q in N. clear Q.
    assert (T : nth_error (threads (start objs programs)) i = Some {| th_pc := Idle; th_todo := p |}) by (cbn [threads start]; now rewrite nth_error_map, P).
    destruct (direct_run how ts i sched _ _ _ _ R T) as (th & _ & E).
    { split; [|exact I]. apply Forall_forall. intros [o c] J t Et. cbn [fst snd] in *.
      destruct (W p o c (nth_error_In _ _ P) J) as (t' & Et' & O). rewrite Et in Et'. injection Et' as <-.
      eapply one_access; eauto using nth_error_In. }
    cbn [th_pc stage] in E. assert (B : (stage (th_pc th) < 3)%nat) by (destruct (th_pc th); cbn; lia).
    apply (Nat.div_unique _ 3 (returned i tr) (stage (th_pc th))); lia.
  - (* there is no thread i: it has no turns *)
    assert (Z : forall sched s s' tr, nth_error (threads s) i = None -> run how ts sched s = Next s' tr -> turns i sched = 0%nat /\ returned i tr = 0%nat).
    { clear. induction sched as [|[j ch] sched IH]; intros s s' tr T R; cbn [run] in R; [injection R as <- <-; auto|].
      destruct (step how ts j ch s) as [s1 tr1| |] eqn:S; try discriminate.
      destruct (run how ts sched s1) as [s2 tr2| |] eqn:R2; try discriminate. injection R as <- <-.
      assert (J : j <> i). { intros ->. unfold step in S. rewrite T in S. discriminate. }
      assert (K : nth_error (threads s1) i = None /\ returned i tr1 = 0%nat).
      { unfold step in S. destruct (nth_error (threads s) j) as [tj|] eqn:Tj; [|discriminate].
        assert (U : forall y, nth_error (upd (threads s) j y) i = None).
        { intro y. rewrite nth_upd. rewrite (proj2 (Nat.eqb_neq j i)) by congruence. exact T. }
        destruct (th_pc tj) as [|o c|o l|o c e|r].
        - destruct (th_todo tj) as [|[o c] todo]; [discriminate|]. injection S as <- <-. split; [apply U|reflexivity].
        - destruct (nth_error ts o); [|discriminate]. destruct (nth_error (mem s) o); [|discriminate].
          destruct (access_step _ _ _ _ _ _ _); try discriminate. injection S as <- <-. split; [apply U|reflexivity].
        - destruct (nth_error ts o); [|discriminate]. destruct (nth_error (mem s) o); [|discriminate].
          destruct (access_step _ _ _ _ _ _ _); try discriminate. injection S as <- <-. split; [apply U|reflexivity].
        - destruct (nth_error ts o); [|discriminate]. destruct (nth_error (mem s) o); [|discriminate].
          destruct (access_step _ _ _ _ _ _ _); try discriminate. injection S as <- <-. split; [apply U|reflexivity].
        - injection S as <- <-. split; [apply U|]. unfold returned. cbn [filter]. now rewrite (proj2 (Nat.eqb_neq j i) J). }
      destruct K as [K1 K2]. destruct (IH s1 s2 tr2 K1 R2) as [A B]. rewrite turns_cons, returned_app, A, B, K2.
      unfold turns. cbn [filter fst]. now rewrite (proj2 (Nat.eqb_neq j i) J). }
    assert (T : nth_error (threads (start objs programs)) i = None) by (cbn [threads start]; now rewrite nth_error_map, P).
    destruct (Z sched _ _ _ T R) as [A B]. now rewrite A, B.
Qed.
Print Assumptions C80_wait_free.

(** ** The calls that retry are not *)

(** The other thread's program: n stores of 1, 0, 1, 0, ... *)
Fixpoint stores (v : Z) (n : nat) : list (nat * call) := match n with O => [] | S n => (0%nat, CStore v) :: stores (1 - v) n end.
Definition one_round : list (nat * choice) := map (fun j => (j, exact)) [1; 1; 1; 0]%nat.
Fixpoint rounds (n : nat) : list (nat * choice) := match n with O => [] | S n => one_round ++ rounds n end.
Definition starving (n : nat) : list (nat * choice) := (0%nat, exact) :: (0%nat, exact) :: rounds n.

Lemma round_run how t c op st e : how t c = ILoop op -> (forall v, how t (CStore v) = IStep (st v)) ->
  (forall v m, st v m = Some (v, (0, true))) -> e = 0 \/ e = 1 -> forall n, exists s tr,
  run how [t] (rounds n) {| mem := [e]; threads := [{| th_pc := Loop 0 c e; th_todo := [] |}; {| th_pc := Idle; th_todo := stores (1 - e) n |}] |} = Next s tr /\
  returned 0 tr = 0%nat /\ returned 1 tr = n.
Proof.
  intros L S0 S1 E n. revert e E. induction n as [|n IH]; intros e E; [eexists _, _; split; [reflexivity|split; reflexivity]|].
  destruct (IH (1 - e)) as (s & tr & R & A & B); [lia|].
  exists s, ([Inv 1 0 (CStore (1 - e))] ++ [] ++ [Ret 1 (0, true)] ++ [] ++ tr). split.
  - cbn [rounds one_round map app stores].
    cbn [run step threads mem nth_error th_pc th_todo upd]. rewrite S0. cbn [access_step]. rewrite S1.
    cbn [run step threads mem nth_error th_pc th_todo upd]. rewrite L. cbn [access_step].
    replace (1 - e =? e) with false by (symmetry; apply Z.eqb_neq; lia). cbn [andb].
    cbn [run step threads mem nth_error th_pc th_todo upd]. rewrite R. reflexivity.
  - rewrite !returned_app, A, B. split; reflexivity.
Qed.

Lemma turns_rounds n : turns 0 (rounds n) = n /\ turns 1 (rounds n) = (3 * n)%nat.
Proof.
  induction n as [|n [A B]]; [split; reflexivity|]. unfold turns in *. cbn [rounds]. rewrite !filter_app, !app_length, A, B. cbn. lia.
Qed.

(** Every call that retries can be made to retry for ever: for every n there is an execution in which the thread has had n + 2 turns,
    n of them compare-exchanges, and is still in its call, while the other thread returned from n calls. No compare-exchange failed for no
    reason and no load gave an old value. *)
Theorem C80_wait_free_refuted (how : ty -> call -> impl) (has : bool) ok (t : ty) (c : call) (n : nat) :
  library how has [t] ok -> ok t c -> retries has t c ->
  well_typed ok [t] [[(0%nat, c)]; stores 1 n] /\ Forall (fun x => snd x = exact) (starving n) /\ turns 0 (starving n) = (n + 2)%nat /\
  exists s tr, run how [t] (starving n) (start [0] [[(0%nat, c)]; stores 1 n]) = Next s tr /\
    returned 0 tr = 0%nat /\ returned 1 tr = n.
Proof.
  intros H O (Rt & K).
  assert (St : forall v, ok t (CStore v)).
  { intro v. destruct H as [(k & _ & -> & _)|(_ & ->)]; cbn; [|exact I]. split; [exact I|]. split; [discriminate|].
    intros m [X|X]; discriminate. }
  assert (Ex : Forall (fun x : nat * choice => snd x = exact) (rounds n)).
  { clear. induction n as [|n IH]; [constructor|]. cbn. repeat constructor; auto. }
  split; [|split; [|split]].
  - intros p o c' [<-|[<-|[]]] J.
    + destruct J as [J|[]]. injection J as <- <-. exists t. auto.
    + assert (G : forall n v, In (o, c') (stores v n) -> o = 0%nat /\ exists v, c' = CStore v).
      { clear. induction n as [|n IH]; intros v J; [contradiction|]. destruct J as [J|J]; [injection J as <- <-; eauto|eauto]. }
      destruct (G n 1 J) as (-> & v & ->). exists t. auto.
  - unfold starving. constructor; [reflexivity|]. constructor; [reflexivity|exact Ex].
  - destruct (turns_rounds n) as [E _]. unfold starving, turns in *. cbn [filter fst Nat.eqb length]. rewrite E. lia.
  - assert (Lp : exists op, how t c = ILoop op).
    { destruct H as [(k & -> & -> & B & ->)|(-> & ->)].
      - inversion_clear B as [|? ? B' _]. pose proof (small_size t B') as Z. destruct O as (_ & _ & M).
        destruct Rt as [m [-> | ->]]; cbn [msvc_impl]; eexists;
          destruct t as [z [sg|sd|p q|p q|x p q]]; cbn [t_kind t_size] in *; try contradiction;
          try (destruct x; [exfalso; eapply (M m); eauto|]); destruct Z as [-> | [-> | [-> | ->]]]; reflexivity.
      - destruct Rt as [m [-> | ->]]; cbn [std_impl]; destruct (t_kind t); try contradiction; subst; eexists; reflexivity. }
    assert (Sp : exists st, (forall v, how t (CStore v) = IStep (st v)) /\ forall v m, st v m = Some (v, (0, true))).
    { destruct H as [(k & -> & -> & B & ->)|(-> & ->)].
      - inversion_clear B as [|? ? B' _]. pose proof (small_size t B') as Z.
        exists (fun v m => let '(m, _) := interlocked_exchange v m in Some (m, (0, true))). split; [|reflexivity]. intro v.
        cbn [msvc_impl]. unfold msvc_store, is_m8, is_m16, is_m32, is_m64. destruct Z as [-> | [-> | [-> | ->]]]; reflexivity.
      - exists (fun v m => Some (v, (0, true))). split; reflexivity. }
    destruct Lp as [op Lp]. destruct Sp as (st & S0 & S1).
    destruct (round_run how t c op st 0 Lp S0 S1 (or_introl eq_refl) n) as (s & tr & R & A & B).
    exists s, ([Inv 0 0 c] ++ [] ++ tr). split.
    + unfold starving, start. cbn [map]. cbn [run step threads mem nth_error th_pc th_todo upd]. rewrite Lp.
      cbn [access_step stale exact upd threads mem]. change (stores 1 n) with (stores (1 - 0) n). cbn [run step threads mem nth_error th_pc th_todo upd].
      rewrite R. reflexivity.
    + rewrite !returned_app, A, B. split; reflexivity.
Qed.
Print Assumptions C80_wait_free_refuted.

(** Both kinds exist: on 4 byte integers all calls are wait free, on float atomic_fetch_add with atomic_msvc_x86.h is not. *)
Example C80_wait_free_case :
  (let int32 := {| t_size := 4; t_kind := KInt true |} in
   library (msvc_impl X64) false [int32] (sound X64) /\ sound X64 int32 (CSub 5) /\ ~ retries false int32 (CSub 5)) /\
  (let float := {| t_size := 4; t_kind := KFloat Z.add Z.sub |} in
   library (msvc_impl X64) false [float] (sound X64) /\ sound X64 float (CAdd 5) /\ retries false float (CAdd 5) /\
   library (std_impl true) true [float] offered /\ ~ retries true float (CAdd 5)).
Proof.
  cbv zeta. split; [split; [|split]|split; [|split; [|split; [|split]]]].
  - left. exists X64. repeat split. constructor; [cbn; lia|constructor].
  - repeat split; try discriminate; cbn; try lia.
  - intros [_ K]. exact K.
  - left. exists X64. repeat split. constructor; [cbn; lia|constructor].
  - repeat split; try discriminate; cbn; try lia.
  - split; [exists 5; now left|reflexivity].
  - right. split; reflexivity.
  - intros [_ K]. discriminate.
Qed.
