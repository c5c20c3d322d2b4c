(** The properties of atomics on processors that delay stores. *)
From Verif Require Import Base Atomic_Model Atomic_Spec Atomic_Proofs Tso_Model Tso_Spec Tso Tso_Run.
Local Open Scope nat_scope.

(** *** C79: store buffers do not show through atomics. *)

(** Whatever the processors do and whenever their stores reach memory, there is an order of the atomic calls that returned, of guarded
    objects and of built-in types together, in which each found what the ones before left and returned what it returns on that. It extends
    the order at any earlier point, so a call that returned before another began comes first. When no call is under way and the buffers are
    empty, memory is what the last call left. *)
Theorem C79_linearizable ptr addrs procs objs atoms plain calls sched1 sched2 s1 s2 :
  Forall (fits procs objs atoms plain) calls ->
  trun ptr addrs calls sched1 (tinit procs objs atoms plain calls) = Some s1 ->
  trun ptr addrs calls sched2 s1 = Some s2 ->
  exists h1 h2 y1 y2,
    tsequential calls (objs, atoms) h1 y1 /\ tsequential calls (objs, atoms) (h1 ++ h2) y2 /\
    NoDup (map fst (h1 ++ h2)) /\
    (forall i r, In (i, r) h1 <-> nth_error (t_pcs s1) i = Some (ADone r) /\ exists p c, nth_error calls i = Some (p, c) /\ atomic_call c = true) /\
    (forall i r, In (i, r) (h1 ++ h2) <-> nth_error (t_pcs s2) i = Some (ADone r) /\ exists p c, nth_error calls i = Some (p, c) /\ atomic_call c = true) /\
    m_atoms (t_mem s2) = snd y2 /\
    ((forall i pc, nth_error (t_pcs s2) i = Some pc -> inside pc = false) -> (forall p b, nth_error (t_bufs s2) p = Some b -> b = []) ->
     m_objs (t_mem s2) = fst y2).
Proof.
  intros K R1 R2.
  destruct (hinv_run ptr addrs calls procs objs atoms plain K _ _ _ _ _ (hinv_init ptr addrs calls procs objs atoms plain) R1) as (h1 & y1 & V1). cbn [app] in V1.
  destruct (hinv_run ptr addrs calls procs objs atoms plain K _ _ _ _ _ V1 R2) as (h2 & y2 & V2).
  exists h1, h2, (y1, m_atoms (t_mem s1)), (y2, m_atoms (t_mem s2)).
  split; [exact (h_seq _ _ _ _ _ _ _ _ _ _ V1)|]. split; [exact (h_seq _ _ _ _ _ _ _ _ _ _ V2)|]. split; [exact (h_nodup _ _ _ _ _ _ _ _ _ _ V2)|].
  split; [exact (h_done _ _ _ _ _ _ _ _ _ _ V1)|]. split; [exact (h_done _ _ _ _ _ _ _ _ _ _ V2)|]. split; [reflexivity|].
  intros Q B. rewrite <- (flat_empty _ B). exact (quiet _ _ _ _ _ _ _ _ _ _ V2 Q).
Qed.
Print Assumptions C79_linearizable.

(** Calls inside at the same time work on different objects. *)
Theorem C79_exclusion ptr addrs procs objs atoms plain calls sched s i j p p' o op op' pc pc' :
  Forall (fits procs objs atoms plain) calls ->
  trun ptr addrs calls sched (tinit procs objs atoms plain calls) = Some s ->
  nth_error calls i = Some (p, TLocked (o, op)) -> nth_error (t_pcs s) i = Some pc -> inside pc = true ->
  nth_error calls j = Some (p', TLocked (o, op')) -> nth_error (t_pcs s) j = Some pc' -> inside pc' = true ->
  i = j.
Proof.
  intros K R C1 P1 I1 C2 P2 I2.
  destruct (hinv_run ptr addrs calls procs objs atoms plain K _ _ _ _ _ (hinv_init ptr addrs calls procs objs atoms plain) R) as (h & y & V).
  exact (i_excl _ _ _ _ (h_inv _ _ _ _ _ _ _ _ _ _ V) _ _ _ _ _ _ _ _ _ _ C1 P1 I1 C2 P2 I2 eq_refl).
Qed.
Print Assumptions C79_exclusion.

(** No deadlock: from every state every call can still return, and every store reach memory. *)
Theorem C79_no_deadlock ptr addrs procs objs atoms plain calls sched s :
  Forall (fits procs objs atoms plain) calls ->
  trun ptr addrs calls sched (tinit procs objs atoms plain calls) = Some s ->
  exists sched' s', trun ptr addrs calls sched' s = Some s' /\
    (forall i, i < length calls -> exists r, nth_error (t_pcs s') i = Some (ADone r)) /\
    (forall p b, nth_error (t_bufs s') p = Some b -> b = []).
Proof.
  intros K R.
  destruct (hinv_run ptr addrs calls procs objs atoms plain K _ _ _ _ _ (hinv_init ptr addrs calls procs objs atoms plain) R) as (h & y & V).
  destruct (all_return ptr addrs calls procs objs atoms plain K _ _ _ V) as (sched' & s' & h' & y' & R' & V' & D & B). exists sched', s'. auto.
Qed.
Print Assumptions C79_no_deadlock.

(** The user's own variables: when every write of x is made where no other processor's write of x is unpublished, a read of x made
    under the same condition returns the last value written, as if stores were not delayed. *)
Theorem C79_race_free ptr addrs procs objs atoms plain calls sched s x v k q s' :
  let start := tinit procs objs atoms plain calls in
  nth_error plain x = Some v ->
  trun ptr addrs calls sched start = Some s ->
  (forall sched1 i sched2 s1 p w, sched = sched1 ++ TRun i :: sched2 -> trun ptr addrs calls sched1 start = Some s1 ->
     nth_error calls i = Some (p, TPut x w) -> settled calls s1 x p) ->
  nth_error calls k = Some (q, TGet x) -> settled calls s x q ->
  tstep ptr addrs calls (TRun k) s = Some s' ->
  nth_error (t_pcs s') k = Some (ADone [last_put calls x v sched]).
Proof.
  intros start Hv R S Hk Sk E.
  assert (X0 : xinv x start v).
  { split.
    - intros p w p' w' (b & Hb & Hi). cbn in Hb. apply nth_error_In in Hb. apply repeat_spec in Hb. subst b. destruct Hi.
    - rewrite flat_empty; [exact Hv|]. intros p b Hb. cbn in Hb. apply nth_error_In in Hb. now apply repeat_spec in Hb. }
  destruct (xinv_run ptr addrs calls x _ _ _ _ (tinv_init ptr addrs calls procs objs atoms plain) X0 R S) as (I & U & F).
  cbn [tstep] in E. rewrite Hk in E.
  destruct (nth_error (t_pcs s) k) as [pc|] eqn:Hp; [|discriminate].
  destruct (nth_error (t_bufs s) q) as [b|] eqn:Hb; [|discriminate].
  destruct (negb (ready q calls (t_pcs s) k)); [discriminate|].
  destruct pc; try discriminate. cbn [call_step] in E. destruct (nth_error (m_plain (t_mem s)) x) as [u|] eqn:Eu; [|discriminate]. injection E as <-.
  cbn [t_pcs]. rewrite (upd_nth_error_eq _ _ _ _ Hp). do 3 f_equal. unfold flat in F. rewrite fold_plain, Eu in F. cbn [option_map] in F. injection F as <-.
  rewrite newest_fold. symmetry. apply (fold_own (fx x) _ q b Hb). intros p e N P. apply fx_idle. intros w ->. apply N.
  exact (settled_idle ptr addrs calls x _ _ I Sk _ _ P).
Qed.
Print Assumptions C79_race_free.

(** Publication: the only write of x is seen by every read made after a publishing call that follows the write has returned. *)
Theorem C79_publish ptr addrs procs objs atoms plain calls sched s x v i j k p q w c r s' :
  nth_error plain x = Some v ->
  nth_error calls i = Some (p, TPut x w) -> (forall i' p' w', nth_error calls i' = Some (p', TPut x w') -> i' = i) ->
  i < j -> nth_error calls j = Some (p, c) -> publishes c = true ->
  trun ptr addrs calls sched (tinit procs objs atoms plain calls) = Some s -> nth_error (t_pcs s) j = Some (ADone r) ->
  nth_error calls k = Some (q, TGet x) -> tstep ptr addrs calls (TRun k) s = Some s' ->
  nth_error (t_pcs s') k = Some (ADone [w]).
Proof.
  intros Hv Hi U L Hj Pb R Dj Hk E.
  assert (S : forall s1 p1 w1 i1, nth_error calls i1 = Some (p1, TPut x w1) -> settled calls s1 x p1).
  { intros s1 p1 w1 i1 C1 i2 p2 w2 r2 C2 N. exfalso. apply N. rewrite (U _ _ _ C1) in C1. rewrite (U _ _ _ C2) in C2. congruence. }
  rewrite (C79_race_free ptr addrs procs objs atoms plain calls sched s x v k q s' Hv R); try assumption.
  - do 3 f_equal.
    assert (I : tinv ptr addrs calls s).
    { destruct (xinv_run ptr addrs calls x sched (tinit procs objs atoms plain calls) v s (tinv_init _ _ _ _ _ _ _)) as [I _]; [|exact R|intros; eapply S; eauto|exact I].
      split.
      - intros p1 w1 p' w' (b & Hb & Hi'). cbn in Hb. apply nth_error_In in Hb. apply repeat_spec in Hb. subst b. destruct Hi'.
      - rewrite flat_empty; [exact Hv|]. intros p1 b Hb. cbn in Hb. apply nth_error_In in Hb. now apply repeat_spec in Hb. }
    assert (D : exists r', nth_error (t_pcs s) i = Some (ADone r')).
    { destruct (nth_error (t_pcs s) i) as [pc|] eqn:Ep.
      - pose proof (i_order _ _ _ _ I _ _ _ _ _ _ _ L Hj Hi Dj Ep ltac:(discriminate)) as D. destruct pc; try discriminate. eauto.
      - apply nth_error_None in Ep. rewrite (i_pcs _ _ _ _ I) in Ep. apply nth_error_lt in Hi. lia. }
    destruct D as [r' D].
    (* the write was made, and it is the only one *)
    assert (G : forall sched t t', trun ptr addrs calls sched t = Some t' -> nth_error (t_pcs t) i = Some AWait -> nth_error (t_pcs t') i = Some (ADone r') ->
      In (TRun i) sched).
    { clear - Hi. induction sched as [|ch sched IH]; intros t t' R P P'.
      - injection R as <-. congruence.
      - cbn [trun] in R. destruct (tstep ptr addrs calls ch t) as [t1|] eqn:E; [|discriminate].
        destruct ch as [j|p0]; cbn [tstep] in E.
        + destruct (Nat.eq_dec j i) as [-> | N]; [now left|right]. apply (IH _ _ R); [|exact P'].
          destruct (nth_error calls j) as [[p0 c0]|]; [|discriminate]. destruct (nth_error (t_pcs t) j); [|discriminate]. destruct (nth_error (t_bufs t) p0); [|discriminate].
          destruct (negb _); [discriminate|]. destruct (call_step _ _ _ _ _ _) as [[[m e] q]|]; [|discriminate]. injection E as <-. cbn [t_pcs]. now rewrite nth_error_upd_ne by congruence.
        + right. apply (IH _ _ R); [|exact P']. destruct (nth_error (t_bufs t) p0) as [[|e b]|]; try discriminate. injection E as <-. exact P. }
    assert (In (TRun i) sched).
    { apply (G _ _ _ R); [|exact D]. cbn. rewrite nth_error_map, Hi. reflexivity. }
    clear - H U Hi. revert v. induction sched as [|ch sched IH]; [destruct H|]. intro v. unfold last_put. cbn [fold_left]. fold (last_put calls x).
    assert (Only : forall l, fold_left (fun v c => match c with TRun k => match nth_error calls k with Some (_, TPut y w) => if x =? y then w else v | _ => v end | TFlush _ => v end) l w = w).
    { induction l as [|c l IHl]; [reflexivity|]. cbn [fold_left]. destruct c as [k0|]; [|exact IHl]. destruct (nth_error calls k0) as [[p0 [a|a|a f|y|y w0]]|] eqn:C; try exact IHl.
      destruct (Nat.eqb_spec x y) as [<- | N]; [|exact IHl]. assert (w0 = w) by (rewrite (U _ _ _ C) in C; congruence). subst w0. exact IHl. }
    destruct H as [-> | H].
    + rewrite Hi, Nat.eqb_refl. apply Only.
    + apply (IH H).
  - intros sched1 i1 sched2 s1 p1 w1 _ _ C1. eapply S; eauto.
  - intros i2 p2 w2 r2 C2 N D2. rewrite (U _ _ _ C2) in C2 |- *. rewrite Hi in C2. injection C2 as <- <-. eauto 8.
Qed.
Print Assumptions C79_publish.

(** Without an atomic call between them stores are delayed: each processor writes its variable and then reads the other's, and both read the old value.
    With an atomic exchange between write and read (on any atomic), one of them sees the other's write: the calls of the first list show the
    hypotheses of C79_race_free are needed, the second list is a run in which they hold. *)
Theorem C79_delayed_refuted :
  exists sched s, trun 8 [] [(0, TPut 0 1%Z); (0, TGet 1); (1, TPut 1 1%Z); (1, TGet 0)] sched
      (tinit 2 [] [] [0; 0]%Z [(0, TPut 0 1%Z); (0, TGet 1); (1, TPut 1 1%Z); (1, TGet 0)]) = Some s /\
    nth_error (t_pcs s) 1 = Some (ADone [0%Z]) /\ nth_error (t_pcs s) 3 = Some (ADone [0%Z]).
Proof. exists [TRun 0; TRun 2; TRun 1; TRun 3]. eexists. split; [vm_compute; reflexivity|]. split; reflexivity. Qed.
Print Assumptions C79_delayed_refuted.

(** A message: processor 0 writes variable 0 and exchanges the flag; processor 1 loads the flag, finds it set, and reads the variable. *)
Definition message : list (nat * tcall) := [(0, TPut 0 7%Z); (0, TRmw 0 (fun _ => 1%Z)); (1, TLoad 0); (1, TGet 0)].
Example C79_message :
  option_map t_pcs (trun 8 [] message [TRun 0; TFlush 0; TRun 1; TRun 2; TRun 3] (tinit 2 [] [0]%Z [0]%Z message))
    = Some [ADone []; ADone [0%Z]; ADone [1%Z]; ADone [7%Z]]
  /\ Forall (fits 2 [] [0]%Z [0]%Z) message
  /\ trun 8 [] message [TRun 0; TRun 1] (tinit 2 [] [0]%Z [0]%Z message) = None.
Proof. split; [vm_compute; reflexivity|]. split; [repeat constructor|vm_compute; reflexivity]. Qed.

(** The release of a spin lock waits in the buffer: the other processor spins on, although the call has returned, until the stores are in memory. *)
Definition spinning : list (nat * tcall) := [(0, TLocked (0, AExchange [1; 2]%Z)); (1, TLocked (0, ALoad))].
Example C79_release_delayed :
  let first := [TRun 0; TRun 0; TRun 0; TRun 0; TRun 0; TRun 0; TRun 0; TRun 0; TRun 1; TRun 1] in
  option_map (fun s => (t_pcs s, m_objs (t_mem s), t_bufs s)) (trun 8 [64]%Z spinning first (tinit 2 [[7; 8]]%Z [] [] spinning))
    = Some ([ADone [7; 8]%Z; APause], [[7; 8]]%Z, [[EWord 0 0 1%Z; EWord 0 1 2%Z; EUnlock 8]; []])
  /\ option_map (fun s => (t_pcs s, m_objs (t_mem s)))
       (trun 8 [64]%Z spinning (first ++ [TFlush 0; TFlush 0; TRun 1; TFlush 0; TRun 1; TRun 1; TRun 1; TRun 1; TRun 1; TRun 1]) (tinit 2 [[7; 8]]%Z [] [] spinning))
    = Some ([ADone [7; 8]%Z; ADone [1; 2]%Z], [[1; 2]]%Z)
  /\ Forall (fits 2 [[7; 8]]%Z [] []) spinning.
Proof.
  split; [vm_compute; reflexivity|]. split; [vm_compute; reflexivity|].
  repeat constructor; cbn; try (eexists; split; [reflexivity|]; try reflexivity; auto).
Qed.

(** The hypotheses of C79_publish, for the message. *)
Example C79_publish_case s : trun 8 [] message [TRun 0; TFlush 0; TRun 1; TRun 2] (tinit 2 [] [0]%Z [0]%Z message) = Some s ->
  exists s', tstep 8 [] message (TRun 3) s = Some s' /\ nth_error (t_pcs s') 3 = Some (ADone [7%Z]).
Proof.
  intro R. assert (R' := R). vm_compute in R'. injection R' as <-. eexists. split; [vm_compute; reflexivity|].
  eapply (C79_publish 8 [] 2 [] [0]%Z [0]%Z message _ _ 0 0%Z 0 1 3); try exact R; try reflexivity; try lia.
  intros [|[|[|[|[|i]]]]] p' w' H; cbn in H; try discriminate. reflexivity.
Qed.
