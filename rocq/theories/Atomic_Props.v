(** The properties of atomics and mutexes. *)
From Verif Require Import Base Atomic_Model Atomic_Spec Atomic_Proofs.
Local Open Scope nat_scope.

(** *** C59: no update is lost. *)

(** Whatever the schedule, the stale first loads and the spurious failures: there is an order of the calls that returned in which
    each returned the value it found, and memory holds the value after the last. It extends the order at any earlier point, so a call that
    returned before another began comes first. T is the object representation, for which the comparison is equality. *)
Theorem C59_fetch_linearizable {T V : Type} (eqb : T -> T -> bool) (op : T -> V -> T) (x : T) (vs : list V) impl sched1 sched2 s1 s2 :
  (forall a b, eqb a b = true <-> a = b) ->
  impl = fetch_std eqb op \/ impl = fetch_msvc eqb op ->
  fetch_run impl vs sched1 (fetch_init x vs) = Some s1 ->
  fetch_run impl vs sched2 s1 = Some s2 ->
  exists h1 h2,
    serial op vs x h1 (f_mem s1) /\ serial op vs x (h1 ++ h2) (f_mem s2) /\
    NoDup (map fst (h1 ++ h2)) /\
    (forall i r, In (i, r) h1 <-> nth_error (f_pcs s1) i = Some (FDone r)) /\
    (forall i r, In (i, r) (h1 ++ h2) <-> nth_error (f_pcs s2) i = Some (FDone r)).
Proof.
  intros He Hi R1 R2.
  assert (G : good_impl op impl). { destruct Hi as [-> | ->]; [now apply good_std|now apply good_msvc]. }
  destruct (fetch_inv_run op impl vs x G _ _ _ _ (fetch_inv_init op vs x) R1) as (h1 & I1). cbn [app] in I1.
  destruct (fetch_inv_run op impl vs x G _ _ _ _ I1 R2) as (h2 & I2).
  exists h1, h2. destruct I1 as (A1 & B1 & C1 & D1), I2 as (A2 & B2 & C2 & D2). auto.
Qed.
Print Assumptions C59_fetch_linearizable.

(** For integers of any width w (arithmetic modulo 2^w) all the contributions of the finished calls are in memory, once each. *)
Definition done {T} (pc : @fetch_pc T) : bool := match pc with FDone _ => true | _ => false end.
Definition contributions (vs : list Z) (pcs : list (@fetch_pc Z)) : Z :=
  fold_right Z.add 0%Z (map (fun '(v, pc) => if done pc then v else 0%Z) (combine vs pcs)).

Lemma sum_upd vs : forall (pcs : list (@fetch_pc Z)) i pc r v, nth_error pcs i = Some pc -> done pc = false -> nth_error vs i = Some v ->
  contributions vs (upd pcs i (FDone r)) = (contributions vs pcs + v)%Z.
Proof.
  unfold contributions. induction vs as [|w vs IH]; intros [|p pcs] [|i] pc r v Hp Hd Hv; try discriminate; cbn in *.
  - injection Hp as ->. injection Hv as ->. rewrite Hd. lia.
  - rewrite (IH _ _ _ r _ Hp Hd Hv). lia.
Qed.

Theorem C59_fetch_add_total (w : Z) (x : Z) (vs : list Z) impl sched s :
  (0 <= w)%Z -> (0 <= x < 2 ^ w)%Z ->
  impl = fetch_std Z.eqb (fun a v => (a + v) mod 2 ^ w)%Z \/ impl = fetch_msvc Z.eqb (fun a v => (a + v) mod 2 ^ w)%Z ->
  fetch_run impl vs sched (fetch_init x vs) = Some s ->
  f_mem s = ((x + contributions vs (f_pcs s)) mod 2 ^ w)%Z.
Proof.
  intros Hw Hx Hi R.
  assert (Hm : (0 < 2 ^ w)%Z) by (apply Z.pow_pos_nonneg; lia).
  set (op := fun a v => ((a + v) mod 2 ^ w)%Z) in *.
  assert (G : good_impl op impl). { destruct Hi as [-> | ->]; [now apply good_std, Z.eqb_eq|now apply good_msvc, Z.eqb_eq]. }
  assert (I : forall sched s s', fetch_run impl vs sched s = Some s' ->
    f_mem s = ((x + contributions vs (f_pcs s)) mod 2 ^ w)%Z -> f_mem s' = ((x + contributions vs (f_pcs s')) mod 2 ^ w)%Z).
  { clear - G Hm. induction sched as [|[i c] sched IH]; intros s s' R I.
    - injection R as <-. exact I.
    - cbn [fetch_run] in R. destruct (fetch_step impl vs i c s) as [s1|] eqn:E; [|discriminate].
      apply (IH _ _ R). unfold fetch_step in E.
      destruct (nth_error vs i) as [v|] eqn:Ev; [|discriminate].
      destruct (nth_error (f_pcs s) i) as [pc|] eqn:Ep; [|discriminate].
      destruct (impl c v (f_mem s) pc) as [[mem' pc']|] eqn:Es; [|discriminate]. injection E as <-. cbn [f_mem f_pcs].
      destruct (G _ _ _ _ _ _ Es) as [ND [[-> NR] | [-> ->]]].
      + rewrite I. f_equal. f_equal. assert (D0 : done pc = false) by (destruct pc as [| |r]; try reflexivity; now destruct (ND r)).
        assert (D1 : done pc' = false) by (destruct pc' as [| |r]; try reflexivity; now destruct (NR r)).
        clear - Ep D0 D1. unfold contributions. revert vs i Ep. generalize (f_pcs s) as pcs.
        induction pcs as [|p pcs IH]; intros [|v vs] [|i] H; try discriminate; cbn in *; try reflexivity.
        * injection H as ->. now rewrite D0, D1.
        * now rewrite (IH vs i H).
      + assert (D0 : done pc = false) by (destruct pc as [| |r]; try reflexivity; now destruct (ND r)).
        rewrite (sum_upd _ _ _ _ _ _ Ep D0 Ev). unfold op. rewrite I, Zplus_mod_idemp_l. f_equal. lia. }
  apply (I _ _ _ R). cbn. assert (contributions vs (map (fun _ => FStart) vs) = 0%Z) as ->.
  { clear. unfold contributions. induction vs as [|v vs IH]; [reflexivity|]. cbn in *. exact IH. }
  rewrite Z.add_0_r. symmetry. now apply Z.mod_small.
Qed.
Print Assumptions C59_fetch_add_total.

(** A call that runs alone finishes: the second compare-exchange succeeds (without spurious failure). *)
Theorem C59_fetch_finishes {T V : Type} (eqb : T -> T -> bool) (op : T -> V -> T) (mem stale : T) (v : V) impl :
  (forall a b, eqb a b = true <-> a = b) ->
  impl = fetch_std eqb op \/ impl = fetch_msvc eqb op ->
  forall e, exists pc1, (impl (FCas false) v mem (FLoop e) = Some (op mem v, FDone mem) /\ e = mem) \/
    (impl (FCas false) v mem (FLoop e) = Some (mem, pc1) /\ impl (FCas false) v mem pc1 = Some (op mem v, FDone mem)).
Proof.
  intros He Hi e. exists (FLoop mem).
  assert (Er : eqb mem mem = true) by now apply He.
  destruct (eqb mem e) eqn:E.
  - apply He in E as E'. subst e. left. split; [|reflexivity]. destruct Hi as [-> | ->]; cbn; now rewrite Er.
  - right. destruct Hi as [-> | ->]; cbn; now rewrite E, Er.
Qed.
Print Assumptions C59_fetch_finishes.

(** Three threads: the first loads, the second finishes, the first fails once and retries, the third fails spuriously. *)
Example C59_case :
  option_map (fun s => (f_mem s, f_pcs s))
    (fetch_run (fetch_std Z.eqb (fun a v => (a + v) mod 2 ^ 32)%Z) [5; 7; 11]%Z
      [(0, FLoad 100%Z); (1, FLoad 100%Z); (1, FCas false); (0, FCas false); (0, FCas false); (2, FLoad 100%Z); (2, FCas true); (2, FCas false)]
      (fetch_init 100%Z [5; 7; 11]%Z)) = Some (123, [FDone 107; FDone 100; FDone 112])%Z.
Proof. reflexivity. Qed.

(** *** C60: the spin locks. *)

(** Threads inside at the same time work on different objects. *)
Theorem C60_exclusion ptr addrs objs calls sched s i j o op o' op' pc pc' :
  Forall (keeps_size objs) calls ->
  arun ptr addrs calls sched (ainit objs calls) = Some s ->
  nth_error calls i = Some (o, op) -> nth_error (a_pcs s) i = Some pc -> inside pc = true ->
  nth_error calls j = Some (o', op') -> nth_error (a_pcs s) j = Some pc' -> inside pc' = true ->
  o = o' -> i = j.
Proof.
  intros K R C1 P1 I1 C2 P2 I2 <-.
  destruct (arun_inv ptr addrs calls objs K _ _ _ _ _ (ainv_init ptr addrs calls objs) R) as (h & y & V).
  apply (v_excl _ _ _ _ _ _ _ V i j (o, op) (o, op')); [exists pc; auto|exists pc'; auto|reflexivity].
Qed.
Print Assumptions C60_exclusion.

(** Every operation takes effect at once: there is an order of the calls that returned in which each found the object as the ones
    before left it and returned what the operation returns on that, and when no thread is inside the objects are what the last left. *)
Theorem C60_linearizable ptr addrs objs calls sched1 sched2 s1 s2 :
  Forall (keeps_size objs) calls ->
  arun ptr addrs calls sched1 (ainit objs calls) = Some s1 ->
  arun ptr addrs calls sched2 s1 = Some s2 ->
  exists h1 h2 y1 y2,
    sequential calls objs h1 y1 /\ sequential calls objs (h1 ++ h2) y2 /\
    NoDup (map fst (h1 ++ h2)) /\
    (forall i r, In (i, r) h1 <-> nth_error (a_pcs s1) i = Some (ADone r)) /\
    (forall i r, In (i, r) (h1 ++ h2) <-> nth_error (a_pcs s2) i = Some (ADone r)) /\
    ((forall i pc, nth_error (a_pcs s2) i = Some pc -> inside pc = false) -> a_objs s2 = y2).
Proof.
  intros K R1 R2.
  destruct (arun_inv ptr addrs calls objs K _ _ _ _ _ (ainv_init ptr addrs calls objs) R1) as (h1 & y1 & V1). cbn [app] in V1.
  destruct (arun_inv ptr addrs calls objs K _ _ _ _ _ V1 R2) as (h2 & y2 & V2).
  exists h1, h2, y1, y2.
  split; [exact (v_seq _ _ _ _ _ _ _ V1)|]. split; [exact (v_seq _ _ _ _ _ _ _ V2)|]. split; [exact (v_nodup _ _ _ _ _ _ _ V2)|].
  split; [exact (v_done _ _ _ _ _ _ _ V1)|]. split; [exact (v_done _ _ _ _ _ _ _ V2)|].
  intro Q.
  assert (E : forall o, nth_error (a_objs s2) o = nth_error y2 o).
  { intro o. apply (v_idle _ _ _ _ _ _ _ V2). intros i c (pc & _ & Hp & Hi). rewrite (Q _ _ Hp) in Hi. discriminate. }
  revert E. generalize (a_objs s2) as a, y2 as b. clear.
  induction a as [|d a IH]; intros [|e b] E; [reflexivity|specialize (E 0); discriminate|specialize (E 0); discriminate|].
  f_equal; [specialize (E 0); cbn in E; congruence|]. apply IH. intro o. exact (E (S o)).
Qed.
Print Assumptions C60_linearizable.

(** No deadlock: from every state every call can still return; a released lock is taken again. *)
Theorem C60_no_deadlock ptr addrs objs calls sched s :
  Forall (keeps_size objs) calls ->
  arun ptr addrs calls sched (ainit objs calls) = Some s ->
  exists sched' s', arun ptr addrs calls sched' s = Some s' /\
    forall i, i < length calls -> exists r, nth_error (a_pcs s') i = Some (ADone r).
Proof.
  intros K R.
  destruct (arun_inv ptr addrs calls objs K _ _ _ _ _ (ainv_init ptr addrs calls objs) R) as (h & y & V).
  exact (complete ptr addrs calls objs K _ _ _ _ V (le_n _)).
Qed.
Print Assumptions C60_no_deadlock.

(** Every object has one of the 256 locks, whatever its address. *)
Theorem C60_lock_in_table ptr p : lock_index ptr p < 256.
Proof. apply lock_index_bound. Qed.
Print Assumptions C60_lock_in_table.

(** Two threads exchange and one loads, on one two-word object; the other object shares its lock. *)
Example C60_case :
  let calls := [(0, AExchange [1; 2]%Z); (0, ALoad); (1, AFetch (map (Z.add 10)))] in
  option_map (fun s => (a_objs s, a_pcs s))
    (arun 8 [64; 64 + 2048]%Z calls [1; 0; 2; 1; 1; 1; 1; 0; 0; 0; 0; 0; 0; 2; 0; 0; 0; 2; 2; 2; 2; 2; 2; 2; 2; 2] (ainit [[7; 8]; [5; 6]]%Z calls))
  = Some ([[1; 2]; [15; 16]]%Z, [ADone [7; 8]; ADone [7; 8]; ADone [5; 6]]%Z)
  /\ Forall (keeps_size [[7; 8]; [5; 6]]%Z) calls.
Proof.
  split; [vm_compute; reflexivity|].
  repeat constructor; cbn; try (eexists; split; [reflexivity|]; try reflexivity; auto).
  intros y H. now rewrite map_length.
Qed.

(** Not so for types of 1, 2, 4 or 8 bytes that are not built in: atomic_store does not take the lock that atomic_load holds
    while it copies, so a load may return words of two different values. *)
Theorem C60_mixed_refuted :
  exists objs calls sched1 sched2 v s1 s2,
    arun 8 [64]%Z calls sched1 (ainit objs calls) = Some s1 /\
    arun 8 [64]%Z calls sched2 (mixed_store 0 v s1) = Some s2 /\
    objs = [[1; 1]]%Z /\ v = [2; 2]%Z /\ calls = [(0, ALoad)] /\ nth_error (a_pcs s2) 0 = Some (ADone [1; 2]%Z).
Proof.
  exists [[1; 1]]%Z, [(0, ALoad)], [0; 0], [0; 0; 0], [2; 2]%Z. eexists. eexists.
  split; [vm_compute; reflexivity|]. split; [vm_compute; reflexivity|]. repeat split; reflexivity.
Qed.
Print Assumptions C60_mixed_refuted.

(** *** C66: mutexes. *)

Lemma run_inv impl n sched s : impl = mutex_std \/ impl = mutex_win32 -> Forall (fun '(t, _, _) => t < n) sched ->
  mrun impl sched (minit n) = Ok s -> minv n s.
Proof.
  intros Hi F R. destruct (minv_run n sched (minit n) (minv_init n) F) as (s' & E & I).
  assert (mrun mutex_std sched (minit n) = Ok s) by (destruct Hi as [-> | ->]; [exact R|now rewrite <- mrun_backends]). congruence.
Qed.

(** Threads that acquire when they hold nothing and release what they hold: in every schedule nothing is undefined, and a thread
    that holds the mutex exclusively is the only holder. *)
Theorem C66_exclusion impl n sched :
  impl = mutex_std \/ impl = mutex_win32 -> Forall (fun '(t, _, _) => t < n) sched ->
  exists s, mrun impl sched (minit n) = Ok s /\
    forall i j h, nth_error (m_held s) i = Some HExclusive -> nth_error (m_held s) j = Some h -> h <> HNone -> i = j.
Proof.
  intros Hi F. destruct (minv_run n sched (minit n) (minv_init n) F) as (s & E & I).
  exists s. split; [destruct Hi as [-> | ->]; [exact E|now rewrite mrun_backends]|].
  intros i j h H1 H2 Hh. destruct (Nat.eq_dec i j) as [|N]; [assumption|exfalso].
  destruct I as [L Ex Sh A]. pose proof (count_pos _ _ _ H1) as P.
  destruct (l_excl (m_lock s)); [|lia]. specialize (A eq_refl).
  destruct h; [congruence| |].
  - pose proof (count_pos _ _ _ H2). lia.
  - pose proof (count_two _ _ _ _ H1 H2 N). lia.
Qed.
Print Assumptions C66_exclusion.

(** A thread that holds nothing: acquire_mutex returns exactly when no other holds the mutex, try_acquire_mutex returns true exactly then
    (unless it fails spuriously) and changes nothing otherwise; the shared ones return exactly when no other holds it exclusively. *)
Theorem C66_acquire impl n sched s t fail :
  impl = mutex_std \/ impl = mutex_win32 -> Forall (fun '(t, _, _) => t < n) sched ->
  mrun impl sched (minit n) = Ok s -> nth_error (m_held s) t = Some HNone ->
  let free := forall i h, nth_error (m_held s) i = Some h -> h = HNone in
  let unwritten := forall i h, nth_error (m_held s) i = Some h -> h <> HExclusive in
  let now_holds r h := exists s', r = Ok (Some s') /\ m_held s' = upd (m_held s) t h in
  (free -> now_holds (mcall_step impl t acquire_mutex fail s) HExclusive) /\
  (~ free -> mcall_step impl t acquire_mutex fail s = Ok None) /\
  (free -> fail = false -> now_holds (mcall_step impl t try_acquire_mutex fail s) HExclusive) /\
  (~ free -> mcall_step impl t try_acquire_mutex fail s = Ok (Some s)) /\
  (unwritten -> now_holds (mcall_step impl t acquire_mutex_shared fail s) HShared) /\
  (~ unwritten -> mcall_step impl t acquire_mutex_shared fail s = Ok None) /\
  (unwritten -> fail = false -> now_holds (mcall_step impl t try_acquire_mutex_shared fail s) HShared) /\
  (~ unwritten -> mcall_step impl t try_acquire_mutex_shared fail s = Ok (Some s)).
Proof.
  intros Hi F R Ht free unwritten now_holds.
  pose proof (run_inv _ _ _ _ Hi F R) as [L Ex Sh A].
  assert (Hfree : free <-> l_excl (m_lock s) || negb (Nat.eqb (l_shared (m_lock s)) 0) = false).
  { unfold free. split.
    - intro H. destruct (l_excl (m_lock s)).
      + destruct (count_ex HExclusive (m_held s)) as (i & Hc); [lia|]. apply H in Hc. discriminate.
      + cbn. apply negb_false_iff, Nat.eqb_eq. destruct (l_shared (m_lock s)) eqn:E; [reflexivity|].
        destruct (count_ex HShared (m_held s)) as (i & Hc); [lia|]. apply H in Hc. discriminate.
    - intro H. apply orb_false_iff in H. destruct H as [H1 H2]. apply negb_false_iff, Nat.eqb_eq in H2. rewrite H1 in Ex.
      intros i [| |] Hc; [reflexivity| |]; pose proof (count_pos _ _ _ Hc); lia. }
  assert (Hunw : unwritten <-> l_excl (m_lock s) = false).
  { unfold unwritten. split.
    - intro H. destruct (l_excl (m_lock s)); [|reflexivity].
      destruct (count_ex HExclusive (m_held s)) as (i & Hc); [lia|]. now apply H in Hc.
    - intros H i h Hc ->. rewrite H in Ex. pose proof (count_pos _ _ _ Hc). lia. }
  assert (Hs : s = {| m_lock := m_lock s; m_held := upd (m_held s) t HNone |}) by (rewrite (upd_same _ _ _ Ht); now destruct s).
  clearbody free unwritten.
  assert (Hg : get (m_held s) t = Ok HNone) by (unfold get; now rewrite Ht).
  assert (Z1 : ~ free -> l_excl (m_lock s) || negb (Nat.eqb (l_shared (m_lock s)) 0) = true).
  { intro H. destruct (l_excl (m_lock s) || negb (Nat.eqb (l_shared (m_lock s)) 0)); [reflexivity|]. destruct H. now apply Hfree. }
  assert (Z2 : ~ unwritten -> l_excl (m_lock s) = true).
  { intro H. destruct (l_excl (m_lock s)); [reflexivity|]. destruct H. now apply Hunw. }
  assert (Hm : forall c, mcall_step impl t c fail s = mcall_step mutex_std t c fail s).
  { intro c. destruct Hi as [-> | ->]; [reflexivity|]. unfold mcall_step. now rewrite backends. }
  rewrite !Hm. unfold mcall_step. rewrite Hg. cbn [bind allowed negb mutex_std prim_step call_held].
  split; [|split; [|split; [|split; [|split; [|split; [|split]]]]]]; unfold now_holds.
  - intro H. apply Hfree in H. rewrite H. cbn [bind]. eexists. split; [reflexivity|reflexivity].
  - intro H. rewrite (Z1 H). reflexivity.
  - intros H ->. apply Hfree in H. rewrite H. cbn [bind orb]. eexists. split; [reflexivity|reflexivity].
  - intro H. rewrite (Z1 H). cbn [bind orb]. now rewrite <- Hs.
  - intro H. apply Hunw in H. rewrite H. cbn [bind]. eexists. split; [reflexivity|reflexivity].
  - intro H. rewrite (Z2 H). reflexivity.
  - intros H ->. apply Hunw in H. rewrite H. cbn [bind orb]. eexists. split; [reflexivity|reflexivity].
  - intro H. rewrite (Z2 H). cbn [bind orb]. now rewrite <- Hs.
Qed.
Print Assumptions C66_acquire.

(** A release always returns and gives up exactly what the thread held. *)
Theorem C66_release impl n sched s t fail :
  impl = mutex_std \/ impl = mutex_win32 -> Forall (fun '(t, _, _) => t < n) sched -> mrun impl sched (minit n) = Ok s ->
  (nth_error (m_held s) t = Some HExclusive -> exists s', mcall_step impl t release_mutex fail s = Ok (Some s') /\ m_held s' = upd (m_held s) t HNone) /\
  (nth_error (m_held s) t = Some HShared -> exists s', mcall_step impl t release_mutex_shared fail s = Ok (Some s') /\ m_held s' = upd (m_held s) t HNone).
Proof.
  intros Hi F R. pose proof (run_inv _ _ _ _ Hi F R) as [L Ex Sh A].
  assert (Hm : forall c, mcall_step impl t c fail s = mcall_step mutex_std t c fail s).
  { intro c. destruct Hi as [-> | ->]; [reflexivity|]. unfold mcall_step. now rewrite backends. }
  rewrite !Hm. unfold mcall_step, get. split; intro Ht; rewrite Ht; cbn [bind allowed negb mutex_std prim_step call_held]; pose proof (count_pos _ _ _ Ht).
  - destruct (l_excl (m_lock s)); [|lia]. cbn [bind]. eexists. split; reflexivity.
  - destruct (l_shared (m_lock s)); [lia|]. cbn [bind]. eexists. split; reflexivity.
Qed.
Print Assumptions C66_release.

(** Construction leaves a mutex nobody holds. *)
Theorem C66_construct impl l : impl = mutex_std \/ impl = mutex_win32 ->
  prim_step (impl construct_mutex) false l = Ok (Some ({| l_excl := false; l_shared := 0 |}, true)).
Proof. intros [-> | ->]; reflexivity. Qed.
Print Assumptions C66_construct.

Example C66_case :
  mrun mutex_std [(0, acquire_mutex_shared, false); (1, try_acquire_mutex_shared, false); (2, try_acquire_mutex, false); (0, release_mutex_shared, false);
                  (1, release_mutex_shared, false); (2, acquire_mutex, false); (0, acquire_mutex_shared, false)] (minit 3)
  = Ok {| m_lock := {| l_excl := true; l_shared := 0 |}; m_held := [HNone; HNone; HExclusive] |}.
Proof. reflexivity. Qed.
