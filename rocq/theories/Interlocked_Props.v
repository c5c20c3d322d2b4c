(** The atomics without locks behave as if every call were made at one instant. *)
From Verif Require Import Base Interlocked_Model Interlocked_Spec Interlocked.
Local Open Scope Z_scope.

(** *** C80: any mix of calls, by any number of threads, any number of calls each. *)

(** atomic_msvc_x86.h: integers, pointers, floating point, and classes of 1, 2, 4 or 8 bytes that are not loaded; on a 32 bit processor
    without the loads of 8 bytes. *)
Theorem C80_msvc_linearizable_partial (k : cpu) (ts : list ty) (objs : list Z) (programs : list (list (nat * call))) sched s tr :
  Forall small ts -> length objs = length ts -> well_typed (sound k) ts programs ->
  run (msvc_impl k) ts sched (start objs programs) = Next s tr ->
  linearizable ts objs tr (mem s) /\ of_programs programs tr.
Proof.
  intros B L W. rewrite Forall_forall in B.
  apply (run_linearizable (msvc_impl k) ts objs programs (sound k)); auto. intros t c I A. apply msvc_carries; auto.
Qed.
Print Assumptions C80_msvc_linearizable_partial.

(** atomic_std.h: every type, with and without fetch_add for floating point, whatever the relaxed loads give and however often a weak
    compare-exchange fails. *)
Theorem C80_std_linearizable (has : bool) (ts : list ty) (objs : list Z) (programs : list (list (nat * call))) sched s tr :
  length objs = length ts -> well_typed offered ts programs ->
  run (std_impl has) ts sched (start objs programs) = Next s tr ->
  linearizable ts objs tr (mem s) /\ of_programs programs tr.
Proof.
  intros L W. apply (run_linearizable (std_impl has) ts objs programs offered); auto. intros t c _ O. now apply std_carries.
Qed.
Print Assumptions C80_std_linearizable.

(** Nothing undefined happens, and a thread that has calls left can always go on. *)
Theorem C80_enabled (how : ty -> call -> impl) ok (ts : list ty) (objs : list Z) (programs : list (list (nat * call))) sched :
  (exists k, how = msvc_impl k /\ ok = sound k /\ Forall small ts) \/ (exists has, how = std_impl has /\ ok = offered) ->
  length objs = length ts -> well_typed ok ts programs ->
  run how ts sched (start objs programs) <> Undefined /\
  forall s tr i th ch, run how ts sched (start objs programs) = Next s tr -> nth_error (threads s) i = Some th ->
    (exists s' tr', step how ts i ch s = Next s' tr') \/ (th_pc th = Idle /\ th_todo th = []).
Proof.
  intros H L W.
  assert (C : forall t c, In t ts -> ok t c -> carries (how t c) t c).
  { destruct H as [(k & -> & -> & B)|(has & -> & ->)].
    - rewrite Forall_forall in B. intros t c I A. apply msvc_carries; auto.
    - intros t c _ O. now apply std_carries. }
  split.
  - intro U. pose proof (run_inv how ts objs programs ok C W sched [] _ (inv_start how ts objs programs ok L)) as G. now rewrite U in G.
  - intros s tr i th ch. now apply (run_enabled how ts objs programs ok).
Qed.
Print Assumptions C80_enabled.

(** Lock freedom: among n threads, any 3 n n + 4 n + 1 steps in a row see a call return, when loads give what is in memory and
    compare-exchanges do not fail for no reason. On x86 they never do. *)
Theorem C80_lock_free (how : ty -> call -> impl) ok (ts : list ty) (objs : list Z) (programs : list (list (nat * call)))
    sched1 sched2 s1 tr1 s2 tr2 :
  (exists k, how = msvc_impl k /\ ok = sound k /\ Forall small ts) \/ (exists has, how = std_impl has /\ ok = offered) ->
  length objs = length ts -> well_typed ok ts programs ->
  run how ts sched1 (start objs programs) = Next s1 tr1 -> run how ts sched2 s1 = Next s2 tr2 ->
  Forall (fun x => snd x = exact) sched2 ->
  (3 * length programs * length programs + 4 * length programs < length sched2)%nat ->
  exists i r, In (Ret i r) tr2.
Proof.
  intros H L W R1 R2 X N.
  assert (C : forall t c, In t ts -> ok t c -> carries (how t c) t c).
  { destruct H as [(k & -> & -> & B)|(has & -> & ->)].
    - rewrite Forall_forall in B. intros t c I A. apply msvc_carries; auto.
    - intros t c _ O. now apply std_carries. }
  eapply (run_progress how ts objs programs ok C W L sched1 sched2); eauto.
Qed.
Print Assumptions C80_lock_free.

(** What linearizable means for a client: the result of a call is one that some call of the same thread has at its instant... *)
Lemma ret_at i h p : in_order i h p -> forall r, (In (Ret i r) (seen h) \/ p = Effective r) -> exists o c, In (At i o c r) h.
Proof.
  induction 1 as [|h p x q H IH W F|h p x H IH W]; intros r R.
  - destruct R as [[]|R]; discriminate.
  - rewrite seen_snoc in R.
    assert (G : (exists o c, x = At i o c r) \/ (In (Ret i r) (seen h) \/ p = Effective r)).
    { destruct F as [j o c|j o c r'|j r']; cbn [who] in W; subst j.
      - destruct R as [R|R]; [|discriminate]. apply in_app_or in R as [R|[R|[]]]; [right; now left|discriminate].
      - destruct R as [R|R]; [rewrite app_nil_r in R; right; now left|]. injection R as <-. left. eauto.
      - destruct R as [R|R]; [|discriminate]. apply in_app_or in R as [R|[R|[]]]; [right; now left|]. injection R as <-. right. now right. }
    destruct G as [(o & c & ->)|G].
    + exists o, c. apply in_or_app. right. now left.
    + destruct (IH r G) as (o & c & I). exists o, c. apply in_or_app. now left.
  - rewrite seen_snoc in R. destruct (IH r) as (o & c & I).
    + destruct R as [R|R]; [left|now right]. apply in_app_or in R as [R|R]; [exact R|].
      destruct x as [[j o c|j r']|]; cbn in R, W; try (destruct R as [R|[]]); try discriminate; [|destruct R]. injection R as -> ->. contradiction.
    + exists o, c. apply in_or_app. now left.
Qed.
(** ... and a call has an instant only if it was made. *)
Lemma at_inv i h p : in_order i h p -> (forall o c, p = Called o c -> In (Inv i o c) (seen h)) /\ forall o c r, In (At i o c r) h -> In (Inv i o c) (seen h).
Proof.
  induction 1 as [|h p x q H [IH1 IH2] W F|h p x H [IH1 IH2] W].
  - split; [discriminate|intros o c r []].
  - rewrite seen_snoc. split.
    + intros o c ->. inversion F; subst. cbn [who]. apply in_or_app. right. now left.
    + intros o c r I. apply in_or_app. apply in_app_or in I as [I|[->|[]]]; left.
      * eapply IH2; eauto.
      * inversion F; subst. auto.
  - rewrite seen_snoc. split.
    + intros o c ->. apply in_or_app. left. auto.
    + intros o c r I. apply in_or_app. apply in_app_or in I as [I|[->|[]]]; left.
      * eapply IH2; eauto.
      * cbn in W. contradiction.
Qed.

(** On a 32 bit processor atomic_load of an 8 byte type reads two halves: it can return a value that the object never had. One thread
    loads while another stores 2^32 + 1 over 0: the load returns 2^32. *)
Definition int64 : ty := {| t_size := 8; t_kind := KInt true |}.
Definition torn_sched : list (nat * choice) := map (fun i => (i, exact)) [0; 0; 1; 1; 1; 0; 0]%nat.
Theorem C80_halves_refuted : exists s tr,
  run (msvc_impl X32) [int64] torn_sched (start [0] [[(0%nat, CLoad)]; [(0%nat, CStore (2 ^ 32 + 1))]]) = Next s tr /\
  In (Ret 0 (2 ^ 32, true)) tr /\ ~ linearizable [int64] [0] tr (mem s).
Proof.
  eexists. eexists. split; [reflexivity|]. split; [cbn; tauto|].
  intros (h & S & O & N).
  assert (A : forall i o c r, In (At i o c r) h -> (c = CLoad \/ c = CStore (2 ^ 32 + 1))).
  { intros i o c r I. destruct (O i) as (p & P). destruct (at_inv i h p P) as [_ G]. specialize (G o c r I). rewrite S in G. cbn in G.
    destruct G as [G|[G|[G|[G|[]]]]]; try discriminate; injection G as <- <- <-; auto. }
  assert (B : forall h now, one_by_one [int64] [0] h now -> (forall i o c r, In (At i o c r) h -> (c = CLoad \/ c = CStore (2 ^ 32 + 1))) ->
    (forall m, nth_error now 0 = Some m -> m = 0 \/ m = 2 ^ 32 + 1) /\
    (forall i o c r, In (At i o c r) h -> fst r = 0 \/ fst r = 2 ^ 32 + 1)).
  { clear. induction 1 as [|h now e H IH|h now i o c t m m' r H IH T M E]; intros A.
    - split; [|intros i o c r []]. intros m E. injection E as <-. now left.
    - destruct IH as [IH1 IH2]. { intros i o c r I. apply (A i o c r). apply in_or_app. now left. }
      split; [exact IH1|]. intros i o c r I. apply in_app_or in I as [I|[I|[]]]; [eauto|discriminate].
    - destruct IH as [IH1 IH2]. { intros i' o' c' r' I. apply (A i' o' c' r'). apply in_or_app. now left. }
      assert (Ac : c = CLoad \/ c = CStore (2 ^ 32 + 1)) by (apply (A i o c r); apply in_or_app; right; now left).
      destruct o as [|o]; [|cbn in T; destruct o; discriminate]. specialize (IH1 m M) as Hm.
      assert (G : (m' = 0 \/ m' = 2 ^ 32 + 1) /\ (fst r = 0 \/ fst r = 2 ^ 32 + 1)).
      { destruct Ac as [-> | ->]; cbn [effect] in E; injection E as <- <-; cbn [fst]; auto. }
      split.
      + intros x X. destruct now as [|y now]; [discriminate|]. cbn in X. injection X as <-. tauto.
      + intros i' o' c' r' I. apply in_app_or in I as [I|[I|[]]]; [eauto|]. injection I as _ _ _ <-. tauto. }
  destruct (B h _ N A) as [_ C]. destruct (O 0%nat) as (p & P).
  destruct (ret_at 0 h p P (2 ^ 32, true)) as (o & c & I).
  { left. rewrite S. cbn. tauto. }
  destruct (C _ _ _ _ I) as [X|X]; cbn in X; discriminate.
Qed.
Print Assumptions C80_halves_refuted.

(** When nothing comes between the two halves, the load returns the value of the object, for every type of 8 bytes that
    needs no lock. *)
Theorem C80_halves_alone (t : ty) (m : Z) : t_size t = 8 -> (forall plus minus, t_kind t <> KUser plus minus) ->
  (forall x plus minus, t_kind t <> KMember x plus minus) -> 0 <= m < 2 ^ 64 ->
  exists s, run (msvc_impl X32) [t] (map (fun i => (i, exact)) [0; 0; 0; 0]%nat) (start [m] [[(0%nat, CLoad)]]) = Next s [Inv 0 0 CLoad; Ret 0 (m, true)] /\ mem s = [m].
Proof.
  destruct t as [z k]. cbn [t_size t_kind]. intros -> K K' Hm.
  destruct k as [b|st|p q|p q|x p q]; [| | |exfalso; exact (K p q eq_refl)|exfalso; exact (K' x p q eq_refl)];
    (eexists; split; [cbn -[Z.pow Z.div Z.modulo Z.mul Z.add]; rewrite (Z.add_comm (m mod _)), <- Z.div_mod by lia; reflexivity|reflexivity]).
Qed.
Print Assumptions C80_halves_alone.

(** atomic_fetch_sub computes T{ } - n: for the least number of a signed type that is an overflow. std::atomic has no such case. *)
Theorem C80_least_refuted (t : ty) (m : Z) :
  t_kind t = KInt true -> t_size t = 4 \/ t_size t = 8 ->
  count t (- 2 ^ (8 * t_size t - 1)) /\
  run (msvc_impl X64) [t] [(0%nat, exact); (0%nat, exact)] (start [m] [[(0%nat, CSub (- 2 ^ (8 * t_size t - 1)))]]) = Undefined.
Proof.
  destruct t as [size k]. cbn [t_kind t_size]. intros -> [-> | ->]; split; try reflexivity; unfold count; cbn; lia.
Qed.
Print Assumptions C80_least_refuted.

(** atomic_compare_exchange compiles for objects of 3, 5, 6, 7 or more than 16 bytes, and ends without returning. *)
Theorem C80_compare_exchange_refuted (k : cpu) (t : ty) (m b c : Z) :
  0 < t_size t -> ~ (exists e, 0 <= e <= 4 /\ t_size t = 2 ^ e) ->
  run (msvc_impl k) [t] [(0%nat, exact); (0%nat, exact)] (start [m] [[(0%nat, CCas b c)]]) = Undefined.
Proof.
  intros P N. assert (F : is_mem t = false).
  { destruct t as [z k']. unfold is_mem. cbn [t_size] in *. destruct (z <=? 16) eqn:L; [|apply andb_false_r]. rewrite andb_true_r.
    apply Z.leb_le in L.
    assert (C : z = 1 \/ z = 2 \/ z = 3 \/ z = 4 \/ z = 5 \/ z = 6 \/ z = 7 \/ z = 8 \/ z = 9 \/ z = 10 \/ z = 11 \/ z = 12 \/ z = 13 \/ z = 14 \/ z = 15 \/ z = 16) by lia.
    repeat (destruct C as [-> | C]; [try reflexivity; exfalso; apply N|]).
    - exists 0; lia.
    - exists 1; lia.
    - exists 2; lia.
    - exists 3; lia.
    - subst z. exfalso. apply N. exists 4; lia. }
  cbn. unfold msvc_cas. rewrite F. reflexivity.
Qed.
Print Assumptions C80_compare_exchange_refuted.

(** Which operations agree on how to protect an object: for built-in types no call takes a lock. For classes of 1, 2, 4 or 8 bytes
    atomic_load takes the lock while atomic_store and atomic_exchange do not (C60_mixed_refuted shows what happens). For other sizes load,
    store, exchange and the fetches all take it. *)
Theorem C80_mechanism (k : cpu) (t : ty) (c : call) :
  (builtin t -> msvc_impl k t c <> ILock) /\
  (can_user_sub t = true -> t_size t = 1 \/ t_size t = 2 \/ t_size t = 4 \/ t_size t = 8 -> (msvc_impl k t c = ILock <-> c = CLoad)) /\
  (can_user_sub t = true -> is_mem t = false -> allowed t c -> (msvc_impl k t c = ILock <-> forall b d, c <> CCas b d)).
Proof.
  unfold builtin, can_user_sub. split; [|split].
  - intro B. destruct t as [size [sg|st|p q|p q|x p q]]; cbn [t_kind t_size] in *; try tauto;
      destruct c, k; cbn [msvc_impl];
      unfold msvc_load, msvc_store, msvc_exchange, msvc_cas, msvc_fetch, is_i8, is_i16, is_i32, is_i64, is_mem, is_m8, is_m16, is_m32, is_m64, is_fpu, is_cpu, can_cpu_sub, can_cpu_xor, can_sub, can_xor, can_user_sub, can_user_xor, is_ptr; cbn [t_kind t_size];
      repeat (destruct B as [-> | B]); subst; cbn; discriminate.
  - intros U B. destruct t as [size [sg|st|p q|p q|x p q]]; cbn [t_kind t_size] in *; try discriminate.
    destruct c, k; cbn [msvc_impl];
      unfold msvc_load, msvc_store, msvc_exchange, msvc_cas, msvc_fetch, is_i8, is_i16, is_i32, is_i64, is_mem, is_m8, is_m16, is_m32, is_m64, is_fpu, is_cpu, can_cpu_sub, can_cpu_xor, can_sub, can_xor, can_user_sub, can_user_xor, is_ptr; cbn [t_kind t_size];
      repeat (destruct B as [-> | B]); subst; cbn; split; intro; (reflexivity || discriminate).
  - intros U B A. destruct t as [size [sg|st|p q|p q|x p q]]; cbn [t_kind t_size] in *; try discriminate.
    assert (S1 : size =? 1 = false) by (apply Z.eqb_neq; intros ->; discriminate).
    assert (S2 : size =? 2 = false) by (apply Z.eqb_neq; intros ->; discriminate).
    assert (S4 : size =? 4 = false) by (apply Z.eqb_neq; intros ->; discriminate).
    assert (S8 : size =? 8 = false) by (apply Z.eqb_neq; intros ->; discriminate).
    destruct c, k; cbn [msvc_impl allowed] in *; try tauto;
      unfold msvc_load, msvc_store, msvc_exchange, msvc_cas, msvc_fetch, is_i8, is_i16, is_i32, is_i64, is_m8, is_m16, is_m32, is_m64, is_fpu, is_cpu, can_cpu_sub, can_cpu_xor, can_sub, can_xor, can_user_sub, can_user_xor, is_ptr; cbn [t_kind t_size];
      rewrite ?S1, ?S2, ?S4, ?S8, ?B; cbn; (split; [|intro H]); try discriminate; try reflexivity; try (intros; discriminate).
    + now destruct (H b c).
    + now destruct (H b c).
Qed.
Print Assumptions C80_mechanism.

(** Classes of 16 bytes: loads, stores and exchanges take the lock; the other functions do not compile. *)
Theorem C80_sixteen (k : cpu) (t : ty) (v b d n : Z) : can_user_sub t = true -> t_size t = 16 ->
  msvc_impl k t CLoad = ILock /\ msvc_impl k t (CStore v) = ILock /\ msvc_impl k t (CExchange v) = ILock /\
  msvc_impl k t (CCas b d) = INone /\ msvc_impl k t (CAdd n) = INone /\ msvc_impl k t (CSub n) = INone.
Proof. destruct t as [z [sg|st|p q|p q|x p q]]; unfold can_user_sub; cbn [t_kind t_size]; intros U ->; try discriminate U. destruct k; repeat split. Qed.
Print Assumptions C80_sixteen.

(** A class of 1, 2, 4 or 8 bytes whose operators, ^ among them, are members is taken for an integer: atomic_fetch_add adds representations. *)
Theorem C80_member_adds (k : cpu) (t : ty) (plus minus : Z -> Z -> Z) (m n : Z) :
  t_kind t = KMember true plus minus -> small t ->
  forall (sub : bool), exists s,
    run (msvc_impl k) [t] (map (fun i => (i, exact)) [0; 0; 0]%nat) (start [m] [[(0%nat, if sub then CSub n else CAdd n)]])
      = Next s [Inv 0 0 (if sub then CSub n else CAdd n); Ret 0 (m, true)] /\
    mem s = [(m + (if sub then minus else plus) 0 n) mod 2 ^ (8 * t_size t)].
Proof.
  intros K B sub. apply small_size in B. destruct t as [size kd]. cbn [t_size t_kind] in *. subst kd.
  destruct B as [-> | [-> | [-> | ->]]]; destruct sub; (eexists; split; [reflexivity|reflexivity]).
Qed.
Print Assumptions C80_member_adds.

(** There is no atomic_load for such classes, with or without ^, and no call takes a lock when the size is 1, 2, 4 or 8. *)
Theorem C80_member_calls (k : cpu) (t : ty) (x : bool) (plus minus : Z -> Z -> Z) (c : call) :
  t_kind t = KMember x plus minus -> small t -> msvc_impl k t CLoad = INone /\ msvc_impl k t c <> ILock.
Proof.
  intros K B. apply small_size in B. destruct t as [size kd]. cbn [t_size t_kind] in *. subst kd.
  split; [destruct k; reflexivity|]. destruct B as [-> | [-> | [-> | ->]]]; destruct c, x; cbn; discriminate.
Qed.
Print Assumptions C80_member_calls.

(** Two 16 bit coordinates that wrap round on their own: (65535, 0) + (1, 0) becomes (0, 1) and not (0, 0). *)
Definition add2 (a b : Z) : Z := (a mod 2 ^ 16 + b mod 2 ^ 16) mod 2 ^ 16 + 2 ^ 16 * ((a / 2 ^ 16 + b / 2 ^ 16) mod 2 ^ 16).
Definition sub2 (a b : Z) : Z := (a mod 2 ^ 16 - b mod 2 ^ 16) mod 2 ^ 16 + 2 ^ 16 * ((a / 2 ^ 16 - b / 2 ^ 16) mod 2 ^ 16).
Definition pair16 (xor : bool) : ty := {| t_size := 4; t_kind := KMember xor add2 sub2 |}.
Theorem C80_member_refuted (k : cpu) : exists s tr,
  run (msvc_impl k) [pair16 true] (map (fun i => (i, exact)) [0; 0; 0]%nat) (start [65535] [[(0%nat, CAdd 1)]]) = Next s tr /\
  effect (pair16 true) (CAdd 1) 65535 = (0, (65535, true)) /\ mem s = [2 ^ 16] /\ ~ linearizable [pair16 true] [65535] tr (mem s).
Proof.
  eexists. eexists. split; [reflexivity|]. split; [reflexivity|]. split; [reflexivity|].
  intros (h & S & O & N). destruct (O 0%nat) as (p & P).
  assert (A : forall i o c r, In (At i o c r) h -> c = CAdd 1).
  { intros i o c r I. destruct (O i) as (p' & P'). destruct (at_inv i h p' P') as [_ G]. specialize (G o c r I). rewrite S in G. cbn in G.
    destruct G as [G|[G|[]]]; try discriminate. now injection G as <- <- <-. }
  (* one_by_one has no carry: the high half stays 0 *)
  assert (B : forall h now, one_by_one [pair16 true] [65535] h now -> (forall i o c r, In (At i o c r) h -> c = CAdd 1) ->
    forall m, nth_error now 0 = Some m -> 0 <= m < 2 ^ 16).
  { clear. induction 1 as [|h now e H IH|h now i o c t m m' r H IH T M E]; intros A x X.
    - injection X as <-. lia.
    - apply IH; [|exact X]. intros i o c r I. apply (A i o c r). apply in_or_app. now left.
    - assert (Ac : c = CAdd 1) by (apply (A i o c r); apply in_or_app; right; now left). subst c.
      destruct o as [|o]; [|cbn in T; destruct o; discriminate]. cbn in T. injection T as <-.
      assert (Hm : 0 <= m < 2 ^ 16). { apply IH; [|exact M]. intros i' o' c' r' I. apply (A i' o' c' r'). apply in_or_app. now left. }
      cbn [effect pair16 t_kind] in E. injection E as <- <-. destruct now as [|y now]; [discriminate|]. cbn [upd nth_error] in X. injection X as <-.
      unfold add2. rewrite (Z.div_small m) by lia. replace (1 / 2 ^ 16) with 0 by reflexivity. cbn [Z.add]. rewrite Z.mod_0_l, Z.mul_0_r, Z.add_0_r by lia.
      apply Z.mod_pos_bound. lia. }
  specialize (B h _ N A _ eq_refl). cbn in B. lia.
Qed.
Print Assumptions C80_member_refuted.

(** ** Cases *)

(** A pointer to 12 byte objects, an int32 and a float whose addition is, here, that of the representations; three threads. *)
Definition c80_ts : list ty :=
  [ {| t_size := 8; t_kind := KPtr 12 |}; {| t_size := 4; t_kind := KInt true |};
    {| t_size := 4; t_kind := KFloat (fun a b => (a + b) mod 2 ^ 32) (fun a b => (a - b) mod 2 ^ 32) |} ].
Definition c80_programs : list (list (nat * call)) :=
  [ [(2, CAdd 10); (1, CSub 7)]; [(2, CSub 3); (0, CAdd (-2)); (1, CCas 5 9)]; [(1, CExchange 5); (2, CAdd 100); (0, CLoad)] ]%nat.
Example C80_case_types : Forall small c80_ts /\ well_typed (sound X64) c80_ts c80_programs.
Proof.
  split; [repeat constructor; cbn; tauto|]. intros p o c P I. cbn in P.
  destruct P as [<- | [<- | [<- | []]]]; cbn in I;
    repeat (destruct I as [E | I]; [injection E as <- <-; eexists; split; [reflexivity|split; [unfold allowed, count, negatable, value; cbn; try lia; tauto|split; [intro X; first [discriminate X|split; [cbn; tauto|discriminate]]|intros; discriminate]]]|]); destruct I.
Qed.
(** On a 32 bit processor: a class of 8 bytes, and a 2 byte integer. *)
Definition c80_ts32 : list ty :=
  [ {| t_size := 8; t_kind := KUser (fun a b => Z.lxor a b) (fun a b => Z.lxor a b) |}; {| t_size := 2; t_kind := KInt false |} ].
Definition c80_programs32 : list (list (nat * call)) := [ [(0, CAdd 6); (1, CLoad)]; [(0, CExchange (2 ^ 40)); (1, CStore 7)] ]%nat.
Example C80_case_types32 : Forall small c80_ts32 /\ well_typed (sound X32) c80_ts32 c80_programs32.
Proof.
  split; [repeat constructor; cbn; tauto|]. intros p o c P I. cbn in P.
  destruct P as [<- | [<- | []]]; cbn in I;
    repeat (destruct I as [E | I]; [injection E as <- <-; eexists; split; [reflexivity|split; [unfold allowed, count, negatable, value; cbn; try lia; tauto|split; [intro X; first [discriminate X|split; [cbn; tauto|discriminate]]|intros; discriminate]]]|]); destruct I.
Qed.
(** The load that begins thread 0's loop is torn (it gives what memory never held); the compare-exchange fails and the loop goes on. *)
Example C80_case_run32 :
  match run (msvc_impl X32) c80_ts32 [(0, exact); (0, {| stale := Some (2 ^ 40 + 9)%Z; spurious := false |}); (1, exact); (1, exact); (0, exact); (0, exact); (0, exact); (1, exact)]%nat
      (start [9; 0] c80_programs32) with
  | Next s tr => (mem s, tr)
  | _ => ([], [])
  end = ([2 ^ 40 + 6; 0], [Inv 0 0 (CAdd 6); Inv 1 0 (CExchange (2 ^ 40)); Ret 0 (2 ^ 40, true); Ret 1 (9, true)]).
Proof. vm_compute. reflexivity. Qed.
(** Thread 0 loads the float, thread 1 subtracts from it, thread 0's compare-exchange fails, thread 2 adds, and so on. *)
Example C80_case_run :
  match run (msvc_impl X64) c80_ts (map (fun i => (i, exact)) [0; 0; 1; 1; 1; 0; 2; 2; 2; 2; 2; 2; 0; 0; 0; 1; 1; 1; 1; 0; 0; 1; 1; 1; 2; 2; 2; 2; 0]%nat)
      (start [1000; 50; 1000] c80_programs) with
  | Next s tr => (mem s, tr)
  | _ => ([], [])
  end =
  ([976; 4294967294; 1107],
   [Inv 0 2 (CAdd 10); Inv 1 2 (CSub 3); Inv 2 1 (CExchange 5); Ret 2 (50, true); Inv 2 2 (CAdd 100);
    Ret 0 (1097, true); Ret 1 (1000, true); Inv 1 0 (CAdd (-2)); Ret 1 (1000, true); Inv 0 1 (CSub 7);
    Inv 1 1 (CCas 5 9); Ret 1 (4294967294, false); Ret 2 (997, true); Inv 2 0 CLoad; Ret 2 (976, true); Ret 0 (5, true)]).
Proof. vm_compute. reflexivity. Qed.
(** The same class without ^: a compare-exchange loop, which is sound. *)
Example C80_case_member : small (pair16 false) /\ sound X32 (pair16 false) (CAdd 1) /\
  match run (msvc_impl X32) [pair16 false] (map (fun i => (i, exact)) [0; 0; 0; 0]%nat) (start [65535] [[(0%nat, CAdd 1)]]) with
  | Next s _ => mem s = [0]
  | _ => False
  end.
Proof.
  split; [cbn; tauto|]. split; [|reflexivity]. split; [unfold allowed, count, value; cbn; lia|]. split; [discriminate|]. intros n _ p q. discriminate.
Qed.
Example C80_case_member_adds : small (pair16 true) /\ t_kind (pair16 true) = KMember true add2 sub2.
Proof. split; [cbn; tauto|reflexivity]. Qed.
