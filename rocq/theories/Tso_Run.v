(** Executions of processors with store buffers: histories of the atomic calls, progress, and the user's own variables. *)
From Verif Require Import Base Atomic_Model Atomic_Spec Atomic_Proofs Tso_Model Tso_Spec Tso.
Local Open Scope nat_scope.

Section Run.
  Context (ptr : Z) (addrs : list Z) (calls : list (nat * tcall)) (procs : nat) (objs : list (list Z)) (atoms plain : list Z).
  Hypothesis Hfit : Forall (fits procs objs atoms plain) calls.
  Let n := length objs.
  Notation tinv := (tinv ptr addrs calls).
  Notation sc := (sc calls).
  Notation sc_calls := (sc_calls calls n).

  Lemma fit j p c : nth_error calls j = Some (p, c) -> fits procs objs atoms plain (p, c).
  Proof. intro H. exact (proj1 (Forall_forall _ _) Hfit _ (nth_error_In _ _ H)). Qed.

  Lemma sc_keeps : Forall (keeps_size (objs ++ [[]])) sc_calls.
  Proof.
    apply Forall_forall. intros a Ha. unfold Tso.sc_calls in Ha. apply in_map_iff in Ha. destruct Ha as ([p c] & <- & Hc).
    assert (F := proj1 (Forall_forall _ _) Hfit _ Hc). destruct F as [_ F]. cbn [snd] in F.
    destruct c as [[o op]|a|a f|x|x w]; cbn [sc_call snd].
    - destruct F as (d & Hd & F). exists d. split; [|exact F]. rewrite nth_error_app1; [exact Hd|exact (nth_error_lt _ _ _ Hd)].
    - exists []. split; [|exact I]. unfold n. rewrite nth_error_app2 by lia. now rewrite Nat.sub_diag.
    - exists []. split; [|exact I]. unfold n. rewrite nth_error_app2 by lia. now rewrite Nat.sub_diag.
    - exists []. split; [|exact I]. unfold n. rewrite nth_error_app2 by lia. now rewrite Nat.sub_diag.
    - exists []. split; [|exact I]. unfold n. rewrite nth_error_app2 by lia. now rewrite Nat.sub_diag.
  Qed.

  Record hinv (t : tstate) (H : list (nat * list Z)) (y : list (list Z)) : Prop := {
    h_inv : tinv t;
    h_objs : length (m_objs (t_mem t)) = n;
    h_atoms : length (m_atoms (t_mem t)) = length atoms;
    h_plain : length (m_plain (t_mem t)) = length plain;
    h_bufs : length (t_bufs t) = procs;
    h_y : length y = n;
    h_sc : exists h, ainv ptr addrs sc_calls (objs ++ [[]]) (sc t) h (y ++ [[]]);
    h_seq : tsequential calls (objs, atoms) H (y, m_atoms (t_mem t));
    h_nodup : NoDup (map fst H);
    h_done : forall i r, In (i, r) H <-> nth_error (t_pcs t) i = Some (ADone r) /\ exists p c, nth_error calls i = Some (p, c) /\ atomic_call c = true
  }.

  Lemma sc_init : sc (tinit procs objs atoms plain calls) = ainit (objs ++ [[]]) sc_calls.
  Proof.
    unfold Tso.sc, ainit, flat. cbn [t_bufs tinit t_pcs t_mem].
    assert (concat (repeat (@nil entry) procs) = []) as -> by (clear; induction procs as [|q IH]; [reflexivity|exact IH]). cbn [fold_left m_locks m_objs]. f_equal.
    unfold scp, Tso.sc_calls. clear. induction calls as [|[p c] l IH]; [reflexivity|]. cbn [map combine snd]. f_equal; [|exact IH]. now destruct c.
  Qed.

  Lemma hinv_init : hinv (tinit procs objs atoms plain calls) [] objs.
  Proof.
    constructor; try reflexivity.
    - apply tinv_init.
    - cbn. apply repeat_length.
    - exists []. rewrite sc_init. apply ainv_init.
    - constructor.
    - constructor.
    - intros i r. split; [intros []|]. intros [H _]. cbn in H. rewrite nth_error_map in H. destruct (nth_error calls i); discriminate.
  Qed.

  (** One step. *)
  Lemma hinv_flush t H y p e b : hinv t H y -> nth_error (t_bufs t) p = Some (e :: b) ->
    hinv {| t_mem := commit (t_mem t) e; t_pcs := t_pcs t; t_bufs := upd (t_bufs t) p b |} H y.
  Proof.
    intros V Hb. assert (I := h_inv _ _ _ V). destruct (commit_lengths (t_mem t) e) as (L1 & L2 & L3 & L4). constructor; cbn [t_mem t_pcs t_bufs].
    - exact (keep_flush _ _ _ _ _ _ _ I Hb).
    - rewrite L2. exact (h_objs _ _ _ V).
    - rewrite L3. exact (h_atoms _ _ _ V).
    - rewrite L4. exact (h_plain _ _ _ V).
    - rewrite upd_length. exact (h_bufs _ _ _ V).
    - exact (h_y _ _ _ V).
    - rewrite (sim_flush _ _ _ _ _ _ _ I Hb). exact (h_sc _ _ _ V).
    - rewrite L3. exact (h_seq _ _ _ V).
    - exact (h_nodup _ _ _ V).
    - exact (h_done _ _ _ V).
  Qed.

  Lemma hinv_locked t H y j p o op pc b lock data lock' es pc' : hinv t H y -> nth_error calls j = Some (p, TLocked (o, op)) -> nth_error (t_pcs t) j = Some pc ->
    nth_error (t_bufs t) p = Some b -> ready p calls (t_pcs t) j = true ->
    nth_error (m_locks (t_mem t)) (lock_index ptr (nth o addrs 0%Z)) = Some lock -> nth_error (m_objs (t_mem t)) o = Some data ->
    locked_step op o (lock_index ptr (nth o addrs 0%Z)) b lock data pc = Some (lock', es, pc') ->
    exists H' y', hinv {| t_mem := {| m_locks := upd (m_locks (t_mem t)) (lock_index ptr (nth o addrs 0%Z)) lock'; m_objs := m_objs (t_mem t); m_atoms := m_atoms (t_mem t); m_plain := m_plain (t_mem t) |};
                 t_pcs := upd (t_pcs t) j pc'; t_bufs := upd (t_bufs t) p (b ++ es) |} (H ++ H') y'.
  Proof.
    intros V Hc Hp Hb Hr Hl Ho E. assert (I := h_inv _ _ _ V).
    destruct (sim_locked ptr addrs calls n _ _ _ _ _ _ _ _ _ _ _ _ I Hc Hp Hb Hr Hl Ho E) as (I' & S & _). cbv zeta in I', S.
    set (t' := {| t_mem := _ |}) in *.
    assert (Hd : is_done pc = false) by (destruct pc; try reflexivity; discriminate).
    assert (Keep : forall i r, nth_error (t_pcs t) i = Some (ADone r) -> nth_error (t_pcs t') i = Some (ADone r)).
    { intros i r Hi. unfold t'. cbn [t_pcs]. rewrite nth_error_upd_ne; [exact Hi|]. intros ->. rewrite Hp in Hi. injection Hi as ->. discriminate. }
    destruct S as [[S D] | S].
    - exists [], y. rewrite app_nil_r. constructor; try exact I'; try exact (h_objs _ _ _ V); try exact (h_atoms _ _ _ V); try exact (h_plain _ _ _ V); try exact (h_y _ _ _ V);
        try exact (h_seq _ _ _ V); try exact (h_nodup _ _ _ V).
      + unfold t'. cbn [t_bufs]. rewrite upd_length. exact (h_bufs _ _ _ V).
      + rewrite S. exact (h_sc _ _ _ V).
      + intros i r. rewrite (h_done _ _ _ V). split; intros [A B]; (split; [|exact B]); [now apply Keep|].
        unfold t' in A. cbn [t_pcs] in A. destruct (Nat.eq_dec i j) as [-> | N].
        * rewrite (upd_nth_error_eq _ _ _ _ Hp) in A. injection A as ->. discriminate.
        * now rewrite nth_error_upd_ne in A by congruence.
    - destruct (h_sc _ _ _ V) as (h & A). destruct (astep_inv ptr addrs sc_calls (objs ++ [[]]) sc_keeps _ _ _ _ _ A S) as (h' & y1 & A').
      assert (Done : forall i r, In (i, r) h' -> exists p a, nth_error calls i = Some (p, TLocked a) /\ nth_error (t_pcs t') i = Some (ADone r)).
      { intros i r Hi. assert (Hi' : In (i, r) (h ++ h')) by (apply in_app_iff; now right). apply (v_done _ _ _ _ _ _ _ A') in Hi'.
        apply scp_inv in Hi'. destruct Hi' as (p' & c & q & C & P & E'). destruct c as [a|a|a f|x|x w]; try discriminate.
        exists p', a. split; [exact C|]. rewrite P. destruct q; try discriminate. cbn in E'. congruence. }
      assert (Fresh : forall i r r', In (i, r) h' -> In (i, r') h -> False).
      { intros i r r' H1 H2. pose proof (v_nodup _ _ _ _ _ _ _ A') as N. rewrite map_app in N. clear - N H1 H2.
        apply (in_map fst) in H1. apply (in_map fst) in H2. cbn in H1, H2. revert H2 N. induction (map fst h) as [|a l IH]; [intros []|]. cbn.
        intros [<- | H2] N; inversion N as [|? ? Hx Hy]; subst; [|now apply IH]. apply Hx. apply in_app_iff. now right. }
      assert (Locked : forall i p' a r, nth_error calls i = Some (p', TLocked a) -> nth_error (t_pcs t) i = Some (ADone r) -> In (i, r) h).
      { intros i p' a r C P. apply (v_done _ _ _ _ _ _ _ A). cbn [a_pcs Tso.sc]. now rewrite (scp_nth _ _ _ _ _ _ C P). }
      destruct (lift _ _ _ _ _ _ _ _ (v_seq _ _ _ _ _ _ _ A) (h_y _ _ _ V) (h_seq _ _ _ V) h' y1 (v_seq _ _ _ _ _ _ _ A')) as (y2 & -> & L2 & T2).
      { intros i r Hi. destruct (Done _ _ Hi) as (p' & [o' op'] & C & _). exists p', (o', op'). split; [exact C|]. cbn.
        apply fit in C. destruct C as [_ (d & Hd' & _)]. exact (nth_error_lt _ _ _ Hd'). }
      exists h', y2. constructor; try exact I'; try exact (h_objs _ _ _ V); try exact (h_atoms _ _ _ V); try exact (h_plain _ _ _ V); try assumption.
      + unfold t'. cbn [t_bufs]. rewrite upd_length. exact (h_bufs _ _ _ V).
      + exists (h ++ h'). exact A'.
      + rewrite map_app. pose proof (v_nodup _ _ _ _ _ _ _ A') as N. rewrite map_app in N.
        assert (N' : NoDup (map fst h')) by (clear - N; induction (map fst h) as [|a l IH]; [exact N|]; inversion N; auto).
        assert (X : forall i, In i (map fst H) -> In i (map fst h') -> False).
        { intros i H1 H2. apply in_map_iff in H1. destruct H1 as ((i1 & r1) & E1 & H1). apply in_map_iff in H2. destruct H2 as ((i2 & r2) & E2 & H2).
          cbn in E1, E2. subst i1 i2. destruct (Done _ _ H2) as (p' & a & C & _). apply (h_done _ _ _ V) in H1. destruct H1 as [H1 _].
          exact (Fresh _ _ _ H2 (Locked _ _ _ _ C H1)). }
        pose proof (h_nodup _ _ _ V) as NH. clear - NH N' X. induction (map fst H) as [|a l IH]; [exact N'|]. inversion NH; subst. cbn. constructor.
        * intro Hi. apply in_app_iff in Hi. destruct Hi as [Hi | Hi]; [contradiction|]. apply (X a); [now left|exact Hi].
        * apply IH; try assumption. intros i Hi. apply X. now right.
      + intros i r. rewrite in_app_iff, (h_done _ _ _ V). split.
        * intros [[A1 B1] | Hi]; [split; [now apply Keep|exact B1]|]. destruct (Done _ _ Hi) as (p' & a & C & P). split; [exact P|]. exists p', (TLocked a). auto.
        * intros [P (p' & c & C & Hat)].
          destruct c as [a|a|a f|x|x w]; try discriminate.
          { assert (Hs : In (i, r) (h ++ h')). { apply (v_done _ _ _ _ _ _ _ A'). cbn [a_pcs Tso.sc]. now rewrite (scp_nth _ _ _ _ _ _ C P). }
            apply in_app_iff in Hs. destruct Hs as [Hs | Hs]; [|now right]. left. apply (v_done _ _ _ _ _ _ _ A) in Hs. apply scp_inv in Hs.
            destruct Hs as (p2 & c2 & q & C2 & P2 & E2). split; [|eauto]. rewrite C in C2. injection C2 as <- <-. rewrite P2. destruct q; try discriminate. cbn in E2. congruence. }
          all: left; split; [|eauto]; unfold t' in P; cbn [t_pcs] in P; rewrite nth_error_upd_ne in P; [exact P|congruence].
  Qed.

  Lemma hinv_other t H y j p c pc b m' es pc' : hinv t H y -> nth_error calls j = Some (p, c) -> (forall a, c <> TLocked a) -> nth_error (t_pcs t) j = Some pc ->
    nth_error (t_bufs t) p = Some b -> ready p calls (t_pcs t) j = true -> call_step ptr addrs c b (t_mem t) pc = Some (m', es, pc') ->
    exists H', hinv {| t_mem := m'; t_pcs := upd (t_pcs t) j pc'; t_bufs := upd (t_bufs t) p (b ++ es) |} (H ++ H') y.
  Proof.
    intros V Hc Hn Hp Hb Hr E. assert (I := h_inv _ _ _ V).
    destruct (sim_other ptr addrs calls _ _ _ _ _ _ _ _ _ I Hc Hn Hp Hb Hr E) as (I' & S & -> & Eo & Ep & K). cbv zeta in I', S. clear E.
    set (t' := {| t_mem := m' |}) in *.
    assert (Fresh : ~ In j (map fst H)).
    { intro Hi. apply in_map_iff in Hi. destruct Hi as ((i & r) & Ei & Hi). cbn in Ei. subst i. apply (h_done _ _ _ V) in Hi. destruct Hi as [Hi _]. congruence. }
    assert (Common : forall H' r, pc' = ADone r -> length (m_atoms m') = length atoms -> tsequential calls (objs, atoms) (H ++ H') (y, m_atoms m') ->
      (H' = [] /\ atomic_call c = false \/ H' = [(j, r)] /\ atomic_call c = true) -> hinv t' (H ++ H') y).
    { intros H' r Er La T Hh. constructor; try exact I'; try exact (h_y _ _ _ V); try exact T; try exact La.
      - cbn. rewrite Eo. exact (h_objs _ _ _ V).
      - cbn. rewrite Ep. exact (h_plain _ _ _ V).
      - unfold t'. cbn [t_bufs]. rewrite upd_length. exact (h_bufs _ _ _ V).
      - rewrite S. exact (h_sc _ _ _ V).
      - rewrite map_app. destruct Hh as [[-> _] | [-> _]]; cbn [map]; [rewrite app_nil_r; exact (h_nodup _ _ _ V)|].
        apply NoDup_snoc; [exact (h_nodup _ _ _ V)|exact Fresh].
      - intros i r'. rewrite in_app_iff, (h_done _ _ _ V). unfold t'. cbn [t_pcs]. destruct (Nat.eq_dec i j) as [-> | N].
        + rewrite (upd_nth_error_eq _ _ _ _ Hp), Er. split.
          * intros [[A _] | Hi]; [congruence|]. destruct Hh as [[-> _] | [-> Ha]]; [destruct Hi|]. destruct Hi as [Hi | []]. injection Hi as ->. split; [reflexivity|eauto].
          * intros [A (p' & c' & C & Ha)]. right. rewrite Hc in C. injection C as <- <-. injection A as ->.
            destruct Hh as [[_ Hf] | [-> _]]; [congruence|now left].
        + rewrite nth_error_upd_ne by congruence. split; [|auto]. intros [A | Hi]; [exact A|]. destruct Hh as [[-> _] | [-> _]]; [destruct Hi|].
          destruct Hi as [Hi | []]. congruence. }
    destruct c as [a|a|a f|x|x w]; [contradiction| | | |].
    - destruct K as (v & Hv & Em & _ & Er). exists [(j, [v])]. apply (Common _ [v]); [exact Er|rewrite Em; exact (h_atoms _ _ _ V)| |right; auto].
      rewrite Em. eapply tsequential_load; [exact (h_seq _ _ _ V)|exact Hc|exact Hv].
    - destruct K as (v & Hv & Em & _ & Er). exists [(j, [v])]. apply (Common _ [v]); [exact Er|rewrite Em, upd_length; exact (h_atoms _ _ _ V)| |right; auto].
      rewrite Em. eapply tsequential_rmw; [exact (h_seq _ _ _ V)|exact Hc|exact Hv].
    - destruct K as (v & Hv & Em & _ & Er). exists []. eapply Common; [exact Er|rewrite Em; exact (h_atoms _ _ _ V)| |left; auto].
      rewrite Em, app_nil_r. exact (h_seq _ _ _ V).
    - destruct K as (Em & _ & Er). exists []. eapply Common; [exact Er|rewrite Em; exact (h_atoms _ _ _ V)| |left; auto].
      rewrite Em, app_nil_r. exact (h_seq _ _ _ V).
  Qed.

  Lemma hinv_step t H y ch t' : hinv t H y -> tstep ptr addrs calls ch t = Some t' -> exists H' y', hinv t' (H ++ H') y'.
  Proof.
    intros V E. destruct ch as [j|p]; cbn [tstep] in E.
    - destruct (nth_error calls j) as [[p c]|] eqn:Hc; [|discriminate].
      destruct (nth_error (t_pcs t) j) as [pc|] eqn:Hp; [|discriminate].
      destruct (nth_error (t_bufs t) p) as [b|] eqn:Hb; [|discriminate].
      destruct (ready p calls (t_pcs t) j) eqn:Hr; [|discriminate]. cbn [negb] in E.
      destruct (call_step ptr addrs c b (t_mem t) pc) as [[[m' es] pc']|] eqn:Es; [|discriminate]. injection E as <-.
      destruct c as [[o op]|a|a f|x|x w].
      + cbn [call_step] in Es.
        destruct (nth_error (m_locks (t_mem t)) _) as [lock|] eqn:Hl; [|discriminate].
        destruct (nth_error (m_objs (t_mem t)) o) as [data|] eqn:Ho; [|discriminate].
        destruct (locked_step _ _ _ _ _ _ _) as [[[lock' es'] q]|] eqn:El; [|discriminate]. injection Es as <- <- <-.
        eapply hinv_locked; eauto.
      + destruct (hinv_other _ _ _ _ _ _ _ _ _ _ _ V Hc ltac:(discriminate) Hp Hb Hr Es) as [H' V']. eauto.
      + destruct (hinv_other _ _ _ _ _ _ _ _ _ _ _ V Hc ltac:(discriminate) Hp Hb Hr Es) as [H' V']. eauto.
      + destruct (hinv_other _ _ _ _ _ _ _ _ _ _ _ V Hc ltac:(discriminate) Hp Hb Hr Es) as [H' V']. eauto.
      + destruct (hinv_other _ _ _ _ _ _ _ _ _ _ _ V Hc ltac:(discriminate) Hp Hb Hr Es) as [H' V']. eauto.
    - destruct (nth_error (t_bufs t) p) as [[|e b]|] eqn:Hb; try discriminate. injection E as <-.
      exists [], y. rewrite app_nil_r. now apply hinv_flush.
  Qed.

  Lemma hinv_run : forall sched t H y t', hinv t H y -> trun ptr addrs calls sched t = Some t' -> exists H' y', hinv t' (H ++ H') y'.
  Proof.
    induction sched as [|ch sched IH]; intros t H y t' V R.
    - injection R as <-. exists [], y. now rewrite app_nil_r.
    - cbn [trun] in R. destruct (tstep ptr addrs calls ch t) as [t1|] eqn:E; [|discriminate].
      destruct (hinv_step _ _ _ _ _ V E) as (H1 & y1 & V1). destruct (IH _ _ _ _ V1 R) as (H2 & y2 & V2).
      exists (H1 ++ H2), y2. now rewrite app_assoc.
  Qed.

  (** With no call inside, the objects are what the last call left, apart from stores still under way. *)
  Lemma quiet t H y : hinv t H y -> (forall i pc, nth_error (t_pcs t) i = Some pc -> inside pc = false) -> m_objs (flat t) = y.
  Proof.
    intros V Q. destruct (h_sc _ _ _ V) as (h & A).
    assert (E : m_objs (flat t) ++ [[]] = y ++ [[]]).
    { apply list_ext. intro o. apply (v_idle _ _ _ _ _ _ _ A). intros i c (pc & _ & P & Hi). cbn [a_pcs Tso.sc] in P. apply scp_inv in P.
      destruct P as (p' & c' & q & _ & P & ->). specialize (Q _ _ P). destruct c', q; discriminate. }
    apply app_inj_tail in E. tauto.
  Qed.

  (** ** Progress *)
  Lemma trun_app a b t : trun ptr addrs calls (a ++ b) t = match trun ptr addrs calls a t with Some t' => trun ptr addrs calls b t' | None => None end.
  Proof. revert t. induction a as [|i a IH]; intro t; [reflexivity|]. cbn [app trun]. destruct (tstep ptr addrs calls i t); [apply IH|reflexivity]. Qed.

  Lemma flush_all : forall m t H y, hinv t H y -> length (concat (t_bufs t)) <= m ->
    exists sched t', trun ptr addrs calls sched t = Some t' /\ hinv t' H y /\ t_pcs t' = t_pcs t /\ (forall p b, nth_error (t_bufs t') p = Some b -> b = []).
  Proof.
    induction m as [|m IH]; intros t H y V L.
    - exists [], t. split; [reflexivity|]. split; [exact V|]. split; [reflexivity|]. intros p b Hb. apply nth_error_split in Hb. destruct Hb as (B1 & B2 & E & _). rewrite E, concat_app in L. cbn [concat] in L.
      rewrite !app_length in L. destruct b; [reflexivity|cbn in L; lia].
    - destruct (Exists_dec (fun p => exists e b, nth_error (t_bufs t) p = Some (e :: b)) (seq 0 (length (t_bufs t)))) as [Ex | NE].
      { intro p. destruct (nth_error (t_bufs t) p) as [[|e b]|]; [right|left|right]; eauto; intros (?&?&?); discriminate. }
      + apply Exists_exists in Ex. destruct Ex as (p & _ & e & b & Hb).
        assert (V1 := hinv_flush _ _ _ _ _ _ V Hb).
        destruct (IH _ _ _ V1) as (sched & t' & R & V' & P & B).
        { cbn [t_bufs]. apply nth_error_split in Hb. destruct Hb as (B1 & B2 & E & <-). rewrite E in L |- *. rewrite upd_app_mid. rewrite concat_app in *. cbn [concat] in *.
          rewrite !app_length in *. cbn in L. lia. }
        exists (TFlush p :: sched), t'. cbn [trun tstep]. rewrite Hb. auto.
      + exists [], t. split; [reflexivity|]. split; [exact V|]. split; [reflexivity|]. intros p [|e b] Hb; [reflexivity|]. destruct NE. apply Exists_exists. exists p. split; [|eauto].
        apply in_seq. apply nth_error_lt in Hb. lia.
  Qed.

  Lemma has_buf t H y j p c : hinv t H y -> nth_error calls j = Some (p, c) -> exists b, nth_error (t_bufs t) p = Some b.
  Proof.
    intros V Hc. apply fit in Hc. destruct Hc as [Hp _]. cbn in Hp. rewrite <- (h_bufs _ _ _ V) in Hp. destruct (nth_error (t_bufs t) p) as [b|] eqn:E; [eauto|].
    apply nth_error_None in E. lia.
  Qed.
  Lemma has_lock t H y o : hinv t H y -> exists lock, nth_error (m_locks (t_mem t)) (lock_index ptr (nth o addrs 0%Z)) = Some lock.
  Proof.
    intro V. pose proof (lock_index_bound ptr (nth o addrs 0%Z)) as B. rewrite <- (i_locks _ _ _ _ (h_inv _ _ _ V)) in B.
    destruct (nth_error (m_locks (t_mem t)) _) as [b|] eqn:E; [eauto|]. apply nth_error_None in E. lia.
  Qed.
  Lemma has_obj t H y j p o op : hinv t H y -> nth_error calls j = Some (p, TLocked (o, op)) -> exists d, nth_error (m_objs (t_mem t)) o = Some d.
  Proof.
    intros V Hc. apply fit in Hc. destruct Hc as [_ (d & Hd & _)]. apply nth_error_lt in Hd. assert (L := h_objs _ _ _ V). unfold n in L. rewrite <- L in Hd.
    destruct (nth_error (m_objs (t_mem t)) o) as [b|] eqn:E; [eauto|]. apply nth_error_None in E. lia.
  Qed.
  Lemma inside_ready t j p c pc : tinv t -> nth_error calls j = Some (p, c) -> nth_error (t_pcs t) j = Some pc -> pc <> AWait -> ready p calls (t_pcs t) j = true.
  Proof.
    intros I Hc Hp N. apply ready_spec; [exact (i_pcs _ _ _ _ I)|]. intros j' c' pc' L C' P'. exact (i_order _ _ _ _ I _ _ _ _ _ _ _ L Hc C' Hp P' N).
  Qed.

  (** A call inside makes its steps. *)
  Lemma replay j p a : nth_error calls j = Some (p, TLocked a) -> forall sched t H y s', hinv t H y -> Forall (eq j) sched ->
    arun ptr addrs sc_calls sched (sc t) = Some s' -> (exists pc, nth_error (t_pcs t) j = Some pc /\ (inside pc = true \/ is_done pc = true)) ->
    exists sched' t' H' y', trun ptr addrs calls sched' t = Some t' /\ hinv t' (H ++ H') y' /\ sc t' = s' /\ forall i, i <> j -> nth_error (t_pcs t') i = nth_error (t_pcs t) i.
  Proof.
    intros Hc. destruct a as [o op]. induction sched as [|j0 sched IH]; intros t H y s' V F R (pc & Hp & Hi).
    - injection R as <-. exists [], t, [], y. rewrite app_nil_r. auto.
    - assert (Fj := Forall_inv F). assert (Fs := Forall_inv_tail F). subst j0. cbn [arun] in R. destruct (astep ptr addrs sc_calls j (sc t)) as [s1|] eqn:E; [|discriminate].
      destruct (has_buf _ _ _ _ _ _ V Hc) as (b & Hb). destruct (has_lock _ _ _ o V) as (lock & Hl). destruct (has_obj _ _ _ _ _ _ _ V Hc) as (d & Hd).
      destruct Hi as [Hi | Hi].
      2: { destruct pc as [| | | | |r]; try discriminate. unfold astep in E. unfold Tso.sc_calls in E. rewrite nth_error_map, Hc in E. cbn [option_map sc_call snd] in E.
           cbn [Tso.sc a_pcs a_locks a_objs] in E. rewrite (scp_nth _ _ _ _ _ _ Hc Hp) in E. cbn [sc_pc] in E.
           destruct (nth_error (m_locks (flat t)) _); [|discriminate]. destruct (nth_error (m_objs (flat t) ++ [[]]) o); discriminate. }
      assert (Hr : ready p calls (t_pcs t) j = true) by (apply (inside_ready _ _ _ _ _ (h_inv _ _ _ V) Hc Hp); destruct pc; discriminate).
      assert (S : exists lock' es pc', locked_step op o (lock_index ptr (nth o addrs 0%Z)) b lock d pc = Some (lock', es, pc') /\ (inside pc' = true \/ is_done pc' = true)).
      { destruct pc as [| |got|new k r|r|r]; try discriminate; cbn [locked_step].
        - destruct (nth_error d (length got)); do 3 eexists; (split; [reflexivity|]); left; [reflexivity|destruct op; reflexivity].
        - destruct (nth_error new k); do 3 eexists; (split; [reflexivity|]); left; reflexivity.
        - do 3 eexists. split; [reflexivity|]. now right. }
      destruct S as (lock' & es & pc' & El & Hi').
      destruct (sim_locked ptr addrs calls n _ _ _ _ _ _ _ _ _ _ _ _ (h_inv _ _ _ V) Hc Hp Hb Hr Hl Hd El) as (_ & _ & S). specialize (S Hi). cbv zeta in S.
      destruct (hinv_locked _ _ _ _ _ _ _ _ _ _ _ _ _ _ V Hc Hp Hb Hr Hl Hd El) as (H1 & y1 & V1).
      assert (T : tstep ptr addrs calls (TRun j) t = Some {| t_mem := {| m_locks := upd (m_locks (t_mem t)) (lock_index ptr (nth o addrs 0%Z)) lock'; m_objs := m_objs (t_mem t); m_atoms := m_atoms (t_mem t); m_plain := m_plain (t_mem t) |};
                 t_pcs := upd (t_pcs t) j pc'; t_bufs := upd (t_bufs t) p (b ++ es) |}).
      { cbn [tstep]. rewrite Hc, Hp, Hb, Hr. cbn [negb call_step]. rewrite Hl, Hd, El. reflexivity. }
      set (t1 := {| t_mem := _ |}) in *. assert (s1 = sc t1) by congruence. subst s1.
      destruct (IH t1 _ _ _ V1 Fs R) as (sched' & t' & H2 & y2 & R' & V2 & E2 & O).
      { exists pc'. split; [|exact Hi']. unfold t1. cbn [t_pcs]. eapply upd_nth_error_eq. exact Hp. }
      exists (TRun j :: sched'), t', (H1 ++ H2), y2. rewrite app_assoc. cbn [trun]. rewrite T. split; [exact R'|]. split; [exact V2|]. split; [exact E2|].
      intros i N. rewrite (O i N). unfold t1. cbn [t_pcs]. rewrite nth_error_upd_ne by congruence. reflexivity.
  Qed.

  Lemma finish_call t H y j p a pc : hinv t H y -> nth_error calls j = Some (p, TLocked a) -> nth_error (t_pcs t) j = Some pc -> inside pc = true ->
    exists sched t' H' y' r, trun ptr addrs calls sched t = Some t' /\ hinv t' (H ++ H') y' /\ nth_error (t_pcs t') j = Some (ADone r) /\
      (forall i, i <> j -> nth_error (t_pcs t') i = nth_error (t_pcs t) i).
  Proof.
    intros V Hc Hp Hi. destruct a as [o op]. destruct (h_sc _ _ _ V) as (h & A).
    assert (Hc' : nth_error sc_calls j = Some (o, op)) by (unfold Tso.sc_calls; rewrite nth_error_map, Hc; reflexivity).
    assert (Hp' : nth_error (a_pcs (sc t)) j = Some pc).
    { cbn [Tso.sc a_pcs]. rewrite (scp_nth _ _ _ _ _ _ Hc Hp). destruct pc; try discriminate; reflexivity. }
    destruct (v_busy _ _ _ _ _ _ _ A _ _ _ _ Hc' Hp' Hi) as (cur & old & _ & Hy & _).
    destruct (finish ptr addrs sc_calls (objs ++ [[]]) sc_keeps _ _ _ _ _ _ _ _ _ A Hc' Hp' Hi Hy (le_n _)) as (sched & s' & h' & y1 & r & R & _ & P & F).
    destruct (replay _ _ _ Hc _ _ _ _ _ V F R) as (sched' & t' & H' & y' & R' & V' & E & O); [eauto|].
    exists sched', t', H', y', r. split; [exact R'|]. split; [exact V'|]. split; [|exact O].
    rewrite <- E in P. cbn [Tso.sc a_pcs] in P. apply scp_inv in P. destruct P as (p' & c' & q & C & P & Eq). rewrite Hc in C. injection C as <- <-.
    rewrite P. destruct q; try discriminate. cbn in Eq. congruence.
  Qed.

  Lemma flat_empty t : (forall p b, nth_error (t_bufs t) p = Some b -> b = []) -> flat t = t_mem t.
  Proof.
    intro Hb. unfold flat. assert (concat (t_bufs t) = []) as ->; [|reflexivity].
    revert Hb. generalize (t_bufs t) as B. clear. induction B as [|b B IH]; intro Hb; [reflexivity|]. cbn. rewrite (Hb 0 b eq_refl). apply IH. intros p b'. exact (Hb (S p) b').
  Qed.

  Definition done_below (t : tstate) (k : nat) : Prop := forall i, i < k -> exists r, nth_error (t_pcs t) i = Some (ADone r).

  (** The k-th call returns. *)
  Lemma call_returns t H y k : hinv t H y -> done_below t k -> k < length calls ->
    exists sched t' H' y', trun ptr addrs calls sched t = Some t' /\ hinv t' (H ++ H') y' /\ done_below t' (S k).
  Proof.
    intros V0 D0 Hk.
    destruct (nth_error calls k) as [[p c]|] eqn:Hc; [|apply nth_error_None in Hc; lia].
    (* finishing when inside *)
    assert (Fin : forall t H y a pc, hinv t H y -> done_below t k -> c = TLocked a -> nth_error (t_pcs t) k = Some pc -> inside pc = true ->
      exists sched t' H' y', trun ptr addrs calls sched t = Some t' /\ hinv t' (H ++ H') y' /\ done_below t' (S k)).
    { intros t1 H1 y1 a pc V D -> Hp Hi. destruct (finish_call _ _ _ _ _ _ _ V Hc Hp Hi) as (sched & t' & H' & y' & r & R & V' & P & O).
      exists sched, t', H', y'. split; [exact R|]. split; [exact V'|]. intros i Hi'. destruct (Nat.eq_dec i k) as [-> | N]; [eauto|].
      rewrite (O i N). apply D. lia. }
    (* with its lock free and its buffer empty *)
    assert (Start : forall t H y pc, hinv t H y -> done_below t k -> (forall p b, nth_error (t_bufs t) p = Some b -> b = []) -> nth_error (t_pcs t) k = Some pc -> inside pc = false -> is_done pc = false ->
      (forall o op, c = TLocked (o, op) -> nth_error (m_locks (t_mem t)) (lock_index ptr (nth o addrs 0%Z)) = Some false) ->
      exists sched t' H' y', trun ptr addrs calls sched t = Some t' /\ hinv t' (H ++ H') y' /\ done_below t' (S k)).
    { clear t H y V0 D0. intros t H y pc V D B Hp Hi Hd Hl.
      assert (Ready : forall t, done_below t k -> hinv t H y -> ready p calls (t_pcs t) k = true).
      { intros t1 D1 V1. apply ready_spec; [exact (i_pcs _ _ _ _ (h_inv _ _ _ V1))|]. intros j' c' pc' L C' P'. destruct (D1 j' L) as [r E]. rewrite E in P'. injection P' as <-. reflexivity. }
      destruct (has_buf _ _ _ _ _ _ V Hc) as (b & Hb). assert (b = []) by (exact (B _ _ Hb)). subst b.
      assert (Enter : forall t o op, hinv t H y -> done_below t k -> nth_error (t_bufs t) p = Some [] -> nth_error (t_pcs t) k = Some AWait -> c = TLocked (o, op) ->
        nth_error (m_locks (t_mem t)) (lock_index ptr (nth o addrs 0%Z)) = Some false ->
        exists sched t' H' y', trun ptr addrs calls sched t = Some t' /\ hinv t' (H ++ H') y' /\ done_below t' (S k)).
      { clear t V D B Hp Hl Hb. intros t o op V D Hb Hp Ec Hl.
        rewrite Ec in Hc. destruct (has_obj _ _ _ _ _ _ _ V Hc) as (d & Hd').
        destruct (hinv_locked _ _ _ _ _ _ _ _ _ _ _ _ _ _ V Hc Hp Hb (Ready t D V) Hl Hd' eq_refl) as (H1 & y1 & V1).
        set (t1 := {| t_mem := _ |}) in *.
        assert (T : tstep ptr addrs calls (TRun k) t = Some t1).
        { cbn [tstep]. rewrite Hc, Hp, Hb, (Ready t D V). cbn [negb call_step]. rewrite Hl, Hd'. reflexivity. }
        destruct (Fin t1 _ _ (o, op) (enter op) V1) as (sched & t' & H2 & y2 & R & V2 & D2).
        - intros i Hi'. destruct (D i Hi') as [r E]. exists r. unfold t1. cbn [t_pcs]. rewrite nth_error_upd_ne by lia. exact E.
        - exact Ec.
        - unfold t1. cbn [t_pcs]. eapply upd_nth_error_eq. exact Hp.
        - destruct op; reflexivity.
        - exists (TRun k :: sched), t', (H1 ++ H2), y2. rewrite app_assoc. cbn [trun]. rewrite T. auto. }
      destruct c as [[o op]|a|a f|x|x w].
      - destruct pc; try discriminate.
        + eapply Enter; eauto.
        + specialize (Hl _ _ eq_refl). destruct (has_obj _ _ _ _ _ _ _ V Hc) as (d & Hd').
          destruct (sim_locked ptr addrs calls n _ _ _ _ _ _ _ _ _ _ _ _ (h_inv _ _ _ V) Hc Hp Hb (Ready t D V) Hl Hd' eq_refl) as (I1 & S & _). cbv zeta in I1, S.
          rewrite app_nil_r, (upd_same _ _ _ Hl), (upd_same _ _ _ Hb), mem_eta in I1, S.
          set (t1 := {| t_mem := _ |}) in *.
          assert (T : tstep ptr addrs calls (TRun k) t = Some t1).
          { cbn [tstep]. rewrite Hc, Hp, Hb, (Ready t D V). cbn [negb call_step]. rewrite Hl, Hd'. cbn [locked_step newest].
            rewrite app_nil_r, (upd_same _ _ _ Hl), (upd_same _ _ _ Hb), mem_eta. reflexivity. }
          assert (V1 : hinv t1 H y).
          { constructor; try exact I1; try exact (h_objs _ _ _ V); try exact (h_atoms _ _ _ V); try exact (h_plain _ _ _ V); try exact (h_bufs _ _ _ V); try exact (h_y _ _ _ V);
              try exact (h_seq _ _ _ V); try exact (h_nodup _ _ _ V).
            - replace (sc t1) with (sc t); [exact (h_sc _ _ _ V)|]. symmetry. apply (sc_pcs calls _ _ _ _ APause AWait Hc Hp eq_refl).
            - intros i r. rewrite (h_done _ _ _ V). unfold t1. cbn [t_pcs]. destruct (Nat.eq_dec i k) as [-> | N].
              + rewrite (upd_nth_error_eq _ _ _ _ Hp), Hp. split; intros [A _]; discriminate.
              + now rewrite nth_error_upd_ne by congruence. }
          destruct (Enter t1 o op V1) as (sched & t' & H2 & y2 & R & V2 & D2).
          * intros i Hi'. destruct (D i Hi') as [r E]. exists r. unfold t1. cbn [t_pcs]. rewrite nth_error_upd_ne by lia. exact E.
          * exact Hb.
          * unfold t1. cbn [t_pcs]. eapply upd_nth_error_eq. exact Hp.
          * reflexivity.
          * exact Hl.
          * exists (TRun k :: sched), t', H2, y2. cbn [trun]. rewrite T. auto.
      - assert (Ew : pc = AWait) by (destruct (i_flat _ _ _ _ (h_inv _ _ _ V) _ _ _ _ Hc Hp ltac:(discriminate)) as [-> | [r ->]]; [reflexivity|discriminate]). subst pc.
        assert (F := fit _ _ _ Hc). destruct F as [_ F]. cbn [snd] in F. rewrite <- (h_atoms _ _ _ V) in F. apply nth_error_Some in F.
        destruct (nth_error (m_atoms (t_mem t)) a) as [v|] eqn:Ev; [|congruence].
        assert (Es : call_step ptr addrs (TLoad a) [] (t_mem t) AWait = Some (t_mem t, [], ADone [v])) by (cbn; now rewrite Ev).
        destruct (hinv_other _ _ _ _ _ _ _ _ _ _ _ V Hc ltac:(discriminate) Hp Hb (Ready t D V) Es) as (H1 & V1).
        eexists [TRun k], _, H1, y. split; [cbn [trun tstep]; rewrite Hc, Hp, Hb, (Ready t D V); cbn [negb]; rewrite Es; reflexivity|]. split; [exact V1|].
        intros i Hi'. cbn [t_pcs]. destruct (Nat.eq_dec i k) as [-> | N]; [rewrite (upd_nth_error_eq _ _ _ _ Hp); eauto|]. rewrite nth_error_upd_ne by congruence. apply D. lia.
      - assert (Ew : pc = AWait) by (destruct (i_flat _ _ _ _ (h_inv _ _ _ V) _ _ _ _ Hc Hp ltac:(discriminate)) as [-> | [r ->]]; [reflexivity|discriminate]). subst pc.
        assert (F := fit _ _ _ Hc). destruct F as [_ F]. cbn [snd] in F. rewrite <- (h_atoms _ _ _ V) in F. apply nth_error_Some in F.
        destruct (nth_error (m_atoms (t_mem t)) a) as [v|] eqn:Ev; [|congruence].
        assert (Es : exists m', call_step ptr addrs (TRmw a f) [] (t_mem t) AWait = Some (m', [], ADone [v])) by (cbn; rewrite Ev; eauto). destruct Es as [m' Es].
        destruct (hinv_other _ _ _ _ _ _ _ _ _ _ _ V Hc ltac:(discriminate) Hp Hb (Ready t D V) Es) as (H1 & V1).
        eexists [TRun k], _, H1, y. split; [cbn [trun tstep]; rewrite Hc, Hp, Hb, (Ready t D V); cbn [negb]; rewrite Es; reflexivity|]. split; [exact V1|].
        intros i Hi'. cbn [t_pcs]. destruct (Nat.eq_dec i k) as [-> | N]; [rewrite (upd_nth_error_eq _ _ _ _ Hp); eauto|]. rewrite nth_error_upd_ne by congruence. apply D. lia.
      - assert (Ew : pc = AWait) by (destruct (i_flat _ _ _ _ (h_inv _ _ _ V) _ _ _ _ Hc Hp ltac:(discriminate)) as [-> | [r ->]]; [reflexivity|discriminate]). subst pc.
        assert (F := fit _ _ _ Hc). destruct F as [_ F]. cbn [snd] in F. rewrite <- (h_plain _ _ _ V) in F. apply nth_error_Some in F.
        destruct (nth_error (m_plain (t_mem t)) x) as [v|] eqn:Ev; [|congruence].
        assert (Es : call_step ptr addrs (TGet x) [] (t_mem t) AWait = Some (t_mem t, [], ADone [v])) by (cbn; now rewrite Ev).
        destruct (hinv_other _ _ _ _ _ _ _ _ _ _ _ V Hc ltac:(discriminate) Hp Hb (Ready t D V) Es) as (H1 & V1).
        eexists [TRun k], _, H1, y. split; [cbn [trun tstep]; rewrite Hc, Hp, Hb, (Ready t D V); cbn [negb]; rewrite Es; reflexivity|]. split; [exact V1|].
        intros i Hi'. cbn [t_pcs]. destruct (Nat.eq_dec i k) as [-> | N]; [rewrite (upd_nth_error_eq _ _ _ _ Hp); eauto|]. rewrite nth_error_upd_ne by congruence. apply D. lia.
      - assert (Ew : pc = AWait) by (destruct (i_flat _ _ _ _ (h_inv _ _ _ V) _ _ _ _ Hc Hp ltac:(discriminate)) as [-> | [r ->]]; [reflexivity|discriminate]). subst pc.
        assert (F := fit _ _ _ Hc). destruct F as [_ F]. cbn [snd] in F. rewrite <- (h_plain _ _ _ V) in F. apply nth_error_Some in F.
        destruct (nth_error (m_plain (t_mem t)) x) as [v|] eqn:Ev; [|congruence].
        assert (Es : call_step ptr addrs (TPut x w) [] (t_mem t) AWait = Some (t_mem t, [EPlain x w], ADone [])) by (cbn; now rewrite Ev).
        destruct (hinv_other _ _ _ _ _ _ _ _ _ _ _ V Hc ltac:(discriminate) Hp Hb (Ready t D V) Es) as (H1 & V1).
        eexists [TRun k], _, H1, y. split; [cbn [trun tstep]; rewrite Hc, Hp, Hb, (Ready t D V); cbn [negb]; rewrite Es; reflexivity|]. split; [exact V1|].
        intros i Hi'. cbn [t_pcs]. destruct (Nat.eq_dec i k) as [-> | N]; [rewrite (upd_nth_error_eq _ _ _ _ Hp); eauto|]. rewrite nth_error_upd_ne by congruence. apply D. lia. }
    destruct (flush_all _ _ _ _ V0 (le_n _)) as (sched1 & t1 & R1 & V1 & P1 & B1).
    assert (D1 : done_below t1 k) by (intros i Hi; rewrite P1; now apply D0).
    destruct (nth_error (t_pcs t1) k) as [pc|] eqn:Hp; [|apply nth_error_None in Hp; rewrite (i_pcs _ _ _ _ (h_inv _ _ _ V1)) in Hp; lia].
    destruct (is_done pc) eqn:Hd.
    { exists sched1, t1, [], y. rewrite app_nil_r. split; [exact R1|]. split; [exact V1|]. intros i Hi. destruct (Nat.eq_dec i k) as [-> | N]; [|apply D1; lia].
      rewrite Hp. destruct pc; try discriminate. eauto. }
    assert (Then : forall t' , (exists sched t'' H' y', trun ptr addrs calls sched t' = Some t'' /\ hinv t'' (H ++ H') y' /\ done_below t'' (S k)) ->
      (exists sched, trun ptr addrs calls sched t = Some t') -> exists sched t' H' y', trun ptr addrs calls sched t = Some t' /\ hinv t' (H ++ H') y' /\ done_below t' (S k)).
    { intros t' (sched & t'' & H' & y' & R & X) (sched' & R'). exists (sched' ++ sched), t'', H', y'. rewrite trun_app, R'. auto. }
    destruct (inside pc) eqn:Hi.
    { apply (Then t1); [|eauto]. destruct c as [a|a|a f|x|x w]; [eapply Fin; eauto| | | |];
        destruct (i_flat _ _ _ _ (h_inv _ _ _ V1) _ _ _ _ Hc Hp ltac:(discriminate)) as [-> | [r ->]]; discriminate. }
    assert (Free : (forall o op, c = TLocked (o, op) -> nth_error (m_locks (t_mem t1)) (lock_index ptr (nth o addrs 0%Z)) = Some false) ->
      exists sched t' H' y', trun ptr addrs calls sched t = Some t' /\ hinv t' (H ++ H') y' /\ done_below t' (S k)).
    { intro Hl. apply (Then t1); [|eauto]. eapply Start; eauto. }
    destruct c as [[o op]|a|a f|x|x w]; try (apply Free; discriminate).
    destruct (has_lock _ _ _ o V1) as ([|] & Hl); [|apply Free; intros o' op' E; injection E as <- <-; exact Hl].
    (* another call holds the lock *)
    destruct (h_sc _ _ _ V1) as (h & A).
    assert (Hh : nth_error (a_locks (sc t1)) (lock_index ptr (nth o addrs 0%Z)) = Some true) by (cbn [Tso.sc a_locks]; rewrite (flat_empty _ B1); exact Hl).
    apply (v_held _ _ _ _ _ _ _ A) in Hh. destruct Hh as (i & [oi opi] & (pci & Ci & Pi & Ii) & Li).
    cbn [Tso.sc a_pcs] in Pi. apply scp_inv in Pi. destruct Pi as (pi & ci & qi & Ci' & Pi & Ei).
    destruct ci as [ai|a|a f|x|x w]; try (subst pci; discriminate).
    unfold Tso.sc_calls in Ci. rewrite nth_error_map, Ci' in Ci. cbn in Ci. injection Ci as ->. unfold lock_of in Li. cbn [fst] in Li.
    assert (Iq : inside qi = true) by (subst pci; destruct qi; try discriminate; reflexivity).
    destruct (finish_call _ _ _ _ _ _ _ V1 Ci' Pi Iq) as (sched2 & t2 & H2 & y2 & r & R2 & V2 & P2 & O2).
    destruct (flush_all _ _ _ _ V2 (le_n _)) as (sched3 & t3 & R3 & V3 & P3 & B3).
    assert (N : i <> k) by (intros ->; rewrite Hp in Pi; injection Pi as ->; congruence).
    destruct (Start t3 _ _ pc V3) as (sched4 & t4 & H4 & y4 & R4 & V4 & D4).
    - intros i' Hi'. rewrite P3. destruct (Nat.eq_dec i' i) as [-> | N']; [eauto|]. rewrite (O2 _ N'). now apply D1.
    - exact B3.
    - rewrite P3, O2 by congruence. exact Hp.
    - exact Hi.
    - exact Hd.
    - intros o' op' E. injection E as <- <-. destruct (has_lock _ _ _ o V3) as ([|] & Hl3); [|exact Hl3]. exfalso.
      destruct (h_sc _ _ _ V3) as (h3 & A3).
      assert (Hh : nth_error (a_locks (sc t3)) (lock_index ptr (nth o addrs 0%Z)) = Some true) by (cbn [Tso.sc a_locks]; rewrite (flat_empty _ B3); exact Hl3).
      apply (v_held _ _ _ _ _ _ _ A3) in Hh. destruct Hh as (i3 & [o3 op3] & (pc3 & C3 & Pp3 & I3) & L3).
      cbn [Tso.sc a_pcs] in Pp3. apply scp_inv in Pp3. destruct Pp3 as (p3 & c3 & q3 & C3' & Pp3 & E3).
      destruct c3 as [a3|a|a f|x|x w]; try (subst pc3; discriminate).
      unfold Tso.sc_calls in C3. rewrite nth_error_map, C3' in C3. cbn in C3. injection C3 as ->. unfold lock_of in L3. cbn [fst] in L3.
      assert (Iq3 : inside q3 = true) by (subst pc3; destruct q3; try discriminate; reflexivity).
      rewrite P3 in Pp3. assert (N3 : i3 <> i) by (intros ->; rewrite P2 in Pp3; injection Pp3 as <-; discriminate).
      rewrite (O2 _ N3) in Pp3. apply N3. eapply (i_excl _ _ _ _ (h_inv _ _ _ V1)); [exact C3'|exact Pp3|exact Iq3|exact Ci'|exact Pi|exact Iq|]. cbv beta. congruence.
    - exists (sched1 ++ sched2 ++ sched3 ++ sched4), t4, (H2 ++ H4), y4. rewrite !trun_app, R1, trun_app, R2, trun_app, R3, R4, app_assoc. auto.
  Qed.

  Lemma all_return t H y : hinv t H y -> exists sched t' H' y', trun ptr addrs calls sched t = Some t' /\ hinv t' (H ++ H') y' /\ done_below t' (length calls) /\
    (forall p b, nth_error (t_bufs t') p = Some b -> b = []).
  Proof.
    intro V. assert (G : forall k, k <= length calls -> exists sched t' H' y', trun ptr addrs calls sched t = Some t' /\ hinv t' (H ++ H') y' /\ done_below t' k).
    { induction k as [|k IH]; intro L.
      - exists [], t, [], y. rewrite app_nil_r. split; [reflexivity|]. split; [exact V|]. intros i Hi. lia.
      - destruct IH as (sched & t1 & H1 & y1 & R1 & V1 & D1); [lia|]. destruct (call_returns _ _ _ _ V1 D1 ltac:(lia)) as (sched2 & t2 & H2 & y2 & R2 & V2 & D2).
        exists (sched ++ sched2), t2, (H1 ++ H2), y2. rewrite trun_app, R1, app_assoc. auto. }
    destruct (G _ (le_n _)) as (sched & t1 & H1 & y1 & R1 & V1 & D1).
    destruct (flush_all _ _ _ _ V1 (le_n _)) as (sched2 & t2 & R2 & V2 & P2 & B2).
    exists (sched ++ sched2), t2, H1, y1. rewrite trun_app, R1. split; [exact R2|]. split; [exact V2|]. split; [|exact B2].
    intros i Hi. rewrite P2. now apply D1.
  Qed.
End Run.

(** ** The user's own variables *)
Section Plain.
  Context (ptr : Z) (addrs : list Z) (calls : list (nat * tcall)) (x : nat).
  Notation tinv := (tinv ptr addrs calls).

  (** At most one processor has writes of x under way, and the flushed memory holds the last one. *)
  Definition xinv (t : tstate) (v : Z) : Prop :=
    (forall p w p' w', pend (t_bufs t) p (EPlain x w) -> pend (t_bufs t) p' (EPlain x w') -> p = p') /\
    nth_error (m_plain (flat t)) x = Some v.

  Lemma fx_idle e : (forall w, e <> EPlain x w) -> idle (fx x) e.
  Proof.
    intros H v. unfold fx. destruct e as [o k w|l|y w]; try reflexivity. cbn. destruct (Nat.eqb_spec x y) as [<- | N]; [now destruct (H w)|reflexivity].
  Qed.

  (** Where x may be touched no other processor has a write of it under way. *)
  Lemma settled_idle t q : tinv t -> settled calls t x q -> forall p w, pend (t_bufs t) p (EPlain x w) -> p = q.
  Proof.
    intros I S p w P. destruct (Nat.eq_dec p q) as [|N]; [assumption|exfalso].
    destruct (i_put _ _ _ _ I _ _ _ P) as (i & r & C & D & A). destruct (S _ _ _ _ C N D) as (j & c & r' & L & C' & Pb & D').
    destruct (A _ _ _ L C' Pb D'); discriminate.
  Qed.

  Lemma xinv_push t v p b es m' pcs : xinv t v -> nth_error (t_bufs t) p = Some b -> m_plain m' = m_plain (t_mem t) -> (forall e w, In e es -> e <> EPlain x w) -> length es <= 1 ->
    xinv {| t_mem := m'; t_pcs := pcs; t_bufs := upd (t_bufs t) p (b ++ es) |} v.
  Proof.
    intros [U F] Hb Em Hn Hl. split; cbn [t_bufs].
    - assert (Old : forall p' w, pend (upd (t_bufs t) p (b ++ es)) p' (EPlain x w) -> pend (t_bufs t) p' (EPlain x w)).
      { intros p' w P. apply (pend_upd _ _ _ _ _ _ Hb) in P. destruct P as [[-> P] | [_ P]]; [|exact P]. apply in_app_iff in P. destruct P as [P | P]; [exists b; auto|].
        now destruct (Hn _ w P). }
      intros p1 w1 p2 w2 P1 P2. exact (U _ _ _ _ (Old _ _ P1) (Old _ _ P2)).
    - unfold flat in *. rewrite fold_plain in F |- *. cbn [t_mem t_bufs]. rewrite Em. destruct (nth_error (m_plain (t_mem t)) x); [|exact F]. cbn [option_map] in F |- *. rewrite <- F. f_equal.
      destruct es as [|e [|]]; [now rewrite app_nil_r, (upd_same _ _ _ Hb)| |cbn in Hl; lia]. apply (fold_push_idle _ _ _ _ _ _ Hb). apply fx_idle. intro w. apply Hn. now left.
  Qed.

  Lemma xinv_step t v ch t' : tinv t -> xinv t v -> tstep ptr addrs calls ch t = Some t' ->
    (forall k p w, ch = TRun k -> nth_error calls k = Some (p, TPut x w) -> settled calls t x p) ->
    tinv t' /\ xinv t' (last_put calls x v [ch]).
  Proof.
    intros I X E S. destruct ch as [k|p]; cbn [tstep] in E.
    - destruct (nth_error calls k) as [[p c]|] eqn:Hc; [|discriminate].
      destruct (nth_error (t_pcs t) k) as [pc|] eqn:Hp; [|discriminate].
      destruct (nth_error (t_bufs t) p) as [b|] eqn:Hb; [|discriminate].
      destruct (ready p calls (t_pcs t) k) eqn:Hr; [|discriminate]. cbn [negb] in E.
      destruct (call_step ptr addrs c b (t_mem t) pc) as [[[m' es] pc']|] eqn:Es; [|discriminate]. injection E as <-.
      unfold last_put. cbn [fold_left]. rewrite Hc.
      destruct c as [[o op]|a|a f|y|y w].
      + cbn [call_step] in Es.
        destruct (nth_error (m_locks (t_mem t)) _) as [lock|] eqn:Hl; [|discriminate].
        destruct (nth_error (m_objs (t_mem t)) o) as [data|] eqn:Ho; [|discriminate].
        destruct (locked_step _ _ _ _ _ _ _) as [[[lock' es'] q]|] eqn:El; [|discriminate]. injection Es as <- <- <-.
        destruct (sim_locked ptr addrs calls 0 _ _ _ _ _ _ _ _ _ _ _ _ I Hc Hp Hb Hr Hl Ho El) as (I' & _). split; [exact I'|].
        assert (K : length es' <= 1 /\ forall e w, In e es' -> e <> EPlain x w).
        { destruct pc as [| |got|new i r|r|r]; cbn [locked_step] in El.
          - destruct b; [|discriminate]. destruct lock; injection El as <- <- <-; cbn; split; try lia; intros e w [].
          - destruct (newest _ b lock); injection El as <- <- <-; cbn; split; try lia; intros e w [].
          - destruct (nth_error data (length got)); injection El as <- <- <-; cbn; split; try lia; intros e w [].
          - destruct (nth_error new i); injection El as <- <- <-; cbn; (split; [lia|]); intros e w HI; repeat destruct HI as [<- | HI]; try discriminate; destruct HI.
          - injection El as <- <- <-; cbn; split; try lia; intros e w [<- | []]; discriminate.
          - discriminate. }
        apply xinv_push; auto; tauto.
      + destruct (sim_other ptr addrs calls _ _ _ _ _ _ _ _ _ I Hc ltac:(discriminate) Hp Hb Hr Es) as (I' & _ & _ & _ & Em & u & _ & _ & -> & _). split; [exact I'|].
        apply xinv_push; auto; intros e w [].
      + destruct (sim_other ptr addrs calls _ _ _ _ _ _ _ _ _ I Hc ltac:(discriminate) Hp Hb Hr Es) as (I' & _ & _ & _ & Em & u & _ & _ & -> & _). split; [exact I'|].
        apply xinv_push; auto; intros e w [].
      + destruct (sim_other ptr addrs calls _ _ _ _ _ _ _ _ _ I Hc ltac:(discriminate) Hp Hb Hr Es) as (I' & _ & _ & _ & Em & u & _ & _ & -> & _). split; [exact I'|].
        apply xinv_push; auto; intros e w [].
      + destruct (sim_other ptr addrs calls _ _ _ _ _ _ _ _ _ I Hc ltac:(discriminate) Hp Hb Hr Es) as (I' & _ & _ & _ & Em & _ & -> & _). split; [exact I'|].
        destruct (Nat.eqb_spec x y) as [<- | N].
        * assert (Id := settled_idle _ _ I (S k p w eq_refl Hc)). destruct X as [U F]. split; cbn [t_bufs].
          -- assert (Only : forall p' w', pend (upd (t_bufs t) p (b ++ [EPlain x w])) p' (EPlain x w') -> p' = p).
             { intros p' w' P. apply (pend_upd _ _ _ _ _ _ Hb) in P. destruct P as [[-> _] | [_ P]]; [reflexivity|exact (Id _ _ P)]. }
             intros p1 w1 p2 w2 P1 P2. rewrite (Only _ _ P1), (Only _ _ P2). reflexivity.
          -- unfold flat in *. rewrite fold_plain in F |- *. cbn [t_mem t_bufs]. rewrite Em. destruct (nth_error (m_plain (t_mem t)) x) as [u|]; [|discriminate]. cbn [option_map]. f_equal.
             rewrite (fold_push (fx x) _ _ _ _ _ Hb); [unfold fx; cbn; now rewrite Nat.eqb_refl|]. intros p' e N P. apply fx_idle. intros w' ->. apply N. exact (Id _ _ P).
        * apply xinv_push; auto. intros e w' [<- | []]. congruence.
    - destruct (nth_error (t_bufs t) p) as [[|e b]|] eqn:Hb; try discriminate. injection E as <-. split; [exact (keep_flush _ _ _ _ _ _ _ I Hb)|].
      destruct X as [U F].
      assert (He : pend (t_bufs t) p e) by (exists (e :: b); split; [exact Hb|now left]).
      assert (Old : forall p' e', pend (upd (t_bufs t) p b) p' e' -> pend (t_bufs t) p' e').
      { intros p' e' P. apply (pend_upd _ _ _ _ _ _ Hb) in P. destruct P as [[-> P] | [_ P]]; [|exact P]. exists (e :: b). split; [exact Hb|now right]. }
      split; cbn [t_bufs].
      + intros p1 w1 p2 w2 P1 P2. exact (U _ _ _ _ (Old _ _ P1) (Old _ _ P2)).
      + unfold flat in *. rewrite fold_plain in F |- *. cbn [t_mem t_bufs]. rewrite commit_plain. destruct (nth_error (m_plain (t_mem t)) x) as [u|]; [|discriminate].
        cbn [option_map] in F |- *. unfold last_put. cbn [fold_left]. rewrite <- F. f_equal.
        assert (D : (exists w, e = EPlain x w) \/ forall w, e <> EPlain x w).
        { destruct e as [o k w|l|y w]; try (right; discriminate). destruct (Nat.eq_dec y x) as [-> | N]; [left; eauto|right; congruence]. }
        destruct D as [[w ->] | D].
        * apply (fold_pop _ _ _ _ _ _ Hb). intros p' e' N P. apply fx_idle. intros w' ->. apply N. exact (U _ _ _ _ P He).
        * rewrite fx_idle by exact D. apply (fold_pop_idle _ _ _ _ _ _ Hb). now apply fx_idle.
  Qed.

  Lemma last_put_app v a b : last_put calls x v (a ++ b) = last_put calls x (last_put calls x v a) b.
  Proof. apply fold_left_app. Qed.

  Lemma xinv_run : forall sched t v t', tinv t -> xinv t v -> trun ptr addrs calls sched t = Some t' ->
    (forall sched1 k sched2 t1 p w, sched = sched1 ++ TRun k :: sched2 -> trun ptr addrs calls sched1 t = Some t1 -> nth_error calls k = Some (p, TPut x w) -> settled calls t1 x p) ->
    tinv t' /\ xinv t' (last_put calls x v sched).
  Proof.
    induction sched as [|ch sched IH]; intros t v t' I X R S.
    - injection R as <-. auto.
    - cbn [trun] in R. destruct (tstep ptr addrs calls ch t) as [t1|] eqn:E; [|discriminate].
      destruct (xinv_step _ _ _ _ I X E) as [I1 X1].
      + intros k p w -> Hc. apply (S [] k sched t p w eq_refl eq_refl Hc).
      + change (ch :: sched) with ([ch] ++ sched). rewrite last_put_app. apply (IH _ _ _ I1 X1 R).
        intros s1 k s2 t2 p w -> R2 Hc. apply (S (ch :: s1) k s2 t2 p w eq_refl); [cbn [trun]; rewrite E; exact R2|exact Hc].
  Qed.
End Plain.
