(** C79: on processors that delay stores every call returns and every store reaches memory, on every schedule that is fair. *)
From Verif Require Import Base Atomic_Model Atomic_Spec Atomic_Proofs Tso_Model Tso_Spec Tso Tso_Run.
From Verif Require Atomic_Fair_Props.
Local Open Scope nat_scope.

(** The state after n turns of a schedule without end. A turn of a call that has returned, or that may not go on yet, changes nothing, and
    neither does one of an empty store buffer. *)
Fixpoint tstate_at (ptr : Z) (addrs : list Z) (calls : list (nat * tcall)) (turn : nat -> tchoice) (s : tstate) (n : nat) : tstate :=
  match n with
  | O => s
  | S n =>
      let s := tstate_at ptr addrs calls turn s n in
      match tstep ptr addrs calls (turn n) s with Some s' => s' | None => s end
  end.

(** Every call gets turns again and again, and every processor's buffer too. *)
Definition tfair (calls procs : nat) (turn : nat -> tchoice) : Prop :=
  (forall j n, j < calls -> exists m, n <= m /\ turn m = TRun j) /\ (forall p n, p < procs -> exists m, n <= m /\ turn m = TFlush p).

Section Fair.
  Context (ptr : Z) (addrs : list Z) (calls : list (nat * tcall)) (procs : nat) (objs : list (list Z)) (atoms plain : list Z).
  Context (Hfit : Forall (fits procs objs atoms plain) calls) (turn : nat -> tchoice).
  Notation hinv := (hinv ptr addrs calls procs objs atoms plain).
  Notation tinv := (tinv ptr addrs calls).
  Notation lock_for o := (lock_index ptr (nth o addrs 0%Z)).

  (** How far a call is from its end, not counting the steps in which it waits; stores on the way to memory count too. *)
  Definition tleft (c : tcall) (pc : apc) : nat :=
    match c with TLocked a => Atomic_Fair_Props.left_ (objs ++ [[]]) a pc | _ => match pc with ADone _ => 0 | _ => 1 end end.
  Fixpoint twork (cs : list (nat * tcall)) (pcs : list apc) : nat :=
    match cs, pcs with c :: cs, pc :: pcs => tleft (snd c) pc + twork cs pcs | _, _ => 0 end.
  Lemma twork_upd : forall cs pcs i c pc pc', nth_error cs i = Some c -> nth_error pcs i = Some pc ->
    twork cs (upd pcs i pc') + tleft (snd c) pc = twork cs pcs + tleft (snd c) pc'.
  Proof.
    induction cs as [|c0 cs IH]; intros pcs i c pc pc' Hc Hp; [destruct i; discriminate|].
    destruct pcs as [|p0 pcs]; [destruct i; discriminate|]. destruct i as [|i]; cbn [nth_error] in *.
    - injection Hc as ->. injection Hp as ->. cbn [upd twork]. lia.
    - cbn [upd twork]. specialize (IH pcs i c pc pc' Hc Hp). lia.
  Qed.
  Lemma bufs_upd : forall (bufs : list (list entry)) p b b', nth_error bufs p = Some b ->
    length (concat (upd bufs p b')) + length b = length (concat bufs) + length b'.
  Proof.
    induction bufs as [|b0 bufs IH]; intros p b b' H; [destruct p; discriminate|]. destruct p as [|p]; cbn [nth_error] in H.
    - injection H as ->. cbn [upd concat]. rewrite !app_length. lia.
    - cbn [upd concat]. rewrite !app_length. specialize (IH p b b' H). lia.
  Qed.
  Definition pot (t : tstate) : nat := 2 * twork calls (t_pcs t) + length (concat (t_bufs t)).

  (** A step brings the end nearer, or is one of a call that waits for its lock. *)
  Definition waits (t t' : tstate) (ch : tchoice) : Prop :=
    exists j p o op pc pc' b lock, ch = TRun j /\ nth_error calls j = Some (p, TLocked (o, op)) /\ nth_error (t_pcs t) j = Some pc /\
      t_mem t' = t_mem t /\ t_bufs t' = t_bufs t /\ t_pcs t' = upd (t_pcs t) j pc' /\
      nth_error (t_bufs t) p = Some b /\ nth_error (m_locks (t_mem t)) (lock_for o) = Some lock /\
      ((pc = AWait /\ lock = true /\ pc' = APause) \/ (pc = APause /\ newest (lock_at (lock_for o)) b lock = true /\ pc' = APause) \/
       (pc = APause /\ pc' = AWait)).
  Lemma step_kind t H y ch t' : hinv t H y -> tstep ptr addrs calls ch t = Some t' -> pot t' < pot t \/ waits t t' ch.
  Proof.
    intros V E. destruct ch as [j|p]; cbn [tstep] in E.
    2: { left. destruct (nth_error (t_bufs t) p) as [[|e b]|] eqn:Hb; try discriminate. injection E as <-. unfold pot. cbn [t_pcs t_bufs].
         pose proof (bufs_upd _ _ _ b Hb) as W. cbn [length] in W. lia. }
    destruct (nth_error calls j) as [[p c]|] eqn:Hc; [|discriminate]. destruct (nth_error (t_pcs t) j) as [pc|] eqn:Hp; [|discriminate].
    destruct (nth_error (t_bufs t) p) as [b|] eqn:Hb; [|discriminate]. destruct (ready p calls (t_pcs t) j) eqn:Hr; [|discriminate]. cbn [negb] in E.
    assert (Go : forall m es pc', t' = {| t_mem := m; t_pcs := upd (t_pcs t) j pc'; t_bufs := upd (t_bufs t) p (b ++ es) |} ->
      length es <= 1 -> tleft c pc' < tleft c pc -> pot t' < pot t).
    { intros m es pc' -> L D. unfold pot. cbn [t_pcs t_bufs]. pose proof (bufs_upd _ _ _ (b ++ es) Hb) as W1. rewrite app_length in W1.
      pose proof (twork_upd _ _ _ _ _ pc' Hc Hp) as W2. cbn [snd] in W2. lia. }
    destruct (call_step ptr addrs c b (t_mem t) pc) as [[[m es] pc']|] eqn:Ec; [|discriminate]. injection E as E. symmetry in E.
    destruct c as [[o op]|a|a f|x|x w].
    - cbn [call_step] in Ec. destruct (nth_error (m_locks (t_mem t)) (lock_for o)) as [lock|] eqn:Hl; [|discriminate].
      destruct (nth_error (m_objs (t_mem t)) o) as [data|] eqn:Hd; [|discriminate].
      destruct (locked_step op o (lock_for o) b lock data pc) as [[[lock' es0] pc0]|] eqn:El; [|discriminate].
      assert (Em : m = {| m_locks := upd (m_locks (t_mem t)) (lock_for o) lock'; m_objs := m_objs (t_mem t); m_atoms := m_atoms (t_mem t); m_plain := m_plain (t_mem t) |}) by congruence.
      assert (es0 = es) by congruence. assert (pc0 = pc') by congruence. clear Ec. subst es0 pc0.
      destruct (inside pc) eqn:Hi.
      + left. apply (Go m es pc' E).
        * destruct pc as [| |got|new k r|r|r]; try discriminate; cbn [locked_step] in El.
          -- destruct (nth_error data (length got)); injection El as _ <- _; cbn; lia.
          -- destruct (nth_error new k); injection El as _ <- _; cbn; lia.
          -- injection El as _ <- _. cbn. lia.
        * cbn [tleft].
          destruct (sim_locked ptr addrs calls (length objs) _ _ _ _ _ _ _ _ _ _ _ _ (h_inv _ _ _ _ _ _ _ _ _ _ V) Hc Hp Hb Hr Hl Hd El) as (_ & _ & S).
          specialize (S Hi). cbv zeta in S. rewrite <- Em, <- E in S.
          destruct (h_sc _ _ _ _ _ _ _ _ _ _ V) as (h & A).
          destruct (Atomic_Fair_Props.turn_does _ _ _ _ (sc_keeps calls procs objs atoms plain Hfit) _ _ _ _ _ A S) as (c1 & q & q' & lk1 & C1 & P1 & U1 & _ & D).
          unfold Tso.sc_calls in C1. rewrite nth_error_map, Hc in C1. cbn in C1. injection C1 as <-.
          cbn [Tso.sc a_pcs] in P1, U1. rewrite (scp_nth _ _ _ _ _ _ Hc Hp) in P1.
          assert (q = pc) by (destruct pc; try discriminate; cbn in P1; congruence). subst q. clear P1.
          assert (Q' : q' = sc_pc (TLocked (o, op)) pc').
          { assert (X : nth_error (scp calls (t_pcs t')) j = Some (sc_pc (TLocked (o, op)) pc')).
            { apply (scp_nth _ _ _ p _ _ Hc). rewrite E. cbn [t_pcs]. eapply upd_nth_error_eq. exact Hp. }
            rewrite U1 in X. rewrite (upd_nth_error_eq _ _ _ (sc_pc (TLocked (o, op)) pc)) in X; [congruence|].
            apply (scp_nth _ _ _ p _ _ Hc Hp). }
          assert (L' : Atomic_Fair_Props.left_ (objs ++ [[]]) (o, op) q' = Atomic_Fair_Props.left_ (objs ++ [[]]) (o, op) pc')
            by (rewrite Q'; destruct pc'; reflexivity).
          rewrite <- L'. destruct D as [[_ D] | [(X & _) | [(X & _) | [(X & _) | (X & _)]]]]; [exact D| | | |]; subst pc; discriminate.
      + destruct pc as [| |got|new k r|r|r]; try discriminate; cbn [locked_step] in El.
        * destruct b as [|e b]; [|discriminate]. destruct lock.
          -- right. injection El as <- <- <-. exists j, p, o, op, AWait, APause, [], true. subst t'. cbn [t_mem t_bufs t_pcs].
             rewrite Em, (upd_same _ _ _ Hl), mem_eta. cbn [app]. rewrite (upd_same _ _ _ Hb). repeat (split; [reflexivity || assumption|]). left. auto.
          -- left. injection El as <- <- <-. apply (Go m [] (enter op) E); [cbn; lia|]. cbn [tleft]. unfold Atomic_Fair_Props.left_. destruct op; cbn [enter rank length]; lia.
        * right. destruct (newest (lock_at (lock_for o)) b lock) eqn:En; injection El as <- <- <-.
          -- exists j, p, o, op, APause, APause, b, lock. subst t'. cbn [t_mem t_bufs t_pcs].
             rewrite Em, (upd_same _ _ _ Hl), mem_eta, app_nil_r, (upd_same _ _ _ Hb). repeat (split; [reflexivity || assumption|]). right. left. auto.
          -- exists j, p, o, op, APause, AWait, b, lock. subst t'. cbn [t_mem t_bufs t_pcs].
             rewrite Em, (upd_same _ _ _ Hl), mem_eta, app_nil_r, (upd_same _ _ _ Hb). repeat (split; [reflexivity || assumption|]). right. right. auto.
    - left. destruct pc; try discriminate. cbn [call_step] in Ec. destruct (nth_error (m_atoms (t_mem t)) a); [|discriminate].
      injection Ec as <- <- <-. eapply Go; [exact E|cbn; lia|cbn; lia].
    - left. destruct pc; try discriminate. cbn [call_step] in Ec. destruct b; [|discriminate]. destruct (nth_error (m_atoms (t_mem t)) a); [|discriminate].
      injection Ec as <- <- <-. eapply Go; [exact E|cbn; lia|cbn; lia].
    - left. destruct pc; try discriminate. cbn [call_step] in Ec. destruct (nth_error (m_plain (t_mem t)) x); [|discriminate].
      injection Ec as <- <- <-. eapply Go; [exact E|cbn; lia|cbn; lia].
    - left. destruct pc; try discriminate. cbn [call_step] in Ec. destruct (nth_error (m_plain (t_mem t)) x); [|discriminate].
      injection Ec as <- <- <-. eapply Go; [exact E|cbn; lia|cbn; lia].
  Qed.
  Lemma waits_pot t t' ch : waits t t' ch -> pot t' = pot t.
  Proof.
    intros (j & p & o & op & pc & pc' & b & lock & _ & Hc & Hp & _ & EB & EP & _ & _ & D). unfold pot. rewrite EB, EP.
    pose proof (twork_upd _ _ _ _ _ pc' Hc Hp) as W. cbn [snd tleft] in W.
    assert (L : Atomic_Fair_Props.left_ (objs ++ [[]]) (o, op) pc' = Atomic_Fair_Props.left_ (objs ++ [[]]) (o, op) pc).
    { destruct D as [(-> & _ & ->) | [(-> & _ & ->) | (-> & ->)]]; reflexivity. }
    rewrite L in W. lia.
  Qed.

  Context (s0 : tstate) (H0 : list (nat * list Z)) (y0 : list (list Z)) (V0 : hinv s0 H0 y0).
  Let st := tstate_at ptr addrs calls turn s0.
  Definition tpot (n : nat) : nat := pot (st n).
  Lemma st_S n : st (S n) = match tstep ptr addrs calls (turn n) (st n) with Some s' => s' | None => st n end.
  Proof. reflexivity. Qed.
  Lemma hinv_at n : exists H y, hinv (st n) H y.
  Proof.
    induction n as [|n (H & y & V)]; [exists H0, y0; exact V0|]. rewrite st_S.
    destruct (tstep ptr addrs calls (turn n) (st n)) as [s'|] eqn:E; [|exists H, y; exact V].
    destruct (hinv_step ptr addrs calls procs objs atoms plain Hfit _ _ _ _ _ V E) as (H1 & y1 & V1). exists (H ++ H1), y1. exact V1.
  Qed.
  Lemma turn_kind n : tpot (S n) < tpot n \/ st (S n) = st n \/ waits (st n) (st (S n)) (turn n).
  Proof.
    destruct (hinv_at n) as (H & y & V). unfold tpot. rewrite st_S. destruct (tstep ptr addrs calls (turn n) (st n)) as [s'|] eqn:E; [|auto].
    destruct (step_kind _ _ _ _ _ V E); auto.
  Qed.
  Lemma tpot_step n : tpot (S n) <= tpot n.
  Proof.
    destruct (turn_kind n) as [L | [E | W]]; [lia| |]; unfold tpot in *; [rewrite E; lia|rewrite (waits_pot _ _ _ W); lia].
  Qed.
  Lemma tpot_mono n m : n <= m -> tpot m <= tpot n.
  Proof. induction 1 as [|m H IH]; [lia|]. pose proof (tpot_step m). lia. Qed.

  (** What holds until something gets nearer to its end. *)
  Lemma until (P : tstate -> Prop) : (forall t H y, hinv t H y -> P t -> forall t' ch, waits t t' ch -> P t') ->
    forall n m, n <= m -> P (st n) -> (exists k, n < k /\ tpot k < tpot n) \/ P (st m).
  Proof.
    intros S n m. induction 1 as [|m H IH]; intro Q; [now right|]. destruct (IH Q) as [D | Q']; [now left|].
    destruct (turn_kind m) as [L | [E | W]].
    - left. exists (Datatypes.S m). split; [lia|]. pose proof (tpot_mono n m H). lia.
    - right. rewrite E. exact Q'.
    - right. destruct (hinv_at m) as (h & y & V). eapply S; eauto.
  Qed.
  (** A turn that cannot be one of waiting, and that is taken. *)
  Lemma takes n s' : tstep ptr addrs calls (turn n) (st n) = Some s' -> ~ waits (st n) s' (turn n) -> tpot (S n) < tpot n.
  Proof.
    intros E N. destruct (hinv_at n) as (H & y & V). unfold tpot. rewrite st_S, E. destruct (step_kind _ _ _ _ _ V E) as [L | W]; [exact L|]. contradiction.
  Qed.

  (** Nobody is inside and no store is on its way: every lock is free. *)
  Definition still (t : tstate) : Prop :=
    (forall p b, nth_error (t_bufs t) p = Some b -> b = []) /\ (forall i pc, nth_error (t_pcs t) i = Some pc -> inside pc = false).
  Lemma still_free t H y o : hinv t H y -> still t -> nth_error (m_locks (t_mem t)) (lock_for o) = Some false.
  Proof.
    intros V [B Q]. destruct (has_lock ptr addrs calls procs objs atoms plain _ _ _ o V) as ([|] & Hl); [|exact Hl]. exfalso.
    destruct (h_sc _ _ _ _ _ _ _ _ _ _ V) as (h & A).
    assert (Hh : nth_error (a_locks (sc calls t)) (lock_for o) = Some true) by (cbn [Tso.sc a_locks]; rewrite (flat_empty _ B); exact Hl).
    apply (v_held _ _ _ _ _ _ _ A) in Hh. destruct Hh as (i & [oi opi] & (pci & Ci & Pi & Ii) & Li).
    cbn [Tso.sc a_pcs] in Pi. apply scp_inv in Pi. destruct Pi as (pi & ci & qi & Ci' & Pi & Ei).
    specialize (Q i qi Pi). destruct ci as [ai|a|a f|x|x w]; subst pci; try discriminate. destruct qi; discriminate.
  Qed.
  Lemma still_waits t t' ch : still t -> waits t t' ch -> still t'.
  Proof.
    intros [B Q] (j & p & o & op & pc & pc' & b & lock & _ & Hc & Hp & _ & EB & EP & _ & _ & D). split; [now rewrite EB|].
    intros i q Hq. rewrite EP in Hq. apply upd_nth_error in Hq. destruct Hq as [(_ & -> & _) | [_ Hq]]; [|exact (Q i q Hq)].
    destruct D as [(_ & _ & ->) | [(_ & _ & ->) | (_ & ->)]]; reflexivity.
  Qed.
  Lemma done_waits t t' ch k : done_below t k -> waits t t' ch -> done_below t' k.
  Proof.
    intros D (j & p & o & op & pc & pc' & b & lock & _ & Hc & Hp & _ & EB & EP & _ & _ & K) i Hi. destruct (D i Hi) as [r E]. exists r. rewrite EP.
    destruct (Nat.eq_dec j i) as [->|N]; [|rewrite nth_error_upd_ne by exact N; exact E].
    rewrite Hp in E. injection E as ->. destruct K as [(X & _) | [(X & _) | (X & _)]]; discriminate.
  Qed.

  Context (F : tfair (length calls) procs turn).
  Definition finished (t : tstate) : Prop := done_below t (length calls) /\ forall p b, nth_error (t_bufs t) p = Some b -> b = [].
  Lemma progress n : finished (st n) \/ exists k, n < k /\ tpot k < tpot n.
  Proof.
    destruct (hinv_at n) as (H & y & V). destruct F as [FR FF].
    assert (Then : forall m, n <= m -> tpot (S m) < tpot m -> exists k, n < k /\ tpot k < tpot n).
    { intros m Hm L. exists (S m). split; [lia|]. pose proof (tpot_mono n m Hm). lia. }
    (* a store is on its way *)
    destruct (Exists_dec (fun b : list entry => b <> []) (t_bufs (st n))) as [Ex | NB].
    { intros [|e b]; [right; intro X; now apply X|left; discriminate]. }
    { right. apply Exists_exists in Ex. destruct Ex as (b & Hi & Nb). apply In_nth_error in Hi. destruct Hi as (p & Hp).
      destruct b as [|e b]; [now destruct Nb|].
      assert (Lp : p < procs) by (rewrite <- (h_bufs _ _ _ _ _ _ _ _ _ _ V); exact (nth_error_lt _ _ _ Hp)).
      destruct (FF p n Lp) as (m & Hm & T).
      destruct (until (fun t => nth_error (t_bufs t) p = Some (e :: b))) with (n := n) (m := m) as [D | P]; auto.
      { intros t _ _ _ P t' ch (j & p' & o & op & pc & pc' & b' & lock & _ & _ & _ & _ & EB & _). rewrite EB. exact P. }
      apply (Then m Hm). assert (E : exists s', tstep ptr addrs calls (turn m) (st m) = Some s') by (rewrite T; cbn [tstep]; rewrite P; eauto).
      destruct E as [s' E]. apply (takes m s' E). rewrite T. intros (j & p' & o & op & pc & pc' & b' & lock & X & _). discriminate. }
    assert (B : forall p b, nth_error (t_bufs (st n)) p = Some b -> b = []).
    { intros p b Hb. destruct b as [|e b]; [reflexivity|]. exfalso. apply NB. apply Exists_exists. exists (e :: b). split; [exact (nth_error_In _ _ Hb)|discriminate]. }
    (* somebody is inside *)
    destruct (Exists_dec (fun pc => inside pc = true) (t_pcs (st n))) as [Ex | NI].
    { intro pc. destruct (inside pc); [now left|now right]. }
    { right. apply Exists_exists in Ex. destruct Ex as (pc & Hi & Ei). apply In_nth_error in Hi. destruct Hi as (j & Hp).
      assert (Lj : j < length calls) by (rewrite <- (i_pcs _ _ _ _ (h_inv _ _ _ _ _ _ _ _ _ _ V)); exact (nth_error_lt _ _ _ Hp)).
      destruct (nth_error calls j) as [[p c]|] eqn:Hc; [|apply nth_error_None in Hc; lia].
      assert (El : exists o op, c = TLocked (o, op)).
      { destruct c as [[o op]|a|a f|x|x w]; [eauto| | | |];
          destruct (i_flat _ _ _ _ (h_inv _ _ _ _ _ _ _ _ _ _ V) _ _ _ _ Hc Hp ltac:(discriminate)) as [-> | [r ->]]; discriminate. }
      destruct El as (o & op & ->).
      destruct (FR j n Lj) as (m & Hm & T).
      destruct (until (fun t => nth_error (t_pcs t) j = Some pc)) with (n := n) (m := m) as [D | P]; auto.
      { intros t _ _ _ P t' ch (j' & p' & o' & op' & pc1 & pc' & b' & lock & _ & _ & Hp1 & _ & _ & EP & _ & _ & K). rewrite EP.
        destruct (Nat.eq_dec j' j) as [->|N]; [|rewrite nth_error_upd_ne by exact N; exact P].
        rewrite P in Hp1. injection Hp1 as <-. destruct K as [(-> & _) | [(-> & _) | (-> & _)]]; discriminate. }
      apply (Then m Hm). destruct (hinv_at m) as (Hm' & ym & Vm).
      destruct (has_buf _ _ _ _ _ _ _ Hfit _ _ _ _ _ _ Vm Hc) as (b & Hb). destruct (has_lock _ _ _ _ _ _ _ _ _ _ o Vm) as (lock & Hl).
      destruct (has_obj _ _ _ _ _ _ _ Hfit _ _ _ _ _ _ _ Vm Hc) as (d & Hd).
      assert (Hr : ready p calls (t_pcs (st m)) j = true) by (apply (inside_ready _ _ _ _ _ _ _ _ (h_inv _ _ _ _ _ _ _ _ _ _ Vm) Hc P); destruct pc; discriminate).
      assert (S : exists x, locked_step op o (lock_for o) b lock d pc = Some x).
      { destruct pc as [| |got|new k r|r|r]; try discriminate; cbn [locked_step].
        - destruct (nth_error d (length got)); eauto.
        - destruct (nth_error new k); eauto.
        - eauto. }
      destruct S as [[[lock' es] pc'] S].
      assert (E : exists s', tstep ptr addrs calls (turn m) (st m) = Some s').
      { rewrite T. cbn [tstep]. rewrite Hc, P, Hb, Hr. cbn [negb call_step]. rewrite Hl, Hd, S. eauto. }
      destruct E as [s' E]. apply (takes m s' E). rewrite T. intros (j' & p' & o' & op' & pc1 & pc1' & b' & lock1 & X & _ & Hp1 & _ & _ & _ & _ & _ & K).
      injection X as <-. rewrite P in Hp1. injection Hp1 as <-. destruct K as [(-> & _) | [(-> & _) | (-> & _)]]; discriminate. }
    assert (Q : still (st n)).
    { split; [exact B|]. intros i pc Hp. destruct (inside pc) eqn:Ei; [|reflexivity]. exfalso. apply NI. apply Exists_exists. exists pc.
      split; [exact (nth_error_In _ _ Hp)|exact Ei]. }
    (* the first call that has not returned *)
    assert (First : forall k, k <= length calls -> done_below (st n) k \/ exists i pc, i < k /\ done_below (st n) i /\ nth_error (t_pcs (st n)) i = Some pc /\ is_done pc = false).
    { induction k as [|k IH]; intro Lk; [left; intros i Hi; lia|]. destruct (IH ltac:(lia)) as [D | (i & pc & Hi & D)]; [|right; exists i, pc; split; [lia|exact D]].
      destruct (nth_error (t_pcs (st n)) k) as [pc|] eqn:Hp; [|apply nth_error_None in Hp; rewrite (i_pcs _ _ _ _ (h_inv _ _ _ _ _ _ _ _ _ _ V)) in Hp; lia].
      destruct (is_done pc) eqn:Hd; [left|right; exists k, pc; auto].
      intros i Hi. destruct (Nat.eq_dec i k) as [->|N]; [|apply D; lia]. destruct pc; try discriminate. eauto. }
    destruct (First _ (le_n _)) as [D | (k & pc & Lk & D & Hp & Hd)]; [left; split; [exact D|exact B]|]. right. clear First.
    destruct (nth_error calls k) as [[p c]|] eqn:Hc; [|apply nth_error_None in Hc; lia].
    set (P0 := fun (q : apc -> Prop) (t : tstate) => still t /\ done_below t k /\ exists pc, nth_error (t_pcs t) k = Some pc /\ q pc).
    assert (Ready : forall t H y, hinv t H y -> done_below t k -> ready p calls (t_pcs t) k = true).
    { intros t1 H1 y1 V1 D1. apply ready_spec; [exact (i_pcs _ _ _ _ (h_inv _ _ _ _ _ _ _ _ _ _ V1))|]. intros j' c' pc' L C' P'.
      destruct (D1 j' L) as [r E]. rewrite E in P'. injection P' as <-. reflexivity. }
    (* at a free lock, or with no lock to wait for, its turn is taken *)
    assert (Go : forall m, n <= m -> turn m = TRun k -> P0 (eq AWait) (st m) -> exists k, n < k /\ tpot k < tpot n).
    { intros m Hm T (Qm & Dm & pc1 & Pm & <-). apply (Then m Hm). destruct (hinv_at m) as (Hm' & ym & Vm).
      assert (Hr := Ready _ _ _ Vm Dm).
      destruct (has_buf _ _ _ _ _ _ _ Hfit _ _ _ _ _ _ Vm Hc) as (b & Hb). assert (b = []) by exact (proj1 Qm _ _ Hb). subst b.
      assert (E : exists s', tstep ptr addrs calls (turn m) (st m) = Some s').
      { rewrite T. cbn [tstep]. rewrite Hc, Pm, Hb, Hr. cbn [negb]. pose proof (fit _ _ _ _ _ Hfit _ _ _ Hc) as [_ Ft]. cbn [snd] in Ft.
        destruct c as [[o op]|a|a f|x|x w]; cbn [call_step].
        - rewrite (still_free _ _ _ o Vm Qm). destruct (has_obj _ _ _ _ _ _ _ Hfit _ _ _ _ _ _ _ Vm Hc) as (d & ->). cbn [locked_step]. eauto.
        - rewrite <- (h_atoms _ _ _ _ _ _ _ _ _ _ Vm) in Ft. apply nth_error_Some in Ft. destruct (nth_error (m_atoms (t_mem (st m))) a); [eauto|congruence].
        - rewrite <- (h_atoms _ _ _ _ _ _ _ _ _ _ Vm) in Ft. apply nth_error_Some in Ft. destruct (nth_error (m_atoms (t_mem (st m))) a); [eauto|congruence].
        - rewrite <- (h_plain _ _ _ _ _ _ _ _ _ _ Vm) in Ft. apply nth_error_Some in Ft. destruct (nth_error (m_plain (t_mem (st m))) x); [eauto|congruence].
        - rewrite <- (h_plain _ _ _ _ _ _ _ _ _ _ Vm) in Ft. apply nth_error_Some in Ft. destruct (nth_error (m_plain (t_mem (st m))) x); [eauto|congruence]. }
      destruct E as [s' E]. apply (takes m s' E). rewrite T. intros (j' & p' & o' & op' & pc1 & pc1' & b' & lock1 & X & _ & Hp1 & _ & _ & _ & _ & Hl1 & K).
      injection X as <-. rewrite Pm in Hp1. injection Hp1 as <-. rewrite (still_free _ _ _ o' Vm Qm) in Hl1. injection Hl1 as <-.
      destruct K as [(_ & X & _) | [(X & _) | (X & _)]]; discriminate. }
    (* it waits at a free lock until its turn *)
    assert (Stay : forall n' m, n <= n' -> n' <= m -> P0 (eq AWait) (st n') -> (exists k, n < k /\ tpot k < tpot n) \/ P0 (eq AWait) (st m)).
    { intros n' m Hn Hm P. destruct (until (P0 (eq AWait))) with (n := n') (m := m) as [(k' & Hk & L) | P']; auto.
      - intros t Ht yt Vt (Qt & Dt & pct & Pt & <-) t' ch W. split; [eapply still_waits; eauto|]. split; [eapply done_waits; eauto|].
        exists AWait. split; [|reflexivity]. destruct W as (j' & p' & o' & op' & pc1 & pc' & b' & lock & _ & _ & Hp1 & _ & _ & EP & _ & Hl1 & K). rewrite EP.
        destruct (Nat.eq_dec j' k) as [->|N]; [|rewrite nth_error_upd_ne by exact N; exact Pt]. exfalso.
        rewrite Pt in Hp1. injection Hp1 as <-. rewrite (still_free _ _ _ o' Vt Qt) in Hl1. injection Hl1 as <-.
        destruct K as [(_ & X & _) | [(X & _) | (X & _)]]; discriminate.
      - left. exists k'. split; [lia|]. pose proof (tpot_mono n n' Hn). lia. }
    assert (Wait : forall n', n <= n' -> P0 (eq AWait) (st n') -> exists k, n < k /\ tpot k < tpot n).
    { intros n' Hn P. destruct (FR k n' Lk) as (m & Hm & T). destruct (Stay n' m Hn Hm P) as [X | P']; [exact X|]. apply (Go m); auto. lia. }
    destruct pc as [| |got|new i r|r|r]; try discriminate; try (specialize (proj2 Q _ _ Hp); discriminate).
    - apply (Wait n (le_n _)). split; [exact Q|]. split; [exact D|]. eauto.
    - (* it has paused: it goes back to wait *)
      destruct (FR k n Lk) as (m & Hm & T).
      destruct (until (P0 (fun pc => pc = AWait \/ pc = APause))) with (n := n) (m := m) as [X | (Qm & Dm & pc & Pm & Wm)]; auto.
      { intros t Ht yt Vt (Qt & Dt & pct & Pt & Wt) t' ch W. split; [eapply still_waits; eauto|]. split; [eapply done_waits; eauto|].
        destruct W as (j' & p' & o' & op' & pc1 & pc' & b' & lock & _ & _ & Hp1 & _ & _ & EP & _ & Hl1 & K). rewrite EP.
        destruct (Nat.eq_dec j' k) as [->|N]; [|rewrite nth_error_upd_ne by exact N; eauto].
        exists pc'. split; [eapply upd_nth_error_eq; exact Pt|]. destruct K as [(_ & _ & ->) | [(_ & _ & ->) | (_ & ->)]]; auto. }
      { split; [exact Q|]. split; [exact D|]. eauto. }
      destruct Wm as [-> | ->]; [apply (Go m Hm T); split; [exact Qm|]; split; [exact Dm|]; eauto|].
      destruct (turn_kind m) as [L | K]; [exact (Then m Hm L)|].
      destruct (hinv_at m) as (Hm' & ym & Vm). assert (Hr := Ready _ _ _ Vm Dm).
      destruct (has_buf _ _ _ _ _ _ _ Hfit _ _ _ _ _ _ Vm Hc) as (b & Hb). assert (b = []) by exact (proj1 Qm _ _ Hb). subst b.
      destruct c as [[o op]|a|a f|x|x w];
        try (destruct (i_flat _ _ _ _ (h_inv _ _ _ _ _ _ _ _ _ _ Vm) _ _ _ _ Hc Pm ltac:(discriminate)) as [X | [r X]]; discriminate).
      destruct (has_obj _ _ _ _ _ _ _ Hfit _ _ _ _ _ _ _ Vm Hc) as (d & Hd').
      assert (E : exists s', tstep ptr addrs calls (turn m) (st m) = Some s' /\ t_pcs s' = upd (t_pcs (st m)) k AWait).
      { rewrite T. cbn [tstep]. rewrite Hc, Pm, Hb, Hr. cbn [negb call_step]. rewrite (still_free _ _ _ o Vm Qm), Hd'. cbn [locked_step newest]. eexists. split; [reflexivity|reflexivity]. }
      destruct E as (s' & E & EP).
      assert (ES : st (S m) = s') by (rewrite st_S, E; reflexivity).
      destruct K as [K | K].
      + exfalso. rewrite <- ES, K in EP. assert (X : nth_error (upd (t_pcs (st m)) k AWait) k = Some AWait) by (eapply upd_nth_error_eq; exact Pm).
        rewrite <- EP, Pm in X. discriminate.
      + apply (Wait (S m)); [lia|]. split; [eapply still_waits; eauto|]. split; [eapply done_waits; eauto|]. exists AWait. split; [|reflexivity].
        rewrite ES, EP. eapply upd_nth_error_eq. exact Pm.
  Qed.

  Lemma finished_at : forall b n, tpot n <= b -> exists m, n <= m /\ finished (st m).
  Proof.
    induction b as [|b IH]; intros n Hb; destruct (progress n) as [D | (k & Hk & L)]; try (exists n; split; [lia|exact D]); try lia.
    destruct (IH k ltac:(lia)) as (m & Hm & D). exists m. split; [lia|exact D].
  Qed.
  Lemma finished_step t ch : finished t -> length (t_pcs t) = length calls -> tstep ptr addrs calls ch t = None.
  Proof.
    intros [D B] L. destruct ch as [j|p]; cbn [tstep].
    - destruct (nth_error calls j) as [[p c]|] eqn:Hc; [|reflexivity]. destruct (D j (nth_error_lt _ _ _ Hc)) as [r ->].
      destruct (nth_error (t_bufs t) p); [|reflexivity]. destruct (ready p calls (t_pcs t) j); [|reflexivity]. cbn [negb].
      destruct c as [[o op]|a|a f|x|x w]; try reflexivity. cbn [call_step].
      destruct (nth_error (m_locks (t_mem t)) _); [|reflexivity]. destruct (nth_error (m_objs (t_mem t)) o); reflexivity.
    - destruct (nth_error (t_bufs t) p) as [b|] eqn:Hb; [|reflexivity]. rewrite (B _ _ Hb). reflexivity.
  Qed.
  Lemma finished_stays n m : n <= m -> finished (st n) -> st m = st n.
  Proof.
    induction 1 as [|m H IH]; intro Fn; [reflexivity|]. specialize (IH Fn). rewrite st_S, IH.
    destruct (hinv_at n) as (Hn & y & V). rewrite (finished_step _ _ Fn (i_pcs _ _ _ _ (h_inv _ _ _ _ _ _ _ _ _ _ V))). reflexivity.
  Qed.
End Fair.

(** From any moment of any execution, on every schedule that gives each call and each store buffer turns again and again, there is a time
    from which on every call has returned, every store is in memory, and nothing changes any more. *)
Theorem C79_fair ptr addrs procs objs atoms plain calls sched s turn :
  Forall (fits procs objs atoms plain) calls ->
  trun ptr addrs calls sched (tinit procs objs atoms plain calls) = Some s ->
  tfair (length calls) procs turn ->
  exists n, forall m, n <= m ->
    let s' := tstate_at ptr addrs calls turn s m in
    s' = tstate_at ptr addrs calls turn s n /\
    (forall i, i < length calls -> exists r, nth_error (t_pcs s') i = Some (ADone r)) /\
    (forall p b, nth_error (t_bufs s') p = Some b -> b = []).
Proof.
  intros K R F.
  destruct (hinv_run ptr addrs calls procs objs atoms plain K _ _ _ _ _ (hinv_init ptr addrs calls procs objs atoms plain) R) as (h & y & V).
  destruct (finished_at ptr addrs calls procs objs atoms plain K turn s _ _ V F _ 0 (le_n _)) as (n & _ & D).
  exists n. intros m Hm. cbv zeta. pose proof (finished_stays ptr addrs calls procs objs atoms plain K turn s _ _ V n m Hm D) as E.
  split; [exact E|]. rewrite E. exact D.
Qed.
Print Assumptions C79_fair.

(** The turns of the buffers are needed: when a store stays in its buffer for ever, the exchange that follows it waits for ever, however
    many turns the calls get. *)
Theorem C79_unfair_refuted :
  let calls := [(0, TPut 0 1%Z); (0, TRmw 0 (fun _ => 1%Z))] in
  Forall (fits 1 [] [0]%Z [0]%Z) calls /\
  exists turn, (forall j n, j < 2 -> exists m, n <= m /\ turn m = TRun j) /\
    forall n r, nth_error (t_pcs (tstate_at 8 [] calls turn (tinit 1 [] [0]%Z [0]%Z calls) n)) 1 <> Some (ADone r).
Proof.
  cbv zeta. set (calls := [(0, TPut 0 1%Z); (0, TRmw 0 (fun _ => 1%Z))]). split; [repeat constructor|].
  exists (fun n => TRun (n mod 2)). split.
  { intros i n Hi. exists (2 * n + i). split; [lia|]. rewrite Nat.add_comm, Nat.mul_comm, Nat.mod_add by lia. now rewrite Nat.mod_small. }
  set (s := tinit 1 [] [0]%Z [0]%Z calls).
  assert (P : forall n, let s' := tstate_at 8 [] calls (fun n => TRun (n mod 2)) s n in
    s' = s \/ s' = {| t_mem := t_mem s; t_pcs := [ADone []; AWait]; t_bufs := [[EPlain 0 1%Z]] |}).
  { induction n as [|n IH]; cbv zeta in *; cbn [tstate_at]; [now left|].
    destruct (n mod 2) as [|[|j]]; destruct IH as [-> | ->]; cbn; auto. all: destruct j; auto. }
  intros n r X. destruct (P n) as [E | E]; rewrite E in X; discriminate.
Qed.
Print Assumptions C79_unfair_refuted.

(** Fair schedules, with calls of every kind: processor 0 stores to its own variable, exchanges a guarded object and adds to a word;
    processor 1 loads the object and the word. Five calls and two buffers take turns. *)
Definition round_robin (n : nat) : tchoice := if n mod 7 <? 5 then TRun (n mod 7) else TFlush (n mod 7 - 5).
Example C79_fair_case :
  tfair 5 2 round_robin /\
  Forall (fits 2 [[7; 8]]%Z [0]%Z [0]%Z)
    [(0, TPut 0 1%Z); (0, TLocked (0, AExchange [1; 2]%Z)); (0, TRmw 0 (fun x => x + 1)%Z); (1, TLocked (0, ALoad)); (1, TLoad 0)].
Proof.
  split.
  - assert (M : forall n k, k < 7 -> (7 * n + k) mod 7 = k).
    { intros n k Hk. rewrite Nat.add_comm, Nat.mul_comm, Nat.mod_add by lia. now apply Nat.mod_small. }
    split.
    + intros j n Hj. exists (7 * n + j). split; [lia|]. unfold round_robin. rewrite M by lia. now rewrite (proj2 (Nat.ltb_lt _ _) Hj).
    + intros p n Hp. exists (7 * n + (5 + p)). split; [lia|]. unfold round_robin. rewrite M by lia.
      rewrite (proj2 (Nat.ltb_ge _ _)) by lia. f_equal. lia.
  - repeat constructor; cbn; try lia; exists [7; 8]%Z; split; reflexivity.
Qed.
