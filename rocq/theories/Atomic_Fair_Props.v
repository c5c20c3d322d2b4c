(** C60: every call under a spin lock returns, on every schedule that is fair. *)
From Verif Require Import Base Atomic_Model Atomic_Spec Atomic_Proofs.
Local Open Scope nat_scope.

(** The state after n turns of a schedule without end. The turn of a thread that has returned changes nothing. *)
Fixpoint state_at (ptr : Z) (addrs : list Z) (calls : list acall) (turn : nat -> nat) (s : astate) (n : nat) : astate :=
  match n with
  | O => s
  | S n =>
      let s := state_at ptr addrs calls turn s n in
      match astep ptr addrs calls (turn n) s with Some s' => s' | None => s end
  end.

(** Every thread gets turns again and again. *)
Definition fair (threads : nat) (turn : nat -> nat) : Prop := forall i n, i < threads -> exists m, n <= m /\ turn m = i.

Section Fair.
  Context (ptr : Z) (addrs : list Z) (calls : list acall) (x : list (list Z)) (Hkeep : Forall (keeps_size x) calls).
  Context (turn : nat -> nat).
  Let lock_of := lock_of ptr addrs.
  Let ainv := ainv ptr addrs calls x.

  (** How many steps a thread is from its end, at most, not counting those in which it waits. *)
  Definition left_ (c : acall) (pc : apc) : nat :=
    let n := length (nth (fst c) x []) in
    match pc with AWait | APause => 2 * n + 6 | pc => rank n pc end.
  Fixpoint work (cs : list acall) (pcs : list apc) : nat :=
    match cs, pcs with c :: cs, pc :: pcs => left_ c pc + work cs pcs | _, _ => 0 end.
  Lemma work_upd : forall cs pcs i c pc pc', nth_error cs i = Some c -> nth_error pcs i = Some pc ->
    work cs (upd pcs i pc') + left_ c pc = work cs pcs + left_ c pc'.
  Proof.
    induction cs as [|c0 cs IH]; intros pcs i c pc pc' Hc Hp; [destruct i; discriminate|].
    destruct pcs as [|p0 pcs]; [destruct i; discriminate|]. destruct i as [|i]; cbn [nth_error] in *.
    - injection Hc as ->. injection Hp as ->. cbn [upd work]. lia.
    - cbn [upd work]. specialize (IH pcs i c pc pc' Hc Hp). lia.
  Qed.

  (** What a turn does. *)
  Lemma turn_does s h y i s' : ainv s h y -> astep ptr addrs calls i s = Some s' ->
    exists c pc pc' lock, nth_error calls i = Some c /\ nth_error (a_pcs s) i = Some pc /\ a_pcs s' = upd (a_pcs s) i pc' /\
      nth_error (a_locks s) (lock_of c) = Some lock /\
      ((inside pc = true /\ left_ c pc' < left_ c pc) \/
       (pc = AWait /\ lock = false /\ left_ c pc' < left_ c pc) \/
       (pc = AWait /\ lock = true /\ pc' = APause) \/
       (pc = APause /\ lock = true /\ pc' = APause) \/
       (pc = APause /\ lock = false /\ pc' = AWait)).
  Proof.
    intros I E.
    destruct (nth_error calls i) as [[o op]|] eqn:Hc; [|unfold astep in E; rewrite Hc in E; discriminate].
    destruct (nth_error (a_pcs s) i) as [pc|] eqn:Hp; [|unfold astep in E; rewrite Hc, Hp in E; discriminate].
    destruct (astep_some ptr addrs calls x Hkeep s h y i o op pc I Hc Hp) as (lock & data & Hl & Ho & E').
    rewrite E' in E. clear E'. destruct (astep_pc op lock data pc) as [[[lock' data'] pc']|] eqn:EP; [|discriminate].
    exists (o, op), pc, pc', lock. split; [reflexivity|]. split; [reflexivity|]. split; [injection E as <-; reflexivity|]. split; [exact Hl|].
    assert (N : exists d0, nth_error x o = Some d0).
    { assert (K := proj1 (Forall_forall _ _) Hkeep _ (nth_error_In _ _ Hc)). cbn in K. destruct K as (d & Hd & _). eauto. }
    destruct N as [d0 Hd0]. unfold left_. cbn [fst]. rewrite (nth_error_nth _ _ [] Hd0).
    destruct (inside pc) eqn:Hi.
    - left. split; [reflexivity|].
      destruct (v_busy _ _ _ _ _ _ _ I _ _ _ _ Hc Hp Hi) as (cur & old & Ho' & Hy & R). rewrite Ho in Ho'. injection Ho' as <-.
      assert (HL := leaves_length ptr addrs calls x Hkeep s h y o op i old I Hc Hy).
      destruct (v_words _ _ _ _ _ _ _ I _ _ Hy) as (e & He & Le). rewrite Hd0 in He. injection He as <-.
      destruct pc as [| |got|new k r|r|r]; try discriminate; cbn [astep_pc pc_rel] in EP, R.
      + destruct R as (-> & Hg & Hlen & Hns). destruct (nth_error old (length got)) as [w|] eqn:Ew.
        * assert (pc' = ARead (got ++ [w])) as -> by congruence. apply nth_error_lt in Ew. cbn [rank]. rewrite app_length. cbn [length]. lia.
        * assert (pc' = after_read op got) as -> by congruence. destruct op; cbn [after_read rank]; lia.
      + destruct R as (-> & -> & Hk & Hcur). destruct (nth_error (leaves op old) k) as [w|] eqn:Ew.
        * assert (pc' = AWrite (leaves op old) (S k) (returns op old)) as -> by congruence. apply nth_error_lt in Ew. cbn [rank]. lia.
        * assert (pc' = ARelease (returns op old)) as -> by congruence. cbn [rank]. lia.
      + assert (pc' = ADone r) as -> by congruence. cbn [rank]. lia.
    - right. destruct pc as [| |got|new k r|r|r]; try discriminate; cbn [astep_pc] in EP; destruct lock.
      + right. left. split; [reflexivity|]. split; [reflexivity|congruence].
      + left. split; [reflexivity|]. split; [reflexivity|]. assert (pc' = enter op) as -> by congruence. destruct op; cbn [enter rank length]; lia.
      + right. right. left. split; [reflexivity|]. split; [reflexivity|congruence].
      + right. right. right. split; [reflexivity|]. split; [reflexivity|congruence].
  Qed.

  Context (s0 : astate) (h0 : list (nat * list Z)) (y0 : list (list Z)) (I0 : ainv s0 h0 y0).
  Let st := state_at ptr addrs calls turn s0.
  Definition todo (n : nat) : nat := work calls (a_pcs (st n)).

  Lemma inv_at n : exists h y, ainv (st n) h y.
  Proof.
    induction n as [|n (h & y & I)]; [exists h0, y0; exact I0|]. unfold st in *. cbn [state_at].
    destruct (astep ptr addrs calls (turn n) (state_at ptr addrs calls turn s0 n)) as [s'|] eqn:E; [|exists h, y; exact I].
    destruct (astep_inv ptr addrs calls x Hkeep _ _ _ _ _ I E) as (h1 & y1 & I1). exists (h ++ h1), y1. exact I1.
  Qed.

  (** What the turn at time n does. *)
  Lemma turn_at n : st (S n) = st n \/
    exists c pc pc' lock, nth_error calls (turn n) = Some c /\ nth_error (a_pcs (st n)) (turn n) = Some pc /\ a_pcs (st (S n)) = upd (a_pcs (st n)) (turn n) pc' /\
      nth_error (a_locks (st n)) (lock_of c) = Some lock /\
      ((inside pc = true /\ left_ c pc' < left_ c pc) \/
       (pc = AWait /\ lock = false /\ left_ c pc' < left_ c pc) \/
       (pc = AWait /\ lock = true /\ pc' = APause) \/
       (pc = APause /\ lock = true /\ pc' = APause) \/
       (pc = APause /\ lock = false /\ pc' = AWait)).
  Proof.
    destruct (inv_at n) as (h & y & I). change (st (S n)) with (match astep ptr addrs calls (turn n) (st n) with Some s' => s' | None => st n end).
    destruct (astep ptr addrs calls (turn n) (st n)) as [s'|] eqn:E; [right|left; reflexivity].
    exact (turn_does _ _ _ _ _ I E).
  Qed.

  (** A thread that is not done has something to do at its turn. *)
  Lemma turn_moves n i o op pc : turn n = i -> nth_error calls i = Some (o, op) -> nth_error (a_pcs (st n)) i = Some pc -> (forall r, pc <> ADone r) ->
    exists s', astep ptr addrs calls i (st n) = Some s' /\ st (S n) = s'.
  Proof.
    intros Ht Hc Hp Hn. destruct (inv_at n) as (h & y & I).
    change (st (S n)) with (match astep ptr addrs calls (turn n) (st n) with Some s' => s' | None => st n end). rewrite Ht.
    destruct (astep_some ptr addrs calls x Hkeep (st n) h y i o op pc I Hc Hp) as (lock & data & _ & _ & ->).
    destruct (astep_pc op lock data pc) as [[[lock' data'] pc']|] eqn:EP; [eauto|].
    exfalso. destruct pc as [| |got|new k r|r|r]; cbn [astep_pc] in EP;
      repeat match type of EP with context [if ?b then _ else _] => destruct b | context [match ?e with _ => _ end] => destruct e end; try discriminate.
    now apply (Hn r).
  Qed.

  Lemma todo_step n : todo (S n) <= todo n.
  Proof.
    unfold todo. destruct (turn_at n) as [-> | (c & pc & pc' & lock & Hc & Hp & -> & _ & D)]; [lia|].
    assert (W := work_upd calls (a_pcs (st n)) (turn n) c pc pc' Hc Hp).
    assert (left_ c pc' <= left_ c pc); [|lia].
    destruct D as [[_ D] | [(_ & _ & D) | [(-> & _ & ->) | [(-> & _ & ->) | (-> & _ & ->)]]]]; cbn [left_] in *; unfold left_ in *; lia.
  Qed.
  Lemma todo_mono n m : n <= m -> todo m <= todo n.
  Proof. induction 1 as [|m H IH]; [lia|]. pose proof (todo_step m). lia. Qed.

  Lemma pc_stays i n : turn n <> i -> nth_error (a_pcs (st (S n))) i = nth_error (a_pcs (st n)) i.
  Proof.
    intro H. destruct (turn_at n) as [-> | (c & pc & pc' & lock & Hc & Hp & -> & _)]; [reflexivity|].
    apply nth_error_upd_ne. exact H.
  Qed.
  Lemma pc_until i n m : n <= m -> (forall k, n <= k < m -> turn k <> i) -> nth_error (a_pcs (st m)) i = nth_error (a_pcs (st n)) i.
  Proof.
    induction 1 as [|m H IH]; intro T; [reflexivity|]. rewrite pc_stays by (apply T; lia). apply IH. intros k Hk. apply T. lia.
  Qed.

  Lemma first_turn i n : (exists m, n <= m /\ turn m = i) -> exists m, n <= m /\ turn m = i /\ forall k, n <= k < m -> turn k <> i.
  Proof.
    intros (m & H & E). remember (m - n) as d eqn:Ed. revert n H Ed. induction d as [|d IH]; intros n H Ed.
    - exists m. split; [exact H|]. split; [exact E|]. intros k Hk. lia.
    - destruct (Nat.eq_dec (turn n) i) as [T|T].
      + exists n. split; [lia|]. split; [exact T|]. intros k Hk. lia.
      + destruct (IH (S n)) as (m' & H' & E' & F); [lia|lia|]. exists m'. split; [lia|]. split; [exact E'|].
        intros k Hk. destruct (Nat.eq_dec k n) as [->|]; [exact T|]. apply F. lia.
  Qed.

  (** A turn of a thread inside brings the end nearer; so does one of a thread that waits at a free lock. *)
  Lemma todo_inside n c pc : nth_error calls (turn n) = Some c -> nth_error (a_pcs (st n)) (turn n) = Some pc ->
    inside pc = true \/ (pc = AWait /\ nth_error (a_locks (st n)) (lock_of c) = Some false) -> todo (S n) < todo n.
  Proof.
    intros Hc Hp D.
    assert (Hn : forall r, pc <> ADone r). { intros r ->. destruct D as [D | [D _]]; discriminate. }
    destruct c as [o op]. destruct (turn_moves n (turn n) o op pc eq_refl Hc Hp Hn) as (s' & E & ES).
    destruct (inv_at n) as (h & y & I). destruct (turn_does _ _ _ _ _ I E) as (c & pc1 & pc' & lock & Hc1 & Hp1 & EP & Hl & F).
    rewrite Hc in Hc1. injection Hc1 as <-. rewrite Hp in Hp1. injection Hp1 as <-.
    unfold todo. rewrite ES, EP. assert (W := work_upd calls (a_pcs (st n)) (turn n) (o, op) pc pc' Hc Hp).
    assert (left_ (o, op) pc' < left_ (o, op) pc); [|lia].
    destruct F as [[_ F] | [(_ & _ & F) | F]]; [exact F|exact F|]. exfalso.
    destruct D as [D | [-> D]].
    - destruct F as [(-> & _) | [(-> & _) | (-> & _)]]; discriminate.
    - rewrite D in Hl. destruct F as [(_ & -> & _) | [(X & _) | (X & _)]]; discriminate.
  Qed.

  (** Nobody is inside: then every lock is free. *)
  Definition quiet (n : nat) : Prop := forall i pc, nth_error (a_pcs (st n)) i = Some pc -> inside pc = false.
  Lemma quiet_free n l b : quiet n -> nth_error (a_locks (st n)) l = Some b -> b = false.
  Proof.
    intros Q H. destruct b; [|reflexivity]. destruct (inv_at n) as (h & y & I). apply (v_held _ _ _ _ _ _ _ I) in H.
    destruct H as (i & c & (pc & _ & Hp & Hi) & _). rewrite (Q i pc Hp) in Hi. discriminate.
  Qed.
  Lemma quiet_stays n : quiet n -> todo (S n) < todo n \/ quiet (S n).
  Proof.
    intro Q. destruct (turn_at n) as [E | (c & pc & pc' & lock & Hc & Hp & EP & Hl & D)].
    - right. unfold quiet. rewrite E. exact Q.
    - assert (lock = false) by exact (quiet_free n _ _ Q Hl). subst lock.
      destruct D as [[D _] | [(-> & _ & D) | [(_ & D & _) | [(_ & D & _) | (-> & _ & ->)]]]]; try discriminate.
      + rewrite (Q _ _ Hp) in D. discriminate.
      + left. apply (todo_inside n c AWait Hc Hp). right. split; [reflexivity|exact Hl].
      + right. intros i pc H. rewrite EP in H. apply upd_nth_error in H. destruct H as [(_ & -> & _) | [_ H]]; [reflexivity|exact (Q i pc H)].
  Qed.
  Lemma quiet_until n m : n <= m -> quiet n -> (exists k, n < k <= m /\ todo k < todo n) \/ quiet m.
  Proof.
    induction 1 as [|m H IH]; intro Q; [now right|]. destruct (IH Q) as [(k & Hk & L) | Q'].
    - left. exists k. split; [lia|exact L].
    - destruct (quiet_stays m Q') as [L | Q2]; [|now right]. left. exists (S m). split; [lia|]. pose proof (todo_mono n m H). lia.
  Qed.

  Context (F : fair (length calls) turn).
  Lemma progress n : (forall i, i < length calls -> exists r, nth_error (a_pcs (st n)) i = Some (ADone r)) \/ exists k, n < k /\ todo k < todo n.
  Proof.
    destruct (inv_at n) as (h & y & I). assert (LP := v_pcs _ _ _ _ _ _ _ I).
    assert (At : forall i, i < length calls -> exists c pc, nth_error calls i = Some c /\ nth_error (a_pcs (st n)) i = Some pc).
    { intros i Hi. destruct (nth_error calls i) as [c|] eqn:Hc; [|apply nth_error_None in Hc; lia].
      destruct (nth_error (a_pcs (st n)) i) as [pc|] eqn:Hp; [|apply nth_error_None in Hp; lia]. eauto. }
    (* somebody is inside *)
    destruct (Exists_dec (fun i => exists pc, nth_error (a_pcs (st n)) i = Some pc /\ inside pc = true) (seq 0 (length calls))) as [Ex | NE].
    { intro i. destruct (nth_error (a_pcs (st n)) i) as [pc|]; [|right; intros (?&?&?); discriminate].
      destruct (inside pc) eqn:Ei; [left; eauto|right; intros (?&E&?); congruence]. }
    { right. apply Exists_exists in Ex. destruct Ex as (i & Hi & pc & Hp & Ei). apply in_seq in Hi.
      destruct (first_turn i n (F i n ltac:(lia))) as (m & Hm & T & Fst). exists (S m). split; [lia|].
      destruct (At i ltac:(lia)) as (c & pc1 & Hc & _).
      assert (Hp' : nth_error (a_pcs (st m)) i = Some pc) by (rewrite (pc_until i n m Hm Fst); exact Hp).
      pose proof (todo_mono n m Hm). assert (todo (S m) < todo m); [|lia]. apply (todo_inside m c pc); [rewrite T; exact Hc|rewrite T; exact Hp'|now left]. }
    assert (Q : quiet n).
    { intros i pc Hp. destruct (inside pc) eqn:Ei; [|reflexivity]. exfalso. apply NE. apply Exists_exists. exists i. split; [|eauto].
      apply in_seq. apply nth_error_lt in Hp. lia. }
    (* nobody is, and somebody waits *)
    destruct (Exists_dec (fun i => nth_error (a_pcs (st n)) i = Some AWait \/ nth_error (a_pcs (st n)) i = Some APause) (seq 0 (length calls))) as [Ex | NW].
    { intro i. destruct (nth_error (a_pcs (st n)) i) as [[| | | | |]|]; (left; tauto) || (right; intros [?|?]; discriminate). }
    { right. apply Exists_exists in Ex. destruct Ex as (i & Hi & W). apply in_seq in Hi. destruct (At i ltac:(lia)) as (c & _ & Hc & _).
      assert (Go : forall n', n <= n' -> todo n' <= todo n -> quiet n' -> nth_error (a_pcs (st n')) i = Some AWait -> exists k, n < k /\ todo k < todo n).
      { intros n' Hn' Ht Q' Hp. destruct (first_turn i n' (F i n' ltac:(lia))) as (m & Hm & T & Fst).
        destruct (quiet_until n' m Hm Q') as [(k & Hk & L) | Qm]; [exists k; split; lia|]. exists (S m). split; [lia|].
        assert (Hp' : nth_error (a_pcs (st m)) i = Some AWait) by (rewrite (pc_until i n' m Hm Fst); exact Hp).
        pose proof (todo_mono n' m Hm). assert (todo (S m) < todo m); [|lia]. apply (todo_inside m c AWait); [rewrite T; exact Hc|rewrite T; exact Hp'|].
        right. split; [reflexivity|]. destruct (inv_at m) as (h' & y' & I').
        destruct (nth_error (a_locks (st m)) (lock_of c)) as [b|] eqn:El; [now rewrite (quiet_free m _ _ Qm El)|].
        apply nth_error_None in El. rewrite (v_locks _ _ _ _ _ _ _ I') in El. pose proof (lock_index_bound ptr (nth (fst c) addrs 0%Z)).
        unfold lock_of, Atomic_Proofs.lock_of in El. lia. }
      destruct W as [W | W]; [apply (Go n); [lia|lia|exact Q|exact W]|].
      destruct (first_turn i n (F i n ltac:(lia))) as (m & Hm & T & Fst).
      destruct (quiet_until n m Hm Q) as [(k & Hk & L) | Qm]; [exists k; split; lia|].
      assert (Hp' : nth_error (a_pcs (st m)) i = Some APause) by (rewrite (pc_until i n m Hm Fst); exact W).
      destruct (quiet_stays m Qm) as [L | Qm']; [exists (S m); pose proof (todo_mono n m Hm); split; lia|].
      apply (Go (S m)); [lia|apply todo_mono; lia|exact Qm'|].
      destruct c as [o op]. destruct (turn_moves m i o op APause T Hc Hp') as (s' & E & ES); [discriminate|].
      destruct (inv_at m) as (h' & y' & I'). destruct (turn_does _ _ _ _ _ I' E) as (c1 & pc1 & pc' & lock & Hc1 & Hp1 & EP & Hl & D).
      rewrite Hp' in Hp1. injection Hp1 as <-. assert (lock = false) by exact (quiet_free m _ _ Qm Hl). subst lock.
      rewrite ES, EP.
      destruct D as [[D _] | [(D & _) | [(D & _) | [(_ & D & _) | (_ & _ & ->)]]]]; try discriminate.
      eapply upd_nth_error_eq. exact Hp'. }
    left. intros i Hi. destruct (At i Hi) as (c & pc & Hc & Hp).
    destruct pc as [| |got|new k r|r|r].
    - exfalso. apply NW. apply Exists_exists. exists i. split; [apply in_seq; lia|now left].
    - exfalso. apply NW. apply Exists_exists. exists i. split; [apply in_seq; lia|now right].
    - specialize (Q _ _ Hp). discriminate.
    - specialize (Q _ _ Hp). discriminate.
    - specialize (Q _ _ Hp). discriminate.
    - eauto.
  Qed.

  Lemma done_at : forall b n, todo n <= b -> exists m, n <= m /\ forall i, i < length calls -> exists r, nth_error (a_pcs (st m)) i = Some (ADone r).
  Proof.
    induction b as [|b IH]; intros n Hb; destruct (progress n) as [D | (k & Hk & L)]; try (exists n; split; [lia|exact D]); try lia.
    destruct (IH k ltac:(lia)) as (m & Hm & D). exists m. split; [lia|exact D].
  Qed.

  Lemma done_stays i r n m : n <= m -> nth_error (a_pcs (st n)) i = Some (ADone r) -> nth_error (a_pcs (st m)) i = Some (ADone r).
  Proof.
    induction 1 as [|m H IH]; intro E; [exact E|]. specialize (IH E).
    destruct (turn_at m) as [-> | (c & pc & pc' & lock & Hc & Hp & EP & Hl & D)]; [exact IH|].
    rewrite EP. destruct (Nat.eq_dec (turn m) i) as [T|T]; [|rewrite nth_error_upd_ne by exact T; exact IH].
    exfalso. rewrite T, IH in Hp. injection Hp as <-.
    destruct D as [[D _] | [(D & _) | [(D & _) | [(D & _) | (D & _)]]]]; discriminate.
  Qed.
End Fair.

(** From any moment of any execution, on every schedule that gives each thread turns again and again, there is a time from which on every
    call has returned: the locks starve nobody who calls once. *)
Theorem C60_fair ptr addrs objs calls sched s turn :
  Forall (keeps_size objs) calls ->
  arun ptr addrs calls sched (ainit objs calls) = Some s ->
  fair (length calls) turn ->
  exists n, forall m i, n <= m -> i < length calls -> exists r, nth_error (a_pcs (state_at ptr addrs calls turn s m)) i = Some (ADone r).
Proof.
  intros K R F. destruct (arun_inv ptr addrs calls objs K _ _ _ _ _ (ainv_init ptr addrs calls objs) R) as (h & y & V). cbn [app] in V.
  destruct (done_at ptr addrs calls objs K turn s h y V F _ 0 (le_n _)) as (n & _ & D).
  exists n. intros m i Hm Hi. destruct (D i Hi) as (r & E). exists r. exact (done_stays ptr addrs calls objs K turn s h y V i r n m Hm E).
Qed.
Print Assumptions C60_fair.

(** Without fairness there is no such time: a thread that holds the lock and gets no turn stops the others. *)
Theorem C60_unfair_refuted : exists ptr addrs objs calls sched s turn,
  Forall (keeps_size objs) calls /\ arun ptr addrs calls sched (ainit objs calls) = Some s /\ calls = [(0, ALoad); (0, ALoad)] /\
  (forall n, exists m, n <= m /\ turn m = 1) /\
  forall n r, nth_error (a_pcs (state_at ptr addrs calls turn s n)) 1 <> Some (ADone r).
Proof.
  set (calls := [(0, ALoad); (0, ALoad)]).
  destruct (arun 8 [64]%Z calls [0] (ainit [[7; 8]]%Z calls)) as [s|] eqn:E; [|vm_compute in E; discriminate].
  exists 8%Z, [64]%Z, [[7; 8]]%Z, calls, [0], s, (fun _ => 1). split.
  { repeat constructor; exists [7; 8]%Z; split; reflexivity. }
  split; [exact E|]. split; [reflexivity|]. split; [intro n; exists n; split; [lia|reflexivity]|].
  assert (H : forall n, let s' := state_at 8 [64]%Z calls (fun _ => 1) s n in
    a_locks s' = a_locks s /\ a_objs s' = a_objs s /\ (a_pcs s' = [ARead []; AWait] \/ a_pcs s' = [ARead []; APause])).
  { assert (S0 : a_objs s = [[7; 8]]%Z /\ a_pcs s = [ARead []; AWait] /\ nth_error (a_locks s) (lock_index 8 64) = Some true).
    { vm_compute in E. injection E as <-. split; [|split]; vm_compute; reflexivity. }
    destruct S0 as (So & Sp & Sl). clear E. set (li := lock_index 8 64) in *. assert (Li : li = lock_index 8 64) by reflexivity. clearbody li.
    induction n as [|n IH]; cbv zeta in *; cbn [state_at]; [split; [reflexivity|]; split; [reflexivity|left; exact Sp]|].
    destruct (state_at 8 [64]%Z calls (fun _ => 1) s n) as [ls os ps]. cbn [a_locks a_objs a_pcs] in IH. destruct IH as (El & Eo & P).
    unfold astep, calls. cbn [nth_error a_locks a_objs a_pcs nth]. rewrite <- Li.
    destruct P as [-> | ->]; cbn [nth_error]; rewrite El, Sl, Eo, So; cbn [nth_error astep_pc a_locks a_objs a_pcs upd];
      (split; [apply upd_same; exact Sl|]); (split; [reflexivity|right; reflexivity]). }
  intros n r X. destruct (H n) as (_ & _ & [P | P]); rewrite P in X; discriminate.
Qed.
Print Assumptions C60_unfair_refuted.

(** The lock is not a queue: a call can be overtaken any number of times. For every n there is an execution in which n later calls have
    taken the lock and returned, one after the other, while the first call had 2 n turns and has not got the lock. *)
Definition overtaking_round (i : nat) : list nat := [i; 0; i; i; i; 0].
Lemma astep_load ptr addrs (calls : list acall) i (locks : list bool) pcs pc lock lock' pc' : let l := lock_index ptr (nth 0 addrs 0%Z) in
  nth_error calls i = Some (0, ALoad) -> nth_error pcs i = Some pc -> nth_error locks l = Some lock ->
  astep_pc ALoad lock [7]%Z pc = Some (lock', [7]%Z, pc') ->
  astep ptr addrs calls i {| a_locks := locks; a_objs := [[7]]%Z; a_pcs := pcs |} =
    Some {| a_locks := upd locks l lock'; a_objs := [[7]]%Z; a_pcs := upd pcs i pc' |}.
Proof. intros l C P L E. unfold astep. rewrite C. cbn [a_pcs a_locks a_objs]. rewrite P. fold l. rewrite L. cbn [nth_error]. rewrite E. reflexivity. Qed.
Lemma overtaking_step ptr addrs (calls : list acall) (locks : list bool) j ps :
  nth_error calls 0 = Some (0, ALoad) -> nth_error calls (S j) = Some (0, ALoad) ->
  nth_error locks (lock_index ptr (nth 0 addrs 0%Z)) = Some false -> nth_error ps j = Some AWait ->
  arun ptr addrs calls (overtaking_round (S j)) {| a_locks := locks; a_objs := [[7]]%Z; a_pcs := AWait :: ps |} =
    Some {| a_locks := locks; a_objs := [[7]]%Z; a_pcs := AWait :: upd ps j (ADone [7]%Z) |}.
Proof.
  intros C0 Cj L P. unfold overtaking_round.
  assert (N1 : forall v, nth_error (upd locks (lock_index ptr (nth 0 addrs 0%Z)) v) (lock_index ptr (nth 0 addrs 0%Z)) = Some v)
    by (intro v; eapply upd_nth_error_eq; exact L).
  assert (N2 : forall p v, nth_error (p :: upd ps j v) (S j) = Some v) by (intros p v; cbn [nth_error]; eapply upd_nth_error_eq; exact P).
  cbn [arun]. rewrite (astep_load _ _ _ (S j) _ _ AWait false true (ARead [])); [|assumption..|reflexivity]. cbn [upd].
  rewrite (astep_load _ _ _ 0 _ _ AWait true true APause); [|assumption|reflexivity|apply N1|reflexivity]. cbn [upd]. rewrite upd_upd.
  rewrite (astep_load _ _ _ (S j) _ _ (ARead []) true true (ARead [7]%Z)); [|assumption|apply N2|apply N1|reflexivity]. cbn [upd]. rewrite !upd_upd.
  rewrite (astep_load _ _ _ (S j) _ _ (ARead [7]%Z) true true (ARelease [7]%Z)); [|assumption|apply N2|apply N1|reflexivity]. cbn [upd]. rewrite !upd_upd.
  rewrite (astep_load _ _ _ (S j) _ _ (ARelease [7]%Z) true false (ADone [7]%Z)); [|assumption|apply N2|apply N1|reflexivity]. cbn [upd]. rewrite !upd_upd.
  rewrite (astep_load _ _ _ 0 _ _ APause false false AWait); [|assumption|reflexivity|apply N1|reflexivity]. cbn [upd]. rewrite !upd_upd.
  rewrite (upd_same _ _ _ L). reflexivity.
Qed.
Theorem C60_overtaking_refuted (n : nat) : exists ptr addrs objs calls sched s,
  calls = repeat (0, ALoad) (S n) /\ Forall (keeps_size objs) calls /\ arun ptr addrs calls sched (ainit objs calls) = Some s /\
  count_occ Nat.eq_dec sched 0 = 2 * n /\
  nth_error (a_pcs s) 0 = Some AWait /\ (forall i, 0 < i <= n -> exists r, nth_error (a_pcs s) i = Some (ADone r)).
Proof.
  set (calls := repeat ((0, ALoad) : acall) (S n)).
  assert (G : forall k, k <= n -> exists sched, count_occ Nat.eq_dec sched 0 = 2 * k /\
    arun 8 [64]%Z calls sched (ainit [[7]]%Z calls) =
      Some {| a_locks := repeat false 256; a_objs := [[7]]%Z; a_pcs := AWait :: repeat (ADone [7]%Z) k ++ repeat AWait (n - k) |}).
  { induction k as [|k IH]; intro Hk.
    - exists []. split; [reflexivity|]. cbn [arun repeat app]. rewrite Nat.sub_0_r. unfold ainit, calls. cbn [repeat map]. do 3 f_equal.
      clear. induction n as [|n IH]; [reflexivity|]. cbn [repeat map]. now rewrite IH.
    - destruct IH as (sched & Cn & R); [lia|]. exists (sched ++ overtaking_round (S k)). split.
      + rewrite count_occ_app, Cn. unfold overtaking_round. cbn. lia.
      + assert (App : forall a b s, arun 8 [64]%Z calls (a ++ b) s = match arun 8 [64]%Z calls a s with Some s' => arun 8 [64]%Z calls b s' | None => None end).
        { clear. induction a as [|i a IH]; intros b s; [reflexivity|]. cbn [app arun]. destruct (astep 8 [64]%Z calls i s); [apply IH|reflexivity]. }
        rewrite App, R. replace (n - k) with (S (n - S k)) by lia. cbn [repeat].
        rewrite overtaking_step.
        * do 3 f_equal. pose proof (upd_app_mid (repeat (ADone [7]%Z) k) AWait (repeat AWait (n - S k)) (ADone [7]%Z)) as M.
          rewrite repeat_length in M. rewrite M. change (ADone [7]%Z :: repeat (ADone [7]%Z) k) with (repeat (ADone [7]%Z) (S k)).
          replace (S k) with (k + 1) at 2 by lia. rewrite repeat_app. rewrite <- app_assoc. reflexivity.
        * reflexivity.
        * unfold calls. apply nth_error_repeat. lia.
        * vm_compute. reflexivity.
        * rewrite nth_error_app2; rewrite repeat_length; [now rewrite Nat.sub_diag|lia]. }
  destruct (G n (le_n _)) as (sched & Cn & R). exists 8%Z, [64]%Z, [[7]]%Z, calls, sched. eexists. split; [reflexivity|]. split.
  { apply Forall_forall. intros c Hc. apply repeat_spec in Hc. subst c. exists [7]%Z. split; reflexivity. }
  split; [exact R|]. split; [exact Cn|]. cbn [a_pcs]. split; [reflexivity|]. intros [|i] Hi; [lia|]. exists [7]%Z. cbn [nth_error].
  rewrite nth_error_app1 by (rewrite repeat_length; lia). apply nth_error_repeat. lia.
Qed.
Print Assumptions C60_overtaking_refuted.

(** Two threads that take turns. *)
Example C60_fair_case : fair 2 (fun n => n mod 2) /\ Forall (keeps_size [[7; 8]]%Z) [(0, AExchange [1; 2]%Z); (0, ALoad)].
Proof.
  split.
  - intros i n Hi. exists (2 * n + i). split; [lia|]. rewrite Nat.add_comm, Nat.mul_comm, Nat.mod_add by lia. apply Nat.mod_small. exact Hi.
  - repeat constructor; exists [7; 8]%Z; split; reflexivity.
Qed.
