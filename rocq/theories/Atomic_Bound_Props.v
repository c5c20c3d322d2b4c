(** C59: how often a compare-exchange loop can go round. *)
From Verif Require Import Base Atomic_Model Atomic_Spec Atomic_Proofs.
Local Open Scope nat_scope.

(** How many accesses of a schedule are thread i's, and how many of those are spurious failures. *)
Definition accesses {T} (i : nat) (sched : list (nat * @fetch_choice T)) : nat := length (filter (fun a => fst a =? i) sched).
Definition is_spurious {T} (c : @fetch_choice T) : bool := match c with FCas b => b | FLoad _ => false end.
Definition spurious_failures {T} (i : nat) (sched : list (nat * @fetch_choice T)) : nat :=
  length (filter (fun a => (fst a =? i) && is_spurious (snd a)) sched).

Section Bound.
  Context {T V : Type} (eqb : T -> T -> bool) (op : T -> V -> T) (Heqb : forall x y, eqb x y = true <-> x = y).

  Definition unfinished (pc : @fetch_pc T) : bool := match pc with FDone _ => false | _ => true end.
  (** The accesses that thread i has left if nobody else finishes. *)
  Definition own (mem : T) (pc : @fetch_pc T) : nat :=
    match pc with FDone _ => 0 | FLoop e => if eqb mem e then 1 else 2 | FStart => 3 end.
  Definition others (i : nat) (pcs : list (@fetch_pc T)) : nat :=
    length (filter (fun j => negb (j =? i) && match nth_error pcs j with Some pc => unfinished pc | None => false end) (seq 0 (length pcs))).

  Lemma own_le mem pc : own mem pc <= 3 /\ (unfinished pc = true -> 1 <= own mem pc).
  Proof. destruct pc; cbn; try destruct (eqb mem e); split; intros; try discriminate; lia. Qed.
  Lemma own_other mem mem' pc : own mem' pc <= own mem pc + 1.
  Proof. destruct pc; cbn; try destruct (eqb mem e); try destruct (eqb mem' e); lia. Qed.

  Lemma filter_le {A} (f g : A -> bool) l : (forall x, In x l -> f x = true -> g x = true) -> length (filter f l) <= length (filter g l).
  Proof.
    induction l as [|x l IH]; intro H; [reflexivity|]. cbn [filter]. assert (IH' := IH (fun y Hy => H y (or_intror Hy))).
    destruct (f x) eqn:E; [rewrite (H x (or_introl eq_refl) E); cbn [length]; lia|]. destruct (g x); cbn [length]; lia.
  Qed.
  Lemma filter_lt {A} (f g : A -> bool) l x : In x l -> f x = false -> g x = true -> (forall x, In x l -> f x = true -> g x = true) ->
    length (filter f l) < length (filter g l).
  Proof.
    induction l as [|y l IH]; intros I F G H; [destruct I|]. cbn [filter].
    assert (H' : forall z, In z l -> f z = true -> g z = true) by (intros z Hz; apply H; now right).
    destruct I as [-> | I].
    - rewrite F, G. cbn [length]. pose proof (filter_le f g l H'). lia.
    - specialize (IH I F G H'). destruct (f y) eqn:E; [rewrite (H y (or_introl eq_refl) E); cbn [length]; lia|]. destruct (g y); cbn [length]; lia.
  Qed.

  (** What one access does to its thread. *)
  Lemma access impl c v mem pc mem' pc' : impl = fetch_std eqb op \/ impl = fetch_msvc eqb op -> impl c v mem pc = Some (mem', pc') ->
    own mem' pc' + (if is_spurious c then 0 else 1) <= own mem pc /\ unfinished pc = true /\ (mem' = mem \/ unfinished pc' = false).
  Proof.
    assert (R : forall a, eqb a a = true) by (intro; now apply Heqb).
    intros [-> | ->] E; destruct c as [st|sp], pc as [|e|r]; try discriminate; cbn [fetch_std fetch_msvc] in E.
    - injection E as <- <-. cbn [own is_spurious]. destruct (eqb mem st); split; [lia|auto|lia|auto].
    - destruct (eqb mem e) eqn:Q, sp; cbn [andb negb] in E; injection E as <- <-; cbn [own is_spurious unfinished]; rewrite ?Q, ?R; split; (lia || auto).
    - injection E as <- <-. cbn [own is_spurious]. destruct (eqb mem st); split; [lia|auto|lia|auto].
    - destruct (eqb mem e) eqn:Q; injection E as <- <-; cbn [own is_spurious unfinished]; rewrite ?Q, ?R; split; try destruct sp; (lia || auto).
  Qed.

  Definition bound (i : nat) (s : @fetch_state T) : nat :=
    match nth_error (f_pcs s) i with Some pc => own (f_mem s) pc + others i (f_pcs s) | None => 0 end.

  Lemma bound_step impl vs i j c s s' : impl = fetch_std eqb op \/ impl = fetch_msvc eqb op -> fetch_step impl vs j c s = Some s' ->
    bound i s' + (if (j =? i) && negb (is_spurious c) then 1 else 0) <= bound i s.
  Proof.
    intros Hi E. unfold fetch_step in E. destruct (nth_error vs j) as [v|]; [|discriminate].
    destruct (nth_error (f_pcs s) j) as [pc|] eqn:Hp; [|discriminate].
    destruct (impl c v (f_mem s) pc) as [[mem' pc']|] eqn:EI; [|discriminate]. injection E as <-.
    destruct (access impl c v _ _ _ _ Hi EI) as (D & U & M). unfold bound. cbn [f_pcs f_mem].
    assert (O : others i (upd (f_pcs s) j pc') <= others i (f_pcs s)).
    { unfold others. rewrite upd_length. apply filter_le. intros k _ H. apply andb_true_iff in H as [H1 H2]. rewrite H1. cbn [andb].
      destruct (Nat.eq_dec j k) as [<-|N]; [rewrite Hp; exact U|]. rewrite nth_error_upd_ne in H2 by exact N. exact H2. }
    destruct (Nat.eqb_spec j i) as [->|N]; cbn [andb].
    - rewrite (upd_nth_error_eq _ _ _ _ Hp), Hp. destruct (is_spurious c); cbn [negb]; lia.
    - rewrite nth_error_upd_ne by exact N. destruct (nth_error (f_pcs s) i) as [pi|] eqn:Hpi; [|lia].
      destruct M as [-> | M]; [lia|]. pose proof (own_other (f_mem s) mem' pi).
      assert (others i (upd (f_pcs s) j pc') < others i (f_pcs s)); [|lia].
      unfold others. rewrite upd_length. apply filter_lt with j.
      + apply in_seq. apply nth_error_lt in Hp. lia.
      + rewrite (upd_nth_error_eq _ _ _ _ Hp), M. apply andb_false_r.
      + rewrite Hp, U. apply Nat.eqb_neq in N. rewrite N. reflexivity.
      + intros k _ X. apply andb_true_iff in X as [H1 H2]. rewrite H1. cbn [andb].
        destruct (Nat.eq_dec j k) as [<-|N']; [rewrite Hp; exact U|]. rewrite nth_error_upd_ne in H2 by exact N'. exact H2.
  Qed.

  Lemma bound_run impl vs i : impl = fetch_std eqb op \/ impl = fetch_msvc eqb op -> forall sched s s', fetch_run impl vs sched s = Some s' ->
    bound i s' + accesses i sched <= bound i s + spurious_failures i sched.
  Proof.
    intros Hi. induction sched as [|[j c] sched IH]; intros s s' R.
    - injection R as <-. reflexivity.
    - cbn [fetch_run] in R. destruct (fetch_step impl vs j c s) as [s1|] eqn:E; [|discriminate].
      specialize (IH _ _ R). assert (B := bound_step impl vs i j c s s1 Hi E). unfold accesses, spurious_failures in *. cbn [filter fst snd].
      destruct (j =? i), (is_spurious c); cbn [andb negb length] in *; lia.
  Qed.

  Lemma bound_init x (vs : list V) i : bound i (fetch_init x vs) <= length vs + 2.
  Proof.
    unfold bound, fetch_init. cbn [f_pcs f_mem]. rewrite nth_error_map. destruct (nth_error vs i) as [v|] eqn:Hv; cbn [option_map]; [|lia].
    cbn [own]. unfold others. rewrite map_length.
    assert (H : length (filter (fun j => negb (j =? i) && match nth_error (map (fun _ : V => @FStart T) vs) j with Some pc => unfinished pc | None => false end) (seq 0 (length vs)))
      < length (filter (fun _ => true) (seq 0 (length vs)))).
    { apply filter_lt with i; [apply in_seq; apply nth_error_lt in Hv; lia| |reflexivity|reflexivity]. rewrite Nat.eqb_refl. reflexivity. }
    assert (A : forall (l : list nat), length (filter (fun _ => true) l) = length l) by (induction l; cbn; congruence).
    rewrite A, seq_length in H. lia.
  Qed.
End Bound.

(** Whatever the others do and whatever the first load gives: among n threads that each make one call, a thread makes at most n + 2
    accesses, and one more for each compare_exchange_weak of its own that fails for no reason. *)
Theorem C59_accesses {T V : Type} (eqb : T -> T -> bool) (op : T -> V -> T) (x : T) (vs : list V) impl sched s i :
  (forall a b, eqb a b = true <-> a = b) ->
  impl = fetch_std eqb op \/ impl = fetch_msvc eqb op ->
  fetch_run impl vs sched (fetch_init x vs) = Some s ->
  accesses i sched <= length vs + 2 + spurious_failures i sched.
Proof.
  intros He Hi R. pose proof (bound_run eqb op He impl vs i Hi sched _ _ R). pose proof (bound_init eqb x vs i). lia.
Qed.
Print Assumptions C59_accesses.

(** And it is never stuck: a thread that has not returned can go on. *)
Theorem C59_enabled {T V : Type} (eqb : T -> T -> bool) (op : T -> V -> T) (x : T) (vs : list V) impl sched s i pc :
  (forall a b, eqb a b = true <-> a = b) ->
  impl = fetch_std eqb op \/ impl = fetch_msvc eqb op ->
  fetch_run impl vs sched (fetch_init x vs) = Some s ->
  nth_error (f_pcs s) i = Some pc -> (forall r, pc <> FDone r) ->
  exists c s', is_spurious c = false /\ fetch_step impl vs i c s = Some s'.
Proof.
  intros He Hi R Hp Hn.
  assert (G : good_impl op impl). { destruct Hi as [-> | ->]; [now apply good_std|now apply good_msvc]. }
  destruct (fetch_inv_run op impl vs x G _ _ _ _ (fetch_inv_init op vs x) R) as (h & _ & _ & L & _).
  destruct (nth_error vs i) as [v|] eqn:Hv; [|apply nth_error_None in Hv; apply nth_error_lt in Hp; lia].
  exists (match pc with FStart => FLoad x | _ => FCas false end). unfold fetch_step. rewrite Hv, Hp.
  destruct pc as [|e|r]; [| |now destruct (Hn r)]; destruct Hi as [-> | ->]; cbn [fetch_std fetch_msvc];
    try (eexists; split; reflexivity).
  - destruct (eqb (f_mem s) e && negb false); eexists; split; reflexivity.
  - cbv zeta. destruct (eqb (f_mem s) e); eexists; split; reflexivity.
Qed.
Print Assumptions C59_enabled.

(** The bound is met: three threads, and the last makes five accesses. *)
Example C59_accesses_case :
  let sched := [(2, FLoad 1%Z); (2, FCas false); (0, FLoad 0%Z); (0, FCas false); (2, FCas false); (1, FLoad 5%Z); (1, FCas false); (2, FCas false); (2, FCas false)] in
  option_map f_pcs (fetch_run (fetch_msvc Z.eqb Z.add) [5; 7; 11]%Z sched (fetch_init 0%Z [5; 7; 11]%Z)) = Some [FDone 0; FDone 5; FDone 12]%Z /\
  accesses 2 sched = 5 /\ spurious_failures 2 sched = 0.
Proof. repeat split; reflexivity. Qed.
