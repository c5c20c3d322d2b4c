(** Proofs about the atomics without locks. *)
From Verif Require Import Base Interlocked_Model Interlocked_Spec.
Local Open Scope Z_scope.

(** A call is carried out by one access with its effect, or by a loop with its effect. *)
Definition carries (how : impl) (t : ty) (c : call) : Prop :=
  (exists f, how = IStep f /\ forall m, f m = Some (effect t c m)) \/
  (exists op, how = ILoop op /\ forall m, effect t c m = (op m, (m, true))).

Lemma mod_add_mod m v M : (m + v mod M) mod M = (m + v) mod M.
Proof. apply Zplus_mod_idemp_r. Qed.

Lemma delta_ok t sub n : builtin t -> is_fpu t = false -> count t n -> (sub = true -> negatable t n) ->
  exists v, delta t sub n = Some v /\
    forall m, (m + v) mod 2 ^ (8 * t_size t) = assign_op t sub n m.
Proof.
  intros B F C N. unfold delta, assign_op, builtin, is_fpu, count, negatable in *.
  destruct t as [size [signed|stride|p q|p q|x p q]]; cbn [t_kind t_size] in *; try discriminate; try tauto.
  - set (w := 8 * size) in *. set (p := Z.max w 32) in *. set (v := if sub then 0 - n else 0 + n).
    assert (R : (signed || (w <? 32)) && negb ((- 2 ^ (p - 1) <=? v) && (v <? 2 ^ (p - 1))) = false).
    { destruct (signed || (w <? 32)) eqn:E; [|reflexivity]. cbn [andb]. apply negb_false_iff, andb_true_iff.
      rewrite Z.leb_le, Z.ltb_lt.
      assert (S : - 2 ^ (p - 1) <= n < 2 ^ (p - 1) /\ (signed = true \/ size < 4)).
      { destruct signed; cbn [orb] in E.
        - split; [exact C|now left].
        - apply Z.ltb_lt in E. assert (L : size < 4) by (subst w; lia). split; [|now right].
          apply Z.ltb_lt in L. rewrite L in C. subst p. now replace (Z.max w 32) with 32 by lia. }
      destruct S as [S1 S2]. subst v. destruct sub; [|lia]. specialize (N eq_refl S2). lia. }
    rewrite R. exists (v mod 2 ^ w). split; [reflexivity|]. intro m. rewrite mod_add_mod. subst v. destruct sub; f_equal; lia.
  - eexists. split; [reflexivity|]. intro m. rewrite mod_add_mod. destruct sub; f_equal; lia.
Qed.

Lemma fetch_effect t (sub : bool) n m : effect t (if sub then CSub n else CAdd n) m = (assign_op t sub n m, (m, true)).
Proof. destruct sub, (t_kind t) eqn:K; unfold effect, assign_op; now rewrite K. Qed.

Ltac sizes B := destruct B as [B | B]; [|try (destruct B as [B | B]; [|try (destruct B as [B | B])])].

Lemma msvc_fetch_carries t (sub : bool) n : builtin t -> count t n -> (sub = true -> negatable t n) ->
  carries (msvc_fetch t sub n) t (if sub then CSub n else CAdd n).
Proof.
  intros B C N. destruct (is_fpu t) eqn:F.
  - right. exists (assign_op t sub n). split; [|intro m; apply fetch_effect].
    unfold msvc_fetch, is_i8, is_i16, is_i32, is_i64. rewrite F. rewrite !andb_false_r.
    unfold is_mem. unfold builtin, is_fpu in *. destruct t as [size [|?|?|?|?]]; cbn in F, B; try discriminate; try tauto.
    cbn [t_size]. destruct B as [-> | ->]; reflexivity.
  - destruct (delta_ok t sub n B F C N) as (v & Dv & Hv). left.
    exists (fun m => match delta t sub n with
      | Some v => let '(m, u) := interlocked_exchange_add (8 * t_size t) v m in Some (m, (u, true)) | None => None end). split.
    + unfold msvc_fetch, is_i8, is_i16, is_i32, is_i64. rewrite F. cbn [negb]. rewrite !andb_true_r.
      unfold is_m8, is_m16, is_m32, is_m64, is_cpu, can_cpu_sub, can_sub, can_user_sub. unfold builtin, is_fpu in *.
      destruct t as [size [|?|?|?|?]]; cbn in F, B; try discriminate; try tauto; cbn [t_kind t_size negb andb].
      * destruct B as [-> | [-> | [-> | ->]]]; reflexivity.
      * destruct B as [-> | ->]; reflexivity.
    + intro m. rewrite Dv. unfold interlocked_exchange_add. rewrite Hv, fetch_effect. reflexivity.
Qed.

Lemma small_size t : small t -> t_size t = 1 \/ t_size t = 2 \/ t_size t = 4 \/ t_size t = 8.
Proof. unfold small, builtin. destruct (t_kind t); tauto. Qed.
Lemma msvc_fetch_user t (sub : bool) n : can_user_sub t = true -> small t -> carries (msvc_fetch t sub n) t (if sub then CSub n else CAdd n).
Proof.
  intros U B. right. exists (assign_op t sub n). split; [|intro m; apply fetch_effect]. apply small_size in B.
  unfold msvc_fetch, is_i8, is_i16, is_i32, is_i64, is_cpu, can_cpu_sub, is_mem. rewrite U, !andb_false_r. destruct t as [size k]. cbn [t_size] in *. destruct B as [-> | [-> | [-> | ->]]]; reflexivity.
Qed.
Lemma msvc_fetch_member t (sub : bool) n p q : t_kind t = KMember false p q -> small t ->
  carries (msvc_fetch t sub n) t (if sub then CSub n else CAdd n).
Proof.
  intros K B. right. exists (assign_op t sub n). split; [|intro m; apply fetch_effect]. apply small_size in B.
  destruct t as [size k]. cbn [t_size t_kind] in *. subst k. destruct B as [-> | [-> | [-> | ->]]]; reflexivity.
Qed.
Lemma builtin_or_member t : small t -> can_user_sub t = false -> builtin t \/ exists x p q, t_kind t = KMember x p q.
Proof. unfold small, can_user_sub, builtin. destruct (t_kind t); intros; try discriminate; eauto. Qed.
Lemma msvc_carries k t c : small t -> sound k t c -> carries (msvc_impl k t c) t c.
Proof.
  intros B (A & Ld & M). pose proof (small_size t B) as Z. destruct c as [|v|v|b c|n|n|v|v|v]; cbn [msvc_impl allowed] in *; try tauto.
  - destruct (Ld eq_refl) as [Bt N]. left. eexists. split; [|intro; reflexivity]. unfold msvc_load, is_cpu, can_cpu_sub, can_sub, can_user_sub, is_m64.
    unfold builtin in Bt. destruct (t_kind t); try tauto; cbn [andb negb]; destruct k; try reflexivity; rewrite (proj2 (Z.eqb_neq _ _) (N eq_refl)); reflexivity.
  - left. exists (fun m => let '(m, _) := interlocked_exchange v m in Some (m, (0, true))). split; [|intro; reflexivity].
    unfold msvc_store, is_m8, is_m16, is_m32, is_m64. destruct Z as [-> | [-> | [-> | ->]]]; reflexivity.
  - left. exists (fun m => let '(m, u) := interlocked_exchange v m in Some (m, (u, true))). split; [|intro; reflexivity].
    unfold msvc_exchange, is_m8, is_m16, is_m32, is_m64. destruct Z as [-> | [-> | [-> | ->]]]; reflexivity.
  - left. exists (fun m => let '(m, n) := interlocked_compare_exchange c b m in Some (m, (n, n =? b))). split.
    + unfold msvc_cas, is_mem, is_m8, is_m16, is_m32, is_m64. destruct Z as [-> | [-> | [-> | ->]]]; reflexivity.
    + intro m. unfold interlocked_compare_exchange, effect. destruct (m =? b); reflexivity.
  - destruct (can_user_sub t) eqn:U; [now apply (msvc_fetch_user t false n)|].
    destruct (builtin_or_member t B U) as [Bt|(x & p & q & K)]; [apply (msvc_fetch_carries t false n); auto; discriminate|].
    apply (msvc_fetch_member t false n p q); auto. destruct x; [exfalso; eapply (M n); eauto|exact K].
  - destruct (can_user_sub t) eqn:U; [now apply (msvc_fetch_user t true n)|].
    destruct (builtin_or_member t B U) as [Bt|(x & p & q & K)]; [apply (msvc_fetch_carries t true n); tauto|].
    apply (msvc_fetch_member t true n p q); auto. destruct x; [exfalso; eapply (M n); eauto|exact K].
Qed.

Lemma std_carries has t c : offered t c -> carries (std_impl has t c) t c.
Proof.
  intros O. destruct c as [|v|v|b c|n|n|v|v|v]; cbn [std_impl offered] in *.
  - left. eexists. split; [reflexivity|intro; reflexivity].
  - left. eexists. split; [reflexivity|intro; reflexivity].
  - left. eexists. split; [reflexivity|intro; reflexivity].
  - left. eexists. split; [reflexivity|]. intro m. cbn. destruct (m =? b) eqn:E; [|reflexivity]. apply Z.eqb_eq in E. now subst.
  - assert (F : forall m, effect t (CAdd n) m = (assign_op t false n m, (m, true))) by apply (fetch_effect t false n).
    destruct (t_kind t) eqn:K; [| |destruct has| |]; (left + right); eexists; (split; [reflexivity|intro m; now rewrite F]).
  - assert (F : forall m, effect t (CSub n) m = (assign_op t true n m, (m, true))) by apply (fetch_effect t true n).
    destruct (t_kind t) eqn:K; [| |destruct has| |]; (left + right); eexists; (split; [reflexivity|intro m; now rewrite F]).
  - destruct O as [sg ->]. left. eexists. split; [reflexivity|intro; reflexivity].
  - destruct O as [sg ->]. left. eexists. split; [reflexivity|intro; reflexivity].
  - destruct O as [sg ->]. left. eexists. split; [reflexivity|intro; reflexivity].
Qed.

(** ** Executions *)

Section Runs.
  Variables (how : ty -> call -> impl) (ts : list ty) (objs : list Z) (programs : list (list (nat * call))) (ok : ty -> call -> Prop).
  Hypothesis Hok : forall t c, In t ts -> ok t c -> carries (how t c) t c.
  Hypothesis Htyped : well_typed ok ts programs.
  Hypothesis Hlen : length objs = length ts.

  (** The phase of a thread, and what it is inside of. *)
  Definition at_phase (p : phase) (k : pc) : Prop :=
    match k with
    | Idle => p = Outside
    | Begin o c => p = Called o c
    | Loop o c _ => p = Called o c /\ exists t op, nth_error ts o = Some t /\ how t c = ILoop op
    | Half _ _ => False
    | End r => p = Effective r
    end.

  Record inv (h : list moment) (s : state) : Prop := {
    i_now : one_by_one ts objs h (mem s);
    i_len : length (mem s) = length ts;
    i_threads : length (threads s) = length programs;
    i_in : forall i th, nth_error (threads s) i = Some th -> exists p, in_order i h p /\ at_phase p (th_pc th);
    i_out : forall i, nth_error (threads s) i = None -> in_order i h Outside;
    i_none : forall i, nth_error (threads s) i = None -> calls i (seen h) = [];
    i_calls : forall i th, nth_error (threads s) i = Some th -> nth i programs [] = calls i (seen h) ++ th_todo th;
    i_call : forall i th o c, nth_error (threads s) i = Some th -> in_order i h (Called o c) -> exists t, nth_error ts o = Some t /\ ok t c
  }.

  Lemma inv_start : inv [] (start objs programs).
  Proof.
    split; cbn [start mem threads].
    - constructor.
    - exact Hlen.
    - apply map_length.
    - intros i th E. rewrite nth_error_map in E. destruct (nth_error programs i) as [p|]; [|discriminate]. injection E as <-.
      exists Outside. split; [constructor|reflexivity].
    - intros. constructor.
    - reflexivity.
    - intros i th E. rewrite nth_error_map in E. destruct (nth_error programs i) as [p|] eqn:P; [|discriminate]. injection E as <-.
      cbn. now apply nth_error_nth.
    - intros i th o c _ H. inversion H; subst; destruct h; discriminate.
  Qed.

  Lemma nth_upd {A} (l : list A) i v j : nth_error (upd l i v) j = if Nat.eqb i j then (match nth_error l i with Some _ => Some v | None => None end) else nth_error l j.
  Proof.
    revert i j. induction l as [|a l IH]; intros [|i] [|j]; cbn; try reflexivity; try (now destruct (Nat.eqb i j)).
    apply IH.
  Qed.
  Lemma len_upd {A} (l : list A) i v : length (upd l i v) = length l.
  Proof. revert i. induction l as [|a l IH]; intros [|i]; cbn; congruence. Qed.

  Lemma in_order_fun i h p : in_order i h p -> forall q, in_order i h q -> p = q.
  Proof.
    induction 1 as [|h p x p' H IH W F|h p x H IH W]; intros q Q.
    - inversion Q; subst; auto; destruct h; discriminate.
    - inversion Q as [E|h2 p2 x2 q2 H2 W2 F2 E|h2 p2 x2 H2 W2 E].
      + destruct h; discriminate.
      + apply app_inj_tail in E as [-> ->]. rewrite (IH _ H2) in *. clear - F F2. inversion F; subst; inversion F2; subst; congruence.
      + apply app_inj_tail in E as [-> ->]. contradiction.
    - inversion Q as [E|h2 p2 x2 q2 H2 W2 F2 E|h2 p2 x2 H2 W2 E].
      + destruct h; discriminate.
      + apply app_inj_tail in E as [-> ->]. contradiction.
      + apply app_inj_tail in E as [-> ->]. auto.
  Qed.

  Lemma in_order_snoc_inv i h x p : in_order i (h ++ [x]) p ->
    (exists q, in_order i h q /\ who x = i /\ follows q x p) \/ (in_order i h p /\ who x <> i).
  Proof.
    intro Q. inversion Q as [E|h2 p2 x2 q2 H2 W2 F2 E|h2 p2 x2 H2 W2 E].
    - destruct h; discriminate.
    - apply app_inj_tail in E as [-> ->]. left. eauto.
    - apply app_inj_tail in E as [-> ->]. right. auto.
  Qed.

  Lemma seen_snoc h x : seen (h ++ [x]) = seen h ++ match x with Seen e => [e] | At _ _ _ _ => [] end.
  Proof. unfold seen. rewrite flat_map_app. cbn. now rewrite app_nil_r. Qed.
  Lemma calls_app i a b : calls i (a ++ b) = calls i a ++ calls i b.
  Proof. unfold calls. apply flat_map_app. Qed.

  (** Thread i moves from phase p to q at moment x. *)
  Lemma inv_move h s i th x p q m' k todo :
    inv h s -> nth_error (threads s) i = Some th -> in_order i h p -> who x = i -> follows p x q -> at_phase q k ->
    one_by_one ts objs (h ++ [x]) m' -> length m' = length ts ->
    nth i programs [] = calls i (seen (h ++ [x])) ++ todo ->
    (forall o c, q = Called o c -> exists t, nth_error ts o = Some t /\ ok t c) ->
    inv (h ++ [x]) {| mem := m'; threads := upd (threads s) i {| th_pc := k; th_todo := todo |} |}.
  Proof.
    intros V E P W F K O L C Q. split; cbn [mem threads].
    - exact O.
    - exact L.
    - rewrite len_upd. apply (i_threads _ _ V).
    - intros j th' E'. rewrite nth_upd in E'. destruct (Nat.eqb i j) eqn:N; [apply Nat.eqb_eq in N; subst j|apply Nat.eqb_neq in N].
      + rewrite E in E'. injection E' as <-. exists q. split; [eapply io_mine; eauto|exact K].
      + destruct (i_in _ _ V j th' E') as (p' & P' & K'). exists p'. split; [|exact K']. apply io_other; [exact P'|congruence].
    - intros j E'. rewrite nth_upd in E'. destruct (Nat.eqb i j) eqn:N; [apply Nat.eqb_eq in N; subst j|apply Nat.eqb_neq in N].
      + rewrite E in E'. discriminate.
      + apply io_other; [|congruence]. apply (i_out _ _ V j E').
    - intros j E'. rewrite nth_upd in E'. destruct (Nat.eqb i j) eqn:N; [apply Nat.eqb_eq in N; subst j|apply Nat.eqb_neq in N].
      + rewrite E in E'. discriminate.
      + rewrite seen_snoc, calls_app, (i_none _ _ V j E').
        destruct x as [[a o c|a r]|a o c r]; cbn in *; try reflexivity. destruct (Nat.eqb_spec a j); [congruence|reflexivity].
    - intros j th' E'. rewrite nth_upd in E'. destruct (Nat.eqb i j) eqn:N; [apply Nat.eqb_eq in N; subst j|apply Nat.eqb_neq in N].
      + rewrite E in E'. injection E' as <-. exact C.
      + rewrite (i_calls _ _ V j th' E'). f_equal. rewrite seen_snoc, calls_app. rewrite <- (app_nil_r (calls j (seen h))) at 1. f_equal.
        destruct x as [[a o c|a r]|a o c r]; cbn in *; try reflexivity. destruct (Nat.eqb_spec a j); [congruence|reflexivity].
    - intros j th' o c E' I. rewrite nth_upd in E'. apply in_order_snoc_inv in I. destruct (Nat.eqb i j) eqn:N; [apply Nat.eqb_eq in N; subst j|apply Nat.eqb_neq in N].
      + destruct I as [(q' & I' & _ & F')|[_ X]]; [|contradiction]. rewrite (in_order_fun _ _ _ I' _ P) in F'.
        apply Q. clear - F F'. inversion F; subst; inversion F'; subst; congruence.
      + destruct I as [(q' & _ & X & _)|[I' _]]; [congruence|]. eapply (i_call _ _ V); eauto.
  Qed.

  (** Thread i does something that nobody sees and that changes no object. *)
  Lemma inv_stay h s i th p m' k :
    inv h s -> nth_error (threads s) i = Some th -> in_order i h p -> at_phase p k -> m' = mem s ->
    inv h {| mem := m'; threads := upd (threads s) i {| th_pc := k; th_todo := th_todo th |} |}.
  Proof.
    intros V E P K ->. split; cbn [mem threads].
    - apply (i_now _ _ V).
    - apply (i_len _ _ V).
    - rewrite len_upd. apply (i_threads _ _ V).
    - intros j th' E'. rewrite nth_upd in E'. destruct (Nat.eqb i j) eqn:N; [apply Nat.eqb_eq in N; subst j|apply Nat.eqb_neq in N]; [|apply (i_in _ _ V j th' E')].
      rewrite E in E'. injection E' as <-. eauto.
    - intros j E'. rewrite nth_upd in E'. destruct (Nat.eqb i j) eqn:N; [apply Nat.eqb_eq in N; subst j|apply Nat.eqb_neq in N]; [|apply (i_out _ _ V j E')].
      rewrite E in E'. discriminate.
    - intros j E'. rewrite nth_upd in E'. destruct (Nat.eqb i j) eqn:N; [apply Nat.eqb_eq in N; subst j|apply Nat.eqb_neq in N]; [|apply (i_none _ _ V j E')].
      rewrite E in E'. discriminate.
    - intros j th' E'. rewrite nth_upd in E'. destruct (Nat.eqb i j) eqn:N; [apply Nat.eqb_eq in N; subst j|apply Nat.eqb_neq in N]; [|apply (i_calls _ _ V j th' E')].
      rewrite E in E'. injection E' as <-. apply (i_calls _ _ V i th E).
    - intros j th' o c E' I. rewrite nth_upd in E'. destruct (Nat.eqb i j) eqn:N; [apply Nat.eqb_eq in N; subst j|apply Nat.eqb_neq in N].
      + apply (i_call _ _ V i th); assumption.
      + apply (i_call _ _ V j th'); assumption.
  Qed.

  Lemma upd_id {A} (l : list A) i v : nth_error l i = Some v -> upd l i v = l.
  Proof. revert i. induction l as [|a l IH]; intros [|i] E; cbn in *; try discriminate; [now injection E as ->|]. f_equal. auto. Qed.

  (** What one step does: it is never undefined; it is disabled only for a thread that has no more calls. *)
  Inductive stepped (h : list moment) (i : nat) : list event -> state -> Prop :=
    | st_seen x e s' : x = Seen e -> inv (h ++ [x]) s' -> stepped h i [e] s'
    | st_at o c r s' : inv (h ++ [At i o c r]) s' -> stepped h i [] s'
    | st_hid s' : inv h s' -> stepped h i [] s'.

  Lemma step_inv h s i ch : inv h s ->
    match step how ts i ch s with
    | Next s' tr => stepped h i tr s'
    | Undefined => False
    | Disabled => forall th, nth_error (threads s) i = Some th -> th_pc th = Idle /\ th_todo th = []
    end.
  Proof.
    intros V. unfold step. destruct (nth_error (threads s) i) as [th|] eqn:E; [|discriminate].
    destruct (i_in _ _ V i th E) as (p & P & K). pose proof (i_calls _ _ V i th E) as C.
    destruct (th_pc th) as [|o c|o low|o c e|r] eqn:EK; cbn [at_phase] in K; try contradiction.
    - subst p. destruct (th_todo th) as [|[o c] todo] eqn:ET.
      { intros th' E'. injection E' as <-. auto. }
      apply st_seen with (x := Seen (Inv i o c)); [reflexivity|].
      eapply inv_move; eauto; try reflexivity.
      + constructor.
      + constructor. apply (i_now _ _ V).
      + apply (i_len _ _ V).
      + rewrite C, seen_snoc, calls_app. cbn. rewrite Nat.eqb_refl. cbn. now rewrite <- app_assoc.
      + intros o' c' Q. injection Q as <- <-.
        assert (I : In (o, c) (nth i programs [])) by (rewrite C; apply in_or_app; right; now left).
        assert (L : (i < length programs)%nat).
        { destruct (Nat.lt_ge_cases i (length programs)) as [L|L]; [exact L|]. rewrite nth_overflow in I by exact L. destruct I. }
        apply (Htyped (nth i programs [])); [now apply nth_In|exact I].
    - subst p. destruct (i_call _ _ V i th o c E P) as (t & Et & Ht). rewrite Et.
      assert (M : exists m, nth_error (mem s) o = Some m).
      { destruct (nth_error (mem s) o) as [m|] eqn:M; [eauto|]. apply nth_error_None in M. rewrite (i_len _ _ V) in M.
        apply nth_error_None in M. congruence. }
      destruct M as (m & M). rewrite M. destruct (Hok t c (nth_error_In _ _ Et) Ht) as [(f & F & Ef)|(op & F & Ef)]; rewrite F; cbn [access_step].
      + rewrite Ef. destruct (effect t c m) as [m' r] eqn:X. apply st_at with (o := o) (c := c) (r := r).
        eapply inv_move; eauto; try reflexivity.
        * constructor.
        * eapply o_at; eauto. apply (i_now _ _ V).
        * rewrite len_upd. apply (i_len _ _ V).
        * rewrite seen_snoc, app_nil_r. exact C.
        * intros; discriminate.
      + apply st_hid. eapply inv_stay; eauto.
        * cbn. split; [reflexivity|]. eauto.
        * now apply upd_id.
    - destruct K as (-> & t & op & Et & F). destruct (i_call _ _ V i th o c E P) as (t' & Et' & Ht). rewrite Et in Et'. injection Et' as <-.
      rewrite Et.
      assert (M : exists m, nth_error (mem s) o = Some m).
      { destruct (nth_error (mem s) o) as [m|] eqn:M; [eauto|]. apply nth_error_None in M. rewrite (i_len _ _ V) in M.
        apply nth_error_None in M. congruence. }
      destruct M as (m & M). rewrite M, F. cbn [access_step].
      destruct (Hok t c (nth_error_In _ _ Et) Ht) as [(f & F' & _)|(op' & F' & Ef)]; [congruence|].
      rewrite F in F'. injection F' as <-.
      destruct ((m =? e) && negb (spurious ch)) eqn:B.
      + apply andb_true_iff in B as [B _]. apply Z.eqb_eq in B. subst e.
        apply st_at with (o := o) (c := c) (r := (m, true)).
        eapply inv_move; eauto; try reflexivity.
        * constructor.
        * eapply o_at; eauto. apply (i_now _ _ V).
        * rewrite len_upd. apply (i_len _ _ V).
        * rewrite seen_snoc, app_nil_r. exact C.
        * intros; discriminate.
      + apply st_hid. eapply inv_stay; eauto.
        * cbn. split; [reflexivity|]. eauto.
        * now apply upd_id.
    - subst p. apply st_seen with (x := Seen (Ret i r)); [reflexivity|].
      eapply inv_move; eauto; try reflexivity.
      + constructor.
      + constructor. apply (i_now _ _ V).
      + apply (i_len _ _ V).
      + rewrite C, seen_snoc, calls_app. cbn. now rewrite app_nil_r.
      + intros; discriminate.
  Qed.

  Lemma run_inv sched : forall h s, inv h s ->
    match run how ts sched s with
    | Next s' tr => exists h', seen (h ++ h') = seen h ++ tr /\ inv (h ++ h') s'
    | Undefined => False
    | Disabled => True
    end.
  Proof.
    induction sched as [|[i ch] sched IH]; intros h s V.
    - cbn. exists []. rewrite !app_nil_r. auto.
    - cbn [run]. pose proof (step_inv h s i ch V) as T. destruct (step how ts i ch s) as [s1 tr1| |]; auto.
      assert (G : exists h1, seen (h ++ h1) = seen h ++ tr1 /\ inv (h ++ h1) s1).
      { inversion T as [x e s' X V' |o c r s' V'|s' V']; subst.
        - exists [Seen e]. rewrite seen_snoc. auto.
        - exists [At i o c r]. rewrite seen_snoc. auto.
        - exists []. rewrite !app_nil_r. auto. }
      destruct G as (h1 & S1 & V1). specialize (IH _ _ V1). destruct (run how ts sched s1) as [s2 tr2| |]; auto.
      destruct IH as (h2 & S2 & V2). exists (h1 ++ h2). rewrite app_assoc, S2, S1, app_assoc. auto.
  Qed.

  Theorem run_linearizable sched s tr : run how ts sched (start objs programs) = Next s tr ->
    linearizable ts objs tr (mem s) /\ of_programs programs tr.
  Proof.
    intro R. pose proof (run_inv sched [] _ inv_start) as G. rewrite R in G. destruct G as (h & S & V). cbn [app] in *.
    change (seen [] ++ tr) with tr in S. split.
    - exists h. split; [exact S|]. split; [|apply (i_now _ _ V)]. intro i. destruct (nth_error (threads s) i) as [th|] eqn:E.
      + destruct (i_in _ _ V i th E) as (p & P & _). eauto.
      + exists Outside. now apply (i_out _ _ V).
    - intro i. destruct (nth_error (threads s) i) as [th|] eqn:E.
      + exists (th_todo th). rewrite <- S. now apply (i_calls _ _ V).
      + rewrite <- S, (i_none _ _ V i E). apply nth_error_None in E. rewrite (i_threads _ _ V) in E. rewrite nth_overflow by exact E.
        exists []. reflexivity.
  Qed.

  (** ** Progress *)

  Fixpoint sum {A} (f : A -> nat) (l : list A) : nat := match l with [] => 0%nat | a :: l => (f a + sum f l)%nat end.
  Lemma sum_upd {A} (f : A -> nat) (l : list A) i a b : nth_error l i = Some a -> (sum f (upd l i b) + f a = sum f l + f b)%nat.
  Proof.
    revert i. induction l as [|x l IH]; intros [|i] E; cbn in *; try discriminate.
    - injection E as ->. lia.
    - specialize (IH _ E). lia.
  Qed.
  Lemma sum_le {A} (f g : A -> nat) k (l : list A) : (forall a, f a <= g a + k)%nat -> (sum f l <= sum g l + k * length l)%nat.
  Proof. intro H. induction l as [|x l IH]; cbn; [lia|]. specialize (H x). lia. Qed.

  Definition live (th : thread) : nat := match th_pc th with End _ => 0 | _ => 1 end.
  Definition rank (m : list Z) (th : thread) : nat :=
    match th_pc th with
    | Idle => 3
    | Begin _ _ => 2
    | Loop o _ e => match nth_error m o with Some x => if x =? e then 1 else 2 | None => 2 end
    | Half _ _ => 2
    | End _ => 0
    end.
  Lemma rank_le m th : (rank m th <= 3)%nat.
  Proof. unfold rank. destruct (th_pc th) as [| | |o c e|]; try lia. destruct (nth_error m o) as [x|]; [destruct (x =? e)|]; lia. Qed.
  Lemma rank_change m m' th : (rank m' th <= rank m th + 1)%nat.
  Proof.
    unfold rank. destruct (th_pc th) as [| | |o c e|]; try lia.
    destruct (nth_error m o) as [x|]; [destruct (x =? e)|]; (destruct (nth_error m' o) as [y|]; [destruct (y =? e)|]; lia).
  Qed.

  Definition work (s : state) : nat :=
    ((3 * length (threads s) + 1) * sum live (threads s) + sum (rank (mem s)) (threads s))%nat.
  Lemma work_bound s : (work s <= 3 * length (threads s) * length (threads s) + 4 * length (threads s))%nat.
  Proof.
    unfold work.
    assert (L : (sum live (threads s) <= length (threads s))%nat).
    { generalize (threads s) as l. induction l as [|th l IH]; cbn; [lia|]. unfold live at 1. destruct (th_pc th); lia. }
    assert (R : (sum (rank (mem s)) (threads s) <= 3 * length (threads s))%nat).
    { generalize (threads s) as l. induction l as [|th l IH]; cbn; [lia|]. pose proof (rank_le (mem s) th). lia. }
    nia.
  Qed.

  Definition returns (e : event) : bool := match e with Ret _ _ => true | Inv _ _ _ => false end.

  (** A step after which nobody has returned: there is less left to do. *)
  Lemma step_work h s i s' tr : inv h s -> step how ts i exact s = Next s' tr -> existsb returns tr = false ->
    (S (work s') <= work s)%nat /\ length (threads s') = length (threads s).
  Proof.
    intros V R N. unfold step in R. destruct (nth_error (threads s) i) as [th|] eqn:E; [|discriminate].
    destruct (i_in _ _ V i th E) as (p & P & K).
    destruct (th_pc th) as [|o c|o low|o c e|r] eqn:EK; cbn [at_phase] in K; try contradiction.
    - destruct (th_todo th) as [|[o c] todo]; [discriminate|]. injection R as <- <-. cbn [threads mem]. rewrite len_upd. split; [|reflexivity].
      unfold work. cbn [threads mem]. rewrite len_upd.
      pose proof (sum_upd live _ _ _ {| th_pc := Begin o c; th_todo := todo |} E) as A.
      pose proof (sum_upd (rank (mem s)) _ _ _ {| th_pc := Begin o c; th_todo := todo |} E) as B.
      unfold live, rank in A, B. rewrite EK in A, B. cbn [th_pc] in A, B. fold live in A. fold (rank (mem s)) in B.
      nia.
    - destruct (nth_error ts o) as [t|] eqn:Et; [|discriminate]. destruct (nth_error (mem s) o) as [m|] eqn:M; [|discriminate].
      destruct (i_call _ _ V i th o c E) as (t' & Et' & Ht); [now rewrite <- K|]. rewrite Et in Et'. injection Et' as <-.
      destruct (Hok t c (nth_error_In _ _ Et) Ht) as [(f & F & Ef)|(op & F & Ef)]; rewrite F in R; cbn [access_step] in R.
      + rewrite Ef in R. destruct (effect t c m) as [m' r] eqn:X. injection R as <- <-. cbn [threads mem]. rewrite len_upd. split; [|reflexivity].
        unfold work. cbn [threads mem]. rewrite len_upd.
        pose proof (sum_upd live _ _ _ {| th_pc := End r; th_todo := th_todo th |} E) as A.
        pose proof (sum_upd (rank (upd (mem s) o m')) _ _ _ {| th_pc := End r; th_todo := th_todo th |} E) as B.
        pose proof (sum_le _ _ 1 (threads s) (rank_change (mem s) (upd (mem s) o m'))) as D.
        unfold live in A at 2 4. unfold rank in B at 2 4. rewrite EK in A, B. cbn [th_pc] in A, B.
        nia.
      + injection R as <- <-. cbn [threads mem]. rewrite len_upd. split; [|reflexivity].
        unfold work. cbn [threads mem exact stale]. rewrite len_upd, (upd_id _ _ _ M).
        pose proof (sum_upd live _ _ _ {| th_pc := Loop o c m; th_todo := th_todo th |} E) as A.
        pose proof (sum_upd (rank (mem s)) _ _ _ {| th_pc := Loop o c m; th_todo := th_todo th |} E) as B.
        unfold live in A at 2 4. unfold rank in B at 2 4. rewrite EK in A, B. cbn [th_pc] in A, B. rewrite M, Z.eqb_refl in B.
        nia.
    - destruct K as (-> & t & op & Et & F). rewrite Et in R. destruct (nth_error (mem s) o) as [m|] eqn:M; [|discriminate].
      rewrite F in R. cbn [access_step exact spurious] in R. rewrite andb_true_r in R. destruct (m =? e) eqn:Me.
      + injection R as <- <-. cbn [threads mem]. rewrite len_upd. split; [|reflexivity].
        unfold work. cbn [threads mem]. rewrite len_upd.
        pose proof (sum_upd live _ _ _ {| th_pc := End (e, true); th_todo := th_todo th |} E) as A.
        pose proof (sum_upd (rank (upd (mem s) o (op e))) _ _ _ {| th_pc := End (e, true); th_todo := th_todo th |} E) as B.
        pose proof (sum_le _ _ 1 (threads s) (rank_change (mem s) (upd (mem s) o (op e)))) as D.
        unfold live in A at 2 4. unfold rank in B at 4. rewrite EK in A. cbn [th_pc] in A, B.
        pose proof (rank_le (upd (mem s) o (op e)) th).
        nia.
      + injection R as <- <-. cbn [threads mem]. rewrite len_upd. split; [|reflexivity].
        unfold work. cbn [threads mem]. rewrite len_upd, (upd_id _ _ _ M).
        pose proof (sum_upd live _ _ _ {| th_pc := Loop o c m; th_todo := th_todo th |} E) as A.
        pose proof (sum_upd (rank (mem s)) _ _ _ {| th_pc := Loop o c m; th_todo := th_todo th |} E) as B.
        unfold live in A at 2 4. unfold rank in B at 2 4. rewrite EK in A, B. cbn [th_pc] in A, B. rewrite M, Z.eqb_refl, Me in B.
        nia.
    - injection R as <- <-. discriminate.
  Qed.

  Lemma run_work sched : forall h s s' tr, inv h s -> Forall (fun x => snd x = exact) sched ->
    run how ts sched s = Next s' tr -> existsb returns tr = false -> (length sched + work s' <= work s)%nat.
  Proof.
    induction sched as [|[i ch] sched IH]; intros h s s' tr V X R N.
    - cbn in R. injection R as <- <-. cbn. lia.
    - cbn [run] in R. apply Forall_inv in X as Xi. cbn in Xi. subst ch. apply Forall_inv_tail in X.
      pose proof (step_inv h s i exact V) as T.
      destruct (step how ts i exact s) as [s1 tr1| |] eqn:S; try discriminate.
      destruct (run how ts sched s1) as [s2 tr2| |] eqn:R2; try discriminate. injection R as <- <-.
      rewrite existsb_app in N. apply orb_false_iff in N as [N1 N2].
      destruct (step_work h s i s1 tr1 V S N1) as [W _].
      assert (G : exists h1, inv h1 s1) by (inversion T; eauto). destruct G as (h1 & V1).
      specialize (IH h1 s1 s2 tr2 V1 X R2 N2). cbn [length]. lia.
  Qed.

  Theorem run_progress sched1 sched2 s1 tr1 s2 tr2 :
    run how ts sched1 (start objs programs) = Next s1 tr1 -> run how ts sched2 s1 = Next s2 tr2 ->
    Forall (fun x => snd x = exact) sched2 ->
    (3 * length programs * length programs + 4 * length programs < length sched2)%nat ->
    exists i r, In (Ret i r) tr2.
  Proof.
    intros R1 R2 X L. pose proof (run_inv sched1 [] _ inv_start) as G. rewrite R1 in G. destruct G as (h & _ & V). cbn [app] in V.
    destruct (existsb returns tr2) eqn:B.
    - apply existsb_exists in B as (e & I & Be). destruct e as [|i r]; [discriminate|]. eauto.
    - pose proof (run_work sched2 h s1 s2 tr2 V X R2 B) as W. pose proof (work_bound s1) as U. rewrite (i_threads _ _ V) in U. lia.
  Qed.

  (** A thread that still has something to do can always take a step. *)
  Theorem run_enabled sched s tr i th ch : run how ts sched (start objs programs) = Next s tr -> nth_error (threads s) i = Some th ->
    (exists s' tr', step how ts i ch s = Next s' tr') \/ (th_pc th = Idle /\ th_todo th = []).
  Proof.
    intros R E. pose proof (run_inv sched [] _ inv_start) as G. rewrite R in G. destruct G as (h & _ & V). cbn [app] in V.
    pose proof (step_inv h s i ch V) as T. destruct (step how ts i ch s) as [s' tr'| |]; [eauto|contradiction|]. right. now apply T.
  Qed.
End Runs.
