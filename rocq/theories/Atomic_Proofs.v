(** Proofs about atomics and mutexes. *)
From Verif Require Import Base Atomic_Model Atomic_Spec.
Local Open Scope nat_scope.

Lemma upd_nth_error {A} (l : list A) i j v x : nth_error (upd l i v) j = Some x ->
  (j = i /\ x = v /\ i < length l) \/ (j <> i /\ nth_error l j = Some x).
Proof.
  intro H. destruct (Nat.eq_dec j i) as [-> | N].
  - destruct (Nat.lt_ge_cases i (length l)) as [L | L].
    + rewrite nth_error_upd_eq in H by exact L. left. split; [reflexivity|]. split; [congruence|exact L].
    + exfalso. assert (nth_error (upd l i v) i = None) by (apply nth_error_None; rewrite upd_length; exact L). congruence.
  - right. split; [exact N|]. rewrite nth_error_upd_ne in H by congruence. exact H.
Qed.

Lemma nth_error_lt {A} (l : list A) i x : nth_error l i = Some x -> i < length l.
Proof. intro H. apply nth_error_Some. congruence. Qed.

Lemma upd_nth_error_eq {A} (l : list A) i v x : nth_error l i = Some x -> nth_error (upd l i v) i = Some v.
Proof. intro H. apply nth_error_upd_eq. eapply nth_error_lt. exact H. Qed.

Lemma NoDup_snoc {A} (l : list A) x : NoDup l -> ~ In x l -> NoDup (l ++ [x]).
Proof.
  intros N H. apply NoDup_rev in N. rewrite <- (rev_involutive (l ++ [x])). apply NoDup_rev. rewrite rev_app_distr. cbn.
  constructor; [|exact N]. rewrite <- in_rev. exact H.
Qed.

(** ** Fetch *)
Section Fetch.
  Context {T V : Type} (eqb : T -> T -> bool) (op : T -> V -> T) (Heqb : forall x y, eqb x y = true <-> x = y).

  (** One access either leaves memory and the finished calls alone, or is the whole effect of the call. *)
  Definition good_impl (impl : @fetch_choice T -> V -> T -> @fetch_pc T -> option (T * @fetch_pc T)) : Prop :=
    forall c v mem pc mem' pc', impl c v mem pc = Some (mem', pc') ->
      (forall r, pc <> FDone r) /\
      ((mem' = mem /\ (forall r, pc' <> FDone r)) \/ (mem' = op mem v /\ pc' = FDone mem)).

  Lemma good_std : good_impl (fetch_std eqb op).
  Proof.
    intros c v mem pc mem' pc' H. unfold fetch_std in H.
    destruct c, pc; try discriminate.
    - injection H as <- <-. split; [discriminate|]. left. split; [reflexivity|discriminate].
    - cbv zeta in H. split; [discriminate|].
      destruct (eqb mem e && negb spurious) eqn:E.
      + apply andb_true_iff in E. destruct E as [E _]. apply Heqb in E. subst e. injection H as <- <-. right. auto.
      + injection H as <- <-. left. split; [reflexivity|discriminate].
  Qed.

  Lemma good_msvc : good_impl (fetch_msvc eqb op).
  Proof.
    intros c v mem pc mem' pc' H. unfold fetch_msvc in H.
    destruct c, pc; try discriminate.
    - injection H as <- <-. split; [discriminate|]. left. split; [reflexivity|discriminate].
    - cbv zeta in H. split; [discriminate|].
      destruct (eqb mem e) eqn:E.
      + apply Heqb in E. subst e. injection H as <- <-. right. auto.
      + injection H as <- <-. left. split; [reflexivity|discriminate].
  Qed.

  Definition fetch_inv (vs : list V) (x : T) (s : @fetch_state T) (h : list (nat * T)) : Prop :=
    serial op vs x h (f_mem s) /\ NoDup (map fst h) /\
    length (f_pcs s) = length vs /\
    (forall i r, In (i, r) h <-> nth_error (f_pcs s) i = Some (FDone r)).

  Lemma fetch_inv_init vs x : fetch_inv vs x (fetch_init x vs) [].
  Proof.
    split; [constructor|]. split; [constructor|]. split; [cbn; apply map_length|].
    intros i r. split; [intros []|]. cbn. rewrite nth_error_map. destruct (nth_error vs i); discriminate.
  Qed.

  Lemma fetch_inv_step impl vs x i c s s' h : good_impl impl -> fetch_inv vs x s h -> fetch_step impl vs i c s = Some s' ->
    exists h', fetch_inv vs x s' (h ++ h').
  Proof.
    intros G (S & N & L & D) H. unfold fetch_step in H.
    destruct (nth_error vs i) as [v|] eqn:Ev; [|discriminate].
    destruct (nth_error (f_pcs s) i) as [pc|] eqn:Ep; [|discriminate].
    destruct (impl c v (f_mem s) pc) as [[mem' pc']|] eqn:E; [|discriminate].
    injection H as <-. destruct (G _ _ _ _ _ _ E) as [ND [[-> NR] | [-> ->]]].
    - exists []. rewrite app_nil_r. split; [exact S|]. split; [exact N|]. cbn. split; [rewrite upd_length; exact L|].
      intros j r. rewrite D. split; intro Hj.
      + rewrite nth_error_upd_ne; [exact Hj|]. intros <-. rewrite Ep in Hj. injection Hj as ->. now destruct (ND r).
      + apply upd_nth_error in Hj. destruct Hj as [(_ & Hr & _) | [_ Hj]]; [|exact Hj]. now destruct (NR r).
    - exists [(i, f_mem s)]. split; [exact (serial_next op vs x h (f_mem s) i v S Ev)|].
      assert (Hni : ~ In i (map fst h)).
      { intro Hi. apply in_map_iff in Hi. destruct Hi as [[i' r] [Hi1 Hi2]]. cbn in Hi1. subst i'. apply D in Hi2. rewrite Ep in Hi2.
        injection Hi2 as ->. now destruct (ND r). }
      split. { rewrite map_app. cbn. apply NoDup_snoc; assumption. }
      cbn. split; [rewrite upd_length; exact L|].
      intros j r. rewrite in_app_iff. cbn. split.
      + intros [Hj | [Hj | []]].
        * rewrite nth_error_upd_ne; [now apply D|]. intros <-. apply Hni. now apply (in_map fst) in Hj.
        * injection Hj as <- <-. eapply upd_nth_error_eq. exact Ep.
      + intro Hj. apply upd_nth_error in Hj. destruct Hj as [(-> & Hr & _) | [_ Hj]].
        * injection Hr as ->. right. left. reflexivity.
        * left. now apply D.
  Qed.

  Lemma fetch_inv_run impl vs x : good_impl impl -> forall sched s s' h, fetch_inv vs x s h -> fetch_run impl vs sched s = Some s' ->
    exists h', fetch_inv vs x s' (h ++ h').
  Proof.
    intros G. induction sched as [|[i c] sched IH]; intros s s' h I H.
    - injection H as <-. exists []. now rewrite app_nil_r.
    - cbn [fetch_run] in H. destruct (fetch_step impl vs i c s) as [s1|] eqn:E; [|discriminate].
      destruct (fetch_inv_step _ _ _ _ _ _ _ _ G I E) as [h1 I1]. destruct (IH _ _ _ I1 H) as [h2 I2].
      exists (h1 ++ h2). now rewrite app_assoc.
  Qed.
End Fetch.

(** ** Spin locks *)
Section Lock.
  Context (ptr : Z) (addrs : list Z) (calls : list acall) (x : list (list Z)).

  Definition lock_of (c : acall) : nat := lock_index ptr (nth (fst c) addrs 0%Z).

  Lemma lock_index_bound p : lock_index ptr p < 256.
  Proof.
    unfold lock_index. rewrite Z.land_comm. change 255%Z with (Z.ones 8). rewrite Z.land_ones by lia.
    pose proof (Z.mod_pos_bound (p / ptr) (2 ^ 8) ltac:(lia)). change (2 ^ 8)%Z with 256%Z in *. lia.
  Qed.

  (** How the object's words and the thread's private state relate to old, the value the operation found. *)
  Definition pc_rel (op : aop) (cur old : list Z) (pc : apc) : Prop :=
    match pc with
    | ARead got => cur = old /\ got = firstn (length got) old /\ length got <= length old /\ (forall v, op <> AStore v)
    | AWrite new k r => new = leaves op old /\ r = returns op old /\ k <= length new /\ cur = firstn k new ++ skipn k old
    | ARelease r => cur = leaves op old /\ r = returns op old
    | _ => False
    end.

  Definition in_cs (s : astate) (i : nat) (c : acall) : Prop :=
    exists pc, nth_error calls i = Some c /\ nth_error (a_pcs s) i = Some pc /\ inside pc = true.

  Record ainv (s : astate) (h : list (nat * list Z)) (y : list (list Z)) : Prop := {
    v_seq : sequential calls x h y;
    v_nodup : NoDup (map fst h);
    v_done : forall i r, In (i, r) h <-> nth_error (a_pcs s) i = Some (ADone r);
    v_locks : length (a_locks s) = 256;
    v_pcs : length (a_pcs s) = length calls;
    v_size : length y = length x /\ length (a_objs s) = length x;
    v_words : forall o d, nth_error y o = Some d -> exists d', nth_error x o = Some d' /\ length d = length d';
    v_excl : forall i j c d, in_cs s i c -> in_cs s j d -> lock_of c = lock_of d -> i = j;
    v_held : forall l, nth_error (a_locks s) l = Some true <-> exists i c, in_cs s i c /\ lock_of c = l;
    v_idle : forall o, (forall i c, in_cs s i c -> fst c <> o) -> nth_error (a_objs s) o = nth_error y o;
    v_busy : forall i o op pc, nth_error calls i = Some (o, op) -> nth_error (a_pcs s) i = Some pc -> inside pc = true ->
      exists cur old, nth_error (a_objs s) o = Some cur /\ nth_error y o = Some old /\ pc_rel op cur old pc
  }.

  Hypothesis Hkeep : Forall (keeps_size x) calls.

  Lemma ainv_init : ainv (ainit x calls) [] x.
  Proof.
    assert (Hn : forall i pc, nth_error (a_pcs (ainit x calls)) i = Some pc -> pc = AWait).
    { intros i pc. cbn. rewrite nth_error_map. destruct (nth_error calls i); cbn; congruence. }
    assert (Hc : forall i c, ~ in_cs (ainit x calls) i c).
    { intros i c (pc & _ & Hp & Hi). apply Hn in Hp. subst pc. discriminate. }
    constructor.
    - constructor.
    - constructor.
    - intros i r. split; [intros []|]. intro H. apply Hn in H. discriminate.
    - apply repeat_length.
    - cbn. apply map_length.
    - split; reflexivity.
    - intros o d H. exists d. auto.
    - intros i j c d H. now apply Hc in H.
    - intro l. split.
      + intro H. apply nth_error_In in H. apply repeat_spec in H. discriminate.
      + intros (i & c & H & _). now apply Hc in H.
    - reflexivity.
    - intros i o op pc _ Hp Hi. apply Hn in Hp. subst pc. discriminate.
  Qed.

  (** A step that keeps thread i inside or outside, and keeps its lock. *)
  Lemma in_cs_same s i c pc pc' locks objs : nth_error calls i = Some c -> nth_error (a_pcs s) i = Some pc -> inside pc' = inside pc ->
    forall j d, in_cs {| a_locks := locks; a_objs := objs; a_pcs := upd (a_pcs s) i pc' |} j d <-> in_cs s j d.
  Proof.
    intros Hc Hp He j d. unfold in_cs. cbn [a_pcs]. split; intros (p & H1 & H2 & H3).
    - apply upd_nth_error in H2. destruct H2 as [(-> & -> & _) | [_ H2]].
      + exists pc. rewrite He in H3. auto.
      + exists p. auto.
    - destruct (Nat.eq_dec j i) as [-> | N].
      + exists pc'. split; [exact H1|]. split; [eapply upd_nth_error_eq; exact Hp|]. rewrite He. congruence.
      + exists p. rewrite nth_error_upd_ne by congruence. auto.
  Qed.

  Lemma step_outside s h y i c pc pc' : ainv s h y -> nth_error calls i = Some c -> nth_error (a_pcs s) i = Some pc ->
    inside pc = false -> inside pc' = false -> (forall r, pc <> ADone r) -> (forall r, pc' <> ADone r) ->
    ainv {| a_locks := a_locks s; a_objs := a_objs s; a_pcs := upd (a_pcs s) i pc' |} h y.
  Proof.
    intros I Hc Hp F F' D D'.
    assert (CS := in_cs_same s i c pc pc' (a_locks s) (a_objs s) Hc Hp (eq_trans F' (eq_sym F))).
    destruct I. constructor; cbn [a_locks a_objs a_pcs]; auto.
    - intros j r. rewrite v_done0. split; intro H.
      + rewrite nth_error_upd_ne; [exact H|]. intros <-. rewrite Hp in H. injection H as ->. now destruct (D r).
      + apply upd_nth_error in H. destruct H as [(_ & H & _) | [_ H]]; [|exact H]. now destruct (D' r).
    - now rewrite upd_length.
    - intros a b e d Ha Hb. rewrite CS in Ha, Hb. eauto.
    - intro l. rewrite v_held0. split; intros (a & e & H & E); exists a, e; (split; [now apply CS|exact E]).
    - intros o H. apply v_idle0. intros a e Ha. apply CS in Ha. eauto.
    - intros a o op p Ha Hpa Hi. apply upd_nth_error in Hpa. destruct Hpa as [(_ & -> & _) | [_ Hpa]]; [congruence|]. eauto.
  Qed.

  Lemma step_inside s h y i o op pc pc' cur cur' old : ainv s h y -> nth_error calls i = Some (o, op) -> nth_error (a_pcs s) i = Some pc ->
    nth_error (a_objs s) o = Some cur -> nth_error y o = Some old ->
    inside pc = true -> inside pc' = true -> pc_rel op cur' old pc' ->
    ainv {| a_locks := a_locks s; a_objs := upd (a_objs s) o cur'; a_pcs := upd (a_pcs s) i pc' |} h y.
  Proof.
    intros I Hc Hp Ho Hy F F' R.
    assert (CS := in_cs_same s i (o, op) pc pc' (a_locks s) (upd (a_objs s) o cur') Hc Hp (eq_trans F' (eq_sym F))).
    assert (Hi : in_cs s i (o, op)) by (exists pc; auto).
    destruct I. constructor; cbn [a_locks a_objs a_pcs]; auto.
    - intros j r. rewrite v_done0. split; intro H.
      + rewrite nth_error_upd_ne; [exact H|]. intros <-. rewrite Hp in H. injection H as ->. discriminate.
      + apply upd_nth_error in H. destruct H as [(_ & <- & _) | [_ H]]; [|exact H]. discriminate.
    - now rewrite upd_length.
    - now rewrite upd_length.
    - intros a b e d Ha Hb. rewrite CS in Ha, Hb. eauto.
    - intro l. rewrite v_held0. split; intros (a & e & H & E); exists a, e; (split; [now apply CS|exact E]).
    - intros o' H. destruct (Nat.eq_dec o' o) as [-> | N].
      + destruct (H i (o, op)); [now apply CS|reflexivity].
      + rewrite nth_error_upd_ne by congruence. apply v_idle0. intros a e Ha. apply CS in Ha. eauto.
    - intros a o' op' p Ha Hpa Hia. apply upd_nth_error in Hpa. destruct Hpa as [(-> & -> & _) | [N Hpa]].
      + rewrite Hc in Ha. injection Ha as <- <-. exists cur', old. split; [eapply upd_nth_error_eq; exact Ho|]. auto.
      + destruct (v_busy0 _ _ _ _ Ha Hpa Hia) as (cu & ol & H1 & H2 & H3). exists cu, ol.
        rewrite nth_error_upd_ne; [auto|]. intros <-. apply N. apply (v_excl0 a i (o, op') (o, op)); [exists p; auto|exact Hi|reflexivity].
  Qed.

  Lemma step_enter s h y i o op old : ainv s h y -> nth_error calls i = Some (o, op) -> nth_error (a_pcs s) i = Some AWait ->
    nth_error (a_locks s) (lock_of (o, op)) = Some false -> nth_error (a_objs s) o = Some old ->
    ainv {| a_locks := upd (a_locks s) (lock_of (o, op)) true; a_objs := a_objs s; a_pcs := upd (a_pcs s) i (enter op) |} h y.
  Proof.
    intros I Hc Hp Hl Ho.
    assert (Hfree : forall j d, in_cs s j d -> lock_of d <> lock_of (o, op)).
    { intros j d Hj E. assert (nth_error (a_locks s) (lock_of (o, op)) = Some true) by (apply (v_held _ _ _ I); eauto). congruence. }
    assert (Hin : inside (enter op) = true) by (destruct op; reflexivity).
    assert (Hy : nth_error y o = Some old).
    { rewrite <- (v_idle _ _ _ I); [exact Ho|]. intros j [o' op'] Hj E. cbn in E. subst o'. now apply (Hfree _ _ Hj). }
    assert (CS : forall j d, in_cs {| a_locks := upd (a_locks s) (lock_of (o, op)) true; a_objs := a_objs s; a_pcs := upd (a_pcs s) i (enter op) |} j d
                 <-> (j = i /\ d = (o, op)) \/ in_cs s j d).
    { intros j d. unfold in_cs. cbn [a_pcs]. split.
      - intros (p & H1 & H2 & H3). apply upd_nth_error in H2. destruct H2 as [(-> & -> & _) | [_ H2]].
        + left. split; [reflexivity|congruence].
        + right. exists p. auto.
      - intros [[-> ->] | (p & H1 & H2 & H3)].
        + exists (enter op). split; [exact Hc|]. split; [eapply upd_nth_error_eq; exact Hp|exact Hin].
        + exists p. split; [exact H1|]. split; [|exact H3]. rewrite nth_error_upd_ne; [exact H2|]. intros <-. rewrite Hp in H2. injection H2 as <-. discriminate. }
    destruct I. constructor; cbn [a_locks a_objs a_pcs]; auto.
    - intros j r. rewrite v_done0. split; intro H.
      + rewrite nth_error_upd_ne; [exact H|]. intros <-. rewrite Hp in H. discriminate.
      + apply upd_nth_error in H. destruct H as [(_ & H & _) | [_ H]]; [|exact H]. rewrite <- H in Hin. discriminate.
    - now rewrite upd_length.
    - now rewrite upd_length.
    - intros a b e d Ha Hb E. rewrite CS in Ha, Hb.
      destruct Ha as [[-> ->] | Ha], Hb as [[-> ->] | Hb]; [reflexivity| | |eauto].
      + destruct (Hfree _ _ Hb). now symmetry.
      + now destruct (Hfree _ _ Ha).
    - intro l. split.
      + intro H. apply upd_nth_error in H. destruct H as [(-> & _ & _) | [_ H]].
        * exists i, (o, op). split; [apply CS; auto|reflexivity].
        * apply v_held0 in H. destruct H as (a & e & H & E). exists a, e. split; [apply CS; auto|exact E].
      + intros (a & e & H & <-). apply CS in H. destruct H as [[-> ->] | H].
        * eapply upd_nth_error_eq. exact Hl.
        * rewrite nth_error_upd_ne by (apply not_eq_sym; eauto). apply v_held0. eauto.
    - intros o' H. apply v_idle0. intros a e Ha. apply (H a e). apply CS. auto.
    - intros a o' op' p Ha Hpa Hia. apply upd_nth_error in Hpa. destruct Hpa as [(-> & -> & _) | [N Hpa]].
      + rewrite Hc in Ha. injection Ha as <- <-. exists old, old. split; [exact Ho|]. split; [exact Hy|].
        destruct op; cbn; repeat split; try lia; congruence.
      + eauto.
  Qed.

  Lemma leaves_length s h y o op i old : ainv s h y -> nth_error calls i = Some (o, op) -> nth_error y o = Some old ->
    length (leaves op old) = length old.
  Proof.
    intros I Hc Ho. assert (K := proj1 (Forall_forall _ _) Hkeep _ (nth_error_In _ _ Hc)). cbn in K. destruct K as (d & Hd & K).
    destruct (v_words _ _ _ I _ _ Ho) as (d' & Hd' & E). rewrite Hd in Hd'. injection Hd' as <-.
    destruct op; cbn; try congruence. rewrite E. now apply K.
  Qed.

  Lemma step_release s h y i o op r : ainv s h y -> nth_error calls i = Some (o, op) -> nth_error (a_pcs s) i = Some (ARelease r) ->
    exists y', ainv {| a_locks := upd (a_locks s) (lock_of (o, op)) false; a_objs := a_objs s; a_pcs := upd (a_pcs s) i (ADone r) |}
      (h ++ [(i, r)]) y'.
  Proof.
    intros I Hc Hp.
    destruct (v_busy _ _ _ I _ _ _ _ Hc Hp eq_refl) as (cur & old & Ho & Hy & -> & ->).
    exists (upd y o (leaves op old)).
    assert (HL := leaves_length _ _ _ _ _ _ _ I Hc Hy).
    assert (Hi : in_cs s i (o, op)) by (exists (ARelease (returns op old)); auto).
    set (s' := {| a_locks := _ |}).
    assert (CS : forall j d, in_cs s' j d <-> j <> i /\ in_cs s j d).
    { intros j d. unfold in_cs, s'. cbn [a_pcs]. split.
      - intros (p & H1 & H2 & H3). apply upd_nth_error in H2. destruct H2 as [(_ & -> & _) | [N H2]]; [discriminate|].
        split; [exact N|]. exists p. auto.
      - intros [N (p & H1 & H2 & H3)]. exists p. rewrite nth_error_upd_ne by congruence. auto. }
    destruct I. constructor; cbn [a_locks a_objs a_pcs s']; auto.
    - eapply sequential_next; eauto.
    - rewrite map_app. cbn. apply NoDup_snoc; [assumption|]. intro H. apply in_map_iff in H. destruct H as [[j r] [E H]]. cbn in E. subst j.
      apply v_done0 in H. congruence.
    - intros j r. rewrite in_app_iff. cbn. split.
      + intros [H | [H | []]].
        * apply v_done0 in H. rewrite nth_error_upd_ne; [exact H|]. intros <-. congruence.
        * injection H as <- <-. eapply upd_nth_error_eq. exact Hp.
      + intro H. apply upd_nth_error in H. destruct H as [(-> & H & _) | [_ H]].
        * injection H as ->. right. left. reflexivity.
        * left. now apply v_done0.
    - now rewrite upd_length.
    - now rewrite upd_length.
    - now rewrite upd_length.
    - intros o' d H. apply upd_nth_error in H. destruct H as [(-> & -> & _) | [_ H]]; [|eauto].
      destruct (v_words0 _ _ Hy) as (d' & H1 & H2). exists d'. split; [exact H1|congruence].
    - intros a b e d Ha Hb. rewrite CS in Ha, Hb. destruct Ha, Hb. eauto.
    - intro l. split.
      + intro H. apply upd_nth_error in H. destruct H as [(_ & H & _) | [N H]]; [discriminate|].
        apply v_held0 in H. destruct H as (a & e & H & <-). exists a, e. split; [|reflexivity]. apply CS. split; [|exact H].
        intros ->. destruct H as (p & H & _). apply N. congruence.
      + intros (a & e & H & <-). apply CS in H. destruct H as [N H].
        rewrite nth_error_upd_ne; [apply v_held0; eauto|]. intro E. apply N. symmetry in E. eauto.
    - intros o' H. destruct (Nat.eq_dec o' o) as [-> | N].
      + rewrite Ho. symmetry. eapply upd_nth_error_eq. exact Hy.
      + rewrite nth_error_upd_ne by congruence. apply v_idle0. intros a [oe ope] Ha E. cbn in E. subst oe.
        apply (H a (o', ope)); [|reflexivity]. apply CS. split; [|exact Ha]. intros ->. destruct Ha as (p & Ha & _). congruence.
    - intros a o' op' p Ha Hpa Hia. apply upd_nth_error in Hpa. destruct Hpa as [(_ & -> & _) | [N Hpa]]; [discriminate|].
      destruct (v_busy0 _ _ _ _ Ha Hpa Hia) as (cu & ol & H1 & H2 & H3). exists cu, ol.
      split; [exact H1|]. split; [|exact H3]. rewrite nth_error_upd_ne; [exact H2|]. intros <-. apply N.
      apply (v_excl0 a i (o, op') (o, op)); [exists p; auto|exact Hi|reflexivity].
  Qed.

  Lemma upd_objs_same s o d : nth_error (a_objs s) o = Some d -> upd (a_objs s) o d = a_objs s.
  Proof. apply upd_same. Qed.

  Lemma copy_step {A} (new : list A) w : forall old k, nth_error new k = Some w -> length new = length old ->
    upd (firstn k new ++ skipn k old) k w = firstn (S k) new ++ skipn (S k) old.
  Proof.
    induction new as [|n new IH]; intros old k H L; [destruct k; discriminate|].
    destruct old as [|a old]; [discriminate|]. destruct k as [|k]; cbn in H |- *.
    - injection H as ->. reflexivity.
    - f_equal. apply IH; [exact H|]. cbn in L. lia.
  Qed.

  Lemma astep_inv s h y i s' : ainv s h y -> astep ptr addrs calls i s = Some s' ->
    exists h' y', ainv s' (h ++ h') y'.
  Proof.
    intros I H. unfold astep in H.
    destruct (nth_error calls i) as [[o op]|] eqn:Hc; [|discriminate].
    destruct (nth_error (a_pcs s) i) as [pc|] eqn:Hp; [|discriminate].
    cbv zeta in H.
    destruct (nth_error (a_locks s) (lock_index ptr (nth o addrs 0%Z))) as [lock|] eqn:Hl; [|discriminate].
    destruct (nth_error (a_objs s) o) as [data|] eqn:Ho; [|discriminate].
    destruct pc as [| |got|new k r|r|r]; cbn [astep_pc] in H.
    - destruct lock; injection H as <-.
      + exists [], y. rewrite app_nil_r, (upd_same _ _ _ Hl), (upd_same _ _ _ Ho). eapply step_outside; eauto; try reflexivity; discriminate.
      + exists [], y. rewrite app_nil_r, (upd_same _ _ _ Ho). now apply (step_enter s h y i o op data).
    - destruct lock; injection H as <-;
        exists [], y; rewrite app_nil_r, (upd_same _ _ _ Hl), (upd_same _ _ _ Ho); eapply step_outside; eauto; try reflexivity; discriminate.
    - destruct (v_busy _ _ _ I _ _ _ _ Hc Hp eq_refl) as (cur & old & Ho' & Hy & -> & Hg & Hlen & Hns).
      rewrite Ho in Ho'. injection Ho' as ->.
      exists [], y. rewrite app_nil_r.
      destruct (nth_error old (length got)) as [w|] eqn:Ew; injection H as <-; rewrite (upd_same _ _ _ Hl).
      + eapply step_inside; eauto; try reflexivity. cbn. split; [reflexivity|]. rewrite app_length. cbn.
        assert (length got < length old) by (eapply nth_error_lt; exact Ew).
        split; [|split; [lia|exact Hns]].
        replace (length got + 1) with (S (length got)) by lia.
        rewrite Hg at 1. clear - Ew. revert old Ew. generalize (length got) as n. induction n as [|n IH]; intros [|a old] E; try discriminate.
        * cbn in E |- *. congruence.
        * cbn in E |- *. f_equal. now apply IH.
      + apply nth_error_None in Ew. assert (got = old). { rewrite Hg. apply firstn_all2. lia. } subst got.
        eapply step_inside; eauto; try reflexivity; destruct op; try reflexivity; try (cbn; repeat split; lia). now destruct (Hns v).
    - destruct (v_busy _ _ _ I _ _ _ _ Hc Hp eq_refl) as (cur & old & Ho' & Hy & -> & -> & Hk & Hcur).
      rewrite Ho in Ho'. injection Ho' as ->.
      assert (HL := leaves_length _ _ _ _ _ _ _ I Hc Hy).
      exists [], y. rewrite app_nil_r.
      destruct (nth_error (leaves op old) k) as [w|] eqn:Ew; injection H as <-; rewrite (upd_same _ _ _ Hl).
      + eapply step_inside; eauto; try reflexivity. cbn [pc_rel]. split; [reflexivity|]. split; [reflexivity|].
        split; [apply nth_error_lt in Ew; lia|]. subst cur. now apply copy_step.
      + apply nth_error_None in Ew. eapply step_inside; eauto; try reflexivity. cbn [pc_rel]. split; [|reflexivity].
        rewrite Hcur, firstn_all2 by lia. rewrite skipn_all2 by lia. apply app_nil_r.
    - injection H as <-. rewrite (upd_same _ _ _ Ho). destruct (step_release s h y i o op r I Hc Hp) as [y' I']. exists [(i, r)], y'. exact I'.
    - discriminate.
  Qed.

  Lemma arun_inv : forall sched s h y s', ainv s h y -> arun ptr addrs calls sched s = Some s' -> exists h' y', ainv s' (h ++ h') y'.
  Proof.
    induction sched as [|i sched IH]; intros s h y s' I H.
    - injection H as <-. exists [], y. now rewrite app_nil_r.
    - cbn [arun] in H. destruct (astep ptr addrs calls i s) as [s1|] eqn:E; [|discriminate].
      destruct (astep_inv _ _ _ _ _ I E) as (h1 & y1 & I1). destruct (IH _ _ _ _ I1 H) as (h2 & y2 & I2).
      exists (h1 ++ h2), y2. now rewrite app_assoc.
  Qed.

  Lemma arun_app a b s : arun ptr addrs calls (a ++ b) s = match arun ptr addrs calls a s with Some s' => arun ptr addrs calls b s' | None => None end.
  Proof. revert s. induction a as [|i a IH]; intro s; [reflexivity|]. cbn [app arun]. destruct (astep ptr addrs calls i s); [apply IH|reflexivity]. Qed.

  (** A thread inside its critical section can always finish. *)
  Definition rank (n : nat) (pc : apc) : nat :=
    match pc with
    | ARead got => (n - length got) + n + 4
    | AWrite _ k _ => (n - k) + 3
    | ARelease _ => 2
    | _ => 0
    end.

  Lemma astep_some s h y i o op pc : ainv s h y -> nth_error calls i = Some (o, op) -> nth_error (a_pcs s) i = Some pc ->
    exists lock data, nth_error (a_locks s) (lock_of (o, op)) = Some lock /\ nth_error (a_objs s) o = Some data /\
      astep ptr addrs calls i s =
        match astep_pc op lock data pc with
        | Some (lock, data, pc) =>
            Some {| a_locks := upd (a_locks s) (lock_of (o, op)) lock; a_objs := upd (a_objs s) o data; a_pcs := upd (a_pcs s) i pc |}
        | None => None
        end.
  Proof.
    intros I Hc Hp.
    destruct (nth_error (a_locks s) (lock_of (o, op))) as [lock|] eqn:Hl.
    2: { apply nth_error_None in Hl. rewrite (v_locks _ _ _ I) in Hl. pose proof (lock_index_bound (nth o addrs 0%Z)). unfold lock_of in Hl. cbn in Hl. lia. }
    destruct (nth_error (a_objs s) o) as [data|] eqn:Ho.
    2: { apply nth_error_None in Ho. rewrite (proj2 (v_size _ _ _ I)) in Ho.
         assert (K := proj1 (Forall_forall _ _) Hkeep _ (nth_error_In _ _ Hc)). cbn in K. destruct K as (d & Hd & _). apply nth_error_lt in Hd. lia. }
    exists lock, data. split; [reflexivity|]. split; [reflexivity|].
    unfold astep. rewrite Hc, Hp. cbv zeta. unfold lock_of in *. cbn [fst] in *. rewrite Hl, Ho. reflexivity.
  Qed.

  Lemma finish : forall m s h y i o op pc d, ainv s h y -> nth_error calls i = Some (o, op) -> nth_error (a_pcs s) i = Some pc ->
    inside pc = true -> nth_error y o = Some d -> rank (length d) pc <= m ->
    exists sched s' h' y' r, arun ptr addrs calls sched s = Some s' /\ ainv s' (h ++ h') y' /\ nth_error (a_pcs s') i = Some (ADone r) /\ Forall (eq i) sched.
  Proof.
    induction m as [|m IH]; intros s h y i o op pc d I Hc Hp Hi Hy Hm.
    { destruct pc; try discriminate; cbn in Hm; lia. }
    destruct (v_busy _ _ _ I _ _ _ _ Hc Hp Hi) as (cur & old & Ho & Hy' & R).
    rewrite Hy in Hy'. injection Hy' as <-.
    assert (HL := leaves_length _ _ _ _ _ _ _ I Hc Hy).
    destruct (astep_some _ _ _ _ _ _ _ I Hc Hp) as (lock & data & Hl & Ho' & E). rewrite Ho in Ho'. injection Ho' as <-.
    assert (Step : forall s1, astep ptr addrs calls i s = Some s1 ->
              (exists pc', nth_error (a_pcs s1) i = Some pc' /\ ((exists r, pc' = ADone r) \/ (inside pc' = true /\ rank (length d) pc' < rank (length d) pc))) ->
              exists sched s' h' y' r, arun ptr addrs calls sched s = Some s' /\ ainv s' (h ++ h') y' /\ nth_error (a_pcs s') i = Some (ADone r) /\ Forall (eq i) sched).
    { intros s1 E1 (pc' & Hp' & [[r ->] | [Hi' Hr]]).
      - destruct (astep_inv _ _ _ _ _ I E1) as (h1 & y1 & I1). exists [i], s1, h1, y1, r. cbn [arun]. rewrite E1. auto 6.
      - destruct (astep_inv _ _ _ _ _ I E1) as (h1 & y1 & I1).
        destruct (v_busy _ _ _ I1 _ _ _ _ Hc Hp' Hi') as (c1 & d1 & _ & Hd1 & _).
        assert (length d1 = length d).
        { destruct (v_words _ _ _ I _ _ Hy) as (e & He & ->). destruct (v_words _ _ _ I1 _ _ Hd1) as (e1 & He1 & ->). congruence. }
        destruct (IH s1 (h ++ h1) y1 i o op pc' d1 I1 Hc Hp' Hi' Hd1 ltac:(rewrite H; lia)) as (sched & s' & h' & y' & r & A & B & C & D).
        exists (i :: sched), s', (h1 ++ h'), y', r. cbn [arun]. rewrite E1, app_assoc. auto 6. }
    destruct pc as [| |got|new k r|r|r]; try discriminate; cbn [astep_pc pc_rel] in E, R.
    - destruct R as (-> & Hg & Hlen & Hns).
      destruct (nth_error d (length got)) as [w|] eqn:Ew; eapply Step; try exact E; eexists; cbn [a_pcs];
        (split; [eapply upd_nth_error_eq; exact Hp|]); right.
      + apply nth_error_lt in Ew. split; [reflexivity|]. cbn. rewrite app_length. cbn. lia.
      + split; [destruct op; reflexivity|]. destruct op; cbn; lia.
    - destruct R as (-> & -> & Hk & Hcur).
      destruct (nth_error (leaves op d) k) as [w|] eqn:Ew; eapply Step; try exact E; eexists; cbn [a_pcs];
        (split; [eapply upd_nth_error_eq; exact Hp|]); right.
      + apply nth_error_lt in Ew. split; [reflexivity|]. cbn. lia.
      + split; [reflexivity|]. cbn. lia.
    - eapply Step; try exact E. eexists. cbn [a_pcs]. split; [eapply upd_nth_error_eq; exact Hp|]. left. eauto.
  Qed.

  Lemma done_count s h y : ainv s h y -> forall i, In i (map fst h) -> i < length calls.
  Proof.
    intros I i H. apply in_map_iff in H. destruct H as [[j r] [<- H]]. apply (v_done _ _ _ I) in H. apply nth_error_lt in H.
    rewrite (v_pcs _ _ _ I) in H. exact H.
  Qed.

  Lemma complete : forall m s h y, ainv s h y -> length calls - length h <= m ->
    exists sched s', arun ptr addrs calls sched s = Some s' /\ forall i, i < length calls -> exists r, nth_error (a_pcs s') i = Some (ADone r).
  Proof.
    induction m as [|m IH]; intros s h y I Hm.
    - exists [], s. split; [reflexivity|]. intros i Hi.
      destruct (in_dec Nat.eq_dec i (map fst h)) as [H | H].
      + apply in_map_iff in H. destruct H as [[j r] [E H]]. cbn in E. subst j. apply (v_done _ _ _ I) in H. eauto.
      + exfalso. assert (N : NoDup (i :: map fst h)) by (constructor; [exact H|exact (v_nodup _ _ _ I)]).
        assert (L : length (i :: map fst h) <= length (seq 0 (length calls))).
        { apply NoDup_incl_length; [exact N|]. intros j [<- | Hj]; apply in_seq; [lia|]. pose proof (done_count _ _ _ I _ Hj). lia. }
        cbn in L. rewrite map_length, seq_length in L. lia.
    - assert (Next : forall i o op pc, nth_error calls i = Some (o, op) -> nth_error (a_pcs s) i = Some pc -> inside pc = true ->
        exists sched s', arun ptr addrs calls sched s = Some s' /\ forall i, i < length calls -> exists r, nth_error (a_pcs s') i = Some (ADone r)).
      { intros i o op pc Hc Hp Hi. destruct (v_busy _ _ _ I _ _ _ _ Hc Hp Hi) as (cur & old & _ & Hy & _).
        destruct (finish (rank (length old) pc) s h y i o op pc old I Hc Hp Hi Hy (le_n _)) as (sched & s1 & h1 & y1 & r & A & B & C & _).
        assert (L : 1 <= length h1).
        { destruct h1; [|cbn; lia]. rewrite app_nil_r in B. apply (v_done _ _ _ B) in C. apply (v_done _ _ _ I) in C. rewrite Hp in C. injection C as ->. discriminate. }
        destruct (IH s1 (h ++ h1) y1 B) as (sched' & s' & D & F); [rewrite app_length; lia|].
        exists (sched ++ sched'), s'. rewrite arun_app, A. auto. }
      destruct (Exists_dec (fun i => exists c pc, nth_error calls i = Some c /\ nth_error (a_pcs s) i = Some pc /\ inside pc = true) (seq 0 (length calls))) as [Ex | NE].
      { intro i. destruct (nth_error calls i) as [c|]; [|right; intros (?&?&?&?); discriminate].
        destruct (nth_error (a_pcs s) i) as [pc|]; [|right; intros (?&?&?&?&?); discriminate].
        destruct (inside pc) eqn:Ei; [left; eauto|right; intros (?&?&?&E&?); congruence]. }
      + apply Exists_exists in Ex. destruct Ex as (i & _ & [o op] & pc & H1 & H2 & H3). eapply Next; eauto.
      + assert (Free : forall i c, ~ in_cs s i c).
        { intros i c (pc & H1 & H2 & H3). apply NE. apply Exists_exists. exists i. split; [apply in_seq; apply nth_error_lt in H1; lia|]. eauto. }
        assert (Unl : forall l b, nth_error (a_locks s) l = Some b -> b = false).
        { intros l [|] H; [|reflexivity]. apply (v_held _ _ _ I) in H. destruct H as (i & c & H & _). now apply Free in H. }
        destruct (Exists_dec (fun i => ~ In i (map fst h)) (seq 0 (length calls))) as [Ex | All].
        { intro i. destruct (in_dec Nat.eq_dec i (map fst h)); [right|left]; tauto. }
        * apply Exists_exists in Ex. destruct Ex as (i & Hi & Hn). apply in_seq in Hi.
          destruct (nth_error calls i) as [[o op]|] eqn:Hc; [|apply nth_error_None in Hc; lia].
          destruct (nth_error (a_pcs s) i) as [pc|] eqn:Hp; [|apply nth_error_None in Hp; rewrite (v_pcs _ _ _ I) in Hp; lia].
          assert (Enter : forall s0 h0 y0, ainv s0 h0 y0 -> h0 = h -> nth_error (a_pcs s0) i = Some AWait -> (forall l b, nth_error (a_locks s0) l = Some b -> b = false) ->
            exists sched s', arun ptr addrs calls sched s0 = Some s' /\ forall i, i < length calls -> exists r, nth_error (a_pcs s') i = Some (ADone r)).
          { intros s0 h0 y0 I0 -> Hp0 Unl0.
            destruct (astep_some _ _ _ _ _ _ _ I0 Hc Hp0) as (lock & data & Hl & Ho & E). assert (lock = false) by (exact (Unl0 _ _ Hl)). subst lock. cbn [astep_pc] in E.
            rewrite (upd_same _ _ _ Ho) in E.
            assert (I1 := step_enter _ _ _ _ _ _ _ I0 Hc Hp0 Hl Ho).
            assert (Hp1 : nth_error (upd (a_pcs s0) i (enter op)) i = Some (enter op)) by (eapply upd_nth_error_eq; exact Hp0).
            assert (Hi1 : inside (enter op) = true) by (destruct op; reflexivity).
            destruct (v_busy _ _ _ I1 _ _ _ _ Hc Hp1 Hi1) as (cur & old & _ & Hy & _).
            destruct (finish (rank (length old) (enter op)) _ h y0 i o op (enter op) old I1 Hc Hp1 Hi1 Hy (le_n _)) as (sched & s1 & h1 & y1 & r & A & B & C & _).
            assert (L : 1 <= length h1).
            { destruct h1; [|cbn; lia]. rewrite app_nil_r in B. apply (v_done _ _ _ B) in C. destruct Hn. now apply (in_map fst) in C. }
            destruct (IH s1 (h ++ h1) y1 B) as (sched' & s' & D & F); [rewrite app_length; lia|].
            exists (i :: sched ++ sched'), s'. cbn [arun]. rewrite E, arun_app, A. auto. }
          destruct pc as [| |got|new k r|r|r].
          -- eapply Enter; eauto.
          -- destruct (astep_some _ _ _ _ _ _ _ I Hc Hp) as (lock & data & Hl & Ho & E). assert (lock = false) by (exact (Unl _ _ Hl)). subst lock. cbn [astep_pc] in E.
             rewrite (upd_same _ _ _ Ho), (upd_same _ _ _ Hl) in E.
             assert (I1 := step_outside s h y i (o, op) APause AWait I Hc Hp eq_refl eq_refl ltac:(discriminate) ltac:(discriminate)).
             destruct (Enter _ h y I1 eq_refl) as (sched & s' & A & B).
             ++ cbn [a_pcs]. eapply upd_nth_error_eq. exact Hp.
             ++ exact Unl.
             ++ exists (i :: sched), s'. cbn [arun]. rewrite E. auto.
          -- destruct (Free i (o, op)). eexists; eauto.
          -- destruct (Free i (o, op)). eexists; eauto.
          -- destruct (Free i (o, op)). eexists; eauto.
          -- destruct Hn. apply (v_done _ _ _ I) in Hp. now apply (in_map fst) in Hp.
        * exists [], s. split; [reflexivity|]. intros i Hi.
          destruct (in_dec Nat.eq_dec i (map fst h)) as [H | H].
          -- apply in_map_iff in H. destruct H as [[j r] [E H]]. cbn in E. subst j. apply (v_done _ _ _ I) in H. eauto.
          -- exfalso. apply All. apply Exists_exists. exists i. split; [apply in_seq; lia|exact H].
  Qed.
End Lock.

(** ** Mutexes *)
Definition held_eqb (a b : held) : bool :=
  match a, b with HNone, HNone | HShared, HShared | HExclusive, HExclusive => true | _, _ => false end.
Definition count (h : held) (l : list held) : nat := length (filter (held_eqb h) l).

Lemma count_upd h l : forall t a b, nth_error l t = Some a ->
  count h (upd l t b) + (if held_eqb h a then 1 else 0) = count h l + (if held_eqb h b then 1 else 0).
Proof.
  unfold count. induction l as [|x l IH]; intros [|t] a b H; try discriminate; cbn [upd filter nth_error] in *.
  - injection H as ->. destruct (held_eqb h a), (held_eqb h b); cbn [length]; lia.
  - specialize (IH t a b H). destruct (held_eqb h x); cbn [length]; lia.
Qed.

Lemma count_pos h l t : nth_error l t = Some h -> 1 <= count h l.
Proof.
  intro H. unfold count. apply nth_error_In in H.
  assert (In h (filter (held_eqb h) l)) by (apply filter_In; split; [exact H|destruct h; reflexivity]).
  destruct (filter (held_eqb h) l); [contradiction|cbn; lia].
Qed.

Lemma count_two h l : forall i j, nth_error l i = Some h -> nth_error l j = Some h -> i <> j -> 2 <= count h l.
Proof.
  unfold count. induction l as [|x l IH]; intros [|i] [|j] Hi Hj N; try discriminate; try congruence; cbn [nth_error filter] in *.
  - injection Hi as ->. assert (held_eqb h h = true) as -> by (destruct h; reflexivity). cbn. pose proof (count_pos h l j Hj). unfold count in H. lia.
  - injection Hj as ->. assert (held_eqb h h = true) as -> by (destruct h; reflexivity). cbn. pose proof (count_pos h l i Hi). unfold count in H. lia.
  - specialize (IH i j Hi Hj ltac:(congruence)). destruct (held_eqb h x); cbn; lia.
Qed.

Lemma count_ex h l : 1 <= count h l -> exists t, nth_error l t = Some h.
Proof.
  unfold count. intro H. destruct (filter (held_eqb h) l) as [|x f] eqn:E; [cbn in H; lia|].
  assert (In x (filter (held_eqb h) l)) by (rewrite E; now left). apply filter_In in H0. destruct H0 as [H0 H1].
  assert (x = h) by (destruct h, x; congruence || discriminate). subst x. now apply In_nth_error.
Qed.

Record minv (n : nat) (s : mstate) : Prop := {
  w_len : length (m_held s) = n;
  w_excl : count HExclusive (m_held s) = if l_excl (m_lock s) then 1 else 0;
  w_shared : count HShared (m_held s) = l_shared (m_lock s);
  w_alone : l_excl (m_lock s) = true -> l_shared (m_lock s) = 0
}.

Lemma minv_init n : minv n (minit n).
Proof.
  assert (H : forall h, h <> HNone -> count h (repeat HNone n) = 0).
  { intros h Hh. unfold count. induction n as [|n IH]; [reflexivity|]. cbn. destruct h; [congruence|exact IH|exact IH]. }
  constructor; cbn; [apply repeat_length|now apply H|now apply H|reflexivity].
Qed.

(** Both back ends are the same table. *)
Lemma backends : forall c, mutex_win32 c = mutex_std c.
Proof. intros []; reflexivity. Qed.

Lemma minv_step n t c fail s : minv n s -> t < n ->
  exists r, mcall_step mutex_std t c fail s = Ok r /\ (forall s', r = Some s' -> minv n s').
Proof.
  intros [L E S A] Ht. unfold mcall_step, get.
  destruct (nth_error (m_held s) t) as [h|] eqn:Hh; [|apply nth_error_None in Hh; lia]. cbn [bind].
  destruct (allowed c h) eqn:Al; cbn [negb]; [|eexists; split; [reflexivity|discriminate]].
  destruct s as [[ex sh] hs]. cbn [m_lock m_held l_excl l_shared] in *.
  assert (CE := fun b => count_upd HExclusive hs t h b Hh). assert (CS := fun b => count_upd HShared hs t h b Hh).
  assert (PE := count_pos HExclusive hs t). assert (PS := count_pos HShared hs t).
  specialize (CE (call_held c true h)) as CE1. specialize (CS (call_held c true h)) as CS1.
  specialize (CE (call_held c false h)) as CE0. specialize (CS (call_held c false h)) as CS0. clear CE CS.
  destruct c, h; try discriminate; cbn [mutex_std prim_step bind l_excl l_shared m_lock m_held call_held held_eqb] in *;
    repeat match goal with
    | |- context [if ?b then _ else _] => destruct b eqn:?; cbn [bind]
    | |- context [match ?b with O => _ | S _ => _ end] => destruct b eqn:?; cbn [bind]
    end; try (exfalso; subst; specialize (PE Hh) || specialize (PS Hh); lia);
    try (exfalso; subst; specialize (PS Hh); lia);
    (eexists; split; [reflexivity|]); intros s' Hs; try discriminate; injection Hs as <-;
    try (constructor; cbn [m_held m_lock l_excl l_shared]; [now rewrite upd_length|..]; destruct ex; cbn in *;
         repeat match goal with H : _ || _ = false |- _ => apply orb_false_iff in H; destruct H as [H _] end;
         repeat match goal with H : negb _ = false |- _ => apply negb_false_iff in H; apply Nat.eqb_eq in H end;
         subst; try specialize (PE Hh); try specialize (PS Hh); try specialize (A eq_refl); try discriminate; try lia; try (intros; lia)).
Qed.

Lemma minv_run n : forall sched s, minv n s -> Forall (fun '(t, _, _) => t < n) sched ->
  exists s', mrun mutex_std sched s = Ok s' /\ minv n s'.
Proof.
  induction sched as [|[[t c] fail] sched IH]; intros s I F.
  - exists s. split; [reflexivity|exact I].
  - inversion F as [|? ? Ht F']; subst. cbn [mrun].
    destruct (minv_step n t c fail s I Ht) as (r & -> & H). cbn [bind]. destruct r as [s'|]; apply IH; auto.
Qed.

Lemma mrun_backends : forall sched s, mrun mutex_win32 sched s = mrun mutex_std sched s.
Proof.
  induction sched as [|[[t c] fail] sched IH]; intro s; [reflexivity|]. cbn [mrun].
  unfold mcall_step. rewrite backends. match goal with |- bind ?a _ = _ => destruct a; cbn [bind]; [apply IH|reflexivity|reflexivity] end.
Qed.
