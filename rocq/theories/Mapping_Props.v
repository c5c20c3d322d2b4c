(** Files and views over any sequence of calls (C82). *)
From Verif Require Import Base Os_Model Mapping_Spec.
Local Open Scope Z_scope.

(** The resources [l] are held by the objects of [owner], each by one. *)
Definition owned {A} (l : list Z) (key : A -> Z) (objects : nat -> A) : Prop :=
  NoDup l /\ (forall h, In h l <-> h <> 0 /\ exists i, key (objects i) = h) /\
  (forall i j, key (objects i) = key (objects j) -> key (objects i) <> 0 -> i = j).

Definition inv (w : world) : Prop := owned (open w) (fun h => h) (files w) /\ owned (mapped w) snd (spans w).

Lemma nodup_remove x l : NoDup l -> NoDup (remove Z.eq_dec x l).
Proof.
  induction 1 as [|y l N D IH]; cbn [remove]; [constructor|]. destruct (Z.eq_dec x y); [assumption|]. constructor; [|assumption].
  intro I. apply in_remove in I. tauto.
Qed.

Lemma in_remove_iff x h l : In h (remove Z.eq_dec x l) <-> In h l /\ h <> x.
Proof. split; [apply in_remove|intros []; now apply in_in_remove]. Qed.

Lemma put_same {A} (m : nat -> A) i v : put m i v i = v.
Proof. unfold put. now rewrite Nat.eqb_refl. Qed.
Lemma put_other {A} (m : nat -> A) i v j : j <> i -> put m i v j = m j.
Proof. intro H. unfold put. apply Nat.eqb_neq in H. now rewrite H. Qed.

Lemma owned_acquire {A} l key (m : nat -> A) i v : owned l key m -> key (m i) = 0 -> key v <> 0 -> ~ In (key v) l ->
  owned (key v :: l) key (put m i v).
Proof.
  intros (N & I & J) K V F. split; [now constructor|]. split.
  - intro h. cbn [In]. rewrite I. split.
    + intros [<-|(Z & j & E)]; [split; [assumption|]; exists i; now rewrite put_same|]. split; [assumption|]. exists j.
      rewrite put_other; [assumption|]. intros ->. congruence.
    + intros (Z & j & E). destruct (Nat.eq_dec j i) as [->|D]; [left; now rewrite put_same in E|]. rewrite put_other in E by assumption. right. eauto.
  - intros a b E Za. destruct (Nat.eq_dec a i) as [->|Da], (Nat.eq_dec b i) as [->|Db]; rewrite ?put_same, ?put_other in * by assumption; try reflexivity.
    + exfalso. apply F. apply I. split; [assumption|]. exists b. now symmetry.
    + exfalso. apply F. apply I. rewrite <- E. split; [assumption|]. now exists a.
    + now apply J.
Qed.

Lemma owned_nothing {A} l key (m : nat -> A) i v : owned l key m -> key (m i) = 0 -> key v = 0 -> owned l key (put m i v).
Proof.
  intros (N & I & J) K V. split; [assumption|]. split.
  - intro h. rewrite I. split; intros (Z & j & E); (split; [assumption|]); exists j; destruct (Nat.eq_dec j i) as [->|D]; rewrite ?put_same, ?put_other in * by assumption; congruence.
  - intros a b E Za. destruct (Nat.eq_dec a i) as [->|Da]; [rewrite put_same in Za; contradiction|]. rewrite put_other in * by assumption.
    destruct (Nat.eq_dec b i) as [->|Db]; [rewrite put_same in E; congruence|]. rewrite put_other in E by assumption. now apply J.
Qed.

Lemma owned_release {A} l key (m : nat -> A) i v : owned l key m -> key v = 0 ->
  owned (remove Z.eq_dec (key (m i)) l) key (put m i v).
Proof.
  intros (N & I & J) V. split; [now apply nodup_remove|]. split.
  - intro h. rewrite in_remove_iff, I. split.
    + intros ((Z & j & E) & D). split; [assumption|]. exists j. rewrite put_other; [assumption|]. intros ->. congruence.
    + intros (Z & j & E). destruct (Nat.eq_dec j i) as [->|D]; [rewrite put_same in E; congruence|]. rewrite put_other in E by assumption.
      split; [split; [assumption|]; now exists j|]. intro F. apply D. apply J; congruence.
  - intros a b E Za. destruct (Nat.eq_dec a i) as [->|Da]; [rewrite put_same in Za; contradiction|]. rewrite put_other in * by assumption.
    destruct (Nat.eq_dec b i) as [->|Db]; [rewrite put_same in E; congruence|]. rewrite put_other in E by assumption. now apply J.
Qed.

(** A handle that is opened and closed again leaves the list as it was. *)
Lemma remove_fresh x l : ~ In x l -> remove Z.eq_dec x (x :: l) = l.
Proof. intro N. cbn [remove]. destruct (Z.eq_dec x x); [|contradiction]. now apply notin_remove. Qed.

Lemma close_fresh x l vs es : x <> 0 -> ~ In x l -> events (x :: l, vs) (CloseHandle x :: es) = events (l, vs) es.
Proof.
  intros Z N. cbn [events event_step]. apply Z.eqb_neq in Z. rewrite Z. destruct (in_dec Z.eq_dec x (x :: l)) as [|F]; [|exfalso; apply F; now left].
  now rewrite remove_fresh.
Qed.

(** Mapping a file: the events leave the handles as they were and add the view. *)
Lemma map_events bits o h hs vs : ~ In (os_mapping o) hs -> ~ In (os_view o) vs ->
  let '(es, okay, sp) := map_span_file bits o h in
  forall tl, events (hs, vs) (es ++ tl) = events (hs, if okay then snd sp :: vs else vs) tl /\
  (okay = true -> snd sp <> 0 /\ snd sp = os_view o) /\ (okay = false -> snd sp = 0).
Proof.
  intros Fm Fv. unfold map_span_file. destruct (if h =? 0 then None else os_size o) as [quad|]; [|cbn; intuition congruence].
  destruct (Z.eqb_spec (if h =? 0 then 0 else os_mapping o) 0) as [E|N]; [cbn; intuition congruence|].
  destruct (Z.eqb_spec h 0) as [->|Nh]; [contradiction|].
  destruct (Z.eqb_spec (os_view o) 0) as [Ev|Nv]; intro tl; cbn [app snd].
  - change (events (os_mapping o :: hs, vs) (CloseHandle (os_mapping o) :: tl) = events (hs, vs) tl /\ (false = true -> 0 <> 0 /\ 0 = os_view o) /\ (false = false -> 0 = 0)).
    rewrite close_fresh by assumption. intuition congruence.
  - change (events (os_mapping o :: hs, os_view o :: vs) (CloseHandle (os_mapping o) :: tl) = events (hs, os_view o :: vs) tl /\
      (true = true -> os_view o <> 0 /\ os_view o = os_view o) /\ (true = false -> os_view o = 0)).
    rewrite close_fresh by assumption. intuition congruence.
Qed.

Lemma call_ok bits w c : inv w -> allowed w c -> exists w', do_call bits w c = Some w' /\ inv w'.
Proof.
  intros (IF & IS) A. destruct c as [f o|f|s f o|s o|s]; cbn [do_call allowed] in *.
  - destruct A as (F0 & Fc & _). unfold open_file_into, open_file. cbn [fst snd]. destruct (Z.eqb_spec (os_create o) 0) as [E|N]; unfold perform; cbn [events event_step].
    + eexists. split; [reflexivity|]. split; [|exact IS]. cbn [open files]. now apply owned_nothing.
    + eexists. split; [reflexivity|]. split; [|exact IS]. cbn [open files]. now apply (owned_acquire (open w) (fun h => h)).
  - unfold close_file, perform. cbn [events event_step]. destruct (Z.eqb_spec (files w f) 0) as [E|N].
    + eexists. split; [reflexivity|]. split; [|exact IS]. cbn [open files]. now apply owned_nothing.
    + destruct (in_dec Z.eq_dec (files w f) (open w)) as [I|F]; [|exfalso; apply F; apply IF; eauto].
      eexists. split; [reflexivity|]. split; [|exact IS]. cbn [open files]. now apply (owned_release (open w) (fun h => h)).
  - destruct A as (S0 & Fc & Fm & _ & Fv). pose proof (map_events bits o (files w f) (open w) (mapped w) Fm Fv) as M.
    destruct (map_span_file bits o (files w f)) as [[es okay] sp]. destruct (M []) as (E & B & C). rewrite app_nil_r in E. unfold perform. rewrite E. cbn [events].
    eexists. split; [reflexivity|]. split; [exact IF|]. cbn [mapped spans]. destruct okay.
    + destruct (B eq_refl) as [Z V]. apply (owned_acquire (mapped w) snd); try assumption. now rewrite V.
    + now apply owned_nothing; auto.
  - destruct A as (S0 & Fc & Fm & D & Fv). unfold map_span_path, open_file, close_file. cbn [fst snd].
    destruct (Z.eqb_spec (os_create o) 0) as [E0|N0].
    + pose proof (map_events bits o (os_create o) (open w) (mapped w) Fm Fv) as M.
      destruct (map_span_file bits o (os_create o)) as [[es okay] sp]. destruct (M [CloseHandle (os_create o)]) as (E & B & C). cbn [app]. unfold perform. rewrite E.
      cbn [events event_step]. rewrite E0. cbn [Z.eqb]. eexists. split; [reflexivity|]. split; [exact IF|]. cbn [mapped spans]. destruct okay.
      * destruct (B eq_refl) as [Z V]. apply (owned_acquire (mapped w) snd); try assumption. now rewrite V.
      * now apply owned_nothing; auto.
    + assert (Fm' : ~ In (os_mapping o) (os_create o :: open w)) by (intros [H|H]; [destruct D; congruence|contradiction]).
      pose proof (map_events bits o (os_create o) (os_create o :: open w) (mapped w) Fm' Fv) as M.
      destruct (map_span_file bits o (os_create o)) as [[es okay] sp]. destruct (M [CloseHandle (os_create o)]) as (E & B & C). unfold perform.
      change (events (open w, mapped w) ([OpenHandle (os_create o)] ++ es ++ [CloseHandle (os_create o)]))
        with (events (os_create o :: open w, mapped w) (es ++ [CloseHandle (os_create o)])).
      rewrite E. rewrite close_fresh by assumption. cbn [events]. eexists. split; [reflexivity|]. split; [exact IF|]. cbn [mapped spans]. destruct okay.
      * destruct (B eq_refl) as [Z V]. apply (owned_acquire (mapped w) snd); try assumption. now rewrite V.
      * now apply owned_nothing; auto.
  - unfold unmap_span, perform. cbn [events event_step]. destruct (Z.eqb_spec (snd (spans w s)) 0) as [E|N].
    + eexists. split; [reflexivity|]. split; [exact IF|]. cbn [mapped spans]. now apply owned_nothing.
    + destruct (in_dec Z.eq_dec (snd (spans w s)) (mapped w)) as [I|F]; [|exfalso; apply F; apply IS; eauto].
      eexists. split; [reflexivity|]. split; [exact IF|]. cbn [mapped spans]. now apply (owned_release (mapped w) snd).
Qed.

Lemma reach_inv bits w : reachable bits w -> inv w.
Proof.
  induction 1 as [|w c w' R IH A E].
  - split; (split; [constructor|]; split; [intro h; cbn; split; [tauto|intros (N & i & E); congruence]|intros i j _ N; cbn in N; congruence]).
  - destruct (call_ok bits w c IH A) as (w'' & E' & I). congruence.
Qed.

(** C82: after any sequence of allowed calls, whatever the operating system answered: no call closes a handle or unmaps a view
    that is not open; *)
Theorem C82_no_double_close : forall bits w c, reachable bits w -> allowed w c -> exists w', do_call bits w c = Some w'.
Proof. intros bits w c R A. destruct (call_ok bits w c (reach_inv bits w R) A) as (w' & E & _). eauto. Qed.
Print Assumptions C82_no_double_close.

(** the open handles are those of the file_t objects, the views those of the spans, one each; so once all files are closed and all
    spans are unmapped, nothing is left open. *)
Theorem C82_no_leak : forall bits w, reachable bits w ->
  (NoDup (open w) /\ (forall h, In h (open w) <-> h <> 0 /\ exists f, files w f = h)) /\
  (NoDup (mapped w) /\ (forall a, In a (mapped w) <-> a <> 0 /\ exists s, snd (spans w s) = a)) /\
  (forall f g, files w f = files w g -> files w f <> 0 -> f = g) /\
  (forall s t, snd (spans w s) = snd (spans w t) -> snd (spans w s) <> 0 -> s = t) /\
  ((forall f, files w f = 0) -> (forall s, snd (spans w s) = 0) -> open w = [] /\ mapped w = []).
Proof.
  intros bits w R. destruct (reach_inv bits w R) as ((N1 & I1 & J1) & (N2 & I2 & J2)).
  split; [split; assumption|]. split; [split; assumption|]. split; [assumption|]. split; [assumption|]. intros F S. split.
  - destruct (open w) as [|h l] eqn:E; [reflexivity|]. exfalso. destruct (proj1 (I1 h) (or_introl eq_refl)) as (N & f & X). rewrite F in X. congruence.
  - destruct (mapped w) as [|h l] eqn:E; [reflexivity|]. exfalso. destruct (proj1 (I2 h) (or_introl eq_refl)) as (N & f & X). rewrite S in X. congruence.
Qed.
Print Assumptions C82_no_leak.

(** C82: a file_t left by close_file is invalid and an unmapped span is empty, so that doing it again does nothing. *)
Theorem C82_again : forall bits w f s w', reachable bits w ->
  (do_call bits w (Close f) = Some w' -> files w' f = 0 /\ exists w'', do_call bits w' (Close f) = Some w'' /\ open w'' = open w' /\ mapped w'' = mapped w') /\
  (do_call bits w (Unmap s) = Some w' -> spans w' s = (0, 0) /\ exists w'', do_call bits w' (Unmap s) = Some w'' /\ open w'' = open w' /\ mapped w'' = mapped w').
Proof.
  intros bits w f s w' R. split; cbn [do_call]; unfold close_file, unmap_span, perform at 1; intro E; destruct (events _ _) as [[hs vs]|]; try discriminate; inversion E; subst w'; cbn [files spans open mapped].
  - split; [apply put_same|]. rewrite put_same. eexists. split; [reflexivity|]. now split.
  - split; [apply put_same|]. rewrite put_same. eexists. split; [reflexivity|]. now split.
Qed.
Print Assumptions C82_again.

(** C82: map_span<T>: on a 64 bit processor, or for files of less than 4 GB, the span has all whole Ts of the file and no byte that
    is not in the file; after any failure it is empty. *)
Theorem C82_typed_partial : forall sizeof_t bits o n, 0 < sizeof_t -> bits = 32 \/ bits = 64 -> os_size o = Some n -> 0 <= n < 2 ^ 63 ->
  bits = 64 \/ n < 2 ^ 32 ->
  let '(_, (count, data)) := map_span_as sizeof_t bits o in
  let mapped := os_create o <> 0 /\ os_mapping o <> 0 /\ os_view o <> 0 in
  (mapped -> data = os_view o /\ 0 <= count /\ count * sizeof_t <= n < (count + 1) * sizeof_t) /\
  (~ mapped -> count = 0 /\ data = 0).
Proof.
  intros sz bits o n Hs HB Hn R L. unfold map_span_as, map_span_path, open_file, map_span_file, close_file. cbn [fst snd]. rewrite Hn.
  assert (E : n mod 2 ^ bits = n) by (apply Z.mod_small; destruct HB as [-> | ->]; destruct L; lia).
  destruct (Z.eqb_spec (os_create o) 0) as [C|C]; [split; [intro; tauto|intros _; split; [apply Z.div_0_l; lia|reflexivity]]|].
  destruct (Z.eqb_spec (os_mapping o) 0) as [M|M]; [split; [intro; tauto|intros _; split; [apply Z.div_0_l; lia|reflexivity]]|].
  destruct (Z.eqb_spec (os_view o) 0) as [V|V]; [split; [intro; tauto|intros _; split; [apply Z.div_0_l; lia|reflexivity]]|]. rewrite E.
  split; [intros _|tauto]. split; [reflexivity|]. split; [apply Z.div_pos; lia|].
  pose proof (Z.div_mod n sz ltac:(lia)). pose proof (Z.mod_pos_bound n sz Hs). nia.
Qed.
Print Assumptions C82_typed_partial.

(** C82: a 32 bit program that maps a file of 4 GB or more gets a shorter span and `true`. *)
Theorem C82_big_file_refuted : ~ (forall bits o, bits = 32 \/ bits = 64 -> (forall n, os_size o = Some n -> 0 <= n < 2 ^ 63) ->
  let '(_, okay, (size, _)) := map_span_path bits o in okay = true -> os_size o = Some size).
Proof.
  intro H. specialize (H 32 {| os_create := 4; os_size := Some (2 ^ 32 + 1); os_mapping := 5; os_view := 65536 |} (or_introl eq_refl)).
  cbn [os_size] in H. specialize (H ltac:(intros n E; inversion E; lia)). vm_compute in H. specialize (H eq_refl). discriminate.
Qed.
Print Assumptions C82_big_file_refuted.

(** C82: what the calls say: open_file says true exactly when the file_t holds a handle that it opened, map_span says true exactly when the
    span holds a view that it mapped. *)
Theorem C82_reports : forall bits w c, reachable bits w -> allowed w c -> forall w', do_call bits w c = Some w' ->
  match c with
  | Open f o => let '(_, okay, _) := open_file_into o in okay = true <-> (files w' f <> 0 /\ In (files w' f) (open w') /\ ~ In (files w' f) (open w))
  | MapFile s f o => let '(_, okay, _) := map_span_file bits o (files w f) in okay = true <-> (snd (spans w' s) <> 0 /\ In (snd (spans w' s)) (mapped w') /\ ~ In (snd (spans w' s)) (mapped w))
  | MapPath s o => let '(_, okay, _) := map_span_path bits o in okay = true <-> (snd (spans w' s) <> 0 /\ In (snd (spans w' s)) (mapped w') /\ ~ In (snd (spans w' s)) (mapped w))
  | _ => True
  end.
Proof.
  intros bits w c Rw A w' E. pose proof (reach_inv bits w Rw) as I. destruct (call_ok bits w c I A) as (w2 & E2 & (IF & IS)). rewrite E in E2. injection E2 as <-.
  assert (P : forall {X} (m : nat -> X) i v, put m i v i = v) by (intros; unfold put; now rewrite Nat.eqb_refl).
  destruct c as [f o|f|s f o|s o|s]; try exact Logic.I; cbn [do_call allowed] in E, A.
  - destruct A as (F0 & Fc & _). unfold open_file_into, open_file in *. unfold perform in E. destruct (Z.eqb_spec (os_create o) 0) as [Z0|N]; cbn [events event_step negb] in *; injection E as <-; cbn [files open mapped spans] in *; rewrite P.
    + split; [discriminate|]. intros (K & _). congruence.
    + split; [|reflexivity]. intros _. split; [assumption|]. split; [now left|]. apply Fc.
  - destruct A as (S0 & Fc & Fm & _ & Fv). pose proof (map_events bits o (files w f) (open w) (mapped w) Fm Fv) as M.
    destruct (map_span_file bits o (files w f)) as [[es okay] sp]. destruct (M []) as (Ev & B & C). rewrite app_nil_r in Ev. unfold perform in E. rewrite Ev in E. cbn [events] in E. injection E as <-. cbn [files open mapped spans] in *. rewrite P.
    destruct okay; [destruct (B eq_refl) as [Z V]|rewrite (C eq_refl)]; split; try congruence; try (intros (K & _); congruence). intros _. split; [assumption|]. split; [now left|]. now rewrite V.
  - destruct A as (S0 & Fc & Fm & D & Fv). unfold map_span_path, open_file, close_file in *. cbn [fst snd] in *.
    assert (Fm' : os_create o <> 0 -> ~ In (os_mapping o) (os_create o :: open w)) by (intros N [H|H]; [destruct D; congruence|contradiction]).
    pose proof (map_events bits o (os_create o) (if os_create o =? 0 then open w else os_create o :: open w) (mapped w)) as M.
    destruct (Z.eqb_spec (os_create o) 0) as [E0|N0]; [specialize (M Fm Fv)|specialize (M (Fm' N0) Fv)];
      destruct (map_span_file bits o (os_create o)) as [[es okay] sp]; destruct (M [CloseHandle (os_create o)]) as (Ev & B & C); unfold perform in E.
    + cbn [app] in E. rewrite Ev in E. cbn [events event_step] in E. rewrite E0 in E. cbn [Z.eqb] in E. injection E as <-. cbn [files open mapped spans] in *. rewrite P.
      destruct okay; [destruct (B eq_refl) as [Z V]|rewrite (C eq_refl)]; split; try congruence; try (intros (K & _); congruence). intros _. split; [assumption|]. split; [now left|]. now rewrite V.
    + cbn [app events event_step] in E. rewrite Ev in E. rewrite close_fresh in E by assumption. cbn [events] in E. injection E as <-. cbn [files open mapped spans] in *. rewrite P.
      destruct okay; [destruct (B eq_refl) as [Z V]|rewrite (C eq_refl)]; split; try congruence; try (intros (K & _); congruence). intros _. split; [assumption|]. split; [now left|]. now rewrite V.
Qed.
Print Assumptions C82_reports.

(** C82: on POSIX every call reports failure, and the spans are empty. *)
Theorem C82_posix : posix_open_file_into = false /\ posix_close_file = false /\
  posix_map_span = (false, (0, 0)) /\ posix_map_span_path = (false, (0, 0)) /\ posix_unmap_span = (false, (0, 0)).
Proof. repeat split. Qed.

(** A run: open file 0, map it into span 0, close it, map a path into span 1, unmap both (one of them twice), and the leak that the
    rule excludes: mapping into a span that holds a view loses it. *)
Definition answers (c m v : Z) : os_answers := {| os_create := c; os_size := Some 100; os_mapping := m; os_view := v |}.
Fixpoint run (w : option world) (cs : list call) : option world :=
  match cs, w with [], _ => w | _, None => None | c :: cs, Some w => run (do_call 64 w c) cs end.
Definition start : world := {| open := []; mapped := []; files := fun _ => 0; spans := fun _ => (0, 0) |}.
Definition look (w : option world) := match w with Some w => Some (open w, mapped w, files w 0%nat, spans w 0%nat, spans w 1%nat) | None => None end.
Example C82_case_run :
  look (run (Some start) [Open 0 (answers 4 0 0); MapFile 0 0 (answers 0 5 65536); Close 0; MapPath 1 (answers 6 7 131072)]) =
    Some ([], [131072; 65536], 0, (100, 65536), (100, 131072)) /\
  look (run (Some start) [Open 0 (answers 4 0 0); MapFile 0 0 (answers 0 5 65536); Close 0; Close 0; Unmap 0; Unmap 0]) = Some ([], [], 0, (0, 0), (0, 0)) /\
  look (run (Some start) [MapPath 0 (answers 6 7 65536); MapPath 0 (answers 6 7 131072); Unmap 0]) = Some ([], [65536], 0, (0, 0), (0, 0)) /\
  map_span_as 8 64 (answers 6 7 65536) = ([OpenHandle 6; OpenHandle 7; MapView 65536; CloseHandle 7; CloseHandle 6], (12, 65536)).
Proof. repeat split. Qed.

Example C82_case_reachable : exists w, reachable 64 w /\ open w = [4] /\ mapped w = [65536].
Proof.
  eexists. split; [|split].
  - eapply (reach_call 64 _ (MapFile 0 0 (answers 0 5 65536))); [eapply (reach_call 64 _ (Open 0 (answers 4 5 0)))|..].
    + constructor.
    + unfold allowed, answers_ok, answers. cbn. intuition lia.
    + reflexivity.
    + unfold allowed, answers_ok, answers. cbn. intuition lia.
    + reflexivity.
  - reflexivity.
  - reflexivity.
Qed.
