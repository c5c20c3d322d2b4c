(** The processors with store buffers simulate the interleaving model of Atomic_Model: the simulated state has all buffers flushed. *)
From Verif Require Import Base Atomic_Model Atomic_Spec Atomic_Proofs Tso_Model Tso_Spec.
Local Open Scope nat_scope.

(** ** Folding stores into memory *)

Lemma newest_fold {A} (at_ : entry -> option A) b : forall v, newest at_ b v = fold_left (fun v e => match at_ e with Some w => w | None => v end) b v.
Proof. induction b as [|e b IH]; intro v; [reflexivity|]. cbn [newest fold_left]. apply IH. Qed.

Definition fl (l : nat) (v : bool) (e : entry) : bool := match lock_at l e with Some w => w | None => v end.
Definition fx (x : nat) (v : Z) (e : entry) : Z := match plain_at x e with Some w => w | None => v end.
Definition fo (o : nat) (d : list Z) (e : entry) : list Z := match e with EWord o' k w => if o =? o' then upd d k w else d | _ => d end.

Lemma commit_locks m e l : nth_error (m_locks (commit m e)) l = option_map (fun v => fl l v e) (nth_error (m_locks m) l).
Proof.
  unfold fl. destruct e as [o k w|l'|x w]; cbn [commit m_locks lock_at]; try (now destruct (nth_error (m_locks m) l)).
  destruct (Nat.eqb_spec l l') as [<- | N].
  - destruct (nth_error (m_locks m) l) as [v|] eqn:E.
    + cbn. eapply upd_nth_error_eq. exact E.
    + cbn. apply nth_error_None. rewrite upd_length. now apply nth_error_None.
  - rewrite nth_error_upd_ne by congruence. now destruct (nth_error (m_locks m) l).
Qed.
Lemma commit_plain m e x : nth_error (m_plain (commit m e)) x = option_map (fun v => fx x v e) (nth_error (m_plain m) x).
Proof.
  unfold fx. destruct e as [o k w|l|y w]; cbn [commit m_plain plain_at]; try (now destruct (nth_error (m_plain m) x)).
  destruct (Nat.eqb_spec x y) as [<- | N].
  - destruct (nth_error (m_plain m) x) as [v|] eqn:E.
    + cbn. eapply upd_nth_error_eq. exact E.
    + cbn. apply nth_error_None. rewrite upd_length. now apply nth_error_None.
  - rewrite nth_error_upd_ne by congruence. now destruct (nth_error (m_plain m) x).
Qed.
Lemma commit_objs m e o : nth_error (m_objs (commit m e)) o = option_map (fun d => fo o d e) (nth_error (m_objs m) o).
Proof.
  destruct e as [o' k w|l|y w]; cbn [commit m_objs fo]; try (now destruct (nth_error (m_objs m) o)).
  destruct (Nat.eqb_spec o o') as [<- | N].
  - destruct (nth_error (m_objs m) o) as [d|] eqn:E.
    + rewrite (nth_error_nth _ _ _ E). cbn. eapply upd_nth_error_eq. exact E.
    + cbn. apply nth_error_None. rewrite upd_length. now apply nth_error_None.
  - rewrite nth_error_upd_ne by congruence. now destruct (nth_error (m_objs m) o).
Qed.

Lemma fold_locks b : forall m l, nth_error (m_locks (fold_left commit b m)) l = option_map (fold_left (fl l) b) (nth_error (m_locks m) l).
Proof.
  induction b as [|e b IH]; intros m l; cbn [fold_left]; [now destruct (nth_error (m_locks m) l)|].
  rewrite IH, commit_locks. now destruct (nth_error (m_locks m) l).
Qed.
Lemma fold_plain b : forall m x, nth_error (m_plain (fold_left commit b m)) x = option_map (fold_left (fx x) b) (nth_error (m_plain m) x).
Proof.
  induction b as [|e b IH]; intros m l; cbn [fold_left]; [now destruct (nth_error (m_plain m) l)|].
  rewrite IH, commit_plain. now destruct (nth_error (m_plain m) l).
Qed.
Lemma fold_objs b : forall m o, nth_error (m_objs (fold_left commit b m)) o = option_map (fold_left (fo o) b) (nth_error (m_objs m) o).
Proof.
  induction b as [|e b IH]; intros m l; cbn [fold_left]; [now destruct (nth_error (m_objs m) l)|].
  rewrite IH, commit_objs. now destruct (nth_error (m_objs m) l).
Qed.
Lemma commit_lengths m e : length (m_locks (commit m e)) = length (m_locks m) /\ length (m_objs (commit m e)) = length (m_objs m) /\
  m_atoms (commit m e) = m_atoms m /\ length (m_plain (commit m e)) = length (m_plain m).
Proof. destruct e; cbn; rewrite ?upd_length; auto. Qed.

(** A word of an object. *)
Lemma fo_word o k b : forall d, nth_error (fold_left (fo o) b d) k = option_map (newest (word_at o k) b) (nth_error d k).
Proof.
  induction b as [|e b IH]; intro d; cbn [fold_left newest]; [now destruct (nth_error d k)|].
  rewrite IH. destruct e as [o' k' w|l|y w]; cbn [fo word_at]; try (now destruct (nth_error d k)).
  destruct (Nat.eqb_spec o o'); cbn [andb]; [|now destruct (nth_error d k)].
  destruct (Nat.eqb_spec k k') as [<- | N].
  - destruct (nth_error d k) as [v|] eqn:E.
    + now rewrite (upd_nth_error_eq _ _ _ _ E).
    + replace (nth_error (upd d k w) k) with (@None Z); [reflexivity|]. symmetry. apply nth_error_None. rewrite upd_length. now apply nth_error_None.
  - rewrite nth_error_upd_ne by congruence. now destruct (nth_error d k).
Qed.

(** e is pending in the buffer of p. *)
Definition pend (bufs : list (list entry)) (p : nat) (e : entry) : Prop := exists b, nth_error bufs p = Some b /\ In e b.
Lemma pend_upd bufs p b b' p' e : nth_error bufs p = Some b ->
  (pend (upd bufs p b') p' e <-> (p' = p /\ In e b') \/ (p' <> p /\ pend bufs p' e)).
Proof.
  intro H. unfold pend. destruct (Nat.eq_dec p' p) as [-> | N].
  - rewrite (upd_nth_error_eq _ _ _ _ H). split; [intros (b0 & E & I); left; split; congruence|].
    intros [[_ I] | [N _]]; [eauto|congruence].
  - rewrite nth_error_upd_ne by congruence. split; [auto|]. intros [[E _] | [_ I]]; [congruence|exact I].
Qed.

Section Fold.
  Context {A : Type} (f : A -> entry -> A).
  Definition idle (e : entry) : Prop := forall v, f v e = v.
  Lemma fold_idle b : (forall e, In e b -> idle e) -> forall v, fold_left f b v = v.
  Proof.
    induction b as [|e b IH]; intros H v; [reflexivity|]. cbn [fold_left]. rewrite (H e (or_introl eq_refl)).
    apply IH. intros e' He. apply H. now right.
  Qed.
  Lemma fold_own bufs : forall p b, nth_error bufs p = Some b -> (forall p' e, p' <> p -> pend bufs p' e -> idle e) ->
    forall v, fold_left f (concat bufs) v = fold_left f b v.
  Proof.
    intros p b Hb Q v. apply nth_error_split in Hb. destruct Hb as (B1 & B2 & -> & <-).
    rewrite concat_app. cbn [concat]. rewrite !fold_left_app.
    assert (Q1 : forall e, In e (concat B1) -> idle e).
    { intros e He. apply in_concat in He. destruct He as (b' & Hb' & He). apply In_nth_error in Hb'. destruct Hb' as (n & Hn).
      assert (Hl := nth_error_lt _ _ _ Hn). apply (Q n); [lia|]. exists b'. split; [|exact He]. now rewrite nth_error_app1. }
    assert (Q2 : forall e, In e (concat B2) -> idle e).
    { intros e He. apply in_concat in He. destruct He as (b' & Hb' & He). apply In_nth_error in Hb'. destruct Hb' as (n & Hn).
      apply (Q (S n + length B1)); [lia|]. exists b'. split; [|exact He]. rewrite nth_error_app2 by lia.
      replace (S n + length B1 - length B1) with (S n) by lia. exact Hn. }
    rewrite (fold_idle _ Q1), (fold_idle _ Q2). reflexivity.
  Qed.
  Lemma fold_all_idle bufs v : (forall p e, pend bufs p e -> idle e) -> fold_left f (concat bufs) v = v.
  Proof.
    intro Q. apply fold_idle. intros e He. apply in_concat in He. destruct He as (b' & Hb' & He). apply In_nth_error in Hb'.
    destruct Hb' as (n & Hn). apply (Q n). exists b'. auto.
  Qed.
  Lemma fold_push bufs p b e v : nth_error bufs p = Some b -> (forall p' e', p' <> p -> pend bufs p' e' -> idle e') ->
    fold_left f (concat (upd bufs p (b ++ [e]))) v = f (fold_left f (concat bufs) v) e.
  Proof.
    intros Hb Q. rewrite (fold_own bufs p b Hb Q). rewrite (fold_own (upd bufs p (b ++ [e])) p (b ++ [e])).
    - now rewrite fold_left_app.
    - eapply upd_nth_error_eq. exact Hb.
    - intros p' e' N P. apply (Q p' e' N). apply (pend_upd _ _ _ _ _ _ Hb) in P. destruct P as [[E _] | [_ P]]; [congruence|exact P].
  Qed.
  Lemma fold_push_idle bufs p b e v : nth_error bufs p = Some b -> idle e ->
    fold_left f (concat (upd bufs p (b ++ [e]))) v = fold_left f (concat bufs) v.
  Proof.
    intros Hb Q. apply nth_error_split in Hb. destruct Hb as (B1 & B2 & -> & <-). rewrite upd_app_mid, !concat_app. cbn [concat].
    rewrite <- app_assoc, !fold_left_app. cbn [fold_left]. now rewrite Q.
  Qed.
  Lemma fold_pop bufs p b e v : nth_error bufs p = Some (e :: b) -> (forall p' e', p' <> p -> pend bufs p' e' -> idle e') ->
    fold_left f (concat (upd bufs p b)) (f v e) = fold_left f (concat bufs) v.
  Proof.
    intros Hb Q. rewrite (fold_own bufs p _ Hb Q). rewrite (fold_own (upd bufs p b) p b).
    - reflexivity.
    - eapply upd_nth_error_eq. exact Hb.
    - intros p' e' N P. apply (Q p' e' N). apply (pend_upd _ _ _ _ _ _ Hb) in P. destruct P as [[E _] | [_ P]]; [congruence|exact P].
  Qed.
  Lemma fold_pop_idle bufs p b e v : nth_error bufs p = Some (e :: b) -> idle e ->
    fold_left f (concat (upd bufs p b)) v = fold_left f (concat bufs) v.
  Proof.
    intros Hb Q. apply nth_error_split in Hb. destruct Hb as (B1 & B2 & -> & <-). rewrite upd_app_mid, !concat_app. cbn [concat app].
    rewrite !fold_left_app. cbn [fold_left]. now rewrite Q, fold_left_app.
  Qed.
End Fold.

Lemma list_ext {A} (a b : list A) : (forall i, nth_error a i = nth_error b i) -> a = b.
Proof.
  revert b. induction a as [|d a IH]; intros [|e b] E; [reflexivity|specialize (E 0); discriminate|specialize (E 0); discriminate|].
  f_equal; [specialize (E 0); cbn in E; congruence|]. apply IH. intro o. exact (E (S o)).
Qed.
Lemma nth_error_snoc_upd {A} (l : list A) x i v : i < length l -> upd (l ++ [x]) i v = upd l i v ++ [x].
Proof. revert i. induction l as [|a l IH]; intros [|i] H; cbn in *; try lia; [reflexivity|]. f_equal. apply IH. lia. Qed.

(** ** The order of a processor's calls *)
Lemma ready_spec p calls : forall pcs j, length pcs = length calls ->
  (ready p calls pcs j = true <-> forall j' c pc, j' < j -> nth_error calls j' = Some (p, c) -> nth_error pcs j' = Some pc -> is_done pc = true).
Proof.
  induction calls as [|[q c0] calls IH]; intros pcs j L.
  { destruct j; cbn; split; try reflexivity; intros _ j' c pc _ E; destruct j'; discriminate. }
  destruct pcs as [|pc0 pcs]; [discriminate|]. destruct j as [|j]; [cbn; split; [intros; lia|reflexivity]|].
  cbn [ready fst]. rewrite andb_true_iff, IH by (cbn in L; lia). split.
  - intros [H1 H2] [|j'] c pc Hj Hc Hp; cbn in Hc, Hp.
    + injection Hc as -> ->. injection Hp as ->. rewrite Nat.eqb_refl in H1. exact H1.
    + eapply H2; eauto. lia.
  - intro H. split.
    + destruct (Nat.eqb_spec q p) as [-> | N]; [|reflexivity]. cbn. eapply (H 0); [lia|reflexivity|reflexivity].
    + intros j' c pc Hj Hc Hp. apply (H (S j') c pc); [lia|exact Hc|exact Hp].
Qed.

Section Tso.
  Context (ptr : Z) (addrs : list Z) (calls : list (nat * tcall)).
  Let lock_for (o : nat) : nat := lock_index ptr (nth o addrs 0%Z).

  Definition lk (e : entry) : option nat := match e with EWord o _ _ => Some (lock_for o) | EUnlock l => Some l | EPlain _ _ => None end.

  Lemma fl_idle l e : lk e <> Some l -> idle (fl l) e.
  Proof.
    intros H v. unfold fl. destruct e as [o k w|l'|x w]; try reflexivity. cbn in *. destruct (Nat.eqb_spec l l') as [<- | N]; [congruence|reflexivity].
  Qed.
  Lemma fo_idle o e : lk e <> Some (lock_for o) -> idle (fo o) e.
  Proof.
    intros H v. destruct e as [o' k w|l'|x w]; try reflexivity. cbn in *. destruct (Nat.eqb_spec o o') as [<- | N]; [congruence|reflexivity].
  Qed.

  Record tinv (t : tstate) : Prop := {
    i_locks : length (m_locks (t_mem t)) = 256;
    i_pcs : length (t_pcs t) = length calls;
    i_disj : forall p e p' e' l, pend (t_bufs t) p e -> pend (t_bufs t) p' e' -> lk e = Some l -> lk e' = Some l -> p = p';
    i_held : forall p e l, pend (t_bufs t) p e -> lk e = Some l -> nth_error (m_locks (t_mem t)) l = Some true;
    i_last : forall p b1 l b2, nth_error (t_bufs t) p = Some (b1 ++ EUnlock l :: b2) -> forall e, In e b2 -> lk e = None;
    i_in : forall j p o op pc, nth_error calls j = Some (p, TLocked (o, op)) -> nth_error (t_pcs t) j = Some pc -> inside pc = true ->
      nth_error (m_locks (t_mem t)) (lock_for o) = Some true /\
      (forall e, pend (t_bufs t) p e -> exists o' k w, e = EWord o' k w /\ lock_for o' = lock_for o) /\
      (forall p' e, pend (t_bufs t) p' e -> lk e = Some (lock_for o) -> p' = p);
    i_excl : forall j p o op pc j' p' o' op' pc', nth_error calls j = Some (p, TLocked (o, op)) -> nth_error (t_pcs t) j = Some pc -> inside pc = true ->
      nth_error calls j' = Some (p', TLocked (o', op')) -> nth_error (t_pcs t) j' = Some pc' -> inside pc' = true ->
      lock_for o = lock_for o' -> j = j';
    i_order : forall j j' p c c' pc pc', j' < j -> nth_error calls j = Some (p, c) -> nth_error calls j' = Some (p, c') ->
      nth_error (t_pcs t) j = Some pc -> nth_error (t_pcs t) j' = Some pc' -> pc <> AWait -> is_done pc' = true;
    i_flat : forall j p c pc, nth_error calls j = Some (p, c) -> nth_error (t_pcs t) j = Some pc ->
      (forall a, c <> TLocked a) -> pc = AWait \/ exists r, pc = ADone r;
    i_put : forall p x w, pend (t_bufs t) p (EPlain x w) -> exists i r, nth_error calls i = Some (p, TPut x w) /\ nth_error (t_pcs t) i = Some (ADone r) /\
      forall j c pc, i < j -> nth_error calls j = Some (p, c) -> publishes c = true -> nth_error (t_pcs t) j = Some pc -> pc = AWait \/ pc = APause
  }.

  Lemma tinv_init procs objs atoms plain : tinv (tinit procs objs atoms plain calls).
  Proof.
    assert (Hn : forall i pc, nth_error (t_pcs (tinit procs objs atoms plain calls)) i = Some pc -> pc = AWait).
    { intros i pc. cbn. rewrite nth_error_map. destruct (nth_error calls i); cbn; congruence. }
    assert (Hb : forall p e, ~ pend (t_bufs (tinit procs objs atoms plain calls)) p e).
    { intros p e (b & H & I). cbn in H. apply nth_error_In in H. apply repeat_spec in H. subst b. exact I. }
    constructor.
    - apply repeat_length.
    - cbn. apply map_length.
    - intros p e p' e' l H. now apply Hb in H.
    - intros p e l H. now apply Hb in H.
    - intros p b1 l b2 H e He. cbn in H. apply nth_error_In in H. apply repeat_spec in H. destruct b1; discriminate.
    - intros j p o op pc _ H Hi. apply Hn in H. subst pc. discriminate.
    - intros j p o op pc j' p' o' op' pc' _ H Hi. apply Hn in H. subst pc. discriminate.
    - intros j j' p c c' pc pc' _ _ _ H _ N. apply Hn in H. contradiction.
    - intros j p c pc _ H _. left. now apply Hn in H.
    - intros p x w H. now apply Hb in H.
  Qed.

  (** Two calls of a processor that are under way are the same. *)
  Lemma one_active t j j' p c c' pc pc' : tinv t -> nth_error calls j = Some (p, c) -> nth_error calls j' = Some (p, c') ->
    nth_error (t_pcs t) j = Some pc -> nth_error (t_pcs t) j' = Some pc' -> pc <> AWait -> pc' <> AWait -> is_done pc = false -> is_done pc' = false -> j = j'.
  Proof.
    intros I C C' P P' N N' D D'. destruct (Nat.lt_trichotomy j j') as [L | [E | L]]; [|exact E|].
    - pose proof (i_order _ I _ _ _ _ _ _ _ L C' C P' P N'). congruence.
    - pose proof (i_order _ I _ _ _ _ _ _ _ L C C' P P' N). congruence.
  Qed.

  Lemma snoc_split {A} (b : list A) e b1 u b2 : b ++ [e] = b1 ++ u :: b2 ->
    (b2 = [] /\ e = u) \/ exists b2', b2 = b2' ++ [e] /\ b = b1 ++ u :: b2'.
  Proof.
    intro H. destruct b2 as [|x b2] using rev_ind.
    - left. apply app_inj_tail in H. tauto.
    - right. clear IHb2. change (b1 ++ u :: b2 ++ [x]) with (b1 ++ (u :: b2) ++ [x]) in H. rewrite app_assoc in H. apply app_inj_tail in H.
      destruct H as [-> ->]. eauto.
  Qed.

  (** What an access of call j may do keeps the invariant. *)
  Lemma keep t j p c pc pc' b es m' : tinv t -> nth_error calls j = Some (p, c) -> nth_error (t_pcs t) j = Some pc ->
    nth_error (t_bufs t) p = Some b -> ready p calls (t_pcs t) j = true -> is_done pc = false ->
    length (m_locks m') = 256 ->
    (forall l, nth_error (m_locks (t_mem t)) l = Some true -> nth_error (m_locks m') l = Some true) ->
    (es = [] \/ exists e, es = [e] /\
      ((exists x w r, e = EPlain x w /\ c = TPut x w /\ pc' = ADone r) \/
       (exists o op, c = TLocked (o, op) /\ inside pc = true /\ lk e = Some (lock_for o) /\ ((exists o' k w, e = EWord o' k w) \/ is_done pc' = true)))) ->
    ((forall a, c <> TLocked a) -> exists r, pc' = ADone r) ->
    (inside pc' = true -> exists o op, c = TLocked (o, op) /\
      (inside pc = true \/ (b = [] /\ nth_error (m_locks (t_mem t)) (lock_for o) = Some false /\ nth_error (m_locks m') (lock_for o) = Some true))) ->
    (publishes c = true -> pc = AWait \/ pc = APause -> (pc' = AWait \/ pc' = APause) \/ b = []) ->
    tinv {| t_mem := m'; t_pcs := upd (t_pcs t) j pc'; t_bufs := upd (t_bufs t) p (b ++ es) |}.
  Proof.
    intros I Hc Hp Hb Hr Hd HL Hrise Hes Hflat Hin Hpub.
    assert (Hr' := proj1 (ready_spec p calls _ j (i_pcs _ I)) Hr).
    assert (Other : forall j2 c2 pc2, nth_error calls j2 = Some (p, c2) -> nth_error (t_pcs t) j2 = Some pc2 -> pc2 <> AWait -> is_done pc2 = false -> j2 = j).
    { intros j2 c2 pc2 C2 P2 N2 D2. destruct (Nat.lt_trichotomy j2 j) as [L | [E | L]]; [|exact E|].
      - pose proof (Hr' _ _ _ L C2 P2). congruence.
      - pose proof (i_order _ I _ _ _ _ _ _ _ L C2 Hc P2 Hp N2). congruence. }
    assert (Pend : forall p' e, pend (upd (t_bufs t) p (b ++ es)) p' e -> pend (t_bufs t) p' e \/ (p' = p /\ In e es)).
    { intros p' e P. apply (pend_upd _ _ _ _ _ _ Hb) in P. destruct P as [[-> P] | [_ P]]; [|auto].
      apply in_app_iff in P. destruct P as [P | P]; [left; exists b; auto|auto]. }
    assert (New : forall e, In e es -> forall l, lk e = Some l -> exists o op, c = TLocked (o, op) /\ inside pc = true /\ l = lock_for o).
    { intros e He l Hl. destruct Hes as [-> | (e0 & -> & He0)]; [destruct He|]. destruct He as [-> | []].
      destruct He0 as [(x & w & r & -> & _) | (o & op & -> & Hi & Hk & _)]; [discriminate|]. exists o, op. repeat split; auto. congruence. }
    assert (Get : forall j2 pc2, nth_error (upd (t_pcs t) j pc') j2 = Some pc2 -> (j2 = j /\ pc2 = pc') \/ (j2 <> j /\ nth_error (t_pcs t) j2 = Some pc2)).
    { intros j2 pc2 H. destruct (Nat.eq_dec j2 j) as [-> | N].
      - rewrite (upd_nth_error_eq _ _ _ _ Hp) in H. left. split; congruence.
      - rewrite nth_error_upd_ne in H by congruence. auto. }
    constructor; cbn [t_mem t_pcs t_bufs].
    - exact HL.
    - rewrite upd_length. exact (i_pcs _ I).
    - intros p1 e1 p2 e2 l P1 P2 L1 L2. apply Pend in P1. apply Pend in P2. destruct P1 as [P1 | [-> P1]], P2 as [P2 | [-> P2]]; [|symmetry| |reflexivity].
      + exact (i_disj _ I _ _ _ _ _ P1 P2 L1 L2).
      + destruct (New _ P2 _ L2) as (o & op & -> & Hi & ->). symmetry. exact (proj2 (proj2 (i_in _ I _ _ _ _ _ Hc Hp Hi)) _ _ P1 L1).
      + destruct (New _ P1 _ L1) as (o & op & -> & Hi & ->). symmetry. exact (proj2 (proj2 (i_in _ I _ _ _ _ _ Hc Hp Hi)) _ _ P2 L2).
    - intros p1 e1 l P1 L1. apply Hrise. apply Pend in P1. destruct P1 as [P1 | [-> P1]]; [exact (i_held _ I _ _ _ P1 L1)|].
      destruct (New _ P1 _ L1) as (o & op & -> & Hi & ->). exact (proj1 (i_in _ I _ _ _ _ _ Hc Hp Hi)).
    - intros p1 b1 l b2 H e He. destruct (Nat.eq_dec p1 p) as [-> | N].
      2: { rewrite nth_error_upd_ne in H by congruence. exact (i_last _ I _ _ _ _ H e He). }
      rewrite (upd_nth_error_eq _ _ _ _ Hb) in H. injection H as H.
      destruct Hes as [-> | (e0 & -> & He0)].
      + rewrite app_nil_r in H. subst b. exact (i_last _ I _ _ _ _ Hb e He).
      + apply snoc_split in H. destruct H as [[-> _] | (b2' & -> & ->)]; [destruct He|].
        apply in_app_iff in He. destruct He as [He | [-> | []]]; [exact (i_last _ I _ _ _ _ Hb e He)|].
        destruct He0 as [(x & w & r & -> & _) | (o & op & -> & Hi & Hk & _)]; [reflexivity|].
        destruct (proj1 (proj2 (i_in _ I _ _ _ _ _ Hc Hp Hi)) (EUnlock l)) as (o' & k & w & E & _); [|discriminate].
        exists (b1 ++ EUnlock l :: b2'). split; [exact Hb|]. apply in_app_iff. right. now left.
    - intros j2 p2 o2 op2 pc2 C2 P2 I2. apply Get in P2. destruct P2 as [[-> ->] | [N P2]].
      + rewrite Hc in C2. injection C2 as -> ->. destruct (Hin I2) as (o & op & E & [Hi | (-> & Hf & Ht)]); injection E as <- <-.
        * destruct (i_in _ I _ _ _ _ _ Hc Hp Hi) as (A & B & C). split; [now apply Hrise|]. split.
          -- intros e P. apply Pend in P. destruct P as [P | [_ P]]; [now apply B|].
             destruct Hes as [-> | (e0 & -> & He0)]; [destruct P|]. destruct P as [-> | []].
             destruct He0 as [(x & w & r & _ & E & _) | (o & op & E & _ & Hk & [(o' & k & w & ->) | D])]; [discriminate| |destruct pc'; discriminate].
             injection E as <- <-. exists o', k, w. split; [reflexivity|]. cbn in Hk. congruence.
          -- intros p' e P L. apply Pend in P. destruct P as [P | [-> P]]; [exact (C _ _ P L)|reflexivity].
        * assert (es = []) as ->.
          { destruct Hes as [-> | (e0 & -> & He0)]; [reflexivity|]. destruct He0 as [(x & w & r & _ & E & _) | (o & op & E & Hi & _)]; [discriminate|].
            injection E as <- <-. exfalso. pose proof (proj1 (i_in _ I _ _ _ _ _ Hc Hp Hi)). congruence. }
          split; [exact Ht|]. split.
          -- intros e P. exfalso. apply (pend_upd _ _ _ _ _ _ Hb) in P. destruct P as [[_ []] | [P _]]. congruence.
          -- intros p' e P L. apply Pend in P. destruct P as [P | [_ []]]. pose proof (i_held _ I _ _ _ P L). congruence.
      + destruct (i_in _ I _ _ _ _ _ C2 P2 I2) as (A & B & C). split; [now apply Hrise|]. split.
        * intros e P. apply Pend in P. destruct P as [P | [-> P]]; [now apply B|]. exfalso. apply N. eapply Other; eauto; destruct pc2; discriminate || reflexivity.
        * intros p' e P L. apply Pend in P. destruct P as [P | [-> P]]; [exact (C _ _ P L)|].
          destruct (New _ P _ L) as (o & op & -> & Hi & E). exfalso. apply N. exact (i_excl _ I _ _ _ _ _ _ _ _ _ _ C2 P2 I2 Hc Hp Hi E).
    - intros j1 p1 o1 op1 pc1 j2 p2 o2 op2 pc2 C1 P1 I1 C2 P2 I2 E. apply Get in P1. apply Get in P2.
      destruct P1 as [[-> ->] | [N1 P1]], P2 as [[-> ->] | [N2 P2]]; [reflexivity| | |exact (i_excl _ I _ _ _ _ _ _ _ _ _ _ C1 P1 I1 C2 P2 I2 E)].
      + rewrite Hc in C1. injection C1 as -> ->. destruct (Hin I1) as (o & op & E1 & [Hi | (-> & Hf & Ht)]); injection E1 as <- <-.
        * exact (i_excl _ I _ _ _ _ _ _ _ _ _ _ Hc Hp Hi C2 P2 I2 E).
        * pose proof (proj1 (i_in _ I _ _ _ _ _ C2 P2 I2)). congruence.
      + rewrite Hc in C2. injection C2 as -> ->. destruct (Hin I2) as (o & op & E2 & [Hi | (-> & Hf & Ht)]); injection E2 as <- <-.
        * exact (i_excl _ I _ _ _ _ _ _ _ _ _ _ C1 P1 I1 Hc Hp Hi E).
        * pose proof (proj1 (i_in _ I _ _ _ _ _ C1 P1 I1)). congruence.
    - intros j1 j2 p1 c1 c2 pc1 pc2 L C1 C2 P1 P2 N. apply Get in P1. apply Get in P2.
      destruct P1 as [[-> ->] | [N1 P1]], P2 as [[-> ->] | [N2 P2]]; [lia| | |exact (i_order _ I _ _ _ _ _ _ _ L C1 C2 P1 P2 N)].
      + rewrite Hc in C1. injection C1 as -> ->. exact (Hr' _ _ _ L C2 P2).
      + pose proof (i_order _ I _ _ _ _ _ _ _ L C1 C2 P1 Hp N). congruence.
    - intros j1 p1 c1 pc1 C1 P1 N. apply Get in P1. destruct P1 as [[-> ->] | [N1 P1]]; [|exact (i_flat _ I _ _ _ _ C1 P1 N)].
      rewrite Hc in C1. injection C1 as -> ->. right. now apply Hflat.
    - intros p1 x w P. apply Pend in P. destruct P as [P | [-> P]].
      + destruct (i_put _ I _ _ _ P) as (i & r & Ci & Pi & Hj). exists i, r. split; [exact Ci|].
        assert (i <> j). { intros ->. rewrite Hp in Pi. injection Pi as ->. discriminate. }
        split; [rewrite nth_error_upd_ne by congruence; exact Pi|].
        intros j2 c2 pc2 L C2 Pb P2. apply Get in P2. destruct P2 as [[-> ->] | [N2 P2]]; [|exact (Hj _ _ _ L C2 Pb P2)].
        rewrite Hc in C2. injection C2 as -> ->. destruct (Hpub Pb (Hj _ _ _ L Hc Pb Hp)) as [E | ->]; [exact E|].
        destruct P as (b' & Hb' & P). rewrite Hb in Hb'. injection Hb' as <-. destruct P.
      + destruct Hes as [-> | (e0 & -> & He0)]; [destruct P|]. destruct P as [-> | []].
        destruct He0 as [(x0 & w0 & r & E & Ec & Er) | (o & op & _ & _ & Hk & _)]; [|discriminate]. injection E as <- <-. subst c pc'.
        exists j, r. split; [exact Hc|]. split; [eapply upd_nth_error_eq; exact Hp|].
        intros j2 c2 pc2 L C2 Pb P2. apply Get in P2. destruct P2 as [[-> ->] | [N2 P2]]; [lia|].
        destruct pc2 as [| |g|n k o|r2|r2]; auto; exfalso;
          match type of P2 with _ = Some ?q => assert (HX : q <> AWait) by discriminate; pose proof (i_order _ I _ _ _ _ _ _ _ L C2 Hc P2 Hp HX); congruence end.
  Qed.

  (** A store reaches memory. *)
  Lemma keep_flush t p e b : tinv t -> nth_error (t_bufs t) p = Some (e :: b) ->
    tinv {| t_mem := commit (t_mem t) e; t_pcs := t_pcs t; t_bufs := upd (t_bufs t) p b |}.
  Proof.
    intros I Hb.
    assert (Pend : forall p' e', pend (upd (t_bufs t) p b) p' e' -> pend (t_bufs t) p' e').
    { intros p' e' P. apply (pend_upd _ _ _ _ _ _ Hb) in P. destruct P as [[-> P] | [_ P]]; [|exact P]. exists (e :: b). split; [exact Hb|now right]. }
    assert (He : pend (t_bufs t) p e) by (exists (e :: b); split; [exact Hb|now left]).
    assert (Locks : forall l, nth_error (m_locks (t_mem t)) l = Some true -> e <> EUnlock l -> nth_error (m_locks (commit (t_mem t) e)) l = Some true).
    { intros l Hl Hn. rewrite commit_locks, Hl. cbn. unfold fl. destruct e as [o k w|l'|x w]; try reflexivity. cbn.
      destruct (Nat.eqb_spec l l') as [<- | N]; [congruence|reflexivity]. }
    constructor; cbn [t_mem t_pcs t_bufs].
    - rewrite (proj1 (commit_lengths _ _)). exact (i_locks _ I).
    - exact (i_pcs _ I).
    - intros p1 e1 p2 e2 l P1 P2. exact (i_disj _ I _ _ _ _ _ (Pend _ _ P1) (Pend _ _ P2)).
    - intros p1 e1 l P1 L1. apply Locks; [exact (i_held _ I _ _ _ (Pend _ _ P1) L1)|]. intros ->.
      assert (p = p1) by (eapply (i_disj _ I); [exact He|exact (Pend _ _ P1)|reflexivity|exact L1]). subst p1.
      apply (pend_upd _ _ _ _ _ _ Hb) in P1. destruct P1 as [[_ P1] | [N _]]; [|congruence].
      pose proof (i_last _ I p [] l b Hb e1 P1). congruence.
    - intros p1 b1 l b2 H e' He'. destruct (Nat.eq_dec p1 p) as [-> | N].
      + rewrite (upd_nth_error_eq _ _ _ _ Hb) in H. injection H as ->. exact (i_last _ I p (e :: b1) l b2 Hb e' He').
      + rewrite nth_error_upd_ne in H by congruence. exact (i_last _ I _ _ _ _ H e' He').
    - intros j p1 o op pc C P Hi. destruct (i_in _ I _ _ _ _ _ C P Hi) as (A & B & D). split; [|split].
      + apply Locks; [exact A|]. intros ->. assert (p = p1) by (exact (D _ _ He eq_refl)). subst p1.
        destruct (B _ He) as (o' & k & w & E & _). discriminate.
      + intros e' P'. exact (B _ (Pend _ _ P')).
      + intros p' e' P'. exact (D _ _ (Pend _ _ P')).
    - exact (i_excl _ I).
    - exact (i_order _ I).
    - exact (i_flat _ I).
    - intros p1 x w P. exact (i_put _ I _ _ _ (Pend _ _ P)).
  Qed.

  (** The simulated state: everything flushed, a paused call is a waiting one, and calls that take no lock are calls on an empty
      object that never move. *)
  Context (n : nat).
  Definition sc_call (c : nat * tcall) : acall := match snd c with TLocked a => a | _ => (n, ALoad) end.
  Definition sc_calls : list acall := map sc_call calls.
  Definition sc_pc (c : tcall) (pc : apc) : apc := match c with TLocked _ => match pc with APause => AWait | pc => pc end | _ => AWait end.
  Definition scp (pcs : list apc) : list apc := map (fun '(c, pc) => sc_pc (snd c) pc) (combine calls pcs).
  Definition flat (t : tstate) : memory := fold_left commit (concat (t_bufs t)) (t_mem t).
  Definition sc (t : tstate) : astate := {| a_locks := m_locks (flat t); a_objs := m_objs (flat t) ++ [[]]; a_pcs := scp (t_pcs t) |}.

  Lemma scp_nth pcs j p c pc : nth_error calls j = Some (p, c) -> nth_error pcs j = Some pc -> nth_error (scp pcs) j = Some (sc_pc c pc).
  Proof.
    unfold scp. revert pcs j. induction calls as [|c0 l IH]; intros [|pc0 pcs] [|j] Hc Hp; try discriminate; cbn in *.
    - injection Hc as ->. injection Hp as ->. reflexivity.
    - now apply IH.
  Qed.
  Lemma scp_upd pcs j p c pc : nth_error calls j = Some (p, c) -> scp (upd pcs j pc) = upd (scp pcs) j (sc_pc c pc).
  Proof.
    unfold scp. revert pcs j. induction calls as [|c0 l IH]; intros [|pc0 pcs] [|j] Hc; try discriminate; cbn in *; try reflexivity.
    - injection Hc as ->. reflexivity.
    - f_equal. now apply IH.
  Qed.
  Lemma scp_inv pcs j pc' : nth_error (scp pcs) j = Some pc' -> exists p c pc, nth_error calls j = Some (p, c) /\ nth_error pcs j = Some pc /\ pc' = sc_pc c pc.
  Proof.
    unfold scp. revert pcs j. induction calls as [|[p0 c0] l IH]; intros [|pc0 pcs] [|j] H; try discriminate; cbn in *.
    - injection H as <-. eauto 6.
    - now apply IH.
  Qed.

  Lemma flat_locks t l : nth_error (m_locks (flat t)) l = option_map (fold_left (fl l) (concat (t_bufs t))) (nth_error (m_locks (t_mem t)) l).
  Proof. apply fold_locks. Qed.
  Lemma flat_objs t o : nth_error (m_objs (flat t)) o = option_map (fold_left (fo o) (concat (t_bufs t))) (nth_error (m_objs (t_mem t)) o).
  Proof. apply fold_objs. Qed.
  Lemma flat_length t : length (m_objs (flat t)) = length (m_objs (t_mem t)) /\ length (m_locks (flat t)) = length (m_locks (t_mem t)).
  Proof.
    unfold flat. generalize (concat (t_bufs t)) as b, (t_mem t) as m. induction b as [|e b IH]; intro m; [auto|]. cbn [fold_left].
    destruct (IH (commit m e)) as [-> ->]. destruct (commit_lengths m e) as (-> & -> & _). auto.
  Qed.
  Lemma mem_eta m : {| m_locks := m_locks m; m_objs := m_objs m; m_atoms := m_atoms m; m_plain := m_plain m |} = m.
  Proof. now destruct m. Qed.

  (** Only the position of the call changes. *)
  Lemma sc_pcs t j p c pc pc' : nth_error calls j = Some (p, c) -> nth_error (t_pcs t) j = Some pc -> sc_pc c pc' = sc_pc c pc ->
    sc {| t_mem := t_mem t; t_pcs := upd (t_pcs t) j pc'; t_bufs := t_bufs t |} = sc t.
  Proof.
    intros Hc Hp E. unfold sc. cbn [t_pcs]. rewrite (scp_upd _ _ _ _ _ Hc), E, (upd_same (scp (t_pcs t))); [reflexivity|]. now apply (scp_nth _ _ _ _ _ Hc).
  Qed.

  Lemma sc_step t j p o op pc lock data : nth_error calls j = Some (p, TLocked (o, op)) -> nth_error (t_pcs t) j = Some pc ->
    nth_error (m_locks (flat t)) (lock_for o) = Some lock -> nth_error (m_objs (flat t)) o = Some data ->
    astep ptr addrs sc_calls j (sc t) =
      match astep_pc op lock data (match pc with APause => AWait | pc => pc end) with
      | Some (lock, data, pc) =>
          Some {| a_locks := upd (m_locks (flat t)) (lock_for o) lock; a_objs := upd (m_objs (flat t)) o data ++ [[]]; a_pcs := upd (scp (t_pcs t)) j pc |}
      | None => None
      end.
  Proof.
    intros Hc Hp Hl Ho. unfold astep, sc_calls. rewrite nth_error_map, Hc. cbn [option_map sc_call snd].
    unfold sc. cbn [a_pcs a_locks a_objs]. rewrite (scp_nth _ _ _ _ _ Hc Hp). cbn [sc_pc]. unfold lock_for in Hl. cbv zeta. rewrite Hl.
    assert (L := nth_error_lt _ _ _ Ho). rewrite nth_error_app1 by exact L. rewrite Ho.
    destruct (astep_pc op lock data _) as [[[l d] q]|]; [|reflexivity]. now rewrite nth_error_snoc_upd.
  Qed.

  (** What a call inside reads is what the flushed memory holds. *)
  Lemma inside_idle t j p o op pc : tinv t -> nth_error calls j = Some (p, TLocked (o, op)) -> nth_error (t_pcs t) j = Some pc -> inside pc = true ->
    (forall p' e, p' <> p -> pend (t_bufs t) p' e -> lk e <> Some (lock_for o)) /\
    (forall p' e, pend (t_bufs t) p' e -> idle (fl (lock_for o)) e).
  Proof.
    intros I Hc Hp Hi. destruct (i_in _ I _ _ _ _ _ Hc Hp Hi) as (A & B & C). split.
    - intros p' e N P L. apply N. exact (C _ _ P L).
    - intros p' e P. destruct (Nat.eq_dec p' p) as [-> | N].
      + destruct (B _ P) as (o' & k & w & -> & _). intro v. reflexivity.
      + apply fl_idle. intro L. apply N. exact (C _ _ P L).
  Qed.

  (** Every access of a guarded call is a step of the simulated state or leaves it as it is. *)
  Lemma sim_locked t j p o op pc b lock data lock' es pc' : tinv t -> nth_error calls j = Some (p, TLocked (o, op)) -> nth_error (t_pcs t) j = Some pc ->
    nth_error (t_bufs t) p = Some b -> ready p calls (t_pcs t) j = true ->
    nth_error (m_locks (t_mem t)) (lock_for o) = Some lock -> nth_error (m_objs (t_mem t)) o = Some data ->
    locked_step op o (lock_for o) b lock data pc = Some (lock', es, pc') ->
    let t' := {| t_mem := {| m_locks := upd (m_locks (t_mem t)) (lock_for o) lock'; m_objs := m_objs (t_mem t); m_atoms := m_atoms (t_mem t); m_plain := m_plain (t_mem t) |};
                 t_pcs := upd (t_pcs t) j pc'; t_bufs := upd (t_bufs t) p (b ++ es) |} in
    tinv t' /\ ((sc t' = sc t /\ is_done pc' = false) \/ astep ptr addrs sc_calls j (sc t) = Some (sc t')) /\
    (inside pc = true -> astep ptr addrs sc_calls j (sc t) = Some (sc t')).
  Proof.
    intros I Hc Hp Hb Hr Hl Ho H t'.
    assert (HL : length (upd (m_locks (t_mem t)) (lock_for o) lock') = 256) by (rewrite upd_length; exact (i_locks _ I)).
    assert (Same : lock' = lock -> es = [] -> t' = {| t_mem := t_mem t; t_pcs := upd (t_pcs t) j pc'; t_bufs := t_bufs t |}).
    { intros -> ->. subst t'. rewrite app_nil_r, (upd_same _ _ _ Hb), (upd_same _ _ _ Hl), mem_eta. reflexivity. }
    assert (HH : forall l, nth_error (m_locks (t_mem t)) l = Some true -> lock' = lock -> nth_error (upd (m_locks (t_mem t)) (lock_for o) lock') l = Some true).
    { intros l E ->. now rewrite (upd_same _ _ _ Hl). }
    assert (Fo : nth_error (m_objs (flat t)) o = Some (fold_left (fo o) (concat (t_bufs t)) data)) by (rewrite flat_objs, Ho; reflexivity).
    assert (Fl : nth_error (m_locks (flat t)) (lock_for o) = Some (fold_left (fl (lock_for o)) (concat (t_bufs t)) lock)) by (rewrite flat_locks, Hl; reflexivity).
    assert (Step := sc_step _ _ _ _ _ _ _ _ Hc Hp Fl Fo).
    destruct pc as [| |got|new k old|r|r]; cbn [locked_step] in H; cbn [astep_pc] in Step.
    - (* the compare-exchange *)
      destruct b as [|]; [|discriminate]. destruct lock; injection H as <- <- <-.
      + split; [|split; [left|discriminate]].
        * eapply keep; eauto; cbn; try discriminate; try reflexivity; auto. intros N. now destruct (N (o, op)).
        * rewrite Same by reflexivity. split; [|reflexivity]. now apply (sc_pcs _ _ _ _ AWait APause Hc Hp).
      + assert (Hi : inside (enter op) = true) by (destruct op; reflexivity).
        split; [|split; [right|discriminate]].
        * eapply keep; eauto; cbn [inside is_done]; try discriminate; try reflexivity; auto.
          -- intros l E. destruct (Nat.eq_dec l (lock_for o)) as [-> | N]; [eapply upd_nth_error_eq; exact Hl|].
             cbn [m_locks]. rewrite nth_error_upd_ne by congruence. exact E.
          -- intros N. now destruct (N (o, op)).
          -- intros _. exists o, op. split; [reflexivity|]. right. split; [reflexivity|]. split; [exact Hl|]. cbn [m_locks]. eapply upd_nth_error_eq. exact Hl.
        * assert (Q : forall p' e, pend (t_bufs t) p' e -> idle (fl (lock_for o)) e).
          { intros p' e P. apply fl_idle. intro L. pose proof (i_held _ I _ _ _ P L). congruence. }
          rewrite Step, (fold_all_idle (fl (lock_for o))) by exact Q. f_equal. unfold sc. f_equal.
          -- apply list_ext. intro l. rewrite flat_locks. subst t'. cbn [t_mem m_locks t_bufs]. rewrite app_nil_r, (upd_same _ _ _ Hb).
             destruct (Nat.eq_dec l (lock_for o)) as [-> | N].
             ++ rewrite (upd_nth_error_eq _ _ _ _ Fl), (upd_nth_error_eq _ _ _ _ Hl). cbn. f_equal. symmetry. now apply fold_all_idle.
             ++ rewrite !nth_error_upd_ne by congruence. apply flat_locks.
          -- f_equal. rewrite (upd_same _ _ _ Fo). apply list_ext. intro o'. rewrite !flat_objs. subst t'. cbn [t_mem m_objs t_bufs].
             now rewrite app_nil_r, (upd_same _ _ _ Hb).
          -- subst t'. cbn [t_pcs]. rewrite (scp_upd _ _ _ _ _ Hc). f_equal. cbn [sc_pc]. destruct op; reflexivity.
    - (* pausing *)
      assert (E : lock' = lock /\ es = [] /\ (pc' = APause \/ pc' = AWait)) by (destruct (newest _ b lock); injection H as <- <- <-; auto).
      destruct E as (E1 & E2 & E3). rewrite (Same E1 E2). clear t' Same. subst lock' es. rewrite (upd_same _ _ _ Hl) in HL.
      split; [|split; [left|discriminate]].
      + rewrite <- (upd_same _ _ _ Hb), <- (app_nil_r b). eapply keep; eauto; try reflexivity.
        * intros N. now destruct (N (o, op)).
        * destruct E3 as [-> | ->]; discriminate.
        * tauto.
      + split; [|destruct E3 as [-> | ->]; reflexivity]. apply (sc_pcs _ _ _ _ APause pc' Hc Hp). destruct E3 as [-> | ->]; reflexivity.
    - (* copying out *)
      destruct (inside_idle _ _ _ _ _ _ I Hc Hp eq_refl) as [Q1 Q2].
      assert (E : lock' = lock /\ es = [] /\ inside pc' = true).
      { destruct (nth_error data (length got)); injection H as <- <- <-; repeat split. destruct op; reflexivity. }
      destruct E as (E1 & E2 & E3).
      assert (S1 : astep ptr addrs sc_calls j (sc t) = Some (sc t')).
      { rewrite Step. rewrite fo_word. rewrite (Same E1 E2). unfold sc. cbn [t_pcs]. rewrite (scp_upd _ _ _ _ _ Hc).
        destruct (nth_error data (length got)) as [w|]; cbn [option_map]; injection H as <- <- <-;
          rewrite (upd_same _ _ _ Fl), (upd_same _ _ _ Fo).
        - cbn [sc_pc]. do 2 f_equal. f_equal. f_equal. f_equal. f_equal. rewrite !newest_fold. apply (fold_own _ _ p b Hb).
          intros p' e N P v. specialize (Q1 _ _ N P). destruct e as [o' k w'|l'|x w']; try reflexivity. cbn in Q1 |- *.
          destruct (Nat.eqb_spec o o') as [<- | N']; [now destruct Q1|reflexivity].
        - do 2 f_equal. f_equal. destruct op; reflexivity. }
      split; [|split; [right; exact S1|intros _; exact S1]].
      eapply keep; eauto; cbn [m_locks]; try reflexivity.
      + intros N. now destruct (N (o, op)).
      + intros _ [E | E]; discriminate.
    - (* writing *)
      destruct (inside_idle _ _ _ _ _ _ I Hc Hp eq_refl) as [Q1 Q2].
      destruct (nth_error new k) as [w|] eqn:Ew; injection H as <- <- <-.
      + assert (S1 : astep ptr addrs sc_calls j (sc t) = Some (sc t')).
        { rewrite Step. unfold sc. f_equal. f_equal.
          - rewrite (upd_same _ _ _ Fl). apply list_ext. intro l. rewrite !flat_locks. subst t'. cbn [t_mem m_locks t_bufs]. rewrite (upd_same _ _ _ Hl).
            destruct (nth_error (m_locks (t_mem t)) l); [|reflexivity]. cbn. f_equal. symmetry. apply (fold_push_idle _ _ _ _ _ _ Hb). intro v. reflexivity.
          - f_equal. apply list_ext. intro o'. rewrite flat_objs. subst t'. cbn [t_mem m_objs t_bufs].
            destruct (Nat.eq_dec o' o) as [-> | N].
            + rewrite (upd_nth_error_eq _ _ _ _ Fo), Ho. cbn [option_map]. f_equal.
              rewrite (fold_push (fo o) (t_bufs t) p b (EWord o k w) data Hb).
              * cbn. now rewrite Nat.eqb_refl.
              * intros p' e' N P. apply fo_idle. now apply (Q1 p').
            + rewrite nth_error_upd_ne by congruence. rewrite flat_objs. destruct (nth_error (m_objs (t_mem t)) o'); [|reflexivity]. cbn [option_map]. f_equal.
              symmetry. apply (fold_push_idle _ _ _ _ _ _ Hb). intro v. cbn. now apply Nat.eqb_neq in N as ->.
          - subst t'. cbn [t_pcs]. rewrite (scp_upd _ _ _ _ _ Hc). reflexivity. }
        split; [|split; [right; exact S1|intros _; exact S1]].
        eapply keep; eauto; cbn [m_locks]; try reflexivity.
        * right. eexists. split; [reflexivity|]. right. exists o, op. split; [reflexivity|]. split; [reflexivity|]. split; [reflexivity|]. left. eauto.
        * intros N. now destruct (N (o, op)).
        * intros _ [E | E]; discriminate.
      + assert (S1 : astep ptr addrs sc_calls j (sc t) = Some (sc t')).
        { rewrite Step. rewrite Same by reflexivity. unfold sc. cbn [t_pcs]. now rewrite (scp_upd _ _ _ _ _ Hc), (upd_same _ _ _ Fl), (upd_same _ _ _ Fo). }
        split; [|split; [right; exact S1|intros _; exact S1]].
        eapply keep; eauto; cbn [m_locks]; try reflexivity.
        * intros N. now destruct (N (o, op)).
        * intros _ [E | E]; discriminate.
    - (* the release *)
      destruct (inside_idle _ _ _ _ _ _ I Hc Hp eq_refl) as [Q1 Q2]. injection H as <- <- <-.
      assert (S1 : astep ptr addrs sc_calls j (sc t) = Some (sc t')).
      { rewrite Step. unfold sc. f_equal. f_equal.
        - apply list_ext. intro l. rewrite flat_locks. subst t'. cbn [t_mem m_locks t_bufs]. rewrite (upd_same _ _ _ Hl).
          destruct (Nat.eq_dec l (lock_for o)) as [-> | N].
          + rewrite (upd_nth_error_eq _ _ _ _ Fl), Hl. cbn [option_map]. f_equal.
            rewrite (fold_push (fl (lock_for o)) (t_bufs t) p b (EUnlock (lock_for o)) lock Hb).
            * unfold fl. cbn. now rewrite Nat.eqb_refl.
            * intros p' e' N P. now apply (Q2 p').
          + rewrite nth_error_upd_ne by congruence. rewrite flat_locks. destruct (nth_error (m_locks (t_mem t)) l); [|reflexivity]. cbn [option_map]. f_equal.
            symmetry. apply (fold_push_idle _ _ _ _ _ _ Hb). apply fl_idle. cbn. congruence.
        - f_equal. rewrite (upd_same _ _ _ Fo). apply list_ext. intro o'. rewrite !flat_objs. subst t'. cbn [t_mem m_objs t_bufs].
          destruct (nth_error (m_objs (t_mem t)) o'); [|reflexivity]. cbn [option_map]. f_equal. symmetry. apply (fold_push_idle _ _ _ _ _ _ Hb). intro v. reflexivity.
        - subst t'. cbn [t_pcs]. rewrite (scp_upd _ _ _ _ _ Hc). reflexivity. }
      split; [|split; [right; exact S1|intros _; exact S1]].
      eapply keep; eauto; cbn [m_locks inside]; try reflexivity; try discriminate.
      + right. eexists. split; [reflexivity|]. right. exists o, op. split; [reflexivity|]. split; [reflexivity|]. split; [reflexivity|]. now right.
      + intros _ [E | E]; discriminate.
    - discriminate.
  Qed.

  (** A flush does not change the simulated state. *)
  Lemma sim_flush t p e b : tinv t -> nth_error (t_bufs t) p = Some (e :: b) ->
    sc {| t_mem := commit (t_mem t) e; t_pcs := t_pcs t; t_bufs := upd (t_bufs t) p b |} = sc t.
  Proof.
    intros I Hb.
    assert (He : pend (t_bufs t) p e) by (exists (e :: b); split; [exact Hb|now left]).
    assert (Q : forall l, lk e = Some l -> forall p' e', p' <> p -> pend (t_bufs t) p' e' -> lk e' <> Some l).
    { intros l L p' e' N P L'. apply N. exact (i_disj _ I _ _ _ _ _ P He L' L). }
    unfold sc. cbn [t_pcs]. f_equal; [|f_equal].
    - apply list_ext. intro l. rewrite !flat_locks. cbn [t_mem t_bufs]. rewrite commit_locks.
      destruct (nth_error (m_locks (t_mem t)) l) as [v|]; [|reflexivity]. cbn [option_map]. f_equal.
      destruct (lk e) as [l'|] eqn:L; [destruct (Nat.eq_dec l' l) as [-> | N]|].
      + apply (fold_pop _ _ _ _ _ _ Hb). intros p' e' N P. apply fl_idle. now apply (Q l eq_refl p').
      + rewrite fl_idle by congruence. apply (fold_pop_idle _ _ _ _ _ _ Hb). apply fl_idle. congruence.
      + rewrite fl_idle by congruence. apply (fold_pop_idle _ _ _ _ _ _ Hb). apply fl_idle. congruence.
    - apply list_ext. intro o. rewrite !flat_objs. cbn [t_mem t_bufs]. rewrite commit_objs.
      destruct (nth_error (m_objs (t_mem t)) o) as [v|]; [|reflexivity]. cbn [option_map]. f_equal.
      destruct (lk e) as [l'|] eqn:L; [destruct (Nat.eq_dec l' (lock_for o)) as [-> | N]|].
      + apply (fold_pop _ _ _ _ _ _ Hb). intros p' e' N P. apply fo_idle. now apply (Q (lock_for o) eq_refl p').
      + rewrite fo_idle by congruence. apply (fold_pop_idle _ _ _ _ _ _ Hb). apply fo_idle. congruence.
      + rewrite fo_idle by congruence. apply (fold_pop_idle _ _ _ _ _ _ Hb). apply fo_idle. congruence.
  Qed.

  (** The other calls. *)
  Ltac dn H := match type of H with context [nth_error ?a ?b] => destruct (nth_error a b) eqn:? end.
  Lemma sim_other t j p c pc b m' es pc' : tinv t -> nth_error calls j = Some (p, c) -> (forall a, c <> TLocked a) -> nth_error (t_pcs t) j = Some pc ->
    nth_error (t_bufs t) p = Some b -> ready p calls (t_pcs t) j = true -> call_step ptr addrs c b (t_mem t) pc = Some (m', es, pc') ->
    let t' := {| t_mem := m'; t_pcs := upd (t_pcs t) j pc'; t_bufs := upd (t_bufs t) p (b ++ es) |} in
    tinv t' /\ sc t' = sc t /\ pc = AWait /\ m_objs m' = m_objs (t_mem t) /\ m_plain m' = m_plain (t_mem t) /\
    match c with
    | TLocked _ => False
    | TLoad a => exists v, nth_error (m_atoms (t_mem t)) a = Some v /\ m_atoms m' = m_atoms (t_mem t) /\ es = [] /\ pc' = ADone [v]
    | TRmw a f => exists v, nth_error (m_atoms (t_mem t)) a = Some v /\ m_atoms m' = upd (m_atoms (t_mem t)) a (f v) /\ es = [] /\ pc' = ADone [v]
    | TGet x => exists v, nth_error (m_plain (t_mem t)) x = Some v /\ m_atoms m' = m_atoms (t_mem t) /\ es = [] /\ pc' = ADone [newest (plain_at x) b v]
    | TPut x w => m_atoms m' = m_atoms (t_mem t) /\ es = [EPlain x w] /\ pc' = ADone []
    end.
  Proof.
    intros I Hc Hn Hp Hb Hr H t'.
    assert (E : exists r, pc' = ADone r) by (destruct c as [[o op]|a|a f|x|x w]; [now destruct (Hn (o, op))| | | |];
      destruct pc; try discriminate; cbn [call_step] in H; dn H; try destruct b; try discriminate; injection H as <- <- <-; eauto).
    assert (Ew : pc = AWait) by (destruct c as [[o op]|a|a f|x|x w]; [now destruct (Hn (o, op))| | | |]; destruct pc; try discriminate; reflexivity).
    subst pc. destruct E as [r ->].
    assert (K : m_locks m' = m_locks (t_mem t) /\ m_objs m' = m_objs (t_mem t) /\ m_plain m' = m_plain (t_mem t) /\
      (es = [] \/ exists x w, es = [EPlain x w] /\ c = TPut x w) /\ (publishes c = true -> b = [])).
    { destruct c as [[o op]|a|a f|x|x w]; [now destruct (Hn (o, op))| | | |]; cbn [call_step] in H; cbn [publishes].
      - dn H; [|discriminate]. injection H as <- <- <-. repeat split; auto. discriminate.
      - destruct b; [|discriminate]. dn H; [|discriminate]. injection H as <- <- <-. cbn. repeat split; auto.
      - dn H; [|discriminate]. injection H as <- <- <-. repeat split; auto. discriminate.
      - dn H; [|discriminate]. injection H as <- <- <-. repeat split; auto; try discriminate. right. eauto. }
    destruct K as (K1 & K2 & K3 & K4 & K5).
    split; [|split; [|split; [reflexivity|split; [exact K2|split; [exact K3|]]]]].
    - eapply keep; eauto; cbn [inside]; try reflexivity; try discriminate.
      + rewrite K1. exact (i_locks _ I).
      + intros l. now rewrite K1.
      + destruct K4 as [-> | (x & w & -> & ->)]; [now left|]. right. eexists. split; [reflexivity|]. left. eauto 6.
    - unfold sc. subst t'. cbn [t_pcs]. f_equal; [|f_equal|].
      + apply list_ext. intro l. rewrite !flat_locks. cbn [t_mem t_bufs]. rewrite K1. destruct (nth_error (m_locks (t_mem t)) l); [|reflexivity]. cbn. f_equal.
        destruct K4 as [-> | (x & w & -> & _)]; [now rewrite app_nil_r, (upd_same _ _ _ Hb)|]. apply (fold_push_idle _ _ _ _ _ _ Hb). intro v. reflexivity.
      + apply list_ext. intro o. rewrite !flat_objs. cbn [t_mem t_bufs]. rewrite K2. destruct (nth_error (m_objs (t_mem t)) o); [|reflexivity]. cbn. f_equal.
        destruct K4 as [-> | (x & w & -> & _)]; [now rewrite app_nil_r, (upd_same _ _ _ Hb)|]. apply (fold_push_idle _ _ _ _ _ _ Hb). intro v. reflexivity.
      + rewrite (scp_upd _ _ _ _ _ Hc). replace (sc_pc c (ADone r)) with (sc_pc c AWait); [|destruct c as [a| | | |]; try reflexivity; now destruct (Hn a)].
        apply upd_same. now apply (scp_nth _ _ _ _ _ Hc).
    - clear K1 K2 K3 K4 K5. destruct c as [[o op]|a|a f|x|x w]; [now destruct (Hn (o, op))| | | |]; cbn [call_step] in H.
      + dn H; [|discriminate]. injection H as <- <- <-. eauto 6.
      + destruct b; [|discriminate]. dn H; [|discriminate]. injection H as <- <- <-. cbn. eauto 6.
      + dn H; [|discriminate]. injection H as <- <- <-. eauto 6.
      + dn H; [|discriminate]. injection H as <- <- <-. auto.
  Qed.

  (** ** Histories *)
  Lemma sequential_nil cs x h y : sequential cs x h y -> h = [] -> y = x.
  Proof. intros H E. destruct H as [|x h1 y1 i1 o1 op1 old1 S1 C1 N1]; [reflexivity|destruct h1; discriminate]. Qed.
  Lemma sequential_snoc cs x h0 y h i r : sequential cs x h0 y -> h0 = h ++ [(i, r)] ->
    exists y0 o op old, sequential cs x h y0 /\ nth_error cs i = Some (o, op) /\ nth_error y0 o = Some old /\ r = returns op old /\ y = upd y0 o (leaves op old).
  Proof.
    intros H E. destruct H as [x|x h1 y1 i1 o1 op1 old1 S1 C1 N1]; [destruct h; discriminate|].
    apply app_inj_tail in E. destruct E as [-> E]. injection E as -> <-. exists y1, o1, op1, old1. auto.
  Qed.
  Lemma sequential_det cs x h : forall y y', sequential cs x h y -> sequential cs x h y' -> y = y'.
  Proof.
    induction h as [|[i r] h IH] using rev_ind; intros y y' H H'.
    - rewrite (sequential_nil _ _ _ _ H eq_refl), (sequential_nil _ _ _ _ H' eq_refl). reflexivity.
    - destruct (sequential_snoc _ _ _ _ _ _ _ H eq_refl) as (y1 & o1 & op1 & old1 & S1 & C1 & N1 & _ & ->).
      destruct (sequential_snoc _ _ _ _ _ _ _ H' eq_refl) as (y2 & o2 & op2 & old2 & S2 & C2 & N2 & _ & ->).
      assert (y1 = y2) by (now apply IH). subst y2. rewrite C1 in C2. injection C2 as <- <-. congruence.
  Qed.

  Lemma lift x0 X H w y h : sequential sc_calls x0 h (y ++ [[]]) -> length y = n -> tsequential calls X H (y, w) ->
    forall h' y1, sequential sc_calls x0 (h ++ h') y1 ->
    (forall i r, In (i, r) h' -> exists p a, nth_error calls i = Some (p, TLocked a) /\ fst a < n) ->
    exists y2, y1 = y2 ++ [[]] /\ length y2 = n /\ tsequential calls X (H ++ h') (y2, w).
  Proof.
    intros S0 L0 T0. induction h' as [|[i r] h' IH] using rev_ind; intros y1 S1 Hin.
    - rewrite app_nil_r in S1 |- *. exists y. split; [exact (sequential_det _ _ _ _ _ S1 S0)|]. auto.
    - rewrite app_assoc in S1. destruct (sequential_snoc _ _ _ _ _ _ _ S1 eq_refl) as (y0 & o & op & old & S2 & C2 & N2 & -> & ->).
      destruct (IH _ S2) as (y2 & -> & L2 & T2). { intros i' r' H'. apply (Hin i' r'). apply in_app_iff. now left. }
      destruct (Hin i (returns op old)) as (p & [o' op'] & Ci & Lo); [apply in_app_iff; right; now left|].
      unfold sc_calls in C2. rewrite nth_error_map, Ci in C2. cbn in C2. injection C2 as -> ->. cbn [fst] in Lo.
      rewrite nth_error_app1 in N2 by lia.
      exists (upd y2 o (leaves op old)). split; [apply nth_error_snoc_upd; lia|]. split; [now rewrite upd_length|].
      rewrite app_assoc. eapply tsequential_locked; eauto.
  Qed.
End Tso.
