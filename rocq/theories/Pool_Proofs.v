(** Proofs about the pool: the invariant and the simulation. *)
From Coq Require Import Permutation.
From Verif Require Import Base Pool_Model Pool_Spec.
Local Open Scope Z_scope.

(** The array l holds v at i. *)
Definition at_ {A} (l : list A) (i : Z) (v : A) : Prop := 0 <= i /\ nth_error l (Z.to_nat i) = Some v.
Definition updz {A} (l : list A) (i : Z) (v : A) : list A := upd l (Z.to_nat i) v.
Definition inside {A} (l : list A) (i : Z) : Prop := 0 <= i < Z.of_nat (length l).

Lemma getz_at {A} (l : list A) i v : at_ l i v -> getz l i = Ok v.
Proof. intros [H E]. unfold getz, get. destruct (Z.ltb_spec i 0); [lia|]. now rewrite E. Qed.

Lemma setz_in {A} (l : list A) i v : inside l i -> setz l i v = Ok (updz l i v).
Proof. intros H. unfold inside in H. unfold setz. destruct (Z.ltb_spec i 0); [lia|]. apply set_Ok. lia. Qed.

Lemma at_inside {A} (l : list A) i v : at_ l i v -> inside l i.
Proof. intros [H E]. assert (Z.to_nat i < length l)%nat by (apply nth_error_Some; congruence). unfold inside. lia. Qed.

Lemma inside_at {A} (l : list A) i : inside l i -> exists v, at_ l i v.
Proof. intros H. unfold inside in H. destruct (nth_error l (Z.to_nat i)) eqn:E; [|apply nth_error_None in E; lia]. exists a. split; [lia|assumption]. Qed.

Lemma at_upd_eq {A} (l : list A) i v : inside l i -> at_ (updz l i v) i v.
Proof. intros H. unfold inside in H. split; [lia|]. apply nth_error_upd_eq. lia. Qed.

Lemma at_upd_ne {A} (l : list A) i j v w : 0 <= i -> i <> j -> at_ l j w -> at_ (updz l i v) j w.
Proof. intros Hi Hn [H E]. split; [assumption|]. unfold updz. rewrite nth_error_upd_ne; [assumption|lia]. Qed.

Lemma updz_length {A} (l : list A) i v : length (updz l i v) = length l.
Proof. apply upd_length. Qed.

(** Consecutive nodes of ns are linked, and the last one links to e. *)
Definition hd0 (e : Z) (ns : list Z) : Z := match ns with [] => e | y :: _ => y end.
Fixpoint links (nx : list Z) (ns : list Z) (e : Z) : Prop :=
  match ns with [] => True | x :: r => at_ nx x (hd0 e r) /\ links nx r e end.

Lemma links_frame nx nx' ns e : (forall j v, In j ns -> at_ nx j v -> at_ nx' j v) -> links nx ns e -> links nx' ns e.
Proof.
  induction ns as [|x r IH]; cbn [links]; [auto|]. intros F [H1 H2]. split; [apply F; [now left|assumption]|].
  apply IH; [|assumption]. intros j v I. apply F. now right.
Qed.

Lemma links_app nx a b e : links nx (a ++ b) e <-> links nx a (hd0 e b) /\ links nx b e.
Proof.
  induction a as [|x r IH]; cbn [links app]; [tauto|]. rewrite IH.
  assert (hd0 e (r ++ b) = hd0 (hd0 e b) r) as -> by (destruct r; reflexivity). tauto.
Qed.

Lemma NoDup_app_l {A} (l1 l2 : list A) : NoDup (l1 ++ l2) -> NoDup l1.
Proof.
  induction l1 as [|x l1 IH]; [constructor|]. cbn [app]. inversion 1 as [|? ? N0 N1]; subst. constructor; [|auto].
  intro C. apply N0. apply in_or_app. now left.
Qed.
Lemma NoDup_app_r {A} (l1 l2 : list A) : NoDup (l1 ++ l2) -> NoDup l2.
Proof. induction l1 as [|x l1 IH]; [auto|]. cbn [app]. inversion 1; auto. Qed.

Definition ring (nx : list Z) (ns : list Z) : Prop := links nx ns (hd0 0 ns).

Section Pool.
Variable T : Type.
Variable N : Z.
Hypothesis HN : 1 <= N.
Notation pool := (pool T).

(** The part of the invariant about the free list: fl is the free list, U the nodes in use. *)
Definition core (p : pool) (fl U : list Z) : Prop :=
  length (p_next T p) = Z.to_nat N /\ length (p_data T p) = Z.to_nat N /\ NoDup (0 :: fl ++ U) /\
  (forall i, In i (fl ++ U) -> 1 <= i <= p_size T p) /\ Z.of_nat (length (fl ++ U)) = p_size T p /\ p_size T p <= N - 1 /\
  links (p_next T p) (0 :: fl) 0.

Lemma core_perm p fl U U' : Permutation U U' -> core p fl U -> core p fl U'.
Proof.
  intros P (H1 & H2 & H3 & H4 & H5 & H6 & H7).
  assert (P' : Permutation (fl ++ U) (fl ++ U')) by now apply Permutation_app_head.
  split; [assumption|]. split; [assumption|]. split; [|split; [|split; [|split; assumption]]].
  - eapply Permutation_NoDup; [|exact H3]. now constructor.
  - intros i I. apply H4. eapply Permutation_in; [symmetry; exact P'|assumption].
  - now rewrite <- (Permutation_length P').
Qed.

Lemma core_range p fl U i : core p fl U -> In i U -> 1 <= i <= N - 1 /\ inside (p_next T p) i /\ inside (p_data T p) i.
Proof. intros (H1 & H2 & H3 & H4 & H5 & H6 & H7) I. assert (1 <= i <= p_size T p) by (apply H4; apply in_or_app; now right). unfold inside. lia. Qed.

Lemma core_zero p fl U : core p fl U -> inside (p_next T p) 0.
Proof. intros (H1 & _). unfold inside. lia. Qed.

(** Writing the link of a node in use. *)
Lemma core_put_next p fl U i v : core p fl U -> In i U ->
  put_next T p i v = Ok (with_next T p (updz (p_next T p) i v)) /\ core (with_next T p (updz (p_next T p) i v)) fl U.
Proof.
  intros C I. destruct (core_range p fl U i C I) as (R & In1 & _). unfold put_next. rewrite setz_in by assumption. cbn [bind].
  split; [reflexivity|]. destruct C as (H1 & H2 & H3 & H4 & H5 & H6 & H7). unfold core, with_next. cbn [p_next p_data p_size].
  rewrite updz_length. split; [assumption|]. split; [assumption|]. split; [assumption|]. split; [assumption|]. split; [assumption|]. split; [assumption|].
  apply (links_frame (p_next T p)); [|assumption]. intros j w J A. apply at_upd_ne; [lia| |assumption].
  intros ->. inversion H3 as [|? ? N0 Nd]; subst. destruct J as [J|J]; [lia|].
  clear - Nd I J. induction fl as [|y fl IH]; [destruct J|]. cbn [app] in Nd. inversion Nd as [|? ? N0 N1]; subst. destruct J as [->|J]; [|auto].
  apply N0. apply in_or_app. now right.
Qed.

Lemma core_put_data p fl U i x : core p fl U -> In i U ->
  put_data T p i x = Ok (with_data T p (updz (p_data T p) i x)) /\ core (with_data T p (updz (p_data T p) i x)) fl U.
Proof.
  intros C I. destruct (core_range p fl U i C I) as (R & _ & In1). unfold put_data. rewrite setz_in by assumption. cbn [bind].
  split; [reflexivity|]. destruct C as (H1 & H2 & H3 & H4 & H5 & H6 & H7). unfold core, with_data. cbn [p_next p_data p_size].
  rewrite updz_length. auto 10.
Qed.

Lemma alloc_core p fl U : core p fl U ->
  if Z.of_nat (length U) =? N - 1 then p_alloc T N p = Ok (0, p)
  else exists i p' fl', p_alloc T N p = Ok (i, p') /\ core p' fl' (i :: U) /\ p_data T p' = p_data T p /\
    (forall j v, j <> 0 -> at_ (p_next T p) j v -> at_ (p_next T p') j v).
Proof.
  intros C. pose proof C as (H1 & H2 & H3 & H4 & H5 & H6 & H7). unfold p_alloc. cbn [links] in H7. destruct H7 as [H7 H8].
  rewrite (getz_at _ _ _ H7). cbn [bind]. destruct fl as [|i fl]; cbn [hd0] in *.
  - rewrite Z.eqb_refl. cbn [app] in *. destruct (Z.eqb_spec (Z.of_nat (length U)) (N - 1)); destruct (Z.ltb_spec (p_size T p) (N - 1)); try lia; [reflexivity|].
    eexists _, _, []. split; [reflexivity|]. split; [|split; [reflexivity|auto]]. unfold core. cbn [p_next p_data p_size app length links hd0].
    split; [assumption|]. split; [assumption|]. split; [|split; [|split; [|split; [|split; [assumption|exact I]]]]].
    + inversion H3 as [|? ? N0 Nd]; subst. constructor; [intros [C0|C0]; [lia|auto]|]. constructor; [|assumption]. intro I. apply H4 in I. lia.
    + intros j [<-|J]; [lia|]. apply H4 in J. lia.
    + lia.
    + lia.
  - assert (R : 1 <= i <= p_size T p) by (apply H4; now left). destruct (Z.eqb_spec i 0); [lia|].
    rewrite app_length in H5. cbn [length] in H5. destruct (Z.eqb_spec (Z.of_nat (length U)) (N - 1)); [lia|].
    cbn [links] in H8. destruct H8 as [H8 H9]. rewrite (getz_at _ _ _ H8). cbn [bind]. unfold put_next. rewrite setz_in by apply (core_zero p _ _ C). cbn [bind].
    assert (F : forall j v, j <> 0 -> at_ (p_next T p) j v -> at_ (updz (p_next T p) 0 (hd0 0 fl)) j v) by (intros; apply at_upd_ne; [lia|congruence|assumption]).
    eexists i, _, fl. split; [reflexivity|]. split; [|split; [reflexivity|exact F]].
    unfold core, with_next. cbn [p_next p_data p_size]. rewrite updz_length.
    assert (P : Permutation ((i :: fl) ++ U) (fl ++ i :: U)) by apply Permutation_middle.
    split; [assumption|]. split; [assumption|]. split; [|split; [|split; [|split; [assumption|]]]].
    + eapply Permutation_NoDup; [|exact H3]. now constructor.
    + intros j J. apply H4. eapply Permutation_in; [symmetry; exact P|assumption].
    + rewrite app_length. cbn [length]. lia.
    + cbn [links]. split; [apply at_upd_eq; apply (core_zero p _ _ C)|]. apply (links_frame (p_next T p)); [|assumption]. intros j v J. apply F.
      intros ->. inversion H3 as [|? ? N0 Nd]; subst. apply N0. cbn [app]. right. apply in_or_app. now left.
Qed.

Lemma free_core p fl i U : core p fl (i :: U) ->
  exists p', (forall fr, at_ (p_next T p) 0 fr -> put_next T p i fr = Ok (with_next T p (updz (p_next T p) i fr)) /\
    put_next T (with_next T p (updz (p_next T p) i fr)) 0 i = Ok p') /\ core p' (i :: fl) U /\ p_data T p' = p_data T p /\
    (forall j v, j <> 0 -> j <> i -> at_ (p_next T p) j v -> at_ (p_next T p') j v).
Proof.
  intros C. pose proof C as (H1 & H2 & H3 & H4 & H5 & H6 & H7). cbn [links] in H7. destruct H7 as [H7 H8].
  destruct (core_range p fl (i :: U) i C ltac:(now left)) as (R & In1 & _).
  exists (with_next T p (updz (updz (p_next T p) i (hd0 0 fl)) 0 i)). split; [|split; [|split; [reflexivity|]]].
  - intros fr A. assert (fr = hd0 0 fl) as -> by (destruct A as [_ A], H7 as [_ H7]; congruence).
    unfold put_next. rewrite setz_in by assumption. cbn [bind]. split; [reflexivity|]. cbn [with_next p_next].
    rewrite setz_in; [reflexivity|]. unfold inside in *. rewrite updz_length. lia.
  - unfold core, with_next. cbn [p_next p_data p_size]. rewrite !updz_length.
    assert (P : Permutation (fl ++ i :: U) ((i :: fl) ++ U)) by (symmetry; apply Permutation_middle).
    split; [assumption|]. split; [assumption|]. split; [|split; [|split; [|split; [assumption|]]]].
    + eapply Permutation_NoDup; [|exact H3]. now constructor.
    + intros j J. apply H4. eapply Permutation_in; [symmetry; exact P|assumption].
    + now rewrite <- (Permutation_length P).
    + assert (In2 : inside (updz (p_next T p) i (hd0 0 fl)) 0) by (unfold inside in *; rewrite updz_length; lia).
      cbn [links hd0]. split; [now apply at_upd_eq|]. split; [apply at_upd_ne; [lia|lia|]; now apply at_upd_eq|].
      apply (links_frame (p_next T p)); [|assumption]. intros j v J A.
      inversion H3 as [|? ? N0 Nd]; subst.
      apply at_upd_ne; [lia| |apply at_upd_ne; [lia| |assumption]].
      * intros <-. apply N0. apply in_or_app. now left.
      * intros ->. apply NoDup_remove_2 in Nd. apply Nd. apply in_or_app. now left.
  - intros j v J0 Ji A. cbn [with_next p_next]. apply at_upd_ne; [lia|congruence|]. apply at_upd_ne; [lia|congruence|assumption].
Qed.

(** A queue whose nodes are ns holds xs. *)
Definition holds (p : pool) (ns : list Z) (xs : list T) : Prop := ring (p_next T p) ns /\ Forall2 (at_ (p_data T p)) ns xs.

Definition rel (a : abs T) (c : pstate T) : Prop :=
  let '(p, ts) := c in
  exists fl Q, core p fl (map fst (a_nodes T a) ++ concat Q) /\ ts = map (fun ns => last ns 0) Q /\ Forall2 (holds p) Q (a_queues T a) /\
    (forall i l x, In (i, Some (l, x)) (a_nodes T a) -> at_ (p_next T p) i l /\ at_ (p_data T p) i x).

(** p' agrees with p on the nodes in S. *)
Definition same_on (p p' : pool) (J : Z -> Prop) : Prop :=
  (forall j v, J j -> at_ (p_next T p) j v -> at_ (p_next T p') j v) /\ (forall j v, J j -> at_ (p_data T p) j v -> at_ (p_data T p') j v).

Lemma holds_frame p p' ns xs : same_on p p' (fun j => In j ns) -> holds p ns xs -> holds p' ns xs.
Proof.
  intros [F1 F2] [H1 H2]. split; [apply (links_frame (p_next T p)); assumption|].
  clear - F2 H2. induction H2 as [|n x ns xs H1 H2 IH]; constructor; [apply F2; [now left|assumption]|].
  apply IH. intros j v I. apply F2. now right.
Qed.

Lemma holds_all_frame p p' Q X : same_on p p' (fun j => In j (concat Q)) -> Forall2 (holds p) Q X -> Forall2 (holds p') Q X.
Proof.
  intros F H. induction H as [|ns xs Q X H1 H2 IH]; constructor.
  - apply (holds_frame p p'); [|assumption]. destruct F as [F1 F2]. split; intros j v I; [apply F1|apply F2]; cbn [concat]; apply in_or_app; now left.
  - apply IH. destruct F as [F1 F2]. split; intros j v I; [apply F1|apply F2]; cbn [concat]; apply in_or_app; now right.
Qed.

Lemma holds_length p ns xs : holds p ns xs -> length ns = length xs.
Proof. intros [_ H]. induction H; cbn [length]; congruence. Qed.

Lemma concat_length p Q X : Forall2 (holds p) Q X -> length (concat Q) = length (concat X).
Proof. intro H. induction H as [|ns xs Q X H1 H2 IH]; [reflexivity|]. cbn [concat]. rewrite !app_length, IH, (holds_length _ _ _ H1). reflexivity. Qed.

Lemma holds_nil p : holds p [] [].
Proof. split; [exact I|constructor]. Qed.

Lemma concat_perm (m ns : list Z) Q1 Q2 : Permutation (m ++ concat (Q1 ++ ns :: Q2)) (ns ++ m ++ concat Q1 ++ concat Q2).
Proof. rewrite concat_app. cbn [concat]. rewrite (app_assoc m), (app_assoc m). apply Permutation_app_swap_app. Qed.

(** Nodes of the queue and the rest. *)
Lemma split_queue a p ts fl Q q : core p fl (map fst (a_nodes T a) ++ concat Q) -> ts = map (fun ns => last ns 0) Q -> Forall2 (holds p) Q (a_queues T a) ->
  (q < length (a_queues T a))%nat ->
  exists Q1 ns Q2 X1 xs X2, Q = Q1 ++ ns :: Q2 /\ a_queues T a = X1 ++ xs :: X2 /\ length Q1 = q /\ length X1 = q /\
    Forall2 (holds p) Q1 X1 /\ holds p ns xs /\ Forall2 (holds p) Q2 X2 /\ get ts q = Ok (last ns 0) /\
    (forall t, set ts q t = Ok (map (fun ns => last ns 0) Q1 ++ t :: map (fun ns => last ns 0) Q2)) /\
    Permutation (map fst (a_nodes T a) ++ concat Q) (ns ++ map fst (a_nodes T a) ++ concat Q1 ++ concat Q2).
Proof.
  intros C -> H L. destruct (nth_error (a_queues T a) q) as [xs|] eqn:E; [|apply nth_error_None in E; lia].
  apply nth_error_split in E. destruct E as (X1 & X2 & EX & LX). rewrite EX in H. apply Forall2_app_inv_r in H.
  destruct H as (Q1 & Q' & H1 & H2 & ->). inversion H2 as [|ns ? Q2 ? H3 H4]; subst. exists Q1, ns, Q2, X1, xs, X2.
  assert (LQ : length Q1 = length X1) by (clear - H1; induction H1; cbn [length]; congruence).
  assert (LM : length (map (fun ns => last ns 0) Q1) = length X1) by now rewrite map_length.
  split; [reflexivity|]. split; [assumption|]. split; [assumption|]. split; [reflexivity|]. split; [assumption|]. split; [assumption|]. split; [assumption|].
  rewrite !map_app. cbn [map]. split; [|split].
  - apply get_Ok. rewrite nth_error_app2, LM, Nat.sub_diag by lia. reflexivity.
  - intro t. rewrite set_Ok by (rewrite app_length; cbn [length]; lia). now rewrite <- LM, upd_app_mid.
  - apply concat_perm.
Qed.

Lemma rejoin (a : abs T) p fl Q1 ns Q2 X1 xs X2 t nodes :
  core p fl (ns ++ map fst nodes ++ concat Q1 ++ concat Q2) -> Forall2 (holds p) Q1 X1 -> holds p ns xs -> Forall2 (holds p) Q2 X2 -> t = last ns 0 ->
  (forall i l x, In (i, Some (l, x)) nodes -> at_ (p_next T p) i l /\ at_ (p_data T p) i x) ->
  rel {| a_queues := X1 ++ xs :: X2; a_nodes := nodes |} (p, map (fun ns => last ns 0) Q1 ++ t :: map (fun ns => last ns 0) Q2).
Proof.
  intros C H1 H H2 -> Hn. exists fl, (Q1 ++ ns :: Q2). cbn [a_queues a_nodes]. split; [|split; [|split; [|assumption]]].
  - eapply core_perm; [|exact C]. symmetry. apply concat_perm.
  - rewrite map_app. reflexivity.
  - apply Forall2_app; [assumption|]. constructor; assumption.
Qed.

Lemma becomes (a : abs T) q X1 xs X2 ys : a_queues T a = X1 ++ xs :: X2 -> length X1 = q ->
  queue_is T a q xs /\ queue_becomes T a q ys {| a_queues := X1 ++ ys :: X2; a_nodes := a_nodes T a |}.
Proof.
  intros E <-. unfold queue_becomes, queue_is. cbn [a_queues a_nodes]. rewrite E.
  assert (M : forall z : list T, nth_error (X1 ++ z :: X2) (length X1) = Some z) by (intro z; rewrite nth_error_app2, Nat.sub_diag by lia; reflexivity).
  split; [apply M|]. split; [reflexivity|]. split; [rewrite !app_length; reflexivity|]. split; [apply M|].
  intros r Hr. destruct (Nat.lt_ge_cases r (length X1)); [now rewrite !nth_error_app1 by lia|]. rewrite !nth_error_app2 by lia.
  destruct (r - length X1)%nat as [|m] eqn:Em; [lia|]. reflexivity.
Qed.

Lemma core_disj p fl A B x : core p fl (A ++ B) -> In x A -> In x B -> False.
Proof.
  intros (_ & _ & H & _) I J. inversion H as [|? ? _ Nd]; subst. clear H. apply NoDup_app_r in Nd.
  induction A as [|y A IH]; [destruct I|]. cbn [app] in Nd. inversion Nd as [|? ? N0 N1]; subst. destruct I as [->|I]; [|auto].
  apply N0. apply in_or_app. now right.
Qed.

Lemma core_nodup p fl A B : core p fl (A ++ B) -> NoDup A.
Proof. intros (_ & _ & H & _). inversion H as [|? ? _ Nd]; subst. apply NoDup_app_r in Nd. now apply NoDup_app_l in Nd. Qed.

Lemma full_iff a p fl Q : Forall2 (holds p) Q (a_queues T a) -> core p fl (map fst (a_nodes T a) ++ concat Q) ->
  full T N a <-> Z.of_nat (length (map fst (a_nodes T a) ++ concat Q)) = N - 1.
Proof. intros H _. unfold full, in_use. rewrite app_length, map_length, (concat_length _ _ _ H). reflexivity. Qed.

Lemma links_end nx nx' m t e e' : links nx (m ++ [t]) e -> (forall j v, In j m -> at_ nx j v -> at_ nx' j v) -> at_ nx' t e' -> links nx' (m ++ [t]) e'.
Proof.
  rewrite !links_app. cbn [links hd0]. intros [H1 [H2 _]] F H. split; [|auto]. apply (links_frame nx); assumption.
Qed.

Lemma hd0_app m t e e' : hd0 e (m ++ [t]) = hd0 e' (m ++ [t]).
Proof. destruct m; reflexivity. Qed.

Lemma last_snoc (m : list Z) t d : last (m ++ [t]) d = t.
Proof. apply last_last. Qed.

(** Adding a node to a queue, at either end. *)
Lemma add_node p fl ns R xs x : core p fl (ns ++ R) -> holds p ns xs -> Z.of_nat (length (ns ++ R)) <> N - 1 ->
  exists i p1 p', p_alloc T N p = Ok (i, p1) /\ i <> 0 /\
  (exists p2, put_data T p1 i x = Ok p2 /\
   if last ns 0 =? 0 then ns = [] /\ put_next T p2 i i = Ok p'
   else exists h p3, getz (p_next T p2) (last ns 0) = Ok h /\ put_next T p2 i h = Ok p3 /\ put_next T p3 (last ns 0) i = Ok p') /\
  (exists fl', core p' fl' (i :: ns ++ R)) /\ holds p' (ns ++ [i]) (xs ++ [x]) /\ holds p' (i :: ns) (x :: xs) /\
  same_on p p' (fun j => In j R).
Proof.
  intros C [Hr Hd] L. pose proof (alloc_core p fl (ns ++ R) C) as A. destruct (Z.eqb_spec (Z.of_nat (length (ns ++ R))) (N - 1)) as [|_]; [lia|].
  destruct A as (i & p1 & fl' & Ea & C1 & D1 & F1).
  destruct (core_range _ _ _ i C1 ltac:(now left)) as (Ri & Ni & Di).
  destruct (core_put_data p1 fl' _ i x C1 ltac:(now left)) as [E2 C2].
  remember (with_data T p1 (updz (p_data T p1) i x)) as p2 eqn:Ep2.
  assert (D2 : p_data T p2 = updz (p_data T p) i x) by (rewrite Ep2; cbn [with_data p_data]; now rewrite D1).
  assert (N2 : p_next T p2 = p_next T p1) by now rewrite Ep2.
  assert (Dd : forall j v, In j (ns ++ R) -> at_ (p_data T p) j v -> at_ (p_data T p2) j v).
  { intros j v J HH. rewrite D2. apply at_upd_ne; [lia| |assumption]. intros <-. apply (core_disj p1 fl' [i] (ns ++ R) i C1); [now left|assumption]. }
  assert (Di2 : at_ (p_data T p2) i x) by (rewrite D2; apply at_upd_eq; rewrite <- D1; assumption).
  assert (Nz : forall j, In j (ns ++ R) -> j <> 0 /\ j <> i).
  { intros j J. destruct (core_range p1 fl' (i :: ns ++ R) j C1 ltac:(now right)). split; [lia|]. intros ->. apply (core_disj p1 fl' [i] (ns ++ R) i C1); [now left|assumption]. }
  assert (Ni2 : inside (p_next T p2) i) by (rewrite N2; assumption).
  assert (Fd : Forall2 (at_ (p_data T p2)) ns xs).
  { clear - Hd Dd. induction Hd as [|n y ns ys H1 H2 IH]; constructor; [apply Dd; [now left|assumption]|]. apply IH. intros j v J. apply Dd. now right. }
  destruct (core_put_next p2 fl' _ i i C2 ltac:(now left)) as [E3 C3].
  destruct ns as [|n0 ns0] eqn:Ens.
  - exists i, p1, (with_next T p2 (updz (p_next T p2) i i)). split; [assumption|]. split; [lia|]. split; [exists p2; split; [assumption|]; cbn [last Z.eqb]; auto|].
    split; [now exists fl'|]. inversion Fd; subst xs.
    assert (H1 : holds (with_next T p2 (updz (p_next T p2) i i)) [i] [x]).
    { split; [|constructor; [exact Di2|constructor]]. unfold ring. cbn [links hd0 with_next p_next]. split; [|exact I]. now apply at_upd_eq. }
    split; [exact H1|]. split; [exact H1|]. split; intros j v J HH; cbn [app] in *; destruct (Nz j J).
    + cbn [with_next p_next]. rewrite N2. apply at_upd_ne; [lia|congruence|]. apply F1; assumption.
    + cbn [with_next p_data]. now apply Dd.
  - rewrite <- Ens in *. assert (Hne : ns <> []) by (rewrite Ens; discriminate). clear Ens n0 ns0.
    destruct (exists_last Hne) as (m & t & Em). rewrite Em in *. clear Hne. rewrite last_snoc.
    assert (It : In t ((m ++ [t]) ++ R)) by (apply in_or_app; left; apply in_or_app; right; now left).
    destruct (Nz t It) as [Tz Ti]. destruct (Z.eqb_spec t 0); [contradiction|].
    remember (hd0 0 (m ++ [t])) as h eqn:Eh.
    assert (Ht : at_ (p_next T p) t h) by (unfold ring in Hr; rewrite <- Eh in Hr; apply links_app in Hr; destruct Hr as [_ [Hr _]]; exact Hr).
    assert (Ht2 : at_ (p_next T p2) t h) by (rewrite N2; apply F1; assumption).
    destruct (core_put_next p2 fl' _ i h C2 ltac:(now left)) as [E4 C4].
    remember (with_next T p2 (updz (p_next T p2) i h)) as p3 eqn:Ep3.
    destruct (core_put_next p3 fl' _ t i C4 ltac:(now right)) as [E5 C5].
    remember (with_next T p3 (updz (p_next T p3) t i)) as p4 eqn:Ep4.
    assert (N4 : p_next T p4 = updz (updz (p_next T p2) i h) t i) by now rewrite Ep4, Ep3.
    assert (D4 : p_data T p4 = p_data T p2) by now rewrite Ep4, Ep3.
    destruct (core_range _ _ _ t C2 ltac:(now right)) as (Rt & Nt & _).
    assert (Ai : at_ (p_next T p4) i h) by (rewrite N4; apply at_upd_ne; [lia|congruence|]; now apply at_upd_eq).
    assert (At : at_ (p_next T p4) t i) by (rewrite N4; apply at_upd_eq; unfold inside in *; rewrite updz_length; lia).
    assert (Fo : forall j v, In j ((m ++ [t]) ++ R) -> j <> t -> at_ (p_next T p) j v -> at_ (p_next T p4) j v).
    { intros j v J Jt HH. destruct (Nz j J). rewrite N4. apply at_upd_ne; [lia|congruence|]. apply at_upd_ne; [lia|congruence|]. rewrite N2. now apply F1. }
    assert (Ndm : NoDup (m ++ [t])) by (apply (core_nodup p fl _ R C)).
    assert (Mt : forall j, In j m -> j <> t) by (intros j J ->; apply NoDup_remove_2 in Ndm; rewrite app_nil_r in Ndm; auto).
    assert (Lm : links (p_next T p4) (m ++ [t]) i).
    { unfold ring in Hr. apply (links_end (p_next T p) _ m t _ i Hr); [|assumption]. intros j v J HH. apply Fo; [|auto|assumption].
      apply in_or_app. left. apply in_or_app. now left. }
    exists i, p1, p4. split; [assumption|]. split; [lia|]. split; [|split; [|split; [|split]]].
    + exists p2. split; [assumption|]. exists h, p3. split; [now apply getz_at|]. split; assumption.
    + exists fl'. assumption.
    + split; [|rewrite D4; apply Forall2_app; [assumption|constructor; [assumption|constructor]]].
      unfold ring. rewrite links_app. cbn [hd0]. split; [assumption|]. cbn [links hd0]. split; [|exact I].
      replace (hd0 0 ((m ++ [t]) ++ [i])) with h; [assumption|]. rewrite Eh. destruct m; reflexivity.
    + split; [|rewrite D4; constructor; assumption]. unfold ring. cbn [links hd0]. split; [|assumption]. rewrite (hd0_app m t i 0), <- Eh. assumption.
    + split; intros j v J HH.
      * apply Fo; [apply in_or_app; now right| |assumption]. intros ->. apply (core_disj p fl (m ++ [t]) R t C); [apply in_or_app; right; now left|assumption].
      * rewrite D4. apply Dd; [apply in_or_app; now right|assumption].
Qed.

Lemma remove_node p fl n ns R x xs : core p fl ((n :: ns) ++ R) -> holds p (n :: ns) (x :: xs) ->
  exists p' fl', p_remove_head T p (last (n :: ns) 0) = Ok (true, last ns 0, p') /\ core p' fl' (ns ++ R) /\ holds p' ns xs /\
  same_on p p' (fun j => In j R).
Proof.
  intros C [Hr Hd]. inversion Hd as [|? ? ? ? Hx Hxs]; subst.
  destruct (exists_last (l := n :: ns) ltac:(discriminate)) as (m & t & Em).
  assert (El : last (n :: ns) 0 = t) by (rewrite Em; apply last_snoc). rewrite El.
  assert (It : In t (n :: ns)) by (rewrite Em; apply in_or_app; right; now left).
  assert (It' : In t ((n :: ns) ++ R)) by (apply in_or_app; now left).
  destruct (core_range _ _ _ t C It') as (Rt & Nt & _). destruct (core_range _ _ _ n C ltac:(now left)) as (Rn & Nn & _).
  unfold p_remove_head. destruct (Z.eqb_spec t 0); [lia|].
  assert (Ht : at_ (p_next T p) t n).
  { unfold ring in Hr. cbn [hd0] in Hr. rewrite Em in Hr. apply links_app in Hr. destruct Hr as [_ [Hr _]]. exact Hr. }
  rewrite (getz_at _ _ _ Ht). cbn [bind].
  assert (Hn : at_ (p_next T p) n (hd0 n ns)) by (unfold ring in Hr; cbn [links hd0] in Hr; apply Hr).
  rewrite (getz_at _ _ _ Hn). cbn [bind].
  destruct (core_put_next p fl _ t (hd0 n ns) C It') as [E1 C1]. rewrite E1. cbn [bind].
  remember (with_next T p (updz (p_next T p) t (hd0 n ns))) as p1 eqn:Ep1. cbn [app] in C1.
  destruct (inside_at (p_next T p1) 0 (core_zero p1 _ _ C1)) as [f Hf]. rewrite (getz_at _ _ _ Hf). cbn [bind].
  destruct (free_core p1 fl n (ns ++ R) C1) as (p' & E2 & C2 & D2 & F2). destruct (E2 f Hf) as [E3 E4]. rewrite E3. cbn [bind]. rewrite E4. cbn [bind].
  assert (Ndn : NoDup (n :: ns)) by (apply (core_nodup p fl _ R C)).
  assert (Dp : p_data T p' = p_data T p) by (rewrite D2, Ep1; reflexivity).
  assert (Fo : forall j v, j <> t -> j <> n -> j <> 0 -> at_ (p_next T p) j v -> at_ (p_next T p') j v).
  { intros j v J1 J2 J3 HH. apply F2; [assumption|assumption|]. rewrite Ep1. cbn [with_next p_next]. apply at_upd_ne; [lia|congruence|assumption]. }
  exists p', (n :: fl). split; [|split; [assumption|split]].
  - f_equal. f_equal. f_equal. destruct ns as [|n1 ns].
    + cbn [last] in *. subst. now rewrite Z.eqb_refl.
    + assert (last (n1 :: ns) 0 = t) by (rewrite <- El; reflexivity). destruct (Z.eqb_spec n t) as [->|]; [|congruence].
      exfalso. inversion Ndn as [|? ? N0 _]; subst. apply N0. destruct (exists_last (l := n1 :: ns) ltac:(discriminate)) as (m1 & t1 & E). rewrite E in *.
      rewrite last_snoc in El, N0 |- *. apply in_or_app. right. now left.
  - split; [|rewrite Dp; assumption]. destruct ns as [|n1 ns1] eqn:Ens; [exact I|]. rewrite <- Ens in *.
    assert (Hne : ns <> []) by (rewrite Ens; discriminate). destruct (exists_last Hne) as (m1 & t1 & E1').
    assert (t1 = t) as -> by (rewrite <- El, E1'; change (n :: m1 ++ [t1]) with ((n :: m1) ++ [t1]); now rewrite last_snoc).
    unfold ring in *. cbn [links hd0] in Hr. destruct Hr as [_ Hr]. rewrite E1' in Hr |- *.
    assert (Nt' : n <> t). { intros ->. inversion Ndn as [|? ? N0 _]; subst. apply N0. rewrite E1'. apply in_or_app. right. now left. }
    apply (links_end (p_next T p) _ m1 t n); [assumption| |].
    + intros j v J HH. apply Fo; [| | |assumption].
      * intros ->. inversion Ndn as [|? ? _ Nd1]; subst. rewrite E1' in Nd1. apply NoDup_remove_2 in Nd1. rewrite app_nil_r in Nd1. auto.
      * intros ->. inversion Ndn as [|? ? N0 _]; subst. apply N0. rewrite E1'. apply in_or_app. now left.
      * destruct (core_range _ _ _ j C) as (Rj & _); [|lia]. apply in_or_app. left. right. rewrite E1'. apply in_or_app. now left.
    + apply F2; [lia|congruence|]. rewrite Ep1. cbn [with_next p_next]. rewrite E1', (hd0_app m1 t n 0). now apply at_upd_eq.
  - assert (Rd : forall j, In j R -> ~ In j (n :: ns)) by (intros j J J'; exact (core_disj p fl _ R j C J' J)).
    split; intros j v J HH; [|rewrite Dp; assumption]. apply Fo; [| | |assumption].
    + intros ->. exact (Rd t J It).
    + intros ->. apply (Rd n J). now left.
    + destruct (core_range _ _ _ j C) as (Rj & _); [|lia]. apply in_or_app. now right.
Qed.

Lemma start_rel p nq : length (p_next T p) = Z.to_nat N -> length (p_data T p) = Z.to_nat N ->
  exists c, p_start T p nq = Ok c /\ rel (a_start T nq) c.
Proof.
  intros H1 H2. unfold p_start, p_reset, put_next. cbn [p_next]. rewrite setz_in by (unfold inside; lia). cbn [bind].
  eexists. split; [reflexivity|]. unfold rel, a_start. cbn [a_queues a_nodes map]. exists [], (repeat [] nq).
  assert (Ec : concat (repeat (@nil Z) nq) = []) by (induction nq; auto). rewrite Ec. split; [|split; [|split]].
  - unfold core, with_next. cbn [p_next p_data p_size app length links hd0]. rewrite updz_length. split; [assumption|]. split; [assumption|].
    split; [constructor; [tauto|constructor]|]. split; [intros ? []|]. split; [reflexivity|]. split; [lia|]. split; [|exact I]. apply at_upd_eq. unfold inside. lia.
  - clear. induction nq as [|nq IH]; cbn [repeat map last]; [reflexivity|]. f_equal. exact IH.
  - clear. induction nq; cbn [repeat]; constructor; [apply holds_nil|assumption].
  - intros i l x [].
Qed.

Lemma nodes_split (l : list (Z * option (Z * T))) i : In i (map fst l) -> exists n l1 l2, l = l1 ++ (i, n) :: l2.
Proof. intro I. apply in_map_iff in I. destruct I as ((j, n) & <- & I). apply in_split in I. destruct I as (l1 & l2 & ->). now exists n, l1, l2. Qed.

(** Changing the end element of a queue. *)
Lemma set_one p ns n m R xs x ys y : holds p (ns ++ n :: m) (xs ++ y :: ys) -> length xs = length ns -> NoDup (ns ++ n :: m) -> inside (p_data T p) n ->
  holds (with_data T p (updz (p_data T p) n x)) (ns ++ n :: m) (xs ++ x :: ys) /\
  (~ In n R -> same_on p (with_data T p (updz (p_data T p) n x)) (fun j => In j R)).
Proof.
  intros [Hr Hd] L Nd I. assert (0 <= n) by (unfold inside in I; lia). split.
  - split; [exact Hr|]. cbn [with_data p_data]. apply Forall2_app_inv_l in Hd. destruct Hd as (k1 & k2 & D1 & D2 & E).
    assert (L1 : length k1 = length ns) by (clear - D1; induction D1; cbn [length]; congruence).
    assert (k1 = xs /\ k2 = y :: ys) as [-> ->].
    { clear - E L L1. revert ns k1 L L1 E. induction xs as [|a xs IH]; intros [|b ns] [|c k1]; cbn [app length]; intros L L1 E; try discriminate; auto.
      injection E as -> E. injection L as L. injection L1 as L1. destruct (IH ns k1 L L1 E) as [-> ->]. auto. }
    inversion D2 as [|? ? ? ? D3 D4]; subst.
    assert (Fr : forall j v, In j (ns ++ m) -> at_ (p_data T p) j v -> at_ (updz (p_data T p) n x) j v).
    { intros j v J HH. apply at_upd_ne; [assumption| |assumption]. intros <-. apply NoDup_remove_2 in Nd. contradiction. }
    apply Forall2_app; [|constructor; [now apply at_upd_eq|]].
    + assert (Fr' : forall j v, In j ns -> at_ (p_data T p) j v -> at_ (updz (p_data T p) n x) j v) by (intros; apply Fr; [apply in_or_app; now left|assumption]).
      clear - D1 Fr'. induction D1 as [|a b ns xs H1 H2 IH]; constructor; [apply Fr'; [now left|assumption]|]. apply IH. intros; apply Fr'; [now right|assumption].
    + assert (Fr' : forall j v, In j m -> at_ (p_data T p) j v -> at_ (updz (p_data T p) n x) j v) by (intros; apply Fr; [apply in_or_app; now right|assumption]).
      clear - D4 Fr'. induction D4 as [|a b ns xs H1 H2 IH]; constructor; [apply Fr'; [now left|assumption]|]. apply IH. intros; apply Fr'; [now right|assumption].
  - intros NR. split; intros j v J HH; [exact HH|]. cbn [with_data p_data]. apply at_upd_ne; [assumption| |assumption]. intros <-. contradiction.
Qed.

Lemma rest_frame p p' (nodes : list (Z * option (Z * T))) Q1 Q2 X1 X2 :
  same_on p p' (fun j => In j (map fst nodes ++ concat Q1 ++ concat Q2)) ->
  Forall2 (holds p) Q1 X1 -> Forall2 (holds p) Q2 X2 -> (forall i l x, In (i, Some (l, x)) nodes -> at_ (p_next T p) i l /\ at_ (p_data T p) i x) ->
  Forall2 (holds p') Q1 X1 /\ Forall2 (holds p') Q2 X2 /\ (forall i l x, In (i, Some (l, x)) nodes -> at_ (p_next T p') i l /\ at_ (p_data T p') i x).
Proof.
  intros [F1 F2] H1 H2 Hn. split; [|split].
  - apply (holds_all_frame p p'); [|assumption]. split; intros j v J; [apply F1|apply F2]; apply in_or_app; right; apply in_or_app; now left.
  - apply (holds_all_frame p p'); [|assumption]. split; intros j v J; [apply F1|apply F2]; apply in_or_app; right; apply in_or_app; now right.
  - intros i l x J. destruct (Hn i l x J) as [A B]. assert (In i (map fst nodes)) by (apply in_map_iff; now exists (i, Some (l, x))).
    split; [apply F1|apply F2]; try assumption; apply in_or_app; now left.
Qed.

Lemma Forall2_snoc_r {A B} (P : A -> B -> Prop) l xs x : Forall2 P l (xs ++ [x]) -> exists m t, l = m ++ [t] /\ Forall2 P m xs /\ P t x.
Proof.
  intro H. apply Forall2_app_inv_r in H. destruct H as (m & l' & H1 & H2 & ->). inversion H2 as [|t ? l2 ? H3 H4]; subst. inversion H4; subst. now exists m, t.
Qed.

Theorem sim a c o : rel a c -> allowed T a o -> exists out c' a', p_step T N c o = Ok (out, c') /\ spec_step T N a o out a' /\ rel a' c'.
Proof.
  destruct c as [p ts]. intros R Al. pose proof R as (fl & Q & C & Ets & HQ & Hn).
  pose proof (full_iff a p fl Q HQ C) as Fu.
  destruct o as [|i|i l x|i|q x|q x|q|q|q|q|q x|q x]; cbn [allowed] in Al; cbn [p_step].
  - (* Alloc *)
    pose proof (alloc_core p fl _ C) as A. destruct (Z.eqb_spec (Z.of_nat (length (map fst (a_nodes T a) ++ concat Q))) (N - 1)) as [E|E].
    + rewrite A. cbn [bind]. exists (OIdx T 0), (p, ts), a. split; [reflexivity|]. split; [apply s_alloc_full; tauto|assumption].
    + destruct A as (i & p' & fl' & Ea & C' & D' & F'). rewrite Ea. cbn [bind]. eexists _, _, _. split; [reflexivity|].
      destruct (core_range _ _ _ i C' ltac:(now left)) as (Ri & _).
      assert (Nz : forall j, In j (map fst (a_nodes T a) ++ concat Q) -> j <> 0) by (intros j J; destruct (core_range _ _ _ j C J); lia).
      split; [apply s_alloc; [tauto|lia|]|].
      * intro J. apply (core_disj p' fl' [i] _ i C'); [now left|]. apply in_or_app. now left.
      * exists fl', Q. cbn [a_nodes a_queues map fst]. split; [assumption|]. split; [assumption|]. split.
        -- apply (holds_all_frame p p'); [|assumption]. split; intros j v J HH; [|now rewrite D']. apply F'; [|assumption]. apply Nz. apply in_or_app. now right.
        -- intros j l x [J|J]; [discriminate|]. destruct (Hn j l x J) as [A B]. rewrite D'. split; [|assumption]. apply F'; [|assumption].
           apply Nz. apply in_or_app. left. apply in_map_iff. now exists (j, Some (l, x)).
  - (* Free *)
    unfold p_free. destruct (Z.eqb_spec i 0) as [->|Hi].
    + cbn [bind]. exists (OUnit T), (p, ts), a. split; [reflexivity|]. split; [apply s_free_nil|assumption].
    + destruct Al as [Al|Al]; [contradiction|]. destruct (nodes_split _ _ Al) as (n & l1 & l2 & En).
      assert (P : Permutation (map fst (a_nodes T a) ++ concat Q) (i :: map fst (l1 ++ l2) ++ concat Q)).
      { rewrite En, !map_app. cbn [map fst]. rewrite <- !app_assoc. cbn [app]. symmetry. apply Permutation_middle. }
      pose proof (core_perm _ _ _ _ P C) as C1. destruct (free_core p fl i _ C1) as (p' & E2 & C2 & D2 & F2).
      destruct (inside_at (p_next T p) 0 (core_zero p _ _ C)) as [f Hf]. rewrite (getz_at _ _ _ Hf). cbn [bind].
      destruct (E2 f Hf) as [E3 E4]. rewrite E3. cbn [bind]. rewrite E4. cbn [bind]. eexists _, _, _. split; [reflexivity|].
      split; [apply (s_free T N a i n l1 l2); assumption|]. 
      assert (Nz : forall j, In j (map fst (l1 ++ l2) ++ concat Q) -> j <> 0 /\ j <> i).
      { intros j J. destruct (core_range _ _ _ j C1 ltac:(now right)). split; [lia|]. intros ->. apply (core_disj p fl [i] _ i C1); [now left|assumption]. }
      exists (i :: fl), Q. cbn [a_nodes a_queues]. split; [assumption|]. split; [assumption|]. split.
      * apply (holds_all_frame p p'); [|assumption]. split; intros j v J HH; [|now rewrite D2]. destruct (Nz j); [apply in_or_app; now right|]. apply F2; assumption.
      * intros j l x J. destruct (Hn j l x) as [A B]; [rewrite En; apply in_app_or in J; apply in_or_app; destruct J; [now left|right; now right]|].
        rewrite D2. split; [|assumption]. destruct (Nz j); [apply in_or_app; left; apply in_map_iff; now exists (j, Some (l, x))|]. apply F2; assumption.
  - (* Write *)
    destruct (nodes_split _ _ Al) as (n & l1 & l2 & En).
    assert (Iu : In i (map fst (a_nodes T a) ++ concat Q)) by (apply in_or_app; now left).
    assert (P : Permutation (map fst (a_nodes T a) ++ concat Q) (i :: map fst (l1 ++ l2) ++ concat Q)).
    { rewrite En, !map_app. cbn [map fst]. rewrite <- !app_assoc. cbn [app]. symmetry. apply Permutation_middle. }
    destruct (core_put_next p fl _ i l C Iu) as [E1 C1]. rewrite E1. cbn [bind].
    destruct (core_put_data _ fl _ i x C1 Iu) as [E2 C2]. rewrite E2. cbn [bind]. cbn [with_next p_data] in E2, C2. 
    destruct (core_range _ _ _ i C Iu) as (Ri & Ni & Di).
    eexists _, _, _. split; [reflexivity|]. split; [apply (s_write T N a i l x n l1 l2); assumption|].
    assert (Nz : forall j, In j (map fst (l1 ++ l2) ++ concat Q) -> i <> j).
    { pose proof (core_perm _ _ _ _ P C) as C3. intros j J ->. apply (core_disj p fl [j] _ j C3); [now left|assumption]. }
    exists fl, Q. cbn [a_nodes a_queues]. split; [|split; [assumption|split]].
    + rewrite map_app. cbn [map fst]. rewrite En, map_app in C2. exact C2.
    + apply (holds_all_frame p); [|assumption]. cbn [with_next with_data p_next p_data].
      split; intros j v J HH; (apply at_upd_ne; [lia| |assumption]); apply Nz; apply in_or_app; now right.
    + cbn [with_next with_data p_next p_data]. intros j l' x' J. apply in_app_or in J.
      assert (K : j = i /\ l' = l /\ x' = x \/ In (j, Some (l', x')) (l1 ++ l2)).
      { destruct J as [J|[J|J]]; [right; apply in_or_app; now left| |right; apply in_or_app; now right]. injection J as -> -> ->. now left. }
      destruct K as [(-> & -> & ->)|K]; [split; apply at_upd_eq; assumption|].
      destruct (Hn j l' x') as [A B]; [rewrite En; apply in_app_or in K; apply in_or_app; destruct K; [now left|right; now right]|].
      assert (i <> j) by (apply Nz; apply in_or_app; left; apply in_map_iff; now exists (j, Some (l', x'))).
      split; apply at_upd_ne; assumption || lia.
  - (* Read *)
    destruct Al as ((l, x) & J). destruct (Hn i l x J) as [A B]. rewrite (getz_at _ _ _ A). cbn [bind]. rewrite (getz_at _ _ _ B). cbn [bind].
    eexists _, _, _. split; [reflexivity|]. split; [now apply s_read|assumption].
  - (* Append *)
    destruct (split_queue a p ts fl Q q C Ets HQ Al) as (Q1 & ns & Q2 & X1 & xs & X2 & EQ & EX & L1 & L2 & H1 & H & H2 & G & S & P).
    rewrite G. cbn [bind]. pose proof (core_perm _ _ _ _ P C) as C1. rewrite (Permutation_length P) in Fu. unfold p_append_tail.
    destruct (Z.eq_dec (Z.of_nat (length (ns ++ map fst (a_nodes T a) ++ concat Q1 ++ concat Q2))) (N - 1)) as [E|E].
    + pose proof (alloc_core p fl _ C1) as A. rewrite E, Z.eqb_refl in A. rewrite A. cbn [bind Z.eqb]. rewrite S. cbn [bind].
      exists (OBool T false), (p, ts), a. split; [|split; [apply s_append_full; tauto|assumption]].
      rewrite Ets, EQ, map_app. reflexivity.
    + destruct (add_node p fl ns _ xs x C1 H E) as (i & p1 & p' & Ea & Ni & (p2 & E2 & EP) & (fl' & C') & Hap & _ & SO).
      rewrite Ea. cbn [bind]. destruct (Z.eqb_spec i 0); [contradiction|]. rewrite E2. cbn [bind].
      destruct (rest_frame p p' _ _ _ _ _ SO H1 H2 Hn) as (H1' & H2' & Hn').
      destruct (becomes a q X1 xs X2 (xs ++ [x]) EX L2) as [B1 B2].
      eexists _, (p', _), _. split; [|split; [eapply s_append; [tauto|exact B1|exact B2]|]].
      * destruct (last ns 0 =? 0).
        -- destruct EP as [_ ->]. cbn [bind]. rewrite S. reflexivity.
        -- destruct EP as (h & p3 & -> & E4 & E5). cbn [bind]. rewrite E4. cbn [bind]. rewrite E5. cbn [bind]. rewrite S. reflexivity.
      * apply (rejoin a p' fl' Q1 (ns ++ [i]) Q2); try assumption; [|now rewrite last_snoc].
        eapply core_perm; [|exact C']. rewrite <- app_assoc. apply Permutation_middle.
  - (* Insert *)
    destruct (split_queue a p ts fl Q q C Ets HQ Al) as (Q1 & ns & Q2 & X1 & xs & X2 & EQ & EX & L1 & L2 & H1 & H & H2 & G & S & P).
    rewrite G. cbn [bind]. pose proof (core_perm _ _ _ _ P C) as C1. rewrite (Permutation_length P) in Fu. unfold p_insert_head.
    destruct (Z.eq_dec (Z.of_nat (length (ns ++ map fst (a_nodes T a) ++ concat Q1 ++ concat Q2))) (N - 1)) as [E|E].
    + pose proof (alloc_core p fl _ C1) as A. rewrite E, Z.eqb_refl in A. rewrite A. cbn [bind Z.eqb]. rewrite S. cbn [bind].
      exists (OBool T false), (p, ts), a. split; [|split; [apply s_insert_full; tauto|assumption]].
      rewrite Ets, EQ, map_app. reflexivity.
    + destruct (add_node p fl ns _ xs x C1 H E) as (i & p1 & p' & Ea & Ni & (p2 & E2 & EP) & (fl' & C') & _ & Hin & SO).
      rewrite Ea. cbn [bind]. destruct (Z.eqb_spec i 0); [contradiction|]. rewrite E2. cbn [bind].
      destruct (rest_frame p p' _ _ _ _ _ SO H1 H2 Hn) as (H1' & H2' & Hn').
      destruct (becomes a q X1 xs X2 (x :: xs) EX L2) as [B1 B2].
      eexists _, (p', map (fun ns => last ns 0) Q1 ++ last (i :: ns) 0 :: map (fun ns => last ns 0) Q2), _.
      split; [|split; [eapply s_insert; [tauto|exact B1|exact B2]|]].
      * destruct (Z.eqb_spec (last ns 0) 0) as [E0|E0].
        -- destruct EP as [-> ->]. cbn [bind]. rewrite S. reflexivity.
        -- destruct EP as (h & p3 & -> & E4 & E5). cbn [bind]. rewrite E4. cbn [bind]. rewrite E5. cbn [bind]. rewrite S. cbn [bind].
           destruct ns; [contradiction|]. reflexivity.
      * apply (rejoin a p' fl' Q1 (i :: ns) Q2); try assumption. reflexivity.
  - (* Remove *)
    destruct (split_queue a p ts fl Q q C Ets HQ Al) as (Q1 & ns & Q2 & X1 & xs & X2 & EQ & EX & L1 & L2 & H1 & H & H2 & G & S & P).
    rewrite G. cbn [bind]. pose proof (core_perm _ _ _ _ P C) as C1. destruct ns as [|n ns].
    + destruct H as [_ H]. inversion H; subst xs. cbn [last]. unfold p_remove_head. cbn [Z.eqb bind]. rewrite S. cbn [bind].
      destruct (becomes a q X1 [] X2 [] EX L2) as [B1 _].
      exists (OBool T false), (p, ts), a. split; [|split; [now apply s_remove_empty|assumption]]. rewrite Ets, EQ, map_app. reflexivity.
    + destruct xs as [|x xs]; [destruct H as [_ H]; inversion H|].
      destruct (remove_node p fl n ns _ x xs C1 H) as (p' & fl' & E & C' & H' & SO).
      destruct (rest_frame p p' _ _ _ _ _ SO H1 H2 Hn) as (H1' & H2' & Hn').
      destruct (becomes a q X1 (x :: xs) X2 xs EX L2) as [B1 B2]. rewrite E. cbn [bind]. rewrite S. cbn [bind].
      eexists _, _, _. split; [reflexivity|]. split; [eapply s_remove; [exact B1|exact B2]|].
      apply (rejoin a p' fl' Q1 ns Q2); try assumption. reflexivity.
  - (* IsEmpty *)
    destruct (split_queue a p ts fl Q q C Ets HQ Al) as (Q1 & ns & Q2 & X1 & xs & X2 & EQ & EX & L1 & L2 & H1 & H & H2 & G & S & P).
    rewrite G. cbn [bind]. destruct (becomes a q X1 xs X2 [] EX L2) as [B1 _]. pose proof (core_perm _ _ _ _ P C) as C1.
    eexists _, _, _. split; [reflexivity|]. split; [|exact R].
    replace (p_is_empty (last ns 0)) with (match xs with [] => true | _ => false end); [now apply s_empty|].
    pose proof (holds_length _ _ _ H) as L. unfold p_is_empty. destruct xs as [|x xs], ns as [|n ns]; try discriminate; [reflexivity|].
    symmetry. apply Z.eqb_neq. destruct (exists_last (l := n :: ns) ltac:(discriminate)) as (m & t & Em). rewrite Em, last_snoc.
    destruct (core_range _ _ _ t C1) as (Rt & _); [|lia]. apply in_or_app. left. rewrite Em. apply in_or_app. right. now left.
  - (* Head *)
    destruct Al as (x & xs' & Q0). assert (Lq : (q < length (a_queues T a))%nat) by (apply nth_error_Some; unfold queue_is in Q0; congruence).
    destruct (split_queue a p ts fl Q q C Ets HQ Lq) as (Q1 & ns & Q2 & X1 & xs & X2 & EQ & EX & L1 & L2 & H1 & H & H2 & G & S & P).
    rewrite G. cbn [bind]. destruct (becomes a q X1 xs X2 [] EX L2) as [B1 _]. assert (xs = x :: xs') as -> by (unfold queue_is in *; congruence).
    destruct H as [Hr Hd]. inversion Hd as [|n ? ns' ? Dn Dr]; subst ns. destruct (exists_last (l := n :: ns') ltac:(discriminate)) as (m & t & Em).
    unfold p_head. assert (A : at_ (p_next T p) (last (n :: ns') 0) n).
    { unfold ring in Hr. cbn [hd0] in Hr. rewrite Em in Hr |- *. rewrite last_snoc. apply links_app in Hr. destruct Hr as [_ [Hr _]]. exact Hr. }
    rewrite (getz_at _ _ _ A). cbn [bind]. rewrite (getz_at _ _ _ Dn). cbn [bind].
    eexists _, _, _. split; [reflexivity|]. split; [eapply s_head; exact Q0|exact R].
  - (* Tail *)
    destruct Al as (x0 & xs0 & Q0). assert (Lq : (q < length (a_queues T a))%nat) by (apply nth_error_Some; unfold queue_is in Q0; congruence).
    destruct (split_queue a p ts fl Q q C Ets HQ Lq) as (Q1 & ns & Q2 & X1 & xs & X2 & EQ & EX & L1 & L2 & H1 & H & H2 & G & S & P).
    rewrite G. cbn [bind]. destruct (becomes a q X1 xs X2 [] EX L2) as [B1 _]. assert (Ex : xs = x0 :: xs0) by (unfold queue_is in *; congruence).
    destruct (exists_last (l := xs) ltac:(rewrite Ex; discriminate)) as (ys & x & Ey). rewrite Ey in *. clear Ex Q0.
    destruct H as [Hr Hd]. destruct (Forall2_snoc_r _ _ _ _ Hd) as (m & t & -> & _ & At). rewrite last_snoc. unfold p_tail.
    rewrite (getz_at _ _ _ At). cbn [bind]. eexists _, _, _. split; [reflexivity|]. split; [eapply s_tail; exact B1|exact R].
  - (* SetHead *)
    destruct Al as (y & ys & Q0). assert (Lq : (q < length (a_queues T a))%nat) by (apply nth_error_Some; unfold queue_is in Q0; congruence).
    destruct (split_queue a p ts fl Q q C Ets HQ Lq) as (Q1 & ns & Q2 & X1 & xs & X2 & EQ & EX & L1 & L2 & H1 & H & H2 & G & S & P).
    rewrite G. cbn [bind]. destruct (becomes a q X1 xs X2 (x :: ys) EX L2) as [B1 B2]. assert (xs = y :: ys) as -> by (unfold queue_is in *; congruence).
    pose proof (core_perm _ _ _ _ P C) as C1.
    pose proof H as [Hr Hd]. inversion Hd as [|n ? ns' ? Dn Dr]; subst ns. destruct (exists_last (l := n :: ns') ltac:(discriminate)) as (m & t & Em).
    unfold p_set_head. assert (A : at_ (p_next T p) (last (n :: ns') 0) n).
    { unfold ring in Hr. cbn [hd0] in Hr. rewrite Em in Hr |- *. rewrite last_snoc. apply links_app in Hr. destruct Hr as [_ [Hr _]]. exact Hr. }
    rewrite (getz_at _ _ _ A). cbn [bind]. destruct (core_put_data p fl _ n x C1 ltac:(now left)) as [E2 C2]. rewrite E2. cbn [bind].
    eexists _, (_, map (fun ns => last ns 0) Q1 ++ last (n :: ns') 0 :: map (fun ns => last ns 0) Q2), _.
    split; [rewrite Ets, EQ, map_app; reflexivity|]. split; [eapply s_set_head; [exact B1|exact B2]|].
    destruct (set_one p [] n ns' (map fst (a_nodes T a) ++ concat Q1 ++ concat Q2) [] x ys y H eq_refl (core_nodup _ _ _ _ C1) (at_inside _ _ _ Dn)) as [H' SO].
    assert (NR : ~ In n (map fst (a_nodes T a) ++ concat Q1 ++ concat Q2)) by (intro J; apply (core_disj p fl (n :: ns') _ n C1); [now left|assumption]).
    destruct (rest_frame p _ _ _ _ _ _ (SO NR) H1 H2 Hn) as (H1' & H2' & Hn').
    apply (rejoin a _ fl Q1 (n :: ns') Q2); try assumption. reflexivity.
  - (* SetTail *)
    destruct Al as (x0 & xs0 & Q0). assert (Lq : (q < length (a_queues T a))%nat) by (apply nth_error_Some; unfold queue_is in Q0; congruence).
    destruct (split_queue a p ts fl Q q C Ets HQ Lq) as (Q1 & ns & Q2 & X1 & xs & X2 & EQ & EX & L1 & L2 & H1 & H & H2 & G & S & P).
    rewrite G. cbn [bind]. destruct (becomes a q X1 xs X2 [] EX L2) as [B1' _]. assert (Ex : xs = x0 :: xs0) by (unfold queue_is in *; congruence).
    destruct (exists_last (l := xs) ltac:(rewrite Ex; discriminate)) as (ys & y & Ey). rewrite Ey in *. clear Ex Q0 B1'.
    pose proof (core_perm _ _ _ _ P C) as C1. destruct (becomes a q X1 (ys ++ [y]) X2 (ys ++ [x]) EX L2) as [B1 B2].
    pose proof H as [Hr Hd]. destruct (Forall2_snoc_r _ _ _ _ Hd) as (m & t & -> & Dm & At). unfold p_set_tail. rewrite last_snoc.
    assert (It : In t (m ++ [t])) by (apply in_or_app; right; now left).
    destruct (core_put_data p fl _ t x C1 ltac:(apply in_or_app; now left)) as [E2 C2]. rewrite E2. cbn [bind].
    eexists _, (_, map (fun ns => last ns 0) Q1 ++ t :: map (fun ns => last ns 0) Q2), _.
    split; [rewrite Ets, EQ, map_app; cbn [map]; rewrite last_snoc; reflexivity|]. split; [eapply s_set_tail; [exact B1|exact B2]|].
    assert (Lm : length ys = length m) by (clear - Dm; induction Dm; cbn [length]; congruence).
    destruct (set_one p m t [] (map fst (a_nodes T a) ++ concat Q1 ++ concat Q2) ys x [] y H Lm (core_nodup _ _ _ _ C1) (at_inside _ _ _ At)) as [H' SO].
    assert (NR : ~ In t (map fst (a_nodes T a) ++ concat Q1 ++ concat Q2)) by (intro J; apply (core_disj p fl (m ++ [t]) _ t C1); assumption).
    destruct (rest_frame p _ _ _ _ _ _ (SO NR) H1 H2 Hn) as (H1' & H2' & Hn').
    apply (rejoin a _ fl Q1 (m ++ [t]) Q2); try assumption. now rewrite last_snoc.
Qed.
End Pool.
