From Coq Require Import Permutation ZifyNat.
From Verif Require Import Base Sort_Spec Sort_Proofs Heap_Model Heap_Spec.
Local Open Scope nat_scope.
Ltac Zify.zify_post_hook ::= Z.div_mod_to_equations.

Section Heap.
Context {A : Type} (lt : A -> A -> bool) (W : strict_weak_order lt).

Lemma asym x y : lt x y = true -> le lt x y.
Proof.
  unfold le. intro H. destruct (lt y x) eqn:E; auto.
  rewrite <- (swo_irrefl lt W x). symmetry. eapply (swo_trans lt W); eauto.
Qed.

Lemma le_trans x y z : le lt x y -> le lt y z -> le lt x z.
Proof.
  unfold le. intros H1 H2. destruct (lt z x) eqn:E; auto.
  destruct (lt x y) eqn:E1.
  { assert (lt z y = true) by (eapply (swo_trans lt W); eauto). congruence. }
  destruct (lt y z) eqn:E2.
  { assert (lt y x = true) by (eapply (swo_trans lt W); eauto). congruence. }
  destruct (swo_incomp lt W x y z); auto. congruence.
Qed.

Lemma le_refl x : le lt x x.
Proof. apply (swo_irrefl lt W). Qed.

Definition par (i : nat) : nat := Nat.div (i - 1) 2.

Definition heap (d : A) (sz : nat) (l : list A) : Prop :=
  forall i, 0 < i < sz -> le lt (nth (par i) l d) (nth i l d).

Lemma firstn_upd (l : list A) s i v : i < s -> firstn s (upd l i v) = upd (firstn s l) i v.
Proof.
  revert s i; induction l; destruct i, s; cbn; intros; try lia; auto.
  f_equal. apply IHl. lia.
Qed.

Lemma nth_error_firstn (l : list A) s i : i < s -> nth_error (firstn s l) i = nth_error l i.
Proof. revert s i; induction l; destruct s, i; cbn; intros; try lia; auto. apply IHl. lia. Qed.

(** Moving the hole from n to p is a swap of [upd l n item]. *)
Lemma hole_move (d : A) (l : list A) n p item : n < length l -> p < length l -> n <> p ->
  upd (upd l n (nth p l d)) p item = upd (upd (upd l n item) n (nth p (upd l n item) d)) p item.
Proof.
  intros Hn Hp N. rewrite (nth_upd_ne d l n p) by assumption. rewrite upd_upd. reflexivity.
Qed.

Lemma swap_perm_firstn (d : A) (l : list A) s n p item :
  n < s -> p < s -> s <= length l -> n <> p ->
  Permutation (firstn s (upd l n item)) (firstn s (upd (upd l n (nth p l d)) p item)).
Proof.
  intros Hn Hp Hs N. rewrite (hole_move d) by lia.
  rewrite (firstn_upd _ s p) by lia. rewrite (firstn_upd (upd l n item) s n) by lia.
  apply upd_perm_swap.
  - rewrite nth_error_firstn by lia. apply nth_error_upd_eq. lia.
  - rewrite nth_error_firstn by lia. apply nth_error_nth'. rewrite upd_length. lia.
Qed.

(** ** heap_raise *)
Lemma raise_ok (d item : A) sz : forall fuel l n,
  n < fuel -> n < sz -> sz <= length l ->
  (forall i, 0 < i < sz -> i <> n -> le lt (nth (par i) (upd l n item) d) (nth i (upd l n item) d)) ->
  (forall i, 0 < i < sz -> par i = n -> 0 < n -> le lt (nth (par n) l d) (nth i l d)) ->
  exists l', heap_raise lt fuel l item n = Ok l' /\ length l' = length l /\ heap d sz l' /\
    Permutation (firstn sz (upd l n item)) (firstn sz l').
Proof.
  induction fuel as [|fuel IH]; intros l n HF Hn Hsz I1 I2; [lia|].
  cbn [heap_raise].
  assert (DONE : (forall i, i = n -> 0 < i < sz -> le lt (nth (par i) (upd l n item) d) (nth i (upd l n item) d)) ->
    exists l', set l n item = Ok l' /\ length l' = length l /\ heap d sz l' /\
    Permutation (firstn sz (upd l n item)) (firstn sz l')).
  { intro C. exists (upd l n item). rewrite set_Ok by lia. rewrite upd_length.
    repeat split; auto. intros i Hi. destruct (Nat.eq_dec i n); auto. }
  destruct (Nat.ltb_spec 0 n) as [Hn0|Hn0].
  2:{ apply DONE. lia. }
  fold (par n). remember (par n) as p eqn:Epn.
  assert (Hp : p < n) by (rewrite Epn; unfold par; lia).
  rewrite (get_nth d) by lia. cbn [bind].
  destruct (lt item (nth p l d)) eqn:E.
  2:{ apply DONE. intros i -> _. rewrite <- Epn. rewrite nth_upd_eq by lia. rewrite nth_upd_ne by lia. exact E. }
  rewrite set_Ok by lia. cbn [bind].
  destruct (IH (upd l n (nth p l d)) p) as (l' & R & L & H & P); rewrite ?upd_length; try lia.
  - intros i Hi Hip.
    destruct (Nat.eq_dec i n) as [->|Nin].
    + rewrite <- Epn. rewrite nth_upd_eq by (rewrite upd_length; lia).
      rewrite nth_upd_ne by lia. rewrite nth_upd_eq by lia. now apply asym.
    + rewrite (nth_upd_ne d _ p i) by lia. rewrite (nth_upd_ne d _ n i) by lia.
      destruct (Nat.eq_dec (par i) p) as [Ep|Np].
      * rewrite Ep, nth_upd_eq by (rewrite upd_length; lia).
        specialize (I1 i Hi Nin). rewrite Ep in I1.
        rewrite !nth_upd_ne in I1 by lia.
        apply le_trans with (nth p l d); auto. now apply asym.
      * rewrite (nth_upd_ne d _ p (par i)) by lia.
        destruct (Nat.eq_dec (par i) n) as [En|Nn].
        -- rewrite En, nth_upd_eq by lia. apply (I2 i Hi En Hn0).
        -- rewrite nth_upd_ne by lia. specialize (I1 i Hi Nin). rewrite !nth_upd_ne in I1 by lia. exact I1.
  - intros i Hi Ei Hp0.
    assert (Hpp : par p < p) by (unfold par; lia).
    rewrite (nth_upd_ne d l n (par p)) by lia.
    assert (GP : le lt (nth (par p) l d) (nth p l d)).
    { specialize (I1 p ltac:(lia) ltac:(lia)). rewrite !nth_upd_ne in I1 by lia. exact I1. }
    destruct (Nat.eq_dec i n) as [->|Nin].
    + rewrite nth_upd_eq by lia. exact GP.
    + rewrite nth_upd_ne by lia. specialize (I1 i Hi Nin). rewrite Ei in I1.
      rewrite !nth_upd_ne in I1 by lia. eapply le_trans; eauto.
  - exists l'. rewrite upd_length in L. repeat split; auto.
    etransitivity; [|exact P]. apply swap_perm_firstn; lia.
Qed.

(** ** heap_lower *)
Lemma lower_ok (d item : A) sz : forall fuel l n,
  sz <= n + fuel -> n < sz -> sz <= length l ->
  (forall i, 0 < i < sz -> par i <> n -> le lt (nth (par i) (upd l n item) d) (nth i (upd l n item) d)) ->
  (forall i, 0 < i < sz -> par i = n -> 0 < n -> le lt (nth (par n) l d) (nth i l d)) ->
  exists l', heap_lower lt fuel sz l item n = Ok l' /\ length l' = length l /\ heap d sz l' /\
    Permutation (firstn sz (upd l n item)) (firstn sz l').
Proof.
  induction fuel as [|fuel IH]; intros l n HF Hn Hsz I1 I2; [lia|].
  cbn [heap_lower].
  assert (DONE : (forall i, par i = n -> 0 < i < sz -> le lt item (nth i l d)) ->
    exists l', set l n item = Ok l' /\ length l' = length l /\ heap d sz l' /\
    Permutation (firstn sz (upd l n item)) (firstn sz l')).
  { intro C. exists (upd l n item). rewrite set_Ok by lia. rewrite upd_length.
    repeat split; auto. intros i Hi. destruct (Nat.eq_dec (par i) n) as [E|E]; auto.
    rewrite E, nth_upd_eq by lia. rewrite nth_upd_ne by (unfold par in E; lia). auto. }
  destruct (Nat.leb_spec sz (n * 2 + 1)) as [Hc|Hc].
  { apply DONE. intros i Hi Hi2. unfold par in Hi. lia. }
  (* the smaller child *)
  assert (CH : exists p, (if n * 2 + 1 + 1 <? sz
      then x <- get l (n * 2 + 1 + 1) ;; y <- get l (n * 2 + 1) ;; Ok (if lt x y then n * 2 + 1 + 1 else n * 2 + 1)
      else Ok (n * 2 + 1)) = Ok p /\ par p = n /\ n < p < sz /\
      forall i, par i = n -> 0 < i < sz -> le lt (nth p l d) (nth i l d)).
  { destruct (Nat.ltb_spec (n * 2 + 1 + 1) sz) as [H2|H2].
    - rewrite !(get_nth d) by lia. cbn [bind]. eexists. split; [reflexivity|].
      destruct (lt (nth (n * 2 + 1 + 1) l d) (nth (n * 2 + 1) l d)) eqn:E;
        (split; [unfold par; lia|split; [lia|]]); intros i Hi Hi2;
        (assert (i = n * 2 + 1 \/ i = n * 2 + 1 + 1) as [-> | ->] by (unfold par in Hi; lia));
        auto using asym, le_refl.
    - eexists. split; [reflexivity|]. split; [unfold par; lia|split; [lia|]].
      intros i Hi Hi2. assert (i = n * 2 + 1) as -> by (unfold par in Hi; lia). apply le_refl. }
  destruct CH as (p & -> & Ep & Hp & MIN). cbn [bind].
  rewrite (get_nth d) by lia. cbn [bind].
  destruct (lt item (nth p l d)) eqn:E.
  { apply DONE. intros i Hi Hi2. apply le_trans with (nth p l d); auto using asym. }
  rewrite set_Ok by lia. cbn [bind].
  destruct (IH (upd l n (nth p l d)) p) as (l' & R & L & H & P); rewrite ?upd_length; try lia.
  - intros i Hi Hip.
    destruct (Nat.eq_dec i p) as [->|Nip].
    + rewrite Ep. rewrite (nth_upd_eq d _ p) by (rewrite upd_length; lia).
      rewrite nth_upd_ne by lia. rewrite nth_upd_eq by lia. exact E.
    + rewrite (nth_upd_ne d _ p i), (nth_upd_ne d _ p (par i)) by lia.
      destruct (Nat.eq_dec (par i) n) as [En|Nn].
      * rewrite En, nth_upd_eq by lia. rewrite nth_upd_ne by (unfold par in En; lia). auto.
      * rewrite (nth_upd_ne d l n (par i)) by lia.
        destruct (Nat.eq_dec i n) as [->|Nin].
        -- rewrite nth_upd_eq by lia.
           apply (I2 p); lia.
        -- rewrite nth_upd_ne by lia. specialize (I1 i Hi Nn). rewrite !nth_upd_ne in I1 by lia. exact I1.
  - intros i Hi Ei Hp0. rewrite Ep, nth_upd_eq by lia.
    assert (i <> n) by (unfold par in *; lia). rewrite nth_upd_ne by lia.
    specialize (I1 i Hi ltac:(lia)). rewrite Ei in I1. rewrite !nth_upd_ne in I1 by lia. exact I1.
  - exists l'. rewrite upd_length in L. repeat split; auto.
    etransitivity; [|exact P]. apply swap_perm_firstn; lia.
Qed.

Lemma heap_root d sz l : heap d sz l -> forall i, i < sz -> le lt (nth 0 l d) (nth i l d).
Proof.
  intros H i. induction i as [i IH] using (well_founded_induction lt_wf). intro Hi.
  destruct (Nat.eq_dec i 0) as [->|N]; [apply le_refl|].
  apply le_trans with (nth (par i) l d).
  - apply IH; unfold par; lia.
  - apply H. lia.
Qed.

(** Representation: the first [size] cells form a heap and hold the bag. *)
Definition repr (N : nat) (q : pq A) (bag : list A) : Prop :=
  length (pq_data q) = N /\ pq_size q <= N /\
  (forall d, heap d (pq_size q) (pq_data q)) /\ Permutation bag (firstn (pq_size q) (pq_data q)).

Lemma repr_len N q bag : repr N q bag -> length bag = pq_size q.
Proof. intros (L & S & _ & P). rewrite (Permutation_length P), firstn_length. lia. Qed.

Lemma nth_heap_indep d d' sz l : sz <= length l -> heap d sz l -> heap d' sz l.
Proof.
  intros HL H i Hi. specialize (H i Hi).
  rewrite (nth_indep l d' d), (nth_indep l d' d (n := i)) by (unfold par; lia). exact H.
Qed.

Lemma firstn_S_upd (l : list A) n x : n < length l ->
  Permutation (firstn (S n) (upd l n x)) (x :: firstn n l).
Proof.
  revert n; induction l as [|a l IH]; intros n Hn; cbn in Hn; [lia|].
  destruct n; cbn; [auto|]. rewrite perm_swap. constructor. apply IH. lia.
Qed.

Lemma enqueue_ok N q bag x : repr N q bag ->
  exists q', (if length bag <? N then enqueue lt q x = Ok (true, q') /\ repr N q' (x :: bag)
              else enqueue lt q x = Ok (false, q') /\ q' = q).
Proof.
  intro H. pose proof (repr_len _ _ _ H) as EL. destruct H as (L & SZ & HP & P).
  unfold enqueue. rewrite EL, L. destruct (Nat.ltb_spec (pq_size q) N) as [HN|HN]; [|eauto].
  destruct (raise_ok x x (S (pq_size q)) (S (pq_size q)) (pq_data q) (pq_size q)) as (l' & R & L' & H' & P');
    try lia.
  - intros i Hi Ni. rewrite !nth_upd_ne by (unfold par; lia). apply HP. lia.
  - intros i Hi Ei H0. unfold par in Ei. lia.
  - rewrite R. cbn [bind]. eexists. split; [reflexivity|].
    split; [cbn; lia|]. split; [cbn; lia|]. cbn. split.
    + intro d. apply nth_heap_indep with x; auto. lia.
    + rewrite P, <- P'. symmetry. apply firstn_S_upd. lia.
Qed.

Lemma dequeue_ok N q bag : repr N q bag -> 0 < length bag ->
  exists x rest q', dequeue lt q = Ok (x, q') /\ Permutation bag (x :: rest) /\
    (forall y, In y bag -> lt y x = false) /\ repr N q' rest.
Proof.
  intros H HB. pose proof (repr_len _ _ _ H) as EL. destruct H as (L & SZ & HP & P).
  destruct q as [size data]. cbn in *. unfold dequeue. cbn [pq_size pq_data].
  destruct data as [|x data].
  { cbn in *. lia. }
  change (get (x :: data) 0) with (@Ok A x). cbn [bind].
  destruct size as [|size]; [lia|].
  assert (MIN : forall y, In y bag -> lt y x = false).
  { intros y Hy. apply (Permutation_in _ P) in Hy.
    apply In_nth_error in Hy as [i Hi].
    assert (i < S size).
    { assert (i < length (firstn (S size) (x :: data))) by (apply nth_error_Some; congruence).
      rewrite firstn_length in *. lia. }
    rewrite nth_error_firstn in Hi by lia.
    pose proof (heap_root y _ _ (HP y) i ltac:(lia)) as G.
    rewrite (nth_error_nth (x :: data) i y Hi) in G. exact G. }
  destruct (Nat.ltb_spec 0 size) as [H0|H0].
  - rewrite (get_nth x) by lia. cbn [bind].
    set (last := nth size (x :: data) x).
    destruct (lower_ok x last size (S size) (x :: data) 0) as (l' & R & L' & H' & P'); try (cbn in *; lia).
    + intros i Hi Ei. rewrite !nth_upd_ne by lia. apply HP. lia.
    + rewrite R. cbn [bind]. exists x, (firstn size l'). eexists. split; [reflexivity|].
      split; [|split; [exact MIN|]].
      * rewrite P. rewrite <- P'. cbn [firstn]. constructor.
        destruct size as [|size]; [lia|]. cbn [upd firstn].
        unfold last. cbn [nth].
        clear -SZ L. cbn in L. assert (size < length data) by lia. clear L SZ.
        revert size H. induction data as [|a data IH]; intros size H; cbn in H; [lia|].
        destruct size; cbn; [auto|]. rewrite perm_swap. constructor.
        apply IH. lia.
      * split; [cbn; lia|]. split; [cbn; lia|]. cbn. split; auto.
        intro d. apply nth_heap_indep with x; auto. cbn in *; lia.
  - assert (size = 0) by lia. subst size. exists x, []. eexists. split; [reflexivity|].
    split; [exact P|]. split; [exact MIN|].
    split; [cbn; auto|]. split; [cbn; lia|]. cbn. split; auto.
    intros d i Hi. lia.
Qed.

Lemma run_ok N : forall os q bag, repr N q bag -> well_used N (length bag) os ->
  exists rs, pq_run lt q os = Ok rs /\ spec_run lt N bag os rs.
Proof.
  induction os as [|o os IH]; intros q bag H WU.
  - exists []. split; [reflexivity|constructor].
  - cbn [pq_run]. destruct o as [x| | |]; cbn [pq_step well_used] in *.
    + destruct (enqueue_ok N q bag x H) as (q' & E).
      destruct (Nat.ltb_spec (length bag) N) as [HN|HN].
      * destruct E as [-> R']. cbn [bind]. destruct (IH q' (x :: bag)) as (rs & -> & S); auto.
        cbn [bind]. eexists. split; [reflexivity|]. now constructor.
      * destruct E as [-> ->]. cbn [bind]. destruct (IH q bag) as (rs & -> & S); auto.
        cbn [bind]. eexists. split; [reflexivity|]. apply run_enqueue_full; auto.
        pose proof (repr_len _ _ _ H). destruct H as (? & ? & _). lia.
    + destruct WU as [H0 WU]. destruct (dequeue_ok N q bag H H0) as (x & rest & q' & -> & P & M & R).
      cbn [bind]. destruct (IH q' rest) as (rs & -> & S); auto.
      { pose proof (Permutation_length P) as PL. cbn in PL.
        replace (length bag - 1) with (length rest) in WU by lia. exact WU. }
      cbn [bind]. eexists. split; [reflexivity|]. econstructor; eauto.
    + destruct WU as [H0 WU].
      destruct (dequeue_ok N q bag H H0) as (x & rest & q' & E & P & M & R).
      unfold pq_head. unfold dequeue in E. apply bind_Ok_inv in E as (x' & E1 & E2).
      assert (x' = x).
      { destruct (pq_size q) as [|n]; [discriminate|]. destruct (0 <? n).
        - apply bind_Ok_inv in E2 as (? & ? & E2). apply bind_Ok_inv in E2 as (? & ? & E2). congruence.
        - congruence. }
      subst x'. rewrite E1. cbn [bind].
      destruct (IH q bag) as (rs & -> & S); auto.
      cbn [bind]. eexists. split; [reflexivity|]. constructor; auto.
      apply (Permutation_in _ (Permutation_sym P)). now left.
    + cbn [bind]. destruct (IH q bag) as (rs & -> & S); auto.
      cbn [bind]. eexists. split; [reflexivity|].
      replace (pq_empty q) with (match bag with [] => true | _ => false end); [now constructor|].
      unfold pq_empty. rewrite <- (repr_len _ _ _ H). destruct bag; reflexivity.
Qed.

End Heap.
