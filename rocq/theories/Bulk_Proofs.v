(** Proofs for bulk. *)
From Coq Require Import List Arith Bool Lia.
From Verif Require Import Base Bulk_Model Bulk_Spec.
Import ListNotations.
Local Open Scope nat_scope.

Section P.
Context {V : Type} (T : traits V) (N : nat).
Notation sl := (slot V).

Definition alive (s : sl) : Prop := triv_ctor T = true \/ s <> Raw.
Definition freeable (s : sl) : Prop := triv_dtor T = true \/ s = Raw.

Lemma get_at_nth (d : list sl) i : i < length d -> get d i = Ok (nth i d Raw).
Proof. apply get_nth. Qed.

Lemma construct_ok c d i s : i < length d -> freeable (nth i d Raw) ->
  construct T c d i s = Ok ({| ctors := S (ctors c); dtors := dtors c |}, upd d i s).
Proof.
  intros Hi F. unfold construct. rewrite get_at_nth by auto. cbn [bind].
  rewrite set_Ok by auto. cbn [bind].
  destruct F as [F | F]; rewrite F; [destruct (nth i d Raw)|]; reflexivity.
Qed.

Lemma destroy_ok c d i : i < length d -> alive (nth i d Raw) ->
  destroy T c d i = Ok ({| ctors := ctors c; dtors := S (dtors c) |}, upd d i Raw).
Proof.
  intros Hi F. unfold destroy. rewrite get_at_nth by auto. cbn [bind].
  rewrite set_Ok by auto. cbn [bind].
  destruct F as [F | F]; [rewrite F; destruct (nth i d Raw); reflexivity |].
  destruct (nth i d Raw); [congruence | reflexivity].
Qed.

Lemma assign_ok d i s : i < length d -> alive (nth i d Raw) -> alive s ->
  assign T d i s = Ok (upd d i s).
Proof.
  intros Hi F G. unfold assign. rewrite get_at_nth by auto. cbn [bind].
  rewrite set_Ok by auto.
  destruct F as [F | F]; [rewrite F; destruct (nth i d Raw), s; reflexivity |].
  destruct (nth i d Raw); [congruence |].
  destruct G as [G | G]; [rewrite G; destruct s; reflexivity |].
  destruct s; [congruence | reflexivity].
Qed.

Ltac nthupd := repeat first
  [ rewrite nth_upd_eq by (try rewrite upd_length; lia)
  | rewrite nth_upd_ne by lia ].

(** Pointwise description of an array obtained from another. *)
Definition same_out (d d' : list sl) (P : nat -> Prop) : Prop :=
  length d' = length d /\ forall i, ~ P i -> nth i d' Raw = nth i d Raw.

Lemma construct_loop_ok n : forall c d h, h + n <= length d ->
  (forall i, h <= i < h + n -> freeable (nth i d Raw)) ->
  exists c' d', construct_loop T c d h n = Ok (c', d') /\
    ctors c' = ctors c + n /\ dtors c' = dtors c /\
    same_out d d' (fun i => h <= i < h + n) /\
    forall i, h <= i < h + n -> nth i d' Raw = Live (dflt T).
Proof.
  induction n; intros c d h L F.
  - exists c, d. cbn. repeat split; auto; lia.
  - cbn [construct_loop]. rewrite construct_ok by (try apply F; lia). cbn [bind].
    destruct (IHn {| ctors := S (ctors c); dtors := dtors c |} (upd d h (Live (dflt T))) (S h)) as (c' & d' & E & C1 & C2 & [S1 S2] & S3).
    { rewrite upd_length. lia. }
    { intros i Hi. nthupd. apply F. lia. }
    exists c', d'. cbn [ctors dtors] in *. rewrite E. repeat split; try lia; auto.
    + rewrite S1, upd_length. reflexivity.
    + intros i Hi. rewrite S2 by lia. nthupd. reflexivity.
    + intros i Hi. destruct (Nat.eq_dec i h) as [->|]; [rewrite S2 by lia; nthupd; reflexivity | apply S3; lia].
Qed.

Lemma destroy_loop_ok n : forall c d h, h + n <= length d ->
  (forall i, h <= i < h + n -> alive (nth i d Raw)) ->
  exists c' d', destroy_loop T c d h n = Ok (c', d') /\
    ctors c' = ctors c /\ dtors c' = dtors c + n /\
    same_out d d' (fun i => h <= i < h + n) /\
    forall i, h <= i < h + n -> nth i d' Raw = Raw.
Proof.
  induction n; intros c d h L F.
  - exists c, d. cbn. repeat split; auto; lia.
  - cbn [destroy_loop]. rewrite destroy_ok by (try apply F; lia). cbn [bind].
    destruct (IHn {| ctors := ctors c; dtors := S (dtors c) |} (upd d (h + n) Raw) h) as (c' & d' & E & C1 & C2 & [S1 S2] & S3).
    { rewrite upd_length. lia. }
    { intros i Hi. nthupd. apply F. lia. }
    exists c', d'. cbn [ctors dtors] in *. rewrite E. repeat split; try lia; auto.
    + rewrite S1, upd_length. reflexivity.
    + intros i Hi. rewrite S2 by lia. nthupd. reflexivity.
    + intros i Hi. destruct (Nat.eq_dec i (h + n)) as [->|]; [rewrite S2 by lia; nthupd; reflexivity | apply S3; lia].
Qed.

(** What destroy_at / construct_at do, whatever the traits. *)
Lemma destroy_at_ok c d h t : h <= t <= length d ->
  (forall i, h <= i < t -> alive (nth i d Raw)) ->
  exists c' d', destroy_at T c d h t = Ok (c', d', h) /\
    (triv_dtor T = false -> ctors c' = ctors c /\ dtors c' = dtors c + (t - h)) /\
    same_out d d' (fun i => h <= i < t) /\
    (triv_dtor T = false -> forall i, h <= i < t -> nth i d' Raw = Raw).
Proof.
  intros L F. unfold destroy_at. destruct (triv_dtor T) eqn:TD.
  - exists c, d. cbn [bind]. repeat split; auto; discriminate.
  - destruct (destroy_loop_ok (t - h) c d h) as (c' & d' & E & C1 & C2 & [S1 S2] & S3);
      [lia | intros; apply F; lia |].
    rewrite E. cbn [bind]. exists c', d'. repeat split; auto.
    + intros i Hi. apply S2. lia.
    + intros _ i Hi. apply S3. lia.
Qed.

Lemma construct_at_ok c d h t : h <= t <= length d ->
  (forall i, h <= i < t -> freeable (nth i d Raw)) ->
  exists c' d', construct_at T c d h t = Ok (c', d', t) /\
    (triv_ctor T = false -> ctors c' = ctors c + (t - h) /\ dtors c' = dtors c) /\
    same_out d d' (fun i => h <= i < t) /\
    (triv_ctor T = false -> forall i, h <= i < t -> nth i d' Raw = Live (dflt T)).
Proof.
  intros L F. unfold construct_at. destruct (triv_ctor T) eqn:TD.
  - exists c, d. cbn [bind]. repeat split; auto; discriminate.
  - destruct (construct_loop_ok (t - h) c d h) as (c' & d' & E & C1 & C2 & [S1 S2] & S3);
      [lia | intros; apply F; lia |].
    rewrite E. cbn [bind]. exists c', d'. repeat split; auto.
    + intros i Hi. apply S2. lia.
    + intros _ i Hi. apply S3. lia.
Qed.

Lemma construct_copy_ok c d i s : i < length d -> freeable (nth i d Raw) -> alive s ->
  has_default T = true ->
  construct_copy T c d i s = Ok ({| ctors := S (ctors c); dtors := dtors c |}, upd d i s).
Proof.
  intros Hi F G D. unfold construct_copy, is_constructible_with_T, is_constructible_default. rewrite D.
  rewrite construct_ok by auto. cbn [bind].
  rewrite assign_ok; [cbn [bind]; now rewrite upd_upd | now rewrite upd_length | | auto].
  rewrite nth_upd_eq by auto. unfold alive. destruct (triv_ctor T); [auto | right; discriminate].
Qed.

Lemma construct_copies_ok n : forall c d i src, i + n <= length d -> i + n <= length src ->
  has_default T = true \/ n = 0 ->
  (forall k, i <= k < i + n -> freeable (nth k d Raw) /\ alive (nth k src Raw)) ->
  exists c' d', construct_copies T c d i src n = Ok (c', d') /\
    ctors c' = ctors c + n /\ dtors c' = dtors c /\
    same_out d d' (fun k => i <= k < i + n) /\
    forall k, i <= k < i + n -> nth k d' Raw = nth k src Raw.
Proof.
  induction n; intros c d i src L L2 D F.
  - exists c, d. cbn. repeat split; auto; lia.
  - cbn [construct_copies]. rewrite get_at_nth by lia. cbn [bind].
    rewrite construct_copy_ok; [| lia | apply F; lia | apply F; lia | destruct D; [auto | lia]].
    cbn [bind].
    destruct (IHn {| ctors := S (ctors c); dtors := dtors c |} (upd d i (nth i src Raw)) (S i) src) as (c' & d' & E & C1 & C2 & [S1 S2] & S3).
    { rewrite upd_length. lia. } { lia. } { destruct D; [auto | lia]. }
    { intros k Hk. nthupd. apply F. lia. }
    exists c', d'. cbn [ctors dtors] in *. rewrite E. repeat split; try lia; auto.
    + rewrite S1, upd_length. reflexivity.
    + intros k Hk. rewrite S2 by lia. nthupd. reflexivity.
    + intros k Hk. destruct (Nat.eq_dec k i) as [->|]; [rewrite S2 by lia; nthupd; reflexivity | apply S3; lia].
Qed.

Lemma assigns_ok n : forall d i src, i + n <= length d -> i + n <= length src ->
  (forall k, i <= k < i + n -> alive (nth k d Raw) /\ alive (nth k src Raw)) ->
  exists d', assigns T d i src n = Ok d' /\
    same_out d d' (fun k => i <= k < i + n) /\
    forall k, i <= k < i + n -> nth k d' Raw = nth k src Raw.
Proof.
  induction n; intros d i src L L2 F.
  - exists d. cbn. repeat split; auto; lia.
  - cbn [assigns]. rewrite get_at_nth by lia. cbn [bind].
    rewrite assign_ok by (try apply F; lia). cbn [bind].
    destruct (IHn (upd d i (nth i src Raw)) (S i) src) as (d' & E & [S1 S2] & S3).
    { rewrite upd_length. lia. } { lia. }
    { intros k Hk. nthupd. apply F. lia. }
    exists d'. rewrite E. repeat split; try lia; auto.
    + rewrite S1, upd_length. reflexivity.
    + intros k Hk. rewrite S2 by lia. nthupd. reflexivity.
    + intros k Hk. destruct (Nat.eq_dec k i) as [->|]; [rewrite S2 by lia; nthupd; reflexivity | apply S3; lia].
Qed.

(** * The representation relation *)
Definition slot_ok (s : sl) (a : option V) : Prop :=
  match a with Some v => s = Live v | None => triv_ctor T = true end.

Definition Rel (b : bulk V) (l : alist) : Prop :=
  length (bdata b) = N /\ bsize b = length l /\ length l <= N /\
  (forall i a, nth_error l i = Some a -> slot_ok (nth i (bdata b) Raw) a) /\
  (forall i, length l <= i -> freeable (nth i (bdata b) Raw)).

Lemma slot_alive s a : slot_ok s a -> alive s.
Proof. destruct a; cbn; intro H; [right; rewrite H; discriminate | now left]. Qed.

Lemma rel_alive b l i : Rel b l -> i < length l -> alive (nth i (bdata b) Raw).
Proof.
  intros (L & Z & B & R & F) Hi. destruct (nth_error l i) eqn:E.
  - eapply slot_alive. eauto.
  - apply nth_error_None in E. lia.
Qed.

(** The count balance kept by every operation, for types with real constructors and destructors. *)
Definition balance (c c' : count) (before after : nat) : Prop :=
  triv_ctor T = false -> triv_dtor T = false ->
  ctors c' + dtors c + before = ctors c + dtors c' + after.

Lemma nth_error_lt {A} (l : list A) i a : nth_error l i = Some a -> i < length l.
Proof. intro H. apply nth_error_Some. congruence. Qed.

Lemma new_ok : Rel (bulk_new N) [].
Proof.
  unfold Rel, bulk_new. cbn [bsize bdata length]. rewrite repeat_length.
  repeat split; auto; [lia | | ].
  - intros [|i] a; discriminate.
  - intros i _. right. apply nth_repeat.
Qed.

Lemma shrink_ok c b l n : Rel b l -> n <= length l ->
  exists c' d, destroy_at T c (bdata b) n (bsize b) = Ok (c', d, n) /\
    Rel {| bsize := n; bdata := d |} (firstn n l) /\ balance c c' (length l) n.
Proof.
  intros R Hn. pose proof R as (L & Z & B & R1 & F).
  destruct (destroy_at_ok c (bdata b) n (bsize b)) as (c' & d & E & C & [S1 S2] & S3); [lia | |].
  { intros i Hi. eapply rel_alive; eauto. lia. }
  exists c', d. split; [exact E|]. split.
  - unfold Rel. cbn [bsize bdata]. rewrite firstn_length_le by lia. repeat split; try lia.
    + intros i a Ha. pose proof (nth_error_lt _ _ _ Ha) as Hi. rewrite firstn_length_le in Hi by lia.
      rewrite S2 by lia. apply R1. rewrite <- Ha.
      symmetry. rewrite <- (firstn_skipn n l) at 2. rewrite nth_error_app1; [auto | rewrite firstn_length_le; lia].
    + intros i Hi. unfold freeable. destruct (triv_dtor T) eqn:TD; [now left | right].
      destruct (Nat.lt_ge_cases i (bsize b)).
      * apply S3; [auto | lia].
      * rewrite S2 by lia. destruct (F i) as [F1|F1]; [lia | congruence | auto].
  - intros TC TD. destruct (C TD). lia.
Qed.

Lemma nth_error_fresh n i a : nth_error (fresh T n) i = Some a ->
  a = if triv_ctor T then None else Some (dflt T).
Proof. unfold fresh. intro H. apply nth_error_In in H. now apply repeat_spec in H. Qed.

Lemma grow_ok c b l n : Rel b l -> length l <= n <= N ->
  exists c' d, construct_at T c (bdata b) (bsize b) n = Ok (c', d, n) /\
    Rel {| bsize := n; bdata := d |} (l ++ fresh T (n - length l)) /\ balance c c' (length l) n.
Proof.
  intros R Hn. pose proof R as (L & Z & B & R1 & F).
  destruct (construct_at_ok c (bdata b) (bsize b) n) as (c' & d & E & C & [S1 S2] & S3); [lia | |].
  { intros i Hi. apply F. lia. }
  exists c', d. split; [exact E|]. split.
  - unfold Rel. cbn [bsize bdata]. rewrite app_length. unfold fresh at 1. rewrite repeat_length.
    repeat split; try lia.
    + unfold fresh. rewrite repeat_length. lia.
    + intros i a Ha. destruct (Nat.lt_ge_cases i (length l)) as [Hi|Hi].
      * rewrite nth_error_app1 in Ha by auto. rewrite S2 by lia. auto.
      * rewrite nth_error_app2 in Ha by auto. pose proof (nth_error_lt _ _ _ Ha) as Hj.
        unfold fresh in Hj. rewrite repeat_length in Hj. apply nth_error_fresh in Ha. subst a.
        destruct (triv_ctor T) eqn:TC; [exact TC |].
        cbn. apply S3; [auto | lia].
    + unfold fresh. rewrite repeat_length. intros i Hi. rewrite S2 by lia. apply F. lia.
  - intros TC TD. destruct (C TC). lia.
Qed.

Lemma resize_ok c b l n : Rel b l ->
  exists c' b', bulk_resize T c b n = Ok (c', (n <=? N), b') /\
    Rel b' (if n <=? N then firstn n l ++ fresh T (n - length l) else l) /\
    balance c c' (length l) (bsize b').
Proof.
  intro R. pose proof R as (L & Z & B & R1 & F). unfold bulk_resize. rewrite L, Z.
  destruct (Nat.leb_spec n N) as [Hn|Hn].
  - rewrite (proj2 (Nat.ltb_ge N n)) by lia.
    destruct (Nat.leb_spec n (length l)).
    + destruct (shrink_ok c b l n R) as (c' & d & E & R' & Bl); [lia|].
      rewrite Z in E. rewrite E. cbn [bind]. do 2 eexists. split; [reflexivity|].
      replace (n - length l) with 0 by lia. cbn [fresh repeat bsize]. rewrite app_nil_r. auto.
    + destruct (grow_ok c b l n R) as (c' & d & E & R' & Bl); [lia|].
      rewrite Z in E. rewrite E. cbn [bind]. do 2 eexists. split; [reflexivity|].
      rewrite firstn_all2 by lia. auto.
  - rewrite (proj2 (Nat.ltb_lt N n)) by lia. do 2 eexists. split; [reflexivity|]. split; [auto|].
    intros _ _. lia.
Qed.

Lemma append_n_ok c b l n : Rel b l ->
  exists c' b', bulk_append_n T c b n = Ok (c', (length l + n <=? N), b') /\
    Rel b' (if length l + n <=? N then l ++ fresh T n else l) /\
    balance c c' (length l) (bsize b').
Proof.
  intro R. pose proof R as (L & Z & B & R1 & F). unfold bulk_append_n. rewrite L, Z.
  destruct (Nat.leb_spec (length l + n) N) as [Hn|Hn].
  - rewrite (proj2 (Nat.ltb_ge (N - length l) n)) by lia.
    destruct (grow_ok c b l (length l + n) R) as (c' & d & E & R' & Bl); [lia|].
    rewrite Z in E. rewrite E. cbn [bind]. do 2 eexists. split; [reflexivity|].
    replace (length l + n - length l) with n in R' by lia. auto.
  - rewrite (proj2 (Nat.ltb_lt (N - length l) n)) by lia. do 2 eexists. split; [reflexivity|]. split; [auto|].
    intros _ _. lia.
Qed.

Lemma append_ok c b l v : Rel b l ->
  exists c' b', bulk_append T c b v = Ok (c', (length l <? N), b') /\
    Rel b' (if length l <? N then l ++ [Some v] else l) /\
    balance c c' (length l) (bsize b').
Proof.
  intro R. pose proof R as (L & Z & B & R1 & F). unfold bulk_append. rewrite L, Z.
  destruct (Nat.ltb_spec (length l) N) as [Hn|Hn].
  - rewrite construct_ok by (try apply F; lia). cbn [bind].
    do 2 eexists. split; [reflexivity|]. split.
    + unfold Rel. cbn [bsize bdata]. rewrite upd_length, app_length. cbn [length].
      repeat split; try lia.
      * intros i a Ha. destruct (Nat.lt_trichotomy i (length l)) as [Hi|[->|Hi]].
        -- rewrite nth_error_app1 in Ha by auto. nthupd. auto.
        -- rewrite nth_error_app2, Nat.sub_diag in Ha by lia. inversion Ha. cbn. nthupd. auto.
        -- apply nth_error_lt in Ha. rewrite app_length in Ha. cbn in Ha. lia.
      * intros i Hi. nthupd. apply F. lia.
    + intros _ _. cbn. lia.
  - do 2 eexists. split; [reflexivity|]. split; [auto|]. intros _ _. lia.
Qed.

Lemma move_slot_ok d i j : i < length d -> j < length d -> i <> j ->
  alive (nth i d Raw) -> alive (nth j d Raw) ->
  move_slot T d i j = Ok (upd (upd d i (nth j d Raw)) j (moved_from T (nth j d Raw))).
Proof.
  intros Hi Hj Hij A1 A2. unfold move_slot. rewrite get_at_nth by auto. cbn [bind].
  rewrite assign_ok by auto. cbn [bind]. apply set_Ok. now rewrite upd_length.
Qed.

Lemma moved_alive s : alive s -> alive (moved_from T s).
Proof. intros [H|H]; [now left | right]. destruct s; cbn; congruence. Qed.

Lemma shift_down_ok n : forall d i, i + n < length d ->
  (forall k, i <= k <= i + n -> alive (nth k d Raw)) ->
  exists d', shift_down T d i n = Ok d' /\ length d' = length d /\
    (forall k, i <= k < i + n -> nth k d' Raw = nth (S k) d Raw) /\
    (forall k, k < i \/ i + n < k -> nth k d' Raw = nth k d Raw) /\
    alive (nth (i + n) d' Raw).
Proof.
  induction n; intros d i L A.
  - exists d. cbn. repeat split; auto; try lia. apply A. lia.
  - cbn [shift_down]. rewrite Nat.add_1_r. rewrite move_slot_ok by (try apply A; lia). cbn [bind].
    set (d1 := upd _ _ _).
    assert (L1 : length d1 = length d) by (unfold d1; now rewrite !upd_length).
    destruct (IHn d1 (S i)) as (d' & E & S1 & S2 & S3 & S4); [lia | |].
    { intros k Hk. unfold d1. destruct (Nat.eq_dec k (S i)) as [->|].
      - nthupd. apply moved_alive, A. lia.
      - nthupd. apply A. lia. }
    exists d'. rewrite E. split; [auto|]. split; [lia|]. split; [|split].
    + intros k Hk. destruct (Nat.eq_dec k i) as [->|].
      * rewrite S3 by lia. unfold d1. nthupd. reflexivity.
      * rewrite S2 by lia. unfold d1. nthupd. reflexivity.
    + intros k Hk. rewrite S3 by lia. unfold d1. nthupd. reflexivity.
    + replace (i + S n) with (S i + n) by lia. exact S4.
Qed.

Lemma nth_error_remove_nth (l : @alist V) k i : k < length l ->
  nth_error (remove_nth l k) i = if i <? k then nth_error l i else nth_error l (S i).
Proof.
  intro Hk. unfold remove_nth.
  assert (Lf : length (firstn k l) = k) by (apply firstn_length_le; lia).
  destruct (Nat.ltb_spec i k).
  - rewrite nth_error_app1 by lia. rewrite <- (firstn_skipn k l) at 2. rewrite nth_error_app1 by lia. auto.
  - rewrite nth_error_app2 by lia. rewrite Lf.
    rewrite <- (firstn_skipn (S k) l) at 2.
    rewrite nth_error_app2; rewrite firstn_length_le; try lia. reflexivity.
Qed.

Lemma remove_nth_length (l : @alist V) k : k < length l -> length (remove_nth l k) = length l - 1.
Proof. intro. unfold remove_nth. rewrite app_length, firstn_length_le, skipn_length; lia. Qed.

Lemma remove_swap_spec (l : @alist V) k : k < length l ->
  length (remove_swap l k) = length l - 1 /\
  forall i, i < length l - 1 ->
    nth_error (remove_swap l k) i = if i =? k then nth_error l (length l - 1) else nth_error l i.
Proof.
  intro Hk. unfold remove_swap.
  destruct (nth_error l (length l - 1)) as [x|] eqn:E.
  2: { apply nth_error_None in E. lia. }
  rewrite removelast_firstn_len, upd_length. replace (pred (length l)) with (length l - 1) by lia.
  rewrite firstn_length_le by (rewrite upd_length; lia). split; [auto|].
  intros i Hi.
  assert (F : nth_error (firstn (length l - 1) (upd l k x)) i = nth_error (upd l k x) i).
  { rewrite <- (firstn_skipn (length l - 1) (upd l k x)) at 2.
    rewrite nth_error_app1; [auto|]. rewrite firstn_length_le; rewrite ?upd_length; lia. }
  rewrite F. destruct (Nat.eqb_spec i k) as [->|].
  - now apply nth_error_upd_eq.
  - apply nth_error_upd_ne. congruence.
Qed.

Lemma remove_ok ord c b l k : Rel b l ->
  exists c' b', bulk_remove_at T ord c b k = Ok (c', (k <? length l), b') /\
    Rel b' (if k <? length l then (if ord then remove_nth l k else remove_swap l k) else l) /\
    balance c c' (length l) (bsize b').
Proof.
  intro R. pose proof R as (L & Z & B & R1 & F). unfold bulk_remove_at. rewrite Z.
  destruct (Nat.ltb_spec k (length l)) as [Hk|Hk].
  2: { rewrite (proj2 (Nat.leb_le _ _)) by lia. do 2 eexists. split; [reflexivity|]. split; [auto|].
       intros _ _. lia. }
  rewrite (proj2 (Nat.leb_gt _ _)) by lia.
  assert (A : forall i, i < length l -> alive (nth i (bdata b) Raw)) by (intros; eapply rel_alive; eauto).
  assert (M : exists d, (if ord then shift_down T (bdata b) k (length l - 1 - k)
          else if k <? length l - 1 then move_slot T (bdata b) k (length l - 1) else Ok (bdata b)) = Ok d /\
          length d = N /\ alive (nth (length l - 1) d Raw) /\
          (forall i, length l <= i -> nth i d Raw = nth i (bdata b) Raw) /\
          (forall i a, i < length l - 1 ->
             nth_error (if ord then remove_nth l k else remove_swap l k) i = Some a ->
             slot_ok (nth i d Raw) a)).
  { destruct ord.
    - destruct (shift_down_ok (length l - 1 - k) (bdata b) k) as (d & E & S1 & S2 & S3 & S4);
        [lia | intros; apply A; lia |].
      exists d. split; [auto|]. split; [lia|].
      replace (k + (length l - 1 - k)) with (length l - 1) in * by lia.
      split; [auto|]. split; [intros; apply S3; lia|].
      intros i a Hi Ha. rewrite nth_error_remove_nth in Ha by auto.
      destruct (Nat.ltb_spec i k); [rewrite S3 by lia | rewrite S2 by lia]; auto.
    - destruct (remove_swap_spec l k Hk) as [_ Sp].
      destruct (Nat.ltb_spec k (length l - 1)).
      + rewrite move_slot_ok by (try apply A; lia). eexists. split; [reflexivity|].
        split; [now rewrite !upd_length|]. split; [|split].
        * nthupd. apply moved_alive, A. lia.
        * intros i Hi. nthupd. auto.
        * intros i a Hi Ha. rewrite Sp in Ha by auto. destruct (Nat.eqb_spec i k) as [->|].
          -- nthupd. auto.
          -- nthupd. auto.
      + exists (bdata b). split; [auto|]. split; [auto|]. split; [apply A; lia|]. split; [auto|].
        intros i a Hi Ha. rewrite Sp in Ha by auto. destruct (Nat.eqb_spec i k); [lia | auto]. }
  destruct M as (d & E & S1 & S2 & S3 & S4). cbv zeta. rewrite E. cbn [bind].
  rewrite destroy_ok by (auto; lia). cbn [bind]. do 2 eexists. split; [reflexivity|].
  assert (Ln : length (if ord then remove_nth l k else remove_swap l k) = length l - 1).
  { destruct ord; [now apply remove_nth_length | now apply remove_swap_spec]. }
  clear E. destruct ord; (split; [| intros _ _; cbn; lia ];
  unfold Rel; cbn [bsize bdata]; rewrite Ln, upd_length; repeat split; try lia;
  [ intros i a Ha; pose proof (nth_error_lt _ _ _ Ha) as Hi; rewrite Ln in Hi;
    nthupd; auto
  | intros i Hi; destruct (Nat.eq_dec i (length l - 1)) as [->|];
    [ right; nthupd; auto
    | nthupd; rewrite S3 by lia; apply F; lia ] ]).

Qed.

Lemma can_copy_spec n : can_copy T n = true -> has_default T = true \/ n = 0.
Proof. unfold can_copy. rewrite orb_true_iff, Nat.eqb_eq. auto. Qed.

Lemma copy_ok c b l : Rel b l -> can_copy T (length l) = true ->
  exists c' b', bulk_copy T c N b = Ok (c', b') /\ Rel b' l /\ balance c c' 0 (length l).
Proof.
  intros R D. apply can_copy_spec in D. pose proof R as (L & Z & B & R1 & F). unfold bulk_copy, guard. rewrite Z, (proj2 (Nat.leb_le (length l) N) B).
  destruct (construct_copies_ok (length l) c (repeat Raw N) 0 (bdata b)) as (c' & d & E & C1 & C2 & [S1 S2] & S3);
    [rewrite repeat_length; lia | lia | auto | |].
  { intros k Hk. split; [right; apply nth_repeat | eapply rel_alive; eauto; lia]. }
  rewrite E. cbn [bind]. do 2 eexists. split; [reflexivity|]. split.
  - unfold Rel. cbn [bsize bdata]. rewrite repeat_length in S1. repeat split; auto.
    + intros i a Ha. rewrite S3; [auto|]. apply nth_error_lt in Ha. lia.
    + intros i Hi. rewrite S2 by lia. right. apply nth_repeat.
  - intros _ _. lia.
Qed.

Lemma assign_bulk_ok c a b la lb : Rel a la -> Rel b lb -> can_copy T (length lb - length la) = true ->
  exists c' a', bulk_assign T c a b = Ok (c', a') /\ Rel a' lb /\ balance c c' (length la) (length lb).
Proof.
  intros Ra Rb D. apply can_copy_spec in D.
  pose proof Ra as (L & Z & B & R1 & F). pose proof Rb as (L' & Z' & B' & R1' & F').
  unfold bulk_assign, guard, assign_items. rewrite Z, Z', L, (proj2 (Nat.leb_le (length la) N) B), (proj2 (Nat.leb_le (length lb) N) B'). cbn [andb].
  destruct (Nat.ltb_spec (length la) (length lb)) as [H|H].
  - destruct (assigns_ok (length la) (bdata a) 0 (bdata b)) as (d & E & [S1 S2] & S3); [lia | lia | |].
    { intros k Hk. split; eapply rel_alive; eauto; lia. }
    rewrite E. cbn [bind].
    destruct (construct_copies_ok (length lb - length la) c d (length la) (bdata b))
      as (c' & d' & E' & C1 & C2 & [S1' S2'] & S3'); [lia | lia | auto | |].
    { intros k Hk. split; [rewrite S2 by lia; apply F; lia | eapply rel_alive; eauto; lia]. }
    rewrite E'. cbn [bind]. do 2 eexists. split; [reflexivity|]. split.
    + unfold Rel. cbn [bsize bdata]. repeat split; try lia.
      * intros i x Hx. pose proof (nth_error_lt _ _ _ Hx).
        destruct (Nat.lt_ge_cases i (length la)).
        -- rewrite S2', S3 by lia. auto.
        -- rewrite S3' by lia. auto.
      * intros i Hi. rewrite S2', S2 by lia. apply F. lia.
    + intros _ _. lia.
  - destruct (assigns_ok (length lb) (bdata a) 0 (bdata b)) as (d & E & [S1 S2] & S3); [lia | lia | |].
    { intros k Hk. split; eapply rel_alive; eauto; lia. }
    rewrite E. cbn [bind].
    destruct (destroy_at_ok c d (length lb) (length la)) as (c' & d' & E' & C & [S1' S2'] & S3'); [lia | |].
    { intros i Hi. rewrite S2 by lia. eapply rel_alive; eauto; lia. }
    rewrite E'. cbn [bind]. do 2 eexists. split; [reflexivity|]. split.
    + unfold Rel. cbn [bsize bdata]. repeat split; try lia.
      * intros i x Hx. pose proof (nth_error_lt _ _ _ Hx). rewrite S2', S3 by lia. auto.
      * intros i Hi. unfold freeable. destruct (triv_dtor T) eqn:TD; [now left | right].
        destruct (Nat.lt_ge_cases i (length la)); [apply S3'; auto; lia|].
        rewrite S2', S2 by lia. destruct (F i) as [F1|F1]; [lia | congruence | auto].
    + intros TC TD. destruct (C TD). lia.
Qed.

(** * Histories *)
Definition orel (o : option (bulk V)) (a : option alist) : Prop :=
  match o, a with Some b, Some l => Rel b l | None, None => True | _, _ => False end.

Definition SRel (s : state) (a : astate) : Prop :=
  Forall2 orel (objs s) a /\
  (triv_ctor T = false -> triv_dtor T = false -> ctors (cnt s) = dtors (cnt s) + total a).

Lemma obj_ok s a i l : Forall2 orel (objs s) a -> aobj a i = Some l ->
  exists b, obj s i = Ok b /\ Rel b l /\ nth_error (objs s) i = Some (Some b).
Proof.
  unfold obj, aobj, get. intro H. revert i. induction H as [|o x os xs Ho Hs IH]; intros i E.
  - destruct i; discriminate.
  - destruct i; cbn [nth_error] in *; [|now apply IH].
    subst x. destruct o; [|contradiction]. exists b; cbn; auto.
Qed.

Lemma Forall2_upd {A B} (R : A -> B -> Prop) l1 l2 i x y :
  Forall2 R l1 l2 -> R x y -> Forall2 R (upd l1 i x) (upd l2 i y).
Proof.
  intros H Hxy. revert i. induction H; intros [|i]; cbn; auto.
Qed.

Lemma total_upd (a : @astate V) i l x : aobj a i = Some l ->
  total (upd a i x) + length l = total a + match x with Some l' => length l' | None => 0 end.
Proof.
  unfold aobj. revert i. induction a as [|o a IH]; intros [|i] E; try discriminate; cbn [nth_error upd total fold_right] in *.
  - subst o. fold (total a). destruct x; lia.
  - fold (total a). fold (total (upd a i x)). apply IH in E. destruct o; lia.
Qed.

Lemma total_app (a : @astate V) x : total (a ++ [x]) = total a + match x with Some l => length l | None => 0 end.
Proof. induction a as [|o a IH]; cbn; [destruct x; lia |]. fold (total (a ++ [x])). fold (total a). destruct o; lia. Qed.

Lemma put_ok s a i l l' c' b' : SRel s a -> aobj a i = Some l -> Rel b' l' ->
  balance (cnt s) c' (length l) (length l') -> SRel (put s c' i b') (aput a i l').
Proof.
  intros [H1 H2] E R B. split.
  - cbn. apply Forall2_upd; auto.
  - intros TC TD. specialize (H2 TC TD). specialize (B TC TD). cbn.
    pose proof (total_upd a i l (Some l') E). unfold aput. lia.
Qed.

Lemma upd_self_aput (a : @astate V) i l : aobj a i = Some l -> aput a i l = a.
Proof.
  unfold aobj, aput. revert i. induction a as [|o a IH]; intros [|i] E; try discriminate; cbn in *.
  - now subst.
  - f_equal. now apply IH.
Qed.

Lemma read_ok b l k v : Rel b l -> nth_error l k = Some (Some v) -> bulk_read b k = Ok v.
Proof.
  intros (L & Z & B & R1 & F) H. pose proof (nth_error_lt _ _ _ H). unfold bulk_read.
  rewrite get_at_nth by lia. cbn [bind]. apply R1 in H. cbn in H. now rewrite H.
Qed.

Lemma step_ok s a o r a' : SRel s a -> astep T N a o = Some (r, a') ->
  exists s', step T N s o = Ok (r, s') /\ SRel s' a'.
Proof.
  intros R H. pose proof R as [R1 R2]. destruct o; cbn [astep step] in *.
  - inversion H; subst. eexists. split; [reflexivity|]. split; cbn [cnt objs].
    + apply Forall2_app; auto. constructor; auto. apply new_ok.
    + intros TC TD. rewrite total_app. cbn. rewrite R2 by auto. lia.
  - destruct (aobj a j) as [l|] eqn:E; [|discriminate].
    destruct (can_copy T (length l)) eqn:D; [|discriminate]. inversion H; subst.
    destruct (obj_ok s a j l R1 E) as (b & -> & Rb & _). cbn [bind].
    destruct (copy_ok (cnt s) b l Rb D) as (c' & b' & -> & Rb' & Bl). cbn [bind].
    eexists. split; [reflexivity|]. split; cbn [cnt objs].
    + apply Forall2_app; auto.
    + intros TC TD. specialize (Bl TC TD). specialize (R2 TC TD). rewrite total_app. lia.
  - destruct (aobj a i) as [l|] eqn:E; [|discriminate]. inversion H; subst.
    destruct (obj_ok s a i l R1 E) as (b & -> & Rb & _). cbn [bind]. unfold bulk_destroy.
    destruct (shrink_ok (cnt s) b l 0 Rb) as (c' & d & -> & Rb' & Bl); [lia|]. cbn [bind].
    eexists. split; [reflexivity|]. split; cbn [cnt objs].
    + apply Forall2_upd; [auto | exact I].
    + intros TC TD. specialize (Bl TC TD). specialize (R2 TC TD).
      pose proof (total_upd a i l None E) as Q. cbv beta iota in Q. unfold total in *. lia.
  - destruct (aobj a i) as [la|] eqn:E; [|discriminate]. destruct (aobj a j) as [lb|] eqn:E2; [|discriminate].
    destruct (can_copy T (length lb - length la)) eqn:D; [|discriminate]. inversion H; subst.
    destruct (obj_ok s a i la R1 E) as (b & -> & Rb & _). cbn [bind].
    destruct (obj_ok s a j lb R1 E2) as (b2 & -> & Rb2 & _). cbn [bind].
    destruct (assign_bulk_ok (cnt s) b b2 la lb Rb Rb2 D) as (c' & b' & -> & Rb' & Bl). cbn [bind].
    eexists. split; [reflexivity|]. eapply put_ok; eauto.
  - destruct (aobj a i) as [l|] eqn:E; [|discriminate]. inversion H; subst.
    destruct (obj_ok s a i l R1 E) as (b & -> & Rb & _). cbn [bind]. unfold bulk_clear.
    destruct (shrink_ok (cnt s) b l 0 Rb) as (c' & d & -> & Rb' & Bl); [lia|]. cbn [bind].
    eexists. split; [reflexivity|]. eapply put_ok; eauto.
  - destruct (aobj a i) as [l|] eqn:E; [|discriminate]. destruct (has_default T); [|discriminate].
    destruct (obj_ok s a i l R1 E) as (b & -> & Rb & _). cbn [bind].
    destruct (resize_ok (cnt s) b l n Rb) as (c' & b' & -> & Rb' & Bl). cbn [bind].
    pose proof Rb' as (_ & Z & _). rewrite Z in Bl.
    eexists. destruct (n <=? N); inversion H; subst; (split; [reflexivity|]).
    + eapply put_ok; eauto.
    + rewrite <- (upd_self_aput a' i l E). eapply put_ok; eauto.
  - destruct (aobj a i) as [l|] eqn:E; [|discriminate]. destruct (has_default T); [|discriminate].
    destruct (obj_ok s a i l R1 E) as (b & -> & Rb & _). cbn [bind].
    destruct (append_n_ok (cnt s) b l n Rb) as (c' & b' & -> & Rb' & Bl). cbn [bind].
    pose proof Rb' as (_ & Z & _). rewrite Z in Bl.
    eexists. destruct (length l + n <=? N); inversion H; subst; (split; [reflexivity|]).
    + eapply put_ok; eauto.
    + rewrite <- (upd_self_aput a' i l E). eapply put_ok; eauto.
  - destruct (aobj a i) as [l|] eqn:E; [|discriminate].
    destruct (obj_ok s a i l R1 E) as (b & -> & Rb & _). cbn [bind].
    destruct (append_ok (cnt s) b l v Rb) as (c' & b' & -> & Rb' & Bl). cbn [bind].
    pose proof Rb' as (_ & Z & _). rewrite Z in Bl.
    eexists. destruct (length l <? N); inversion H; subst; (split; [reflexivity|]).
    + eapply put_ok; eauto.
    + rewrite <- (upd_self_aput a' i l E). eapply put_ok; eauto.
  - destruct (aobj a i) as [l|] eqn:E; [|discriminate].
    destruct (obj_ok s a i l R1 E) as (b & -> & Rb & _). cbn [bind].
    destruct (remove_ok ordered (cnt s) b l k Rb) as (c' & b' & -> & Rb' & Bl). cbn [bind].
    pose proof Rb' as (_ & Z & _). rewrite Z in Bl.
    eexists. destruct (k <? length l); inversion H; subst; (split; [reflexivity|]).
    + eapply put_ok; eauto.
    + rewrite <- (upd_self_aput a' i l E). eapply put_ok; eauto.
  - destruct (aobj a i) as [l|] eqn:E; [|discriminate].
    destruct (obj_ok s a i l R1 E) as (b & -> & Rb & _). cbn [bind].
    destruct (nth_error l k) as [[v|]|] eqn:En; try discriminate. inversion H; subst.
    rewrite (read_ok b l k v Rb En). cbn [bind]. eauto.
  - destruct (aobj a i) as [l|] eqn:E; [|discriminate].
    destruct (obj_ok s a i l R1 E) as (b & -> & Rb & _). cbn [bind].
    destruct (Nat.ltb_spec k (length l)) as [Hk|]; [|discriminate]. inversion H; subst.
    pose proof Rb as (L & Z & B & Rl & F). unfold bulk_write.
    rewrite assign_ok; [| lia | eapply rel_alive; eauto | right; discriminate]. cbn [bind].
    eexists. split; [reflexivity|]. eapply put_ok; eauto.
    + unfold Rel. cbn [bsize bdata]. rewrite !upd_length. repeat split; auto.
      * intros j x Hx. destruct (Nat.eq_dec j k) as [->|].
        -- rewrite nth_error_upd_eq in Hx by auto. inversion Hx. cbn. nthupd. auto.
        -- rewrite nth_error_upd_ne in Hx by auto. nthupd. auto.
      * intros j Hj. nthupd. auto.
    + intros _ _. rewrite upd_length. lia.
  - destruct (aobj a i) as [l|] eqn:E; [|discriminate].
    destruct (obj_ok s a i l R1 E) as (b & -> & Rb & _). cbn [bind].
    destruct (nth_error l (length l - 1)) as [[v|]|] eqn:En; try discriminate. inversion H; subst.
    pose proof (nth_error_lt _ _ _ En). pose proof Rb as (L & Z & B & Rl & F). unfold bulk_back. rewrite Z.
    rewrite (proj2 (Nat.ltb_lt _ _)) by lia.
    rewrite (read_ok b l _ v Rb En). cbn [bind]. eauto.
  - destruct (aobj a i) as [l|] eqn:E; [|discriminate]. inversion H; subst.
    destruct (obj_ok s a' i l R1 E) as (b & -> & Rb & _). cbn [bind].
    pose proof Rb as (L & Z & _). rewrite Z. eauto.
  - destruct (aobj a i) as [l|] eqn:E; [|discriminate]. inversion H; subst.
    destruct (obj_ok s a' i l R1 E) as (b & -> & Rb & _). cbn [bind].
    pose proof Rb as (L & Z & _). unfold bulk_room. rewrite Z, L. eauto.
Qed.

Lemma run_ok os : forall s a rs a', SRel s a -> arun T N a os = Some (rs, a') ->
  exists s', run T N s os = Ok (rs, s') /\ SRel s' a'.
Proof.
  induction os as [|o os IH]; intros s a rs a' R H; cbn [arun run] in *.
  - inversion H; subst. eauto.
  - destruct (astep T N a o) as [[r a1]|] eqn:E; [|discriminate].
    destruct (arun T N a1 os) as [[rs1 a2]|] eqn:E2; [|discriminate]. inversion H; subst.
    destruct (step_ok s a o r a1 R E) as (s1 & -> & R1). cbn [bind].
    destruct (IH s1 a1 rs1 a' R1 E2) as (s2 & -> & R2). cbn [bind]. eauto.
Qed.

Lemma start_ok : SRel start [].
Proof. split; [constructor | reflexivity]. Qed.
End P.
