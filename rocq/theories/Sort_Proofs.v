From Coq Require Import Permutation Sorted.
From Verif Require Import Base Sort_Model Sort_Spec.

Section Order.
Context {A : Type} (lt : A -> A -> bool).

Definition le (x y : A) : Prop := lt y x = false.

Lemma ordered_SS l : ordered lt l <-> StronglySorted le l.
Proof.
  split.
  - induction l as [|a l IH]; intro H; constructor.
    + apply IH. intros i j x y Hij Hi Hj. apply (H (S i) (S j)); auto. lia.
    + apply Forall_forall. intros y Hy. apply In_nth_error in Hy as [j Hj].
      apply (H 0%nat (S j)); auto. lia.
  - induction 1 as [|a l Hl IH Ha]; intros i j x y Hij Hi Hj.
    + destruct i; discriminate.
    + destruct j as [|j]; [lia|]. destruct i as [|i]; cbn in Hi, Hj.
      * inversion Hi; subst. rewrite Forall_forall in Ha. apply Ha. eapply nth_error_In; eauto.
      * apply (IH i j); auto. lia.
Qed.

Lemma SS_app l1 l2 : StronglySorted le (l1 ++ l2) <->
  StronglySorted le l1 /\ StronglySorted le l2 /\ (forall x y, In x l1 -> In y l2 -> le x y).
Proof.
  induction l1 as [|a l1 IH]; cbn.
  - split; [intro H; repeat split; auto; try constructor; easy | tauto].
  - split.
    + intro H. inversion H as [|? ? H1 H2]; subst. apply IH in H1 as (S1 & S2 & S3).
      rewrite Forall_app in H2. destruct H2 as [F1 F2].
      repeat split; auto; [constructor; auto|].
      intros x y [<-|Hx] Hy; auto. rewrite Forall_forall in F2; auto.
    + intros (H1 & H2 & H3). inversion H1 as [|? ? H4 H5]; subst. constructor.
      * apply IH. repeat split; auto.
      * apply Forall_app; split; auto. apply Forall_forall. auto.
Qed.

Lemma get_mid (p : list A) x s : get (p ++ x :: s) (length p) = Ok x.
Proof. apply get_Ok. rewrite nth_error_app2, Nat.sub_diag by lia. reflexivity. Qed.

Lemma get_at (p : list A) x s i : i = length p -> get (p ++ x :: s) i = Ok x.
Proof. intros ->. apply get_mid. Qed.

Lemma set_at (p : list A) x s i v : i = length p -> set (p ++ x :: s) i v = Ok (p ++ v :: s).
Proof.
  intros ->. rewrite set_Ok by (rewrite app_length; cbn; lia). now rewrite upd_app_mid.
Qed.

(** ** insertion_sort *)
Lemma ins_inner_ok k : forall s1 pre h s2,
  exists t1 t2, s1 = t1 ++ t2 /\ Forall (fun x => lt k x = true) t2 /\
    (t1 = [] \/ exists t x, t1 = t ++ [x] /\ lt k x = false) /\
    ins_inner lt (pre ++ s1 ++ h :: s2) (length pre) k (length s1) = Ok (pre ++ t1 ++ k :: t2 ++ s2).
Proof.
  induction s1 as [|x s1 IH] using rev_ind; intros pre h s2.
  - exists [], []. repeat split; auto. cbn [length ins_inner app]. now apply set_at; rewrite Nat.add_0_r.
  - rewrite app_length. cbn [length]. rewrite Nat.add_1_r. cbn [ins_inner].
    assert (G : get (pre ++ (s1 ++ [x]) ++ h :: s2) (length pre + S (length s1) - 1) = Ok x).
    { rewrite <- (app_assoc s1 [x]). cbn [app]. rewrite app_assoc.
      apply get_at. rewrite app_length. lia. }
    rewrite G. cbn [bind].
    assert (SS : forall v, set (pre ++ (s1 ++ [x]) ++ h :: s2) (length pre + S (length s1)) v
        = Ok (pre ++ s1 ++ x :: v :: s2)).
    { intro v. rewrite app_assoc. rewrite set_at by (rewrite !app_length; cbn; lia).
      rewrite <- !app_assoc. reflexivity. }
    rewrite !SS. cbn [bind].
    destruct (lt k x) eqn:E.
    + destruct (IH pre x (x :: s2)) as (t1 & t2 & -> & F & D & R).
      rewrite R. exists t1, (t2 ++ [x]). rewrite app_assoc. repeat split; auto.
      * apply Forall_app; auto.
      * rewrite <- (app_assoc t2). reflexivity.
    + exists (s1 ++ [x]), []. rewrite app_nil_r. repeat split; auto.
      * right. exists s1, x. auto.
      * rewrite <- (app_assoc s1). reflexivity.
Qed.

Lemma ins_step_sorted (W : strict_weak_order lt) k t1 t2 :
  StronglySorted le (t1 ++ t2) -> Forall (fun x => lt k x = true) t2 ->
  (t1 = [] \/ exists t x, t1 = t ++ [x] /\ lt k x = false) ->
  StronglySorted le (t1 ++ k :: t2).
Proof.
  intros HS HF HD. apply SS_app in HS as (S1 & S2 & S3).
  assert (asym : forall x y, lt x y = true -> lt y x = false).
  { intros x y H. destruct (lt y x) eqn:E; auto.
    rewrite <- (swo_irrefl lt W x). symmetry. eapply (swo_trans lt W); eauto. }
  assert (ntrans : forall x y z, le x y -> le y z -> le x z).
  { unfold le. intros x y z H1 H2. destruct (lt z x) eqn:E; auto.
    destruct (lt x y) eqn:E1.
    { assert (lt z y = true) by (eapply (swo_trans lt W); eauto). congruence. }
    destruct (lt y z) eqn:E2.
    { assert (lt y x = true) by (eapply (swo_trans lt W); eauto). congruence. }
    destruct (swo_incomp lt W x y z); auto. congruence. }
  rewrite Forall_forall in HF.
  assert (L1 : forall x, In x t1 -> le x k).
  { intros x Hx. destruct HD as [->|(t & z & -> & Hz)]; [easy|].
    apply in_app_or in Hx as [Hx|[<-|[]]]; [|exact Hz].
    apply ntrans with z; [|exact Hz]. apply SS_app in S1 as (_ & _ & S1). apply S1; cbn; auto. }
  apply SS_app. repeat split; auto.
  - constructor; auto. apply Forall_forall. intros y Hy. apply asym. auto.
  - intros x y Hx [<-|Hy]; auto.
Qed.

Lemma filter_none (f : A -> bool) l : (forall x, In x l -> f x = false) -> filter f l = [].
Proof.
  induction l; cbn; intro H; auto. rewrite H by auto. apply IHl. auto.
Qed.

Lemma ins_step_stable (W : strict_weak_order lt) k t1 t2 :
  Forall (fun x => lt k x = true) t2 ->
  forall x, filter (equivalent lt x) (t1 ++ k :: t2) = filter (equivalent lt x) (t1 ++ t2 ++ [k]).
Proof.
  intros HF x. rewrite !filter_app. f_equal. cbn [filter].
  destruct (equivalent lt x k) eqn:E; [|now rewrite app_nil_r].
  rewrite filter_none; [reflexivity|].
  intros y Hy. rewrite Forall_forall in HF. specialize (HF y Hy).
  unfold equivalent in *. apply andb_true_iff in E as [E1 E2].
  rewrite negb_true_iff in E1, E2.
  destruct (lt x y) eqn:E3; [reflexivity|]. destruct (lt y x) eqn:E4; [reflexivity|].
  destruct (swo_incomp lt W k x y); auto. congruence.
Qed.

Lemma ins_outer_ok : forall l s pre post,
  exists l', Permutation (s ++ l) l' /\
    ins_outer lt (pre ++ s ++ l ++ post) (length pre) (length s) (length l) = Ok (pre ++ l' ++ post) /\
    (strict_weak_order lt -> StronglySorted le s -> StronglySorted le l' /\ stable lt (s ++ l) l').
Proof.
  induction l as [|k l IH]; intros s pre post.
  - exists s. rewrite app_nil_r. repeat split; auto.
  - cbn [length ins_outer app].
    assert (G : get (pre ++ s ++ k :: l ++ post) (length pre + length s) = Ok k).
    { rewrite app_assoc. apply get_at. now rewrite app_length. }
    rewrite G. cbn [bind].
    destruct (ins_inner_ok k s pre k (l ++ post)) as (t1 & t2 & -> & F & D & R).
    rewrite R. cbn [bind].
    destruct (IH (t1 ++ k :: t2) pre post) as (l' & P & E & SS).
    replace (S (length (t1 ++ t2))) with (length (t1 ++ k :: t2)) by (rewrite !app_length; cbn; lia).
    rewrite <- (app_assoc t1) in E. cbn [app] in E. rewrite E.
    exists l'. repeat split; auto.
    + rewrite <- P. rewrite <- !app_assoc. apply Permutation_app_head.
      cbn. symmetry. apply Permutation_middle.
    + apply SS; auto. apply ins_step_sorted; auto.
    + destruct (SS H) as [_ ST]; [apply ins_step_sorted; auto|].
      intro x. rewrite ST. 
      rewrite (filter_app _ _ l), (filter_app _ _ (k :: l)).
      rewrite ins_step_stable by auto. 
      change (k :: l) with ([k] ++ l). rewrite (filter_app _ [k] l), !filter_app, !app_assoc. reflexivity.
Qed.

Lemma insertion_sort_ok l pre post :
  exists l', Permutation l l' /\
    insertion_sort lt (pre ++ l ++ post) (length pre) (length pre + length l) = Ok (pre ++ l' ++ post) /\
    (strict_weak_order lt -> StronglySorted le l' /\ stable lt l l').
Proof.
  unfold insertion_sort. rewrite Nat.add_comm, Nat.add_sub.
  destruct (ins_outer_ok l [] pre post) as (l' & P & E & SS). cbn in *.
  exists l'. repeat split; auto; apply SS; auto; constructor.
Qed.

(** ** swap, median, partition *)
Lemma swap_upd (m : list A) i j x y : nth_error m i = Some x -> nth_error m j = Some y ->
  swap m i j = Ok (upd (upd m i y) j x).
Proof.
  intros Hi Hj. unfold swap. rewrite (proj2 (get_Ok _ _ _) Hi), (proj2 (get_Ok _ _ _) Hj). cbn [bind].
  assert (i < length m)%nat by (apply nth_error_Some; congruence).
  assert (j < length m)%nat by (apply nth_error_Some; congruence).
  rewrite set_Ok by assumption. cbn [bind]. rewrite set_Ok by (rewrite upd_length; assumption). reflexivity.
Qed.

Lemma upd_app1 (p l : list A) i v : (i < length p)%nat -> upd (p ++ l) i v = upd p i v ++ l.
Proof. revert i; induction p; destruct i; cbn; intros; try lia; auto. f_equal. apply IHp. lia. Qed.

Lemma upd_app2 (p l : list A) i v : upd (p ++ l) (length p + i) v = p ++ upd l i v.
Proof. induction p; cbn; auto. f_equal; auto. Qed.

Lemma upd_perm_swap (l : list A) : forall i j x y, nth_error l i = Some x -> nth_error l j = Some y ->
  Permutation l (upd (upd l i y) j x).
Proof.
  assert (G : forall (l : list A) i j x y, (i < j)%nat -> nth_error l i = Some x -> nth_error l j = Some y ->
     Permutation l (upd (upd l i y) j x)).
  { clear. intros l i j x y H Hi Hj.
    apply nth_error_split in Hi as (l1 & l2 & -> & <-).
    rewrite nth_error_app2 in Hj by lia.
    destruct (j - length l1)%nat as [|k] eqn:E; [lia|]. cbn in Hj.
    apply nth_error_split in Hj as (l3 & l4 & -> & <-).
    rewrite upd_app_mid.
    replace j with (length l1 + S (length l3))%nat by lia.
    rewrite upd_app2. cbn [upd]. rewrite upd_app_mid.
    apply Permutation_app_head.
    transitivity (x :: y :: l3 ++ l4); [constructor; symmetry; apply Permutation_middle|].
    rewrite perm_swap. constructor. apply Permutation_middle. }
  intros i j x y Hi Hj. destruct (Nat.lt_trichotomy i j) as [H|[->|H]].
  - eapply G; eauto.
  - assert (x = y) by congruence. subst. rewrite upd_upd, upd_same; auto.
  - rewrite upd_comm by lia. eapply G; eauto.
Qed.

(** A swap of two positions of the middle part permutes it. *)
Lemma swap_range pre (l : list A) post i j :
  (i < length l)%nat -> (j < length l)%nat ->
  exists l', Permutation l l' /\ length l' = length l /\
    swap (pre ++ l ++ post) (length pre + i) (length pre + j) = Ok (pre ++ l' ++ post).
Proof.
  intros Hi Hj.
  destruct (nth_error l i) as [x|] eqn:Ei; [|apply nth_error_Some in Hi; congruence].
  destruct (nth_error l j) as [y|] eqn:Ej; [|apply nth_error_Some in Hj; congruence].
  exists (upd (upd l i y) j x). split; [now apply upd_perm_swap|].
  split; [now rewrite !upd_length|].
  assert (N : forall k z, nth_error l k = Some z -> nth_error (pre ++ l ++ post) (length pre + k) = Some z).
  { intros k z Hk. rewrite nth_error_app2 by lia. replace (length pre + k - length pre)%nat with k by lia.
    rewrite nth_error_app1; auto. apply nth_error_Some. congruence. }
  rewrite (swap_upd _ _ _ x y) by (apply N; auto). f_equal.
  rewrite upd_app2, (upd_app1 l) by assumption.
  rewrite upd_app2, (upd_app1 (upd l i y)) by (rewrite upd_length; assumption). reflexivity.
Qed.

Lemma median_range pre (l : list A) post i j k :
  (i < length l)%nat -> (j < length l)%nat -> (k < length l)%nat ->
  exists l', Permutation l l' /\ length l' = length l /\
    median lt (pre ++ l ++ post) (length pre + i) (length pre + j) (length pre + k) = Ok (pre ++ l' ++ post).
Proof.
  intros Hi Hj Hk. unfold median.
  destruct (get_ex (pre ++ l ++ post) (length pre + i)) as [x Ex]; [rewrite !app_length; lia|].
  destruct (get_ex (pre ++ l ++ post) (length pre + j)) as [y Ey]; [rewrite !app_length; lia|].
  destruct (get_ex (pre ++ l ++ post) (length pre + k)) as [z Ez]; [rewrite !app_length; lia|].
  rewrite Ex, Ey, Ez. cbn [bind].
  destruct (lt x y), (lt y z), (lt x z), (lt z y);
    (apply swap_range; assumption) || (exists l; auto).
Qed.

Lemma part_loop_ok k post : forall rest pre lows highs,
  Forall (fun x => lt x k = true) lows -> Forall (fun x => lt x k = false) highs ->
  exists lows' highs', Permutation (lows ++ highs ++ rest) (lows' ++ highs') /\
    Forall (fun x => lt x k = true) lows' /\ Forall (fun x => lt x k = false) highs' /\
    part_loop lt (pre ++ lows ++ highs ++ rest ++ post) k (length pre + length lows)
      (length pre + length lows + length highs) (length rest)
     = Ok (pre ++ lows' ++ highs' ++ post, (length pre + length lows')%nat).
Proof.
  induction rest as [|x rest IH]; intros pre lows highs F1 F2.
  - exists lows, highs. rewrite app_nil_r. repeat split; auto.
  - cbn [length part_loop app].
    assert (G : get (pre ++ lows ++ highs ++ x :: rest ++ post)
       (length pre + length lows + length highs) = Ok x).
    { rewrite !app_assoc. rewrite <- (app_assoc _ rest post) || idtac.
      replace (((pre ++ lows) ++ highs) ++ x :: rest ++ post)
        with (((pre ++ lows) ++ highs) ++ x :: (rest ++ post)) by reflexivity.
      apply get_at. rewrite !app_length. lia. }
    rewrite G. cbn [bind]. destruct (lt x k) eqn:E.
    + destruct highs as [|h highs].
      * (* self swap *)
        cbn [app length] in *. rewrite Nat.add_0_r in *.
        assert (SS : swap (pre ++ lows ++ x :: rest ++ post) (length pre + length lows) (length pre + length lows)
                  = Ok (pre ++ lows ++ x :: rest ++ post)).
        { rewrite app_assoc in *. rewrite (swap_upd _ _ _ x x) by (apply get_Ok; assumption).
          rewrite upd_upd, upd_same; auto. apply get_Ok. assumption. }
        rewrite SS. cbn [bind].
        destruct (IH pre (lows ++ [x]) []) as (lo & hi & P & F3 & F4 & R); auto.
        { apply Forall_app; auto. }
        exists lo, hi. split; [|split; [auto|split; [auto|]]].
        { rewrite <- P. rewrite <- app_assoc. reflexivity. }
        rewrite <- R. rewrite <- app_assoc, app_length. cbn [app length]. rewrite Nat.add_0_r.
        f_equal; lia.
      * assert (SS : swap (pre ++ lows ++ (h :: highs) ++ x :: rest ++ post) (length pre + length lows)
                  (length pre + length lows + length (h :: highs))
                  = Ok (pre ++ (lows ++ [x]) ++ (highs ++ [h]) ++ rest ++ post)).
        { assert (GH : get (pre ++ lows ++ (h :: highs) ++ x :: rest ++ post) (length pre + length lows) = Ok h).
          { rewrite app_assoc. cbn [app]. apply get_at. now rewrite app_length. }
          rewrite (swap_upd _ _ _ h x) by (apply get_Ok; assumption). f_equal.
          rewrite (app_assoc pre lows). rewrite <- (app_length pre lows).
          cbn [app]. rewrite upd_app_mid.
          rewrite upd_app2. cbn [length upd]. rewrite upd_app_mid.
          rewrite <- !app_assoc. reflexivity. }
        rewrite SS. cbn [bind].
        destruct (IH pre (lows ++ [x]) (highs ++ [h])) as (lo & hi & P & F3 & F4 & R); auto.
        { apply Forall_app; auto. }
        { inversion F2; subst. apply Forall_app; auto. }
        exists lo, hi. split; [|split; [auto|split; [auto|]]].
        { rewrite <- P. rewrite <- !app_assoc. apply Permutation_app_head. cbn [app].
          change (h :: highs ++ x :: rest) with ((h :: highs) ++ x :: rest).
          rewrite <- Permutation_middle. constructor. cbn [app]. apply Permutation_middle. }
        rewrite <- R. rewrite !app_length. cbn [length]. f_equal; lia.
    + destruct (IH pre lows (highs ++ [x])) as (lo & hi & P & F3 & F4 & R); auto.
      { apply Forall_app; auto. }
      exists lo, hi. split; [|split; [auto|split; [auto|]]].
      { rewrite <- P. rewrite <- !app_assoc. reflexivity. }
      rewrite <- R. rewrite <- !app_assoc, !app_length. cbn [length app]. f_equal; lia.
Qed.

Lemma partition_ok pre (l : list A) post : l <> [] ->
  exists l1 k l2, Permutation l (l1 ++ k :: l2) /\
    Forall (fun x => lt x k = true) l1 /\ Forall (fun x => lt x k = false) l2 /\
    partition lt (pre ++ l ++ post) (length pre) (length pre + length l)
      = Ok (pre ++ (l1 ++ k :: l2) ++ post, (length pre + length l1)%nat).
Proof.
  intro NE. assert (0 < length l)%nat by (destruct l; [easy|cbn; lia]).
  unfold partition. destruct (Nat.eqb_spec (length pre + length l) 0); [lia|].
  replace (length pre + length l - length pre)%nat with (length l) by lia.
  replace (length pre + length l - 1)%nat with (length pre + (length l - 1))%nat by lia.
  destruct (median_range pre l post 0 (length l - 1) (Nat.div (length l) 2)) as (m & P & L & R); try lia.
  { apply Nat.div_lt; lia. }
  rewrite Nat.add_0_r in R. rewrite (Nat.add_comm (length l / 2)), R. cbn [bind].
  destruct (exists_last (l := m)) as (m' & k & ->).
  { intros ->. cbn in L. lia. }
  rewrite app_length in L. cbn in L.
  assert (G : get (pre ++ (m' ++ [k]) ++ post) (length pre + (length l - 1)) = Ok k).
  { rewrite <- (app_assoc m'), app_assoc. cbn [app]. apply get_at. rewrite app_length. lia. }
  rewrite G. cbn [bind].
  replace (length pre + (length l - 1) - length pre)%nat with (length m') by lia.
  destruct (part_loop_ok k ([k] ++ post) m' pre [] []) as (lo & hi & P2 & F1 & F2 & R2); auto.
  cbn [app length] in *. rewrite !Nat.add_0_r in R2.
  rewrite <- (app_assoc m'). cbn [app]. rewrite R2. cbn [bind].
  pose proof (Permutation_length P2) as PL. rewrite app_length in PL.
  assert (exists hi', Permutation hi hi' /\ length hi' = length hi /\
    swap (pre ++ lo ++ hi ++ k :: post) (length pre + length lo) (length pre + (length l - 1)) =
     Ok (pre ++ (lo ++ k :: hi') ++ post)) as (hi' & P3 & L3 & SW).
  { destruct hi as [|h hi].
    - exists []. repeat split; auto. cbn [app length] in *.
      replace (length l - 1)%nat with (length lo) by lia.
      assert (GK : nth_error (pre ++ lo ++ k :: post) (length pre + length lo) = Some k).
      { apply get_Ok. rewrite app_assoc. apply get_at. now rewrite app_length. }
      rewrite (swap_upd _ _ _ k k) by assumption. rewrite upd_upd, upd_same by assumption.
      rewrite <- app_assoc. reflexivity.
    - exists (hi ++ [h]). split; [|split; [rewrite app_length; cbn; lia|]].
      { rewrite Permutation_app_comm. reflexivity. }
      assert (GH : nth_error (pre ++ lo ++ (h :: hi) ++ k :: post) (length pre + length lo) = Some h).
      { apply get_Ok. rewrite app_assoc. cbn [app]. apply get_at. now rewrite app_length. }
      assert (GK : nth_error (pre ++ lo ++ (h :: hi) ++ k :: post) (length pre + (length l - 1)) = Some k).
      { apply get_Ok. rewrite !app_assoc. apply get_at. rewrite !app_length. lia. }
      rewrite (swap_upd _ _ _ h k) by assumption. f_equal.
      replace (length pre + (length l - 1))%nat with (length pre + length lo + S (length hi))%nat
        by (cbn in PL; lia).
      rewrite (app_assoc pre lo). rewrite <- (app_length pre lo).
      cbn [app]. rewrite upd_app_mid, upd_app2. cbn [upd]. rewrite upd_app_mid.
      rewrite <- !app_assoc. cbn [app]. rewrite <- app_assoc. reflexivity. }
  rewrite SW. cbn [bind].
  exists lo, k, hi'. repeat split; auto.
  - rewrite P, P2, <- P3, <- app_assoc.
    apply Permutation_app_head. rewrite Permutation_app_comm. reflexivity.
  - rewrite Forall_forall in *. intros x Hx. apply F2. eapply Permutation_in; [symmetry|]; eauto.
Qed.

(** ** intro_sort *)
Lemma sorted_combine (W : strict_weak_order lt) k l1 l2 :
  StronglySorted le l1 -> StronglySorted le l2 ->
  Forall (fun x => lt x k = true) l1 -> Forall (fun x => lt x k = false) l2 ->
  StronglySorted le (l1 ++ k :: l2).
Proof.
  intros S1 S2 F1 F2. rewrite Forall_forall in *. apply SS_app. split; [auto|split].
  - constructor; auto. apply Forall_forall. exact F2.
  - intros x y Hx Hy. unfold le. destruct (lt y x) eqn:E; auto.
    destruct Hy as [<-|Hy].
    + specialize (F1 x Hx). rewrite <- (swo_irrefl lt W k). symmetry. eapply (swo_trans lt W); eauto.
    + rewrite <- (F2 y Hy). symmetry. eapply (swo_trans lt W); eauto.
Qed.

Lemma Forall_perm (P : A -> Prop) l l' : Permutation l l' -> Forall P l -> Forall P l'.
Proof.
  intros HP HF. rewrite Forall_forall in *. intros x Hx. apply HF.
  eapply Permutation_in; [symmetry|]; eauto.
Qed.

Lemma intro_rec_ok N : (1 <= N)%nat -> forall fuel l pre post, (length l < fuel)%nat ->
  exists l' d, Permutation l l' /\ (1 <= d <= S (length l))%nat /\
    intro_rec lt N fuel (pre ++ l ++ post) (length pre) (length pre + length l) = Ok (pre ++ l' ++ post, d) /\
    (strict_weak_order lt -> StronglySorted le l').
Proof.
  intro HN. induction fuel as [|fuel IH]; intros l pre post HL; [lia|].
  cbn [intro_rec]. replace (length pre + length l - length pre)%nat with (length l) by lia.
  destruct (Nat.ltb_spec (length l) N).
  - destruct (insertion_sort_ok l pre post) as (l' & P & R & SS). rewrite R. cbn [bind].
    exists l', 1%nat. repeat split; auto; try lia. apply SS.
  - destruct (partition_ok pre l post) as (l1 & k & l2 & P & F1 & F2 & R).
    { intros ->. cbn in *. lia. }
    rewrite R. cbn [bind].
    pose proof (Permutation_length P) as PL. rewrite app_length in PL. cbn in PL.
    destruct (IH l2 (pre ++ l1 ++ [k]) post) as (l2' & d1 & P2 & D1 & R2 & S2); [lia|].
    assert (E2 : length (pre ++ l1 ++ [k]) = (length pre + length l1 + 1)%nat)
      by (rewrite !app_length; cbn; lia).
    rewrite E2 in R2.
    replace (length pre + length l1 + 1 + length l2)%nat with (length pre + length l)%nat in R2 by lia.
    replace ((pre ++ l1 ++ [k]) ++ l2 ++ post) with (pre ++ (l1 ++ k :: l2) ++ post) in R2
      by (rewrite <- !app_assoc; reflexivity).
    rewrite R2. cbn [bind].
    destruct (IH l1 pre ([k] ++ l2' ++ post)) as (l1' & d2 & P1 & D2 & R1 & S1); [lia|].
    replace ((pre ++ l1 ++ [k]) ++ l2' ++ post) with (pre ++ l1 ++ [k] ++ l2' ++ post)
      by (rewrite <- !app_assoc; reflexivity).
    rewrite R1. cbn [bind].
    exists (l1' ++ k :: l2'), (S (Nat.max d1 d2)). repeat split.
    + rewrite P, P1, P2. reflexivity.
    + lia.
    + lia.
    + rewrite <- !app_assoc. reflexivity.
    + intro W. apply sorted_combine; auto; eapply Forall_perm; eauto.
Qed.

Lemma intro_sort_ok N fuel l pre post : (1 <= N)%nat -> (length l <= fuel)%nat ->
  exists l' d, Permutation l l' /\ (1 <= d <= S (length l))%nat /\
    intro_sort lt N fuel (pre ++ l ++ post) (length pre) (length pre + length l) = Ok (pre ++ l' ++ post, d) /\
    (strict_weak_order lt -> StronglySorted le l').
Proof.
  intros HN HL. unfold intro_sort.
  destruct (Nat.ltb_spec (length pre) (length pre + length l)) as [H|H].
  2:{ assert (l = []) by (destruct l; cbn in *; auto; lia). subst. exists [], 1%nat. cbn.
      repeat split; auto. constructor. }
  replace (length pre + length l - length pre)%nat with (length l) by lia.
  destruct (Nat.ltb_spec (length l) N).
  - destruct (insertion_sort_ok l pre post) as (l' & P & R & SS). rewrite R. cbn [bind].
    exists l', 1%nat. repeat split; auto; try lia. apply SS.
  - destruct (partition_ok pre l post) as (l1 & k & l2 & P & F1 & F2 & R).
    { intros ->. cbn in *. lia. }
    rewrite R. cbn [bind].
    pose proof (Permutation_length P) as PL. rewrite app_length in PL. cbn in PL.
    destruct (intro_rec_ok N HN fuel l1 pre ([k] ++ l2 ++ post)) as (l1' & d2 & P1 & D2 & R1 & S1); [lia|].
    replace (pre ++ (l1 ++ k :: l2) ++ post) with (pre ++ l1 ++ [k] ++ l2 ++ post)
      by (rewrite <- !app_assoc; reflexivity).
    rewrite R1. cbn [bind].
    destruct (intro_rec_ok N HN fuel l2 (pre ++ l1' ++ [k]) post) as (l2' & d1 & P2 & D1 & R2 & S2); [lia|].
    assert (E2 : length (pre ++ l1' ++ [k]) = (length pre + length l1 + 1)%nat)
      by (rewrite !app_length, (Permutation_length P1); cbn; lia).
    rewrite E2 in R2.
    replace (length pre + length l1 + 1 + length l2)%nat with (length pre + length l)%nat in R2 by lia.
    replace ((pre ++ l1' ++ [k]) ++ l2 ++ post) with (pre ++ l1' ++ [k] ++ l2 ++ post) in R2
      by (rewrite <- !app_assoc; reflexivity).
    rewrite R2. cbn [bind].
    exists (l1' ++ k :: l2'), (S (Nat.max d2 d1)). repeat split.
    + rewrite P, P1, P2. reflexivity.
    + lia.
    + lia.
    + rewrite <- !app_assoc. reflexivity.
    + intro W. apply sorted_combine; auto; eapply Forall_perm; eauto.
Qed.

(** ** Depth on all-equal input *)
Lemma intro_rec_equal x N : lt x x = false -> (1 <= N)%nat -> forall n fuel pre post, (n < fuel)%nat ->
  exists m d, intro_rec lt N fuel (pre ++ repeat x n ++ post) (length pre) (length pre + n) = Ok (m, d) /\
    (n - N <= d)%nat.
Proof.
  intros Hx HN. induction n as [n IH] using (well_founded_induction lt_wf). intros fuel pre post HF.
  destruct fuel as [|fuel]; [lia|]. cbn [intro_rec].
  replace (length pre + n - length pre)%nat with n by lia.
  destruct (Nat.ltb_spec n N).
  - destruct (insertion_sort_ok (repeat x n) pre post) as (l' & P & R & SS). rewrite repeat_length in R.
    rewrite R. cbn [bind]. eexists _, _. split; [reflexivity|]. lia.
  - destruct (partition_ok pre (repeat x n) post) as (l1 & k & l2 & P & F1 & F2 & R).
    { destruct n; [lia|discriminate]. }
    rewrite repeat_length in R. rewrite R. cbn [bind].
    pose proof (Permutation_length P) as PL. rewrite repeat_length, app_length in PL. cbn in PL.
    assert (AX : forall y, In y (l1 ++ k :: l2) -> y = x).
    { intros y Hy. symmetry in P. apply (Permutation_in _ P) in Hy. eapply repeat_spec; eauto. }
    assert (k = x) by (apply AX, in_or_app; right; left; auto). subst k.
    assert (l1 = []).
    { destruct l1 as [|y l1]; auto. inversion F1; subst.
      assert (y = x) by (apply AX; left; auto). subst. congruence. }
    subst l1. cbn [app length] in *.
    assert (E2 : l2 = repeat x (length l2)).
    { clear -AX. induction l2; cbn; auto. f_equal.
      - apply AX. right. now left.
      - apply IHl2. intros y [<-|Hy]; apply AX; [now left|right; now right]. }
    destruct (IH (length l2) ltac:(lia) fuel (pre ++ [x]) post ltac:(lia)) as (m & d & R2 & D).
    rewrite <- E2 in R2. rewrite app_length in R2. cbn [length] in R2.
    replace (length pre + 1 + length l2)%nat with (length pre + n)%nat in R2 by lia.
    rewrite Nat.add_0_r.
    replace (pre ++ x :: l2 ++ post) with ((pre ++ [x]) ++ l2 ++ post) by (rewrite <- !app_assoc; reflexivity).
    assert (exists l2', m = (pre ++ [x]) ++ l2' ++ post) as (l2' & ->).
    { destruct (intro_rec_ok N HN fuel l2 (pre ++ [x]) post) as (l2' & d' & _ & _ & R3 & _); [lia|].
      rewrite app_length in R3. cbn [length] in R3.
      replace (length pre + 1 + length l2)%nat with (length pre + n)%nat in R3 by lia.
      rewrite R2 in R3. inversion R3. eauto. }
    rewrite R2. cbn [bind].
    destruct (intro_rec_ok N HN fuel [] pre ([x] ++ l2' ++ post)) as (l1' & d2 & P1 & D2 & R1 & S1); [cbn; lia|].
    cbn [app length] in R1. rewrite Nat.add_0_r in R1.
    rewrite <- app_assoc. cbn [app]. rewrite R1. cbn [bind].
    eexists _, _. split; [reflexivity|]. lia.
Qed.

(** ** binary search *)
Lemma bound_loop_ok (g : A -> bool) : forall fuel l pre post, (length l <= fuel)%nat ->
  (forall i j x y, (i < j)%nat -> nth_error l i = Some x -> nth_error l j = Some y -> g y = true -> g x = true) ->
  exists l1 l2, l = l1 ++ l2 /\ Forall (fun x => g x = true) l1 /\ Forall (fun x => g x = false) l2 /\
    bound_loop g (pre ++ l ++ post) fuel (length pre) (length l) = Ok (length pre + length l1)%nat.
Proof.
  induction fuel as [|fuel IH]; intros l pre post HL HM.
  - assert (l = []) by (destruct l; cbn in *; auto; lia). subst.
    exists [], []. repeat split; auto. cbn. now rewrite Nat.add_0_r.
  - destruct (length l) as [|n] eqn:En.
    { assert (l = []) by (destruct l; cbn in *; auto; lia). subst.
      exists [], []. repeat split; auto. cbn. now rewrite Nat.add_0_r. }
    cbn [bound_loop]. rewrite <- En in *. set (step := Nat.div (length l) 2).
    assert (Hs : (step < length l)%nat) by (apply Nat.div_lt; lia).  clearbody step.
    destruct (nth_error l step) as [x|] eqn:Ex; [|apply nth_error_Some in Hs; congruence].
    apply nth_error_split in Ex as (la & lb & El & Es).
    assert (G : get (pre ++ l ++ post) (length pre + step) = Ok x).
    { rewrite El, <- app_assoc, app_assoc. cbn [app]. apply get_at. rewrite app_length. lia. }
    rewrite G. cbn [bind]. destruct (g x) eqn:E.
    + destruct (IH lb (pre ++ la ++ [x]) post) as (l1 & l2 & E1 & F1 & F2 & R).
      { rewrite El, app_length in HL. cbn in HL. lia. }
      { intros i j y z Hij Hi Hj Hz. apply (HM (length la + S i)%nat (length la + S j)%nat y z); auto; try lia;
          rewrite El, nth_error_app2 by lia.
        - replace (length la + S i - length la)%nat with (S i) by lia. assumption.
        - replace (length la + S j - length la)%nat with (S j) by lia. assumption. }
      exists (la ++ x :: l1), l2. split; [|split; [|split]]; auto.
      * rewrite El, E1, <- app_assoc. reflexivity.
      * apply Forall_app. split; [|constructor; auto]. apply Forall_forall. intros y Hy.
        apply In_nth_error in Hy as [i Hi].
        assert (i < length la)%nat by (apply nth_error_Some; congruence).
        apply (HM i (length la) y x); auto; rewrite El.
        -- rewrite nth_error_app1; auto.
        -- rewrite nth_error_app2, Nat.sub_diag by lia. reflexivity.
      * rewrite !app_length in R. cbn [length] in R.
        replace ((pre ++ la ++ [x]) ++ lb ++ post) with (pre ++ l ++ post) in R
          by (rewrite El, <- !app_assoc; reflexivity).
        replace (length pre + (length la + 1))%nat with (length pre + step + 1)%nat in R by lia.
        replace (length lb) with (length l - (step + 1))%nat in R
          by (rewrite El, app_length; cbn; lia).
        rewrite R. f_equal. rewrite app_length. cbn. lia.
    + destruct (IH la pre ((x :: lb) ++ post)) as (l1 & l2 & E1 & F1 & F2 & R).
      { rewrite El, app_length in HL. cbn in HL. lia. }
      { intros i j y z Hij Hi Hj Hz. apply (HM i j y z); auto; rewrite El, nth_error_app1; auto;
          apply nth_error_Some; congruence. }
      exists l1, (l2 ++ x :: lb). split; [|split; [|split]]; auto.
      * rewrite El, E1, <- app_assoc. reflexivity.
      * apply Forall_app; split; auto. constructor; auto. apply Forall_forall. intros y Hy.
        apply In_nth_error in Hy as [i Hi]. destruct (g y) eqn:Ey; auto.
        rewrite <- E. symmetry. apply (HM (length la) (length la + S i)%nat x y); auto; try lia; rewrite El.
        -- rewrite nth_error_app2, Nat.sub_diag by lia. reflexivity.
        -- rewrite nth_error_app2 by lia. replace (length la + S i - length la)%nat with (S i) by lia. assumption.
      * replace (pre ++ la ++ (x :: lb) ++ post) with (pre ++ l ++ post) in R
          by (rewrite El, <- !app_assoc; reflexivity).
        rewrite Es in R. rewrite R. reflexivity.
Qed.

End Order.
