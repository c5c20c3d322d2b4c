(** Bounds on the number of calls of operator<. *)
From Coq Require Import Arith Permutation Sorted.
From Verif Require Import Base Sort_Model Heap_Model Sort_Spec Sort_Proofs Cost_Model Cost_Spec.
Local Open Scope nat_scope.

(** ** The counter changes nothing else *)
Lemma forget_bind {X Y} (r : res X) (k : X -> res (Y * nat)) : forget (bind r k) = bind r (fun x => forget (k x)).
Proof. now destruct r. Qed.
Lemma bind_forget {X Y} (r : res (X * nat)) (k : X -> res Y) : bind r (fun '(x, _) => k x) = bind (forget r) k.
Proof. now destruct r as [[? ?]| |]. Qed.

Section Same.
  Context {A : Type} (lt : A -> A -> bool).

  Lemma ins_inner_same d : forall m a k c, forget (ins_innerC lt m a k d c) = ins_inner lt m a k d.
  Proof.
    induction d as [|d IH]; intros m a k c; cbn [ins_innerC ins_inner]; rewrite forget_bind; [now destruct (set m _ _)|].
    destruct (get m _) as [x| |]; cbn [bind]; [|reflexivity..]. destruct (lt k x); rewrite forget_bind; destruct (set m _ _); cbn [bind forget]; auto.
  Qed.
  Lemma ins_outer_same n : forall m a d c, forget (ins_outerC lt m a d n c) = ins_outer lt m a d n.
  Proof.
    induction n as [|n IH]; intros m a d c; [reflexivity|]. cbn [ins_outerC ins_outer]. destruct (get m _) as [k| |]; cbn [bind forget]; [|reflexivity..].
    rewrite <- (ins_inner_same d m a k c). destruct (ins_innerC lt m a k d c) as [[m1 c1]| |]; cbn [bind forget]; auto.
  Qed.
  Lemma insertion_same m a b c : forget (insertion_sortC lt m a b c) = insertion_sort lt m a b.
  Proof. apply ins_outer_same. Qed.
  Lemma median_same m a b c k : forget (medianC lt m a b c k) = median lt m a b c.
  Proof.
    unfold medianC, median. destruct (get m a) as [va| |]; cbn [bind forget]; [|reflexivity..]. destruct (get m b) as [vb| |]; cbn [bind forget]; [|reflexivity..]. destruct (get m c) as [vc| |]; cbn [bind forget]; [|reflexivity..].
    destruct (lt va vb); [destruct (lt vb vc)|destruct (lt vc vb)]; try reflexivity; destruct (lt va vc); match goal with |- context [swap ?x ?y ?z] => now destruct (swap x y z) end.
  Qed.
  Lemma part_loop_same n : forall m k p q c, forget (part_loopC lt m k p q n c) = part_loop lt m k p q n.
  Proof.
    induction n as [|n IH]; intros m k p q c; [reflexivity|]. cbn [part_loopC part_loop]. destruct (get m q) as [x| |]; cbn [bind forget]; [|reflexivity..].
    destruct (lt x k); [|apply IH]. destruct (swap m p q) as [m'| |]; cbn [bind forget]; [apply IH|reflexivity..].
  Qed.
  Lemma partition_same m a b c : forget (partitionC lt m a b c) = partition lt m a b.
  Proof.
    unfold partitionC, partition. cbv zeta. destruct (b =? 0); [reflexivity|]. rewrite <- (median_same m a (b - 1) ((b - a) / 2 + a) c). destruct (medianC lt m a (b - 1) ((b - a) / 2 + a) c) as [[m1 c1]| |]; cbn [bind forget]; [|reflexivity..].
    destruct (get m1 (b - 1)) as [k| |]; cbn [bind forget]; [|reflexivity..]. rewrite <- (part_loop_same (b - 1 - a) m1 k a a c1). destruct (part_loopC lt m1 k a a (b - 1 - a) c1) as [[[m2 p] c2]| |]; cbn [bind forget]; [|reflexivity..].
    now destruct (swap m2 p (b - 1)).
  Qed.
  Lemma intro_rec_same N fuel : forall m a b c, forget (intro_recC lt N fuel m a b c) = bind (intro_rec lt N fuel m a b) (fun '(m, _) => Ok m).
  Proof.
    induction fuel as [|fuel IH]; intros m a b c; [reflexivity|]. cbn [intro_recC intro_rec]. destruct (b - a <? N).
    - rewrite insertion_same. now destruct (insertion_sort lt m a b).
    - rewrite <- (partition_same m a b c). destruct (partitionC lt m a b c) as [[[m1 p] c1]| |]; cbn [bind forget]; [|reflexivity..].
      pose proof (IH m1 (p + 1) b c1) as X. destruct (intro_rec lt N fuel m1 (p + 1) b) as [[m2 d1]| |]; cbn [bind] in X |- *; destruct (intro_recC lt N fuel m1 (p + 1) b c1) as [[m2' c2]| |]; cbn [forget] in X; try discriminate X; cbn [bind forget]; [|reflexivity..].
      injection X as ->. rewrite IH. now destruct (intro_rec lt N fuel m2 a p) as [[m3 d2]| |].
  Qed.
  Lemma intro_sort_same N fuel m a b : forget (intro_sortC lt N fuel m a b) = bind (intro_sort lt N fuel m a b) (fun '(m, _) => Ok m).
  Proof.
    unfold intro_sortC, intro_sort. destruct (a <? b); [|reflexivity]. cbv zeta. destruct (b - a <? N).
    - rewrite insertion_same. now destruct (insertion_sort lt m a b).
    - rewrite <- (partition_same m a b 0). destruct (partitionC lt m a b 0) as [[[m1 p] c1]| |]; cbn [bind forget]; [|reflexivity..].
      pose proof (intro_rec_same N fuel m1 a p c1) as X. destruct (intro_rec lt N fuel m1 a p) as [[m2 d1]| |]; cbn [bind] in X |- *; destruct (intro_recC lt N fuel m1 a p c1) as [[m2' c2]| |]; cbn [forget] in X; try discriminate X; cbn [bind forget]; [|reflexivity..].
      injection X as ->. rewrite intro_rec_same. now destruct (intro_rec lt N fuel m2 (p + 1) b) as [[m3 d2]| |].
  Qed.
  Lemma bound_same (g : A -> bool) m fuel : forall a n c, forget (bound_loopC g m fuel a n c) = bound_loop g m fuel a n.
  Proof.
    induction fuel as [|fuel IH]; intros a [|n] c; try reflexivity. cbn [bound_loopC bound_loop]. cbv zeta. destruct (get m (a + S n / 2)) as [x| |]; cbn [bind forget]; [|reflexivity..]. destruct (g x); apply IH.
  Qed.
  Lemma raise_same fuel : forall data item n c, forget (heap_raiseC lt fuel data item n c) = heap_raise lt fuel data item n.
  Proof.
    induction fuel as [|fuel IH]; intros data item n c; [reflexivity|]. cbn [heap_raiseC heap_raise]. destruct (0 <? n); [|now destruct (set data n item)]. cbv zeta.
    destruct (get data ((n - 1) / 2)) as [dp| |]; cbn [bind forget]; [|reflexivity..]. destruct (lt item dp); [|now destruct (set data n item)]. destruct (set data n dp); cbn [bind forget]; [apply IH|reflexivity..].
  Qed.
  Lemma lower_same fuel size : forall data item n c, forget (heap_lowerC lt fuel size data item n c) = heap_lower lt fuel size data item n.
  Proof.
    induction fuel as [|fuel IH]; intros data item n c; [reflexivity|]. cbn [heap_lowerC heap_lower]. cbv zeta. destruct (size <=? n * 2 + 1); [now destruct (set data n item)|].
    assert (K : forall p c', forget (dp <- get data p ;; (if lt item dp then data0 <- set data n item ;; Ok (data0, S c') else data0 <- set data n dp ;; heap_lowerC lt fuel size data0 item p (S c'))) =
      (dp <- get data p ;; (if lt item dp then set data n item else data0 <- set data n dp ;; heap_lower lt fuel size data0 item p))).
    { intros p c'. destruct (get data p) as [dp| |]; cbn [bind forget]; [|reflexivity..]. destruct (lt item dp); [now destruct (set data n item)|]. destruct (set data n dp); cbn [bind forget]; [apply IH|reflexivity..]. }
    destruct (n * 2 + 1 + 1 <? size); cbn [bind]; [|apply K]. destruct (get data (n * 2 + 1 + 1)) as [x| |]; cbn [bind forget]; [|reflexivity..]. destruct (get data (n * 2 + 1)) as [y| |]; cbn [bind forget]; [|reflexivity..]. apply K.
  Qed.
  Lemma enqueue_same q x : forget (enqueueC lt q x) = enqueue lt q x.
  Proof.
    unfold enqueueC, enqueue. destruct (pq_size q <? length (pq_data q)); [|reflexivity]. rewrite <- (raise_same (S (pq_size q)) (pq_data q) x (pq_size q) 0). now destruct (heap_raiseC lt (S (pq_size q)) (pq_data q) x (pq_size q) 0) as [[? ?]| |].
  Qed.
  Lemma dequeue_same q : forget (dequeueC lt q) = dequeue lt q.
  Proof.
    unfold dequeueC, dequeue. destruct (get (pq_data q) 0) as [item| |]; cbn [bind forget]; [|reflexivity..]. destruct (pq_size q) as [|size]; [reflexivity|]. destruct (0 <? size); [|reflexivity].
    destruct (get (pq_data q) size) as [last| |]; cbn [bind forget]; [|reflexivity..]. rewrite <- (lower_same (S size) size (pq_data q) last 0 0). now destruct (heap_lowerC lt (S size) size (pq_data q) last 0 0) as [[? ?]| |].
  Qed.

  (** ** Upper bounds *)
  Lemma ins_inner_cost d : forall m a k c m' c', ins_innerC lt m a k d c = Ok (m', c') -> c' <= c + d.
  Proof.
    induction d as [|d IH]; intros m a k c m' c'; cbn [ins_innerC].
    - destruct (set m _ _); cbn [bind]; try discriminate. intros [= _ <-]. lia.
    - destruct (get m _) as [x| |]; cbn [bind]; try discriminate. destruct (lt k x); destruct (set m _ _); cbn [bind]; try discriminate; [intro E; apply IH in E; lia|intros [= _ <-]; lia].
  Qed.
  Lemma ins_outer_cost n : forall m a d c m' c', ins_outerC lt m a d n c = Ok (m', c') -> 2 * c' + n <= 2 * c + n * (2 * d + n).
  Proof.
    induction n as [|n IH]; intros m a d c m' c'; cbn [ins_outerC]; [intros [= _ <-]; lia|]. destruct (get m _) as [k| |]; cbn [bind]; try discriminate.
    destruct (ins_innerC lt m a k d c) as [[m1 c1]| |] eqn:E1; cbn [bind]; try discriminate. apply ins_inner_cost in E1. intro E. apply IH in E. nia.
  Qed.
  Lemma insertion_cost m a b c m' c' : insertion_sortC lt m a b c = Ok (m', c') -> 2 * c' + (b - a) <= 2 * c + (b - a) * (b - a).
  Proof. intro E. apply ins_outer_cost in E. lia. Qed.
  Lemma median_cost m a b c k m' k' : medianC lt m a b c k = Ok (m', k') -> k' <= k + 3.
  Proof.
    unfold medianC. destruct (get m a) as [va| |]; cbn [bind]; try discriminate. destruct (get m b) as [vb| |]; cbn [bind]; try discriminate. destruct (get m c) as [vc| |]; cbn [bind]; try discriminate.
    destruct (lt va vb); [destruct (lt vb vc)|destruct (lt vc vb)]; try (intros [= _ <-]; lia); destruct (lt va vc); match goal with |- context [swap ?x ?y ?z] => destruct (swap x y z) end; cbn [bind]; try discriminate; intros [= _ <-]; lia.
  Qed.
  Lemma part_loop_cost n : forall m k p q c m' p' c', part_loopC lt m k p q n c = Ok (m', p', c') -> c' = c + n /\ p <= p' <= p + n.
  Proof.
    induction n as [|n IH]; intros m k p q c m' p' c'; cbn [part_loopC]; [intros [= _ <- <-]; lia|]. destruct (get m q) as [x| |]; cbn [bind]; try discriminate.
    destruct (lt x k); [destruct (swap m p q) as [m1| |]; cbn [bind]; try discriminate|]; intro E; apply IH in E; lia.
  Qed.
  Lemma partition_cost m a b c m' p' c' : a < b -> partitionC lt m a b c = Ok (m', p', c') -> c' <= c + (b - a) + 2 /\ a <= p' < b.
  Proof.
    intros Hab. unfold partitionC. cbv zeta. destruct (b =? 0); [discriminate|]. destruct (medianC lt m a (b - 1) ((b - a) / 2 + a) c) as [[m1 c1]| |] eqn:E1; cbn [bind]; try discriminate. apply median_cost in E1.
    destruct (get m1 (b - 1)) as [k| |]; cbn [bind]; try discriminate. destruct (part_loopC lt m1 k a a (b - 1 - a) c1) as [[[m2 p] c2]| |] eqn:E2; cbn [bind]; try discriminate. apply part_loop_cost in E2.
    destruct (swap m2 p (b - 1)); cbn [bind]; try discriminate. intros [= _ <- <-]. lia.
  Qed.
  Lemma split_cost x y : x * (x + 5) + y * (y + 5) + 2 * (x + y + 1) + 4 <= (x + y + 1) * (x + y + 1 + 5).
  Proof. nia. Qed.
  Lemma intro_rec_cost N fuel : 1 <= N -> forall m a b c m' c', intro_recC lt N fuel m a b c = Ok (m', c') -> 2 * c' <= 2 * c + (b - a) * (b - a + 5).
  Proof.
    intro HN. induction fuel as [|fuel IH]; intros m a b c m' c'; [discriminate|]. cbn [intro_recC]. destruct (Nat.ltb_spec (b - a) N) as [L|L].
    - intro E. apply insertion_cost in E. nia.
    - destruct (partitionC lt m a b c) as [[[m1 p] c1]| |] eqn:E1; cbn [bind]; try discriminate. apply partition_cost in E1; [|lia].
      destruct (intro_recC lt N fuel m1 (p + 1) b c1) as [[m2 c2]| |] eqn:E2; cbn [bind]; try discriminate. apply IH in E2. intro E3. apply IH in E3.
      pose proof (split_cost (b - (p + 1)) (p - a)) as K. replace (b - (p + 1) + (p - a) + 1) with (b - a) in K by lia. lia.
  Qed.
  Lemma intro_sort_cost N fuel m a b m' c' : 1 <= N -> intro_sortC lt N fuel m a b = Ok (m', c') -> 2 * c' <= (b - a) * (b - a + 5).
  Proof.
    intro HN. unfold intro_sortC. destruct (Nat.ltb_spec a b) as [Hab|Hab]; [|intros [= _ <-]; lia]. cbv zeta. destruct (Nat.ltb_spec (b - a) N) as [L|L].
    - intro E. apply insertion_cost in E. nia.
    - destruct (partitionC lt m a b 0) as [[[m1 p] c1]| |] eqn:E1; cbn [bind]; try discriminate. apply partition_cost in E1; [|lia].
      destruct (intro_recC lt N fuel m1 a p c1) as [[m2 c2]| |] eqn:E2; cbn [bind]; try discriminate. apply intro_rec_cost in E2; [|assumption]. intro E3. apply intro_rec_cost in E3; [|assumption].
      pose proof (split_cost (b - (p + 1)) (p - a)) as K. replace (b - (p + 1) + (p - a) + 1) with (b - a) in K by lia. lia.
  Qed.

  (** Comparisons of a binary search over n elements. *)
  Lemma halvings_le n k : n <= k -> halvings n <= halvings k.
  Proof. unfold halvings. destruct n, k; intros; try lia. apply le_n_S, Nat.log2_le_mono. assumption. Qed.
  Lemma halvings_half n : S (halvings (S n / 2)) <= halvings (S n).
  Proof.
    destruct n as [|n]; [cbn; lia|]. assert (E : Nat.log2 (S (S n)) = S (Nat.log2 (S (S n) / 2))).
    { rewrite <- Nat.div2_div. replace (Nat.div2 (S (S n))) with (S (Nat.div2 n)) by reflexivity. destruct (Nat.Even_or_Odd n) as [[k ->]|[k ->]].
      - replace (S (S (2 * k))) with (2 * S k) by lia. rewrite Nat.log2_double by lia. now rewrite Nat.div2_double.
      - replace (S (S (2 * k + 1))) with (2 * S k + 1) by lia. rewrite Nat.log2_succ_double by lia. replace (2 * k + 1) with (S (2 * k)) by lia. now rewrite Nat.div2_succ_double. }
    unfold halvings at 2. rewrite E. apply le_n_S. unfold halvings. destruct (S (S n) / 2) eqn:D; lia.
  Qed.
  Lemma bound_cost (g : A -> bool) m fuel : forall a n c r c', bound_loopC g m fuel a n c = Ok (r, c') -> c' <= c + halvings n.
  Proof.
    induction fuel as [|fuel IH]; intros a [|n] c r c'; cbn [bound_loopC]; try discriminate; try (intros [= _ <-]; cbn [halvings]; lia). cbv zeta.
    destruct (get m (a + S n / 2)) as [x| |]; cbn [bind]; try discriminate. pose proof (halvings_half n) as K.
    assert (Hr : S n - (S n / 2 + 1) <= S n / 2). { pose proof (Nat.div_mod (S n) 2 ltac:(lia)). pose proof (Nat.mod_upper_bound (S n) 2 ltac:(lia)). lia. }
    apply halvings_le in Hr. destruct (g x); intro E; apply IH in E; lia.
  Qed.

  Lemma log2_parent n : 0 < n -> S (Nat.log2 ((n - 1) / 2 + 1)) = Nat.log2 (n + 1).
  Proof.
    intro H. destruct (Nat.Even_or_Odd n) as [[k ->]|[k ->]].
    - replace (2 * k - 1) with (1 + (k - 1) * 2) by lia. rewrite Nat.div_add by lia. change (1 / 2) with 0. rewrite Nat.log2_succ_double by lia. f_equal. f_equal. lia.
    - replace (2 * k + 1 - 1) with (k * 2) by lia. rewrite Nat.div_mul by lia. replace (2 * k + 1 + 1) with (2 * (k + 1)) by lia. rewrite Nat.log2_double by lia. reflexivity.
  Qed.
  Lemma raise_cost fuel : forall data item n c r c', heap_raiseC lt fuel data item n c = Ok (r, c') -> c' <= c + Nat.log2 (n + 1).
  Proof.
    induction fuel as [|fuel IH]; intros data item n c r c'; [discriminate|]. cbn [heap_raiseC]. cbv zeta. destruct (Nat.ltb_spec 0 n) as [L|L].
    - pose proof (log2_parent n L). destruct (get data ((n - 1) / 2)) as [dp| |]; cbn [bind]; try discriminate. destruct (lt item dp); [destruct (set data n dp)|destruct (set data n item)]; cbn [bind]; try discriminate; [intro E; apply IH in E; lia|intros [= _ <-]; lia].
    - destruct (set data n item); cbn [bind]; try discriminate. intros [= _ <-]. lia.
  Qed.
  Lemma log2_child n p : n * 2 + 1 <= p -> S (Nat.log2 (n + 1)) <= Nat.log2 (p + 1).
  Proof. intro H. rewrite <- Nat.log2_double by lia. apply Nat.log2_le_mono. lia. Qed.
  Lemma lower_cost fuel size : forall data item n c r c', n < size -> heap_lowerC lt fuel size data item n c = Ok (r, c') -> c' + 2 * Nat.log2 (n + 1) <= c + 2 * Nat.log2 size.
  Proof.
    induction fuel as [|fuel IH]; intros data item n c r c' Hn; [discriminate|]. cbn [heap_lowerC]. cbv zeta. pose proof (Nat.log2_le_mono (n + 1) size ltac:(lia)) as Hm. destruct (Nat.leb_spec size (n * 2 + 1)) as [L|L].
    { destruct (set data n item); cbn [bind]; try discriminate. intros [= _ <-]. lia. }
    assert (K : forall p c1, n * 2 + 1 <= p < size -> c1 <= S c -> (dp <- get data p ;; (if lt item dp then data0 <- set data n item ;; Ok (data0, S c1) else data0 <- set data n dp ;; heap_lowerC lt fuel size data0 item p (S c1))) = Ok (r, c') ->
      c' + 2 * Nat.log2 (n + 1) <= c + 2 * Nat.log2 size).
    { intros p c1 Hp Hc. pose proof (log2_child n p ltac:(lia)) as Kc. pose proof (Nat.log2_le_mono (p + 1) size ltac:(lia)) as Kp. destruct (get data p) as [dp| |]; cbn [bind]; try discriminate.
      destruct (lt item dp); [destruct (set data n item)|destruct (set data n dp)]; cbn [bind]; try discriminate; [intros [= _ <-]; lia|]. intro E. apply IH in E; [lia|lia]. }
    destruct (Nat.ltb_spec (n * 2 + 1 + 1) size) as [L2|L2]; cbn [bind]; [|apply K; lia]. destruct (get data (n * 2 + 1 + 1)) as [x| |]; cbn [bind]; try discriminate. destruct (get data (n * 2 + 1)) as [y| |]; cbn [bind]; try discriminate.
    destruct (lt x y); apply K; lia.
  Qed.
End Same.

(** ** insertion_sort and inversions *)
Section Inversions.
  Context {A : Type} (lt : A -> A -> bool).
  Definition cross (s l : list A) : nat := list_sum (map (fun k => length (filter (lt k) s)) l).
  Lemma perm_filter (f : A -> bool) l l' : Permutation l l' -> length (filter f l) = length (filter f l').
  Proof. induction 1; cbn [filter]; try congruence; repeat match goal with |- context [if f ?x then _ else _] => destruct (f x) end; cbn [length]; congruence. Qed.
  Lemma cross_perm s s' l : Permutation s s' -> cross s l = cross s' l.
  Proof. intro P. unfold cross. induction l as [|k l IH]; [reflexivity|]. cbn [map list_sum fold_right]. f_equal; [now apply perm_filter|exact IH]. Qed.
  Lemma cross_cons s k l : cross (k :: s) l = cross s l + length (filter (fun y => lt y k) l).
  Proof.
    induction l as [|y l IH]; [reflexivity|]. change (cross (k :: s) (y :: l)) with (length (filter (lt y) (k :: s)) + cross (k :: s) l). change (cross s (y :: l)) with (length (filter (lt y) s) + cross s l).
    rewrite IH. cbn [filter]. destruct (lt y k); cbn [length]; lia.
  Qed.
  Lemma ins_inner_exact k : forall s1 pre h s2 c,
    exists t1 t2, s1 = t1 ++ t2 /\ Forall (fun x => lt k x = true) t2 /\ (t1 = [] \/ exists t x, t1 = t ++ [x] /\ lt k x = false) /\
      ins_innerC lt (pre ++ s1 ++ h :: s2) (length pre) k (length s1) c = Ok (pre ++ t1 ++ k :: t2 ++ s2, c + length t2 + (match t1 with [] => 0 | _ => 1 end)).
  Proof.
    induction s1 as [|x s1 IH] using rev_ind; intros pre h s2 c.
    - exists [], []. split; [reflexivity|]. split; [constructor|]. split; [now left|]. cbn [length ins_innerC app]. rewrite set_at by (now rewrite Nat.add_0_r). cbn [bind]. now rewrite !Nat.add_0_r.
    - rewrite app_length. cbn [length]. rewrite Nat.add_1_r. cbn [ins_innerC].
      assert (G : get (pre ++ (s1 ++ [x]) ++ h :: s2) (length pre + S (length s1) - 1) = Ok x).
      { rewrite <- (app_assoc s1 [x]). cbn [app]. rewrite app_assoc. apply get_at. rewrite app_length. lia. }
      rewrite G. cbn [bind].
      assert (SS : forall v, set (pre ++ (s1 ++ [x]) ++ h :: s2) (length pre + S (length s1)) v = Ok (pre ++ s1 ++ x :: v :: s2)).
      { intro v. rewrite app_assoc. rewrite set_at by (rewrite !app_length; cbn; lia). rewrite <- !app_assoc. reflexivity. }
      rewrite !SS. cbn [bind]. destruct (lt k x) eqn:E.
      + destruct (IH pre x (x :: s2) (S c)) as (t1 & t2 & -> & F & D & R). rewrite R. exists t1, (t2 ++ [x]). split; [now rewrite app_assoc|]. split; [apply Forall_app; auto|]. split; [assumption|].
        rewrite <- (app_assoc t2). cbn [app]. rewrite app_length. cbn [length]. replace (S c + length t2) with (c + (length t2 + 1)) by lia. reflexivity.
      + exists (s1 ++ [x]), []. split; [now rewrite app_nil_r|]. split; [constructor|]. split; [right; eauto|]. rewrite <- (app_assoc s1). cbn [app length]. rewrite Nat.add_0_r. destruct (s1 ++ [x]) eqn:E0; [now destruct s1|]. now rewrite Nat.add_1_r.
  Qed.
  Lemma filter_all (f : A -> bool) l : Forall (fun x => f x = true) l -> filter f l = l.
  Proof. induction 1 as [|x l H _ IH]; [reflexivity|]. cbn [filter]. now rewrite H, IH. Qed.
  Lemma ins_outer_inv l : forall s pre post c, exists l' c', Permutation (s ++ l) l' /\ ins_outerC lt (pre ++ s ++ l ++ post) (length pre) (length s) (length l) c = Ok (pre ++ l' ++ post, c') /\
    c' <= c + (cross s l + inversions lt l) + (length l - match s with [] => 1 | _ => 0 end) /\
    (strict_weak_order lt -> StronglySorted (le lt) s -> c + (cross s l + inversions lt l) <= c').
  Proof.
    induction l as [|k l IH]; intros s pre post c.
    - exists s, c. rewrite app_nil_r. repeat split; auto; cbn; lia.
    - cbn [length ins_outerC app]. rewrite app_assoc. rewrite get_at by (now rewrite app_length). cbn [bind]. rewrite <- app_assoc.
      destruct (ins_inner_exact k s pre k (l ++ post) c) as (t1 & t2 & -> & F & D & R). rewrite R. cbn [bind]. set (c1 := c + length t2 + match t1 with [] => 0 | _ => 1 end) in *.
      destruct (IH (t1 ++ k :: t2) pre post c1) as (l' & c' & P & E & U & L). replace (S (length (t1 ++ t2))) with (length (t1 ++ k :: t2)) by (rewrite !app_length; cbn; lia).
      rewrite <- (app_assoc t1) in E. cbn [app] in E. rewrite E. exists l', c'. split.
      { rewrite <- P. rewrite <- !app_assoc. apply Permutation_app_head. cbn. symmetry. apply Permutation_middle. }
      split; [reflexivity|]. rewrite (cross_perm (t1 ++ k :: t2) (k :: t1 ++ t2)) in U, L by (symmetry; apply Permutation_middle). rewrite cross_cons in U, L.
      assert (HC : cross (t1 ++ t2) (k :: l) = length (filter (lt k) (t1 ++ t2)) + cross (t1 ++ t2) l) by reflexivity. rewrite HC. cbn [inversions]. rewrite filter_app, (filter_all (lt k) t2 F), app_length.
      split.
      + unfold c1 in U. destruct t1 as [|x1 t1]; cbn [app] in U |- *; [destruct t2; cbn [length] in *; lia|]. cbn [length] in *. lia.
      + intros W HS. pose proof (L W (ins_step_sorted lt W k t1 t2 HS F D)) as L'.
        assert (H0 : filter (lt k) t1 = []).
        { apply filter_none. intros x Hx. pose proof (ins_step_sorted lt W k t1 t2 HS F D) as K. apply SS_app in K as (_ & _ & K). apply (K x k Hx). now left. }
        rewrite H0. cbn [length]. unfold c1 in L'. lia.
  Qed.
  Lemma insertion_inv l pre post c : exists l' c', Permutation l l' /\ insertion_sortC lt (pre ++ l ++ post) (length pre) (length pre + length l) c = Ok (pre ++ l' ++ post, c') /\
    c' <= c + inversions lt l + (length l - 1) /\ (strict_weak_order lt -> c + inversions lt l <= c').
  Proof.
    unfold insertion_sortC. replace (length pre + length l - length pre) with (length l) by lia. destruct (ins_outer_inv l [] pre post c) as (l' & c' & P & E & U & L).
    assert (Z0 : cross [] l = 0). { unfold cross. clear. induction l; cbn; auto. } rewrite Z0 in U, L. exists l', c'. split; [assumption|]. split; [exact E|]. split; [lia|]. intro W. apply L; [assumption|constructor].
  Qed.
End Inversions.

(** ** Arrays of equal elements *)
Section Equal.
  Context {A : Type} (lt : A -> A -> bool) (z : A) (Hz : lt z z = false) (M : nat).
  Notation m := (repeat z M).
  Lemma get_equal i : i < M -> get m i = Ok z.
  Proof. intro H. unfold get. rewrite (nth_error_nth' _ z) by (now rewrite repeat_length). now rewrite nth_repeat. Qed.
  Lemma upd_equal k i : upd (repeat z k) i z = repeat z k.
  Proof. revert i. induction k as [|k IH]; intros [|i]; cbn [repeat upd]; try reflexivity. now rewrite IH. Qed.
  Lemma set_equal i : i < M -> set m i z = Ok m.
  Proof. intro H. unfold set. rewrite repeat_length. destruct (Nat.ltb_spec i M); [|lia]. now rewrite upd_equal. Qed.
  Lemma swap_equal i j : i < M -> j < M -> swap m i j = Ok m.
  Proof. intros H1 H2. unfold swap. rewrite !get_equal by assumption. cbn [bind]. rewrite set_equal by assumption. cbn [bind]. now apply set_equal. Qed.
  Lemma ins_equal n : forall a d c, a + d + n <= M -> exists c', ins_outerC lt m a d n c = Ok (m, c') /\ c <= c'.
  Proof.
    induction n as [|n IH]; intros a d c H; [exists c; auto|]. cbn [ins_outerC]. rewrite get_equal by lia. cbn [bind]. destruct d as [|d]; cbn [ins_innerC].
    - rewrite set_equal by lia. cbn [bind]. apply IH. lia.
    - rewrite get_equal by lia. cbn [bind]. rewrite Hz, set_equal by lia. cbn [bind]. destruct (IH a (S (S d)) (S c) ltac:(lia)) as (c' & E & L). exists c'. split; [assumption|lia].
  Qed.
  Lemma part_equal n : forall p q c, p < M -> q + n <= M -> part_loopC lt m z p q n c = Ok (m, p, c + n).
  Proof. induction n as [|n IH]; intros p q c Hp Hq; cbn [part_loopC]; [now rewrite Nat.add_0_r|]. rewrite get_equal by lia. cbn [bind]. rewrite Hz, IH by lia. now rewrite Nat.add_succ_r. Qed.
  Lemma partition_equal a b c : a < b -> b <= M -> partitionC lt m a b c = Ok (m, a, c + (b - a) + 2).
  Proof.
    intros Hab Hb. unfold partitionC, medianC. cbv zeta. destruct (Nat.eqb_spec b 0) as [E|_]; [lia|]. assert (D : (b - a) / 2 < b - a) by (apply Nat.div_lt; lia).
    rewrite !get_equal by lia. cbn [bind]. rewrite Hz, swap_equal by lia. cbn [bind]. rewrite get_equal by lia. cbn [bind]. rewrite part_equal by lia. cbn [bind]. rewrite swap_equal by lia. cbn [bind]. replace (c + 3 + (b - 1 - a)) with (c + (b - a) + 2) by lia. reflexivity.
  Qed.
  Lemma intro_empty N fuel a c : 1 <= N -> intro_recC lt N (S fuel) m a a c = Ok (m, c).
  Proof. intro HN. cbn [intro_recC]. rewrite Nat.sub_diag. destruct (Nat.ltb_spec 0 N); [|lia]. unfold insertion_sortC. now rewrite Nat.sub_diag. Qed.
  Lemma intro_equal N fuel : 1 <= N -> forall a b c, b <= M -> a <= b -> b - a < fuel -> exists c', intro_recC lt N fuel m a b c = Ok (m, c') /\ 2 * c + (b - a) * (b - a) <= 2 * c' + N * N.
  Proof.
    intro HN. induction fuel as [|fuel IH]; intros a b c Hb Hab Hf; [lia|]. cbn [intro_recC]. destruct (Nat.ltb_spec (b - a) N) as [L|L].
    - destruct (ins_equal (b - a) a 0 c ltac:(lia)) as (c' & E & Lc). unfold insertion_sortC. exists c'. split; [assumption|]. pose proof (Nat.mul_le_mono (b - a) N (b - a) N ltac:(lia) ltac:(lia)). lia.
    - rewrite partition_equal by lia. cbn [bind]. destruct (IH (a + 1) b (c + (b - a) + 2) Hb ltac:(lia) ltac:(lia)) as (c1 & E1 & L1). rewrite E1. cbn [bind].
      destruct fuel as [|fuel]; [lia|]. rewrite intro_empty by assumption. exists c1. split; [reflexivity|]. replace (b - a) with (S (b - (a + 1))) in * by lia. lia.
  Qed.
  Lemma intro_sort_equal N fuel : 1 <= N -> N <= M -> M < fuel -> exists c', intro_sortC lt N fuel m 0 M = Ok (m, c') /\ M * M <= 2 * c' + N * N.
  Proof.
    intros HN HM Hf. unfold intro_sortC. cbv zeta. destruct (Nat.ltb_spec 0 M); [|lia]. rewrite Nat.sub_0_r. destruct (Nat.ltb_spec M N); [lia|]. rewrite partition_equal by lia. cbn [bind].
    destruct fuel as [|fuel]; [lia|]. rewrite intro_empty by assumption. cbn [bind].
    destruct (intro_equal N (S fuel) HN (0 + 1) M (0 + (M - 0) + 2) ltac:(lia) ltac:(lia) ltac:(lia)) as (c' & E & L). rewrite E. exists c'. split; [reflexivity|]. replace M with (S (M - (0 + 1))) at 1 2 by lia. lia.
  Qed.
  (** With the cutoff 1 the bound is met exactly. *)
  Lemma intro_equal_1 fuel : forall a b c, b <= M -> a <= b -> b - a < fuel -> exists c', intro_recC lt 1 fuel m a b c = Ok (m, c') /\ 2 * c' = 2 * c + (b - a) * (b - a + 5).
  Proof.
    induction fuel as [|fuel IH]; intros a b c Hb Hab Hf; [lia|]. destruct (Nat.eq_dec a b) as [<-|NE].
    - exists c. rewrite intro_empty by lia. split; [reflexivity|]. rewrite Nat.sub_diag. lia.
    - cbn [intro_recC]. destruct (Nat.ltb_spec (b - a) 1) as [L|L]; [lia|]. rewrite partition_equal by lia. cbn [bind]. destruct (IH (a + 1) b (c + (b - a) + 2) Hb ltac:(lia) ltac:(lia)) as (c1 & E1 & L1). rewrite E1. cbn [bind].
      destruct fuel as [|fuel]; [lia|]. rewrite intro_empty by lia. exists c1. split; [reflexivity|]. replace (b - a) with (S (b - (a + 1))) in * by lia. lia.
  Qed.
  Lemma intro_sort_equal_1 fuel : M < fuel -> exists c', intro_sortC lt 1 fuel m 0 M = Ok (m, c') /\ 2 * c' = M * (M + 5).
  Proof.
    intros Hf. unfold intro_sortC. cbv zeta. destruct (Nat.ltb_spec 0 M); [|exists 0; split; [reflexivity|lia]]. rewrite Nat.sub_0_r. destruct (Nat.ltb_spec M 1); [lia|]. rewrite partition_equal by lia. cbn [bind].
    destruct fuel as [|fuel]; [lia|]. rewrite intro_empty by lia. cbn [bind].
    destruct (intro_equal_1 (S fuel) (0 + 1) M (0 + (M - 0) + 2) ltac:(lia) ltac:(lia) ltac:(lia)) as (c' & E & L). rewrite E. exists c'. split; [reflexivity|]. remember (M - (0 + 1)) as x eqn:Ex. replace M with (S x) in * by lia. lia.
  Qed.
End Equal.
