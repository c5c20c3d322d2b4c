(** Programs that use several of the algorithms together: sorted codes as an index of points, counting by two searches, and sorting with
    a priority queue. *)
From Coq Require Import Permutation.
From Verif Require Import Base Sort_Model Sort_Spec Sort_Props Heap_Model Heap_Spec Heap_Props Zorder_Model Zorder_Spec Zorder_Proofs Zorder_Props.
Local Open Scope Z_scope.

(** ** An index of points *)

Definition code (p : Z * Z) : Z := z_encode (fst p) (snd p).
Definition on_grid (p : Z * Z) : Prop := int32 (fst p) /\ int32 (snd p).
Definition within (x0 y0 x1 y1 : Z) (p : Z * Z) : bool := (x0 <=? fst p) && (fst p <=? x1) && (y0 <=? snd p) && (snd p <=? y1).

Lemma Zltb_swo : strict_weak_order Z.ltb.
Proof. split; intros; rewrite ?Z.ltb_lt, ?Z.ltb_ge in *; lia. Qed.
Lemma filter_perm {A} (p : A -> bool) l m : Permutation l m -> Permutation (filter p l) (filter p m).
Proof.
  induction 1 as [|x l m H IH|x y l|l m k H IH H' IH']; cbn [filter]; [constructor| | |].
  - destruct (p x); [now constructor|exact IH].
  - destruct (p x), (p y); try constructor; auto using Permutation_refl.
  - eapply Permutation_trans; eauto.
Qed.
Lemma code_range p : on_grid p -> 0 <= code p < 2 ^ 64.
Proof. intros [X Y]. destruct (C27_interleaves _ _ X Y) as [R _]. exact R. Qed.

(** *** C107: sort the codes of any points with intro_sort, ask for a rectangle with z_query, keep what z_inside accepts: these are the
    codes of exactly the points in the rectangle, each as often as it was there. The rectangle is one that z_query can do (C30). *)
Theorem C107_index (points : list (Z * Z)) x0 y0 x1 y1 nx ny (N fuel : nat) :
  Forall on_grid points ->
  int32 x0 -> int32 y0 -> int32 x1 -> int32 y1 -> x0 <= x1 -> y0 <= y1 ->
  0 <= nx -> 0 <= ny -> nx + ny = 32 -> x1 - x0 <= 2 ^ (8 + nx) - 256 -> y1 - y0 <= 2 ^ (8 + ny) - 256 ->
  x1 < 2 ^ 31 - 256 \/ y1 < 2 ^ 31 - 256 ->
  (1 <= N)%nat -> (length points <= fuel)%nat ->
  exists data depth out found,
    intro_sort Z.ltb N fuel (map code points) 0 (length points) = Ok (data, depth) /\
    z_query (z_encode x0 y0) (z_encode x1 y1) data = Ok out /\
    filter (z_inside (z_encode x0 y0) (z_encode x1 y1)) out = map code found /\
    Permutation found (filter (within x0 y0 x1 y1) points).
Proof.
  intros G X0 Y0 X1 Y1 Hx Hy Nx Ny Ns Sx Sy T HN HF.
  destruct (C04_intro_sort_sorts Z Z.ltb N fuel [] (map code points) [] Zltb_swo HN) as (data & depth & P & O & R); [now rewrite map_length|].
  cbn [app length Nat.add] in R. rewrite !app_nil_r, map_length in R.
  assert (A : ascending data). { intros i j a b L Ea Eb. specialize (O i j a b L Ea Eb). apply Z.ltb_ge in O. exact O. }
  assert (F : Forall (fun z => 0 <= z < 2 ^ 64) data).
  { apply Forall_forall. intros z Hz. apply (Permutation_in _ (Permutation_sym P)) in Hz. apply in_map_iff in Hz.
    destruct Hz as (p & <- & Hp). apply code_range. rewrite Forall_forall in G. auto. }
  destruct (C30_extent_partial x0 y0 x1 y1 data nx ny X0 Y0 X1 Y1 Hx Hy A Nx Ny Ns Sx Sy) as [_ C].
  destruct (C T F) as (out & Q & _ & _).
  pose proof (C29_filtered_exact_partial x0 y0 x1 y1 data out X0 Y0 X1 Y1 Hx Hy T A F Q) as E.
  assert (E2 : filter (z_inside (z_encode x0 y0) (z_encode x1 y1)) (map code points) = map code (filter (within x0 y0 x1 y1) points)).
  { clear - G X0 Y0 X1 Y1. induction G as [|p points [Gx Gy] G IH]; [reflexivity|]. cbn [map filter]. rewrite IH.
    assert (W : z_inside (z_encode x0 y0) (z_encode x1 y1) (code p) = within x0 y0 x1 y1 p).
    { apply eq_true_iff_eq. unfold code. rewrite z_inside_rect by assumption. unfold in_rect, within.
      rewrite !andb_true_iff, !Z.leb_le. tauto. }
    rewrite W. destruct (within x0 y0 x1 y1 p); reflexivity. }
  assert (P2 : Permutation (map code (filter (within x0 y0 x1 y1) points)) (filter (z_inside (z_encode x0 y0) (z_encode x1 y1)) data)).
  { rewrite <- E2. now apply filter_perm. }
  destruct (Permutation_map_inv code _ (Permutation_sym P2)) as (found & Ef & Pf).
  exists data, depth, out, found. split; [exact R|]. split; [exact Q|]. split; [rewrite E; exact Ef|]. now apply Permutation_sym.
Qed.
Print Assumptions C107_index.

(** Five points, one of them twice; the rectangle has three of the six. *)
Example C107_index_case :
  let points := [(5, -3); (100, 7); (-20, 40); (5, -3); (1000000, 1000000); (0, 41)] in
  Forall on_grid points /\ filter (within (-50) (-50) 50 40) points = [(5, -3); (-20, 40); (5, -3)] /\
  (data <- intro_sort Z.ltb 4 10 (map code points) 0 6 ;;
   out <- z_query (z_encode (-50) (-50)) (z_encode 50 40) (fst data) ;;
   Ok (filter (z_inside (z_encode (-50) (-50)) (z_encode 50 40)) out)) = Ok (map code [(5, -3); (5, -3); (-20, 40)]).
Proof. cbv zeta. split; [repeat constructor; unfold on_grid, int32; cbn; lia|]. split; [reflexivity|vm_compute; reflexivity]. Qed.

(** ** Counting by two searches *)

(** *** C107: after intro_sort the two searches enclose the elements equivalent to k: their distance is how many there are, and between
    them are those and no others. *)
Theorem C107_count (A : Type) (lt : A -> A -> bool) (N fuel : nat) (l : list A) (k : A) :
  strict_weak_order lt -> (1 <= N)%nat -> (length l <= fuel)%nat ->
  exists m depth lo hi,
    intro_sort lt N fuel l 0 (length l) = Ok (m, depth) /\
    lower_bound lt m 0 (length m) k = Ok lo /\ upper_bound lt m 0 (length m) k = Ok hi /\
    (hi - lo)%nat = length (filter (equivalent lt k) l) /\
    Permutation (firstn (hi - lo) (skipn lo m)) (filter (equivalent lt k) l).
Proof.
  intros W HN HF.
  destruct (C04_intro_sort_sorts A lt N fuel [] l [] W HN HF) as (m & depth & P & O & R). cbn [app length Nat.add] in R. rewrite !app_nil_r in R.
  destruct (C06_lower_bound A lt [] m [] k W O) as (a1 & a2 & Ea & A1 & A2 & RA).
  destruct (C06_upper_bound A lt [] m [] k W O) as (b1 & b2 & Eb & B1 & B2 & RB).
  cbn [app length Nat.add] in RA, RB. rewrite app_nil_r in RA, RB.
  exists m, depth, (length a1), (length b1). split; [exact R|]. split; [exact RA|]. split; [exact RB|].
  (* what is below k is not above it: a1 is part of b1 *)
  assert (L : (length a1 <= length b1)%nat).
  { destruct (le_lt_dec (length a1) (length b1)) as [|L]; [assumption|exfalso].
    destruct (nth_error a1 (length b1)) as [x|] eqn:Ex; [|apply nth_error_None in Ex; lia].
    assert (M : nth_error m (length b1) = Some x) by (rewrite Ea, nth_error_app1 by lia; exact Ex).
    rewrite Eb, nth_error_app2, Nat.sub_diag in M by lia.
    rewrite Forall_forall in A1, B2. pose proof (A1 x (nth_error_In _ _ Ex)) as H1. pose proof (B2 x (nth_error_In _ _ M)) as H2.
    pose proof (swo_trans lt W _ _ _ H1 H2) as H3. rewrite (swo_irrefl lt W) in H3. discriminate. }
  set (d := (length b1 - length a1)%nat).
  assert (Em : m = a1 ++ firstn d a2 ++ b2).
  { assert (S1 : skipn (length a1) m = a2) by (rewrite Ea, skipn_app, skipn_all, Nat.sub_diag; reflexivity).
    assert (S2 : skipn (length b1) m = b2) by (rewrite Eb, skipn_app, skipn_all, Nat.sub_diag; reflexivity).
    assert (S3 : skipn d a2 = b2).
    { rewrite <- S2, Ea, skipn_app, (skipn_all2 a1) by lia. reflexivity. }
    rewrite Ea at 1. rewrite <- S3, firstn_skipn. reflexivity. }
  assert (Mid : Forall (fun x => lt x k = false /\ lt k x = false) (firstn d a2)).
  { apply Forall_forall. intros x Hx. split.
    - rewrite Forall_forall in A2. apply A2. rewrite <- (firstn_skipn d a2). apply in_or_app. now left.
    - assert (Eb1 : b1 = a1 ++ firstn d a2).
      { assert (E : firstn (length b1) m = b1) by (rewrite Eb, firstn_app, firstn_all, Nat.sub_diag; cbn; now rewrite app_nil_r).
        rewrite <- E. rewrite Ea, firstn_app. rewrite (firstn_all2 a1) by lia. reflexivity. }
      rewrite Forall_forall in B1. apply B1. rewrite Eb1. apply in_or_app. now right. }
  assert (Keep : filter (equivalent lt k) m = firstn d a2).
  { assert (None : forall l', Forall (fun x => equivalent lt k x = false) l' -> filter (equivalent lt k) l' = []).
    { clear. induction 1 as [|x l' H _ IH]; [reflexivity|]. cbn [filter]. now rewrite H. }
    assert (All : forall l', Forall (fun x => equivalent lt k x = true) l' -> filter (equivalent lt k) l' = l').
    { clear. induction 1 as [|x l' H _ IH]; [reflexivity|]. cbn [filter]. now rewrite H, IH. }
    rewrite Em, !filter_app. rewrite (None a1), (All (firstn d a2)), (None b2), app_nil_r; [reflexivity| | |].
    - eapply Forall_impl; [|exact B2]. cbv beta. intros x Hx. unfold equivalent. now rewrite Hx.
    - eapply Forall_impl; [|exact Mid]. cbv beta. intros x [H1 H2]. unfold equivalent. now rewrite H1, H2.
    - eapply Forall_impl; [|exact A1]. cbv beta. intros x Hx. unfold equivalent. rewrite Hx. apply andb_false_r. }
  assert (Pf : Permutation (firstn d a2) (filter (equivalent lt k) l)) by (rewrite <- Keep; apply filter_perm; now apply Permutation_sym).
  assert (Ld : length (firstn d a2) = d).
  { rewrite firstn_length. apply Nat.min_l. assert (Lm : length m = (length a1 + length a2)%nat) by (rewrite Ea, app_length; reflexivity).
    assert (Lm' : length m = (length b1 + length b2)%nat) by (rewrite Eb, app_length; reflexivity). subst d. lia. }
  split.
  - rewrite <- (Permutation_length Pf). fold d. lia.
  - fold d. replace (skipn (length a1) m) with a2; [exact Pf|]. rewrite Ea, skipn_app, skipn_all, Nat.sub_diag. reflexivity.
Qed.
Print Assumptions C107_count.

(** ** Sorting with a priority queue *)

(** *** C107: n values put into a queue with room for n come out sorted. *)
Theorem C107_queue_sorts (A : Type) (lt : A -> A -> bool) (garbage l : list A) :
  strict_weak_order lt -> (length l <= length garbage)%nat ->
  exists l', Permutation l l' /\ ordered lt l' /\
    pq_run lt (Build_pq 0 garbage) (map Enqueue l ++ repeat Dequeue (length l)) = Ok (repeat (RBool true) (length l) ++ map RItem l').
Proof.
  intros W H.
  assert (U : well_used (length garbage) 0 (map Enqueue l ++ repeat Dequeue (length l))).
  { assert (D : forall n, well_used (A := A) (length garbage) n (repeat Dequeue n)).
    { induction n as [|n IH]; cbn [repeat well_used]; [exact I|]. split; [lia|]. now replace (S n - 1)%nat with n by lia. }
    assert (E : forall (l' : list A) n m, (n + length l' <= length garbage)%nat -> m = (n + length l')%nat ->
      well_used (length garbage) n (map Enqueue l' ++ repeat Dequeue m)).
    { induction l' as [|x l' IH]; intros n m L ->; cbn [map app length] in *; [rewrite Nat.add_0_r; apply D|].
      cbn [well_used]. rewrite (proj2 (Nat.ltb_lt _ _)) by lia. apply IH; lia. }
    apply E; lia. }
  destruct (C07_priority_queue A lt garbage _ W U) as (rets & R & SR). rewrite R. clear R U.
  assert (Out : forall n bag rets, length bag = n -> spec_run lt (length garbage) bag (repeat Dequeue n) rets ->
    exists l', Permutation bag l' /\ ordered lt l' /\ rets = map RItem l').
  { induction n as [|n IH]; intros bag rs L T; cbn [repeat] in T.
    - inversion T; subst. exists []. destruct bag; [|discriminate]. split; [constructor|]. split; [|reflexivity]. intros [|i] j x y _ X; discriminate.
    - inversion T as [| | |bag' x rest os rs' P M T' | | ]; subst. assert (Lr : length rest = n) by (apply Permutation_length in P; cbn in P; lia).
      destruct (IH rest rs' Lr T') as (l' & Pl & Ol & ->). exists (x :: l').
      assert (Px : Permutation bag (x :: l')) by (eapply Permutation_trans; [exact P|now constructor]).
      split; [exact Px|]. split; [|reflexivity]. intros [|i] [|j] a b Lij Ea Eb; cbn [nth_error] in *; try lia.
      + injection Ea as <-. apply M. apply (Permutation_in _ (Permutation_sym Px)). right. exact (nth_error_In _ _ Eb).
      + apply (Ol i j a b); auto. lia. }
  assert (In' : forall l' bag rets, (length bag + length l' <= length garbage)%nat ->
    spec_run lt (length garbage) bag (map Enqueue l' ++ repeat Dequeue (length bag + length l')) rets ->
    exists l'', Permutation (bag ++ l') l'' /\ ordered lt l'' /\ rets = repeat (RBool true) (length l') ++ map RItem l'').
  { induction l' as [|x l' IH]; intros bag rs L T; cbn [map app length repeat] in *.
    - rewrite Nat.add_0_r in T. destruct (Out _ _ _ eq_refl T) as (l'' & P & O & ->). exists l''. rewrite app_nil_r. auto.
    - inversion T as [|bag' x' os rs' Lb T'|bag' x' os rs' Lb T'| | | ]; subst; [|lia].
      replace (length bag + S (length l'))%nat with (length (x :: bag) + length l')%nat in T' by (cbn; lia).
      destruct (IH (x :: bag) rs') as (l'' & P & O & ->); [cbn; lia|exact T'|]. exists l''. split; [|split; [exact O|reflexivity]].
      eapply Permutation_trans; [|exact P]. cbn [app]. apply Permutation_sym, Permutation_middle. }
  destruct (In' l [] rets H SR) as (l'' & P & O & ->). exists l''. auto.
Qed.
Print Assumptions C107_queue_sorts.

Lemma sorted_unique (A : Type) (lt : A -> A -> bool) (l l1 l2 : list A) :
  (forall x y, lt x y = false -> lt y x = false -> x = y) ->
  Permutation l l1 -> ordered lt l1 -> Permutation l l2 -> ordered lt l2 -> l1 = l2.
Proof.
  intros T P1 O1 P2 O2. assert (P : Permutation l1 l2) by (eapply Permutation_trans; [apply Permutation_sym; exact P1|exact P2]).
  clear l P1 P2. revert l2 O2 P. induction l1 as [|x l1 IH]; intros l2 O2 P.
  - apply Permutation_nil in P. now subst.
  - destruct l2 as [|y l2]; [apply Permutation_sym, Permutation_nil in P; discriminate|].
    assert (Tl : forall z l, ordered lt (z :: l) -> ordered lt l).
    { intros z l' O i j a b L Ea Eb. apply (O (S i) (S j) a b); auto. lia. }
    assert (Hd : forall z l w, ordered lt (z :: l) -> In w l -> lt w z = false).
    { intros z l' w O I. apply In_nth_error in I. destruct I as (j & Ej). apply (O 0%nat (S j) z w); auto. lia. }
    assert (E : x = y).
    { assert (Ix : In x (y :: l2)) by (apply (Permutation_in _ P); now left).
      assert (Iy : In y (x :: l1)) by (apply (Permutation_in _ (Permutation_sym P)); now left).
      destruct Ix as [->|Ix]; [reflexivity|]. destruct Iy as [->|Iy]; [reflexivity|]. apply T; eauto. }
    subst y. f_equal. apply IH; eauto. eapply Permutation_cons_inv. exact P.
Qed.

(** *** C107: when different elements are never equivalent, insertion_sort, intro_sort with any cutoff and a queue with any room give the
    same list. *)
Theorem C107_same (A : Type) (lt : A -> A -> bool) (N fuel : nat) (garbage l : list A) :
  strict_weak_order lt -> (forall x y, lt x y = false -> lt y x = false -> x = y) ->
  (1 <= N)%nat -> (length l <= fuel)%nat -> (length l <= length garbage)%nat ->
  exists l' depth,
    insertion_sort lt l 0 (length l) = Ok l' /\
    intro_sort lt N fuel l 0 (length l) = Ok (l', depth) /\
    pq_run lt (Build_pq 0 garbage) (map Enqueue l ++ repeat Dequeue (length l)) = Ok (repeat (RBool true) (length l) ++ map RItem l').
Proof.
  intros W T HN HF HG.
  destruct (C03_insertion_sort_stable A lt [] l [] W) as (l1 & P1 & O1 & _ & R1). cbn [app length Nat.add] in R1. rewrite !app_nil_r in R1.
  destruct (C04_intro_sort_sorts A lt N fuel [] l [] W HN HF) as (l2 & d & P2 & O2 & R2). cbn [app length Nat.add] in R2. rewrite !app_nil_r in R2.
  destruct (C107_queue_sorts A lt garbage l W HG) as (l3 & P3 & O3 & R3).
  assert (l2 = l1) by exact (sorted_unique A lt l l2 l1 T P2 O2 P1 O1). assert (l3 = l1) by exact (sorted_unique A lt l l3 l1 T P3 O3 P1 O1). subst l2 l3.
  exists l1, d. auto.
Qed.
Print Assumptions C107_same.

Example C107_case :
  insertion_sort Z.ltb [5; 2; 9; 2; 7] 0 5 = Ok [2; 2; 5; 7; 9] /\
  pq_run Z.ltb (Build_pq 0 [0; 0; 0; 0; 0]) (map Enqueue [5; 2; 9; 2; 7] ++ repeat Dequeue 5) = Ok (repeat (RBool true) 5 ++ map RItem [2; 2; 5; 7; 9]) /\
  (m <- intro_sort Z.ltb 2 10 [5; 2; 9; 2; 7] 0 5 ;; lo <- lower_bound Z.ltb (fst m) 0 5 2 ;; hi <- upper_bound Z.ltb (fst m) 0 5 2 ;; Ok (fst m, lo, hi))
    = Ok ([2; 2; 5; 7; 9], 0%nat, 2%nat) /\
  strict_weak_order Z.ltb /\ forall x y, (x <? y) = false -> (y <? x) = false -> x = y.
Proof.
  split; [vm_compute; reflexivity|]. split; [vm_compute; reflexivity|]. split; [vm_compute; reflexivity|]. split; [exact Zltb_swo|].
  intros x y. rewrite !Z.ltb_ge. lia.
Qed.
