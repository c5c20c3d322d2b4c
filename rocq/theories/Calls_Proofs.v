(** What holds whatever operator< answers. *)
From Coq Require Import Arith Permutation.
From Verif Require Import Base Sort_Model Heap_Model Sort_Spec Sort_Proofs Heap_Spec Heap_Proofs Cost_Model Cost_Spec Calls_Model Calls_Spec.
Local Open Scope nat_scope.

Section Any.
Context {A St : Type}.
Variable lt : A -> A -> St -> bool * St.
(** A count that one call raises by at most one. *)
Variable asked : St -> nat.
Hypothesis one : forall x y s, asked (snd (lt x y s)) <= S (asked s).

Ltac call b s E := match goal with |- context [lt ?x ?y ?s0] => let H := fresh in pose proof (one x y s0) as H; destruct (lt x y s0) as [b s] eqn:E; cbn [snd] in H end.

Lemma inner_any k : forall s1 pre h s2 s,
  exists t1 t2 s', s1 = t1 ++ t2 /\ asked s' <= asked s + length s1 /\
    ins_innerS lt (pre ++ s1 ++ h :: s2) (length pre) k (length s1) s = Ok (pre ++ t1 ++ k :: t2 ++ s2, s').
Proof using one.
  induction s1 as [|x s1 IH] using rev_ind; intros pre h s2 s.
  - exists [], [], s. split; [reflexivity|]. split; [lia|]. cbn [length ins_innerS app]. rewrite set_at by lia. reflexivity.
  - rewrite app_length. cbn [length]. rewrite Nat.add_1_r. cbn [ins_innerS].
    assert (G : get (pre ++ (s1 ++ [x]) ++ h :: s2) (length pre + S (length s1) - 1) = Ok x).
    { rewrite <- (app_assoc s1 [x]). cbn [app]. rewrite app_assoc. apply get_at. rewrite app_length. lia. }
    rewrite G. cbn [bind].
    assert (SS : forall v, set (pre ++ (s1 ++ [x]) ++ h :: s2) (length pre + S (length s1)) v = Ok (pre ++ s1 ++ x :: v :: s2)).
    { intro v. rewrite app_assoc. rewrite set_at by (rewrite !app_length; cbn; lia). rewrite <- !app_assoc. reflexivity. }
    rewrite !SS. cbn [bind]. call b s1' E. destruct b.
    + destruct (IH pre x (x :: s2) s1') as (t1 & t2 & s' & -> & L & R). rewrite R. exists t1, (t2 ++ [x]), s'. rewrite app_assoc. split; [reflexivity|]. split; [lia|].
      rewrite <- (app_assoc t2). reflexivity.
    + exists (s1 ++ [x]), [], s1'. rewrite app_nil_r. split; [reflexivity|]. split; [lia|]. rewrite <- (app_assoc s1). reflexivity.
Qed.

Lemma outer_any : forall l t pre post s,
  exists l' s', Permutation (t ++ l) l' /\ 2 * asked s' + length t * (length t - 1) <= 2 * asked s + (length t + length l) * (length t + length l - 1) /\
    ins_outerS lt (pre ++ t ++ l ++ post) (length pre) (length t) (length l) s = Ok (pre ++ l' ++ post, s').
Proof using one.
  induction l as [|k l IH]; intros t pre post s.
  - exists t, s. rewrite app_nil_r. split; [reflexivity|]. split; [cbn [length]; rewrite Nat.add_0_r; lia|reflexivity].
  - cbn [length ins_outerS app].
    assert (G : get (pre ++ t ++ k :: l ++ post) (length pre + length t) = Ok k) by (rewrite app_assoc; apply get_at; now rewrite app_length).
    rewrite G. cbn [bind]. destruct (inner_any k t pre k (l ++ post) s) as (t1 & t2 & s1 & -> & L & R). rewrite R. cbn [bind].
    destruct (IH (t1 ++ k :: t2) pre post s1) as (l' & s' & P & L' & E).
    replace (S (length (t1 ++ t2))) with (length (t1 ++ k :: t2)) by (rewrite !app_length; cbn; lia).
    rewrite <- (app_assoc t1) in E. cbn [app] in E. rewrite E. exists l', s'. split; [|split; [|reflexivity]].
    + rewrite <- P. rewrite <- !app_assoc. apply Permutation_app_head. cbn. symmetry. apply Permutation_middle.
    + replace (length (t1 ++ k :: t2)) with (S (length (t1 ++ t2))) in L' by (rewrite !app_length; cbn; lia). set (n := length (t1 ++ t2)) in *. clearbody n.
      replace (S n + length l) with (n + S (length l)) in L' by lia. set (B := (n + S (length l)) * (n + S (length l) - 1)) in *. clearbody B. clear - L L'.
      replace (S n * (S n - 1)) with (n * (n - 1) + 2 * n) in L'; [lia|]. destruct n; [reflexivity|]. rewrite !Nat.sub_succ, !Nat.sub_0_r. lia.
Qed.

Lemma insertion_any l pre post s :
  exists l' s', Permutation l l' /\ 2 * asked s' <= 2 * asked s + length l * (length l - 1) /\
    insertion_sortS lt (pre ++ l ++ post) (length pre) (length pre + length l) s = Ok (pre ++ l' ++ post, s').
Proof using one.
  unfold insertion_sortS. replace (length pre + length l - length pre) with (length l) by lia. destruct (outer_any l [] pre post s) as (l' & s' & P & L & E). exists l', s'. split; [exact P|]. split; [cbn [length] in L; rewrite Nat.mul_0_l, Nat.add_0_r in L; exact L|exact E].
Qed.

Lemma median_any pre (l : list A) post i j k s : i < length l -> j < length l -> k < length l ->
  exists l' s', Permutation l l' /\ length l' = length l /\ asked s' <= asked s + 3 /\
    medianS lt (pre ++ l ++ post) (length pre + i) (length pre + j) (length pre + k) s = Ok (pre ++ l' ++ post, s').
Proof using one.
  intros Hi Hj Hk. unfold medianS.
  destruct (get_ex (pre ++ l ++ post) (length pre + i)) as [x Ex]; [rewrite !app_length; lia|].
  destruct (get_ex (pre ++ l ++ post) (length pre + j)) as [y Ey]; [rewrite !app_length; lia|].
  destruct (get_ex (pre ++ l ++ post) (length pre + k)) as [z Ez]; [rewrite !app_length; lia|].
  rewrite Ex, Ey, Ez. cbn [bind].
  assert (Sw : forall i' j' s2, asked s2 <= asked s + 3 -> i' < length l -> j' < length l -> exists l' s', Permutation l l' /\ length l' = length l /\ asked s' <= asked s + 3 /\
    (m <- swap (pre ++ l ++ post) (length pre + i') (length pre + j') ;; Ok (m, s2)) = Ok (pre ++ l' ++ post, s')).
  { intros i' j' s2 Hs Hi' Hj'. destruct (swap_range pre l post i' j' Hi' Hj') as (l' & P & L & E). exists l', s2. rewrite E. auto. }
  call b1 s1 E1. destruct b1; call b2 s2 E2; (destruct b2; [exists l, s2; split; [reflexivity|]; split; [reflexivity|]; split; [lia|reflexivity]|]);
    call b3 s3 E3; destruct b3; apply Sw; lia.
Qed.

Lemma part_any k pre post : forall n l i j s, i <= j -> j + n <= length l ->
  exists l' i' s', Permutation l l' /\ length l' = length l /\ i <= i' <= i + n /\ asked s' <= asked s + n /\
    part_loopS lt (pre ++ l ++ post) k (length pre + i) (length pre + j) n s = Ok (pre ++ l' ++ post, length pre + i', s').
Proof using one.
  induction n as [|n IH]; intros l i j s Hij Hn; cbn [part_loopS].
  { exists l, i, s. split; [reflexivity|]. split; [reflexivity|]. split; [lia|]. split; [lia|reflexivity]. }
  destruct (get_ex (pre ++ l ++ post) (length pre + j)) as [x Ex]; [rewrite !app_length; lia|]. rewrite Ex. cbn [bind]. call b s1 E.
  rewrite <- !Nat.add_succ_r. destruct b.
  - destruct (swap_range pre l post i j ltac:(lia) ltac:(lia)) as (l1 & P1 & L1 & S1). rewrite S1. cbn [bind].
    destruct (IH l1 (S i) (S j) s1 ltac:(lia) ltac:(lia)) as (l' & i' & s' & P & L & Hi & Hs & R). exists l', i', s'. split; [now rewrite P1|]. split; [lia|]. split; [lia|]. split; [lia|assumption].
  - destruct (IH l i (S j) s1 ltac:(lia) ltac:(lia)) as (l' & i' & s' & P & L & Hi & Hs & R). exists l', i', s'. split; [assumption|]. split; [lia|]. split; [lia|]. split; [lia|assumption].
Qed.

Lemma partition_any pre (l : list A) post s : l <> [] ->
  exists l1 k l2 s', Permutation l (l1 ++ k :: l2) /\ asked s' <= asked s + length l + 2 /\
    partitionS lt (pre ++ l ++ post) (length pre) (length pre + length l) s = Ok (pre ++ (l1 ++ k :: l2) ++ post, length pre + length l1, s').
Proof using one.
  intro NE. assert (0 < length l) by (destruct l; [easy|cbn; lia]).
  unfold partitionS. destruct (Nat.eqb_spec (length pre + length l) 0); [lia|]. cbv zeta.
  replace (length pre + length l - length pre) with (length l) by lia.
  replace (length pre + length l - 1) with (length pre + (length l - 1)) by lia.
  destruct (median_any pre l post 0 (length l - 1) (Nat.div (length l) 2) s) as (m & s1 & P & L & C & R); [lia|lia|apply Nat.div_lt; lia|].
  rewrite Nat.add_0_r in R. rewrite (Nat.add_comm (length l / 2)), R. cbn [bind].
  destruct (get_ex (pre ++ m ++ post) (length pre + (length l - 1))) as [k Ek]; [rewrite !app_length; lia|]. rewrite Ek. cbn [bind].
  replace (length pre + (length l - 1) - length pre) with (length l - 1) by lia.
  destruct (part_any k pre post (length l - 1) m 0 0 s1 ltac:(lia) ltac:(lia)) as (m2 & i & s2 & P2 & L2 & Hi & C2 & R2). rewrite Nat.add_0_r in R2. rewrite R2. cbn [bind].
  destruct (swap_range pre m2 post i (length l - 1) ltac:(lia) ltac:(lia)) as (m3 & P3 & L3 & R3). rewrite R3. cbn [bind].
  destruct (nth_error m3 i) as [p|] eqn:Ep; [|apply nth_error_None in Ep; lia]. apply nth_error_split in Ep as (l1 & l2 & -> & <-).
  exists l1, p, l2, s2. split; [now rewrite P, P2, P3|]. split; [lia|reflexivity].
Qed.

Lemma quadratic n1 n2 c s0 s1 s2 s3 n : n = S (n1 + n2) -> s1 <= s0 + n + 2 -> 2 * s2 <= 2 * s1 + n1 * (n1 + 5) -> 2 * s3 <= 2 * s2 + n2 * (n2 + 5) -> c = n * (n + 5) -> 2 * s3 <= 2 * s0 + c.
Proof. intros -> H1 H2 H3 ->. nia. Qed.

Lemma rec_any N : 1 <= N -> forall fuel l pre post s, length l < fuel ->
  exists l' s', Permutation l l' /\ 2 * asked s' <= 2 * asked s + length l * (length l + 5) /\
    intro_recS lt N fuel (pre ++ l ++ post) (length pre) (length pre + length l) s = Ok (pre ++ l' ++ post, s').
Proof using one.
  intro HN. induction fuel as [|fuel IH]; intros l pre post s HL; [lia|].
  cbn [intro_recS]. replace (length pre + length l - length pre) with (length l) by lia.
  destruct (Nat.ltb_spec (length l) N).
  - destruct (insertion_any l pre post s) as (l' & s' & P & C & R). exists l', s'. split; [assumption|]. split; [nia|assumption].
  - destruct (partition_any pre l post s) as (l1 & k & l2 & s1 & P & C & R). { intros ->. cbn in *. lia. }
    rewrite R. cbn [bind]. pose proof (Permutation_length P) as PL. rewrite app_length in PL. cbn in PL.
    destruct (IH l2 (pre ++ l1 ++ [k]) post s1) as (l2' & s2 & P2 & C2 & R2); [lia|].
    assert (E2 : length (pre ++ l1 ++ [k]) = length pre + length l1 + 1) by (rewrite !app_length; cbn; lia). rewrite E2 in R2.
    replace (length pre + length l1 + 1 + length l2) with (length pre + length l) in R2 by lia.
    replace ((pre ++ l1 ++ [k]) ++ l2 ++ post) with (pre ++ (l1 ++ k :: l2) ++ post) in R2 by (rewrite <- !app_assoc; reflexivity).
    rewrite R2. cbn [bind]. destruct (IH l1 pre ([k] ++ l2' ++ post) s2) as (l1' & s3 & P1 & C1 & R1); [lia|].
    replace ((pre ++ l1 ++ [k]) ++ l2' ++ post) with (pre ++ l1 ++ [k] ++ l2' ++ post) by (rewrite <- !app_assoc; reflexivity).
    rewrite R1. exists (l1' ++ k :: l2'), s3. split; [now rewrite P, P1, P2|]. split.
    + eapply (quadratic (length l2) (length l1)); [|exact C|exact C2|exact C1|reflexivity]. lia.
    + rewrite <- !app_assoc. reflexivity.
Qed.

Lemma sort_any N fuel l pre post s : 1 <= N -> length l <= fuel ->
  exists l' s', Permutation l l' /\ 2 * asked s' <= 2 * asked s + length l * (length l + 5) /\
    intro_sortS lt N fuel (pre ++ l ++ post) (length pre) (length pre + length l) s = Ok (pre ++ l' ++ post, s').
Proof using one.
  intros HN HL. unfold intro_sortS.
  destruct (Nat.ltb_spec (length pre) (length pre + length l)) as [H|H].
  2:{ assert (l = []) by (destruct l; cbn in *; auto; lia). subst. exists [], s. split; [reflexivity|]. split; [lia|reflexivity]. }
  replace (length pre + length l - length pre) with (length l) by lia. cbv zeta.
  destruct (Nat.ltb_spec (length l) N).
  - destruct (insertion_any l pre post s) as (l' & s' & P & C & R). exists l', s'. split; [assumption|]. split; [nia|assumption].
  - destruct (partition_any pre l post s) as (l1 & k & l2 & s1 & P & C & R). { intros ->. cbn in *. lia. }
    rewrite R. cbn [bind]. pose proof (Permutation_length P) as PL. rewrite app_length in PL. cbn in PL.
    destruct (rec_any N HN fuel l1 pre ([k] ++ l2 ++ post) s1) as (l1' & s2 & P1 & C1 & R1); [lia|].
    replace (pre ++ (l1 ++ k :: l2) ++ post) with (pre ++ l1 ++ [k] ++ l2 ++ post) by (rewrite <- !app_assoc; reflexivity).
    rewrite R1. cbn [bind]. destruct (rec_any N HN fuel l2 (pre ++ l1' ++ [k]) post s2) as (l2' & s3 & P2 & C2 & R2); [lia|].
    assert (E2 : length (pre ++ l1' ++ [k]) = length pre + length l1 + 1) by (rewrite !app_length, (Permutation_length P1); cbn; lia). rewrite E2 in R2.
    replace (length pre + length l1 + 1 + length l2) with (length pre + length l) in R2 by lia.
    replace ((pre ++ l1' ++ [k]) ++ l2 ++ post) with (pre ++ l1' ++ [k] ++ l2 ++ post) in R2 by (rewrite <- !app_assoc; reflexivity).
    rewrite R2. exists (l1' ++ k :: l2'), s3. split; [now rewrite P, P1, P2|]. split.
    + eapply (quadratic (length l1) (length l2)); [|exact C|exact C1|exact C2|reflexivity]. lia.
    + rewrite <- !app_assoc. reflexivity.
Qed.

(** ** The binary searches *)
Lemma log2_half n : 0 < n -> Nat.log2_up (S (n / 2)) < Nat.log2_up (S n).
Proof.
  intro H. assert (E : Nat.log2_up (S n) = S (Nat.log2 n)) by (rewrite Nat.log2_up_eqn by lia; reflexivity). rewrite E.
  assert (L : Nat.log2_up (S (n / 2)) <= Nat.log2 n); [|lia].
  destruct (Nat.eq_dec n 1) as [->|N]; [cbn; lia|]. apply Nat.log2_up_le_pow2; [lia|].
  destruct (Nat.log2_spec n H) as [A1 A2]. set (q := Nat.log2 n) in *. destruct q; [cbn in A2; lia|]. rewrite Nat.pow_succ_r' in A2. assert (n / 2 < 2 ^ S q); [|lia]. apply Nat.div_lt_upper_bound; lia.
Qed.
Lemma log2_rest n : 0 < n -> Nat.log2_up (S (n - (n / 2 + 1))) < Nat.log2_up (S n).
Proof. intro H. eapply Nat.le_lt_trans; [|apply log2_half; exact H]. apply Nat.log2_up_le_mono. pose proof (Nat.div_mod n 2 ltac:(lia)). pose proof (Nat.mod_upper_bound n 2 ltac:(lia)). lia. Qed.

Lemma lower_any m k : forall fuel a n s, n <= fuel -> a + n <= length m ->
  exists r s', lower_loopS lt m k fuel a n s = Ok (r, s') /\ a <= r <= a + n /\ asked s' <= asked s + Nat.log2_up (S n).
Proof using one.
  induction fuel as [|fuel IH]; intros a n s Hf Hn.
  { assert (n = 0) by lia. subst n. exists a, s. split; [reflexivity|]. lia. }
  destruct n as [|n']; [exists a, s; split; [reflexivity|]; lia|]. cbn [lower_loopS]. set (n := S n') in *. assert (P : 0 < n) by (unfold n; lia). clearbody n. clear n'. cbv zeta.
  pose proof (log2_half n P). pose proof (log2_rest n P). pose proof (Nat.div_lt n 2 P ltac:(lia)). set (st := n / 2) in *. clearbody st.
  destruct (get_ex m (a + st)) as [x Ex]; [lia|]. rewrite Ex. cbn [bind]. call b s1 E. destruct b.
  - destruct (IH (a + st + 1) (n - (st + 1)) s1) as (r & s' & R & B & C); [lia|lia|]. exists r, s'. split; [exact R|]. lia.
  - destruct (IH a st s1) as (r & s' & R & B & C); [lia|lia|]. exists r, s'. split; [exact R|]. lia.
Qed.
Lemma upper_any m k : forall fuel a n s, n <= fuel -> a + n <= length m ->
  exists r s', upper_loopS lt m k fuel a n s = Ok (r, s') /\ a <= r <= a + n /\ asked s' <= asked s + Nat.log2_up (S n).
Proof using one.
  induction fuel as [|fuel IH]; intros a n s Hf Hn.
  { assert (n = 0) by lia. subst n. exists a, s. split; [reflexivity|]. lia. }
  destruct n as [|n']; [exists a, s; split; [reflexivity|]; lia|]. cbn [upper_loopS]. set (n := S n') in *. assert (P : 0 < n) by (unfold n; lia). clearbody n. clear n'. cbv zeta.
  pose proof (log2_half n P). pose proof (log2_rest n P). pose proof (Nat.div_lt n 2 P ltac:(lia)). set (st := n / 2) in *. clearbody st.
  destruct (get_ex m (a + st)) as [x Ex]; [lia|]. rewrite Ex. cbn [bind]. call b s1 E. destruct b.
  - destruct (IH a st s1) as (r & s' & R & B & C); [lia|lia|]. exists r, s'. split; [exact R|]. lia.
  - destruct (IH (a + st + 1) (n - (st + 1)) s1) as (r & s' & R & B & C); [lia|lia|]. exists r, s'. split; [exact R|]. lia.
Qed.

(** ** The heap *)
Lemma raise_any (d item : A) sz : forall fuel l n s, n < fuel -> n < sz -> sz <= length l ->
  exists l' s', heap_raiseS lt fuel l item n s = Ok (l', s') /\ length l' = length l /\ Permutation (firstn sz (upd l n item)) (firstn sz l') /\ asked s' <= asked s + Nat.log2 (S n).
Proof using one.
  induction fuel as [|fuel IH]; intros l n s HF Hn Hsz; [lia|]. cbn [heap_raiseS].
  assert (DONE : forall s1, asked s1 <= asked s + Nat.log2 (S n) -> exists l' s', (m <- set l n item ;; Ok (m, s1)) = Ok (l', s') /\ length l' = length l /\ Permutation (firstn sz (upd l n item)) (firstn sz l') /\ asked s' <= asked s + Nat.log2 (S n)).
  { intros s1 H1. exists (upd l n item), s1. rewrite set_Ok by lia. rewrite upd_length. auto. }
  destruct (Nat.ltb_spec 0 n) as [Hn0|Hn0]; [|apply DONE; lia]. cbv zeta.
  set (p := (n - 1) / 2) in *. assert (Hp : p < n) by (unfold p; pose proof (Nat.div_le_upper_bound (n - 1) 2 (n - 1)); lia).
  assert (Hl : S (Nat.log2 (S p)) <= Nat.log2 (S n)).
  { apply Nat.log2_le_pow2; [lia|]. rewrite Nat.pow_succ_r'. destruct (Nat.log2_spec (S p)) as [A1 _]; [lia|]. pose proof (Nat.div_mod (n - 1) 2 ltac:(lia)). fold p in H. lia. }
  rewrite (get_nth d) by lia. cbn [bind]. call b s1 E. destruct b; [|apply DONE; lia].
  rewrite set_Ok by lia. cbn [bind]. destruct (IH (upd l n (nth p l d)) p s1) as (l' & s' & R & L & P & C); rewrite ?upd_length; try lia.
  rewrite upd_length in L. exists l', s'. split; [assumption|]. split; [assumption|]. split; [|lia]. etransitivity; [|exact P]. apply swap_perm_firstn; lia.
Qed.

Lemma sift_any (d item : A) sz : forall fuel l n s, sz <= n + fuel -> n < sz -> sz <= length l ->
  exists l' s', heap_lowerS lt fuel sz l item n s = Ok (l', s') /\ length l' = length l /\ Permutation (firstn sz (upd l n item)) (firstn sz l') /\
    asked s' + 2 * Nat.log2 (S n) <= asked s + 2 * Nat.log2 sz.
Proof using one.
  induction fuel as [|fuel IH]; intros l n s HF Hn Hsz; [lia|]. cbn [heap_lowerS].
  assert (Hl : Nat.log2 (S n) <= Nat.log2 sz) by (apply Nat.log2_le_mono; lia).
  assert (DONE : forall s1, asked s1 + 2 * Nat.log2 (S n) <= asked s + 2 * Nat.log2 sz -> exists l' s', (m <- set l n item ;; Ok (m, s1)) = Ok (l', s') /\ length l' = length l /\ Permutation (firstn sz (upd l n item)) (firstn sz l') /\ asked s' + 2 * Nat.log2 (S n) <= asked s + 2 * Nat.log2 sz).
  { intros s1 H1. exists (upd l n item), s1. rewrite set_Ok by lia. rewrite upd_length. auto. }
  cbv zeta. destruct (Nat.leb_spec sz (n * 2 + 1)) as [Hc|Hc]; [apply DONE; lia|].
  assert (Hd : S (Nat.log2 (S n)) <= Nat.log2 sz).
  { apply Nat.log2_le_pow2; [lia|]. rewrite Nat.pow_succ_r'. destruct (Nat.log2_spec (S n)) as [A1 _]; [lia|]. lia. }
  assert (CH : exists p s1, (if n * 2 + 1 + 1 <? sz
      then x <- get l (n * 2 + 1 + 1) ;; y <- get l (n * 2 + 1) ;; let (less, s) := lt x y s in Ok (if less : bool then n * 2 + 1 + 1 else n * 2 + 1, s)
      else Ok (n * 2 + 1, s)) = Ok (p, s1) /\ n < p < sz /\ n * 2 + 1 <= p /\ asked s1 <= S (asked s)).
  { destruct (Nat.ltb_spec (n * 2 + 1 + 1) sz) as [H2|H2].
    - rewrite !(get_nth d) by lia. cbn [bind]. call b s1 E. exists (if b then n * 2 + 1 + 1 else n * 2 + 1), s1. split; [reflexivity|]. destruct b; lia.
    - exists (n * 2 + 1), s. split; [reflexivity|]. lia. }
  destruct CH as (p & s1 & -> & Hp & Hp2 & C1). cbn [bind]. rewrite (get_nth d) by lia. cbn [bind]. call b s2 E. destruct b; [apply DONE; lia|].
  rewrite set_Ok by lia. cbn [bind]. destruct (IH (upd l n (nth p l d)) p s2) as (l' & s' & R & L & P & C); rewrite ?upd_length; try lia.
  rewrite upd_length in L. exists l', s'. split; [assumption|]. split; [assumption|]. split; [etransitivity; [|exact P]; apply swap_perm_firstn; lia|].
  assert (S (Nat.log2 (S n)) <= Nat.log2 (S p)); [|lia]. apply Nat.log2_le_pow2; [lia|]. rewrite Nat.pow_succ_r'. destruct (Nat.log2_spec (S n)) as [A1 _]; [lia|]. lia.
Qed.
Definition holds (q : pq A) (bag : list A) : Prop := pq_size q <= length (pq_data q) /\ Permutation bag (firstn (pq_size q) (pq_data q)).
Lemma holds_len q bag : holds q bag -> length bag = pq_size q.
Proof. intros (L & P). rewrite (Permutation_length P), firstn_length. lia. Qed.

Lemma enqueue_any q bag x s : holds q bag ->
  exists q' s', (if length bag <? length (pq_data q) then enqueueS lt q x s = Ok (true, q', s') /\ holds q' (x :: bag) else enqueueS lt q x s = Ok (false, q', s') /\ q' = q) /\
    length (pq_data q') = length (pq_data q) /\ asked s' <= asked s + Nat.log2 (S (length bag)).
Proof using one.
  intro H. pose proof (holds_len _ _ H) as EL. destruct H as (L & P). unfold enqueueS. rewrite EL. destruct (Nat.ltb_spec (pq_size q) (length (pq_data q))) as [HN|HN].
  2:{ exists q, s. split; [auto|]. split; [reflexivity|lia]. }
  destruct (raise_any x x (S (pq_size q)) (S (pq_size q)) (pq_data q) (pq_size q) s) as (l' & s' & R & L' & P' & C); try lia.
  rewrite R. cbn [bind]. exists {| pq_size := S (pq_size q); pq_data := l' |}, s'. cbn [pq_size pq_data]. split; [|split; [assumption|assumption]]. split; [reflexivity|]. split; cbn [pq_size pq_data]; [lia|].
  rewrite P, <- P'. symmetry. apply firstn_S_upd. lia.
Qed.

Lemma dequeue_any q bag s : holds q bag -> 0 < length bag ->
  exists x rest q' s', pq_head q = Ok x /\ dequeueS lt q s = Ok (x, q', s') /\ Permutation bag (x :: rest) /\ holds q' rest /\ length (pq_data q') = length (pq_data q) /\
    asked s' <= asked s + 2 * Nat.log2 (length rest).
Proof using one.
  intros H HB. pose proof (holds_len _ _ H) as EL. destruct H as (SZ & P). destruct q as [size data]. cbn [pq_size pq_data] in *. unfold dequeueS, pq_head. cbn [pq_size pq_data].
  destruct data as [|x data]. { cbn in *. lia. }
  change (get (x :: data) 0) with (@Ok A x). cbn [bind]. destruct size as [|size]; [lia|]. cbn [length] in SZ.
  destruct (Nat.ltb_spec 0 size) as [H0|H0].
  - rewrite (get_nth x) by (cbn [length]; lia). cbn [bind]. set (last := nth size (x :: data) x).
    destruct (sift_any x last size (S size) (x :: data) 0 s) as (l' & s' & R & L' & P' & C); [lia|lia|cbn [length]; lia|].
    rewrite R. cbn [bind]. exists x, (firstn size l'). eexists. exists s'. split; [reflexivity|]. split; [reflexivity|]. cbn [pq_size pq_data]. split; [|split; [|split; [assumption|]]].
    + rewrite P. rewrite <- P'. cbn [firstn]. constructor. destruct size as [|size]; [lia|]. cbn [upd firstn]. unfold last. cbn [nth].
      assert (Hd : size < length data) by lia. clear -Hd.
      revert size Hd. induction data as [|a data IH]; intros size Hd; cbn in Hd; [lia|]. destruct size; cbn; [auto|]. rewrite perm_swap. constructor. apply IH. lia.
    + split; cbn [pq_size pq_data]; [rewrite L'; cbn [length]; lia|reflexivity].
    + rewrite firstn_length, L', Nat.min_l by (cbn [length]; lia). cbn [Nat.log2] in C. change (Nat.log2 1) with 0 in C. lia.
  - assert (size = 0) by lia. subst size. exists x, []. eexists. exists s. split; [reflexivity|]. split; [reflexivity|]. cbn [pq_size pq_data]. split; [exact P|]. split; [split; cbn [pq_size pq_data length]; [lia|reflexivity]|]. split; [reflexivity|cbn; lia].
Qed.

Lemma run_any : forall os q bag s, holds q bag -> well_used (length (pq_data q)) (length bag) os ->
  exists rs s', pq_runS lt q os s = Ok (rs, s') /\ bag_run (length (pq_data q)) bag os rs.
Proof using one.
  induction os as [|o os IH]; intros q bag s H WU; [exists [], s; split; [reflexivity|constructor]|].
  cbn [pq_runS]. pose proof (holds_len _ _ H) as EL. destruct o as [x| | |]; cbn [pq_stepS well_used] in *.
  - destruct (enqueue_any q bag x s H) as (q' & s1 & E & L & _). destruct (Nat.ltb_spec (length bag) (length (pq_data q))) as [B|B]; destruct E as [E Hq]; rewrite E; cbn [bind].
    + destruct (IH q' (x :: bag) s1 Hq) as (rs & s' & R & Sp); [rewrite L; exact WU|]. rewrite R. cbn [bind]. rewrite L in Sp. exists (RBool true :: rs), s'. split; [reflexivity|]. now constructor.
    + subst q'. destruct (IH q bag s1 H WU) as (rs & s' & R & Sp). rewrite R. cbn [bind]. exists (RBool false :: rs), s'. split; [reflexivity|]. constructor; [|assumption]. destruct H. lia.
  - destruct WU as [Hn WU]. destruct (dequeue_any q bag s H Hn) as (x & rest & q' & s1 & _ & E & P & Hq & L & _). rewrite E. cbn [bind].
    destruct (IH q' rest s1 Hq) as (rs & s' & R & Sp). { rewrite L. rewrite (Permutation_length P) in WU. cbn [length] in WU. now rewrite Nat.sub_succ, Nat.sub_0_r in WU. }
    rewrite R. cbn [bind]. rewrite L in Sp. exists (RItem x :: rs), s'. split; [reflexivity|]. eapply bag_dequeue; eassumption.
  - destruct WU as [Hn WU]. destruct (dequeue_any q bag s H Hn) as (x & rest & q' & s1 & Hh & E & P & Hq & L & _). rewrite Hh. cbn [bind].
    destruct (IH q bag s H WU) as (rs & s' & R & Sp). rewrite R. cbn [bind]. exists (RItem x :: rs), s'. split; [reflexivity|]. constructor; [|intros os' ->|assumption].
    + eapply Permutation_in; [symmetry; exact P|now left].
    + cbn [pq_runS pq_stepS] in R. rewrite E in R. cbn [bind] in R. destruct (pq_runS lt q' os' s1) as [[rs1 s2]| |]; cbn [bind] in R; try discriminate R. injection R as <- _. exists rs1. reflexivity.
  - cbn [bind]. destruct (IH q bag s H WU) as (rs & s' & R & Sp). rewrite R. cbn [bind]. unfold pq_empty. rewrite <- EL. exists (RBool (length bag <? 1) :: rs), s'. split; [reflexivity|].
    replace (length bag <? 1) with (match bag with [] => true | _ => false end) by (destruct bag; reflexivity). now constructor.
Qed.
End Any.

(** ** The counting functions of Cost_Model are these, with a counter for the state *)
Section Counted.
Context {A : Type} (lt : A -> A -> bool).
Local Notation ct := (counting lt).

Lemma inner_counted d : forall m a k c, ins_innerS ct m a k d c = ins_innerC lt m a k d c.
Proof.
  induction d as [|d IH]; intros m a k c; cbn [ins_innerS ins_innerC]; [reflexivity|]. destruct (get m _) as [x| |]; cbn [bind]; [|reflexivity..].
  unfold counting at 1. destruct (lt k x); [|reflexivity]. destruct (set m _ _); cbn [bind]; auto.
Qed.
Lemma outer_counted n : forall m a d c, ins_outerS ct m a d n c = ins_outerC lt m a d n c.
Proof.
  induction n as [|n IH]; intros m a d c; cbn [ins_outerS ins_outerC]; [reflexivity|]. destruct (get m _) as [k| |]; cbn [bind]; [|reflexivity..]. rewrite inner_counted.
  destruct (ins_innerC lt m a k d c) as [[m1 c1]| |]; cbn [bind]; auto.
Qed.
Lemma insertion_counted m a b c : insertion_sortS ct m a b c = insertion_sortC lt m a b c.
Proof. apply outer_counted. Qed.
Lemma median_counted m a b c k : medianS ct m a b c k = medianC lt m a b c k.
Proof.
  unfold medianS, medianC. destruct (get m a) as [x| |]; cbn [bind]; [|reflexivity..]. destruct (get m b) as [y| |]; cbn [bind]; [|reflexivity..]. destruct (get m c) as [z| |]; cbn [bind]; [|reflexivity..].
  unfold counting. replace (k + 2) with (S (S k)) by lia. replace (k + 3) with (S (S (S k))) by lia.
  destruct (lt x y); [destruct (lt y z)|destruct (lt z y)]; try reflexivity; destruct (lt x z); reflexivity.
Qed.
Lemma part_counted n : forall m k p q c, part_loopS ct m k p q n c = part_loopC lt m k p q n c.
Proof.
  induction n as [|n IH]; intros m k p q c; cbn [part_loopS part_loopC]; [reflexivity|]. destruct (get m q) as [x| |]; cbn [bind]; [|reflexivity..].
  unfold counting at 1. destruct (lt x k); [|apply IH]. destruct (swap m p q); cbn [bind]; auto.
Qed.
Lemma partition_counted m a b c : partitionS ct m a b c = partitionC lt m a b c.
Proof.
  unfold partitionS, partitionC. cbv zeta. destruct (b =? 0); [reflexivity|]. rewrite median_counted. destruct (medianC lt m a (b - 1) _ c) as [[m1 c1]| |]; cbn [bind]; [|reflexivity..].
  destruct (get m1 _) as [k| |]; cbn [bind]; [|reflexivity..]. now rewrite part_counted.
Qed.
Lemma rec_counted N fuel : forall m a b c, intro_recS ct N fuel m a b c = intro_recC lt N fuel m a b c.
Proof.
  induction fuel as [|fuel IH]; intros m a b c; cbn [intro_recS intro_recC]; [reflexivity|]. destruct (b - a <? N); [apply insertion_counted|]. rewrite partition_counted.
  destruct (partitionC lt m a b c) as [[[m1 p] c1]| |]; cbn [bind]; [|reflexivity..]. rewrite IH. destruct (intro_recC lt N fuel m1 (p + 1) b c1) as [[m2 c2]| |]; cbn [bind]; auto.
Qed.
Lemma sort_counted N fuel m a b : intro_sortS ct N fuel m a b 0 = intro_sortC lt N fuel m a b.
Proof.
  unfold intro_sortS, intro_sortC. destruct (a <? b); [|reflexivity]. cbv zeta. destruct (b - a <? N); [apply insertion_counted|]. rewrite partition_counted.
  destruct (partitionC lt m a b 0) as [[[m1 p] c1]| |]; cbn [bind]; [|reflexivity..]. rewrite rec_counted. destruct (intro_recC lt N fuel m1 a p c1) as [[m2 c2]| |]; cbn [bind]; [|reflexivity..]. apply rec_counted.
Qed.
Lemma lower_counted m k : forall fuel a n c, lower_loopS ct m k fuel a n c = bound_loopC (fun x => lt x k) m fuel a n c.
Proof.
  induction fuel as [|fuel IH]; intros a n c; cbn [lower_loopS bound_loopC]; destruct n as [|n]; try reflexivity. cbv zeta. destruct (get m _) as [x| |]; cbn [bind]; [|reflexivity..].
  unfold counting at 1. destruct (lt x k); apply IH.
Qed.
Lemma upper_counted m k : forall fuel a n c, upper_loopS ct m k fuel a n c = bound_loopC (fun x => negb (lt k x)) m fuel a n c.
Proof.
  induction fuel as [|fuel IH]; intros a n c; cbn [upper_loopS bound_loopC]; destruct n as [|n]; try reflexivity. cbv zeta. destruct (get m _) as [x| |]; cbn [bind]; [|reflexivity..].
  unfold counting at 1. destruct (lt k x); cbn [negb]; apply IH.
Qed.
Lemma raise_counted fuel : forall data item n c, heap_raiseS ct fuel data item n c = heap_raiseC lt fuel data item n c.
Proof.
  induction fuel as [|fuel IH]; intros data item n c; cbn [heap_raiseS heap_raiseC]; [reflexivity|]. destruct (0 <? n); [|reflexivity]. cbv zeta. destruct (get data _) as [x| |]; cbn [bind]; [|reflexivity..].
  unfold counting at 1. destruct (lt item x); [|reflexivity]. destruct (set data n x); cbn [bind]; auto.
Qed.
Lemma sift_counted fuel size : forall data item n c, heap_lowerS ct fuel size data item n c = heap_lowerC lt fuel size data item n c.
Proof.
  induction fuel as [|fuel IH]; intros data item n c; cbn [heap_lowerS heap_lowerC]; [reflexivity|]. cbv zeta. destruct (size <=? n * 2 + 1); [reflexivity|].
  assert (E : forall p c, (dp <- get data p ;; let (less, s) := ct item dp c in if less then data <- set data n item ;; Ok (data, s) else data <- set data n dp ;; heap_lowerS ct fuel size data item p s) =
    (dp <- get data p ;; if lt item dp then data <- set data n item ;; Ok (data, S c) else data <- set data n dp ;; heap_lowerC lt fuel size data item p (S c))).
  { intros p c1. destruct (get data p) as [x| |]; cbn [bind]; [|reflexivity..]. unfold counting at 1. destruct (lt item x); [reflexivity|]. destruct (set data n x); cbn [bind]; auto. }
  destruct (n * 2 + 1 + 1 <? size); [|cbn [bind]; apply E]. destruct (get data (n * 2 + 1 + 1)) as [x| |]; cbn [bind]; [|reflexivity..]. destruct (get data (n * 2 + 1)) as [y| |]; cbn [bind]; [|reflexivity..].
  unfold counting at 1. cbn [bind]. apply E.
Qed.
Lemma enqueue_counted q x : enqueueS ct q x 0 = enqueueC lt q x.
Proof. unfold enqueueS, enqueueC. now rewrite raise_counted. Qed.
Lemma dequeue_counted q : dequeueS ct q 0 = dequeueC lt q.
Proof. unfold dequeueS, dequeueC. destruct (get (pq_data q) 0); cbn [bind]; [|reflexivity..]. destruct (pq_size q) as [|size]; [reflexivity|]. destruct (0 <? size); [|reflexivity]. destruct (get (pq_data q) size); cbn [bind]; [|reflexivity..]. now rewrite sift_counted. Qed.
End Counted.
