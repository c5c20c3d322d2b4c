(** C83: pairs of consecutive results of xoroshiro64**, and the results of next64. *)
From Coq Require Import Znumtheory.
From Verif Require Import Base Bits Random_Model Random_Spec Xoroshiro_Proofs Random_Proofs RandomOut_Props.
Local Open Scope Z_scope.

Lemma lshl_lshl w x j k : 0 <= w -> 0 <= j -> 0 <= k -> lshl w (lshl w x j) k = lshl w x (j + k).
Proof.
  intros Hw Hj Hk. unfold lshl. apply Z.bits_inj'. intros i Hi. rewrite !Z.land_spec, !Z.shiftl_spec by lia.
  destruct (Z_lt_ge_dec i k) as [L|L].
  - rewrite (Z.testbit_neg_r _ (i - k)), (Z.testbit_neg_r x) by lia. reflexivity.
  - rewrite Z.land_spec, Z.shiftl_spec by lia. replace (i - (j + k)) with (i - k - j) by lia.
    destruct (Z_lt_ge_dec i w) as [W|W].
    + rewrite !Z.ones_spec_low by lia. now rewrite !Bool.andb_true_r.
    + rewrite (Z.ones_spec_high w i) by lia. now rewrite !Bool.andb_false_r.
Qed.
Lemma lshl_big w x k : 0 <= w <= k -> lshl w x k = 0.
Proof.
  intro H. unfold lshl. rewrite Z.land_ones by lia. rewrite Z.shiftl_mul_pow2 by lia.
  replace k with (k - w + w) by lia. rewrite Z.pow_add_r, Z.mul_assoc by lia. apply Z.mod_mul. apply Z.pow_nonzero; lia.
Qed.

Lemma lshl_in x k : 0 <= lshl 32 x k < 2 ^ 32.
Proof. unfold lshl. rewrite Z.land_ones by lia. apply Z.mod_pos_bound. lia. Qed.

(** x ^ (x << 9) is one to one. *)
Definition g9 (x : Z) : Z := Z.lxor x (lshl 32 x 9).
Definition h9 (x : Z) : Z := Z.lxor (Z.lxor x (lshl 32 x 9)) (Z.lxor (lshl 32 x 18) (lshl 32 x 27)).
Lemma gh9 x : g9 (h9 x) = x.
Proof. unfold g9, h9. rewrite !lshl_lxor, !lshl_lshl by lia. change (9 + 9) with 18; change (18 + 9) with 27; change (27 + 9) with 36; change (9 + 18) with 27; change (9 + 27) with 36. rewrite (lshl_big 32 x 36) by lia. xor_solve. Qed.
Lemma hg9 x : h9 (g9 x) = x.
Proof. unfold g9, h9. rewrite !lshl_lxor, !lshl_lshl by lia. change (9 + 9) with 18; change (18 + 9) with 27; change (27 + 9) with 36; change (9 + 18) with 27; change (9 + 27) with 36. rewrite (lshl_big 32 x 36) by lia. xor_solve. Qed.
Lemma h9_range x : 0 <= x < 2 ^ 32 -> 0 <= h9 x < 2 ^ 32.
Proof. intro H. unfold h9. apply lxor_range; [lia|apply lxor_range; [lia|exact H|apply lshl_in]|apply lxor_range; [lia|apply lshl_in..]]. Qed.

(** The two results from a state, and the state with given results. *)
Definition two (s : state) (v w : Z) : Prop := exists t u, next64ss s = Ok (v, t) /\ next64ss t = Ok (w, u).

Lemma T_fst a b : fst (T 32 26 9 13 (a, b)) = Z.lxor (lrot 32 a 26) (g9 (Z.lxor b a)).
Proof. unfold T, g9. cbn [fst]. now rewrite Z.lxor_assoc. Qed.

Lemma two_state v w : 0 <= v < 2 ^ 32 -> 0 <= w < 2 ^ 32 -> exists s, words 32 s /\ (s = (0, 0) <-> v = 0 /\ w = 0) /\
  forall s', words 32 s' -> (two s' v w <-> s' = s).
Proof.
  intros Hv Hw. destruct (out64 v Hv) as (a & Ha & Za & Oa). destruct (out64 w Hw) as (c & Hc & Zc & Oc).
  assert (RA := lrot_range 32 a 26 ltac:(lia) Ha).
  set (x := h9 (Z.lxor (lrot 32 a 26) c)). assert (Hx : 0 <= x < 2 ^ 32) by (apply h9_range; apply lxor_range; [lia|assumption..]).
  set (b := Z.lxor x a). assert (Hb : 0 <= b < 2 ^ 32) by (apply lxor_range; [lia|assumption..]).
  exists (a, b). split; [split; assumption|]. split.
  - rewrite <- Za, <- Zc. split.
    + intro E. injection E as -> E. split; [reflexivity|]. unfold b in E. rewrite Z.lxor_0_r in E. 
      assert (G := gh9 (Z.lxor (lrot 32 0 26) c)). fold x in G. rewrite E in G. cbn in G. symmetry. exact G.
    + intros [-> ->]. reflexivity.
  - assert (STEP : forall s', words 32 s' -> exists r, next64ss s' = Ok (r, T 32 26 9 13 s') /\ words 32 (T 32 26 9 13 s')).
    { intros s' W. destruct (next64ss_T s' W) as (r & E). exists r. split; [exact E|]. apply T_words; [lia..|exact W]. }
    intros [a' b'] W. destruct (STEP _ W) as (r & E & WT). unfold two. split.
    + intros (t & u & E1 & E2). assert (Ha' : a' = a) by (apply (Oa (a', b') W); eauto). subst a'.
      rewrite E in E1. injection E1 as -> <-. assert (F : fst (T 32 26 9 13 (a, b')) = c) by (apply (Oc _ WT); eauto).
      rewrite T_fst in F. f_equal. unfold b, x. rewrite <- F.
      replace (Z.lxor (lrot 32 a 26) (Z.lxor (lrot 32 a 26) (g9 (Z.lxor b' a)))) with (g9 (Z.lxor b' a)) by xor_solve. rewrite hg9. xor_solve.
    + intro Q. injection Q as -> ->. destruct (proj2 (Oa (a, b) W) eq_refl) as (t & E1). rewrite E in E1. injection E1 as -> <-.
      assert (F : fst (T 32 26 9 13 (a, b)) = c).
      { rewrite T_fst. unfold b. replace (Z.lxor (Z.lxor x a) a) with x by xor_solve. unfold x. rewrite gh9. xor_solve. }
      destruct (proj2 (Oc _ WT) F) as (u & E2). exists (T 32 26 9 13 (a, b)), u. split; [exact E|exact E2].
Qed.

(** C83: two consecutive results determine the state, so all later results. *)
Theorem C83_predictable : forall s s' v w, words 32 s -> words 32 s' -> 0 <= v < 2 ^ 32 -> 0 <= w < 2 ^ 32 -> two s v w -> two s' v w -> s = s'.
Proof.
  intros s s' v w W W' Hv Hw H H'. destruct (two_state v w Hv Hw) as (x & _ & _ & U). apply (U s W) in H. apply (U s' W') in H'. congruence.
Qed.
Print Assumptions C83_predictable.

(** C83: over a period every pair of numbers but (0, 0) comes exactly once as two consecutive results, and (0, 0) never. *)
Theorem C83_pairs : forall s v w, nonzero_words 32 s -> 0 <= v < 2 ^ 32 -> 0 <= w < 2 ^ 32 ->
  has_count (fun k => 0 <= k < 2 ^ 64 - 1 /\ nth_output next64ss (Z.to_N k) s = Ok v /\ nth_output next64ss (Z.to_N (k + 1)) s = Ok w)
    (if (v =? 0) && (w =? 0) then 0 else 1).
Proof.
  intros s v w Hs Hv Hw. destruct cycle64 as (C1 & C2 & C3). destruct (two_state v w Hv Hw) as (x & Wx & Zx & U).
  set (L := if (v =? 0) && (w =? 0) then [] else [x]).
  assert (N : NoDup L) by (unfold L; destruct ((v =? 0) && (w =? 0)); repeat constructor; intros []).
  assert (LL : Z.of_nat (length L) = if (v =? 0) && (w =? 0) then 0 else 1) by (unfold L; destruct ((v =? 0) && (w =? 0)); reflexivity).
  assert (IL : forall t, nonzero_words 32 t -> (In t L <-> two t v w)).
  { intros t [Wt Nt]. rewrite (U t Wt). unfold L. destruct (Z.eqb_spec v 0) as [Ev|Ev], (Z.eqb_spec w 0) as [Ew|Ew]; cbn [andb In];
      (split; [intros [->|[]]; reflexivity|intros ->; now left]) || (split; [intros []|intros ->; apply Nt; now apply Zx]). }
  assert (F : Forall (nonzero_words 32) L).
  { unfold L. destruct ((v =? 0) && (w =? 0)) eqn:B; [constructor|]. constructor; [|constructor]. split; [exact Wx|]. intro E. apply Zx in E as [-> ->]. discriminate. }
  rewrite <- LL. eapply count_ext; [|apply (count_states next64ss (2 ^ 64 - 1) (nonzero_words 32) C1 C2 C3 s Hs L N F)].
  intro k. cbv beta. destruct (C3 s (Z.to_N k) Hs) as (t & E & Pt).
  assert (E' : 0 <= k -> after next64ss (Z.to_N (k + 1)) s = after next64ss 1 t).
  { intro K. replace (Z.to_N (k + 1)) with (1 + Z.to_N k)%N by lia. now apply after_add. }
  unfold nth_output. rewrite E. cbn [bind]. split.
  - intros (K & t' & T' & J). injection T' as <-. apply (IL t Pt) in J as (t1 & u & E1 & E2). split; [exact K|]. rewrite E1. cbn [bind]. split; [reflexivity|].
    rewrite E' by lia. unfold after. cbn [N.iter Pos.iter bind]. rewrite E1. cbn [bind]. rewrite E2. reflexivity.
  - intros (K & E1 & E2). split; [exact K|]. exists t. split; [reflexivity|]. apply (IL t Pt).
    apply bind_Ok_inv in E1 as ([o t1] & E1 & Q). injection Q as ->. rewrite E' in E2 by lia. unfold after in E2. cbn [N.iter Pos.iter bind] in E2.
    rewrite E1 in E2. cbn [bind] in E2. apply bind_Ok_inv in E2 as ([o u] & E2 & Q). injection Q as ->. exists t1, u. split; assumption.
Qed.
Print Assumptions C83_pairs.

(** Two calls of next are one of next64. *)
Lemma after_64 s k : nonzero_words 32 s -> after next64ss_64 k s = after next64ss (2 * k) s.
Proof.
  intro Hs. destruct cycle64 as (_ & _ & C3). revert k. apply N.peano_ind; [reflexivity|]. intros k IH.
  destruct (C3 s (2 * k)%N Hs) as (t & E & [Wt _]). destruct (C16_next64 t Wt) as (hi & t1 & lo & u & E1 & E2 & E3 & _).
  replace (2 * N.succ k)%N with (2 + 2 * k)%N by lia. rewrite (after_add next64ss 2 (2 * k) s t E).
  unfold after at 1. rewrite N.iter_succ. change (N.iter k _ (Ok s)) with (after next64ss_64 k s). rewrite IH, E. cbn [bind]. rewrite E3. cbn [bind].
  unfold after. cbn [N.iter Pos.iter bind]. rewrite E1. cbn [bind]. rewrite E2. reflexivity.
Qed.

(** C83: next64 returns to a state after the same 2^64 - 1 calls, and over them every 64 bit number but 0 comes exactly once. *)
Theorem C83_next64 : forall s, nonzero_words 32 s ->
  (forall k, after next64ss_64 k s = Ok s <-> (2 ^ 64 - 1 | Z.of_N k)) /\
  forall v, 0 <= v < 2 ^ 64 ->
    has_count (fun k => 0 <= k < 2 ^ 64 - 1 /\ nth_output next64ss_64 (Z.to_N k) s = Ok v) (if v =? 0 then 0 else 1).
Proof.
  destruct cycle64 as (C1 & C2 & C3).
  assert (D1 : forall s k, nonzero_words 32 s -> (after next64ss_64 k s = Ok s <-> (2 ^ 64 - 1 | Z.of_N k))).
  { intros s k Hs. rewrite after_64, C1 by exact Hs. replace (Z.of_N (2 * k)) with (2 * Z.of_N k) by lia. split.
    - intro H. apply (Gauss _ 2 _ H). apply bezout_rel_prime. apply (Bezout_intro _ _ _ 1 (- (2 ^ 63 - 1))). reflexivity.
    - apply Z.divide_mul_r. }
  assert (D2 : forall s t, nonzero_words 32 s -> nonzero_words 32 t -> exists k, Z.of_N k < 2 ^ 64 - 1 /\ after next64ss_64 k s = Ok t).
  { intros s t Hs Ht. destruct (C2 s t Hs Ht) as (j & Hj & Ej). destruct (N.Even_or_Odd j) as [[i Hi]|[i Hi]].
    - exists i. split; [lia|]. rewrite after_64 by exact Hs. now rewrite <- Hi.
    - exists (i + 2 ^ 63)%N. assert (2 ^ 63 = 9223372036854775808)%N by reflexivity. split; [lia|]. rewrite after_64 by exact Hs.
      replace (2 * (i + 2 ^ 63))%N with (j + (2 ^ 64 - 1))%N by (change (2 ^ 64 - 1)%N with (2 * 2 ^ 63 - 1)%N; lia).
      rewrite (after_add next64ss j (2 ^ 64 - 1) s s); [exact Ej|]. apply (C1 s _ Hs). apply Z.divide_refl. }
  assert (D3 : forall s k, nonzero_words 32 s -> exists t, after next64ss_64 k s = Ok t /\ nonzero_words 32 t).
  { intros s k Hs. rewrite after_64 by exact Hs. apply C3. exact Hs. }
  intros s Hs. split; [intro k; now apply D1|]. intros v Hv.
  assert (Bh : 0 <= v / 2 ^ 32 < 2 ^ 32) by (split; [apply Z.div_pos; lia|apply Z.div_lt_upper_bound; lia]).
  assert (Bl : 0 <= v mod 2 ^ 32 < 2 ^ 32) by (apply Z.mod_pos_bound; lia).
  assert (EV := Z.div_mod v (2 ^ 32) ltac:(lia)).
  destruct (two_state (v / 2 ^ 32) (v mod 2 ^ 32) Bh Bl) as (x & Wx & Zx & U).
  assert (ZV : x = (0, 0) <-> v = 0) by (rewrite Zx; split; [lia|intros ->; split; reflexivity]).
  set (L := if v =? 0 then [] else [x]).
  replace (if v =? 0 then 0 else 1) with (Z.of_nat (length L)) by (unfold L; destruct (v =? 0); reflexivity).
  apply (count_outputs next64ss_64 (2 ^ 64 - 1) (nonzero_words 32) D1 D2 D3 s v L Hs).
  { unfold L. destruct (v =? 0); repeat constructor. intros []. }
  assert (K : forall t, nonzero_words 32 t -> ((exists u, next64ss_64 t = Ok (v, u)) <-> t = x)).
  { intros t [Wt _]. rewrite <- (U t Wt). destruct (C16_next64 t Wt) as (hi & t1 & lo & u & E1 & E2 & E3 & B1 & B2). split.
    - intros (u' & E). assert (Q : v = hi * 2 ^ 32 + lo) by congruence.
      assert (Qh : v / 2 ^ 32 = hi) by (rewrite Q, Z.add_comm, Z.div_add, Z.div_small by lia; reflexivity).
      assert (Ql : v mod 2 ^ 32 = lo) by (rewrite Q, Z.add_comm, Z.mod_add, Z.mod_small by lia; reflexivity).
      rewrite Qh, Ql. exists t1, u. split; assumption.
    - intros (t' & u' & F1 & F2). rewrite E1 in F1. injection F1 as -> <-. rewrite E2 in F2. injection F2 as -> <-. exists u. rewrite E3. f_equal. f_equal. lia. }
  intro t. unfold L. split.
  - destruct (Z.eqb_spec v 0) as [E|E]; [intros []|]. intros [<-|[]]. assert (Px : nonzero_words 32 x) by (split; [exact Wx|]; now rewrite ZV). split; [exact Px|]. now apply K.
  - intros [Pt J]. apply (K t Pt) in J as ->. destruct (Z.eqb_spec v 0) as [E|E]; [|now left]. apply ZV in E. destruct Pt as [_ Pt]. contradiction.
Qed.
Print Assumptions C83_next64.

(** From (1, 2): the first two results, and the first result of next64. *)
Example C83_pairs_case : two (1, 2) 3802928447 813792938 /\ nth_output next64ss_64 0 (1, 2) = Ok (3802928447 * 2 ^ 32 + 813792938) /\ nonzero_words 32 (1, 2).
Proof.
  split; [do 2 eexists; split; reflexivity|]. split; [reflexivity|]. split; [split; cbn [fst snd]; lia|discriminate].
Qed.
