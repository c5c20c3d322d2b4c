(** How far from the rectangle a code that z_query reports can be. *)
From Coq Require Import List ZArith Lia Bool.
Import ListNotations.
From Verif Require Import Base Bits Zorder_Model Zorder_Spec Zorder_Proofs.
Local Open Scope Z_scope.

Lemma D_cell s a b : s = 0 \/ s = 1 -> code a -> code b -> cell a = cell b -> D s a = D s b.
Proof. intros Hs Ca Cb E. apply Z.bits_inj'. intros i Hi. rewrite <- !cell_D_bit by assumption. now rewrite E. Qed.
Lemma cell_code a b : code a -> code b -> D 0 a = D 0 b -> D 1 a = D 1 b -> cell a = cell b.
Proof. intros Ca Cb E0 E1. apply Z.le_antisymm; apply cell_mono; auto; lia. Qed.

(** c and c + 1 differ in one bit k upwards, and below it c has ones only. *)
Lemma successor_bits c : 0 <= c -> exists k, 0 <= k /\ (forall i, k < i -> Z.testbit c i = Z.testbit (c + 1) i) /\ Z.testbit c k = false /\ Z.testbit (c + 1) k = true /\
  (forall i, 0 <= i < k -> Z.testbit c i = true /\ Z.testbit (c + 1) i = false).
Proof.
  intro Hc. destruct (lt_bits_elim c (c + 1) Hc ltac:(lia)) as (k & Hk & T1 & T2 & A). exists k.
  split; [assumption|]. split; [exact A|]. split; [assumption|]. split; [assumption|].
  assert (W : 0 < 2 ^ k) by (apply Z.pow_pos_nonneg; lia).
  assert (E : (c + 1) / 2 ^ k = c / 2 ^ k + 1).
  { assert (L : c / 2 ^ k <> (c + 1) / 2 ^ k). { intro E. assert (Q : Z.testbit (c / 2 ^ k) 0 = Z.testbit ((c + 1) / 2 ^ k) 0) by now rewrite E. rewrite !Z.div_pow2_bits, !Z.add_0_l in Q by lia. congruence. }
    pose proof (Z.div_le_mono c (c + 1) (2 ^ k) W ltac:(lia)). assert ((c + 1) / 2 ^ k < c / 2 ^ k + 2); [|lia].
    apply Z.div_lt_upper_bound; [assumption|]. pose proof (Z.div_mod c (2 ^ k) ltac:(lia)). pose proof (Z.mod_pos_bound c (2 ^ k) W). nia. }
  pose proof (Z.div_mod c (2 ^ k) ltac:(lia)) as M1. pose proof (Z.mod_pos_bound c (2 ^ k) W) as M2. pose proof (Z.div_mod (c + 1) (2 ^ k) ltac:(lia)) as M3. pose proof (Z.mod_pos_bound (c + 1) (2 ^ k) W) as M4. rewrite E in M3.
  assert (Z1 : (c + 1) mod 2 ^ k = 0) by lia. assert (Z2 : c mod 2 ^ k = Z.ones k) by (rewrite Z.ones_equiv; lia).
  intros i Hi. split.
  - rewrite <- (Z.mod_pow2_bits_low c k i) by lia. rewrite Z2. apply Z.ones_spec_low. lia.
  - rewrite <- (Z.mod_pow2_bits_low (c + 1) k i) by lia. rewrite Z1. apply Z.bits_0.
Qed.

(** A number between two others that agree from bit k on agrees with them there. *)
Lemma between_bits a b z k : 0 <= k -> 0 <= a -> a <= z <= b -> (forall i, k <= i -> Z.testbit a i = Z.testbit b i) -> forall i, k <= i -> Z.testbit z i = Z.testbit a i.
Proof.
  intros Hk Ha Hz H. assert (E : a / 2 ^ k = b / 2 ^ k) by (apply Z.bits_inj'; intros i Hi; rewrite !Z.div_pow2_bits by lia; apply H; lia).
  assert (W : 0 < 2 ^ k) by (apply Z.pow_pos_nonneg; lia).
  assert (E' : z / 2 ^ k = a / 2 ^ k) by (pose proof (Z.div_le_mono a z (2 ^ k) W ltac:(lia)); pose proof (Z.div_le_mono z b (2 ^ k) W ltac:(lia)); lia).
  intros i Hi. replace i with ((i - k) + k) by lia. rewrite <- !Z.div_pow2_bits by lia. now rewrite E'.
Qed.
(** Numbers that agree from bit n on, one with zeros below and one with ones. *)
Lemma block_bits a b z n : 0 <= n -> (forall i, n <= i -> Z.testbit b i = Z.testbit a i) -> (forall i, n <= i -> Z.testbit z i = Z.testbit a i) ->
  (forall i, 0 <= i < n -> Z.testbit a i = false /\ Z.testbit b i = true) -> b = a + 2 ^ n - 1 /\ a <= z <= b.
Proof.
  intros Hn Hb Hz L. assert (W : 0 < 2 ^ n) by (apply Z.pow_pos_nonneg; lia).
  assert (Eb : b / 2 ^ n = a / 2 ^ n) by (apply Z.bits_inj'; intros i Hi; rewrite !Z.div_pow2_bits by lia; apply Hb; lia).
  assert (Ez : z / 2 ^ n = a / 2 ^ n) by (apply Z.bits_inj'; intros i Hi; rewrite !Z.div_pow2_bits by lia; apply Hz; lia).
  assert (Ma : a mod 2 ^ n = 0). { apply Z.bits_inj'. intros i Hi. rewrite Z.bits_0. destruct (Z_lt_ge_dec i n); [rewrite Z.mod_pow2_bits_low by lia; apply L; lia|apply Z.mod_pow2_bits_high; lia]. }
  assert (Mb : b mod 2 ^ n = Z.ones n). { apply Z.bits_inj'. intros i Hi. destruct (Z_lt_ge_dec i n); [rewrite Z.mod_pow2_bits_low, Z.ones_spec_low by lia; apply L; lia|rewrite Z.mod_pow2_bits_high, Z.ones_spec_high by lia; reflexivity]. }
  rewrite Z.ones_equiv in Mb. pose proof (Z.div_mod a (2 ^ n) ltac:(lia)). pose proof (Z.div_mod b (2 ^ n) ltac:(lia)). pose proof (Z.div_mod z (2 ^ n) ltac:(lia)). pose proof (Z.mod_pos_bound z (2 ^ n) W).
  rewrite Eb, Ez, Ma, Mb in *. lia.
Qed.

(** A box that is not split further, because its halves follow one another without a gap: it has the full height (or width) of a block, and the
    codes between its corners are in it in that direction, and within the block in the other. *)
Lemma last_box lo hi jo ji s q z : box lo hi -> code jo -> code ji -> s = 0 \/ s = 1 -> 0 <= q -> halves s q lo hi jo ji -> cell ji = cell jo + 1 ->
  code z -> cell lo <= cell z <= cell hi ->
  2 ^ q <= D (1 - s) hi - D (1 - s) lo + 1 /\ D (1 - s) lo <= D (1 - s) z <= D (1 - s) hi /\ D s lo - 2 ^ q < D s z < D s hi + 2 ^ q.
Proof.
  intros (Cl & Ch & B0 & B1) Cj Ci Hs Hq (A1 & A2 & A3 & A4 & A5 & A6 & A7 & A8 & A9) Hc Cz Hz.
  assert (Hs' : 1 - s = 0 \/ 1 - s = 1) by lia.
  destruct (successor_bits (cell jo) (proj1 (cell_range jo Cj))) as (k & Hk & Up & K0 & K1 & Low). rewrite <- Hc in Up, K1, Low.
  assert (W : 0 < 2 ^ q) by (apply Z.pow_pos_nonneg; lia).
  assert (R : forall t c, t = 0 \/ t = 1 -> code c -> 0 <= D t c) by (intros t c Ht Cc; apply D_range; assumption).
  (* the corners of the halves agree with lo and hi above bit q *)
  assert (X1 : forall i, q <= i -> Z.testbit (D s jo) i = Z.testbit (D s lo) i).
  { intros i Hi. assert (E : Z.testbit (Z.lxor (D s lo) (D s jo)) i = false) by (apply (bit_small _ q); [split; [apply Z.lxor_nonneg; split; intros; apply R; assumption|assumption]|lia]). rewrite Z.lxor_spec in E. destruct (Z.testbit (D s lo) i), (Z.testbit (D s jo) i); try reflexivity; discriminate. }
  assert (X2 : forall i, q <= i -> Z.testbit (D s ji) i = Z.testbit (D s hi) i).
  { intros i Hi. assert (E : Z.testbit (Z.lxor (D s ji) (D s hi)) i = false) by (apply (bit_small _ q); [split; [apply Z.lxor_nonneg; split; intros; apply R; assumption|assumption]|lia]). rewrite Z.lxor_spec in E. destruct (Z.testbit (D s ji) i), (Z.testbit (D s hi) i); try reflexivity; discriminate. }
  assert (X3 : forall i, q < i -> Z.testbit (D s lo) i = Z.testbit (D s hi) i).
  { intros i Hi. assert (E : Z.testbit (Z.lxor (D s lo) (D s hi)) i = false) by (apply (bit_small _ (q + 1)); [split; [apply Z.lxor_nonneg; split; intros; apply R; assumption|assumption]|lia]). rewrite Z.lxor_spec in E. destruct (Z.testbit (D s lo) i), (Z.testbit (D s hi) i); try reflexivity; discriminate. }
  assert (X4 : Z.testbit (D s jo) q <> Z.testbit (D s ji) q).
  { intro E. rewrite X1, X2 in E by lia. assert (Z.lxor (D s lo) (D s hi) < 2 ^ q); [|lia]. apply xor_below; [apply R; assumption|apply R; assumption|assumption|]. intros i Hi. destruct (Z.eq_dec i q) as [->|]; [assumption|apply X3; lia]. }
  (* the bit in which they differ is bit q of direction s *)
  assert (Hkk : k = s + 2 * q).
  { destruct (Z.lt_trichotomy k (s + 2 * q)) as [L|[E|L]]; [exfalso|assumption|exfalso].
    - apply X4. rewrite <- !cell_D_bit by assumption. apply Up. lia.
    - destruct (cell_bit_D jo k Cj Hk) as (t & i & Ht & Hi & Ek & _). subst k. rewrite !cell_D_bit in K0, K1 by assumption.
      destruct (Z.eq_dec t s) as [->|N]; [assert (q < i) by lia; rewrite X1 in K0 by lia; rewrite X2 in K1 by lia; rewrite X3 in K0 by lia; congruence|].
      replace t with (1 - s) in * by lia. rewrite A4 in K0. rewrite A5 in K1.
      assert (D (1 - s) hi < D (1 - s) lo); [|assert (D (1 - s) lo <= D (1 - s) hi) by (destruct Hs; subst s; assumption); lia].
      apply (lt_bits_intro _ _ i); [assumption|apply R; assumption|apply R; assumption|assumption|assumption|]. intros j Hj. rewrite <- A4, <- A5, <- !cell_D_bit by (assumption || lia). apply Up. lia. }
  (* lo, hi and z agree above it *)
  set (n := if s =? 0 then q else q + 1). assert (Hn : 0 <= n) by (unfold n; destruct (s =? 0); lia).
  assert (Hni : forall i, n <= i <-> k < (1 - s) + 2 * i) by (intro i; unfold n; destruct (Z.eqb_spec s 0); lia).
  assert (Other : forall i, n <= i -> Z.testbit (D (1 - s) hi) i = Z.testbit (D (1 - s) lo) i) by (intros i Hi; rewrite <- A4, <- A5, <- !cell_D_bit by (assumption || lia); apply Up; apply Hni; assumption).
  assert (Same : forall i, k + 1 <= i -> Z.testbit (cell lo) i = Z.testbit (cell hi) i).
  { intros i Hi. destruct (cell_bit_D lo i Cl ltac:(lia)) as (t & j & Ht & Hj & Ei & _). subst i. rewrite !cell_D_bit by assumption.
    destruct (Z.eq_dec t s) as [->|N]; [apply X3; lia|]. replace t with (1 - s) in * by lia. symmetry. apply Other. apply Hni. lia. }
  pose proof (between_bits (cell lo) (cell hi) (cell z) (k + 1) ltac:(lia) (proj1 (cell_range lo Cl)) Hz Same) as Bz.
  destruct (block_bits (D (1 - s) lo) (D (1 - s) hi) (D (1 - s) z) n Hn Other) as [E1 E2].
  { intros i Hi. rewrite <- !cell_D_bit by (assumption || lia). apply Bz. apply Hni in Hi. lia. }
  { intros i Hi. rewrite <- A4, <- A5, <- !cell_D_bit by (assumption || lia). apply and_comm, Low. split; [lia|]. assert (~ n <= i) as Q by lia. rewrite Hni in Q. lia. }
  split; [|split; [assumption|]].
  { rewrite E1. assert (2 ^ q <= 2 ^ n) by (apply Z.pow_le_mono_r; unfold n; destruct (s =? 0); lia). lia. }
  assert (Ez : D s z / 2 ^ (q + 1) = D s lo / 2 ^ (q + 1)) by (apply Z.bits_inj'; intros i Hi; rewrite !Z.div_pow2_bits by lia; rewrite <- !cell_D_bit by (assumption || lia); apply Bz; lia).
  assert (Eh : D s hi / 2 ^ (q + 1) = D s lo / 2 ^ (q + 1)) by (apply Z.bits_inj'; intros i Hi; rewrite !Z.div_pow2_bits by lia; symmetry; apply X3; lia).
  assert (Ej : D s ji / 2 ^ (q + 1) = D s lo / 2 ^ (q + 1)).
  { rewrite <- Eh. apply Z.bits_inj'; intros i Hi; rewrite !Z.div_pow2_bits by lia. apply X2. lia. }
  assert (Ej' : D s jo / 2 ^ (q + 1) = D s lo / 2 ^ (q + 1)) by (apply Z.bits_inj'; intros i Hi; rewrite !Z.div_pow2_bits by lia; apply X1; lia).
  replace (2 ^ (q + 1)) with (2 * 2 ^ q) in * by (rewrite Z.pow_add_r by lia; ring).
  set (w := 2 ^ q) in *. clearbody w. set (h := D s lo / (2 * w)) in *.
  pose proof (Z.div_mod (D s z) (2 * w) ltac:(lia)) as Dz. pose proof (Z.mod_pos_bound (D s z) (2 * w) ltac:(lia)) as Mz. rewrite Ez in Dz.
  pose proof (Z.div_mod (D s ji) (2 * w) ltac:(lia)) as Dj. pose proof (Z.mod_pos_bound (D s ji) (2 * w) ltac:(lia)) as Mj. rewrite Ej in Dj.
  pose proof (Z.div_mod (D s jo) (2 * w) ltac:(lia)) as Do. pose proof (Z.mod_pos_bound (D s jo) (2 * w) ltac:(lia)) as Mo. rewrite Ej' in Do.
  assert (J : D s ji = 2 * w * h + w).
  { apply Z.mod_divide in A1; [|lia]. destruct A1 as (e & Ee). clear - Ee W Dj Mj Do Mo A3. assert (L1 : 2 * h * w < e * w) by lia. assert (L2 : e * w < (2 * h + 2) * w) by lia. apply Z.mul_lt_mono_pos_r in L1, L2; [|assumption..]. assert (e = 2 * h + 1) by lia. subst e. lia. }
  lia.
Qed.

Section Near.
Variables lo0 hi0 : Z.
Hypothesis Hhi0 : hi0 < 2 ^ 64 - 65535.

(** In the cell after the upper corner's, or in the rectangle's cells in one direction and outside of them in the other by no more than
    it has cells in the first. *)
Definition near (z : Z) : Prop := cell z = cell hi0 + 1 \/
  exists s, (s = 0 \/ s = 1) /\ D (1 - s) lo0 <= D (1 - s) z <= D (1 - s) hi0 /\
    D s lo0 - (D (1 - s) hi0 - D (1 - s) lo0 + 1) < D s z < D s hi0 + (D (1 - s) hi0 - D (1 - s) lo0 + 1).

Definition within (lo hi : Z) : Prop := box lo hi /\ hi <= hi0 /\ (hi = hi0 \/ hi mod 2 ^ 16 = 0) /\
  (D 0 lo0 <= D 0 lo /\ D 0 hi <= D 0 hi0) /\ (D 1 lo0 <= D 1 lo /\ D 1 hi <= D 1 hi0).

Lemma within_s lo hi s : within lo hi -> s = 0 \/ s = 1 -> D s lo0 <= D s lo /\ D s lo <= D s hi /\ D s hi <= D s hi0.
Proof. intros ((_ & _ & B0 & B1) & _ & _ & W0 & W1) [-> | ->]; lia. Qed.

Lemma wrap_ffff h : code h -> h <= hi0 -> u64 (h + 65535) = h + 65535.
Proof using Hhi0. unfold code. intros. unfold u64. apply Z.mod_small. lia. Qed.

Lemma pop_within spans : forall lo hi zn, within lo hi -> Forall (fun p => within (fst p) (snd p)) spans ->
  match z_pop zn lo hi spans with
  | None => True
  | Some (lo', hi', spans') => within lo' hi' /\ Forall (fun p => within (fst p) (snd p)) spans' /\ zn <= hi' + 65535
  end.
Proof using Hhi0.
  induction spans as [|(l, h) r IH]; intros lo hi zn Wi F; cbn [z_pop]; pose proof Wi as (Bx & Hh & _);
    rewrite wrap_ffff by (try assumption; apply Bx); destruct (Z.ltb_spec (hi + 65535) zn); auto.
  inversion F as [|? ? F1 F2]; subst. cbn [fst snd] in F1. apply IH; assumption.
Qed.

Lemma found_near lo hi zn jo ji : within lo hi -> z_split lo hi = (false, jo, ji) -> code zn -> lo <= zn <= hi + 65535 -> near zn.
Proof using Hhi0.
  intros Wi E Cz Hz. pose proof Wi as (Bx & Hh & Hm & _). pose proof Bx as (Cl & Ch & _).
  assert (C1 : cell lo <= cell zn) by (unfold cell; apply Z.div_le_mono; lia).
  assert (C2 : cell zn <= cell hi \/ (hi = hi0 /\ cell zn = cell hi0 + 1)).
  { destruct Hm as [-> |M].
    - destruct (Z_le_gt_dec (cell zn) (cell hi0)); [now left|right]. split; [reflexivity|]. pose proof (cell_bounds zn). pose proof (cell_bounds hi0). lia.
    - left. apply masked in M. pose proof (cell_bounds zn). lia. }
  destruct C2 as [C2|[_ C2]]; [|now left].
  right. pose proof (split_spec lo hi Bx) as Sp. pose proof (z_split_eq lo hi) as Se. rewrite E in Sp, Se. injection Se as Em E1 E2. rewrite <- E1, <- E2 in Em. clear E1 E2.
  destruct Sp as (Cj & Ci & Mj & Mi & [[Ec _]|(Jc & s & q & Hs & Hq & H)]).
  - exists 0. split; [now left|]. change (1 - 0) with 1.
    assert (E0 : D 0 zn = D 0 lo) by (apply D_cell; auto; lia). assert (E1 : D 1 zn = D 1 lo) by (apply D_cell; auto; lia).
    pose proof (within_s lo hi 0 Wi ltac:(auto)). pose proof (within_s lo hi 1 Wi ltac:(auto)). lia.
  - symmetry in Em. apply Z.ltb_ge in Em. pose proof (masked _ Mj) as Nj. pose proof (masked _ Mi) as Ni.
    assert (Hc : cell ji = cell jo + 1). { unfold u64 in Em. rewrite Z.mod_small in Em by (unfold code in *; lia). lia. }
    destruct (last_box lo hi jo ji s q zn Bx Cj Ci Hs ltac:(lia) H Hc Cz ltac:(lia)) as (L1 & L2 & L3).
    exists s. split; [assumption|].
    pose proof (within_s lo hi s Wi Hs). pose proof (within_s lo hi (1 - s) Wi ltac:(lia)). lia.
Qed.

Lemma descend_near fuel : forall test zn lo hi spans, within lo hi -> Forall (fun p => within (fst p) (snd p)) spans -> code zn -> zn <= hi + 65535 ->
  (test = false -> lo <= zn) ->
  match z_descend fuel test zn lo hi spans with
  | Ok (found, lo', hi', spans') => within lo' hi' /\ Forall (fun p => within (fst p) (snd p)) spans' /\ (found = true -> near zn)
  | _ => True
  end.
Proof using Hhi0.
  induction fuel as [|fuel IH]; intros test zn lo hi spans Wi F Hz Hhi Ht; cbn [z_descend]; [exact I|].
  destruct (test && (zn <? lo)) eqn:Et; [split; [assumption|split; [assumption|discriminate]]|].
  assert (Lz : lo <= zn) by (destruct test; [apply Z.ltb_ge; exact Et | auto]).
  pose proof Wi as (Bx & Hh & Hm & W0 & W1). pose proof (split_spec lo hi Bx) as Sp. destruct (z_split lo hi) as [[more mo] mi] eqn:Es.
  destruct more.
  2:{ split; [assumption|]. split; [assumption|]. intros _. eapply found_near; [exact Wi|exact Es|assumption|lia]. }
  destruct Sp as (Cj & Ci & Mj & Mi & [[_ E]|(Jc & s & q & Hs & Hq & H)]); [discriminate|].
  destruct (halves_box s q lo hi mo mi Bx Cj Ci Hs H) as (B1 & B2 & _).
  pose proof (box_cells _ _ B1) as K1. pose proof (box_cells _ _ B2) as K2.
  assert (Mo : mo <= hi) by (apply masked in Mj; pose proof (cell_bounds hi); lia).
  assert (V1 : within lo mo).
  { split; [assumption|]. split; [lia|]. split; [now right|]. destruct H as (_ & A2 & A3 & A4 & _). destruct Hs; subst s; [change (1 - 0) with 1 in *|change (1 - 1) with 0 in *]; lia. }
  assert (V2 : within mi hi).
  { split; [assumption|]. split; [lia|]. split; [assumption|]. destruct H as (_ & A2 & A3 & A4 & A5 & _). destruct Hs; subst s; [change (1 - 0) with 1 in *|change (1 - 1) with 0 in *]; lia. }
  rewrite wrap_ffff by (auto; lia). destruct (Z.ltb_spec (mo + 65535) zn) as [L|L].
  - apply IH; auto. discriminate.
  - destruct (Z.leb_spec 32 (Z.of_nat (length spans))); [exact I|]. apply IH; auto.
Qed.

Lemma loop_near fuel data last : Forall code data -> forall i lo hi spans out, within lo hi -> Forall (fun p => within (fst p) (snd p)) spans -> Forall near out ->
  match z_loop fuel data last i lo hi spans out with Ok r => Forall near r | _ => True end.
Proof using Hhi0.
  intro Cd. induction fuel as [|fuel IH]; intros i lo hi spans out Wi F Fo; cbn [z_loop].
  { destruct (i <? last); [exact I|assumption]. }
  destruct (i <? last); [|assumption].
  destruct (getz data i) as [zn| |] eqn:Eg; cbn [bind]; auto.
  assert (Cn : code zn).
  { unfold getz, get in Eg. destruct (i <? 0); [discriminate|]. destruct (nth_error data (Z.to_nat i)) eqn:En; [|discriminate]. injection Eg as ->. apply nth_error_In in En. rewrite Forall_forall in Cd. auto. }
  pose proof (pop_within spans lo hi zn Wi F) as Pp. destruct (z_pop zn lo hi spans) as [[[lo1 hi1] spans1]|]; [|assumption].
  destruct Pp as (Wi1 & F1 & Z1).
  pose proof (descend_near 64 true zn lo1 hi1 spans1 Wi1 F1 Cn Z1 ltac:(discriminate)) as De.
  destruct (z_descend 64 true zn lo1 hi1 spans1) as [[[[found lo2] hi2] spans2]| |]; cbn [bind]; auto.
  destruct De as (Wi2 & F2 & Nz). destruct found.
  - apply IH; [assumption..|]. apply Forall_app. split; [assumption|]. constructor; [now apply Nz|constructor].
  - destruct (z_lower_bound data (i + 1) last lo2); cbn [bind]; [apply IH; assumption|exact I..].
Qed.
End Near.

Theorem query_near lo hi data out : code lo -> code hi -> hi < 2 ^ 64 - 65535 -> D 0 lo <= D 0 hi -> D 1 lo <= D 1 hi -> Forall code data ->
  z_query lo hi data = Ok out -> Forall (near lo hi) out.
Proof.
  intros Cl Ch Hh H0 H1 Cd E. unfold z_query in E. destruct (z_lower_bound data 0 _ _) as [last| |]; cbn [bind] in E; try discriminate.
  pose proof (loop_near lo hi Hh (Z.to_nat last) data last Cd 0 lo hi [] []) as L. rewrite E in L. apply L; auto.
  split; [split; auto|]. split; [lia|]. split; [now left|lia].
Qed.
