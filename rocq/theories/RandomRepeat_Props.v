(** C109: the numbers of the generators, not only their states, repeat after the whole period and no sooner. *)
From Coq Require Import Znumtheory.
From Verif Require Import Base Bits Random_Model Random_Spec Xoroshiro_Proofs Random_Proofs Random_Props RandomOut_Props.
Local Open Scope Z_scope.

(** From some place on the sequence f is the same d places later. *)
Definition repeats_after {A} (f : N -> A) (d : N) : Prop := exists K, forall k, (K <= k)%N -> f (k + d)%N = f k.

(** * Periods of sequences *)
Section Sequence.
Context {A : Type} (f : N -> A).
Definition is_period (d : N) : Prop := forall k, f (k + d)%N = f k.
Lemma period_mul d n : is_period d -> is_period (n * d).
Proof.
  intro H. revert n. apply (N.peano_ind (fun n => is_period (n * d))); [intro k; now rewrite N.mul_0_l, N.add_0_r|].
  intros n IH k. replace (k + N.succ n * d)%N with (k + n * d + d)%N by lia. rewrite H. apply IH.
Qed.
Lemma period_gcd d M : is_period d -> is_period M -> (0 < M)%N -> is_period (Z.to_N (Z.gcd (Z.of_N d) (Z.of_N M))).
Proof.
  intros Hd HM P. destruct (N.eq_dec d 0) as [->|Nd].
  { change (Z.of_N 0) with 0. rewrite Z.gcd_0_l, Z.abs_eq, N2Z.id by lia. exact HM. }
  destruct (Z.gcd_bezout (Z.of_N d) (Z.of_N M) _ eq_refl) as (u & v & E). set (g := Z.gcd (Z.of_N d) (Z.of_N M)) in *.
  assert (G : 0 <= g) by apply Z.gcd_nonneg. set (t := Z.abs u + Z.abs v).
  set (x := u + t * Z.of_N M). set (y := t * Z.of_N d - v).
  assert (X : 0 <= x) by (unfold x, t; nia). assert (Y : 0 <= y) by (unfold y, t; nia).
  assert (EQ : g + y * Z.of_N M = x * Z.of_N d) by (unfold x, y; rewrite <- E; ring).
  intro k. rewrite <- (period_mul M (Z.to_N y) HM (k + Z.to_N g)%N). rewrite <- (period_mul d (Z.to_N x) Hd k). f_equal.
  apply N2Z.inj. rewrite !N2Z.inj_add, !N2Z.inj_mul, !Z2N.id by assumption. lia.
Qed.
End Sequence.

(** In a sequence with a period g every value comes, in m g places, a multiple of m times. *)
Lemma period_count (f : N -> res Z) g m v c : 0 < g -> 0 <= m -> is_period f (Z.to_N g) ->
  has_count (fun k => 0 <= k < m * g /\ f (Z.to_N k) = Ok v) c -> (m | c).
Proof.
  intros Hg Hm Per C.
  set (is_v := fun k => match f (Z.to_N k) with Ok w => w =? v | _ => false end).
  assert (Is : forall k, is_v k = true <-> f (Z.to_N k) = Ok v).
  { intro k. unfold is_v. destruct (f (Z.to_N k)) as [w| |]; split; try discriminate; [intro H; apply Z.eqb_eq in H; congruence|intros [= ->]; apply Z.eqb_refl]. }
  destruct (interval 0 g ltac:(lia)) as (l & ND & I & _). set (l0 := filter is_v l).
  assert (Block : forall q, 0 <= q < m -> has_count (fun k => k / g = q /\ f (Z.to_N k) = Ok v) (Z.of_nat (length l0))).
  { intros q Hq. exists (map (fun k => k + q * g) l0). split; [|split].
    - apply FinFun.Injective_map_NoDup; [intros a b E; lia|]. now apply NoDup_filter.
    - assert (Sh : forall r, 0 <= r -> f (Z.to_N (r + q * g)) = f (Z.to_N r)).
      { intros r Hr. rewrite <- (period_mul f (Z.to_N g) (Z.to_N q) Per (Z.to_N r)). f_equal. rewrite Z2N.inj_add, Z2N.inj_mul by nia. reflexivity. }
      intro x. rewrite in_map_iff. split.
      + intros (r & <- & J). apply filter_In in J as [J V]. apply I in J. apply Is in V.
        split; [rewrite Z.div_add, Z.div_small by lia; lia|]. rewrite Sh by lia. exact V.
      + intros [D V]. pose proof (Z.div_mod x g ltac:(lia)) as E. pose proof (Z.mod_pos_bound x g Hg) as B. rewrite D in E.
        exists (x mod g). split; [lia|]. apply filter_In. split; [now apply I|]. apply Is. rewrite <- Sh by lia.
        replace (x mod g + q * g) with x by lia. exact V.
    - now rewrite map_length. }
  destruct (interval 0 m Hm) as (lm & NM & IM & LM).
  pose proof (count_fibers (fun q => 0 <= q < m) (fun q k => k / g = q /\ f (Z.to_N k) = Ok v) m (Z.of_nat (length l0))) as F.
  assert (C' : has_count (fun k => 0 <= k < m * g /\ f (Z.to_N k) = Ok v) (Z.of_nat (length l0) * m)).
  { eapply count_ext; [|apply F].
    - intro k. cbn beta. split.
      + intros (q & Hq & D & V). split; [|exact V]. pose proof (Z.div_mod k g ltac:(lia)). pose proof (Z.mod_pos_bound k g Hg). nia.
      + intros [K V]. exists (k / g). split; [|auto]. split; [apply Z.div_pos; lia|apply Z.div_lt_upper_bound; lia].
    - exists lm. split; [exact NM|]. split; [exact IM|lia].
    - exact Block.
    - intros r r' k [<- _] [<- _]. reflexivity. }
  rewrite (count_unique _ _ _ C C'). exists (Z.of_nat (length l0)). lia.
Qed.

(** If two values come c and c + 1 times in a period M then no shorter one is a period. *)
Lemma period_least (f : N -> res Z) M d v w c : 0 < M -> is_period f (Z.to_N M) -> is_period f d ->
  has_count (fun k => 0 <= k < M /\ f (Z.to_N k) = Ok v) c -> has_count (fun k => 0 <= k < M /\ f (Z.to_N k) = Ok w) (c + 1) ->
  (M | Z.of_N d).
Proof.
  intros HM PM Pd Cv Cw. pose proof (period_gcd f d (Z.to_N M) Pd PM ltac:(lia)) as Pg. rewrite Z2N.id in Pg by lia.
  set (g := Z.gcd (Z.of_N d) M) in *. destruct (Z.gcd_divide_r (Z.of_N d) M) as (m & Em). fold g in Em.
  assert (G : 0 <= g) by apply Z.gcd_nonneg. assert (G' : 0 < g) by (assert (g <> 0) by (intro Z0; rewrite Z0 in Em; lia); lia). assert (Hm : 0 <= m) by (clear -Em HM G'; clearbody g; nia).
  rewrite Em in Cv, Cw. apply (period_count f g m v c G' Hm Pg) in Cv. apply (period_count f g m w (c + 1) G' Hm Pg) in Cw.
  assert (D1 : (m | 1)) by (replace 1 with (c + 1 - c) by lia; now apply Z.divide_sub_r).
  apply Z.divide_1_r_nonneg in D1; [|exact Hm]. rewrite Em, D1, Z.mul_1_l. unfold g. apply Z.gcd_divide_l.
Qed.

(** * xoroshiro *)
Section Engine.
Context {S : Type} (next : S -> res (Z * S)) (M : Z) (P : S -> Prop) (c : Z).
Hypothesis HM : 0 < M.
Hypothesis period : forall s k, P s -> (after next k s = Ok s <-> (M | Z.of_N k)).
Hypothesis stay : forall s k, P s -> exists t, after next k s = Ok t /\ P t.
Hypothesis zeros : forall s, P s -> has_count (fun k => 0 <= k < M /\ nth_output next (Z.to_N k) s = Ok 0) c.
Hypothesis ones : forall s, P s -> has_count (fun k => 0 <= k < M /\ nth_output next (Z.to_N k) s = Ok 1) (c + 1).
Lemma output_shift s t k j : after next j s = Ok t -> nth_output next (k + j) s = nth_output next k t.
Proof. intro E. unfold nth_output. now rewrite (after_add next k j s t E). Qed.
Lemma engine_repeats s d : P s -> (repeats_after (fun k => nth_output next k s) d <-> (M | Z.of_N d)).
Proof.
  intro Hs. split.
  - intros (K & H). destruct (stay s K Hs) as (t & Et & Ht).
    apply (period_least (fun k => nth_output next k t) M d 0 1 c HM); [|intro k|now apply zeros|now apply ones].
    + intro k. apply output_shift. apply period; [exact Ht|]. rewrite Z2N.id by lia. apply Z.divide_refl.
    + rewrite <- !(output_shift s t _ K Et). replace (k + d + K)%N with (k + K + d)%N by lia. apply H. lia.
  - intro D. exists 0%N. intros k _. apply output_shift. now apply period.
Qed.
End Engine.

(** *** C109: the numbers repeat, from any place on, exactly at the multiples of the period of the states. *)
Theorem C109_xoroshiro64ss s d : nonzero_words 32 s -> (repeats_after (fun k => nth_output next64ss k s) d <-> (2 ^ 64 - 1 | Z.of_N d)).
Proof.
  destruct cycle64 as (C1 & C2 & C3). apply (engine_repeats next64ss (2 ^ 64 - 1) (nonzero_words 32) (2 ^ 32 - 1)); [lia|exact C1|exact C3| |].
  - intros t Ht. exact (C83_xoroshiro64ss t 0 Ht ltac:(lia)).
  - intros t Ht. exact (C83_xoroshiro64ss t 1 Ht ltac:(lia)).
Qed.
Print Assumptions C109_xoroshiro64ss.
Theorem C109_xoroshiro128pp s d : nonzero_words 64 s -> (repeats_after (fun k => nth_output next128pp k s) d <-> (2 ^ 128 - 1 | Z.of_N d)).
Proof.
  destruct cycle128 as (C1 & C2 & C3). apply (engine_repeats next128pp (2 ^ 128 - 1) (nonzero_words 64) (2 ^ 64 - 1)); [lia|exact C1|exact C3| |].
  - intros t Ht. exact (C83_xoroshiro128pp t 0 Ht ltac:(lia)).
  - intros t Ht. exact (C83_xoroshiro128pp t 1 Ht ltac:(lia)).
Qed.
Print Assumptions C109_xoroshiro128pp.

(** * pcg32 *)

(** Half the period flips the highest bit of the state. *)
Lemma pcg_half x : 0 <= x < 2 ^ 64 -> N.iter (2 ^ 63) pcg_step x = (x + 2 ^ 63) mod 2 ^ 64.
Proof.
  intro Hx. rewrite pcg_iter by auto. assert (A4 : pa mod 4 = 1) by reflexivity.
  assert (D63 : (2 ^ 63 | geo pa (2 ^ 63))) by (change 63 with (Z.of_nat 63) at 1; apply (geo_divide pa A4); exists 1; reflexivity).
  assert (D64 : ~ (2 ^ 64 | geo pa (2 ^ 63))).
  { change 64 with (Z.of_nat 64). rewrite (geo_divide pa A4). change (Z.of_nat 64) with 64. change (Z.of_N (2 ^ 63)) with (2 ^ 63). intros (q & E). lia. }
  set (g := geo pa (2 ^ 63)) in *. pose proof (geo_pow pa (2 ^ 63)) as Hp. fold g in Hp. clearbody g.
  assert (Od : exists h, (pa - 1) * x + pc = 2 * h + 1).
  { exists ((pa - 1) / 2 * x + (pc - 1) / 2). replace (pa - 1) with (2 * ((pa - 1) / 2)) at 1 by reflexivity. replace pc with (2 * ((pc - 1) / 2) + 1) at 1 by reflexivity. ring. }
  destruct Od as (h & Od). set (AN := pa ^ Z.of_N (2 ^ 63)) in *. clearbody AN.
  assert (E : AN * x + pc * g = x + (2 * h + 1) * g) by (rewrite <- Od; nia).
  rewrite E. destruct D63 as (q & ->).
  assert (Q : exists r, q = 2 * r + 1).
  { exists (q / 2). pose proof (Z.div_mod q 2 ltac:(lia)). pose proof (Z.mod_pos_bound q 2 ltac:(lia)).
    assert (q mod 2 <> 0); [|lia]. intro Z0. apply D64. exists (q / 2). lia. }
  destruct Q as (r & ->). unfold u64.
  replace (x + (2 * h + 1) * ((2 * r + 1) * 2 ^ 63)) with (x + 2 ^ 63 + (2 * h * r + h + r) * 2 ^ 64) by (change (2 ^ 64) with (2 * 2 ^ 63); ring).
  now rewrite Z.mod_add by lia.
Qed.

(** *** C109: the same for pcg32. Partial: read() is undefined for the states below 2^59 (C20_pcg_read_refuted); in their place this takes
    what the rotation by 0 of the reference gives. Any function [out] that is the reference rotation on all states. *)
Theorem C109_pcg32_partial (out : Z -> Z) s d :
  (forall q, 0 <= q < 2 ^ 64 -> is_ror 32 (Z.lxor (Z.shiftr q 27) (Z.shiftr q 45) mod 2 ^ 32) (q / 2 ^ 59) (out q)) -> 0 <= s < 2 ^ 64 ->
  (forall q, 2 ^ 59 <= q < 2 ^ 64 -> pcg_read q = Ok (out q)) /\
  (repeats_after (fun k => out (N.iter k pcg_step s)) d <-> (2 ^ 64 | Z.of_N d)).
Proof.
  intros Ref Hs. split; [|split].
  - intros q Hq. destruct (C20_pcg_read_partial q Hq) as (y & E & (Y1 & Y2)). rewrite E. f_equal. destruct (Ref q ltac:(lia)) as (O1 & O2).
    apply Z.bits_inj'. intros i Hi. destruct (Z_lt_ge_dec i 32) as [L|L]; [now rewrite Y2, O2 by lia|]. rewrite (bit_small y 32), (bit_small (out q) 32) by lia. reflexivity.
  - intros (K & H). set (t := N.iter K pcg_step s).
    assert (Rg : forall n, 0 <= N.iter n pcg_step s < 2 ^ 64) by (apply N.peano_ind; [exact Hs|]; intros n _; rewrite N.iter_succ; apply pcg_range).
    assert (Ht : 0 <= t < 2 ^ 64) by apply Rg.
    assert (Pd : is_period (fun k => out (N.iter k pcg_step t)) d).
    { intro k. cbv beta. unfold t. rewrite <- !N.iter_add. replace (k + d + K)%N with (k + K + d)%N by lia. apply H. lia. }
    assert (PM : is_period (fun k => out (N.iter k pcg_step t)) (2 ^ 64)).
    { assert (Back : N.iter (2 ^ 64) pcg_step t = t) by (apply (proj2 (pcg_fix (2 ^ 64) t Ht)); exists 1; reflexivity).
      intro k. cbv beta. rewrite N.iter_add, Back. reflexivity. }
    pose proof (period_gcd _ d (2 ^ 64) Pd PM ltac:(reflexivity)) as Pg. change (Z.of_N (2 ^ 64)) with (2 ^ 64) in Pg.
    set (g := Z.gcd (Z.of_N d) (2 ^ 64)) in *. assert (Dg : (g | 2 ^ 64)) by apply Z.gcd_divide_r.
    destruct (Z.eq_dec g (2 ^ 64)) as [Eg|Ng]; [rewrite <- Eg; unfold g; apply Z.gcd_divide_l|exfalso].
    assert (D63 : (g | 2 ^ 63)).
    { assert (Gn : 0 <= g) by apply Z.gcd_nonneg. change 64 with (Z.of_nat 64) in Dg.
      destruct (Zpow_facts.Zdivide_power_2 g (2) (Z.of_nat 64) ltac:(lia) ltac:(lia) prime_2 Dg) as (j & Ej).
      assert (Hj : 0 <= j < 64).
      { destruct (Z_lt_ge_dec j 0) as [Lj|Lj]; [rewrite Z.pow_neg_r in Ej by lia; rewrite Ej in Dg; destruct Dg as (z & Dz); change (Z.of_nat 64) with 64 in Dz; lia|].
        destruct (Z_lt_ge_dec j 64) as [L|L]; [lia|exfalso]. assert (2 ^ 64 <= 2 ^ j) by (apply Z.pow_le_mono_r; lia).
        apply Z.divide_pos_le in Dg; [|lia]. change (Z.of_nat 64) with 64 in Dg. lia. }
      rewrite Ej. exists (2 ^ (63 - j)). rewrite <- Z.pow_add_r by lia. f_equal. lia. }
    destruct D63 as (m & Em). assert (Gp : 0 < g) by (assert (0 <= g) by apply Z.gcd_nonneg; assert (g <> 0) by (intro Z0; rewrite Z0 in Em; lia); lia).
    pose proof (period_mul _ _ (Z.to_N m) Pg) as PH.
    assert (EN : (Z.to_N m * Z.to_N g)%N = (2 ^ 63)%N) by (rewrite <- Z2N.inj_mul by nia; rewrite <- Em; reflexivity).
    rewrite EN in PH. destruct (pcg_cycle t (2 ^ 59) Ht ltac:(lia)) as (k & _ & Ek).
    specialize (PH k). cbv beta in PH. remember (2 ^ 63)%N as half eqn:Eh. rewrite (N.add_comm k half), (N.iter_add half k), Ek in PH.
    rewrite Eh, (pcg_half (2 ^ 59)) in PH by lia.
    destruct (Ref (2 ^ 59) ltac:(lia)) as (_ & B1). destruct (Ref ((2 ^ 59 + 2 ^ 63) mod 2 ^ 64) ltac:(apply Z.mod_pos_bound; lia)) as (_ & B2).
    specialize (B1 13 ltac:(lia)). specialize (B2 13 ltac:(lia)). rewrite PH, B1 in B2. vm_compute in B2. discriminate.
  - intros D. exists 0%N. intros k _. rewrite N.iter_add, (proj2 (pcg_fix d s Hs) D). reflexivity.
Qed.
Print Assumptions C109_pcg32_partial.

(** A generator that has such a function, and sequences that do and do not repeat. *)
Example C109_case :
  nonzero_words 32 (1, 2) /\ repeats_after (fun k => nth_output next64ss k (1, 2)) (2 ^ 64 - 1) /\
  ~ repeats_after (fun k => nth_output next64ss k (1, 2)) (2 ^ 32) /\
  exists out, forall q, 0 <= q < 2 ^ 64 -> is_ror 32 (Z.lxor (Z.shiftr q 27) (Z.shiftr q 45) mod 2 ^ 32) (q / 2 ^ 59) (out q).
Proof.
  assert (W : nonzero_words 32 (1, 2)) by (split; [split; cbn [fst snd]; lia|discriminate]). split; [exact W|].
  split; [apply C109_xoroshiro64ss; [exact W|exists 1; reflexivity]|]. split.
  - intro R. apply C109_xoroshiro64ss in R; [|exact W]. change (Z.of_N (2 ^ 32)) with (2 ^ 32) in R. apply Z.divide_pos_le in R; lia.
  - exists (fun q => if q <? 2 ^ 59 then Z.lxor (Z.shiftr q 27) (Z.shiftr q 45) mod 2 ^ 32 else match pcg_read q with Ok y => y | _ => 0 end).
    intros q Hq. destruct (q <? 2 ^ 59) eqn:L.
    + apply Z.ltb_lt in L. rewrite (Z.div_small q) by lia. split; [apply Z.mod_pos_bound; lia|]. intros i Hi. rewrite Z.add_0_r, (Z.mod_small i 32) by lia. reflexivity.
    + apply Z.ltb_ge in L. destruct (C20_pcg_read_partial q ltac:(lia)) as (y & -> & Y). exact Y.
Qed.
