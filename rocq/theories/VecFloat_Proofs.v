(** The operations of VecFloat_Model.v are correctly rounded, by Flocq. *)
From Coq Require Import Reals Lra Psatz.
From Flocq Require Import Core BinarySingleNaN.
From Flocq Require Import Relative.
From Verif Require Import Base VecFloat_Model VecFloat_Spec.
Local Open Scope R_scope.

Section Format.
Context (P E : Z) (Hp : FLX.Prec_gt_0 P) (Hm : Prec_lt_emax P E) (H1 : (1 < P)%Z).
Let T : fty := {| prec := P; emax := E |}.
Notation fe := (SpecFloat.fexp P E).
Definition rnd (x : R) : R := round radix2 fe ZnearestE x.
Instance fe_ok : Valid_exp fe. Proof. apply fexp_correct. exact Hp. Qed.
Instance fe_mono : Monotone_exp fe. Proof. apply (FLT_exp_monotone (SpecFloat.emin P E) P). Qed.
Instance fe_ne : Exists_NE radix2 fe. Proof. apply (exists_NE_FLT radix2 (SpecFloat.emin P E) P). right. exact H1. Qed.

Lemma round_aux_equiv : forall s m e l,
  SpecFloat.binary_round_aux P E s m e l = binary_round_aux P E mode_NE s m e l.
Proof.
  intros s m e l. unfold SpecFloat.binary_round_aux, binary_round_aux.
  set (mrse := SpecFloat.shr_fexp _ _ _ _ _). case mrse as [mrs e']. simpl.
  replace (SpecFloat.round_nearest_even (SpecFloat.shr_m mrs) (SpecFloat.loc_of_shr_record mrs)) with
    (choice_mode mode_NE s (SpecFloat.shr_m mrs) (SpecFloat.loc_of_shr_record mrs)); [reflexivity|].
  destruct mrs as [mm [|] [|]]; cbn; try reflexivity; destruct (Z.even mm); reflexivity.
Qed.
Lemma normalize_equiv : forall m e z, SpecFloat.binary_normalize P E m e z = B2SF (binary_normalize P E Hp Hm mode_NE m e z).
Proof.
  assert (BR : forall s m e, SpecFloat.binary_round P E s m e = binary_round P E mode_NE s m e).
  { intros s m e. unfold SpecFloat.binary_round, binary_round, shl_align_fexp. set (mez := SpecFloat.shl_align _ _ _). case mez as [mz ez].
    apply round_aux_equiv. }
  intros m e z. destruct m as [|p|p]; simpl; [reflexivity| |]; rewrite B2SF_SF2B; apply BR.
Qed.
Lemma mul_equiv : forall x y : binary_float P E, SpecFloat.SFmul P E (B2SF x) (B2SF y) = B2SF (Bmult mode_NE x y).
Proof.
  intros x y. case x as [sx|sx| |sx mx ex Bx]; case y as [sy|sy| |sy my ey By]; [now trivial.. | ].
  simpl. rewrite B2SF_SF2B. apply round_aux_equiv.
Qed.
Lemma div_equiv : forall x y : binary_float P E, SpecFloat.SFdiv P E (B2SF x) (B2SF y) = B2SF (Bdiv mode_NE x y).
Proof.
  intros x y. case x as [sx|sx| |sx mx ex Bx]; case y as [sy|sy| |sy my ey By]; [now trivial.. | ].
  simpl. rewrite B2SF_SF2B. set (melz := SpecFloat.SFdiv_core_binary _ _ _ _ _ _). case melz as [[mz ez] lz].
  apply round_aux_equiv.
Qed.
Lemma add_equiv : forall x y : binary_float P E, SpecFloat.SFadd P E (B2SF x) (B2SF y) = B2SF (Bplus mode_NE x y).
Proof.
  intros x y. case x as [sx|sx| |sx mx ex Bx]; case y as [sy|sy| |sy my ey By]; [now (trivial || simpl; case Bool.eqb).. | ].
  apply normalize_equiv.
Qed.
Lemma sub_equiv : forall x y : binary_float P E, SpecFloat.SFsub P E (B2SF x) (B2SF y) = B2SF (Bminus mode_NE x y).
Proof.
  intros x y. case x as [sx|sx| |sx mx ex Bx]; case y as [sy|sy| |sy my ey By]; [now (trivial || simpl; case Bool.eqb).. | ].
  cbn [B2SF Bminus SpecFloat.SFsub]. rewrite <- normalize_equiv. unfold Fplus_naive. f_equal. unfold Z.sub. f_equal. destruct sy; reflexivity.
Qed.

Lemma number_SF f : number f = SF2R radix2 f.
Proof.
  destruct f as [s|s| |s m e]; try reflexivity. cbn [number SF2R]. unfold F2R. cbn [Fnum Fexp]. rewrite bpow_powerRZ. destruct s; cbn [cond_Zopp]; [rewrite opp_IZR|]; reflexivity.
Qed.
Lemma number_B f : number_of T f -> exists b : binary_float P E, f = B2SF b /\ is_finite b = true /\ number f = B2R b.
Proof.
  intros (V & F). exists (SF2B f V). split; [symmetry; apply B2SF_SF2B|]. split.
  - rewrite is_finite_SF2B. destruct f; try contradiction; reflexivity.
  - rewrite number_SF, B2R_SF2B. reflexivity.
Qed.
Lemma B_number (b : binary_float P E) : is_finite b = true -> number_of T (B2SF b) /\ number (B2SF b) = B2R b.
Proof.
  intro F. split.
  - split; [apply valid_binary_B2SF|]. destruct b; try discriminate; exact I.
  - rewrite number_SF. apply SF2R_B2SF.
Qed.

Lemma number_format f : number_of T f -> generic_format radix2 fe (number f) /\ Rabs (number f) <= bpow radix2 E - bpow radix2 (E - P).
Proof. intro N. destruct (number_B f N) as (b & -> & F & ->). split; [apply generic_format_B2R|apply abs_B2R_le_emax_minus_prec; exact Hp]. Qed.

Lemma rnd_nearest x f : generic_format radix2 fe f -> Rabs (rnd x - x) <= Rabs (f - x).
Proof. intro F. destruct (round_N_pt radix2 fe (fun n => negb (Z.even n)) x) as (_ & N). now apply N. Qed.

(** The nearest value. *)
Lemma rnd_rounded x (r : binary_float P E) : is_finite r = true -> B2R r = rnd x -> rounded T x (B2SF r).
Proof.
  intros F R. destruct (B_number r F) as (N & V). split; [assumption|]. rewrite V, R. split.
  - intros f Nf. apply rnd_nearest. now apply number_format.
  - intros f Nf Eq. destruct (round_NE_pt radix2 fe x) as (A & [B|B]).
    + right. destruct B as (g & G1 & G2 & G3). destruct r as [s|s| |s m e Hb]; try exact I; try discriminate F.
      cbn [B2SF even]. cbn [B2R] in R. assert (C : canonical radix2 fe (Float radix2 (cond_Zopp s (Z.pos m)) e)) by (apply canonical_canonical_mantissa; now apply (andb_prop _ _ Hb)).
      assert (K : Float radix2 (cond_Zopp s (Z.pos m)) e = g) by (apply (canonical_unique _ _ _ _ C G2); unfold rnd in R; congruence).
      rewrite <- K in G3. cbn [Fnum] in G3. destruct s; exact G3.
    + left. apply (B (number f)). split; [now apply number_format|]. intros g Hg. eapply Rle_trans; [apply Req_le; exact Eq|]. now apply rnd_nearest.
Qed.

(** Below the limit nothing overflows, above it everything does. *)
Lemma bp e : bpow radix2 e = powerRZ 2 e. Proof. exact (bpow_powerRZ radix2 e). Qed.
Lemma bpow_half e : bpow radix2 e = 2 * bpow radix2 (e - 1).
Proof. replace e with (1 + (e - 1))%Z at 1 by lia. rewrite bpow_plus. reflexivity. Qed.
Lemma limit_bp : limit T = bpow radix2 E - bpow radix2 (E - P - 1).
Proof. unfold limit. now rewrite !bp. Qed.
Lemma max_format : generic_format radix2 fe (bpow radix2 E - bpow radix2 (E - P)).
Proof.
  assert (Hp' : (0 < P)%Z) by exact Hp. assert (Hm' : (P < E)%Z) by exact Hm.
  replace (bpow radix2 E - bpow radix2 (E - P)) with (F2R (Float radix2 (2 ^ P - 1) (E - P))).
  - apply generic_format_F2R. cbn [Fnum Fexp]. intros NZ. unfold cexp, SpecFloat.fexp, SpecFloat.emin.
    assert (Q : (mag radix2 (F2R (Float radix2 (2 ^ P - 1) (E - P))) <= E)%Z).
    { rewrite mag_F2R by assumption. assert ((mag radix2 (IZR (2 ^ P - 1)) <= P)%Z); [|cbn [Fexp]; lia]. apply mag_le_bpow; [now apply IZR_neq|].
      rewrite <- IZR_Zpower by lia. rewrite <- abs_IZR. apply IZR_lt. change (Zpower radix2 P) with (2 ^ P)%Z. assert (0 < 2 ^ P)%Z by (apply Z.pow_pos_nonneg; lia). lia. }
    lia.
  - unfold F2R. cbn [Fnum Fexp]. rewrite minus_IZR. change 2%Z with (radix_val radix2). rewrite IZR_Zpower by lia. rewrite Rmult_minus_distr_r, <- bpow_plus, Rmult_1_l. do 2 f_equal. lia.
Qed.
Lemma power_format : generic_format radix2 fe (bpow radix2 E).
Proof. apply generic_format_bpow. unfold SpecFloat.fexp, SpecFloat.emin. assert (Hp' : (0 < P)%Z) by exact Hp. assert (Hm' : (P < E)%Z) by exact Hm. lia. Qed.
Lemma next_format f : generic_format radix2 fe f -> f < bpow radix2 E -> f <= bpow radix2 E - bpow radix2 (E - P).
Proof.
  intros F L. destruct (Rle_or_lt f (bpow radix2 E - bpow radix2 (E - P))) as [|G]; [assumption|exfalso].
  assert (Hp' : (0 < P)%Z) by exact Hp. assert (Hm' : (P < E)%Z) by exact Hm.
  assert (Q : 0 < bpow radix2 (E - P)) by apply bpow_gt_0. assert (Q1 : bpow radix2 (E - P) <= bpow radix2 (E - 1)) by (apply bpow_le; lia). rewrite (bpow_half E) in *.
  assert (Q2 := bpow_gt_0 radix2 (E - 1)).
  assert (M : mag radix2 f = E :> Z) by (apply mag_unique_pos; rewrite (bpow_half E); lra).
  unfold generic_format in F. unfold cexp in F. rewrite M in F. assert (FE : fe E = (E - P)%Z) by (unfold SpecFloat.fexp, SpecFloat.emin; lia).
  rewrite FE in F. unfold F2R in F. cbn [Fnum Fexp] in F. set (n := Ztrunc _) in F. clearbody n.
  assert (B2 : 2 * bpow radix2 (E - 1) = IZR (2 ^ P) * bpow radix2 (E - P)).
  { rewrite <- bpow_half. change 2%Z with (radix_val radix2). rewrite IZR_Zpower by lia. rewrite <- bpow_plus. f_equal. lia. }
  rewrite B2 in *. rewrite F in L, G. apply Rmult_lt_reg_r in L; [|assumption]. apply lt_IZR in L.
  assert (G' : IZR (2 ^ P - 1) * bpow radix2 (E - P) < IZR n * bpow radix2 (E - P)) by (rewrite minus_IZR; lra).
  apply Rmult_lt_reg_r in G'; [|assumption]. apply lt_IZR in G'. lia.
Qed.
Lemma rnd_opp x : rnd (- x) = - rnd x.
Proof. unfold rnd. apply round_NE_opp. Qed.
Lemma rnd_format x : generic_format radix2 fe (rnd x).
Proof. apply generic_format_round; auto with typeclass_instances. Qed.

Lemma below_pos x : 0 <= x -> x < limit T -> Rabs (rnd x) < bpow radix2 E.
Proof.
  intros X L. rewrite limit_bp in L. assert (A : 0 <= rnd x) by (apply round_ge_generic; auto with typeclass_instances; apply generic_format_0). rewrite Rabs_pos_eq by assumption.
  destruct (Rlt_or_le (rnd x) (bpow radix2 E)) as [|G]; [assumption|exfalso]. pose proof (rnd_nearest x _ max_format) as N.
  assert (Hh := bpow_half (E - P)). assert (Q : 0 < bpow radix2 (E - P - 1)) by apply bpow_gt_0.
  rewrite Rabs_pos_eq in N by lra.
  destruct (Rle_or_lt 0 (bpow radix2 E - bpow radix2 (E - P) - x)) as [H|H]; [rewrite Rabs_pos_eq in N by assumption|rewrite Rabs_left in N by assumption]; lra.
Qed.
Lemma above_pos x : limit T < x -> bpow radix2 E <= rnd x.
Proof.
  intros L. rewrite limit_bp in L. destruct (Rle_or_lt (bpow radix2 E) (rnd x)) as [|G]; [assumption|exfalso].
  apply next_format in G; [|apply rnd_format]. pose proof (rnd_nearest x _ power_format) as N.
  assert (Hh := bpow_half (E - P)). assert (Q : 0 < bpow radix2 (E - P - 1)) by apply bpow_gt_0.
  assert (Q1 : bpow radix2 (E - P) < bpow radix2 E) by (apply bpow_lt; assert (Hp' : (0 < P)%Z) by exact Hp; lia).
  rewrite Rabs_left in N by lra.
  destruct (Rle_or_lt 0 (bpow radix2 E - x)) as [H|H]; [rewrite Rabs_pos_eq in N by assumption|rewrite Rabs_left in N by assumption]; lra.
Qed.
Lemma limit_pos : 0 < limit T.
Proof. rewrite limit_bp. assert (Hp' : (0 < P)%Z) by exact Hp. assert (bpow radix2 (E - P - 1) < bpow radix2 E) by (apply bpow_lt; lia). lra. Qed.

Lemma below x : Rabs x < limit T -> Rabs (rnd x) < bpow radix2 E.
Proof.
  intro L. destruct (Rle_or_lt 0 x) as [X|X].
  - apply below_pos; [assumption|]. now rewrite Rabs_pos_eq in L.
  - rewrite Rabs_left in L by assumption. rewrite <- (Ropp_involutive x), rnd_opp, Rabs_Ropp. apply below_pos; lra.
Qed.

Lemma op_result x s (r : binary_float P E) :
  (if Rlt_bool (Rabs (rnd x)) (bpow radix2 E) then B2R r = rnd x /\ is_finite r = true else B2SF r = SpecFloat.S754_infinity s /\ (0 < x -> s = false) /\ (x < 0 -> s = true)) ->
  result T x (B2SF r).
Proof.
  intro H. assert (LP := limit_pos). split; [|split].
  - intro L. assert (B := below x L).
    rewrite Rlt_bool_true in H by assumption. now apply rnd_rounded.
  - intro L. assert (B := above_pos x L). rewrite Rlt_bool_false in H by (rewrite Rabs_pos_eq; [assumption|]; assert (Q := bpow_gt_0 radix2 E); lra).
    destruct H as (H & S & _). rewrite H, S by lra. reflexivity.
  - intro L. assert (B := above_pos (- x) ltac:(lra)). rewrite rnd_opp in B. rewrite Rlt_bool_false in H by (rewrite <- Rabs_Ropp, Rabs_pos_eq; [assumption|]; assert (Q := bpow_gt_0 radix2 E); lra).
    destruct H as (H & _ & S). rewrite H, S by lra. reflexivity.
Qed.

Lemma sign_pos (b : binary_float P E) : is_finite b = true -> (B2R b < 0 -> Bsign b = true) /\ (0 < B2R b -> Bsign b = false).
Proof.
  intro F. destruct b as [s|s| |s m e B]; try discriminate F; cbn [B2R Bsign]; [lra|]. destruct s; split; intro H; try reflexivity; exfalso.
  - assert (F2R (Float radix2 (cond_Zopp true (Z.pos m)) e) < 0) by (apply F2R_lt_0; reflexivity). lra.
  - assert (0 < F2R (Float radix2 (cond_Zopp false (Z.pos m)) e)) by (apply F2R_gt_0; reflexivity). lra.
Qed.
Lemma sign_of (b : binary_float P E) : is_finite b = true -> (Bsign b = true -> B2R b <= 0) /\ (Bsign b = false -> 0 <= B2R b).
Proof. intro F. destruct (sign_pos b F) as [A B]. split; intro H; apply Rnot_lt_le; intro K; [specialize (B K)|specialize (A K)]; congruence. Qed.

Lemma plus_result a b : number_of T a -> number_of T b -> result T (number a + number b) (plus T a b).
Proof.
  intros Ha Hb. destruct (number_B a Ha) as (A & -> & FA & ->). destruct (number_B b Hb) as (B & -> & FB & ->). unfold plus. cbn [prec emax T]. rewrite add_equiv.
  assert (C := Bplus_correct P E Hp Hm mode_NE A B FA FB). cbn [round_mode] in C. fold (rnd (B2R A + B2R B)) in C.
  apply op_result with (s := Bsign A). destruct (Rlt_bool _ _); [destruct C as (C1 & C2 & _); auto|]. destruct C as (C1 & C2). split; [exact C1|].
  destruct (sign_of A FA) as [SA1 SA2], (sign_of B FB) as [SB1 SB2]. rewrite <- C2 in SB1, SB2. destruct (Bsign A); split; intro X; try reflexivity; exfalso.
  - specialize (SA1 eq_refl). specialize (SB1 eq_refl). lra.
  - specialize (SA2 eq_refl). specialize (SB2 eq_refl). lra.
Qed.
Lemma minus_result a b : number_of T a -> number_of T b -> result T (number a - number b) (minus T a b).
Proof.
  intros Ha Hb. destruct (number_B a Ha) as (A & -> & FA & ->). destruct (number_B b Hb) as (B & -> & FB & ->). unfold minus. cbn [prec emax T]. rewrite sub_equiv.
  assert (C := Bminus_correct P E Hp Hm mode_NE A B FA FB). cbn [round_mode] in C. fold (rnd (B2R A - B2R B)) in C.
  apply op_result with (s := Bsign A). destruct (Rlt_bool _ _); [destruct C as (C1 & C2 & _); auto|]. destruct C as (C1 & C2). split; [exact C1|].
  destruct (sign_of A FA) as [SA1 SA2], (sign_of B FB) as [SB1 SB2]. destruct (Bsign A), (Bsign B); try discriminate C2; split; intro X; try reflexivity; exfalso.
  - specialize (SA1 eq_refl). specialize (SB2 eq_refl). lra.
  - specialize (SA2 eq_refl). specialize (SB1 eq_refl). lra.
Qed.
Lemma sign_mult A B (FA : is_finite (A : binary_float P E) = true) (FB : is_finite (B : binary_float P E) = true) k : 0 < k ->
  (0 < B2R A * (B2R B * k) -> xorb (Bsign A) (Bsign B) = false) /\ (B2R A * (B2R B * k) < 0 -> xorb (Bsign A) (Bsign B) = true).
Proof.
  intro K. destruct (sign_of A FA) as [SA1 SA2], (sign_of B FB) as [SB1 SB2]. set (x := B2R A) in *. set (y := B2R B) in *. clearbody x y.
  replace (x * (y * k)) with (x * y * k) by ring.
  assert (U : (0 <= x * y -> 0 <= x * y * k) /\ (x * y <= 0 -> x * y * k <= 0)) by (set (w := x * y); clearbody w; split; intro; nra). destruct U as [U1 U2].
  destruct (Bsign A), (Bsign B); cbn [xorb]; split; intro H; try reflexivity; exfalso;
    try specialize (SA1 eq_refl); try specialize (SA2 eq_refl); try specialize (SB1 eq_refl); try specialize (SB2 eq_refl).
  - assert (0 <= x * y) by nra. specialize (U1 ltac:(assumption)). lra.
  - assert (x * y <= 0) by nra. specialize (U2 ltac:(assumption)). lra.
  - assert (x * y <= 0) by nra. specialize (U2 ltac:(assumption)). lra.
  - assert (0 <= x * y) by nra. specialize (U1 ltac:(assumption)). lra.
Qed.
Lemma times_result a b : number_of T a -> number_of T b -> result T (number a * number b) (times T a b).
Proof.
  intros Ha Hb. destruct (number_B a Ha) as (A & -> & FA & ->). destruct (number_B b Hb) as (B & -> & FB & ->). unfold times. cbn [prec emax T]. rewrite mul_equiv.
  assert (C := Bmult_correct P E Hp Hm mode_NE A B). cbn [round_mode] in C. fold (rnd (B2R A * B2R B)) in C.
  apply op_result with (s := xorb (Bsign A) (Bsign B)). destruct (Rlt_bool _ _); [destruct C as (C1 & C2 & _); rewrite FA, FB in C2; auto|]. split; [exact C|].
  pose proof (sign_mult A B FA FB 1 ltac:(lra)) as S. rewrite Rmult_1_r in S. exact S.
Qed.
Lemma over_result a b : number_of T a -> number_of T b -> number b <> 0 -> result T (number a / number b) (over T a b).
Proof.
  intros Ha Hb. destruct (number_B a Ha) as (A & -> & FA & ->). destruct (number_B b Hb) as (B & -> & FB & ->). intro NZ. unfold over. cbn [prec emax T]. rewrite div_equiv.
  assert (C := Bdiv_correct P E Hp Hm mode_NE A B NZ). cbn [round_mode] in C. fold (rnd (B2R A / B2R B)) in C.
  apply op_result with (s := xorb (Bsign A) (Bsign B)). destruct (Rlt_bool _ _); [destruct C as (C1 & C2 & _); rewrite FA in C2; auto|]. split; [exact C|].
  assert (K : 0 < / (B2R B * B2R B)) by (apply Rinv_0_lt_compat; nra).
  pose proof (sign_mult A B FA FB _ K) as S. replace (B2R A * (B2R B * / (B2R B * B2R B))) with (B2R A / B2R B) in S by (field; assumption). exact S.
Qed.

(** The same as equations. *)
Lemma plus_rnd a b : number_of T a -> number_of T b -> Rabs (number a + number b) < limit T -> number_of T (plus T a b) /\ number (plus T a b) = rnd (number a + number b).
Proof.
  intros Ha Hb L. destruct (number_B a Ha) as (A & -> & FA & RA). destruct (number_B b Hb) as (B & -> & FB & RB). rewrite RA, RB in *. unfold plus. cbn [prec emax T]. rewrite add_equiv.
  assert (C := Bplus_correct P E Hp Hm mode_NE A B FA FB). cbn [round_mode] in C. fold (rnd (B2R A + B2R B)) in C. rewrite Rlt_bool_true in C by now apply below.
  destruct C as (C1 & C2 & _). destruct (B_number _ C2) as (D1 & D2). split; [assumption|]. now rewrite D2.
Qed.
Lemma minus_rnd a b : number_of T a -> number_of T b -> Rabs (number a - number b) < limit T -> number_of T (minus T a b) /\ number (minus T a b) = rnd (number a - number b).
Proof.
  intros Ha Hb L. destruct (number_B a Ha) as (A & -> & FA & RA). destruct (number_B b Hb) as (B & -> & FB & RB). rewrite RA, RB in *. unfold minus. cbn [prec emax T]. rewrite sub_equiv.
  assert (C := Bminus_correct P E Hp Hm mode_NE A B FA FB). cbn [round_mode] in C. fold (rnd (B2R A - B2R B)) in C. rewrite Rlt_bool_true in C by now apply below.
  destruct C as (C1 & C2 & _). destruct (B_number _ C2) as (D1 & D2). split; [assumption|]. now rewrite D2.
Qed.
Lemma times_rnd a b : number_of T a -> number_of T b -> Rabs (number a * number b) < limit T -> number_of T (times T a b) /\ number (times T a b) = rnd (number a * number b).
Proof.
  intros Ha Hb L. destruct (number_B a Ha) as (A & -> & FA & RA). destruct (number_B b Hb) as (B & -> & FB & RB). rewrite RA, RB in *. unfold times. cbn [prec emax T]. rewrite mul_equiv.
  assert (C := Bmult_correct P E Hp Hm mode_NE A B). cbn [round_mode] in C. fold (rnd (B2R A * B2R B)) in C. rewrite Rlt_bool_true in C by now apply below.
  destruct C as (C1 & C2 & _). rewrite FA, FB in C2. destruct (B_number _ C2) as (D1 & D2). split; [assumption|]. now rewrite D2.
Qed.
(** Whole numbers of at most P bits are values. *)
Lemma rnd_whole n : (P <= E - 1)%Z -> (Z.abs n < 2 ^ P)%Z -> rnd (IZR n) = IZR n.
Proof.
  intros PE N. assert (Hp' : (0 < P)%Z) by exact Hp. unfold rnd. apply round_generic; [auto with typeclass_instances|].
  replace (IZR n) with (F2R (Float radix2 n 0)) by (unfold F2R; cbn [Fnum Fexp]; change (bpow radix2 0) with 1; ring).
  apply (generic_format_FLT radix2 (SpecFloat.emin P E) P). exists (Float radix2 n 0); [reflexivity|exact N|]. cbn [Fexp]. unfold SpecFloat.emin. lia.
Qed.

Lemma compare_number a b : number_of T a -> number_of T b -> SpecFloat.SFeqb a b = true <-> number a = number b.
Proof.
  intros Ha Hb. destruct (number_B a Ha) as (A & -> & FA & ->). destruct (number_B b Hb) as (B & -> & FB & ->).
  unfold SpecFloat.SFeqb. assert (C := Bcompare_correct P E A B FA FB). unfold Bcompare in C. rewrite C. destruct (Rcompare_spec (B2R A) (B2R B)); split; intro; try discriminate; try reflexivity; try lra.
Qed.

(** Every rounded number is a value, so [rounded] determines the number. *)
Lemma rnd_value x : Rabs x < limit T -> exists f, number_of T f /\ number f = rnd x.
Proof.
  intro L. pose proof (rnd_format x) as F. unfold generic_format in F.
  set (n := Ztrunc (scaled_mantissa radix2 fe (rnd x))) in F. set (e := cexp radix2 fe (rnd x)) in F.
  pose proof (binary_normalize_correct P E Hp Hm mode_NE n e false) as C. cbn [round_mode] in C. rewrite <- F in C.
  assert (G : round radix2 fe ZnearestE (rnd x) = rnd x) by (apply round_generic; [auto with typeclass_instances|apply rnd_format]). rewrite G in C.
  rewrite Rlt_bool_true in C by now apply below. destruct C as (C1 & C2 & _). destruct (B_number _ C2) as (D1 & D2). eexists. split; [exact D1|]. now rewrite D2.
Qed.
Lemma rounded_NE x r : Rabs x < limit T -> rounded T x r -> Rnd_NE_pt radix2 fe x (number r).
Proof.
  intros L (N & D & Ev). destruct (rnd_value x L) as (g & Ng & Vg). pose proof (D g Ng) as Dg. rewrite Vg in Dg.
  assert (NP : Rnd_N_pt (generic_format radix2 fe) x (number r)).
  { split; [now apply number_format|]. intros h Hh. eapply Rle_trans; [exact Dg|]. now apply rnd_nearest. }
  split; [assumption|]. destruct (Req_dec (number g) (number r)) as [Q|Q].
  - destruct (round_NE_pt radix2 fe x) as (_ & B). change (round radix2 fe ZnearestE x) with (rnd x) in B. rewrite <- Vg, Q in B. exact B.
  - left. destruct (Ev g Ng) as [K|K]; [|contradiction|].
    + rewrite Vg. apply Rle_antisym; [|exact Dg]. apply rnd_nearest. now apply number_format.
    + destruct N as [V F]. destruct r as [s|s| |s m e]; try contradiction F.
      * exists (Float radix2 0 (fe (mag radix2 0))). split; [cbn [number]; now rewrite F2R_0|]. split; [apply canonical_0|reflexivity].
      * exists (Float radix2 (cond_Zopp s (Z.pos m)) e). split; [rewrite number_SF; reflexivity|]. split; [apply canonical_canonical_mantissa; now apply (andb_prop _ _ V)|].
        cbn [Fnum]. destruct s; exact K.
Qed.
Lemma rounded_unique x r r' : Rabs x < limit T -> rounded T x r -> rounded T x r' -> number r = number r'.
Proof.
  intros L R R'. apply (rounded_NE x r L) in R. apply (rounded_NE x r' L) in R'.
  apply Rle_antisym; [exact (Rnd_NE_pt_monotone radix2 fe x x _ _ R R' (Rle_refl x))|exact (Rnd_NE_pt_monotone radix2 fe x x _ _ R' R (Rle_refl x))].
Qed.

(** Error of a rounding. *)
Lemma rnd_err x : Rabs (rnd x - x) <= / 2 * bpow radix2 (1 - P) * Rabs x + / 2 * bpow radix2 (SpecFloat.emin P E).
Proof.
  destruct (error_N_FLT radix2 (SpecFloat.emin P E) P Hp (fun n => negb (Z.even n)) x) as (e & h & Er & H & _ & Q).
  unfold rnd. change fe with (FLT_exp (SpecFloat.emin P E) P). change ZnearestE with (Znearest (fun n => negb (Z.even n))). rewrite Q.
  replace (x * (1 + e) + h - x) with (x * e + h) by ring. eapply Rle_trans; [apply Rabs_triang|]. apply Rplus_le_compat; [|exact H].
  rewrite Rabs_mult, Rmult_comm. apply Rmult_le_compat_r; [apply Rabs_pos|]. replace (1 - P)%Z with (- P + 1)%Z by lia. exact Er.
Qed.
(** The values of the format. *)
Lemma values x : (exists f, number_of T f /\ number f = x) <->
  exists m e, (Z.abs m < 2 ^ P)%Z /\ (3 - E - P <= e <= E - P)%Z /\ x = IZR m * powerRZ 2 e.
Proof.
  assert (Hp' : (0 < P)%Z) by exact Hp. assert (Hm' : (P < E)%Z) by exact Hm. split.
  - intros (f & (V & F) & <-). destruct f as [s|s| |s m e]; try contradiction F.
    + exists 0%Z, (E - P)%Z. split; [cbn [Z.abs]; apply Z.pow_pos_nonneg; lia|]. split; [lia|]. cbn [number]. ring.
    + cbn [SpecFloat.valid_binary] in V. unfold SpecFloat.bounded in V. apply andb_prop in V as (C & L). apply Z.leb_le in L. unfold SpecFloat.canonical_mantissa in C. apply Zeq_bool_eq in C.
      cbn [prec emax T] in C, L. unfold SpecFloat.fexp, SpecFloat.emin in C. exists (if s then Z.neg m else Z.pos m), e. split; [|split; [lia|destruct s; reflexivity]].
      rewrite Zpos_digits2_pos in C. assert (D : (Zdigits radix2 (Z.pos m) <= P)%Z) by lia. apply (Zpower_gt_Zdigits radix2 P (Z.pos m)) in D. destruct s; exact D.
  - intros (m & e & M & L & ->). assert (C := binary_normalize_correct P E Hp Hm mode_NE m e false). rewrite <- bp.
    assert (G : generic_format radix2 fe (F2R (Float radix2 m e))).
    { apply (generic_format_FLT radix2 (SpecFloat.emin P E) P). exists (Float radix2 m e); [reflexivity|exact M|]. cbn [Fexp]. unfold SpecFloat.emin. lia. }
    cbv zeta in C. rewrite (round_generic radix2 fe _ _ G) in C. rewrite Rlt_bool_true in C.
    + destruct C as (C1 & C2 & _). exists (B2SF (binary_normalize P E Hp Hm mode_NE m e false)). destruct (B_number _ C2) as (N & V). split; [assumption|]. rewrite V, C1. reflexivity.
    + apply Rlt_le_trans with (bpow radix2 (P + e)); [|apply bpow_le; lia]. rewrite bpow_plus. unfold F2R. cbn [Fnum Fexp]. rewrite Rabs_mult, (Rabs_pos_eq (bpow radix2 e)) by apply bpow_ge_0.
      apply Rmult_lt_compat_r; [apply bpow_gt_0|]. rewrite <- abs_IZR. rewrite <- IZR_Zpower by lia. apply IZR_lt. exact M.
Qed.
End Format.
