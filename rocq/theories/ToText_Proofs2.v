From Verif Require Import Base ToText_Model ToText_Spec ToText_Proofs.
Open Scope Z_scope.
Ltac Zify.zify_post_hook ::= idtac.

(** [u] has exactly [n+1] digits (or is a single digit). *)
Definition has_digits (n : nat) (u : Z) : Prop :=
  (n = 0%nat \/ p10 n <= u) /\ 0 <= u < p10 (S n).

Lemma L09_case {R} u (F : nat -> R) : 0 <= u < 2 ^ 32 ->
  exists n, (n <= 9)%nat /\ has_digits n u /\ L09 u F = F n.
Proof.
  intro H. unfold L09, L, has_digits.
  repeat match goal with |- context [?a <? ?b] => destruct (Z.ltb_spec a b) end;
  [exists 0%nat|exists 1%nat|exists 2%nat|exists 3%nat|exists 4%nat|exists 5%nat|exists 6%nat|
   exists 7%nat|exists 8%nat|exists 9%nat];
  (split; [lia|split; [|reflexivity]]); unfold p10; cbn [Z.of_nat Pos.of_succ_nat Pos.succ]; lia.
Qed.

Lemma L03_case {R} u (F : nat -> R) : 0 <= u < 10000 ->
  exists n, (n <= 3)%nat /\ has_digits n u /\ L03 u F = F n.
Proof.
  intro H. unfold L03, L, has_digits.
  repeat match goal with |- context [?a <? ?b] => destruct (Z.ltb_spec a b) end;
  [exists 0%nat|exists 1%nat|exists 2%nat|exists 3%nat];
  (split; [lia|split; [|reflexivity]]); unfold p10; cbn [Z.of_nat Pos.of_succ_nat Pos.succ]; lia.
Qed.

Lemma numeral_digs_app n u rest :
  has_digits n u -> (n = 0%nat -> u = 0 -> rest = []) -> Forall is_digit rest ->
  numeral (u * p10 (length rest) + digits_value rest) (digs (S n) u ++ rest).
Proof.
  intros [H1 H2] H0 HF. pose proof (p10_pos n) as Hp.
  split; [|split; [|split]].
  - cbn. discriminate.
  - apply Forall_app; split; auto. now apply digs_digits.
  - cbn [digs app hd]. intro E.
    assert (D0 : u / p10 n = 0) by lia.
    apply Z.div_small_iff in D0; [|lia].
    assert (n = 0%nat) by lia. subst n. change (p10 0) with 1 in *.
    assert (u = 0) by lia. subst. rewrite H0 by auto. reflexivity.
  - unfold digits_value. rewrite fold_left_app, fold_value. f_equal. f_equal.
    change (digits_value (digs (S n) u) = u). now apply digs_value.
Qed.

Lemma skipn_skipn' {A} m : forall k (b : list A), skipn m (skipn k b) = skipn (k + m) b.
Proof.
  induction k; intro b; [reflexivity|].
  destruct b; [now rewrite !skipn_nil|]. cbn. apply IHk.
Qed.

Lemma splice_splice {A} (b : list A) i l m j :
  j = (i + length l)%nat -> (i + length l + length m <= length b)%nat ->
  splice (splice b i l) j m = splice b i (l ++ m).
Proof.
  intros -> H. unfold splice at 1 3.
  rewrite app_length.
  assert (E1 : firstn (i + length l) (splice b i l) = firstn i b ++ l).
  { unfold splice. rewrite app_assoc, firstn_app.
    rewrite app_length, firstn_length.
    replace (i + length l - (Nat.min i (length b) + length l))%nat with 0%nat by lia.
    rewrite firstn_O, app_nil_r. rewrite firstn_all2; [reflexivity|].
    rewrite app_length, firstn_length. lia. }
  assert (E2 : skipn (i + length l + length m) (splice b i l) = skipn (i + (length l + length m)) b).
  { unfold splice. rewrite app_assoc, skipn_app.
    rewrite skipn_all2 by (rewrite app_length, firstn_length; lia).
    rewrite app_length, firstn_length. cbn [app].
    replace (i + length l + length m - (Nat.min i (length b) + length l))%nat with (length m) by lia.
    rewrite skipn_skipn'. f_equal. lia. }
  rewrite E1, E2, <- !app_assoc. reflexivity.
Qed.

Lemma K_ok b o u n :
  (n <= 9)%nat -> has_digits n u -> u < 2 ^ 32 -> (o + S n <= length b)%nat ->
  K b o u n = Ok (splice b o (digs (S n) u), (o + S n)%nat).
Proof.
  intros H1 [Ha Hb] H3 H4. unfold K. rewrite C_ok; rewrite ?Nat.add_0_r; auto.
  - cbn [bind]. do 2 f_equal. lia.
  - intros ->. unfold p10 in Ha. cbn in Ha. lia.
Qed.

Lemma KX_ok b o u x n :
  (n <= 9)%nat -> has_digits n u -> u < 2 ^ 32 -> 0 <= x < 100000000 ->
  (o + (S n + 8) <= length b)%nat ->
  KX b o u x n = Ok (splice b o (digs (S n) u ++ digs 8 x), (o + (S n + 8))%nat).
Proof.
  intros H1 [Ha Hb] H3 Hx H4. unfold KX. rewrite C_ok; rewrite ?Nat.add_0_r; auto; try lia.
  - cbn [bind]. rewrite C_ok.
    + cbn [bind]. rewrite splice_splice; rewrite ?digs_length; [|lia..].
      do 2 f_equal. lia.
    + lia.
    + change (p10 8) with 100000000. lia.
    + discriminate.
    + lia.
    + rewrite splice_length by (rewrite digs_length; lia); lia.
  - intros ->. unfold p10 in Ha. cbn in Ha. lia.
Qed.

Lemma KYX_ok b o u y x n :
  (n <= 3)%nat -> has_digits n u -> 0 <= x < 100000000 -> 0 <= y < 100000000 ->
  (o + (S n + 16) <= length b)%nat ->
  KYX b o u y x n = Ok (splice b o (digs (S n) u ++ digs 8 y ++ digs 8 x), (o + (S n + 16))%nat).
Proof.
  intros H1 [Ha Hb] Hx Hy H4.
  assert (p10 (S n) <= 10000).
  { destruct n as [|[|[|[|n]]]]; unfold p10; cbn; lia. }
  unfold KYX. rewrite C_ok; rewrite ?Nat.add_0_r; auto; try lia.
  cbn [bind]. rewrite C_ok; try discriminate; try lia.
  2: change (p10 8) with 100000000; lia.
  2: rewrite splice_length by (rewrite digs_length; lia); lia.
  cbn [bind]. rewrite splice_splice; rewrite ?digs_length; [|lia..].
  rewrite C_ok; try discriminate; try lia.
  2: change (p10 8) with 100000000; lia.
  2: rewrite splice_length by (rewrite app_length, !digs_length; lia); lia.
  cbn [bind]. rewrite splice_splice; rewrite ?app_length, ?digs_length; [|lia..].
  rewrite <- app_assoc. do 2 f_equal. lia.
Qed.

Definition is_ity (T : ity) : Prop :=
  ity_size T = 1 \/ ity_size T = 2 \/ ity_size T = 4 \/ ity_size T = 8.

Lemma L09_pick {R} u (F : nat -> R) n : L09 u (fun n => n) = n -> L09 u F = F n.
Proof.
  unfold L09, L.
  repeat match goal with |- context [?a <? ?b] => destruct (a <? b) end; congruence.
Qed.

Lemma L03_pick {R} u (F : nat -> R) n : L03 u (fun n => n) = n -> L03 u F = F n.
Proof.
  unfold L03, L.
  repeat match goal with |- context [?a <? ?b] => destruct (a <? b) end; congruence.
Qed.

(** Magnitude part, common to both signs. *)
Lemma body_ok T t :
  is_ity T -> 0 <= t < 2 ^ (8 * ity_size T) ->
  exists l, numeral t l /\ forall b o, (o + length l <= length b)%nat ->
   (let u := narrow T t in
    if u =? t then L09 u (K b o u)
    else
    let x := u32 (t mod 100000000) in
    let t := t / 100000000 in
    let u := u32 t in
    if u =? t then L09 u (KX b o u x)
    else
      let y := u32 (t mod 100000000) in
      let u := u32 (t / 100000000) in
      L03 u (KYX b o u y x)) = Ok (splice b o l, (o + length l)%nat).
Proof.
  intros HT Ht. cbv zeta.
  destruct (Z.eqb_spec (narrow T t) t) as [E|E].
  { assert (B : 0 <= narrow T t < 2 ^ 32).
    { unfold narrow, u8, u16, u32.
      pose proof (Z.mod_pos_bound t (2 ^ 8)). pose proof (Z.mod_pos_bound t (2 ^ 16)).
      pose proof (Z.mod_pos_bound t (2 ^ 32)).
      destruct (ity_size T =? 1), (ity_size T =? 2); lia. }
    rewrite E in *.
    destruct (L09_case t (fun n => n) B) as (n & Hn & Hd & EL).
    exists (digs (S n) t). split.
    - rewrite <- (app_nil_r (digs (S n) t)).
      replace t with (t * p10 (length (@nil Z)) + digits_value []) at 1
        by (unfold p10, digits_value; cbn; lia).
      apply numeral_digs_app; auto.
    - intros b o Hb. rewrite digs_length in *.
      rewrite (L09_pick t _ _ EL). apply K_ok; auto; lia. }
  assert (Ht64 : 2 ^ 32 <= t < 2 ^ 64).
  { unfold narrow, u8, u16, u32 in E.
    destruct HT as [HT|[HT|[HT|HT]]]; rewrite HT in *; cbn -[Z.pow] in E, Ht;
      try (rewrite Z.mod_small in E; lia).
    split; [|lia]. destruct (Z.lt_ge_cases t (2 ^ 32)); [|lia].
    rewrite Z.mod_small in E; lia. }
  clear E Ht.
  assert (Hx : 0 <= t mod 100000000 < 100000000) by (apply Z.mod_pos_bound; lia).
  assert (Ex : u32 (t mod 100000000) = t mod 100000000) by (apply Z.mod_small; lia).
  rewrite Ex.
  pose proof (Z.div_mod t 100000000 ltac:(lia)) as ET.
  set (x := t mod 100000000) in *. set (q := t / 100000000) in *. clearbody x q.
  assert (Vx : digits_value (digs 8 x) = x) by (apply digs_value; change (p10 8) with 100000000; lia).
  assert (Fx : Forall is_digit (digs 8 x)) by (apply digs_digits; change (p10 8) with 100000000; lia).
  destruct (Z.eqb_spec (u32 q) q) as [E|E].
  { rewrite E.
    assert (B : 0 <= q < 2 ^ 32) by (rewrite <- E; unfold u32; apply Z.mod_pos_bound; lia).
    destruct (L09_case q (fun n => n) B) as (n & Hn & Hd & EL).
    exists (digs (S n) q ++ digs 8 x). split.
    - replace t with (q * p10 (length (digs 8 x)) + digits_value (digs 8 x))
        by (rewrite digs_length, Vx; change (p10 8) with 100000000; lia).
      apply numeral_digs_app; auto. intros; lia.
    - intros b o Hb. rewrite app_length, !digs_length in *.
      rewrite (L09_pick q _ _ EL). apply KX_ok; auto; lia. }
  assert (Hq : 2 ^ 32 <= q).
  { destruct (Z.lt_ge_cases q (2 ^ 32)); [|lia].
    unfold u32 in E. rewrite Z.mod_small in E; lia. }
  assert (Hy : 0 <= q mod 100000000 < 100000000) by (apply Z.mod_pos_bound; lia).
  assert (Ey : u32 (q mod 100000000) = q mod 100000000) by (apply Z.mod_small; lia).
  rewrite Ey.
  pose proof (Z.div_mod q 100000000 ltac:(lia)) as EQ.
  set (y := q mod 100000000) in *. set (v := q / 100000000) in *. clearbody y v.
  assert (Bv : 0 < v < 10000) by lia.
  assert (Ev : u32 v = v) by (apply Z.mod_small; lia).
  rewrite Ev.
  assert (Vy : digits_value (digs 8 y) = y) by (apply digs_value; change (p10 8) with 100000000; lia).
  assert (Fy : Forall is_digit (digs 8 y)) by (apply digs_digits; change (p10 8) with 100000000; lia).
  destruct (L03_case v (fun n => n)) as (n & Hn & Hd & EL); [lia|].
  exists (digs (S n) v ++ digs 8 y ++ digs 8 x). split.
  - replace t with (v * p10 (length (digs 8 y ++ digs 8 x)) + digits_value (digs 8 y ++ digs 8 x)).
    + apply numeral_digs_app; auto.
      * intros; lia.
      * apply Forall_app; auto.
    + assert (EV : digits_value (digs 8 y ++ digs 8 x) = y * p10 8 + x).
      { unfold digits_value at 1. rewrite fold_left_app, fold_value, digs_length, Vx.
        f_equal. f_equal. exact Vy. }
      rewrite EV, app_length, !digs_length.
      change (p10 (8 + 8)) with 10000000000000000. change (p10 8) with 100000000. lia.
  - intros b o Hb. rewrite !app_length, !digs_length in *.
    rewrite (L03_pick v _ _ EL). apply KYX_ok; auto; lia.
Qed.

Lemma to_text_int_ok T i :
  is_ity T -> in_type (ity_signed T) (ity_size T) i ->
  exists l, decimal_text i l /\ forall b o, (o + length l <= length b)%nat ->
    to_text_int T b o i = Ok (splice b o l, (o + length l)%nat).
Proof.
  intros HT Hi.
  assert (Hr : - 2 ^ (8 * ity_size T) < i < 2 ^ (8 * ity_size T) /\ - 2 ^ 64 < i < 2 ^ 64).
  { unfold in_type in Hi.
    destruct HT as [HT|[HT|[HT|HT]]]; rewrite HT in *; destruct (ity_signed T);
     cbn -[Z.pow] in *; lia. }
  unfold to_text_int. destruct (Z.ltb_spec i 0) as [Hn|Hn].
  - destruct (body_ok T (- i) HT) as (l & Hl & E); [lia|].
    exists (45 :: l). split; [right; split; [lia|eauto]|].
    intros b o Hb. cbn [length] in Hb. rewrite set_Ok by lia. cbn [bind].
    replace (u64 (0 - u64 i)) with (- i)
      by (unfold u64; rewrite Zminus_mod_idemp_r, Z.mod_small; lia).
    cbv zeta in E. rewrite E by (rewrite upd_length; lia).
    cbn [length].
    assert (S0 : upd b o 45 = splice b o [45]).
    { pose proof (splice_snoc b o [] 45) as SP. rewrite splice_nil in SP.
      cbn [length app] in SP. rewrite Nat.add_0_r in SP.
      rewrite set_Ok in SP by lia. specialize (SP ltac:(lia)). congruence. }
    rewrite S0, splice_splice by (cbn; lia). cbn [app]. do 2 f_equal. lia.
  - destruct (body_ok T i HT) as (l & Hl & E); [lia|].
    exists l. split; [left; auto|].
    intros b o Hb. cbn [bind].
    replace (u64 i) with i by (unfold u64; rewrite Z.mod_small; lia).
    apply E. auto.
Qed.

(** Numerals are unique, so [decimal_text] determines the text. *)
Lemma numeral_bounds n l : numeral n l -> n = 0 /\ l = [48] \/
  p10 (length l - 1) <= n < p10 (length l).
Proof.
  intros (H0 & HF & Hz & Hv).
  assert (G : forall l, Forall is_digit l -> 0 <= digits_value l < p10 (length l)).
  { clear. induction l; intro F.
    - unfold digits_value, p10; cbn; lia.
    - inversion F as [|? ? Fa Fl]; subst. unfold digits_value. cbn [fold_left length].
      rewrite fold_value, p10_S. specialize (IHl Fl). unfold is_digit in Fa.
      pose proof (p10_pos (length l)). nia. }
  destruct l as [|a l]; [congruence|]. inversion HF as [|? ? Fa Fl]; subst.
  unfold is_digit in Fa. cbn [hd] in Hz.
  destruct (Z.eq_dec a 48) as [->|Ha].
  - specialize (Hz eq_refl). inversion Hz; subst. left. split; reflexivity.
  - right. unfold digits_value. cbn [fold_left length]. rewrite fold_value, p10_S.
    replace (S (length l) - 1)%nat with (length l) by lia.
    specialize (G l Fl). pose proof (p10_pos (length l)). nia.
Qed.

Lemma p10_mono a b : (a <= b)%nat -> p10 a <= p10 b.
Proof. intro. unfold p10. apply Z.pow_le_mono_r; lia. Qed.

Lemma p10_cmp a b x : p10 a <= x -> x < p10 b -> (a < b)%nat.
Proof.
  intros. destruct (Nat.le_gt_cases b a) as [G|G]; auto.
  apply p10_mono in G. lia.
Qed.

Lemma value_inj l m : length l = length m -> Forall is_digit l -> Forall is_digit m ->
  digits_value l = digits_value m -> l = m.
Proof.
  assert (G : forall l, Forall is_digit l -> 0 <= digits_value l < p10 (length l)).
  { clear. induction l; intro F.
    - unfold digits_value, p10; cbn; lia.
    - inversion F as [|? ? Fa Fl]; subst. unfold digits_value. cbn [fold_left length].
      rewrite fold_value, p10_S. specialize (IHl Fl). unfold is_digit in Fa.
      pose proof (p10_pos (length l)). nia. }
  revert m; induction l; intros [|b m] HL F1 F2 HV; try discriminate; auto.
  inversion F1 as [|? ? Fa Fl]; inversion F2 as [|? ? Fb Fm]; subst.
  unfold digits_value in HV. cbn [fold_left] in HV. rewrite !fold_value in HV.
  injection HL as HL. rewrite HL in *.
  pose proof (G l Fl). pose proof (G m Fm). rewrite HL in *.
  pose proof (p10_pos (length m)). unfold is_digit in *.
  assert (a = b) by nia. subst. f_equal. apply IHl; auto. lia.
Qed.

Lemma numeral_unique n l m : numeral n l -> numeral n m -> l = m.
Proof.
  intros Hl Hm.
  pose proof (numeral_bounds n l Hl) as Bl. pose proof (numeral_bounds n m Hm) as Bm.
  destruct Hl as (Nl & Fl & Zl & Vl), Hm as (Nm & Fm & Zm & Vm).
  apply value_inj; auto; try lia.
  assert (length l <> 0 /\ length m <> 0)%nat by (destruct l, m; cbn; try congruence; lia).
  destruct Bl as [[-> ->]|Bl], Bm as [[Hn ->]|Bm]; try lia; auto.
  - pose proof (p10_pos (length m - 1)). lia.
  - subst n. pose proof (p10_pos (length l - 1)). lia.
  - assert (length l - 1 < length m)%nat by (apply p10_cmp with n; lia).
    assert (length m - 1 < length l)%nat by (apply p10_cmp with n; lia). lia.
Qed.

Lemma decimal_text_unique i l m : decimal_text i l -> decimal_text i m -> l = m.
Proof.
  intros [[H1 H2]|[H1 (d & -> & H2)]] [[H3 H4]|[H3 (e & -> & H4)]]; try lia.
  - eapply numeral_unique; eauto.
  - f_equal. eapply numeral_unique; eauto.
Qed.

Lemma numeral_length_le n l k : numeral n l -> n < p10 k -> (0 < k)%nat -> (length l <= k)%nat.
Proof.
  intros H Hn Hk. apply numeral_bounds in H as [[-> ->]|H]; [cbn; lia|].
  assert (length l - 1 < k)%nat by (apply p10_cmp with n; lia). lia.
Qed.
