(** C25-C26: the lziii decoder. *)
From Verif Require Import Base Lziii_Model Lziii_Spec.
Local Open Scope Z_scope.

Definition byte (x : Z) : Prop := 0 <= x < 256.

(** * Streams, read one token at a time *)
Inductive tail : Z -> list token -> list Z -> Prop :=
| t_nil c : tail c [] []
| t_fetch ctrl ts s : byte ctrl -> ts <> [] -> tail (ctrl + 256) ts s -> tail 1 ts (ctrl :: s)
| t_tok c t ts s : 2 <= c < 512 -> (c mod 2 =? 0) = negb (is_lit t) -> token_ok t -> tail (c / 2) ts s ->
    tail c (t :: ts) (payload t ++ s).

Lemma lor256 b : byte b -> Z.lor b 256 = b + 256.
Proof.
  unfold byte. intro H. rewrite <- Z.lxor_lor, <- Z.add_nocarry_lxor; auto.
  all: apply Z.bits_inj'; intros i Hi; rewrite Z.land_spec, Z.bits_0; change 256 with (2 ^ 8);
    destruct (Z.eq_dec i 8) as [->|]; [|rewrite Z.pow2_bits_false by lia; apply andb_false_r];
    replace (Z.testbit b 8) with false; [reflexivity|];
    symmetry; rewrite Z.testbit_false by lia; rewrite Z.div_small by lia; reflexivity.
Qed.

Lemma bit_mod c k j : 0 <= j -> 0 <= k -> Z.testbit (c / 2 ^ k) j = Z.testbit c (j + k).
Proof. intros. now rewrite Z.div_pow2_bits. Qed.

Lemma group_tail g : forall c k tokens rest,
  2 ^ k <= c < 2 ^ (k + 1) -> Z.of_nat (length g) <= k -> k <= 8 ->
  (forall j t, nth_error g j = Some t -> Z.testbit c (Z.of_nat j) = is_lit t) ->
  Forall token_ok g -> (Z.of_nat (length g) = k \/ tokens = []) -> tail 1 tokens rest ->
  tail c (g ++ tokens) (flat_map payload g ++ rest).
Proof.
  induction g as [|t g IH]; intros c k tokens rest Hc Hl Hk Hb F Hd Ht; cbn [app flat_map length] in *.
  - destruct Hd as [<- | ->].
    + replace c with 1 by (cbn in Hc; lia). exact Ht.
    + inversion Ht; subst; [constructor | congruence].
  - inversion F; subst. rewrite <- app_assoc.
    assert (2 ^ 1 <= 2 ^ k) by (apply Z.pow_le_mono_r; lia).
    assert (2 ^ (k + 1) <= 2 ^ 9) by (apply Z.pow_le_mono_r; lia).
    apply t_tok; [lia | | assumption |].
    + rewrite <- (Hb 0%nat t eq_refl). cbn [Z.of_nat]. rewrite Z.bit0_odd, Zmod_odd. destruct (Z.odd c); reflexivity.
    + apply IH with (k := k - 1); auto; try lia.
      * replace (k - 1 + 1) with k by lia. replace (k + 1) with (k - 1 + 1 + 1) in Hc by lia.
        replace k with (k - 1 + 1) in Hc at 1 by lia. rewrite !Z.pow_add_r in Hc by lia. replace k with (k - 1 + 1) at 2 by lia.
        rewrite Z.pow_add_r by lia. change (2 ^ 1) with 2 in *.
        split; [apply Z.div_le_lower_bound | apply Z.div_lt_upper_bound]; lia.
      * intros j u Hu. rewrite <- (Hb (S j) u Hu). change 2 with (2 ^ 1) at 1. rewrite bit_mod by lia. f_equal. lia.
      * destruct Hd as [Hd | ->]; [left; lia | now right].
Qed.

Lemma stream_tail ts s : stream ts s -> tail 1 ts s.
Proof.
  induction 1 as [|ctrl g tokens rest Hc Hl Hb F Hd Hs IH]; [constructor|].
  apply t_fetch; [exact Hc | destruct g; [cbn in Hl; lia | discriminate] |].
  apply group_tail with (k := 8); [change (2 ^ 8) with 256; change (2 ^ (8 + 1)) with 512; lia | lia | lia | | exact F | destruct Hd as [Hd| ->]; [left; lia | now right] | exact IH].
  intros j t Hj. rewrite <- (Hb j t Hj).
  assert (nth_error g j <> None) as Hn by congruence. apply nth_error_Some in Hn.
  rewrite <- lor256 by exact Hc. rewrite Z.lor_spec. change 256 with (2 ^ 8). rewrite Z.pow2_bits_false by lia. apply orb_false_r.
Qed.

Lemma tail_group ts : forall c k s, 2 ^ k <= c < 2 ^ (k + 1) -> 0 <= k <= 8 -> tail c ts s ->
  exists g ts' s', ts = g ++ ts' /\ s = flat_map payload g ++ s' /\ Z.of_nat (length g) <= k /\
    (Z.of_nat (length g) = k \/ ts' = []) /\ (forall j t, nth_error g j = Some t -> Z.testbit c (Z.of_nat j) = is_lit t) /\
    Forall token_ok g /\ tail 1 ts' s' /\ (1 <= k -> ts <> [] -> (1 <= length g)%nat).
Proof.
  induction ts as [|t ts IH]; intros c k s Hc Hk H.
  - inversion H; subst; [|congruence].
    exists [], [], []. repeat split; auto; try (cbn; lia); try constructor; try congruence. intros [|j] t; discriminate.
  - destruct (Z.eq_dec k 0) as [->|Hk0].
    + assert (c = 1) by (cbn in Hc; lia). subst c.
      exists [], (t :: ts), s. repeat split; auto; try (cbn; lia). intros [|j] u; discriminate.
    + assert (2 ^ 1 <= 2 ^ k) by (apply Z.pow_le_mono_r; lia).
      inversion H as [|? ? ? ? ? ? E|? ? ? s0 H2 Hm Hok Ht]; subst; [lia|].
      destruct (IH (c / 2) (k - 1) s0) as (g & ts' & s' & E1 & E2 & L & D & Hb & F & T & _).
      * replace (k - 1 + 1) with k by lia. replace (k + 1) with (k - 1 + 1 + 1) in Hc by lia.
        replace k with (k - 1 + 1) in Hc at 1 by lia. rewrite !Z.pow_add_r in Hc by lia. replace k with (k - 1 + 1) at 2 by lia.
        rewrite Z.pow_add_r by lia. change (2 ^ 1) with 2 in *.
        split; [apply Z.div_le_lower_bound | apply Z.div_lt_upper_bound]; lia.
      * lia.
      * exact Ht.
      * exists (t :: g), ts', s'. cbn [app flat_map length]. subst. rewrite <- app_assoc. repeat split; auto; try lia.
        -- destruct D as [D| ->]; [left; lia | now right].
        -- intros [|j] u Hu; cbn [nth_error] in Hu.
           ++ injection Hu as <-. cbn [Z.of_nat]. rewrite Z.bit0_odd. rewrite Zmod_odd in Hm.
              destruct (Z.odd c), (is_lit t); cbn in *; congruence.
           ++ rewrite <- (Hb j u Hu). change 2 with (2 ^ 1) at 1. rewrite bit_mod by lia. f_equal. lia.
Qed.

Lemma tail_stream_aux n : forall ts s, (length ts <= n)%nat -> tail 1 ts s -> stream ts s.
Proof.
  induction n as [|n IH]; intros ts s L H.
  - destruct ts; [|cbn in L; lia]. inversion H; subst; [constructor | congruence].
  - inversion H as [|ctrl ? s0 Hb Hne Ht|]; subst; [constructor | | lia].
    destruct (tail_group ts (ctrl + 256) 8 s0) as (g & ts' & s' & -> & -> & Lg & D & Bt & F & T & Ne); auto; [unfold byte in Hb; cbn; lia | lia|].
    specialize (Ne ltac:(lia) Hne).
    apply stream_group; auto; [lia| |destruct D as [D| ->]; [left; lia | now right] | apply IH; [rewrite app_length in L; lia | exact T]].
    intros j t Hj. rewrite <- (Bt j t Hj).
    assert (nth_error g j <> None) as Hn by congruence. apply nth_error_Some in Hn.
    rewrite <- lor256 by exact Hb. rewrite Z.lor_spec. change 256 with (2 ^ 8). rewrite Z.pow2_bits_false by lia. symmetry. apply orb_false_r.
Qed.
Lemma tail_stream ts s : tail 1 ts s -> stream ts s.
Proof. apply tail_stream_aux with (length ts). lia. Qed.

(** * size *)
Lemma getz_pre {A} (pre : list A) x l i : i = Z.of_nat (length pre) -> getz (pre ++ x :: l) i = Ok x.
Proof.
  intros ->. unfold getz. destruct (Z.ltb_spec (Z.of_nat (length pre)) 0); [lia|]. rewrite Nat2Z.id.
  unfold get. rewrite nth_error_app2, Nat.sub_diag by lia. reflexivity.
Qed.

Lemma payload_len t : (1 <= length (payload t))%nat. Proof. destruct t; cbn; lia. Qed.

Lemma span_second d l : token_ok (Span d l) -> ((l - 3) * 16 + (4096 - d) / 256) / 16 = l - 3 /\
  ((l - 3) * 16 + (4096 - d) / 256) mod 16 = (4096 - d) / 256.
Proof.
  intros [Hd Hl]. assert (0 <= (4096 - d) / 256 < 16).
  { split; [apply Z.div_pos; lia | apply Z.div_lt_upper_bound; lia]. }
  replace ((l - 3) * 16 + (4096 - d) / 256) with ((4096 - d) / 256 + (l - 3) * 16) by ring.
  rewrite Z.div_add, Z.mod_add, Z.div_small, Z.mod_small by lia. lia.
Qed.

Lemma size_tail c ts s : tail c ts s -> forall fuel pre n, (length ts <= fuel)%nat -> (ts <> [] -> c = 1 \/ 2 <= c) ->
  lz_size_loop fuel (pre ++ s) c (Z.of_nat (length pre)) n =
  Ok (match ts with [] => n | _ => (n + total_len ts) mod 2 ^ 64 end).
Proof.
  induction 1 as [c|ctrl ts s Hb Hne H IH|c t ts s Hc Hm Hok H IH]; intros fuel pre n Hf Hn.
  - rewrite app_nil_r. destruct fuel; cbn [lz_size_loop]; destruct (Z.ltb_spec (Z.of_nat (length pre)) (Z.of_nat (length pre))); try lia; reflexivity.
  - destruct ts as [|t ts]; [congruence|]. destruct fuel as [|fuel]; [cbn in Hf; lia|].
    replace (pre ++ ctrl :: s) with ((pre ++ [ctrl]) ++ s) by (rewrite <- app_assoc; reflexivity).
    specialize (IH (S fuel) (pre ++ [ctrl]) n Hf ltac:(intros _; right; unfold byte in Hb; lia)).
    rewrite <- IH. cbn [lz_size_loop].
    assert (L : (1 <= length s)%nat).
    { inversion H; subst; [unfold byte in Hb; lia|]. rewrite app_length. pose proof (payload_len t). lia. }
    rewrite !app_length. cbn [length].
    destruct (Z.ltb_spec (Z.of_nat (length pre)) (Z.of_nat (length pre + 1 + length s))); [|lia].
    destruct (Z.ltb_spec (Z.of_nat (length pre + 1)) (Z.of_nat (length pre + 1 + length s))); [|lia].
    change (1 =? 1) with true. cbv iota. rewrite <- !app_assoc. cbn [app].
    rewrite (getz_pre pre ctrl s) by reflexivity. cbn [bind].
    rewrite lor256 by exact Hb. destruct (Z.eqb_spec (ctrl + 256) 1); [unfold byte in Hb; lia|]. cbn [bind].
    replace (Z.of_nat (length pre + 1)) with (Z.of_nat (length pre) + 1) by lia. reflexivity.
  - destruct fuel as [|fuel]; [cbn in Hf; lia|]. cbn [lz_size_loop].
    pose proof (payload_len t) as Lp. rewrite !app_length.
    destruct (Z.ltb_spec (Z.of_nat (length pre)) (Z.of_nat (length pre + (length (payload t) + length s)))); [|lia].
    destruct (Z.eqb_spec c 1); [lia|]. cbn [bind]. rewrite Hm.
    assert (R : forall m, lz_size_loop fuel (pre ++ payload t ++ s) (c / 2) (Z.of_nat (length pre) + Z.of_nat (length (payload t))) m =
                Ok match ts with [] => m | _ :: _ => (m + total_len ts) mod 2 ^ 64 end).
    { intro m. specialize (IH fuel (pre ++ payload t) m ltac:(cbn in Hf; lia)). rewrite <- app_assoc in IH.
      rewrite app_length, Nat2Z.inj_add in IH. apply IH. intros _.
      assert (1 <= c / 2) by (apply Z.div_le_lower_bound; lia). lia. }
    assert (Fin : forall m, m = (n + token_len t) mod 2 ^ 64 ->
      match ts with [] => m | _ :: _ => (m + total_len ts) mod 2 ^ 64 end = (n + total_len (t :: ts)) mod 2 ^ 64).
    { intros m ->. cbn [total_len fold_right]. fold (total_len ts). destruct ts; [cbn [total_len fold_right]; f_equal; lia|].
      rewrite Z.add_mod_idemp_l by lia. f_equal. lia. }
    destruct t as [b|d l]; cbn [is_lit negb payload length] in *.
    + cbn [bind]. replace (Z.of_nat (length pre) + 1) with (Z.of_nat (length pre) + Z.of_nat 1) by lia. rewrite R. f_equal. now apply Fin.
    + destruct (span_second d l Hok) as [E1 E2]. cbn [app].
      replace (pre ++ (4096 - d) mod 256 :: (l - 3) * 16 + (4096 - d) / 256 :: s)
        with ((pre ++ [(4096 - d) mod 256]) ++ (l - 3) * 16 + (4096 - d) / 256 :: s) by (rewrite <- app_assoc; reflexivity).
      rewrite getz_pre by (rewrite app_length; cbn [length]; lia). cbn [bind]. rewrite <- app_assoc. cbn [app] in *.
      replace (Z.of_nat (length pre) + 1 + 1) with (Z.of_nat (length pre) + Z.of_nat 2) by lia. rewrite R. f_equal. apply Fin.
      unfold u64. rewrite Z.add_mod_idemp_l by lia. cbn [token_len]. f_equal. lia.
Qed.

Lemma tail_len c ts s : tail c ts s -> (length ts <= length s)%nat.
Proof. induction 1 as [| |c t ts s]; cbn [length] in *; try lia. rewrite app_length. pose proof (payload_len t). lia. Qed.

Lemma total_nonneg ts : Forall token_ok ts -> 0 <= total_len ts.
Proof.
  induction 1 as [|x l Hx F IH]; [reflexivity|]. change (total_len (x :: l)) with (token_len x + total_len l).
  destruct x; cbn [token_ok token_len] in *; lia.
Qed.
Lemma stream_ok ts s : stream ts s -> Forall token_ok ts.
Proof. induction 1; [constructor|]. apply Forall_app. auto. Qed.

Theorem C25_size : forall ts s, stream ts s -> total_len ts < 2 ^ 64 -> lz_size s = Ok (total_len ts).
Proof.
  intros ts s H L. apply stream_tail in H. unfold lz_size.
  pose proof (size_tail 1 ts s H (length s) [] 0 (tail_len _ _ _ H) ltac:(auto)) as E. cbn [app length Z.of_nat] in E.
  rewrite E. destruct ts as [|t ts]; [reflexivity|]. f_equal. rewrite Z.add_0_l. apply Z.mod_small.
  split; [|exact L]. eapply total_nonneg, stream_ok, tail_stream, H.
Qed.
Print Assumptions C25_size.

(** * decode *)
Lemma copy_length n : forall out d out', copy out d n = Some out' -> length out' = (length out + n)%nat.
Proof.
  induction n as [|n IH]; intros out d out'; cbn [copy]; [intros [= <-]; lia|].
  destruct (nth_error out (length out - d)); [|discriminate]. intro H. apply IH in H. rewrite app_length in H. cbn [length] in H. lia.
Qed.

Lemma copy_some n : forall out d, (1 <= d <= length out)%nat -> exists out', copy out d n = Some out'.
Proof.
  induction n as [|n IH]; intros out d Hd; cbn [copy]; [eauto|].
  destruct (nth_error out (length out - d)) eqn:E; [|apply nth_error_None in E; lia].
  apply IH. rewrite app_length. cbn. lia.
Qed.

Lemma expand_length ts : forall out out', Forall token_ok ts -> expand out ts = Some out' ->
  Z.of_nat (length out') = Z.of_nat (length out) + total_len ts.
Proof.
  induction ts as [|t ts IH]; intros out out' F; cbn [expand]; [intros [= <-]; cbn; lia|]. inversion F as [|? ? Ft F']; subst.
  destruct t as [b|d l]; cbn [total_len fold_right token_len]; fold (total_len ts).
  - intro H. apply IH in H; auto. rewrite app_length in H. cbn [length] in H. lia.
  - destruct (d <=? Z.of_nat (length out)); [|discriminate].
    destruct (copy out (Z.to_nat d) (Z.to_nat l)) as [o|] eqn:E; [|discriminate]. intro H. apply IH in H; auto.
    apply copy_length in E. cbn in Ft. lia.
Qed.

Lemma copy_ok n : forall k out d todo out', (n <= k)%nat -> (1 <= d)%nat -> (n <= length todo)%nat -> (d <= length out)%nat ->
  Z.of_nat (length out) + Z.of_nat n < 2 ^ 64 ->
  copy out d n = Some out' ->
  lz_copy k (map Some out ++ todo) (Z.of_nat (length out)) (Z.of_nat (length out) - Z.of_nat d) (Z.of_nat (length out) - Z.of_nat d + Z.of_nat n)
  = Ok (map Some out' ++ skipn n todo, Z.of_nat (length out')).
Proof.
  induction n as [|n IH]; intros k out d todo out' Hk Hd Ht Hdo Hw E; cbn [copy] in E.
  - injection E as <-. rewrite Z.add_0_r. destruct k; cbn [lz_copy]; rewrite Z.ltb_irrefl; reflexivity.
  - destruct (nth_error out (length out - d)) as [v|] eqn:Ev; [|discriminate].
    destruct k as [|k]; [lia|]. cbn [lz_copy].
    destruct (Z.ltb_spec (Z.of_nat (length out) - Z.of_nat d) (Z.of_nat (length out) - Z.of_nat d + Z.of_nat (S n))); [|lia].
    unfold rd, getz. destruct (Z.ltb_spec (Z.of_nat (length out) - Z.of_nat d) 0); [lia|].
    replace (Z.to_nat (Z.of_nat (length out) - Z.of_nat d)) with (length out - d)%nat by lia.
    unfold get. rewrite nth_error_app1 by (rewrite map_length; lia). rewrite nth_error_map, Ev. cbn [bind option_map].
    destruct todo as [|x todo]; [cbn in Ht; lia|].
    unfold setz. destruct (Z.ltb_spec (Z.of_nat (length out)) 0); [lia|]. rewrite Nat2Z.id.
    rewrite set_Ok by (rewrite app_length, map_length; cbn [length]; lia). cbn [bind].
    rewrite <- (map_length Some out) at 1. rewrite upd_app_mid.
    replace (map Some out ++ Some v :: todo) with (map Some (out ++ [v]) ++ todo) by (rewrite map_app, <- app_assoc; reflexivity).
    unfold u64. rewrite Z.mod_small by lia.
    specialize (IH k (out ++ [v]) d todo out' ltac:(lia) Hd ltac:(cbn [length] in Ht; lia)).
    rewrite app_length in IH. cbn [length] in IH.
    replace (Z.of_nat (length out) - Z.of_nat d + Z.of_nat (S n)) with (Z.of_nat (length out + 1) - Z.of_nat d + Z.of_nat n) by lia.
    replace (Z.of_nat (length out) - Z.of_nat d + 1) with (Z.of_nat (length out + 1) - Z.of_nat d) by lia.
    replace (Z.of_nat (length out) + 1) with (Z.of_nat (length out + 1)) by lia.
    rewrite IH; [reflexivity | lia | lia | exact E].
Qed.

Lemma decode_tail c ts s : tail c ts s -> forall fuel pre out todo final,
  (length ts <= fuel)%nat -> (ts <> [] -> c = 1 \/ 2 <= c) ->
  expand out ts = Some final -> length (map Some out ++ todo) = length final -> Z.of_nat (length final) < 2 ^ 63 ->
  lz_loop fuel (Z.of_nat (length final)) (pre ++ s) c (Z.of_nat (length pre)) (Z.of_nat (length out)) (map Some out ++ todo) = Ok (map Some final).
Proof.
  induction 1 as [c|ctrl ts s Hb Hne H IH|c t ts s Hc Hm Hok H IH]; intros fuel pre out todo final Hf Hn He Hl Hw.
  - cbn [expand] in He. injection He as <-. rewrite app_length, map_length in Hl. destruct todo; [|cbn in Hl; lia]. rewrite !app_nil_r.
    destruct fuel; cbn [lz_loop]; rewrite Z.ltb_irrefl; reflexivity.
  - destruct ts as [|t ts]; [congruence|]. destruct fuel as [|fuel]; [cbn in Hf; lia|].
    specialize (IH (S fuel) (pre ++ [ctrl]) out todo final Hf ltac:(intros _; right; unfold byte in Hb; lia) He Hl Hw).
    rewrite <- IH. cbn [lz_loop].
    destruct (Z.of_nat (length out) <? Z.of_nat (length final)); [|reflexivity].
    change (1 =? 1) with true. cbv iota. rewrite (getz_pre pre ctrl s) by reflexivity. cbn [bind].
    rewrite lor256 by exact Hb. destruct (Z.eqb_spec (ctrl + 256) 1); [unfold byte in Hb; lia|]. cbn [bind].
    rewrite app_length. cbn [length]. rewrite <- app_assoc. cbn [app].
    replace (Z.of_nat (length pre + 1)) with (Z.of_nat (length pre) + 1) by lia. reflexivity.
  - destruct fuel as [|fuel]; [cbn in Hf; lia|]. cbn [lz_loop].
    assert (F : Forall token_ok ts).
    { clear - H. induction H; auto. }
    assert (Lf : Z.of_nat (length final) = Z.of_nat (length out) + token_len t + total_len ts).
    { pose proof (expand_length (t :: ts) out final ltac:(now constructor) He) as E. cbn [total_len fold_right] in E. fold (total_len ts) in E. lia. }
    assert (Tp : 0 <= total_len ts) by now apply total_nonneg.
    assert (1 <= token_len t) by (destruct t; cbn in *; lia).
    destruct (Z.ltb_spec (Z.of_nat (length out)) (Z.of_nat (length final))); [|lia].
    destruct (Z.eqb_spec c 1); [lia|]. cbn [bind].
    assert (C1 : 1 <= c / 2) by (apply Z.div_le_lower_bound; lia).
    rewrite app_length, map_length in Hl.
    destruct t as [b|d l]; cbn [is_lit negb payload length app token_len] in *; rewrite Hm.
    + rewrite getz_pre by reflexivity. cbn [bind].
      destruct todo as [|x todo]; [cbn [length] in Hl; lia|].
      unfold setz. destruct (Z.ltb_spec (Z.of_nat (length out)) 0); [lia|]. rewrite Nat2Z.id.
      rewrite set_Ok by (rewrite app_length, map_length; cbn [length]; lia). cbn [bind].
      rewrite <- (map_length Some out) at 2. rewrite upd_app_mid.
      replace (map Some out ++ Some b :: todo) with (map Some (out ++ [b]) ++ todo) by (rewrite map_app, <- app_assoc; reflexivity).
      cbn [expand] in He.
      specialize (IH fuel (pre ++ [b]) (out ++ [b]) todo final ltac:(lia) ltac:(lia) He).
      rewrite !app_length, map_length, app_length, <- app_assoc in IH. cbn [length app] in IH.
      replace (Z.of_nat (length pre) + 1) with (Z.of_nat (length pre + 1)) by lia.
      replace (Z.of_nat (length out) + 1) with (Z.of_nat (length out + 1)) by lia.
      apply IH; [cbn [length] in Hl; lia | exact Hw].
    + rewrite getz_pre by reflexivity. cbn [bind].
      destruct (span_second d l Hok) as [E1 E2]. cbn in Hok.
      replace (pre ++ (4096 - d) mod 256 :: (l - 3) * 16 + (4096 - d) / 256 :: s)
        with ((pre ++ [(4096 - d) mod 256]) ++ (l - 3) * 16 + (4096 - d) / 256 :: s) by (rewrite <- app_assoc; reflexivity).
      rewrite getz_pre by (rewrite app_length; cbn [length]; lia). cbn [bind]. rewrite E1, E2.
      cbn [expand] in He. destruct (Z.leb_spec d (Z.of_nat (length out))) as [Hd|]; [|discriminate].
      destruct (copy out (Z.to_nat d) (Z.to_nat l)) as [o|] eqn:Ec; [|discriminate].
      pose proof (Z.div_mod (4096 - d) 256 ltac:(lia)) as DM.
      replace (Z.of_nat (length out) + (4096 - d) / 256 * 256 + (4096 - d) mod 256 - 4096) with (Z.of_nat (length out) - d) by lia.
      unfold u64. rewrite (Z.mod_small (Z.of_nat (length out) - d)) by lia.
      rewrite (Z.mod_small (Z.of_nat (length out) - d + (l - 3) + 3)) by lia.
      pose proof (copy_ok (Z.to_nat l) 18 out (Z.to_nat d) todo o ltac:(lia) ltac:(lia)) as Cp.
      rewrite !Z2Nat.id in Cp by lia.
      replace (Z.of_nat (length out) - d + (l - 3) + 3) with (Z.of_nat (length out) - d + l) by lia.
      rewrite Cp; [|lia|lia|lia|exact Ec]. cbn [bind].
      pose proof (copy_length _ _ _ _ Ec) as Lo.
      specialize (IH fuel (pre ++ [(4096 - d) mod 256; (l - 3) * 16 + (4096 - d) / 256]) o (skipn (Z.to_nat l) todo) final ltac:(lia) ltac:(lia) He).
      rewrite !app_length, map_length, skipn_length, <- app_assoc in IH. cbn [length app] in IH.
      rewrite <- app_assoc. cbn [app].
      replace (Z.of_nat (length pre) + 1 + 1) with (Z.of_nat (length pre + 2)) by lia.
      apply IH; [lia | exact Hw].
Qed.

(** C25: decode of a stream of tokens writes their expansion, whatever the buffer held before. *)
Theorem C25_decode : forall ts s out dst, stream ts s -> expand [] ts = Some out ->
  Z.of_nat (length out) < 2 ^ 63 -> length dst = length out ->
  lz_decode (Z.of_nat (length out)) dst s = Ok (map Some out).
Proof.
  intros ts s out dst H He Hw Hl. apply stream_tail in H. unfold lz_decode.
  apply (decode_tail 1 ts s H (S (length s)) [] [] dst out); auto.
  pose proof (tail_len _ _ _ H). lia.
Qed.
Print Assumptions C25_decode.

(** The constexpr decoder: size, then decode into zeros. *)
Theorem C25_decoder : forall ts s out, stream ts s -> expand [] ts = Some out ->
  Z.of_nat (length out) < 2 ^ 63 -> lz_decoder s = Ok (map Some out).
Proof.
  intros ts s out H He Hw.
  pose proof (expand_length ts [] out (stream_ok _ _ H) He) as L. cbn [length Z.of_nat] in L.
  unfold lz_decoder. rewrite (C25_size ts s H) by lia. cbn [bind].
  replace (total_len ts) with (Z.of_nat (length out)) by lia.
  eapply C25_decode; eauto. rewrite repeat_length. lia.
Qed.
Print Assumptions C25_decoder.

(** Every sequence of valid tokens has a stream. *)
Theorem C25_every_token_sequence : forall ts, Forall token_ok ts -> exists s, stream ts s.
Proof.
  intro ts. remember (length ts) as n. assert (L : (length ts <= n)%nat) by lia. clear Heqn. revert ts L.
  induction n as [n IH] using lt_wf_ind. intros ts L F.
  destruct ts as [|t ts0]; [exists []; constructor|]. set (ts := t :: ts0) in *.
  assert (F1 : Forall token_ok (firstn 8 ts) /\ Forall token_ok (skipn 8 ts)) by (apply Forall_app; now rewrite firstn_skipn).
  destruct F1 as [F1 F2].
  destruct (IH (length (skipn 8 ts))) with (ts := skipn 8 ts) as [rest Hr]; auto.
  { rewrite skipn_length. unfold ts in *. cbn [length] in *. lia. }
  assert (B : forall g, (length g <= 8)%nat -> exists c, 0 <= c < 2 ^ Z.of_nat (length g) /\ forall j x, nth_error g j = Some x -> Z.testbit c (Z.of_nat j) = is_lit x).
  { clear. induction g as [|x g IHg]; intro L; [exists 0; split; [cbn; lia | intros [|?] ?; discriminate]|].
    destruct IHg as (c & Hc & Hb); [cbn in L; lia|]. exists (2 * c + Z.b2z (is_lit x)). split.
    - cbn [length]. rewrite Nat2Z.inj_succ, Z.pow_succ_r by lia. destruct (is_lit x); cbn [Z.b2z]; lia.
    - intros [|j] y E; cbn [nth_error] in E.
      + injection E as <-. change (Z.of_nat 0) with 0. apply Z.testbit_0_r.
      + rewrite Nat2Z.inj_succ, Z.testbit_succ_r by lia. now apply Hb. }
  destruct (B (firstn 8 ts)) as (c & Hc & Hb); [rewrite firstn_length; lia|].
  exists (c :: flat_map payload (firstn 8 ts) ++ rest). rewrite <- (firstn_skipn 8 ts) at 1.
  assert (L8 : (1 <= length (firstn 8 ts) <= 8)%nat) by (rewrite firstn_length; unfold ts; cbn [length]; lia).
  constructor; auto.
  - assert (2 ^ Z.of_nat (length (firstn 8 ts)) <= 2 ^ 8) by (apply Z.pow_le_mono_r; lia). lia.
  - destruct (Nat.le_gt_cases 8 (length ts)); [left; rewrite firstn_length; lia|]. right. apply skipn_all2. lia.
Qed.
Print Assumptions C25_every_token_sequence.

(** Three literals, an overlapping reference, one more literal. *)
Example C25_case : stream [Lit 1; Lit 2; Lit 3; Span 2 5; Lit 9] [23; 1; 2; 3; 254; 47; 9] /\
  expand [] [Lit 1; Lit 2; Lit 3; Span 2 5; Lit 9] = Some [1; 2; 3; 2; 3; 2; 3; 2; 9] /\
  lz_decoder [23; 1; 2; 3; 254; 47; 9] = Ok (map Some [1; 2; 3; 2; 3; 2; 3; 2; 9]).
Proof.
  split; [|split; vm_compute; reflexivity].
  apply (stream_group 23 [Lit 1; Lit 2; Lit 3; Span 2 5; Lit 9] [] []); try lia; auto; try (cbn; lia); try constructor.
  - intros j t. destruct j as [|[|[|[|[|j]]]]]; cbn; try (intros [= <-]; reflexivity). destruct j; discriminate.
  - cbn; lia.
  - repeat constructor; cbn; lia.
Qed.

(** * C26: which streams are safe *)

(** What size() accepts: a stream, or a stream whose very last control byte announces a literal that is
    missing (size does not read literals). The flag says which. *)
Inductive parse : Z -> list token -> bool -> list Z -> Prop :=
| p_nil c : parse c [] true []
| p_fetch ctrl ts k s : byte ctrl -> ts <> [] -> parse (ctrl + 256) ts k s -> parse 1 ts k (ctrl :: s)
| p_trunc ctrl : byte ctrl -> parse 1 [Lit 0] false [ctrl]
| p_tok c t ts k s : 2 <= c < 512 -> (c mod 2 =? 0) = negb (is_lit t) -> token_ok t -> parse (c / 2) ts k s ->
    parse c (t :: ts) k (payload t ++ s).

Lemma parse_tail c ts s : parse c ts true s -> tail c ts s.
Proof. remember true as k. induction 1; subst; try discriminate; [constructor | constructor; auto | constructor; auto]. Qed.

Lemma parse_ok c ts k s : parse c ts k s -> Forall token_ok ts.
Proof. induction 1; auto. constructor; [cbn; lia|constructor]. Qed.

Lemma getz_end (l : list Z) i : Z.of_nat (length l) <= i -> getz l i = UB.
Proof.
  intro H. unfold getz. destruct (i <? 0); [reflexivity|]. unfold get.
  destruct (nth_error l (Z.to_nat i)) eqn:E; [|reflexivity].
  assert (nth_error l (Z.to_nat i) <> None) as N by congruence. apply nth_error_Some in N. lia.
Qed.

Lemma span_parts p q : byte p -> byte q ->
  payload (Span (4096 - (q mod 16 * 256 + p)) (q / 16 + 3)) = [p; q] /\ token_ok (Span (4096 - (q mod 16 * 256 + p)) (q / 16 + 3)).
Proof.
  unfold byte. intros Hp Hq. pose proof (Z.div_mod q 16 ltac:(lia)). pose proof (Z.mod_pos_bound q 16 ltac:(lia)).
  cbn [payload token_ok].
  replace (4096 - (4096 - (q mod 16 * 256 + p))) with (p + q mod 16 * 256) by ring.
  rewrite Z.div_add, Z.mod_add, (Z.div_small p), (Z.mod_small p) by lia. split; [f_equal; f_equal; lia | lia].
Qed.

Definition size_value (n : Z) (ts : list token) : Z := match ts with [] => n | _ => (n + total_len ts) mod 2 ^ 64 end.

Lemma size_value_cons n t ts : size_value ((n + token_len t) mod 2 ^ 64) ts = size_value n (t :: ts).
Proof.
  unfold size_value. change (total_len (t :: ts)) with (token_len t + total_len ts).
  destruct ts; [change (total_len []) with 0; f_equal; lia|]. rewrite Z.add_mod_idemp_l by lia. f_equal. lia.
Qed.

(** One iteration of size() after the control byte is known. *)
Definition size_body (fuel : nat) (data : list Z) (c i n : Z) : res Z :=
  '(i, n) <- (if c mod 2 =? 0 then b <- getz data (i + 1) ;; Ok (i + 1 + 1, u64 (u64 (n + 1) + (2 + b / 16)))
              else Ok (i + 1, u64 (n + 1))) ;;
  lz_size_loop fuel data (c / 2) i n.

Lemma size_loop_past fuel data c i n : Z.of_nat (length data) <= i -> lz_size_loop fuel data c i n = Ok n.
Proof. intro. destruct fuel; cbn [lz_size_loop]; destruct (Z.ltb_spec i (Z.of_nat (length data))); try lia; reflexivity. Qed.

Lemma size_inv fuel : forall pre s c n (m : Z), (length s <= fuel)%nat -> Forall byte s -> c = 1 \/ 2 <= c < 512 ->
  match lz_size_loop fuel (pre ++ s) c (Z.of_nat (length pre)) n with
  | Ok m => exists ts k, parse c ts k s /\ m = size_value n ts
  | UB => True
  | Timeout => False
  end.
Proof.
  induction fuel as [|fuel IH]; intros pre s c n m Hf F Hc.
  { destruct s; [|cbn in Hf; lia]. rewrite app_nil_r, size_loop_past by lia. exists [], true. split; [constructor|reflexivity]. }
  destruct s as [|x s].
  { rewrite app_nil_r, size_loop_past by lia. exists [], true. split; [constructor|reflexivity]. }
  (* after the control byte *)
  assert (Body : forall pre s c n, (length s <= S fuel)%nat -> Forall byte s -> 2 <= c < 512 -> s <> [] ->
    match size_body fuel (pre ++ s) c (Z.of_nat (length pre)) n with
    | Ok m => exists ts k, parse c ts k s /\ m = size_value n ts /\ ts <> []
    | UB => True
    | Timeout => False
    end).
  { clear - IH. intros pre s c n Hf F Hc Hne. destruct s as [|p s]; [congruence|]. unfold size_body.
    inversion F as [|? ? Fp Fs]; subst. cbn [length] in Hf.
    assert (C2 : c / 2 = 1 \/ 2 <= c / 2 < 512).
    { assert (1 <= c / 2) by (apply Z.div_le_lower_bound; lia). assert (c / 2 < 512) by (apply Z.div_lt_upper_bound; lia). lia. }
    destruct (c mod 2 =? 0) eqn:Hm.
    - destruct s as [|q s].
      { rewrite getz_end by (rewrite app_length; cbn [length]; lia). exact I. }
      inversion Fs as [|? ? Fq Fs']; subst. cbn [length] in Hf.
      replace (pre ++ p :: q :: s) with ((pre ++ [p]) ++ q :: s) by (rewrite <- app_assoc; reflexivity).
      rewrite getz_pre by (rewrite app_length; cbn [length]; lia). cbn [bind].
      replace ((pre ++ [p]) ++ q :: s) with ((pre ++ [p; q]) ++ s) by (rewrite <- !app_assoc; reflexivity).
      replace (Z.of_nat (length pre) + 1 + 1) with (Z.of_nat (length (pre ++ [p; q]))) by (rewrite app_length; cbn [length]; lia).
      specialize (IH (pre ++ [p; q]) s (c / 2) (u64 (u64 (n + 1) + (2 + q / 16))) 0 ltac:(lia) Fs' C2).
      destruct (lz_size_loop fuel ((pre ++ [p; q]) ++ s) (c / 2) (Z.of_nat (length (pre ++ [p; q]))) (u64 (u64 (n + 1) + (2 + q / 16)))); auto.
      destruct IH as (ts & k & Hp & ->). destruct (span_parts p q Fp Fq) as [E1 E2].
      eexists (_ :: ts), k. split; [|split; [|discriminate]].
      + change (p :: q :: s) with ([p; q] ++ s). rewrite <- E1. apply p_tok; auto.
      + rewrite <- size_value_cons. f_equal. unfold u64. rewrite Z.add_mod_idemp_l by lia. f_equal. cbn [token_len]. ring.
    - cbn [bind].
      replace (pre ++ p :: s) with ((pre ++ [p]) ++ s) by (rewrite <- app_assoc; reflexivity).
      replace (Z.of_nat (length pre) + 1) with (Z.of_nat (length (pre ++ [p]))) by (rewrite app_length; cbn [length]; lia).
      specialize (IH (pre ++ [p]) s (c / 2) (u64 (n + 1)) 0 ltac:(lia) Fs C2).
      destruct (lz_size_loop fuel ((pre ++ [p]) ++ s) (c / 2) (Z.of_nat (length (pre ++ [p]))) (u64 (n + 1))); auto.
      destruct IH as (ts & k & Hp & ->).
      exists (Lit p :: ts), k. split; [|split; [|discriminate]].
      + change (p :: s) with (payload (Lit p) ++ s). apply p_tok; auto.
      + rewrite <- size_value_cons. reflexivity. }
  cbn [lz_size_loop]. rewrite app_length. cbn [length].
  destruct (Z.ltb_spec (Z.of_nat (length pre)) (Z.of_nat (length pre + S (length s)))); [|lia].
  destruct (Z.eqb_spec c 1) as [->|Hc1].
  - rewrite getz_pre by reflexivity. cbn [bind]. inversion F as [|? ? Fx Fs]; subst. rewrite lor256 by exact Fx.
    destruct s as [|p s].
    + fold (size_body fuel (pre ++ [x]) (x + 256) (Z.of_nat (length pre) + 1) n).
      unfold size_body. destruct ((x + 256) mod 2 =? 0).
      * rewrite getz_end by (rewrite app_length; cbn [length]; lia). exact I.
      * cbn [bind]. rewrite size_loop_past by (rewrite app_length; cbn [length]; lia).
        exists [Lit 0], false. split; [constructor; exact Fx|]. unfold size_value, u64. reflexivity.
    + replace (pre ++ x :: p :: s) with ((pre ++ [x]) ++ p :: s) by (rewrite <- app_assoc; reflexivity).
      replace (Z.of_nat (length pre) + 1) with (Z.of_nat (length (pre ++ [x]))) by (rewrite app_length; cbn [length]; lia).
      specialize (Body (pre ++ [x]) (p :: s) (x + 256) n ltac:(cbn [length] in *; lia) Fs ltac:(unfold byte in Fx; lia) ltac:(discriminate)).
      unfold size_body in Body.
      destruct ('(i, n0) <- _ ;; _); auto. destruct Body as (ts & k & Hp & -> & Hne).
      exists ts, k. split; [|reflexivity]. now apply p_fetch.
  - cbn [bind]. specialize (Body pre (x :: s) c n ltac:(cbn [length] in *; lia) F ltac:(lia) ltac:(discriminate)).
    unfold size_body in Body. destruct ('(i, n0) <- _ ;; _); auto. destruct Body as (ts & k & Hp & -> & _). eauto.
Qed.

(** The copy loop on any memory: undefined, or it writes e - b bytes. *)
Lemma copy_any k : forall dst i b e, 0 <= b -> e < 2 ^ 64 -> e - b <= Z.of_nat k ->
  lz_copy k dst i b e = UB \/ exists dst', lz_copy k dst i b e = Ok (dst', i + Z.max 0 (e - b)).
Proof.
  induction k as [|k IH]; intros dst i b e Hb He Hk; cbn [lz_copy].
  - destruct (Z.ltb_spec b e); [lia|]. right. exists dst. f_equal. f_equal. lia.
  - destruct (Z.ltb_spec b e); [|right; exists dst; f_equal; f_equal; lia].
    unfold rd. destruct (getz dst b) as [o| |] eqn:Eg; cbn [bind]; [|now left|unfold getz, get in Eg; destruct (b <? 0); [discriminate|]; destruct (nth_error dst (Z.to_nat b)); discriminate].
    destruct o as [v|]; cbn [bind]; [|now left].
    unfold setz, set. destruct (i <? 0); cbn [bind]; [now left|]. destruct (Z.to_nat i <? length dst)%nat; cbn [bind]; [|now left].
    unfold u64. rewrite Z.mod_small by lia.
    destruct (IH (upd dst (Z.to_nat i) (Some v)) (i + 1) (b + 1) e ltac:(lia) He ltac:(lia)) as [->|[dst' ->]]; [now left|].
    right. exists dst'. f_equal. f_equal. lia.
Qed.

(** Decoding too few bytes ends past the source. *)
Lemma deficit c ts k s : parse c ts k s -> forall fuel pre i N dst,
  (length ts < fuel)%nat -> (ts <> [] -> c = 1 \/ 2 <= c) -> 
  (if k then i + total_len ts < N else i + total_len ts <= N) ->
  lz_loop fuel N (pre ++ s) c (Z.of_nat (length pre)) i dst = UB.
Proof.
  induction 1 as [c|ctrl ts k s Hb Hne H IH|ctrl Hb|c t ts k s Hc Hm Hok H IH]; intros fuel pre i N dst Hf Hn Hi.
  - destruct fuel as [|fuel]; [lia|]. cbn [lz_loop]. change (total_len []) with 0 in Hi.
    destruct (Z.ltb_spec i N); [|lia]. rewrite app_nil_r.
    destruct (c =? 1); cbn [bind]; rewrite getz_end by lia; reflexivity.
  - destruct fuel as [|fuel]; [lia|].
    assert (Hi0 : i < N).
    { destruct ts as [|t ts]; [congruence|]. apply parse_ok in H. pose proof (Forall_inv H) as Ht. apply Forall_inv_tail, total_nonneg in H.
      change (total_len (t :: ts)) with (token_len t + total_len ts) in Hi. assert (1 <= token_len t) by (destruct t; cbn [token_ok token_len] in *; lia).
      destruct k; lia. }
    specialize (IH (S fuel) (pre ++ [ctrl]) i N dst Hf ltac:(intros _; right; unfold byte in Hb; lia) Hi).
    rewrite <- IH. cbn [lz_loop].
    destruct (Z.ltb_spec i N); [|lia].
    change (1 =? 1) with true. cbv iota. rewrite (getz_pre pre ctrl s) by reflexivity. cbn [bind].
    rewrite lor256 by exact Hb. destruct (Z.eqb_spec (ctrl + 256) 1); [unfold byte in Hb; lia|]. cbn [bind].
    rewrite app_length. cbn [length]. rewrite <- app_assoc. cbn [app].
    replace (Z.of_nat (length pre + 1)) with (Z.of_nat (length pre) + 1) by lia. reflexivity.
  - destruct fuel as [|fuel]; [lia|]. cbn [lz_loop]. change (total_len [Lit 0]) with 1 in Hi.
    destruct (Z.ltb_spec i N); [|lia]. change (1 =? 1) with true. cbv iota. rewrite getz_pre by reflexivity. cbn [bind].
    rewrite getz_end by (rewrite app_length; cbn [length]; lia). reflexivity.
  - destruct fuel as [|fuel]; [lia|]. cbn [lz_loop].
    pose proof (parse_ok _ _ _ _ H) as F. apply total_nonneg in F.
    change (total_len (t :: ts)) with (token_len t + total_len ts) in Hi.
    assert (1 <= token_len t) by (destruct t; cbn [token_ok token_len] in *; lia).
    destruct (Z.ltb_spec i N); [|destruct k; lia].
    destruct (Z.eqb_spec c 1); [lia|]. cbn [bind].
    assert (C1 : 1 <= c / 2) by (apply Z.div_le_lower_bound; lia).
    destruct t as [b|d l]; cbn [is_lit negb payload length app token_len] in *; rewrite Hm.
    + rewrite getz_pre by reflexivity. cbn [bind].
      unfold setz, set. destruct (i <? 0); cbn [bind]; [reflexivity|]. destruct (Z.to_nat i <? length dst)%nat; cbn [bind]; [|reflexivity].
      specialize (IH fuel (pre ++ [b]) (i + 1) N (upd dst (Z.to_nat i) (Some b)) ltac:(lia) ltac:(lia) ltac:(destruct k; lia)).
      rewrite app_length, <- app_assoc in IH. cbn [length app] in IH. rewrite Nat2Z.inj_add in IH. exact IH.
    + rewrite getz_pre by reflexivity. cbn [bind].
      destruct (span_second d l Hok) as [E1 E2]. cbn [token_ok] in Hok.
      replace (pre ++ (4096 - d) mod 256 :: (l - 3) * 16 + (4096 - d) / 256 :: s)
        with ((pre ++ [(4096 - d) mod 256]) ++ (l - 3) * 16 + (4096 - d) / 256 :: s) by (rewrite <- app_assoc; reflexivity).
      rewrite getz_pre by (rewrite app_length; cbn [length]; lia). cbn [bind]. rewrite E1, E2.
      set (b := u64 _). set (e := u64 (b + (l - 3) + 3)).
      assert (Hbr : 0 <= b < 2 ^ 64) by (apply Z.mod_pos_bound; lia).
      assert (Her : 0 <= e < 2 ^ 64) by (apply Z.mod_pos_bound; lia).
      assert (Hd : e - b <= l).
      { unfold e, u64. pose proof (Z.mod_le (b + (l - 3) + 3) (2 ^ 64) ltac:(lia) ltac:(lia)). lia. }
      clearbody b e.
      destruct (copy_any 18 dst i b e ltac:(lia) ltac:(lia) ltac:(lia)) as [->|[dst' ->]]; [reflexivity|]. cbn [bind].
      specialize (IH fuel (pre ++ [(4096 - d) mod 256; (l - 3) * 16 + (4096 - d) / 256]) (i + Z.max 0 (e - b)) N dst' ltac:(lia) ltac:(lia) ltac:(destruct k; lia)).
      rewrite app_length, <- app_assoc in IH. cbn [length app] in IH. rewrite <- app_assoc. cbn [app].
      replace (Z.of_nat (length pre) + 1 + 1) with (Z.of_nat (length pre + 2)) by lia. exact IH.
Qed.

Lemma bad_expand c ts s : tail c ts s -> forall fuel pre out,
  (length ts < fuel)%nat -> (ts <> [] -> c = 1 \/ 2 <= c) -> Z.of_nat (length out) + total_len ts < 2 ^ 63 ->
  expand out ts = None ->
  lz_loop fuel (Z.of_nat (length out) + total_len ts) (pre ++ s) c (Z.of_nat (length pre)) (Z.of_nat (length out))
    (map Some out ++ repeat None (Z.to_nat (total_len ts))) = UB.
Proof.
  induction 1 as [c|ctrl ts s Hb Hne H IH|c t ts s Hc Hm Hok H IH]; intros fuel pre out Hf Hn Hw He; [discriminate| |].
  - destruct ts as [|t ts]; [congruence|]. destruct fuel as [|fuel]; [cbn in Hf; lia|].
    specialize (IH (S fuel) (pre ++ [ctrl]) out Hf ltac:(intros _; right; unfold byte in Hb; lia) Hw He).
    rewrite <- IH. cbn [lz_loop].
    destruct (_ <? _) eqn:Lt; [|cbn [lz_loop] in IH; rewrite Lt in IH; discriminate].
    change (1 =? 1) with true. cbv iota. rewrite (getz_pre pre ctrl s) by reflexivity. cbn [bind].
    rewrite lor256 by exact Hb. destruct (Z.eqb_spec (ctrl + 256) 1); [unfold byte in Hb; lia|]. cbn [bind].
    rewrite app_length. cbn [length]. rewrite <- app_assoc. cbn [app].
    replace (Z.of_nat (length pre + 1)) with (Z.of_nat (length pre) + 1) by lia. reflexivity.
  - destruct fuel as [|fuel]; [cbn in Hf; lia|]. cbn [lz_loop length] in *.
    assert (F : Forall token_ok ts) by (clear - H; induction H; auto).
    apply total_nonneg in F.
    change (total_len (t :: ts)) with (token_len t + total_len ts) in *.
    assert (1 <= token_len t) by (destruct t; cbn [token_ok token_len] in *; lia).
    destruct (Z.ltb_spec (Z.of_nat (length out)) (Z.of_nat (length out) + (token_len t + total_len ts))); [|lia].
    destruct (Z.eqb_spec c 1); [lia|]. cbn [bind].
    assert (C1 : 1 <= c / 2) by (apply Z.div_le_lower_bound; lia).
    destruct t as [b|d l]; cbn [is_lit negb payload length app token_len] in *; rewrite Hm.
    + rewrite getz_pre by reflexivity. cbn [bind].
      replace (Z.to_nat (1 + total_len ts)) with (S (Z.to_nat (total_len ts))) by lia. cbn [repeat].
      unfold setz. destruct (Z.ltb_spec (Z.of_nat (length out)) 0); [lia|]. rewrite Nat2Z.id.
      rewrite set_Ok by (rewrite app_length, map_length; cbn [length]; lia). cbn [bind].
      rewrite <- (map_length Some out) at 3. rewrite upd_app_mid.
      replace (map Some out ++ Some b :: repeat None (Z.to_nat (total_len ts))) with (map Some (out ++ [b]) ++ repeat None (Z.to_nat (total_len ts))) by (rewrite map_app, <- app_assoc; reflexivity).
      cbn [expand] in He.
      specialize (IH fuel (pre ++ [b]) (out ++ [b]) ltac:(lia) ltac:(lia) ltac:(rewrite app_length; cbn [length]; lia) He).
      rewrite !app_length, <- app_assoc in IH. cbn [length app] in IH.
      replace (Z.of_nat (length pre) + 1) with (Z.of_nat (length pre + 1)) by lia.
      replace (Z.of_nat (length out) + 1) with (Z.of_nat (length out + 1)) by lia.
      replace (Z.of_nat (length out) + (1 + total_len ts)) with (Z.of_nat (length out + 1) + total_len ts) by lia. exact IH.
    + rewrite getz_pre by reflexivity. cbn [bind].
      destruct (span_second d l Hok) as [E1 E2]. pose proof Hok as Hok'. cbn [token_ok] in Hok.
      replace (pre ++ (4096 - d) mod 256 :: (l - 3) * 16 + (4096 - d) / 256 :: s)
        with ((pre ++ [(4096 - d) mod 256]) ++ (l - 3) * 16 + (4096 - d) / 256 :: s) by (rewrite <- app_assoc; reflexivity).
      rewrite getz_pre by (rewrite app_length; cbn [length]; lia). cbn [bind]. rewrite E1, E2.
      pose proof (Z.div_mod (4096 - d) 256 ltac:(lia)) as DM.
      replace (Z.of_nat (length out) + (4096 - d) / 256 * 256 + (4096 - d) mod 256 - 4096) with (Z.of_nat (length out) - d) by lia.
      replace (u64 (Z.of_nat (length out) - d) + (l - 3) + 3) with (u64 (Z.of_nat (length out) - d) + l) by lia.
      rewrite <- app_assoc. cbn [app].
      replace (Z.of_nat (length pre) + 1 + 1) with (Z.of_nat (length pre + 2)) by lia.
      cbn [expand] in He. destruct (Z.leb_spec d (Z.of_nat (length out))) as [Hd|Hd].
      * destruct (copy_some (Z.to_nat l) out (Z.to_nat d) ltac:(lia)) as [o Ec]. rewrite Ec in He.
        unfold u64. rewrite (Z.mod_small (Z.of_nat (length out) - d)) by lia.
        rewrite (Z.mod_small (Z.of_nat (length out) - d + l)) by lia.
        pose proof (copy_ok (Z.to_nat l) 18 out (Z.to_nat d) (repeat None (Z.to_nat (l + total_len ts))) o ltac:(lia) ltac:(lia)) as Cp.
        rewrite !Z2Nat.id in Cp by lia. rewrite Cp; [|rewrite repeat_length; lia|lia|lia|exact Ec]. cbn [bind].
        pose proof (copy_length _ _ _ _ Ec) as Lo.
        replace (Z.to_nat (l + total_len ts)) with (Z.to_nat l + Z.to_nat (total_len ts))%nat by lia.
        rewrite repeat_app, skipn_app, repeat_length, skipn_all2, Nat.sub_diag, skipn_O by (rewrite repeat_length; lia). cbn [app].
        specialize (IH fuel (pre ++ [(4096 - d) mod 256; (l - 3) * 16 + (4096 - d) / 256]) o ltac:(lia) ltac:(lia) ltac:(lia) He).
        rewrite app_length, <- app_assoc in IH. cbn [length app] in IH.
        replace (Z.of_nat (length out) + (l + total_len ts)) with (Z.of_nat (length o) + total_len ts) by lia. exact IH.
      * assert (Eb : u64 (Z.of_nat (length out) - d) = Z.of_nat (length out) - d + 2 ^ 64).
        { unfold u64. symmetry. apply Z.mod_unique with (-1); lia. }
        rewrite Eb. destruct (Z_lt_ge_dec (Z.of_nat (length out) - d + l) 0).
        -- assert (Ee : u64 (Z.of_nat (length out) - d + 2 ^ 64 + l) = Z.of_nat (length out) - d + 2 ^ 64 + l).
           { unfold u64. apply Z.mod_small. lia. }
           rewrite Ee. cbn [lz_copy]. destruct (Z.ltb_spec (Z.of_nat (length out) - d + 2 ^ 64) (Z.of_nat (length out) - d + 2 ^ 64 + l)); [|lia].
           unfold rd, getz. destruct (_ <? 0); [reflexivity|]. unfold get.
           destruct (nth_error _ _) eqn:En; [|reflexivity]. exfalso.
           assert (Hn' : nth_error (map Some out ++ repeat None (Z.to_nat (l + total_len ts))) (Z.to_nat (Z.of_nat (length out) - d + 2 ^ 64)) <> None) by (rewrite En; discriminate).
           apply nth_error_Some in Hn'. rewrite app_length, map_length, repeat_length in Hn'. lia.
        -- assert (Ee : u64 (Z.of_nat (length out) - d + 2 ^ 64 + l) = Z.of_nat (length out) - d + l).
           { unfold u64. symmetry. apply Z.mod_unique with 1; lia. }
           rewrite Ee. cbn [lz_copy]. destruct (Z.ltb_spec (Z.of_nat (length out) - d + 2 ^ 64) (Z.of_nat (length out) - d + l)); [lia|]. cbn [bind].
           assert (Pt : forall c ts s, tail c ts s -> parse c ts true s).
           { clear. induction 1; constructor; auto. }
           pose proof (deficit (c / 2) ts true s (Pt _ _ _ H) fuel (pre ++ [(4096 - d) mod 256; (l - 3) * 16 + (4096 - d) / 256]) (Z.of_nat (length out))
             (Z.of_nat (length out) + (l + total_len ts)) (map Some out ++ repeat None (Z.to_nat (l + total_len ts))) ltac:(lia) ltac:(lia) ltac:(cbn; lia)) as D.
           rewrite app_length, <- app_assoc in D. cbn [length app] in D. exact D.
Qed.

Lemma tail_inv c ts s : tail c ts s ->
  (ts = [] /\ s = []) \/
  (c = 1 /\ exists ctrl s', s = ctrl :: s' /\ ts <> [] /\ byte ctrl /\ tail (ctrl + 256) ts s') \/
  (2 <= c < 512 /\ exists t ts' s', ts = t :: ts' /\ s = payload t ++ s' /\ (c mod 2 =? 0) = negb (is_lit t) /\ token_ok t /\ tail (c / 2) ts' s').
Proof. destruct 1; [left; auto | right; left; split; [reflexivity|]; eauto 8 | right; right; split; [assumption|]; eauto 10]. Qed.

Lemma cons_eq {A} (x y : A) l m : x :: l = y :: m -> x = y /\ l = m. Proof. intro E. now injection E. Qed.

Lemma parse_unique c ts k s : parse c ts k s -> forall ts', tail c ts' s -> k = true /\ ts' = ts.
Proof.
  induction 1 as [c|ctrl ts k s Hb Hne H IH|ctrl Hb|c t ts k s Hc Hm Hok H IH]; intros ts' Hs; apply tail_inv in Hs.
  - destruct Hs as [[-> _]|[(_ & ctrl & s' & E & _)|(_ & t & ts'' & s' & _ & E & _)]]; [auto|discriminate|destruct t; discriminate].
  - destruct Hs as [[_ E]|[(_ & ctrl' & s' & E & _ & _ & Ht)|(A & _)]]; [discriminate| |lia]. injection E as <- <-. now apply IH.
  - destruct Hs as [[_ E]|[(_ & ctrl' & s' & E & Hne & _ & Ht)|(A & _)]]; [discriminate| |lia]. injection E as <- <-.
    apply tail_inv in Ht. destruct Ht as [[-> _]|[(_ & c' & s' & E & _)|(_ & t & ts'' & s' & _ & E & _)]]; [congruence|discriminate|destruct t; discriminate].
  - destruct Hs as [[_ E]|[(A & _)|(_ & t' & ts'' & s' & -> & E & Hm' & Hok' & Ht)]]; [destruct t; discriminate|lia|].
    rewrite Hm in Hm'. destruct t as [b|d l], t' as [b'|d' l']; try discriminate; cbn [payload app] in E.
    + injection E as <- <-. destruct (IH _ Ht) as [-> ->]. auto.
    + apply cons_eq in E. destruct E as [E4 E]. apply cons_eq in E. destruct E as [E5 <-]. destruct (IH _ Ht) as [-> ->]. split; [reflexivity|]. f_equal.
      destruct (span_second d l Hok) as [X1 X2], (span_second d' l' Hok') as [Y1 Y2]. rewrite E5 in X1, X2. cbn [token_ok] in *.
      pose proof (Z.div_mod (4096 - d) 256 ltac:(lia)). pose proof (Z.div_mod (4096 - d') 256 ltac:(lia)).
      assert (d = d') by lia. assert (l = l') by lia. congruence.
Qed.

(** C26: on any byte stream size() is defined or undefined but always ends; when it gives n, decode into a
    fresh n-byte buffer is defined exactly when the bytes are a stream of tokens whose references stay
    inside the data decoded so far, and then the buffer holds the expansion. So decode reads only the
    encoded bytes and bytes it has written. *)
Theorem C26_safe_exactly_on_streams : forall s, Forall byte s -> Z.of_nat (length s) < 2 ^ 58 ->
  lz_size s <> Timeout /\
  forall n, lz_size s = Ok n -> 
    lz_decode n (repeat None (Z.to_nat n)) s <> Timeout /\
    forall res, lz_decode n (repeat None (Z.to_nat n)) s = Ok res <->
      exists ts out, stream ts s /\ expand [] ts = Some out /\ res = map Some out.
Proof.
  intros s F L.
  pose proof (size_inv (length s) [] s 1 0 0 ltac:(lia) F ltac:(now left)) as H. cbn [app length Z.of_nat] in H.
  unfold lz_size. destruct (lz_size_loop (length s) s 1 0 0) as [m| |]; [|split; congruence|contradiction].
  split; [discriminate|]. intros n [= <-]. destruct H as (ts & k & Hp & ->).
  pose proof (parse_ok _ _ _ _ Hp) as Fts. pose proof (total_nonneg _ Fts) as Tp.
  assert (Lt : (length ts <= length s)%nat /\ total_len ts <= 18 * Z.of_nat (length s)).
  { clear - Hp. induction Hp as [|? ? ? ? ? ? ? [IH1 IH2]|?|c t ts k s Hc Hm Hok Hp [IH1 IH2]]; try (cbn [length]; change (total_len []) with 0; change (total_len [Lit 0]) with 1; lia).
    - rewrite app_length. change (total_len (t :: ts)) with (token_len t + total_len ts). cbn [length].
      destruct t; cbn [token_ok token_len payload length] in *; lia. }
  assert (En : size_value 0 ts = total_len ts).
  { unfold size_value. destruct ts; [reflexivity|]. rewrite Z.add_0_l. apply Z.mod_small. lia. }
  rewrite En in *.
  assert (Bad : k = false \/ expand [] ts = None -> lz_decode (total_len ts) (repeat None (Z.to_nat (total_len ts))) s = UB).
  { intros [-> | He]; unfold lz_decode.
    - apply (deficit 1 ts false s Hp (S (length s)) [] 0); auto; cbn [total_len]; lia.
    - destruct k; [|apply (deficit 1 ts false s Hp (S (length s)) [] 0); auto; cbn [total_len]; lia].
      apply parse_tail in Hp. apply (bad_expand 1 ts s Hp (S (length s)) [] []); auto; cbn [length Z.of_nat]; lia. }
  assert (Uniq : forall ts', stream ts' s -> k = true /\ ts' = ts).
  { intros ts' Hs. apply (parse_unique _ _ _ _ Hp). now apply stream_tail. }
  destruct k.
  - destruct (expand [] ts) as [out|] eqn:He.
    + pose proof (tail_stream _ _ (parse_tail _ _ _ Hp)) as Hs.
      pose proof (expand_length ts [] out Fts He) as Lo. cbn [length Z.of_nat] in Lo.
      assert (D : lz_decode (total_len ts) (repeat None (Z.to_nat (total_len ts))) s = Ok (map Some out)).
      { replace (total_len ts) with (Z.of_nat (length out)) by lia. eapply C25_decode; eauto; [lia|]. rewrite repeat_length. lia. }
      rewrite D. split; [discriminate|]. intro r. split.
      * intros [= <-]. eauto.
      * intros (ts' & out' & Hs' & He' & ->). destruct (Uniq ts' Hs') as [_ E]. rewrite E in He'. congruence.
    + rewrite Bad by auto. split; [discriminate|]. intro r. split; [discriminate|].
      intros (ts' & out' & Hs' & He' & ->). destruct (Uniq ts' Hs') as [_ E]. rewrite E in He'. congruence.
  - rewrite Bad by auto. split; [discriminate|]. intro r. split; [discriminate|].
    intros (ts' & out' & Hs' & _). destruct (Uniq ts' Hs'). discriminate.
Qed.
Print Assumptions C26_safe_exactly_on_streams.

(** What the buffer holds before the call does not matter. *)
Definition same_start (n : Z) (r r' : res (list (option Z) * Z)) : Prop :=
  match r, r' with
  | Ok (d, i), Ok (d', i') => i = i' /\ exists w t t', d = map Some w ++ t /\ d' = map Some w ++ t' /\ length t = length t' /\ i = Z.of_nat (length w) /\ n = Z.of_nat (length w + length t)
  | UB, UB => True
  | Timeout, Timeout => True
  | _, _ => False
  end.

Lemma set_start (w : list Z) (t t' : list (option Z)) v : length t = length t' ->
  (t = [] /\ t' = [] /\ setz (map Some w ++ t) (Z.of_nat (length w)) (Some v) = UB /\ setz (map Some w ++ t') (Z.of_nat (length w)) (Some v) = UB) \/
  exists x u x' u', t = x :: u /\ t' = x' :: u' /\ length u = length u' /\
    setz (map Some w ++ t) (Z.of_nat (length w)) (Some v) = Ok (map Some (w ++ [v]) ++ u) /\ setz (map Some w ++ t') (Z.of_nat (length w)) (Some v) = Ok (map Some (w ++ [v]) ++ u').
Proof.
  assert (Z0 : (Z.of_nat (length w) <? 0) = false) by (apply Z.ltb_ge; lia).
  assert (U : forall x (u : list (option Z)), setz (map Some w ++ x :: u) (Z.of_nat (length w)) (Some v) = Ok (map Some (w ++ [v]) ++ u)).
  { intros x u. unfold setz, set. rewrite Z0, Nat2Z.id, app_length, map_length. cbn [length].
    replace (length w <? length w + S (length u))%nat with true by (symmetry; apply Nat.ltb_lt; lia). f_equal. rewrite map_app, <- app_assoc. cbn [map app].
    clear. induction w as [|y w IH]; cbn [map app length upd]; [reflexivity|]. now rewrite IH. }
  intro L. destruct t as [|x u], t' as [|x' u']; try discriminate L.
  - left. split; [reflexivity|]. split; [reflexivity|]. rewrite app_nil_r. unfold setz, set. rewrite Z0, Nat2Z.id, map_length, Nat.ltb_irrefl. auto.
  - right. injection L as L. exists x, u, x', u'. rewrite !U. auto.
Qed.

Lemma rd_start (w : list Z) b : 0 <= b < Z.of_nat (length w) -> exists v, forall t, rd (map Some w ++ t) b = Ok v.
Proof.
  intro H. assert (N : nth_error w (Z.to_nat b) <> None) by (apply nth_error_Some; lia). destruct (nth_error w (Z.to_nat b)) as [v|] eqn:E; [|congruence].
  exists v. intro t0. unfold rd, getz, get. destruct (Z.ltb_spec b 0); [lia|]. rewrite nth_error_app1 by (rewrite map_length; lia). now rewrite (map_nth_error Some _ _ E).
Qed.

Lemma rd_end (d : list (option Z)) b : Z.of_nat (length d) <= b -> rd d b = UB.
Proof. intro H. unfold rd, getz, get. destruct (b <? 0); [reflexivity|]. rewrite (proj2 (nth_error_None d (Z.to_nat b))) by lia. reflexivity. Qed.

Lemma copy_start n k : forall w t t' b e, length t = length t' -> n = Z.of_nat (length w + length t) -> 0 <= b -> e < 2 ^ 64 -> b < Z.of_nat (length w) \/ n <= b ->
  same_start n (lz_copy k (map Some w ++ t) (Z.of_nat (length w)) b e) (lz_copy k (map Some w ++ t') (Z.of_nat (length w)) b e).
Proof.
  induction k as [|k IH]; intros w t t' b e L Hn Hb He D; cbn [lz_copy]; destruct (Z.ltb_spec b e).
  - exact I.
  - cbn [same_start]. split; [reflexivity|]. exists w, t, t'. auto.
  - destruct D as [D|D].
    + destruct (rd_start w b ltac:(lia)) as (v & V). rewrite !V. cbn [bind].
      destruct (set_start w t t' v L) as [(_ & _ & -> & ->)|(x & u & x' & u' & -> & -> & Lu & -> & ->)]; cbn [bind]; [exact I|].
      cbn [length] in Hn. replace (Z.of_nat (length w) + 1) with (Z.of_nat (length (w ++ [v]))) by (rewrite app_length; cbn [length]; lia).
      unfold u64. rewrite Z.mod_small by lia. apply IH; auto; try lia; rewrite app_length; cbn [length]; lia.
    + rewrite !rd_end by (rewrite app_length, map_length; lia). exact I.
  - cbn [same_start]. split; [reflexivity|]. exists w, t, t'. auto.
Qed.

Lemma loop_start n src fuel : Forall byte src -> 0 <= n < 2 ^ 63 -> forall c s w t t', length t = length t' -> n = Z.of_nat (length w + length t) ->
  lz_loop fuel n src c s (Z.of_nat (length w)) (map Some w ++ t) = lz_loop fuel n src c s (Z.of_nat (length w)) (map Some w ++ t').
Proof.
  intros F Hn. assert (G : forall i v, getz src i = Ok v -> byte v).
  { intros i v E. unfold getz, get in E. destruct (i <? 0); [discriminate|]. destruct (nth_error src (Z.to_nat i)) eqn:E1; [|discriminate]. injection E as <-. rewrite Forall_forall in F. apply F. eapply nth_error_In; eassumption. }
  induction fuel as [|fuel IH]; intros c s w t t' L En; cbn [lz_loop]; destruct (Z.ltb_spec (Z.of_nat (length w)) n).
  1: reflexivity.
  1,3: destruct t, t'; cbn [length] in *; try lia; reflexivity.
  destruct (if c =? 1 then b <- getz src s;; Ok (Z.lor b 256, s + 1) else Ok (c, s)) as [[c1 s1]| |]; cbn [bind]; [|reflexivity..].
  destruct (getz src s1) as [p| |] eqn:Ep; cbn [bind]; [|reflexivity..]. apply G in Ep. destruct (c1 mod 2 =? 0).
  - destruct (getz src (s1 + 1)) as [q| |] eqn:Eq; cbn [bind]; [|reflexivity..]. apply G in Eq. unfold byte in *.
    pose proof (Z.mod_pos_bound q 16 ltac:(lia)). set (d := Z.of_nat (length w) + q mod 16 * 256 + p - 4096).
    assert (Hd : d < Z.of_nat (length w) /\ - 2 ^ 12 <= d) by (unfold d; lia).
    assert (Hb : 0 <= u64 d < 2 ^ 64) by (apply Z.mod_pos_bound; lia).
    assert (Hc : u64 d < Z.of_nat (length w) \/ n <= u64 d).
    { destruct (Z_lt_ge_dec d 0); [right|left; unfold u64; rewrite Z.mod_small; lia]. unfold u64. rewrite <- (Z.mod_add d 1) by lia. rewrite Z.mod_small; lia. }
    set (e := u64 (u64 d + q / 16 + 3)). assert (He : e < 2 ^ 64) by (apply Z.mod_pos_bound; lia).
    pose proof (copy_start n 18 w t t' (u64 d) e L En ltac:(lia) He Hc) as S. unfold same_start in S.
    destruct (lz_copy 18 (map Some w ++ t) _ _ e) as [[d1 i1]| |], (lz_copy 18 (map Some w ++ t') _ _ e) as [[d2 i2]| |]; try contradiction; cbn [bind]; [|reflexivity..].
    destruct S as (<- & w1 & t1 & t2 & -> & -> & L1 & -> & N1). apply IH; assumption.
  - destruct (set_start w t t' p L) as [(_ & _ & -> & ->)|(x & u & x' & u' & -> & -> & Lu & -> & ->)]; cbn [bind]; [reflexivity|].
    cbn [length] in En. replace (Z.of_nat (length w) + 1) with (Z.of_nat (length (w ++ [p]))) by (rewrite app_length; cbn [length]; lia).
    apply IH; [assumption|]. rewrite app_length. cbn [length]. lia.
Qed.

(** C26: the outcome of decode, whatever the bytes are, does not depend on what the buffer holds before (here: any bytes or nothing at all). *)
Theorem C26_buffer_irrelevant : forall src dst dst', Forall byte src -> length dst = length dst' -> Z.of_nat (length dst) < 2 ^ 63 ->
  lz_decode (Z.of_nat (length dst)) dst src = lz_decode (Z.of_nat (length dst)) dst' src.
Proof. intros src dst dst' F L B. unfold lz_decode. apply (loop_start (Z.of_nat (length dst)) src (S (length src)) F ltac:(lia) 1 0 [] dst dst' L). reflexivity. Qed.
Print Assumptions C26_buffer_irrelevant.

(** C26: so the compile-time decoder<T> is defined exactly on streams of tokens too. *)
Theorem C26_decoder : forall s, Forall byte s -> Z.of_nat (length s) < 2 ^ 58 ->
  lz_decoder s <> Timeout /\ forall res, lz_decoder s = Ok res <-> exists ts out, stream ts s /\ expand [] ts = Some out /\ res = map Some out.
Proof.
  intros s F L. destruct (C26_safe_exactly_on_streams s F L) as [T H]. unfold lz_decoder.
  destruct (lz_size s) as [n| |] eqn:E; cbn [bind]; [|split; [discriminate|]|congruence].
  - destruct (H n eq_refl) as [H1 H2].
    assert (B : 0 <= n < 2 ^ 63 \/ ~ 0 <= n < 2 ^ 63) by lia. destruct B as [B|B].
    + pose proof (C26_buffer_irrelevant s (repeat (Some 0) (Z.to_nat n)) (repeat None (Z.to_nat n)) F) as S.
      rewrite !repeat_length, Z2Nat.id in S by lia. rewrite S by (auto; lia). auto.
    + exfalso. apply B. pose proof (size_inv (length s) [] s 1 0 0 ltac:(lia) F ltac:(now left)) as Hs. cbn [app length Z.of_nat] in Hs. unfold lz_size in E. rewrite E in Hs.
      destruct Hs as (ts & k & Hp & ->). pose proof (parse_ok _ _ _ _ Hp) as Fts. pose proof (total_nonneg _ Fts) as Tp.
      assert (Lt : total_len ts <= 18 * Z.of_nat (length s)).
      { clear - Hp. induction Hp as [|? ? ? ? ? ? ? IH|?|c t ts k s Hc Hm Hok Hp IH]; try (cbn [length]; change (total_len []) with 0; change (total_len [Lit 0]) with 1; lia).
        rewrite app_length. change (total_len (t :: ts)) with (token_len t + total_len ts). destruct t; cbn [token_ok token_len payload length] in *; lia. }
      unfold size_value. destruct ts; [lia|]. rewrite Z.add_0_l, Z.mod_small; lia.
  - intro r. split; [discriminate|]. intros (ts & out & Hs & He & _). exfalso.
    pose proof (stream_tail _ _ Hs) as Ht. pose proof (size_tail 1 ts s Ht (length s) [] 0 (tail_len _ _ _ Ht) ltac:(auto)) as Es. cbn [app length Z.of_nat] in Es. unfold lz_size in E. congruence.
Qed.
Print Assumptions C26_decoder.

(** Malformed streams are not detected: size accepts a control byte with no literal after it, and decode
    then reads past the end; it also accepts a reference before the start. *)
Theorem C26_malformed_not_detected :
  lz_size [1] = Ok 1 /\ lz_decode 1 [None] [1] = UB /\
  lz_size [0; 0; 0] = Ok 3 /\ lz_decode 3 [None; None; None] [0; 0; 0] = UB /\ lz_size [0; 5] = UB.
Proof. repeat split; vm_compute; reflexivity. Qed.
Print Assumptions C26_malformed_not_detected.

Example C26_case : Forall byte [23; 1; 2; 3; 254; 47; 9] /\ lz_size [23; 1; 2; 3; 254; 47; 9] = Ok 9.
Proof. split; [repeat constructor; unfold byte; lia | vm_compute; reflexivity]. Qed.
