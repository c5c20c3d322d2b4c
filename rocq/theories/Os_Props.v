(** C46, C51, C52, C62, C69: operating system helpers, logging and error macros. *)
From Coq Require Import String Ascii Lia.
From Verif Require Import Base Os_Model Os_Spec.
Local Open Scope Z_scope.

(** ** C46 *)

Lemma get_app_l : forall {A} (a b : list A) i, (i < length a)%nat -> get (a ++ b) i = get a i.
Proof. intros A a b i H. unfold get. rewrite nth_error_app1 by exact H. reflexivity. Qed.

Lemma u16_id : forall x, 0 <= x < 65536 -> u16 x = x.
Proof. intros. unfold u16. apply Z.mod_small. cbn. lia. Qed.

Lemma u16_at : forall x k r, x = k * 65536 + r -> 0 <= r < 65536 -> u16 x = r.
Proof. intros x k r -> H. unfold u16. change (2 ^ 16) with 65536. rewrite Z.add_comm, Z.mod_add by lia. apply Z.mod_small. exact H. Qed.

Lemma to_utf16_step : forall c rest cap fuel, scalar c -> (length (utf16 c) <= cap)%nat ->
  to_utf16_loop (S fuel) cap (utf8 c ++ rest) =
  (r <- to_utf16_loop fuel (cap - length (utf16 c)) rest ;; Ok (utf16 c ++ r)).
Proof.
  intros c rest cap fuel Hc Hcap. unfold utf8, utf16 in *. unfold scalar in Hc.
  assert (D64 := Z.div_mod c 64 ltac:(lia)). assert (B64 := Z.mod_pos_bound c 64 ltac:(lia)).
  assert (DD := Z.div_mod (c / 64) 64 ltac:(lia)). assert (BB := Z.mod_pos_bound (c / 64) 64 ltac:(lia)).
  assert (E4 : c / 4096 = c / 64 / 64) by (rewrite Z.div_div by lia; reflexivity).
  assert (DE := Z.div_mod (c / 64 / 64) 64 ltac:(lia)). assert (BE := Z.mod_pos_bound (c / 64 / 64) 64 ltac:(lia)).
  assert (E6 : c / 262144 = c / 64 / 64 / 64) by (rewrite !Z.div_div by lia; reflexivity).
  rewrite ?E4, ?E6.
  set (a := c mod 64) in *. set (b := c / 64 mod 64) in *. set (d := c / 64 / 64) in *.
  set (b' := c / 64) in *. set (e := d mod 64) in *. set (f := d / 64) in *.
  destruct (Z.ltb_spec c 0x80).
  { destruct (Z.ltb_spec c 0x10000); [|lia]. cbn [app to_utf16_loop]. destruct (Z.ltb_spec c 0x80); [|lia].
    cbn [length] in *. destruct cap; [lia|]. cbn [Nat.leb skipn]. rewrite u16_id by lia. reflexivity. }
  destruct (Z.ltb_spec c 0x800).
  { destruct (Z.ltb_spec c 0x10000); [|lia]. cbn [app to_utf16_loop].
    destruct (Z.ltb_spec (0xc0 + b') 0x80); [lia|]. destruct (Z.ltb_spec (0xc0 + b') 0xe0); [|lia].
    unfold get. cbn [nth_error bind]. cbn [length] in *. destruct cap; [lia|]. cbn [Nat.leb skipn].
    rewrite u16_id by lia. replace ((0xc0 + b') * 64 + (0x80 + a) - 0xc0 * 64 - 0x80) with c by lia. reflexivity. }
  destruct (Z.ltb_spec c 0x10000).
  { cbn [app to_utf16_loop].
    destruct (Z.ltb_spec (0xe0 + d) 0x80); [lia|]. destruct (Z.ltb_spec (0xe0 + d) 0xe0); [lia|]. destruct (Z.ltb_spec (0xe0 + d) 0xf0); [|lia].
    unfold get. cbn [nth_error bind]. cbn [length] in *. destruct cap; [lia|]. cbn [Nat.leb skipn].
    rewrite (u16_at _ 14 c) by lia. reflexivity. }
  cbn [app to_utf16_loop].
  destruct (Z.ltb_spec (0xf0 + f) 0x80); [lia|]. destruct (Z.ltb_spec (0xf0 + f) 0xe0); [lia|]. destruct (Z.ltb_spec (0xf0 + f) 0xf0); [lia|].
  unfold get. cbn [nth_error bind]. cbn [length] in *. destruct cap as [|[|cap]]; [lia|lia|]. cbn [Nat.leb skipn].
  assert (DB := Z.div_mod b 16 ltac:(lia)). assert (BBB := Z.mod_pos_bound b 16 ltac:(lia)).
  assert (B16 : (0x80 + b) / 16 = 8 + b / 16).
  { replace (0x80 + b) with (b + 8 * 16) by lia. rewrite Z.div_add by lia. lia. }
  assert (M16 : (0x80 + b) mod 16 = b mod 16).
  { replace (0x80 + b) with (b + 8 * 16) by lia. rewrite Z.mod_add by lia. reflexivity. }
  rewrite B16, M16. set (b1 := b / 16) in *. set (b2 := b mod 16) in *.
  assert (C16 : (c - 0x10000) / 1024 = f * 256 + e * 4 + b1 - 64).
  { symmetry. apply Z.div_unique with (b2 * 64 + a); lia. }
  assert (M1024 : (c - 0x10000) mod 1024 = b2 * 64 + a).
  { symmetry. apply Z.mod_unique with (f * 256 + e * 4 + b1 - 64); lia. }
  rewrite C16, M1024.
  rewrite (u16_at (0xd800 - 0xf248 + (0xf0 + f) * 256 + (0x80 + e) * 4 + (8 + b1)) 0 (0xd800 + (f * 256 + e * 4 + b1 - 64))) by lia.
  rewrite (u16_at (0xdc00 - 0x80 + b2 * 64 + (0x80 + a)) 0 (0xdc00 + (b2 * 64 + a))) by lia. reflexivity.
Qed.

Lemma utf_lengths : forall c, (1 <= length (utf16 c) <= length (utf8 c))%nat.
Proof.
  intro c. unfold utf8, utf16. destruct (Z.ltb_spec c 0x80); destruct (Z.ltb_spec c 0x800); destruct (Z.ltb_spec c 0x10000); cbn; lia.
Qed.

Lemma to_utf16_all : forall cs rest cap fuel, Forall scalar cs -> (length (flat_map utf8 cs) <= cap)%nat -> 
  to_utf16_loop (length cs + fuel) cap (flat_map utf8 cs ++ rest) =
  (r <- to_utf16_loop fuel (cap - length (flat_map utf16 cs)) rest ;; Ok (flat_map utf16 cs ++ r)).
Proof.
  induction cs as [|c cs IH]; intros rest cap fuel HF Hcap.
  - cbn. rewrite Nat.sub_0_r. destruct (to_utf16_loop fuel cap rest); reflexivity.
  - inversion HF as [|c' cs' Hc HF']; subst. assert (L := utf_lengths c). cbn [flat_map length Nat.add] in *. rewrite app_length in Hcap.
    rewrite <- app_assoc. rewrite to_utf16_step by (try exact Hc; lia). rewrite IH by (try exact HF'; lia).
    rewrite app_length, Nat.sub_add_distr.
    destruct (to_utf16_loop fuel (cap - length (utf16 c) - length (flat_map utf16 cs)) rest); cbn [bind]; [|reflexivity|reflexivity].
    rewrite <- app_assoc. reflexivity.
Qed.

Lemma utf8_count : forall cs, (length cs <= length (flat_map utf8 cs))%nat.
Proof. induction cs as [|c cs IH]; cbn; [lia|]. rewrite app_length. assert (L := utf_lengths c). lia. Qed.
Lemma utf16_le_utf8 : forall cs, (length (flat_map utf16 cs) <= length (flat_map utf8 cs))%nat.
Proof. induction cs as [|c cs IH]; cbn; [lia|]. rewrite !app_length. assert (L := utf_lengths c). lia. Qed.

Lemma to_utf16_nil : forall fuel cap, to_utf16_loop fuel cap [] = Ok [].
Proof. intros [|fuel] cap; reflexivity. Qed.

(** Well-formed UTF-8 of any text, into a buffer of as many units as there are bytes: its UTF-16, and no access out of bounds. *)
Theorem C46_utf16 : forall cs, Forall scalar cs ->
  to_utf16 (length (flat_map utf8 cs)) (flat_map utf8 cs) = Ok (flat_map utf16 cs) /\
  (length (flat_map utf16 cs) <= length (flat_map utf8 cs))%nat.
Proof.
  intros cs HF. split; [|apply utf16_le_utf8]. unfold to_utf16.
  assert (L := utf8_count cs).
  replace (length (flat_map utf8 cs)) with (length cs + (length (flat_map utf8 cs) - length cs))%nat at 1 by lia.
  rewrite <- (app_nil_r (flat_map utf8 cs)) at 3. rewrite to_utf16_all by (try exact HF; lia).
  rewrite to_utf16_nil. cbn [bind]. rewrite app_nil_r. reflexivity.
Qed.
Print Assumptions C46_utf16.

(** The macro used for paths: the text without U+0000, then one terminator. *)
Theorem C46_path : forall cs, Forall scalar cs -> ce_to_utf16 (flat_map utf8 cs) = Ok (flat_map utf16 cs ++ [0]).
Proof.
  intros cs HF. unfold ce_to_utf16.
  assert (F : Forall scalar (cs ++ [0])) by (apply Forall_app; split; [exact HF|]; constructor; [left; lia|constructor]).
  destruct (C46_utf16 (cs ++ [0]) F) as [E _]. rewrite !flat_map_app in E. cbn [flat_map utf8 utf16 app Z.ltb Z.compare] in E.
  rewrite app_length in E. exact E.
Qed.
Print Assumptions C46_path.

(** Whatever the bytes, it never writes past the buffer of as many units as there are bytes: the only possible fault is a read. *)
Theorem C46_no_overrun : forall s out, to_utf16 (length s) s = Ok out -> (length out <= length s)%nat.
Proof.
  unfold to_utf16. intros s out. generalize (length s) at 1. intro fuel. 
  assert (G : forall fuel cap s out, to_utf16_loop fuel cap s = Ok out -> (length out <= length s)%nat).
  { clear. induction fuel as [|fuel IH]; intros cap s out H; destruct s as [|s0 s]; cbn [to_utf16_loop] in H; try (injection H as <-; cbn; lia); [discriminate|].
    assert (P : forall n units, (length units <= n)%nat -> (n <= length (s0 :: s))%nat ->
      (if Nat.leb (length units) cap then rest <- to_utf16_loop fuel (cap - length units) (skipn n (s0 :: s)) ;; Ok (units ++ rest) else UB) = Ok out ->
      (length out <= length (s0 :: s))%nat).
    { intros n units Hn Hl E. destruct (Nat.leb (length units) cap); [|discriminate].
      destruct (to_utf16_loop fuel (cap - length units) (skipn n (s0 :: s))) as [r| |] eqn:Er; try discriminate.
      cbn [bind] in E. injection E as <-. apply IH in Er. rewrite app_length. rewrite skipn_length in Er. lia. }
    assert (G : forall i v, get (s0 :: s) i = Ok v -> (i < length (s0 :: s))%nat).
    { intros i v E. unfold get in E. apply nth_error_Some. destruct (nth_error (s0 :: s) i); congruence. }
    destruct (s0 <? 0x80); [refine (P _ _ _ _ H); cbn [length]; lia|].
    destruct (s0 <? 0xe0).
    { destruct (get (s0 :: s) 1) as [v1| |] eqn:E1; try discriminate. cbn [bind] in H. refine (P _ _ _ _ H); [cbn [length]; lia|apply (G 1%nat _ E1)]. }
    destruct (s0 <? 0xf0).
    { destruct (get (s0 :: s) 1) as [v1| |] eqn:E1; try discriminate. cbn [bind] in H.
      destruct (get (s0 :: s) 2) as [v2| |] eqn:E2; try discriminate. cbn [bind] in H. refine (P _ _ _ _ H); [cbn [length]; lia|apply (G 2%nat _ E2)]. }
    destruct (get (s0 :: s) 1) as [v1| |] eqn:E1; try discriminate. cbn [bind] in H.
    destruct (get (s0 :: s) 2) as [v2| |] eqn:E2; try discriminate. cbn [bind] in H.
    destruct (get (s0 :: s) 3) as [v3| |] eqn:E3; try discriminate. cbn [bind] in H. refine (P _ _ _ _ H); [cbn [length]; lia|apply (G 3%nat _ E3)]. }
  apply G.
Qed.
Print Assumptions C46_no_overrun.

(** Malformed paths are not safe: a lead byte at the end swallows the terminator (the result has none), or reads past it. *)
Theorem C46_truncated_refuted :
  (exists path, Forall (fun b => 0 < b < 256) path /\ exists out, ce_to_utf16 path = Ok out /\ ~ In 0 out) /\
  (exists path, Forall (fun b => 0 < b < 256) path /\ ce_to_utf16 path = UB).
Proof.
  split.
  - exists [0x61; 0xc3]. split; [repeat constructor; lia|]. exists [0x61; 0x40]. split; [reflexivity|]. cbn. lia.
  - exists [0xf0]. split; [repeat constructor; lia|]. reflexivity.
Qed.
Print Assumptions C46_truncated_refuted.

(** C46: paths that differ stay different. *)
Lemma utf16_head c cs c' cs' : scalar c -> scalar c' -> utf16 c ++ cs = utf16 c' ++ cs' -> c = c' /\ cs = cs'.
Proof.
  unfold scalar, utf16. intros H H'. destruct (c <? 0x10000) eqn:E, (c' <? 0x10000) eqn:E'; cbn [app];
    rewrite ?Z.ltb_lt, ?Z.ltb_ge in *; intro X.
  - injection X as -> ->. auto.
  - apply (f_equal (hd 0)) in X. cbn [hd] in X. exfalso. assert (0 <= (c' - 0x10000) / 1024 < 1024) by (split; [apply Z.div_pos; lia|apply Z.div_lt_upper_bound; lia]). lia.
  - apply (f_equal (hd 0)) in X. cbn [hd] in X. exfalso. assert (0 <= (c - 0x10000) / 1024 < 1024) by (split; [apply Z.div_pos; lia|apply Z.div_lt_upper_bound; lia]). lia.
  - pose proof (f_equal (hd 0) X) as X1. pose proof (f_equal (fun l => hd 0 (tl l)) X) as X2. pose proof (f_equal (fun l => tl (tl l)) X) as X3.
    cbn [hd tl] in X1, X2, X3. split; [|exact X3]. pose proof (Z.div_mod (c - 0x10000) 1024 ltac:(lia)). pose proof (Z.div_mod (c' - 0x10000) 1024 ltac:(lia)). lia.
Qed.
Theorem C46_distinct : forall cs cs', Forall scalar cs -> Forall scalar cs' ->
  ce_to_utf16 (flat_map utf8 cs) = ce_to_utf16 (flat_map utf8 cs') -> cs = cs'.
Proof.
  intros cs cs' F F' E. rewrite !C46_path in E by assumption. injection E as E. apply app_inj_tail in E as [E _].
  revert cs' F' E. induction F as [|c cs Hc F IH]; intros [|c' cs'] F' E; cbn [flat_map] in E; [reflexivity| | |].
  - exfalso. revert E. unfold utf16. destruct (c' <? 0x10000); discriminate.
  - exfalso. revert E. unfold utf16. destruct (c <? 0x10000); discriminate.
  - inversion F' as [|? ? Hc' F'']; subst. apply utf16_head in E as [-> E]; [|assumption..]. f_equal. now apply IH.
Qed.
Print Assumptions C46_distinct.

(** Paths that are not UTF-8 are not rejected: one without a slash (byte 47) is converted to one with a slash, the same that a well-formed
    path is converted to, and one to half of a surrogate pair. *)
Theorem C46_overlong_refuted :
  (exists path, Forall (fun b => 0 < b < 256) path /\ ~ In 47 path /\ ce_to_utf16 path = ce_to_utf16 (flat_map utf8 [46; 46; 47])) /\
  (exists path, Forall (fun b => 0 < b < 256) path /\ ce_to_utf16 path = Ok [0xd800; 0]).
Proof.
  split.
  - exists [46; 46; 0xc0; 0xaf]. split; [repeat constructor; lia|]. split; [cbn; lia|reflexivity].
  - exists [0xed; 0xa0; 0x80]. split; [repeat constructor; lia|reflexivity].
Qed.
Print Assumptions C46_overlong_refuted.

Example C46_nonvacuous : let cs := [0x41; 0xe9; 0x20ac; 0x1f600] in Forall scalar cs /\
  flat_map utf8 cs = [0x41; 0xc3; 0xa9; 0xe2; 0x82; 0xac; 0xf0; 0x9f; 0x98; 0x80] /\
  ce_to_utf16 (flat_map utf8 cs) = Ok [0x41; 0xe9; 0x20ac; 0xd83d; 0xde00; 0].
Proof. cbv zeta. split; [repeat constructor; unfold scalar; lia|]. split; reflexivity. Qed.

(** ** C62 *)

Theorem C62_posix : forall ns, 0 <= ns < 2 ^ 64 ->
  let '(sec, nsec) := sleep_ns_posix ns in 0 <= nsec < 1000000000 /\ 0 <= sec /\ sec * 1000000000 + nsec = ns.
Proof.
  intros ns H. change (2 ^ 64) with 18446744073709551616 in H. unfold sleep_ns_posix.
  assert (S : forall v, 0 <= v < 9223372036854775808 -> s64 v = v).
  { intros v Hv. unfold s64, swrap. change (2 ^ 64) with 18446744073709551616. change (2 ^ (64 - 1)) with 9223372036854775808.
    rewrite ?Z.mod_small by lia. lia. }
  assert (D := Z.div_mod ns 1000000000 ltac:(lia)). assert (B := Z.mod_pos_bound ns 1000000000 ltac:(lia)).
  destruct (Z.ltb_spec ns 1000000000); rewrite ?S by lia; lia.
Qed.
Print Assumptions C62_posix.

(** Win32: no wait for 0; otherwise the whole milliseconds, at least one, up to the largest DWORD but one. *)
Theorem C62_win32 : forall ns, 0 <= ns < 2 ^ 64 ->
  (sleep_ns_win32 ns = 0 <-> ns = 0) /\
  (0 < ns -> ns / 1000000 < 2 ^ 32 -> sleep_ns_win32 ns = Z.max 1 (ns / 1000000)) /\
  (2 ^ 32 <= ns / 1000000 -> sleep_ns_win32 ns = 2 ^ 32 - 1).
Proof.
  intros ns H. change (2 ^ 64) with 18446744073709551616 in H. unfold sleep_ns_win32, u32. change (2 ^ 32) with 4294967296.
  change (Z.lnot 0 mod 4294967296) with 4294967295. change (4294967296 - 1) with 4294967295.
  assert (D := Z.div_mod ns 1000000 ltac:(lia)). assert (B := Z.mod_pos_bound ns 1000000 ltac:(lia)).
  destruct (Z.eqb_spec ns 0) as [->|N].
  { change (negb true) with false. cbv iota. change (0 / 1000000) with 0. lia. }
  change (negb false) with true. cbv iota zeta.
  set (m := if ns <? 1000000 then 1 else ns / 1000000).
  assert (M : m = Z.max 1 (ns / 1000000)) by (subst m; destruct (Z.ltb_spec ns 1000000); nia).
  clearbody m. rewrite <- M.
  assert (Dm := Z.div_mod m 4294967296 ltac:(lia)). assert (Bm := Z.mod_pos_bound m 4294967296 ltac:(lia)).
  destruct (Z.eqb_spec (m mod 4294967296) m); cbn [negb].
  - lia.
  - assert (~ m < 4294967296) by (intro; apply n; apply Z.mod_small; lia). lia.
Qed.
Print Assumptions C62_win32.

(** 0xFFFFFFFF is SleepEx's INFINITE: a finite wait of fifty days, or of any longer time, never ends. *)
Theorem C62_win32_refuted : forall ns, 4294967295 * 1000000 <= ns < 2 ^ 64 -> sleep_ns_win32 ns = 0xffffffff.
Proof.
  intros ns H. destruct (C62_win32 ns ltac:(lia)) as (_ & A & B).
  change (2 ^ 64) with 18446744073709551616 in H.
  change (2 ^ 32 - 1) with 4294967295 in B. change (2 ^ 32) with 4294967296 in *.
  assert (4294967295 <= ns / 1000000) by (apply Z.div_le_lower_bound; lia).
  destruct (Z_lt_le_dec (ns / 1000000) 4294967296) as [L|G]; [rewrite A by lia; lia|exact (B G)].
Qed.
Print Assumptions C62_win32_refuted.

(** The POSIX timestamp of any normalised clock reading of less than 292 years: no overflow, and strictly increasing. It is 0 when
    the clock cannot be read. *)
Theorem C62_timestamp : forall sec nsec, 0 <= sec < 9223372036 -> 0 <= nsec < 1000000000 ->
  monotonic_timestamp_posix (Some (sec, nsec)) = Ok (sec * 1000000000 + nsec) /\ monotonic_timestamp_posix None = Ok 0.
Proof.
  intros sec nsec Hs Hn. split; [|reflexivity]. unfold monotonic_timestamp_posix.
  assert (I : forall v, 0 <= v < 9223372036854775808 -> in_s 64 v).
  { intros v Hv. unfold in_s. change (2 ^ (64 - 1)) with 9223372036854775808. lia. }
  rewrite chk64_ok by (apply I; lia). cbn [bind]. rewrite chk64_ok by (apply I; lia). cbn [bind].
  unfold u64. change (2 ^ 64) with 18446744073709551616. rewrite Z.mod_small by lia. f_equal. lia.
Qed.
Print Assumptions C62_timestamp.

Example C62_nonvacuous : sleep_ns_posix 2500000000 = (2, 500000000) /\ sleep_ns_win32 2500000 = 2 /\ sleep_ns_win32 7 = 1 /\
  sleep_ns_win32 (4294967295 * 1000000) = 0xffffffff.
Proof. repeat split. Qed.

(** ** C51 *)
Local Open Scope string_scope.

Lemma sapp_assoc : forall a b c : string, (a ++ b) ++ c = a ++ (b ++ c).
Proof. induction a as [|x a IH]; intros; cbn; [reflexivity|rewrite IH; reflexivity]. Qed.
Lemma sapp_nil : forall a : string, a ++ "" = a.
Proof. induction a as [|x a IH]; cbn; [reflexivity|rewrite IH; reflexivity]. Qed.

Lemma get_mid : forall {A} (pre : list A) x post, get (pre ++ x :: post) (length pre) = Ok x.
Proof. intros. unfold get. rewrite nth_error_app2 by lia. rewrite Nat.sub_diag. reflexivity. Qed.

Lemma log_loop_S : forall n i prefix argv, log_loop (S n) i prefix argv =
  ('(k, v) <- get argv i ;; rest <- log_loop n (S i) ", " argv ;; Ok (prefix ++ quote ++ k ++ quote ++ ": " ++ quote ++ v ++ quote ++ rest)).
Proof. reflexivity. Qed.
Lemma error_loop_S : forall n i prefix argv, error_loop (S n) i prefix argv =
  ('(_, v) <- get argv i ;; rest <- error_loop n (S i) ", " argv ;; Ok (prefix ++ v ++ rest)).
Proof. reflexivity. Qed.

Lemma log_loop_comma : forall post pre x prefix,
  log_loop (length (x :: post)) (length pre) prefix (pre ++ x :: post) = Ok (prefix ++ String.concat ", " (map pair_text (x :: post))).
Proof.
  induction post as [|y post IH]; intros pre x prefix; cbn [length]; rewrite log_loop_S, get_mid; cbn [bind]; destruct x as [k v].
  - cbn [log_loop bind map String.concat]. unfold pair_text. cbn [fst snd]. rewrite sapp_nil. unfold q, quote. reflexivity.
  - specialize (IH (pre ++ [(k, v)])%list y ", "). rewrite <- app_assoc in IH. cbn [app] in IH. rewrite app_length in IH.
    cbn [length] in IH. rewrite Nat.add_1_r in IH. cbn [length] in IH. rewrite IH. cbn [bind]. f_equal. f_equal. cbn [map String.concat].
    generalize (match map pair_text post with [] => pair_text y | _ :: _ => pair_text y ++ ", " ++ String.concat ", " (map pair_text post) end). intro t.
    unfold pair_text. cbn [fst snd]. rewrite !sapp_assoc. unfold q, quote. reflexivity.
Qed.

(** log prints the letter of the level and every pair, once, in order. *)
Theorem C51_log : forall level argv,
  log level (length argv) argv =
  Ok (log_letter level ++ ": {" ++ (match argv with [] => "" | _ => " " ++ String.concat ", " (map pair_text argv) end) ++ " }" ++ nl).
Proof.
  intros level argv. unfold log. destruct argv as [|x argv]; [reflexivity|].
  assert (H := log_loop_comma argv [] x " "). cbn [app] in H. change (length (@nil (string * string))) with 0%nat in H. rewrite H.
  cbn [bind]. unfold nl, newline. f_equal. 
Qed.
Print Assumptions C51_log.

Theorem C51_letter : forall level,
  log_letter level = (if level <=? 0 then "F" else if level =? 1 then "E" else if level =? 2 then "W" else if level =? 3 then "N"
    else if level =? 4 then "I" else if level =? 5 then "D" else if level =? 6 then "S" else "M")%Z.
Proof.
  intro level. unfold log_letter.
  destruct (Z.leb_spec level 0).
  { destruct (Z.ltb_spec level 0); [reflexivity|]. replace level with 0%Z by lia. reflexivity. }
  destruct (Z.ltb_spec level 0); [lia|].
  destruct (Z.ltb_spec 7 level).
  { repeat (match goal with |- context[(?a =? ?b)%Z] => destruct (Z.eqb_spec a b); [lia|] end). reflexivity. }
  assert (C : (level = 1 \/ level = 2 \/ level = 3 \/ level = 4 \/ level = 5 \/ level = 6 \/ level = 7)%Z) by lia.
  destruct C as [->|[->|[->|[->|[->|[->| ->]]]]]]; reflexivity.
Qed.
Print Assumptions C51_letter.

Lemma chars_app : forall a b, list_ascii_of_string (a ++ b) = (list_ascii_of_string a ++ list_ascii_of_string b)%list.
Proof. induction a as [|x a IH]; intros; cbn; [reflexivity|rewrite IH; reflexivity]. Qed.

Lemma c_str_stop : forall s rest, no_nul s -> c_str (list_ascii_of_string s ++ zero :: rest) = Some s.
Proof.
  induction s as [|c s IH]; intros rest H; cbn [list_ascii_of_string app c_str].
  - reflexivity.
  - unfold no_nul in H. cbn in H. destruct (Ascii.eqb_spec c zero) as [E|N]; [tauto|]. rewrite IH by (unfold no_nul; tauto). reflexivity.
Qed.
Lemma next_str_stop : forall s rest, no_nul s -> next_str (list_ascii_of_string s ++ zero :: rest) = Some rest.
Proof.
  induction s as [|c s IH]; intros rest H; cbn [list_ascii_of_string app next_str].
  - reflexivity.
  - unfold no_nul in H. cbn in H. destruct (Ascii.eqb_spec c zero) as [E|N]; [tauto|]. apply IH. unfold no_nul. tauto.
Qed.

(** The hooks receive the kind, the text of the condition, file(line), the text of the arguments, and the value of each. *)
Theorem C51_hook : forall kind what file more args, no_nul kind -> no_nul what -> no_nul file -> no_nul more ->
  call_error_hook (error_info kind what file more) args = Ok (0%Z, (kind, file) :: (what, more) :: map (fun a => ("...", a)) args).
Proof.
  intros kind what file more args Hk Hw Hf Hm. unfold call_error_hook, error_info. cbn [app get nth_error bind skipn].
  unfold get. cbn [nth_error bind].
  rewrite (next_str_stop kind) by exact Hk. cbn [opt bind]. rewrite (next_str_stop what) by exact Hw. cbn [opt bind].
  rewrite (next_str_stop file) by exact Hf. cbn [opt bind]. rewrite (c_str_stop kind), (c_str_stop file), (c_str_stop what), (c_str_stop more) by assumption.
  reflexivity.
Qed.
Print Assumptions C51_hook.

Lemma error_loop_comma : forall post pre (x : string * string) prefix,
  error_loop (length (x :: post)) (length pre) prefix (pre ++ x :: post) = Ok (prefix ++ String.concat ", " (map snd (x :: post))).
Proof.
  induction post as [|y post IH]; intros pre x prefix; cbn [length]; rewrite error_loop_S, get_mid; cbn [bind]; destruct x as [k v].
  - cbn [error_loop bind map String.concat snd]. rewrite sapp_nil. reflexivity.
  - specialize (IH (pre ++ [(k, v)])%list y ", "). rewrite <- app_assoc in IH. cbn [app] in IH. rewrite app_length in IH.
    cbn [length] in IH. rewrite Nat.add_1_r in IH. cbn [length] in IH. rewrite IH. cbn [bind]. f_equal.
Qed.

(** What the default hook prints, from the macro to the console; it asks for a break. *)
Theorem C51_error : forall kind what file more args, no_nul kind -> no_nul what -> no_nul file -> no_nul more ->
  ('(level, argv) <- call_error_hook (error_info kind what file more) args ;; error level (length argv) argv) =
  Ok ("******** FAILED ********" ++ nl ++ file ++ ": " ++ kind ++ ": " ++ what ++ ": (" ++ more ++ ") = (" ++ String.concat ", " args ++ ")" ++ nl, true).
Proof.
  intros kind what file more args Hk Hw Hf Hm. rewrite C51_hook by assumption. cbn [bind]. unfold error.
  cbn [length]. rewrite map_length. change (Nat.ltb 1 (S (S (length args)))) with true. cbv iota.
  unfold get. cbn [nth_error bind]. cbn [Nat.sub]. rewrite Nat.sub_0_r.
  destruct args as [|a args].
  - reflexivity.
  - assert (H := error_loop_comma (map (fun a => ("...", a)) args) [(kind, file); (what, more)] ("...", a) "").
    cbn [app length] in H. rewrite map_length in H. cbn [map length]. rewrite H. cbn [bind].
    cbn [map snd]. rewrite map_map. rewrite map_id. unfold nl, newline. reflexivity.
Qed.
Print Assumptions C51_error.

Example C51_nonvacuous :
  log 2 2 [("a", "1"); ("b", "x")] = Ok ("W: { " ++ q ++ "a" ++ q ++ ": " ++ q ++ "1" ++ q ++ ", " ++ q ++ "b" ++ q ++ ": " ++ q ++ "x" ++ q ++ " }" ++ nl) /\
  call_error_hook (error_info "CE_ASSERT" "i < n" "a.cpp(7)" "i, n") ["3"; "2"] =
  Ok (0%Z, [("CE_ASSERT", "a.cpp(7)"); ("i < n", "i, n"); ("...", "3"); ("...", "2")]) /\
  (no_nul "CE_ASSERT" /\ no_nul "i < n" /\ no_nul "a.cpp(7)" /\ no_nul "i, n").
Proof.
  split; [reflexivity|]. split; [reflexivity|]. unfold no_nul. cbn [list_ascii_of_string In].
  repeat split; intro H; repeat (destruct H as [H|H]; [discriminate H|]); exact H.
Qed.
Local Close Scope string_scope.

(** ** C52 *)

(** The value is the condition; the condition is evaluated once and first; at level 1 the hook is called exactly when the
    condition fails, then a break if and only if the hook asks for it; at any other level nothing else happens. *)
Theorem C52_verify : forall level t hook,
  snd (ce_verify level t hook) = t /\
  fst (ce_verify level t hook) = EvalTest :: (if (level =? 1) && negb t then CallHook :: (if hook then [Break] else []) else []).
Proof. intros level t hook. unfold ce_verify, ce_affirm. destruct (level =? 1); destruct t; destruct hook; split; reflexivity. Qed.
Print Assumptions C52_verify.

Theorem C52_reject : forall level t hook,
  snd (ce_reject level t hook) = t /\
  fst (ce_reject level t hook) = EvalTest :: (if (level =? 1) && t then CallHook :: (if hook then [Break] else []) else []).
Proof. intros level t hook. unfold ce_reject, ce_affirm. destruct (level =? 1); destruct t; destruct hook; split; reflexivity. Qed.
Print Assumptions C52_reject.

Theorem C52_assert : forall level t hook,
  ce_assert level t hook = EvalTest :: (if (level =? 1) && negb t then CallHook :: (if hook then [Break] else []) else []).
Proof. intros level t hook. exact (proj2 (C52_verify level t hook)). Qed.
Print Assumptions C52_assert.

Theorem C52_error : forall hook, ce_error hook = [CallHook; Break].
Proof. intros [|]; reflexivity. Qed.
Print Assumptions C52_error.

(** The macros are parenthesised enough to be operands: CE_REJECT's leading ! covers the whole expansion. *)
Example C52_nonvacuous : ce_verify 1 false true = ([EvalTest; CallHook; Break], false) /\ ce_reject 1 true false = ([EvalTest; CallHook], true) /\
  ce_verify 0 false true = ([EvalTest], false).
Proof. repeat split. Qed.

(** ** C69 *)

(** The handles open after a trace of events; closing the invalid handle does nothing. *)
Fixpoint run_handles (open : list Z) (tr : list os_event) : option (list Z) :=
  match tr with
  | [] => Some open
  | OpenHandle h :: tr => run_handles (h :: open) tr
  | CloseHandle h :: tr =>
      if h =? 0 then run_handles open tr
      else if in_dec Z.eq_dec h open then run_handles (remove Z.eq_dec h open) tr else None
  | _ :: tr => run_handles open tr
  end.
Definition views (tr : list os_event) : list Z := flat_map (fun e => match e with MapView a => [a] | _ => [] end) tr.

(** Whatever the operating system answers (the handles it gives out at a time being different), every handle opened is closed,
    none twice; the result says whether there is a view, and the span is that view with the file's size, or empty. *)
Theorem C69_no_leak : forall bits o, bits = 32 \/ bits = 64 -> os_create o <> os_mapping o \/ os_create o = 0 ->
  (forall n, os_size o = Some n -> 0 <= n < 2 ^ 63) ->
  let '(tr, okay, (size, data)) := map_span_path bits o in
  run_handles [] tr = Some [] /\
  (okay = true -> os_create o <> 0 /\ (bits = 64 \/ (forall n, os_size o = Some n -> n < 2 ^ 32) -> os_size o = Some size) /\ data = os_view o /\ data <> 0 /\ views tr = [data]) /\
  (okay = false -> size = 0 /\ data = 0 /\ views tr = []) /\
  (okay = true <-> os_create o <> 0 /\ os_size o <> None /\ os_mapping o <> 0 /\ os_view o <> 0).
Proof.
  intros bits [cr sz mp vw] HB HD HS. unfold map_span_path, open_file, map_span_file, close_file. cbn [os_create os_size os_mapping os_view] in *.
  destruct (Z.eqb_spec cr 0) as [->|Ncr].
  { cbn. repeat split; try congruence; try lia; intuition congruence. }
  destruct sz as [n|].
  2:{ cbn. destruct (Z.eqb_spec cr 0); [lia|]. destruct (Z.eq_dec cr cr); [|lia]. cbn. repeat split; try congruence; intuition congruence. }
  destruct (Z.eqb_spec mp 0) as [->|Nmp].
  { cbn. destruct (Z.eqb_spec cr 0); [lia|]. destruct (Z.eq_dec cr cr); [|lia]. cbn. repeat split; try congruence; intuition congruence. }
  assert (D : cr <> mp) by (destruct HD; [assumption|lia]).
  assert (R : forall ev, ev = [] \/ ev = [MapView vw] -> run_handles [] ((OpenHandle cr :: ([OpenHandle mp] ++ ev ++ [CloseHandle mp])) ++ [CloseHandle cr]) = Some []).
  { intros ev E. assert (Ecr := proj2 (Z.eqb_neq cr 0) Ncr). assert (Emp := proj2 (Z.eqb_neq mp 0) Nmp).
    destruct E as [-> | ->]; cbn [app run_handles]; rewrite Emp, Ecr;
      (destruct (in_dec Z.eq_dec mp [mp; cr]) as [|N]; [|exfalso; apply N; left; reflexivity]);
      cbn [remove]; destruct (Z.eq_dec mp mp); try lia; destruct (Z.eq_dec mp cr); try lia;
      (destruct (in_dec Z.eq_dec cr [cr]) as [|N]; [|exfalso; apply N; left; reflexivity]);
      cbn [remove]; destruct (Z.eq_dec cr cr); try lia; reflexivity. }
  destruct (Z.eqb_spec vw 0) as [->|Nvw]; cbn [app] in R |- *.
  - split; [exact (R [] (or_introl eq_refl))|]. cbn. intuition congruence.
  - split; [exact (R [MapView vw] (or_intror eq_refl))|]. assert (E : n < 2 ^ bits -> n mod 2 ^ bits = n) by (intro; apply Z.mod_small; specialize (HS n eq_refl); lia).
    cbn [views flat_map app]. split; [|split; [congruence|intuition congruence]]. intros _. split; [assumption|]. split; [|auto].
    intro L. rewrite E; [reflexivity|]. specialize (HS n eq_refl). destruct HB as [-> | ->]; destruct L as [L|L]; try lia; specialize (L n eq_refl); lia.
Qed.
Print Assumptions C69_no_leak.

Example C69_nonvacuous : map_span_path 64 {| os_create := 4; os_size := Some 10; os_mapping := 5; os_view := 4096 |} =
  ([OpenHandle 4; OpenHandle 5; MapView 4096; CloseHandle 5; CloseHandle 4], true, (10, 4096)).
Proof. reflexivity. Qed.
