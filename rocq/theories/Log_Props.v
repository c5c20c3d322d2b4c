(** C92, C93: log lines and failed checks from the macro to the characters written. *)
From Coq Require Import String Ascii Lia.
From Verif Require Import Base ToText_Spec ToText_Model ToText_Proofs2 AsString_Model AsString_Spec AsString_Proofs Names_Model Names_Spec Names_Props
  Os_Model Os_Spec Os_Props Log_Model Log_Spec.
Local Open Scope Z_scope.

(** ** Texts *)

Lemma str_bytes : forall s, str (bytes_of_string s) = s.
Proof.
  intro s. unfold str, bytes_of_string. rewrite map_map. rewrite <- (string_of_list_ascii_of_string s) at 2. f_equal.
  rewrite <- (map_id (list_ascii_of_string s)) at 2. apply map_ext. intro c. unfold byte.
  assert (L : (nat_of_ascii c < 256)%nat) by apply nat_ascii_bounded.
  rewrite Z.mod_small by lia. rewrite Nat2Z.id. apply ascii_nat_embedding.
Qed.

Lemma c_string_cstring : forall m l, cstring m l -> c_string m = Some l.
Proof.
  intros m l [N [r ->]]. induction l as [|c l IH]; [reflexivity|]. cbn [app c_string].
  destruct (Z.eqb_spec c 0) as [->|D]; [exfalso; apply N; left; reflexivity|]. rewrite IH by (intro; apply N; right; assumption). reflexivity.
Qed.

Lemma cstring_exists : forall m, In 0 m -> exists l, cstring m l.
Proof.
  induction m as [|c m IH]; intro H; [destruct H|]. destruct (Z.eq_dec c 0) as [->|D].
  - exists []. split; [intros []|]. exists m. reflexivity.
  - destruct H as [H|H]; [congruence|]. destruct (IH H) as (l & N & r & ->). exists (c :: l).
    split; [intros [E|E]; [congruence|exact (N E)]|]. exists r. reflexivity.
Qed.

Lemma cstring_unique : forall m l l', cstring m l -> cstring m l' -> l = l'.
Proof. intros m l l' A B. apply c_string_cstring in A. apply c_string_cstring in B. congruence. Qed.

(** What is read of a buffer with a text and a terminator. *)
Lemma before_nul_cstring : forall l rest, exists p, before_nul l p /\ cstring (l ++ 0 :: rest) p.
Proof.
  intros l rest. destruct (in_dec Z.eq_dec 0 l) as [H|H].
  - destruct (cstring_exists l H) as (p & N & r & E). exists p. split; [split; [exact N|right; exists r; exact E]|].
    split; [exact N|]. rewrite E. exists (r ++ 0 :: rest). rewrite <- app_assoc. reflexivity.
  - exists l. split; [split; [exact H|left; reflexivity]|]. split; [exact H|]. exists rest. reflexivity.
Qed.

Lemma cstring_lit : forall s, no_nul s -> cstring (lit s) (bytes_of_string s).
Proof.
  intros s H. split; [|exists []; reflexivity]. unfold bytes_of_string. intro I. apply in_map_iff in I. destruct I as (c & E & I).
  apply H. assert (c = zero); [|subst; exact I]. rewrite <- (ascii_nat_embedding c). replace (nat_of_ascii c) with 0%nat by lia. reflexivity.
Qed.

Lemma F2_length : forall {A B} (R : A -> B -> Prop) xs ys, Forall2 R xs ys -> length xs = length ys.
Proof. intros A B R xs ys F. induction F; cbn; congruence. Qed.

(** A value has one text. *)
Lemma cstring_n_unique : forall n m l l', cstring_n n m l -> cstring_n n m l' -> l = l'.
Proof.
  assert (P : forall (l l' : list Z) r r', ~ In 0 l -> l ++ 0 :: r = l' ++ r' -> ~ In 0 l' -> exists d, l = l' ++ d).
  { intros l l' r r' N E N'. revert l' r' N' E. induction l as [|c l IH]; intros l' r' N' E.
    - destruct l' as [|c' l']; [exists []; reflexivity|]. cbn in E. injection E as E1 E2. exfalso. apply N'. left. congruence.
    - destruct l' as [|c' l']; [exists (c :: l); reflexivity|]. cbn in E. injection E as E1 E2. subst c'.
      destruct (IH ltac:(intro; apply N; right; assumption) l' r' ltac:(intro; apply N'; right; assumption) E2) as (d & ->).
      exists d. reflexivity. }
  assert (Q : forall n m l l', cstring_n n m l -> cstring_n n m l' -> (length l <= length l')%nat -> l = l').
  { intros n m l l' [N [(r & E & L)|(r & E & L)]] [N' [(r' & E' & L')|(r' & E' & L')]] LE.
    - rewrite E in E'. destruct (P l' l r' (0 :: r) N' (eq_sym E') N) as (d & D). subst l'. destruct d as [|x d]; [symmetry; apply app_nil_r|].
      rewrite <- app_assoc in E'. apply app_inv_head in E'. cbn in E'. injection E' as E1 _. exfalso. apply N'. apply in_or_app. right. left. congruence.
    - rewrite E in E'. destruct (list_eq_dec Z.eq_dec l l') as [|D]; [assumption|exfalso].
      assert (F : firstn (S (length l)) (l ++ 0 :: r) = l ++ [0]).
      { replace (S (length l)) with (length l + 1)%nat by lia. rewrite firstn_app_2. reflexivity. }
      rewrite E' in F. rewrite firstn_app in F. replace (S (length l) - length l')%nat with 0%nat in F by lia. change (firstn 0 r') with (@nil Z) in F. rewrite app_nil_r in F.
      apply N'. rewrite <- (firstn_skipn (S (length l)) l'). apply in_or_app. left. rewrite F. apply in_or_app. right. left. reflexivity.
    - exfalso. lia.
    - rewrite E in E'. assert (firstn n (l ++ r) = firstn n (l' ++ r')) as F by congruence.
      rewrite <- L in F at 1. rewrite <- L' in F. rewrite !firstn_app, !Nat.sub_diag, !firstn_all in F. cbn [firstn] in F. rewrite !app_nil_r in F. exact F. }
  intros n m l l' A B. destruct (Nat.le_ge_cases (length l) (length l')) as [H|H]; [exact (Q n m l l' A B H)|symmetry; exact (Q n m l' l B A H)].
Qed.

Lemma one_unique : forall v l l', is_list v = false -> shows v l -> shows v l' -> l = l'.
Proof.
  intros v l l' L A B. destruct v as [T i|c|b|T i|text| |a|m|a|m|vs|vs]; try discriminate L.
  - inversion A; inversion B; subst. eapply decimal_text_unique; eassumption.
  - inversion A; inversion B; subst; reflexivity.
  - inversion A; subst; inversion B; subst; reflexivity.
  - inversion A; inversion B; subst. do 2 f_equal. eapply decimal_text_unique; eassumption.
  - inversion A; inversion B; subst; reflexivity.
  - inversion A; inversion B; subst; reflexivity.
  - inversion A; subst; inversion B; subst; try reflexivity; try congruence. do 2 f_equal. eapply decimal_text_unique; eassumption.
  - inversion A; subst; inversion B; subst; try reflexivity. eapply cstring_unique; eassumption.
  - inversion A; inversion B; subst. do 2 f_equal. eapply decimal_text_unique; eassumption.
Qed.

Lemma shows_unique : forall v l l', shows v l -> shows v l' -> l = l'.
Proof.
  intros v l l' A B.
  assert (E : forall av l l', element_shows av l -> element_shows av l' -> l = l').
  { clear. intros av l l' A B. inversion A; subst; inversion B; subst; try congruence; [eapply one_unique; eassumption|].
    do 2 f_equal. eapply decimal_text_unique; eassumption. }
  assert (G : forall vs ls ls', Forall2 element_shows vs ls -> Forall2 element_shows vs ls' -> ls = ls').
  { clear - E. intros vs ls ls' F. revert ls'. induction F as [|v l vs ls S F IHF]; intros ls' F'; inversion F'; subst; [reflexivity|].
    f_equal; [eapply E; eassumption|auto]. }
  destruct (is_list v) eqn:L; [|eapply one_unique; eassumption].
  destruct v; try discriminate L; inversion A; subst; inversion B; subst; [eapply cstring_n_unique; eassumption| |]; do 3 f_equal; eapply G; eassumption.
Qed.

Lemma arg_shows_unique : forall av l l', arg_shows av l -> arg_shows av l' -> l = l'.
Proof.
  intros [a v] l l' A B. inversion A; subst; inversion B; subst; cbn in *; try contradiction;
    first [eapply cstring_n_unique; eassumption|eapply shows_unique; eassumption].
Qed.

Lemma before_nul_unique : forall l p p', before_nul l p -> before_nul l p' -> p = p'.
Proof.
  intros l p p' A B. assert (C : forall q, before_nul l q -> cstring (l ++ [0]) q).
  { intros q [N [->|[r ->]]]; (split; [exact N|]); [exists []; reflexivity|]. exists (r ++ [0]). rewrite <- app_assoc. reflexivity. }
  eapply cstring_unique; apply C; eassumption.
Qed.

Lemma logged_unique : forall x t t', logged x t -> logged x t' -> t = t'.
Proof.
  intros x t t' A B. destruct A as [|m l C|m l C|a v l p S N]; inversion B as [|m' l' C'|m' l' C'|a' v' l' p' S' N']; subst; try reflexivity.
  - f_equal. eapply cstring_unique; eassumption.
  - f_equal. eapply cstring_unique; eassumption.
  - assert (l = l') by (eapply arg_shows_unique; eassumption). subst l'. f_equal. eapply before_nul_unique; eassumption.
Qed.

Lemma F2_unique : forall {A B} (R : A -> B -> Prop), (forall x y y', R x y -> R x y' -> y = y') ->
  forall xs ys ys', Forall2 R xs ys -> Forall2 R xs ys' -> ys = ys'.
Proof.
  intros A B R U xs ys ys' F. revert ys'. induction F as [|x y xs ys H F IH]; intros ys' F'; inversion F'; subst; [reflexivity|].
  f_equal; [eapply U; eassumption|apply IH; assumption].
Qed.

(** ** One argument *)

Lemma debug_cstring : forall m l, cstring m l -> debug_text (Some m) = Ok (chars l).
Proof. intros m l H. unfold debug_text. rewrite (c_string_cstring m l H). reflexivity. Qed.

Lemma as_string_1_ok : forall init x, loggable x -> room init x ->
  exists t, logged x t /\ (p <- as_string_1 init x ;; debug_text p) = Ok t.
Proof.
  intros init x H R. destruct x as [[m|]|m|a v].
  - destruct (cstring_exists m H) as (l & C). exists (chars l). split; [constructor; exact C|]. exact (debug_cstring m l C).
  - exists ""%string. split; [constructor|reflexivity].
  - destruct (cstring_exists m H) as (l & C). exists (chars l). split; [constructor; exact C|]. exact (debug_cstring m l C).
  - cbn [loggable room] in H, R. destruct (as_string_ok init [(a, v)]) as (ls & rest & F & E & _).
    { constructor; [exact H|constructor]. }
    { cbn [measures fold_right snd]. lia. }
    inversion F as [|av l avs ls' S F' E1 E2]; subst. inversion F'; subst. cbn [concat] in E. rewrite app_nil_r in E.
    destruct (before_nul_cstring l rest) as (p & B & C). exists (chars p). split; [econstructor; eassumption|].
    unfold as_string_1. rewrite E. cbn [bind]. exact (debug_cstring _ _ C).
Qed.

Lemma rooms_tail : forall init i x xs, buffers init i (x :: xs) -> room (init i) x /\ buffers init (S i) xs.
Proof.
  intros init i x xs H. split.
  - specialize (H 0%nat x eq_refl). rewrite Nat.add_0_r in H. exact H.
  - intros j y E. specialize (H (S j) y E). replace (S i + j)%nat with (i + S j)%nat by lia. exact H.
Qed.

Lemma log_rows_ok : forall xs init i keys, Forall loggable xs -> length keys = length xs ->
  buffers init i xs ->
  exists ts, Forall2 logged xs ts /\ log_rows init i (map Some keys) xs = Ok (combine (map chars keys) ts).
Proof.
  induction xs as [|x xs IH]; intros init i keys L K R.
  - exists []. split; [constructor|]. destruct keys; [reflexivity|discriminate K].
  - destruct keys as [|k keys]; [discriminate K|]. inversion L as [|? ? Lx Lxs]; subst.
    destruct (rooms_tail init i x xs R) as [Rx Rxs].
    destruct (as_string_1_ok (init i) x Lx Rx) as (t & T & E).
    destruct (IH init (S i) keys Lxs ltac:(cbn in K; lia) Rxs) as (ts & F & E').
    exists (t :: ts). split; [constructor; assumption|]. cbn [log_rows map]. unfold get. cbn [nth_error bind skipn].
    destruct (as_string_1 (init i) x) as [p| |]; cbn [bind] in E |- *; try discriminate E. rewrite E. cbn [bind opt].
    rewrite E'. reflexivity.
Qed.

Lemma error_args_ok : forall xs init i, Forall loggable xs ->
  buffers init i xs ->
  exists ts, Forall2 logged xs ts /\ error_args init i xs = Ok ts.
Proof.
  induction xs as [|x xs IH]; intros init i L R.
  - exists []. split; [constructor|reflexivity].
  - inversion L as [|? ? Lx Lxs]; subst. destruct (rooms_tail init i x xs R) as [Rx Rxs].
    destruct (as_string_1_ok (init i) x Lx Rx) as (t & T & E). destruct (IH init (S i) Lxs Rxs) as (ts & F & E').
    exists (t :: ts). split; [constructor; assumption|]. cbn [error_args].
    destruct (as_string_1 (init i) x) as [p| |]; cbn [bind] in E |- *; try discriminate E. rewrite E. cbn [bind]. rewrite E'. reflexivity.
Qed.

Lemma letter_ok : forall level, log_letter (log_level level) = level_letter level.
Proof.
  intro level. unfold log_level, log_level_macro, level_letter. cbn [find fst].
  repeat (match goal with |- context[String.eqb level ?s] => destruct (String.eqb level s); [reflexivity|] end). reflexivity.
Qed.

(** The hook given keys and values. *)
Lemma hook_ok : forall init level keys xs, Forall loggable xs -> buffers init 0 xs -> xs <> [] -> length keys = length xs ->
  exists ts, Forall2 logged xs ts /\
    call_log_hook init level (map Some keys) xs = Ok (line (log_letter level) (combine (map chars keys) ts)).
Proof.
  intros init level keys xs L R N K. destruct (log_rows_ok xs init 0 keys L K R) as (ts & F & E). exists ts. split; [exact F|].
  unfold call_log_hook. rewrite E. cbn [bind].
  assert (LL : length xs = length (combine (map chars keys) ts)).
  { rewrite combine_length, map_length, K, <- (F2_length _ _ _ F). lia. }
  rewrite LL, C51_log. destruct (combine (map chars keys) ts) as [|c cs]; [|reflexivity].
  destruct xs; [congruence|discriminate LL].
Qed.

Lemma dollar_arguments : forall es, arguments es -> arguments (bytes_of_string "$" :: es).
Proof.
  intros es H. change (bytes_of_string "$") with [36]. destruct es as [|e es]; [destruct H|]. cbn [arguments]. cbn [arguments] in H.
  split; [|split; [|exact H]].
  - split; [discriminate|]. split; intros c r E.
    + injection E as <- <-. unfold blank. lia.
    + destruct r as [|? r]; [injection E as <-; unfold blank; lia|]. injection E as <- E. destruct r; discriminate E.
  - apply bal_plain; [unfold ascii7; lia|cbn; lia|apply bal_nil].
Qed.

Lemma padded_self : forall e, padded e e.
Proof. intro e. exists [], []. rewrite app_nil_r. split; [reflexivity|split; constructor]. Qed.

Lemma joined_cons : forall t ts, ts <> [] -> joined (t :: ts) = t ++ 44 :: joined ts.
Proof. intros t [|t' ts] H; [congruence|reflexivity]. Qed.

Lemma level_logged : forall level t, no_nul level -> logged (AChars (lit level)) t -> t = level.
Proof.
  intros level t N H. apply (logged_unique _ _ (chars (bytes_of_string level))) in H; [|constructor; apply cstring_lit; exact N].
  rewrite H. exact (str_bytes level).
Qed.

(** ** C92 *)

(** A line has the letter of the level, its name under the key $, and the text of each argument as its key with its value. *)
Theorem C92_log : forall init level es ts xs vs,
  no_nul level -> arguments es -> Forall2 padded es ts -> length xs = length es ->
  Forall loggable xs -> buffers init 1 xs -> Forall2 logged xs vs ->
  ce_log true init level (joined ts) xs = Ok (line (level_letter level) (("$"%string, level) :: combine (map chars es) vs)).
Proof.
  intros init level es ts xs vs NL HA HP LE HL HB HV. unfold ce_log, ce_log_ex.
  destruct (C48_split (bytes_of_string "$" :: es) (bytes_of_string "$" :: ts)) as (text & starts & E & K).
  { apply dollar_arguments. exact HA. }
  { constructor; [apply padded_self|exact HP]. }
  assert (TS : ts <> []) by (destruct es; [destruct HA|inversion HP; discriminate]).
  rewrite joined_cons in E by exact TS. change (bytes_of_string "$" ++ 44 :: joined ts) with (bytes_of_string "$," ++ joined ts) in E.
  cbn [length] in E |- *. rewrite LE, E. cbn [bind]. rewrite K.
  destruct (hook_ok init (log_level level) (bytes_of_string "$" :: es) (AChars (lit level) :: xs)) as (vs' & F & H).
  { constructor; [|exact HL]. cbn [loggable]. unfold lit. apply in_or_app. right. left. reflexivity. }
  { intros [|i] x N; [injection N as <-; exact I|]. exact (HB i x N). }
  { discriminate. }
  { cbn [length]. lia. }
  rewrite H. inversion F as [|? v ? vs0 F1 F2]; subst. apply level_logged in F1; [|exact NL]. subst v.
  assert (vs0 = vs) by (eapply (F2_unique logged logged_unique); eassumption). subst vs0. rewrite letter_ok. reflexivity.
Qed.
Print Assumptions C92_log.

(** C92: the number of a level is its place in the list of levels; any other word counts as the last of them. *)
Definition levels : list string := ["fatal"; "error"; "warn"; "note"; "info"; "debug"; "spam"; "more"]%string.
Theorem C92_levels : forall level,
  (forall k, nth_error levels k = Some level -> log_level level = Z.of_nat k) /\ (~ In level levels -> log_level level = 7).
Proof.
  intro level. split.
  - intros k H. do 8 (destruct k as [|k]; [injection H as <-; reflexivity|]). destruct k; discriminate.
  - intro N. unfold log_level, log_level_macro.
    repeat match goal with |- context [String.eqb level ?s] => destruct (String.eqb_spec level s) as [->|]; [exfalso; apply N; cbn; tauto|] end. reflexivity.
Qed.
Print Assumptions C92_levels.

(** Without arguments only the level. *)
Theorem C92_log_nothing : forall init level, no_nul level ->
  ce_log true init level [] [] = Ok (line (level_letter level) [("$"%string, level)]).
Proof.
  intros init level NL. unfold ce_log, ce_log_ex. cbn [length app].
  destruct C48_no_arguments as (text & E & K). change (Names_Props.txt "$,") with (bytes_of_string "$," ++ []) in E. rewrite E. cbn [bind map]. rewrite K.
  destruct (hook_ok init (log_level level) [bytes_of_string "$"] [AChars (lit level)]) as (vs' & F & H).
  { constructor; [|constructor]. cbn [loggable]. unfold lit. apply in_or_app. right. left. reflexivity. }
  { intros [|[|i]] x N; [injection N as <-; exact I|discriminate N|discriminate N]. }
  { discriminate. }
  { reflexivity. }
  change (Some (Names_Props.txt "$")) with (Some (bytes_of_string "$")).
  cbn [map] in H. rewrite H. inversion F as [|? v ? vs0 F1 F2]; subst. inversion F2; subst. apply level_logged in F1; [|exact NL]. subst v.
  rewrite letter_ok. reflexivity.
Qed.
Print Assumptions C92_log_nothing.

(** Every argument that can be logged has one text. *)
Theorem C92_text : forall x, loggable x -> exists t, logged x t /\ forall t', logged x t' -> t' = t.
Proof.
  intros x H. destruct (as_string_1_ok (repeat 0 (measure (snd (as_val x)) + 1)) x H) as (t & T & _).
  { destruct x; [exact I|exact I|]. cbn [room as_val snd]. rewrite repeat_length. lia. }
  exists t. split; [exact T|]. intros t' T'. exact (logged_unique x t' t T' T).
Qed.
Print Assumptions C92_text.

Lemma message_line : forall init level x t, no_nul level -> loggable x -> room (init 1%nat) x -> logged x t ->
  ce_log_ex true init (log_level level) (bytes_of_string "$,$msg") [AChars (lit level); x] =
  Ok (line (level_letter level) [("$"%string, level); ("$msg"%string, t)]).
Proof.
  intros init level x t NL L R T. unfold ce_log_ex. cbn [length].
  assert (N : exists text starts, names 2 (bytes_of_string "$,$msg") = Ok (text, starts) /\
    map (name_at text) starts = map Some [bytes_of_string "$"; bytes_of_string "$msg"]) by (eexists _, _; split; vm_compute; reflexivity).
  destruct N as (text & starts & E & K). rewrite E. cbn [bind]. rewrite K.
  destruct (hook_ok init (log_level level) [bytes_of_string "$"; bytes_of_string "$msg"] [AChars (lit level); x]) as (vs' & F & H).
  { constructor; [|constructor; [exact L|constructor]]. cbn [loggable]. unfold lit. apply in_or_app. right. left. reflexivity. }
  { intros [|[|[|i]]] y N; [injection N as <-; exact I|injection N as <-; exact R|discriminate N|discriminate N]. }
  { discriminate. }
  { reflexivity. }
  rewrite H. inversion F as [|? v ? vs0 F1 F2]; subst. inversion F2 as [|? v' ? vs1 F3 F4]; subst. inversion F4; subst.
  apply level_logged in F1; [|exact NL]. subst v. assert (v' = t) by (eapply logged_unique; eassumption). subst v'.
  rewrite letter_ok. reflexivity.
Qed.

(** A message is the concatenation of the texts of its arguments (up to a NUL character in it); one string is logged as it is,
    whatever its length. *)
Theorem C92_message : forall init buf level xs ls p, no_nul level ->
  Forall message_arg xs -> (measures (map as_val xs) + 1 <= length buf)%nat -> Forall2 message_shows xs ls -> before_nul (concat ls) p ->
  (forall m, xs <> [AStr m]) -> (forall m, xs <> [AChars m]) ->
  ce_log_msg true init buf level xs = Ok (line (level_letter level) [("$"%string, level); ("$msg"%string, chars p)]).
Proof.
  intros init buf level xs ls p NL HA HB HS HP N1 N2. unfold ce_log_msg.
  assert (A : as_string_all buf xs = (b <- as_string buf (map as_val xs) ;; Ok (AChars b))).
  { unfold as_string_all. destruct xs as [|[m|m|a v] [|y xs]]; try reflexivity; [destruct (N1 m eq_refl)|destruct (N2 m eq_refl)]. }
  rewrite A. destruct (as_string_ok buf (map as_val xs)) as (ls' & rest & F & E & _).
  { clear - HA. induction HA; constructor; assumption. }
  { exact HB. }
  assert (ls' = ls).
  { eapply (F2_unique arg_shows arg_shows_unique); [exact F|]. clear - HS. induction HS; constructor; assumption. }
  subst ls'. rewrite E. cbn [bind].
  destruct (before_nul_cstring (concat ls) rest) as (p' & B & C).
  assert (p' = p) by (eapply before_nul_unique; eassumption). subst p'.
  rewrite (message_line init level (AChars (concat ls ++ 0 :: rest)) (chars p)); [reflexivity|exact NL| |exact I|constructor; exact C].
  cbn [loggable]. apply in_or_app. right. left. reflexivity.
Qed.
Print Assumptions C92_message.

Theorem C92_message_string : forall init buf level x t, no_nul level -> loggable x -> logged x t ->
  (exists m, x = AStr m) \/ (exists m, x = AChars m) ->
  ce_log_msg true init buf level [x] = Ok (line (level_letter level) [("$"%string, level); ("$msg"%string, t)]).
Proof.
  intros init buf level x t NL L T H. unfold ce_log_msg, as_string_all.
  destruct H as [[m ->]|[m ->]]; cbn [bind]; (rewrite (message_line init level _ t NL L I T); reflexivity).
Qed.
Print Assumptions C92_message_string.

(** With CE_LOG_LEVEL 0 nothing is converted and nothing is written, whatever the arguments. *)
Theorem C92_off : forall init buf level args xs,
  ce_log false init level args xs = Ok ""%string /\ ce_log_msg false init buf level xs = Ok ""%string.
Proof. intros. split; reflexivity. Qed.
Print Assumptions C92_off.

Local Ltac plain := repeat first [apply bal_nil|apply bal_plain; [unfold ascii7; lia|cbn; lia|]].
Definition int_t : ity := {| ity_signed := true; ity_size := 4 |}.
Definition ex_init : nat -> list Z := fun _ => repeat 7 1025.
Definition ex_args : list arg :=
  [AOther 0 (VInt int_t (-3)); AStr None; AChars (lit "hi"); AOther 0 (VBool true); AStr (Some (lit "say ""x"""))].
(** CE_LOG(warn, a * b , name, "hi",c == d,s) *)
Example C92_example : ce_log true ex_init "warn" (bytes_of_string "a * b , name, ""hi"",c == d,s") ex_args =
  Ok ("W: { ""$"": ""warn"", ""a * b"": ""-3"", ""name"": """", """"hi"""": ""hi"", ""c == d"": ""#<T>"", ""s"": ""say ""x"""" }" ++ nl)%string.
Proof. vm_compute. reflexivity. Qed.
Example C92_nonvacuous :
  let es := map bytes_of_string ["a * b"; "name"; """hi"""; "c == d"; "s"]%string in
  let ts := map bytes_of_string ["a * b "; " name"; " ""hi"""; "c == d"; "s"]%string in
  no_nul "warn" /\ arguments es /\ Forall2 padded es ts /\ joined ts = bytes_of_string "a * b , name, ""hi"",c == d,s" /\
  length ex_args = length es /\ Forall loggable ex_args /\ buffers ex_init 1 ex_args /\
  Forall2 logged ex_args ["-3"; ""; "hi"; "#<T>"; "say ""x"""]%string.
Proof.
  assert (T : forall s, s <> [] -> ~ blank (hd 1 s) -> ~ blank (last s 1) -> trimmed s).
  { intros s H1 H2 H3. split; [exact H1|]. split; [intros c r ->; exact H2|]. intros c r ->. rewrite last_last in H3. exact H3. }
  assert (P : forall a e b, Forall blank a -> Forall blank b -> padded e (a ++ e ++ b)).
  { intros a e b A B. exists a, b. auto. }
  assert (S32 : Forall blank [32]) by (constructor; [unfold blank; lia|constructor]).
  cbv zeta. split; [|split; [|split; [|split; [|split; [|split; [|split]]]]]].
  - unfold no_nul. cbn [list_ascii_of_string In]. intro H. repeat (destruct H as [H|H]; [discriminate H|]). exact H.
  - cbn [map arguments]. repeat match goal with |- _ /\ _ => split end;
      try (apply T; [discriminate|unfold blank; vm_compute; intuition congruence|unfold blank; vm_compute; intuition congruence]);
      try (vm_compute; plain).
    + apply (bal_literal false 34 [104; 105] []); [left; reflexivity| |constructor]. repeat (apply lit_plain; [unfold ascii7; lia|lia|lia|]). constructor.
    + intros r E. destruct r as [|? [|]]; discriminate E.
  - repeat (apply Forall2_cons || apply Forall2_nil).
    + apply (P [] (bytes_of_string "a * b") [32]); [constructor|exact S32].
    + apply (P [32] (bytes_of_string "name") []); [exact S32|constructor].
    + apply (P [32] (bytes_of_string """hi""") []); [exact S32|constructor].
    + apply (P [] (bytes_of_string "c == d") []); constructor.
    + apply (P [] (bytes_of_string "s") []); constructor.
  - reflexivity.
  - reflexivity.
  - repeat (apply Forall_cons || apply Forall_nil); cbn [loggable]; try exact I; try (unfold lit; apply in_or_app; right; left; reflexivity).
    + apply arg_int, valid_int; [right; right; left; reflexivity|vm_compute; split; congruence].
    + apply arg_bool.
  - intros [|[|[|[|[|i]]]]] x N; cbn in N; try (injection N as <-); try exact I; try (destruct i; discriminate N);
      cbn [room]; unfold ex_init; rewrite repeat_length; vm_compute; lia.
  - repeat (apply Forall2_cons || apply Forall2_nil); try exact logged_null.
    + apply (logged_other 0 (VInt int_t (-3)) [45; 51] [45; 51]); [|split; [cbn; lia|left; reflexivity]].
      apply arg_shows_other; [exact I|]. apply shows_int. right. split; [lia|]. exists [51]. split; [reflexivity|].
      split; [discriminate|]. split; [repeat constructor; unfold is_digit; lia|]. split; [intro E; discriminate E|reflexivity].
    + apply (logged_chars (lit "hi") (bytes_of_string "hi")). split; [cbn; lia|exists []; reflexivity].
    + apply (logged_other 0 (VBool true) (AsString_Spec.txt "#<T>") (AsString_Spec.txt "#<T>")); [|split; [cbn; lia|left; reflexivity]].
      apply arg_shows_other; [exact I|]. constructor.
    + apply (logged_str (lit "say ""x""") (bytes_of_string "say ""x""")). split; [cbn; lia|exists []; reflexivity].
Qed.
Example C92_unknown_level : ce_log true ex_init "clock" (bytes_of_string "t") [AOther 0 (VInt int_t 5)] =
  Ok ("M: { ""$"": ""clock"", ""t"": ""5"" }" ++ nl)%string.
Proof. vm_compute. reflexivity. Qed.
Example C92_message_example :
  ce_log_msg true ex_init (repeat 7 100) "info" [AChars (lit "hello = "); AOther 0 (VInt int_t 42)] = Ok ("I: { ""$"": ""info"", ""$msg"": ""hello = 42"" }" ++ nl)%string.
Proof. vm_compute. reflexivity. Qed.

(** ** C93 *)

(** A failed check writes a log line at the level fatal and then the report, both with the texts at the macro and the values of
    its arguments, and asks for a break. *)
Theorem C93_report : forall init kind what file more xs vs,
  no_nul kind -> no_nul what -> no_nul file -> no_nul more -> Forall loggable xs -> buffers init 0 xs -> Forall2 logged xs vs ->
  report_error init kind what file more xs =
  Ok ((line "F" ((kind, file) :: (what, more) :: map (fun v => ("..."%string, v)) vs) ++ report kind what file more vs)%string, true).
Proof.
  intros init kind what file more xs vs Hk Hw Hf Hm L B V. unfold report_error.
  destruct (error_args_ok xs init 0 L B) as (vs' & F & E). assert (vs' = vs) by (eapply (F2_unique logged logged_unique); eassumption). subst vs'.
  rewrite E. cbn [bind]. assert (H := C51_error kind what file more vs Hk Hw Hf Hm). rewrite C51_hook in H |- * by assumption. cbn [bind] in H |- *.
  rewrite C51_log. cbn [bind]. rewrite H. cbn [bind]. reflexivity.
Qed.
Print Assumptions C93_report.

(** Nothing is written for a check that holds; CE_REJECT holds when its condition is false. *)
Theorem C93_check : forall init kind test file more t xs vs, In kind ["CE_VERIFY"; "CE_ASSERT"; "CE_REJECT"]%string ->
  no_nul test -> no_nul file -> no_nul more -> Forall loggable xs -> buffers init 0 xs -> Forall2 logged xs vs ->
  check_output init kind test file more t xs =
  Ok (if Bool.eqb t (if String.eqb kind "CE_REJECT" then true else false)
      then line "F" ((kind, file) :: (test, more) :: map (fun v => ("..."%string, v)) vs) ++ report kind test file more vs else "")%string.
Proof.
  intros init kind test file more t xs vs HK Ht Hf Hm L B V. unfold check_output.
  assert (NK : no_nul kind).
  { unfold no_nul. cbn [In] in HK. destruct HK as [<-|[<-|[<-|[]]]]; cbn [list_ascii_of_string In]; intro H; repeat (destruct H as [H|H]; [discriminate H|]); exact H. }
  rewrite (C93_report init kind test file more xs vs) by assumption. cbn [bind].
  destruct (String.eqb kind "CE_REJECT"), t; reflexivity.
Qed.
Print Assumptions C93_check.

(** CE_ASSERT(i < n, i, n) *)
Example C93_example : check_output ex_init "CE_ASSERT" "i < n" "a.cpp(7)" "i, n" false [AOther 0 (VInt int_t 3); AOther 0 (VInt int_t 2)] =
  Ok ("F: { ""CE_ASSERT"": ""a.cpp(7)"", ""i < n"": ""i, n"", ""..."": ""3"", ""..."": ""2"" }" ++ nl ++
      "******** FAILED ********" ++ nl ++ "a.cpp(7): CE_ASSERT: i < n: (i, n) = (3, 2)" ++ nl)%string.
Proof. vm_compute. reflexivity. Qed.
Example C93_nonvacuous : no_nul "i < n" /\ no_nul "a.cpp(7)" /\ no_nul "i, n" /\
  Forall loggable [AOther 0 (VChar 65); AChars (lit "n")] /\ buffers ex_init 0 [AOther 0 (VChar 65); AChars (lit "n")] /\
  Forall2 logged [AOther 0 (VChar 65); AChars (lit "n")] ["A"; "n"]%string.
Proof.
  assert (N : forall s, forallb (fun c => negb (Ascii.eqb c zero)) (list_ascii_of_string s) = true -> no_nul s).
  { intros s F I. rewrite forallb_forall in F. apply F in I. discriminate I. }
  repeat (split; [apply N; reflexivity|]). split; [|split].
  - repeat (apply Forall_cons || apply Forall_nil); cbn [loggable]; [apply arg_char|]. unfold lit. apply in_or_app. right. left. reflexivity.
  - intros [|[|[|i]]] x E; cbn in E; try (injection E as <-); try exact I; try discriminate E. cbn [room]. unfold ex_init. rewrite repeat_length. vm_compute. lia.
  - repeat (apply Forall2_cons || apply Forall2_nil); try exact logged_null.
    + apply (logged_other 0 (VChar 65) [65] [65]); [|split; [cbn; lia|left; reflexivity]]. apply arg_shows_other; [exact I|]. constructor.
    + apply (logged_chars (lit "n") (bytes_of_string "n")). split; [cbn; lia|exists []; reflexivity].
Qed.
