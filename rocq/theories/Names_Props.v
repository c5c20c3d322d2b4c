(** C48, C49: names of arguments and of fields. *)
From Coq Require Import String Ascii Lia.
From Verif Require Import Base Names_Model Names_Spec Names_Proofs.
Local Open Scope Z_scope.

(** Source text for the examples. *)
Definition txt (s : string) : list Z := map (fun c => s8 (Z.of_nat (nat_of_ascii c))) (list_ascii_of_string s).

(** ** C48 *)

(** Whatever the string: no access outside text[N], and every name is a terminated string in it. *)
Theorem C48_safe : forall count src, exists text starts,
  names count src = Ok (text, starts) /\ length text = (length src + 1)%nat /\ length starts = Nat.max 1 count /\
  Forall (fun s => (s < length text)%nat /\ exists n, name_at text s = Some n) starts.
Proof.
  intros count src. destruct count as [|count].
  - unfold names. destruct (skip_spaces_suffix src) as [a Ea].
    assert (La : (length (skip_spaces src) <= length src)%nat) by (rewrite Ea at 2; rewrite app_length; lia).
    rewrite copy_scan by (rewrite repeat_length; lia). assert (S := scan_app (skip_spaces src) 0 0 false).
    destruct (scan (skip_spaces src) 0 0 false) as [w rest]. destruct S as [Es _].
    assert (Lw : (length w <= length src)%nat) by (rewrite Es in La; rewrite app_length in La; lia). cbn [bind].
    assert (T := trim_bounds w 0 0 (le_n _)).
    assert (L1 : length (write (repeat 0 (length src + 1)) 0 w) = (length src + 1)%nat) by (rewrite length_write; rewrite repeat_length; lia).
    rewrite set_write by (rewrite L1; lia). cbn [bind].
    set (text := write (write (repeat 0 (length src + 1)) 0 w) (trim_of w 0 0) [0]).
    assert (L2 : length text = (length src + 1)%nat) by (unfold text; rewrite length_write; [exact L1|rewrite L1; cbn; lia]).
    exists text, [0%nat]. split; [reflexivity|]. split; [exact L2|]. split; [reflexivity|]. constructor; [|constructor]. split; [lia|].
    apply c_string_some. cbn [skipn]. unfold text, write at 1. apply in_or_app. right. apply in_or_app. left. left. reflexivity.
  - unfold names. destruct (names_loop_safe (S count) src (repeat 0 (length src + 1)) 0) as (t & st & E & A & B & C & D);
      [rewrite repeat_length; lia|apply last_zero|].
    rewrite E. exists t, st. rewrite repeat_length in A, B, D. split; [reflexivity|]. split; [exact A|]. split; [rewrite C; reflexivity|].
    apply Forall_forall. intros s Hs. apply (proj1 (Forall_forall _ _) D) in Hs. cbn in Hs. split; [lia|].
    apply terminated; [rewrite A; exact B|lia].
Qed.
Print Assumptions C48_safe.

(** The stringised list of arguments, blanks allowed around each, gives their texts. *)
Theorem C48_split : forall es ts, arguments es -> Forall2 padded es ts ->
  exists text starts, names (length es) (joined ts) = Ok (text, starts) /\ map (name_at text) starts = map Some es.
Proof.
  intros es ts HA HP. destruct es as [|e es]; [destruct HA|]. unfold names. cbn [length].
  destruct (names_split (e :: es) ts (repeat 0 (length (joined ts) + 1)) 0 HA HP) as (t & st & E & _ & N); [rewrite repeat_length; lia|].
  exists t, st. split; [exact E|exact N].
Qed.
Print Assumptions C48_split.

(** CE_LOG with no argument: the literal is "$," and COUNT is 1. *)
Theorem C48_no_arguments : exists text, names 1 (txt "$,") = Ok (text, [0%nat]) /\ name_at text 0 = Some (txt "$").
Proof. eexists. split; vm_compute; reflexivity. Qed.
Print Assumptions C48_no_arguments.

(** Texts that C++ accepts and names does not split as the compiler does: a digit separator opens a literal, and the commas of a
    template argument list separate arguments unless it is the last. A byte above 127 is a blank. *)
Definition got (count : nat) (s : string) : list (option (list Z)) :=
  match names count (txt s) with Ok (text, starts) => map (name_at text) starts | _ => [] end.
Theorem C48_source_refuted :
  got 2 "1'000, x" = [Some (txt "1'000, x"); Some []] /\
  got 2 "max<int, int>(a), b" = [Some (txt "max<int"); Some (txt "int>(a), b")] /\
  (exists text starts, names 1 [-61; -87] = Ok (text, starts) /\ map (name_at text) starts = [Some []]).
Proof.
  split; [vm_compute; reflexivity|]. split; [vm_compute; reflexivity|]. eexists _, _. split; vm_compute; reflexivity.
Qed.
Print Assumptions C48_source_refuted.

Local Ltac bal := repeat first
  [ apply bal_nil
  | apply bal_plain; [unfold ascii7; lia|cbn; lia|]
  | apply bal_comma ].
Example C48_nonvacuous :
  let es := [txt "f(a, b[1])"; txt "p->x"; txt "pair<int,int>{}"] in
  arguments es /\ Forall2 padded es [txt "f(a, b[1]) "; txt " p->x"; txt " pair<int,int>{}"] /\
  got 3 "f(a, b[1]) , p->x, pair<int,int>{}" = map Some es /\
  joined [txt "f(a, b[1]) "; txt " p->x"; txt " pair<int,int>{}"] = txt "f(a, b[1]) , p->x, pair<int,int>{}".
Proof.
  assert (T : forall s, s <> [] -> ~ blank (hd 1 s) -> ~ blank (last s 1) -> trimmed s).
  { intros s H1 H2 H3. split; [exact H1|]. split; [intros c r ->; exact H2|]. intros c r ->. rewrite last_last in H3. exact H3. }
  cbv zeta. split; [|split; [|split]].
  - cbn [arguments]. split; [apply T; [discriminate|unfold blank; vm_compute; intuition congruence|unfold blank; vm_compute; intuition congruence]|].
    split.
    { change (txt "f(a, b[1])") with (102 :: 40 :: [97; 44; 32; 98; 91; 49; 93] ++ 41 :: []). bal.
      apply bal_bracket; [cbn; tauto| |bal]. bal. change [91; 49; 93] with (91 :: [49] ++ 93 :: []). apply bal_bracket; [cbn; tauto|bal|bal]. }
    split; [apply T; [discriminate|unfold blank; vm_compute; intuition congruence|unfold blank; vm_compute; intuition congruence]|].
    split. { change (txt "p->x") with [112; 45; 62; 120]. bal. }
    split; [apply T; [discriminate|unfold blank; vm_compute; intuition congruence|unfold blank; vm_compute; intuition congruence]|].
    split. { change (txt "pair<int,int>{}") with ([112; 97; 105; 114; 60; 105; 110; 116; 44; 105; 110; 116; 62] ++ 123 :: [] ++ 125 :: []). cbn [app]. bal.
             exact (bal_bracket true 123 125 [] [] ltac:(cbn; tauto) (bal_nil _) (bal_nil _)). }
    intros r E. assert (L : last (txt "pair<int,int>{}") 1 = last (r ++ [44]) 1) by (rewrite E; reflexivity). rewrite last_last in L. vm_compute in L. discriminate.
  - repeat constructor.
    + exists [], [32]. repeat split; repeat constructor; unfold blank; lia.
    + exists [32], []. repeat split; repeat constructor; unfold blank; lia.
    + exists [32], []. repeat split; repeat constructor; unfold blank; lia.
  - vm_compute. reflexivity.
  - reflexivity.
Qed.

(** ** C49 *)

(** Any text with a comma between any two fields, as every argument list has: in bounds, and every name is terminated. *)
Theorem C49_safe : forall count src, Forall (fun c => c <> 0) src -> (count <= count_occ Z.eq_dec src 44%Z + 1)%nat ->
  exists text starts, names_t count src = Ok (text, starts) /\ length text = (length src + 1)%nat /\ length starts = count /\
  Forall (fun s => exists n, name_at text s = Some n) starts.
Proof.
  intros count src Hz Hc. destruct (cuts_exist count src Hz) as [ws Hws].
  destruct (names_t_cuts count src ws Hws Hz Hc) as (text & starts & E & L & N). exists text, starts. split; [exact E|]. split; [exact L|].
  assert (LW : length ws = count) by (clear - Hws; induction Hws; cbn; congruence).
  split.
  - rewrite <- LW. rewrite <- (map_length Some ws), <- N, map_length. reflexivity.
  - apply Forall_forall. intros s Hs. assert (K : In (name_at text s) (map (name_at text) starts)) by (apply in_map; exact Hs).
    rewrite N in K. apply in_map_iff in K. destruct K as (w & Ew & _). exists w. symmetry. exact Ew.
Qed.
Print Assumptions C49_safe.

Lemma fields_cuts : forall es ts, fields es ts -> cuts (length es) (joined ts) es /\ (length es <= count_occ Z.eq_dec (joined ts) 44%Z + 1)%nat /\ Forall (fun c => c <> 0) (joined ts).
Proof.
  assert (BL : forall a, Forall blank a -> Forall (fun x => blankish x = true) a /\ Forall (fun c => c <> 0) a).
  { intros a Ha. split; (eapply Forall_impl; [|exact Ha]); cbn; unfold blank, blankish, SPACE; intros c Hc; [|lia].
    destruct (Z.eqb_spec c 0); [lia|]. destruct (Z.leb_spec c 32); [reflexivity|lia]. }
  assert (WD : forall e, word e -> e <> [] /\ Forall (fun x => wordish x = true) e /\ Forall (fun c => c <> 0) e).
  { intros e [He Hw]. split; [exact He|]. split; (eapply Forall_impl; [|exact Hw]); cbn; unfold wordish, SPACE, COMMA; intros c Hc; [|lia].
    destruct (Z.ltb_spec 32 c); [|lia]. destruct (Z.eqb_spec c 44); [lia|reflexivity]. }
  induction es as [|e es IH]; intros ts H; [destruct H|]. destruct ts as [|t ts]; [destruct es; destruct H|].
  assert (H' : (es = [] /\ ts = [] /\ word e /\ padded e t) \/ (es <> [] /\ ts <> [] /\ word e /\ (exists a, t = a ++ e /\ Forall blank a) /\ fields es ts)).
  { destruct es as [|e2 es]; destruct ts as [|t2 ts]; cbn [fields] in H.
    - left. tauto.
    - exfalso. tauto.
    - exfalso. destruct H as (_ & _ & H). destruct es; exact H.
    - right. split; [discriminate|]. split; [discriminate|]. tauto. }
  destruct H' as [(-> & -> & Hw & (a & b & -> & Ha & Hb))|(N1 & N2 & Hw & (a & -> & Ha) & HF)].
  - destruct (WD e Hw) as (We & Ww & Wz). destruct (BL a Ha) as [Ba Za]. destruct (BL b Hb) as [Bb Zb]. cbn [joined length].
    split; [|split; [lia|rewrite !Forall_app; tauto]]. destruct b as [|c b].
    + rewrite app_nil_r. apply cuts_end; [exact Ba|exact Ww|constructor].
    + inversion Bb as [|c' b' Hc _]; subst. apply cuts_blank; try assumption. constructor.
  - destruct (WD e Hw) as (We & Ww & Wz). destruct (BL a Ha) as [Ba Za]. destruct (IH ts HF) as (C & L & Z).
    assert (EJ : joined ((a ++ e) :: ts) = a ++ e ++ 44 :: joined ts) by (destruct ts; [congruence|]; cbn [joined]; rewrite <- app_assoc; reflexivity).
    rewrite EJ. cbn [length]. split; [apply cuts_comma; assumption|]. split.
    + rewrite !count_occ_app. cbn [count_occ]. destruct (Z.eq_dec 44 44); [|lia]. lia.
    + rewrite !Forall_app. split; [exact Za|]. split; [exact Wz|]. constructor; [lia|exact Z].
Qed.

Theorem C49_split : forall es ts, fields es ts ->
  exists text starts, names_t (length es) (joined ts) = Ok (text, starts) /\ map (name_at text) starts = map Some es.
Proof.
  intros es ts H. destruct (fields_cuts es ts H) as (C & L & Z).
  destruct (names_t_cuts _ _ _ C Z L) as (text & starts & E & _ & N). exists text, starts. split; [exact E|exact N].
Qed.
Print Assumptions C49_split.

(** A blank before a comma: the fields a and b of "a , b" are named "a" and "". *)
Definition got_t (count : nat) (s : string) : list (option (list Z)) :=
  match names_t count (txt s) with Ok (text, starts) => map (name_at text) starts | _ => [] end.
Theorem C49_blank_refuted : got_t 2 "a , b" = [Some (txt "a"); Some []].
Proof. vm_compute. reflexivity. Qed.
Print Assumptions C49_blank_refuted.

Example C49_nonvacuous : fields [txt "id"; txt "pos.x"] [txt "id"; txt " pos.x "] /\ got_t 2 "id, pos.x " = [Some (txt "id"); Some (txt "pos.x")].
Proof.
  split; [|vm_compute; reflexivity]. cbn [fields].
  assert (W : forall e, e <> [] -> forallb (fun c => (32 <? c) && (c <? 128) && negb (c =? 44)) e = true -> word e).
  { intros e He Hf. split; [exact He|]. apply Forall_forall. intros c Hc. rewrite forallb_forall in Hf. specialize (Hf c Hc). lia. }
  split; [apply W; [discriminate|reflexivity]|]. split; [exists []; split; [reflexivity|constructor]|].
  split; [apply W; [discriminate|reflexivity]|]. exists [32], [32]. repeat split; repeat constructor; unfold blank; lia.
Qed.
