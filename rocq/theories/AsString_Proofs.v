From Coq Require Import String.
From Verif Require Import Base ToText_Model ToText_Spec ToText_Proofs ToText_Proofs2
  AsString_Model AsString_Spec.
Open Scope Z_scope.

Definition writes (f : list Z -> nat -> res (list Z * nat)) (l : list Z) : Prop :=
  forall b o, (o + length l <= length b)%nat -> f b o = Ok (splice b o l, (o + length l)%nat).

Lemma writes_seq f g l m :
  writes f l -> writes g m ->
  writes (fun b o => '(b, o) <- f b o ;; g b o) (l ++ m).
Proof.
  intros Hf Hg b o H. rewrite app_length in *. rewrite Hf by lia. cbn [bind].
  rewrite Hg by (rewrite splice_length; lia).
  rewrite splice_splice by lia. do 2 f_equal. lia.
Qed.

Lemma writes_nil : writes (fun b o => Ok (b, o)) [].
Proof. intros b o _. rewrite splice_nil. cbn. now rewrite Nat.add_0_r. Qed.

Lemma writes_char c : writes (fun b o => to_text_char b o c) [c].
Proof.
  intros b o H. cbn [length] in *. unfold to_text_char.
  pose proof (splice_snoc b o [] c) as SP. rewrite splice_nil in SP.
  cbn [length app] in SP. rewrite Nat.add_0_r in SP. rewrite SP by lia. reflexivity.
Qed.

Lemma writes_ext f g l : (forall b o, f b o = g b o) -> writes g l -> writes f l.
Proof. intros E H b o Hb. rewrite E. auto. Qed.

Lemma writes_p l r : ~ In 0 l -> writes (fun b o => to_text_p b o (l ++ 0 :: r)) l.
Proof.
  induction l as [|c l IH]; intro HN.
  - apply writes_nil.
  - apply writes_ext with (fun b o => '(b, o) <- to_text_char b o c ;; to_text_p b o (l ++ 0 :: r)).
    + intros b o. cbn [to_text_p app]. destruct (Z.eqb_spec c 0) as [->|_].
      { exfalso. apply HN. now left. }
      unfold to_text_char. destruct (set b o c); reflexivity.
    + apply (writes_seq (fun b o => to_text_char b o c) _ [c] l).
      * apply writes_char.
      * apply IH. intro. apply HN. now right.
Qed.

Lemma writes_s n m l : cstring_n n m l -> writes (fun b o => to_text_s b o n m) l.
Proof.
  revert n m. induction l as [|c l IH]; intros n m [HN H].
  - destruct H as [(r & -> & Hl)|(r & -> & Hl)].
    + destruct n; [cbn in Hl; lia|]. cbn. apply writes_nil.
    + cbn in Hl. subst n. cbn. apply writes_nil.
  - destruct n as [|n].
    { destruct H as [(r & -> & Hl)|(r & -> & Hl)]; cbn in Hl; lia. }
    destruct m as [|c' m].
    { destruct H as [(r & E & Hl)|(r & E & Hl)]; discriminate. }
    assert (c' = c) by (destruct H as [(r & E & Hl)|(r & E & Hl)]; inversion E; auto). subst c'.
    apply writes_ext with (fun b o => '(b, o) <- to_text_char b o c ;; to_text_s b o n m).
    + intros b o. cbn [to_text_s]. destruct (Z.eqb_spec c 0) as [->|_].
      { exfalso. apply HN. now left. }
      unfold to_text_char. destruct (set b o c); reflexivity.
    + apply (writes_seq (fun b o => to_text_char b o c) _ [c] l).
      * apply writes_char.
      * apply IH. split; [intro; apply HN; now right|].
        destruct H as [(r & E & Hl)|(r & E & Hl)]; inversion E; subst; cbn in Hl; [left|right];
          exists r; split; auto; lia.
Qed.

Lemma writes_lit s : ~ In 0 (bytes_of_string s) -> writes (fun b o => to_text_p b o (lit s)) (txt s).
Proof. intro H. unfold lit. apply (writes_p (bytes_of_string s) []). exact H. Qed.

Ltac not_in0 := vm_compute; intuition discriminate.

Lemma int_shows T i : int_type T -> in_type (ity_signed T) (ity_size T) i ->
  exists l, decimal_text i l /\ writes (fun b o => to_text_int T b o i) l.
Proof. apply to_text_int_ok. Qed.

Lemma wrap3 p T i (s : string) l :
  ~ In 0 (bytes_of_string s) -> writes (fun b o => to_text_int T b o i) l -> p = lit s ->
  writes (fun b o => '(b, o) <- to_text_p b o p ;; '(b, o) <- to_text_int T b o i ;; to_text_char b o 62)
    (txt s ++ l ++ txt ">").
Proof.
  intros H1 H2 ->. apply (writes_seq (fun b o => to_text_p b o (lit s))).
  - now apply writes_lit.
  - apply (writes_seq (fun b o => to_text_int T b o i)); auto. apply (writes_char 62).
Qed.

Lemma size_t_valid a : 0 <= a < 2 ^ 64 ->
  exists l, decimal_text a l /\ writes (fun b o => to_text_int size_t b o a) l.
Proof. intro H. apply int_shows. right; right; right; reflexivity. exact H. Qed.

Lemma cstring_ex m : In 0 m -> exists l, cstring m l.
Proof.
  induction m as [|c m IH]; intros H; [easy|].
  destruct (Z.eq_dec c 0) as [->|N].
  - exists []. split; [easy|]. now exists m.
  - destruct H as [H|H]; [congruence|]. destruct (IH H) as (l & Hl & r & ->).
    exists (c :: l). split; [intros [E|E]; congruence|]. now exists r.
Qed.

Lemma cstring_n_ex n m : In 0 m \/ (n <= length m)%nat -> exists l, cstring_n n m l.
Proof.
  revert n. induction m as [|c m IH]; intros n H.
  - destruct H as [[]|H]. exists []. cbn in *. split; [easy|]. right. exists []. split; auto. cbn. lia.
  - destruct n as [|n].
    { exists []. split; [easy|]. right. now exists (c :: m). }
    destruct (Z.eq_dec c 0) as [->|N].
    { exists []. split; [easy|]. left. exists m. split; auto. cbn. lia. }
    destruct (IH n) as (l & Hl & D).
    { destruct H as [[E|E]|E]; [congruence|auto|cbn in E; right; lia]. }
    exists (c :: l). split; [intros [E|E]; congruence|].
    destruct D as [(r & -> & Hr)|(r & -> & Hr)]; [left|right]; exists r; cbn; split; auto; lia.
Qed.

Lemma loop_writes vs ls p sep :
  Forall2 (fun v l => writes (fun b o => to_text_early b o v) l) vs ls ->
  ((p = lit "" /\ sep = txt "") \/ (p = lit ", " /\ sep = txt ", ")) ->
  writes (fun b o => to_text_n_loop to_text_early b o p vs)
    (match ls with [] => [] | _ => sep ++ join (txt ", ") ls end).
Proof.
  intro H. revert p sep. induction H as [|v l vs ls Hv Hvs IH]; intros p sep Hp.
  - apply writes_nil.
  - assert (Wp : writes (fun b o => to_text_p b o p) sep).
    { destruct Hp as [[-> ->]|[-> ->]]; apply writes_lit; not_in0. }
    assert (E : join (txt ", ") (l :: ls) =
       l ++ match ls with [] => [] | _ => txt ", " ++ join (txt ", ") ls end).
    { destruct ls; cbn [join]; [now rewrite app_nil_r|reflexivity]. }
    rewrite E. cbn [to_text_n_loop].
    apply (writes_seq (fun b o => to_text_p b o p)); auto.
    apply (writes_seq (fun b o => to_text_early b o v)); auto.
Qed.

Lemma arr_shows vs :
  Forall (fun v => exists l, element_shows v l /\ writes (fun b o => to_text_early b o v) l) vs ->
  exists ls, Forall2 element_shows vs ls /\
   writes (fun b o => '(b, o) <- to_text_char b o 91 ;;
      '(b, o) <- to_text_n_loop to_text_early b o (lit "") vs ;; to_text_char b o 93)
      (txt "[" ++ join (txt ", ") ls ++ txt "]").
Proof.
  intros H1.
  assert (exists ls, Forall2 (fun v l => element_shows v l /\ writes (fun b o => to_text_early b o v) l) vs ls)
    as (ls & Hls).
  { induction H1 as [|v vs Hv Hvs IH].
    - exists []. constructor.
    - destruct IH as (ls & ?); auto. destruct Hv as (l & ?); auto. exists (l :: ls). constructor; auto. }
  exists ls. split.
  - clear -Hls. induction Hls; constructor; tauto.
  - apply (writes_seq (fun b o => to_text_char b o 91)); [apply (writes_char 91)|].
    apply (writes_seq (fun b o => to_text_n_loop to_text_early b o (lit "") vs));
      [|apply (writes_char 93)].
    assert (L : writes (fun b o => to_text_n_loop to_text_early b o (lit "") vs)
       (match ls with [] => [] | _ => txt "" ++ join (txt ", ") ls end)).
    { apply loop_writes; [|left; auto]. clear -Hls. induction Hls; constructor; tauto. }
    destruct ls; exact L.
Qed.

Lemma writes_float text : (length text <= 24)%nat -> writes (fun b o => to_text_float b o text) text.
Proof.
  intro L. assert (G : writes (fun b o => to_chars b o text) text).
  { clear L. induction text as [|c text IH]; [apply writes_nil|].
    apply (writes_seq (fun b o => to_text_char b o c) (fun b o => to_chars b o text) [c] text) in IH; [|apply writes_char].
    intros b o Hb. specialize (IH b o Hb). cbn [app] in IH. rewrite <- IH. cbn [to_chars]. unfold to_text_char.
    destruct (set b o c); reflexivity. }
  intros b o Hb. unfold to_text_float, guard. replace (length text <=? 32)%nat with true by (symmetry; apply Nat.leb_le; lia). now apply G.
Qed.

Lemma one_writes a' v : is_list v = false -> valid v -> exists l, shows v l /\ writes (fun b o => to_text_early b o (a', v)) l.
Proof.
  destruct v as [T i|c|v|T i|text| |a|m|a|m|vs|vs]; intros HL HV; try discriminate HL; inversion HV; subst; cbn [to_text_early].
  - destruct (int_shows T i) as (l & ? & ?); auto. exists l. split; auto. now constructor.
  - exists [c]. split; [constructor|apply writes_char].
  - assert (G : forall b o, (o + 4 <= length b)%nat -> to_text_bool b o v =
       Ok (splice b o (txt (if v then "#<T>" else "#<F>")), (o + 4)%nat)).
    { intros b o Hb. unfold to_text_bool. rewrite Nat.add_0_r.
      pose proof (splice_snoc b o [] 35) as S1'. rewrite splice_nil in S1'. cbn [length app] in S1'.
      rewrite Nat.add_0_r in S1'. rewrite S1' by lia. cbn [bind].
      pose proof (splice_snoc b o [35] 60) as S2. cbn [length app] in S2. rewrite S2 by lia. cbn [bind].
      replace (getz (bytes_of_string "FT") (if v then 1 else 0)) with (@Ok Z (if v then 84 else 70))
        by (destruct v; reflexivity).
      cbn [bind].
      pose proof (splice_snoc b o [35; 60] (if v then 84 else 70)) as S3. cbn [length app] in S3.
      rewrite S3 by lia. cbn [bind].
      pose proof (splice_snoc b o [35; 60; if v then 84 else 70] 62) as S4. cbn [length app] in S4.
      rewrite S4 by lia. cbn [bind]. destruct v; reflexivity. }
    exists (txt (if v then "#<T>" else "#<F>")). split.
    + destruct v; constructor.
    + intros b o Hb. rewrite G by (destruct v; exact Hb). destruct v; reflexivity.
  - destruct (int_shows T i) as (l & ? & ?); auto. exists (txt "#<enum " ++ l ++ txt ">").
    split; [now constructor|]. apply wrap3 with (s := "#<enum "%string); auto. not_in0.
  - exists text. split; [constructor|]. now apply writes_float.
  - exists (txt "#<nil>"). split; [constructor|]. apply writes_lit. not_in0.
  - destruct (Z.eqb_spec a 0) as [->|N].
    + exists (txt "#<nil>"). split; [constructor|]. apply writes_lit. not_in0.
    + destruct (size_t_valid a) as (l & ? & ?); auto.
      exists (txt "#<ptr " ++ l ++ txt ">").
      split; [now constructor|]. apply wrap3 with (s := "#<ptr "%string); auto. not_in0.
  - exists (txt "#<nil>"). split; [constructor|]. apply writes_lit. not_in0.
  - destruct (cstring_ex m0) as (l & Hl); auto. exists l. split; [now constructor|].
    destruct Hl as (HN & r & ->). now apply writes_p.
  - destruct (size_t_valid a) as (l & ? & ?); auto.
    exists (txt "#<ref " ++ l ++ txt ">").
    split; [now constructor|]. apply wrap3 with (s := "#<ref "%string); auto. not_in0.
Qed.

Lemma element_writes av : 0 <= fst av < 2 ^ 64 -> valid (snd av) ->
  exists l, element_shows av l /\ writes (fun b o => to_text_early b o av) l.
Proof.
  destruct av as [a v]. cbn [fst snd]. intros Ha HV. destruct (is_list v) eqn:HL.
  - destruct (size_t_valid a) as (l & ? & ?); auto.
    exists (txt "#<ref " ++ l ++ txt ">"). split; [now constructor|].
    apply writes_ext with (fun b o => '(b, o) <- to_text_p b o (lit "#<ref ") ;; '(b, o) <- to_text_int size_t b o a ;; to_text_char b o 62).
    + destruct v; try discriminate HL; reflexivity.
    + apply wrap3 with (s := "#<ref "%string); auto. not_in0.
  - destruct (one_writes a v HL HV) as (l & ? & ?). exists l. split; [now constructor|assumption].
Qed.

Lemma shows_writes v : valid v -> exists l, shows v l /\ writes (fun b o => to_text_val b o v) l.
Proof.
  intro HV. destruct (is_list v) eqn:HL.
  - destruct v as [T i|c|v|T i|text| |a|m|a|m|vs|vs]; try discriminate HL; cbn [to_text_val].
    + destruct (cstring_n_ex (length m) m) as (l & Hl); [right; lia|]. exists l.
      split; [now constructor|]. now apply writes_s.
    + destruct (arr_shows vs) as (ls & ? & ?); [|eexists; split; [econstructor; eauto|assumption]].
      inversion HV as [| | | | | | | | | | |vs' F|]; subst. eapply Forall_impl; [|exact F]. intros av [A V]. now apply element_writes.
    + destruct (arr_shows vs) as (ls & ? & ?); [|eexists; split; [econstructor; eauto|assumption]].
      inversion HV as [| | | | | | | | | | | |vs' F]; subst. eapply Forall_impl; [|exact F]. intros av [A V]. now apply element_writes.
  - destruct (one_writes 0 v HL HV) as (l & ? & W). exists l. split; [assumption|]. destruct v; try discriminate HL; exact W.
Qed.

Lemma all_writes vs : Forall valid vs ->
  exists ls, Forall2 shows vs ls /\ writes (fun b o => to_text_all b o vs) (concat ls).
Proof.
  induction 1 as [|v vs Hv Hvs IH].
  - exists []. split; [constructor|apply writes_nil].
  - destruct IH as (ls & ? & W1). destruct (shows_writes v Hv) as (l & ? & W2).
    exists (l :: ls). split; [constructor; auto|]. cbn [to_text_all concat].
    now apply (writes_seq (fun b o => to_text_val b o v)).
Qed.

(** ** as_string *)

Lemma decimal_len T i l : int_type T -> in_type (ity_signed T) (ity_size T) i ->
  decimal_text i l -> (length l <= measure (VInt T i))%nat.
Proof.
  intros HT Hi H. unfold in_type in Hi. cbn [measure].
  destruct H as [[H0 H]|[H0 (d & -> & H)]]; cbn [length].
  - destruct HT as [HT|[HT|[HT|HT]]]; rewrite HT in *; destruct (ity_signed T); cbn [Z.eqb Pos.eqb];
      [ assert (length l <= 3)%nat | assert (length l <= 3)%nat | assert (length l <= 5)%nat
      | assert (length l <= 5)%nat | assert (length l <= 10)%nat | assert (length l <= 10)%nat
      | assert (length l <= 20)%nat | assert (length l <= 20)%nat ]; try lia;
      (eapply numeral_length_le; [eauto| |lia]); unfold p10; cbn -[Z.pow] in *; lia.
  - destruct HT as [HT|[HT|[HT|HT]]]; rewrite HT in *; destruct (ity_signed T); cbn [Z.eqb Pos.eqb]; try lia;
      [ assert (length d <= 3)%nat | assert (length d <= 5)%nat | assert (length d <= 10)%nat
      | assert (length d <= 19)%nat ]; try lia;
      (eapply numeral_length_le; [eauto| |lia]); unfold p10; cbn -[Z.pow] in *; lia.
Qed.

Lemma decimal_len20 T i l : int_type T -> in_type (ity_signed T) (ity_size T) i ->
  decimal_text i l -> (length l <= 20)%nat.
Proof.
  intros HT Hi H. pose proof (decimal_len T i l HT Hi H) as G. cbn [measure] in G.
  destruct (ity_size T =? 1), (ity_size T =? 2), (ity_size T =? 4), (ity_signed T); lia.
Qed.

Lemma join_len n ls : Forall (fun l => (length l <= n)%nat) ls ->
  (length (join (txt ", ") ls) <= length ls * (n + 2))%nat.
Proof.
  induction 1 as [|l ls Hl H IH]; [cbn; lia|].
  destruct ls as [|l2 ls]; cbn [join length] in *.
  - cbn. lia.
  - rewrite !app_length. change (length (txt ", ")) with 2%nat. cbn [length] in IH. lia.
Qed.

Lemma shape_len_ok vs l : vec_shape (VVec vs) -> valid (VVec vs) -> shows (VVec vs) l -> (length l <= 600)%nat.
Proof.
  intros [HN HS] HV HW. inversion HV as [| | | | | | | | | | | |vs' F]; subst. inversion HW as [| | | | | | | | | | | | | |vs' ls H2]; subst. clear HV HW.
  rewrite !app_length. change (length (txt "[")) with 1%nat. change (length (txt "]")) with 1%nat.
  assert (J : length ls = length vs /\ Forall (fun l => (length l <= 30)%nat) ls).
  { clear HN. induction H2 as [|[a v] l vs ls E H2 IH]; [split; constructor|].
    inversion HS as [|x xs S1 S2]; inversion F as [|x' xs' [A V] F2]; subst. destruct (IH S2 F2) as [I1 I2]. split; [cbn [length]; now f_equal|].
    constructor; [|exact I2]. cbn [fst snd] in *. inversion E as [a' v' l' IL SH|a' v' l' IL D]; subst.
    - destruct v; try contradiction; inversion SH; subst; [|inversion V; subst; lia|discriminate IL]. inversion V; subst.
      assert (length l <= 20)%nat by (eapply decimal_len20; eauto). lia.
    - pose proof (decimal_len20 size_t a l' ltac:(right; right; right; reflexivity) A D). rewrite !app_length.
      change (length (txt "#<ref ")) with 6%nat. change (length (txt ">")) with 1%nat. lia. }
  destruct J as [L J]. apply join_len in J. rewrite L in J. pose proof (Nat.mul_le_mono_r _ _ (30 + 2) HN). lia.
Qed.

Lemma cstring_n_len n m l : cstring_n n m l -> (length l <= n)%nat.
Proof. intros [_ [(r & -> & H)|(r & -> & H)]]; lia. Qed.

Lemma cstring_n_len_arr n m l : cstring_n n m l -> In 0 m -> (length l < length m)%nat.
Proof.
  intros [HN [(r & -> & H)|(r & -> & H)]] HI; rewrite app_length; cbn; try lia.
  apply in_app_or in HI as [HI|HI]; [easy|]. destruct r; [easy|]. cbn. lia.
Qed.

Lemma small_len v l : valid v -> shows v l ->
  match v with VBool _ | VEnum _ _ | VFloat _ | VNullptr | VPtr _ | VRef _ => True | _ => False end ->
  (length l <= 30)%nat.
Proof.
  intros HV HW HS. destruct v; try easy; inversion HV; inversion HW; subst; rewrite ?app_length;
  try (vm_compute; lia); try lia;
  match goal with
  | HT : int_type ?T, HR : in_type _ _ ?i, HD : decimal_text ?i ?l |- _ =>
      pose proof (decimal_len20 T i l HT HR HD)
  | HR : 0 <= ?a < 2 ^ 64, HD : decimal_text ?a ?l |- _ =>
      pose proof (decimal_len20 size_t a l ltac:(right; right; right; reflexivity) HR HD)
  end;
  repeat match goal with |- context [length (txt ?x)] =>
    let v := eval vm_compute in (length (txt x)) in change (length (txt x)) with v end; lia.
Qed.

Lemma arg_writes av : arg_ok av ->
  exists l, arg_shows av l /\ (length l <= measure (snd av))%nat /\
            writes (fun b o => to_text_m (fst av) b o (snd av)) l.
Proof.
  intro H. inversion H; subst; cbn [fst snd].
  - destruct (shows_writes _ H0) as (l & S & W). exists l. split; [now constructor|]. split; [|exact W].
    inversion S; inversion H0; subst. eapply decimal_len; eauto.
  - exists [c]. split; [constructor; auto; constructor|]. split; [cbn; lia|]. apply writes_char.
  - destruct (shows_writes (VBool v)) as (l & S & W); [constructor|]. exists l. split; [now constructor|].
    split; [|exact W]. pose proof (small_len (VBool v) l ltac:(constructor) S I). cbn [measure]; lia.
  - destruct (shows_writes _ H0) as (l & S & W). exists l. split; [now constructor|].
    split; [|exact W]. pose proof (small_len _ l H0 S I). cbn [measure]; lia.
  - destruct (shows_writes _ H0) as (l & S & W). exists l. split; [now constructor|].
    split; [|exact W]. pose proof (small_len _ l H0 S I). cbn [measure]; lia.
  - destruct (shows_writes VNullptr) as (l & S & W); [constructor|]. exists l. split; [now constructor|].
    split; [|exact W]. pose proof (small_len VNullptr l ltac:(constructor) S I). cbn [measure]; lia.
  - destruct (shows_writes _ H0) as (l & S & W). exists l. split; [now constructor|].
    split; [|exact W]. pose proof (small_len _ l H0 S I). cbn [measure]; lia.
  - destruct (cstring_n_ex 1024 m) as (l & Hl); auto. exists l. split; [now constructor|].
    split; [apply cstring_n_len in Hl; exact Hl|]. now apply writes_s.
  - destruct (shows_writes _ H0) as (l & S & W). exists l. split; [now constructor|].
    split; [|exact W]. pose proof (small_len _ l H0 S I). cbn [measure]; lia.
  - destruct (cstring_n_ex 1024 m) as (l & Hl); auto. exists l. split; [now constructor|].
    split; [apply cstring_n_len_arr in Hl; cbn [measure]; auto; lia|]. now apply writes_s.
  - assert (V : valid (VPtr a)) by now constructor.
    destruct (shows_writes _ V) as (l & S & W). exists l. split; [now constructor|].
    split; [|exact W]. pose proof (small_len _ l V S I). cbn [measure]; lia.
  - destruct (shows_writes _ H1) as (l & S & W). exists l. split; [now constructor|].
    split; [|exact W]. pose proof (shape_len_ok _ _ H0 H1 S) as G. cbn [measure]. lia.
Qed.

Lemma args_writes vs : Forall arg_ok vs ->
  exists ls, Forall2 arg_shows vs ls /\ (length (concat ls) <= measures vs)%nat /\
            writes (fun b o => to_text_m_all b o vs) (concat ls).
Proof.
  induction 1 as [|[a v] vs Hv Hvs IH].
  - exists []. split; [constructor|]. split; [cbn; lia|apply writes_nil].
  - destruct IH as (ls & ? & ? & W1). destruct (arg_writes _ Hv) as (l & ? & ? & W2). cbn [fst snd] in *.
    exists (l :: ls). split; [constructor; auto|]. cbn [to_text_m_all concat measures fold_right snd].
    split. { rewrite app_length. unfold measures in *. lia. }
    now apply (writes_seq (fun b o => to_text_m a b o v)).
Qed.

Lemma as_string_ok init vs :
  Forall arg_ok vs -> (measures vs + 1 <= length init)%nat ->
  exists ls rest, Forall2 arg_shows vs ls /\
    as_string init vs = Ok (concat ls ++ 0 :: rest) /\
    length (concat ls ++ 0 :: rest) = (measures vs + 1)%nat.
Proof.
  intros HV HL. destruct (args_writes vs HV) as (ls & HS & Hlen & W).
  unfold as_string.
  assert (LB : length (firstn (measures vs + 1) init) = (measures vs + 1)%nat)
    by (rewrite firstn_length; lia).
  rewrite W by lia. cbn [bind]. cbn [Nat.add].
  set (b := firstn (measures vs + 1) init) in *.
  pose proof (splice_snoc b 0 (concat ls) 0) as SP. cbn [Nat.add] in SP. rewrite SP by lia.
  exists ls, (skipn (length (concat ls) + 1) b). split; [assumption|].
  assert (E : splice b 0 (concat ls ++ [0]) = concat ls ++ 0 :: skipn (length (concat ls) + 1) b).
  { unfold splice. cbn [firstn app Nat.add]. rewrite app_length. cbn [length].
    rewrite <- app_assoc. reflexivity. }
  split; [now rewrite E|]. rewrite <- E, splice_length; auto. rewrite app_length. cbn. lia.
Qed.
