(** Proofs about names and names_t. *)
From Coq Require Import Lia.
From Verif Require Import Base Names_Model Names_Spec.
Local Open Scope Z_scope.

(** ** Writing a segment *)

Definition write (text : list Z) (i : nat) (w : list Z) : list Z := firstn i text ++ w ++ skipn (i + length w) text.

Lemma write_nil : forall text i, write text i [] = text.
Proof. intros. unfold write. cbn [app length]. rewrite Nat.add_0_r. apply firstn_skipn. Qed.

Lemma length_write : forall text i w, (i + length w <= length text)%nat -> length (write text i w) = length text.
Proof. intros. unfold write. rewrite !app_length, firstn_length, skipn_length. lia. Qed.

Lemma upd_write : forall text i v, (i < length text)%nat -> upd text i v = write text i [v].
Proof.
  induction text as [|t text IH]; intros i v H; [cbn in H; lia|].
  destruct i as [|i]; [reflexivity|]. cbn [upd]. rewrite IH by (cbn in H; lia). unfold write. cbn [length app firstn]. rewrite !Nat.add_1_r. reflexivity.
Qed.

Lemma set_write : forall text i v, (i < length text)%nat -> set text i v = Ok (write text i [v]).
Proof. intros. unfold set. destruct (Nat.ltb_spec i (length text)); [|lia]. rewrite upd_write by assumption. reflexivity. Qed.

Lemma firstn_write : forall text i w, (i <= length text)%nat -> firstn i (write text i w) = firstn i text.
Proof.
  intros. unfold write. rewrite firstn_app. rewrite firstn_length. replace (i - Nat.min i (length text))%nat with 0%nat by lia.
  rewrite firstn_firstn. replace (Nat.min i i) with i by lia. cbn. apply app_nil_r.
Qed.

Lemma firstn_write_all : forall text i w, (i <= length text)%nat -> firstn (i + length w) (write text i w) = firstn i text ++ w.
Proof.
  intros. unfold write. rewrite app_assoc. rewrite firstn_app. rewrite app_length, firstn_length.
  replace (i + length w - (Nat.min i (length text) + length w))%nat with 0%nat by lia. cbn [firstn]. rewrite app_nil_r.
  apply firstn_all2. rewrite app_length, firstn_length. lia.
Qed.

Lemma skipn_write : forall text i w, (i <= length text)%nat -> skipn (i + length w) (write text i w) = skipn (i + length w) text.
Proof.
  intros. unfold write. rewrite app_assoc. rewrite skipn_app. rewrite app_length, firstn_length.
  replace (i + length w - (Nat.min i (length text) + length w))%nat with 0%nat by lia. cbn [skipn].
  rewrite skipn_all2; [reflexivity|]. rewrite app_length, firstn_length. lia.
Qed.

Lemma write_write : forall text i v w, (i + 1 + length w <= length text)%nat -> write (write text i [v]) (S i) w = write text i (v :: w).
Proof.
  intros. unfold write at 1. assert (E := firstn_write_all text i [v] ltac:(lia)). cbn [length] in E. rewrite Nat.add_1_r in E. rewrite E.
  unfold write. cbn [length app]. rewrite <- app_assoc. cbn [app]. f_equal. f_equal. f_equal.
  replace (S i + length w)%nat with (length w + (i + 1))%nat by lia.
  assert (K : forall (a b : nat) (l : list Z), skipn (a + b) l = skipn a (skipn b l)).
  { intros a b. induction b as [|b IH]; intro l; [rewrite Nat.add_0_r; reflexivity|]. rewrite Nat.add_succ_r. destruct l; [cbn; destruct a; reflexivity|]. cbn [skipn]. apply IH. }
  rewrite K. assert (E2 := skipn_write text i [v] ltac:(lia)). cbn [length] in E2.
  unfold write in E2. cbn [app length] in E2. rewrite E2. rewrite <- K. f_equal. lia.
Qed.

Lemma name_at_prefix : forall text p e i, length p = i -> firstn (i + length e + 1) text = p ++ e ++ [0] -> (forall c, In c e -> c <> 0) ->
  name_at text i = Some e.
Proof.
  intros text p e i Hp H He. unfold name_at.
  assert (E : text = p ++ e ++ [0] ++ skipn (i + length e + 1) text).
  { rewrite <- (firstn_skipn (i + length e + 1) text) at 1. rewrite H. rewrite <- !app_assoc. reflexivity. }
  rewrite E. rewrite skipn_app. replace (i - length p)%nat with 0%nat by lia. rewrite skipn_all2 by lia. cbn [skipn app].
  revert He. clear. generalize (skipn (i + length e + 1) text). intro r. induction e as [|c e IH]; intros He; cbn [app c_string].
  - reflexivity.
  - destruct (Z.eqb_spec c 0) as [->|]; [exfalso; exact (He 0 (or_introl eq_refl) eq_refl)|]. rewrite IH by (intros x Hx; apply He; right; exact Hx). reflexivity.
Qed.

(** ** copy without the text *)

Fixpoint scan (src : list Z) (balance quote : Z) (escape : bool) : list Z * list Z :=
  match src with
  | [] => ([], [])
  | c :: r =>
      if (quote =? 0) && ((c =? COMMA) && ((balance =? 0) || (peek r =? 0))) then ([], src)
      else
        let '(balance, quote, escape) :=
          if quote =? 0 then
            if (c =? QUOTE) || (c =? APOS) then (balance, c, escape)
            else if is_open c then (balance + 1, quote, escape)
            else if is_close c then (balance - 1, quote, escape)
            else (balance, quote, escape)
          else if escape then (balance, quote, false)
          else if c =? BSLASH then (balance, quote, true)
          else if c =? quote then (balance, 0, escape)
          else (balance, quote, escape) in
        let '(w, rest) := scan r balance quote escape in (c :: w, rest)
  end.

Fixpoint trim_of (w : list Z) (i trim : nat) : nat :=
  match w with [] => trim | c :: w => trim_of w (S i) (if SPACE <? c then S i else trim) end.

Lemma copy_scan : forall src text i trim b q e, (i + length src <= length text)%nat ->
  copy src text i trim b q e =
  let '(w, rest) := scan src b q e in Ok (write text i w, (i + length w)%nat, trim_of w i trim, rest).
Proof.
  induction src as [|c r IH]; intros text i trim b q e H; cbn [copy scan].
  - rewrite write_nil, Nat.add_0_r. reflexivity.
  - destruct ((q =? 0) && ((c =? COMMA) && ((b =? 0) || (peek r =? 0)))).
    { rewrite write_nil, Nat.add_0_r. reflexivity. }
    set (st := if q =? 0 then _ else _). destruct st as [[b' q'] e'] eqn:Est. cbn [length] in H.
    rewrite set_write by lia. cbn [bind]. rewrite IH by (rewrite length_write; cbn [length]; lia).
    assert (L : forall s b q e, (length (fst (scan s b q e)) <= length s)%nat).
    { clear. induction s as [|c s IH]; intros b q e; cbn [scan]; [cbn; lia|].
      destruct ((q =? 0) && ((c =? COMMA) && ((b =? 0) || (peek s =? 0)))); [cbn; lia|].
      destruct (if q =? 0 then _ else _) as [[b' q'] e']. specialize (IH b' q' e'). destruct (scan s b' q' e') as [w rest]. cbn in *. lia. }
    specialize (L r b' q' e'). destruct (scan r b' q' e') as [w rest]. cbn [fst] in L. cbn [length trim_of].
    rewrite write_write by lia. rewrite Nat.add_succ_r. reflexivity.
Qed.

Lemma scan_app : forall src b q e, let '(w, rest) := scan src b q e in src = w ++ rest /\ (rest = [] \/ exists r, rest = 44 :: r).
Proof.
  induction src as [|c s IH]; intros b q e; cbn [scan]; [split; [reflexivity|left; reflexivity]|].
  destruct ((q =? 0) && ((c =? COMMA) && ((b =? 0) || (peek s =? 0)))) eqn:E.
  { split; [reflexivity|]. right. apply andb_prop in E. destruct E as [_ E]. apply andb_prop in E. destruct E as [E _].
    apply Z.eqb_eq in E. unfold COMMA in E. subst. eexists. reflexivity. }
  destruct (if q =? 0 then _ else _) as [[b' q'] e']. specialize (IH b' q' e'). destruct (scan s b' q' e') as [w rest].
  destruct IH as [-> H]. split; [reflexivity|exact H].
Qed.

Lemma trim_bounds : forall w i trim, (trim <= i)%nat -> (trim <= trim_of w i trim <= i + length w)%nat.
Proof.
  induction w as [|c w IH]; intros i trim H; cbn [trim_of length]; [lia|]. destruct (SPACE <? c).
  - specialize (IH (S i) (S i) (le_n _)). lia.
  - specialize (IH (S i) trim ltac:(lia)). lia.
Qed.

Lemma skip_spaces_suffix : forall s, exists a, s = a ++ skip_spaces s.
Proof.
  induction s as [|c s IH]; [exists []; reflexivity|]. cbn [skip_spaces]. destruct ((c <=? SPACE) && negb (c =? 0)).
  - destruct IH as [a E]. exists (c :: a). cbn. congruence.
  - exists []. reflexivity.
Qed.

(** ** Safety of names *)

Lemma names_loop_safe : forall n src text i, (i + length src < length text)%nat -> nth (length text - 1) text 1 = 0 ->
  exists text' starts, names_loop n src text i = Ok (text', starts) /\ length text' = length text /\
    nth (length text - 1) text' 1 = 0 /\ length starts = n /\ Forall (fun s => (i <= s < length text)%nat) starts.
Proof.
  induction n as [|n IH]; intros src text i H Hz; cbn [names_loop].
  - exists text, []. repeat split; [exact Hz|constructor].
  - destruct (skip_spaces_suffix src) as [a Ea]. assert (La : (length (skip_spaces src) <= length src)%nat) by (rewrite Ea at 2; rewrite app_length; lia).
    rewrite copy_scan by lia.
    assert (S := scan_app (skip_spaces src) (if Nat.eqb n 0 then 1 else 0) 0 false).
    destruct (scan (skip_spaces src) (if Nat.eqb n 0 then 1 else 0) 0 false) as [w rest]. destruct S as [Es Hr].
    assert (Ls : (length w + length rest <= length src)%nat) by (rewrite Es in La; rewrite app_length in La; lia). cbn [bind].
    assert (T := trim_bounds w i i (le_n _)). remember (trim_of w i i) as trim.
    assert (Lw : length (write text i w) = length text) by (apply length_write; lia).
    rewrite set_write by lia. cbn [bind].
    set (text2 := write (write text i w) trim [0]).
    assert (L2 : length text2 = length text) by (unfold text2; rewrite length_write; [exact Lw|cbn [length]; lia]).
    assert (Z2 : nth (length text - 1) text2 1 = 0).
    { assert (N : forall t j v, (j + length v <= length t)%nat -> ((j + length v < length t)%nat \/ v = [0] /\ (j + 1 = length t)%nat) -> nth (length t - 1) t 1 = 0 -> nth (length t - 1) (write t j v) 1 = 0).
      { clear. intros t j v H1 H2 H3. unfold write. rewrite app_nth2 by (rewrite firstn_length; lia). rewrite firstn_length.
        replace (Nat.min j (length t)) with j by lia. destruct H2 as [H2|[-> H2]].
        - rewrite app_nth2 by lia. replace (length t - 1 - j - length v)%nat with (length t - 1 - (j + length v))%nat by lia.
          assert (Q : forall (k m : nat) (l : list Z), nth m (skipn k l) 1 = nth (k + m) l 1).
          { clear. induction k as [|k IH]; intros m l; [reflexivity|]. destruct l; [destruct m; reflexivity|]. cbn. apply IH. }
          rewrite Q. replace (j + length v + (length t - 1 - (j + length v)))%nat with (length t - 1)%nat by lia. exact H3.
        - replace (length t - 1 - j)%nat with 0%nat by lia. reflexivity. }
      unfold text2. rewrite <- Lw. apply N; [cbn; lia| |].
      - cbn [length]. destruct (Nat.eq_dec (trim + 1) (length (write text i w))); [right; split; [reflexivity|lia]|left; lia].
      - rewrite Lw. apply N; [lia|left; lia|exact Hz]. }
    destruct rest as [|c rest].
    + destruct (IH [] text2 trim) as (t' & st & E & A & B & C & D); [cbn; lia|rewrite L2; exact Z2|].
      rewrite E. cbn [bind]. exists t', (i :: st). split; [reflexivity|]. split; [congruence|]. split; [rewrite L2 in B; exact B|].
      split; [cbn; congruence|]. constructor; [lia|]. eapply Forall_impl; [|exact D]. cbn. intros s Hs. lia.
    + destruct (IH rest text2 (S trim)) as (t' & st & E & A & B & C & D); [cbn in Ls; lia|rewrite L2; exact Z2|].
      rewrite E. cbn [bind]. exists t', (i :: st). split; [reflexivity|]. split; [congruence|]. split; [rewrite L2 in B; exact B|].
      split; [cbn; congruence|]. constructor; [lia|]. eapply Forall_impl; [|exact D]. cbn. intros s Hs. lia.
Qed.

Lemma c_string_some : forall t, In 0 t -> exists s, c_string t = Some s.
Proof.
  induction t as [|c t IH]; intros H; [destruct H|]. cbn [c_string]. destruct (Z.eqb_spec c 0); [eexists; reflexivity|].
  destruct H as [H|H]; [congruence|]. destruct (IH H) as [s E]. rewrite E. eexists. reflexivity.
Qed.

Lemma terminated : forall text s, nth (length text - 1) text 1 = 0 -> (s < length text)%nat -> exists n, name_at text s = Some n.
Proof.
  intros text s Hz Hs. apply c_string_some. rewrite <- (firstn_skipn s text) in Hz at 2. rewrite app_nth2 in Hz by (rewrite firstn_length; lia).
  rewrite <- Hz. apply nth_In. rewrite firstn_length, skipn_length. lia.
Qed.

Lemma last_zero : forall n, nth (length (repeat 0 (n + 1)) - 1) (repeat 0 (n + 1)) 1 = 0.
Proof. intro n. rewrite (nth_indep _ 1 0) by (rewrite repeat_length; lia). apply nth_repeat. Qed.

(** ** Splitting *)

Lemma scan_literal : forall d s, literal d s -> d = 34 \/ d = 39 -> forall b rest,
  scan (s ++ d :: rest) b d false = (s ++ d :: fst (scan rest b 0 false), snd (scan rest b 0 false)).
Proof.
  intros d s H Hd. assert (E0 : (d =? 0) = false) by (apply Z.eqb_neq; lia).
  assert (EB : (d =? BSLASH) = false) by (apply Z.eqb_neq; unfold BSLASH; lia).
  induction H as [|c s Hc Ncd Ncb Hs IH|c s Hc Hs IH]; intros b rest; cbn [app scan]; rewrite E0; cbn [andb].
  - rewrite EB, Z.eqb_refl. destruct (scan rest b 0 false) as [w r]. reflexivity.
  - destruct (Z.eqb_spec c BSLASH) as [E|_]; [unfold BSLASH in E; congruence|]. destruct (Z.eqb_spec c d); [congruence|].
    rewrite IH. reflexivity.
  - change (92 =? BSLASH) with true. cbv iota. cbn [app scan]. rewrite E0. cbn [andb]. rewrite IH. reflexivity.
Qed.

Lemma peek_app : forall s c r, Forall (fun x => x <> 0) s -> c <> 0 -> peek (s ++ c :: r) <> 0.
Proof. intros s c r H Hc. destruct s; cbn; [exact Hc|]. inversion H; assumption. Qed.

Lemma balanced_nonzero : forall m s, balanced m s -> Forall (fun x => x <> 0) s.
Proof.
  assert (L : forall d s, literal d s -> Forall (fun x => x <> 0) s).
  { induction 1; repeat constructor; try assumption; unfold ascii7 in *; lia. }
  induction 1 as [|b c s Hc Hn Hs IH|s Hs IH|b o c s t Ho Hs IHs Ht IHt|b d s t Hd Hl Ht IH].
  - constructor.
  - constructor; [unfold ascii7 in Hc; lia|exact IH].
  - constructor; [lia|exact IH].
  - cbn in Ho. constructor; [destruct Ho as [E|[E|[E|[]]]]; injection E; lia|]. apply Forall_app. split; [exact IHs|].
    constructor; [destruct Ho as [E|[E|[E|[]]]]; injection E; lia|exact IHt].
  - constructor; [lia|]. apply Forall_app. split; [exact (L d s Hl)|]. constructor; [lia|exact IH].
Qed.

(** Balanced text is copied whole, and leaves the state as it was. *)
Lemma scan_balanced : forall m s, balanced m s -> forall b rest, 0 <= b -> (m = true -> 0 < b /\ (peek rest <> 0 \/ not_comma_end s)) ->
  scan (s ++ rest) b 0 false = (s ++ fst (scan rest b 0 false), snd (scan rest b 0 false)).
Proof.
  induction 1 as [m|m c s Hc Hn Hs IH|s Hs IH|m o c s t Ho Hs IHs Ht IHt|m d s t Hd Hl Ht IH]; intros b rest Hb Hm.
  - cbn [app]. destruct (scan rest b 0 false); reflexivity.
  - cbn [app scan]. cbn [In] in Hn.
    assert (E : forall k, In k [34; 39; 40; 41; 91; 93; 123; 125; 44] -> (c =? k) = false).
    { intros k Hk. apply Z.eqb_neq. intros ->. apply Hn. exact Hk. }
    cbn [In] in E. unfold COMMA, QUOTE, APOS, is_open, is_close. rewrite !E by tauto. cbn [andb orb Z.eqb].
    rewrite IH; [reflexivity|exact Hb|]. intro M. destruct (Hm M) as [B [P|P]]; (split; [exact B|]); [left; exact P|right].
    intros r ->. exact (P (c :: r) eq_refl).
  - cbn [app scan]. destruct (Hm eq_refl) as [Hb1 Hp]. change (0 =? 0) with true. change (44 =? COMMA) with true. cbn [andb].
    destruct (Z.eqb_spec b 0); [lia|]. cbn [orb].
    assert (P : peek (s ++ rest) <> 0).
    { destruct s as [|x s]; [destruct Hp as [Hp|Hp]; [exact Hp|exfalso; exact (Hp [] eq_refl)]|]. cbn. apply balanced_nonzero in Hs. inversion Hs; assumption. }
    destruct (Z.eqb_spec (peek (s ++ rest)) 0); [lia|]. change ((44 =? QUOTE) || (44 =? APOS)) with false.
    change (is_open 44) with false. change (is_close 44) with false. cbv iota. rewrite IH; [reflexivity|exact Hb|].
    intros _. split; [exact Hb1|]. destruct Hp as [Hp|Hp]; [left; exact Hp|right]. intros r ->. exact (Hp (44 :: r) eq_refl).
  - assert (O : is_open o = true /\ is_close c = true /\ (o =? COMMA) = false /\ (o =? QUOTE) || (o =? APOS) = false /\ (c =? COMMA) = false /\ (c =? QUOTE) || (c =? APOS) = false /\ is_open c = false /\ c <> 0).
    { cbn [In] in Ho. destruct Ho as [E|[E|[E|[]]]]; injection E as <- <-; repeat split; lia. }
    destruct O as (O1 & O2 & O3 & O4 & O5 & O6 & O7 & O8).
    cbn [app scan]. rewrite O3, O4, O1. change (0 =? 0) with true. cbn [andb].
    rewrite <- app_assoc. cbn [app]. rewrite IHs; [|lia|intros _; cbn [peek]; split; [lia|left; exact O8]].
    cbn [scan]. rewrite O5, O6, O7, O2. change (0 =? 0) with true. cbn [andb]. replace (b + 1 - 1) with b by lia.
    rewrite IHt; [cbn [fst snd]; rewrite <- app_assoc; reflexivity|exact Hb|].
    intro M. destruct (Hm M) as [B [P|P]]; (split; [exact B|]); [left; exact P|right].
    intros r ->. apply (P (o :: s ++ c :: r)). cbn [app]. rewrite <- app_assoc. reflexivity.
  - cbn [app scan]. assert (D1 : (d =? COMMA) = false) by (apply Z.eqb_neq; unfold COMMA; lia).
    assert (D2 : (d =? QUOTE) || (d =? APOS) = true) by (unfold QUOTE, APOS; lia).
    rewrite D1, D2. change (0 =? 0) with true. cbn [andb]. rewrite <- app_assoc. cbn [app].
    rewrite scan_literal by assumption. rewrite IH; [cbn [fst snd]; rewrite <- app_assoc; reflexivity|exact Hb|].
    intro M. destruct (Hm M) as [B [P|P]]; (split; [exact B|]); [left; exact P|right].
    intros r ->. apply (P (d :: s ++ d :: r)). cbn [app]. rewrite <- app_assoc. reflexivity.
Qed.

Lemma scan_blanks : forall a b rest, Forall blank a -> scan (a ++ rest) b 0 false = (a ++ fst (scan rest b 0 false), snd (scan rest b 0 false)).
Proof.
  induction a as [|c a IH]; intros b rest H; [cbn; destruct (scan rest b 0 false); reflexivity|].
  inversion H as [|c' a' Hc Ha]; subst. unfold blank in Hc. cbn [app scan].
  assert (E : forall k, 33 <= k -> (c =? k) = false) by (intros; apply Z.eqb_neq; lia).
  unfold COMMA, QUOTE, APOS, is_open, is_close. rewrite !E by lia. cbn [andb orb Z.eqb]. rewrite IH by assumption. reflexivity.
Qed.

Lemma skip_blanks : forall a s, Forall blank a -> (forall c r, s = c :: r -> ~ blank c) -> Forall ascii7 s -> skip_spaces (a ++ s) = s.
Proof.
  induction a as [|c a IH]; intros s H Hs H7.
  - cbn [app]. destruct s as [|c s]; [reflexivity|]. cbn [skip_spaces]. specialize (Hs c s eq_refl). inversion H7; subst. unfold blank, ascii7, SPACE in *.
    destruct (Z.leb_spec c 32); [lia|]. reflexivity.
  - inversion H as [|c' a' Hc Ha]; subst. cbn [app skip_spaces]. unfold blank, SPACE in *. destruct (Z.leb_spec c 32); [|lia]. destruct (Z.eqb_spec c 0); [lia|].
    cbn [andb negb]. apply IH; assumption.
Qed.

Lemma trim_of_blanks : forall b i t, Forall blank b -> trim_of b i t = t.
Proof.
  induction b as [|c b IH]; intros i t H; [reflexivity|]. inversion H as [|c' b' Hc Hb]; subst. cbn [trim_of]. unfold blank, SPACE in *.
  destruct (Z.ltb_spec 32 c); [lia|]. apply IH. exact Hb.
Qed.
Lemma trim_of_app : forall w v i t, trim_of (w ++ v) i t = trim_of v (i + length w) (trim_of w i t).
Proof.
  induction w as [|c w IH]; intros v i t; cbn [app trim_of length]; [rewrite Nat.add_0_r; reflexivity|].
  rewrite IH. rewrite Nat.add_succ_r. reflexivity.
Qed.

Lemma trim_of_item : forall e b i, trimmed e -> Forall ascii7 e -> Forall blank b -> trim_of (e ++ b) i i = (i + length e)%nat.
Proof.
  intros e b i (He & _ & Hl) H7 Hb. rewrite trim_of_app, trim_of_blanks by exact Hb.
  destruct (exists_last He) as (r & c & ->). specialize (Hl c r eq_refl). apply Forall_app in H7. destruct H7 as [_ H7]. inversion H7; subst.
  rewrite trim_of_app. cbn [trim_of]. unfold blank, ascii7, SPACE in *. destruct (Z.ltb_spec 32 c); [|lia]. rewrite app_length. cbn. lia.
Qed.

Lemma balanced_ascii : forall m s, balanced m s -> Forall ascii7 s.
Proof.
  assert (L : forall d s, literal d s -> Forall ascii7 s).
  { induction 1; repeat constructor; try assumption; unfold ascii7 in *; lia. }
  induction 1 as [|b c s Hc Hn Hs IH|s Hs IH|b o c s t Ho Hs IHs Ht IHt|b d s t Hd Hl Ht IH].
  - constructor.
  - constructor; assumption.
  - constructor; [unfold ascii7; lia|exact IH].
  - cbn in Ho. assert (A : ascii7 o /\ ascii7 c) by (unfold ascii7; destruct Ho as [E|[E|[E|[]]]]; injection E; lia).
    constructor; [tauto|]. apply Forall_app. split; [exact IHs|]. constructor; [tauto|exact IHt].
  - constructor; [unfold ascii7; lia|]. apply Forall_app. split; [exact (L d s Hl)|]. constructor; [unfold ascii7; lia|exact IH].
Qed.

Lemma blank_ascii : forall a, Forall blank a -> Forall ascii7 a.
Proof. intros a H. eapply Forall_impl; [|exact H]. unfold blank, ascii7. intros. lia. Qed.

Lemma item_step : forall e a b, trimmed e -> Forall ascii7 e -> Forall blank a -> Forall blank b -> forall rest, (exists r, rest = 44 :: r) \/ rest = [] ->
  skip_spaces (a ++ e ++ b ++ rest) = e ++ b ++ rest.
Proof.
  intros e a b (He & Hf & Hl) H7 Ha Hb rest Hr. revert Ha. clear - He Hf H7. destruct e as [|c e]; [tauto|].
  specialize (Hf c e eq_refl). inversion H7 as [|c' e' Hc He']; subst. induction a as [|x a IH]; intro Ha.
  - cbn [app skip_spaces]. unfold blank, ascii7, SPACE in *. destruct (Z.leb_spec c 32); [lia|]. reflexivity.
  - inversion Ha as [|x' a' Hx Ha']; subst. cbn [app skip_spaces] in *. unfold blank, SPACE in *. destruct (Z.leb_spec x 32); [|lia]. destruct (Z.eqb_spec x 0); [lia|].
    cbn [andb negb]. apply IH. exact Ha'.
Qed.

Lemma firstn_keep : forall (t t' : list Z) i j, (i <= j)%nat -> firstn j t = firstn j t' -> firstn i t = firstn i t'.
Proof.
  intros t t' i j H E. assert (Q : forall l : list Z, firstn i l = firstn i (firstn j l)) by (intro l; rewrite firstn_firstn; f_equal; lia).
  rewrite (Q t), (Q t'), E. reflexivity.
Qed.

Lemma names_split : forall es ts text i, arguments es -> Forall2 padded es ts -> (i + length (joined ts) < length text)%nat ->
  exists text' starts, names_loop (length es) (joined ts) text i = Ok (text', starts) /\ firstn i text' = firstn i text /\
    map (name_at text') starts = map Some es.
Proof.
  induction es as [|e es IH]; intros ts text i HA HP HL; [destruct HA|].
  inversion HP as [|e' t es' ts' (a & b & Et & Ha & Hb) HP' E1 E2]; subst e' es' ts.
  assert (HA' : trimmed e /\ balanced (match es with [] => true | _ => false end) e /\ (es = [] -> not_comma_end e) /\ (es <> [] -> arguments es)).
  { destruct es; cbn in HA; [split; [tauto|]; split; [tauto|]; split; [tauto|congruence]|split; [tauto|]; split; [tauto|]; split; [congruence|tauto]]. }
  destruct HA' as (Htr & Hbal & Hend & Hrest). clear HA.
  assert (H7 : Forall ascii7 e) by (eapply balanced_ascii; exact Hbal).
  set (rest := match ts' with [] => [] | _ => 44 :: joined ts' end).
  assert (EJ : joined (t :: ts') = a ++ e ++ b ++ rest).
  { rewrite Et. unfold rest. destruct ts'; cbn [joined]; [rewrite app_nil_r; reflexivity|]. rewrite <- !app_assoc. reflexivity. }
  rewrite EJ in HL |- *. cbn [length names_loop].
  rewrite (item_step e a b Htr H7 Ha Hb rest) by (unfold rest; destruct ts'; [right; reflexivity|left; eexists; reflexivity]).
  rewrite !app_length in HL.
  rewrite copy_scan by (rewrite !app_length; lia).
  assert (SC : scan (e ++ b ++ rest) (if Nat.eqb (length es) 0 then 1 else 0) 0 false = (e ++ b, rest)).
  { rewrite (scan_balanced _ e Hbal).
    - rewrite scan_blanks by exact Hb. unfold rest. destruct ts' as [|t' ts'].
      + cbn. rewrite app_nil_r. reflexivity.
      + destruct es; [inversion HP'|]. cbn [length Nat.eqb scan fst snd]. change ((0 =? 0) && ((44 =? COMMA) && ((0 =? 0) || (peek (joined (t' :: ts')) =? 0)))) with true.
        cbn [fst snd]. rewrite app_nil_r. reflexivity.
    - destruct (Nat.eqb (length es) 0); lia.
    - destruct es; [|discriminate]. intros _. cbn. split; [lia|right; apply Hend; reflexivity]. }
  rewrite SC. cbn [bind]. rewrite (trim_of_item e b i Htr H7 Hb).
  assert (Lw : length (write text i (e ++ b)) = length text) by (apply length_write; rewrite app_length; lia).
  rewrite set_write by lia. cbn [bind].
  set (text2 := write (write text i (e ++ b)) (i + length e) [0]).
  assert (L2 : length text2 = length text) by (unfold text2; rewrite length_write; [exact Lw|cbn [length]; lia]).
  assert (F2 : firstn (i + length e + 1) text2 = firstn i text ++ e ++ [0]).
  { unfold text2. assert (K := firstn_write_all (write text i (e ++ b)) (i + length e) [0] ltac:(lia)). cbn [length] in K. rewrite K.
    rewrite app_assoc. f_equal. assert (K2 := firstn_write_all text i (e ++ b) ltac:(lia)).
    assert (Q : forall (l : list Z) m n, (m <= n)%nat -> firstn m l = firstn m (firstn n l)) by (intros; rewrite firstn_firstn; f_equal; lia).
    rewrite (Q _ _ (i + length (e ++ b))%nat) by (rewrite app_length; lia). rewrite K2. rewrite app_assoc. rewrite firstn_app.
    rewrite app_length, firstn_length. replace (i + length e - (Nat.min i (length text) + length e))%nat with 0%nat by lia.
    cbn [firstn]. rewrite app_nil_r. apply firstn_all2. rewrite app_length, firstn_length. lia. }
  assert (Nz : forall c, In c e -> c <> 0) by (intros c Hc; apply (proj1 (Forall_forall _ _) H7) in Hc; unfold ascii7 in Hc; lia).
  assert (PL : length (firstn i text) = i) by (rewrite firstn_length; lia).
  assert (Fi : forall t0, firstn (i + length e + 1) t0 = firstn i text ++ e ++ [0] -> firstn i t0 = firstn i text).
  { intros t0 E. assert (Q : firstn i t0 = firstn i (firstn (i + length e + 1) t0)) by (rewrite firstn_firstn; f_equal; lia).
    rewrite Q, E. rewrite firstn_app, PL, Nat.sub_diag. cbn [firstn]. rewrite app_nil_r. rewrite firstn_firstn. f_equal. lia. }
  destruct ts' as [|t' ts'].
  - inversion HP'; subst es. cbn [length names_loop bind]. exists text2, [i]. split; [reflexivity|]. split; [apply Fi; exact F2|].
    cbn [map]. rewrite (name_at_prefix text2 (firstn i text) e i PL F2 Nz). reflexivity.
  - destruct es as [|e2 es]; [inversion HP'|]. unfold rest in HL |- *. cbn [length] in HL.
    destruct (IH (t' :: ts') text2 (S (i + length e)) (Hrest ltac:(discriminate)) HP') as (text' & starts & E & F & N); [lia|].
    rewrite E. cbn [bind]. exists text', (i :: starts). split; [reflexivity|].
    assert (F' : firstn (i + length e + 1) text' = firstn i text ++ e ++ [0]).
    { rewrite <- F2. replace (i + length e + 1)%nat with (S (i + length e)) by lia. exact F. }
    split; [apply Fi; exact F'|]. cbn [map]. rewrite N. rewrite (name_at_prefix text' (firstn i text) e i PL F' Nz). reflexivity.
Qed.

(** ** names_t *)

Definition blankish (c : Z) : bool := negb (c =? 0) && (c <=? SPACE).
Definition wordish (c : Z) : bool := (SPACE <? c) && negb (c =? COMMA).

Lemma get_at : forall {A} (p : list A) c r, get (p ++ c :: r) (length p) = Ok c.
Proof. intros. unfold get. rewrite nth_error_app2 by lia. rewrite Nat.sub_diag. reflexivity. Qed.

Lemma nt_spaces_ok : forall a fuel p c r, Forall (fun x => blankish x = true) a -> blankish c = false -> (length a < fuel)%nat ->
  nt_spaces fuel (p ++ a ++ c :: r) (length p) = Ok (length p + length a)%nat.
Proof.
  induction a as [|x a IH]; intros fuel p c r Ha Hc Hf; (destruct fuel as [|fuel]; [lia|]); cbn [nt_spaces app].
  - rewrite get_at. cbn [bind]. unfold blankish in Hc. rewrite Hc. rewrite Nat.add_0_r. reflexivity.
  - inversion Ha as [|x' a' Hx Ha']; subst. rewrite get_at. cbn [bind]. unfold blankish in Hx. rewrite Hx.
    replace (p ++ x :: a ++ c :: r) with ((p ++ [x]) ++ a ++ c :: r) by (rewrite <- app_assoc; reflexivity).
    replace (S (length p)) with (length (p ++ [x])) by (rewrite app_length; cbn; lia).
    rewrite IH by (try assumption; cbn in Hf; lia). rewrite app_length. cbn [length]. f_equal. lia.
Qed.

Lemma nt_copy_ok : forall w fuel p c r text j, Forall (fun x => wordish x = true) w -> wordish c = false -> (length w < fuel)%nat ->
  (j + length w <= length text)%nat ->
  nt_copy fuel (p ++ w ++ c :: r) text j (length p) = Ok (write text j w, (j + length w)%nat, (length p + length w)%nat).
Proof.
  induction w as [|x w IH]; intros fuel p c r text j Hw Hc Hf Hj; (destruct fuel as [|fuel]; [lia|]); cbn [nt_copy app].
  - rewrite get_at. cbn [bind]. unfold wordish in Hc. rewrite Hc. rewrite write_nil, !Nat.add_0_r. reflexivity.
  - inversion Hw as [|x' w' Hx Hw']; subst. rewrite get_at. cbn [bind]. unfold wordish in Hx. rewrite Hx. cbn [length] in *.
    rewrite set_write by lia. cbn [bind].
    replace (p ++ x :: w ++ c :: r) with ((p ++ [x]) ++ w ++ c :: r) by (rewrite <- app_assoc; reflexivity).
    replace (S (length p)) with (length (p ++ [x])) by (rewrite app_length; cbn; lia).
    rewrite IH by (rewrite ?length_write; try assumption; cbn [length]; lia).
    rewrite write_write by lia. rewrite app_length. cbn [length]. replace (S j + length w)%nat with (j + S (length w))%nat by lia.
    replace (length p + 1 + length w)%nat with (length p + S (length w))%nat by lia. reflexivity.
Qed.

(** What each turn of the loop takes from the source. *)
Inductive cuts : nat -> list Z -> list (list Z) -> Prop :=
  | cuts_0 : forall r, cuts 0 r []
  | cuts_end : forall n a w ws, Forall (fun x => blankish x = true) a -> Forall (fun x => wordish x = true) w -> cuts n [] ws ->
      cuts (S n) (a ++ w) (w :: ws)
  | cuts_comma : forall n a w r ws, Forall (fun x => blankish x = true) a -> Forall (fun x => wordish x = true) w -> cuts n r ws ->
      cuts (S n) (a ++ w ++ 44 :: r) (w :: ws)
  | cuts_blank : forall n a w c r ws, Forall (fun x => blankish x = true) a -> Forall (fun x => wordish x = true) w -> w <> [] ->
      blankish c = true -> cuts n (c :: r) ws -> cuts (S n) (a ++ w ++ c :: r) (w :: ws).

Lemma span_of : forall (f : Z -> bool) s, exists a b, s = a ++ b /\ Forall (fun x => f x = true) a /\ (b = [] \/ exists c r, b = c :: r /\ f c = false).
Proof.
  intros f. induction s as [|c s (a & b & E & Ha & Hb)]; [exists [], []; repeat split; [constructor|left; reflexivity]|].
  destruct (f c) eqn:Ec.
  - exists (c :: a), b. rewrite E. repeat split; [constructor; assumption|exact Hb].
  - exists [], (c :: s). repeat split; [constructor|]. right. eexists _, _. split; [reflexivity|exact Ec].
Qed.

Lemma cuts_exist : forall n r, Forall (fun c => c <> 0) r -> exists ws, cuts n r ws.
Proof.
  induction n as [|n IH]; intros r Hr; [exists []; constructor|].
  destruct (span_of blankish r) as (a & b & -> & Ha & Hb). destruct (span_of wordish b) as (w & d & -> & Hw & Hd).
  apply Forall_app in Hr. destruct Hr as [_ Hr]. apply Forall_app in Hr. destruct Hr as [_ Hr].
  destruct Hd as [->|(c & r & -> & Hc)].
  - rewrite app_nil_r. destruct (IH [] (Forall_nil _)) as [ws Hws]. exists (w :: ws). constructor; assumption.
  - inversion Hr as [|c' r' Nc Hr']; subst. destruct (Z.eqb_spec c 44) as [->|N44].
    + destruct (IH r Hr') as [ws Hws]. exists (w :: ws). apply cuts_comma; assumption.
    + assert (B : blankish c = true).
      { unfold wordish, COMMA in Hc. unfold blankish. destruct (Z.eqb_spec c 44); [lia|]. destruct (Z.eqb_spec c 0); [lia|]. cbn [negb] in *.
        rewrite andb_true_r in Hc. cbn [andb]. apply Z.ltb_ge in Hc. apply Z.leb_le. exact Hc. }
      destruct (IH (c :: r) Hr) as [ws Hws]. exists (w :: ws). apply cuts_blank; try assumption.
      intros ->. cbn [app] in Hb. destruct Hb as [Hb|(c2 & r2 & E & F)]; [discriminate|]. injection E as <- <-. congruence.
Qed.

Definition commas (r : list Z) : nat := count_occ Z.eq_dec r 44.
Lemma commas_app : forall a b, commas (a ++ b) = (commas a + commas b)%nat.
Proof. intros. unfold commas. apply count_occ_app. Qed.
Lemma commas_none : forall f a, Forall (fun x => f x = true) a -> f 44 = false -> commas a = 0%nat.
Proof.
  intros f a H H44. unfold commas. apply count_occ_not_In. intro K. apply (proj1 (Forall_forall _ _) H) in K. congruence.
Qed.
Definition lead (r : list Z) : nat := match r with c :: _ => if blankish c then 1 else 0 | [] => 0 end.

Lemma nt_loop_ok : forall n r ws, cuts n r ws -> forall p text j,
  Forall (fun c => c <> 0) r -> length text = (length p + length r + 1)%nat -> (n <= commas r + 1)%nat -> (n = 0 \/ j <= length p + lead r)%nat ->
  (j <= length text)%nat ->
  exists text' j' starts, nt_loop n (p ++ r ++ [0]) text j (length p) = Ok (text', j', starts) /\ length text' = length text /\
    firstn j text' = firstn j text /\ (j <= j' <= length text)%nat /\
    (forall t, firstn j' t = firstn j' text' -> map (name_at t) starts = map Some ws).
Proof.
  assert (STEP : forall n a w c r ws (p text : list Z) (j : nat) k3,
    Forall (fun x => blankish x = true) a -> Forall (fun x => wordish x = true) w ->
    (w <> [] \/ blankish c = false) -> wordish c = false ->
    (j + length w < length text)%nat ->
    k3 = (if c =? COMMA then S (length p + length a + length w)%nat else (length p + length a + length w)%nat) ->
    (forall text2, length text2 = length text -> exists text' j' starts,
      nt_loop n (p ++ a ++ w ++ c :: r) text2 (S (j + length w)) k3 = Ok (text', j', starts) /\ length text' = length text2 /\
      firstn (S (j + length w)) text' = firstn (S (j + length w)) text2 /\ (S (j + length w) <= j' <= length text)%nat /\
      (forall t, firstn j' t = firstn j' text' -> map (name_at t) starts = map Some ws)) ->
    exists text' j' starts, nt_loop (S n) (p ++ a ++ w ++ c :: r) text j (length p) = Ok (text', j', starts) /\ length text' = length text /\
      firstn j text' = firstn j text /\ (j <= j' <= length text)%nat /\
      (forall t, firstn j' t = firstn j' text' -> map (name_at t) starts = map Some (w :: ws))).
  { intros n a w c r ws p text j k3 Ha Hw Hfc Hc Hj Hk IH. cbn [nt_loop].
    set (fuel := S (length (p ++ a ++ w ++ c :: r))).
    assert (Hfuel : (length a + length w + 1 < fuel)%nat) by (unfold fuel; rewrite !app_length; cbn [length]; lia). clearbody fuel.
    assert (SP : nt_spaces fuel (p ++ a ++ w ++ c :: r) (length p) = Ok (length p + length a)%nat).
    { destruct w as [|x w].
      - cbn [app]. apply nt_spaces_ok; [exact Ha|destruct Hfc; [congruence|assumption]|lia].
      - cbn [app]. apply nt_spaces_ok; [exact Ha| |lia]. inversion Hw as [|x' w' Hx _]; subst. unfold wordish in Hx. unfold blankish.
        apply andb_prop in Hx. destruct Hx as [Hx _]. apply Z.ltb_lt in Hx. destruct (Z.leb_spec x SPACE); [lia|]. apply andb_false_r. }
    rewrite SP. cbn [bind].
    assert (CP := nt_copy_ok w fuel (p ++ a) c r text j Hw Hc ltac:(lia) ltac:(lia)).
    rewrite app_length in CP. rewrite <- app_assoc in CP. rewrite CP. cbn [bind].
    assert (GT : get (p ++ a ++ w ++ c :: r) (length p + length a + length w) = Ok c).
    { assert (G := get_at (p ++ a ++ w) c r). rewrite !app_length in G. rewrite <- !app_assoc in G. rewrite Nat.add_assoc in G. exact G. }
    rewrite GT. cbn [bind].
    assert (Lw : length (write text j w) = length text) by (apply length_write; lia).
    rewrite set_write by lia. cbn [bind]. set (text2 := write (write text j w) (j + length w) [0]).
    assert (L2 : length text2 = length text) by (unfold text2; rewrite length_write; [exact Lw|cbn [length]; lia]).
    destruct (IH text2 L2) as (text' & j' & starts & E & L & F & B & N). rewrite <- Hk, E. cbn [bind].
    exists text', j', (j :: starts). split; [reflexivity|]. split; [congruence|].
    assert (F2 : firstn (j + length w + 1) text2 = firstn j text ++ w ++ [0]).
    { unfold text2. assert (K := firstn_write_all (write text j w) (j + length w) [0] ltac:(lia)). cbn [length] in K. rewrite K.
      rewrite firstn_write_all by lia. rewrite <- app_assoc. reflexivity. }
    assert (PL : length (firstn j text) = j) by (rewrite firstn_length; lia).
    assert (F3 : firstn (j + length w + 1) text' = firstn j text ++ w ++ [0]) by (rewrite <- F2; replace (j + length w + 1)%nat with (S (j + length w)) by lia; exact F).
    assert (Nz : forall x, In x w -> x <> 0).
    { intros x Hx. apply (proj1 (Forall_forall _ _) Hw) in Hx. unfold wordish, SPACE in Hx. apply andb_prop in Hx. destruct Hx as [Hx _]. apply Z.ltb_lt in Hx. lia. }
    split.
    { assert (Q : firstn j text' = firstn j (firstn (j + length w + 1) text')) by (rewrite firstn_firstn; f_equal; lia).
      rewrite Q, F3. rewrite firstn_app, PL, Nat.sub_diag. cbn [firstn]. rewrite app_nil_r. rewrite firstn_firstn. f_equal. lia. }
    split; [lia|]. intros t Ht. cbn [map]. rewrite (N t Ht). f_equal.
    apply (name_at_prefix t (firstn j text) w j PL); [|exact Nz]. rewrite <- F3.
    eapply firstn_keep; [|exact Ht]. lia. }
  induction 1 as [r|n a w ws Ha Hw Hc IH|n a w r ws Ha Hw Hc IH|n a w c r ws Ha Hw Hne Hb Hc IH]; intros p text j Hr HL Hn Hj Hj2.
  - exists text, j, []. cbn [nt_loop]. repeat split; try lia.
  - destruct Hj as [Hj|Hj]; [lia|].
    assert (C0 : commas (a ++ w) = 0%nat) by (rewrite commas_app, (commas_none blankish a Ha eq_refl), (commas_none wordish w Hw eq_refl); reflexivity).
    assert (n = 0%nat) by lia. subst n. rewrite app_length in HL.
    assert (LD : (lead (a ++ w) <= length a)%nat).
    { destruct a as [|x a]; cbn [app lead length]; [|destruct (blankish x); lia]. destruct w as [|x w]; [cbn; lia|]. cbn [lead]. inversion Hw as [|x' w' Hx _]; subst.
      unfold wordish in Hx. apply andb_prop in Hx. destruct Hx as [Hx _]. apply Z.ltb_lt in Hx. unfold blankish. destruct (Z.leb_spec x SPACE); [lia|]. rewrite andb_false_r. lia. }
    rewrite <- app_assoc. inversion Hc; subst. apply (STEP 0%nat a w 0 [] [] p text j _ Ha Hw (or_intror eq_refl) eq_refl ltac:(lia) eq_refl).
    intros text2 HL2. exists text2, (S (j + length w)), []. cbn [nt_loop]. repeat split; lia.
  - destruct Hj as [Hj|Hj]; [lia|]. rewrite <- !app_assoc. cbn [app]. rewrite !app_length in HL. cbn [length] in HL.
    assert (C0 : commas (a ++ w ++ 44 :: r) = S (commas r)).
    { rewrite !commas_app, (commas_none blankish a Ha eq_refl), (commas_none wordish w Hw eq_refl). reflexivity. }
    assert (LD : (lead (a ++ w ++ 44%Z :: r) <= length a)%nat).
    { destruct a as [|x a]; cbn [app lead length]; [|destruct (blankish x); lia]. destruct w as [|x w]; [cbn; lia|]. cbn [app lead]. inversion Hw as [|x' w' Hx _]; subst.
      unfold wordish in Hx. apply andb_prop in Hx. destruct Hx as [Hx _]. apply Z.ltb_lt in Hx. unfold blankish. destruct (Z.leb_spec x SPACE); [lia|]. rewrite andb_false_r. lia. }
    apply (STEP n a w 44 (r ++ [0]) ws p text j _ Ha Hw (or_intror eq_refl) eq_refl ltac:(lia) eq_refl).
    intros text2 HL2. change (44 =? COMMA) with true. cbv iota.
    destruct (IH (p ++ a ++ w ++ [44]) text2 (S (j + length w))) as (text' & j' & starts & E & L & F & B & N).
    + apply Forall_app in Hr. destruct Hr as [_ Hr]. apply Forall_app in Hr. destruct Hr as [_ Hr]. inversion Hr; assumption.
    + rewrite !app_length. cbn [length]. lia.
    + lia.
    + right. rewrite !app_length. cbn [length]. lia.
    + lia.
    + rewrite !app_length in E. rewrite <- !app_assoc in E. cbn [app length] in E.
      replace (length p + (length a + (length w + 1)))%nat with (S (length p + length a + length w)) in E by lia.
      exists text', j', starts. repeat split; try assumption; lia.
  - destruct Hj as [Hj|Hj]; [lia|]. rewrite <- !app_assoc. cbn [app]. rewrite !app_length in HL. cbn [length] in HL.
    assert (Nc : c <> 44) by (intros ->; discriminate Hb).
    assert (C0 : commas (a ++ w ++ c :: r) = commas (c :: r)).
    { rewrite !commas_app, (commas_none blankish a Ha eq_refl), (commas_none wordish w Hw eq_refl). reflexivity. }
    assert (LD : (lead (a ++ w ++ c :: r) <= length a)%nat).
    { destruct a as [|x a]; cbn [app lead length]; [|destruct (blankish x); lia]. destruct w as [|x w]; [congruence|]. cbn [app lead]. inversion Hw as [|x' w' Hx _]; subst.
      unfold wordish in Hx. apply andb_prop in Hx. destruct Hx as [Hx _]. apply Z.ltb_lt in Hx. unfold blankish. destruct (Z.leb_spec x SPACE); [lia|]. rewrite andb_false_r. lia. }
    assert (Wc : wordish c = false).
    { unfold blankish in Hb. apply andb_prop in Hb. destruct Hb as [_ Hb]. apply Z.leb_le in Hb. unfold wordish. destruct (Z.ltb_spec SPACE c); [lia|reflexivity]. }
    apply (STEP n a w c (r ++ [0]) ws p text j _ Ha Hw (or_introl Hne) Wc ltac:(lia) eq_refl).
    intros text2 HL2. unfold COMMA. destruct (Z.eqb_spec c 44); [congruence|].
    destruct (IH (p ++ a ++ w) text2 (S (j + length w))) as (text' & j' & starts & E & L & F & B & N).
    + apply Forall_app in Hr. destruct Hr as [_ Hr]. apply Forall_app in Hr. tauto.
    + rewrite !app_length. cbn [length]. lia.
    + lia.
    + right. rewrite !app_length. cbn [length lead]. rewrite Hb. lia.
    + lia.
    + rewrite !app_length in E. rewrite <- !app_assoc in E. cbn [app length] in E. rewrite Nat.add_assoc in E.
      exists text', j', starts. repeat split; try assumption; lia.
Qed.

Lemma nt_fill_ok : forall n text j, (j + n <= length text)%nat -> exists text', nt_fill n text j = Ok text' /\ length text' = length text /\ firstn j text' = firstn j text.
Proof.
  induction n as [|n IH]; intros text j H; cbn [nt_fill]; [exists text; repeat split|].
  rewrite set_write by lia. cbn [bind]. assert (L : length (write text j [0]) = length text) by (apply length_write; cbn; lia).
  destruct (IH (write text j [0]) (S j)) as (t' & E & L' & F); [lia|]. exists t'. split; [exact E|]. split; [congruence|].
  rewrite (firstn_keep t' _ j (S j) ltac:(lia) F). apply firstn_write. lia.
Qed.

Lemma names_t_cuts : forall n src ws, cuts n src ws -> Forall (fun c => c <> 0) src -> (n <= commas src + 1)%nat ->
  exists text starts, names_t n src = Ok (text, starts) /\ length text = (length src + 1)%nat /\ map (name_at text) starts = map Some ws.
Proof.
  intros n src ws HC Hz Hn. unfold names_t.
  destruct (nt_loop_ok n src ws HC [] (repeat 0 (length (src ++ [0]))) 0) as (text' & j' & starts & E & L & F & B & N);
    [exact Hz|rewrite repeat_length, app_length; cbn; lia|exact Hn|right; lia|lia|].
  cbn [app length] in E. rewrite E. cbn [bind]. rewrite repeat_length in B, L.
  destruct (nt_fill_ok (length (src ++ [0]) - j') text' j') as (t & E2 & L2 & F2); [lia|]. rewrite E2. cbn [bind].
  exists t, starts. split; [reflexivity|]. split; [rewrite L2, L, app_length; reflexivity|]. apply N. exact F2.
Qed.
