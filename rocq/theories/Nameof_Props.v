(** C47: names of enumerators and types. *)
From Coq Require Import String Ascii Lia.
From Verif Require Import Base Nameof_Model Nameof_Spec.
Local Open Scope nat_scope.

Definition map_res {A B} (f : A -> B) (r : res A) : res B := a <- r ;; Ok (f a).

Lemma at_S : forall c s i, at_ (String c s) (S i) = at_ s i.
Proof. intros. unfold at_. cbn [String.get String.length Nat.eqb]. reflexivity. Qed.
Lemma at_0 : forall c s, at_ (String c s) 0 = Ok c.
Proof. reflexivity. Qed.

Lemma same_loop_S : forall fuel c d a b i, same_loop fuel (String c a) (String d b) (S i) = map_res S (same_loop fuel a b i).
Proof.
  induction fuel as [|fuel IH]; intros c d a b i; cbn [same_loop]; [reflexivity|]. rewrite !at_S.
  destruct (at_ a i) as [ca| |]; [|reflexivity|reflexivity]. cbn [bind map_res].
  destruct (at_ b i) as [cb| |]; [|reflexivity|reflexivity]. cbn [bind map_res].
  destruct (negb (Ascii.eqb ca cb) || Ascii.eqb ca zero); [reflexivity|]. apply IH.
Qed.

Lemma skip_loop_S : forall fuel what c s n,
  skip_loop fuel what (String c s) (S n) = (k <- skip_loop fuel what s n ;; Ok (if Nat.eqb k 0 then 0 else S k)).
Proof.
  induction fuel as [|fuel IH]; intros what c s n; cbn [skip_loop]; [reflexivity|]. rewrite !at_S.
  destruct (at_ s n) as [ca| |]; [|reflexivity|reflexivity]. cbn [bind].
  destruct (Ascii.eqb ca zero); [reflexivity|]. destruct (Ascii.eqb ca what).
  - destruct (at_ s (S n)) as [cb| |]; [|reflexivity|reflexivity]. cbn [bind]. destruct (negb (Ascii.eqb cb what)); [reflexivity|]. apply IH.
  - apply IH.
Qed.

Lemma no_nul_cons : forall c s, no_nul (String c s) -> c <> zero /\ no_nul s.
Proof. intros c s H. unfold no_nul in *. cbn in H. tauto. Qed.

Lemma same_loop_app : forall p fuel a b, no_nul p ->
  same_loop (String.length p + fuel) (p ++ a) (p ++ b) 0 = map_res (Nat.add (String.length p)) (same_loop fuel a b 0).
Proof.
  induction p as [|c p IH]; intros fuel a b H.
  - cbn [String.length Nat.add String.append]. unfold map_res. destruct (same_loop fuel a b 0); reflexivity.
  - apply no_nul_cons in H. destruct H as [Hc Hp]. cbn [String.length Nat.add String.append same_loop]. rewrite !at_0. cbn [bind].
    rewrite Ascii.eqb_refl. cbn [negb orb]. destruct (Ascii.eqb_spec c zero); [tauto|].
    rewrite same_loop_S, IH by exact Hp. unfold map_res. destruct (same_loop fuel a b 0); reflexivity.
Qed.

Lemma length_app : forall a b, String.length (a ++ b) = String.length a + String.length b.
Proof. induction a as [|c a IH]; intros; cbn; [reflexivity|rewrite IH; reflexivity]. Qed.
Lemma app_assoc_s : forall a b c : string, ((a ++ b) ++ c)%string = (a ++ (b ++ c))%string.
Proof. induction a as [|x a IH]; intros; cbn; [reflexivity|rewrite IH; reflexivity]. Qed.

Lemma no_nul_app : forall a b, no_nul a -> no_nul b -> no_nul (a ++ b).
Proof.
  induction a as [|c a IH]; intros b Ha Hb; [exact Hb|]. apply no_nul_cons in Ha. destruct Ha as [Hc Ha].
  unfold no_nul in *. cbn [String.append list_ascii_of_string In]. specialize (IH b Ha Hb). intros [H|H]; [congruence|tauto].
Qed.
Lemma no_nul_app_inv : forall a b, no_nul (a ++ b) -> no_nul a /\ no_nul b.
Proof.
  induction a as [|c a IH]; intros b H; [split; [intro K; exact K|exact H]|]. cbn [String.append] in H.
  apply no_nul_cons in H. destruct H as [Hc H]. destruct (IH b H) as [A B]. split; [|exact B].
  unfold no_nul in *. cbn [list_ascii_of_string In]. intros [K|K]; [congruence|tauto].
Qed.

Lemma substring_0 : forall s t, substring 0 (String.length s) (s ++ t) = s.
Proof. induction s as [|c s IH]; intros t; [destruct t; reflexivity|]. cbn [String.length String.append substring]. rewrite IH. reflexivity. Qed.
Lemma substring_mid : forall p s t, substring (String.length p) (String.length s) (p ++ s ++ t) = s.
Proof. induction p as [|c p IH]; intros s t; [exact (substring_0 s t)|]. cbn [String.length String.append substring]. apply IH. Qed.

Lemma const_text_mid : forall p s t n k, n = String.length s -> k = String.length p -> const_text n (p ++ s ++ t) k = Ok s.
Proof.
  intros p s t n k -> ->. unfold const_text. rewrite !length_app.
  destruct (Nat.leb_spec (String.length p + String.length s) (String.length p + (String.length s + String.length t))); [|lia].
  rewrite substring_mid. reflexivity.
Qed.
Lemma const_text_end : forall p s n k, n = String.length s -> k = String.length p -> const_text n (p ++ s) k = Ok s.
Proof.
  intros p s n k Hn Hk. assert (H := const_text_mid p s "" n k Hn Hk).
  assert (E : forall x : string, (x ++ "")%string = x) by (induction x as [|c x IH]; cbn; [reflexivity|rewrite IH; reflexivity]).
  rewrite E in H. exact H.
Qed.

(** ** What the compiler prints *)

(** A compiler's texts have no NUL, and what follows the values does not start with '0'. *)
Definition well_printed (c : compiler) : Prop :=
  no_nul (pre c) /\ no_nul (mid c) /\ no_nul (post c) /\ forall r, post c <> ("0" ++ r)%string.

Lemma skip_item_ok : forall c, well_printed c -> skip_item c = Ok (String.length (pre c ++ "void" ++ mid c)).
Proof.
  intros c (Hp & Hm & Ho & H0). unfold skip_item, same, name_void, name.
  assert (N : no_nul (pre c ++ "void" ++ mid c)).
  { apply no_nul_app; [exact Hp|]. apply no_nul_app; [|exact Hm]. unfold no_nul. cbn. intuition discriminate. }
  set (p := (pre c ++ "void" ++ mid c)%string) in *.
  replace (pre c ++ "void" ++ mid c ++ "0" ++ post c)%string with (p ++ "0" ++ post c)%string by (unfold p; rewrite !app_assoc_s; reflexivity).
  replace (pre c ++ "void" ++ mid c ++ "" ++ post c)%string with (p ++ "" ++ post c)%string by (unfold p; rewrite !app_assoc_s; reflexivity).
  rewrite (length_app p). rewrite <- Nat.add_succ_r. rewrite same_loop_app by exact N.
  cbn [String.append String.length]. remember (String.length (post c)) as n. cbn [same_loop]. rewrite at_0. cbn [bind].
  destruct (post c) as [|o po] eqn:E.
  - cbn [String.append]. change (at_ "" 0) with (Ok zero). cbn [bind]. cbv [Ascii.eqb Bool.eqb zero negb orb map_res bind]. rewrite Nat.add_0_r. reflexivity.
  - rewrite at_0. cbn [bind]. destruct (Ascii.eqb_spec "0" o) as [Eo|No].
    + exfalso. apply (H0 po). rewrite <- Eo. reflexivity.
    + cbn [negb orb map_res bind]. rewrite Nat.add_0_r. reflexivity.
Qed.

(** The prefix is cut at the right place: name_item is what the compiler printed for the value, name_type for the type. *)
Theorem C47_item_text : forall c item, well_printed c -> name_item c item = Ok item.
Proof.
  intros c item H. unfold name_item. rewrite skip_item_ok by exact H. cbn [bind]. unfold name, name_void, name.
  replace (pre c ++ "void" ++ mid c ++ item ++ post c)%string with ((pre c ++ "void" ++ mid c) ++ item ++ post c)%string by (rewrite !app_assoc_s; reflexivity).
  apply const_text_mid; [|reflexivity]. rewrite !length_app. cbn [String.length]. lia.
Qed.
Print Assumptions C47_item_text.

Theorem C47_type_text : forall c type, well_printed c -> name_type c type = Ok type.
Proof.
  intros c type (Hp & Hm & Ho & H0). unfold name_type, skip_type, same, name_void, name.
  rewrite (length_app (pre c)). rewrite <- Nat.add_succ_r. rewrite same_loop_app by exact Hp.
  cbn [String.append String.length]. cbn [same_loop]. rewrite !at_0. cbn [bind].
  change (negb (Ascii.eqb "v" "i") || Ascii.eqb "v" zero) with true. cbn [map_res bind].
  apply const_text_mid; [|lia]. rewrite !length_app. cbn [String.length]. rewrite ?length_app. lia.
Qed.
Print Assumptions C47_type_text.

(** ** The short names *)

Lemma skip_none : forall what s fuel, no_nul s -> ~ has_char what s -> String.length s < fuel -> skip_loop fuel what s 0 = Ok 0.
Proof.
  intros what. induction s as [|c s IH]; intros fuel Hn Hc Hf; (destruct fuel as [|fuel]; [cbn in Hf; lia|]).
  - reflexivity.
  - apply no_nul_cons in Hn. destruct Hn as [Hz Hn]. cbn [skip_loop]. rewrite at_0. cbn [bind].
    destruct (Ascii.eqb_spec c zero); [tauto|]. unfold has_char in Hc. cbn in Hc. destruct (Ascii.eqb_spec c what); [tauto|].
    rewrite skip_loop_S, IH; [reflexivity|exact Hn|unfold has_char; tauto|cbn in Hf; lia].
Qed.

Lemma skip_found : forall what q s fuel, no_nul q -> ~ has_char what q -> what <> zero -> String.length q + 1 < fuel ->
  (forall r, s <> (String what r)) ->
  skip_loop fuel what (q ++ String what s) 0 = Ok (S (String.length q)).
Proof.
  intros what. induction q as [|c q IH]; intros s fuel Hn Hc Hw Hf Hs; (destruct fuel as [|fuel]; [cbn in Hf; lia|]).
  - cbn [String.append skip_loop]. rewrite at_0. cbn [bind]. destruct (Ascii.eqb_spec what zero); [tauto|]. rewrite Ascii.eqb_refl.
    rewrite at_S. destruct s as [|d s].
    + change (at_ "" 0) with (Ok zero). cbn [bind]. destruct (Ascii.eqb_spec zero what); [congruence|]. reflexivity.
    + rewrite at_0. cbn [bind]. destruct (Ascii.eqb_spec d what) as [->|]; [exfalso; exact (Hs s eq_refl)|]. reflexivity.
  - apply no_nul_cons in Hn. destruct Hn as [Hz Hn]. cbn [String.append skip_loop]. rewrite at_0. cbn [bind].
    destruct (Ascii.eqb_spec c zero); [tauto|]. unfold has_char in Hc. cbn in Hc. destruct (Ascii.eqb_spec c what); [tauto|].
    rewrite skip_loop_S, IH; [reflexivity|exact Hn|unfold has_char; tauto|exact Hw|cbn in Hf; lia|exact Hs].
Qed.

Lemma skip_colons : forall q s fuel, no_nul q -> ~ has_char ":" q -> String.length q + 2 < fuel -> (forall r, s <> (String ":" r)) ->
  skip_loop fuel ":" (q ++ "::" ++ s) 0 = Ok (2 + String.length q).
Proof.
  induction q as [|c q IH]; intros s fuel Hn Hc Hf Hs; (destruct fuel as [|fuel]; [cbn in Hf; lia|]).
  - cbn [String.append skip_loop]. rewrite at_0. cbn [bind]. change (Ascii.eqb ":" zero) with false. change (Ascii.eqb ":" ":") with true. cbv iota.
    rewrite at_S, at_0. cbn [bind]. change (negb (Ascii.eqb ":" ":")) with false. cbv iota. rewrite skip_loop_S.
    assert (K := skip_found ":" "" s fuel). cbn [String.append String.length] in K. rewrite K; [reflexivity|intro H; exact H|intro H; exact H|discriminate|cbn in Hf; lia|exact Hs].
  - apply no_nul_cons in Hn. destruct Hn as [Hz Hn]. cbn [String.append skip_loop]. rewrite at_0. cbn [bind].
    destruct (Ascii.eqb_spec c zero); [tauto|]. unfold has_char in Hc. cbn in Hc. destruct (Ascii.eqb_spec c ":"); [tauto|].
    rewrite skip_loop_S. change (String ":" (String ":" s)) with ("::" ++ s)%string. rewrite IH; [reflexivity|exact Hn|unfold has_char; tauto|cbn in Hf; lia|exact Hs].
Qed.

Lemma known_ok : forall c item, well_printed c -> item <> ""%string -> no_nul item ->
  exists b, is_known c item = Ok b /\ (b = true <-> ~ printed_as_cast item).
Proof.
  intros c item Hc He Hn. unfold is_known. rewrite C47_item_text by exact Hc. cbn [bind].
  destruct item as [|a item]; [tauto|]. rewrite at_0. cbn [bind]. eexists. split; [reflexivity|].
  unfold printed_as_cast. destruct (Ascii.eqb_spec a "(") as [->|N]; cbn [negb].
  - split; [discriminate|]. intro K. exfalso. apply K. exists item. reflexivity.
  - split; [|reflexivity]. intros _ [r E]. injection E. congruence.
Qed.

Theorem C47_short : forall c item short, well_printed c -> item <> ""%string -> no_nul item -> ~ printed_as_cast item -> unqualified item short ->
  nameof_item c item = Ok short.
Proof.
  intros c item short Hc He Hn Hk Hu. unfold nameof_item. rewrite C47_item_text by exact Hc. cbn [bind].
  destruct (known_ok c item Hc He Hn) as (b & Eb & Hb). rewrite Eb. cbn [bind]. rewrite (proj2 Hb Hk). unfold skip.
  destruct Hu as [[Hq ->]|(q & Hq & -> & Hs)].
  - rewrite skip_none by (try assumption; lia). cbn [bind]. rewrite Nat.sub_0_r. exact (const_text_end "" item _ 0 eq_refl eq_refl).
  - apply no_nul_app_inv in Hn. destruct Hn as [Hnq _]. rewrite !length_app. cbn [String.length].
    rewrite skip_colons by (try assumption; lia). cbn [bind].
    replace (q ++ "::" ++ short)%string with ((q ++ "::") ++ short)%string by (rewrite app_assoc_s; reflexivity).
    apply const_text_end; rewrite ?length_app; cbn [String.length]; lia.
Qed.
Print Assumptions C47_short.

(** A value the compiler prints as a cast is named "???". *)
Theorem C47_unknown_text : forall c item, well_printed c -> no_nul item -> printed_as_cast item -> nameof_item c item = Ok "???"%string.
Proof.
  intros c item Hc Hn Hk. assert (He : item <> ""%string) by (destruct Hk as [r ->]; discriminate).
  unfold nameof_item. rewrite C47_item_text by exact Hc. cbn [bind].
  destruct (known_ok c item Hc He Hn) as (b & Eb & Hb). rewrite Eb. cbn [bind]. destruct b; [exfalso; exact (proj1 Hb eq_refl Hk)|reflexivity].
Qed.
Print Assumptions C47_unknown_text.

(** ** nameof and as_enum *)

Section Enum.
  Context (c : compiler) (item : nat -> string) (enumerator : nat -> option string).
  Hypothesis Hc : well_printed c.
  Hypothesis Hd : forall n, n < 256 -> item n <> ""%string /\ no_nul (item n) /\
    match enumerator n with
    | Some short => ~ printed_as_cast (item n) /\ unqualified (item n) short
    | None => printed_as_cast (item n)
    end.

  Definition table (u : nat) : string := match enumerator u with Some s => s | None => "???" end.

  Lemma entry : forall l, l < 256 ->
    is_known c (item l) = Ok (match enumerator l with Some _ => true | None => false end) /\
    (forall s, enumerator l = Some s -> nameof_item c (item l) = Ok s).
  Proof.
    intros l Hl. destruct (Hd l Hl) as (He & Hn & H). destruct (known_ok c (item l) Hc He Hn) as (b & Eb & Hb). rewrite Eb.
    destruct (enumerator l) as [s|].
    - split; [rewrite (proj2 Hb (proj1 H)); reflexivity|]. intros s' E. injection E as <-. apply C47_short; tauto.
    - split; [|discriminate]. destruct b; [|reflexivity]. exfalso. exact (proj1 Hb eq_refl H).
  Qed.

  Lemma nameof_enum_ok : forall fuel l h u, l <= h <= 256 -> h - l < fuel ->
    nameof_enum c item fuel l h u = Ok (if (l <=? u) && (u <? h) then table u else "???"%string).
  Proof.
    induction fuel as [|fuel IH]; intros l h u Hlh Hf; [lia|]. cbn [nameof_enum].
    destruct (Nat.ltb_spec 64 (h - l)).
    - assert (D := Nat.div_mod (h - l) 2 ltac:(lia)). assert (B := Nat.mod_upper_bound (h - l) 2 ltac:(lia)).
      cbv zeta. set (m := (h - l) / 2) in *.
      destruct (Nat.ltb_spec u (l + m)); rewrite IH by lia; f_equal;
        repeat match goal with |- context[(?a <=? ?b)] => destruct (Nat.leb_spec a b) | |- context[(?a <? ?b)] => destruct (Nat.ltb_spec a b) end;
        cbn [andb]; try reflexivity; lia.
    - destruct (Nat.ltb_spec l h).
      + destruct (Nat.eqb_spec u l) as [->|N].
        * destruct (entry l ltac:(lia)) as [E1 E2]. rewrite E1. cbn [bind]. rewrite Nat.leb_refl. destruct (Nat.ltb_spec l h); [|lia]. cbn [andb]. unfold table.
          destruct (enumerator l) as [s|]; [exact (E2 s eq_refl)|reflexivity].
        * rewrite IH by lia. f_equal.
          repeat match goal with |- context[(?a <=? ?b)] => destruct (Nat.leb_spec a b) | |- context[(?a <? ?b)] => destruct (Nat.ltb_spec a b) end;
            cbn [andb]; try reflexivity; lia.
      + f_equal. repeat match goal with |- context[(?a <=? ?b)] => destruct (Nat.leb_spec a b) | |- context[(?a <? ?b)] => destruct (Nat.ltb_spec a b) end;
          cbn [andb]; try reflexivity; lia.
  Qed.

  Lemma same_test : forall {X} (A B : res X) t nm, no_nul t -> no_nul nm ->
    (i <- same t nm ;; if Nat.eqb i (String.length t) then e <- at_ nm (String.length t) ;; if Ascii.eqb e zero then A else B else B) =
    if String.eqb t nm then A else B.
  Proof.
    intros X A B. unfold same. induction t as [|a t IH]; intros nm Ht Hm.
    - cbn [String.length same_loop]. change (at_ "" 0) with (Ok zero). cbn [bind].
      destruct nm as [|b nm].
      + change (at_ "" 0) with (Ok zero). cbn [bind]. rewrite Ascii.eqb_refl. cbn [negb orb bind Nat.eqb]. reflexivity.
      + rewrite at_0. cbn [bind]. rewrite Ascii.eqb_refl. rewrite orb_true_r. cbn [bind Nat.eqb].
        apply no_nul_cons in Hm. destruct Hm as [Hb _]. destruct (Ascii.eqb_spec b zero); [tauto|]. reflexivity.
    - apply no_nul_cons in Ht. destruct Ht as [Ha Ht]. remember (S (String.length t)) as n. cbn [String.length]. rewrite <- Heqn. cbn [same_loop]. rewrite at_0. cbn [bind].
      destruct nm as [|b nm].
      + change (at_ "" 0) with (Ok zero). cbn [bind]. destruct (Ascii.eqb_spec a zero); [tauto|]. cbn [negb orb bind]. rewrite Heqn. reflexivity.
      + rewrite at_0. cbn [bind]. apply no_nul_cons in Hm. destruct Hm as [Hb Hm]. cbn [String.eqb].
        destruct (Ascii.eqb_spec a b) as [->|N]; cbn [negb orb].
        * destruct (Ascii.eqb_spec b zero); [tauto|]. rewrite same_loop_S. specialize (IH nm Ht Hm). rewrite <- IH.
          unfold map_res. destruct (same_loop n t nm 0) as [i| |]; [|reflexivity|reflexivity]. cbn [bind]. rewrite Heqn. rewrite at_S. reflexivity.
        * cbn [bind]. rewrite Heqn. reflexivity.
  Qed.

  Definition is (nm : string) (v : nat) : bool := match enumerator v with Some s => String.eqb s nm | None => false end.

  Lemma find_app : forall {A} f (a b : list A), find f (a ++ b) = match find f a with Some x => Some x | None => find f b end.
  Proof. induction a as [|x a IH]; intros b; cbn; [reflexivity|]. destruct (f x); [reflexivity|apply IH]. Qed.

  Lemma item_name_ok : forall l s, l < 256 -> enumerator l = Some s -> no_nul s.
  Proof.
    intros l s Hl E. destruct (Hd l Hl) as (_ & Hn & H). rewrite E in H. destruct H as [_ [[_ ->]|(q & _ & Eq & _)]]; [exact Hn|].
    rewrite Eq in Hn. apply no_nul_app_inv in Hn. destruct Hn as [_ Hn]. apply no_nul_app_inv in Hn. tauto.
  Qed.

  Lemma as_enum_ok : forall fuel l h nm, no_nul nm -> l <= h <= 256 -> h - l < fuel ->
    as_enum_range c item fuel l h nm = Ok (find (is nm) (seq l (h - l))).
  Proof.
    induction fuel as [|fuel IH]; intros l h nm Hm Hlh Hf; [lia|]. cbn [as_enum_range].
    destruct (Nat.ltb_spec 64 (h - l)).
    - assert (D := Nat.div_mod (h - l) 2 ltac:(lia)). assert (B := Nat.mod_upper_bound (h - l) 2 ltac:(lia)).
      cbv zeta. set (m := (h - l) / 2) in *. rewrite !IH by (try exact Hm; lia). cbn [bind].
      replace (l + m - l) with m by lia.
      replace (seq l (h - l)) with (seq l m ++ seq (l + m) (h - (l + m)))%list by (rewrite <- seq_app; f_equal; lia).
      rewrite find_app. destruct (find (is nm) (seq l m)); reflexivity.
    - destruct (Nat.ltb_spec l h).
      + destruct (entry l ltac:(lia)) as [E1 E2]. rewrite E1. cbn [bind].
        replace (h - l) with (S (h - S l)) by lia. cbn [seq find]. rewrite !IH by (try exact Hm; lia).
        assert (Ei : is nm l = match enumerator l with Some s => String.eqb s nm | None => false end) by reflexivity. rewrite Ei.
        destruct (enumerator l) as [s|] eqn:El.
        * rewrite (E2 s eq_refl). cbn [bind]. rewrite same_test by (try exact Hm; exact (item_name_ok l s ltac:(lia) El)).
          destruct (String.eqb s nm); reflexivity.
        * reflexivity.
      + replace (h - l) with 0 by lia. reflexivity.
  Qed.
End Enum.

(** An enum of underlying type t: t has 8 bits or more. *)
Definition value (t : enum_type) : Z -> Prop := value_of (e_signed t) (e_bits t).

Lemma cast_value t z : (0 < e_bits t)%Z -> value t (cast t z).
Proof.
  intro B. unfold value, value_of, cast. destruct (e_signed t).
  - exact (swrap_range _ z B).
  - apply Z.mod_pos_bound. apply Z.pow_pos_nonneg; lia.
Qed.
Lemma cast_id t z : (0 < e_bits t)%Z -> value t z -> cast t z = z.
Proof.
  intros B. unfold value, value_of, cast. destruct (e_signed t); intro H.
  - apply swrap_id; [exact B|exact H].
  - now apply Z.mod_small.
Qed.
Lemma described t item enumerator : (0 < e_bits t)%Z -> describes (value t) item enumerator ->
  forall n, n < 256 -> item (cast t (Z.of_nat n)) <> ""%string /\ no_nul (item (cast t (Z.of_nat n))) /\
    match enumerator (cast t (Z.of_nat n)) with
    | Some short => ~ printed_as_cast (item (cast t (Z.of_nat n))) /\ unqualified (item (cast t (Z.of_nat n))) short
    | None => printed_as_cast (item (cast t (Z.of_nat n)))
    end.
Proof. intros B D n _. apply D. now apply cast_value. Qed.

(** nameof of a value of an enum whose type has at most 32 bits: the name of an enumerator of 0..255, and else "???". *)
Theorem C47_nameof : forall c t item enumerator n, well_printed c -> (8 <= e_bits t <= 32)%Z -> describes (value t) item enumerator -> value t n ->
  nameof c t item n = Ok (match (if ((0 <=? n) && (n <? 256))%Z then enumerator n else None) with Some s => s | None => "???"%string end).
Proof.
  intros c t item enumerator n Hc Hb Hd Hv. unfold nameof.
  rewrite (nameof_enum_ok c _ (fun l => enumerator (cast t (Z.of_nat l))) Hc) by (try (apply described; [lia|exact Hd]); lia). unfold table, u32.
  assert (Hn : (- 2 ^ 31 <= n < 2 ^ 32)%Z).
  { unfold value, value_of in Hv. pose proof (Z.pow_le_mono_r 2 (e_bits t) 32 ltac:(lia) ltac:(lia)).
    pose proof (Z.pow_le_mono_r 2 (e_bits t - 1) 31 ltac:(lia) ltac:(lia)). pose proof (Z.pow_pos_nonneg 2 (e_bits t - 1) ltac:(lia) ltac:(lia)).
    change (2 ^ 32)%Z with (2 * 2 ^ 31)%Z in *. destruct (e_signed t); lia. }
  change (2 ^ 32)%Z with 4294967296%Z in *. change (2 ^ 31)%Z with 2147483648%Z in *.
  destruct (Z.leb_spec 0 n).
  - rewrite Z.mod_small by lia. destruct (Nat.leb_spec 0 (Z.to_nat n)); [|lia]. cbn [andb]. rewrite Z2Nat.id by lia. rewrite cast_id by (lia || exact Hv).
    destruct (Z.ltb_spec n 256); destruct (Nat.ltb_spec (Z.to_nat n) 256); try lia; reflexivity.
  - cbn [andb]. replace (n mod 4294967296)%Z with (n + 4294967296)%Z by (rewrite <- (Z.mod_add n 1) by lia; rewrite Z.mod_small; lia).
    destruct (Nat.ltb_spec (Z.to_nat (n + 4294967296)) 256); [lia|]. rewrite andb_false_r. reflexivity.
Qed.
Print Assumptions C47_nameof.

(** as_enum of any string: the first enumerator of that name among static_cast<T>(0), .., static_cast<T>(255), or the given default. *)
Lemma as_enum_first : forall c t item enumerator nm unknown, well_printed c -> (8 <= e_bits t)%Z -> describes (value t) item enumerator -> no_nul nm ->
  (exists v, v < 256 /\ enumerator (cast t (Z.of_nat v)) = Some nm /\ (forall w, w < v -> enumerator (cast t (Z.of_nat w)) <> Some nm) /\
     as_enum c t item nm unknown = Ok (cast t (Z.of_nat v))) \/
  ((forall v, v < 256 -> enumerator (cast t (Z.of_nat v)) <> Some nm) /\ as_enum c t item nm unknown = Ok unknown).
Proof.
  intros c t item enumerator' nm unknown Hc Hb Hd Hm. unfold as_enum. set (enumerator := fun l => enumerator' (cast t (Z.of_nat l))).
  rewrite (as_enum_ok c _ enumerator Hc) by (try (apply described; [lia|exact Hd]); try exact Hm; lia).
  cbn [bind]. rewrite Nat.sub_0_r.
  assert (F : forall n s, match find (is enumerator nm) (seq s n) with
     | Some v => s <= v < s + n /\ enumerator v = Some nm /\ forall w, s <= w < v -> enumerator w <> Some nm
     | None => forall v, s <= v < s + n -> enumerator v <> Some nm end).
  { clearbody enumerator. induction n as [|n IH]; intro s; cbn [seq find]; [intros; lia|].
    destruct (is enumerator nm s) eqn:E; unfold is in E.
    - destruct (enumerator s) as [t'|] eqn:Es; [|discriminate]. apply String.eqb_eq in E. subst. repeat split; try lia.
    - assert (Ns : enumerator s <> Some nm).
      { destruct (enumerator s) as [t'|]; [|discriminate]. apply String.eqb_neq in E. congruence. }
      specialize (IH (S s)). destruct (find (is enumerator nm) (seq (S s) n)) as [v|].
      + destruct IH as (A & B & C). repeat split; try lia; [exact B|]. intros w Hw. destruct (Nat.eq_dec w s) as [->|]; [exact Ns|apply C; lia].
      + intros v Hv. destruct (Nat.eq_dec v s) as [->|]; [exact Ns|apply IH; lia]. }
  specialize (F 256 0). destruct (find (is enumerator nm) (seq 0 256)) as [v|].
  - left. exists v. destruct F as (A & B & C). repeat split; [lia|exact B|intros w Hw; apply C; lia].
  - right. split; [|reflexivity]. intros v Hv. apply F. lia.
Qed.

(** The types T for which static_cast<T>(0), .., static_cast<T>(255) are 0 .. 255: all but signed ones of 8 bits. *)
Lemma cast_small t v : (8 <= e_bits t)%Z -> e_signed t = false \/ (8 < e_bits t)%Z -> v < 256 -> cast t (Z.of_nat v) = Z.of_nat v.
Proof.
  intros B S V. apply cast_id; [lia|]. unfold value, value_of.
  destruct (e_signed t); [destruct S as [S|S]; [discriminate|]|].
  - pose proof (Z.pow_le_mono_r 2 8 (e_bits t - 1) ltac:(lia) ltac:(lia)). change (2 ^ 8)%Z with 256%Z in *. lia.
  - pose proof (Z.pow_le_mono_r 2 8 (e_bits t) ltac:(lia) B). change (2 ^ 8)%Z with 256%Z in *. lia.
Qed.

(** as_enum of any string: the first enumerator of 0..255 of that name, or the given default. Not for signed types of 8 bits. *)
Theorem C47_as_enum_partial : forall c t item enumerator nm unknown, well_printed c -> (8 <= e_bits t)%Z -> e_signed t = false \/ (8 < e_bits t)%Z ->
  describes (value t) item enumerator -> no_nul nm ->
  (exists v, (0 <= v < 256)%Z /\ enumerator v = Some nm /\ (forall w, (0 <= w < v)%Z -> enumerator w <> Some nm) /\ as_enum c t item nm unknown = Ok v) \/
  ((forall v, (0 <= v < 256)%Z -> enumerator v <> Some nm) /\ as_enum c t item nm unknown = Ok unknown).
Proof.
  intros c t item enumerator nm unknown Hc Hb S Hd Hm.
  destruct (as_enum_first c t item enumerator nm unknown Hc Hb Hd Hm) as [(v & V & E & F & R)|[N R]].
  - left. exists (Z.of_nat v). rewrite cast_small in E, R by assumption. repeat split; try lia; [exact E| |exact R].
    intros w Hw. specialize (F (Z.to_nat w) ltac:(lia)). rewrite cast_small, Z2Nat.id in F by (assumption || lia). exact F.
  - right. split; [|exact R]. intros v Hv. specialize (N (Z.to_nat v) ltac:(lia)). rewrite cast_small, Z2Nat.id in N by (assumption || lia). exact N.
Qed.
Print Assumptions C47_as_enum_partial.

(** The signed types of 8 bits: as_enum looks at all values of the type, 0..127 first and then -128..-1. *)
Theorem C47_as_enum_int8 : forall c t item enumerator nm unknown, well_printed c -> e_signed t = true -> e_bits t = 8%Z ->
  describes (value t) item enumerator -> no_nul nm ->
  (exists v, value t v /\ enumerator v = Some nm /\ as_enum c t item nm unknown = Ok v) \/
  ((forall v, value t v -> enumerator v <> Some nm) /\ as_enum c t item nm unknown = Ok unknown).
Proof.
  intros c t item enumerator nm unknown Hc S B Hd Hm.
  destruct (as_enum_first c t item enumerator nm unknown Hc ltac:(lia) Hd Hm) as [(v & V & E & _ & R)|[N R]].
  - left. exists (cast t (Z.of_nat v)). split; [apply cast_value; lia|]. split; assumption.
  - right. split; [|exact R]. intros v Hv. unfold value, value_of in Hv. rewrite S, B in Hv. change (2 ^ (8 - 1))%Z with 128%Z in Hv.
    specialize (N (Z.to_nat (v mod 256)) ltac:(pose proof (Z.mod_pos_bound v 256); lia)).
    rewrite Z2Nat.id in N by (apply Z.mod_pos_bound; lia).
    replace (cast t (v mod 256)) with v in N; [exact N|]. unfold cast. rewrite S, B. unfold swrap. change (2 ^ (8 - 1))%Z with 128%Z. change (2 ^ 8)%Z with 256%Z.
    rewrite Zplus_mod_idemp_l, Z.mod_small by lia. lia.
Qed.
Print Assumptions C47_as_enum_int8.

(** With distinct names, as_enum inverts nameof on 0..255, for every underlying type. *)
Theorem C47_inverse : forall c t item enumerator, well_printed c -> (8 <= e_bits t <= 32)%Z -> describes (value t) item enumerator ->
  (forall v w s, value t v -> value t w -> enumerator v = Some s -> enumerator w = Some s -> v = w) ->
  forall v unknown, value t v -> (0 <= v < 256)%Z -> enumerator v <> None ->
  (s <- nameof c t item v ;; as_enum c t item s unknown) = Ok v.
Proof.
  intros c t item enumerator Hc Hb Hd Hdist v unknown Tv Hv Hs. rewrite (C47_nameof c t item enumerator) by (try assumption; lia).
  destruct (Z.leb_spec 0 v); [|lia]. destruct (Z.ltb_spec v 256); [|lia]. cbn [andb bind].
  destruct (enumerator v) as [s|] eqn:E; [|tauto].
  assert (Ec : cast t (Z.of_nat (Z.to_nat v)) = v) by (rewrite Z2Nat.id by lia; apply cast_id; [lia|exact Tv]).
  assert (Hn : no_nul s).
  { apply (item_name_ok _ (fun l => enumerator (cast t (Z.of_nat l))) (described t item enumerator ltac:(lia) Hd) (Z.to_nat v)); [lia|]. now rewrite Ec. }
  destruct (as_enum_first c t item enumerator s unknown Hc ltac:(lia) Hd Hn) as [(w & Hw & Ew & _ & R)|[N _]].
  - rewrite R. f_equal. apply (Hdist _ _ s); [apply cast_value; lia|exact Tv|exact Ew|exact E].
  - exfalso. apply (N (Z.to_nat v)); [lia|]. now rewrite Ec.
Qed.
Print Assumptions C47_inverse.

(** An enum of a signed type of 8 bits: as_enum finds an enumerator with a negative value, which nameof calls "???". *)
Theorem C47_negative_refuted : forall c t item enumerator v nm unknown, well_printed c -> e_signed t = true -> e_bits t = 8%Z ->
  describes (value t) item enumerator -> (forall v w s, value t v -> value t w -> enumerator v = Some s -> enumerator w = Some s -> v = w) ->
  (-128 <= v < 0)%Z -> enumerator v = Some nm ->
  as_enum c t item nm unknown = Ok v /\ nameof c t item v = Ok "???"%string.
Proof.
  intros c t item enumerator v nm unknown Hc S B Hd Hdist Hv E.
  assert (Tv : value t v) by (unfold value, value_of; rewrite S, B; change (2 ^ (8 - 1))%Z with 128%Z; lia).
  split.
  - assert (Hn : no_nul nm).
    { assert (Ec : cast t (Z.of_nat (Z.to_nat (v + 256))) = v).
      { rewrite Z2Nat.id by lia. unfold cast. rewrite S, B. unfold swrap. change (2 ^ (8 - 1))%Z with 128%Z. change (2 ^ 8)%Z with 256%Z.
        replace (v + 256 + 128)%Z with (v + 128 + 1 * 256)%Z by lia. rewrite Z.mod_add, Z.mod_small by lia. lia. }
      apply (item_name_ok _ (fun l => enumerator (cast t (Z.of_nat l))) (described t item enumerator ltac:(lia) Hd) (Z.to_nat (v + 256))); [lia|]. now rewrite Ec. }
    destruct (C47_as_enum_int8 c t item enumerator nm unknown Hc S B Hd Hn) as [(w & W & Ew & R)|[N _]].
    + rewrite R. f_equal. exact (Hdist w v nm W Tv Ew E).
    + exfalso. exact (N v Tv E).
  - rewrite (C47_nameof c t item enumerator) by (try assumption; lia). destruct (Z.leb_spec 0 v); [lia|reflexivity].
Qed.
Print Assumptions C47_negative_refuted.

(** A wider enum: the value 2^32 + v is given the name of v. *)
Theorem C47_wide_refuted : forall c t item v, nameof c t item (2 ^ 32 + v) = nameof c t item v.
Proof.
  intros c t item v. unfold nameof, u32. change (2 ^ 32)%Z with 4294967296%Z.
  replace (4294967296 + v)%Z with (v + 1 * 4294967296)%Z by lia. rewrite Z.mod_add by lia. reflexivity.
Qed.
Print Assumptions C47_wide_refuted.

(** ** Types *)

(** The name of a type is what follows its first run of blanks (meant to drop "enum " and "class "). *)
Theorem C47_type : forall c type, well_printed c -> no_nul type ->
  (~ has_char " " type -> nameof_type c type = Ok type) /\
  (forall q s, type = (q ++ " " ++ s)%string -> ~ has_char " " q -> (forall r, s <> (" " ++ r)%string) -> nameof_type c type = Ok s).
Proof.
  intros c type Hc Hn. unfold nameof_type. rewrite C47_type_text by exact Hc. cbn [bind]. unfold skip. split.
  - intro H. rewrite skip_none by (try assumption; lia). cbn [bind]. rewrite Nat.sub_0_r. exact (const_text_end "" type _ 0 eq_refl eq_refl).
  - intros q s -> Hq Hs. apply no_nul_app_inv in Hn. destruct Hn as [Hnq _]. rewrite !length_app. cbn [String.length].
    cbn [String.append]. rewrite skip_found by (try assumption; try discriminate; lia). cbn [bind].
    change (String " " s) with (" " ++ s)%string.
    replace (q ++ " " ++ s)%string with ((q ++ " ") ++ s)%string by (rewrite app_assoc_s; reflexivity).
    apply const_text_end; rewrite ?length_app; cbn [String.length]; lia.
Qed.
Print Assumptions C47_type.

(** So different types can have the same name. *)
Theorem C47_type_injective_refuted : forall c, well_printed c -> nameof_type c "unsigned int" = Ok "int"%string /\ nameof_type c "int" = Ok "int"%string.
Proof.
  intros c Hc. assert (A : forall s, (forall x, In x (list_ascii_of_string s) -> x <> zero) -> no_nul s) by (intros s H K; exact (H _ K eq_refl)).
  split.
  - apply (proj2 (C47_type c "unsigned int" Hc ltac:(apply A; cbn; intuition (subst; discriminate)))) with (q := "unsigned"%string); [reflexivity| |intros r E; discriminate E].
    unfold has_char. cbn. intuition discriminate.
  - apply (proj1 (C47_type c "int" Hc ltac:(apply A; cbn; intuition (subst; discriminate)))). unfold has_char. cbn. intuition discriminate.
Qed.
Print Assumptions C47_type_injective_refuted.

(** g++'s texts, and enum class E : signed char { a, c = 2, m = -2 }. *)
Definition gcc : compiler := {| pre := "constexpr auto& ce::nameof_detail::name() [with T = "; mid := "; auto ...N = {"; post := "}]" |}.
Definition e_type : enum_type := {| e_signed := true; e_bits := 8 |}.
Definition e_item (n : Z) : string := match n with 0%Z => "E::a" | 2%Z => "E::c" | (-2)%Z => "E::m" | _ => "(E)9" end%string.
Definition e_names (n : Z) : option string := match n with 0%Z => Some "a" | 2%Z => Some "c" | (-2)%Z => Some "m" | _ => None end%string.
Lemma e_describes t : describes (value t) e_item e_names.
Proof.
  assert (C : forall s, match s with String "E" (String ":" (String ":" (String _ EmptyString))) => True | _ => False end -> ~ printed_as_cast s).
  { intros s Hs [r ->]. exact Hs. }
  intros n _.
  assert (N : (n = 0 \/ n = 2 \/ n = -2)%Z \/ (e_item n = "(E)9"%string /\ e_names n = None)).
  { destruct n as [|[p|[p|p|]|]|[p|[p|p|]|]]; auto. }
  destruct N as [[-> | [-> | ->]]|[-> ->]]; cbn [e_item e_names]; (split; [discriminate|]); unfold no_nul; cbn [list_ascii_of_string In];
    (split; [intro H; repeat (destruct H as [H|H]; [discriminate H|]); exact H|]).
  1-3: split; [apply C; exact I|]; right; exists "E"%string; split; [unfold has_char; cbn; intuition discriminate|]; split; [reflexivity|discriminate].
  exists "E)9"%string. reflexivity.
Qed.
Example C47_nonvacuous : well_printed gcc /\ describes (value e_type) e_item e_names /\
  nameof gcc e_type e_item 2 = Ok "c"%string /\ nameof gcc e_type e_item 1 = Ok "???"%string /\ nameof gcc e_type e_item (-2) = Ok "???"%string /\
  as_enum gcc e_type e_item "c" 7 = Ok 2%Z /\ as_enum gcc e_type e_item "cc" 7 = Ok 7%Z /\ as_enum gcc e_type e_item "m" 7 = Ok (-2)%Z /\
  as_enum gcc {| e_signed := true; e_bits := 32 |} e_item "m" 7 = Ok 7%Z.
Proof.
  split; [|split; [apply e_describes|]].
  - unfold well_printed, no_nul, gcc, pre, mid, post. cbn [list_ascii_of_string In].
    split; [intro H; repeat (destruct H as [H|H]; [discriminate H|]); exact H|].
    split; [intro H; repeat (destruct H as [H|H]; [discriminate H|]); exact H|].
    split; [intro H; repeat (destruct H as [H|H]; [discriminate H|]); exact H|]. discriminate.
  - repeat split; vm_compute; reflexivity.
Qed.
(** Its names are distinct. *)
Example C47_case_distinct : forall v w s, value e_type v -> value e_type w -> e_names v = Some s -> e_names w = Some s -> v = w.
Proof.
  assert (N : forall n s, e_names n = Some s -> (n = 0%Z /\ s = "a"%string) \/ (n = 2%Z /\ s = "c"%string) \/ (n = (-2)%Z /\ s = "m"%string)).
  { intros n s. unfold e_names. destruct n as [|[p|[p|p|]|]|[p|[p|p|]|]]; try discriminate; intro E; injection E as <-; tauto. }
  intros v w s _ _ Ev Ew. apply N in Ev, Ew. destruct Ev as [[-> ->]|[[-> ->]|[-> ->]]]; destruct Ew as [[-> E]|[[-> E]|[-> E]]]; (reflexivity || discriminate E).
Qed.
