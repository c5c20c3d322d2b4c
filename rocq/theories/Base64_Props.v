(** C23-C24: base64. *)
From Coq Require Import String.
From Verif Require Import Base Base64_Model Base64_Spec.
Local Open Scope Z_scope.

(** * Characters *)
Lemma digit_range v : 0 <= v < 64 -> 0 <= digit_char v < 128.
Proof.
  intro H. unfold digit_char.
  repeat match goal with |- context[if ?b then _ else _] => destruct b eqn:? end;
    rewrite ?Z.ltb_lt, ?Z.ltb_ge, ?Z.eqb_eq, ?Z.eqb_neq in *; lia.
Qed.

Lemma digit_is_base64 v : 0 <= v < 64 -> is_base64 (digit_char v) = true.
Proof.
  intro H. unfold digit_char, is_base64, between.
  repeat match goal with |- context[if ?b then _ else _] => destruct b eqn:? end;
    rewrite ?Z.ltb_lt, ?Z.ltb_ge, ?Z.eqb_eq, ?Z.eqb_neq in *;
    rewrite ?orb_true_iff, ?andb_true_iff, ?Z.leb_le, ?Z.eqb_eq; lia.
Qed.

Lemma is_base64_digit c : is_base64 c = true -> in_alphabet c.
Proof.
  unfold is_base64, between. rewrite !orb_true_iff, !andb_true_iff, !Z.leb_le, !Z.eqb_eq.
  assert (D : forall v, 0 <= v < 64 -> c = digit_char v -> in_alphabet c) by (intros v Hv E; exists v; now split).
  unfold digit_char in D.
  intros [[[[H|H]|H]|H]|H].
  - apply (D (c - 48 + 52)); [lia|]. destruct (Z.ltb_spec (c - 48 + 52) 26); [lia|].
    destruct (Z.ltb_spec (c - 48 + 52) 52); [lia|]. destruct (Z.ltb_spec (c - 48 + 52) 62); lia.
  - apply (D (c - 65)); [lia|]. destruct (Z.ltb_spec (c - 65) 26); lia.
  - apply (D (c - 97 + 26)); [lia|]. destruct (Z.ltb_spec (c - 97 + 26) 26); [lia|].
    destruct (Z.ltb_spec (c - 97 + 26) 52); lia.
  - apply (D 62); [lia|]. cbn. lia.
  - apply (D 63); [lia|]. cbn. lia.
Qed.

Lemma alphabet_iff c : is_base64 c = true <-> in_alphabet c.
Proof. split; [apply is_base64_digit|]. intros (v & Hv & ->). now apply digit_is_base64. Qed.

Definition dec : list Z := match dec_table with Ok d => d | _ => [] end.
Lemma dec_table_ok : dec_table = Ok dec.
Proof. vm_compute. reflexivity. Qed.

Lemma dec_all : forallb (fun v => match getz dec (u8 (digit_char v)) with Ok x => x =? v | _ => false end) (map Z.of_nat (seq 0 64)) = true.
Proof. vm_compute. reflexivity. Qed.

Lemma dec_ok v : 0 <= v < 64 -> getz dec (u8 (digit_char v)) = Ok v.
Proof.
  intro H. pose proof dec_all as F. rewrite forallb_forall in F.
  specialize (F v). destruct (getz dec (u8 (digit_char v))).
  - f_equal. apply Z.eqb_eq, F. apply in_map_iff. exists (Z.to_nat v). split; [lia|]. apply in_seq. lia.
  - discriminate F. apply in_map_iff. exists (Z.to_nat v). split; [lia|]. apply in_seq. lia.
  - discriminate F. apply in_map_iff. exists (Z.to_nat v). split; [lia|]. apply in_seq. lia.
Qed.

(** * The loop *)
Definition B0 (a b : Z) : Z := u8 (Z.shiftl a 2 + Z.shiftr b 4).
Definition B1 (a b : Z) : Z := u8 (Z.shiftl a 4 + Z.shiftr b 2).
Definition B2 (a b : Z) : Z := u8 (Z.shiftl a 6 + Z.shiftr b 0).

Fixpoint unpack (vs : list Z) : list Z :=
  match vs with
  | [a; b] => [B0 a b]
  | [a; b; c] => [B0 a b; B1 b c]
  | a :: b :: c :: d :: vs => B0 a b :: B1 b c :: B2 c d :: unpack vs
  | _ => []
  end.

(** Induction four at a time. *)
Lemma list_ind4 {A} (P : list A -> Prop) :
  P [] -> (forall a, P [a]) -> (forall a b, P [a; b]) -> (forall a b c, P [a; b; c]) ->
  (forall a b c d l, P l -> P (a :: b :: c :: d :: l)) -> forall l, P l.
Proof.
  intros H0 H1 H2 H3 H4 l. assert (P l /\ (forall a, P (a :: l)) /\ (forall a b, P (a :: b :: l)) /\ (forall a b c, P (a :: b :: c :: l))) as [H _]; [|exact H].
  induction l as [|x l (I0 & I1 & I2 & I3)]; auto 10.
Qed.

Lemma unpack_length vs : length (unpack vs) = (3 * length vs / 4)%nat.
Proof.
  induction vs as [| | | |a b c d l IH] using list_ind4; try reflexivity.
  cbn [unpack length]. rewrite IH.
  replace (3 * S (S (S (S (length l)))))%nat with (3 * length l + 3 * 4)%nat by lia.
  rewrite Nat.div_add by lia. lia.
Qed.

Lemma step (s : list Z) k i r (p q : list Z) x (a b : Z) j :
  0 <= r < 3 -> i = 3 * j + r -> 0 <= j -> i * 4 < 2 ^ 64 ->
  nth_error s (Z.to_nat (4 * j + r)) = Some (digit_char a) ->
  nth_error s (S (Z.to_nat (4 * j + r))) = Some (digit_char b) ->
  0 <= a < 64 -> 0 <= b < 64 -> i = Z.of_nat (length p) ->
  b64_loop dec s (S k) i (p ++ x :: q) =
  b64_loop dec s k (i + 1) ((p ++ [u8 (Z.shiftl a (r * 2 + 2) + Z.shiftr b (6 - (r * 2 + 2)))]) ++ q).
Proof.
  intros Hr Hi Hj Hw E0 E1 Ha Hb Hp. cbn [b64_loop].
  assert (Idx : u64 (i * 4) / 3 = 4 * j + r).
  { unfold u64. rewrite Z.mod_small by lia. symmetry. apply Z.div_unique with (r := r); lia. }
  rewrite Idx. unfold getz at 1. destruct (Z.ltb_spec (4 * j + r + 0) 0); [lia|].
  rewrite Z.add_0_r. unfold get at 1. rewrite E0. cbn [bind]. rewrite dec_ok by auto. cbn [bind].
  unfold getz at 1. destruct (Z.ltb_spec (4 * j + r + 1) 0); [lia|].
  replace (Z.to_nat (4 * j + r + 1)) with (S (Z.to_nat (4 * j + r))) by lia.
  unfold get at 1. rewrite E1. cbn [bind]. rewrite dec_ok by auto. cbn [bind].
  replace (i mod 3) with r by (apply Z.mod_unique with j; lia).
  unfold setz. destruct (Z.ltb_spec i 0); [lia|]. subst i. rewrite Hp, Nat2Z.id.
  rewrite set_Ok by (rewrite app_length; cbn [length]; lia). cbn [bind]. rewrite upd_app_mid, <- app_assoc. reflexivity.
Qed.

Lemma nth_pre {A} (pre l : list A) n m : n = (length pre + m)%nat -> nth_error (pre ++ l) n = nth_error l m.
Proof. intros ->. rewrite nth_error_app2 by lia. f_equal. lia. Qed.

Lemma loop_ok vs : forall rest pre p q j,
  Forall (fun v => 0 <= v < 64) vs -> 0 <= j -> Z.of_nat (length pre) = 4 * j -> Z.of_nat (length p) = 3 * j ->
  4 * (3 * j + Z.of_nat (length vs)) < 2 ^ 64 -> length q = length (unpack vs) ->
  b64_loop dec (pre ++ map digit_char vs ++ rest) (length (unpack vs)) (3 * j) (p ++ q) = Ok (p ++ unpack vs).
Proof.
  induction vs as [|a|a b|a b c|a b c d l IH] using list_ind4; intros rest pre p q j F Hj Hpre Hp Hw Hq.
  - cbn [unpack length] in *. destruct q; [|discriminate]. reflexivity.
  - cbn [unpack length] in *. destruct q; [|discriminate]. reflexivity.
  - cbn [unpack length map app] in *. destruct q as [|x [|? ?]]; try discriminate.
    inversion F as [|? ? Fa F1]; subst. inversion F1 as [|? ? Fb _]; subst.
    rewrite step with (r := 0) (j := j) (a := a) (b := b); [|lia|lia|lia|lia| | |lia|lia|lia].
    + cbn [b64_loop]. rewrite app_nil_r. reflexivity.
    + rewrite (nth_pre pre _ _ 0) by lia. reflexivity.
    + rewrite (nth_pre pre _ _ 1) by lia. reflexivity.
  - cbn [unpack length map app] in *. destruct q as [|x [|y [|? ?]]]; try discriminate.
    inversion F as [|? ? Fa F1]; subst. inversion F1 as [|? ? Fb F2]; subst. inversion F2 as [|? ? Fc _]; subst.
    rewrite step with (r := 0) (j := j) (a := a) (b := b); [|lia|lia|lia|lia| | |lia|lia|lia].
    + rewrite step with (r := 1) (j := j) (a := b) (b := c); [|lia|lia|lia|lia| | |lia|lia|].
      * cbn [b64_loop]. rewrite app_nil_r, <- app_assoc. reflexivity.
      * rewrite (nth_pre pre _ _ 1) by lia. reflexivity.
      * rewrite (nth_pre pre _ _ 2) by lia. reflexivity.
      * rewrite app_length. cbn [length]. lia.
    + rewrite (nth_pre pre _ _ 0) by lia. reflexivity.
    + rewrite (nth_pre pre _ _ 1) by lia. reflexivity.
  - cbn [unpack length map app] in *. destruct q as [|x [|y [|z q]]]; try discriminate.
    inversion F as [|? ? Fa F1]; subst. inversion F1 as [|? ? Fb F2]; subst. inversion F2 as [|? ? Fc F3]; subst. inversion F3 as [|? ? Fd F4]; subst.
    rewrite step with (r := 0) (j := j) (a := a) (b := b); [|lia|lia|lia|lia| | |lia|lia|lia].
    + rewrite step with (r := 1) (j := j) (a := b) (b := c); [|lia|lia|lia|lia| | |lia|lia|].
      * rewrite step with (r := 2) (j := j) (a := c) (b := d); [|lia|lia|lia|lia| | |lia|lia|].
        -- replace (3 * j + 1 + 1 + 1) with (3 * (j + 1)) by lia.
           replace (pre ++ digit_char a :: digit_char b :: digit_char c :: digit_char d :: map digit_char l ++ rest)
             with ((pre ++ [digit_char a; digit_char b; digit_char c; digit_char d]) ++ map digit_char l ++ rest)
             by (rewrite <- app_assoc; reflexivity).
           rewrite IH; [rewrite <- !app_assoc; reflexivity | exact F4 | lia | | | lia |].
           ++ rewrite app_length. cbn [length]. lia.
           ++ rewrite !app_length. cbn [length]. lia.
           ++ cbn [length] in Hq. lia.
        -- rewrite (nth_pre pre _ _ 2) by lia. reflexivity.
        -- rewrite (nth_pre pre _ _ 3) by lia. reflexivity.
        -- rewrite !app_length. cbn [length]. lia.
      * rewrite (nth_pre pre _ _ 1) by lia. reflexivity.
      * rewrite (nth_pre pre _ _ 2) by lia. reflexivity.
      * rewrite app_length. cbn [length]. lia.
    + rewrite (nth_pre pre _ _ 0) by lia. reflexivity.
    + rewrite (nth_pre pre _ _ 1) by lia. reflexivity.
Qed.

(** * size *)
Lemma size_floor n : 0 <= n < 2 ^ 64 -> b64_size n = 3 * n / 4.
Proof.
  intro H. unfold b64_size, u64.
  pose proof (Z.div_mod n 4 ltac:(lia)) as E. pose proof (Z.mod_pos_bound n 4 ltac:(lia)) as M.
  assert (D : 3 * n / 4 = n / 4 * 3 + n mod 4 * 3 / 4).
  { rewrite E at 1. replace (3 * (4 * (n / 4) + n mod 4)) with (n mod 4 * 3 + n / 4 * 3 * 4) by ring.
    rewrite Z.div_add by lia. lia. }
  assert (0 <= n / 4) by (apply Z.div_pos; lia).
  assert (n mod 4 * 3 / 4 <= 2) by (apply Z.lt_succ_r, Z.div_lt_upper_bound; lia).
  assert (0 <= n mod 4 * 3 / 4) by (apply Z.div_pos; lia).
  rewrite (Z.mod_small (n / 4 * 3)), (Z.mod_small (n mod 4 * 3)) by lia. rewrite D. apply Z.mod_small. lia.
Qed.

Lemma size_loop_ok run : forall t rest n, Forall in_alphabet run -> ~ in_alphabet t ->
  0 <= n -> n + Z.of_nat (length run) < 2 ^ 64 ->
  b64_size_loop (run ++ t :: rest) n = Ok (3 * (n + Z.of_nat (length run)) / 4).
Proof.
  induction run as [|c run IH]; intros t rest n F Ht Hn Hl; cbn [app b64_size_loop].
  - destruct (is_base64 t) eqn:E; [apply alphabet_iff in E; contradiction|]. cbn [negb length Z.of_nat].
    rewrite size_floor by (cbn [length] in Hl; lia). f_equal. f_equal. lia.
  - inversion F; subst. rewrite (proj2 (alphabet_iff c)) by auto. cbn [negb]. cbn [length] in *.
    unfold u64. rewrite Z.mod_small by lia. rewrite IH by (auto; lia). f_equal. f_equal. lia.
Qed.

Lemma run_values run : Forall in_alphabet run -> exists vs, Forall (fun v => 0 <= v < 64) vs /\ run = map digit_char vs.
Proof.
  induction 1 as [|c run (v & Hv & ->) F (vs & Fv & ->)]; [exists []; auto|]. exists (v :: vs). split; [now constructor | reflexivity].
Qed.

(** * C24 *)

(** size(n) is floor(3n/4) for every size_t n. *)
Theorem C24_size_n : forall n, 0 <= n < 2 ^ 64 -> b64_size n = 3 * n / 4.
Proof. exact size_floor. Qed.
Print Assumptions C24_size_n.

(** size(src) looks at the leading run of alphabet characters and the character after it. *)
Theorem C24_size_text : forall run t rest, Forall in_alphabet run -> ~ in_alphabet t ->
  Z.of_nat (length run) < 2 ^ 64 ->
  b64_size_str (run ++ t :: rest) = Ok (3 * Z.of_nat (length run) / 4).
Proof. intros run t rest F Ht Hl. unfold b64_size_str. rewrite size_loop_ok by (auto; lia). reflexivity. Qed.
Print Assumptions C24_size_text.

Lemma decode_ok vs rest dst : Forall (fun v => 0 <= v < 64) vs -> Z.of_nat (length vs) < 2 ^ 62 ->
  Z.of_nat (length dst) = 3 * Z.of_nat (length vs) / 4 ->
  b64_decode (3 * Z.of_nat (length vs) / 4) dst (map digit_char vs ++ rest) = Ok (unpack vs).
Proof.
  intros F L Ld. unfold b64_decode. rewrite dec_table_ok. cbn [bind].
  assert (E : Z.to_nat (3 * Z.of_nat (length vs) / 4) = length (unpack vs)).
  { rewrite unpack_length. rewrite <- Nat2Z.id. f_equal. rewrite Nat2Z.inj_div, Nat2Z.inj_mul. reflexivity. }
  rewrite E. apply (loop_ok vs rest [] [] dst 0); auto; try lia; try reflexivity.
Qed.

(** C24: decode never leaves its table, whatever the characters are: a character outside the alphabet counts as an 'A', that is six zero
    bits. *)
Definition as_digit (c : Z) : Z := if is_base64 c then c else 65.
Lemma dec_other : forallb (fun c => match getz dec (u8 c), getz dec (u8 (as_digit c)) with Ok x, Ok y => x =? y | _, _ => false end) (map (fun k => Z.of_nat k - 128) (seq 0 384)) = true.
Proof. vm_compute. reflexivity. Qed.
Theorem C24_other_characters : forall n dst src, Forall (fun c => -128 <= c < 256) src -> b64_decode n dst src = b64_decode n dst (map as_digit src).
Proof.
  intros n dst src F. unfold b64_decode. rewrite dec_table_ok. cbn [bind].
  assert (K : forall i, (c <- getz src i ;; getz dec (u8 c)) = (c <- getz (map as_digit src) i ;; getz dec (u8 c))).
  { intro i. unfold getz at 1 3. destruct (i <? 0); [reflexivity|]. unfold get at 1 2. rewrite nth_error_map. destruct (nth_error src (Z.to_nat i)) as [c|] eqn:E; [|reflexivity]. cbn [option_map bind].
    apply nth_error_In in E. rewrite Forall_forall in F. specialize (F c E). pose proof dec_other as D. rewrite forallb_forall in D. specialize (D c).
    assert (I : In c (map (fun k => Z.of_nat k - 128) (seq 0 384))) by (apply in_map_iff; exists (Z.to_nat (c + 128)); split; [lia|apply in_seq; lia]). specialize (D I).
    destruct (getz dec (u8 c)), (getz dec (u8 (as_digit c))); try discriminate D. f_equal. now apply Z.eqb_eq. }
  generalize 0 as i. revert dst. induction (Z.to_nat n) as [|k IH]; intros dst i; [reflexivity|]. cbn [b64_loop].
  pose proof (K (u64 (i * 4) / 3 + 0)) as K0. pose proof (K (u64 (i * 4) / 3 + 1)) as K1.
  assert (B : forall (m m' : res Z) (g : Z -> res (list Z)), (c <- m ;; getz dec (u8 c)) = (c <- m' ;; getz dec (u8 c)) -> (c <- m ;; a <- getz dec (u8 c) ;; g a) = (c <- m' ;; a <- getz dec (u8 c) ;; g a)).
  { intros m m' g E. assert (A : forall r : res Z, (c <- r ;; a <- getz dec (u8 c) ;; g a) = (a <- (c <- r ;; getz dec (u8 c)) ;; g a)) by (intros [c| |]; reflexivity). now rewrite !A, E. }
  rewrite (B _ _ (fun a => s1 <- getz src (u64 (i * 4) / 3 + 1) ;; b <- getz dec (u8 s1) ;; dst0 <- setz dst i (u8 (Z.shiftl a (i mod 3 * 2 + 2) + Z.shiftr b (6 - (i mod 3 * 2 + 2)))) ;; b64_loop dec src k (i + 1) dst0) K0).
  destruct (getz (map as_digit src) (u64 (i * 4) / 3 + 0)) as [s0| |]; cbn [bind]; try reflexivity. destruct (getz dec (u8 s0)) as [a| |]; cbn [bind]; try reflexivity.
  rewrite (B _ _ (fun b => dst0 <- setz dst i (u8 (Z.shiftl a (i mod 3 * 2 + 2) + Z.shiftr b (6 - (i mod 3 * 2 + 2)))) ;; b64_loop dec src k (i + 1) dst0) K1).
  destruct (getz (map as_digit src) (u64 (i * 4) / 3 + 1)) as [s1| |]; cbn [bind]; try reflexivity. destruct (getz dec (u8 s1)) as [b| |]; cbn [bind]; try reflexivity.
  destruct (setz dst i _) as [dst0| |]; cbn [bind]; try reflexivity. apply IH.
Qed.
Print Assumptions C24_other_characters.
Example C24_other_case : b64_decode 3 [9; 9; 9] (chars "TW-u"%string) = Ok [77; 96; 46] /\ as_digit 45 = 65 /\ as_digit (-61) = 65.
Proof. vm_compute. auto. Qed.

Lemma msb_app_check : forallb (fun a => forallb (fun b =>
    forallb (fun m => Bool.eqb (Z.testbit (B0 a b) m) (if m <? 2 then Z.testbit b (m + 4) else Z.testbit a (m - 2)) &&
                      Bool.eqb (Z.testbit (B1 a b) m) (if m <? 4 then Z.testbit b (m + 2) else Z.testbit a (m - 4)) &&
                      Bool.eqb (Z.testbit (B2 a b) m) (if m <? 6 then Z.testbit b m else Z.testbit a (m - 6)))
      [0;1;2;3;4;5;6;7]) (map Z.of_nat (seq 0 64))) (map Z.of_nat (seq 0 64)) = true.
Proof. vm_compute. reflexivity. Qed.

Lemma byte_bits a b m : 0 <= a < 64 -> 0 <= b < 64 -> 0 <= m < 8 ->
  Z.testbit (B0 a b) m = (if m <? 2 then Z.testbit b (m + 4) else Z.testbit a (m - 2)) /\
  Z.testbit (B1 a b) m = (if m <? 4 then Z.testbit b (m + 2) else Z.testbit a (m - 4)) /\
  Z.testbit (B2 a b) m = (if m <? 6 then Z.testbit b m else Z.testbit a (m - 6)).
Proof.
  intros Ha Hb Hm. pose proof msb_app_check as F. rewrite forallb_forall in F.
  assert (Ia : forall v, 0 <= v < 64 -> In v (map Z.of_nat (seq 0 64))).
  { intros v Hv. apply in_map_iff. exists (Z.to_nat v). split; [lia|]. apply in_seq. lia. }
  specialize (F a (Ia a Ha)). rewrite forallb_forall in F. specialize (F b (Ia b Hb)). rewrite forallb_forall in F.
  specialize (F m). rewrite !andb_true_iff, !eqb_true_iff in F.
  assert (In m [0;1;2;3;4;5;6;7]) as Im.
  { assert (m = 0 \/ m = 1 \/ m = 2 \/ m = 3 \/ m = 4 \/ m = 5 \/ m = 6 \/ m = 7) by lia. cbn. intuition lia. }
  destruct (F Im) as [[? ?] ?]. auto.
Qed.

Ltac byte_msb Ha Hb := cbn [msb_bits Z.of_nat Pos.of_succ_nat Pos.succ];
  repeat match goal with |- context[Z.testbit (?B ?a ?b) ?m] =>
    let H := fresh in pose proof (byte_bits a b m Ha Hb ltac:(lia)) as H; cbn [Z.ltb Z.compare Pos.compare Pos.compare_cont Z.sub Z.add Z.opp Pos.add Z.pos_sub Pos.succ Pos.pred_double] in H;
    destruct H as (? & ? & ?); repeat match goal with E : Z.testbit (_ a b) m = _ |- _ => rewrite ?E; clear E end
  end.

Lemma unpack_bits vs : Forall (fun v => 0 <= v < 64) vs ->
  flat_map (msb_bits 8) (unpack vs) = firstn (8 * length (unpack vs)) (flat_map (msb_bits 6) vs).
Proof.
  induction vs as [|a|a b|a b c|a b c d l IH] using list_ind4; intro F; try reflexivity.
  - inversion F as [|? ? Fa F1]; subst. inversion F1 as [|? ? Fb _]; subst.
    cbn [unpack flat_map length Nat.mul Nat.add app]. byte_msb Fa Fb. reflexivity.
  - inversion F as [|? ? Fa F1]; subst. inversion F1 as [|? ? Fb F2]; subst. inversion F2 as [|? ? Fc _]; subst.
    cbn [unpack flat_map length Nat.mul Nat.add app]. byte_msb Fa Fb. byte_msb Fb Fc. reflexivity.
  - inversion F as [|? ? Fa F1]; subst. inversion F1 as [|? ? Fb F2]; subst. inversion F2 as [|? ? Fc F3]; subst. inversion F3 as [|? ? Fd F4]; subst.
    cbn [unpack flat_map length]. rewrite (IH F4).
    replace (8 * S (S (S (length (unpack l)))))%nat with (S (S (S (S (S (S (S (S (S (S (S (S (S (S (S (S (S (S (S (S (S (S (S (S (8 * length (unpack l))))))))))))))))))))))))))%nat by lia.
    byte_msb Fa Fb. byte_msb Fb Fc. byte_msb Fc Fd. reflexivity.
Qed.

(** decode with that size reads nothing but the alphabet characters (the readable text is just the
    run), writes exactly dst_size bytes whatever the buffer held, and those bytes are the leading
    bits of the characters' 6-bit values. *)
Theorem C24_decode : forall vs dst, Forall (fun v => 0 <= v < 64) vs -> Z.of_nat (length vs) < 2 ^ 62 ->
  Z.of_nat (length dst) = 3 * Z.of_nat (length vs) / 4 ->
  exists out, b64_decode (3 * Z.of_nat (length vs) / 4) dst (map digit_char vs) = Ok out /\
    length out = length dst /\
    flat_map (msb_bits 8) out = firstn (8 * length out) (flat_map (msb_bits 6) vs).
Proof.
  intros vs dst F L Ld. exists (unpack vs). split; [|split].
  - rewrite <- (app_nil_r (map digit_char vs)). now apply decode_ok.
  - apply Nat2Z.inj. rewrite Ld, unpack_length, Nat2Z.inj_div, Nat2Z.inj_mul. reflexivity.
  - now apply unpack_bits.
Qed.
Print Assumptions C24_decode.

Example C24_case : Forall (fun v => 0 <= v < 64) [0; 63; 17; 5; 9] /\ b64_decode 3 [7; 7; 7] (map digit_char [0; 63; 17; 5; 9]) = Ok [3; 244; 69].
Proof. split; [repeat constructor; lia | vm_compute; reflexivity]. Qed.

(** * C23 *)
Lemma list_ind3 {A} (P : list A -> Prop) :
  P [] -> (forall a, P [a]) -> (forall a b, P [a; b]) ->
  (forall a b c l, P l -> P (a :: b :: c :: l)) -> forall l, P l.
Proof.
  intros H0 H1 H2 H3 l. assert (P l /\ (forall a, P (a :: l)) /\ (forall a b, P (a :: b :: l))) as [H _]; [|exact H].
  induction l as [|x l (I0 & I1 & I2)]; auto 10.
Qed.

Lemma B0_ok a x : b64_byte a -> 0 <= x < 16 -> B0 (a / 4) (a mod 4 * 16 + x) = a.
Proof.
  unfold b64_byte. intros Ha Hx. unfold B0, u8. rewrite Z.shiftl_mul_pow2, Z.shiftr_div_pow2 by lia.
  change (2 ^ 2) with 4. change (2 ^ 4) with 16. replace (a mod 4 * 16 + x) with (x + a mod 4 * 16) by ring.
  rewrite Z.div_add, (Z.div_small x) by lia. rewrite Z.add_0_l, Z.mul_comm, <- Z.div_mod by lia. apply Z.mod_small. lia.
Qed.
Lemma B1_ok y b x : b64_byte b -> 0 <= x < 4 -> 0 <= y -> B1 (y * 16 + b / 16) (b mod 16 * 4 + x) = b.
Proof.
  unfold b64_byte. intros Hb Hx Hy. unfold B1, u8. rewrite Z.shiftl_mul_pow2, Z.shiftr_div_pow2 by lia.
  change (2 ^ 2) with 4. change (2 ^ 4) with 16. change (2 ^ 8) with 256.
  replace (b mod 16 * 4 + x) with (x + b mod 16 * 4) by ring.
  rewrite Z.div_add, (Z.div_small x) by lia.
  pose proof (Z.div_mod b 16 ltac:(lia)).
  replace ((y * 16 + b / 16) * 16 + (0 + b mod 16)) with (b + y * 256) by lia.
  rewrite Z.mod_add by lia. apply Z.mod_small. lia.
Qed.
Lemma B2_ok y c : b64_byte c -> 0 <= y -> B2 (y * 4 + c / 64) (c mod 64) = c.
Proof.
  unfold b64_byte. intros Hc Hy. unfold B2, u8. rewrite Z.shiftl_mul_pow2 by lia. rewrite Z.shiftr_0_r.
  change (2 ^ 6) with 64. change (2 ^ 8) with 256. pose proof (Z.div_mod c 64 ltac:(lia)).
  replace ((y * 4 + c / 64) * 64 + c mod 64) with (c + y * 256) by lia.
  rewrite Z.mod_add by lia. apply Z.mod_small. lia.
Qed.

(** The digit values behind encode. *)
Fixpoint values (bytes : list Z) : list Z :=
  match bytes with
  | [] => []
  | [a] => [a / 4; a mod 4 * 16]
  | [a; b] => [a / 4; a mod 4 * 16 + b / 16; b mod 16 * 4]
  | a :: b :: c :: rest => [a / 4; a mod 4 * 16 + b / 16; b mod 16 * 4 + c / 64; c mod 64] ++ values rest
  end.

Lemma byte_parts a : b64_byte a ->
  0 <= a / 4 < 64 /\ 0 <= a mod 4 < 4 /\ 0 <= a / 16 < 16 /\ 0 <= a mod 16 < 16 /\ 0 <= a / 64 < 4 /\ 0 <= a mod 64 < 64.
Proof.
  unfold b64_byte. intro H.
  repeat split; try (apply Z.div_pos; lia); try (apply Z.div_lt_upper_bound; lia); try (apply Z.mod_pos_bound; lia).
Qed.

Lemma encode_values bytes : Forall b64_byte bytes ->
  encode bytes = map digit_char (values bytes) /\ Forall (fun v => 0 <= v < 64) (values bytes) /\
  unpack (values bytes) = bytes /\ Z.of_nat (length bytes) = 3 * Z.of_nat (length (values bytes)) / 4 /\
  (length (values bytes) <= 2 * length bytes)%nat.
Proof.
  induction bytes as [|a|a b|a b c l IH] using list_ind3; intro F.
  - repeat split; auto. constructor.
  - inversion F as [|? ? Fa _]; subst. pose proof (byte_parts a Fa).
    split; [reflexivity|]. split; [repeat (apply Forall_cons; [lia|]); apply Forall_nil|].
    split; [|split; [reflexivity | cbn; lia]]. cbn [values unpack]. f_equal.
    pose proof (B0_ok a 0 Fa ltac:(lia)). rewrite Z.add_0_r in *. assumption.
  - inversion F as [|? ? Fa F1]; subst. inversion F1 as [|? ? Fb _]; subst. pose proof (byte_parts a Fa). pose proof (byte_parts b Fb).
    split; [reflexivity|]. split; [repeat (apply Forall_cons; [lia|]); apply Forall_nil|].
    split; [|split; [reflexivity | cbn; lia]]. cbn [values unpack]. f_equal; [apply B0_ok; auto; lia|]. f_equal.
    pose proof (B1_ok (a mod 4) b 0 Fb ltac:(lia) ltac:(lia)). rewrite Z.add_0_r in *. assumption.
  - inversion F as [|? ? Fa F1]; subst. inversion F1 as [|? ? Fb F2]; subst. inversion F2 as [|? ? Fc F3]; subst.
    pose proof (byte_parts a Fa). pose proof (byte_parts b Fb). pose proof (byte_parts c Fc).
    destruct (IH F3) as (E & FV & U & L & L2). cbn [encode values app map unpack length]. rewrite E, U.
    repeat split; auto.
    + repeat (apply Forall_cons; [lia|]). assumption.
    + rewrite B0_ok, B1_ok, B2_ok by (auto; lia). reflexivity.
    + rewrite !Nat2Z.inj_succ, L. rewrite <- !Z.add_1_r.
      replace (3 * (Z.of_nat (length (values l)) + 1 + 1 + 1 + 1)) with (3 * Z.of_nat (length (values l)) + 3 * 4) by ring.
      rewrite Z.div_add by lia. ring.
    + lia.
Qed.

(** Decoding any encoded byte string, followed by any character outside the alphabet (padding, a NUL,
    anything), gives the byte string back. *)
Theorem C23_round_trip : forall bytes t rest, Forall b64_byte bytes -> ~ in_alphabet t ->
  Z.of_nat (length bytes) < 2 ^ 60 ->
  b64_decoder (encode bytes ++ t :: rest) = Ok bytes.
Proof.
  intros bytes t rest F Ht L. destruct (encode_values bytes F) as (E & FV & U & LV & L2).
  unfold b64_decoder. rewrite E. rewrite C24_size_text.
  - rewrite map_length. cbn [bind]. rewrite decode_ok; [now rewrite U | exact FV | lia |].
    rewrite repeat_length, Z2Nat.id by (rewrite <- LV; lia). reflexivity.
  - apply Forall_map. eapply Forall_impl; [|exact FV]. intros v Hv. exists v. now split.
  - exact Ht.
  - rewrite map_length. lia.
Qed.
Print Assumptions C23_round_trip.

(** '=' padding and NUL end the text; "TWFu" is the RFC's Man, and so on. *)
Example C23_terminators : ~ in_alphabet 61 /\ ~ in_alphabet 0 /\ ~ in_alphabet (-61) /\ ~ in_alphabet 200.
Proof. rewrite <- !alphabet_iff. repeat split; discriminate. Qed.
Example C23_case : encode [77; 97; 110; 77] = [84; 87; 70; 117; 84; 81] /\
  b64_decoder ([84; 87; 70; 117; 84; 81] ++ 61 :: [61; 0]) = Ok [77; 97; 110; 77].
Proof. split; vm_compute; reflexivity. Qed.

(** C84: for every value of a char, signed or not, each classifier accepts exactly the characters it is named for. *)
Theorem C84_classes : forall c, -128 <= c < 256 ->
  (is_base10 c = true <-> In c (chars "0123456789"%string)) /\
  (is_base16 c = true <-> In c (chars "0123456789ABCDEFabcdef"%string)) /\
  (is_upper c = true <-> In c (chars "ABCDEFGHIJKLMNOPQRSTUVWXYZ"%string)) /\
  (is_lower c = true <-> In c (chars "abcdefghijklmnopqrstuvwxyz"%string)) /\
  (is_alpha c = true <-> In c (chars "ABCDEFGHIJKLMNOPQRSTUVWXYZabcdefghijklmnopqrstuvwxyz"%string)) /\
  (is_base64 c = true <-> In c (chars "ABCDEFGHIJKLMNOPQRSTUVWXYZabcdefghijklmnopqrstuvwxyz0123456789+/"%string)).
Proof.
  intros c _. unfold is_base10, is_base16, is_upper, is_lower, is_alpha, is_base64, between.
  rewrite ?Bool.orb_true_iff, ?Bool.andb_true_iff, ?Z.leb_le, ?Z.eqb_eq.
  change (chars "0123456789"%string) with (map (fun k => 48 + Z.of_nat k) (seq 0 10)).
  change (chars "0123456789ABCDEFabcdef"%string) with (map (fun k => 48 + Z.of_nat k) (seq 0 10) ++ map (fun k => 65 + Z.of_nat k) (seq 0 6) ++ map (fun k => 97 + Z.of_nat k) (seq 0 6)).
  change (chars "ABCDEFGHIJKLMNOPQRSTUVWXYZ"%string) with (map (fun k => 65 + Z.of_nat k) (seq 0 26)).
  change (chars "abcdefghijklmnopqrstuvwxyz"%string) with (map (fun k => 97 + Z.of_nat k) (seq 0 26)).
  change (chars "ABCDEFGHIJKLMNOPQRSTUVWXYZabcdefghijklmnopqrstuvwxyz"%string) with (map (fun k => 65 + Z.of_nat k) (seq 0 26) ++ map (fun k => 97 + Z.of_nat k) (seq 0 26)).
  change (chars "ABCDEFGHIJKLMNOPQRSTUVWXYZabcdefghijklmnopqrstuvwxyz0123456789+/"%string) with
    (map (fun k => 65 + Z.of_nat k) (seq 0 26) ++ map (fun k => 97 + Z.of_nat k) (seq 0 26) ++ map (fun k => 48 + Z.of_nat k) (seq 0 10) ++ [43; 47]).
  assert (R : forall lo n, In c (map (fun k => lo + Z.of_nat k) (seq 0 n)) <-> lo <= c < lo + Z.of_nat n).
  { intros lo n. rewrite in_map_iff. split.
    - intros (k & <- & I). apply in_seq in I. lia.
    - intro H. exists (Z.to_nat (c - lo)). split; [lia|]. apply in_seq. lia. }
  rewrite ?in_app_iff, ?R. cbn [In]. rewrite ?(fun x => conj (@eq_sym Z x c) (@eq_sym Z c x) : x = c <-> c = x). repeat split; lia.
Qed.
Print Assumptions C84_classes.

(** A letter is exactly one of upper and lower case, and no letter is a digit. *)
Theorem C84_relations : forall c, -128 <= c < 256 ->
  is_alpha c = xorb (is_upper c) (is_lower c) /\ is_alpha c && is_base10 c = false /\
  implb (is_base10 c) (is_base16 c) = true /\ is_base64 c = is_alpha c || is_base10 c || (c =? 43) || (c =? 47).
Proof.
  intros c _. unfold is_base10, is_base16, is_upper, is_lower, is_alpha, is_base64, between.
  destruct (Z.leb_spec 48 c), (Z.leb_spec c 57), (Z.leb_spec 65 c), (Z.leb_spec c 90), (Z.leb_spec 97 c), (Z.leb_spec c 122); try lia;
    destruct (c <=? 70), (c <=? 102), (c =? 43), (c =? 47); repeat split.
Qed.
Print Assumptions C84_relations.

Example C84_case : is_base16 102 = true /\ is_base16 103 = false /\ is_upper 64 = false /\ is_base10 (-80) = false /\ is_lower 200 = false.
Proof. repeat split. Qed.
