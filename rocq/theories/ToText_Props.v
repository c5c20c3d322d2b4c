(** C01, C02, C65: text conversion. *)
From Coq Require Import String.
From Verif Require Import Base ToText_Model ToText_Spec ToText_Proofs ToText_Proofs2
  AsString_Model AsString_Spec AsString_Proofs.
Open Scope Z_scope.

Lemma splice_at {A} (pre old post l : list A) :
  length old = length l -> splice (pre ++ old ++ post) (length pre) l = pre ++ l ++ post.
Proof.
  intro H. unfold splice. rewrite firstn_app, firstn_all, Nat.sub_diag, firstn_O, app_nil_r.
  do 2 f_equal. rewrite (app_assoc pre old post), skipn_app, <- H.
  rewrite skipn_all2 by (rewrite app_length; lia).
  rewrite app_length, Nat.sub_diag. reflexivity.
Qed.

(** C01. For every value i of every built-in integer type there is exactly one text that is the
    decimal text of i, and to_text, given a pointer into any array with room for it, stores
    exactly that text there, leaves the rest of the array alone and returns the end. *)
Theorem C01_to_text_decimal : forall (T : ity) (i : Z),
  int_type T -> in_type (ity_signed T) (ity_size T) i ->
  exists text : list Z,
    decimal_text i text /\ (forall other, decimal_text i other -> other = text) /\
    forall pre old post, length old = length text ->
      to_text_int T (pre ++ old ++ post) (length pre) i
        = Ok (pre ++ text ++ post, (length pre + length text)%nat).
Proof.
  intros T i HT Hi. destruct (to_text_int_ok T i HT Hi) as (l & Hl & E).
  exists l. split; [exact Hl|]. split; [intros; eapply decimal_text_unique; eauto|].
  intros pre old post HL. rewrite E by (rewrite !app_length; lia).
  rewrite splice_at by assumption. reflexivity.
Qed.
Print Assumptions C01_to_text_decimal.

(** Distinct integers have distinct texts. *)
Theorem C01_to_text_injective : forall i j l, decimal_text i l -> decimal_text j l -> i = j.
Proof.
  intros i j l [[H1 (N1 & F1 & _ & V1)]|[H1 (d & -> & H2)]] [[H3 (N3 & F3 & _ & V3)]|[H3 (e & E & H4)]].
  - congruence.
  - subst l. inversion F1 as [|? ? F]; subst. unfold is_digit in F. lia.
  - inversion F3 as [|? ? F]; subst. unfold is_digit in F. lia.
  - inversion E; subst. destruct H2 as (_ & _ & _ & V), H4 as (_ & _ & _ & V'). lia.
Qed.
Print Assumptions C01_to_text_injective.

Example C01_example :
  to_text_int {| ity_signed := true; ity_size := 8 |} (repeat 7 22) 1 (-9223372036854775808)
  = Ok ([7] ++ bytes_of_string "-9223372036854775808" ++ [7], 21%nat).
Proof. vm_compute. reflexivity. Qed.

Example C01_example_type : int_type {| ity_signed := true; ity_size := 8 |} /\
  in_type true 8 (-9223372036854775808).
Proof. unfold int_type, in_type. cbn. lia. Qed.

(** C65. to_text of several values writes, for some texts shown by the values, their
    concatenation. An array or vector within an array or vector is shown by its address (see C65_nested_refuted). *)
Theorem C65_to_text_concat : forall vs, Forall valid vs ->
  exists ls, Forall2 shows vs ls /\
    forall pre old post, length old = length (concat ls) ->
      to_text_all (pre ++ old ++ post) (length pre) vs
        = Ok (pre ++ concat ls ++ post, (length pre + length (concat ls))%nat).
Proof.
  intros vs HV. destruct (all_writes vs HV) as (ls & HS & W). exists ls. split; [exact HS|].
  intros pre old post HL. rewrite W by (rewrite !app_length; lia).
  rewrite splice_at by assumption. reflexivity.
Qed.
Print Assumptions C65_to_text_concat.

Definition int_t : ity := {| ity_signed := true; ity_size := 4 |}.


Example C65_example_valid :
  Forall valid [VArr [(4096, VInt int_t 1); (4100, VInt int_t (-20))]; VBool true; VCharPtr (Some [104; 105; 0; 9])].
Proof.
  repeat (constructor; cbn; try lia; try (right; right; left; reflexivity); auto).
Qed.

Example C65_example_run :
  to_text_all (repeat 0 14) 0
    [VArr [(4096, VInt int_t 1); (4100, VInt int_t (-20))]; VBool true; VCharPtr (Some [104; 105; 0; 9])]
  = Ok (bytes_of_string "[1, -20]#<T>hi" , 14%nat).
Proof. vm_compute. reflexivity. Qed.

(** Where no array or vector has an array or vector as an element, that text is the one with every element shown as it is shown alone. *)
Definition flat (v : val) : Prop := match v with VArr vs | VVec vs => Forall (fun av => is_list (snd av) = false) vs | _ => True end.

Theorem C65_flat_partial : forall vs, Forall valid vs -> Forall flat vs ->
  exists ls, Forall2 shows_full vs ls /\
    forall pre old post, length old = length (concat ls) ->
      to_text_all (pre ++ old ++ post) (length pre) vs
        = Ok (pre ++ concat ls ++ post, (length pre + length (concat ls))%nat).
Proof.
  intros vs HV HF. destruct (C65_to_text_concat vs HV) as (ls & S & W). exists ls. split; [|exact W]. clear - S HF.
  assert (G : forall es ts, Forall (fun av => is_list (snd av) = false) es -> Forall2 element_shows es ts -> Forall2 (fun av => shows_full (snd av)) es ts).
  { intros es ts F2 S2. induction S2 as [|av t es ts E S2 IH]; [constructor|]. inversion F2; subst. constructor; [|auto].
    inversion E as [a v t' L SV|a v t' L D]; subst; cbn [snd] in *; [|congruence]. apply full_one; [destruct v; try exact I; discriminate L|exact SV]. }
  induction S as [|v l vs ls E S IH]; [constructor|]. inversion HF as [|x y F1 F2]; subst. constructor; [|auto].
  destruct v; try (apply full_one; [exact I|exact E]); inversion E; subst; first [apply full_arr|apply full_vec]; (apply G; [exact F1|assumption]).
Qed.
Print Assumptions C65_flat_partial.

Example C65_flat_case : Forall flat [VArr [(4096, VInt int_t 1); (4100, VInt int_t (-20))]; VBool true].
Proof. repeat constructor. Qed.

(** The full property fails: wherever they are, an array of arrays is not shown as a list of lists. *)
Theorem C65_nested_refuted : forall a b, 0 <= a < 2 ^ 64 -> 0 <= b < 2 ^ 64 ->
  let v := VArr [(a, VArr [(b, VInt int_t 1)])] in
  valid v /\ shows_full v (bytes_of_string "[[1]]") /\
  ~ (forall pre old post, length old = 5%nat ->
       to_text_all (pre ++ old ++ post) (length pre) [v] = Ok (pre ++ bytes_of_string "[[1]]" ++ post, (length pre + 5)%nat)).
Proof.
  intros a b Ha Hb v.
  assert (V : valid v).
  { repeat (constructor; cbn [fst snd]; auto); cbn; lia. }
  split; [exact V|]. split.
  - change (bytes_of_string "[[1]]") with (txt "[" ++ join (txt ", ") [txt "[" ++ join (txt ", ") [[49]] ++ txt "]"] ++ txt "]").
    apply full_arr. constructor; [|constructor]. cbn [snd]. apply full_arr. constructor; [|constructor]. cbn [snd]. apply full_one; [exact I|].
    constructor. left. split; [lia|]. split; [discriminate|]. split; [repeat constructor; lia|]. split; [cbn; lia|reflexivity].
  - intro H. destruct (C65_to_text_concat [v]) as (ls & S & W); [constructor; [exact V|constructor]|].
    specialize (H [] (repeat 0 5) (repeat 0 30) eq_refl). inversion S as [|x l y ls' E S']; subst. inversion S'; subst. clear S S'.
    inversion E as [| | | | | | | | | | | | |vs' ts F|]; subst. inversion F as [|x t y ts' E1 F1]; subst. inversion F1; subst. clear E F F1.
    inversion E1 as [a' v' t' L SV|a' v' t' L D]; subst; [discriminate L|]. clear E1.
    assert (B : (length t' <= 20)%nat) by (eapply (decimal_len20 size_t a); [right; right; right; reflexivity|exact Ha|exact D]).
    assert (B1 : (0 < length t')%nat) by (destruct D as [[_ [N _]]|[_ (d & -> & _)]]; [destruct t'; [congruence|cbn; lia]|cbn; lia]).
    set (m := concat [txt "[" ++ join (txt ", ") [txt "#<ref " ++ t' ++ txt ">"] ++ txt "]"]) in *.
    assert (LM : length m = (9 + length t')%nat).
    { unfold m. cbn [concat join]. rewrite !app_length. change (length (txt "[")) with 1%nat. change (length (txt "]")) with 1%nat.
      change (length (txt "#<ref ")) with 6%nat. change (length (txt ">")) with 1%nat. change (@length Z []) with 0%nat. lia. }
    specialize (W [] (repeat 0 (length m)) (repeat 0 (35 - length m)) (repeat_length _ _)). cbn [app length] in W, H.
    rewrite <- repeat_app in W. replace (length m + (35 - length m))%nat with 35%nat in W by lia.
    change (repeat 0 5 ++ repeat 0 30) with (repeat 0 35) in H. rewrite H in W. injection W as _ W. lia.
Qed.
Print Assumptions C65_nested_refuted.

Example C65_nested_run :
  to_text_all (repeat 0 16) 0 [VArr [(4096, VArr [(4096, VInt int_t 1)])]] = Ok (bytes_of_string "[#<ref 4096>]" ++ [0; 0; 0], 13%nat).
Proof. vm_compute. reflexivity. Qed.

(** C02. as_string of acceptable arguments never leaves its buffer and yields the
    NUL-terminated concatenation of the texts, in a buffer of measure + 1 characters. *)
Theorem C02_as_string_fits_partial : forall init vs,
  Forall arg_ok vs -> (measures vs + 1 <= length init)%nat ->
  exists ls rest, Forall2 arg_shows vs ls /\
    as_string init vs = Ok (concat ls ++ 0 :: rest) /\
    length (concat ls ++ 0 :: rest) = (measures vs + 1)%nat.
Proof. exact as_string_ok. Qed.
Print Assumptions C02_as_string_fits_partial.

(** The bound is attained, so it cannot be smaller for any integer type. *)
Theorem C02_measure_tight : forall signed n, In n [1; 2; 4; 8] -> exists i l,
  let T := {| ity_signed := signed; ity_size := n |} in
  valid (VInt T i) /\ shows (VInt T i) l /\ length l = measure (VInt T i).
Proof.
  intros signed n H. exists (if signed then - 2 ^ (8 * n - 1) else 2 ^ (8 * n) - 1).
  assert (HT : int_type {| ity_signed := signed; ity_size := n |})
    by (cbn in H; unfold int_type; cbn; lia).
  assert (HR : in_type signed n (if signed then - 2 ^ (8 * n - 1) else 2 ^ (8 * n) - 1)).
  { unfold in_type. cbn in H. assert (0 < 2 ^ (8 * n - 1)) by (apply Z.pow_pos_nonneg; lia). assert (0 < 2 ^ (8 * n)) by (apply Z.pow_pos_nonneg; lia). destruct signed; lia. }
  cbn in H. destruct signed.
  - destruct H as [<-|[<-|[<-|[<-|[]]]]];
    [ exists (bytes_of_string "-128") | exists (bytes_of_string "-32768")
    | exists (bytes_of_string "-2147483648") | exists (bytes_of_string "-9223372036854775808")];
    (split; [apply valid_int; assumption|split; [|reflexivity]]); constructor; right; (split; [reflexivity|]);
    eexists; (split; [vm_compute; reflexivity|]); unfold numeral;
    (split; [discriminate|split; [|split; [intro X; vm_compute in X; discriminate X|vm_compute; reflexivity]]]);
    repeat constructor; unfold is_digit; lia.
  - destruct H as [<-|[<-|[<-|[<-|[]]]]];
    [ exists [50; 53; 53] | exists [54; 53; 53; 51; 53]
    | exists [52; 50; 57; 52; 57; 54; 55; 50; 57; 53] | exists [49; 56; 52; 52; 54; 55; 52; 52; 48; 55; 51; 55; 48; 57; 53; 53; 49; 54; 49; 53]];
    (split; [apply valid_int; assumption|split; [|reflexivity]]); apply shows_int; left; (split; [vm_compute; discriminate|]); unfold numeral;
    (split; [discriminate|split; [|split; [intro X; vm_compute in X; discriminate X|vm_compute; reflexivity]]]);
    repeat constructor; unfold is_digit; lia.
Qed.
Print Assumptions C02_measure_tight.

(** The full property fails: a char array without a NUL next to another argument makes as_string
    read past the array (its buffer bound is the array's but the reading bound is 1024). *)
Theorem C02_unterminated_array_refuted : exists vs : list (Z * val), exists init,
  Forall (fun av => valid (snd av)) vs /\ (measures vs + 1 <= length init)%nat /\
  as_string init vs = UB.
Proof.
  exists [(0, VCharArr [65; 66]); (0, VInt int_t 1)], (repeat 0 40).
  split; [repeat (constructor; cbn; try lia; try (right; right; left; reflexivity))|].
  split; [vm_compute; lia|vm_compute; reflexivity].
Qed.
Print Assumptions C02_unterminated_array_refuted.

(** Likewise a null char pointer, which to_text itself shows as "#<nil>". *)
Theorem C02_null_char_pointer_refuted : exists vs init,
  Forall (fun av : Z * val => valid (snd av)) vs /\ (measures vs + 1 <= length init)%nat /\
  as_string init vs = UB.
Proof.
  exists [(0, VInt int_t 1); (0, VCharPtr None)], (repeat 0 (1 + 11 + 1024)).
  split; [repeat (constructor; cbn; try lia; try (right; right; left; reflexivity))|].
  split; [apply Nat.leb_le; vm_compute; reflexivity|vm_compute; reflexivity].
Qed.
Print Assumptions C02_null_char_pointer_refuted.

Example C02_example_args : Forall arg_ok
  [(0, VCharArr [120; 61; 0; 5]); (0, VInt int_t (-2147483648)); (0, VBool false)].
Proof.
  repeat (constructor; cbn; try lia; try (right; right; left; reflexivity)).
Qed.

(** A vector of four of the longest doubles: 104 characters in a buffer of 1025; and a 4 by 4 matrix, whose rows are shown by their addresses. *)
Definition longest : val := VFloat (bytes_of_string "-2.2250738585072014e-308").
Definition row (a : Z) : val := VVec (map (fun i => (a + 8 * i, longest)) [0; 1; 2; 3]).
Definition matrix (a : Z) : val := VVec (map (fun i => (a + 32 * i, row (a + 32 * i))) [0; 1; 2; 3]).
Example C02_vector_args : Forall arg_ok [(4096, row 4096); (8192, matrix 8192)].
Proof.
  repeat apply Forall_cons; [| |constructor]; apply arg_vec; [split; [cbn; lia|]; repeat constructor| |split; [cbn; lia|]; repeat constructor|];
  repeat (constructor; cbn; try lia).
Qed.
Example C02_vector_run : exists l, as_string (repeat 7 1025) [(4096, row 4096)] = Ok l /\ nth 104 l 1 = 0 /\ nth 103 l 0 = 93.
Proof. eexists. split; [vm_compute; reflexivity|]. split; reflexivity. Qed.
Example C02_matrix_run : exists l, as_string (repeat 7 1025) [(8192, matrix 8192)] = Ok (bytes_of_string "[#<ref 8192>, #<ref 8224>, #<ref 8256>, #<ref 8288>]" ++ 0 :: l).
Proof. eexists. vm_compute. reflexivity. Qed.
