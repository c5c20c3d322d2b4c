(** Data embedded in a program as text: lziii::decoder<base64::decoder<T>>, which lziii.h:93-100 is made for (its source has a size and a
    data member, as base64::decoder has). *)
From Coq Require Import String.
From Verif Require Import Base Base64_Model Base64_Spec Base64_Props Lziii_Model Lziii_Spec Lziii_Props.
Local Open Scope list_scope.
Local Open Scope Z_scope.

(** ce.h:894-900 inside lziii.h:93-100. *)
Definition embedded (text : list Z) : res (list (option Z)) := bytes <- b64_decoder text ;; lz_decoder bytes.

Lemma payload_bytes t : token_ok t -> Forall byte (payload t).
Proof.
  destruct t as [b|d n]; cbn [token_ok payload]; intro H; [repeat constructor; apply H|]. destruct H as [H1 H2].
  repeat constructor; unfold byte; try (apply Z.mod_pos_bound; lia).
  - assert (0 <= (4096 - d) / 256) by (apply Z.div_pos; lia). lia.
  - assert ((4096 - d) / 256 < 16) by (apply Z.div_lt_upper_bound; lia). lia.
Qed.
Lemma stream_bytes ts s : stream ts s -> Forall byte s.
Proof.
  induction 1 as [|c g ts rest Hc Hl Hb Hok Hs H IH]; [constructor|]. constructor; [exact Hc|]. apply Forall_app. split; [|exact IH].
  clear - Hok. induction Hok as [|t g Ht _ IH]; [constructor|]. cbn [flat_map]. apply Forall_app. split; [now apply payload_bytes|exact IH].
Qed.
Lemma stream_length ts s : stream ts s -> length s = (length (flat_map payload ts) + (length ts + 7) / 8)%nat.
Proof.
  induction 1 as [|c g ts rest Hc Hl Hb Hok Hs H IH]; [reflexivity|].
  cbn [length]. rewrite flat_map_app, !app_length, IH.
  assert (D : ((length g + length ts + 7) / 8 = 1 + (length ts + 7) / 8)%nat).
  { destruct Hs as [L|L].
    - rewrite L. replace (8 + length ts + 7)%nat with (length ts + 7 + 1 * 8)%nat by lia. rewrite Nat.div_add by lia. lia.
    - rewrite L. cbn [length]. change ((0 + 7) / 8)%nat with 0%nat. rewrite Nat.add_0_r, Nat.add_0_r.
      symmetry. apply (Nat.div_unique _ 8 1 (length g - 1)); lia. }
  rewrite D. lia.
Qed.

(** *** C108: whatever follows the text, the members of the decoders get the data of any stream, *)
Theorem C108_any_stream ts s out t rest : stream ts s -> expand [] ts = Some out -> ~ in_alphabet t -> Z.of_nat (length s) < 2 ^ 58 ->
  embedded (encode s ++ t :: rest) = Ok (map Some out).
Proof.
  intros S X T L. unfold embedded. rewrite C23_round_trip; [|exact (stream_bytes _ _ S)|exact T|lia]. cbn [bind].
  apply (C25_decoder ts); [exact S|exact X|].
  pose proof (expand_length ts [] out (stream_ok _ _ S) X) as E. cbn [length Z.of_nat] in E. rewrite E.
  assert (G : total_len ts <= 18 * Z.of_nat (length s)); [|lia].
  pose proof (stream_length _ _ S) as SL. pose proof (stream_ok _ _ S) as F.
  assert (G : total_len ts <= 18 * Z.of_nat (length (flat_map payload ts))); [|lia].
  clear - F. induction F as [|t ts Ht _ IH]; [cbn; lia|]. change (total_len (t :: ts)) with (token_len t + total_len ts).
  cbn [flat_map]. rewrite app_length. destruct t; cbn [token_ok token_len payload length] in *; lia.
Qed.
Print Assumptions C108_any_stream.

(** *** and every data has a stream: one with one more byte for each eight. *)
Theorem C108_every_data data : Forall b64_byte data -> Z.of_nat (length data) < 2 ^ 57 ->
  exists s, Forall b64_byte s /\ length s = (length data + (length data + 7) / 8)%nat /\
    forall t rest, ~ in_alphabet t -> embedded (encode s ++ t :: rest) = Ok (map Some data).
Proof.
  intros F L. assert (Fo : Forall token_ok (map Lit data)) by (apply Forall_map; exact F).
  destruct (C25_every_token_sequence _ Fo) as (s & S). exists s.
  assert (P : flat_map payload (map Lit data) = data) by (clear; induction data as [|b d IH]; [reflexivity|]; cbn [map flat_map payload app]; now rewrite IH).
  assert (X : forall o, expand o (map Lit data) = Some (o ++ data)).
  { clear. induction data as [|b d IH]; intro o; cbn [map expand]; [now rewrite app_nil_r|]. rewrite IH, <- app_assoc. reflexivity. }
  pose proof (stream_length _ _ S) as E. rewrite P, map_length in E. split; [exact (stream_bytes _ _ S)|]. split; [exact E|]. intros t rest T.
  apply (C108_any_stream (map Lit data)); [exact S|rewrite X; reflexivity|exact T|].
  assert ((length data + 7) / 8 <= length data)%nat; [|lia].
  destruct data as [|b d]; [cbn; lia|]. apply Nat.div_le_upper_bound; cbn [length]; lia.
Qed.
Print Assumptions C108_every_data.

(** *** C108: no stream is shorter than 17 bytes for 144, *)
Definition lits (ts : list token) : Z := Z.of_nat (length (filter is_lit ts)).
Lemma lits_app a b : lits (a ++ b) = lits a + lits b.
Proof. unfold lits. rewrite filter_app, app_length. lia. Qed.
Lemma group_ratio g : Forall token_ok g -> 17 * total_len g + 145 * lits g <= 144 * Z.of_nat (length (flat_map payload g)) + 18 * Z.of_nat (length g).
Proof.
  induction 1 as [|t g Ht _ IH]; [cbn; lia|]. change (total_len (t :: g)) with (token_len t + total_len g).
  change (t :: g) with ([t] ++ g). rewrite lits_app. cbn [app flat_map length]. rewrite app_length.
  destruct t; unfold lits at 1; cbn [token_ok token_len payload length filter is_lit Z.of_nat] in *; lia.
Qed.
Lemma total_app a b : total_len (a ++ b) = total_len a + total_len b.
Proof. induction a as [|t a IH]; [reflexivity|]. cbn [app]. change (total_len (t :: a ++ b)) with (token_len t + total_len (a ++ b)). rewrite IH. change (total_len (t :: a)) with (token_len t + total_len a). lia. Qed.
Lemma stream_ratio ts s : stream ts s -> 17 * total_len ts + 145 * lits ts <= 144 * Z.of_nat (length s).
Proof.
  induction 1 as [|c g ts rest Hc Hl Hb Hok Hs H IH]; [cbn; lia|]. rewrite total_app, lits_app. pose proof (group_ratio g Hok).
  cbn [length]. rewrite app_length. lia.
Qed.
Theorem C108_ratio src res : Forall byte src -> Z.of_nat (length src) < 2 ^ 58 -> lz_decoder src = Ok res -> res <> [] ->
  17 * Z.of_nat (length res) + 145 <= 144 * Z.of_nat (length src).
Proof.
  intros B L D N. destruct (C26_decoder src B L) as [_ C]. apply C in D. destruct D as (ts & out & S & X & ->). rewrite map_length.
  pose proof (stream_ratio _ _ S) as R. pose proof (stream_ok _ _ S) as F.
  pose proof (expand_length ts [] out F X) as E. cbn [length Z.of_nat] in E.
  assert (1 <= lits ts); [|lia].
  destruct ts as [|[b|d n] ts]; [cbn in X; injection X as <-; now elim N| |].
  - unfold lits. cbn [filter is_lit length]. lia.
  - inversion F as [|? ? Ht _]; subst. cbn [token_ok] in Ht. cbn [expand length Z.of_nat] in X. rewrite (proj2 (Z.leb_gt d 0)) in X by lia. discriminate.
Qed.
Print Assumptions C108_ratio.

(** *** and streams with exactly that many bytes are there for data as long as one likes. *)
Lemma copy_last (b : Z) n : forall m, (1 <= m)%nat -> copy (repeat b m) 1 n = Some (repeat b (m + n)).
Proof.
  induction n as [|n IH]; intros m H; cbn [copy]; [now rewrite Nat.add_0_r|].
  rewrite repeat_length, (nth_error_repeat b) by lia. change [b] with (repeat b 1). rewrite <- repeat_app, IH by lia. do 2 f_equal. lia.
Qed.
Lemma expand_run (b : Z) j : forall m, (1 <= m)%nat -> expand (repeat b m) (repeat (Span 1 18) j) = Some (repeat b (m + 18 * j)).
Proof.
  induction j as [|j IH]; intros m H; cbn [repeat expand]; [now rewrite Nat.mul_0_r, Nat.add_0_r|].
  rewrite repeat_length, (proj2 (Z.leb_le 1 (Z.of_nat m))) by lia. change (Z.to_nat 1) with 1%nat. change (Z.to_nat 18) with 18%nat.
  rewrite copy_last by lia. rewrite IH by lia. do 2 f_equal. lia.
Qed.
Lemma map_Some_repeat (b : Z) n : map Some (repeat b n) = repeat (Some b) n.
Proof. induction n as [|n IH]; [reflexivity|]. cbn [repeat map]. now rewrite IH. Qed.
Theorem C108_ratio_reached (b : Z) (k : nat) : 0 <= b < 256 -> Z.of_nat (127 + 144 * k) < 2 ^ 63 -> exists src,
  Forall byte src /\ lz_decoder src = Ok (repeat (Some b) (127 + 144 * k)) /\
  17 * Z.of_nat (127 + 144 * k) + 145 = 144 * Z.of_nat (length src).
Proof.
  intros Hb Hk. set (ts := Lit b :: repeat (Span 1 18) (7 + 8 * k)).
  assert (F : Forall token_ok ts).
  { constructor; [exact Hb|]. apply Forall_forall. intros t Ht. apply repeat_spec in Ht. subst t. cbn [token_ok]. lia. }
  destruct (C25_every_token_sequence ts F) as (s & S). exists s. split; [exact (stream_bytes _ _ S)|]. split.
  - assert (X : expand [] ts = Some (repeat b (127 + 144 * k))); [|rewrite (C25_decoder ts s _ S X), map_Some_repeat; [reflexivity|now rewrite repeat_length]].
    unfold ts. cbn [expand app]. change [b] with (repeat b 1). rewrite expand_run by lia. do 2 f_equal. lia.
  - pose proof (stream_length _ _ S) as E.
    assert (P : forall j, length (flat_map payload (repeat (Span 1 18) j)) = (2 * j)%nat).
    { clear. induction j as [|j IH]; [reflexivity|]. cbn [repeat flat_map]. rewrite app_length, IH. cbn [payload length]. lia. }
    assert (Lt : length ts = (8 + 8 * k)%nat) by (unfold ts; cbn [length]; rewrite repeat_length; lia).
    rewrite Lt in E. unfold ts in E. cbn [flat_map] in E. rewrite app_length, P in E. cbn [payload length] in E.
    replace ((8 + 8 * k + 7) / 8)%nat with (1 + k)%nat in E by (apply (Nat.div_unique _ 8 (1 + k) 7); lia). lia.
Qed.
Print Assumptions C108_ratio_reached.

(** The stream of C25_case as text, with a zero behind it; what it expands to takes 9 bytes. *)
Example C108_case :
  encode [23; 1; 2; 3; 254; 47; 9] = chars "FwECA/4vCQ"%string /\ ~ in_alphabet 0 /\
  embedded (chars "FwECA/4vCQ"%string ++ [0]) = Ok (map Some [1; 2; 3; 2; 3; 2; 3; 2; 9]) /\
  embedded (chars "AwEC=="%string ++ [0]) = Ok (map Some [1; 2]).
Proof.
  split; [vm_compute; reflexivity|]. split.
  - intros (v & V & E). unfold digit_char in E. repeat (match type of E with context [if ?c then _ else _] => destruct c eqn:? end); lia.
  - split; vm_compute; reflexivity.
Qed.
