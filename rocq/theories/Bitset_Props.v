(** C10 bitset, C61 span. *)
From Coq Require Import Arith ZifyNat.
From Verif Require Import Base Bitset_Model Bitset_Spec.
Ltac Zify.zify_post_hook ::= Z.div_mod_to_equations.
Local Open Scope Z_scope.

Definition bit (d : list Z) (i : nat) : bool := Z.testbit (nth (Nat.div i 8) d 0) (Z.of_nat (Nat.modulo i 8)).

Lemma land_bit b k : 0 <= k -> negb (Z.land b (Z.shiftl 1 k) =? 0) = Z.testbit b k.
Proof.
  intro Hk. rewrite Z.shiftl_1_l. destruct (Z.testbit b k) eqn:E.
  - destruct (Z.eqb_spec (Z.land b (2 ^ k)) 0) as [H|H]; [|reflexivity].
    apply (f_equal (fun x => Z.testbit x k)) in H. rewrite Z.land_spec, Z.pow2_bits_true, E, Z.bits_0 in H by lia.
    discriminate.
  - replace (Z.land b (2 ^ k)) with 0; [reflexivity|]. symmetry. apply Z.bits_inj'. intros n Hn.
    rewrite Z.land_spec, Z.bits_0. destruct (Z.eq_dec n k) as [->|].
    + now rewrite E.
    + rewrite Z.pow2_bits_false by lia. apply andb_false_r.
Qed.

Lemma u8_bit x k : 0 <= k < 8 -> Z.testbit (u8 x) k = Z.testbit x k.
Proof. intro. unfold u8. apply Z.mod_pow2_bits_low. lia. Qed.

Lemma byte_index N i : (i < N)%nat -> (Nat.div i 8 < bytes_for N)%nat.
Proof. unfold bytes_for. lia. Qed.

Lemma get_ok N d i : length d = bytes_for N -> (i < N)%nat -> bs_get N d i = Ok (bit d i).
Proof.
  intros L H. pose proof (byte_index N i H). unfold bs_get, guard, bit. rewrite (proj2 (Nat.ltb_lt i N) H).
  rewrite (get_nth 0) by lia. cbn [bind]. f_equal. apply land_bit. lia.
Qed.

(** Any write of a byte whose bits are those of the old byte except at one position. *)
Lemma write_ok d i v x : (Nat.div i 8 < length d)%nat ->
  (forall k, 0 <= k < 8 -> Z.testbit x k = if k =? Z.of_nat (Nat.modulo i 8) then v else Z.testbit (nth (Nat.div i 8) d 0) k) ->
  forall j, bit (upd d (Nat.div i 8) x) j = if (j =? i)%nat then v else bit d j.
Proof.
  intros L H j. unfold bit.
  destruct (Nat.eq_dec (Nat.div j 8) (Nat.div i 8)) as [E|E].
  - rewrite E, nth_upd_eq by auto. rewrite H by lia.
    destruct (Nat.eqb_spec j i) as [->|]; [now rewrite Z.eqb_refl|].
    destruct (Z.eqb_spec (Z.of_nat (Nat.modulo j 8)) (Z.of_nat (Nat.modulo i 8))); [lia | reflexivity].
  - rewrite nth_upd_ne by auto. destruct (Nat.eqb_spec j i); [congruence | reflexivity].
Qed.

Lemma set_ok N d i : length d = bytes_for N -> (i < N)%nat ->
  exists d', bs_set N d i = Ok d' /\ length d' = bytes_for N /\
             forall j, bit d' j = if (j =? i)%nat then true else bit d j.
Proof.
  intros L H. pose proof (byte_index N i H). unfold bs_set, guard. rewrite (proj2 (Nat.ltb_lt i N) H). rewrite (get_nth 0) by lia. cbn [bind].
  rewrite set_Ok by lia. eexists. split; [reflexivity|]. split; [now rewrite upd_length|].
  apply write_ok; [lia|]. intros k Hk. rewrite u8_bit, Z.lor_spec, Z.shiftl_1_l by lia.
  destruct (Z.eqb_spec k (Z.of_nat (Nat.modulo i 8))) as [->|].
  - rewrite Z.pow2_bits_true by lia. apply orb_true_r.
  - rewrite Z.pow2_bits_false by lia. apply orb_false_r.
Qed.

Lemma reset_ok N d i : length d = bytes_for N -> (i < N)%nat ->
  exists d', bs_reset N d i = Ok d' /\ length d' = bytes_for N /\
             forall j, bit d' j = if (j =? i)%nat then false else bit d j.
Proof.
  intros L H. pose proof (byte_index N i H). unfold bs_reset, guard. rewrite (proj2 (Nat.ltb_lt i N) H). rewrite (get_nth 0) by lia. cbn [bind].
  rewrite set_Ok by lia. eexists. split; [reflexivity|]. split; [now rewrite upd_length|].
  apply write_ok; [lia|]. intros k Hk. rewrite u8_bit, Z.land_spec, Z.lnot_spec, Z.shiftl_1_l by lia.
  destruct (Z.eqb_spec k (Z.of_nat (Nat.modulo i 8))) as [->|].
  - rewrite Z.pow2_bits_true by lia. apply andb_false_r.
  - rewrite Z.pow2_bits_false by lia. apply andb_true_r.
Qed.

Lemma put_ok N d i v : length d = bytes_for N -> (i < N)%nat ->
  exists d', bs_put N d i v = Ok d' /\ length d' = bytes_for N /\
             forall j, bit d' j = if (j =? i)%nat then v else bit d j.
Proof. intros. destruct v; [now apply set_ok | now apply reset_ok]. Qed.

Lemma all_ok N d (v : bool) : length d = bytes_for N ->
  exists d', (if v then bs_set_all N d else bs_reset_all N d) = Ok d' /\ length d' = bytes_for N /\
             forall j, (j < N)%nat -> bit d' j = v.
Proof.
  intros L. unfold bs_set_all, bs_reset_all.
  rewrite (proj2 (Nat.leb_le _ _)) by lia.
  exists (repeat (if v then 255 else 0) (bytes_for N) ++ skipn (bytes_for N) d).
  split; [destruct v; reflexivity|].
  split; [rewrite app_length, repeat_length, skipn_length; lia|].
  intros j Hj. pose proof (byte_index N j Hj). unfold bit. rewrite app_nth1 by (rewrite repeat_length; lia).
  rewrite (nth_indep _ 0 (if v then 255 else 0)), nth_repeat by (rewrite repeat_length; lia).
  destruct v; [|apply Z.bits_0].
  change 255 with (Z.ones 8). apply Z.ones_spec_low. lia.
Qed.

Lemma bits_run_ext N os : forall f g, Forall (op_ok N) os -> (forall i, (i < N)%nat -> f i = g i) ->
  bits_run f os = bits_run g os.
Proof.
  induction os as [|o os IH]; intros f g F E; [reflexivity|]. inversion F; subst.
  destruct o; cbn [bits_run op_ok] in *.
  - rewrite E by auto. f_equal. auto.
  - reflexivity.
  - apply IH; auto. intros j Hj. destruct (j =? i)%nat; auto.
  - reflexivity.
  - apply IH; auto. intros j Hj. destruct (j =? i)%nat; auto.
  - apply IH; auto. intros j Hj. destruct (j =? i)%nat; auto.
Qed.

(** C10: from any initial bytes, every history with indices below N runs inside the byte array and
    reads what an array of booleans, started with what operator[] reads initially, would give. *)
Theorem C10_bitset_is_bool_array : forall (N : nat) (d : list Z) (os : list bs_op),
  length d = bytes_for N -> Forall (op_ok N) os ->
  exists f d', (forall i, (i < N)%nat -> bs_get N d i = Ok (f i)) /\
               bs_run N d os = Ok (bits_run f os, d') /\ length d' = length d.
Proof.
  intros N d os L F. exists (bit d).
  assert (G : exists d', bs_run N d os = Ok (bits_run (bit d) os, d') /\ length d' = bytes_for N).
  { revert d L. induction os as [|o os IH]; intros d L; [eexists; split; [reflexivity|auto]|].
    inversion F as [|? ? Fo Fs]; subst. specialize (IH Fs).
    destruct o; cbn [bs_run bits_run op_ok] in *.
    - rewrite (get_ok N) by auto. cbn [bind]. destruct (IH d L) as (d' & -> & L'). cbn [bind]. eauto.
    - destruct (all_ok N d true L) as (d1 & -> & L1 & B). cbn [bind].
      destruct (IH d1 L1) as (d' & -> & L'). exists d'. split; [|auto]. do 2 f_equal. now apply bits_run_ext with N.
    - destruct (set_ok N d i L Fo) as (d1 & -> & L1 & B). cbn [bind].
      destruct (IH d1 L1) as (d' & -> & L'). exists d'. split; [|auto]. do 2 f_equal. now apply bits_run_ext with N.
    - destruct (all_ok N d false L) as (d1 & -> & L1 & B). cbn [bind].
      destruct (IH d1 L1) as (d' & -> & L'). exists d'. split; [|auto]. do 2 f_equal. now apply bits_run_ext with N.
    - destruct (reset_ok N d i L Fo) as (d1 & -> & L1 & B). cbn [bind].
      destruct (IH d1 L1) as (d' & -> & L'). exists d'. split; [|auto]. do 2 f_equal. now apply bits_run_ext with N.
    - destruct (put_ok N d i v L Fo) as (d1 & -> & L1 & B). cbn [bind].
      destruct (IH d1 L1) as (d' & -> & L'). exists d'. split; [|auto]. do 2 f_equal. now apply bits_run_ext with N. }
  destruct G as (d' & G & L'). exists d'. split; [|split; [auto|lia]].
  intros i Hi. now apply (get_ok N).
Qed.
Print Assumptions C10_bitset_is_bool_array.

(** The object has just enough bytes: one fewer could not hold N bits. *)
Theorem C10_storage : forall N, (N <= 8 * bytes_for N < N + 8)%nat.
Proof.
  intro N. unfold bytes_for. pose proof (Nat.div_mod (N + 7) 8 ltac:(lia)). pose proof (Nat.mod_upper_bound (N + 7) 8 ltac:(lia)). lia.
Qed.
Print Assumptions C10_storage.

Example C10_example : bs_run 19 [1; 2; 255]
  [BGet 9; BReset 9; BGet 9; BPut 18 false; BGet 18; BGet 17; BSetAll; BGet 9; BReset 0; BGet 0; BGet 1; BResetAll; BSet 16; BGet 16; BGet 15]
  = Ok ([true; false; false; true; true; false; true; true; false], [0; 0; 1]).
Proof. vm_compute. reflexivity. Qed.

Lemma skipn_skipn' {A} (l : list A) n m : skipn n (skipn m l) = skipn (m + n) l.
Proof. revert l; induction m; intros l; cbn; [reflexivity|]. destruct l; [now rewrite skipn_nil | apply IHm]. Qed.

(** C61: what skip and trim leave, and that it lies inside the original. *)
Theorem C61_span_skip : forall (A : Type) (mem : list A) (s : span) (n : Z),
  span_in mem s -> 0 <= n < 2 ^ 64 ->
  elements mem (skip s n) = skipn (Z.to_nat n) (elements mem s) /\
  sp_data s <= sp_data (skip s n) /\ 0 <= sp_size (skip s n) /\
  sp_data (skip s n) + sp_size (skip s n) <= sp_data s + sp_size s.
Proof.
  intros A mem [sz da] n (H1 & H2 & H3) Hn. unfold skip, elements. cbn [sp_size sp_data] in *.
  destruct (Z.ltb_spec n sz) as [H|H]; cbn [sp_size sp_data].
  - unfold u64. rewrite Z.mod_small by lia. split; [|lia].
    rewrite skipn_firstn_comm, skipn_skipn'. f_equal; [lia|]. f_equal. lia.
  - split; [|lia]. cbn. symmetry. apply skipn_all2. rewrite firstn_length. lia.
Qed.
Print Assumptions C61_span_skip.

Theorem C61_span_trim : forall (A : Type) (mem : list A) (s : span) (n : Z),
  span_in mem s -> 0 <= n < 2 ^ 64 ->
  elements mem (trim s n) = firstn (Z.to_nat (sp_size s) - Z.to_nat n) (elements mem s) /\
  sp_data (trim s n) = sp_data s /\ 0 <= sp_size (trim s n) <= sp_size s.
Proof.
  intros A mem [sz da] n (H1 & H2 & H3) Hn. unfold trim, elements. cbn [sp_size sp_data] in *.
  destruct (Z.ltb_spec n sz) as [H|H]; cbn [sp_size sp_data].
  - unfold u64. rewrite Z.mod_small by lia. split; [|lia].
    rewrite firstn_firstn. f_equal. lia.
  - split; [|lia]. replace (Z.to_nat sz - Z.to_nat n)%nat with 0%nat by lia. reflexivity.
Qed.
Print Assumptions C61_span_trim.

Example C61_example : span_in [10; 11; 12; 13; 14] {| sp_size := 3; sp_data := 1 |} /\
  elements [10; 11; 12; 13; 14] (skip {| sp_size := 3; sp_data := 1 |} 2) = [13] /\
  elements [10; 11; 12; 13; 14] (trim {| sp_size := 3; sp_data := 1 |} 2) = [11].
Proof. unfold span_in. cbn. repeat split; lia. Qed.
