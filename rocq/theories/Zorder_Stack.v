(** How many spans z_query can have pending. *)
From Coq Require Import List ZArith Lia Bool.
Import ListNotations.
From Verif Require Import Base Bits Zorder_Model Zorder_Spec Zorder_Proofs.
Local Open Scope Z_scope.

Lemma xor_high a b q : 0 <= a -> 0 <= b -> 0 <= q -> Z.lxor a b < 2 ^ q -> a / 2 ^ q = b / 2 ^ q.
Proof.
  intros Ha Hb Hq H. apply Z.bits_inj'. intros i Hi. rewrite !Z.div_pow2_bits by lia.
  assert (E : Z.testbit (Z.lxor a b) (i + q) = false) by (apply (bit_small _ q); [split; [apply Z.lxor_nonneg; tauto|assumption]|lia]).
  rewrite Z.lxor_spec in E. destruct (Z.testbit a (i + q)), (Z.testbit b (i + q)); try reflexivity; discriminate.
Qed.

(** [a, b] can be split at most n times into two halves of which the lower is taken: it has at most 2^n cells, or it ends with a block and has
    less than 2^(n + 1) cells. *)
Definition lefts (n a b : Z) : Prop := 0 <= n /\
  (b - a < 2 ^ n \/ exists q, 0 <= q /\ (b + 1) mod 2 ^ q = 0 /\ Z.lxor a b < 2 ^ q /\ b - a + 1 < 2 ^ (n + 1)).

Lemma lefts_split n a b c q : 0 <= a -> 0 <= q -> c mod 2 ^ q = 0 -> a < c <= b -> Z.lxor a (c - 1) < 2 ^ q -> Z.lxor c b < 2 ^ q -> 2 ^ q <= Z.lxor a b ->
  lefts n a b -> 1 <= n /\ lefts (n - 1) a (c - 1) /\ lefts n c b.
Proof.
  intros Ha Hq Mc Hc X1 X2 X3 (Hn & H).
  assert (Wq : 0 < 2 ^ q) by (apply Z.pow_pos_nonneg; lia).
  assert (N : forall m, 0 <= m -> 1 < 2 ^ m -> 1 <= m) by (intros m Hm H1; destruct (Z.eq_dec m 0) as [->|]; [cbn in H1; lia|lia]).
  destruct H as [H|(q2 & Hq2 & M2 & Y & H)].
  - assert (Hn1 : 1 <= n) by (apply N; lia). split; [assumption|]. split.
    + split; [lia|]. right. exists q. split; [assumption|]. replace (c - 1 + 1) with c by ring. split; [assumption|]. split; [assumption|]. replace (n - 1 + 1) with n by ring. lia.
    + split; [assumption|]. left. lia.
  - assert (Lq : q < q2) by (apply (Z.pow_lt_mono_r_iff 2); lia).
    assert (Hn1 : 1 <= n). { assert (1 <= n + 1 - 1); [|lia]. apply N; [lia|]. replace (n + 1) with (1 + n) in H by ring. rewrite Z.pow_add_r in H by lia. replace (n + 1 - 1) with n by ring. lia. }
    split; [assumption|].
    assert (Mb : (b + 1) mod 2 ^ q = 0).
    { replace q2 with (q + (q2 - q)) in M2 by ring. rewrite Z.pow_add_r in M2 by lia. apply Z.mod_divide in M2; [|assert (0 < 2 ^ (q2 - q)) by (apply Z.pow_pos_nonneg; lia); nia]. destruct M2 as (e & Ee). rewrite Ee.
      apply Z.mod_divide; [lia|]. exists (e * 2 ^ (q2 - q)). ring. }
    pose proof (xor_high a (c - 1) q Ha ltac:(lia) Hq X1) as E1. pose proof (xor_high c b q ltac:(lia) ltac:(lia) Hq X2) as E2.
    set (w := 2 ^ q) in *.
    pose proof (Z.div_mod c w ltac:(lia)) as Dc. rewrite Mc in Dc. pose proof (Z.div_mod (b + 1) w ltac:(lia)) as Db1. rewrite Mb in Db1.
    pose proof (Z.div_mod b w ltac:(lia)) as Db. pose proof (Z.mod_pos_bound b w Wq) as Rb. rewrite <- E2 in Db.
    pose proof (Z.div_mod a w ltac:(lia)) as Da. pose proof (Z.mod_pos_bound a w Wq) as Ra. rewrite E1 in Da.
    pose proof (Z.div_mod (c - 1) w ltac:(lia)) as Dd. pose proof (Z.mod_pos_bound (c - 1) w Wq) as Rd.
    assert (Eb : b + 1 = c + w).
    { set (u := (b + 1) / w) in *. set (v := c / w) in *. assert (v < u) by nia. assert (u <= v + 1) by nia. nia. }
    assert (Ea : c - w <= a).
    { set (u := (c - 1) / w) in *. set (v := c / w) in *. assert (v - 1 <= u) by nia. nia. }
    assert (Ew : 2 ^ (n + 1) = 2 * 2 ^ n) by (rewrite Z.pow_add_r by lia; ring).
    split.
    + split; [lia|]. right. exists q. split; [assumption|]. replace (c - 1 + 1) with c by ring. split; [assumption|]. split; [assumption|]. replace (n - 1 + 1) with n by ring. lia.
    + split; [lia|]. right. exists q2. split; [assumption|]. split; [assumption|]. split; [|lia].
      assert (2 ^ q < 2 ^ q2) by (apply Z.pow_lt_mono_r; lia). fold w in H0. lia.
Qed.

Lemma halves_lefts n s q lo hi jo ji : box lo hi -> code jo -> code ji -> s = 0 \/ s = 1 -> 0 <= q -> halves s q lo hi jo ji -> lefts n (D s lo) (D s hi) ->
  1 <= n /\ lefts (n - 1) (D s lo) (D s jo) /\ lefts n (D s ji) (D s hi).
Proof.
  intros (Cl & Ch & _) Cj Ci Hs Hq (A1 & A2 & A3 & A4 & A5 & A6 & A7 & A8 & A9) L. rewrite A3 in A7 |- *.
  eapply lefts_split; try eassumption. apply D_range; assumption.
Qed.

(** With k spans below it, a box leaves room for all the spans it may push. *)
Definition room (lo hi k : Z) : Prop := exists nx ny, lefts nx (D 0 lo) (D 0 hi) /\ lefts ny (D 1 lo) (D 1 hi) /\ k + nx + ny <= 32.

Lemma halves_room k s q lo hi jo ji : box lo hi -> code jo -> code ji -> s = 0 \/ s = 1 -> 0 <= q -> halves s q lo hi jo ji -> room lo hi k -> 0 <= k ->
  k < 32 /\ room lo jo (k + 1) /\ room ji hi k.
Proof.
  intros Bx Cj Ci Hs Hq H (nx & ny & Lx & Ly & Hk) Hk0. pose proof H as (_ & _ & _ & A4 & A5 & _).
  assert (0 <= nx) by apply Lx. assert (0 <= ny) by apply Ly.
  destruct Hs as [-> | ->]; [change (1 - 0) with 1 in *|change (1 - 1) with 0 in *].
  - destruct (halves_lefts nx 0 q lo hi jo ji Bx Cj Ci ltac:(auto) Hq H Lx) as (N1 & L1 & L2). split; [lia|]. split.
    + exists (nx - 1), ny. rewrite A4. split; [assumption|]. split; [assumption|lia].
    + exists nx, ny. rewrite A5. split; [assumption|]. split; [assumption|lia].
  - destruct (halves_lefts ny 1 q lo hi jo ji Bx Cj Ci ltac:(auto) Hq H Ly) as (N1 & L1 & L2). split; [lia|]. split.
    + exists nx, (ny - 1). rewrite A4. split; [assumption|]. split; [assumption|lia].
    + exists nx, ny. rewrite A5. split; [assumption|]. split; [assumption|lia].
Qed.

Fixpoint stacked (spans : list (Z * Z)) : Prop :=
  match spans with [] => True | (l, h) :: r => box l h /\ room l h (Z.of_nat (length r)) /\ stacked r end.

Lemma pop_stacked spans : forall lo hi zn, box lo hi -> room lo hi (Z.of_nat (length spans)) -> stacked spans ->
  match z_pop zn lo hi spans with
  | None => True
  | Some (lo', hi', spans') => box lo' hi' /\ room lo' hi' (Z.of_nat (length spans')) /\ stacked spans'
  end.
Proof.
  induction spans as [|(l, h) r IH]; intros lo hi zn Bx Ro St; cbn [z_pop]; destruct (u64 (hi + 65535) <? zn); auto.
  destruct St as (B1 & R1 & S1). apply IH; assumption.
Qed.

Lemma descend_stacked fuel : forall test zn lo hi spans, box lo hi -> room lo hi (Z.of_nat (length spans)) -> stacked spans ->
  match z_descend fuel test zn lo hi spans with
  | Ok (_, lo', hi', spans') => box lo' hi' /\ room lo' hi' (Z.of_nat (length spans')) /\ stacked spans'
  | UB => False
  | Timeout => True
  end.
Proof.
  induction fuel as [|fuel IH]; intros test zn lo hi spans Bx Ro St; cbn [z_descend]; [exact I|].
  destruct (test && (zn <? lo)); [auto|].
  pose proof (split_spec lo hi Bx) as Sp. destruct (z_split lo hi) as [[more mo] mi]. destruct more; [|auto].
  destruct Sp as (Cj & Ci & Mj & Mi & [[_ E]|(Jc & s & q & Hs & Hq & H)]); [discriminate|].
  destruct (halves_box s q lo hi mo mi Bx Cj Ci Hs H) as (B1 & B2 & _).
  destruct (halves_room _ s q lo hi mo mi Bx Cj Ci Hs ltac:(lia) H Ro ltac:(lia)) as (K & R1 & R2).
  destruct (u64 (mo + 65535) <? zn); [apply IH; assumption|].
  destruct (Z.leb_spec 32 (Z.of_nat (length spans))); [lia|]. apply IH; [assumption| |].
  - cbn [length]. rewrite Nat2Z.inj_succ. unfold Z.succ. exact R1.
  - cbn [stacked]. auto.
Qed.

Lemma loop_stacked fuel data last : ascending data -> last <= Z.of_nat (length data) -> forall i lo hi spans out, 0 <= i -> box lo hi -> room lo hi (Z.of_nat (length spans)) -> stacked spans ->
  z_loop fuel data last i lo hi spans out <> UB.
Proof.
  intros A HL. induction fuel as [|fuel IH]; intros i lo hi spans out Hi Bx Ro St; cbn [z_loop]; destruct (Z.ltb_spec i last); try discriminate.
  destruct (getz_ok data i ltac:(lia)) as (zn & -> & _). cbn [bind]. cbv zeta.
  pose proof (pop_stacked spans lo hi zn Bx Ro St) as Pp. destruct (z_pop zn lo hi spans) as [[[lo1 hi1] spans1]|]; [|discriminate]. destruct Pp as (Bx1 & Ro1 & St1).
  pose proof (descend_stacked 64 true zn lo1 hi1 spans1 Bx1 Ro1 St1) as De. destruct (z_descend 64 true zn lo1 hi1 spans1) as [[[[found lo2] hi2] spans2]| |]; cbn [bind]; [|contradiction|discriminate].
  destruct De as (Bx2 & Ro2 & St2). destruct found; [apply IH; auto; lia|].
  destruct (lower_bound_ok data (i + 1) last lo2 A ltac:(lia) HL) as (r0 & -> & Hr & _). cbn [bind]. apply IH; auto. lia.
Qed.

Theorem query_stack lo hi data nx ny : box lo hi -> ascending data -> D 0 hi - D 0 lo < 2 ^ nx -> D 1 hi - D 1 lo < 2 ^ ny -> 0 <= nx -> 0 <= ny -> nx + ny <= 32 ->
  z_query lo hi data <> UB.
Proof.
  intros Bx A Hx Hy Nx Ny N. unfold z_query. destruct (lower_bound_ok data 0 (Z.of_nat (length data)) (u64 (hi + 65535)) A ltac:(lia) ltac:(lia)) as (last & -> & Hlast & _). cbn [bind].
  apply loop_stacked; [assumption|lia|lia|assumption| |exact I]. exists nx, ny. split; [split; auto|]. split; [split; auto|]. cbn [length]. lia.
Qed.

(** * An upper corner in the last cell, where hi + 0xffff wraps around *)

Lemma loop_prefix fuel data last (Q : Z -> Prop) : ascending data -> last <= Z.of_nat (length data) -> (forall k v, 0 <= k < last -> nthz data k = Some v -> Q v) ->
  forall i lo hi spans out res, 0 <= i -> Forall Q out -> z_loop fuel data last i lo hi spans out = Ok res -> Forall Q res.
Proof.
  intros A HL HQ. induction fuel as [|fuel IH]; intros i lo hi spans out res Hi F; cbn [z_loop]; destruct (Z.ltb_spec i last); [discriminate|intros [= <-]; assumption| |intros [= <-]; assumption].
  destruct (getz_ok data i ltac:(lia)) as (zn & -> & Ez). cbn [bind]. cbv zeta.
  destruct (z_pop zn lo hi spans) as [[[lo1 hi1] spans1]|]; [|intros [= <-]; assumption].
  destruct (z_descend 64 true zn lo1 hi1 spans1) as [[[[found lo2] hi2] spans2]| |]; cbn [bind]; try discriminate.
  destruct found.
  - apply IH; [lia|]. apply Forall_app. split; [assumption|]. constructor; [|constructor]. apply (HQ i); [lia|assumption].
  - destruct (lower_bound_ok data (i + 1) last lo2 A ltac:(lia) HL) as (r0 & -> & Hr & _). cbn [bind]. apply IH; [lia|assumption].
Qed.

Lemma descend_below fuel zn lo hi spans : zn < lo -> z_descend (S fuel) true zn lo hi spans = Ok (false, lo, hi, spans).
Proof. intro H. cbn [z_descend]. apply Z.ltb_lt in H. now rewrite H. Qed.

Theorem query_wrapped lo hi data : ascending data -> 2 ^ 64 - 65535 <= hi < 2 ^ 64 ->
  (forall out, z_query lo hi data = Ok out -> Forall (fun z => z < hi + 65535 - 2 ^ 64) out) /\ (hi + 65535 - 2 ^ 64 <= lo -> z_query lo hi data = Ok []).
Proof.
  intros A Hh. assert (EU : u64 (hi + 65535) = hi + 65535 - 2 ^ 64). { unfold u64. rewrite <- (Z.mod_add _ (-1)) by lia. apply Z.mod_small. lia. }
  unfold z_query. rewrite EU. set (L := hi + 65535 - 2 ^ 64) in *.
  destruct (lower_bound_ok data 0 (Z.of_nat (length data)) L A ltac:(lia) ltac:(lia)) as (last & -> & Hlast & Lt & _). cbn [bind]. split.
  - intros out E. eapply (loop_prefix _ data last (fun z => z < L)); [exact A|lia|exact Lt|apply Z.le_refl|constructor|exact E].
  - intro Hlo. destruct (Z.to_nat last) as [|fuel] eqn:Ef; cbn [z_loop]; destruct (Z.ltb_spec 0 last); [lia|reflexivity| |reflexivity].
    destruct (getz_ok data 0 ltac:(lia)) as (zn & -> & Ez). cbn [bind]. cbv zeta. pose proof (Lt 0 zn ltac:(lia) Ez) as Hz.
    cbn [z_pop]. rewrite EU. fold L. destruct (Z.ltb_spec L zn); [lia|]. rewrite (descend_below 63) by lia. cbn [bind].
    destruct (lower_bound_ok data (0 + 1) last lo A ltac:(lia) ltac:(lia)) as (r0 & -> & Hr & _ & Hge). cbn [bind].
    assert (r0 = last). { destruct (Z.eq_dec r0 last); [assumption|]. destruct (getz_ok data r0 ltac:(lia)) as (v & _ & Ev). pose proof (Lt r0 v ltac:(lia) Ev). pose proof (Hge r0 v ltac:(lia) Ev). lia. }
    subst r0. destruct fuel; cbn [z_loop]; rewrite Z.ltb_irrefl; reflexivity.
Qed.
