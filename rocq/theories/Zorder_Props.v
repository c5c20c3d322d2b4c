(** Properties of zorder.h. *)
From Verif Require Import Base Bits Zorder_Model Zorder_Spec Zorder_Proofs Zorder_Near Zorder_Stack.
Local Open Scope Z_scope.

(** * C27: z_encode interleaves the bits and is a bijection, monotone in each coordinate *)

Theorem C27_interleaves : forall x y, int32 x -> int32 y -> is_code x y (z_encode x y).
Proof.
  intros x y Hx Hy. split; [now apply z_encode_eq|]. intros i Hi. rewrite !z_encode_bit by (auto; lia).
  rewrite odd_2i, odd_2i1, half_2i, half_2i1. auto.
Qed.
Print Assumptions C27_interleaves.

(** A point has one code only, so z_encode is determined by C27_interleaves. *)
Theorem C27_code_unique : forall x y z z', is_code x y z -> is_code x y z' -> z = z'.
Proof.
  intros x y z z' [R H] [R' H']. apply Z.bits_inj'. intros j Hj. destruct (Z_lt_ge_dec j 64); [|rewrite !(bit_small _ 64); auto; lia].
  destruct (odd_cases j Hj) as [(i & Hi & -> & _)|(i & Hi & -> & _)]; destruct (H i ltac:(lia)), (H' i ltac:(lia)); congruence.
Qed.
Print Assumptions C27_code_unique.

Theorem C27_injective : forall x y x' y', int32 x -> int32 y -> int32 x' -> int32 y' ->
  z_encode x y = z_encode x' y' -> x = x' /\ y = y'.
Proof.
  intros x y x' y' X Y X' Y' E.
  assert (G : forall a b, int32 a -> int32 b -> (forall i, 0 <= i < 32 -> Z.testbit (a + 2 ^ 31) i = Z.testbit (b + 2 ^ 31) i) -> a = b).
  { clear. unfold int32. intros a b Ha Hb H. assert (a + 2 ^ 31 = b + 2 ^ 31); [|lia]. apply Z.bits_inj'. intros i Hi.
    destruct (Z_lt_ge_dec i 32); [apply H; lia|]. rewrite !(bit_small _ 32); auto; lia. }
  destruct (C27_interleaves x y X Y) as [_ H], (C27_interleaves x' y' X' Y') as [_ H']. rewrite <- E in H'.
  split; apply G; auto; intros i Hi; destruct (H i Hi), (H' i Hi); congruence.
Qed.
Print Assumptions C27_injective.

Theorem C27_surjective : forall z, 0 <= z < 2 ^ 64 -> exists x y, int32 x /\ int32 y /\ z_encode x y = z.
Proof.
  intros z Hz.
  assert (G : forall s, 0 <= s -> 0 <= ev 32 (z / 2 ^ s) < 2 ^ 32 /\ forall i, 0 <= i < 32 -> Z.testbit (ev 32 (z / 2 ^ s)) i = Z.testbit z (2 * i + s)).
  { intros s Hs. split.
    - split; [apply ev_nonneg|]. apply range_of_bits; [lia|apply ev_nonneg|]. intros k Hk. rewrite ev_bit by lia.
      destruct (Z.ltb_spec k (Z.of_nat 32)); [lia|reflexivity].
    - intros i Hi. rewrite ev_bit, Z.div_pow2_bits by lia. destruct (Z.ltb_spec i (Z.of_nat 32)); [reflexivity|lia]. }
  destruct (G 0 ltac:(lia)) as [R0 B0], (G 1 ltac:(lia)) as [R1 B1]. 
  set (u := ev 32 (z / 2 ^ 0)) in *. set (v := ev 32 (z / 2 ^ 1)) in *. clearbody u v.
  exists (u - 2 ^ 31), (v - 2 ^ 31).
  assert (X : int32 (u - 2 ^ 31)) by (unfold int32; lia). assert (Y : int32 (v - 2 ^ 31)) by (unfold int32; lia).
  split; [assumption|]. split; [assumption|]. apply (C27_code_unique (u - 2 ^ 31) (v - 2 ^ 31)); [now apply C27_interleaves|].
  split; [assumption|]. intros i Hi. rewrite !Z.sub_add, B0, B1 by lia. rewrite Z.add_0_r. auto.
Qed.
Print Assumptions C27_surjective.

Lemma inside_bounds lo hi z : code lo -> code hi -> code z -> z_inside lo hi z = true -> lo <= z <= hi.
Proof. intros. now apply inside_cells. Qed.

Theorem C27_monotone : forall x y x' y', int32 x -> int32 y -> int32 x' -> int32 y' ->
  x <= x' -> y <= y' -> z_encode x y <= z_encode x' y'.
Proof.
  intros x y x' y' X Y X' Y' Hx Hy. apply (inside_bounds (z_encode x y) (z_encode x' y') (z_encode x' y')); try (now apply z_encode_eq).
  apply z_inside_rect; auto. unfold in_rect. lia.
Qed.
Print Assumptions C27_monotone.

Example C27_case : z_encode 5 (-3) = 7686143364045646515 /\ int32 5 /\ int32 (-3).
Proof. unfold int32. split; [vm_compute; reflexivity|lia]. Qed.

(** * C28: z_inside is the rectangle test *)

Theorem C28_rectangle : forall x0 y0 x1 y1 x y, int32 x0 -> int32 y0 -> int32 x1 -> int32 y1 -> int32 x -> int32 y ->
  (z_inside (z_encode x0 y0) (z_encode x1 y1) (z_encode x y) = true <-> in_rect x0 y0 x1 y1 x y).
Proof. exact z_inside_rect. Qed.
Print Assumptions C28_rectangle.

Example C28_case : z_inside (z_encode (-3) (-4)) (z_encode 10 7) (z_encode 10 (-4)) = true /\
  z_inside (z_encode (-3) (-4)) (z_encode 10 7) (z_encode 11 0) = false.
Proof. split; vm_compute; reflexivity. Qed.

(** * C29, C30 and C31: z_query *)

Lemma D_encode x y : int32 x -> int32 y -> D 0 (z_encode x y) = (x + 2 ^ 31) / 256 /\ D 1 (z_encode x y) = (y + 2 ^ 31) / 256.
Proof.
  intros Hx Hy. change 256 with (2 ^ 8). destruct (z_encode_eq x y Hx Hy) as [_ R].
  split; apply Z.bits_inj'; intros i Hi; rewrite D_bit, z_encode_bit, Z.div_pow2_bits by (auto; lia).
  - replace (16 + 0 + 2 * i) with (2 * (i + 8)) by ring. now rewrite odd_2i, half_2i.
  - replace (16 + 1 + 2 * i) with (2 * (i + 8) + 1) by ring. now rewrite odd_2i1, half_2i1.
Qed.

Lemma top_cell x y : int32 x -> int32 y -> x < 2 ^ 31 - 256 \/ y < 2 ^ 31 - 256 -> z_encode x y < 2 ^ 64 - 65535.
Proof.
  intros Hx Hy H. destruct (z_encode_eq x y Hx Hy) as [_ R]. destruct (D_encode x y Hx Hy) as [D0 D1].
  set (z := z_encode x y) in *. clearbody z.
  destruct (Z_lt_ge_dec z (2 ^ 64 - 65536)) as [|G]; [lia|]. exfalso.
  assert (C : cell z = 2 ^ 48 - 1).
  { pose proof (cell_bounds z). pose proof (cell_range z R). lia. }
  assert (T : forall s, s = 0 \/ s = 1 -> D s z = 2 ^ 24 - 1).
  { intros s Hs. change (2 ^ 24 - 1) with (Z.ones 24). apply Z.bits_inj'. intros i Hi. destruct (Z_lt_ge_dec i 24).
    - rewrite Z.ones_spec_low, <- cell_D_bit, C by (auto; lia). change (2 ^ 48 - 1) with (Z.ones 48). apply Z.ones_spec_low. lia.
    - rewrite Z.ones_spec_high by lia. apply (bit_small _ 24); [now apply D_range|lia]. }
  rewrite (T 0) in D0 by auto. rewrite (T 1) in D1 by auto. unfold int32 in *.
  destruct H as [H|H].
  - assert ((x + 2 ^ 31) / 256 < 2 ^ 24 - 1) by (apply Z.div_lt_upper_bound; lia). lia.
  - assert ((y + 2 ^ 31) / 256 < 2 ^ 24 - 1) by (apply Z.div_lt_upper_bound; lia). lia.
Qed.

(** The extent of a rectangle in one direction is small, or does not cross a multiple of 2^24. *)
Definition small_extent (a b : Z) : Prop := b - a <= 2 ^ 23 - 256 \/ (a + 2 ^ 31) / 2 ^ 24 = (b + 2 ^ 31) / 2 ^ 24.

Lemma small_P a b : int32 a -> int32 b -> a <= b -> small_extent a b -> P 16 ((a + 2 ^ 31) / 256) ((b + 2 ^ 31) / 256).
Proof.
  unfold int32. intros Ha Hb Hab [H|H].
  - exists 15. split; [lia|]. right. split; [|lia].
    pose proof (Z.div_mod (a + 2 ^ 31) 256 ltac:(lia)). pose proof (Z.mod_pos_bound (a + 2 ^ 31) 256 ltac:(lia)).
    pose proof (Z.div_mod (b + 2 ^ 31) 256 ltac:(lia)). pose proof (Z.mod_pos_bound (b + 2 ^ 31) 256 ltac:(lia)). change (2 ^ 15) with 32768. lia.
  - exists 16. split; [lia|]. left. split; [|lia]. apply same_high; try lia; try (apply Z.div_pos; lia).
    rewrite !Z.div_div by lia. exact H.
Qed.

Section Rect.
Variables x0 y0 x1 y1 : Z.
Hypothesis X0 : int32 x0.
Hypothesis Y0 : int32 y0.
Hypothesis X1 : int32 x1.
Hypothesis Y1 : int32 y1.
Hypothesis Hx : x0 <= x1.
Hypothesis Hy : y0 <= y1.
Hypothesis Htop : x1 < 2 ^ 31 - 256 \/ y1 < 2 ^ 31 - 256.

Lemma rect_query data B : ascending data -> Forall (fun z => 0 <= z < 2 ^ 64) data -> pot B (z_encode x0 y0) (z_encode x1 y1) -> B <= 48 ->
  match z_query (z_encode x0 y0) (z_encode x1 y1) data with
  | Timeout => False
  | UB => 32 < B
  | Ok out => subseq out data /\ Forall (fun z => z_encode x0 y0 <= z <= z_encode x1 y1 + 65535) out /\
      forall x y, int32 x -> int32 y -> in_rect x0 y0 x1 y1 x y -> count out (z_encode x y) = count data (z_encode x y)
  end.
Proof using All.
  intros A F Pt HB.
  destruct (D_encode x0 y0 X0 Y0) as [A0 A1], (D_encode x1 y1 X1 Y1) as [B0 B1].
  destruct (z_encode_eq x0 y0 X0 Y0) as [_ R0]. destruct (z_encode_eq x1 y1 X1 Y1) as [_ R1].
  pose proof (query_ok (z_encode x0 y0) (z_encode x1 y1) data B R0 R1 (top_cell x1 y1 X1 Y1 Htop)) as Q.
  rewrite A0, A1, B0, B1 in Q. specialize (Q ltac:(apply Z.div_le_mono; lia) ltac:(apply Z.div_le_mono; lia) A F Pt HB).
  destruct (z_query (z_encode x0 y0) (z_encode x1 y1) data); auto.
  destruct Q as (Q1 & Q2 & Q3). split; [assumption|]. split; [assumption|].
  intros x y X Y R. apply Q3; [now apply z_encode_eq|]. now apply z_inside_rect.
Qed.
End Rect.

(** C29: when z_query returns, every stored code of a point of the rectangle was written, as often as it is
    stored and in the stored order. Missing: rectangles whose upper corner lies in the last 256 x 256 cell
    (refuted below) and queries that overflow the span stack (C30). *)
Theorem C29_complete_partial : forall x0 y0 x1 y1 data out,
  int32 x0 -> int32 y0 -> int32 x1 -> int32 y1 -> x0 <= x1 -> y0 <= y1 ->
  x1 < 2 ^ 31 - 256 \/ y1 < 2 ^ 31 - 256 ->
  ascending data -> Forall (fun z => 0 <= z < 2 ^ 64) data ->
  z_query (z_encode x0 y0) (z_encode x1 y1) data = Ok out ->
  subseq out data /\
  forall x y, int32 x -> int32 y -> in_rect x0 y0 x1 y1 x y -> count out (z_encode x y) = count data (z_encode x y).
Proof.
  intros x0 y0 x1 y1 data out X0 Y0 X1 Y1 Hx Hy Ht A F E.
  pose proof (rect_query x0 y0 x1 y1 X0 Y0 X1 Y1 Hx Hy Ht data 48 A F) as Q. rewrite E in Q.
  destruct Q as (Q1 & _ & Q3); [apply pot_always; now apply z_encode_eq|lia|]. auto.
Qed.
Print Assumptions C29_complete_partial.

(** C29/C30: for a rectangle of small extent z_query always returns, never overflows its stack and is complete. *)
Theorem C29_small_rectangles : forall x0 y0 x1 y1 data,
  int32 x0 -> int32 y0 -> int32 x1 -> int32 y1 -> x0 <= x1 -> y0 <= y1 ->
  x1 < 2 ^ 31 - 256 \/ y1 < 2 ^ 31 - 256 -> small_extent x0 x1 -> small_extent y0 y1 ->
  ascending data -> Forall (fun z => 0 <= z < 2 ^ 64) data ->
  exists out, z_query (z_encode x0 y0) (z_encode x1 y1) data = Ok out /\ subseq out data /\
  forall x y, int32 x -> int32 y -> in_rect x0 y0 x1 y1 x y -> count out (z_encode x y) = count data (z_encode x y).
Proof.
  intros x0 y0 x1 y1 data X0 Y0 X1 Y1 Hx Hy Ht Sx Sy A F.
  pose proof (rect_query x0 y0 x1 y1 X0 Y0 X1 Y1 Hx Hy Ht data 32 A F) as Q.
  destruct (z_query (z_encode x0 y0) (z_encode x1 y1) data) as [out| |].
  1: exists out; split; [reflexivity|]; destruct Q as (Q1 & _ & Q3); [|lia|auto].
  2: exfalso; assert (32 < 32); [apply Q; [|lia]|lia].
  3: exfalso; apply Q; [|lia].
  all: destruct (D_encode x0 y0 X0 Y0) as [A0 A1], (D_encode x1 y1 X1 Y1) as [B0 B1];
    exists 16, 16; rewrite A0, A1, B0, B1; (split; [now apply small_P|split; [now apply small_P|lia]]).
Qed.
Print Assumptions C29_small_rectangles.

Lemma subseq_count l m : subseq l m -> forall z, (count l z <= count m z)%nat.
Proof.
  induction 1 as [|x l m H IH|x l m H IH]; intro z; [lia| |].
  - specialize (IH z). unfold count in *. cbn [count_occ]. destruct (Z.eq_dec x z); lia.
  - specialize (IH z). unfold count in *. cbn [count_occ]. destruct (Z.eq_dec x z); lia.
Qed.

Lemma subseq_filter (p : Z -> bool) l m : subseq l m -> (forall z, In z m -> p z = true -> count l z = count m z) -> filter p l = filter p m.
Proof.
  induction 1 as [|x l m H IH|x l m H IH]; intro C; [reflexivity| |].
  - cbn [filter]. destruct (p x) eqn:E.
    + exfalso. specialize (C x (or_introl eq_refl) E). pose proof (subseq_count _ _ H x). unfold count in *. cbn [count_occ] in C.
      destruct (Z.eq_dec x x); [lia|congruence].
    + apply IH. intros z I Ez. specialize (C z (or_intror I) Ez). unfold count in *. cbn [count_occ] in C.
      destruct (Z.eq_dec x z); [congruence|assumption].
  - cbn [filter]. rewrite IH; [reflexivity|]. intros z I Ez. specialize (C z (or_intror I) Ez). unfold count in *. cbn [count_occ] in C.
    destruct (Z.eq_dec x z); lia.
Qed.

(** C29: filtering what was written with z_inside gives exactly the stored codes of the rectangle, in order. *)
Theorem C29_filtered_exact_partial : forall x0 y0 x1 y1 data out,
  int32 x0 -> int32 y0 -> int32 x1 -> int32 y1 -> x0 <= x1 -> y0 <= y1 ->
  x1 < 2 ^ 31 - 256 \/ y1 < 2 ^ 31 - 256 ->
  ascending data -> Forall (fun z => 0 <= z < 2 ^ 64) data ->
  z_query (z_encode x0 y0) (z_encode x1 y1) data = Ok out ->
  filter (z_inside (z_encode x0 y0) (z_encode x1 y1)) out = filter (z_inside (z_encode x0 y0) (z_encode x1 y1)) data.
Proof.
  intros x0 y0 x1 y1 data out X0 Y0 X1 Y1 Hx Hy Ht A F E.
  destruct (C29_complete_partial x0 y0 x1 y1 data out X0 Y0 X1 Y1 Hx Hy Ht A F E) as [S C].
  apply subseq_filter; [assumption|]. intros z I Ez. rewrite Forall_forall in F.
  destruct (C27_surjective z (F z I)) as (x & y & X & Y & <-). apply C; auto. now apply z_inside_rect in Ez.
Qed.
Print Assumptions C29_filtered_exact_partial.

(** C30: z_query always ends, and overflows its stack for no rectangle of small extent. *)
Theorem C30_no_overflow_partial : forall x0 y0 x1 y1 data,
  int32 x0 -> int32 y0 -> int32 x1 -> int32 y1 -> x0 <= x1 -> y0 <= y1 ->
  x1 < 2 ^ 31 - 256 \/ y1 < 2 ^ 31 - 256 ->
  ascending data -> Forall (fun z => 0 <= z < 2 ^ 64) data ->
  z_query (z_encode x0 y0) (z_encode x1 y1) data <> Timeout /\
  (small_extent x0 x1 -> small_extent y0 y1 -> z_query (z_encode x0 y0) (z_encode x1 y1) data <> UB).
Proof.
  intros x0 y0 x1 y1 data X0 Y0 X1 Y1 Hx Hy Ht A F. split.
  - pose proof (rect_query x0 y0 x1 y1 X0 Y0 X1 Y1 Hx Hy Ht data 48 A F) as Q. intro E. rewrite E in Q.
    apply Q; [apply pot_always; now apply z_encode_eq|lia].
  - intros Sx Sy. destruct (C29_small_rectangles x0 y0 x1 y1 data X0 Y0 X1 Y1 Hx Hy Ht Sx Sy A F) as (out & E & _). congruence.
Qed.
Print Assumptions C30_no_overflow_partial.

(** C30: a rectangle of at most 2^(8 + nx) - 256 by 2^(8 + ny) - 256 with nx + ny = 32 never overflows the stack: for example one of
    2^24 - 256 in each direction, or one of 2^16 - 256 in one direction and of any size (2^32 - 256) in the other. The upper corner may be in the last cell.
    If it is not, z_query returns and is complete. Missing: larger rectangles, where it is false (C30_extent_sharp_refuted). *)
Theorem C30_extent_partial : forall x0 y0 x1 y1 data nx ny,
  int32 x0 -> int32 y0 -> int32 x1 -> int32 y1 -> x0 <= x1 -> y0 <= y1 ->
  ascending data -> 0 <= nx -> 0 <= ny -> nx + ny = 32 ->
  x1 - x0 <= 2 ^ (8 + nx) - 256 -> y1 - y0 <= 2 ^ (8 + ny) - 256 ->
  z_query (z_encode x0 y0) (z_encode x1 y1) data <> UB /\
  (x1 < 2 ^ 31 - 256 \/ y1 < 2 ^ 31 - 256 -> Forall (fun z => 0 <= z < 2 ^ 64) data ->
   exists out, z_query (z_encode x0 y0) (z_encode x1 y1) data = Ok out /\ subseq out data /\
   forall x y, int32 x -> int32 y -> in_rect x0 y0 x1 y1 x y -> count out (z_encode x y) = count data (z_encode x y)).
Proof.
  intros x0 y0 x1 y1 data nx ny X0 Y0 X1 Y1 Hx Hy A Nx Ny N Sx Sy.
  assert (NU : z_query (z_encode x0 y0) (z_encode x1 y1) data <> UB).
  { destruct (D_encode x0 y0 X0 Y0) as [A0 A1], (D_encode x1 y1 X1 Y1) as [B0 B1].
    destruct (z_encode_eq x0 y0 X0 Y0) as [_ R0]. destruct (z_encode_eq x1 y1 X1 Y1) as [_ R1].
    assert (G : forall a b n, a <= b -> 0 <= n -> b - a <= 2 ^ (8 + n) - 256 -> (b + 2 ^ 31) / 256 - (a + 2 ^ 31) / 256 < 2 ^ n).
    { intros a b n Hab Hn H. rewrite Z.pow_add_r in H by lia. change (2 ^ 8) with 256 in H. set (w := 2 ^ n) in *. clearbody w.
      pose proof (Z.div_mod (a + 2 ^ 31) 256 ltac:(lia)). pose proof (Z.mod_pos_bound (a + 2 ^ 31) 256 ltac:(lia)).
      pose proof (Z.div_mod (b + 2 ^ 31) 256 ltac:(lia)). pose proof (Z.mod_pos_bound (b + 2 ^ 31) 256 ltac:(lia)). lia. }
    apply (query_stack _ _ data nx ny); try assumption; try lia.
    - split; [assumption|]. split; [assumption|]. rewrite A0, A1, B0, B1. split; apply Z.div_le_mono; lia.
    - rewrite A0, B0. apply G; assumption.
    - rewrite A1, B1. apply G; assumption. }
  split; [exact NU|]. intros Ht F.
  destruct (C30_no_overflow_partial x0 y0 x1 y1 data X0 Y0 X1 Y1 Hx Hy Ht A F) as [NT _].
  destruct (z_query (z_encode x0 y0) (z_encode x1 y1) data) as [out| |] eqn:E; [|congruence|congruence].
  exists out. split; [reflexivity|]. eapply C29_complete_partial; eassumption.
Qed.
Print Assumptions C30_extent_partial.

(** C30_extent_partial cannot be improved: these rectangles have nx = 17, ny = 16 and nx = 16, ny = 17, and overflow the stack. *)
Theorem C30_extent_sharp_refuted :
  z_query (z_encode 256 256) (z_encode (2 ^ 25) (2 ^ 24)) [z_encode 256 256] = UB /\
  2 ^ 25 - 256 = 2 ^ (8 + 17) - 256 /\ 2 ^ 24 - 256 = 2 ^ (8 + 16) - 256 /\
  z_query (z_encode 256 256) (z_encode (2 ^ 24) (2 ^ 25)) [z_encode 256 256] = UB.
Proof. vm_compute. auto. Qed.
Print Assumptions C30_extent_sharp_refuted.

Example C30_extent_case : z_query (z_encode 256 256) (z_encode (2 ^ 24) (2 ^ 24)) [z_encode 256 256; z_encode 256 512] = Ok [z_encode 256 256; z_encode 256 512].
Proof. vm_compute. reflexivity. Qed.

(** C30 does not hold in general: this query keeps more than 32 pending spans and writes past the array. *)
Theorem C30_refuted :
  z_query (z_encode (- 2 ^ 31 + 256) (- 2 ^ 31 + 256)) (z_encode (2 ^ 31 - 256) (2 ^ 31 - 512)) [z_encode (- 2 ^ 31 + 256) (- 2 ^ 31 + 256)] = UB.
Proof. vm_compute. reflexivity. Qed.
Print Assumptions C30_refuted.

(** C29 does not hold when the upper corner is in the last cell, for example for the whole plane: hi + 0xffff
    wraps around, and the stored origin is not reported. *)
Theorem C29_refuted_top_cell :
  z_query (z_encode (- 2 ^ 31) (- 2 ^ 31)) (z_encode (2 ^ 31 - 1) (2 ^ 31 - 1)) [z_encode 0 0] = Ok [] /\
  in_rect (- 2 ^ 31) (- 2 ^ 31) (2 ^ 31 - 1) (2 ^ 31 - 1) 0 0.
Proof. split; [vm_compute; reflexivity|unfold in_rect; lia]. Qed.
Print Assumptions C29_refuted_top_cell.

(** C29 for an upper corner in the last cell, other than that cell's own first point: z_query reports no point outside of the first cell, and
    nothing at all unless the lower corner is in the first cell. So it is complete only for data without points of the rectangle elsewhere. *)
Lemma first_cell x y : int32 x -> int32 y -> z_encode x y < 65536 -> x < - 2 ^ 31 + 256 /\ y < - 2 ^ 31 + 256.
Proof.
  intros X Y H. assert (E1 : z_encode (- 2 ^ 31 + 256) (- 2 ^ 31) = 65536) by (vm_compute; reflexivity). assert (E2 : z_encode (- 2 ^ 31) (- 2 ^ 31 + 256) = 131072) by (vm_compute; reflexivity).
  unfold int32 in *. split; apply Z.lt_nge; intro G.
  - pose proof (C27_monotone (- 2 ^ 31 + 256) (- 2 ^ 31) x y ltac:(unfold int32; lia) ltac:(unfold int32; lia) ltac:(unfold int32; lia) ltac:(unfold int32; lia) ltac:(lia) ltac:(lia)) as M. rewrite E1 in M. lia.
  - pose proof (C27_monotone (- 2 ^ 31) (- 2 ^ 31 + 256) x y ltac:(unfold int32; lia) ltac:(unfold int32; lia) ltac:(unfold int32; lia) ltac:(unfold int32; lia) ltac:(lia) ltac:(lia)) as M. rewrite E2 in M. lia.
Qed.

Theorem C29_last_cell_refuted : forall x0 y0 x1 y1 data,
  int32 x0 -> int32 y0 -> int32 x1 -> int32 y1 -> 2 ^ 31 - 256 <= x1 -> 2 ^ 31 - 256 <= y1 -> 2 ^ 31 - 256 < x1 \/ 2 ^ 31 - 256 < y1 ->
  ascending data ->
  (forall out x y, z_query (z_encode x0 y0) (z_encode x1 y1) data = Ok out -> int32 x -> int32 y -> In (z_encode x y) out -> x < - 2 ^ 31 + 256 /\ y < - 2 ^ 31 + 256) /\
  (- 2 ^ 31 + 256 <= x0 \/ - 2 ^ 31 + 256 <= y0 -> z_query (z_encode x0 y0) (z_encode x1 y1) data = Ok []).
Proof.
  intros x0 y0 x1 y1 data X0 Y0 X1 Y1 Tx Ty Tn A.
  destruct (z_encode_eq x1 y1 X1 Y1) as [_ R1].
  assert (T : 2 ^ 64 - 65535 <= z_encode x1 y1).
  { assert (Et : z_encode (2 ^ 31 - 256) (2 ^ 31 - 256) = 2 ^ 64 - 65536) by (vm_compute; reflexivity). unfold int32 in *.
    pose proof (C27_monotone (2 ^ 31 - 256) (2 ^ 31 - 256) x1 y1 ltac:(unfold int32; lia) ltac:(unfold int32; lia) X1 Y1 Tx Ty) as M. rewrite Et in M.
    assert (z_encode x1 y1 <> 2 ^ 64 - 65536); [|lia]. intro E. rewrite <- Et in E. apply C27_injective in E; unfold int32; lia. }
  destruct (query_wrapped (z_encode x0 y0) (z_encode x1 y1) data A ltac:(lia)) as [Q1 Q2]. split.
  - intros out x y E X Y I. specialize (Q1 out E). rewrite Forall_forall in Q1. specialize (Q1 _ I). cbv beta in Q1. apply first_cell; auto. lia.
  - intro H. apply Q2. destruct (Z_lt_ge_dec (z_encode x0 y0) 65536) as [L|G]; [|lia]. apply first_cell in L; auto. lia.
Qed.
Print Assumptions C29_last_cell_refuted.

Example C29_case :
  z_query (z_encode (-1000) (-1000)) (z_encode 1000 1000)
    [z_encode (-900) (-900); z_encode 0 (-1000); z_encode 5 7; z_encode 5 7; z_encode 5000 5000]
  = Ok [z_encode (-900) (-900); z_encode 0 (-1000); z_encode 5 7; z_encode 5 7] /\
  small_extent (-1000) 1000.
Proof. split; [vm_compute; reflexivity | left; lia]. Qed.

(** C31: every code written comes from data and lies between the corners in z-order (up to the cell of the
    upper corner). Missing: that it lies in the rectangle, which is false. *)
Theorem C31_between_corners_partial : forall x0 y0 x1 y1 data out,
  int32 x0 -> int32 y0 -> int32 x1 -> int32 y1 -> x0 <= x1 -> y0 <= y1 ->
  x1 < 2 ^ 31 - 256 \/ y1 < 2 ^ 31 - 256 ->
  ascending data -> Forall (fun z => 0 <= z < 2 ^ 64) data ->
  z_query (z_encode x0 y0) (z_encode x1 y1) data = Ok out ->
  Forall (fun z => In z data /\ z_encode x0 y0 <= z <= z_encode x1 y1 + 65535) out.
Proof.
  intros x0 y0 x1 y1 data out X0 Y0 X1 Y1 Hx Hy Ht A F E.
  pose proof (rect_query x0 y0 x1 y1 X0 Y0 X1 Y1 Hx Hy Ht data 48 A F) as Q. rewrite E in Q.
  destruct Q as (Q1 & Q2 & _); [apply pot_always; now apply z_encode_eq|lia|].
  rewrite Forall_forall in Q2. apply Forall_forall. intros z I. split; [|auto].
  clear - Q1 I. induction Q1; [contradiction|right; auto|]. destruct I as [<-|I]; [now left|right; auto].
Qed.
Print Assumptions C31_between_corners_partial.

Lemma next_cell z w : cell z = cell w + 1 -> z / 65536 = w / 65536 + 1.
Proof. unfold cell. replace (2 ^ 16) with 65536 by reflexivity. auto. Qed.

(** C31: how far from the rectangle a reported point can be, in cells of 256 x 256. It is in the cell that follows the upper corner's in
    z-order (as hi + 0xffff reaches into it), or in the rectangle's columns and above or below it by less than the number of these columns, or in
    its rows and to the left or right of it by less than the number of these rows. Missing: that it lies in the rectangle, which is false;
    C31_near_sharp shows that no smaller bound holds. *)
Theorem C31_near_partial : forall x0 y0 x1 y1 data out x y,
  int32 x0 -> int32 y0 -> int32 x1 -> int32 y1 -> x0 <= x1 -> y0 <= y1 ->
  x1 < 2 ^ 31 - 256 \/ y1 < 2 ^ 31 - 256 ->
  Forall (fun z => 0 <= z < 2 ^ 64) data ->
  z_query (z_encode x0 y0) (z_encode x1 y1) data = Ok out ->
  int32 x -> int32 y -> In (z_encode x y) out ->
  let columns := x1 / 256 - x0 / 256 + 1 in
  let rows := y1 / 256 - y0 / 256 + 1 in
  z_encode x y / 65536 = z_encode x1 y1 / 65536 + 1 \/
  (x0 / 256 <= x / 256 <= x1 / 256 /\ y0 / 256 - columns < y / 256 < y1 / 256 + columns) \/
  (y0 / 256 <= y / 256 <= y1 / 256 /\ x0 / 256 - rows < x / 256 < x1 / 256 + rows).
Proof.
  intros x0 y0 x1 y1 data out x y X0 Y0 X1 Y1 Hx Hy Ht F E X Y I columns rows.
  destruct (D_encode x0 y0 X0 Y0) as [A0 A1], (D_encode x1 y1 X1 Y1) as [B0 B1], (D_encode x y X Y) as [C0 C1].
  destruct (z_encode_eq x0 y0 X0 Y0) as [_ R0]. destruct (z_encode_eq x1 y1 X1 Y1) as [_ R1].
  pose proof (query_near (z_encode x0 y0) (z_encode x1 y1) data out R0 R1 (top_cell x1 y1 X1 Y1 Ht)) as Q.
  rewrite A0, A1, B0, B1 in Q. specialize (Q ltac:(apply Z.div_le_mono; lia) ltac:(apply Z.div_le_mono; lia) F E).
  rewrite Forall_forall in Q. specialize (Q _ I). destruct Q as [Q|(s & Hs & Q)]; [left; now apply next_cell in Q|]. right.
  assert (M : forall v, (v + 2 ^ 31) / 256 = v / 256 + 2 ^ 23) by (intro v; replace (2 ^ 31) with (2 ^ 23 * 256) by reflexivity; rewrite Z.div_add by lia; reflexivity).
  unfold columns, rows. destruct Hs; subst s; [change (1 - 0) with 1 in Q; right|change (1 - 1) with 0 in Q; left]; rewrite A0, A1, B0, B1, C0, C1, !M in Q; clear - Q; lia.
Qed.
Print Assumptions C31_near_partial.

(** The point is in the rectangle's rows and to the left of it by 1023 columns, where it has 1024 rows; and the cell after the upper corner's can be
    far away: here 255 columns to the left. *)
Example C31_near_sharp :
  (z_query (z_encode (262144 - 256) 0) (z_encode 262144 (262144 - 256)) [z_encode 0 (262144 - 256)] = Ok [z_encode 0 (262144 - 256)] /\
   (262144 - 256) / 256 - 0 / 256 + 1 = 1024 /\ 0 / 256 = (262144 - 256) / 256 - 1024 + 1) /\
  (z_query (z_encode 65535 65535) (z_encode 65535 65535) [z_encode 65536 0] = Ok [z_encode 65536 0] /\
   z_encode 65536 0 / 65536 = z_encode 65535 65535 / 65536 + 1).
Proof. repeat split; vm_compute; reflexivity. Qed.

(** C31 does not hold: a point a cell away from the rectangle is reported, even at cell granularity. In the
    second case it is 1000 cells away. *)
Theorem C31_refuted :
  (z_query (z_encode 256 0) (z_encode 512 256) [z_encode 0 256] = Ok [z_encode 0 256] /\ 0 / 256 < 256 / 256) /\
  (z_query (z_encode (262144 - 256) 0) (z_encode 262144 (262144 - 256)) [z_encode 0 (262144 - 256)] = Ok [z_encode 0 (262144 - 256)] /\
   0 / 256 + 1000 < (262144 - 256) / 256).
Proof. repeat split; vm_compute; reflexivity. Qed.
Print Assumptions C31_refuted.
