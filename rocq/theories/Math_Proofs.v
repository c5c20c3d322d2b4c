(** Lemmas for math.h. *)
From Coq Require Import Permutation.
From Verif Require Import Base Vec_Model Vec_Spec Vec_Props Math_Model Math_Spec.
Local Open Scope Z_scope.

(** ** inside *)

Definition int33 (x : Z) : Prop := - 2 ^ 31 <= x <= 2 ^ 31.

Lemma moved_cross N a b : cross_product (moved N a) (moved N b) = N * N * (N * N * cross_product a b + N * (snd b - snd a) + (fst a - fst b)).
Proof. unfold cross_product, moved. cbn [fst snd]. ring. Qed.

Lemma lex3 N c u v : 2 ^ 33 <= N -> - 2 ^ 32 <= u <= 2 ^ 32 -> - 2 ^ 32 <= v <= 2 ^ 32 ->
  (N * N * c + N * u + v < 0 <-> c < 0 \/ (c = 0 /\ (u < 0 \/ (u = 0 /\ v < 0)))) /\
  (N * N * c + N * u + v = 0 <-> c = 0 /\ u = 0 /\ v = 0).
Proof.
  change (2 ^ 32) with 4294967296. change (2 ^ 33) with 8589934592. intros HN Hu Hv.
  assert (Hnu : - (4294967296 * N) <= N * u <= 4294967296 * N) by nia.
  assert (HNN : 8589934592 * N <= N * N) by nia.
  destruct (Z.lt_trichotomy c 0) as [C|[C|C]].
  - assert (N * N * c <= - (N * N)) by nia. split; split; intro; try (left; lia); try lia.
  - subst c. rewrite Z.mul_0_r. destruct (Z.lt_trichotomy u 0) as [U|[U|U]].
    + assert (N * u <= - N) by nia. split; split; intro; try lia.
    + subst u. rewrite Z.mul_0_r. split; split; intro; lia.
    + assert (N <= N * u) by nia. split; split; intro; lia.
  - assert (N * N <= N * N * c) by nia. split; split; intro; lia.
Qed.

Lemma inside_ok a b : int33 (fst a) -> int33 (snd a) -> int33 (fst b) -> int33 (snd b) ->
  exists r, inside a b = Ok r /\
    (r = true <-> cross_product a b < 0 \/ (cross_product a b = 0 /\ (snd b - snd a < 0 \/ (snd b - snd a = 0 /\ fst a - fst b < 0)))).
Proof.
  unfold int33. change (2 ^ 31) with 2147483648. intros H1 H2 H3 H4. unfold inside, cross_product.
  assert (- 4611686018427387904 <= fst a * snd b <= 4611686018427387904) by nia.
  assert (- 4611686018427387904 <= snd a * fst b <= 4611686018427387904) by nia.
  rewrite (chk64_ok' (fst a * snd b)) by (p64; lia). cbn [bind]. rewrite (chk64_ok' (snd a * fst b)) by (p64; lia). cbn [bind].
  destruct (Z.eqb_spec (fst a * snd b) (snd a * fst b)); cbn [negb].
  - destruct (Z.eqb_spec (snd a) (snd b)); cbn [negb].
    + exists (fst a <? fst b). split; [reflexivity|]. rewrite Z.ltb_lt. lia.
    + exists (snd b <? snd a). split; [reflexivity|]. rewrite Z.ltb_lt. lia.
  - exists (fst a * snd b <? snd a * fst b). split; [reflexivity|]. rewrite Z.ltb_lt. lia.
Qed.

Lemma inside_moved N a b : 2 ^ 33 <= N -> int33 (fst a) -> int33 (snd a) -> int33 (fst b) -> int33 (snd b) ->
  exists r, inside a b = Ok r /\ (r = true <-> cross_product (moved N a) (moved N b) < 0) /\ (a <> b -> cross_product (moved N a) (moved N b) <> 0).
Proof.
  intros HN H1 H2 H3 H4. destruct (inside_ok a b H1 H2 H3 H4) as (r & E & R). exists r. split; [assumption|].
  rewrite moved_cross. unfold int33 in *. change (2 ^ 31) with 2147483648 in *.
  destruct (lex3 N (cross_product a b) (snd b - snd a) (fst a - fst b) HN) as [L Z0]; [change (2 ^ 32) with 4294967296; lia..|].
  change (2 ^ 33) with 8589934592 in HN. split.
  - rewrite R, <- L. split; intro; nia.
  - intros Hab E0. apply Hab. assert (N * N * cross_product a b + N * (snd b - snd a) + (fst a - fst b) = 0) as E1.
    { apply Z.mul_eq_0 in E0. destruct E0; [nia|assumption]. }
    apply Z0 in E1. destruct a, b. cbn [fst snd] in *. f_equal; lia.
Qed.

(** ** in_range *)

Lemma dot64_ok k a b c d : 0 <= k -> - k <= a <= k -> - k <= b <= k -> - k <= c <= k -> - k <= d <= k -> 2 * (k * k) < 2 ^ 63 ->
  dot64 a b c d = Ok (a * b + c * d) /\ - (2 * (k * k)) <= a * b + c * d <= 2 * (k * k).
Proof.
  intros K0 Ha Hb Hc Hd K1. unfold dot64. assert (- (k * k) <= a * b <= k * k) by nia. assert (- (k * k) <= c * d <= k * k) by nia.
  rewrite (chk64_ok' (a * b)) by (p64; lia). cbn [bind]. rewrite (chk64_ok' (c * d)) by (p64; lia). cbn [bind].
  rewrite chk64_ok' by (p64; lia). split; [reflexivity|lia].
Qed.

Lemma ab_less_cd_ok a b c d : in_s 64 a -> in_s 64 b -> in_s 64 c -> in_s 64 d -> ab_less_cd a b c d = Ok (a * b <? c * d).
Proof.
  intros Ha Hb Hc Hd. rewrite s64 in *. p64. unfold ab_less_cd, chk128.
  assert (H : forall x y, - 9223372036854775808 <= x < 9223372036854775808 -> - 9223372036854775808 <= y < 9223372036854775808 -> in_sb 128 (x * y) = true).
  { intros x y Hx Hy. apply in_sb_spec. unfold in_s. change (2 ^ (128 - 1)) with 170141183460469231731687303715884105728. nia. }
  rewrite !H by assumption. reflexivity.
Qed.

Section Near.
Variables px py rr dx dy : Z.
Let pp := px * px + py * py.
Let dp := px * dx + py * dy.
Let dd := dx * dx + dy * dy.

Lemma closer_iff n m : closer rr px py dx dy n m <-> m * m * (pp - rr) - 2 * m * n * dp + n * n * dd < 0.
Proof.
  unfold closer, pp, dp, dd.
  replace ((m * px - n * dx) * (m * px - n * dx) + (m * py - n * dy) * (m * py - n * dy))
    with (m * m * (px * px + py * py) - 2 * m * n * (px * dx + py * dy) + n * n * (dx * dx + dy * dy)) by ring. lia.
Qed.

Lemma dd_zero : dd = 0 -> dp = 0.
Proof. unfold dd, dp. intro. assert (dx = 0) by nia. assert (dy = 0) by nia. subst. lia. Qed.
Lemma dd_nonneg : 0 <= dd.
Proof. unfold dd. nia. Qed.

Lemma closer_foot : dd * (pp - rr) < dp * dp -> 0 < dd /\ closer rr px py dx dy dp dd.
Proof.
  intro H. pose proof dd_nonneg. assert (dd <> 0) by (intro E; pose proof (dd_zero E) as E'; rewrite E, E' in H; lia).
  split; [lia|]. apply closer_iff.
  replace (dd * dd * (pp - rr) - 2 * dd * dp * dp + dp * dp * dd) with (dd * (dd * (pp - rr) - dp * dp)) by ring. nia.
Qed.

Lemma closer_start : pp < rr -> closer rr px py dx dy 0 1.
Proof. intro. apply closer_iff. lia. Qed.

Lemma closer_line n m : 0 < m -> rr <= pp -> closer rr px py dx dy n m -> dd * (pp - rr) < dp * dp.
Proof.
  intros Hm Hr C. apply closer_iff in C. pose proof dd_nonneg as D. destruct (Z.eq_dec dd 0) as [E|E].
  - exfalso. pose proof (dd_zero E) as E'. rewrite E, E' in C. nia.
  - assert (0 < dd) as D' by lia. clear D E.
    assert (C' : dd * (m * m * (pp - rr) - 2 * m * n * dp + n * n * dd) < 0) by nia.
    replace (dd * (m * m * (pp - rr) - 2 * m * n * dp + n * n * dd)) with (m * m * (dd * (pp - rr) - dp * dp) + (m * dp - n * dd) * (m * dp - n * dd)) in C' by ring.
    pose proof (Z.square_nonneg (m * dp - n * dd)) as Sq. revert C'. intro C'.
    assert (Hw : m * m * (dd * (pp - rr) - dp * dp) < 0) by lia. assert (W : forall w, m * m * w < 0 -> w < 0) by (intros; nia). apply W in Hw. lia.
Qed.

Lemma closer_behind n m : 0 < m -> 0 <= n -> rr <= pp -> dp < 0 -> ~ closer rr px py dx dy n m.
Proof. intros Hm Hn Hr Hd C. apply closer_iff in C. pose proof dd_nonneg. assert (0 <= m * m * (pp - rr)) by nia. assert (0 <= n * n * dd) by nia. assert (0 <= - (m * n * dp)) by nia. lia. Qed.

Lemma closer_beyond n m : 0 < m -> 0 <= n <= m -> rr <= pp - 2 * dp + dd -> dd < dp -> ~ closer rr px py dx dy n m.
Proof.
  intros Hm Hn Hr Hd C. apply closer_iff in C. pose proof dd_nonneg.
  assert (I : m * m * (pp - rr) - 2 * m * n * dp + n * n * dd = m * m * (pp - 2 * dp + dd - rr) + (m - n) * (2 * m * (dp - dd)) + (m - n) * (m - n) * dd) by ring.
  assert (0 <= m * m * (pp - 2 * dp + dd - rr)) by nia. assert (0 <= (m - n) * (2 * m * (dp - dd))) by (apply Z.mul_nonneg_nonneg; [lia|apply Z.mul_nonneg_nonneg; lia]).
  assert (0 <= (m - n) * (m - n) * dd) by (apply Z.mul_nonneg_nonneg; [apply Z.mul_nonneg_nonneg; lia|lia]). lia.
Qed.
End Near.

(** ** meshes *)

Lemma orient_cross p a b : orient (vertex a) (vertex b) (query p) = cross_product (moved M0 (vsub a p)) (moved M0 (vsub b p)).
Proof. unfold orient, cross_product, moved, vsub, vertex, query. cbn [fst snd]. ring. Qed.

Lemma orient_vertex a b c : orient (vertex a) (vertex b) (vertex c) = M0 * M0 * (M0 * M0) * orient a b c.
Proof. unfold orient, vertex. cbn [fst snd]. ring. Qed.

Definition KM : Z := 2 ^ 30 - 1.

Lemma sub2_ok a p : within KM a -> within KM p -> sub2 a p = Ok (vsub a p) /\ int33 (fst (vsub a p)) /\ int33 (snd (vsub a p)).
Proof.
  unfold within, KM, sub2, vsub, int33. change (2 ^ 30 - 1) with 1073741823. change (2 ^ 31) with 2147483648. intros Ha Hp. cbn [fst snd].
  rewrite (chk32_ok (fst a - fst p)), (chk32_ok (snd a - snd p)) by (unfold in_s; change (2 ^ (32 - 1)) with 2147483648; lia). cbn [bind]. split; [reflexivity|]. lia.
Qed.

Lemma inside_edge p a b : within KM p -> within KM a -> within KM b ->
  exists r, inside (vsub a p) (vsub b p) = Ok r /\ (r = true <-> orient (vertex a) (vertex b) (query p) < 0) /\ (a <> b -> orient (vertex a) (vertex b) (query p) <> 0).
Proof.
  intros Hp Ha Hb. destruct (sub2_ok a p Ha Hp) as (_ & A1 & A2). destruct (sub2_ok b p Hb Hp) as (_ & B1 & B2).
  destruct (inside_moved M0 _ _ (Z.le_refl _) A1 A2 B1 B2) as (r & E & R & Z0). exists r. rewrite orient_cross. split; [assumption|]. split; [assumption|].
  intro Hab. apply Z0. intro E'. apply Hab. unfold vsub in E'. destruct a as [ax ay], b as [bx by_]. cbn [fst snd] in E'. inversion E'. f_equal; lia.
Qed.

Lemma generic p a b : within KM p -> within KM a -> within KM b -> ~ on_segment (query p) (vertex a) (vertex b).
Proof.
  intros Hp Ha Hb [O [X _]]. destruct (inside_edge p a b Hp Ha Hb) as (r & _ & _ & Z0).
  assert (D : {a = b} + {a <> b}) by (decide equality; apply Z.eq_dec). destruct D as [->|D]; [|now apply Z0].
  unfold query, vertex, M0 in X. cbn [fst snd] in X. change (2 ^ 33) with 8589934592 in X.
  assert (E : 8589934592 * 8589934592 * fst p - 8589934592 - 8589934592 * 8589934592 * fst b = 0) by nia. lia.
Qed.

Lemma inside3_ok p a b c : within KM p -> within KM a -> within KM b -> within KM c ->
  exists r, inside3 p a b c = Ok r /\
    (r = true <-> orient (vertex a) (vertex b) (query p) < 0 /\ orient (vertex b) (vertex c) (query p) < 0 /\ orient (vertex c) (vertex a) (query p) < 0).
Proof.
  intros Hp Ha Hb Hc. destruct (inside_edge p a b Hp Ha Hb) as (r1 & E1 & R1 & _). destruct (inside_edge p b c Hp Hb Hc) as (r2 & E2 & R2 & _).
  destruct (inside_edge p c a Hp Hc Ha) as (r3 & E3 & R3 & _). unfold inside3.
  rewrite (proj1 (sub2_ok a p Ha Hp)), (proj1 (sub2_ok b p Hb Hp)), (proj1 (sub2_ok c p Hc Hp)). cbn [bind]. rewrite E1. cbn [bind].
  destruct r1; [|exists false; split; [reflexivity|rewrite <- R1; intuition discriminate]].
  rewrite E2. cbn [bind]. destruct r2; [|exists false; split; [reflexivity|rewrite <- R2; intuition discriminate]].
  exists r3. split; [assumption|]. rewrite <- R1, <- R2, <- R3. destruct r3; intuition discriminate.
Qed.

Definition vedge (e : point * point) : point * point := (vertex (fst e), vertex (snd e)).

Lemma edges_vertex l : edges (map vertex l) = map vedge (edges l).
Proof.
  assert (C : forall l a, chain (vertex a) (map vertex l) = map vedge (chain a l)).
  { induction l0 as [|b l0 IH]; intro a; [reflexivity|]. cbn [map chain]. now rewrite IH. }
  destruct l as [|b l]; [reflexivity|]. unfold edges. rewrite <- C. f_equal.
  destruct (exists_last (l := b :: l) ltac:(discriminate)) as (m & t & ->). rewrite map_app. cbn [map]. now rewrite !last_last.
Qed.

Lemma total_flip q inner : total q (map flip inner) = - total q inner.
Proof. unfold total. induction inner as [|e l IH]; [reflexivity|]. cbn [map sum fold_right flip fst snd] in *. unfold sum in *. rewrite IH. rewrite (crossing_anti (vsub q (fst e))). lia. Qed.

Definition tri_ok (t : triangle) : Prop := let '(a, b, c) := t in within KM a /\ within KM b /\ within KM c.
Definition inside3_of (p : point) (t : triangle) : res bool := let '(a, b, c) := t in inside3 p a b c.

Lemma mesh_count p ts : within KM p -> Forall tri_ok ts -> Forall clockwise ts ->
  exists rs, map (inside3_of p) ts = map Ok rs /\ Z.of_nat (count_true rs) = - total (query p) (map vedge (flat_map sides ts)).
Proof.
  intros Hp. induction ts as [|[[a b] c] ts IH]; intros F1 F2; [exists []; split; reflexivity|].
  inversion F1 as [|? ? Habc F1']; inversion F2 as [|? ? Hcw F2']; subst. destruct Habc as (Ha & Hb & Hc).
  destruct (IH F1' F2') as (rs & E & C). destruct (inside3_ok p a b c Hp Ha Hb Hc) as (r & Er & R).
  exists (r :: rs). split; [cbn [map inside3_of]; now rewrite Er, E|].
  cbn [flat_map sides app map]. unfold total. cbn [map sum fold_right]. change (vedge (a, b)) with (vertex a, vertex b). change (vedge (b, c)) with (vertex b, vertex c). change (vedge (c, a)) with (vertex c, vertex a). cbn [fst snd].
  fold (sum (map (fun e => crossing (vsub (query p) (fst e)) (vsub (query p) (snd e))) (map vedge (flat_map sides ts)))).
  fold (total (query p) (map vedge (flat_map sides ts))).
  pose proof (triangle_crossing (query p) (vertex a) (vertex b) (vertex c) (generic p a b Hp Ha Hb) (generic p b c Hp Hb Hc) (generic p c a Hp Hc Ha)) as T.
  assert (W : triangle_winding (query p) (vertex a) (vertex b) (vertex c) = if r then -1 else 0).
  { unfold triangle_winding. unfold clockwise in Hcw.
    assert (I : orient (vertex a) (vertex b) (query p) + orient (vertex b) (vertex c) (query p) + orient (vertex c) (vertex a) (query p) = M0 * M0 * (M0 * M0) * orient a b c)
      by (rewrite <- orient_vertex; unfold orient; ring).
    assert (M0 * M0 * (M0 * M0) * orient a b c < 0) by (apply Z.mul_pos_neg; [reflexivity|exact Hcw]).
    revert R I H. generalize (orient (vertex a) (vertex b) (query p)) (orient (vertex b) (vertex c) (query p)) (orient (vertex c) (vertex a) (query p)). intros u v w R I H.
    destruct (Z.ltb_spec 0 u), (Z.ltb_spec 0 v), (Z.ltb_spec 0 w); cbn [andb]; try (exfalso; lia);
    destruct (Z.ltb_spec u 0), (Z.ltb_spec v 0), (Z.ltb_spec w 0); cbn [andb]; destruct r; try reflexivity; exfalso; intuition (try discriminate; lia). }
  rewrite W in T. unfold count_true in *. cbn [filter]. destruct r; cbn [length]; lia.
Qed.

Lemma mesh_boundary p ts boundary : mesh_with_boundary ts boundary -> total (query p) (map vedge (flat_map sides ts)) = total (query p) (edges (map vertex boundary)).
Proof.
  intros (inner & P). rewrite (total_perm _ _ _ (Permutation_map vedge P)), !map_app, !total_app, edges_vertex.
  assert (E : map vedge (map flip inner) = map flip (map vedge inner)) by (rewrite !map_map; apply map_ext; intros []; reflexivity).
  rewrite E, total_flip. lia.
Qed.

(** ** convex polygons *)

Lemma combination o a b u v P : orient o a P < 0 -> orient a b P < 0 -> orient b o P < 0 ->
  orient u v o <= 0 -> orient u v a <= 0 -> orient u v b <= 0 -> orient u v o < 0 \/ orient u v a < 0 \/ orient u v b < 0 -> orient u v P < 0.
Proof.
  intros H1 H2 H3 L1 L2 L3 L.
  assert (I : (orient o a P + orient a b P + orient b o P) * orient u v P = orient a b P * orient u v o + orient b o P * orient u v a + orient o a P * orient u v b) by (unfold orient; ring).
  revert I. generalize (orient o a P) (orient a b P) (orient b o P) (orient u v o) (orient u v a) (orient u v b) (orient u v P) H1 H2 H3 L1 L2 L3 L.
  clear. intros x y z c d e f H1 H2 H3 L1 L2 L3 L I.
  assert (0 <= y * c /\ 0 <= z * d /\ 0 <= x * e) as (A & B & C) by (repeat split; nia).
  assert (0 < y * c + z * d + x * e) by (destruct L as [L|[L|L]]; [assert (0 < y * c) by nia|assert (0 < z * d) by nia|assert (0 < x * e) by nia]; lia).
  nia.
Qed.

Lemma orient_rot a b c : orient a b c = orient b c a.
Proof. unfold orient. ring. Qed.
Lemma orient_swap a b c : orient b a c = - orient a b c.
Proof. unfold orient. ring. Qed.
Lemma orient_dup a b : orient a b a = 0 /\ orient a b b = 0.
Proof. unfold orient. lia. Qed.

(** P is in the polygon o, x, l. *)
Definition in_fan (o P x : point) (l : list point) : bool :=
  (orient o x P <? 0) && forallb (fun e => orient (fst e) (snd e) P <? 0) (chain x l) && (0 <? orient o (last l x) P).

Lemma in_fan_triangle o P : forall l x, (forall v, In v (x :: l) -> orient o v P <> 0) -> in_fan o P x l = true ->
  exists a b, In (a, b) (chain x l) /\ orient o a P < 0 /\ orient a b P < 0 /\ orient b o P < 0.
Proof.
  induction l as [|y l IH]; intros x G H; unfold in_fan in H; apply andb_true_iff in H; destruct H as [H H3]; apply andb_true_iff in H; destruct H as [H1 H2].
  - cbn [last] in H3. apply Z.ltb_lt in H1, H3. lia.
  - cbn [chain forallb fst snd] in H2. apply andb_true_iff in H2. destruct H2 as [H2 H4]. apply Z.ltb_lt in H1, H2.
    destruct (Z.ltb_spec (orient o y P) 0) as [L|L].
    + destruct (IH y) as (a & b & Hin & T); [intros v Hv; apply G; now right| |exists a, b; split; [now right|assumption]].
      unfold in_fan. rewrite H4, andb_true_r. apply andb_true_iff. split; [now apply Z.ltb_lt|].
      destruct l as [|z l]; [exact H3|]. rewrite (last_ind_dep (z :: l) y x) by discriminate. exact H3.
    + exists x, y. split; [now left|]. pose proof (G y ltac:(right; now left)). rewrite (orient_swap o y). lia.
Qed.

Lemma chain_in x l a b : In (a, b) (chain x l) -> In a (x :: l) /\ In b l.
Proof. revert x. induction l as [|y l IH]; intros x H; [destruct H|]. cbn [chain] in H. destruct H as [E|H]; [inversion E; subst; split; now left|]. destruct (IH _ H). split; right; assumption. Qed.

Lemma turn_chain o l : forall x a b, turn_around o (x :: l) -> In (a, b) (chain x l) -> orient o a b < 0.
Proof.
  induction l as [|y l IH]; intros x a b [H1 H2] H; [destruct H|]. cbn [chain] in H. destruct H as [E|H]; [inversion E; subst; apply H1; now left|].
  apply (IH y a b H2 H).
Qed.

Lemma fan_sum o P : forall l x, turn_around o (x :: l) -> convex_clockwise (x :: l) -> (forall v, In v (x :: l) -> orient o v P <> 0) ->
  sum (map (fun e => triangle_winding P o (fst e) (snd e)) (chain x l)) = if in_fan o P x l then -1 else 0.
Proof.
  induction l as [|y l IH]; intros x HT HC G.
  - cbn [chain map sum fold_right]. unfold in_fan. cbn [chain forallb last]. rewrite andb_true_r.
    destruct (Z.ltb_spec (orient o x P) 0), (Z.ltb_spec 0 (orient o x P)); cbn [andb]; try reflexivity. lia.
  - cbn [chain map sum fold_right fst snd]. fold (sum (map (fun e => triangle_winding P o (fst e) (snd e)) (chain y l))).
    destruct HT as [HT1 HT2]. destruct HC as [HC1 HC2].
    rewrite (IH y HT2 HC2) by (intros v Hv; apply G; now right).
    pose proof (G y ltac:(right; now left)) as Gy.
    assert (Hoxy : orient o x y < 0) by (apply HT1; now left).
    (* the triangle o x y is clockwise *)
    assert (W : triangle_winding P o x y = if (orient o x P <? 0) && (orient x y P <? 0) && (0 <? orient o y P) then -1 else 0).
    { unfold triangle_winding. rewrite (orient_swap o y P). assert (I : orient o x P + orient x y P - orient o y P = orient o x y) by (unfold orient; ring).
      destruct (Z.ltb_spec 0 (orient o x P)), (Z.ltb_spec 0 (orient x y P)), (Z.ltb_spec 0 (- orient o y P)); cbn [andb]; try (exfalso; lia);
      destruct (Z.ltb_spec (orient o x P) 0), (Z.ltb_spec (orient x y P) 0), (Z.ltb_spec (- orient o y P) 0), (Z.ltb_spec 0 (orient o y P)); cbn [andb]; try reflexivity; exfalso; lia. }
    rewrite W.
    assert (Llast : last (y :: l) x = last l y).
    { destruct l as [|z l]; [reflexivity|]. change (last (y :: z :: l) x) with (last (z :: l) x). apply last_ind_dep. discriminate. }
    destruct (Z.ltb_spec (orient o y P) 0) as [Ly|Ly].
    + (* not in the first triangle: in the polygon iff in the rest *)
      assert (E0 : (0 <? orient o y P) = false) by (apply Z.ltb_ge; lia). rewrite E0, andb_false_r. rewrite Z.add_0_l.
      unfold in_fan at 2. rewrite Llast. cbn [chain forallb fst snd]. unfold in_fan at 1. rewrite (proj2 (Z.ltb_lt _ _) Ly). cbn [andb].
      destruct (forallb (fun e => orient (fst e) (snd e) P <? 0) (chain y l) && (0 <? orient o (last l y) P)) eqn:E.
      * assert (F : in_fan o P y l = true) by (unfold in_fan; rewrite (proj2 (Z.ltb_lt _ _) Ly); exact E).
        destruct (in_fan_triangle o P l y ltac:(intros v Hv; apply G; now right) F) as (a & b & Hin & T1 & T2 & T3).
        destruct (chain_in _ _ _ _ Hin) as [Ia Ib].
        assert (Hb : orient x y b < 0) by (destruct HC1 as [HC1 _]; apply HC1; exact Ib).
        assert (Ha : orient x y a <= 0). { destruct Ia as [<-|Ia]; [rewrite (proj2 (orient_dup x y)); lia|]. destruct HC1 as [HC1 _]. apply Z.lt_le_incl, HC1, Ia. }
        assert (X1 : orient o x P < 0).
        { apply (combination o a b); try assumption; [rewrite (proj1 (orient_dup o x)); lia|apply Z.lt_le_incl, HT1, Ia|apply Z.lt_le_incl, HT1; now right|]. right. right. apply HT1. now right. }
        assert (X2 : orient x y P < 0).
        { apply (combination o a b); try assumption; [rewrite <- orient_rot; lia|lia|]. right. right. assumption. }
        apply andb_true_iff in E. destruct E as [E1 E2]. rewrite E1, E2, (proj2 (Z.ltb_lt _ _) X1), (proj2 (Z.ltb_lt _ _) X2). reflexivity.
      * destruct (orient o x P <? 0), (orient x y P <? 0); cbn [andb]; try reflexivity; [rewrite E; reflexivity|..]; try reflexivity.
    + (* not in the rest: in the polygon iff in the first triangle *)
      assert (Lp : (0 <? orient o y P) = true) by (apply Z.ltb_lt; lia). rewrite Lp, andb_true_r.
      assert (E0 : in_fan o P y l = false) by (unfold in_fan; rewrite (proj2 (Z.ltb_ge _ _) Ly); reflexivity). rewrite E0, Z.add_0_r.
      unfold in_fan. rewrite Llast. cbn [chain forallb fst snd].
      destruct (Z.ltb_spec (orient o x P) 0) as [X1|X1]; cbn [andb]; [|reflexivity].
      destruct (Z.ltb_spec (orient x y P) 0) as [X2|X2]; cbn [andb]; [|reflexivity].
      assert (X3 : orient y o P < 0) by (rewrite orient_swap; apply Z.ltb_lt in Lp; lia).
      assert (A1 : forallb (fun e => orient (fst e) (snd e) P <? 0) (chain y l) = true).
      { apply forallb_forall. intros [u v] Huv. cbn [fst snd]. apply Z.ltb_lt. destruct (chain_in _ _ _ _ Huv) as [Iu Iv].
        apply (combination o x y); try assumption.
        - rewrite <- orient_rot. apply Z.lt_le_incl. apply (turn_chain o l y u v HT2 Huv).
        - rewrite <- orient_rot. apply Z.lt_le_incl. apply (turn_chain x l y u v HC1 Huv).
        - rewrite <- orient_rot. destruct l as [|z l]; [destruct Huv|]. destruct HC2 as [HC2 _]. cbn [chain] in Huv.
          destruct Huv as [E|Huv]; [inversion E; subst; unfold orient; lia|]. apply Z.lt_le_incl, (turn_chain y l z u v HC2 Huv).
        - left. rewrite <- orient_rot. apply (turn_chain o l y u v HT2 Huv). }
      assert (A2 : (0 <? orient o (last l y) P) = true).
      { destruct l as [|z l]; [exact Lp|]. apply Z.ltb_lt. assert (Il : In (last (z :: l) y) (z :: l)).
        { destruct (exists_last (l := z :: l) ltac:(discriminate)) as (m & t & Em). rewrite Em, last_last. apply in_or_app. right. now left. }
        assert (orient (last (z :: l) y) o P < 0); [|rewrite orient_swap in H; lia].
        apply (combination o x y); try assumption.
        - rewrite (proj2 (orient_dup _ _)). lia.
        - rewrite orient_rot. apply Z.lt_le_incl, HT1. now right.
        - rewrite orient_rot. apply Z.lt_le_incl. destruct HT2 as [HT2 _]. apply HT2, Il.
        - right. left. rewrite orient_rot. apply HT1. now right. }
      rewrite A1, A2. reflexivity.
Qed.

Lemma convex_total v0 v1 l P : convex_clockwise (v0 :: v1 :: l) -> off_edges P (v0 :: v1 :: l) -> off_spokes v0 P (v0 :: v1 :: l) ->
  (forall v, In v (v1 :: l) -> orient v0 v P <> 0) ->
  total P (edges (v0 :: v1 :: l)) = if forallb (fun e => orient (fst e) (snd e) P <? 0) (edges (v0 :: v1 :: l)) then -1 else 0.
Proof.
  intros [HT HC] He Hs G. rewrite <- (fan_closed P v0 _ He Hs). unfold winding, edges.
  assert (Ll : last (v0 :: v1 :: l) (0, 0) = last l v1).
  { change (last (v0 :: v1 :: l) (0, 0)) with (last (v1 :: l) (0, 0)). destruct l as [|z l]; [reflexivity|]. change (last (v1 :: z :: l) (0, 0)) with (last (z :: l) (0, 0)). apply last_ind_dep. discriminate. }
  rewrite Ll. cbn [chain map fold_right fst snd forallb]. change (fold_right Z.add 0) with sum. rewrite (fan_sum v0 P l v1 HT HC G).
  assert (T1 : triangle_winding P v0 (last l v1) v0 = 0).
  { unfold triangle_winding. assert (E : orient v0 v0 P = 0) by (unfold orient; ring). rewrite E. cbn [Z.ltb Z.compare]. rewrite !andb_false_r. reflexivity. }
  assert (T2 : triangle_winding P v0 v0 v1 = 0).
  { unfold triangle_winding. assert (E : orient v0 v0 P = 0) by (unfold orient; ring). rewrite E. reflexivity. }
  rewrite T1, T2, !Z.add_0_l. unfold in_fan. rewrite (orient_swap v0 (last l v1)).
  assert (E : (- orient v0 (last l v1) P <? 0) = (0 <? orient v0 (last l v1) P)) by (destruct (Z.ltb_spec (- orient v0 (last l v1) P) 0), (Z.ltb_spec 0 (orient v0 (last l v1) P)); try reflexivity; lia).
  rewrite E. destruct (0 <? orient v0 (last l v1) P), (orient v0 v1 P <? 0), (forallb (fun e => orient (fst e) (snd e) P <? 0) (chain v1 l)); reflexivity.
Qed.
