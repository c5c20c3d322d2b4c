(** The faces of a mesh are planar: no point is strictly inside two of them, even a point with rational coordinates, and a vertex
    of the mesh that is in a face or on its sides is a corner of it. *)
From Coq Require Import Permutation.
From Verif Require Import Base Vec_Model Math_Model Vec_Spec Vec_Props Math_Spec Math_Proofs Math_Props Cdt_Model Cdt_Geom Cdt_Mesh Cdt_Flip Cdt_Circle Cdt_Insert Cdt_OnEdge Cdt_Walk Cdt_Spec Cdt_Tile.
Local Open Scope Z_scope.
Local Notation square := Cdt_Spec.square.
Local Notation vtotal := Vec_Props.total.

(** Points in units of 1 / k. *)
Definition big (k : Z) (a : point) : point := (k * fst a, k * snd a).
Definition line (k : Z) (a b x : point) : Z := (fst b - fst a) * (snd x - k * snd a) - (snd b - snd a) * (fst x - k * fst a).
Definition vbig (k : Z) (a : point) : point := vertex (big k a).
Definition ebig (k : Z) (e : point * point) : point * point := (vbig k (fst e), vbig k (snd e)).

Lemma orient_vbig k a b x : orient (vbig k a) (vbig k b) (query x) = M0 * M0 * k * (M0 * M0 * line k a b x + M0 * (snd b - snd a) + (fst a - fst b)).
Proof. unfold orient, vbig, vertex, big, query, line. cbn [fst snd]. ring. Qed.

Lemma box_diff a b : inbox a -> inbox b -> - 2 ^ 32 <= snd b - snd a <= 2 ^ 32 /\ - 2 ^ 32 <= fst a - fst b <= 2 ^ 32.
Proof. unfold inbox, lo, hi. change (2 ^ 15) with 32768. change (2 ^ 32) with 4294967296. lia. Qed.

Lemma orient_line k a b x : 0 < k -> inbox a -> inbox b ->
  (line k a b x < 0 -> orient (vbig k a) (vbig k b) (query x) < 0) /\ (orient (vbig k a) (vbig k b) (query x) < 0 -> line k a b x <= 0) /\
  (a <> b -> orient (vbig k a) (vbig k b) (query x) <> 0).
Proof.
  intros Hk Ha Hb. destruct (box_diff a b Ha Hb) as [D1 D2]. rewrite orient_vbig.
  destruct (lex3 M0 (line k a b x) (snd b - snd a) (fst a - fst b) (Z.le_refl _) D1 D2) as [L Z0].
  assert (Kp : 0 < M0 * M0 * k) by (apply Z.mul_pos_pos; [reflexivity|assumption]). set (m := M0 * M0 * k) in *. clearbody m. clear D1 D2.
  set (w := M0 * M0 * line k a b x + M0 * (snd b - snd a) + (fst a - fst b)) in *. clearbody w. split; [|split].
  - intro H. apply Z.mul_pos_neg; [assumption|]. apply L. now left.
  - intro H. assert (w < 0) by nia. apply L in H0. lia.
  - intros Hab H. apply Z.mul_eq_0 in H. destruct H as [H|H]; [lia|]. apply Z0 in H. apply Hab. destruct a, b. cbn [fst snd] in *. f_equal; lia.
Qed.

Lemma off_big k a b x : 0 < k -> inbox a -> inbox b -> a <> b -> ~ on_segment (query x) (vbig k a) (vbig k b).
Proof. intros Hk Ha Hb Hab [O _]. now apply (orient_line k a b x Hk Ha Hb). Qed.

(** The point x / k, moved a little, is strictly inside t. *)
Definition contains (k : Z) (x : point) (t : triangle) : bool :=
  let '(a, b, c) := t in (orient (vbig k a) (vbig k b) (query x) <? 0) && (orient (vbig k b) (vbig k c) (query x) <? 0) && (orient (vbig k c) (vbig k a) (query x) <? 0).
Definition box_tri (t : triangle) : Prop := let '(a, b, c) := t in inbox a /\ inbox b /\ inbox c.

Lemma count_big k x ts : 0 < k -> Forall box_tri ts -> Forall clockwise ts ->
  Z.of_nat (length (filter (contains k x) ts)) = - vtotal (query x) (map (ebig k) (flat_map sides ts)).
Proof.
  intros Hk. induction ts as [|[[a b] c] ts IH]; intros F1 F2; [reflexivity|].
  inversion F1 as [|? ? Habc F1']; inversion F2 as [|? ? Hcw F2']; subst. destruct Habc as (Ha & Hb & Hc). specialize (IH F1' F2').
  assert (D : a <> b /\ b <> c /\ c <> a) by (unfold clockwise in Hcw; repeat split; intros ->; unfold orient in Hcw; lia). destruct D as (D1 & D2 & D3).
  cbn [flat_map sides app map]. unfold vtotal. cbn [map Vec_Props.sum fold_right]. change (ebig k (a, b)) with (vbig k a, vbig k b). change (ebig k (b, c)) with (vbig k b, vbig k c). change (ebig k (c, a)) with (vbig k c, vbig k a). cbn [fst snd].
  fold (Vec_Props.sum (map (fun e => crossing (vsub (query x) (fst e)) (vsub (query x) (snd e))) (map (ebig k) (flat_map sides ts)))).
  fold (vtotal (query x) (map (ebig k) (flat_map sides ts))).
  pose proof (triangle_crossing (query x) (vbig k a) (vbig k b) (vbig k c) (off_big k a b x Hk Ha Hb D1) (off_big k b c x Hk Hb Hc D2) (off_big k c a x Hk Hc Ha D3)) as T.
  assert (W : triangle_winding (query x) (vbig k a) (vbig k b) (vbig k c) = if contains k x (a, b, c) then -1 else 0).
  { unfold triangle_winding, contains. unfold clockwise in Hcw.
    assert (I : orient (vbig k a) (vbig k b) (query x) + orient (vbig k b) (vbig k c) (query x) + orient (vbig k c) (vbig k a) (query x) = M0 * M0 * (M0 * M0) * (k * k) * orient a b c)
      by (unfold vbig, vertex, big, query, orient; cbn [fst snd]; ring).
    assert (M0 * M0 * (M0 * M0) * (k * k) * orient a b c < 0) by (apply Z.mul_pos_neg; [apply Z.mul_pos_pos; [reflexivity|now apply Z.mul_pos_pos]|exact Hcw]).
    revert I H. generalize (orient (vbig k a) (vbig k b) (query x)) (orient (vbig k b) (vbig k c) (query x)) (orient (vbig k c) (vbig k a) (query x)). intros u v w I H.
    destruct (Z.ltb_spec 0 u), (Z.ltb_spec 0 v), (Z.ltb_spec 0 w); cbn [andb]; try (exfalso; lia); reflexivity. }
  rewrite W in T. cbn [filter]. destruct (contains k x (a, b, c)); cbn [length]; lia.
Qed.

Lemma edges_big k l : edges (map (vbig k) l) = map (ebig k) (edges l).
Proof.
  assert (C : forall l a, chain (vbig k a) (map (vbig k) l) = map (ebig k) (chain a l)).
  { induction l0 as [|b l0 IH]; intro a; [reflexivity|]. cbn [map chain]. now rewrite IH. }
  destruct l as [|b l]; [reflexivity|]. unfold edges. rewrite <- C. f_equal.
  destruct (exists_last (l := b :: l) ltac:(discriminate)) as (m & t & ->). rewrite map_app. cbn [map]. now rewrite !last_last.
Qed.

Lemma sides_big k x ts boundary : mesh_with_boundary ts boundary -> vtotal (query x) (map (ebig k) (flat_map sides ts)) = vtotal (query x) (edges (map (vbig k) boundary)).
Proof.
  intros (inner & H). rewrite (Vec_Props.total_perm _ _ _ (Permutation_map (ebig k) H)), !map_app, !Vec_Props.total_app, edges_big.
  assert (E : map (ebig k) (map Math_Spec.flip inner) = map Math_Spec.flip (map (ebig k) inner)) by (rewrite !map_map; apply map_ext; intros []; reflexivity).
  rewrite E, total_flip. lia.
Qed.

Lemma square_box : Forall inbox square.
Proof. unfold square, inbox, low, high, lo, hi. change (2 ^ 15) with 32768. repeat constructor; cbn [fst snd]; lia. Qed.
Lemma square_total k x : 0 < k ->
  vtotal (query x) (edges (map (vbig k) square)) = if forallb (fun e => orient (fst e) (snd e) (query x) <? 0) (edges (map (vbig k) square)) then -1 else 0.
Proof.
  intro Hk. pose proof square_box as F. rewrite Forall_forall in F.
  assert (O : forall a b, In a square -> In b square -> a <> b -> orient (vbig k a) (vbig k b) (query x) <> 0) by (intros a b Ha Hb; now apply (orient_line k a b x Hk (F a Ha) (F b Hb))).
  unfold square at 1 2. cbn [map]. apply convex_total.
  - cbn [convex_clockwise turn_around]. unfold vbig, vertex, big, low, high. 
    assert (T : forall a b c, orient a b c < 0 -> orient (vbig k a) (vbig k b) (vbig k c) < 0).
    { intros a b c H. replace (orient (vbig k a) (vbig k b) (vbig k c)) with (M0 * M0 * (M0 * M0) * (k * k) * orient a b c) by (unfold vbig, vertex, big, orient; cbn [fst snd]; ring).
      apply Z.mul_pos_neg; [|assumption]. apply Z.mul_pos_pos; [reflexivity|now apply Z.mul_pos_pos]. }
    repeat split; intros c Hc; cbn [In] in Hc; intuition; subst; apply T; reflexivity.
  - intros a b Hab. change (In (a, b) (edges (map (vbig k) square))) in Hab. rewrite edges_big in Hab. apply in_map_iff in Hab. destruct Hab as ([a' b'] & E & Hin). injection E as <- <-. cbn [fst snd].
    apply off_big; [assumption|apply F|apply F|]; cbn in Hin; cbn [In square]; intuition; match goal with H : (_, _) = (a', b') |- _ => injection H as <- <- end; auto; discriminate.
  - intros a Ha. change (In a (map (vbig k) square)) in Ha. apply in_map_iff in Ha. destruct Ha as (a' & <- & Ha). cbn [In square] in Ha. destruct Ha as [<-|Ha].
    + intros (_ & X & _). unfold vbig, vertex, big, query in X. cbn [fst snd] in X. unfold M0 in X. change (2 ^ 33) with 8589934592 in X.
      assert (8589934592 * 8589934592 * fst x - 8589934592 - 8589934592 * 8589934592 * (k * low) = 0) by nia. lia.
    + apply off_big; [assumption|apply F; now left|apply F; now right|]. intros <-. intuition discriminate.
  - intros v Hv. change (In v (map (vbig k) [(low, high); (high, high); (high, low)])) in Hv. apply in_map_iff in Hv. destruct Hv as (v' & <- & Hv). apply O; [now left|now right|]. intros <-. cbn [In] in Hv. intuition discriminate.
Qed.

Section Planar.
  Context (limit : Z).

  Lemma good_box_tri s : good limit s -> Forall box_tri (triangles s).
  Proof.
    intro G. apply Forall_forall. intros t Ht. apply in_map_iff in Ht. destruct Ht as (f & <- & Hf). assert (Hf' : 6 <= f < 2 * size s) by (apply faces_of_in; [pose proof (g_size _ _ G); lia|exact Hf]).
    pose proof (face_node s f Hf') as Hn. unfold face_triangle, corner. destruct (four f) as (E1 & E2 & _). change (0 mod 3) with 0. change (1 mod 3) with 1. change (2 mod 3) with 2. rewrite Z.add_0_r, <- E1, <- E2.
    unfold box_tri. split; [|split]; apply (fn_box limit s _ G); left; [assumption|now apply nxt_node|now apply prv_node].
  Qed.
  Lemma good_cw_tri s : good limit s -> Forall clockwise (triangles s).
  Proof.
    intro G. apply Forall_forall. intros t Ht. apply in_map_iff in Ht. destruct Ht as (f & <- & Hf). assert (Hf' : 6 <= f < 2 * size s) by (apply faces_of_in; [pose proof (g_size _ _ G); lia|exact Hf]).
    pose proof (face_node s f Hf') as Hn. unfold face_triangle, corner. destruct (four f) as (E1 & E2 & _). change (0 mod 3) with 0. change (1 mod 3) with 1. change (2 mod 3) with 2. rewrite Z.add_0_r, <- E1, <- E2. apply (g_cw _ _ G _ Hn).
  Qed.

  (** x / k is strictly inside the face of node n. *)
  Definition strict (s : mesh) (k : Z) (x : point) (n : Z) : Prop :=
    line k (P s n) (P s (nxt n)) x < 0 /\ line k (P s (nxt n)) (P s (prv n)) x < 0 /\ line k (P s (prv n)) (P s n) x < 0.
  Lemma strict_face s k x n m : n mod 4 <> 3 -> m mod 4 <> 3 -> n / 4 = m / 4 -> strict s k x n -> strict s k x m.
  Proof. intros Hn Hm E (S1 & S2 & S3). destruct (same_face n m Hn Hm E) as [-> |[-> | ->]]; unfold strict; rewrite ?nxt_nxt, ?prv_nxt, ?nxt_prv, ?prv_prv by assumption; auto. Qed.

  Lemma filter_two {A} (h : A -> bool) (l : list A) i j x y : (i < j)%nat -> nth_error l i = Some x -> nth_error l j = Some y -> h x = true -> h y = true -> (2 <= length (filter h l))%nat.
  Proof.
    assert (One : forall (l : list A) j y, nth_error l j = Some y -> h y = true -> (1 <= length (filter h l))%nat).
    { induction l0 as [|b l0 IH]; intros [|k] z H Hz; cbn in H; try discriminate; cbn [filter].
      - injection H as ->. rewrite Hz. cbn. lia.
      - specialize (IH k z H Hz). destruct (h b); cbn [length]; lia. }
    revert i j. induction l as [|b l IH]; intros [|i] [|j] L Hi Hj Hx Hy; try lia; cbn in Hi, Hj; try discriminate.
    - injection Hi as ->. specialize (One l j y Hj Hy). cbn [filter]. rewrite Hx. cbn [length]. lia.
    - specialize (IH i j ltac:(lia) Hi Hj Hx Hy). cbn [filter]. destruct (h b); cbn [length]; lia.
  Qed.

  Lemma face_count s k x : good limit s -> 0 < k -> (length (filter (contains k x) (triangles s)) <= 1)%nat.
  Proof.
    intros G Hk. pose proof (count_big k x (triangles s) Hk (good_box_tri s G) (good_cw_tri s G)) as C. rewrite (sides_big k x _ _ (tiles limit s G)), (square_total k x Hk) in C.
    destruct (forallb _ _) in C; lia.
  Qed.
  Lemma nth_face s f : good limit s -> 6 <= f < 2 * size s -> nth_error (triangles s) (Z.to_nat f - 6) = Some (P s (4 * f), P s (nxt (4 * f)), P s (prv (4 * f))).
  Proof.
    intros G Hf. unfold triangles, all_faces. rewrite map_map. rewrite map_nth_error with (d := Z.to_nat f).
    - rewrite Z2Nat.id by lia. unfold face_triangle, corner. destruct (four f) as (-> & -> & _). change (0 mod 3) with 0. rewrite Z.add_0_r. reflexivity.
    - rewrite nth_error_nth' with (d := 0%nat) by (rewrite seq_length; lia). rewrite seq_nth by lia. f_equal. lia.
  Qed.
  Lemma strict_contains s k x f : good limit s -> 0 < k -> 6 <= f < 2 * size s -> strict s k x (4 * f) -> contains k x (P s (4 * f), P s (nxt (4 * f)), P s (prv (4 * f))) = true.
  Proof.
    intros G Hk Hf (S1 & S2 & S3). pose proof (face_node s f Hf) as Hn.
    pose proof (fn_box limit s _ G (or_introl Hn)) as B0. pose proof (fn_box limit s _ G (or_introl (nxt_node s _ Hn))) as B1. pose proof (fn_box limit s _ G (or_introl (prv_node s _ Hn))) as B2.
    unfold contains. rewrite !andb_true_iff, !Z.ltb_lt. split; [split|]; now apply orient_line.
  Qed.

  (** Two faces have no point strictly inside both. *)
  Theorem disjoint s k x n m : good limit s -> 0 < k -> node s n -> node s m -> strict s k x n -> strict s k x m -> n / 4 = m / 4.
  Proof.
    intros G Hk Hn Hm Sn Sm. destruct (Z.eq_dec (n / 4) (m / 4)) as [|D]; [assumption|exfalso].
    pose proof (node_face s n Hn) as Fn. pose proof (node_face s m Hm) as Fm.
    apply (strict_face s k x n (4 * (n / 4))) in Sn; [|now apply (node_mod s)|rewrite (proj1 (face4 _)); lia|now rewrite (proj2 (face4 _))].
    apply (strict_face s k x m (4 * (m / 4))) in Sm; [|now apply (node_mod s)|rewrite (proj1 (face4 _)); lia|now rewrite (proj2 (face4 _))].
    set (f := n / 4) in *. set (g := m / 4) in *. clearbody f g. clear Hn Hm n m.
    pose proof (face_count s k x G Hk) as L. pose proof (strict_contains s k x f G Hk Fn Sn) as Cf. pose proof (strict_contains s k x g G Hk Fm Sm) as Cg.
    pose proof (nth_face s f G Fn) as Nf. pose proof (nth_face s g G Fm) as Ng.
    assert (2 <= length (filter (contains k x) (triangles s)))%nat; [|lia].
    destruct (Z.lt_total f g) as [H|[H|H]]; [|contradiction|].
    - apply (filter_two _ _ (Z.to_nat f - 6) (Z.to_nat g - 6) _ _ ltac:(lia) Nf Ng Cf Cg).
    - apply (filter_two _ _ (Z.to_nat g - 6) (Z.to_nat f - 6) _ _ ltac:(lia) Ng Nf Cg Cf).
  Qed.
  Lemma orient_small a b c : inbox a -> inbox b -> inbox c -> - 8589672450 <= orient a b c <= 8589672450.
  Proof.
    intros [A1 A2] [B1 B2] [C1 C2]. unfold orient, lo, hi in *. change (2 ^ 15) with 32768 in *.
    pose proof (mul_small 65535 (fst b - fst a) (snd c - snd a) ltac:(lia) ltac:(lia)). pose proof (mul_small 65535 (snd b - snd a) (fst c - fst a) ltac:(lia) ltac:(lia)). lia.
  Qed.
  Definition bigk : Z := 100000000000.
  (** A point near w, towards the inside of the triangle w u v. *)
  Definition blend (al be : Z) (w u v : point) : point := ((bigk - al - be) * fst w + al * fst u + be * fst v, (bigk - al - be) * snd w + al * snd u + be * snd v).
  Lemma line_blend al be a b w u v : line bigk a b (blend al be w u v) = (bigk - al - be) * orient a b w + al * orient a b u + be * orient a b v.
  Proof. unfold line, blend, orient. cbn [fst snd]. ring. Qed.
  Definition small (al : Z) : Prop := al = 1 \/ al = 2.
  Lemma line_neg al be a b w u v : small al -> small be -> inbox a -> inbox b -> inbox u -> inbox v -> orient a b w < 0 -> line bigk a b (blend al be w u v) < 0.
  Proof.
    intros Hal Hbe Ha Hb Hu Hv H. rewrite line_blend. pose proof (orient_small a b u Ha Hb Hu). pose proof (orient_small a b v Ha Hb Hv). unfold bigk, small in *.
    destruct Hal as [-> | ->], Hbe as [-> | ->]; lia.
  Qed.
  Lemma blend_strict s al be m : good limit s -> node s m -> small al -> small be -> strict s bigk (blend al be (P s m) (P s (nxt m)) (P s (prv m))) m.
  Proof.
    intros G Hm Hal Hbe. pose proof (g_cw _ _ G m Hm) as D. unfold strict. rewrite !line_blend.
    set (w := P s m) in *. set (u := P s (nxt m)) in *. set (v := P s (prv m)) in *. clearbody w u v.
    assert (E1 : orient w u w = 0 /\ orient w u u = 0 /\ orient u v u = 0 /\ orient u v v = 0 /\ orient v w v = 0 /\ orient v w w = 0) by (unfold orient; repeat split; ring).
    destruct E1 as (-> & -> & -> & -> & -> & ->). rewrite (orient_rot w u v). replace (orient v w u) with (orient w u v) by (unfold orient; ring).
    unfold bigk, small in *. destruct Hal as [-> | ->], Hbe as [-> | ->]; lia.
  Qed.

  Lemma boundary_side s n q : good limit s -> node s n -> tw s n = 0 -> inbox q -> orient (P s (nxt n)) (P s (prv n)) q <= 0.
  Proof.
    intros G Hn Hz [Q1 Q2]. destruct (g_bounded _ _ G) as (_ & B2 & _). destruct (g_corners _ _ G) as (K0 & K1 & K2 & K3). specialize (B2 n Hn Hz). unfold ea, eb in B2. unfold P.
    unfold lo, hi in *. change (2 ^ 15) with 32768 in *. cbn [sides4 In] in B2.
    destruct B2 as [E|[E|[E|[E|[]]]]]; injection E as <- <-; rewrite ?K0, ?K1, ?K2, ?K3; unfold orient; cbn [fst snd]; lia.
  Qed.

  Definition is_corner (s : mesh) (p : point) (n : Z) : Prop := p = P s n \/ p = P s (nxt n) \/ p = P s (prv n).
  Lemma is_corner_face s p n m : n mod 4 <> 3 -> m mod 4 <> 3 -> n / 4 = m / 4 -> is_corner s p m -> is_corner s p n.
  Proof. intros Hn Hm E H. destruct (same_face n m Hn Hm E) as [-> |[-> | ->]]; unfold is_corner in *; rewrite ?nxt_nxt, ?prv_nxt, ?nxt_prv, ?prv_prv in H by assumption; tauto. Qed.

  Lemma vertex_on_edge s n m : good limit s -> node s n -> node s m -> let w := P s m in
    orient w (P s (nxt n)) (P s (prv n)) = 0 -> orient w (P s (prv n)) (P s n) < 0 -> orient w (P s n) (P s (nxt n)) < 0 -> is_corner s w n.
  Proof.
    intros G Hn Hm w H0 H1 H2.
    pose proof (fn_box limit s _ G (or_introl Hn)) as B0. pose proof (fn_box limit s _ G (or_introl (nxt_node s _ Hn))) as B1. pose proof (fn_box limit s _ G (or_introl (prv_node s _ Hn))) as B2.
    pose proof (fn_box limit s _ G (or_introl Hm)) as C0. pose proof (fn_box limit s _ G (or_introl (nxt_node s _ Hm))) as C1. pose proof (fn_box limit s _ G (or_introl (prv_node s _ Hm))) as C2.
    set (O := P s n) in *. set (A := P s (nxt n)) in *. set (B := P s (prv n)) in *. set (u := P s (nxt m)) in *. set (v := P s (prv m)) in *.
    pose proof (g_cw _ _ G n Hn) as D. fold O A B in D. pose proof (g_cw _ _ G m Hm) as Dm. fold w u v in Dm. change (P s m) with w in C0.
    assert (Sel : exists al be, small al /\ small be /\ al * orient A B u + be * orient A B v <> 0).
    { destruct (Z.eq_dec (orient A B u + orient A B v) 0) as [E|E]; [|exists 1, 1; unfold small; split; [now left|]; split; [now left|lia]].
      destruct (Z.eq_dec (2 * orient A B u + orient A B v) 0) as [E'|E']; [|exists 2, 1; unfold small; split; [now right|]; split; [now left|lia]]. exfalso.
      assert (Eu : orient A B u = 0) by lia. assert (Ev : orient A B v = 0) by lia. assert (Ew : orient A B w = 0) by (rewrite <- H0; unfold orient; ring).
      (* all three on the line through A and B *)
      assert (X : (fst B - fst A) * orient w u v = 0).
      { transitivity ((fst u - fst w) * orient A B v + (fst w - fst v) * orient A B u + (fst v - fst u) * orient A B w); [unfold orient; ring|]. rewrite Eu, Ev, Ew. ring. }
      assert (Y : (snd B - snd A) * orient w u v = 0).
      { transitivity ((snd u - snd w) * orient A B v + (snd w - snd v) * orient A B u + (snd v - snd u) * orient A B w); [unfold orient; ring|]. rewrite Eu, Ev, Ew. ring. }
      apply Z.mul_eq_0 in X, Y. assert (fst B = fst A) by lia. assert (snd B = snd A) by lia. unfold orient in D. rewrite H, H3 in D. lia. }
    destruct Sel as (al & be & Hal & Hbe & Hd). set (x := blend al be w u v). pose proof (blend_strict s al be m G Hm Hal Hbe) as Sm. fold w u v x in Sm.
    assert (Lab : line bigk A B x = al * orient A B u + be * orient A B v). { unfold x. rewrite line_blend. replace (orient A B w) with 0 by (rewrite <- H0; unfold orient; ring). ring. }
    destruct (Z_lt_le_dec (al * orient A B u + be * orient A B v) 0) as [L|L].
    - assert (Sn : strict s bigk x n).
      { unfold strict. fold O A B. split; [|split; [lia|]]; apply line_neg; try assumption; [rewrite orient_rot in H2 |- *|rewrite orient_rot in H1 |- *]; unfold orient in *; lia. }
      pose proof (disjoint s bigk x n m G ltac:(reflexivity) Hn Hm Sn Sm) as E. apply (is_corner_face s w n m (node_mod s n Hn) (node_mod s m Hm) E). now left.
    - destruct (Z.eq_dec (tw s n) 0) as [Ez|Hz].
      + exfalso. pose proof (boundary_side s n u G Hn Ez C1). pose proof (boundary_side s n v G Hn Ez C2). fold A B in H, H3. unfold small in *. destruct Hal as [-> | ->], Hbe as [-> | ->]; lia.
      + pose proof (tw_node limit s G n Hn Hz) as Ht. pose proof (ea_tw limit s G n Hn Hz) as E1. pose proof (eb_tw limit s G n Hn Hz) as E2. unfold ea, eb in E1, E2.
        assert (Q1 : P s (nxt (tw s n)) = B) by (unfold B, P; now rewrite E1). assert (Q2 : P s (prv (tw s n)) = A) by (unfold A, P; now rewrite E2).
        pose proof (g_cw _ _ G _ Ht) as Dt. rewrite Q1, Q2 in Dt. set (O' := P s (tw s n)) in *.
        pose proof (fn_box limit s _ G (or_introl Ht)) as B3. fold O' in B3.
        destruct (other_side O A B O' w D Dt H0) as [K1 K2]; [unfold orient in *; lia|unfold orient in *; lia|].
        assert (St : strict s bigk x (tw s n)).
        { unfold strict. rewrite Q1, Q2. fold O'. split; [apply line_neg; assumption|]. split; [|apply line_neg; try assumption; unfold orient in *; lia].
          unfold x. rewrite line_blend. replace (orient B A w) with (- orient w A B) by (unfold orient; ring). rewrite H0. replace (orient B A u) with (- orient A B u) by (unfold orient; ring). replace (orient B A v) with (- orient A B v) by (unfold orient; ring). lia. }
        pose proof (disjoint s bigk x (tw s n) m G ltac:(reflexivity) Ht Hm St Sm) as E.
        assert (C : is_corner s w (tw s n)) by (apply (is_corner_face s w (tw s n) m (node_mod s _ Ht) (node_mod s m Hm) E); now left).
        unfold is_corner in C. rewrite Q1, Q2 in C. fold O' in C. destruct C as [C|[C|C]]; [|right; now right|right; now left].
        exfalso. rewrite C in K1. unfold orient in K1. lia.
  Qed.

  (** A vertex that is in a face, or on its sides, is a corner of the face. *)
  Theorem vertex_in_face s n m : good limit s -> node s n -> node s m -> closed_face s (P s m) n -> is_corner s (P s m) n.
  Proof.
    intros G Hn Hm (C1 & C2 & C3). pose proof (node_mod s n Hn) as Mn. set (w := P s m) in *.
    pose proof (g_cw _ _ G n Hn) as D. assert (S : orient (P s n) (P s (nxt n)) (P s (prv n)) = orient w (P s n) (P s (nxt n)) + orient w (P s (nxt n)) (P s (prv n)) + orient w (P s (prv n)) (P s n)) by (unfold orient; ring).
    destruct (Z.eq_dec (orient w (P s n) (P s (nxt n))) 0) as [E1|E1]; destruct (Z.eq_dec (orient w (P s (nxt n)) (P s (prv n))) 0) as [E2|E2]; destruct (Z.eq_dec (orient w (P s (prv n)) (P s n)) 0) as [E3|E3].
    - exfalso. lia.
    - right. left. apply (at_vertex w _ (P s (prv n)) (P s n)); assumption.
    - left. apply (at_vertex w _ (P s (nxt n)) (P s (prv n))); assumption.
    - assert (X : is_corner s w (prv n)) by (apply (vertex_on_edge s (prv n) m G (prv_node s n Hn) Hm); rewrite ?nxt_prv, ?prv_prv by assumption; fold w; lia).
      unfold is_corner in *. rewrite nxt_prv, prv_prv in X by assumption. tauto.
    - right. right. apply (at_vertex w _ (P s n) (P s (nxt n))); assumption.
    - apply (vertex_on_edge s n m G Hn Hm); fold w; lia.
    - assert (X : is_corner s w (nxt n)) by (apply (vertex_on_edge s (nxt n) m G (nxt_node s n Hn) Hm); rewrite ?nxt_nxt, ?prv_nxt by assumption; fold w; lia).
      unfold is_corner in *. rewrite nxt_nxt, prv_nxt in X by assumption. tauto.
    - pose proof (blend_strict s 1 1 m G Hm (or_introl eq_refl) (or_introl eq_refl)) as Sm. set (x := blend 1 1 (P s m) (P s (nxt m)) (P s (prv m))) in *.
      assert (Sn : strict s bigk x n).
      { pose proof (fn_box limit s _ G (or_introl Hn)) as B0. pose proof (fn_box limit s _ G (or_introl (nxt_node s _ Hn))) as B1. pose proof (fn_box limit s _ G (or_introl (prv_node s _ Hn))) as B2.
        pose proof (fn_box limit s _ G (or_introl (nxt_node s _ Hm))) as U1. pose proof (fn_box limit s _ G (or_introl (prv_node s _ Hm))) as U2.
        unfold strict. repeat split; apply line_neg; try assumption; try (now left); fold w; rewrite orient_rot; lia. }
      pose proof (disjoint s bigk x n m G ltac:(reflexivity) Hn Hm Sn Sm) as E. apply (is_corner_face s w n m Mn (node_mod s m Hm) E). now left.
  Qed.
End Planar.
