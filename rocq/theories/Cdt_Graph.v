(** The edges of a Delaunay triangulation as a graph: short connections are edges, and edges lead towards every point. *)
From Coq Require Import List Permutation ZArith Lia Bool.
Import ListNotations.
From Verif Require Import Base Vec_Model Math_Model Vec_Spec Vec_Props Math_Spec Math_Proofs Cdt_Model Cdt_Geom Cdt_Mesh Cdt_Flip Cdt_Circle Cdt_Insert Cdt_OnEdge Cdt_Walk Cdt_Spec Cdt_Tile Cdt_Planar Cdt_Props Cdt_Cover.
Local Open Scope Z_scope.

(** ** The faces cover the points between the grid points, too: x / k is in the square. *)
Section Scaled.
  Context (limit : Z).

  Definition shift (m : Z) (x : point) : point := (m * fst x + unit_in (fst x), m * snd x + unit_in (snd x)).
  Lemma line_shift m k a b x : line (m * k) a b (shift m x) = m * line k a b x + ((fst b - fst a) * unit_in (snd x) - (snd b - snd a) * unit_in (fst x)).
  Proof. unfold line, shift. cbn [fst snd]. ring. Qed.
  Lemma shift_back k a b x : inbox a -> inbox b -> line (1000000 * k) a b (shift 1000000 x) <= 0 -> line k a b x <= 0.
  Proof. intros Ha Hb. rewrite line_shift. pose proof (line_small a b x Ha Hb). lia. Qed.
  Definition in_scaled (k : Z) (x : point) : Prop := k * low <= fst x <= k * high /\ k * low <= snd x <= k * high.

  Lemma shift_in k x : 0 < k -> in_scaled k x -> forallb (fun e => orient (fst e) (snd e) (query (shift 1000000 x)) <? 0) (edges (map (vbig (1000000 * k)) Cdt_Spec.square)) = true.
  Proof.
    intros Hk Hx. apply forallb_forall. intros e He. rewrite edges_big in He. apply in_map_iff in He. destruct He as ([a b] & <- & Hin). unfold ebig. cbn [fst snd]. apply Z.ltb_lt.
    pose proof square_box as F. rewrite Forall_forall in F.
    assert (Hab : In a Cdt_Spec.square /\ In b Cdt_Spec.square /\ line (1000000 * k) a b (shift 1000000 x) < 0).
    { destruct Hx as [H1 H2]. cbn in Hin. unfold low, high in *. rewrite line_shift. unfold line, unit_in.
      destruct (Z.ltb_spec (fst x) 0), (Z.ltb_spec (snd x) 0); cbn [In Cdt_Spec.square]; unfold low, high; (destruct Hin as [E|[E|[E|[E|[]]]]]; injection E as <- <-; cbn [fst snd]; (split; [tauto|]); (split; [tauto|]); lia). }
    destruct Hab as (Ha & Hb & L). apply (orient_line (1000000 * k) a b (shift 1000000 x)); [lia|now apply F|now apply F|assumption].
  Qed.

  Theorem cover_scaled s k x : good limit s -> 0 < k -> in_scaled k x ->
    exists f, 6 <= f < 2 * size s /\ line k (P s (4 * f)) (P s (nxt (4 * f))) x <= 0 /\ line k (P s (nxt (4 * f))) (P s (prv (4 * f))) x <= 0 /\ line k (P s (prv (4 * f))) (P s (4 * f)) x <= 0.
  Proof.
    intros G Hk Hx. pose proof (count_big (1000000 * k) (shift 1000000 x) (triangles s) ltac:(lia) (good_box_tri limit s G) (good_cw_tri limit s G)) as C.
    rewrite (sides_big (1000000 * k) _ _ _ (tiles limit s G)), (square_total (1000000 * k) _ ltac:(lia)), (shift_in k x Hk Hx) in C.
    destruct (filter (contains (1000000 * k) (shift 1000000 x)) (triangles s)) as [|t l] eqn:E; [cbn in C; lia|]. clear C.
    assert (Ht : In t (filter (contains (1000000 * k) (shift 1000000 x)) (triangles s))) by (rewrite E; now left). apply filter_In in Ht. destruct Ht as [Ht C]. clear E l.
    apply in_map_iff in Ht. destruct Ht as (f & <- & Hf). assert (Hf' : 6 <= f < 2 * size s) by (apply faces_of_in; [pose proof (g_size _ _ G); lia|exact Hf]). clear Hf. rename Hf' into Hf.
    exists f. split; [assumption|]. pose proof (face_node s f Hf) as Hn.
    pose proof (fn_box limit s _ G (or_introl Hn)) as B0. pose proof (fn_box limit s _ G (or_introl (nxt_node s _ Hn))) as B1. pose proof (fn_box limit s _ G (or_introl (prv_node s _ Hn))) as B2.
    assert (T : face_triangle s f = (P s (4 * f), P s (nxt (4 * f)), P s (prv (4 * f)))) by (unfold face_triangle, corner; destruct (four f) as (-> & -> & _); change (0 mod 3) with 0; rewrite Z.add_0_r; reflexivity).
    rewrite T in C. unfold contains in C. rewrite !andb_true_iff, !Z.ltb_lt in C. destruct C as ((C1 & C2) & C3).
    assert (K : forall a b, inbox a -> inbox b -> orient (vbig (1000000 * k) a) (vbig (1000000 * k) b) (query (shift 1000000 x)) < 0 -> line k a b x <= 0).
    { intros a b Ha Hb H. apply shift_back; [assumption..|]. now apply (orient_line (1000000 * k) a b (shift 1000000 x) ltac:(lia) Ha Hb). }
    split; [|split]; apply K; assumption.
  Qed.
End Scaled.

(** ** The circle on p r as a diameter *)
Definition dot (a p r : point) : Z := (fst a - fst p) * (fst a - fst r) + (snd a - snd p) * (snd a - snd r).
Definition plus (p r : point) : point := (fst p + fst r, snd p + snd r).
Lemma diameter_identity a b c p r :
  incircle_det a b c p + incircle_det a b c r = line 2 b c (plus p r) * dot a p r + line 2 c a (plus p r) * dot b p r + line 2 a b (plus p r) * dot c p r.
Proof. destruct a as [ax ay], b as [bx by_], c as [cx cy], p as [px py], r as [rx ry]. unfold incircle_det, det6, line, dot, plus. cbn [fst snd]. ring. Qed.
Lemma line_sum3 a b c p r : line 2 b c (plus p r) + line 2 c a (plus p r) + line 2 a b (plus p r) = 2 * orient a b c.
Proof. unfold line, plus, orient. cbn [fst snd]. ring. Qed.
Lemma line_centre_x a b c x : line 2 b c x * (2 * fst a - fst x) + line 2 c a x * (2 * fst b - fst x) + line 2 a b x * (2 * fst c - fst x) = 0.
Proof. unfold line. ring. Qed.
Lemma line_centre_y a b c x : line 2 b c x * (2 * snd a - snd x) + line 2 c a x * (2 * snd b - snd x) + line 2 a b x * (2 * snd c - snd x) = 0.
Proof. unfold line. ring. Qed.

(** The face of the midpoint has p and r as corners. *)
Lemma diameter_corners a b c p r : orient a b c < 0 -> p <> r ->
  line 2 a b (plus p r) <= 0 -> line 2 b c (plus p r) <= 0 -> line 2 c a (plus p r) <= 0 ->
  0 <= incircle_det a b c p -> 0 <= incircle_det a b c r ->
  (forall v, v = a \/ v = b \/ v = c -> v = p \/ v = r \/ 0 < dot v p r) ->
  In p [a; b; c] /\ In r [a; b; c].
Proof.
  intros O N L1 L2 L3 Dp Dr H. pose proof (diameter_identity a b c p r) as I. pose proof (line_sum3 a b c p r) as S.
  pose proof (line_centre_x a b c (plus p r)) as X. pose proof (line_centre_y a b c (plus p r)) as Y.
  set (la := line 2 b c (plus p r)) in *. set (lb := line 2 c a (plus p r)) in *. set (lc := line 2 a b (plus p r)) in *. clearbody la lb lc.
  assert (Z0 : forall v, v = p \/ v = r \/ 0 < dot v p r -> (v = p \/ v = r) /\ dot v p r = 0 \/ 0 < dot v p r).
  { intros v [-> |[-> |K]]; [left..|now right]; (split; [auto|]); unfold dot; ring. }
  pose proof (Z0 a (H a ltac:(auto))) as Ha. pose proof (Z0 b (H b ltac:(auto))) as Hb. pose proof (Z0 c (H c ltac:(auto))) as Hc. clear Z0 H.
  assert (Pa : la * dot a p r <= 0) by (destruct Ha as [[_ ->]|Ha]; nia). assert (Pb : lb * dot b p r <= 0) by (destruct Hb as [[_ ->]|Hb]; nia). assert (Pc : lc * dot c p r <= 0) by (destruct Hc as [[_ ->]|Hc]; nia).
  assert (Qa : (a = p \/ a = r) \/ la = 0) by (destruct Ha as [[K _]|Ha]; [now left|right]; nia).
  assert (Qb : (b = p \/ b = r) \/ lb = 0) by (destruct Hb as [[K _]|Hb]; [now left|right]; nia).
  assert (Qc : (c = p \/ c = r) \/ lc = 0) by (destruct Hc as [[K _]|Hc]; [now left|right]; nia).
  clear I Pa Pb Pc Ha Hb Hc Dp Dr. cbn [In].
  assert (One : forall v l, l < 0 -> v = p \/ v = r -> l * (2 * fst v - fst (plus p r)) = 0 -> l * (2 * snd v - snd (plus p r)) = 0 -> False).
  { intros v l Hl Hv E1 E2. unfold plus in E1, E2. cbn [fst snd] in E1, E2. apply N. destruct p as [px py], r as [rx ry], v as [vx vy]. cbn [fst snd] in *.
    apply Z.mul_eq_0 in E1, E2. destruct Hv as [K|K]; injection K as -> ->; f_equal; lia. }
  assert (D : a <> b /\ b <> c /\ c <> a) by (unfold orient in O; split; [|split]; intros ->; lia). destruct D as (D1 & D2 & D3). assert (S' : la + lb + lc < 0) by lia. clear O S.
  destruct Qa as [Qa|Qa], Qb as [Qb|Qb], Qc as [Qc|Qc]; subst;
    try (exfalso; lia); rewrite ?Z.mul_0_l, ?Z.add_0_l, ?Z.add_0_r in X, Y;
    try (exfalso; eapply One; [|eassumption|eassumption|eassumption]; lia);
    repeat match goal with K : _ \/ _ |- _ => destruct K; subst end; try congruence; tauto.
Qed.

(** ** Towards a point *)
Definition toward (k : Z) (p r : point) : point := ((k - 1) * fst p + fst r, (k - 1) * snd p + snd r).
Lemma line_toward k a b p r : line k a b (toward k p r) = (k - 1) * orient a b p + orient a b r.
Proof. unfold line, toward, orient. cbn [fst snd]. ring. Qed.
Lemma toward_side a b p r : inbox a -> inbox b -> inbox r -> line bigk a b (toward bigk p r) <= 0 -> orient a b p <= 0 /\ (orient a b p = 0 -> orient a b r <= 0).
Proof. intros Ha Hb Hr L. rewrite line_toward in L. pose proof (orient_small a b r Ha Hb Hr) as S. unfold bigk in L. split; intros; lia. Qed.
Lemma toward_in p r : inbox p -> inbox r -> in_scaled bigk (toward bigk p r).
Proof. unfold inbox, in_scaled, toward, bigk, lo, hi, low, high. change (2 ^ 15) with 32768. cbn [fst snd]. lia. Qed.

(** The paraboloid around any point: the plane over a face is below it at every vertex. *)
Lemma plane_identity d x y p b c r :
  - orient p b c * (distance2 d x y r - distance2 d x y p) =
  - orient c p r * (distance2 d x y b - distance2 d x y p) + - orient p b r * (distance2 d x y c - distance2 d x y p) + d * d * incircle_det p b c r.
Proof. destruct p as [px py], b as [bx by_], c as [cx cy], r as [rx ry]. unfold orient, distance2, incircle_det, det6. cbn [fst snd]. ring. Qed.
Lemma closer d x y p b c r : orient p b c < 0 -> orient p b r <= 0 -> orient c p r <= 0 -> 0 <= incircle_det p b c r -> distance2 d x y r < distance2 d x y p ->
  distance2 d x y b < distance2 d x y p \/ distance2 d x y c < distance2 d x y p.
Proof.
  intros O L1 L2 D C. pose proof (plane_identity d x y p b c r) as I.
  set (fp := distance2 d x y p) in *. set (fb := distance2 d x y b) in *. set (fc := distance2 d x y c) in *. set (fr := distance2 d x y r) in *. clearbody fp fb fc fr.
  destruct (Z.lt_ge_cases fb fp) as [?|B]; [now left|]. destruct (Z.lt_ge_cases fc fp) as [?|B']; [now right|]. exfalso.
  set (w := - orient p b c) in *. set (u := - orient c p r) in *. set (v := - orient p b r) in *. set (g := incircle_det p b c r) in *.
  assert (0 < w) by (unfold w; lia). assert (0 <= u) by (unfold u; lia). assert (0 <= v) by (unfold v; lia). clearbody w u v g. clear O L1 L2.
  assert (w * (fr - fp) < 0) by nia. assert (0 <= u * (fb - fp)) by nia. assert (0 <= v * (fc - fp)) by nia. assert (0 <= d * d * g) by nia. lia.
Qed.
