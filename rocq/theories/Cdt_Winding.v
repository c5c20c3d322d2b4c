(** A closed polygon made of constrained edges winds equally often around the points of a face, and around the two faces at an
    unconstrained edge. *)
From Verif Require Import Base Vec_Model Math_Model Vec_Spec Vec_Props Math_Spec Cdt_Model Cdt_Geom Cdt_Mesh Cdt_Flip Cdt_Circle Cdt_Insert Cdt_Walk Cdt_Spec Cdt_Tile Cdt_Planar Cdt_EdgeSpec Cdt_Fill.
Local Open Scope Z_scope.
Local Notation vtotal := Vec_Props.total.

(** ** Two segments that do not meet *)

(** The segments x y and u v have a point in common: the mean of x and y with weights c and d is the mean of u and v with weights r and t. *)
Definition meets (x y u v : point) : Prop :=
  exists c d r t, 0 <= c /\ 0 <= d /\ 0 <= r /\ 0 <= t /\ 0 < c + d /\ c + d = r + t /\
    c * fst x + d * fst y = r * fst u + t * fst v /\ c * snd x + d * snd y = r * snd u + t * snd v.

Lemma meets_swap x y u v : meets x y u v -> meets x y v u.
Proof. intros (c & d & r & t & H). exists c, d, t, r. lia. Qed.

Lemma seg_weights p a b : on_segment p a b ->
  exists r t, 0 <= r /\ 0 <= t /\ 0 < r + t /\ r * (fst a - fst p) + t * (fst b - fst p) = 0 /\ r * (snd a - snd p) + t * (snd b - snd p) = 0.
Proof.
  unfold on_segment, orient. intros (O & X & Y).
  assert (O' : (fst a - fst p) * (snd b - snd p) - (snd a - snd p) * (fst b - fst p) = 0) by (rewrite <- O; ring).
  assert (X' : (fst a - fst p) * (fst b - fst p) <= 0) by lia. assert (Y' : (snd a - snd p) * (snd b - snd p) <= 0) by lia. clear O X Y.
  revert O' X' Y'. generalize (fst a - fst p) (fst b - fst p) (snd a - snd p) (snd b - snd p). intros ax bx ay by_ O X Y.
  destruct (Z.eq_dec ax 0) as [->|Na]; [destruct (Z.eq_dec bx 0) as [->|Nb]; [destruct (Z.eq_dec ay 0) as [->|Nc]; [destruct (Z.eq_dec by_ 0) as [->|Nd]|]|]|].
  - exists 1, 0. lia.
  - exists (Z.abs by_), (Z.abs 0). cbn [Z.abs]. split; [lia|]. split; [lia|]. split; [lia|]. lia.
  - destruct (Z_lt_ge_dec ay 0); [exists by_, (- ay)|exists (- by_), ay]; repeat split; try lia; nia.
  - destruct (Z_lt_ge_dec bx 0); [exists (- bx), 0|exists bx, 0]; repeat split; try lia; nia.
  - destruct (Z_lt_ge_dec ax 0); [exists bx, (- ax)|exists (- bx), ax]; repeat split; try lia; nia.
Qed.

(** If 0 is in the triangle of the differences of the ends, the segments meet. *)
Lemma no_wind a b c : ~ (exists r t w, 0 <= r /\ 0 <= t /\ 0 <= w /\ 0 < r + t + w /\ r * fst a + t * fst b + w * fst c = 0 /\ r * snd a + t * snd b + w * snd c = 0) ->
  triangle_winding (0, 0) a b c = 0 /\ ~ on_segment (0, 0) a b /\ ~ on_segment (0, 0) b c /\ ~ on_segment (0, 0) c a.
Proof.
  intro N. split; [|split; [|split]].
  - assert (I1 : orient b c (0, 0) * fst a + orient c a (0, 0) * fst b + orient a b (0, 0) * fst c = 0) by (unfold orient; cbn [fst snd]; ring).
    assert (I2 : orient b c (0, 0) * snd a + orient c a (0, 0) * snd b + orient a b (0, 0) * snd c = 0) by (unfold orient; cbn [fst snd]; ring).
    unfold triangle_winding. revert I1 I2. generalize (orient b c (0, 0)) (orient c a (0, 0)) (orient a b (0, 0)). intros r t w I1 I2.
    destruct (Z.ltb_spec 0 w), (Z.ltb_spec 0 r), (Z.ltb_spec 0 t), (Z.ltb_spec w 0), (Z.ltb_spec r 0), (Z.ltb_spec t 0); cbn [andb]; try reflexivity; try lia; exfalso; apply N;
      [exists r, t, w|exists (- r), (- t), (- w)]; lia.
  - intro H. apply seg_weights in H. cbn [fst snd] in H. destruct H as (r & t & H1 & H2 & H3 & H4 & H5). apply N. exists r, t, 0. lia.
  - intro H. apply seg_weights in H. cbn [fst snd] in H. destruct H as (r & t & H1 & H2 & H3 & H4 & H5). apply N. exists 0, r, t. lia.
  - intro H. apply seg_weights in H. cbn [fst snd] in H. destruct H as (r & t & H1 & H2 & H3 & H4 & H5). apply N. exists t, 0, r. lia.
Qed.

Definition past (x y u : point) : Z := crossing (vsub y u) (vsub x u).

(** Moving from x to y past the segment u v. *)
Lemma move x y u v : ~ meets x y u v ->
  crossing (vsub x u) (vsub x v) - crossing (vsub y u) (vsub y v) = past x y v - past x y u.
Proof.
  intro N.
  assert (Z0 : forall p q : point, vsub (0, 0) (vsub p q) = vsub q p) by (intros; unfold vsub; cbn [fst snd]; f_equal; lia).
  destruct (no_wind (vsub u x) (vsub v x) (vsub v y)) as (W1 & A1 & A2 & A3).
  { intros (r & t & w & H1 & H2 & H3 & H4 & H5 & H6). apply N. unfold vsub in H5, H6. cbn [fst snd] in H5, H6. exists (r + t), w, r, (t + w). repeat split; lia. }
  destruct (no_wind (vsub u x) (vsub v y) (vsub u y)) as (W2 & B1 & B2 & B3).
  { intros (r & t & w & H1 & H2 & H3 & H4 & H5 & H6). apply N. unfold vsub in H5, H6. cbn [fst snd] in H5, H6. exists r, (t + w), (r + w), t. repeat split; lia. }
  pose proof (triangle_crossing (0, 0) _ _ _ A1 A2 A3) as T1. pose proof (triangle_crossing (0, 0) _ _ _ B1 B2 B3) as T2. rewrite W1 in T1. rewrite W2 in T2. rewrite !Z0 in T1, T2. unfold past.
  rewrite (crossing_anti (vsub x u) (vsub y v)) in T1. rewrite (crossing_anti (vsub x v) (vsub y v)). rewrite (crossing_anti (vsub y v) (vsub y u)). lia.
Qed.

Lemma crossing_same A : crossing A A = 0.
Proof. pose proof (crossing_anti A A). lia. Qed.

Lemma crossing_scale j A B : 0 < j -> crossing (big j A) (big j B) = crossing A B.
Proof.
  intro Hj. unfold crossing. replace (cross (big j A) (big j B)) with (j * j * cross A B) by (unfold cross, big; cbn [fst snd]; ring).
  assert (J : 0 < j * j) by nia. unfold big. cbn [fst snd].
  assert (L : forall i z, 0 < i -> (i * z <? 0) = (z <? 0)) by (intros i z Hi; destruct (Z.ltb_spec (i * z) 0), (Z.ltb_spec z 0); try reflexivity; nia).
  assert (L' : forall i z, 0 < i -> (0 <? i * z) = (0 <? z)) by (intros i z Hi; destruct (Z.ltb_spec 0 (i * z)), (Z.ltb_spec 0 z); try reflexivity; nia).
  now rewrite !L, L' by assumption.
Qed.

Lemma chain_map (h : point -> point) l : forall a, chain (h a) (map h l) = map (fun e => (h (fst e), h (snd e))) (chain a l).
Proof. induction l as [|b l IH]; intro a; [reflexivity|]. cbn [map chain fst snd]. now rewrite IH. Qed.
Lemma edges_map (h : point -> point) l : edges (map h l) = map (fun e => (h (fst e), h (snd e))) (edges l).
Proof.
  destruct l as [|b l]; [reflexivity|]. unfold edges. rewrite <- chain_map. f_equal.
  destruct (exists_last (l := b :: l) ltac:(discriminate)) as (m & t & ->). rewrite map_app. cbn [map]. now rewrite !last_last.
Qed.

(** How often the polygon ps winds around x / k. *)
Definition around (k : Z) (x : point) (ps : list point) : Z := vtotal x (edges (map (big k) ps)).

Lemma around_scale j k x ps : 0 < j -> around (j * k) (big j x) ps = around k x ps.
Proof.
  intro Hj. unfold around, vtotal. rewrite !edges_map, !map_map. f_equal. apply map_ext. intros [a b]. cbn [fst snd].
  replace (vsub (big j x) (big (j * k) a)) with (big j (vsub x (big k a))) by (unfold vsub, big; cbn [fst snd]; f_equal; ring).
  replace (vsub (big j x) (big (j * k) b)) with (big j (vsub x (big k b))) by (unfold vsub, big; cbn [fst snd]; f_equal; ring).
  now apply crossing_scale.
Qed.

Lemma total_cons p a b es : vtotal p ((a, b) :: es) = crossing (vsub p a) (vsub p b) + vtotal p es.
Proof. reflexivity. Qed.

Lemma chain_move x y l : forall a, (forall u v, In (u, v) (chain a l) -> u = v \/ ~ meets x y u v) ->
  vtotal x (chain a l) - vtotal y (chain a l) = past x y (last l a) - past x y a.
Proof.
  induction l as [|b l IH]; intros a H; [unfold vtotal; cbn [chain map Vec_Props.sum fold_right last]; lia|].
  cbn [chain]. rewrite !total_cons. assert (El : last (b :: l) a = last l b) by (destruct l as [|c l]; [reflexivity|]; change (last (b :: c :: l) a) with (last (c :: l) a); apply last_ind_dep; discriminate).
  rewrite El. specialize (IH b ltac:(intros u v Hin; apply H; now right)).
  destruct (H a b (or_introl eq_refl)) as [->|N]; [rewrite !crossing_same; lia|]. pose proof (move x y a b N). lia.
Qed.

Lemma around_move k x y ps : (forall a b, In (a, b) (edges ps) -> a = b \/ ~ meets x y (big k a) (big k b)) -> around k x ps = around k y ps.
Proof.
  intro H. unfold around, edges at 1 2. destruct ps as [|c ps]; [reflexivity|]. set (qs := map (big k) (c :: ps)).
  pose proof (chain_move x y qs (last qs (0, 0))) as M. rewrite (last_ind_dep qs (last qs (0, 0)) (0, 0)) in M by discriminate.
  enough (X : vtotal x (chain (last qs (0, 0)) qs) - vtotal y (chain (last qs (0, 0)) qs) = past x y (last qs (0, 0)) - past x y (last qs (0, 0))) by lia. apply M.
  intros u v Huv. change (In (u, v) (edges qs)) in Huv. unfold qs in Huv. rewrite edges_map in Huv. apply in_map_iff in Huv. destruct Huv as ([a b] & E & Hin). cbn [fst snd] in E. injection E as <- <-.
  destruct (H a b Hin) as [->|N]; [now left|now right].
Qed.

(** ** Segments that meet a covered segment meet a constrained edge *)
Section Winding.
  Context (limit : Z).

  Lemma constrained_node s a b : constrained s a b ->
    exists n, node s n /\ co s n = 1 /\ ((P s (nxt n) = a /\ P s (prv n) = b) \/ (P s (nxt n) = b /\ P s (prv n) = a)).
  Proof.
    intros (f & i & Hf & Hi & Hc & E). exists (4 * f + i). split; [now apply node_of|]. split; [assumption|].
    assert (X : where_is s (edge_from s f i) = P s (nxt (4 * f + i)) /\ where_is s (edge_to s f i) = P s (prv (4 * f + i))).
    { unfold edge_from, edge_to, corner, P, V, where_is. destruct (four f) as (E1 & E2 & E3 & E4 & E5 & E6). 
      destruct Hi as [-> |[-> | ->]]; [change ((0 + 1) mod 3) with 1; change ((0 + 2) mod 3) with 2|change ((1 + 1) mod 3) with 2; change ((1 + 2) mod 3) with 0|change ((2 + 1) mod 3) with 0; change ((2 + 2) mod 3) with 1];
        rewrite ?Z.add_0_r, ?E1, ?E2, ?E3, ?E4, ?E5, ?E6; split; reflexivity. }
    destruct X as [<- <-]. exact E.
  Qed.

  Lemma covered_meets s a b k x y : covered s a b -> a <> b -> meets x y (big k a) (big k b) ->
    exists n, node s n /\ co s n = 1 /\ meets x y (big k (P s (nxt n))) (big k (P s (prv n))).
  Proof.
    induction 1 as [p Hp|a b H|a m b H _ IH1 _ IH2]; intros D M; [congruence| |].
    - destruct (constrained_node s a b H) as (n & Hn & Hc & [[E1 E2]|[E1 E2]]); exists n; rewrite E1, E2; [auto|]. split; [assumption|]. split; [assumption|now apply meets_swap].
    - destruct (seg_weights m a b H) as (r' & t' & R & T & S & E1 & E2).
      assert (Dp : forall p q : point, p = q \/ p <> q) by (intros p q; destruct (list_eq_dec Z.eq_dec [fst p; snd p] [fst q; snd q]) as [E|E]; [left; destruct p, q; cbn in E; congruence|right; intros ->; contradiction]).
      destruct (Dp a m) as [->|Nam]; [now apply IH2|]. destruct (Dp m b) as [->|Nmb]; [now apply IH1|].
      assert (Tp : 0 < t'). { destruct (Z.eq_dec t' 0) as [->|]; [|lia]. exfalso. apply Nam. destruct a, m. cbn [fst snd] in *. f_equal; nia. }
      assert (Rp : 0 < r'). { destruct (Z.eq_dec r' 0) as [->|]; [|lia]. exfalso. apply Nmb. destruct b, m. cbn [fst snd] in *. f_equal; nia. }
      destruct M as (c & d & r & t & C1 & C2 & C3 & C4 & C5 & C6 & C7 & C8). unfold big in C7, C8. cbn [fst snd] in C7, C8.
      destruct (Z_le_gt_dec (t * r') (r * t')) as [L|L].
      + apply (IH1 Nam). exists (t' * c), (t' * d), (r * t' - t * r'), (t * (r' + t')). unfold big. cbn [fst snd].
        split; [nia|]. split; [nia|]. split; [lia|]. split; [nia|]. split; [nia|]. split; [replace (t' * c + t' * d) with (t' * (c + d)) by ring; rewrite C6; ring|]. split.
        * replace (t' * c * fst x + t' * d * fst y) with (t' * (c * fst x + d * fst y)) by ring. rewrite C7. replace (t * (r' + t') * (k * fst m)) with (t * k * (r' * fst m + t' * fst m)) by ring. replace (r' * fst m + t' * fst m) with (r' * fst a + t' * fst b) by lia. ring.
        * replace (t' * c * snd x + t' * d * snd y) with (t' * (c * snd x + d * snd y)) by ring. rewrite C8. replace (t * (r' + t') * (k * snd m)) with (t * k * (r' * snd m + t' * snd m)) by ring. replace (r' * snd m + t' * snd m) with (r' * snd a + t' * snd b) by lia. ring.
      + apply (IH2 Nmb). exists (r' * c), (r' * d), (r * (r' + t')), (t * r' - r * t'). unfold big. cbn [fst snd].
        split; [nia|]. split; [nia|]. split; [nia|]. split; [lia|]. split; [nia|]. split; [replace (r' * c + r' * d) with (r' * (c + d)) by ring; rewrite C6; ring|]. split.
        * replace (r' * c * fst x + r' * d * fst y) with (r' * (c * fst x + d * fst y)) by ring. rewrite C7. replace (r * (r' + t') * (k * fst m)) with (r * k * (r' * fst m + t' * fst m)) by ring. replace (r' * fst m + t' * fst m) with (r' * fst a + t' * fst b) by lia. ring.
        * replace (r' * c * snd x + r' * d * snd y) with (r' * (c * snd x + d * snd y)) by ring. rewrite C8. replace (r * (r' + t') * (k * snd m)) with (r * k * (r' * snd m + t' * snd m)) by ring. replace (r' * snd m + t' * snd m) with (r' * snd a + t' * snd b) by lia. ring.
  Qed.

  (** ** Points of a face are on no edge *)
  Definition mean (r t : Z) (u v : point) : point := (r * fst u + t * fst v, r * snd u + t * snd v).
  Lemma line_mean a b r t u v : line (r + t) a b (mean r t u v) = r * orient a b u + t * orient a b v.
  Proof. unfold line, mean, orient. cbn [fst snd]. ring. Qed.

  (** A point near z / d, towards the inside of the triangle w u v. *)
  Definition near (d : Z) (al be ga : Z) (z w u v : point) : point :=
    (bigk * fst z + al * fst w + be * fst u + ga * fst v, bigk * snd z + al * snd w + be * snd u + ga * snd v).
  Lemma line_near d al be ga a b z w u v :
    line (bigk * d + al + be + ga) a b (near d al be ga z w u v) = bigk * line d a b z + al * orient a b w + be * orient a b u + ga * orient a b v.
  Proof. unfold line, near, orient. cbn [fst snd]. ring. Qed.
  Lemma near_neg d al be ga a b z w u v : small al -> small be -> small ga -> inbox a -> inbox b -> inbox w -> inbox u -> inbox v ->
    line d a b z < 0 -> line (bigk * d + al + be + ga) a b (near d al be ga z w u v) < 0.
  Proof.
    intros Hal Hbe Hga Ha Hb Hw Hu Hv H. rewrite line_near. pose proof (orient_small a b u Ha Hb Hu). pose proof (orient_small a b v Ha Hb Hv). pose proof (orient_small a b w Ha Hb Hw).
    unfold bigk, small in *. destruct Hal as [-> | ->], Hbe as [-> | ->], Hga as [-> | ->]; lia.
  Qed.

  (** Towards the inside of the face, from a point of its edge. *)
  Lemma near_strict s d al be ga r t m : good limit s -> node s m -> small al -> small be -> small ga -> 0 <= r -> 0 <= t -> r + t = d ->
    let u := P s (nxt m) in let v := P s (prv m) in strict s (bigk * d + al + be + ga) (near d al be ga (mean r t u v) (P s m) u v) m.
  Proof.
    intros G Hm Hal Hbe Hga Hr Ht <- u v. pose proof (g_cw _ _ G m Hm) as D. unfold strict. rewrite !line_near, !line_mean. fold u v in D |- *.
    set (w := P s m) in *. clearbody w u v.
    assert (E1 : orient w u w = 0 /\ orient w u u = 0 /\ orient u v u = 0 /\ orient u v v = 0 /\ orient v w v = 0 /\ orient v w w = 0) by (unfold orient; repeat split; ring).
    destruct E1 as (-> & -> & -> & -> & -> & ->). replace (orient u v w) with (orient w u v) by (unfold orient; ring). replace (orient v w u) with (orient w u v) by (unfold orient; ring).
    set (o := orient w u v) in *. clearbody o. unfold bigk, small in *. split; [|split]; destruct Hal as [-> | ->], Hbe as [-> | ->], Hga as [-> | ->]; nia.
  Qed.

  Lemma edge_line_zero s m r t : line (r + t) (P s (nxt m)) (P s (prv m)) (mean r t (P s (nxt m)) (P s (prv m))) = 0.
  Proof. rewrite line_mean. unfold orient. ring. Qed.

  Lemma near_pos d al be ga : 0 < d -> small al -> small be -> small ga -> 0 < bigk * d + al + be + ga.
  Proof. unfold bigk, small. lia. Qed.

  Lemma face_no_edge s d z n m r t : good limit s -> node s n -> node s m -> 0 < d -> strict s d z n -> 0 <= r -> 0 <= t -> r + t = d ->
    z = mean r t (P s (nxt m)) (P s (prv m)) -> False.
  Proof.
    intros G Hn Hm Hd S Hr Ht E Ez. pose proof (near_strict s d 1 1 1 r t m G Hm (or_introl eq_refl) (or_introl eq_refl) (or_introl eq_refl) Hr Ht E) as Sm. cbv zeta in Sm. rewrite <- Ez in Sm.
    pose proof (fn_box limit s _ G (or_introl Hn)) as B0. pose proof (fn_box limit s _ G (or_introl (nxt_node s _ Hn))) as B1. pose proof (fn_box limit s _ G (or_introl (prv_node s _ Hn))) as B2.
    pose proof (fn_box limit s _ G (or_introl Hm)) as C0. pose proof (fn_box limit s _ G (or_introl (nxt_node s _ Hm))) as C1. pose proof (fn_box limit s _ G (or_introl (prv_node s _ Hm))) as C2.
    destruct S as (S1 & S2 & S3). pose proof (node_mod s n Hn) as Mn. pose proof (node_mod s m Hm) as Mm.
    assert (Sn : strict s (bigk * d + 1 + 1 + 1) (near d 1 1 1 z (P s m) (P s (nxt m)) (P s (prv m))) n).
    { unfold strict. split; [|split]; apply near_neg; try assumption; now left. }
    pose proof (disjoint limit s _ _ n m G (near_pos d 1 1 1 Hd (or_introl eq_refl) (or_introl eq_refl) (or_introl eq_refl)) Hn Hm Sn Sm) as F.
    pose proof (edge_line_zero s m r t) as L. rewrite <- Ez, E in L.
    destruct (same_face n m Mn Mm F) as [-> |[-> | ->]]; rewrite ?nxt_nxt, ?prv_nxt, ?nxt_prv, ?prv_prv in L by assumption; lia.
  Qed.

  (** ** The two faces at an edge *)
  Definition around_edge (s : mesh) (d : Z) (z : point) (n : Z) : Prop :=
    line d (P s n) (P s (nxt n)) z < 0 /\ line d (P s (prv n)) (P s n) z < 0 /\
    line d (P s (tw s n)) (P s (prv n)) z < 0 /\ line d (P s (nxt n)) (P s (tw s n)) z < 0.

  Lemma line_rev d a b z : line d b a z = - line d a b z.
  Proof. unfold line. ring. Qed.

  Lemma edge_no_edge s d z n m r t : good limit s -> node s n -> tw s n <> 0 -> node s m -> m <> n -> m <> tw s n -> 0 < d -> around_edge s d z n -> 0 <= r -> 0 <= t -> r + t = d ->
    z = mean r t (P s (nxt m)) (P s (prv m)) -> False.
  Proof.
    intros G Hn Hz Hm D1 D2 Hd (S1 & S2 & S3 & S4) Hr Ht E Ez. pose proof (node_mod s n Hn) as Mn. pose proof (node_mod s m Hm) as Mm.
    pose proof (tw_node limit s G n Hn Hz) as Hw. pose proof (ea_tw limit s G n Hn Hz) as E1. pose proof (eb_tw limit s G n Hn Hz) as E2. unfold ea, eb in E1, E2.
    assert (Q1 : P s (nxt (tw s n)) = P s (prv n)) by (unfold P; now rewrite E1). assert (Q2 : P s (prv (tw s n)) = P s (nxt n)) by (unfold P; now rewrite E2).
    pose proof (node_mod s _ Hw) as Mw.
    pose proof (fn_box limit s _ G (or_introl Hn)) as B0. pose proof (fn_box limit s _ G (or_introl (nxt_node s _ Hn))) as B1. pose proof (fn_box limit s _ G (or_introl (prv_node s _ Hn))) as B2. pose proof (fn_box limit s _ G (or_introl Hw)) as B3.
    pose proof (fn_box limit s _ G (or_introl Hm)) as C0. pose proof (fn_box limit s _ G (or_introl (nxt_node s _ Hm))) as C1. pose proof (fn_box limit s _ G (or_introl (prv_node s _ Hm))) as C2.
    pose proof (g_cw _ _ G n Hn) as D. pose proof (g_cw _ _ G m Hm) as Dm.
    destruct (Z.lt_trichotomy (line d (P s (nxt n)) (P s (prv n)) z) 0) as [L|[L|L]].
    - apply (face_no_edge s d z n m r t); try assumption. split; [|split]; assumption.
    - set (A := P s (nxt n)) in *. set (B := P s (prv n)) in *. set (u := P s (nxt m)) in *. set (v := P s (prv m)) in *. set (w := P s m) in *.
      assert (Sel : exists al be ga, small al /\ small be /\ small ga /\ al * orient A B w + be * orient A B u + ga * orient A B v <> 0).
      { destruct (Z.eq_dec (orient A B w + orient A B u + orient A B v) 0) as [X1|X1]; [|exists 1, 1, 1; unfold small; lia].
        destruct (Z.eq_dec (orient A B w + orient A B u + 2 * orient A B v) 0) as [X2|X2]; [|exists 1, 1, 2; unfold small; lia].
        destruct (Z.eq_dec (orient A B w + 2 * orient A B u + orient A B v) 0) as [X3|X3]; [|exists 1, 2, 1; unfold small; lia]. exfalso.
        assert (Ev : orient A B v = 0) by lia. assert (Eu : orient A B u = 0) by lia. assert (Ew : orient A B w = 0) by lia.
        assert (X : (fst B - fst A) * orient w u v = 0).
        { transitivity ((fst u - fst w) * orient A B v + (fst w - fst v) * orient A B u + (fst v - fst u) * orient A B w); [unfold orient; ring|]. rewrite Eu, Ev, Ew. ring. }
        assert (Y : (snd B - snd A) * orient w u v = 0).
        { transitivity ((snd u - snd w) * orient A B v + (snd w - snd v) * orient A B u + (snd v - snd u) * orient A B w); [unfold orient; ring|]. rewrite Eu, Ev, Ew. ring. }
        apply Z.mul_eq_0 in X, Y. assert (XB : fst B = fst A) by lia. assert (YB : snd B = snd A) by lia. unfold orient in D. rewrite XB, YB in D. lia. }
      destruct Sel as (al & be & ga & Hal & Hbe & Hga & Nz).
      pose proof (near_strict s d al be ga r t m G Hm Hal Hbe Hga Hr Ht E) as Sm. cbv zeta in Sm. fold u v w in Sm. rewrite <- Ez in Sm.
      pose proof (line_near d al be ga A B z w u v) as LN. rewrite L, Z.mul_0_r in LN.
      pose proof (near_pos d al be ga Hd Hal Hbe Hga) as Kp.
      pose proof (edge_line_zero s m r t) as LZ. fold u v in LZ. rewrite <- Ez, E in LZ.
      assert (N1 := near_neg d al be ga (P s n) A z w u v Hal Hbe Hga B0 B1 C0 C1 C2 S1). assert (N2 := near_neg d al be ga B (P s n) z w u v Hal Hbe Hga B2 B0 C0 C1 C2 S2).
      assert (N3 := near_neg d al be ga (P s (tw s n)) B z w u v Hal Hbe Hga B3 B2 C0 C1 C2 S3). assert (N4 := near_neg d al be ga A (P s (tw s n)) z w u v Hal Hbe Hga B1 B3 C0 C1 C2 S4).
      set (z' := near d al be ga z w u v) in *. set (k := bigk * d + al + be + ga) in *. clearbody z' k.
      destruct (Z_lt_le_dec (line k A B z') 0) as [L'|L'].
      + assert (Sn : strict s k z' n) by (split; [|split]; assumption). pose proof (disjoint limit s k z' n m G Kp Hn Hm Sn Sm) as F.
        unfold u, v in LZ. destruct (same_face n m Mn Mm F) as [-> |[-> | ->]]; [congruence|..]; rewrite ?nxt_nxt, ?prv_nxt, ?nxt_prv, ?prv_prv in LZ by assumption; unfold A, B in *; lia.
      + assert (Sn : strict s k z' (tw s n)). { unfold strict. rewrite Q1, Q2. split; [assumption|]. split; [|assumption]. fold A B. rewrite line_rev. lia. }
        pose proof (disjoint limit s k z' (tw s n) m G Kp Hw Hm Sn Sm) as F.
        unfold u, v in LZ. destruct (same_face (tw s n) m Mw Mm F) as [-> |[-> | ->]]; [congruence|..]; rewrite ?nxt_nxt, ?prv_nxt, ?nxt_prv, ?prv_prv, ?Q1, ?Q2 in LZ by assumption; unfold A, B in *; lia.
    - apply (face_no_edge s d z (tw s n) m r t); try assumption. unfold strict. rewrite Q1, Q2. split; [assumption|]. split; [rewrite line_rev; lia|assumption].
  Qed.

  (** ** Winding *)
  Definition fence (s : mesh) (ps : list point) : Prop := forall a b, In (a, b) (edges ps) -> covered s a b.

  Lemma line_mix k a b c d x y : line ((c + d) * k) a b (mean c d x y) = c * line k a b x + d * line k a b y.
  Proof. unfold line, mean. cbn [fst snd]. ring. Qed.

  Lemma fence_avoid s ps k x y : good limit s -> 0 < k -> fence s ps ->
    (forall c d m r t, 0 <= c -> 0 <= d -> 0 < c + d -> node s m -> co s m = 1 -> 0 <= r -> 0 <= t -> r + t = (c + d) * k -> mean c d x y = mean r t (P s (nxt m)) (P s (prv m)) -> False) ->
    around k x ps = around k y ps.
  Proof.
    intros G Hk F N. apply around_move. intros a b Hab.
    destruct (Z.eq_dec (fst a) (fst b)) as [Ex|Ex]; [destruct (Z.eq_dec (snd a) (snd b)) as [Ey|Ey]; [left; destruct a, b; cbn [fst snd] in *; congruence|]|]; right; intro M;
      (apply (covered_meets s a b k x y (F a b Hab)) in M; [|intros ->; congruence]); destruct M as (m & Hm & Hc & c & d & r & t & C1 & C2 & C3 & C4 & C5 & C6 & C7 & C8);
      (apply (N c d m (r * k) (t * k) C1 C2 C5 Hm Hc); [nia|nia|rewrite C6; ring|]); unfold mean, big in *; cbn [fst snd] in *; rewrite C7, C8; f_equal; ring.
  Qed.

  Lemma same_face_around s ps k x y n : good limit s -> 0 < k -> fence s ps -> node s n -> strict s k x n -> strict s k y n -> around k x ps = around k y ps.
  Proof.
    intros G Hk F Hn (X1 & X2 & X3) (Y1 & Y2 & Y3). apply (fence_avoid s); try assumption. intros c d m r t C1 C2 C3 Hm Hc Hr Ht E Ez.
    apply (face_no_edge s ((c + d) * k) (mean c d x y) n m r t); try assumption; [nia|]. unfold strict. rewrite !line_mix. split; [|split]; nia.
  Qed.

  Lemma strict_scale s j k x n : 0 < j -> strict s k x n -> strict s (j * k) (big j x) n.
  Proof.
    intros Hj (S1 & S2 & S3). assert (L : forall a b, line (j * k) a b (big j x) = j * line k a b x) by (intros; unfold line, big; cbn [fst snd]; ring).
    unfold strict. rewrite !L. split; [|split]; nia.
  Qed.

  (** Whatever the scales of the two points. *)
  Lemma face_around s ps k x k' x' n n' : good limit s -> 0 < k -> 0 < k' -> fence s ps -> node s n -> node s n' -> n / 4 = n' / 4 -> strict s k x n -> strict s k' x' n' -> around k x ps = around k' x' ps.
  Proof.
    intros G Hk Hk' F Hn Hn' E S S'. apply (strict_face s k' x' n' n) in S'; [|now apply (node_mod s)|now apply (node_mod s)|congruence].
    rewrite <- (around_scale k' k x), <- (around_scale k k' x') by assumption. rewrite (Z.mul_comm k' k).
    apply (same_face_around s ps (k * k') _ _ n); try assumption; [nia| |now apply strict_scale]. rewrite (Z.mul_comm k k'). now apply strict_scale.
  Qed.

  (** Beside the middle of an edge. *)
  Definition beside_edge (a b o : point) : point := (bigk * (fst a + fst b) + fst o, bigk * (snd a + snd b) + snd o).
  Lemma line_beside a b c d o : line (2 * bigk + 1) c d (beside_edge a b o) = bigk * (orient c d a + orient c d b) + orient c d o.
  Proof. unfold line, beside_edge, orient. cbn [fst snd]. ring. Qed.

  Lemma across s ps n : good limit s -> fence s ps -> node s n -> co s n = 0 ->
    exists k x y, 0 < k /\ strict s k x n /\ strict s k y (tw s n) /\ around k x ps = around k y ps.
  Proof.
    intros G F Hn Hc. pose proof (co_open limit s G n Hn Hc) as Hz. pose proof (co_tw limit s G n Hn Hz) as Hct.
    pose proof (tw_node limit s G n Hn Hz) as Hw. pose proof (ea_tw limit s G n Hn Hz) as E1. pose proof (eb_tw limit s G n Hn Hz) as E2. unfold ea, eb in E1, E2.
    assert (Q1 : P s (nxt (tw s n)) = P s (prv n)) by (unfold P; now rewrite E1). assert (Q2 : P s (prv (tw s n)) = P s (nxt n)) by (unfold P; now rewrite E2).
    pose proof (fn_box limit s _ G (or_introl Hn)) as B0. pose proof (fn_box limit s _ G (or_introl (nxt_node s _ Hn))) as B1. pose proof (fn_box limit s _ G (or_introl (prv_node s _ Hn))) as B2. pose proof (fn_box limit s _ G (or_introl Hw)) as B3.
    pose proof (g_cw _ _ G n Hn) as D. pose proof (g_cw _ _ G _ Hw) as Dw. rewrite Q1, Q2 in Dw.
    set (A := P s (nxt n)) in *. set (B := P s (prv n)) in *. set (O := P s n) in *. set (O' := P s (tw s n)) in *.
    set (x := beside_edge A B O). set (y := beside_edge A B O').
    pose proof (orient_small O A O' B0 B1 B3) as K1. pose proof (orient_small B O O' B2 B0 B3) as K2. pose proof (orient_small O' B O B3 B2 B0) as K3. pose proof (orient_small A O' O B1 B3 B0) as K4.
    assert (Ax : around_edge s (2 * bigk + 1) x n).
    { unfold around_edge. fold O O' A B. unfold x. rewrite !line_beside.
      replace (orient O A A) with 0 by (unfold orient; ring). replace (orient O A O) with 0 by (unfold orient; ring). replace (orient B O B) with 0 by (unfold orient; ring). replace (orient B O O) with 0 by (unfold orient; ring).
      replace (orient O' B B) with 0 by (unfold orient; ring). replace (orient A O' A) with 0 by (unfold orient; ring). replace (orient B O A) with (orient O A B) by (unfold orient; ring). replace (orient A O' B) with (orient O' B A) by (unfold orient; ring).
      unfold bigk. lia. }
    assert (Ay : around_edge s (2 * bigk + 1) y n).
    { unfold around_edge. fold O O' A B. unfold y. rewrite !line_beside.
      replace (orient O A A) with 0 by (unfold orient; ring). replace (orient O' B O') with 0 by (unfold orient; ring). replace (orient B O B) with 0 by (unfold orient; ring). replace (orient A O' O') with 0 by (unfold orient; ring).
      replace (orient O' B B) with 0 by (unfold orient; ring). replace (orient A O' A) with 0 by (unfold orient; ring). replace (orient B O A) with (orient O A B) by (unfold orient; ring). replace (orient A O' B) with (orient O' B A) by (unfold orient; ring).
      unfold bigk. lia. }
    exists (2 * bigk + 1), x, y. split; [reflexivity|]. split; [|split].
    - destruct Ax as (X1 & X2 & X3 & X4). split; [assumption|]. split; [|assumption]. fold A B. unfold x. rewrite line_beside.
      replace (orient A B A) with 0 by (unfold orient; ring). replace (orient A B B) with 0 by (unfold orient; ring). replace (orient A B O) with (orient O A B) by (unfold orient; ring). lia.
    - destruct Ay as (X1 & X2 & X3 & X4). unfold strict. rewrite Q1, Q2. split; [assumption|]. split; [|assumption]. fold A B. unfold y. rewrite line_beside.
      replace (orient B A A) with 0 by (unfold orient; ring). replace (orient B A B) with 0 by (unfold orient; ring). replace (orient B A O') with (orient O' B A) by (unfold orient; ring). lia.
    - apply (fence_avoid s); try assumption; [reflexivity|]. intros c d m r t C1 C2 C3 Hm Hcm Hr Ht E Ez.
      destruct Ax as (X1 & X2 & X3 & X4). destruct Ay as (Y1 & Y2 & Y3 & Y4).
      apply (edge_no_edge s ((c + d) * (2 * bigk + 1)) (mean c d x y) n m r t); try assumption; [congruence|congruence|unfold bigk; lia|].
      unfold around_edge. rewrite !line_mix. assert (mix : forall X Y, X < 0 -> Y < 0 -> c * X + d * Y < 0) by (clear - C1 C2 C3; intros; nia).
      split; [|split; [|split]]; apply mix; assumption.
  Qed.

  Lemma reach_around s ps info f g : good limit s -> fence s ps -> face s f -> reach s info f g ->
    face s g /\ forall k x k' y, 0 < k -> 0 < k' -> strict s k x (4 * f) -> strict s k' y (4 * g) -> around k x ps = around k' y ps.
  Proof.
    intros G F Hf R. induction R as [|g i R [Hg IH] Hi Hc Hinfo].
    - split; [assumption|]. intros k x k' y Hk Hk' S S'. pose proof (face_node s f Hf) as Hn. now apply (face_around s ps k x k' y (4 * f) (4 * f)).
    - pose proof (node_of s g i Hg Hi) as Hn. pose proof (co_open limit s G _ Hn Hc) as Hz. pose proof (tw_node limit s G _ Hn Hz) as Hw. pose proof (node_face s _ Hw) as Hh. split; [exact Hh|].
      intros k x k' y Hk Hk' S S'. destruct (across s ps (4 * g + i) G F Hn Hc) as (j & x0 & y0 & Hj & S0 & S1 & E).
      pose proof (face_node s g Hg) as Ng. pose proof (face_node s _ Hh) as Nh.
      assert (F0 : (4 * g + i) / 4 = 4 * g / 4) by (rewrite (Z.mul_comm 4 g), Z.div_add_l, Z.div_mul by lia; destruct Hi as [-> |[-> | ->]]; cbn; lia).
      transitivity (around j x0 ps).
      + apply IH; try assumption. apply (strict_face s j x0 (4 * g + i) (4 * g)); [now apply (node_mod s)|now apply (node_mod s)|assumption|assumption].
      + rewrite E. apply (face_around s ps j y0 k' y (tw s (4 * g + i)) (4 * (tw s (4 * g + i) / 4))); try assumption. now rewrite (proj2 (face4 _)).
  Qed.
End Winding.
