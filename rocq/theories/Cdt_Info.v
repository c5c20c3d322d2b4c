(** The info of the faces stays with the places where it is: insertions and flips do not move it, and it only changes across
    constrained edges. *)
From Coq Require Import List ZArith Lia.
Import ListNotations.
From Verif Require Import Base Vec_Model Math_Model Vec_Spec Vec_Props Math_Spec Cdt_Model Cdt_Geom Cdt_Mesh Cdt_Flip Cdt_Circle Cdt_Insert Cdt_OnEdge Cdt_Walk Cdt_Edge Cdt_Spec Cdt_Tile Cdt_Reset Cdt_Fill Cdt_EdgeSpec Cdt_Planar Cdt_Steps.
Local Open Scope Z_scope.

Definition uniform (s : mesh) : Prop :=
  forall n, node s n -> 0 <= fi s (n / 4) < 65536 /\ (co s n = 0 -> fi s (tw s n / 4) = fi s (n / 4)).

Section Info.
  Context (limit : Z).

  (** ** Two meshes of the same square: a point near x is strictly inside a face of each *)
  Definition fine (k : Z) : Z := M0 * M0 * k.
  Lemma fine_pos k : 0 < k -> 0 < fine k.
  Proof. intro H. apply Z.mul_pos_pos; [reflexivity|assumption]. Qed.
  Lemma orient_fine k a b x : orient (vbig k a) (vbig k b) x = fine k * line (fine k) a b x.
  Proof. unfold orient, vbig, vertex, big, fine, line. cbn [fst snd]. ring. Qed.
  Lemma contains_strict s k x n : 0 < k -> contains k x (P s n, P s (nxt n), P s (prv n)) = true -> strict s (fine k) (query x) n.
  Proof.
    intros Hk H. apply fine_pos in Hk. unfold contains in H. rewrite !andb_true_iff, !Z.ltb_lt, !orient_fine in H. unfold strict. revert H Hk. generalize (fine k). intros m H Hm.
    destruct H as ((H1 & H2) & H3). split; [|split]; nia.
  Qed.
  Lemma strict_fine s k x n : good limit s -> 0 < k -> node s n -> strict s k x n -> strict s (fine k) (query x) n.
  Proof.
    intros G Hk Hn Sn. pose proof (node_face s n Hn) as F. pose proof (node_mod s n Hn) as Mn. destruct (face4 (n / 4)) as [Q1 Q2].
    apply (strict_face s (fine k) (query x) (4 * (n / 4)) n); [lia|assumption|lia|]. apply contains_strict; [assumption|]. apply (strict_contains limit s k x (n / 4) G Hk F).
    apply (strict_face s k x n); [assumption|lia|lia|assumption].
  Qed.
  Lemma count_same s t k x : good limit s -> good limit t -> 0 < k -> length (filter (contains k x) (triangles s)) = length (filter (contains k x) (triangles t)).
  Proof.
    intros G G' Hk. pose proof (count_big k x (triangles s) Hk (good_box_tri limit s G) (good_cw_tri limit s G)) as C. pose proof (count_big k x (triangles t) Hk (good_box_tri limit t G') (good_cw_tri limit t G')) as C'.
    rewrite (sides_big k x _ _ (tiles limit s G)) in C. rewrite (sides_big k x _ _ (tiles limit t G')) in C'. lia.
  Qed.
  Lemma also_in s t k x n : good limit s -> good limit t -> 0 < k -> node s n -> strict s k x n -> exists m, node t m /\ strict t (fine k) (query x) m.
  Proof.
    intros G G' Hk Hn Sn. pose proof (node_face s n Hn) as F. pose proof (node_mod s n Hn) as Mn. destruct (face4 (n / 4)) as [Q1 Q2].
    apply (strict_face s k x n (4 * (n / 4))) in Sn; [|assumption|lia|lia]. pose proof (strict_contains limit s k x (n / 4) G Hk F Sn) as C.
    pose proof (nth_error_In _ _ (nth_face limit s (n / 4) G F)) as I.
    assert (I' : In (P s (4 * (n / 4)), P s (nxt (4 * (n / 4))), P s (prv (4 * (n / 4)))) (filter (contains k x) (triangles s))) by (apply filter_In; auto).
    pose proof (count_same s t k x G G' Hk) as L. destruct (filter (contains k x) (triangles s)) as [|? ?]; [contradiction|].
    destruct (filter (contains k x) (triangles t)) as [|y l0] eqn:E; [discriminate L|]. assert (Y : In y (filter (contains k x) (triangles t))) by (rewrite E; now left).
    apply filter_In in Y. destruct Y as [Y1 Y2]. apply in_map_iff in Y1. destruct Y1 as (f & <- & Hf). assert (Hf' : 6 <= f < 2 * size t) by (apply faces_of_in; [pose proof (g_size _ _ G'); lia|exact Hf]).
    exists (4 * f). split; [now apply face_node|]. apply contains_strict; [assumption|]. revert Y2. unfold face_triangle, corner. destruct (four f) as (E1 & E2 & _). change (0 mod 3) with 0. change (1 mod 3) with 1. change (2 mod 3) with 2. rewrite Z.add_0_r, <- E1, <- E2. auto.
  Qed.

  (** ** One step *)

  (** All faces of s but those of C are faces of t. *)
  Definition kept (s t : mesh) (C : Z -> Prop) : Prop :=
    (forall m, node s m -> ~ C (m / 4) -> node t m /\ P t m = P s m /\ fi t (m / 4) = fi s (m / 4)) /\
    (forall m, node t m -> ~ C (m / 4) -> m / 4 < 2 * size s -> node s m).
  Lemma strict_kept s t C k x n : kept s t C -> node s n -> ~ C (n / 4) -> (strict s k x n <-> strict t k x n).
  Proof.
    intros [K _] Hn N. pose proof (node_mod s n Hn) as Mn. destruct (K n Hn N) as (_ & E1 & _).
    destruct (K (nxt n) (nxt_node s n Hn)) as (_ & E2 & _); [now rewrite nxt_face|]. destruct (K (prv n) (prv_node s n Hn)) as (_ & E3 & _); [now rewrite prv_face|].
    unfold strict. now rewrite E1, E2, E3.
  Qed.
  Lemma kept_place s t C k x n m : good limit s -> good limit t -> kept s t C -> (forall f, C f \/ ~ C f) -> 0 < k -> node s n -> node t m -> strict s k x n -> strict t k x m ->
    fi t (m / 4) = fi s (n / 4) \/ (C (n / 4) /\ (C (m / 4) \/ 2 * size s <= m / 4)).
  Proof.
    intros G G' K Dec Hk Hn Hm Sn Sm. destruct (Dec (n / 4)) as [Cn|Cn].
    - right. split; [assumption|]. destruct (Dec (m / 4)) as [Cm|Cm]; [now left|right]. destruct (Z_lt_ge_dec (m / 4) (2 * size s)) as [L|L]; [exfalso|lia].
      pose proof (proj2 K m Hm Cm L) as Hm'. apply (strict_kept s t C k x m K Hm' Cm) in Sm. pose proof (disjoint limit s k x n m G Hk Hn Hm' Sn Sm) as E. rewrite E in Cn. contradiction.
    - left. destruct (proj1 K n Hn Cn) as (Hn' & _ & E). apply (strict_kept s t C k x n K Hn Cn) in Sn. rewrite <- E. f_equal. now apply (disjoint limit t k x).
  Qed.


  Lemma relabel_uniform s t phi D N : good limit s -> relabel s t phi D N -> uniform s ->
    (forall n, node s n -> ~ D n -> fi t (phi n / 4) = fi s (n / 4)) ->
    (forall m, node t m -> N m -> 0 <= fi t (m / 4) < 65536 /\ (co t m = 0 -> fi t (tw t m / 4) = fi t (m / 4))) -> uniform t.
  Proof.
    intros G (R1 & R2 & R3 & R4) U F FN m Hm. destruct (R2 m Hm) as [HN|(n & Hn & HD & <-)]; [now apply FN|].
    destruct (R1 n Hn HD) as (_ & _ & K3 & _ & _ & _ & K7). destruct (U n Hn) as [U1 U2]. rewrite F by assumption. split; [assumption|]. rewrite K3. intro Hc.
    pose proof (co_open limit s G n Hn Hc) as Hz. destruct (K7 Hz) as [HD' ->]. rewrite F; [now apply U2|now apply (tw_node limit s G)|assumption].
  Qed.
  Lemma relabel_new s t phi D N m : good limit s -> relabel s t phi D N -> node t m -> N m -> node t (tw t m) /\ N (tw t m).
  Proof.
    intros G (R1 & R2 & R3 & R4) Hm HN. destruct (R4 m Hm HN) as (T1 & T2 & _). split; [assumption|].
    destruct (R2 _ T1) as [X|(n & Hn & HD & E)]; [assumption|exfalso]. destruct (R1 n Hn HD) as (_ & _ & _ & _ & _ & K6 & K7). rewrite E, T2 in K6, K7.
    destruct (Z.eq_dec (tw s n) 0) as [Z0|Z0]; [specialize (K6 Z0); destruct Hm; lia|]. destruct (K7 Z0) as [HD' E']. rewrite E' in HN.
    exact (proj1 (proj2 (R1 _ (tw_node limit s G n Hn Z0) HD')) HN).
  Qed.
  Lemma u16_id x : 0 <= x < 65536 -> u16 x = x.
  Proof. intro H. unfold u16. change (2 ^ 16) with 65536. now apply Z.mod_small. Qed.

  (** *** Flips *)
  Lemma flip_info s n : good limit s -> node s n -> co s n = 0 -> uniform s -> uniform (flipped s n).
  Proof.
    intros G Hn Hc U. pose proof (co_open limit s G n Hn Hc) as Hz. pose proof (flip_relabel limit s n G Hn Hz) as R. pose proof (node_mod s n Hn) as Mn.
    pose proof (tw_node limit s G n Hn Hz) as Ht. pose proof (node_mod s _ Ht) as Mt. destruct (U n Hn) as [U1 U2]. specialize (U2 Hc).
    apply (relabel_uniform s _ _ _ _ G R U).
    - intros m Hm _. change (fi (flipped s n)) with (fi s). unfold fphi. destruct (Z.eqb_spec m (prv (tw s n))) as [->|_]; [rewrite prv_face by assumption; now symmetry|].
      destruct (Z.eqb_spec m (prv n)) as [->|_]; [now rewrite prv_face by assumption|reflexivity].
    - intros m Hm HN. destruct (relabel_new s _ _ _ _ m G R Hm HN) as [_ HN']. change (fi (flipped s n)) with (fi s).
      assert (X : forall j, j = prv n \/ j = prv (tw s n) -> fi s (j / 4) = fi s (n / 4)) by (intros j [-> | ->]; rewrite prv_face by assumption; auto).
      rewrite (X _ HN), (X _ HN'). auto.
  Qed.
  Lemma flip_place s n k x a b : good limit s -> good limit (flipped s n) -> node s n -> co s n = 0 -> uniform s -> 0 < k -> node s a -> node (flipped s n) b ->
    strict s k x a -> strict (flipped s n) k x b -> fi (flipped s n) (b / 4) = fi s (a / 4).
  Proof.
    intros G G' Hn Hc U Hk Ha Hb Sa Sb. pose proof (co_open limit s G n Hn Hc) as Hz. pose proof (node_mod s n Hn) as Mn.
    pose proof (tw_node limit s G n Hn Hz) as Ht. pose proof (proj2 (U n Hn) Hc) as U2.
    assert (K : kept s (flipped s n) (fun f => f = n / 4 \/ f = tw s n / 4)).
    { split; [|intros m Hm _ _; exact Hm]. intros m Hm N. split; [exact Hm|]. split; [|reflexivity]. unfold P. rewrite flipped_pt.
      destruct (Z.eqb_spec m (nxt (tw s n))) as [->|_]; [exfalso; apply N; right; apply nxt_face|]. destruct (Z.eqb_spec m (nxt n)) as [->|_]; [exfalso; apply N; left; apply nxt_face|]. reflexivity. }
    destruct (kept_place s _ _ k x a b G G' K ltac:(intro; cbv beta; lia) Hk Ha Hb Sa Sb) as [E|[Ca Cb]]; [assumption|]. change (fi (flipped s n)) with (fi s).
    pose proof (node_face _ b Hb) as Fb. change (size (flipped s n)) with (size s) in Fb. destruct Cb as [Cb|Cb]; [|lia].
    destruct Ca as [-> | ->], Cb as [-> | ->]; congruence.
  Qed.

  (** *** A face cut in three *)
  Lemma split3_fi s px py u : good limit s -> node s u -> uniform s ->
    forall f, fi (split3 s px py u) f = if (f =? 2 * size s) || (f =? 2 * size s + 1) then fi s (u / 4) else fi s f.
  Proof.
    intros G Hu U f. destruct (grown_faces s (proj1 (g_size _ _ G))) as (Fv & Fw & _ & _). unfold split3. cbn [fi]. unfold put. rewrite Fv, Fw, u16_id by apply (U u Hu).
    replace (size s * 2) with (2 * size s) by ring. destruct (f =? 2 * size s), (f =? 2 * size s + 1); reflexivity.
  Qed.
  Lemma split3_info s px py u : good limit s -> node s u -> u mod 4 = 0 -> uniform s -> uniform (split3 s px py u).
  Proof.
    intros G Hu Mu U. pose proof (split3_relabel limit s px py u G Hu Mu) as R. pose proof (split3_fi s px py u G Hu U) as F. destruct (offs u Mu) as (_ & _ & _ & _ & _ & _ & _ & _ & O9 & O10).
    assert (Fv : forall i, 0 <= i < 4 -> (size s * 8 + i) / 4 = 2 * size s) by (intros i Hi; Z.to_euclidean_division_equations; lia).
    assert (Fw : forall i, 0 <= i < 4 -> (size s * 8 + 4 + i) / 4 = 2 * size s + 1) by (intros i Hi; Z.to_euclidean_division_equations; lia).
    pose proof (node_face s u Hu) as Fu. destruct (U u Hu) as [U1 _].
    apply (relabel_uniform s _ _ _ _ G R U).
    - intros m Hm _. pose proof (node_face s m Hm) as Fm. rewrite F. unfold phi3. destruct (Z.eqb_spec m (u + 1)) as [->|_]; [rewrite Fv by lia; rewrite Z.eqb_refl; now rewrite O9|].
      destruct (Z.eqb_spec m (u + 2)) as [->|_]; [rewrite Fw by lia; rewrite Z.eqb_refl, orb_true_r; now rewrite O10|]. rewrite (proj2 (Z.eqb_neq _ _)), (proj2 (Z.eqb_neq _ _)) by lia. reflexivity.
    - intros m Hm HN. destruct (relabel_new s _ _ _ _ m G R Hm HN) as [_ HN'].
      assert (X : forall j, new3 s u j -> fi (split3 s px py u) (j / 4) = fi s (u / 4)).
      { intros j Hj. rewrite F. assert (Ej : j / 4 = u / 4 \/ j / 4 = 2 * size s \/ j / 4 = 2 * size s + 1).
        { pose proof (Fv 0 ltac:(lia)) as Q1. pose proof (Fw 0 ltac:(lia)) as Q2. rewrite Z.add_0_r in Q1, Q2. destruct Hj as [-> |[-> |[-> |[-> |[-> | ->]]]]]; [left|left|right; left|right; left|right; right|right; right]; auto; [apply Fv; lia|apply Fw; lia]. }
        destruct Ej as [-> |[-> | ->]]; [|now rewrite Z.eqb_refl|now rewrite Z.eqb_refl, orb_true_r]. now destruct ((u / 4 =? 2 * size s) || (u / 4 =? 2 * size s + 1)). }
      rewrite (X _ HN), (X _ HN'). auto.
  Qed.
  Lemma split3_place s px py u k x a b : good limit s -> good limit (split3 s px py u) -> node s u -> u mod 4 = 0 -> uniform s -> 0 < k -> node s a -> node (split3 s px py u) b ->
    strict s k x a -> strict (split3 s px py u) k x b -> fi (split3 s px py u) (b / 4) = fi s (a / 4).
  Proof.
    intros G G' Hu Mu U Hk Ha Hb Sa Sb. pose proof (split3_fi s px py u G Hu U) as F. pose proof (g_size _ _ G) as Gs.
    assert (K : kept s (split3 s px py u) (fun f => f = u / 4)).
    { split.
      - intros m Hm N. pose proof (node_face s m Hm) as Fm. split; [apply (grown_node s (split3 s px py u) m eq_refl (proj1 Gs)); now left|]. split.
        + pose proof (g_pt _ _ G m Hm) as B. destruct Hm as [Bm _]. unfold P, V, split3. cbn [pt vx vy]. rewrite (put_ne _ u (size s) m) by (intros ->; now apply N). rewrite !(put_ne _ _ _ m) by lia. now rewrite !put_ne by lia.
        + rewrite F, (proj2 (Z.eqb_neq _ _)), (proj2 (Z.eqb_neq _ _)) by lia. reflexivity.
      - intros m [Bm Mm] _ L. split; [|assumption]. change (size (split3 s px py u)) with (size s + 1) in Bm. clear - Bm L. Z.to_euclidean_division_equations. lia. }
    destruct (kept_place s _ _ k x a b G G' K ltac:(intro; cbv beta; lia) Hk Ha Hb Sa Sb) as [E|[Ca Cb]]; [assumption|]. rewrite Ca, F.
    pose proof (node_face _ b Hb) as Fb. change (size (split3 s px py u)) with (size s + 1) in Fb.
    destruct Cb as [-> |Cb]; [now destruct (_ || _)|]. assert (Eb : b / 4 = 2 * size s \/ b / 4 = 2 * size s + 1) by lia. destruct Eb as [-> | ->]; [now rewrite Z.eqb_refl|now rewrite Z.eqb_refl, orb_true_r].
  Qed.

  (** *** An edge cut in two, with the faces on both sides of it *)
  Lemma split4_fi s px py u : good limit s -> node s u -> tw s u <> 0 -> uniform s ->
    forall f, fi (split4 s px py u) f = if f =? 2 * size s then fi s (u / 4) else if f =? 2 * size s + 1 then fi s (tw s u / 4) else fi s f.
  Proof.
    intros G Hu Hz U f. pose proof (tw_node limit s G u Hu Hz) as Ht. destruct (grown_faces s (proj1 (g_size _ _ G))) as (Fv & Fw & _ & _). unfold split4. cbn [fi]. unfold put.
    rewrite Fv, Fw, (u16_id (fi s (u / 4))), (u16_id (fi s (tw s u / 4))) by (apply (U u Hu) || apply (U _ Ht)).
    replace (size s * 2) with (2 * size s) by ring. destruct (Z.eqb_spec f (2 * size s)), (Z.eqb_spec f (2 * size s + 1)); try reflexivity. lia.
  Qed.
  Lemma split4_links s px py u : good limit s -> node s u -> tw s u <> 0 -> let t := split4 s px py u in let x := size s * 8 in let y := x + 4 in
    (tw t (nxt u) = x + 2 /\ tw t (x + 2) = nxt u /\ tw t (prv (tw s u)) = y + 1 /\ tw t (y + 1) = prv (tw s u)) /\
    (co t u = co s u /\ co t (tw s u) = co s u /\ co t x = co s u /\ co t y = co s u).
  Proof.
    intros G Hu Hz t x y. subst t x y. pose proof (setting_ok limit s u G Hu Hz) as St. pose proof (g_size _ _ G) as Gs. unfold split4. cbn [tw co].
    remember (tw s u) as ve eqn:Dve. remember (nxt u) as u1 eqn:Du1. remember (prv u) as u2 eqn:Du2. remember (nxt ve) as v1 eqn:Dv1. remember (prv ve) as v2 eqn:Dv2.
    remember (tw s u1) as e1 eqn:De1. remember (tw s v2) as e2 eqn:De2.
    destruct St as ((H1 & H2 & H3 & H4 & H5 & H6) & (K1 & K2 & _ & _) & (K3 & K4 & K5) & _ &
      (N1 & N2 & N3 & N4 & N5 & N6 & N7 & N8 & N9 & N10 & N11 & N12 & N13 & N14 & N15) & X1 & X2 & (Y1 & Y2 & Y3 & Y4 & Y5 & Y6) & (Z1 & Z2 & Z3 & Z4 & Z5 & Z6) & E12).
    assert (Rn : forall n, node s n -> 24 <= n < 8 * size s) by (intros n [H _]; exact H).
    pose proof (Rn _ H1) as R1. pose proof (Rn _ H2) as R2. pose proof (Rn _ H3) as R3. pose proof (Rn _ H6) as R6.
    assert (B1 : 0 <= e1 < 8 * size s) by (destruct X1 as [-> |[Hn _]]; [lia|apply Rn in Hn; lia]).
    assert (B2 : 0 <= e2 < 8 * size s) by (destruct X2 as [-> |[Hn _]]; [lia|apply Rn in Hn; lia]).
    clear X1 X2 Dve Du1 Du2 Dv1 Dv2 De1 De2 G Hu Hz H1 H2 H3 H4 H5 H6 Rn E12.
    split; (split; [|split; [|split]]); putl; congruence.
  Qed.
  Lemma split4_info s px py u : good limit s -> node s u -> tw s u <> 0 -> uniform s -> uniform (split4 s px py u).
  Proof.
    intros G Hu Hz U. pose proof (split4_relabel limit s px py u G Hu Hz) as R. pose proof (split4_fi s px py u G Hu Hz U) as F. pose proof (tw_node limit s G u Hu Hz) as Ht. pose proof (node_mod s _ Ht) as Mt.
    assert (Fv : forall i, 0 <= i < 4 -> (size s * 8 + i) / 4 = 2 * size s) by (intros i Hi; Z.to_euclidean_division_equations; lia).
    assert (Fw : forall i, 0 <= i < 4 -> (size s * 8 + 4 + i) / 4 = 2 * size s + 1) by (intros i Hi; Z.to_euclidean_division_equations; lia).
    destruct (U u Hu) as [U1 U2]. destruct (U _ Ht) as [U3 _].
    assert (A : fi (split4 s px py u) (2 * size s) = fi s (u / 4)) by (now rewrite F, Z.eqb_refl).
    assert (B : fi (split4 s px py u) (2 * size s + 1) = fi s (tw s u / 4)) by (rewrite F, Z.eqb_refl; now rewrite (proj2 (Z.eqb_neq _ _)) by lia).
    assert (O : forall m, node s m -> fi (split4 s px py u) (m / 4) = fi s (m / 4)) by (intros m Hm; pose proof (node_face s m Hm); rewrite F, (proj2 (Z.eqb_neq _ _)), (proj2 (Z.eqb_neq _ _)) by lia; reflexivity).
    pose proof (Fv 0 ltac:(lia)) as Q1. pose proof (Fw 0 ltac:(lia)) as Q2. rewrite Z.add_0_r in Q1, Q2.
    apply (relabel_uniform s _ _ _ _ G R U).
    - intros m Hm _. unfold phi4. destruct (Z.eqb_spec m (nxt u)) as [->|_]; [rewrite Fv by lia; now rewrite A, nxt_face|].
      destruct (Z.eqb_spec m (prv (tw s u))) as [->|_]; [rewrite Fw by lia; now rewrite B, prv_face|]. now apply O.
    - intros m Hm HN. destruct (relabel_new s _ _ _ _ m G R Hm HN) as [_ HN'].
      assert (X : forall j, new4 s u j -> fi (split4 s px py u) (j / 4) = fi s (u / 4) \/ fi (split4 s px py u) (j / 4) = fi s (tw s u / 4)).
      { intros j [-> |[-> |[-> |[-> |[-> |[-> |[-> | ->]]]]]]].
        - left. now apply O.
        - right. now apply O.
        - left. rewrite O by now apply nxt_node. now rewrite nxt_face.
        - right. rewrite O by now apply prv_node. now rewrite prv_face.
        - left. now rewrite Q1.
        - left. now rewrite Fv by lia.
        - right. now rewrite Q2.
        - right. now rewrite Fw by lia. }
      split; [destruct (X m HN) as [-> | ->]; assumption|]. destruct (Z.eq_dec (co s u) 0) as [Hc|Hc].
      + intros _. specialize (U2 Hc). destruct (X _ HN) as [-> | ->], (X _ HN') as [-> | ->]; congruence.
      + destruct (split4_links s px py u G Hu Hz) as ((L1 & L2 & L3 & L4) & (C1 & C2 & C3 & C4)). intro Hm0.
        destruct HN as [-> |[-> |[-> |[-> |[-> |[-> |[-> | ->]]]]]]]; [congruence|congruence| | |congruence| |congruence|].
        * rewrite L1, Fv by lia. rewrite A, O by now apply nxt_node. now rewrite nxt_face.
        * rewrite L3, Fw by lia. rewrite B, O by now apply prv_node. now rewrite prv_face.
        * rewrite L2, Fv by lia. rewrite A, O by now apply nxt_node. now rewrite nxt_face.
        * rewrite L4, Fw by lia. rewrite B, O by now apply prv_node. now rewrite prv_face.
  Qed.

  Lemma parallel k O A B p x : orient p A B = 0 ->
    orient O A B * line k A p x = orient O A p * line k A B x /\ orient O A B * line k p B x = orient O p B * line k A B x.
  Proof.
    intro H. split.
    - assert (E : orient O A B * line k A p x = orient O A p * line k A B x - orient p A B * line k O A x) by (unfold orient, line; ring). rewrite E, H. ring.
    - assert (E : orient O A B * line k p B x = orient O p B * line k A B x + orient p A B * line k O B x) by (unfold orient, line; ring). rewrite E, H. ring.
  Qed.
  Lemma same_sign X Y L L' : X < 0 -> Y < 0 -> X * L' = Y * L -> (L' < 0 -> L < 0) /\ (0 < L' -> 0 < L).
  Proof. intros HX HY E. split; intro H; nia. Qed.
  Lemma line_anti k a b x : line k b a x = - line k a b x.
  Proof. unfold line. ring. Qed.

  Lemma split4_place s p u k x a b : let t := split4 s (fst p) (snd p) u in good limit s -> good limit t -> node s u -> tw s u <> 0 ->
    orient p (P s (nxt u)) (P s (prv u)) = 0 -> orient (P s u) (P s (nxt u)) p < 0 -> orient (P s u) p (P s (prv u)) < 0 ->
    uniform s -> 0 < k -> node s a -> node t b -> strict s k x a -> strict t k x b -> fi t (b / 4) = fi s (a / 4).
  Proof.
    intros t G G' Hu Hz C0 C1 C3 U Hk Ha Hb Sa Sb. pose proof (split4_fi s (fst p) (snd p) u G Hu Hz U) as F. fold t in F. pose proof (g_size _ _ G) as Gs.
    pose proof (tw_node limit s G u Hu Hz) as Ht. pose proof (node_mod s u Hu) as Mu. pose proof (node_mod s _ Ht) as Mt.
    destruct (split4_points limit s (fst p) (snd p) u G Hu Hz) as (P0 & P1 & P2 & P3 & P4 & P5 & P6 & P7 & P8 & P9 & P10). cbv zeta in P0, P1, P2, P3, P4, P5, P6, P7, P8, P9, P10. fold t in P0, P1, P2, P3, P4, P5, P6, P7, P10.
    rewrite <- surjective_pairing in P0, P1, P3, P7.
    assert (K : kept s t (fun f => f = u / 4 \/ f = tw s u / 4)).
    { split.
      - intros m Hm N. pose proof (node_face s m Hm) as Fm. split; [apply (grown_node s t m eq_refl (proj1 Gs)); now left|]. split.
        + apply P10; [assumption| |]; intros ->; apply N; [left; now apply prv_face|right; apply nxt_face].
        + rewrite F, (proj2 (Z.eqb_neq _ _)), (proj2 (Z.eqb_neq _ _)) by lia. reflexivity.
      - intros m [Bm Mm] _ L. split; [|assumption]. change (size t) with (size s + 1) in Bm. clear - Bm L. Z.to_euclidean_division_equations. lia. }
    destruct (kept_place s t _ k x a b G G' K ltac:(intro; cbv beta; lia) Hk Ha Hb Sa Sb) as [E|[Ca Cb]]; [assumption|].
    pose proof (node_face _ b Hb) as Fb. change (size t) with (size s + 1) in Fb.
    pose proof (node_mod _ b Hb) as Mb. pose proof (node_mod _ a Ha) as Ma.
    set (O := P s u) in *. set (A := P s (nxt u)) in *. set (B := P s (prv u)) in *. set (O' := P s (tw s u)) in *.
    pose proof (g_cw _ _ G u Hu) as D. fold O A B in D.
    destruct (parallel k O A B p x C0) as [L1 L2]. destruct (same_sign _ _ _ _ D C1 L1) as [S1 S2]. destruct (same_sign _ _ _ _ D C3 L2) as [S3 S4].
    assert (Sd : (a / 4 = u / 4 /\ line k A B x < 0) \/ (a / 4 = tw s u / 4 /\ 0 < line k A B x)).
    { destruct Ca as [Ca|Ca]; [left|right]; (split; [assumption|]).
      - apply (strict_face s k x a u Ma Mu Ca) in Sa. apply Sa.
      - apply (strict_face s k x a (tw s u) Ma Mt Ca) in Sa. destruct Sa as (_ & Sa & _). rewrite P8, P9 in Sa. fold A B in Sa. rewrite line_anti in Sa. lia. }
    destruct (grown_faces s (proj1 Gs)) as (Gv & Gw & Mv & Mw). destruct (offs _ Mv) as (V1 & V2 & _). destruct (offs _ Mw) as (W1 & W2 & _).
    assert (Hne : tw s u / 4 <> u / 4) by now apply (tw_other limit s G).
    assert (Nn : forall m, node s m -> m / 4 = u / 4 -> m <> nxt (tw s u)) by (intros m _ E ->; rewrite nxt_face in E; contradiction).
    assert (Nt : forall m, node s m -> m / 4 = tw s u / 4 -> m <> prv u) by (intros m _ E ->; rewrite prv_face in E by assumption; congruence).
    assert (Md : u <> prv u /\ nxt u <> prv u /\ tw s u <> nxt (tw s u) /\ prv (tw s u) <> nxt (tw s u)).
    { clear - Mu Mt. destruct (nxt_prv_cases u Mu) as [(_ & -> & ->)|[(_ & -> & ->)|(_ & -> & ->)]]; destruct (nxt_prv_cases (tw s u) Mt) as [(_ & -> & ->)|[(_ & -> & ->)|(_ & -> & ->)]]; lia. }
    destruct Md as (D1 & D2 & D3 & D4).
    assert (Sf : (fi t (b / 4) = fi s (u / 4) /\ line k A B x < 0) \/ (fi t (b / 4) = fi s (tw s u / 4) /\ 0 < line k A B x)).
    { rewrite F. destruct Cb as [[Cb|Cb]|Cb].
      - left. split; [rewrite Cb, (proj2 (Z.eqb_neq _ _)), (proj2 (Z.eqb_neq _ _)) by (pose proof (node_face s u Hu); lia); reflexivity|].
        apply (strict_face t k x b u Mb Mu Cb) in Sb. destruct Sb as (_ & Sb & _). rewrite P0 in Sb. rewrite (P10 (nxt u)) in Sb; [now apply S1|now apply nxt_node|assumption|]. apply Nn; [now apply nxt_node|apply nxt_face].
      - right. split; [rewrite Cb, (proj2 (Z.eqb_neq _ _)), (proj2 (Z.eqb_neq _ _)) by (pose proof (node_face s _ Ht); lia); reflexivity|].
        apply (strict_face t k x b (tw s u) Mb Mt Cb) in Sb. destruct Sb as (_ & Sb & _). rewrite P1 in Sb. rewrite (P10 (prv (tw s u))) in Sb; [|now apply prv_node|apply Nt; [now apply prv_node|now apply prv_face]|assumption].
        rewrite P9 in Sb. fold A in Sb. rewrite line_anti in Sb. apply S2. lia.
      - assert (Eb : b / 4 = size s * 2 \/ b / 4 = size s * 2 + 1) by lia. destruct Eb as [Eb|Eb].
        + left. split; [rewrite Eb; replace (size s * 2) with (2 * size s) by ring; now rewrite Z.eqb_refl|].
          apply (strict_face t k x b (size s * 8)) in Sb; [|assumption|lia|lia]. destruct Sb as (_ & Sb & _). rewrite V1, V2, P3, P4 in Sb. now apply S3.
        + right. split; [rewrite Eb; replace (size s * 2) with (2 * size s) by ring; rewrite Z.eqb_refl, (proj2 (Z.eqb_neq _ _)) by lia; reflexivity|].
          apply (strict_face t k x b (size s * 8 + 4)) in Sb; [|assumption|lia|lia]. destruct Sb as (_ & Sb & _). rewrite W1, W2, P6, P7 in Sb. fold B in Sb. rewrite line_anti in Sb. apply S4. lia. }
    destruct Sd as [[-> Sd]|[-> Sd]], Sf as [[-> Sf]|[-> Sf]]; try reflexivity; exfalso; lia.
  Qed.

  (** *** All steps *)
  Lemma mark_info s n : good limit s -> node s n -> uniform s -> uniform (marked s n).
  Proof.
    intros G Hn U m Hm. destruct (U m Hm) as [U1 U2]. change (fi (marked s n)) with (fi s). change (tw (marked s n)) with (tw s). split; [assumption|]. unfold marked. cbn [co]. unfold put.
    destruct (m =? n); [discriminate|]. destruct (m =? tw s n); [discriminate|assumption].
  Qed.
  Lemma step_info s t : good limit s -> step limit s t -> uniform s -> uniform t.
  Proof.
    intros G [n Hn Hc O1 O2|p u Hu Mu Hl Hp C1 C2 C3|p u Hu Hz Hl Hp C0 C1 C2 C3 C4|n Hn] U; [now apply flip_info|now apply split3_info|now apply split4_info|now apply mark_info].
  Qed.
  Lemma step_place s t k x a b : good limit s -> step limit s t -> uniform s -> 0 < k -> node s a -> node t b -> strict s k x a -> strict t k x b -> fi t (b / 4) = fi s (a / 4).
  Proof.
    intros G St U Hk Ha Hb Sa Sb. pose proof (step_good limit s t G St) as G'.
    destruct St as [n Hn Hc O1 O2|p u Hu Mu Hl Hp C1 C2 C3|p u Hu Hz Hl Hp C0 C1 C2 C3 C4|n Hn].
    - now apply (flip_place s n k x).
    - now apply (split3_place s _ _ u k x).
    - now apply (split4_place s p u k x).
    - change (fi s (b / 4) = fi s (a / 4)). f_equal. now apply (disjoint limit s k x).
  Qed.
  Lemma steps_info s t : steps limit s t -> good limit s -> uniform s -> uniform t.
  Proof. induction 1 as [|s t u S _ IH]; [auto|]. intros G U. apply IH; [now apply (step_good limit s)|now apply (step_info s)]. Qed.
  Lemma steps_place s t : steps limit s t -> good limit s -> uniform s -> forall k x a b, 0 < k -> node s a -> node t b -> strict s k x a -> strict t k x b -> fi t (b / 4) = fi s (a / 4).
  Proof.
    induction 1 as [s|s t u St Ss IH]; intros G U k x a b Hk Ha Hb Sa Sb; [f_equal; now apply (disjoint limit s k x)|].
    pose proof (step_good limit s t G St) as G'. pose proof (steps_good limit t u Ss G') as G''.
    destruct (also_in s t k x a G G' Hk Ha Sa) as (m & Hm & Sm). apply (strict_fine s k x a G Hk Ha) in Sa. apply (strict_fine u k x b G'' Hk Hb) in Sb. apply fine_pos in Hk.
    rewrite (IH G' (step_info s t G St U) (fine k) (query x) m b); [|assumption..]. now apply (step_place s t (fine k) (query x)).
  Qed.
End Info.
