(** Meshes whose only constrained edges are the sides of the square: they are Delaunay as a whole, and every walk in them ends. *)
From Coq Require Import List ZArith Lia.
Import ListNotations.
From Verif Require Import Base Vec_Model Math_Model Vec_Spec Math_Spec Vec_Props Math_Proofs Cdt_Model Cdt_Geom Cdt_Mesh Cdt_Flip Cdt_Circle Cdt_Insert Cdt_OnEdge Cdt_Walk Cdt_Edge Cdt_Spec Cdt_Tile Cdt_Reset Cdt_Fill Cdt_Locate Cdt_EdgeSpec Cdt_Planar Cdt_Steps Cdt_Follow Cdt_Star Cdt_View_Props Cdt_Delaunay Cdt_Global.
Local Open Scope Z_scope.

Section Ends.
  Context (limit : Z) (wrap : bool).

  (** Only sides of the square are constrained. *)
  Definition open (s : mesh) : Prop := forall n, node s n -> tw s n <> 0 -> co s n = 0.

  Lemma relabel_open s s' phi D N : relabel s s' phi D N -> (forall m, node s' m -> N m -> co s' m = 0) -> open s -> open s'.
  Proof.
    intros (R1 & R2 & _) HN O m Hm Hz. destruct (R2 m Hm) as [K|(n & Hn & HD & <-)]; [now apply HN|].
    destruct (R1 n Hn HD) as (_ & _ & K3 & _ & _ & K6 & _). rewrite K3. apply O; [assumption|]. intro E. apply Hz. now apply K6.
  Qed.
  Lemma flipped_open s ae : good limit s -> can_improve s ae -> open s -> open (flipped s ae).
  Proof.
    intros G Hi O. destruct (good_improve limit s ae G Hi) as (Hz & R & _). destruct Hi as (Ha & Hc & _).
    apply (relabel_open _ _ _ _ _ (flip_relabel limit s ae G Ha Hz)); [|assumption].
    pose proof (around_ne s ae R) as N. cbv zeta in N. destruct N as (N1 & N2 & N3 & N4 & N5 & N6 & N7 & N8 & N9 & N10 & N11 & N12 & N13 & N14 & N15 & _).
    intros m Hm [-> | ->]; unfold flipped; cbn [co]; puts; reflexivity.
  Qed.
  Lemma flips_open s s' : flips s s' -> good limit s -> open s -> open s'.
  Proof. induction 1 as [s|s ae s' Hi _ IH]; intros G O; [assumption|]. destruct (good_improve limit s ae G Hi) as (_ & _ & G'). apply IH; [assumption|now apply flipped_open]. Qed.
  Lemma flip_open fuel s ae s' r : good limit s -> node s ae \/ nil_node ae -> flip limit wrap fuel s ae = Ok (s', r) -> open s -> good limit s' /\ size s' = size s /\ open s'.
  Proof.
    intros G Hn H O. pose proof (flip_ok limit wrap fuel s ae G Hn) as X. rewrite H in X. destruct (flips_good limit _ _ X G) as (G' & _ & _ & E & _). split; [assumption|]. split; [assumption|now apply (flips_open s)].
  Qed.
  Lemma node_same s s' n : size s' = size s -> node s n -> node s' n.
  Proof. unfold node. intros ->. auto. Qed.
  Lemma node_or_same s s' n : size s' = size s -> node s n -> node s' n \/ nil_node n.
  Proof. intros E H. left. now apply (node_same s). Qed.

  Lemma split3_open s px py u : good limit s -> node s u -> u mod 4 = 0 -> open s -> open (split3 s px py u).
  Proof.
    intros G Hu Mu. apply (relabel_open _ _ _ _ _ (split3_relabel limit s px py u G Hu Mu)).
    assert (Hl : u < size s * 8) by (destruct Hu; lia). clear Mu Hu.
    intros m _ HN. unfold split3. cbn [co]. destruct HN as [-> |[-> |[-> |[-> |[-> | ->]]]]].
    - rewrite (put_ne _ (u + 2)), put_eq by lia. reflexivity.
    - apply put_eq.
    - destruct (Z.eq_dec (size s * 8) (u + 2)) as [E|E]; [rewrite E; apply put_eq|]. rewrite (put_ne _ (u + 2)) by assumption.
      destruct (Z.eq_dec (size s * 8) (u + 1)) as [E'|E']; [rewrite E'; apply put_eq|]. rewrite (put_ne _ (u + 1)) by assumption. rewrite !put_ne by lia. apply put_eq.
    - destruct (Z.eq_dec (size s * 8 + 2) (u + 2)) as [E|E]; [rewrite E; apply put_eq|]. rewrite (put_ne _ (u + 2)) by assumption.
      destruct (Z.eq_dec (size s * 8 + 2) (u + 1)) as [E'|E']; [rewrite E'; apply put_eq|]. rewrite (put_ne _ (u + 1)) by assumption. rewrite !put_ne by lia. apply put_eq.
    - destruct (Z.eq_dec (size s * 8 + 4) (u + 2)) as [E|E]; [rewrite E; apply put_eq|]. rewrite (put_ne _ (u + 2)) by assumption.
      destruct (Z.eq_dec (size s * 8 + 4) (u + 1)) as [E'|E']; [rewrite E'; apply put_eq|]. rewrite (put_ne _ (u + 1)) by assumption. rewrite !put_ne by lia. apply put_eq.
    - destruct (Z.eq_dec (size s * 8 + 4 + 1) (u + 2)) as [E|E]; [rewrite E; apply put_eq|]. rewrite (put_ne _ (u + 2)) by assumption.
      destruct (Z.eq_dec (size s * 8 + 4 + 1) (u + 1)) as [E'|E']; [rewrite E'; apply put_eq|]. rewrite (put_ne _ (u + 1)) by assumption. rewrite !put_ne by lia. apply put_eq.
  Qed.
  Lemma puts_zero (f : Z -> Z) x u1 v2 ue ve c1 c6 cu cv : f ue = 0 -> f ve = 0 -> cu = 0 -> cv = 0 -> ue < x -> u1 < x -> v2 < x -> ve < x -> ue <> u1 -> ue <> v2 -> ve <> u1 -> ve <> v2 ->
    forall m, m = ue \/ m = ve \/ m = u1 \/ m = v2 \/ m = x \/ m = x + 2 \/ m = x + 4 \/ m = x + 4 + 1 ->
    put (put (put (put (put (put (put (put f x cu) (x + 1) c1) (x + 2) 0) u1 0) (x + 4) cv) (x + 4 + 1) 0) (x + 4 + 2) c6) v2 0 m = 0.
  Proof.
    intros H1 H2 -> -> L1 L2 L3 L4 N1 N2 N3 N4 m [-> |[-> |[-> |[-> |[-> |[-> |[-> | ->]]]]]]].
    - rewrite !put_ne by (assumption || lia). assumption.
    - rewrite !put_ne by (assumption || lia). assumption.
    - destruct (Z.eq_dec u1 v2) as [-> |E]; [apply put_eq|]. rewrite (put_ne _ v2) by assumption. rewrite (put_ne _ (x + 4 + 2)), (put_ne _ (x + 4 + 1)), (put_ne _ (x + 4)) by lia. apply put_eq.
    - apply put_eq.
    - rewrite !put_ne by lia. apply put_eq.
    - rewrite !put_ne by lia. apply put_eq.
    - rewrite (put_ne _ v2), (put_ne _ (x + 4 + 2)), (put_ne _ (x + 4 + 1)) by lia. apply put_eq.
    - rewrite (put_ne _ v2), (put_ne _ (x + 4 + 2)) by lia. apply put_eq.
  Qed.
  Lemma split4_open s px py u : good limit s -> node s u -> tw s u <> 0 -> open s -> open (split4 s px py u).
  Proof.
    intros G Hu Hz O. apply (relabel_open _ _ _ _ _ (split4_relabel limit s px py u G Hu Hz)); [|assumption].
    pose proof (setting_ok limit s u G Hu Hz) as ((H1 & H2 & H3 & H4 & H5 & H6) & _ & _ & _ & (N1 & N2 & N3 & N4 & N5 & N6 & N7 & N8 & N9 & N10 & N11 & N12 & N13 & N14 & N15) & _).
    pose proof (O u Hu Hz) as C1. assert (C2 : co s (tw s u) = 0) by (rewrite (ar_cc _ _ (around_ok limit s u G Hu Hz)); assumption).
    assert (Rn : forall n, node s n -> n < size s * 8) by (intros n [H _]; lia).
    intros m _ HN. exact (puts_zero (co s) (size s * 8) (nxt u) (prv (tw s u)) u (tw s u) (co s (nxt u)) (co s (prv (tw s u))) _ _ C1 C2 C1 C2 (Rn _ H1) (Rn _ H3) (Rn _ H6) (Rn _ H2) N1 N9 (not_eq_sym N10) N5 m HN).
  Qed.

  Lemma in_face_open fuel s px py u s' : good limit s -> node s u -> u mod 4 = 0 -> size s < limit -> inbox (px, py) ->
    orient (px, py) (P s (u + 1)) (P s (u + 2)) < 0 -> orient (P s u) (px, py) (P s (u + 2)) < 0 -> orient (P s u) (P s (u + 1)) (px, py) < 0 ->
    open s -> insert_in_face limit wrap fuel s px py u = Ok s' -> open s'.
  Proof.
    intros G Hu Mu Hs Hp C1 C2 C3 O H. rewrite (split3_run limit wrap fuel s px py u G Hu Mu Hs Hp) in H.
    pose proof (split3_good limit s px py u G Hu Mu Hs Hp C1 C2 C3) as G0. pose proof (split3_open s px py u G Hu Mu O) as O0.
    assert (Gn : forall m, node (split3 s px py u) m <-> _) by (intro m; apply (grown_node s (split3 s px py u) m eq_refl (proj1 (g_size _ _ G)))).
    assert (N1 : node (split3 s px py u) u) by (apply Gn; now left). assert (N2 : node (split3 s px py u) (size s * 8 + 1)) by (apply Gn; tauto). assert (N3 : node (split3 s px py u) (size s * 8 + 4 + 2)) by (apply Gn; tauto).
    clear Gn. remember (split3 s px py u) as s0 eqn:E0. clear E0.
    destruct (flip limit wrap fuel s0 u) as [[s1 r1]| |] eqn:F1; cbn [bind] in H; try discriminate. destruct (flip_open fuel s0 _ s1 r1 G0 (or_introl N1) F1 O0) as (G1 & E1 & O1).
    destruct (flip limit wrap fuel s1 (size s * 8 + 1)) as [[s2 r2]| |] eqn:F2; cbn [bind] in H; try discriminate. destruct (flip_open fuel s1 _ s2 r2 G1 (node_or_same s0 s1 _ E1 N2) F2 O1) as (G2 & E2 & O2).
    destruct (flip limit wrap fuel s2 (size s * 8 + 4 + 2)) as [[s3 r3]| |] eqn:F3; cbn [bind] in H; try discriminate. destruct (flip_open fuel s2 _ s3 r3 G2 (node_or_same s0 s2 _ (eq_trans E2 E1) N3) F3 O2) as (G3 & E3 & O3).
    injection H as <-. assumption.
  Qed.
  Lemma on_edge_open fuel s px py u s' b : good limit s -> node s u -> size s < limit -> inbox (px, py) -> orient (px, py) (P s (nxt u)) (P s (prv u)) = 0 ->
    orient (P s u) (P s (nxt u)) (px, py) < 0 -> orient (P s u) (px, py) (P s (prv u)) < 0 ->
    open s -> insert_on_edge limit wrap fuel s px py u = Ok (s', b) -> open s'.
  Proof.
    intros G Hu Hs Hp C1 C2 C3 O H. destruct (Z.eqb_spec (tw s u) 0) as [Ez|Hz].
    { unfold insert_on_edge in H. rewrite (get_e_ok limit s u G Hu) in H. cbn [bind] in H. rewrite Ez in H. cbn in H. injection H as <- _. exact O. }
    remember (Z.min u (tw s u)) as ue eqn:Eue. rewrite (split4_run limit wrap fuel s px py u ue G Hu Hz Eue Hs Hp) in H.
    pose proof (tw_node limit s G u Hu Hz) as Hv. pose proof (tw_tw limit s G u Hu Hz) as Htt.
    pose proof (ea_tw limit s G u Hu Hz) as E1. pose proof (eb_tw limit s G u Hu Hz) as E2. unfold ea, eb in E1, E2.
    assert (Q1 : P s (nxt (tw s u)) = P s (prv u)) by (unfold P; now rewrite E1). assert (Q2 : P s (prv (tw s u)) = P s (nxt u)) by (unfold P; now rewrite E2).
    pose proof (g_cw _ _ G u Hu) as D1. pose proof (g_cw _ _ G _ Hv) as D2. rewrite Q1, Q2 in D2.
    destruct (other_side _ _ _ _ _ D1 D2 C1 C2 C3) as [C4 C5].
    assert (Hue : node s ue /\ tw s ue <> 0 /\ orient (P s ue) (P s (nxt ue)) (px, py) < 0 /\ orient (P s (tw s ue)) (px, py) (P s (nxt ue)) < 0 /\
      orient (P s ue) (px, py) (P s (prv ue)) < 0 /\ orient (P s (tw s ue)) (P s (prv ue)) (px, py) < 0).
    { destruct (Z.min_spec u (tw s u)) as [[_ Em]|[_ Em]]; rewrite Em in Eue; subst ue; [auto 10|]. rewrite Htt, Q1, Q2. split; [assumption|]. split; [destruct Hu; lia|]. repeat split; auto. }
    destruct Hue as (Hue & Hze & K1 & K2 & K3 & K4). clear C1 C2 C3 C4 C5 D1 D2 E1 E2 Q1 Q2 Htt Hv Eue Hu Hz u.
    pose proof (split4_good limit s px py ue G Hue Hze Hs Hp K1 K2 K3 K4) as G0. pose proof (tw_node limit s G ue Hue Hze) as Hve. pose proof (split4_open s px py ue G Hue Hze O) as O0.
    assert (Gn : forall m, node (split4 s px py ue) m <-> _) by (intro m; apply (grown_node s (split4 s px py ue) m eq_refl (proj1 (g_size _ _ G)))).
    assert (M1 : node (split4 s px py ue) (prv ue)) by (apply Gn; left; now apply prv_node). assert (M2 : node (split4 s px py ue) (size s * 8 + 1)) by (apply Gn; tauto).
    assert (M3 : node (split4 s px py ue) (nxt (tw s ue))) by (apply Gn; left; now apply nxt_node). assert (M4 : node (split4 s px py ue) (size s * 8 + 4 + 2)) by (apply Gn; tauto).
    clear Gn. remember (split4 s px py ue) as s0 eqn:E0. clear E0.
    destruct (flip limit wrap fuel s0 (prv ue)) as [[s1 r1]| |] eqn:F1; cbn [bind] in H; try discriminate. destruct (flip_open fuel s0 _ s1 r1 G0 (or_introl M1) F1 O0) as (G1 & E1 & O1).
    destruct (flip limit wrap fuel s1 (size s * 8 + 1)) as [[s2 r2]| |] eqn:F2; cbn [bind] in H; try discriminate. destruct (flip_open fuel s1 _ s2 r2 G1 (node_or_same s0 s1 _ E1 M2) F2 O1) as (G2 & E2 & O2).
    destruct (flip limit wrap fuel s2 (nxt (tw s ue))) as [[s3 r3]| |] eqn:F3; cbn [bind] in H; try discriminate. destruct (flip_open fuel s2 _ s3 r3 G2 (node_or_same s0 s2 _ (eq_trans E2 E1) M3) F3 O2) as (G3 & E3 & O3).
    destruct (flip limit wrap fuel s3 (size s * 8 + 4 + 2)) as [[s4 r4]| |] eqn:F4; cbn [bind] in H; try discriminate. destruct (flip_open fuel s3 _ s4 r4 G3 (node_or_same s0 s3 _ (eq_trans E3 (eq_trans E2 E1)) M4) F4 O3) as (G4 & E4 & O4).
    injection H as <- _. assumption.
  Qed.

  Lemma insert_node_open fuel s p n s' r : good limit s -> near p -> n = 0 \/ (node s n /\ closed_face s p n) -> open s ->
    insert_point_at_node limit wrap fuel s (fst p) (snd p) n = Ok (s', r) -> open s'.
  Proof.
    intros G Hp Hn L H. unfold insert_point_at_node in H. cbv zeta in H. destruct (Z.eqb_spec n 0) as [_|Hz]; [injection H as <- _; exact L|].
    destruct Hn as [Hn|[Hn Cl]]; [contradiction|]. pose proof (closed_box limit s p n G Hn Cl) as Hb.
    destruct (base_of s n Hn) as (Hu & Mu & _). pose proof (closed_base s p n Hn Cl) as C. cbv zeta in C. set (u := n / 4 * 4) in *. clearbody u. clear Hn Cl Hz n.
    destruct (offs u Mu) as (O1 & O2 & O3 & O4 & O5 & O6 & _). pose proof (nxt_node s u Hu) as Hu1. rewrite O1 in Hu1. pose proof (prv_node s u Hu) as Hu2. rewrite O2 in Hu2.
    rewrite !(rel_ok limit s p) in H by (assumption || now left). cbn [bind] in H. rewrite (edge_bits_ok limit s p u G Hp Hu Mu) in H. cbn [bind] in H.
    destruct C as (C1 & C2 & C3). pose proof (g_cw _ _ G u Hu) as D. rewrite O1, O2 in D.
    assert (S : orient (P s u) (P s (u + 1)) (P s (u + 2)) = orient p (P s (u + 1)) (P s (u + 2)) + orient p (P s (u + 2)) (P s u) + orient p (P s u) (P s (u + 1))) by (unfold orient; ring).
    assert (Edge : forall m, node s m -> orient p (P s (nxt m)) (P s (prv m)) = 0 -> orient (P s m) (P s (nxt m)) p < 0 -> orient (P s m) p (P s (prv m)) < 0 ->
      (if size s >=? limit then Ok (s, 0) else ' (s0, b) <- insert_on_edge limit wrap fuel s (fst p) (snd p) m;; Ok (s0, if b : bool then m else 0)) = Ok (s', r) -> open s').
    { clear D S C1 C2 C3 H. intros m Hm K1 K2 K3 H. destruct (Z.geb_spec (size s) limit) as [Hl|Hl]; [injection H as <- _; exact L|].
      destruct (insert_on_edge limit wrap fuel s (fst p) (snd p) m) as [[s1 b]| |] eqn:E; cbn [bind] in H; try discriminate. injection H as <- _.
      destruct p as [px py]. cbn [fst snd] in E. now apply (on_edge_open fuel s px py m s1 b G Hm Hl Hb). }
    destruct (Z.ltb_spec (orient p (P s (u + 1)) (P s (u + 2))) 0) as [L1|L1]; destruct (Z.ltb_spec (orient p (P s (u + 2)) (P s u)) 0) as [L2|L2];
      destruct (Z.ltb_spec (orient p (P s u) (P s (u + 1))) 0) as [L3|L3]; try (exfalso; lia); cbn [Z.add Z.eqb Pos.eqb Pos.add Pos.succ] in H.
    - destruct (Z.geb_spec (size s) limit) as [Hl|Hl]; [injection H as <- _; exact L|].
      assert (K2 : orient (P s u) p (P s (u + 2)) < 0) by (rewrite <- (orient_rot (P s u)); exact L2).
      assert (K3 : orient (P s u) (P s (u + 1)) p < 0) by (rewrite (orient_rot p); exact L3).
      destruct (insert_in_face limit wrap fuel s (fst p) (snd p) u) as [s1| |] eqn:E; cbn [bind] in H; try discriminate. injection H as <- _.
      destruct p as [px py]. cbn [fst snd] in E. now apply (in_face_open fuel s px py u s1 G Hu Mu Hl Hb).
    - apply (Edge (u + 2) Hu2); rewrite ?O5, ?O6; [lia|rewrite (orient_rot p); exact L2|rewrite <- (orient_rot (P s (u + 2))); exact L1|exact H].
    - apply (Edge (u + 1) Hu1); rewrite ?O3, ?O4; [lia|rewrite (orient_rot p); exact L1|rewrite <- (orient_rot (P s (u + 1))); exact L3|exact H].
    - injection H as <- _. exact L.
    - rewrite Z.add_0_r in H. apply (Edge u Hu); rewrite ?O1, ?O2; [lia|rewrite (orient_rot p); exact L3|rewrite <- (orient_rot (P s u)); exact L2|exact H].
    - injection H as <- _. exact L.
    - injection H as <- _. exact L.
  Qed.

  (** ** Delaunay as a whole *)
  Lemma open_ld s : good limit s -> open s -> all_ld s -> forall n, node s n -> tw s n <> 0 -> 0 <= incircle_det (P s n) (P s (nxt n)) (P s (prv n)) (P s (tw s n)).
  Proof. intros G O L n Hn Hz. apply L; [now apply tri_node|now apply (tri_across limit)|exists n; auto]. Qed.
  Lemma tw_ends s : good limit s -> forall n, node s n -> tw s n <> 0 -> P s (nxt (tw s n)) = P s (prv n) /\ P s (prv (tw s n)) = P s (nxt n).
  Proof. intros G n Hn Hz. pose proof (around_ok limit s n G Hn Hz) as R. unfold P. now rewrite (ar_p1 _ _ R), (ar_p2 _ _ R). Qed.

  (** p is beyond one of the sides of a face that it is not in. *)
  Lemma beyond_side s p n : ~ closed_face s p n -> node s n -> exists m, (m = n \/ m = nxt n \/ m = prv n) /\ 0 < orient p (P s (nxt m)) (P s (prv m)).
  Proof.
    intros N Hn. pose proof (node_mod s n Hn) as M. unfold closed_face in N.
    destruct (Z.le_gt_cases (orient p (P s n) (P s (nxt n))) 0) as [L1|L1]; [|exists (prv n); rewrite nxt_prv, prv_prv by assumption; auto].
    destruct (Z.le_gt_cases (orient p (P s (prv n)) (P s n)) 0) as [L2|L2]; [|exists (nxt n); rewrite nxt_nxt, prv_nxt by assumption; auto].
    exists n. split; [auto|]. apply Z.nle_gt. intro L3. apply N. auto.
  Qed.
  Lemma corner_power s n m k : node s n -> P s m = P s k -> (k = n \/ k = nxt n \/ k = prv n) -> incircle_det (P s n) (P s (nxt n)) (P s (prv n)) (P s m) = 0.
  Proof. intros Hn -> [-> |[-> | ->]]; [apply det_own1|apply det_own2|apply det_own3]. Qed.

  Lemma empty_circle s : good limit s -> open s -> all_ld s -> forall n m, node s n -> node s m -> 0 <= incircle_det (P s n) (P s (nxt n)) (P s (prv n)) (P s m).
  Proof.
    intros G O L n m Hn Hm. set (p := P s m). apply Z.nlt_ge. intro Neg.
    assert (Hb : inbox p) by (apply (g_box _ _ G), (g_pt _ _ G); assumption).
    assert (In : forall k, node s k -> incircle_det (P s k) (P s (nxt k)) (P s (prv k)) p < 0 -> ~ closed_face s p k).
    { intros k Hk D C. unfold p in D. destruct (vertex_in_face limit s k m G Hk Hm C) as [E|[E|E]]; [rewrite (corner_power s k m k Hk E) in D by auto|rewrite (corner_power s k m (nxt k) Hk E) in D by auto|rewrite (corner_power s k m (prv k) Hk E) in D by auto]; lia. }
    assert (Main : forall r k, (rank s (P s) p k < r)%nat -> node s k -> 0 < orient p (P s (nxt k)) (P s (prv k)) -> pw (P s) p k < 0 -> False).
    { induction r as [|r IH]; intros k Hr Hk Hp Hw; [lia|]. pose proof (inner_side limit s p k G Hb Hk Hp) as Hz. pose proof (tw_node limit s G k Hk Hz) as Ht.
      assert (X : forall j, j = nxt (tw s k) \/ j = prv (tw s k) -> pw (P s) p j < 0 /\ (rank s (P s) p j < r)%nat).
      { intros j Hj. split; [apply (cross_power limit s (P s) p G (g_cw _ _ G) (tw_ends s G) (open_ld s G O L) k j Hk Hz Hp Hj Hw)|].
        pose proof (cross_rank limit s (P s) p G (g_cw _ _ G) (tw_ends s G) (open_ld s G O L) k j Hk Hz Hp Hj). lia. }
      assert (Wt : incircle_det (P s (tw s k)) (P s (nxt (tw s k))) (P s (prv (tw s k))) p < 0).
      { destruct (X _ (or_introl eq_refl)) as [W _]. unfold pw in W. pose proof (node_mod s _ Ht) as M. rewrite nxt_nxt, prv_nxt in W by assumption. rewrite <- det_rot. exact W. }
      destruct (beyond_side s p (tw s k) (In _ Ht Wt) Ht) as (j & Hj & Pj). destruct Hj as [-> |Hj].
      - destruct (tw_ends s G k Hk Hz) as [E1 E2]. rewrite E1, E2, orient_anti in Pj. lia.
      - destruct (X j Hj) as [W Rk]. apply (IH j Rk); [destruct Hj as [-> | ->]; [now apply nxt_node|now apply prv_node]|assumption|assumption]. }
    destruct (beyond_side s p n (In n Hn Neg) Hn) as (j & Hj & Pj).
    assert (W : pw (P s) p j < 0).
    { pose proof (node_mod s n Hn) as M. unfold pw. destruct Hj as [-> |[-> | ->]]; rewrite ?nxt_nxt, ?prv_nxt, ?nxt_prv, ?prv_prv by assumption; [assumption|rewrite det_rot; assumption|rewrite det_rot, det_rot; assumption]. }
    apply (Main _ j (Nat.lt_succ_diag_r _)); [destruct Hj as [-> |[-> | ->]]; [assumption|now apply nxt_node|now apply prv_node]|assumption|assumption].
  Qed.

  (** ** The walk of an insertion ends *)
  Section WalkEnds.
    Context (s : mesh) (p : point).
    Hypothesis G : good limit s.
    Hypothesis O : open s.
    Hypothesis L : all_ld s.

    Definition ready (e : Z) (k : nat) : Prop :=
      e = 0 \/ forall n, n = nxt e \/ n = prv e -> 0 < orient p (P s (nxt n)) (P s (prv n)) -> (rank s (P s) p n < k)%nat.
    Lemma ready_mono e k k' : (k <= k')%nat -> ready e k -> ready e k'.
    Proof. intros H [->|R]; [now left|right]. intros n Hn Hp. specialize (R n Hn Hp). lia. Qed.
    Lemma ready_cross n : node s n -> 0 < orient p (P s (nxt n)) (P s (prv n)) -> ready (tw s n) (rank s (P s) p n).
    Proof.
      intros Hn Hp. destruct (Z.eq_dec (tw s n) 0) as [E|Hz]; [now left|right]. intros m Hm _.
      apply (cross_rank limit s (P s) p G (g_cw _ _ G) (tw_ends s G) (open_ld s G O L) n m Hn Hz Hp Hm).
    Qed.
    Lemma step_nxt e k : node s e -> ready e k -> 0 < orient p (P s (prv e)) (P s e) -> exists j, (j < k)%nat /\ ready (tw s (nxt e)) j.
    Proof.
      intros He R Hp. pose proof (node_mod s e He) as M. destruct R as [E|R]; [destruct He; lia|].
      assert (H : 0 < orient p (P s (nxt (nxt e))) (P s (prv (nxt e)))) by (rewrite nxt_nxt, prv_nxt by assumption; exact Hp).
      exists (rank s (P s) p (nxt e)). split; [apply R; auto|apply ready_cross; [now apply nxt_node|assumption]].
    Qed.
    Lemma step_prv e k : node s e -> ready e k -> 0 < orient p (P s e) (P s (nxt e)) -> exists j, (j < k)%nat /\ ready (tw s (prv e)) j.
    Proof.
      intros He R Hp. pose proof (node_mod s e He) as M. destruct R as [E|R]; [destruct He; lia|].
      assert (H : 0 < orient p (P s (nxt (prv e))) (P s (prv (prv e)))) by (rewrite nxt_prv, prv_prv by assumption; exact Hp).
      exists (rank s (P s) p (prv e)). split; [apply R; auto|apply ready_cross; [now apply prv_node|assumption]].
    Qed.

    Hypothesis Hp : near p.
    Lemma spin_ends fuel : forall e p1 p2 k, at_node s p e p1 p2 -> ready e k -> (k < fuel)%nat ->
      match spin limit fuel s (fst p) (snd p) e p1 p2 with Ok (Some (e', _, _)) => ready e' k | Timeout => False | _ => True end.
    Proof.
      induction fuel as [|fuel IH]; intros e p1 p2 k H R Hk; [lia|]. cbn [spin]. destruct (Z.eqb_spec e 0) as [_|Hz]; [exact I|].
      destruct H as [H|(He & -> & -> & Ho)]; [contradiction|].
      assert (F0 : face_or_nil s e) by now left. assert (F1 : face_or_nil s (nxt e)) by (left; now apply nxt_node).
      rewrite (rel_ok limit s p e G Hp F0). cbn [bind]. rewrite (in_ok limit s p e _ G Hp F0 F1). cbn [bind].
      destruct (Z.leb_spec (orient p (P s e) (P s (nxt e))) 0) as [Le|Le]; [assumption|].
      rewrite (proj1 (fn_e limit s (prv e) G (or_introl (prv_node s e He)))). cbn [bind]. destruct (step_prv e k He R Le) as (j & Hj & Rj).
      pose proof (IH (tw s (prv e)) _ _ j (cross_prv limit s p e G He Le) Rj ltac:(lia)) as X.
      destruct (spin limit fuel s (fst p) (snd p) (tw s (prv e)) (rv s p (nxt e)) (rv s p e)) as [[[[e' a] b]|]| |]; auto. apply (ready_mono e' j); [lia|assumption].
    Qed.
    Lemma walk_ends fuel : forall e p1 p2 k, at_node s p e p1 p2 -> ready e k -> (k < fuel)%nat -> walk limit fuel s (fst p) (snd p) e p1 p2 <> Timeout.
    Proof.
      induction fuel as [|fuel IH]; intros e p1 p2 k H R Hk; [lia|]. cbn [walk]. destruct (Z.eqb_spec e 0) as [_|Hz]; [discriminate|].
      destruct H as [H|(He & -> & -> & Ho)]; [contradiction|].
      assert (F0 : face_or_nil s e) by now left. assert (F1 : face_or_nil s (nxt e)) by (left; now apply nxt_node). assert (F2 : face_or_nil s (prv e)) by (left; now apply prv_node).
      rewrite (rel_ok limit s p e G Hp F0). cbn [bind]. rewrite (in_ok limit s p _ e G Hp F2 F0), (in_ok limit s p e _ G Hp F0 F1). cbn [bind].
      destruct (Z.leb_spec (orient p (P s (prv e)) (P s e)) 0) as [L1|L1]; destruct (Z.leb_spec (orient p (P s e) (P s (nxt e))) 0) as [L2|L2]; cbn [andb negb].
      - discriminate.
      - rewrite (proj1 (fn_e limit s (prv e) G F2)). cbn [bind]. destruct (step_prv e k He R L2) as (j & Hj & Rj). apply (IH _ _ _ j); [now apply (cross_prv limit)|assumption|lia].
      - rewrite (proj1 (fn_e limit s (nxt e) G F1)). cbn [bind]. destruct (step_nxt e k He R L1) as (j & Hj & Rj). apply (IH _ _ _ j); [now apply (cross_nxt limit)|assumption|lia].
      - rewrite (proj1 (fn_e limit s (nxt e) G F1)). cbn [bind]. destruct (step_nxt e k He R L1) as (j & Hj & Rj).
        pose proof (spin_ok limit fuel s p _ _ _ G Hp (cross_nxt limit s p e G He L1)) as X. pose proof (spin_ends fuel _ _ _ j (cross_nxt limit s p e G He L1) Rj ltac:(lia)) as Y.
        destruct (spin limit fuel s (fst p) (snd p) (tw s (nxt e)) (rv s p e) (rv s p (prv e))) as [[[[e' p0'] p2']|]| |]; cbn [bind]; [|discriminate|contradiction|contradiction].
        destruct X as (He' & -> & [K|(_ & _ & -> & Ho')] & L3); [exfalso; destruct He'; lia|].
        assert (F0' : face_or_nil s e') by now left. assert (F1' : face_or_nil s (nxt e')) by (left; now apply nxt_node). assert (F2' : face_or_nil s (prv e')) by (left; now apply prv_node).
        rewrite (in_ok limit s p _ e' G Hp F2' F0'). cbn [bind]. destruct (Z.leb_spec (orient p (P s (prv e')) (P s e')) 0) as [L4|L4]; [discriminate|].
        rewrite (proj1 (fn_e limit s (nxt e') G F1')). cbn [bind]. destruct (step_nxt e' j He' Y L4) as (i & Hi & Ri). apply (IH _ _ _ i); [now apply (cross_nxt limit)|assumption|lia].
    Qed.
    Lemma ready_bound e : node s e -> ready e (Z.to_nat (8 * size s)).
    Proof.
      intro He. right. intros n Hn _. assert (Nn : node s n) by (destruct Hn as [-> | ->]; [now apply nxt_node|now apply prv_node]). pose proof (rank_bound limit s (P s) p G n Nn). lia.
    Qed.
    Lemma locate_insertion_ends fuel h : 8 * size s < Z.of_nat fuel -> locate_insertion_node limit fuel s (fst p) (snd p) h <> Timeout.
    Proof.
      intro Hf. unfold locate_insertion_node. cbv zeta. destruct (hint_node limit s h G) as [He M].
      set (e := (if (h <? 24) || (h >=? size s * 8) then size s * 8 - 4 else h) / 4 * 4) in *. clearbody e.
      destruct (offs e M) as (O1 & O2 & _). rewrite <- O1, <- O2.
      assert (F0 : face_or_nil s e) by now left. assert (F1 : face_or_nil s (nxt e)) by (left; now apply nxt_node). assert (F2 : face_or_nil s (prv e)) by (left; now apply prv_node).
      rewrite (rel_ok limit s p _ G Hp F1), (rel_ok limit s p _ G Hp F2). cbn [bind]. rewrite (in_ok limit s p _ _ G Hp F1 F2). cbn [bind].
      destruct (Z.leb_spec (orient p (P s (nxt e)) (P s (prv e))) 0) as [Le|Le]; cbn [negb].
      - apply (walk_ends fuel _ _ _ (Z.to_nat (8 * size s))); [right; auto|now apply ready_bound|pose proof (g_size _ _ G); lia].
      - rewrite (proj1 (fn_e limit s e G F0)). cbn [bind]. pose proof (rank_bound limit s (P s) p G e He). apply (walk_ends fuel _ _ _ (rank s (P s) p e)); [now apply (cross_over limit)|now apply ready_cross|lia].
    Qed.
  End WalkEnds.
End Ends.

(** ** The walk of locate ends *)
Section LocateEnds.
  Context (limit q : Z) (s : mesh) (p : point).
  Hypothesis Hq : 0 <= q.
  Hypothesis G : good limit s.
  Hypothesis O : open s.
  Hypothesis L : all_ld s.
  Hypothesis Hp : fits q p.

  Definition QS (n : Z) : point := vertex (PS q s n).
  Lemma QS_scale n : QS n = (M0 * M0 * 2 ^ q * fst (P s n), M0 * M0 * 2 ^ q * snd (P s n)).
  Proof. unfold QS, vertex, PS, scaled. cbn [fst snd]. f_equal; ring. Qed.
  Lemma scale_pos : 0 < M0 * M0 * 2 ^ q.
  Proof. apply Z.mul_pos_pos; [reflexivity|]. apply Z.pow_pos_nonneg; lia. Qed.
  Lemma orient_scale k a b c : orient (k * fst a, k * snd a) (k * fst b, k * snd b) (k * fst c, k * snd c) = k * k * orient a b c.
  Proof. unfold orient. cbn [fst snd]. ring. Qed.
  Lemma det_scale k a b c d : incircle_det (k * fst a, k * snd a) (k * fst b, k * snd b) (k * fst c, k * snd c) (k * fst d, k * snd d) = k * k * (k * k) * incircle_det a b c d.
  Proof. unfold incircle_det, det6. cbn [fst snd]. ring. Qed.
  Lemma QS_cw n : node s n -> orient (QS n) (QS (nxt n)) (QS (prv n)) < 0.
  Proof. intro Hn. rewrite !QS_scale, orient_scale. pose proof (g_cw _ _ G n Hn). pose proof scale_pos. apply Z.mul_pos_neg; [now apply Z.mul_pos_pos|assumption]. Qed.
  Lemma QS_tw n : node s n -> tw s n <> 0 -> QS (nxt (tw s n)) = QS (prv n) /\ QS (prv (tw s n)) = QS (nxt n).
  Proof. intros Hn Hz. destruct (tw_ends limit s G n Hn Hz) as [E1 E2]. unfold QS, PS. now rewrite E1, E2. Qed.
  Lemma QS_ld n : node s n -> tw s n <> 0 -> 0 <= incircle_det (QS n) (QS (nxt n)) (QS (prv n)) (QS (tw s n)).
  Proof.
    intros Hn Hz. rewrite !QS_scale, det_scale. pose proof scale_pos. pose proof (open_ld limit s G O L n Hn Hz).
    assert (0 < M0 * M0 * 2 ^ q * (M0 * M0 * 2 ^ q)) by now apply Z.mul_pos_pos. apply Z.mul_nonneg_nonneg; [apply Z.mul_nonneg_nonneg; lia|assumption].
  Qed.
  Lemma turn_strict n : node s n -> 0 <= turn3 q s p (nxt n) (prv n) -> 0 < orient (query p) (QS (nxt n)) (QS (prv n)).
  Proof.
    intros Hn H. assert (F1 : face_or_nil s (nxt n)) by (left; now apply nxt_node). assert (F2 : face_or_nil s (prv n)) by (left; now apply prv_node).
    destruct (inside_turn limit q s p _ _ G Hp F1 F2) as (_ & _ & _ & Z0). specialize (Z0 (ends_differ limit q Hq s n G Hn)). unfold turn3 in *. fold (QS (nxt n)) (QS (prv n)) in *. rewrite <- (orient_rot (query p)). lia.
  Qed.
  Definition rk (n : Z) : nat := rank s QS (query p) n.

  Definition ready32 (e : Z) (k : nat) : Prop := e = 0 \/ forall n, n = nxt e \/ n = prv e -> 0 <= turn3 q s p (nxt n) (prv n) -> (rk n < k)%nat.
  Lemma ready32_mono e k k' : (k <= k')%nat -> ready32 e k -> ready32 e k'.
  Proof. intros H [->|R]; [now left|right]. intros n Hn Ht. specialize (R n Hn Ht). lia. Qed.
  Lemma ready32_cross n : node s n -> 0 <= turn3 q s p (nxt n) (prv n) -> ready32 (tw s n) (rk n).
  Proof.
    intros Hn Ht. destruct (Z.eq_dec (tw s n) 0) as [E|Hz]; [now left|right]. intros m Hm _.
    apply (cross_rank limit s QS (query p) G QS_cw QS_tw QS_ld n m Hn Hz (turn_strict n Hn Ht) Hm).
  Qed.
  Lemma step32_nxt e k : node s e -> ready32 e k -> 0 <= turn3 q s p (prv e) e -> exists j, (j < k)%nat /\ ready32 (tw s (nxt e)) j.
  Proof.
    intros He R Ht. pose proof (node_mod s e He) as M. destruct R as [E|R]; [destruct He; lia|].
    assert (H : 0 <= turn3 q s p (nxt (nxt e)) (prv (nxt e))) by (rewrite nxt_nxt, prv_nxt by assumption; exact Ht).
    exists (rk (nxt e)). split; [apply R; auto|apply ready32_cross; [now apply nxt_node|assumption]].
  Qed.
  Lemma step32_prv e k : node s e -> ready32 e k -> 0 <= turn3 q s p e (nxt e) -> exists j, (j < k)%nat /\ ready32 (tw s (prv e)) j.
  Proof.
    intros He R Ht. pose proof (node_mod s e He) as M. destruct R as [E|R]; [destruct He; lia|].
    assert (H : 0 <= turn3 q s p (nxt (prv e)) (prv (prv e))) by (rewrite nxt_prv, prv_prv by assumption; exact Ht).
    exists (rk (prv e)). split; [apply R; auto|apply ready32_cross; [now apply prv_node|assumption]].
  Qed.
  Lemma bool_turn (r : bool) x : (r = true <-> x < 0) -> if r then x < 0 else 0 <= x.
  Proof. destruct r; intro R; [now apply R|apply Z.nlt_ge; intro K; apply R in K; discriminate]. Qed.

  Lemma spin32_ends fuel : forall e p1 p2 k, at32 q s p e p1 p2 -> ready32 e k -> (k < fuel)%nat ->
    match spin32 limit q fuel s (fst p) (snd p) e p1 p2 with Ok (Some (e', _, _)) => ready32 e' k | Timeout => False | _ => True end.
  Proof.
    induction fuel as [|fuel IH]; intros e p1 p2 k H R Hk; [lia|]. cbn [spin32]. destruct (Z.eqb_spec e 0) as [_|Hz]; [exact I|].
    destruct H as [[H _]|(He & -> & -> & Ho)]; [contradiction|].
    assert (F0 : face_or_nil s e) by now left. assert (F1 : face_or_nil s (nxt e)) by (left; now apply nxt_node).
    rewrite (rel32_ok limit q s p e G Hp F0). cbn [bind]. destruct (inside_turn limit q s p e _ G Hp F0 F1) as (r & -> & Rr & _). cbn [bind]. apply bool_turn in Rr. destruct r; [assumption|].
    rewrite (proj1 (fn_e limit s (prv e) G (or_introl (prv_node s e He)))). cbn [bind]. destruct (step32_prv e k He R Rr) as (j & Hj & Rj).
    pose proof (IH (tw s (prv e)) _ _ j (over32_prv limit q Hq s p e G Hp He Rr) Rj ltac:(lia)) as X.
    destruct (spin32 limit q fuel s (fst p) (snd p) (tw s (prv e)) (vsub (PS q s (nxt e)) p) (vsub (PS q s e) p)) as [[[[e' a] b]|]| |]; auto. apply (ready32_mono e' j); [lia|assumption].
  Qed.
  Lemma walk32_ends fuel : forall e p1 p2 k, at32 q s p e p1 p2 -> ready32 e k -> (k < fuel)%nat -> walk32 limit q fuel s (fst p) (snd p) e p1 p2 <> Timeout.
  Proof.
    induction fuel as [|fuel IH]; intros e p1 p2 k H R Hk; [lia|]. cbn [walk32]. destruct (Z.eqb_spec e 0) as [_|Hz]; [discriminate|].
    destruct H as [[H _]|(He & -> & -> & Ho)]; [contradiction|].
    assert (F0 : face_or_nil s e) by now left. assert (F1 : face_or_nil s (nxt e)) by (left; now apply nxt_node). assert (F2 : face_or_nil s (prv e)) by (left; now apply prv_node).
    rewrite (rel32_ok limit q s p e G Hp F0). cbn [bind]. destruct (inside_turn limit q s p _ e G Hp F2 F0) as (r1 & -> & R1 & _). destruct (inside_turn limit q s p e _ G Hp F0 F1) as (r2 & -> & R2 & _). cbn [bind].
    apply bool_turn in R1. apply bool_turn in R2. destruct r1, r2; cbn [andb negb].
    - discriminate.
    - rewrite (proj1 (fn_e limit s (prv e) G F2)). cbn [bind]. destruct (step32_prv e k He R R2) as (j & Hj & Rj). apply (IH _ _ _ j); [now apply (over32_prv limit q)|assumption|lia].
    - rewrite (proj1 (fn_e limit s (nxt e) G F1)). cbn [bind]. destruct (step32_nxt e k He R R1) as (j & Hj & Rj). apply (IH _ _ _ j); [now apply (over32_nxt limit q)|assumption|lia].
    - rewrite (proj1 (fn_e limit s (nxt e) G F1)). cbn [bind]. destruct (step32_nxt e k He R R1) as (j & Hj & Rj).
      pose proof (spin32_ok limit q Hq fuel s p _ _ _ G Hp (over32_nxt limit q Hq s p e G Hp He R1)) as X. pose proof (spin32_ends fuel _ _ _ j (over32_nxt limit q Hq s p e G Hp He R1) Rj ltac:(lia)) as Y.
      destruct (spin32 limit q fuel s (fst p) (snd p) (tw s (nxt e)) (vsub (PS q s e) p) (vsub (PS q s (prv e)) p)) as [[[[e' p0'] p2']|]| |]; cbn [bind]; [|discriminate|contradiction|contradiction].
      destruct X as (He' & -> & [[K _]|(_ & _ & -> & Ho')] & L3); [exfalso; destruct He'; lia|].
      assert (F0' : face_or_nil s e') by now left. assert (F1' : face_or_nil s (nxt e')) by (left; now apply nxt_node). assert (F2' : face_or_nil s (prv e')) by (left; now apply prv_node).
      destruct (inside_turn limit q s p _ e' G Hp F2' F0') as (r & -> & Rr & _). cbn [bind]. apply bool_turn in Rr. destruct r; [discriminate|].
      rewrite (proj1 (fn_e limit s (nxt e') G F1')). cbn [bind]. destruct (step32_nxt e' j He' Y Rr) as (i & Hi & Ri). apply (IH _ _ _ i); [now apply (over32_nxt limit q)|assumption|lia].
  Qed.
  Lemma locate_ends fuel h : 8 * size s < Z.of_nat fuel -> locate limit q fuel s (fst p) (snd p) h <> Timeout.
  Proof.
    intro Hf. unfold locate. cbv zeta. pose proof (g_size _ _ G) as Gs.
    set (e := if (h / 4 * 4 <? 24) || (h / 4 * 4 >? size s * 8 - 4) then size s * 8 - 4 else h / 4 * 4).
    assert (M : e mod 4 = 0). { unfold e. destruct (_ || _)%bool; [replace (size s * 8 - 4) with ((size s * 2 - 1) * 4) by ring|]; apply Z.mod_mul; lia. }
    assert (He : node s e). { split; [|lia]. unfold e. destruct (Z.ltb_spec (h / 4 * 4) 24); cbn [orb]; [lia|]. destruct (Z.gtb_spec (h / 4 * 4) (size s * 8 - 4)); lia. }
    clearbody e. destruct (offs e M) as (O1 & O2 & _). rewrite <- O1, <- O2.
    assert (F0 : face_or_nil s e) by now left. assert (F1 : face_or_nil s (nxt e)) by (left; now apply nxt_node). assert (F2 : face_or_nil s (prv e)) by (left; now apply prv_node).
    assert (Rk : forall n, node s n -> Z.of_nat (rk n) < 8 * size s) by (intros n Hn; apply (rank_bound limit s QS (query p) G n Hn)).
    rewrite (rel32_ok limit q s p _ G Hp F1), (rel32_ok limit q s p _ G Hp F2). cbn [bind]. destruct (inside_turn limit q s p _ _ G Hp F1 F2) as (r & -> & R & _). cbn [bind]. apply bool_turn in R. destruct r; cbn [negb].
    - apply (walk32_ends fuel _ _ _ (Z.to_nat (8 * size s))); [right; auto| |lia]. right. intros n Hn _.
      assert (Nn : node s n) by (destruct Hn as [-> | ->]; [now apply nxt_node|now apply prv_node]). specialize (Rk n Nn). lia.
    - rewrite (proj1 (fn_e limit s e G F0)). cbn [bind]. specialize (Rk e He). apply (walk32_ends fuel _ _ _ (rk e)); [now apply (over32 limit q)|now apply ready32_cross|lia].
  Qed.
End LocateEnds.

(** ** The flips of an insertion end: each one gives the new vertex one more face *)
Section FlipEnds.
  Context (limit : Z) (wrap : bool).

  Definition same_place (a b : point) : bool := ((fst a =? fst b) && (snd a =? snd b))%bool.
  Lemma same_place_ok a b : same_place a b = true <-> a = b.
  Proof. destruct a, b. unfold same_place. cbn [fst snd]. rewrite Bool.andb_true_iff, !Z.eqb_eq. split; [intros [-> ->]; reflexivity|intros [= -> ->]; auto]. Qed.
  Definition count (s : mesh) (p : point) : nat := length (filter (fun n => is_node n && same_place (P s n) p)%bool (node_list s)).
  Lemma count_bound s p : good limit s -> Z.of_nat (count s p) < 8 * size s.
  Proof.
    intro G. pose proof (g_size _ _ G). unfold count. pose proof (filter_sub (fun n => is_node n && same_place (P s n) p)%bool (fun _ => true) (node_list s) (fun _ _ => eq_refl)) as H1.
    assert (E : forall l : list Z, filter (fun _ => true) l = l) by (induction l as [|x l IH]; cbn [filter]; congruence). rewrite E in H1. unfold node_list in *. rewrite map_length, seq_length in H1. lia.
  Qed.
  Lemma count_le s s' p : size s' = size s -> (forall m, node s m -> P s m = p -> P s' m = p) -> (count s p <= count s' p)%nat.
  Proof.
    intros E K. unfold count. assert (En : node_list s' = node_list s) by (unfold node_list; now rewrite E). rewrite En.
    assert (H : forall l, (forall n, In n l -> In n (node_list s)) -> (length (filter (fun n => is_node n && same_place (P s n) p)%bool l) <= length (filter (fun n => is_node n && same_place (P s' n) p)%bool l))%nat).
    { induction l as [|x l IH]; intro Hl; cbn [filter length]; [lia|]. specialize (IH (fun n Hn => Hl n (or_intror Hn))).
      destruct (is_node x) eqn:Ix; cbn [andb]; [|assumption]. destruct (same_place (P s x) p) eqn:Ex; [|destruct (same_place (P s' x) p); cbn [length]; lia].
      apply same_place_ok in Ex. rewrite (proj2 (same_place_ok (P s' x) p)); [cbn [length]; lia|]. apply K; [|assumption]. apply node_list_ok. split; [apply Hl; now left|assumption]. }
    now apply H.
  Qed.
  Lemma count_lt s s' p x : size s' = size s -> (forall m, node s m -> P s m = p -> P s' m = p) -> node s x -> P s x <> p -> P s' x = p -> (count s p < count s' p)%nat.
  Proof.
    intros E K Hx Nx Ex. unfold count. assert (En : node_list s' = node_list s) by (unfold node_list; now rewrite E). rewrite En.
    set (f := fun n => (is_node n && same_place (P s n) p)%bool). set (g := fun n => (is_node n && same_place (P s' n) p)%bool).
    destruct (proj2 (node_list_ok s x) Hx) as [I1 I2].
    assert (Fx : f x = false). { unfold f. rewrite I2. cbn [andb]. destruct (same_place (P s x) p) eqn:S; [|reflexivity]. apply same_place_ok in S. contradiction. }
    assert (Gx : g x = true). { unfold g. rewrite I2. cbn [andb]. now apply same_place_ok. }
    assert (H : forall l, (forall n, In n l -> In n (node_list s)) -> (length (filter f l) <= length (filter g l))%nat /\ (In x l -> (length (filter f l) < length (filter g l))%nat)).
    { induction l as [|y l IH]; intro Hl; cbn [filter length]; [split; [lia|contradiction]|]. destruct (IH (fun n Hn => Hl n (or_intror Hn))) as [H1 H2].
      assert (Fy : f y = true -> g y = true).
      { unfold f, g. destruct (is_node y) eqn:Iy; cbn [andb]; [|discriminate]. rewrite !same_place_ok. apply K. apply node_list_ok. split; [apply Hl; now left|assumption]. }
      split.
      - destruct (f y) eqn:Ey; [rewrite (Fy eq_refl); cbn [length]; lia|]. destruct (g y); cbn [length]; lia.
      - intros [->|Hy]; [rewrite Fx, Gx; cbn [length]; lia|]. specialize (H2 Hy). destruct (f y) eqn:Ey; [rewrite (Fy eq_refl); cbn [length]; lia|]. destruct (g y); cbn [length]; lia. }
    now apply (H (node_list s) (fun n Hn => Hn)).
  Qed.

  (** What a flip that runs out of fuel did. *)
  Lemma flip_timeout fuel s ae : good limit s -> node s ae -> flip limit wrap (S fuel) s ae = Timeout ->
    can_improve s ae /\ (flip limit wrap fuel (flipped s ae) ae = Timeout \/ exists s1 r1, flip limit wrap fuel (flipped s ae) ae = Ok (s1, r1) /\
      (flip limit wrap fuel s1 (nxt ae) = Timeout \/ exists s2 r2, flip limit wrap fuel s1 (nxt ae) = Ok (s2, r2) /\
      (flip limit wrap fuel s2 (tw s ae) = Timeout \/ exists s3 r3, flip limit wrap fuel s2 (tw s ae) = Ok (s3, r3) /\ flip limit wrap fuel s3 (nxt (tw s ae)) = Timeout))).
  Proof.
    intros G Hn H. cbn [flip] in H.
    rewrite (get_c_ok limit s ae G Hn) in H. cbn [bind] in H. destruct (Z.eqb_spec (co s ae) 0) as [Ec|Ec]; cbn [negb] in H; [|discriminate].
    pose proof (co_open limit s G ae Hn Ec) as Hz. pose proof (around_ok limit s ae G Hn Hz) as R.
    rewrite (get_e_ok limit s ae G Hn) in H. cbn [bind] in H. rewrite (get_p_ok limit s _ G (ar_b _ _ R)) in H. cbn [bind] in H.
    destruct (incircle_ok limit wrap s ae (pt s (tw s ae)) G Hn (g_pt _ _ G _ (ar_b _ _ R))) as [I1 [I2|I2]]; rewrite I2 in H; [|discriminate]. clear I1 I2. cbn [bind] in H.
    fold (P s (tw s ae)) in H. destruct (Z.ltb_spec (det_at s ae (P s (tw s ae))) 0) as [Hd|Hd]; cbn [negb] in H; [|discriminate].
    split; [unfold can_improve; auto|]. rewrite (do_flip_ok limit s ae G Hn Hz) in H. cbn [bind] in H.
    destruct (flip limit wrap fuel (flipped s ae) ae) as [[s1 r1]| |] eqn:F1; cbn [bind] in H; [|discriminate|now left]. right. exists s1, r1. split; [reflexivity|].
    destruct (flip limit wrap fuel s1 (nxt ae)) as [[s2 r2]| |] eqn:F2; cbn [bind] in H; [|discriminate|now left]. right. exists s2, r2. split; [reflexivity|].
    destruct (flip limit wrap fuel s2 (tw s ae)) as [[s3 r3]| |] eqn:F3; cbn [bind] in H; [|discriminate|now left]. right. exists s3, r3. split; [reflexivity|].
    destruct (flip limit wrap fuel s3 (nxt (tw s ae))) as [[s4 r4]| |] eqn:F4; cbn [bind] in H; [discriminate|discriminate|reflexivity].
  Qed.

  Lemma flip_ends fuel : forall s p x l, good limit s -> starry s p (x :: l) -> 8 * size s - Z.of_nat (count s p) < Z.of_nat fuel -> flip limit wrap fuel s x <> Timeout.
  Proof.
    induction fuel as [|fuel IH]; intros s p x l G S Hf H; [pose proof (count_bound s p G); lia|].
    pose proof (proj2 (proj2 S) x (or_introl eq_refl)) as [Nx Px].
    destruct (flip_timeout fuel s x G Nx H) as [Hi H1]. destruct (good_improve limit s x G Hi) as (Hz & R & G'). destruct (starry_flipped limit s p x l G S Hi) as [S0 K0].
    pose proof (ar_b1 _ _ R) as Nb. pose proof (node_mod s _ (ar_b _ _ R)) as Mb.
    assert (C0 : (count s p < count (flipped s x) p)%nat).
    { apply (count_lt s (flipped s x) p (nxt (tw s x)) eq_refl K0 Nb).
      - unfold P. rewrite (ar_p1 _ _ R). fold (P s (prv x)). rewrite <- Px. intro E. pose proof (g_cw _ _ G x Nx) as C. rewrite E in C. unfold orient in C. lia.
      - apply (proj2 (proj2 S0)). right. now left. }
    pose proof (count_bound _ p G') as Cb. change (size (flipped s x)) with (size s) in Cb.
    destruct H1 as [H1|(s1 & r1 & F1 & H1)]; [exact (IH (flipped s x) p x _ G' S0 ltac:(change (size (flipped s x)) with (size s); lia) H1)|].
    destruct (flip_starry limit wrap fuel _ p x _ s1 r1 G' S0 F1) as (G1 & E1 & S1 & K1). change (size (flipped s x)) with (size s) in E1.
    assert (Px1 : P s1 x = p) by (apply K1; [exact Nx|now apply K0]). assert (Pb1 : P s1 (nxt (tw s x)) = p) by (apply (proj2 (proj2 S1)); now left).
    assert (C1 : (count (flipped s x) p <= count s1 p)%nat) by (apply count_le; assumption). pose proof (count_bound _ p G1) as Cb1. rewrite E1 in Cb1.
    assert (Fz : exists k, fuel = Datatypes.S k) by (destruct fuel; [lia|eexists; reflexivity]). destruct Fz as [k Ek].
    destruct H1 as [H1|(s2 & r2 & F2 & H1)].
    { rewrite Ek in H1. destruct (flip_timeout k s1 (nxt x) G1 ltac:(apply nxt_node; now apply (node_same s)) H1) as [Y _].
      exact (spoke_still limit s1 p _ x (nxt x) G1 S1 ltac:(now apply (node_same s)) Px1 ltac:(now left) Y). }
    assert (s2 = s1) as -> by (apply (flip_spoke limit wrap fuel s1 p _ x (nxt x) s2 r2 G1 S1); [now apply (node_same s)|assumption|now left|assumption]).
    destruct H1 as [H1|(s3 & r3 & F3 & H1)].
    { rewrite Ek in H1. destruct (flip_timeout k s1 (tw s x) G1 ltac:(apply (node_same s); [assumption|exact (ar_b _ _ R)]) H1) as [Y _].
      exact (spoke_still limit s1 p _ (nxt (tw s x)) (tw s x) G1 S1 ltac:(now apply (node_same s)) Pb1 ltac:(right; now rewrite prv_nxt) Y). }
    assert (s3 = s1) as ->. { apply (flip_spoke limit wrap fuel s1 p _ (nxt (tw s x)) (tw s x) s3 r3 G1 S1); [now apply (node_same s)|assumption|right; now rewrite prv_nxt|assumption]. }
    apply (IH s1 p (nxt (tw s x)) l G1 S1); [rewrite E1; lia|exact H1].
  Qed.
  Lemma flip_ends' fuel s p x l : good limit s -> starry s p (x :: l) -> 8 * size s < Z.of_nat fuel -> flip limit wrap fuel s x <> Timeout.
  Proof. intros G S Hf. apply (flip_ends fuel s p x l G S). lia. Qed.

  Lemma in_face_ends fuel s px py u : good limit s -> node s u -> u mod 4 = 0 -> size s < limit -> inbox (px, py) -> fresh_at s (px, py) ->
    orient (px, py) (P s (u + 1)) (P s (u + 2)) < 0 -> orient (P s u) (px, py) (P s (u + 2)) < 0 -> orient (P s u) (P s (u + 1)) (px, py) < 0 ->
    all_ld s -> 8 * size s + 8 < Z.of_nat fuel -> insert_in_face limit wrap fuel s px py u <> Timeout.
  Proof.
    intros G Hu Mu Hs Hp Fr C1 C2 C3 L Hf. rewrite (split3_run limit wrap fuel s px py u G Hu Mu Hs Hp).
    destruct (in_face_start limit s px py u G Hu Mu Hs Hp Fr C1 C2 C3 L) as [G0 S0]. assert (Es : size (split3 s px py u) = size s + 1) by reflexivity. remember (split3 s px py u) as s0 eqn:E0. clear E0.
    pose proof (flip_ends' fuel s0 _ _ _ G0 S0 ltac:(lia)) as T1. destruct (flip limit wrap fuel s0 u) as [[s1 r1]| |] eqn:F1; cbn [bind]; [|discriminate|contradiction].
    destruct (flip_starry limit wrap fuel s0 _ _ _ s1 r1 G0 S0 F1) as (G1 & E1 & S1 & _).
    pose proof (flip_ends' fuel s1 _ _ _ G1 S1 ltac:(lia)) as T2. destruct (flip limit wrap fuel s1 (size s * 8 + 1)) as [[s2 r2]| |] eqn:F2; cbn [bind]; [|discriminate|contradiction].
    destruct (flip_starry limit wrap fuel s1 _ _ _ s2 r2 G1 S1 F2) as (G2 & E2 & S2 & _).
    pose proof (flip_ends' fuel s2 _ _ _ G2 S2 ltac:(lia)) as T3. destruct (flip limit wrap fuel s2 (size s * 8 + 4 + 2)) as [[s3 r3]| |] eqn:F3; cbn [bind]; [discriminate|discriminate|contradiction].
  Qed.
  Lemma on_edge_ends fuel s px py u : good limit s -> node s u -> size s < limit -> inbox (px, py) -> fresh_at s (px, py) -> orient (px, py) (P s (nxt u)) (P s (prv u)) = 0 ->
    orient (P s u) (P s (nxt u)) (px, py) < 0 -> orient (P s u) (px, py) (P s (prv u)) < 0 ->
    all_ld s -> 8 * size s + 8 < Z.of_nat fuel -> insert_on_edge limit wrap fuel s px py u <> Timeout.
  Proof.
    intros G Hu Hs Hp Fr C1 C2 C3 L Hf. destruct (Z.eqb_spec (tw s u) 0) as [Ez|Hz].
    { unfold insert_on_edge. rewrite (get_e_ok limit s u G Hu). cbn [bind]. rewrite Ez. cbn. discriminate. }
    remember (Z.min u (tw s u)) as ue eqn:Eue. rewrite (split4_run limit wrap fuel s px py u ue G Hu Hz Eue Hs Hp).
    pose proof (tw_node limit s G u Hu Hz) as Hv. pose proof (tw_tw limit s G u Hu Hz) as Htt.
    pose proof (ea_tw limit s G u Hu Hz) as E1. pose proof (eb_tw limit s G u Hu Hz) as E2. unfold ea, eb in E1, E2.
    assert (Q1 : P s (nxt (tw s u)) = P s (prv u)) by (unfold P; now rewrite E1). assert (Q2 : P s (prv (tw s u)) = P s (nxt u)) by (unfold P; now rewrite E2).
    pose proof (g_cw _ _ G u Hu) as D1. pose proof (g_cw _ _ G _ Hv) as D2. rewrite Q1, Q2 in D2.
    destruct (other_side _ _ _ _ _ D1 D2 C1 C2 C3) as [C4 C5].
    assert (Hue : node s ue /\ tw s ue <> 0 /\ orient (P s ue) (P s (nxt ue)) (px, py) < 0 /\ orient (P s (tw s ue)) (px, py) (P s (nxt ue)) < 0 /\
      orient (P s ue) (px, py) (P s (prv ue)) < 0 /\ orient (P s (tw s ue)) (P s (prv ue)) (px, py) < 0 /\ orient (px, py) (P s (nxt ue)) (P s (prv ue)) = 0).
    { destruct (Z.min_spec u (tw s u)) as [[_ Em]|[_ Em]]; rewrite Em in Eue; subst ue; [auto 10|]. rewrite Htt, Q1, Q2. split; [assumption|]. split; [destruct Hu; lia|]. repeat split; auto. rewrite orient_swap. lia. }
    destruct Hue as (Hue & Hze & K1 & K2 & K3 & K4 & K5). clear C1 C2 C3 C4 C5 D1 D2 E1 E2 Q1 Q2 Htt Hv Eue Hu Hz u.
    destruct (on_edge_start limit s px py ue G Hue Hze Hs Hp Fr K1 K2 K3 K4 K5 L) as [G0 S0]. assert (Es : size (split4 s px py ue) = size s + 1) by reflexivity. remember (split4 s px py ue) as s0 eqn:E0. clear E0.
    pose proof (flip_ends' fuel s0 _ _ _ G0 S0 ltac:(lia)) as T1. destruct (flip limit wrap fuel s0 (prv ue)) as [[s1 r1]| |] eqn:F1; cbn [bind]; [|discriminate|contradiction].
    destruct (flip_starry limit wrap fuel s0 _ _ _ s1 r1 G0 S0 F1) as (G1 & E1 & S1 & _).
    pose proof (flip_ends' fuel s1 _ _ _ G1 S1 ltac:(lia)) as T2. destruct (flip limit wrap fuel s1 (size s * 8 + 1)) as [[s2 r2]| |] eqn:F2; cbn [bind]; [|discriminate|contradiction].
    destruct (flip_starry limit wrap fuel s1 _ _ _ s2 r2 G1 S1 F2) as (G2 & E2 & S2 & _).
    pose proof (flip_ends' fuel s2 _ _ _ G2 S2 ltac:(lia)) as T3. destruct (flip limit wrap fuel s2 (nxt (tw s ue))) as [[s3 r3]| |] eqn:F3; cbn [bind]; [|discriminate|contradiction].
    destruct (flip_starry limit wrap fuel s2 _ _ _ s3 r3 G2 S2 F3) as (G3 & E3 & S3 & _).
    pose proof (flip_ends' fuel s3 _ _ _ G3 S3 ltac:(lia)) as T4. destruct (flip limit wrap fuel s3 (size s * 8 + 4 + 2)) as [[s4 r4]| |] eqn:F4; cbn [bind]; [discriminate|discriminate|contradiction].
  Qed.

  Lemma insert_node_ends fuel s p n : good limit s -> used s -> near p -> n = 0 \/ (node s n /\ closed_face s p n) -> all_ld s -> 8 * size s + 8 < Z.of_nat fuel ->
    insert_point_at_node limit wrap fuel s (fst p) (snd p) n <> Timeout.
  Proof.
    intros G Us Hp Hn L Hf. unfold insert_point_at_node. cbv zeta. destruct (Z.eqb_spec n 0) as [_|Hz]; [discriminate|].
    destruct Hn as [Hn|[Hn Cl]]; [contradiction|]. pose proof (closed_box limit s p n G Hn Cl) as Hb.
    destruct (base_of s n Hn) as (Hu & Mu & _). pose proof (closed_base s p n Hn Cl) as C. cbv zeta in C. set (u := n / 4 * 4) in *. clearbody u. clear Hn Cl Hz n.
    destruct (offs u Mu) as (O1 & O2 & O3 & O4 & O5 & O6 & _). pose proof (nxt_node s u Hu) as Hu1. rewrite O1 in Hu1. pose proof (prv_node s u Hu) as Hu2. rewrite O2 in Hu2.
    rewrite !(rel_ok limit s p) by (assumption || now left). cbn [bind]. rewrite (edge_bits_ok limit s p u G Hp Hu Mu). cbn [bind].
    destruct C as (C1 & C2 & C3). pose proof (g_cw _ _ G u Hu) as D. rewrite O1, O2 in D.
    assert (S : orient (P s u) (P s (u + 1)) (P s (u + 2)) = orient p (P s (u + 1)) (P s (u + 2)) + orient p (P s (u + 2)) (P s u) + orient p (P s u) (P s (u + 1))) by (unfold orient; ring).
    assert (Cu : closed_face s p u) by (unfold closed_face; rewrite O1, O2; auto).
    assert (Fr : ~ is_corner s p u -> fresh_at s p). { intros Nc m Hm E. exact (not_vertex limit s u p G Us Hu Cu Nc (pt s m) (g_pt _ _ G m Hm) E). }
    assert (Edge : forall m, node s m -> ~ is_corner s p u -> orient p (P s (nxt m)) (P s (prv m)) = 0 -> orient (P s m) (P s (nxt m)) p < 0 -> orient (P s m) p (P s (prv m)) < 0 ->
      (if size s >=? limit then Ok (s, 0) else ' (s0, b) <- insert_on_edge limit wrap fuel s (fst p) (snd p) m;; Ok (s0, if b : bool then m else 0)) <> Timeout).
    { clear D S C1 C2 C3. intros m Hm Nc K1 K2 K3. destruct (Z.geb_spec (size s) limit) as [Hl|Hl]; [discriminate|].
      assert (T : insert_on_edge limit wrap fuel s (fst p) (snd p) m <> Timeout) by (pose proof (Fr Nc) as Frp; destruct p as [px py]; now apply on_edge_ends).
      destruct (insert_on_edge limit wrap fuel s (fst p) (snd p) m) as [[s1 b]| |]; cbn [bind]; [discriminate|discriminate|contradiction]. }
    assert (Nc : (orient p (P s (u + 1)) (P s (u + 2)) < 0 /\ orient p (P s (u + 2)) (P s u) < 0) \/ (orient p (P s (u + 1)) (P s (u + 2)) < 0 /\ orient p (P s u) (P s (u + 1)) < 0) \/ (orient p (P s (u + 2)) (P s u) < 0 /\ orient p (P s u) (P s (u + 1)) < 0) -> ~ is_corner s p u).
    { intros K Ic. unfold is_corner in Ic. rewrite ?O1, ?O2 in Ic. assert (Zr : forall a b, orient a a b = 0 /\ orient a b a = 0) by (intros a b; unfold orient; split; ring).
      destruct Ic as [Ic|[Ic|Ic]]; rewrite Ic in K; rewrite ?(proj1 (Zr _ _)), ?(proj2 (Zr _ _)) in K; lia. }
    destruct (Z.ltb_spec (orient p (P s (u + 1)) (P s (u + 2))) 0) as [L1|L1]; destruct (Z.ltb_spec (orient p (P s (u + 2)) (P s u)) 0) as [L2|L2];
      destruct (Z.ltb_spec (orient p (P s u) (P s (u + 1))) 0) as [L3|L3]; try (exfalso; lia); cbn [Z.add Z.eqb Pos.eqb Pos.add Pos.succ].
    - destruct (Z.geb_spec (size s) limit) as [Hl|Hl]; [discriminate|].
      assert (K2 : orient (P s u) p (P s (u + 2)) < 0) by (rewrite <- (orient_rot (P s u)); exact L2).
      assert (K3 : orient (P s u) (P s (u + 1)) p < 0) by (rewrite (orient_rot p); exact L3).
      assert (T : insert_in_face limit wrap fuel s (fst p) (snd p) u <> Timeout) by (pose proof (Fr (Nc ltac:(auto))) as Frp; destruct p as [px py]; now apply in_face_ends).
      destruct (insert_in_face limit wrap fuel s (fst p) (snd p) u) as [s1| |] eqn:E; cbn [bind]; [discriminate|discriminate|contradiction].
    - apply (Edge (u + 2) Hu2); rewrite ?O5, ?O6; [apply Nc; auto|lia|rewrite (orient_rot p); exact L2|rewrite <- (orient_rot (P s (u + 2))); exact L1].
    - apply (Edge (u + 1) Hu1); rewrite ?O3, ?O4; [apply Nc; auto|lia|rewrite (orient_rot p); exact L1|rewrite <- (orient_rot (P s (u + 1))); exact L3].
    - discriminate.
    - rewrite Z.add_0_r. apply (Edge u Hu); rewrite ?O1, ?O2; [apply Nc; auto|lia|rewrite (orient_rot p); exact L3|rewrite <- (orient_rot (P s u)); exact L2].
    - discriminate.
    - discriminate.
  Qed.
End FlipEnds.
