(** Every operation is a sequence of flips, insertions and marks, and what these keep. *)
From Verif Require Import Base Vec_Model Math_Model Vec_Spec Math_Spec Cdt_Model Cdt_Geom Cdt_Mesh Cdt_Flip Cdt_Circle Cdt_Insert Cdt_OnEdge Cdt_Walk Cdt_Edge Cdt_Spec Cdt_Tile Cdt_Reset Cdt_Fill Cdt_EdgeSpec Cdt_Planar.
Local Open Scope Z_scope.

Section Steps.
  Context (limit : Z) (wrap : bool).

  Inductive step (s : mesh) : mesh -> Prop :=
  | st_flip n : node s n -> co s n = 0 -> orient (P s n) (P s (tw s n)) (P s (prv n)) < 0 -> orient (P s (tw s n)) (P s n) (P s (nxt n)) < 0 -> step s (flipped s n)
  | st_face p u : node s u -> u mod 4 = 0 -> size s < limit -> inbox p ->
      orient p (P s (u + 1)) (P s (u + 2)) < 0 -> orient (P s u) p (P s (u + 2)) < 0 -> orient (P s u) (P s (u + 1)) p < 0 -> step s (split3 s (fst p) (snd p) u)
  | st_edge p u : node s u -> tw s u <> 0 -> size s < limit -> inbox p -> orient p (P s (nxt u)) (P s (prv u)) = 0 ->
      orient (P s u) (P s (nxt u)) p < 0 -> orient (P s (tw s u)) p (P s (nxt u)) < 0 ->
      orient (P s u) p (P s (prv u)) < 0 -> orient (P s (tw s u)) (P s (prv u)) p < 0 -> step s (split4 s (fst p) (snd p) u)
  | st_mark n : node s n -> step s (marked s n).
  Inductive steps : mesh -> mesh -> Prop :=
  | steps_refl s : steps s s
  | steps_cons s t u : step s t -> steps t u -> steps s u.
  Lemma steps_trans s t u : steps s t -> steps t u -> steps s u.
  Proof. induction 1; [auto|]. intro. eapply steps_cons; [eassumption|auto]. Qed.
  Lemma steps_one s t : step s t -> steps s t.
  Proof. intro H. eapply steps_cons; [exact H|constructor]. Qed.

  Lemma step_good s t : good limit s -> step s t -> good limit t.
  Proof.
    intros G [n Hn Hc O1 O2|[px py] u Hu Mu Hl Hp C1 C2 C3|[px py] u Hu Hz Hl Hp C0 C1 C2 C3 C4|n Hn].
    - apply good_flipped; [assumption|assumption|now apply (co_open limit s G)|assumption|assumption].
    - now apply split3_good.
    - now apply split4_good.
    - now apply marked_good.
  Qed.
  Lemma step_extends s t : good limit s -> step s t -> extends s t.
  Proof.
    intros G [n Hn Hc O1 O2|p u Hu Mu Hl Hp C1 C2 C3|p u Hu Hz Hl Hp C0 C1 C2 C3 C4|n Hn].
    - split; [cbn [size flipped]; lia|reflexivity].
    - now apply (split3_extends limit).
    - now apply (split4_extends limit).
    - split; [cbn [size marked]; lia|reflexivity].
  Qed.
  Lemma steps_good s t : steps s t -> good limit s -> good limit t.
  Proof. induction 1; [auto|]. intro G. apply IHsteps. now apply (step_good s). Qed.
  Lemma steps_extends s t : steps s t -> good limit s -> extends s t.
  Proof. induction 1; intro G; [apply extends_refl|]. apply (extends_trans s t u); [now apply step_extends|]. apply IHsteps. now apply (step_good s). Qed.

  Lemma improve_step s n : good limit s -> can_improve s n -> step s (flipped s n).
  Proof.
    intros G Hi. destruct (good_improve limit s n G Hi) as (Hz & R & _). destruct Hi as (Hn & Hc & Hd). 
    pose proof (g_cw _ _ G n Hn) as C1. pose proof (g_cw _ _ G _ (ar_b _ _ R)) as C2. change (turn s (tw s n) < 0) in C2. rewrite (proj1 (quad s n R)) in C2.
    destruct (incircle_convex _ _ _ _ C1 C2 Hd) as [O1 O2]. now apply st_flip.
  Qed.
  Lemma flips_steps s t : flips s t -> good limit s -> steps s t.
  Proof.
    induction 1 as [s|s n t Hi F IH]; intro G; [constructor|]. pose proof (improve_step s n G Hi) as S. eapply steps_cons; [exact S|]. apply IH. now apply (step_good s).
  Qed.

  (** ** Every vertex is the corner of a face, and vertices are at different places *)
  Definition used (s : mesh) : Prop := forall v, 0 <= v < size s -> exists n, node s n /\ pt s n = v.
  Definition distinct (s : mesh) : Prop := forall v w, 0 <= v < size s -> 0 <= w < size s -> V s v = V s w -> v = w.

  Lemma relabel_used s s' phi D N v : relabel s s' phi D N -> (forall n m, D n -> D m -> n / 4 = m / 4 -> n = m) -> (forall n, D n \/ ~ D n) ->
    (exists n, node s n /\ pt s n = v) -> exists n, node s' n /\ pt s' n = v.
  Proof.
    intros (R1 & _) HD Dec (n & Hn & E). pose proof (node_mod s n Hn) as M.
    pose proof (nxt_node s n Hn) as H1. pose proof (prv_node s n Hn) as H2.
    assert (Hne : nxt n <> prv n) by (destruct (nxt_prv_cases n M) as [(_ & -> & ->)|[(_ & -> & ->)|(_ & -> & ->)]]; lia).
    destruct (Dec (nxt n)) as [K|K].
    - assert (K2 : ~ D (prv n)). { intro K2. apply Hne. apply HD; [assumption|assumption|]. rewrite nxt_face. symmetry. now apply prv_face. }
      destruct (R1 _ H2 K2) as (J1 & _ & _ & J4 & _). exists (nxt (phi (prv n))). split; [now apply nxt_node|]. unfold ea in J4. rewrite J4. now rewrite nxt_prv.
    - destruct (R1 _ H1 K) as (J1 & _ & _ & _ & J5 & _). exists (prv (phi (nxt n))). split; [now apply prv_node|]. unfold eb in J5. rewrite J5. now rewrite prv_nxt.
  Qed.

  Lemma pair_faces s n : good limit s -> node s n -> tw s n <> 0 -> forall a b, (a = n \/ a = tw s n) -> (b = n \/ b = tw s n) -> a / 4 = b / 4 -> a = b.
  Proof. intros G Hn Hz a b Ha Hb E. pose proof (tw_other limit s G n Hn Hz). destruct Ha as [-> | ->]; destruct Hb as [-> | ->]; auto; congruence. Qed.
  Lemma pair_dec n m (k : Z) : (k = n \/ k = m) \/ ~ (k = n \/ k = m).
  Proof. lia. Qed.

  Lemma step_used s t : good limit s -> step s t -> used s -> used t.
  Proof.
    intros G St U v Hv. destruct St as [n Hn Hc O1 O2|p u Hu Mu Hl Hp C1 C2 C3|p u Hu Hz Hl Hp C0 C1 C2 C3 C4|n Hn].
    - pose proof (co_open limit s G n Hn Hc) as Hz. apply (relabel_used _ _ _ _ _ v (flip_relabel limit s n G Hn Hz)); [now apply pair_faces|intro; apply pair_dec|now apply U].
    - change (size (split3 s (fst p) (snd p) u)) with (size s + 1) in Hv. destruct (Z.eq_dec v (size s)) as [->|Hne].
      + exists u. pose proof (grown_node s (split3 s (fst p) (snd p) u) u eq_refl (proj1 (g_size _ _ G))) as N. split; [tauto|]. unfold split3. cbn [pt]. apply put_eq.
      + apply (relabel_used _ _ _ _ _ v (split3_relabel limit s (fst p) (snd p) u G Hu Mu)); [tauto|tauto|apply U; lia].
    - change (size (split4 s (fst p) (snd p) u)) with (size s + 1) in Hv. destruct (Z.eq_dec v (size s)) as [->|Hne].
      + exists (nxt (tw s u)). pose proof (grown_node s (split4 s (fst p) (snd p) u) (nxt (tw s u)) eq_refl (proj1 (g_size _ _ G))) as N. split; [|unfold split4; cbn [pt]; apply put_eq].
        apply N. left. apply nxt_node, (tw_node limit s G); assumption.
      + apply (relabel_used _ _ _ _ _ v (split4_relabel limit s (fst p) (snd p) u G Hu Hz)); [now apply pair_faces|intro; apply pair_dec|apply U; lia].
    - exact (U v Hv).
  Qed.

  Lemma not_vertex s u p : good limit s -> used s -> node s u -> closed_face s p u -> ~ is_corner s p u -> forall v, 0 <= v < size s -> V s v <> p.
  Proof.
    intros G U Hu C N v Hv E. destruct (U v Hv) as (m & Hm & <-). fold (P s m) in E. subst p. apply N. now apply (vertex_in_face limit).
  Qed.
  Lemma step_distinct s t : good limit s -> step s t -> used s -> distinct s -> distinct t.
  Proof.
    intros G St U D. assert (X : forall t p, size t = size s + 1 -> extends s t -> V t (size s) = p -> (forall v, 0 <= v < size s -> V s v <> p) -> distinct t).
    { clear t St. intros t p Es [_ E] Ep N v w Hv Hw Ev. rewrite Es in *. destruct (Z.eq_dec v (size s)) as [->|Hnv]; destruct (Z.eq_dec w (size s)) as [->|Hnw]; [reflexivity| | |].
      - exfalso. rewrite Ep in Ev. apply (N w); [lia|]. rewrite <- E by lia. now symmetry.
      - exfalso. rewrite Ep in Ev. apply (N v); [lia|]. rewrite <- E by lia. assumption.
      - apply D; [lia|lia|]. rewrite !E in Ev by lia. assumption. }
    pose proof (step_extends s t G St) as Ex.
    destruct St as [n Hn Hc O1 O2|p u Hu Mu Hl Hp C1 C2 C3|p u Hu Hz Hl Hp C0 C1 C2 C3 C4|n Hn]; [exact D| | |exact D].
    - apply (X (split3 s (fst p) (snd p) u) p eq_refl Ex); [unfold V, split3; cbn [vx vy]; rewrite !put_eq; now destruct p|].
      destruct (offs u Mu) as (O1 & O2 & _). apply (not_vertex s u p G U Hu).
      + unfold closed_face. rewrite O1, O2. split; [rewrite (orient_rot p) in C3; lia|]. split; [lia|]. rewrite <- (orient_rot (P s u) p) in C2. lia.
      + unfold is_corner. rewrite O1, O2. intros [-> |[-> | ->]]; unfold orient in *; lia.
    - apply (X (split4 s (fst p) (snd p) u) p eq_refl Ex); [unfold V, split4; cbn [vx vy]; rewrite !put_eq; now destruct p|].
      apply (not_vertex s u p G U Hu).
      + unfold closed_face. split; [rewrite (orient_rot p) in C1; lia|]. split; [lia|]. rewrite <- (orient_rot (P s u) p) in C3. lia.
      + unfold is_corner. intros [-> |[-> | ->]]; unfold orient in *; lia.
  Qed.

  (** ** Constrained edges stay covered *)
  Lemma constrained_node s a b : constrained s a b <-> exists n, node s n /\ co s n = 1 /\ ((P s (nxt n) = a /\ P s (prv n) = b) \/ (P s (nxt n) = b /\ P s (prv n) = a)).
  Proof.
    split.
    - intros (f & i & [F1 F2] & Hi & Hc & H). exists (4 * f + i). destruct (four f) as (Q1 & Q2 & Q3 & Q4 & Q5 & Q6).
      assert (Hn : node s (4 * f + i)). { split; [destruct Hi as [-> |[-> | ->]]; lia|]. destruct Hi as [-> |[-> | ->]]; Z.to_euclidean_division_equations; lia. }
      split; [assumption|]. split; [assumption|]. unfold edge_from, edge_to, corner, where_is in H. unfold P, V.
      destruct Hi as [-> |[-> | ->]]; rewrite ?Z.add_0_r, ?Q1, ?Q2, ?Q3, ?Q4, ?Q5, ?Q6; [change ((0 + 1) mod 3) with 1 in H; change ((0 + 2) mod 3) with 2 in H|change ((1 + 1) mod 3) with 2 in H; change ((1 + 2) mod 3) with 0 in H|change ((2 + 1) mod 3) with 0 in H; change ((2 + 2) mod 3) with 1 in H]; rewrite ?Z.add_0_r in H; exact H.
    - intros (n & Hn & Hc & H). exists (n / 4), (n mod 4). pose proof (Z.div_mod n 4 ltac:(lia)) as Dm. pose proof (Z.mod_pos_bound n 4 ltac:(lia)) as Mb. rewrite <- Dm.
      assert (Hi : side (n mod 4)) by (destruct Hn; unfold side; lia). split; [pose proof (node_face s n Hn) as [Hf1 Hf2]; split; lia|]. split; [exact Hi|]. split; [assumption|].
      destruct (four (n / 4)) as (Q1 & Q2 & Q3 & Q4 & Q5 & Q6). unfold edge_from, edge_to, corner, where_is. unfold P, V in H. set (f := n / 4) in *. clearbody f. set (i := n mod 4) in *. clearbody i. clear Mb Hc Hn. subst n.
      destruct Hi as [-> |[-> | ->]]; rewrite ?Z.add_0_r, ?Q1, ?Q2, ?Q3, ?Q4, ?Q5, ?Q6 in H; [change ((0 + 1) mod 3) with 1; change ((0 + 2) mod 3) with 2|change ((1 + 1) mod 3) with 2; change ((1 + 2) mod 3) with 0|change ((2 + 1) mod 3) with 0; change ((2 + 2) mod 3) with 1]; rewrite ?Z.add_0_r; exact H.
  Qed.
  Lemma node_constrained s n : node s n -> co s n = 1 -> constrained s (P s (nxt n)) (P s (prv n)).
  Proof. intros H1 H2. apply constrained_node. exists n. auto. Qed.
  Lemma constrained_sym s a b : constrained s a b -> constrained s b a.
  Proof. rewrite !constrained_node. intros (n & H1 & H2 & H3). exists n. tauto. Qed.
  Lemma on_segment_sym m a b : on_segment m a b -> on_segment m b a.
  Proof. unfold on_segment, orient. intros (H1 & H2 & H3). split; [|split]; lia. Qed.
  Lemma covered_sym s a b : covered s a b -> covered s b a.
  Proof. induction 1 as [p H|a b H|a m b H H1 IH1 H2 IH2]; [now constructor|apply cov_edge; now apply constrained_sym|]. apply (cov_join s b m a); [now apply on_segment_sym|assumption|assumption]. Qed.

  Lemma vertex_extends s t p : extends s t -> vertex_at s p -> vertex_at t p.
  Proof. exact (has_extends s t p). Qed.

  Lemma relabel_constrained s s' phi D N n : good limit s -> extends s s' -> relabel s s' phi D N -> node s n -> ~ D n -> co s n = 1 -> constrained s' (P s (nxt n)) (P s (prv n)).
  Proof.
    intros G [_ E] (R1 & _) Hn HD Hc. destruct (R1 n Hn HD) as (J1 & _ & J3 & J4 & J5 & _). unfold ea, eb in J4, J5.
    assert (Q : P s' (nxt (phi n)) = P s (nxt n) /\ P s' (prv (phi n)) = P s (prv n)).
    { unfold P. rewrite J4, J5. rewrite !E by (apply (g_pt _ _ G); first [now apply nxt_node | now apply prv_node]). auto. }
    destruct Q as [<- <-]. apply node_constrained; [assumption|congruence].
  Qed.

  (** Splitting an edge leaves two halves. *)
  Lemma between_segment a b p o : orient p a b = 0 -> orient o a b < 0 -> orient o a p < 0 -> orient o p b < 0 -> on_segment p a b.
  Proof.
    intros H0 H1 H2 H3. split; [rewrite (orient_rot p); assumption|].
    assert (Ex : (fst p - fst a) * orient o a b = (fst b - fst a) * orient o a p + (fst o - fst a) * orient p a b) by (unfold orient; ring).
    assert (Ey : (snd p - snd a) * orient o a b = (snd b - snd a) * orient o a p + (snd o - snd a) * orient p a b) by (unfold orient; ring).
    assert (Fx : (fst p - fst b) * orient o a b = (fst a - fst b) * orient o p b + (fst o - fst b) * orient p a b) by (unfold orient; ring).
    assert (Fy : (snd p - snd b) * orient o a b = (snd a - snd b) * orient o p b + (snd o - snd b) * orient p a b) by (unfold orient; ring).
    rewrite H0 in *. rewrite !Z.mul_0_r, !Z.add_0_r in *.
    assert (K : forall x y u d m n, d < 0 -> m < 0 -> n < 0 -> x * d = u * m -> y * d = - u * n -> x * y <= 0).
    { clear. intros x y u d m n Hd Hm Hn E1 E2. apply Z.nlt_ge. intro L. assert (X : (x * d) * (y * d) = - ((u * u) * (m * n))) by (rewrite E1, E2; ring).
      assert (0 < m * n) by nia. assert (0 < d * d) by nia. pose proof (Z.square_nonneg u). nia. }
    split; [apply (K _ _ (fst b - fst a) _ _ _ H1 H2 H3 Ex)|apply (K _ _ (snd b - snd a) _ _ _ H1 H2 H3 Ey)]; lia.
  Qed.

  Lemma step_constrained s t a b : good limit s -> step s t -> constrained s a b -> covered t a b.
  Proof.
    intros G St H. pose proof (step_extends s t G St) as Ex. apply constrained_node in H. destruct H as (m & Hm & Hc & H).
    assert (X : covered t (P s (nxt m)) (P s (prv m))); [|destruct H as [[<- <-]|[<- <-]]; [exact X|now apply covered_sym]]. clear H a b.
    destruct St as [n Hn Hcn O1 O2|p u Hu Mu Hl Hp C1 C2 C3|p u Hu Hz Hl Hp C0 C1 C2 C3 C4|n Hn].
    - apply cov_edge. pose proof (co_open limit s G n Hn Hcn) as Hz. apply (relabel_constrained _ _ _ _ _ m G Ex (flip_relabel limit s n G Hn Hz)); [assumption| |assumption].
      intros HD. destruct HD as [HD|HD]; subst m; [congruence|]. destruct (g_link _ _ G n Hn) as [[E _]|(_ & _ & E & _)]; [contradiction|congruence].
    - apply cov_edge. apply (relabel_constrained _ _ _ _ _ m G Ex (split3_relabel limit s (fst p) (snd p) u G Hu Mu)); [assumption|tauto|assumption].
    - destruct (pair_dec u (tw s u) m) as [HD|HD]; [|apply cov_edge; apply (relabel_constrained _ _ _ _ _ m G Ex (split4_relabel limit s (fst p) (snd p) u G Hu Hz)); assumption].
      assert (Hcu : co s u = 1). { destruct HD as [-> | ->]; [assumption|]. destruct (g_link _ _ G u Hu) as [[E _]|(_ & _ & E & _)]; [contradiction|congruence]. }
      destruct (split4_points limit s (fst p) (snd p) u G Hu Hz) as (P0 & P1 & P2 & P3 & P4 & P5 & P6 & P7 & P8 & P9 & P10). rewrite <- surjective_pairing in *.
      destruct (setting_ok limit s u G Hu Hz) as ((H1 & H2 & H3 & H4 & H5 & H6) & _ & _ & _ & (N1 & N2 & N3 & N4 & N5 & N6 & N7 & N8 & N9 & N10' & N11 & N12 & N13 & N14 & N15) & _).
      pose proof (grown_node s (split4 s (fst p) (snd p) u)) as Gn. remember (split4 s (fst p) (snd p) u) as t eqn:Et.
      assert (Gn' : forall m, node t m <-> _) by (intro k; apply (Gn k); [now subst t|apply (g_size _ _ G)]). clear Gn.
      assert (Hx : node t (size s * 8)) by (apply Gn'; tauto). assert (Hu' : node t u) by (apply Gn'; tauto).
      assert (Cx : co t (size s * 8) = 1 /\ co t u = 1).
      { subst t. unfold split4. cbn [co]. destruct (grown_faces s (proj1 (g_size _ _ G))) as (_ & _ & Mv & _). pose proof H1 as [B1 _]. pose proof H2 as [B2 _]. pose proof H3 as [B3 _]. pose proof H6 as [B6 _].
        unfold ne in *. clear - B1 B2 B3 B6 N1 N9 Hcu. split; repeat (rewrite put_ne by lia); rewrite ?put_eq; assumption. }
      destruct Cx as [Cx Cu]. pose proof (node_constrained t _ Hx Cx) as K1. pose proof (node_constrained t _ Hu' Cu) as K2.
      destruct (grown_faces s (proj1 (g_size _ _ G))) as (_ & _ & Mv & _). destruct (offs _ Mv) as (V1 & V2 & _). rewrite V1, V2, P3, P4 in K1. rewrite P0 in K2. rewrite (P10 (nxt u)) in K2 by assumption.
      assert (Sg : on_segment p (P s (nxt u)) (P s (prv u))) by (apply (between_segment _ _ _ (P s u)); [assumption|now apply (g_cw _ _ G)|assumption|assumption]).
      assert (Cv : covered t (P s (nxt u)) (P s (prv u))) by (apply (cov_join t _ p _ Sg); now apply cov_edge).
      destruct HD as [-> | ->]; [exact Cv|]. rewrite P8, P9. now apply covered_sym.
    - apply cov_edge. change (P s (nxt m)) with (P (marked s n) (nxt m)). change (P s (prv m)) with (P (marked s n) (prv m)). apply node_constrained; [exact Hm|].
      unfold marked. cbn [co]. unfold put. destruct (m =? n); [reflexivity|]. destruct (m =? tw s n); [reflexivity|assumption].
  Qed.
  Lemma step_covered s t a b : good limit s -> step s t -> covered s a b -> covered t a b.
  Proof.
    intros G St H. induction H as [p H|a b H|a m b H H1 IH1 H2 IH2].
    - apply cov_vertex. apply (vertex_extends s); [now apply step_extends|assumption].
    - now apply (step_constrained s).
    - now apply (cov_join t a m b).
  Qed.
  Lemma steps_covered s t a b : steps s t -> good limit s -> covered s a b -> covered t a b.
  Proof. induction 1; [auto|]. intros G C. apply IHsteps; [now apply (step_good s)|now apply (step_covered s)]. Qed.
  Lemma steps_follows s t a b : steps s t -> good limit s -> follows s a b -> follows t a b.
  Proof.
    intros St G H. induction H as [p q H|p m q H1 H2 H3 IH|p r q H1 H2 H3 IH1 H4 IH2].
    - apply fol_covered. now apply (steps_covered s).
    - apply (fol_part t p m q); [assumption|now apply (steps_covered s)|assumption].
    - apply (fol_bend t p r q); [|assumption|assumption|assumption]. apply (vertex_extends s); [now apply steps_extends|assumption].
  Qed.

  (** ** All together *)
  Definition sound (s : mesh) : Prop := good limit s /\ used s /\ distinct s.
  Lemma steps_sound s t : steps s t -> sound s -> sound t.
  Proof.
    induction 1; [auto|]. intros (G & U & D). apply IHsteps. split; [now apply (step_good s)|]. split; [now apply (step_used s)|now apply (step_distinct s)].
  Qed.
End Steps.
