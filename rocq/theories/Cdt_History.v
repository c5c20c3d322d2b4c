(** Any history of calls keeps the mesh invariant. *)
From Verif Require Import Base Vec_Model Math_Model Vec_Spec Cdt_Model Cdt_Geom Cdt_Mesh Cdt_Flip Cdt_Circle Cdt_Insert Cdt_OnEdge Cdt_Walk Cdt_Edge Cdt_Spec Cdt_Reset Cdt_Fill.
Local Open Scope Z_scope.

Lemma good_same limit s s' : size s' = size s -> pt s' = pt s -> tw s' = tw s -> co s' = co s -> vx s' = vx s -> vy s' = vy s -> good limit s -> good limit s'.
Proof.
  destruct s as [a b c d e f g], s' as [a' b' c' d' e' f' g']. cbn [size pt tw co fi vx vy]. intros -> -> -> -> -> -> [G1 G2 G3 G4 G5 G6 G7 G8 G9 G10]. constructor; assumption.
Qed.

Section History.
  Context (limit q : Z) (wrap : bool).
  Hypothesis Hl : 4 <= limit <= 8192.
  Hypothesis Hq : 0 <= q.

  Lemma grid_range x : - 2 ^ 31 <= x < 2 ^ 31 -> - 2 ^ 31 <= grid q x <= 2 ^ 31.
  Proof.
    change (2 ^ 31) with 2147483648. intro H. unfold grid. rewrite Z.shiftr_div_pow2 by lia. assert (Hp : 0 < 2 ^ q) by (apply Z.pow_pos_nonneg; lia). assert (Hp1 : 1 <= 2 ^ q) by lia. generalize dependent (2 ^ q). intros d Hd Hd1.
    assert (D : - 2147483648 <= x / d < 2147483648). { split; [apply Z.div_le_lower_bound; [lia|]; nia|]. apply Z.div_lt_upper_bound; [lia|]. nia. }
    generalize dependent (x / d). intros y Hy. Z.to_euclidean_division_equations; lia.
  Qed.
  Lemma grid_near p : int32p p -> near (grid q (fst p), grid q (snd p)).
  Proof. intros [H1 H2]. split; cbn [fst snd]; now apply grid_range. Qed.

  Lemma point_ok fuel s p h : good limit s -> int32p p ->
    match insert_point limit q wrap fuel s p h with
    | Ok (s', b) => good limit s' /\ extends s s' /\ (b = false -> s' = s) /\ (b = true -> inbox (grid q (fst p), grid q (snd p)) /\ has s' (grid q (fst p), grid q (snd p)))
    | UB => wrap = false | Timeout => True
    end.
  Proof.
    intros G Hp. pose proof (grid_near p Hp) as N. unfold insert_point, insert_point64.
    pose proof (locate_insertion_ok limit fuel s _ h G N) as X. cbn [fst snd] in X. destruct (locate_insertion_node limit fuel s (grid q (fst p)) (grid q (snd p)) h) as [n| |]; cbn [bind]; [|contradiction|exact I].
    pose proof (insert_node_ok limit wrap fuel s _ n G N X) as Y. cbn [fst snd] in Y. destruct (insert_point_at_node limit wrap fuel s (grid q (fst p)) (grid q (snd p)) n) as [[s' r]| |]; cbn [bind]; [|exact Y|exact I].
    destruct Y as (G' & E & Y0 & Y1). split; [assumption|]. split; [assumption|]. destruct (Z.eqb_spec r 0) as [E0|E0]; cbn [negb]; split; intro K; try discriminate K; auto.
  Qed.
  Lemma insert_edge_ok fuel s p r h : good limit s -> int32p p -> int32p r -> edge_post limit wrap s (insert_edge limit q wrap fuel s p r h).
  Proof. intros G Hp Hr. unfold insert_edge. apply (proj1 (edge_ok_all limit wrap fuel)); [assumption|now apply grid_near..]. Qed.

  (** One call. *)
  Theorem run_ok fuel s o : good limit s -> valid s o ->
    match run_op limit q wrap fuel s o with Ok s' => good limit s' /\ (o <> Reset_ -> extends s s') | UB => wrap = false | Timeout => True end.
  Proof.
    intros G Hv. destruct o as [|p h|p r h|n info]; cbn [run_op].
    - destruct (reset_ok limit s Hl) as (s' & -> & F). split; [now apply (fresh_good limit s)|congruence].
    - pose proof (point_ok fuel s p h G Hv) as X. destruct (insert_point limit q wrap fuel s p h) as [[s' b]| |]; cbn [bind]; [|assumption|exact I]. destruct X as (G' & E & _). auto.
    - destruct Hv as [Hp Hr]. pose proof (insert_edge_ok fuel s p r h G Hp Hr) as X. unfold edge_post in X. destruct (insert_edge limit q wrap fuel s p r h) as [[s' b]| |]; cbn [bind]; [|assumption|exact I]. destruct X. auto.
    - destruct Hv as [[-> |Hn] Hi].
      + unfold fill. cbn [Z.div Z.eqb]. change (0 / 4 =? 0) with true. cbn beta iota. split; [assumption|]. intros _. apply extends_refl.
      + pose proof (fill_ok limit fuel s n info G ltac:(lia) ltac:(lia) Hi) as X. destruct (fill limit fuel s n info) as [s'| |]; [|contradiction|exact I].
        destruct X as ((E1 & E2 & E3 & E4 & E5 & E6) & _). split; [now apply (good_same limit s)|]. intros _. unfold extends, V. rewrite E1, E5, E6. split; [lia|auto].
  Qed.

  Theorem reachable_good s : reachable limit q wrap s -> good limit s.
  Proof.
    induction 1 as [s0 s E|fuel s o s' R IH Hv E].
    - destruct (reset_ok limit s0 Hl) as (s' & E' & F). rewrite E in E'. injection E' as <-. now apply (fresh_good limit s0).
    - pose proof (run_ok fuel s o IH Hv) as X. rewrite E in X. apply X.
  Qed.
End History.
