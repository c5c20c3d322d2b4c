(** The faces of a mesh tile the square. *)
From Coq Require Import Permutation.
From Verif Require Import Base Vec_Model Math_Model Vec_Spec Math_Spec Cdt_Model Cdt_Geom Cdt_Mesh Cdt_Flip Cdt_Circle Cdt_Spec.
Local Open Scope Z_scope.

Lemma filter_split {A} (f : A -> bool) l : Permutation l (filter f l ++ filter (fun x => negb (f x)) l).
Proof.
  induction l as [|x l IH]; [constructor|]. cbn [filter]. destruct (f x); cbn [negb app]; [now constructor|]. now apply Permutation_cons_app.
Qed.
Lemma filter_both {A} (f g : A -> bool) l : filter f (filter g l) = filter (fun x => g x && f x) l.
Proof. induction l as [|x l IH]; [reflexivity|]. cbn [filter]. destruct (g x); cbn [filter andb]; [destruct (f x); congruence|assumption]. Qed.

Section Tile.
  Context (limit : Z).

  Definition nodes_of (s : mesh) : list Z := flat_map (fun f => [4 * f + 2; 4 * f; 4 * f + 1]) (faces_of (size s)).
  Definition edge_pts (s : mesh) (n : Z) : point * point := (P s (nxt n), P s (prv n)).

  Lemma four f : nxt (4 * f) = 4 * f + 1 /\ prv (4 * f) = 4 * f + 2 /\ nxt (4 * f + 1) = 4 * f + 2 /\ prv (4 * f + 1) = 4 * f /\ nxt (4 * f + 2) = 4 * f /\ prv (4 * f + 2) = 4 * f + 1.
  Proof.
    assert (M0 : 4 * f mod 4 = 0) by (apply face4). assert (M1 : (4 * f + 1) mod 4 = 1) by (Z.to_euclidean_division_equations; lia). assert (M2 : (4 * f + 2) mod 4 = 2) by (Z.to_euclidean_division_equations; lia).
    unfold nxt, prv. rewrite M0, M1, M2. cbn. repeat split; lia.
  Qed.
  Lemma nodes_in s n : 4 <= size s -> In n (nodes_of s) <-> node s n.
  Proof.
    intro Hs. unfold nodes_of. rewrite in_flat_map. split.
    - intros (f & Hf & H). apply faces_of_in in Hf; [|lia]. pose proof (Z.div_mod n 4 ltac:(lia)). cbn [In] in H. split; [lia|]. Z.to_euclidean_division_equations; lia.
    - intro Hn. exists (n / 4). split; [apply faces_of_in; [lia|now apply node_face]|]. pose proof (Z.div_mod n 4 ltac:(lia)). pose proof (Z.mod_pos_bound n 4 ltac:(lia)). destruct Hn. cbn [In]. lia.
  Qed.
  Lemma nodes_nodup s : NoDup (nodes_of s).
  Proof.
    unfold nodes_of. pose proof (faces_of_nodup (size s)) as ND. induction ND as [|f l Hf ND IH]; [constructor|].
    cbn [flat_map app]. assert (X : forall k, 0 <= k < 3 -> ~ In (4 * f + k) (flat_map (fun f => [4 * f + 2; 4 * f; 4 * f + 1]) l)).
    { intros k Hk H. apply in_flat_map in H. destruct H as (g & Hg & H). apply Hf. replace f with g; [assumption|]. cbn [In] in H. lia. }
    constructor; [intros [H|[H|H]]; [lia|lia|now apply (X 2)]|]. constructor; [intros [H|H]; [lia|apply (X 0); [lia|now rewrite Z.add_0_r]]|]. constructor; [now apply X|assumption].
  Qed.
  Lemma tri_sides s : flat_map sides (triangles s) = map (edge_pts s) (nodes_of s).
  Proof.
    unfold triangles, all_faces, nodes_of, faces_of. generalize (map Z.of_nat (seq 6 (Z.to_nat (2 * size s - 6)))) as l.
    induction l as [|f l IH]; [reflexivity|]. cbn [map flat_map]. rewrite map_app, <- IH. f_equal. unfold face_triangle, sides, corner, edge_pts. cbn [map].
    destruct (four f) as (-> & -> & -> & -> & -> & ->). change (0 mod 3) with 0. change (1 mod 3) with 1. change (2 mod 3) with 2. rewrite Z.add_0_r. reflexivity.
  Qed.

  Lemma boundary_edges s : good limit s -> Permutation (map (edge_pts s) (filter (fun n => tw s n =? 0) (nodes_of s))) (edges square).
  Proof.
    intro G. pose proof (g_size _ _ G) as Gs. destruct (g_corners _ _ G) as (K0 & K1 & K2 & K3). destruct (g_bounded _ _ G) as (B1 & B2 & B3).
    assert (Hin : forall n, In n (filter (fun n => tw s n =? 0) (nodes_of s)) <-> node s n /\ tw s n = 0).
    { intro n. rewrite filter_In, (nodes_in s n) by lia. now rewrite Z.eqb_eq. }
    assert (L : edges square = map (fun e => (V s (fst e), V s (snd e))) [(1, 0); (0, 2); (2, 3); (3, 1)]) by (cbn [map fst snd]; rewrite K0, K1, K2, K3; reflexivity).
    assert (Inj : forall u w u' w', In (u, w) sides4 -> In (u', w') sides4 -> V s u = V s u' -> u = u' /\ w = w').
    { assert (Dis : forall u u', 0 <= u < 4 -> 0 <= u' < 4 -> V s u = V s u' -> u = u').
      { intros u u' H H' E. assert (u = 0 \/ u = 1 \/ u = 2 \/ u = 3) as [-> |[-> |[-> | ->]]] by lia; assert (u' = 0 \/ u' = 1 \/ u' = 2 \/ u' = 3) as [-> |[-> |[-> | ->]]] by lia; try reflexivity; rewrite ?K0, ?K1, ?K2, ?K3 in E; discriminate E. }
      intros u w u' w' H H' E. assert (u = u') as -> by (apply Dis; [cbn [sides4 In] in H; intuition; match goal with K : (_, _) = (u, w) |- _ => inversion K end; lia|cbn [sides4 In] in H'; intuition; match goal with K : (_, _) = (u', w') |- _ => inversion K end; lia|assumption]).
      split; [reflexivity|]. clear - H H'. cbn [sides4 In] in *. intuition congruence. }
    apply NoDup_Permutation.
    - assert (X : forall l, NoDup l -> (forall n, In n l -> node s n /\ tw s n = 0) -> NoDup (map (edge_pts s) l)).
      { induction 1 as [|n l Hn ND IH]; intro H; [constructor|]. cbn [map]. constructor; [|apply IH; intros m Hm; apply H; now right].
        intro Hi. apply in_map_iff in Hi. destruct Hi as (m & E & Hm). apply Hn. replace n with m; [assumption|].
        destruct (H n (or_introl eq_refl)) as [N1 T1]. destruct (H m (or_intror Hm)) as [N2 T2]. apply B3; try assumption.
        apply (Inj _ _ _ _ (B2 m N2 T2) (B2 n N1 T1)). exact (f_equal fst E). }
      apply X; [apply NoDup_filter, nodes_nodup|intros n Hn; now apply Hin].
    - cbn. repeat constructor; cbn [In]; intros H; repeat destruct H as [H|H]; try discriminate H; contradiction.
    - intros [x y]. rewrite in_map_iff, L, in_map_iff. split.
      + intros (n & E & Hn). apply Hin in Hn. destruct Hn as [N T]. exists (ea s n, eb s n). split; [exact E|]. pose proof (B2 n N T) as H. cbn [sides4 In] in *. tauto.
      + intros ([u w] & E & H). destruct (B1 u w) as (n & N & T & Ea & Eb); [cbn [sides4 In] in *; tauto|]. exists n. split; [|now apply Hin]. rewrite <- E. cbn [fst snd]. unfold edge_pts, P. unfold ea, eb in Ea, Eb. now rewrite Ea, Eb.
  Qed.

  Theorem tiles s : good limit s -> mesh_with_boundary (triangles s) square.
  Proof.
    intro G. pose proof (g_size _ _ G) as Gs. unfold mesh_with_boundary. rewrite tri_sides.
    set (N := nodes_of s). pose (L2 := filter (fun n => negb (tw s n =? 0) && (n <? tw s n)) N). pose (L3 := filter (fun n => negb (tw s n =? 0) && negb (n <? tw s n)) N).
    exists (map (edge_pts s) L2).
    assert (In2 : forall n, In n L2 <-> node s n /\ tw s n <> 0 /\ n < tw s n).
    { intro n. unfold L2, N. rewrite filter_In, (nodes_in s n) by lia. rewrite andb_true_iff, negb_true_iff, Z.eqb_neq, Z.ltb_lt. tauto. }
    assert (In3 : forall n, In n L3 <-> node s n /\ tw s n <> 0 /\ tw s n <= n).
    { intro n. unfold L3, N. rewrite filter_In, (nodes_in s n) by lia. rewrite andb_true_iff, !negb_true_iff, Z.eqb_neq, Z.ltb_ge. tauto. }
    assert (P3 : Permutation L3 (map (tw s) L2)).
    { apply NoDup_Permutation.
      - apply NoDup_filter, nodes_nodup.
      - assert (X : forall l, NoDup l -> (forall n, In n l -> node s n /\ tw s n <> 0) -> NoDup (map (tw s) l)).
        { induction 1 as [|n l Hn ND IH]; intro H; [constructor|]. cbn [map]. constructor; [|apply IH; intros m Hm; apply H; now right].
          intro Hi. apply in_map_iff in Hi. destruct Hi as (m & E & Hm). apply Hn. replace n with m; [assumption|].
          destruct (H n (or_introl eq_refl)) as [N1 T1]. destruct (H m (or_intror Hm)) as [N2 T2]. now apply (tw_inj limit s G m n). }
        apply X; [apply NoDup_filter, nodes_nodup|]. intros n Hn. apply In2 in Hn. tauto.
      - intro n. rewrite In3, in_map_iff. split.
        + intros (Hn & Hz & L). exists (tw s n). pose proof (tw_tw limit s G n Hn Hz) as Tt. split; [assumption|]. apply In2. split; [now apply (tw_node limit s G)|]. rewrite Tt.
          pose proof (tw_other limit s G n Hn Hz) as O. split; [destruct Hn; lia|]. assert (tw s n <> n) by (intro E; apply O; now rewrite E). lia.
        + intros (m & <- & Hm). apply In2 in Hm. destruct Hm as (Hm & Hz & L). split; [now apply (tw_node limit s G)|]. rewrite (tw_tw limit s G m Hm Hz). split; [destruct Hm; lia|lia]. }
    assert (PN : Permutation N (filter (fun n => tw s n =? 0) N ++ L2 ++ L3)).
    { eapply Permutation_trans; [apply (filter_split (fun n => tw s n =? 0))|]. apply Permutation_app_head. unfold L2, L3. rewrite <- !filter_both. apply filter_split. }
    eapply Permutation_trans; [apply Permutation_map, PN|]. rewrite !map_app. apply Permutation_app; [now apply boundary_edges|]. apply Permutation_app_head.
    eapply Permutation_trans; [apply Permutation_map, P3|]. rewrite !map_map.
    assert (E : map (fun n => edge_pts s (tw s n)) L2 = map (fun n => Math_Spec.flip (edge_pts s n)) L2); [|now rewrite E].
    apply map_ext_in. intros n Hn. apply In2 in Hn. destruct Hn as (Hn & Hz & _). unfold edge_pts, Math_Spec.flip, P. cbn [fst snd].
    pose proof (ea_tw limit s G n Hn Hz) as E1. pose proof (eb_tw limit s G n Hn Hz) as E2. unfold ea, eb in E1, E2. now rewrite E1, E2.
  Qed.

  (** The area from the boundary. *)
  Definition cross2 (e : point * point) : Z := fst (fst e) * snd (snd e) - snd (fst e) * fst (snd e).
  Definition crosses (l : list (point * point)) : Z := total (map cross2 l).
  Lemma total_app l m : total (l ++ m) = total l + total m.
  Proof. induction l as [|x l IH]; [reflexivity|]. cbn [app total fold_right]. fold (total (l ++ m)) (total l). lia. Qed.
  Lemma crosses_perm l m : Permutation l m -> crosses l = crosses m.
  Proof. unfold crosses. induction 1; cbn [map total fold_right]; try reflexivity; [unfold total in *; lia|lia|congruence]. Qed.
  Lemma crosses_flip l : crosses (map Math_Spec.flip l) = - crosses l.
  Proof. unfold crosses. induction l as [|[a b] l IH]; [reflexivity|]. cbn [map total fold_right] in *. unfold total in *. rewrite IH. unfold cross2, Math_Spec.flip. cbn [fst snd]. ring. Qed.
  Lemma area_crosses ts : total (map area ts) = - crosses (flat_map sides ts).
  Proof.
    induction ts as [|[[a b] c] ts IH]; [reflexivity|]. cbn [map total fold_right flat_map]. fold (total (map area ts)). rewrite IH. unfold crosses. rewrite map_app, total_app.
    unfold sides. cbn [map total fold_right]. unfold area, orient, cross2. cbn [fst snd]. ring.
  Qed.
  Theorem whole_area s : good limit s -> total (map area (triangles s)) = 2 * (65535 * 65535).
  Proof.
    intro G. rewrite area_crosses. destruct (tiles s G) as (inner & Hp). rewrite (crosses_perm _ _ Hp). unfold crosses. rewrite !map_app, !total_app.
    fold (crosses (map Math_Spec.flip inner)) (crosses inner) (crosses (edges square)). rewrite crosses_flip. change (crosses (edges square)) with (- (2 * (65535 * 65535))). lia.
  Qed.
End Tile.
