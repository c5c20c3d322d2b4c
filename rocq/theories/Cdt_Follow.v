(** Points of the square are found; what an insertion returns; a constrained segment is followed by constrained edges. *)
From Verif Require Import Base Vec_Model Math_Model Vec_Spec Math_Spec Cdt_Model Cdt_Geom Cdt_Mesh Cdt_Flip Cdt_Circle Cdt_Insert Cdt_OnEdge Cdt_Walk Cdt_Edge Cdt_Spec Cdt_Tile Cdt_Reset Cdt_Fill Cdt_EdgeSpec Cdt_Planar Cdt_Steps.
Local Open Scope Z_scope.

Section Follow.
  Context (limit : Z) (wrap : bool).

  (** ** The walk never leaves the square *)
  Definition at_in (s : mesh) (p : point) (e : Z) (p1 p2 : Z * Z) : Prop :=
    node s e /\ p1 = rv s p (nxt e) /\ p2 = rv s p (prv e) /\ orient p (P s (nxt e)) (P s (prv e)) <= 0.

  Lemma inner_side s p e : good limit s -> inbox p -> node s e -> 0 < orient p (P s (nxt e)) (P s (prv e)) -> tw s e <> 0.
  Proof. intros G Hp He Ho Hz. pose proof (boundary_side limit s e p G He Hz Hp) as H. rewrite (orient_rot p) in H. lia. Qed.
  Lemma in_over s p e : good limit s -> inbox p -> node s e -> 0 < orient p (P s (nxt e)) (P s (prv e)) -> at_in s p (tw s e) (rv s p (prv e)) (rv s p (nxt e)).
  Proof. intros G Hp He Ho. destruct (cross_over limit s p e G He Ho) as [Hz|H]; [exfalso; exact (inner_side s p e G Hp He Ho Hz)|exact H]. Qed.
  Lemma in_nxt s p e : good limit s -> inbox p -> node s e -> 0 < orient p (P s (prv e)) (P s e) -> at_in s p (tw s (nxt e)) (rv s p e) (rv s p (prv e)).
  Proof.
    intros G Hp He Ho. pose proof (node_mod s e He) as M. pose proof (in_over s p (nxt e) G Hp (nxt_node s e He)) as H. rewrite (nxt_nxt e M), (prv_nxt e M) in H. now apply H.
  Qed.
  Lemma in_prv s p e : good limit s -> inbox p -> node s e -> 0 < orient p (P s e) (P s (nxt e)) -> at_in s p (tw s (prv e)) (rv s p (nxt e)) (rv s p e).
  Proof.
    intros G Hp He Ho. pose proof (node_mod s e He) as M. pose proof (in_over s p (prv e) G Hp (prv_node s e He)) as H. rewrite (nxt_prv e M), (prv_prv e M) in H. now apply H.
  Qed.

  Lemma spin_in fuel : forall s p e p1 p2, good limit s -> inbox p -> at_in s p e p1 p2 -> spin limit fuel s (fst p) (snd p) e p1 p2 <> Ok None.
  Proof.
    induction fuel as [|fuel IH]; intros s p e p1 p2 G Hp (He & -> & -> & Ho); [discriminate|]. cbn [spin]. pose proof (inbox_near _ Hp) as Np. destruct (Z.eqb_spec e 0) as [E|_]; [destruct He; lia|].
    assert (F0 : face_or_nil s e) by now left. assert (F1 : face_or_nil s (nxt e)) by (left; now apply nxt_node).
    rewrite (rel_ok limit s p e G Np F0). cbn [bind]. rewrite (in_ok limit s p e _ G Np F0 F1). cbn [bind].
    destruct (Z.leb_spec (orient p (P s e) (P s (nxt e))) 0) as [L|L]; [discriminate|].
    rewrite (proj1 (fn_e limit s (prv e) G (or_introl (prv_node s e He)))). cbn [bind]. apply IH; [assumption|assumption|]. now apply in_prv.
  Qed.

  Lemma walk_in fuel : forall s p e p1 p2, good limit s -> inbox p -> at_in s p e p1 p2 ->
    match walk limit fuel s (fst p) (snd p) e p1 p2 with Ok n => node s n /\ closed_face s p n | UB => False | Timeout => True end.
  Proof.
    induction fuel as [|fuel IH]; intros s p e p1 p2 G Hp (He & -> & -> & Ho); [exact I|]. cbn [walk]. pose proof (inbox_near _ Hp) as Np. destruct (Z.eqb_spec e 0) as [E|_]; [destruct He; lia|].
    assert (F0 : face_or_nil s e) by now left. assert (F1 : face_or_nil s (nxt e)) by (left; now apply nxt_node). assert (F2 : face_or_nil s (prv e)) by (left; now apply prv_node).
    rewrite (rel_ok limit s p e G Np F0). cbn [bind]. rewrite (in_ok limit s p _ e G Np F2 F0), (in_ok limit s p e _ G Np F0 F1). cbn [bind].
    destruct (Z.leb_spec (orient p (P s (prv e)) (P s e)) 0) as [L1|L1]; destruct (Z.leb_spec (orient p (P s e) (P s (nxt e))) 0) as [L2|L2]; cbn [andb negb].
    - split; [assumption|]. unfold closed_face. auto.
    - rewrite (proj1 (fn_e limit s (prv e) G F2)). cbn [bind]. apply IH; [assumption..|now apply in_prv].
    - rewrite (proj1 (fn_e limit s (nxt e) G F1)). cbn [bind]. apply IH; [assumption..|now apply in_nxt].
    - rewrite (proj1 (fn_e limit s (nxt e) G F1)). cbn [bind].
      pose proof (in_nxt s p e G Hp He L1) as A. pose proof (spin_in fuel s p _ _ _ G Hp A) as Sn.
      pose proof (spin_ok limit fuel s p _ _ _ G Np (cross_nxt limit s p e G He L1)) as X.
      destruct (spin limit fuel s (fst p) (snd p) (tw s (nxt e)) (rv s p e) (rv s p (prv e))) as [[[[e' p0'] p2']|]| |]; cbn [bind]; [|congruence|contradiction|exact I].
      destruct X as (He' & -> & [K|(_ & _ & -> & Ho')] & L3); [exfalso; destruct He'; lia|].
      assert (F0' : face_or_nil s e') by now left. assert (F1' : face_or_nil s (nxt e')) by (left; now apply nxt_node). assert (F2' : face_or_nil s (prv e')) by (left; now apply prv_node).
      rewrite (in_ok limit s p _ e' G Np F2' F0'). cbn [bind]. destruct (Z.leb_spec (orient p (P s (prv e')) (P s e')) 0) as [L4|L4].
      + split; [assumption|]. unfold closed_face. auto.
      + rewrite (proj1 (fn_e limit s (nxt e') G F1')). cbn [bind]. apply IH; [assumption..|now apply in_nxt].
  Qed.

  Lemma locate_in fuel s p h : good limit s -> inbox p ->
    match locate_insertion_node limit fuel s (fst p) (snd p) h with Ok n => node s n /\ closed_face s p n | UB => False | Timeout => True end.
  Proof.
    intros G Hp. pose proof (inbox_near _ Hp) as Np. unfold locate_insertion_node. cbv zeta. destruct (hint_node limit s h G) as [He M].
    set (e := (if (h <? 24) || (h >=? size s * 8) then size s * 8 - 4 else h) / 4 * 4) in *. clearbody e.
    destruct (offs e M) as (O1 & O2 & _). rewrite <- O1, <- O2.
    assert (F0 : face_or_nil s e) by now left. assert (F1 : face_or_nil s (nxt e)) by (left; now apply nxt_node). assert (F2 : face_or_nil s (prv e)) by (left; now apply prv_node).
    rewrite (rel_ok limit s p _ G Np F1), (rel_ok limit s p _ G Np F2). cbn [bind]. rewrite (in_ok limit s p _ _ G Np F1 F2). cbn [bind].
    destruct (Z.leb_spec (orient p (P s (nxt e)) (P s (prv e))) 0) as [L|L]; cbn [negb].
    - apply walk_in; [assumption..|]. unfold at_in. auto.
    - rewrite (proj1 (fn_e limit s e G F0)). cbn [bind]. apply walk_in; [assumption..|]. now apply in_over.
  Qed.
  Lemma locate_out fuel s p h : good limit s -> near p -> ~ inbox p -> match locate_insertion_node limit fuel s (fst p) (snd p) h with Ok n => n = 0 | UB => False | Timeout => True end.
  Proof.
    intros G Np Hp. pose proof (locate_insertion_ok limit fuel s p h G Np) as X. destruct (locate_insertion_node limit fuel s (fst p) (snd p) h) as [n| |]; [|contradiction|exact I].
    destruct X as [X|[X1 X2]]; [assumption|]. exfalso. apply Hp. now apply (closed_box limit s p n).
  Qed.
  Lemma at_corner fuel s p h : sound limit s -> has s p ->
    match locate_insertion_node limit fuel s (fst p) (snd p) h with Ok n => node s n /\ is_corner s p n | UB => False | Timeout => True end.
  Proof.
    intros (G & U & _) (v & Hv & E). assert (Hp : inbox p) by (subst p; now apply (g_box _ _ G)).
    pose proof (locate_in fuel s p h G Hp) as X. destruct (locate_insertion_node limit fuel s (fst p) (snd p) h) as [n| |]; [|contradiction|exact I].
    destruct X as [X1 X2]. split; [assumption|]. destruct (U v Hv) as (m & Hm & <-). fold (P s m) in E. subst p. now apply (vertex_in_face limit).
  Qed.

  (** ** What an insertion at a node does *)
  Definition on_rim (p : point) : Prop := fst p = lo \/ fst p = hi \/ snd p = lo \/ snd p = hi.
  Lemma rim s n p : good limit s -> node s n -> tw s n = 0 -> orient p (P s (nxt n)) (P s (prv n)) = 0 -> on_rim p.
  Proof.
    intros G Hn Hz Ho. destruct (g_bounded _ _ G) as (_ & B2 & _). destruct (g_corners _ _ G) as (K0 & K1 & K2 & K3). specialize (B2 n Hn Hz). unfold ea, eb in B2. unfold P in Ho.
    unfold on_rim, lo, hi in *. change (2 ^ 15) with 32768 in *. cbn [sides4 In] in B2. revert Ho.
    destruct B2 as [E|[E|[E|[E|[]]]]]; injection E as <- <-; rewrite ?K0, ?K1, ?K2, ?K3; unfold orient; cbn [fst snd]; lia.
  Qed.
  (** A strict combination of values that are not negative is zero only when all of them are. *)
  Lemma strict_zero (x y z u v w : Z) : 0 <= x -> 0 <= y -> 0 <= z -> u < 0 -> v < 0 -> w < 0 -> x * u + y * v + z * w = 0 -> x = 0 /\ y = 0 /\ z = 0.
  Proof. intros. assert (x * u <= 0) by nia. assert (y * v <= 0) by nia. assert (z * w <= 0) by nia. assert (x * u = 0) by lia. assert (y * v = 0) by lia. assert (z * w = 0) by lia. nia. Qed.
  Lemma strict_zero2 (x y u v : Z) : 0 <= x -> 0 <= y -> u < 0 -> v < 0 -> x * u + y * v = 0 -> x = 0 /\ y = 0.
  Proof. intros. assert (x * u <= 0) by nia. assert (y * v <= 0) by nia. assert (x * u = 0) by lia. assert (y * v = 0) by lia. nia. Qed.
  Lemma inside_rim p a b c : inbox a -> inbox b -> inbox c -> orient p a b < 0 -> orient p b c < 0 -> orient p c a < 0 -> ~ on_rim p.
  Proof.
    intros [A1 A2] [B1 B2] [C1 C2] H1 H2 H3 R.
    assert (S : orient a b c = orient p a b + orient p b c + orient p c a) by (unfold orient; ring).
    assert (X : fst p * orient a b c = fst c * orient p a b + fst a * orient p b c + fst b * orient p c a) by (unfold orient; ring).
    assert (Y : snd p * orient a b c = snd c * orient p a b + snd a * orient p b c + snd b * orient p c a) by (unfold orient; ring).
    assert (N : orient a b c < 0) by lia. rewrite S in X, Y. unfold orient in N. remember (orient p a b) as u. remember (orient p b c) as v. remember (orient p c a) as w.
    destruct R as [R|[R|[R|R]]]; rewrite R in *.
    - destruct (strict_zero (fst c - lo) (fst a - lo) (fst b - lo) u v w) as (E1 & E2 & E3); [lia..|]. replace (fst c) with lo in * by lia. replace (fst a) with lo in * by lia. replace (fst b) with lo in * by lia. lia.
    - destruct (strict_zero (hi - fst c) (hi - fst a) (hi - fst b) u v w) as (E1 & E2 & E3); [lia..|]. replace (fst c) with hi in * by lia. replace (fst a) with hi in * by lia. replace (fst b) with hi in * by lia. lia.
    - destruct (strict_zero (snd c - lo) (snd a - lo) (snd b - lo) u v w) as (E1 & E2 & E3); [lia..|]. replace (snd c) with lo in * by lia. replace (snd a) with lo in * by lia. replace (snd b) with lo in * by lia. lia.
    - destruct (strict_zero (hi - snd c) (hi - snd a) (hi - snd b) u v w) as (E1 & E2 & E3); [lia..|]. replace (snd c) with hi in * by lia. replace (snd a) with hi in * by lia. replace (snd b) with hi in * by lia. lia.
  Qed.
  Lemma edge_rim p o a b q : inbox a -> inbox b -> inbox o -> inbox q -> orient p a b = 0 -> orient o a p < 0 -> orient o p b < 0 -> orient q b a < 0 -> ~ on_rim p.
  Proof.
    intros [A1 A2] [B1 B2] [C1 C2] [D1 D2] H0 H1 H2 H3 R.
    assert (S : orient o a b = orient o a p + orient o p b + orient p a b) by (unfold orient; ring).
    assert (X : fst p * orient o a b = fst b * orient o a p + fst a * orient o p b + fst o * orient p a b) by (unfold orient; ring).
    assert (Y : snd p * orient o a b = snd b * orient o a p + snd a * orient o p b + snd o * orient p a b) by (unfold orient; ring).
    assert (N : orient o a b < 0) by lia. rewrite S in X, Y. rewrite H0 in *. unfold orient in N, H3. remember (orient o a p) as u. remember (orient o p b) as v.
    assert (K : forall x y z, 0 <= x -> 0 <= y -> - x * z < 0 -> - y * - z < 0 -> False) by (clear; intros x y z Hx Hy Hz1 Hz2; destruct (Z.le_gt_cases z 0); [assert (x * z <= 0) by nia|assert (0 <= y * z) by nia]; lia).
    destruct R as [R|[R|[R|R]]]; rewrite R in *.
    - destruct (strict_zero2 (fst b - lo) (fst a - lo) u v) as (E1 & E2); [lia..|]. replace (fst b) with lo in * by lia. replace (fst a) with lo in * by lia. apply (K (fst o - lo) (fst q - lo) (snd b - snd a)); lia.
    - destruct (strict_zero2 (hi - fst b) (hi - fst a) u v) as (E1 & E2); [lia..|]. replace (fst b) with hi in * by lia. replace (fst a) with hi in * by lia. apply (K (hi - fst o) (hi - fst q) (snd a - snd b)); lia.
    - destruct (strict_zero2 (snd b - lo) (snd a - lo) u v) as (E1 & E2); [lia..|]. replace (snd b) with lo in * by lia. replace (snd a) with lo in * by lia. apply (K (snd o - lo) (snd q - lo) (fst a - fst b)); lia.
    - destruct (strict_zero2 (hi - snd b) (hi - snd a) u v) as (E1 & E2); [lia..|]. replace (snd b) with hi in * by lia. replace (snd a) with hi in * by lia. apply (K (hi - snd o) (hi - snd q) (fst b - fst a)); lia.
  Qed.

  (** The point was there; or the mesh is full or the point is on the rim of the square; or there is one vertex more. *)
  Definition inserted (s : mesh) (p : point) (s' : mesh) (r : Z) : Prop :=
    (s' = s /\ r <> 0 /\ has s p) \/
    (s' = s /\ r = 0 /\ ~ has s p /\ (limit <= size s \/ on_rim p)) \/
    (r <> 0 /\ ~ has s p /\ size s < limit /\ ~ on_rim p /\ steps limit s s' /\ size s' = size s + 1 /\ V s' (size s) = p /\
      exists s0, (step limit s s0) /\ flips s0 s' /\ size s0 = size s + 1).

  Lemma insert_cases fuel s p n : sound limit s -> near p -> node s n -> closed_face s p n ->
    match insert_point_at_node limit wrap fuel s (fst p) (snd p) n with
    | Ok (s', r) => inserted s p s' r
    | UB => wrap = false | Timeout => Z.of_nat fuel < far
    end.
  Proof.
    intros (G & U & Di) Hp Hn Cl. unfold insert_point_at_node. cbv zeta. destruct (Z.eqb_spec n 0) as [E|_]; [destruct Hn; lia|].
    pose proof (closed_box limit s p n G Hn Cl) as Hb.
    destruct (base_of s n Hn) as (Hu & Mu & _). pose proof (closed_base s p n Hn Cl) as C. cbv zeta in C. set (u := n / 4 * 4) in *. clearbody u. clear Hn Cl n.
    destruct (offs u Mu) as (O1 & O2 & O3 & O4 & O5 & O6 & _). pose proof (nxt_node s u Hu) as Hu1. rewrite O1 in Hu1. pose proof (prv_node s u Hu) as Hu2. rewrite O2 in Hu2.
    rewrite !(rel_ok limit s p) by (assumption || now left). cbn [bind]. rewrite (edge_bits_ok limit s p u G Hp Hu Mu). cbn [bind].
    destruct C as (C1 & C2 & C3). pose proof (g_cw _ _ G u Hu) as D. rewrite O1, O2 in D.
    assert (S : orient (P s u) (P s (u + 1)) (P s (u + 2)) = orient p (P s (u + 1)) (P s (u + 2)) + orient p (P s (u + 2)) (P s u) + orient p (P s u) (P s (u + 1))) by (unfold orient; ring).
    assert (Hv : forall m r, node s m -> p = P s m -> r <> 0 -> inserted s p s r) by (intros m r Hm Em Hr; left; split; [reflexivity|]; split; [assumption|]; exists (pt s m); split; [now apply (g_pt _ _ G)|now symmetry]).
    assert (Cl : closed_face s p u) by (unfold closed_face; rewrite O1, O2; auto).
    assert (Nv : ~ (is_corner s p u) -> ~ has s p) by (intros Nc (v & Hv' & E); exact (not_vertex limit s u p G U Hu Cl Nc v Hv' E)).
    assert (Full : ~ is_corner s p u -> limit <= size s \/ on_rim p -> inserted s p s 0) by (intros Nc H; right; left; auto).
    assert (More : forall s0 s' r, r <> 0 -> ~ is_corner s p u -> size s < limit -> ~ on_rim p -> step limit s s0 -> flips s0 s' -> size s0 = size s + 1 -> V s0 (size s) = p -> inserted s p s' r).
    { intros s0 s' r Hr Nc Hl Nr St F Es Ev. right; right. pose proof (step_good limit s s0 G St) as G0. pose proof (flips_good limit _ _ F G0) as (_ & _ & _ & F4 & _ & F6). split; [assumption|]. split; [now apply Nv|]. split; [assumption|]. split; [assumption|].
      split; [eapply steps_cons; [exact St|now apply flips_steps]|]. split; [lia|]. split; [rewrite F6; assumption|]. exists s0. auto. }
    assert (Edge : forall m, node s m -> ~ is_corner s p u -> orient p (P s (nxt m)) (P s (prv m)) = 0 -> orient (P s m) (P s (nxt m)) p < 0 -> orient (P s m) p (P s (prv m)) < 0 ->
      match (if size s >=? limit then Ok (s, 0) else ' (s0, b) <- insert_on_edge limit wrap fuel s (fst p) (snd p) m;; Ok (s0, if b : bool then m else 0)) with
      | Ok (s', r) => inserted s p s' r | UB => wrap = false | Timeout => Z.of_nat fuel < far end).
    { clear D S C1 C2 C3. intros m Hm Nc K1 K2 K3. destruct (Z.geb_spec (size s) limit) as [Hl|Hl]; [apply Full; [assumption|left; lia]|].
      pose proof (on_edge_ok limit wrap fuel s p m G Hm Hl Hb K1 K2 K3) as X. destruct (insert_on_edge limit wrap fuel s (fst p) (snd p) m) as [[s' b]| |]; cbn [bind]; [|exact X|exact X].
      destruct (Z.eqb_spec (tw s m) 0) as [Ez|Hz]; [destruct X as [-> ->]; apply Full; [assumption|right; now apply (rim s m p)]|]. cbv zeta in X. destruct X as (-> & G' & F & G0).
      pose proof (tw_node limit s G m Hm Hz) as Ht. pose proof (tw_tw limit s G m Hm Hz) as Htt.
      pose proof (ea_tw limit s G m Hm Hz) as E1. pose proof (eb_tw limit s G m Hm Hz) as E2. unfold ea, eb in E1, E2.
      assert (Q1 : P s (nxt (tw s m)) = P s (prv m)) by (unfold P; now rewrite E1). assert (Q2 : P s (prv (tw s m)) = P s (nxt m)) by (unfold P; now rewrite E2).
      pose proof (g_cw _ _ G m Hm) as D1. pose proof (g_cw _ _ G _ Ht) as D2. rewrite Q1, Q2 in D2.
      destruct (other_side _ _ _ _ _ D1 D2 K1 K2 K3) as [K4 K5].
      assert (Nr : ~ on_rim p). { apply (edge_rim p (P s m) (P s (nxt m)) (P s (prv m)) (P s (tw s m))); try assumption; apply (fn_box limit s _ G); left; [now apply nxt_node|now apply prv_node|assumption|assumption]. }
      apply (More _ s' m) with (3 := Hl) (6 := F); [destruct Hm; lia|assumption|assumption| |reflexivity|unfold V, split4; cbn [vx vy]; rewrite !put_eq; now destruct p].
      destruct (Z.min_spec m (tw s m)) as [[_ Em]|[_ Em]]; rewrite Em; apply st_edge; rewrite ?Htt, ?Q1, ?Q2; try assumption; try (destruct Hm; lia).
      rewrite orient_anti, K1. reflexivity. }
    destruct (Z.ltb_spec (orient p (P s (u + 1)) (P s (u + 2))) 0) as [L1|L1]; destruct (Z.ltb_spec (orient p (P s (u + 2)) (P s u)) 0) as [L2|L2];
      destruct (Z.ltb_spec (orient p (P s u) (P s (u + 1))) 0) as [L3|L3]; try (exfalso; lia); cbn [Z.add Z.eqb Pos.eqb Pos.add Pos.succ].
    - (* inside *) assert (Nc : ~ is_corner s p u) by (unfold is_corner; rewrite O1, O2; intros [E|[E|E]]; rewrite E in *; unfold orient in *; lia).
      destruct (Z.geb_spec (size s) limit) as [Hl|Hl]; [apply Full; [assumption|left; lia]|].
      assert (K2 : orient (P s u) p (P s (u + 2)) < 0) by (rewrite <- (orient_rot (P s u)); exact L2).
      assert (K3 : orient (P s u) (P s (u + 1)) p < 0) by (rewrite (orient_rot p); exact L3).
      pose proof (in_face_ok limit wrap fuel s p u G Hu Mu Hl Hb L1 K2 K3) as X. destruct (insert_in_face limit wrap fuel s (fst p) (snd p) u) as [s'| |]; cbn [bind]; [|exact X|exact X].
      destruct X as (G' & F & G0).
      assert (Nr : ~ on_rim p). { apply (inside_rim p (P s u) (P s (u + 1)) (P s (u + 2))); try assumption; apply (fn_box limit s _ G); now left. }
      apply (More (split3 s (fst p) (snd p) u) s'); [destruct Hu; lia|assumption|assumption|assumption|now apply st_face|assumption|reflexivity|unfold V, split3; cbn [vx vy]; rewrite !put_eq; now destruct p].
    - assert (Nc : ~ is_corner s p u) by (unfold is_corner; rewrite O1, O2; intros [E|[E|E]]; rewrite E in *; unfold orient in *; lia).
      apply Edge; rewrite ?O5, ?O6; [assumption|assumption|lia|rewrite (orient_rot p); exact L2|rewrite <- (orient_rot (P s (u + 2))); exact L1].
    - assert (Nc : ~ is_corner s p u) by (unfold is_corner; rewrite O1, O2; intros [E|[E|E]]; rewrite E in *; unfold orient in *; lia).
      apply Edge; rewrite ?O3, ?O4; [assumption|assumption|lia|rewrite (orient_rot p); exact L1|rewrite <- (orient_rot (P s (u + 1))); exact L3].
    - apply (Hv u); [assumption| |destruct Hu; lia]. apply (at_vertex p _ (P s (u + 1)) (P s (u + 2))); lia.
    - assert (Nc : ~ is_corner s p u) by (unfold is_corner; rewrite O1, O2; intros [E|[E|E]]; rewrite E in *; unfold orient in *; lia).
      replace (if size s >=? limit then Ok (s, 0) else ' (s0, b) <- insert_on_edge limit wrap fuel s (fst p) (snd p) (u + 0);; Ok (s0, if b : bool then u + 0 else 0))
        with (if size s >=? limit then Ok (s, 0) else ' (s0, b) <- insert_on_edge limit wrap fuel s (fst p) (snd p) u;; Ok (s0, if b : bool then u else 0)) by now rewrite Z.add_0_r.
      apply Edge; rewrite ?O1, ?O2; [assumption|assumption|lia|rewrite (orient_rot p); exact L3|rewrite <- (orient_rot (P s u)); exact L2].
    - apply (Hv _ u Hu1); [|destruct Hu; lia]. apply (at_vertex p _ (P s (u + 2)) (P s u)); lia.
    - apply (Hv _ u Hu2); [|destruct Hu; lia]. apply (at_vertex p _ (P s u) (P s (u + 1))); lia.
  Qed.

  (** ** The loop of insert_edge at node 0 never ends *)
  Lemma nil_loop fuel : forall s p q, good limit s -> inbox p -> inbox q -> p <> q -> edge_loop limit wrap fuel s (fst p) (snd p) (fst q) (snd q) 0 = Timeout.
  Proof.
    induction fuel as [|fuel IH]; intros s p q G Hp Hq Hne; [reflexivity|]. cbn [edge_loop]. fold (edge_loop limit wrap). cbv zeta. change (0 / 4 * 4) with 0.
    pose proof (inbox_near _ Hp) as Np. assert (F0 : face_or_nil s 0) by (right; unfold nil_node; lia). assert (F1 : face_or_nil s (0 + 1)) by (right; unfold nil_node; lia). assert (F2 : face_or_nil s (0 + 2)) by (right; unfold nil_node; lia).
    rewrite (rel_ok limit s p _ G Np F0), (rel_ok limit s p _ G Np F1), (rel_ok limit s p _ G Np F2). cbn [bind].
    assert (Hqv : vec17 (fst q - fst p, snd q - snd p)). { destruct Hp as [P1 P2], Hq as [Q1 Q2]. unfold lo, hi in *. change (2 ^ 15) with 32768 in *. unfold vec17. cbn [fst snd]. lia. }
    rewrite !chk64_ok by (apply in_s64; unfold vec17 in Hqv; cbn [fst snd] in Hqv; lia). cbn [bind].
    assert (Z0 : is_zero (fst q - fst p, snd q - snd p) = false).
    { unfold is_zero. cbn [fst snd]. destruct (Z.eqb_spec (fst q - fst p) 0); [|reflexivity]. destruct (Z.eqb_spec (snd q - snd p) 0); [|reflexivity]. exfalso. apply Hne. destruct p, q. cbn [fst snd] in *. f_equal; lia. }
    rewrite Z0.
    assert (Ev : rv s p (0 + 1) = rv s p 0 /\ rv s p (0 + 2) = rv s p 0).
    { unfold rv, P. destruct (g_nil _ _ G 0 ltac:(lia)) as (_ & _ & ->). destruct (g_nil _ _ G (0 + 1) ltac:(lia)) as (_ & _ & ->). destruct (g_nil _ _ G (0 + 2) ltac:(lia)) as (_ & _ & ->). auto. }
    destruct Ev as [-> ->]. pose proof (rv_vec limit s p 0 G Hp F0) as V0. destruct (cross_ok _ _ V0 Hqv) as [X _].
    assert (K : forall k r l m, r = rv s p 0 -> l = rv s p 0 -> get_e limit s m = Ok 0 ->
      (a <- crossx2 r (fst q - fst p, snd q - snd p);; b <- crossx2 l (fst q - fst p, snd q - snd p);; if (a <? 0) && (b >=? 0) then k a b else (pn <- get_e limit s m;; edge_loop limit wrap fuel s (fst p) (snd p) (fst q) (snd q) pn)) = Timeout).
    { intros k r l m -> -> Em. rewrite X. cbn [bind]. match goal with |- context [(?x <? 0) && (?y >=? 0)] => destruct (Z.ltb_spec x 0); destruct (Z.geb_spec y 0) end; cbn [andb]; try lia; rewrite Em; cbn [bind]; now apply IH. }
    assert (E : forall m, face_or_nil s m -> nil_node m -> get_e limit s m = Ok 0). { intros m Fm Nm. rewrite (proj1 (fn_e limit s m G Fm)). f_equal. now apply (g_nil _ _ G). }
    destruct (is_zero (rv s p 0)); cbn [Z.eqb Pos.eqb].
    - apply K; [reflexivity|reflexivity|]. apply E; [assumption|unfold nil_node; lia].
    - apply K; [reflexivity|reflexivity|]. apply E; [assumption|unfold nil_node; lia].
  Qed.

  (** ** insert_edge *)
  Lemma covered_ends s a b : good limit s -> covered s a b -> vertex_at s a /\ vertex_at s b.
  Proof.
    intros G H. induction H as [p H|a b H|a m b H H1 IH1 H2 IH2]; [auto| |tauto].
    apply constrained_node in H. destruct H as (n & Hn & _ & H).
    assert (V1 : vertex_at s (P s (nxt n))) by (exists (pt s (nxt n)); split; [apply (g_pt _ _ G); now apply nxt_node|reflexivity]).
    assert (V2 : vertex_at s (P s (prv n))) by (exists (pt s (prv n)); split; [apply (g_pt _ _ G); now apply prv_node|reflexivity]).
    destruct H as [[<- <-]|[<- <-]]; auto.
  Qed.
  Lemma follows_ends s a b : good limit s -> follows s a b -> vertex_at s a /\ vertex_at s b.
  Proof. intros G H. induction H as [p q H|p m q H1 H2 H3 IH|p r q H1 H2 H3 IH1 H4 IH2]; [now apply covered_ends| |tauto]. apply (covered_ends _ _ _ G) in H2. tauto. Qed.

  (** A vertex q in a face is one of its corners; here it is none. *)
  Lemma beyond s m q : sound limit s -> node s m -> has s q -> q <> P s m -> orient (P s m) (P s (nxt m)) q < 0 -> orient (P s m) (P s (prv m)) q >= 0 ->
    q = P s (prv m) \/ 0 < orient q (P s (nxt m)) (P s (prv m)).
  Proof.
    intros (G & U & _) Hm (v & Hv & E) N1 C1 C2. destruct (Z.lt_ge_cases 0 (orient q (P s (nxt m)) (P s (prv m)))) as [L|L]; [now right|left].
    destruct (U v Hv) as (k & Hk & Ek). assert (Eq : q = P s k) by (unfold P; rewrite Ek; now symmetry).
    assert (Cl : closed_face s q m). { unfold closed_face. split; [rewrite (orient_rot q) in C1; lia|]. split; [lia|]. assert (X : orient q (P s (prv m)) (P s m) = - orient (P s m) (P s (prv m)) q) by (unfold orient; ring). lia. }
    rewrite Eq in Cl. destruct (vertex_in_face limit s m k G Hm Hk Cl) as [K|[K|K]]; rewrite <- Eq in K; [contradiction| |assumption].
    exfalso. rewrite K in C1. unfold orient in C1. lia.
  Qed.

  Lemma along s m q : sound limit s -> node s m -> has s q -> q <> P s m -> orient (P s m) (P s (nxt m)) q < 0 -> orient (P s m) (P s (prv m)) q = 0 -> on_segment (P s (prv m)) (P s m) q.
  Proof.
    intros S Hm Hq N1 C1 C2. destruct (beyond s m q S Hm Hq N1 C1 ltac:(lia)) as [-> |L]; [unfold on_segment, orient; split; lia|].
    destruct S as (G & _). pose proof (g_cw _ _ G m Hm) as D. set (p := P s m) in *. set (a := P s (nxt m)) in *. set (b := P s (prv m)) in *. clearbody p a b.
    split; [rewrite orient_anti; lia|].
    assert (Ex : (fst q - fst p) * orient p a b = (fst b - fst p) * orient p a q + (fst a - fst p) * - orient p b q) by (unfold orient; ring).
    assert (Ey : (snd q - snd p) * orient p a b = (snd b - snd p) * orient p a q + (snd a - snd p) * - orient p b q) by (unfold orient; ring).
    assert (El : orient p a q - orient p a b = - orient q a b + orient p b q) by (unfold orient; ring).
    rewrite C2 in Ex, Ey, El. cbn [Z.opp Z.mul] in Ex, Ey, El. rewrite !Z.mul_0_r, Z.add_0_r in Ex, Ey. rewrite Z.add_0_r in El.
    remember (orient p a b) as al. remember (orient p a q) as be. clear Heqal Heqbe C2.
    assert (K : forall x y, y * al = x * be -> x * (x - y) <= 0).
    { clear - D C1 El L. intros x y E. assert (X : (al * al) * (x * (x - y)) = (x * x) * (al * (al - be))) by (replace ((al * al) * (x * (x - y))) with (x * al * (x * al - y * al)) by ring; rewrite E; ring).
      assert (al * (al - be) <= 0) by nia. pose proof (Z.square_nonneg x). assert ((x * x) * (al * (al - be)) <= 0) by nia. assert (0 < al * al) by nia. nia. }
    split; [specialize (K _ _ Ex)|specialize (K _ _ Ey)]; lia.
  Qed.

  Lemma intersect_value q a b : vec17 q -> vec17 a -> vec17 b -> vec17 (fst b - fst a, snd b - snd a) -> fst a * snd q - snd a * fst q < 0 -> 0 < fst b * snd q - snd b * fst q ->
    let d := (fst b - fst a) * snd q - (snd b - snd a) * fst q in let t := fst q * snd a - snd q * fst a in
    intersect_edges q a b = Ok (fst a + Z.quot ((fst b - fst a) * t) d, snd a + Z.quot ((snd b - snd a) * t) d).
  Proof.
    intros Hq Ha Hb Hu Ca Cb d0 t0. unfold intersect_edges.
    destruct Ha as [A1 A2], Hb as [B1 B2]. rewrite !chk64_ok by (apply in_s64; lia). cbn [bind].
    destruct (cross_ok _ _ Hu Hq) as [-> Rd]. cbn [bind fst snd] in *. destruct (cross_ok q a Hq (conj A1 A2)) as [-> Rt]. cbn [bind]. fold d0 t0.
    set (d := (fst b - fst a) * snd q - (snd b - snd a) * fst q) in *. set (t := fst q * snd a - snd q * fst a) in *. subst d0 t0.
    assert (Ht : 0 < t < d) by (unfold t, d; lia). clearbody d t. destruct Hu as [U1 U2]. cbn [fst snd] in U1, U2.
    pose proof (quot_between (fst b - fst a) t d ltac:(lia) Ht) as Qx. pose proof (quot_between (snd b - snd a) t d ltac:(lia) Ht) as Qy.
    assert (M : forall u, - 65535 <= u <= 65535 -> chk64 (u * t) = Ok (u * t)) by (intros u Hu'; apply chk64_ok, in_s64; nia).
    unfold div64. rewrite !M by assumption. cbn [bind]. rewrite (proj2 (Z.eqb_neq d 0)) by lia. rewrite !chk64_ok by (apply in_s64; lia). cbn [bind]. rewrite !chk64_ok by (apply in_s64; lia). cbn [bind].
    reflexivity.
  Qed.

  Lemma beside_meet p q a b r : fst a * snd q - snd a * fst q < 0 -> 0 < fst b * snd q - snd b * fst q -> fst a * snd b - snd a * fst b < 0 ->
    0 <= (fst a - fst q) * (snd b - snd q) - (snd a - snd q) * (fst b - fst q) ->
    (let d := (fst b - fst a) * snd q - (snd b - snd a) * fst q in let t := fst q * snd a - snd q * fst a in
     r = (fst a + Z.quot ((fst b - fst a) * t) d, snd a + Z.quot ((snd b - snd a) * t) d)) ->
    beside (fst p + fst r, snd p + snd r) p (fst p + fst q, snd p + snd q).
  Proof.
    intros Ca Cb Cn Cd E. cbv zeta in E. set (d := (fst b - fst a) * snd q - (snd b - snd a) * fst q) in *. set (t := fst q * snd a - snd q * fst a) in *.
    exists (snd a * fst b - fst a * snd b), d. assert (Hd : 0 < d) by (unfold d; lia). split; [assumption|]. split; [unfold d; lia|]. rewrite E. cbn [fst snd].
    assert (R : forall x, Z.abs (Z.rem x d) < d). { intro x. pose proof (Z.rem_bound_abs x d ltac:(lia)). lia. }
    pose proof (Z.quot_rem' ((fst b - fst a) * t) d) as Qx. pose proof (Z.quot_rem' ((snd b - snd a) * t) d) as Qy. pose proof (R ((fst b - fst a) * t)) as Rx. pose proof (R ((snd b - snd a) * t)) as Ry.
    assert (Ix : d * fst a + (fst b - fst a) * t = (snd a * fst b - fst a * snd b) * fst q) by (unfold d, t; ring).
    assert (Iy : d * snd a + (snd b - snd a) * t = (snd a * fst b - fst a * snd b) * snd q) by (unfold d, t; ring).
    set (x := Z.quot ((fst b - fst a) * t) d) in *. set (y := Z.quot ((snd b - snd a) * t) d) in *. set (rx := Z.rem ((fst b - fst a) * t) d) in *. set (ry := Z.rem ((snd b - snd a) * t) d) in *.
    clearbody x y rx ry. set (n := snd a * fst b - fst a * snd b) in *. clearbody n.
    replace (d * (fst p + (fst a + x) - fst p) - n * (fst p + fst q - fst p)) with (- rx) by lia. replace (d * (snd p + (snd a + y) - snd p) - n * (snd p + snd q - snd p)) with (- ry) by lia.
    rewrite !Z.abs_opp. auto.
  Qed.

  Definition edge_result (s : mesh) (p q : point) (r : res (mesh * bool)) : Prop :=
    match r with Ok (s', b) => steps limit s s' /\ (b = true -> follows s' p q) | UB => wrap = false | Timeout => True end.
  Lemma edge_result_trans s t p q r : steps limit s t -> edge_result t p q r -> edge_result s p q r.
  Proof. intros S. unfold edge_result. destruct r as [[s' b]| |]; auto. intros [S' F]. split; [now apply (steps_trans limit s t)|assumption]. Qed.

  Lemma is_zero_eq v : is_zero v = true <-> v = (0, 0).
  Proof. unfold is_zero. destruct v as [x y]. cbn [fst snd]. rewrite andb_true_iff, !Z.eqb_eq. split; [intros [-> ->]; reflexivity|intro E; injection E as -> ->; auto]. Qed.
  Lemma rv_zero s p n : rv s p n = (0, 0) <-> P s n = p.
  Proof. unfold rv. destruct p as [x y], (P s n) as [x' y']. cbn [fst snd]. split; intro E; injection E as E1 E2; f_equal; lia. Qed.

  Lemma insert_any fuel s p h : sound limit s -> near p ->
    match locate_insertion_node limit fuel s (fst p) (snd p) h with
    | Ok n => match insert_point_at_node limit wrap fuel s (fst p) (snd p) n with
              | Ok (s', r) => (inserted s p s' r /\ inbox p) \/ (s' = s /\ r = 0 /\ ~ inbox p)
              | UB => wrap = false | Timeout => Z.of_nat fuel < far end
    | UB => False | Timeout => True
    end.
  Proof.
    intros S Np. destruct S as (G & U & D). assert (Dec : inbox p \/ ~ inbox p) by (unfold inbox; lia). destruct Dec as [Hb|Hb].
    - pose proof (locate_in fuel s p h G Hb) as X. destruct (locate_insertion_node limit fuel s (fst p) (snd p) h) as [n| |]; [|contradiction|exact I]. destruct X as [X1 X2].
      pose proof (insert_cases fuel s p n (conj G (conj U D)) Np X1 X2) as Y. destruct (insert_point_at_node limit wrap fuel s (fst p) (snd p) n) as [[s' r]| |]; auto.
    - pose proof (locate_out fuel s p h G Np Hb) as X. destruct (locate_insertion_node limit fuel s (fst p) (snd p) h) as [n| |]; [|contradiction|exact I]. subst n. unfold insert_point_at_node. cbn [Z.eqb]. auto.
  Qed.
  Lemma inserted_has s p s' r : good limit s -> inserted s p s' r -> steps limit s s' /\ (r <> 0 -> has s' p).
  Proof.
    intros G [(-> & Hr & H)|[(-> & -> & _)|(Hr & _ & _ & _ & S & E & Ev & _)]]; [split; [constructor|auto]|split; [constructor|congruence]|].
    split; [assumption|]. intros _. exists (size s). split; [pose proof (g_size _ _ G); lia|assumption].
  Qed.

  Lemma follow_all fuel :
    (forall s p q h, sound limit s -> near p -> near q -> edge_result s p q (insert_edge64 limit wrap fuel s (fst p) (snd p) (fst q) (snd q) h)) /\
    (forall s p q pn, sound limit s -> has s p -> has s q -> pn = 0 \/ (node s pn /\ is_corner s p pn) -> edge_result s p q (edge_loop limit wrap fuel s (fst p) (snd p) (fst q) (snd q) pn)).
  Proof.
    induction fuel as [|fuel [IHe IHl]]; [split; intros; exact I|]. split.
    - intros s p q h S Hp Hq. cbn [insert_edge64]. fold (insert_edge64 limit wrap) (edge_loop limit wrap).
      pose proof (insert_any fuel s p h S Hp) as X. destruct (locate_insertion_node limit fuel s (fst p) (snd p) h) as [n| |]; cbn [bind]; [|contradiction|exact I].
      destruct (insert_point_at_node limit wrap fuel s (fst p) (snd p) n) as [[s1 pn]| |]; cbn [bind]; [|exact X|exact I].
      destruct X as [[X Hbp]|(-> & -> & _)]; [|cbn [Z.eqb]; split; [constructor|discriminate]].
      destruct (inserted_has s p s1 pn (proj1 S) X) as [S01 H1]. pose proof (steps_sound limit _ _ S01 S) as S1.
      destruct (Z.eqb_spec pn 0) as [_|Hpn]; [split; [assumption|discriminate]|]. specialize (H1 Hpn).
      destruct ((fst p =? fst q) && (snd p =? snd q)) eqn:E.
      { split; [assumption|]. intros _. apply andb_true_iff in E. rewrite !Z.eqb_eq in E. assert (p = q) as <- by (destruct p, q; cbn [fst snd] in *; f_equal; tauto). apply fol_covered, cov_vertex. exact H1. }
      pose proof (insert_any fuel s1 q pn S1 Hq) as Y. destruct (locate_insertion_node limit fuel s1 (fst q) (snd q) pn) as [n2| |]; cbn [bind]; [|contradiction|exact I].
      destruct (insert_point_at_node limit wrap fuel s1 (fst q) (snd q) n2) as [[s2 qn]| |]; cbn [bind]; [|exact Y|exact I].
      destruct Y as [[Y Hbq]|(-> & -> & _)]; [|cbn [Z.eqb]; split; [assumption|discriminate]].
      destruct (inserted_has s1 q s2 qn (proj1 S1) Y) as [S12 H2]. pose proof (steps_sound limit _ _ S12 S1) as S2. pose proof (steps_trans limit _ _ _ S01 S12) as S02.
      destruct (Z.eqb_spec qn 0) as [_|Hqn]; [split; [assumption|discriminate]|]. specialize (H2 Hqn).
      assert (H3 : has s2 p) by (apply (has_extends s1 s2 p); [now apply (steps_extends limit s1 s2 S12 (proj1 S1))|assumption]).
      pose proof (at_corner fuel s2 p pn S2 H3) as Z. destruct (locate_insertion_node limit fuel s2 (fst p) (snd p) pn) as [n3| |]; cbn [bind]; [|contradiction|exact I].
      apply (edge_result_trans s s2 p q _ S02). apply IHl; auto.
    - intros s p q pn S Hp Hq Hpn. assert (G : good limit s) by apply S.
      assert (Hbp : inbox p) by (destruct Hp as (v & Hv & <-); now apply (g_box _ _ G)). assert (Hbq : inbox q) by (destruct Hq as (v & Hv & <-); now apply (g_box _ _ G)).
      assert (Dec : p = q \/ p <> q). { destruct p as [x y], q as [x' y']. destruct (Z.eq_dec x x') as [->|N]; [|right; congruence]. destruct (Z.eq_dec y y') as [->|N]; [now left|right; congruence]. }
      destruct Hpn as [-> |[Hpn Hc]].
      { destruct Dec as [<-|Ne]; [|rewrite (nil_loop (Datatypes.S fuel) s p q G Hbp Hbq Ne); exact I].
        pose proof (proj2 (edge_ok_all limit wrap (Datatypes.S fuel)) s (fst p) (snd p) (fst p) (snd p) 0 G) as X. rewrite <- surjective_pairing in X. specialize (X Hbp Hbp ltac:(right; unfold nil_node; lia)). revert X.
        cbn [edge_loop]. fold (insert_edge64 limit wrap) (edge_loop limit wrap). cbv zeta. rewrite !Z.sub_diag.
        change (0 / 4 * 4) with 0. pose proof (inbox_near _ Hbp) as Np. rewrite !(rel_ok limit s p) by (assumption || (right; unfold nil_node; lia)). cbn [bind]. rewrite !chk64_ok by (apply in_s64; lia). cbn [bind].
        change (is_zero (0, 0)) with true. cbn beta iota. intros _. split; [constructor|]. intros _. apply fol_covered, cov_vertex. exact Hp. }
      cbn [edge_loop]. fold (insert_edge64 limit wrap) (edge_loop limit wrap). cbv zeta.
      destruct (base_of s pn Hpn) as (Hn & Mn & Fn). set (n := pn / 4 * 4) in *. clearbody n.
      apply (is_corner_face s p n pn (node_mod s n Hn) (node_mod s pn Hpn) Fn) in Hc.
      destruct (offs n Mn) as (O1 & O2 & O3 & O4 & O5 & O6 & _). pose proof (nxt_node s n Hn) as Hn1. rewrite O1 in Hn1. pose proof (prv_node s n Hn) as Hn2. rewrite O2 in Hn2.
      pose proof (inbox_near _ Hbp) as Np. rewrite !(rel_ok limit s p) by (assumption || now left). cbn [bind].
      assert (Hqv : vec17 (fst q - fst p, snd q - snd p)). { destruct Hbp as [P1 P2], Hbq as [Q1 Q2]. unfold lo, hi in *. change (2 ^ 15) with 32768 in *. unfold vec17. cbn [fst snd]. lia. }
      rewrite !chk64_ok by (apply in_s64; unfold vec17 in Hqv; cbn [fst snd] in Hqv; lia). cbn [bind].
      destruct (is_zero (fst q - fst p, snd q - snd p)) eqn:Ez.
      { split; [constructor|]. intros _. apply is_zero_eq in Ez. injection Ez as E1 E2. assert (p = q) as <- by (destruct p, q; cbn [fst snd] in *; f_equal; lia). apply fol_covered, cov_vertex. exact Hp. }
      destruct Dec as [<-|Ne]; [exfalso; rewrite !Z.sub_diag in Ez; discriminate|]. clear Ez.
      pose (a := (if is_zero (rv s p n) then (0, rv s p (n + 1), rv s p (n + 2)) else if is_zero (rv s p (n + 1)) then (1, rv s p (n + 2), rv s p n) else (2, rv s p n, rv s p (n + 1))) : Z * (Z * Z) * (Z * Z)).
      assert (Sel : exists k k1 k2, a = (k, rv s p (n + k1), rv s p (n + k2)) /\ (if k =? 0 then 1 else if k =? 1 then 2 else 0) = k1 /\ (if k =? 0 then 2 else if k =? 1 then 0 else 1) = k2 /\
        node s (n + k) /\ P s (n + k) = p /\ n + k1 = nxt (n + k) /\ n + k2 = prv (n + k)).
      { unfold a. destruct (is_zero (rv s p n)) eqn:Z0; [|destruct (is_zero (rv s p (n + 1))) eqn:Z1].
        - exists 0, 1, 2. rewrite Z.add_0_r. apply is_zero_eq, rv_zero in Z0. auto 10.
        - exists 1, 2, 0. rewrite Z.add_0_r. apply is_zero_eq, rv_zero in Z1. auto 10.
        - exists 2, 0, 1. rewrite Z.add_0_r. do 4 (split; [first [reflexivity|assumption]|]). split; [|auto]. unfold is_corner in Hc. rewrite O1, O2 in Hc. destruct Hc as [K|[K|K]]; [| |now symmetry].
          + exfalso. symmetry in K. apply (rv_zero s p n), is_zero_eq in K. congruence.
          + exfalso. symmetry in K. apply (rv_zero s p (n + 1)), is_zero_eq in K. congruence. }
      fold a. destruct Sel as (k & k1 & k2 & -> & Ek1 & Ek2 & Nm & Pm & Em1 & Em2). rewrite Ek1, Ek2, Em1, Em2. clear Ek1 Ek2 Em1 Em2.
      set (m := n + k) in *. clearbody m. clear O1 O2 O3 O4 O5 O6 Hn1 Hn2 Hc Fn Mn Hn n k k1 k2.
      pose proof (nxt_node s m Nm) as Nm1. pose proof (prv_node s m Nm) as Nm2. pose proof (node_mod s m Nm) as Mm.
      pose proof (rv_vec limit s p _ G Hbp (or_introl Nm1)) as V1. pose proof (rv_vec limit s p _ G Hbp (or_introl Nm2)) as V2.
      destruct (cross_ok _ _ V1 Hqv) as [-> _]. cbn [bind]. destruct (cross_ok _ _ V2 Hqv) as [-> _]. cbn [bind].
      assert (E1 : fst (rv s p (nxt m)) * snd (fst q - fst p, snd q - snd p) - snd (rv s p (nxt m)) * fst (fst q - fst p, snd q - snd p) = orient p (P s (nxt m)) q) by (unfold rv, orient; cbn [fst snd]; ring).
      assert (E2 : fst (rv s p (prv m)) * snd (fst q - fst p, snd q - snd p) - snd (rv s p (prv m)) * fst (fst q - fst p, snd q - snd p) = orient p (P s (prv m)) q) by (unfold rv, orient; cbn [fst snd]; ring).
      rewrite E1, E2.
      destruct (Z.ltb_spec (orient p (P s (nxt m)) q) 0) as [La|La]; destruct (Z.geb_spec (orient p (P s (prv m)) q) 0) as [Lb|Lb]; cbn [andb].
      2, 3, 4: rewrite (proj1 (fn_e limit s _ G (or_introl Nm2))); cbn [bind]; apply IHl; [assumption..|];
        destruct (Z.eq_dec (tw s (prv m)) 0) as [Ez|Hz]; [now left|right]; split; [now apply (tw_node limit s G)|]; unfold is_corner; right; right;
        pose proof (eb_tw limit s G _ Nm2 Hz) as Eb; unfold ea, eb in Eb; rewrite (nxt_prv m Mm) in Eb; unfold P; rewrite Eb; now symmetry.
      assert (Nq : q <> P s m) by congruence.
      destruct (Z.eqb_spec (orient p (P s (prv m)) q) 0) as [Lz|Lz].
      + (* along an edge *)
        assert (Sg : on_segment (P s (prv m)) p q) by (rewrite <- Pm in La, Lz |- *; now apply along).
        pose proof (constrain_ok limit wrap fuel s (nxt m) G Nm1) as X. destruct (constrain_edge limit wrap fuel s (nxt m)) as [s1| |]; cbn [bind]; [|exact X|exact I]. destruct X as [G1 F].
        assert (S01 : steps limit s s1). { eapply steps_cons; [apply (st_mark limit s (nxt m)); assumption|]. apply flips_steps; [assumption|now apply marked_good]. }
        pose proof (steps_sound limit _ _ S01 S) as S1. pose proof (steps_extends limit _ _ S01 G) as Ex.
        assert (N1 : node s1 (nxt m)) by (destruct Nm1 as [Nka Nkb]; split; [destruct Ex; lia|assumption]).
        rewrite (proj1 (fn_e limit s1 _ G1 (or_introl N1))). cbn [bind].
        assert (Hx : fst p + fst (rv s p (prv m)) = fst (P s (prv m)) /\ snd p + snd (rv s p (prv m)) = snd (P s (prv m))) by (unfold rv; cbn [fst snd]; lia).
        destruct Hx as [-> ->]. pose proof (fn_box limit s _ G (or_introl Nm2)) as Hb. rewrite !chk64_ok by (apply in_s64; destruct Hb as [Hb1 Hb2]; unfold lo, hi in *; change (2 ^ 15) with 32768 in *; lia). cbn [bind].
        assert (Hh : has s1 (P s (prv m))) by (apply (has_extends s s1 _ Ex); exists (pt s (prv m)); split; [now apply (g_pt _ _ G)|reflexivity]).
        pose proof (at_corner fuel s1 (P s (prv m)) (tw s1 (nxt m)) S1 Hh) as Z.
        destruct (locate_insertion_node limit fuel s1 (fst (P s (prv m))) (snd (P s (prv m))) (tw s1 (nxt m))) as [n3| |]; cbn [bind]; [|contradiction|exact I].
        pose proof (IHl s1 (P s (prv m)) q n3 S1 Hh (has_extends s s1 q Ex Hq) (or_intror Z)) as Y.
        destruct (edge_loop limit wrap fuel s1 (fst (P s (prv m))) (snd (P s (prv m))) (fst q) (snd q) n3) as [[s2 b]| |]; [|exact Y|exact I].
        destruct Y as [S12 Y]. split; [now apply (steps_trans limit s s1)|]. intro Eb. apply (fol_part s2 p (P s (prv m)) q Sg); [|now apply Y].
        apply (steps_covered limit s1 s2 _ _ S12 G1). pose proof (marked_good limit s (nxt m) G Nm1) as Gm. apply (steps_covered limit (marked s (nxt m)) s1); [now apply flips_steps|assumption|].
        apply cov_edge, constrained_sym. assert (Cm : co (marked s (nxt m)) (nxt m) = 1) by (unfold marked; cbn [co]; apply put_eq).
        pose proof (node_constrained (marked s (nxt m)) (nxt m) Nm1 Cm) as K. rewrite (nxt_nxt m Mm), (prv_nxt m Mm) in K. change (P (marked s (nxt m)) (prv m)) with (P s (prv m)) in K. change (P (marked s (nxt m)) m) with (P s m) in K. rewrite Pm in K. exact K.
      + destruct (try_flip_ok limit s m G Nm) as (s1 & b & -> & G1 & Hb). cbn [bind]. destruct b; cbn [negb].
        * destruct Hb as (-> & Hc & Q1 & Q2). assert (S01 : steps limit s (flipped s m)) by (apply steps_one; now apply st_flip).
          pose proof (steps_sound limit _ _ S01 S) as S1. pose proof (steps_extends limit _ _ S01 G) as Ex.
          pose proof (at_corner fuel (flipped s m) p pn S1 (has_extends s _ p Ex Hp)) as Z.
          destruct (locate_insertion_node limit fuel (flipped s m) (fst p) (snd p) pn) as [n3| |]; cbn [bind]; [|contradiction|exact I].
          apply (edge_result_trans s (flipped s m) p q _ S01). apply IHl; [assumption|now apply (has_extends s)|now apply (has_extends s)|now right].
        * subst s1.
          assert (Hu : vec17 (fst (rv s p (prv m)) - fst (rv s p (nxt m)), snd (rv s p (prv m)) - snd (rv s p (nxt m)))).
          { pose proof (fn_box limit s _ G (or_introl Nm1)) as [A1 A2]. pose proof (fn_box limit s _ G (or_introl Nm2)) as [B1 B2]. unfold lo, hi in *. change (2 ^ 15) with 32768 in *. unfold vec17, rv. cbn [fst snd]. lia. }
          pose proof (intersect_value _ _ _ Hqv V1 V2 Hu ltac:(lia) ltac:(lia)) as Iv. cbv zeta in Iv.
          destruct (intersect_ok _ _ _ Hqv V1 V2 Hu ltac:(lia) ltac:(lia)) as (r & Ir & Rx & Ry). rewrite Ir. cbn [bind]. rewrite Ir in Iv.
          destruct (is_zero r || same_vec r (fst q - fst p, snd q - snd p)); [split; [constructor|discriminate]|].
          assert (Bs : beside (fst p + fst r, snd p + snd r) p q).
          { pose proof (beyond s m q S Nm Hq Nq) as By. rewrite Pm in By. specialize (By La ltac:(lia)).
            assert (By' : 0 < orient q (P s (nxt m)) (P s (prv m))). { destruct By as [By|By]; [|assumption]. exfalso. apply Lz. rewrite By. unfold orient. ring. }
            pose proof (g_cw _ _ G m Nm) as Cw. rewrite Pm in Cw.
            assert (Eq : q = (fst p + fst (fst q - fst p, snd q - snd p), snd p + snd (fst q - fst p, snd q - snd p))) by (cbn [fst snd]; destruct q, p; cbn [fst snd]; f_equal; lia).
            rewrite Eq. apply (beside_meet p (fst q - fst p, snd q - snd p) (rv s p (nxt m)) (rv s p (prv m)) r); [lia|lia| | |injection Iv as Iv; exact Iv].
            - unfold rv, orient in *. cbn [fst snd]. lia.
            - unfold rv, orient in *. cbn [fst snd]. lia. }
          assert (Hr : inbox (fst p + fst r, snd p + snd r)).
          { pose proof (fn_box limit s _ G (or_introl Nm1)) as [A1 A2]. pose proof (fn_box limit s _ G (or_introl Nm2)) as [B1 B2]. unfold rv in Rx, Ry. cbn [fst snd] in Rx, Ry. unfold inbox. cbn [fst snd]. lia. }
          rewrite (chk64_ok (fst p + fst r)), (chk64_ok (snd p + snd r)) by (apply in_s64; destruct Hr as [Hr1 Hr2]; cbn [fst snd] in *; unfold lo, hi in *; change (2 ^ 15) with 32768 in *; lia). cbn [bind].
          pose proof (IHe s p (fst p + fst r, snd p + snd r) pn S Np (inbox_near _ Hr)) as X. cbn [fst snd] in X. destruct (insert_edge64 limit wrap fuel s (fst p) (snd p) (fst p + fst r) (snd p + snd r) pn) as [[s1 b1]| |]; cbn [bind]; [|exact X|exact I].
          destruct X as [S01 X1]. cbn [fst snd]. replace (fst p + (fst q - fst p)) with (fst q) by lia. replace (snd p + (snd q - snd p)) with (snd q) by lia.
          rewrite (chk64_ok (fst q)), (chk64_ok (snd q)) by (apply in_s64; destruct Hbq as [Hq1 Hq2]; cbn [fst snd] in *; unfold lo, hi in *; change (2 ^ 15) with 32768 in *; lia). cbn [bind].
          pose proof (steps_sound limit _ _ S01 S) as S1.
          pose proof (IHe s1 (fst p + fst r, snd p + snd r) q pn S1 (inbox_near _ Hr) (inbox_near _ Hbq)) as X. cbn [fst snd] in X. destruct (insert_edge64 limit wrap fuel s1 (fst p + fst r) (snd p + snd r) (fst q) (snd q) pn) as [[s2 b2]| |]; cbn [bind]; [|exact X|exact I].
          destruct X as [S12 X2]. split; [now apply (steps_trans limit s s1)|]. intro Eb. apply andb_true_iff in Eb. destruct Eb as [-> ->].
          pose proof (steps_sound limit _ _ S12 S1) as S2. specialize (X1 eq_refl). specialize (X2 eq_refl).
          apply (fol_bend s2 p (fst p + fst r, snd p + snd r) q); [now apply (follows_ends s2 _ _ (proj1 S2)) in X2|assumption| |assumption].
          apply (steps_follows limit s1 s2 _ _ S12 (proj1 S1) X1).
  Qed.
End Follow.
