(** insert_edge ends when the search for faces does: turning around a point, flips, and the parts of a segment. *)
From Verif Require Import Base Vec_Model Math_Model Vec_Spec Math_Spec Cdt_Model Cdt_Geom Cdt_Mesh Cdt_Flip Cdt_Circle Cdt_Insert Cdt_OnEdge Cdt_Walk Cdt_Edge Cdt_Spec Cdt_Tile Cdt_Reset Cdt_Fill Cdt_EdgeSpec Cdt_Planar Cdt_Steps Cdt_Follow Cdt_Fuel Cdt_Global Cdt_Ends Cdt_Search_Model.
Local Open Scope Z_scope.

(** ** The parts of a segment are shorter *)
Definition dist (p q : point) : Z := Z.abs (fst p - fst q) + Z.abs (snd p - snd q).
Definition in_hull (r p q : point) : Prop := Z.min (fst p) (fst q) <= fst r <= Z.max (fst p) (fst q) /\ Z.min (snd p) (snd q) <= snd r <= Z.max (snd p) (snd q).
Lemma dist_nonneg p q : 0 <= dist p q.
Proof. unfold dist. lia. Qed.
Lemma dist_zero p q : dist p q = 0 -> p = q.
Proof. unfold dist. destruct p, q. cbn [fst snd]. intro. f_equal; lia. Qed.
Lemma hull_dist r p q : in_hull r p q -> dist p r + dist r q = dist p q.
Proof. unfold in_hull, dist. lia. Qed.
Lemma hull_less r p q : in_hull r p q -> r <> p -> r <> q -> dist p r < dist p q /\ dist r q < dist p q.
Proof.
  intros H N1 N2. pose proof (hull_dist r p q H). pose proof (dist_nonneg p r). pose proof (dist_nonneg r q).
  assert (dist p r <> 0) by (intro E; apply dist_zero in E; congruence). assert (dist r q <> 0) by (intro E; apply dist_zero in E; congruence). lia.
Qed.
Lemma beside_hull r p q : beside r p q -> in_hull r p q.
Proof.
  intros (n & d & Hd & Hn & Hx & Hy).
  assert (K : forall x y, Z.abs (d * x - n * y) < d -> Z.min 0 y <= x <= Z.max 0 y). { clear - Hd Hn. intros x y H. assert (d * Z.min 0 y <= n * y <= d * Z.max 0 y) by nia. split; [|]; nia. }
  apply K in Hx, Hy. unfold in_hull. lia.
Qed.
Lemma segment_hull m p q : on_segment m p q -> in_hull m p q.
Proof.
  intros (_ & H1 & H2). unfold in_hull.
  assert (K : forall x a b, (x - a) * (x - b) <= 0 -> Z.min a b <= x <= Z.max a b) by (intros; nia). split; apply K; lia.
Qed.

Definition corner (p : point) : Prop := p = (lo, lo) \/ p = (hi, lo) \/ p = (lo, hi) \/ p = (hi, hi).
Lemma corner_rim p : corner p -> on_rim p.
Proof. unfold corner, on_rim. intros [-> |[-> |[-> | ->]]]; cbn [fst snd]; tauto. Qed.
(** Only its end can be a corner of a segment that starts inside. *)
Lemma hull_corner r p q : inbox p -> inbox q -> ~ on_rim p -> in_hull r p q -> r <> q -> ~ corner r.
Proof.
  intros [P1 P2] [Q1 Q2] Np [H1 H2] Nq C. apply Nq. unfold on_rim in Np. destruct r as [x y]. destruct q as [x' y']. cbn [fst snd] in *.
  destruct C as [E|[E|[E|E]]]; injection E as -> ->; f_equal; lia.
Qed.

Section Search.
  Context (limit : Z).

  (** A vertex on the rim of the square is a corner of it. *)
  Lemma rim_corner s p : sound limit s -> has s p -> on_rim p -> corner p.
  Proof.
    intros (G & U & _) (v & Hv & E) R. pose proof (g_box _ _ G v Hv) as B. rewrite E in B. destruct (g_bounded _ _ G) as (B1 & _). destruct (g_corners _ _ G) as (K0 & K1 & K2 & K3).
    destruct (U v Hv) as (m & Hm & Em). assert (Ep : P s m = p) by (unfold P; congruence).
    assert (K : forall a b, In (a, b) sides4 -> orient p (V s a) (V s b) = 0 -> (forall o, inbox o -> orient o (V s a) (V s b) < 0 -> orient o (V s a) p <= 0 /\ orient o p (V s b) <= 0) -> p = V s a \/ p = V s b).
    { intros a b I O Ob. destruct (B1 a b I) as (n & Hn & _ & Ea & Eb). unfold ea, eb in Ea, Eb. assert (Qa : P s (nxt n) = V s a) by (unfold P; now rewrite Ea). assert (Qb : P s (prv n) = V s b) by (unfold P; now rewrite Eb).
      pose proof (g_cw _ _ G n Hn) as Cw. rewrite Qa, Qb in Cw. destruct (Ob (P s n) (fn_box limit s n G (or_introl Hn)) Cw) as [O1 O2].
      assert (Cl : closed_face s (P s m) n). { rewrite Ep. unfold closed_face. rewrite Qa, Qb. pose proof (orient_rot p (P s n) (V s a)). pose proof (orient_rot (P s n) p (V s b)). lia. }
      destruct (vertex_in_face limit s n m G Hn Hm Cl) as [X|[X|X]]; rewrite Ep in X; [|left; congruence|right; congruence]. exfalso. rewrite X in O. lia. }
    unfold corner. rewrite <- K0, <- K1, <- K2, <- K3. destruct B as [X Y].
    assert (K' : (p = V s 0 \/ p = V s 2) \/ (p = V s 2 \/ p = V s 3) \/ (p = V s 3 \/ p = V s 1) \/ (p = V s 1 \/ p = V s 0)).
    { unfold on_rim in R. destruct R as [R|[R|[R|R]]].
      - left. apply K; [cbn; tauto| |]; rewrite ?K0, ?K2; unfold orient; cbn [fst snd]; [rewrite R; ring|]. intros o [O1 O2] Oc. unfold lo, hi in *. change (2 ^ 15) with 32768 in *. rewrite R. split; nia.
      - right; right; left. apply K; [cbn; tauto| |]; rewrite ?K3, ?K1; unfold orient; cbn [fst snd]; [rewrite R; ring|]. intros o [O1 O2] Oc. unfold lo, hi in *. change (2 ^ 15) with 32768 in *. rewrite R. split; nia.
      - right; right; right. apply K; [cbn; tauto| |]; rewrite ?K0, ?K1; unfold orient; cbn [fst snd]; [rewrite R; ring|]. intros o [O1 O2] Oc. unfold lo, hi in *. change (2 ^ 15) with 32768 in *. rewrite R. split; nia.
      - right; left. apply K; [cbn; tauto| |]; rewrite ?K2, ?K3; unfold orient; cbn [fst snd]; [rewrite R; ring|]. intros o [O1 O2] Oc. unfold lo, hi in *. change (2 ^ 15) with 32768 in *. rewrite R. split; nia. }
    tauto.
  Qed.

  (** ** Turning around a point *)
  Definition around_next (s : mesh) (m : Z) : Z := prv (tw s (prv m)).
  Lemma next_ok s p m : good limit s -> ~ corner p -> node s m -> P s m = p ->
    node s (tw s (prv m)) /\ node s (around_next s m) /\ P s (around_next s m) = p /\ P s (prv (around_next s m)) = P s (nxt m).
  Proof.
    intros G Nc Hm Ep. pose proof (prv_node s m Hm) as Hp. pose proof (node_mod s m Hm) as M.
    assert (Hz : tw s (prv m) <> 0).
    { intro Hz. apply Nc. destruct (g_bounded _ _ G) as (_ & B2 & _). specialize (B2 _ Hp Hz). unfold ea in B2. rewrite (nxt_prv m M) in B2. destruct (g_corners _ _ G) as (K0 & K1 & K2 & K3).
      unfold corner. rewrite <- Ep. unfold P. cbn [sides4 In] in B2. destruct B2 as [E|[E|[E|[E|[]]]]]; injection E as <- _; tauto. }
    pose proof (tw_node limit s G _ Hp Hz) as Ht. pose proof (node_mod s _ Ht) as Mt. split; [assumption|]. unfold around_next. split; [now apply prv_node|].
    pose proof (ea_tw limit s G _ Hp Hz) as E1. pose proof (eb_tw limit s G _ Hp Hz) as E2. unfold ea, eb in E1, E2. rewrite (nxt_prv m M) in E2. rewrite (prv_prv m M) in E1.
    split; [unfold P; rewrite E2; exact Ep|]. rewrite (prv_prv _ Mt). unfold P. now rewrite E1.
  Qed.
  Definition ahead (s : mesh) (p q : point) (m : Z) : bool := (orient p (P s (nxt m)) q <? 0) && (orient p (P s (prv m)) q >=? 0).
  Fixpoint turned (s : mesh) (m : Z) (i : nat) : Z := match i with O => m | S i => around_next s (turned s m i) end.
  Lemma turned_ok s p m i : good limit s -> ~ corner p -> node s m -> P s m = p -> node s (turned s m i) /\ P s (turned s m i) = p.
  Proof. intros G Nc Hm Ep. induction i as [|i [IH1 IH2]]; [auto|]. cbn [turned]. destruct (next_ok s p _ G Nc IH1 IH2) as (_ & H1 & H2 & _). auto. Qed.

  Lemma turned_shift s m i : turned s m (S i) = turned s (around_next s m) i.
  Proof. induction i as [|i IH]; [reflexivity|]. cbn [turned] in *. now rewrite IH. Qed.
End Search.

(** Left turns around p that come back leave no closed half plane. *)
Section Chain.
  Context (p q : point) (f : nat -> point) (j : nat).
  Hypothesis Hpq : p <> q.
  Hypothesis Hj : (0 < j)%nat.
  Hypothesis Hback : f j = f O.
  Hypothesis Hleft : forall i, (i < j)%nat -> 0 < orient p (f i) (f (S i)).
  Hypothesis Hstay : forall i, (i < j)%nat -> 0 <= orient p (f i) q -> 0 <= orient p (f (S i)) q.

  Lemma left_turn a b c (k : Z) : 0 < orient p a b -> 0 < orient p b c -> 0 < k * orient p a q -> 0 < k * orient p b q -> 0 < k * orient p c q -> 0 < orient p a c.
  Proof.
    intros H1 H2 A B C. assert (E : orient p a c * (k * orient p b q) = orient p a b * (k * orient p c q) + orient p b c * (k * orient p a q)) by (unfold orient; ring).
    assert (0 < orient p a b * (k * orient p c q)) by nia. assert (0 < orient p b c * (k * orient p a q)) by nia. nia.
  Qed.
  Lemma strict_chain k : (forall i, (i <= j)%nat -> 0 < k * orient p (f i) q) -> False.
  Proof.
    intro K. assert (A : forall i, (i < j)%nat -> 0 < orient p (f O) (f (S i))).
    { induction i as [|i IH]; intro Hi; [now apply Hleft|]. apply (left_turn (f O) (f (S i)) (f (S (S i))) k); [apply IH; lia|now apply Hleft|apply K; lia..]. }
    specialize (A (pred j) ltac:(lia)). replace (S (pred j)) with j in A by lia. rewrite Hback in A. unfold orient in A. lia.
  Qed.
  Definition dt (a : point) : Z := (fst a - fst p) * (fst q - fst p) + (snd a - snd p) * (snd q - snd p).
  Lemma norm_pos : 0 < dt q.
  Proof. unfold dt. assert (fst q - fst p <> 0 \/ snd q - snd p <> 0) as N. { destruct p as [x y], q as [x' y']. cbn [fst snd]. destruct (Z.eq_dec x x'); [|lia]. destruct (Z.eq_dec y y'); [exfalso; apply Hpq; congruence|lia]. } destruct N as [N|N]; [pose proof (Z.square_nonneg (snd q - snd p))|pose proof (Z.square_nonneg (fst q - fst p))]; nia. Qed.
  Lemma dot_left a b : orient p a b * dt q = dt b * orient p a q - dt a * orient p b q.
  Proof. unfold dt, orient. ring. Qed.
  Lemma chain_back : False.
  Proof.
    pose proof norm_pos as N. destruct (Z.lt_ge_cases (orient p (f O) q) 0) as [L|L].
    - apply (strict_chain (-1)). intros i Hi. enough (orient p (f i) q < 0) by lia. destruct (Z.lt_ge_cases (orient p (f i) q) 0) as [X|X]; [assumption|exfalso].
      assert (K : forall d, (i + d <= j)%nat -> 0 <= orient p (f (i + d)%nat) q). { induction d as [|d IH]; intro Hd; [now rewrite Nat.add_0_r|]. rewrite Nat.add_succ_r. apply Hstay; [lia|apply IH; lia]. }
      specialize (K (j - i)%nat ltac:(lia)). replace (i + (j - i))%nat with j in K by lia. rewrite Hback in K. lia.
    - assert (K : forall i, (i <= j)%nat -> 0 <= orient p (f i) q). { induction i as [|i IH]; intro Hi; [assumption|]. apply Hstay; [lia|apply IH; lia]. }
      assert (Nx : forall i, (i < j)%nat -> orient p (f i) q = 0 -> dt (f i) < 0).
      { intros i Hi E. pose proof (Hleft i Hi) as H1. pose proof (dot_left (f i) (f (S i))) as D. rewrite E in D. pose proof (K (S i) Hi). assert (0 < orient p (f i) (f (S i)) * dt q) by nia. nia. }
      assert (Pv : forall i, (i < j)%nat -> orient p (f (S i)) q = 0 -> 0 < dt (f (S i))).
      { intros i Hi E. pose proof (Hleft i Hi) as H1. pose proof (dot_left (f i) (f (S i))) as D. rewrite E in D. pose proof (K i ltac:(lia)). assert (0 < orient p (f i) (f (S i)) * dt q) by nia. nia. }
      apply (strict_chain 1). intros i Hi. pose proof (K i Hi). enough (orient p (f i) q <> 0) by lia. intro E. destruct (Nat.eq_dec i j) as [->|Ni].
      + rewrite Hback in E. specialize (Nx O ltac:(lia) E). specialize (Pv (pred j) ltac:(lia)). replace (S (pred j)) with j in Pv by lia. rewrite Hback in Pv. specialize (Pv E). lia.
      + specialize (Nx i ltac:(lia) E). destruct i as [|i]; [|specialize (Pv i ltac:(lia) E); lia]. specialize (Pv (pred j) ltac:(lia)). replace (S (pred j)) with j in Pv by lia. rewrite Hback in Pv. specialize (Pv E). lia.
  Qed.
End Chain.

Lemma NoDup_app_snoc (l : list Z) x : NoDup l -> ~ In x l -> NoDup (l ++ [x]).
Proof. intros H N. apply NoDup_rev in H. rewrite <- (rev_involutive (l ++ [x])). apply NoDup_rev. rewrite rev_app_distr. cbn [rev app]. constructor; [now rewrite <- in_rev|assumption]. Qed.
Lemma repeat_or_nodup (f : nat -> Z) n : (exists i j, (i < j < n)%nat /\ f i = f j) \/ NoDup (map f (seq 0 n)).
Proof.
  induction n as [|n IH]; [right; constructor|]. destruct IH as [(i & j & H & E)|IH]; [left; exists i, j; split; [lia|assumption]|].
  destruct (in_dec Z.eq_dec (f n) (map f (seq 0 n))) as [H|H].
  - apply in_map_iff in H. destruct H as (i & E & H). apply in_seq in H. left. exists i, n. split; [lia|assumption].
  - right. rewrite seq_S, map_app. cbn [map]. rewrite Nat.add_0_l. apply NoDup_app_snoc; assumption.
Qed.

Section Turn.
  Context (limit : Z).
  (** Around a point that is not a corner of the square some face lies ahead. *)
  Lemma find_ahead s p q m : good limit s -> ~ corner p -> p <> q -> node s m -> P s m = p -> exists i, ahead s p q (turned s m i) = true.
  Proof.
    intros G Nc Ne Hm Ep. set (N := Datatypes.S (length (node_list s))).
    assert (Dec : (exists i, (i < N)%nat /\ ahead s p q (turned s m i) = true) \/ forall i, (i < N)%nat -> ahead s p q (turned s m i) = false).
    { clearbody N. induction N as [|N IH]; [right; intros; lia|]. destruct IH as [(i & Hi & E)|IH]; [left; exists i; split; [lia|assumption]|].
      destruct (ahead s p q (turned s m N)) eqn:E; [left; exists N; split; [lia|assumption]|]. right. intros i Hi. destruct (Nat.eq_dec i N) as [->|]; [assumption|apply IH; lia]. }
    destruct Dec as [(i & _ & E)|All]; [now exists i|exfalso].
    destruct (repeat_or_nodup (turned s m) N) as [(i & j & Hij & E)|ND].
    - apply (chain_back p q (fun k => P s (prv (turned s m (i + k)))) (j - i)%nat Ne ltac:(lia)).
      + rewrite Nat.add_0_r. replace (i + (j - i))%nat with j by lia. now rewrite E.
      + intros k Hk. destruct (turned_ok limit s p m (i + k) G Nc Hm Ep) as [H1 H2]. rewrite Nat.add_succ_r. cbn [turned]. destruct (next_ok limit s p _ G Nc H1 H2) as (_ & _ & _ & ->).
        pose proof (g_cw _ _ G _ H1) as C. rewrite H2 in C. rewrite orient_anti. lia.
      + intros k Hk L. destruct (turned_ok limit s p m (i + k) G Nc Hm Ep) as [H1 H2]. rewrite Nat.add_succ_r. cbn [turned]. destruct (next_ok limit s p _ G Nc H1 H2) as (_ & _ & _ & ->).
        specialize (All (i + k)%nat ltac:(lia)). unfold ahead in All. rewrite (proj2 (Z.geb_le _ _) L), andb_true_r in All. apply Z.ltb_ge in All. exact All.
    - assert (I : incl (map (turned s m) (seq 0 N)) (node_list s)). { intros x Hx. apply in_map_iff in Hx. destruct Hx as (i & <- & _). destruct (turned_ok limit s p m i G Nc Hm Ep) as [H _]. now apply node_list_ok in H. }
      pose proof (NoDup_incl_length ND I) as L. rewrite map_length, seq_length in L. unfold N in L. lia.
  Qed.
End Turn.

(** ** insert_edge ends *)
Section Ends.
  Context (limit : Z) (loc : mesh -> Z -> Z -> Z -> res (option Z)).
  Let edge := insert_edge_by limit true loc.
  Let loop := edge_loop_by limit true loc.
  (** [loc] gives up or finds a face of the point; there is none for a point that is not in the square. *)
  Definition finds : Prop := forall s p h, sound limit s -> near p ->
    match loc s (fst p) (snd p) h with Ok (Some n) => (n = 0 /\ ~ inbox p) \/ (node s n /\ closed_face s p n) | Ok None => True | _ => False end.
  Hypothesis Hloc : finds.

  Definition outcome (s : mesh) (o : option (mesh * bool)) : Prop := match o with Some (s', _) => steps limit s s' | None => True end.
  Definition ends (s : mesh) (g : nat -> res (option (mesh * bool))) : Prop := exists k o, outcome s o /\ forall fuel, (k <= fuel)%nat -> g fuel = Ok o.
  Lemma ends_now s g o : outcome s o -> (forall fuel, g (Datatypes.S fuel) = Ok o) -> ends s g.
  Proof. intros Ho H. exists 1%nat, o. split; [assumption|]. intros [|fuel] L; [lia|apply H]. Qed.
  Lemma ends_step s s' k g h : steps limit s s' -> (forall fuel, (k <= fuel)%nat -> g (Datatypes.S fuel) = h fuel) -> ends s' h -> ends s g.
  Proof.
    intros S E (k' & o & Ho & H). exists (Datatypes.S (Nat.max k k')), o. split; [destruct o as [[s'' b]|]; [|exact I]; cbn [outcome] in *; now apply (steps_trans limit s s')|].
    intros [|fuel] L; [lia|]. rewrite E by lia. apply H. lia.
  Qed.

  Lemma far_nat : exists k, forall fuel, (k <= fuel)%nat -> ~ Z.of_nat fuel < far.
  Proof. exists (Z.to_nat far). intros fuel L. generalize far, L. clear. intros F L. lia. Qed.
  Lemma insert_settles s p n : sound limit s -> near p -> (n = 0 /\ ~ inbox p) \/ (node s n /\ closed_face s p n) ->
    exists k s' r, (forall fuel, (k <= fuel)%nat -> insert_point_at_node limit true fuel s (fst p) (snd p) n = Ok (s', r)) /\ steps limit s s' /\ (r <> 0 -> has s' p).
  Proof.
    intros S Np [[-> _]|[Hn Hc]]; [exists O, s, 0; split; [reflexivity|split; [constructor|congruence]]|].
    destruct far_nat as (k & Hk). pose proof (insert_cases limit true k s p n S Np Hn Hc) as X.
    destruct (insert_point_at_node limit true k s (fst p) (snd p) n) as [[s' r]| |] eqn:E; [|discriminate|exfalso; now apply (Hk k (le_n k))].
    exists k, s', r. split; [|now apply (inserted_has limit s p s' r (proj1 S))]. intros fuel L. exact (upto_ok _ _ _ (at_node_mono limit true k fuel s (fst p) (snd p) n L) E).
  Qed.
  Lemma constrain_settles s n : good limit s -> node s n -> exists k s', (forall fuel, (k <= fuel)%nat -> constrain_edge limit true fuel s n = Ok s') /\ good limit s' /\ steps limit s s' /\ size s' = size s.
  Proof.
    intros G Hn. destruct far_nat as (k & Hk). pose proof (constrain_ok limit true k s n G Hn) as X.
    destruct (constrain_edge limit true k s n) as [s'| |] eqn:E; [|discriminate|exfalso; now apply (Hk k (le_n k))]. destruct X as [G' F].
    exists k, s'. split; [intros fuel L; exact (upto_ok _ _ _ (constrain_mono limit true k fuel s n L) E)|]. split; [assumption|]. pose proof (marked_good limit s n G Hn) as Gm.
    split; [eapply steps_cons; [apply (st_mark limit s n); assumption|now apply flips_steps]|]. pose proof (flips_good limit _ _ F Gm) as (_ & _ & _ & E4 & _). exact E4.
  Qed.

  (** One turn of the loop, at the node m of the face that has its point at p. *)
  Lemma loop_turn s p q pn : sound limit s -> has s p -> has s q -> p <> q -> node s pn -> is_corner s p pn ->
    exists m, node s m /\ P s m = p /\ m / 4 = pn / 4 /\ forall fuel,
      loop (Datatypes.S fuel) s (fst p) (snd p) (fst q) (snd q) pn =
      if ahead s p q m then
        if orient p (P s (prv m)) q =? 0 then
          s1 <- constrain_edge limit true fuel s (nxt m) ;; pn <- get_e limit s1 (nxt m) ;;
          try (loc s1 (fst (P s (prv m))) (snd (P s (prv m))) pn) (fun pn => loop fuel s1 (fst (P s (prv m))) (snd (P s (prv m))) (fst q) (snd q) pn)
        else
          '(s1, b) <- try_flip limit s m ;;
          if negb b then
            r <- intersect_edges (fst q - fst p, snd q - snd p) (rv s p (nxt m)) (rv s p (prv m)) ;;
            if is_zero r || same_vec r (fst q - fst p, snd q - snd p) then Ok (Some (s1, false))
            else
              rx <- chk64 (fst p + fst r) ;; ry <- chk64 (snd p + snd r) ;;
              try (edge fuel s1 (fst p) (snd p) rx ry pn) (fun '(s1, pr) =>
              try (edge fuel s1 rx ry (fst q) (snd q) pn) (fun '(s1, rq) => Ok (Some (s1, pr && rq))))
          else try (loc s1 (fst p) (snd p) pn) (fun pn => loop fuel s1 (fst p) (snd p) (fst q) (snd q) pn)
      else loop fuel s (fst p) (snd p) (fst q) (snd q) (tw s (prv m)).
  Proof.
    intros S Hp Hq Ne Hpn Hc. assert (G : good limit s) by apply S.
    assert (Hbp : inbox p) by (destruct Hp as (v & Hv & <-); now apply (g_box _ _ G)). assert (Hbq : inbox q) by (destruct Hq as (v & Hv & <-); now apply (g_box _ _ G)).
    destruct (base_of s pn Hpn) as (Hn & Mn & Fn).
    assert (Loop : forall fuel, loop (Datatypes.S fuel) s (fst p) (snd p) (fst q) (snd q) pn = loop (Datatypes.S fuel) s (fst p) (snd p) (fst q) (snd q) pn) by reflexivity.
    unfold loop at 2 in Loop. cbn [edge_loop_by] in Loop. fold (insert_edge_by limit true loc) (edge_loop_by limit true loc) in Loop. fold edge loop in Loop. cbv zeta in Loop.
    set (n := pn / 4 * 4) in *. clearbody n.
    apply (is_corner_face s p n pn (node_mod s n Hn) (node_mod s pn Hpn) Fn) in Hc.
    destruct (offs n Mn) as (O1 & O2 & O3 & O4 & O5 & O6 & _). pose proof (nxt_node s n Hn) as Hn1. rewrite O1 in Hn1. pose proof (prv_node s n Hn) as Hn2. rewrite O2 in Hn2.
    pose proof (inbox_near _ Hbp) as Np. rewrite !(rel_ok limit s p) in Loop by (assumption || now left). cbn [bind] in Loop.
    assert (Hqv : vec17 (fst q - fst p, snd q - snd p)). { destruct Hbp as [P1 P2], Hbq as [Q1 Q2]. unfold lo, hi in *. change (2 ^ 15) with 32768 in *. unfold vec17. cbn [fst snd]. lia. }
    rewrite (chk64_ok (fst q - fst p)), (chk64_ok (snd q - snd p)) in Loop by (apply in_s64; unfold vec17 in Hqv; cbn [fst snd] in Hqv; lia). cbn [bind] in Loop.
    destruct (is_zero (fst q - fst p, snd q - snd p)) eqn:Ez.
    { exfalso. apply is_zero_eq in Ez. injection Ez as E1 E2. apply Ne. destruct p, q; cbn [fst snd] in *; f_equal; lia. }
    clear Ez.
    pose (a := (if is_zero (rv s p n) then (0, rv s p (n + 1), rv s p (n + 2)) else if is_zero (rv s p (n + 1)) then (1, rv s p (n + 2), rv s p n) else (2, rv s p n, rv s p (n + 1))) : Z * (Z * Z) * (Z * Z)).
    assert (Sel : exists k k1 k2, a = (k, rv s p (n + k1), rv s p (n + k2)) /\ (if k =? 0 then 1 else if k =? 1 then 2 else 0) = k1 /\ (if k =? 0 then 2 else if k =? 1 then 0 else 1) = k2 /\
      node s (n + k) /\ P s (n + k) = p /\ n + k1 = nxt (n + k) /\ n + k2 = prv (n + k)).
    { unfold a. destruct (is_zero (rv s p n)) eqn:Z0; [|destruct (is_zero (rv s p (n + 1))) eqn:Z1].
      - exists 0, 1, 2. rewrite Z.add_0_r. apply is_zero_eq, rv_zero in Z0. auto 10.
      - exists 1, 2, 0. rewrite Z.add_0_r. apply is_zero_eq, rv_zero in Z1. auto 10.
      - exists 2, 0, 1. rewrite Z.add_0_r. do 4 (split; [first [reflexivity|assumption]|]). split; [|auto]. unfold is_corner in Hc. rewrite O1, O2 in Hc. destruct Hc as [K|[K|K]]; [| |now symmetry].
        + exfalso. symmetry in K. apply (rv_zero s p n), is_zero_eq in K. congruence.
        + exfalso. symmetry in K. apply (rv_zero s p (n + 1)), is_zero_eq in K. congruence. }
    fold a in Loop. destruct Sel as (k & k1 & k2 & Ea & Ek1 & Ek2 & Nm & Pm & Em1 & Em2). rewrite Ea, Ek1, Ek2, Em1, Em2 in Loop.
    exists (n + k). split; [assumption|]. split; [assumption|]. split. { destruct (node_split _ (node_mod s _ Nm)) as [M|[M|M]]; unfold nxt, prv in Em1, Em2; revert Em1 Em2; rewrite M; cbn [Z.ltb Z.gtb Z.compare Pos.compare Pos.compare_cont]; intros; rewrite <- Fn; clear - Mn M Em1 Em2 Ek1 Ek2; destruct (k =? 0) eqn:K0; [apply Z.eqb_eq in K0; subst k; now rewrite Z.add_0_r| |apply Z.eqb_eq in K0; subst k; now rewrite Z.add_0_r| |apply Z.eqb_eq in K0; subst k; now rewrite Z.add_0_r|]; (destruct (k =? 1) eqn:K1; [apply Z.eqb_eq in K1; subst k|]; Z.to_euclidean_division_equations; lia). }
    clear Ek1 Ek2 Em1 Em2 Ea a. set (m := n + k) in *. clearbody m. clear O1 O2 O3 O4 O5 O6 Hn1 Hn2 Hc Fn Mn Hn n k k1 k2.
    intro fuel. rewrite Loop. clear Loop.
    pose proof (nxt_node s m Nm) as Nm1. pose proof (prv_node s m Nm) as Nm2. pose proof (node_mod s m Nm) as Mm.
    pose proof (rv_vec limit s p _ G Hbp (or_introl Nm1)) as V1. pose proof (rv_vec limit s p _ G Hbp (or_introl Nm2)) as V2.
    destruct (cross_ok _ _ V1 Hqv) as [-> _]. cbn [bind]. destruct (cross_ok _ _ V2 Hqv) as [-> _]. cbn [bind].
    assert (E1 : fst (rv s p (nxt m)) * snd (fst q - fst p, snd q - snd p) - snd (rv s p (nxt m)) * fst (fst q - fst p, snd q - snd p) = orient p (P s (nxt m)) q) by (unfold rv, orient; cbn [fst snd]; ring).
    assert (E2 : fst (rv s p (prv m)) * snd (fst q - fst p, snd q - snd p) - snd (rv s p (prv m)) * fst (fst q - fst p, snd q - snd p) = orient p (P s (prv m)) q) by (unfold rv, orient; cbn [fst snd]; ring).
    rewrite E1, E2. fold (ahead s p q m). destruct (ahead s p q m); [|rewrite (proj1 (fn_e limit s _ G (or_introl Nm2))); reflexivity].
    assert (Hx : fst p + fst (rv s p (prv m)) = fst (P s (prv m)) /\ snd p + snd (rv s p (prv m)) = snd (P s (prv m))) by (unfold rv; cbn [fst snd]; lia). destruct Hx as [-> ->].
    pose proof (fn_box limit s _ G (or_introl Nm2)) as Hb. rewrite (chk64_ok (fst (P s (prv m)))), (chk64_ok (snd (P s (prv m)))) by (apply in_s64; destruct Hb as [Hb1 Hb2]; unfold lo, hi in *; change (2 ^ 15) with 32768 in *; lia). cbn [bind fst snd].
    replace (fst p + (fst q - fst p)) with (fst q) by lia. replace (snd p + (snd q - snd p)) with (snd q) by lia.
    rewrite (chk64_ok (fst q)), (chk64_ok (snd q)) by (apply in_s64; destruct Hbq as [Hq1 Hq2]; cbn [fst snd] in *; unfold lo, hi in *; change (2 ^ 15) with 32768 in *; lia). cbn [bind]. reflexivity.
  Qed.

  Lemma loop_done s p pn : good limit s -> inbox p -> node s pn -> ends s (fun fuel => loop fuel s (fst p) (snd p) (fst p) (snd p) pn).
  Proof.
    intros G Hp Hpn. apply (ends_now s _ (Some (s, true))); [constructor|]. intro fuel. unfold loop. cbn [edge_loop_by]. cbv zeta. rewrite !Z.sub_diag. pose proof (inbox_near _ Hp) as Np.
    destruct (base_of s pn Hpn) as (Hn & Mn & _). set (n := pn / 4 * 4) in *. destruct (offs n Mn) as (O1 & O2 & _). pose proof (nxt_node s n Hn) as Hn1. rewrite O1 in Hn1. pose proof (prv_node s n Hn) as Hn2. rewrite O2 in Hn2.
    rewrite !(rel_ok limit s p) by (assumption || now left). cbn [bind]. rewrite !chk64_ok by (apply in_s64; lia). reflexivity.
  Qed.

  Lemma loc_corner s p h : sound limit s -> has s p -> match loc s (fst p) (snd p) h with Ok (Some n) => node s n /\ is_corner s p n | Ok None => True | _ => False end.
  Proof.
    intros S (v & Hv & E). assert (G : good limit s) by apply S. assert (Hp : inbox p) by (subst p; now apply (g_box _ _ G)).
    pose proof (Hloc s p h S (inbox_near _ Hp)) as X. destruct (loc s (fst p) (snd p) h) as [[n|]| |]; [|exact I|contradiction|contradiction].
    destruct X as [[_ X]|[X1 X2]]; [contradiction|]. split; [assumption|]. destruct S as (_ & U & _). destruct (U v Hv) as (m & Hm & <-). fold (P s m) in E. subst p. now apply (vertex_in_face limit).
  Qed.
  Lemma ends_loc s s' k g p h (f : nat -> Z -> res (option (mesh * bool))) : sound limit s' -> has s' p -> steps limit s s' ->
    (forall fuel, (k <= fuel)%nat -> g (Datatypes.S fuel) = try (loc s' (fst p) (snd p) h) (f fuel)) ->
    (forall n, node s' n -> is_corner s' p n -> ends s' (fun fuel => f fuel n)) -> ends s g.
  Proof.
    intros S Hp St E K. pose proof (loc_corner s' p h S Hp) as X. unfold try in E. destruct (loc s' (fst p) (snd p) h) as [[n|]| |]; [|clear X|contradiction|contradiction].
    - destruct X as [X1 X2]. apply (ends_step s s' k g (fun fuel => f fuel n) St); [exact E|]. now apply K.
    - exists (Datatypes.S k), None. split; [exact I|]. intros [|fuel] L; [lia|]. rewrite E by lia. reflexivity.
  Qed.

  Lemma flipped_count s m : good limit s -> node s m -> tw s m <> 0 -> (count s (P s m) < count (flipped s m) (P s m))%nat.
  Proof.
    intros G Hm Hz. pose proof (tw_node limit s G m Hm Hz) as Ht. pose proof (g_cw _ _ G m Hm) as Cw.
    pose proof (ea_tw limit s G m Hm Hz) as E1. unfold ea, eb in E1. assert (Q1 : P s (nxt (tw s m)) = P s (prv m)) by (unfold P; now rewrite E1).
    assert (N1 : P s (nxt m) <> P s m) by (intro E; rewrite E in Cw; unfold orient in Cw; lia). assert (N2 : P s (prv m) <> P s m) by (intro E; rewrite E in Cw; unfold orient in Cw; lia).
    apply (count_lt s (flipped s m) (P s m) (nxt (tw s m)) eq_refl).
    - intros k Hk Ek. unfold P. rewrite flipped_pt. change (V (flipped s m)) with (V s). destruct (Z.eqb_spec k (nxt (tw s m))) as [->|_]; [reflexivity|].
      destruct (Z.eqb_spec k (nxt m)) as [->|_]; [exfalso; now apply N1|exact Ek].
    - now apply nxt_node.
    - congruence.
    - unfold P. rewrite flipped_pt, Z.eqb_refl. reflexivity.
  Qed.

  Lemma all_end (d : nat) :
    (forall s p q pn, sound limit s -> has s p -> has s q -> ~ corner p -> node s pn -> is_corner s p pn -> dist p q < Z.of_nat d -> ends s (fun fuel => loop fuel s (fst p) (snd p) (fst q) (snd q) pn)) /\
    (forall s p q h, sound limit s -> near p -> near q -> ~ corner p -> dist p q < Z.of_nat d -> ends s (fun fuel => edge fuel s (fst p) (snd p) (fst q) (snd q) h)).
  Proof.
    induction d as [|d [IHl IHe]]; [split; intros; exfalso; pose proof (dist_nonneg p q); lia|].
    assert (L : forall s p q pn, sound limit s -> has s p -> has s q -> ~ corner p -> node s pn -> is_corner s p pn -> dist p q < Z.of_nat (Datatypes.S d) -> ends s (fun fuel => loop fuel s (fst p) (snd p) (fst q) (snd q) pn)).
    { assert (LC : forall c s p q pn, (8 * size s - Z.of_nat (count s p) < Z.of_nat c) -> sound limit s -> has s p -> has s q -> ~ corner p -> node s pn -> is_corner s p pn -> dist p q < Z.of_nat (Datatypes.S d) -> ends s (fun fuel => loop fuel s (fst p) (snd p) (fst q) (snd q) pn)).
      2: { intros s p q pn S Hp Hq Nc Hpn Hc Hd. apply (LC (Z.to_nat (8 * size s + 1)) s p q pn); try assumption. pose proof (g_size _ _ (proj1 S)). lia. }
      induction c as [|c IHc]; intros s p q pn Hcnt S Hp Hq Nc Hpn Hc Hd; assert (G : good limit s) by apply S; [pose proof (count_bound limit s p G); lia|].
      assert (Hbp : inbox p) by (destruct Hp as (v & Hv & <-); now apply (g_box _ _ G)). assert (Hbq : inbox q) by (destruct Hq as (v & Hv & <-); now apply (g_box _ _ G)).
      assert (Dec : p = q \/ p <> q). { destruct p as [x y], q as [x' y']. destruct (Z.eq_dec x x') as [->|N]; [|right; congruence]. destruct (Z.eq_dec y y') as [->|N]; [now left|right; congruence]. }
      destruct Dec as [<-|Ne]; [now apply loop_done|].
      assert (Nr : ~ on_rim p) by (intro R; apply Nc; now apply (rim_corner limit s)).
      assert (Tn : forall pn', node s pn' -> is_corner s p pn' -> forall m, node s m -> P s m = p -> m / 4 = pn' / 4 -> (forall n, n / 4 = pn' / 4 -> node s n -> P s n = p -> n = m)).
      { intros pn' _ _ m Hm Em Fm n Fn Hn En. destruct (same_face m n (node_mod s m Hm) (node_mod s n Hn) ltac:(lia)) as [-> |[E|E]]; [reflexivity|exfalso..]; pose proof (g_cw _ _ G m Hm) as Cw; rewrite E in En; rewrite Em, En in Cw; unfold orient in Cw; lia. }
      assert (A : forall pn m, node s pn -> is_corner s p pn -> node s m -> P s m = p -> m / 4 = pn / 4 -> ahead s p q m = true -> ends s (fun fuel => loop fuel s (fst p) (snd p) (fst q) (snd q) pn)).
      { clear pn Hpn Hc. intros pn m Hpn Hc Hm Em Fm Am. destruct (loop_turn s p q pn S Hp Hq Ne Hpn Hc) as (m' & Hm' & Em' & Fm' & Turn).
        assert (m' = m) as -> by (apply (Tn pn Hpn Hc m Hm Em Fm m' Fm' Hm' Em')). clear Hm' Em' Fm'. rewrite Am in Turn.
        unfold ahead in Am. apply andb_true_iff in Am. destruct Am as [La Lb]. apply Z.ltb_lt in La. apply Z.geb_le in Lb.
        pose proof (nxt_node s m Hm) as Hm1. pose proof (prv_node s m Hm) as Hm2. assert (Nq : q <> P s m) by congruence.
        destruct (Z.eqb_spec (orient p (P s (prv m)) q) 0) as [Lz|Lz].
        - (* along an edge *)
          assert (Sg : on_segment (P s (prv m)) p q) by (rewrite <- Em in La, Lz |- *; now apply (along limit)).
          destruct (constrain_settles s (nxt m) G Hm1) as (k & s1 & Hk & G1 & S01 & Es).
          pose proof (steps_sound limit _ _ S01 S) as S1. pose proof (steps_extends limit _ _ S01 G) as Ex.
          assert (N1 : node s1 (nxt m)) by (destruct Hm1 as [Nka Nkb]; split; [lia|assumption]).
          assert (Hl : has s1 (P s (prv m))) by (apply (has_extends s s1 _ Ex); exists (pt s (prv m)); split; [now apply (g_pt _ _ G)|reflexivity]).
          assert (Np : P s (prv m) <> p). { intro E. pose proof (g_cw _ _ G m Hm) as Cw. rewrite Em, E in Cw. unfold orient in Cw. lia. }
          apply (ends_loc s s1 k _ (P s (prv m)) (tw s1 (nxt m)) (fun fuel n => loop fuel s1 (fst (P s (prv m))) (snd (P s (prv m))) (fst q) (snd q) n) S1 Hl S01).
          + intros fuel Lf. rewrite Turn, (Hk fuel Lf). cbn [bind]. rewrite (proj1 (fn_e limit s1 _ G1 (or_introl N1))). reflexivity.
          + intros n Hn Hcn. set (l := P s (prv m)) in *. clearbody l.
            assert (Dl : l = q \/ l <> q). { destruct l as [x y], q as [x' y']. destruct (Z.eq_dec x x') as [->|N]; [|right; congruence]. destruct (Z.eq_dec y y') as [->|N]; [now left|right; congruence]. }
            destruct Dl as [->|Nl]; [now apply loop_done|]. pose proof (segment_hull l p q Sg) as Hh. pose proof (hull_less l p q Hh Np Nl) as [_ Hd'].
            apply IHl; [assumption|assumption|now apply (has_extends s s1)|now apply (hull_corner l p q)|assumption|assumption|lia].
        - destruct (try_flip_ok limit s m G Hm) as (s1 & b & Tf & G1 & Hb). rewrite Tf in Turn. cbn [bind] in Turn. destruct b; cbn [negb] in Turn.
          + destruct Hb as (-> & Hco & Q1 & Q2). assert (S01 : steps limit s (flipped s m)) by (apply steps_one; now apply st_flip).
            assert (Hz : tw s m <> 0). { intro Hz. destruct (g_link _ _ G m Hm) as [[_ C]|T]; [lia|]. rewrite Hz in T. destruct T as ([T _] & _). lia. }
            pose proof (flipped_count s m G Hm Hz) as Cn. rewrite Em in Cn.
            pose proof (steps_sound limit _ _ S01 S) as S1. pose proof (steps_extends limit _ _ S01 G) as Ex.
            apply (ends_loc s (flipped s m) O _ p pn (fun fuel n => loop fuel (flipped s m) (fst p) (snd p) (fst q) (snd q) n) S1 (has_extends s _ p Ex Hp) S01); [intros fuel _; apply Turn|].
            intros n Hn Hcn. apply IHc; [change (size (flipped s m)) with (size s); lia|assumption|now apply (has_extends s)|now apply (has_extends s)|assumption..].
          + subst s1.
            assert (Hqv : vec17 (fst q - fst p, snd q - snd p)). { destruct Hbp as [P1 P2], Hbq as [Q1 Q2]. unfold lo, hi in *. change (2 ^ 15) with 32768 in *. unfold vec17. cbn [fst snd]. lia. }
            pose proof (rv_vec limit s p _ G Hbp (or_introl Hm1)) as V1. pose proof (rv_vec limit s p _ G Hbp (or_introl Hm2)) as V2.
            assert (Hu : vec17 (fst (rv s p (prv m)) - fst (rv s p (nxt m)), snd (rv s p (prv m)) - snd (rv s p (nxt m)))).
            { pose proof (fn_box limit s _ G (or_introl Hm1)) as [A1 A2]. pose proof (fn_box limit s _ G (or_introl Hm2)) as [B1 B2]. unfold lo, hi in *. change (2 ^ 15) with 32768 in *. unfold vec17, rv. cbn [fst snd]. lia. }
            assert (E1 : fst (rv s p (nxt m)) * snd (fst q - fst p, snd q - snd p) - snd (rv s p (nxt m)) * fst (fst q - fst p, snd q - snd p) = orient p (P s (nxt m)) q) by (unfold rv, orient; cbn [fst snd]; ring).
            assert (E2 : fst (rv s p (prv m)) * snd (fst q - fst p, snd q - snd p) - snd (rv s p (prv m)) * fst (fst q - fst p, snd q - snd p) = orient p (P s (prv m)) q) by (unfold rv, orient; cbn [fst snd]; ring).
            pose proof (intersect_value _ _ _ Hqv V1 V2 Hu ltac:(lia) ltac:(lia)) as Iv. cbv zeta in Iv.
            destruct (intersect_ok _ _ _ Hqv V1 V2 Hu ltac:(lia) ltac:(lia)) as (r & Ir & Rx & Ry). rewrite Ir in Turn. cbn [bind] in Turn. rewrite Ir in Iv.
            destruct (is_zero r || same_vec r (fst q - fst p, snd q - snd p)) eqn:Triv; [apply (ends_now s _ (Some (s, false))); [constructor|exact Turn]|].
            assert (Bs : beside (fst p + fst r, snd p + snd r) p q).
            { pose proof (beyond limit s m q S Hm Hq Nq) as By. rewrite Em in By. specialize (By La ltac:(lia)).
              assert (By' : 0 < orient q (P s (nxt m)) (P s (prv m))). { destruct By as [By|By]; [|assumption]. exfalso. apply Lz. rewrite By. unfold orient. ring. }
              pose proof (g_cw _ _ G m Hm) as Cw. rewrite Em in Cw.
              assert (Eq : q = (fst p + fst (fst q - fst p, snd q - snd p), snd p + snd (fst q - fst p, snd q - snd p))) by (cbn [fst snd]; destruct q, p; cbn [fst snd]; f_equal; lia).
              rewrite Eq. apply (beside_meet p (fst q - fst p, snd q - snd p) (rv s p (nxt m)) (rv s p (prv m)) r); [lia|lia| | |injection Iv as Iv; exact Iv].
              - unfold rv, orient in *. cbn [fst snd]. lia.
              - unfold rv, orient in *. cbn [fst snd]. lia. }
            set (w := (fst p + fst r, snd p + snd r)) in *.
            assert (Hw : inbox w).
            { pose proof (fn_box limit s _ G (or_introl Hm1)) as [A1 A2]. pose proof (fn_box limit s _ G (or_introl Hm2)) as [B1 B2]. unfold rv in Rx, Ry. cbn [fst snd] in Rx, Ry. unfold inbox, w. cbn [fst snd]. lia. }
            rewrite (chk64_ok (fst p + fst r)), (chk64_ok (snd p + snd r)) in Turn by (apply in_s64; unfold w in Hw; destruct Hw as [Hr1 Hr2]; cbn [fst snd] in *; unfold lo, hi in *; change (2 ^ 15) with 32768 in *; lia). cbn [bind] in Turn.
            apply orb_false_iff in Triv. destruct Triv as [T1 T2].
            assert (Nw1 : w <> p). { intro E. apply Bool.not_true_iff_false in T1. apply T1. apply is_zero_eq. unfold w in E. destruct p as [px py], r as [x y]. cbn [fst snd] in E. injection E as E3 E4. f_equal; lia. }
            assert (Nw2 : w <> q). { intro E. unfold w in E. rewrite <- E in T2. unfold same_vec in T2. cbn [fst snd] in T2. replace (fst p + fst r - fst p) with (fst r) in T2 by lia. replace (snd p + snd r - snd p) with (snd r) in T2 by lia. rewrite !Z.eqb_refl in T2. discriminate. }
            pose proof (beside_hull w p q Bs) as Hh. pose proof (hull_less w p q Hh Nw1 Nw2) as [D1 D2]. pose proof (hull_corner w p q Hbp Hbq Nr Hh Nw2) as Ncw.
            pose proof (IHe s p w pn S (inbox_near _ Hbp) (inbox_near _ Hw) Nc ltac:(lia)) as (k1 & o1 & O1 & H1).
            change (fst p + fst r) with (fst w) in Turn. change (snd p + snd r) with (snd w) in Turn.
            destruct o1 as [[s1 b1]|].
            * cbn [outcome] in O1. pose proof (steps_sound limit _ _ O1 S) as S1. pose proof (IHe s1 w q pn S1 (inbox_near _ Hw) (inbox_near _ Hbq) Ncw ltac:(lia)) as (k2 & o2 & O2 & H2).
              exists (Datatypes.S (Nat.max k1 k2)), (match o2 with Some (s2, b2) => Some (s2, b1 && b2) | None => None end). split; [destruct o2 as [[s2 b2]|]; [cbn [outcome] in *; now apply (steps_trans limit s s1)|exact I]|].
              intros [|fuel] Lf; [lia|]. rewrite Turn. unfold try at 1. rewrite (H1 fuel) by lia. cbn [bind]. unfold try. rewrite (H2 fuel) by lia. cbn [bind]. destruct o2 as [[s2 b2]|]; reflexivity.
            * exists (Datatypes.S k1), None. split; [exact I|]. intros [|fuel] Lf; [lia|]. rewrite Turn. unfold try at 1. rewrite (H1 fuel) by lia. reflexivity. }
      destruct (loop_turn s p q pn S Hp Hq Ne Hpn Hc) as (m0 & Hm0 & Em0 & Fm0 & _).
      destruct (find_ahead limit s p q m0 G Nc Ne Hm0 Em0) as (i & Ai). revert pn m0 Hpn Hc Hm0 Em0 Fm0 Ai. induction i as [|i IHi]; intros pn m0 Hpn Hc Hm0 Em0 Fm0 Ai; [now apply (A pn m0)|].
      destruct (ahead s p q m0) eqn:A0; [now apply (A pn m0)|].
      rewrite turned_shift in Ai. destruct (next_ok limit s p m0 G Nc Hm0 Em0) as (Ht & Hn & En & _).
      assert (Ct : is_corner s p (tw s (prv m0))) by (right; right; symmetry; exact En).
      destruct (loop_turn s p q pn S Hp Hq Ne Hpn Hc) as (m' & Hm' & Em' & Fm' & Turn). assert (m' = m0) as -> by (apply (Tn pn Hpn Hc m0 Hm0 Em0 Fm0 m' Fm' Hm' Em')). rewrite A0 in Turn.
      apply (ends_step s s O _ (fun fuel => loop fuel s (fst p) (snd p) (fst q) (snd q) (tw s (prv m0)))); [constructor|intros fuel _; apply Turn|].
      apply (IHi (tw s (prv m0)) (around_next s m0) Ht Ct Hn En); [|assumption]. unfold around_next. apply prv_face. now apply (node_mod s). }
    split; [exact L|].
    intros s p q h S Np Nq Nc Hd. unfold edge.
    pose proof (Hloc s p h S Np) as X. destruct (loc s (fst p) (snd p) h) as [[n|]| |] eqn:E0; [| |contradiction|contradiction].
    2: { exists 1%nat, None. split; [exact I|]. intros [|fuel] Lf; [lia|]. cbn [insert_edge_by]. unfold try at 1. rewrite E0. reflexivity. }
    destruct (insert_settles s p n S Np X) as (k1 & s1 & pn & H1 & S01 & Hh1). pose proof (steps_sound limit _ _ S01 S) as S1.
    destruct (Z.eqb_spec pn 0) as [Ez|Hpn].
    { exists (Datatypes.S k1), (Some (s1, false)). split; [exact S01|]. intros [|fuel] Lf; [lia|]. cbn [insert_edge_by]. unfold try at 1. rewrite E0. cbn [bind]. rewrite H1 by lia. cbn [bind]. rewrite Ez. reflexivity. }
    specialize (Hh1 Hpn). destruct ((fst p =? fst q) && (snd p =? snd q)) eqn:Eq.
    { exists (Datatypes.S k1), (Some (s1, true)). split; [exact S01|]. intros [|fuel] Lf; [lia|]. cbn [insert_edge_by]. unfold try at 1. rewrite E0. cbn [bind]. rewrite H1 by lia. cbn [bind]. rewrite (proj2 (Z.eqb_neq pn 0) Hpn), Eq. reflexivity. }
    pose proof (Hloc s1 q pn S1 Nq) as Y. destruct (loc s1 (fst q) (snd q) pn) as [[n2|]| |] eqn:E1; [| |contradiction|contradiction].
    2: { exists (Datatypes.S k1), None. split; [exact I|]. intros [|fuel] Lf; [lia|]. cbn [insert_edge_by]. unfold try at 1. rewrite E0. cbn [bind]. rewrite H1 by lia. cbn [bind]. rewrite (proj2 (Z.eqb_neq pn 0) Hpn), Eq. unfold try at 1. rewrite E1. reflexivity. }
    destruct (insert_settles s1 q n2 S1 Nq Y) as (k2 & s2 & qn & H2 & S12 & Hh2). pose proof (steps_sound limit _ _ S12 S1) as S2. pose proof (steps_trans limit _ _ _ S01 S12) as S02.
    assert (Unf : forall fuel, (Nat.max k1 k2 <= fuel)%nat -> insert_edge_by limit true loc (Datatypes.S fuel) s (fst p) (snd p) (fst q) (snd q) h =
      if qn =? 0 then Ok (Some (s2, false)) else try (loc s2 (fst p) (snd p) pn) (fun n => loop fuel s2 (fst p) (snd p) (fst q) (snd q) n)).
    { intros fuel Lf. cbn [insert_edge_by]. fold (insert_edge_by limit true loc) (edge_loop_by limit true loc). unfold try at 1. rewrite E0. cbn [bind]. rewrite H1 by lia. cbn [bind]. rewrite (proj2 (Z.eqb_neq pn 0) Hpn), Eq. unfold try at 1. rewrite E1. cbn [bind]. rewrite H2 by lia. reflexivity. }
    destruct (Z.eqb_spec qn 0) as [Ez|Hqn].
    { exists (Datatypes.S (Nat.max k1 k2)), (Some (s2, false)). split; [exact S02|]. intros [|fuel] Lf; [lia|]. rewrite Unf by lia. reflexivity. }
    specialize (Hh2 Hqn). assert (Hh3 : has s2 p) by (apply (has_extends s1 s2 p); [now apply (steps_extends limit s1 s2 S12 (proj1 S1))|assumption]).
    apply (ends_loc s s2 (Nat.max k1 k2) _ p pn (fun fuel n => loop fuel s2 (fst p) (snd p) (fst q) (snd q) n) S2 Hh3 S02); [exact Unf|].
    intros m Hm Hcm. now apply L.
  Qed.

  Theorem edge_ends s p q h : sound limit s -> near p -> near q -> ~ corner p -> ends s (fun fuel => insert_edge_by limit true loc fuel s (fst p) (snd p) (fst q) (snd q) h).
  Proof. intros S Np Nq Nc. apply (proj2 (all_end (Z.to_nat (dist p q + 1))) s p q h S Np Nq Nc). pose proof (dist_nonneg p q). lia. Qed.
End Ends.
