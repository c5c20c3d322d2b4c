(** Constraining edges keeps the invariant. *)
From Verif Require Import Base Vec_Model Math_Model Vec_Spec Cdt_Model Cdt_Geom Cdt_Mesh Cdt_Flip Cdt_Circle Cdt_Insert Cdt_OnEdge Cdt_Walk.
Local Open Scope Z_scope.

Section Edge.
  Context (limit : Z) (wrap : bool).

  (** The mesh with the edge of node n constrained on both sides (cdt.h:790-792). *)
  Definition marked (s : mesh) (n : Z) : mesh :=
    {| size := size s; pt := pt s; tw := tw s; co := put (put (co s) (tw s n) 1) n 1; fi := fi s; vx := vx s; vy := vy s |}.

  Lemma marked_good s n : good limit s -> node s n -> good limit (marked s n).
  Proof.
    intros G Hn. assert (C : forall m, node s m -> co (marked s n) m = 1 \/ (co (marked s n) m = co s m /\ m <> n /\ m <> tw s n)).
    { intros m Hm. unfold marked. cbn [co]. unfold put. destruct (Z.eqb_spec m n); [now left|]. destruct (Z.eqb_spec m (tw s n)); [now left|right; auto]. }
    constructor; try apply G.
    - intros m Hm. destruct (C m Hm) as [-> |(-> & _)]; [now right|now apply (g_co _ _ G)].
    - intros m Hm. change (node s m) in Hm. destruct (g_link _ _ G m Hm) as [[Hz Hc]|(T1 & T2 & T3 & T4 & T5)].
      + left. split; [exact Hz|]. destruct (C m Hm) as [E|(E & _)]; [exact E|now rewrite E].
      + right. change (tw (marked s n) m) with (tw s m). split; [exact T1|]. split; [exact T2|]. split; [|split; [exact T4|exact T5]].
        assert (Hzn : tw s n = 0 \/ (node s (tw s n) /\ tw s (tw s n) = n)) by (destruct (twz limit s n G Hn) as [?|(? & ? & _)]; auto).
        unfold marked. cbn [co]. unfold put.
        destruct (Z.eqb_spec (tw s m) n) as [E1|E1].
        * rewrite <- E1, T2, Z.eqb_refl. now destruct (m =? tw s m).
        * destruct (Z.eqb_spec (tw s m) (tw s n)) as [E2|E2].
          -- assert (m = n). { apply (tw_inj limit s G m n Hm Hn); [destruct T1; lia|assumption]. } subst m. now rewrite Z.eqb_refl.
          -- destruct (Z.eqb_spec m n) as [->|E3]; [contradiction|]. destruct (Z.eqb_spec m (tw s n)) as [->|E4]; [|assumption].
             exfalso. destruct Hzn as [Hz|[_ Hz]]; [rewrite Hz in Hm; destruct Hm; lia|contradiction].
    - intros m Hm. unfold marked. cbn [tw co pt]. destruct (g_nil _ _ G m Hm) as (Z1 & Z2 & Z3). split; [assumption|]. split; [|assumption]. unfold put. destruct (m =? n); [reflexivity|]. now destruct (m =? tw s n).
  Qed.

  Lemma next_edge_nxt n : n mod 4 <> 3 -> next_edge n = nxt n.
  Proof.
    intro H. unfold next_edge. destruct (nxt_prv_cases n H) as [(E & -> & _)|[(E & -> & _)|(E & -> & _)]].
    - replace ((n + 1) mod 4) with 1 by (Z.to_euclidean_division_equations; lia). reflexivity.
    - replace ((n + 1) mod 4) with 2 by (Z.to_euclidean_division_equations; lia). reflexivity.
    - replace ((n + 1) mod 4) with 3 by (Z.to_euclidean_division_equations; lia). cbn [Z.eqb Pos.eqb]. Z.to_euclidean_division_equations; lia.
  Qed.
  Lemma next_edge_ok s n : face_or_nil s n -> face_or_nil s (next_edge n).
  Proof.
    intros [H|H].
    - left. rewrite next_edge_nxt by now apply (node_mod s). now apply nxt_node.
    - right. rewrite next_edge_nxt; unfold nil_node in *; [|rewrite Z.mod_small by lia; lia]. assert (n = 0 \/ n = 1 \/ n = 2) as [-> |[-> | ->]] by lia; cbn; lia.
  Qed.

  Lemma constrain_ok fuel s n : good limit s -> node s n ->
    match constrain_edge limit wrap fuel s n with
    | Ok s' => good limit s' /\ flips (marked s n) s'
    | UB => wrap = false | Timeout => Z.of_nat fuel < far
    end.
  Proof.
    intros G Hn. unfold constrain_edge. cbv zeta. destruct (fn_e limit s n G (or_introl Hn)) as [-> Ft]. cbn [bind].
    unfold set_c. rewrite (fn_edge limit s _ G Ft), (fn_edge limit s _ G (or_introl Hn)). cbn [bind size pt tw co fi vx vy]. change (1 mod 2 ^ 3) with 1. fold (marked s n).
    pose proof (marked_good s n G Hn) as G0. assert (F0 : face_or_nil (marked s n) n) by now left. remember (marked s n) as s0 eqn:E0. clear E0.
    pose proof (next_edge_ok _ _ F0) as F1. pose proof (next_edge_ok _ _ F1) as F2. pose proof (next_edge_ok _ _ F2) as F3.
    pose proof (flip_step limit wrap fuel s0 s0 _ G0 eq_refl F2 (fl_refl _)) as X.
    destruct (flip limit wrap fuel s0 _) as [[s1 b1]| |]; cbn [bind]; [|exact X|exact X]. destruct X as (G1 & Z1 & K1).
    pose proof (flip_step limit wrap fuel s0 s1 _ G1 Z1 F3 K1) as X.
    destruct (flip limit wrap fuel s1 _) as [[s2 b2]| |]; cbn [bind]; [|exact X|exact X]. destruct X as (G2 & Z2 & K2).
    assert (F0' : face_or_nil s2 n) by (destruct F0 as [F0|F0]; [left; now apply (node_size s0)|now right]).
    destruct (fn_e limit s2 n G2 F0') as [-> Ft2]. cbn [bind].
    assert (Ft3 : face_or_nil s0 (tw s2 n)) by (destruct Ft2 as [Ft2|Ft2]; [left; now apply (node_size s2)|now right]).
    pose proof (next_edge_ok _ _ Ft3) as J1. pose proof (next_edge_ok _ _ J1) as J2. pose proof (next_edge_ok _ _ J2) as J3.
    pose proof (flip_step limit wrap fuel s0 s2 _ G2 Z2 J2 K2) as X.
    destruct (flip limit wrap fuel s2 _) as [[s3 b3]| |]; cbn [bind]; [|exact X|exact X]. destruct X as (G3 & Z3 & K3).
    pose proof (flip_step limit wrap fuel s0 s3 _ G3 Z3 J3 K3) as X.
    destruct (flip limit wrap fuel s3 _) as [[s4 b4]| |]; cbn [bind]; [|exact X|exact X]. destruct X as (G4 & Z4 & K4). auto.
  Qed.

  Lemma try_flip_ok s n : good limit s -> node s n ->
    exists s' b, try_flip limit s n = Ok (s', b) /\ good limit s' /\
      (if b : bool then s' = flipped s n /\ co s n = 0 /\ orient (P s n) (P s (tw s n)) (P s (prv n)) < 0 /\ orient (P s (tw s n)) (P s n) (P s (nxt n)) < 0 else s' = s).
  Proof.
    intros G Hn. unfold try_flip, can_flip. rewrite (get_c_ok limit s n G Hn). cbn [bind]. destruct (Z.eqb_spec (co s n) 0) as [Ec|Ec]; cbn [negb bind]; [|exists s, false; auto].
    pose proof (co_open limit s G n Hn Ec) as Hz. pose proof (tw_node limit s G n Hn Hz) as Ht.
    pose proof (ea_tw limit s G n Hn Hz) as E1. unfold ea, eb in E1.
    rewrite (get_p_ok limit s n G Hn). cbn [bind]. rewrite (get_v_ok limit s _ G (g_pt _ _ G n Hn)). cbn [bind].
    rewrite (get_p_ok limit s _ G (nxt_node s n Hn)). cbn [bind]. rewrite (get_v_ok limit s _ G (g_pt _ _ G _ (nxt_node s n Hn))). cbn [bind].
    pose proof (fn_box limit s n G (or_introl Hn)) as [A1 A2]. pose proof (fn_box limit s _ G (or_introl (nxt_node s n Hn))) as [B1 B2].
    pose proof (fn_box limit s _ G (or_introl Ht)) as [C1 C2]. pose proof (fn_box limit s _ G (or_introl (prv_node s n Hn))) as [D1 D2].
    unfold P, V, lo, hi in A1, A2, B1, B2, C1, C2, D1, D2. change (2 ^ 15) with 32768 in *. cbn [fst snd] in *.
    rewrite !chk64_ok by (apply in_s64; lia). cbn [bind]. rewrite (get_e_ok limit s n G Hn). cbn [bind].
    rewrite (get_p_ok limit s _ G Ht). cbn [bind]. rewrite (get_v_ok limit s _ G (g_pt _ _ G _ Ht)). cbn [bind].
    rewrite (get_p_ok limit s _ G (nxt_node s _ Ht)). cbn [bind]. rewrite (get_v_ok limit s _ G (g_pt _ _ G _ (nxt_node s _ Ht))). cbn [bind]. rewrite E1.
    rewrite !chk64_ok by (apply in_s64; lia). cbn [bind].
    assert (M : forall a b, - 65535 <= a <= 65535 -> - 65535 <= b <= 65535 -> chk64 (a * b) = Ok (a * b)).
    { clear. intros a b Ha Hb. pose proof (mul_small 65535 a b Ha Hb). apply chk64_ok, in_s64. lia. }
    rewrite !M by lia. cbn [bind].
    match goal with |- context [if ?l <? ?r then _ else _] => destruct (Z.ltb_spec l r) as [L1|L1] end; cbn [bind negb]; [|exists s, false; auto].
    match goal with |- context [?l <? ?r] => destruct (Z.ltb_spec l r) as [L2|L2] end; cbn [bind negb]; [|exists s, false; auto].
    rewrite (do_flip_ok limit s n G Hn Hz). cbn [bind].
    assert (O1 : orient (P s n) (P s (tw s n)) (P s (prv n)) < 0) by (unfold orient, P, V; cbn [fst snd]; lia).
    assert (O2 : orient (P s (tw s n)) (P s n) (P s (nxt n)) < 0) by (rewrite <- orient_rot; unfold orient, P, V; cbn [fst snd]; lia).
    exists (flipped s n), true. split; [reflexivity|]. split; [apply (good_flipped limit s n G Hn Hz O1 O2)|auto].
  Qed.

  (** ** intersect_edges *)
  Lemma quot_between u t d : 0 < d -> 0 < t < d -> Z.min 0 u <= Z.quot (u * t) d <= Z.max 0 u.
  Proof.
    intros Hd Ht. destruct (Z.le_ge_cases 0 u) as [Hu|Hu].
    - rewrite Z.min_l, Z.max_r by assumption. split; [apply Z.quot_pos; nia|]. transitivity (Z.quot (u * d) d); [apply Z.quot_le_mono; nia|]. rewrite Z.quot_mul by lia. lia.
    - rewrite Z.min_r, Z.max_l by assumption. replace (u * t) with (- (- u * t)) by ring. rewrite Z.quot_opp_l by lia.
      assert (0 <= Z.quot (- u * t) d) by (apply Z.quot_pos; nia). assert (Z.quot (- u * t) d <= Z.quot (- u * d) d) by (apply Z.quot_le_mono; nia). rewrite Z.quot_mul in * by lia. lia.
  Qed.

  Definition vec17 (v : Z * Z) : Prop := - 65535 <= fst v <= 65535 /\ - 65535 <= snd v <= 65535.
  Lemma cross_ok v w : vec17 v -> vec17 w -> crossx2 v w = Ok (fst v * snd w - snd v * fst w) /\ - 8589672450 <= fst v * snd w - snd v * fst w <= 8589672450.
  Proof.
    intros [V1 V2] [W1 W2]. unfold crossx2. pose proof (mul_small 65535 _ _ V1 W2). pose proof (mul_small 65535 _ _ V2 W1).
    rewrite !chk64_ok by (apply in_s64; lia). cbn [bind]. rewrite chk64_ok by (apply in_s64; lia). split; [reflexivity|lia].
  Qed.

  Lemma intersect_ok q a b : vec17 q -> vec17 a -> vec17 b -> vec17 (fst b - fst a, snd b - snd a) -> fst a * snd q - snd a * fst q < 0 -> 0 < fst b * snd q - snd b * fst q ->
    exists r, intersect_edges q a b = Ok r /\ Z.min (fst a) (fst b) <= fst r <= Z.max (fst a) (fst b) /\ Z.min (snd a) (snd b) <= snd r <= Z.max (snd a) (snd b).
  Proof.
    intros Hq Ha Hb Hu Ca Cb. unfold intersect_edges.
    destruct Ha as [A1 A2], Hb as [B1 B2]. rewrite !chk64_ok by (apply in_s64; lia). cbn [bind].
    destruct (cross_ok _ _ Hu Hq) as [-> Rd]. cbn [bind fst snd] in *. destruct (cross_ok q a Hq (conj A1 A2)) as [-> Rt]. cbn [bind].
    set (d := (fst b - fst a) * snd q - (snd b - snd a) * fst q) in *. set (t := fst q * snd a - snd q * fst a) in *.
    assert (Ht : 0 < t < d) by (unfold t, d; lia). clearbody d t. destruct Hu as [U1 U2]. cbn [fst snd] in U1, U2.
    pose proof (quot_between (fst b - fst a) t d ltac:(lia) Ht) as Qx. pose proof (quot_between (snd b - snd a) t d ltac:(lia) Ht) as Qy.
    assert (M : forall u, - 65535 <= u <= 65535 -> chk64 (u * t) = Ok (u * t)) by (intros u Hu'; apply chk64_ok, in_s64; nia).
    unfold div64. rewrite !M by assumption. cbn [bind]. rewrite (proj2 (Z.eqb_neq d 0)) by lia. rewrite !chk64_ok by (apply in_s64; lia). cbn [bind]. rewrite !chk64_ok by (apply in_s64; lia). cbn [bind].
    eexists. split; [reflexivity|]. cbn [fst snd]. lia.
  Qed.

  Definition edge_post (s : mesh) (r : res (mesh * bool)) : Prop :=
    match r with Ok (s', _) => good limit s' /\ extends s s' | UB => wrap = false | Timeout => True end.
  Lemma edge_post_trans s t r : extends s t -> edge_post t r -> edge_post s r.
  Proof. intros E. unfold edge_post. destruct r as [[s' b]| |]; auto. intros [G' E']. split; [assumption|]. now apply (extends_trans s t). Qed.

  Lemma base_fn s n : face_or_nil s n -> let u := n / 4 * 4 in face_or_nil s u /\ face_or_nil s (u + 1) /\ face_or_nil s (u + 2) /\
    ((node s u /\ u mod 4 = 0) \/ (forall q, rv s q u = rv s q 0 /\ rv s q (u + 1) = rv s q 1 /\ rv s q (u + 2) = rv s q 2)).
  Proof.
    intros [H|H] u.
    - destruct (base_of s n H) as (Hu & Mu & _). fold u in Hu, Mu. destruct (offs u Mu) as (O1 & O2 & _).
      pose proof (nxt_node s u Hu) as Hu1. rewrite O1 in Hu1. pose proof (prv_node s u Hu) as Hu2. rewrite O2 in Hu2.
      split; [now left|]. split; [now left|]. split; [now left|]. left. auto.
    - assert (u = 0) as ->. { unfold u, nil_node in *. rewrite Z.div_small by lia. reflexivity. }
      unfold face_or_nil, nil_node. split; [right; lia|]. split; [right; lia|]. split; [right; lia|]. right. auto.
  Qed.

  Lemma located s p r : good limit s -> match r with Ok n => n = 0 \/ (node s n /\ closed_face s p n) | UB => False | Timeout => True end ->
    match r with Ok n => face_or_nil s n | UB => False | Timeout => True end.
  Proof. intros G. destruct r as [n| |]; auto. intros [-> |[H _]]; [right; unfold nil_node; lia|now left]. Qed.

  Lemma rv_vec s p n : good limit s -> inbox p -> face_or_nil s n -> vec17 (rv s p n).
  Proof.
    intros G [B1 B2] Hn. pose proof (fn_box limit s n G Hn) as [A1 A2]. unfold lo, hi in *. change (2 ^ 15) with 32768 in *. unfold vec17, rv. cbn [fst snd]. lia.
  Qed.

  Lemma edge_ok_all fuel :
    (forall s px py qx qy h, good limit s -> near (px, py) -> near (qx, qy) -> edge_post s (insert_edge64 limit wrap fuel s px py qx qy h)) /\
    (forall s px py qx qy pn, good limit s -> inbox (px, py) -> inbox (qx, qy) -> face_or_nil s pn -> edge_post s (edge_loop limit wrap fuel s px py qx qy pn)).
  Proof.
    induction fuel as [|fuel [IHe IHl]]; [split; intros; exact I|]. split.
    - intros s px py qx qy h G Hp Hq. cbn [insert_edge64]. fold (insert_edge64 limit wrap) (edge_loop limit wrap).
      pose proof (locate_insertion_ok limit fuel s (px, py) h G Hp) as X. cbn [fst snd] in X. destruct (locate_insertion_node limit fuel s px py h) as [n| |]; cbn [bind]; [|contradiction|exact I].
      pose proof (insert_node_ok limit wrap fuel s (px, py) n G Hp X) as Y. cbn [fst snd] in Y. destruct (insert_point_at_node limit wrap fuel s px py n) as [[s1 pn]| |]; cbn [bind]; [|exact Y|exact I].
      destruct Y as (G1 & E1 & _ & Y1). destruct (Z.eqb_spec pn 0) as [_|Hpn]; [split; assumption|]. destruct (Y1 Hpn) as [Hbp _].
      destruct ((px =? qx) && (py =? qy)); [split; assumption|].
      pose proof (locate_insertion_ok limit fuel s1 (qx, qy) pn G1 Hq) as X2. cbn [fst snd] in X2. destruct (locate_insertion_node limit fuel s1 qx qy pn) as [n2| |]; cbn [bind]; [|contradiction|exact I].
      pose proof (insert_node_ok limit wrap fuel s1 (qx, qy) n2 G1 Hq X2) as Y2. cbn [fst snd] in Y2. destruct (insert_point_at_node limit wrap fuel s1 qx qy n2) as [[s2 qn]| |]; cbn [bind]; [|exact Y2|exact I].
      destruct Y2 as (G2 & E2 & _ & Y2). pose proof (extends_trans _ _ _ E1 E2) as E3. destruct (Z.eqb_spec qn 0) as [_|Hqn]; [split; assumption|]. destruct (Y2 Hqn) as [Hbq _].
      pose proof (locate_insertion_ok limit fuel s2 (px, py) pn G2 Hp) as X3. apply (located s2 (px, py) _ G2) in X3. cbn [fst snd] in X3. destruct (locate_insertion_node limit fuel s2 px py pn) as [n3| |]; cbn [bind]; [|contradiction|exact I].
      apply (edge_post_trans s s2 _ E3). now apply IHl.
    - intros s px py qx qy pn G Hp Hq Hpn. cbn [edge_loop]. fold (insert_edge64 limit wrap) (edge_loop limit wrap). cbv zeta. set (n := pn / 4 * 4).
      destruct (base_fn s pn Hpn) as (F0 & F1 & F2 & Fc). fold n in F0, F1, F2, Fc.
      pose proof (inbox_near _ Hp) as Np. pose proof (rel_ok limit s (px, py) n G Np F0) as R0. pose proof (rel_ok limit s (px, py) _ G Np F1) as R1. pose proof (rel_ok limit s (px, py) _ G Np F2) as R2. cbn [fst snd] in R0, R1, R2.
      rewrite R0, R1, R2. cbn [bind]. clear R0 R1 R2.
      assert (Hqv : vec17 (qx - px, qy - py)). { destruct Hp as [P1 P2], Hq as [Q1 Q2]. unfold lo, hi in *. cbn [fst snd] in *. change (2 ^ 15) with 32768 in *. unfold vec17. cbn [fst snd]. lia. }
      rewrite !chk64_ok by (apply in_s64; unfold vec17 in Hqv; cbn [fst snd] in Hqv; lia). cbn [bind].
      destruct (is_zero (qx - px, qy - py)); [split; [assumption|apply extends_refl]|].
      set (p0 := rv s (px, py) n) in *. set (p1 := rv s (px, py) (n + 1)) in *. set (p2 := rv s (px, py) (n + 2)) in *.
      pose (a := (if is_zero p0 then (0, p1, p2) else if is_zero p1 then (1, p2, p0) else (2, p0, p1)) : Z * (Z * Z) * (Z * Z)).
      assert (Sel : exists k k1 k2, a = (k, rv s (px, py) (n + k1), rv s (px, py) (n + k2)) /\ (if k =? 0 then 1 else if k =? 1 then 2 else 0) = k1 /\ (if k =? 0 then 2 else if k =? 1 then 0 else 1) = k2 /\
        ((k = 0 /\ k1 = 1 /\ k2 = 2) \/ (k = 1 /\ k1 = 2 /\ k2 = 0) \/ (k = 2 /\ k1 = 0 /\ k2 = 1))).
      { unfold a. destruct (is_zero p0); [exists 0, 1, 2|destruct (is_zero p1); [exists 1, 2, 0|exists 2, 0, 1]]; rewrite Z.add_0_r || idtac; repeat split; tauto. }
      fold a. destruct Sel as (k & k1 & k2 & -> & Ek1 & Ek2 & Ks). rewrite Ek1, Ek2. clear Ek1 Ek2. clearbody n.
      assert (Fk : face_or_nil s (n + k) /\ face_or_nil s (n + k1) /\ face_or_nil s (n + k2)).
      { destruct Ks as [(-> & -> & ->)|[(-> & -> & ->)|(-> & -> & ->)]]; rewrite ?Z.add_0_r; auto. }
      destruct Fk as (Fk & Fk1 & Fk2).
      pose proof (rv_vec s _ _ G Hp Fk1) as V1. pose proof (rv_vec s _ _ G Hp Fk2) as V2.
      destruct (cross_ok _ _ V1 Hqv) as [-> _]. cbn [bind]. destruct (cross_ok _ _ V2 Hqv) as [-> _]. cbn [bind].
      match goal with |- context [(?l <? 0) && (?m >=? 0)] => destruct (Z.ltb_spec l 0) as [La|La]; destruct (Z.geb_spec m 0) as [Lb|Lb]; cbn [andb] end;
        [|rewrite (proj1 (fn_e limit s _ G Fk2)); cbn [bind]; apply IHl; [assumption..|apply (fn_e limit s _ G Fk2)]..].
      assert (Hn : node s n /\ n mod 4 = 0).
      { destruct Fc as [Fc|Fc]; [assumption|exfalso]. destruct (Fc (px, py)) as (Q0 & Q1 & Q2).
        assert (Q : rv s (px, py) 1 = rv s (px, py) 0 /\ rv s (px, py) 2 = rv s (px, py) 0).
        { unfold rv, P. destruct (g_nil _ _ G 0 ltac:(lia)) as (_ & _ & ->). destruct (g_nil _ _ G 1 ltac:(lia)) as (_ & _ & ->). destruct (g_nil _ _ G 2 ltac:(lia)) as (_ & _ & ->). auto. }
        destruct Q as [Q1' Q2']. rewrite Q1' in Q1. rewrite Q2' in Q2.
        destruct Ks as [(_ & -> & ->)|[(_ & -> & ->)|(_ & -> & ->)]]; rewrite ?Z.add_0_r in La; rewrite ?Z.add_0_r in Lb; [rewrite Q1 in La; rewrite Q2 in Lb|rewrite Q2 in La; rewrite Q0 in Lb|rewrite Q0 in La; rewrite Q1 in Lb]; lia. }
      destruct Hn as [Hn Mn]. destruct (offs n Mn) as (O1 & O2 & _).
      assert (Nk : node s (n + k) /\ node s (n + k1) /\ node s (n + k2)).
      { pose proof (nxt_node s n Hn) as Hn1. rewrite O1 in Hn1. pose proof (prv_node s n Hn) as Hn2. rewrite O2 in Hn2.
        destruct Ks as [(-> & -> & ->)|[(-> & -> & ->)|(-> & -> & ->)]]; rewrite ?Z.add_0_r; auto. }
      destruct Nk as (Nk & Nk1 & Nk2).
      match goal with |- context [?m =? 0] => destruct (Z.eqb_spec m 0) as [Lz|Lz] end.
      + pose proof (constrain_ok fuel s (n + k1) G Nk1) as X. destruct (constrain_edge limit wrap fuel s (n + k1)) as [s1| |]; cbn [bind]; [|exact X|exact I]. destruct X as [G1 F].
        assert (E1 : extends s s1). { apply (extends_trans s (marked s (n + k1))); [split; [cbn [size marked]; lia|reflexivity]|]. apply (flips_extends limit); [now apply marked_good|assumption]. }
        assert (N1 : node s1 (n + k1)) by (destruct Nk1 as [Nka Nkb]; split; [destruct E1; lia|assumption]).
        rewrite (proj1 (fn_e limit s1 _ G1 (or_introl N1))). cbn [bind].
        assert (Hp' : px + fst (rv s (px, py) (n + k2)) = fst (P s (n + k2)) /\ py + snd (rv s (px, py) (n + k2)) = snd (P s (n + k2))) by (unfold rv; cbn [fst snd]; lia).
        destruct Hp' as [Hx Hy]. pose proof (fn_box limit s _ G Fk2) as Hb. rewrite Hx, Hy. rewrite !chk64_ok by (apply in_s64; destruct Hb as [Hb1 Hb2]; unfold lo, hi in *; change (2 ^ 15) with 32768 in *; lia). cbn [bind].
        pose proof (locate_insertion_ok limit fuel s1 (P s (n + k2)) (tw s1 (n + k1)) G1 (inbox_near _ Hb)) as X3. apply (located s1 (P s (n + k2)) _ G1) in X3.
        destruct (locate_insertion_node limit fuel s1 (fst (P s (n + k2))) (snd (P s (n + k2))) (tw s1 (n + k1))) as [n3| |]; cbn [bind]; [|contradiction|exact I].
        apply (edge_post_trans s s1 _ E1). apply IHl; [assumption|now rewrite <- surjective_pairing|assumption|assumption].
      + destruct (try_flip_ok s (n + k) G Nk) as (s1 & b & -> & G1 & Hb). cbn [bind]. destruct b; cbn [negb].
        * destruct Hb as (-> & _).
          pose proof (locate_insertion_ok limit fuel (flipped s (n + k)) (px, py) pn G1 Np) as X3. apply (located _ (px, py) _ G1) in X3. cbn [fst snd] in X3.
          destruct (locate_insertion_node limit fuel (flipped s (n + k)) px py pn) as [n3| |]; cbn [bind]; [|contradiction|exact I].
          apply (edge_post_trans s (flipped s (n + k))); [split; [cbn [size flipped]; lia|reflexivity]|]. now apply IHl.
        * subst s1.
          assert (Hu : vec17 (fst (rv s (px, py) (n + k2)) - fst (rv s (px, py) (n + k1)), snd (rv s (px, py) (n + k2)) - snd (rv s (px, py) (n + k1)))).
          { pose proof (fn_box limit s _ G Fk1) as [A1 A2]. pose proof (fn_box limit s _ G Fk2) as [B1 B2]. unfold lo, hi in *. change (2 ^ 15) with 32768 in *. unfold vec17, rv. cbn [fst snd]. lia. }
          destruct (intersect_ok _ _ _ Hqv V1 V2 Hu La ltac:(lia)) as (r & -> & Rx & Ry). cbn [bind].
          destruct (is_zero r || same_vec r (qx - px, qy - py)); [split; [assumption|apply extends_refl]|].
          assert (Hr : inbox (px + fst r, py + snd r)).
          { pose proof (fn_box limit s _ G Fk1) as [A1 A2]. pose proof (fn_box limit s _ G Fk2) as [B1 B2]. unfold rv in Rx, Ry. cbn [fst snd] in Rx, Ry. unfold inbox. cbn [fst snd]. lia. }
          rewrite (chk64_ok (px + fst r)), (chk64_ok (py + snd r)) by (apply in_s64; destruct Hr as [Hr1 Hr2]; cbn [fst snd] in *; unfold lo, hi in *; change (2 ^ 15) with 32768 in *; lia). cbn [bind].
          pose proof (IHe s px py (px + fst r) (py + snd r) pn G Np (inbox_near _ Hr)) as X. destruct (insert_edge64 limit wrap fuel s px py (px + fst r) (py + snd r) pn) as [[s1 b1]| |]; cbn [bind]; [|exact X|exact I].
          destruct X as [G2 E2]. cbn [fst snd]. replace (px + (qx - px)) with qx by lia. replace (py + (qy - py)) with qy by lia.
          rewrite (chk64_ok qx), (chk64_ok qy) by (apply in_s64; destruct Hq as [Hq1 Hq2]; cbn [fst snd] in *; unfold lo, hi in *; change (2 ^ 15) with 32768 in *; lia). cbn [bind].
          pose proof (IHe s1 (px + fst r) (py + snd r) qx qy pn G2 (inbox_near _ Hr) (inbox_near _ Hq)) as X. destruct (insert_edge64 limit wrap fuel s1 (px + fst r) (py + snd r) qx qy pn) as [[s2 b2]| |]; cbn [bind]; [|exact X|exact I].
          destruct X as [G3 E3]. split; [assumption|]. now apply (extends_trans s s1).
  Qed.
End Edge.
