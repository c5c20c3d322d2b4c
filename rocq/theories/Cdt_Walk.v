(** The walk to the face that contains a point, and insertion of points. *)
From Verif Require Import Base Vec_Model Math_Model Vec_Spec Cdt_Model Cdt_Geom Cdt_Mesh Cdt_Flip Cdt_Circle Cdt_Insert Cdt_OnEdge.
Local Open Scope Z_scope.

Lemma in_s64 x : - 9223372036854775808 <= x < 9223372036854775808 -> in_s 64 x.
Proof. unfold in_s. change (2 ^ (64 - 1)) with 9223372036854775808. lia. Qed.

Section Walk.
  Context (limit : Z) (wrap : bool).

  (** The coordinates that a user's int32_t point can have on the grid. *)
  Definition near (p : point) : Prop := - 2 ^ 31 <= fst p <= 2 ^ 31 /\ - 2 ^ 31 <= snd p <= 2 ^ 31.
  Lemma inbox_near p : inbox p -> near p.
  Proof. unfold inbox, near, lo, hi. change (2 ^ 31) with 2147483648. change (2 ^ 15) with 32768. lia. Qed.

  Definition rv (s : mesh) (p : point) (n : Z) : Z * Z := (fst (P s n) - fst p, snd (P s n) - snd p).
  Lemma orient_rv s p n m : fst (rv s p n) * snd (rv s p m) - snd (rv s p n) * fst (rv s p m) = orient p (P s n) (P s m).
  Proof. unfold rv, orient. cbn [fst snd]. ring. Qed.

  Definition face_or_nil (s : mesh) (n : Z) : Prop := node s n \/ nil_node n.
  Lemma nil_edge s n : good limit s -> nil_node n -> edge_node limit n = true.
  Proof. intros G H. pose proof (g_size _ _ G). unfold nil_node in H. apply edge_ok'; [lia|]. rewrite Z.mod_small by lia. lia. Qed.
  Lemma fn_edge s n : good limit s -> face_or_nil s n -> edge_node limit n = true.
  Proof. intros G [H|H]; [now apply (edge_ok limit s)|now apply (nil_edge s)]. Qed.
  Lemma fn_pt s n : good limit s -> face_or_nil s n -> 0 <= pt s n < size s.
  Proof. intros G [H|H]; [now apply (g_pt _ _ G)|]. destruct (g_nil _ _ G n H) as (_ & _ & ->). pose proof (g_size _ _ G). lia. Qed.
  Lemma fn_box s n : good limit s -> face_or_nil s n -> inbox (P s n).
  Proof. intros G H. apply (g_box _ _ G), fn_pt; assumption. Qed.
  Lemma fn_e s n : good limit s -> face_or_nil s n -> get_e limit s n = Ok (tw s n) /\ face_or_nil s (tw s n).
  Proof.
    intros G H. unfold get_e. rewrite (fn_edge s n G H). split; [reflexivity|]. destruct H as [H|H].
    - destruct (twz limit s n G H) as [-> |[K _]]; [right; unfold nil_node; lia|now left].
    - destruct (g_nil _ _ G n H) as (-> & _). right. unfold nil_node. lia.
  Qed.

  Lemma rel_ok s p n : good limit s -> near p -> face_or_nil s n -> rel limit s (fst p) (snd p) n = Ok (rv s p n).
  Proof.
    intros G Hp Hn. unfold rel, get_p. rewrite (fn_edge s n G Hn). cbn [bind]. pose proof (fn_pt s n G Hn) as Hv. rewrite (get_v_ok limit s _ G Hv). cbn [bind].
    pose proof (fn_box s n G Hn) as [B1 B2]. unfold near in Hp. change (2 ^ 31) with 2147483648 in Hp. unfold P, V, lo, hi in B1, B2. cbn [fst snd] in B1, B2. change (2 ^ 15) with 32768 in *.
    rewrite !chk64_ok by (apply in_s64; lia). reflexivity.
  Qed.

  Lemma rv_small s p n : good limit s -> near p -> face_or_nil s n -> - 2147516416 <= fst (rv s p n) <= 2147516416 /\ - 2147516416 <= snd (rv s p n) <= 2147516416.
  Proof.
    intros G Hp Hn. pose proof (fn_box s n G Hn) as [B1 B2]. unfold near in Hp. change (2 ^ 31) with 2147483648 in Hp. unfold lo, hi in B1, B2. change (2 ^ 15) with 32768 in *. unfold rv. cbn [fst snd]. lia.
  Qed.
  Lemma mul_small K a b : - K <= a <= K -> - K <= b <= K -> - (K * K) <= a * b <= K * K.
  Proof. intros. nia. Qed.
  Lemma products s p n m : good limit s -> near p -> face_or_nil s n -> face_or_nil s m ->
    chk64 (fst (rv s p n) * snd (rv s p m)) = Ok (fst (rv s p n) * snd (rv s p m)) /\ chk64 (snd (rv s p n) * fst (rv s p m)) = Ok (snd (rv s p n) * fst (rv s p m)).
  Proof.
    intros G Hp Hn Hm. destruct (rv_small s p n G Hp Hn) as [A1 A2]. destruct (rv_small s p m G Hp Hm) as [B1 B2].
    pose proof (mul_small 2147516416 _ _ A1 B2). pose proof (mul_small 2147516416 _ _ A2 B1). rewrite !chk64_ok; [auto|apply in_s64; lia..].
  Qed.
  Lemma in_ok s p n m : good limit s -> near p -> face_or_nil s n -> face_or_nil s m -> in_ (rv s p n) (rv s p m) = Ok (orient p (P s n) (P s m) <=? 0).
  Proof.
    intros G Hp Hn Hm. unfold in_. destruct (products s p n m G Hp Hn Hm) as [-> ->]. cbn [bind]. f_equal. rewrite <- orient_rv.
    destruct (Z.leb_spec (fst (rv s p n) * snd (rv s p m)) (snd (rv s p n) * fst (rv s p m))); symmetry; [apply Z.leb_le|apply Z.leb_gt]; lia.
  Qed.
  Lemma in_strict_ok s p n m : good limit s -> near p -> face_or_nil s n -> face_or_nil s m -> in_strict (rv s p n) (rv s p m) = Ok (orient p (P s n) (P s m) <? 0).
  Proof.
    intros G Hp Hn Hm. unfold in_strict. destruct (products s p n m G Hp Hn Hm) as [-> ->]. cbn [bind]. f_equal. rewrite <- orient_rv.
    destruct (Z.ltb_spec (fst (rv s p n) * snd (rv s p m)) (snd (rv s p n) * fst (rv s p m))); symmetry; [apply Z.ltb_lt|apply Z.ltb_ge]; lia.
  Qed.

  (** p is in the face of node n or on its sides. *)
  Definition closed_face (s : mesh) (p : point) (n : Z) : Prop :=
    orient p (P s n) (P s (nxt n)) <= 0 /\ orient p (P s (nxt n)) (P s (prv n)) <= 0 /\ orient p (P s (prv n)) (P s n) <= 0.
  Definition found (s : mesh) (p : point) (r : res Z) : Prop :=
    match r with Ok n => n = 0 \/ (node s n /\ closed_face s p n) | UB => False | Timeout => True end.
  (** The state of the walk at node e. *)
  Definition at_node (s : mesh) (p : point) (e : Z) (p1 p2 : Z * Z) : Prop :=
    e = 0 \/ (node s e /\ p1 = rv s p (nxt e) /\ p2 = rv s p (prv e) /\ orient p (P s (nxt e)) (P s (prv e)) <= 0).

  Lemma orient_anti a b c : orient a c b = - orient a b c.
  Proof. unfold orient. ring. Qed.

  Lemma cross_over s p e : good limit s -> node s e -> 0 < orient p (P s (nxt e)) (P s (prv e)) -> at_node s p (tw s e) (rv s p (prv e)) (rv s p (nxt e)).
  Proof.
    intros G He Ho. destruct (twz limit s e G He) as [-> |[Hn _]]; [now left|right].
    assert (Hz : tw s e <> 0) by (destruct Hn; lia). split; [assumption|].
    pose proof (ea_tw limit s G e He Hz) as E1. pose proof (eb_tw limit s G e He Hz) as E2. unfold ea, eb in E1, E2.
    unfold rv, P. rewrite E1, E2. fold (P s (prv e)) (P s (nxt e)). split; [reflexivity|]. split; [reflexivity|]. rewrite orient_anti. lia.
  Qed.
  Lemma cross_nxt s p e : good limit s -> node s e -> 0 < orient p (P s (prv e)) (P s e) -> at_node s p (tw s (nxt e)) (rv s p e) (rv s p (prv e)).
  Proof.
    intros G He Ho. pose proof (node_mod s e He) as M. pose proof (cross_over s p (nxt e) G (nxt_node s e He)) as H. rewrite (nxt_nxt e M), (prv_nxt e M) in H. now apply H.
  Qed.
  Lemma cross_prv s p e : good limit s -> node s e -> 0 < orient p (P s e) (P s (nxt e)) -> at_node s p (tw s (prv e)) (rv s p (nxt e)) (rv s p e).
  Proof.
    intros G He Ho. pose proof (node_mod s e He) as M. pose proof (cross_over s p (prv e) G (prv_node s e He)) as H. rewrite (nxt_prv e M), (prv_prv e M) in H. now apply H.
  Qed.

  Lemma spin_ok fuel : forall s p e p1 p2, good limit s -> near p -> at_node s p e p1 p2 ->
    match spin limit fuel s (fst p) (snd p) e p1 p2 with
    | Ok None => True
    | Ok (Some (e', p0, p2')) => node s e' /\ p0 = rv s p e' /\ at_node s p e' p1 p2' /\ orient p (P s e') (P s (nxt e')) <= 0
    | UB => False | Timeout => True
    end.
  Proof.
    induction fuel as [|fuel IH]; intros s p e p1 p2 G Hp H; [exact I|]. cbn [spin]. destruct (Z.eqb_spec e 0) as [_|Hz]; [exact I|].
    destruct H as [H|(He & -> & -> & Ho)]; [contradiction|].
    assert (F0 : face_or_nil s e) by now left. assert (F1 : face_or_nil s (nxt e)) by (left; now apply nxt_node).
    rewrite (rel_ok s p e G Hp F0). cbn [bind]. rewrite (in_ok s p e _ G Hp F0 F1). cbn [bind].
    destruct (Z.leb_spec (orient p (P s e) (P s (nxt e))) 0) as [L|L].
    - split; [assumption|]. split; [reflexivity|]. split; [right; auto|assumption].
    - rewrite (proj1 (fn_e s (prv e) G (or_introl (prv_node s e He)))). cbn [bind]. apply IH; [assumption|assumption|]. now apply cross_prv.
  Qed.

  Lemma walk_ok fuel : forall s p e p1 p2, good limit s -> near p -> at_node s p e p1 p2 -> found s p (walk limit fuel s (fst p) (snd p) e p1 p2).
  Proof.
    induction fuel as [|fuel IH]; intros s p e p1 p2 G Hp H; [exact I|]. cbn [walk]. destruct (Z.eqb_spec e 0) as [_|Hz]; [now left|].
    destruct H as [H|(He & -> & -> & Ho)]; [contradiction|].
    assert (F0 : face_or_nil s e) by now left. assert (F1 : face_or_nil s (nxt e)) by (left; now apply nxt_node). assert (F2 : face_or_nil s (prv e)) by (left; now apply prv_node).
    rewrite (rel_ok s p e G Hp F0). cbn [bind]. rewrite (in_ok s p _ e G Hp F2 F0), (in_ok s p e _ G Hp F0 F1). cbn [bind].
    destruct (Z.leb_spec (orient p (P s (prv e)) (P s e)) 0) as [L1|L1]; destruct (Z.leb_spec (orient p (P s e) (P s (nxt e))) 0) as [L2|L2]; cbn [andb negb].
    - right. split; [assumption|]. unfold closed_face. auto.
    - rewrite (proj1 (fn_e s (prv e) G F2)). cbn [bind]. apply IH; [assumption..|now apply cross_prv].
    - rewrite (proj1 (fn_e s (nxt e) G F1)). cbn [bind]. apply IH; [assumption..|now apply cross_nxt].
    - rewrite (proj1 (fn_e s (nxt e) G F1)). cbn [bind].
      pose proof (spin_ok fuel s p _ _ _ G Hp (cross_nxt s p e G He L1)) as X.
      destruct (spin limit fuel s (fst p) (snd p) (tw s (nxt e)) (rv s p e) (rv s p (prv e))) as [[[[e' p0'] p2']|]| |]; cbn [bind]; [|now left|contradiction|exact I].
      destruct X as (He' & -> & [K|(_ & _ & -> & Ho')] & L3); [exfalso; destruct He'; lia|].
      assert (F0' : face_or_nil s e') by now left. assert (F1' : face_or_nil s (nxt e')) by (left; now apply nxt_node). assert (F2' : face_or_nil s (prv e')) by (left; now apply prv_node).
      rewrite (in_ok s p _ e' G Hp F2' F0'). cbn [bind]. destruct (Z.leb_spec (orient p (P s (prv e')) (P s e')) 0) as [L4|L4].
      + right. split; [assumption|]. unfold closed_face. auto.
      + rewrite (proj1 (fn_e s (nxt e') G F1')). cbn [bind]. apply IH; [assumption..|now apply cross_nxt].
  Qed.

  Lemma hint_node s h : good limit s -> node s ((if (h <? 24) || (h >=? size s * 8) then size s * 8 - 4 else h) / 4 * 4) /\
    ((if (h <? 24) || (h >=? size s * 8) then size s * 8 - 4 else h) / 4 * 4) mod 4 = 0.
  Proof.
    intro G. pose proof (g_size _ _ G) as Gs. set (k := if (h <? 24) || (h >=? size s * 8) then size s * 8 - 4 else h).
    assert (Hk : 24 <= k < 8 * size s).
    { unfold k. destruct (Z.ltb_spec h 24); cbn [orb]; [lia|]. destruct (Z.geb_spec h (size s * 8)); lia. }
    assert (M : (k / 4 * 4) mod 4 = 0) by (apply Z.mod_mul; lia). split; [|assumption]. split; [|lia].
    pose proof (Z.div_mod k 4 ltac:(lia)). pose proof (Z.mod_pos_bound k 4 ltac:(lia)). lia.
  Qed.

  Lemma locate_insertion_ok fuel s p h : good limit s -> near p -> found s p (locate_insertion_node limit fuel s (fst p) (snd p) h).
  Proof.
    intros G Hp. unfold locate_insertion_node. cbv zeta. destruct (hint_node s h G) as [He M].
    set (e := (if (h <? 24) || (h >=? size s * 8) then size s * 8 - 4 else h) / 4 * 4) in *. clearbody e.
    destruct (offs e M) as (O1 & O2 & _). rewrite <- O1, <- O2.
    assert (F0 : face_or_nil s e) by now left. assert (F1 : face_or_nil s (nxt e)) by (left; now apply nxt_node). assert (F2 : face_or_nil s (prv e)) by (left; now apply prv_node).
    rewrite (rel_ok s p _ G Hp F1), (rel_ok s p _ G Hp F2). cbn [bind]. rewrite (in_ok s p _ _ G Hp F1 F2). cbn [bind].
    destruct (Z.leb_spec (orient p (P s (nxt e)) (P s (prv e))) 0) as [L|L]; cbn [negb].
    - apply walk_ok; [assumption..|]. right. auto.
    - rewrite (proj1 (fn_e s e G F0)). cbn [bind]. apply walk_ok; [assumption..|]. now apply cross_over.
  Qed.

  (** ** Geometry of the insertion *)
  Lemma closed_box s p n : good limit s -> node s n -> closed_face s p n -> inbox p.
  Proof.
    intros G Hn (C1 & C2 & C3). pose proof (g_cw _ _ G n Hn) as D.
    pose proof (fn_box s n G (or_introl Hn)) as [A1 A2]. pose proof (fn_box s _ G (or_introl (nxt_node s n Hn))) as [B1 B2]. pose proof (fn_box s _ G (or_introl (prv_node s n Hn))) as [E1 E2].
    remember (P s n) as a. remember (P s (nxt n)) as b. remember (P s (prv n)) as c. clear - C1 C2 C3 D A1 A2 B1 B2 E1 E2.
    assert (S : orient a b c = orient p a b + orient p b c + orient p c a) by (unfold orient; ring).
    assert (X : fst p * orient a b c = fst c * orient p a b + fst a * orient p b c + fst b * orient p c a) by (unfold orient; ring).
    assert (Y : snd p * orient a b c = snd c * orient p a b + snd a * orient p b c + snd b * orient p c a) by (unfold orient; ring).
    remember (orient p a b) as u. remember (orient p b c) as v. remember (orient p c a) as w. rewrite S in *. clear Hequ Heqv Heqw S.
    assert (Z : forall l h x y z t, u + v + w < 0 -> l <= x <= h -> l <= y <= h -> l <= z <= h -> t * (u + v + w) = z * u + x * v + y * w -> l <= t <= h).
    { clear - C1 C2 C3. intros l h x y z t D H1 H2 H3 E. assert (0 <= (z - l) * - u) by (apply Z.mul_nonneg_nonneg; lia). assert (0 <= (x - l) * - v) by (apply Z.mul_nonneg_nonneg; lia).
      assert (0 <= (y - l) * - w) by (apply Z.mul_nonneg_nonneg; lia). assert (0 <= (h - z) * - u) by (apply Z.mul_nonneg_nonneg; lia).
      assert (0 <= (h - x) * - v) by (apply Z.mul_nonneg_nonneg; lia). assert (0 <= (h - y) * - w) by (apply Z.mul_nonneg_nonneg; lia).
      assert (T1 : (t - l) * (u + v + w) <= 0) by lia. assert (T2 : (h - t) * (u + v + w) <= 0) by lia. clear - D T1 T2. split; apply Z.nlt_ge; intro L; nia. }
    split; [apply (Z _ _ (fst a) (fst b) (fst c) (fst p))|apply (Z _ _ (snd a) (snd b) (snd c) (snd p))]; assumption.
  Qed.

  (** A point strictly between a and b, as seen from o, is so as seen from the other side. *)
  Lemma other_side o a b q p : orient o a b < 0 -> orient q b a < 0 -> orient p a b = 0 -> orient o a p < 0 -> orient o p b < 0 ->
    orient q p a < 0 /\ orient q b p < 0.
  Proof.
    intros Ho Hq Hl H1 H2.
    assert (E1 : orient o a b * orient q p a = orient o a p * orient q b a).
    { transitivity (orient o a p * orient q b a + orient p a b * orient a q o); [unfold orient; ring|]. rewrite Hl. ring. }
    assert (E2 : orient o a b * orient q b p = orient o p b * orient q b a).
    { transitivity (orient o p b * orient q b a + orient p a b * orient b o q); [unfold orient; ring|]. rewrite Hl. ring. }
    assert (K : forall x y z t, x < 0 -> t < 0 -> z < 0 -> x * y = z * t -> y < 0) by (clear; intros; nia).
    split; [apply (K _ _ _ _ Ho Hq H1 E1)|apply (K _ _ _ _ Ho Hq H2 E2)].
  Qed.

  Lemma at_vertex p a b c : orient p a b = 0 -> orient p c a = 0 -> orient p b c <> 0 -> p = a.
  Proof.
    intros H1 H2 H3. assert (Ex : (fst a - fst p) * orient p b c = (fst c - fst p) * orient p a b * -1 + (fst b - fst p) * orient p c a * -1) by (unfold orient; ring).
    assert (Ey : (snd a - snd p) * orient p b c = (snd c - snd p) * orient p a b * -1 + (snd b - snd p) * orient p c a * -1) by (unfold orient; ring).
    rewrite H1, H2, !Z.mul_0_r, !Z.mul_0_l in Ex, Ey. apply Z.mul_eq_0 in Ex, Ey. destruct p, a. cbn [fst snd] in *. f_equal; lia.
  Qed.

  (** ** What an insertion does to the list of vertices *)
  Definition extends (s s' : mesh) : Prop := size s <= size s' /\ forall v, 0 <= v < size s -> V s' v = V s v.
  Lemma extends_refl s : extends s s.
  Proof. split; [lia|auto]. Qed.
  Lemma extends_trans s t u : extends s t -> extends t u -> extends s u.
  Proof. intros [A1 A2] [B1 B2]. split; [lia|]. intros v Hv. rewrite B2 by lia. now apply A2. Qed.
  Lemma flips_extends s s' : good limit s -> flips s s' -> extends s s'.
  Proof. intros G F. destruct (flips_good limit _ _ F G) as (_ & _ & _ & E & _ & Ev). split; [lia|]. intros v _. apply Ev. Qed.
  Definition has (s : mesh) (p : point) : Prop := exists v, 0 <= v < size s /\ V s v = p.
  Lemma has_extends s s' p : extends s s' -> has s p -> has s' p.
  Proof. intros [E1 E2] (v & Hv & H). exists v. split; [lia|]. rewrite E2; assumption. Qed.

  (** A bound on the volume. *)
  Definition far : Z := 2 ^ 80.
  Lemma volume_far s : good limit s -> volume s < far.
  Proof.
    intro G. pose proof (g_size _ _ G) as Gs. pose proof (g_limit _ _ G) as Gl. unfold volume.
    assert (B : forall f, In f (faces_of (size s)) -> lift_at s (4 * f) <= 2 ^ 66 - 1).
    { intros f Hf. apply faces_of_in in Hf; [|lia]. pose proof (face_node s f Hf) as Hn. set (n := 4 * f) in *. clearbody n.
      pose proof (fn_box s n G (or_introl Hn)) as [A1 A2]. pose proof (fn_box s _ G (or_introl (nxt_node s n Hn))) as [B1 B2]. pose proof (fn_box s _ G (or_introl (prv_node s n Hn))) as [E1 E2].
      pose proof (g_cw _ _ G n Hn) as D. unfold lift_at, lift. remember (P s n) as a. remember (P s (nxt n)) as b. remember (P s (prv n)) as c.
      assert (N : forall q, inbox q -> nrm q <= 2147483648).
      { clear. intros [x y] [Hx Hy]. unfold nrm, lo, hi in *. cbn [fst snd] in *. change (2 ^ 15) with 32768 in *. pose proof (mul_small 32768 x x ltac:(lia) ltac:(lia)). pose proof (mul_small 32768 y y ltac:(lia) ltac:(lia)). lia. }
      pose proof (N a (conj A1 A2)) as N1. pose proof (N b (conj B1 B2)) as N2. pose proof (N c (conj E1 E2)) as N3.
      assert (N0 : forall q, 0 <= nrm q) by (intro q; unfold nrm; pose proof (Z.square_nonneg (fst q)); pose proof (Z.square_nonneg (snd q)); lia).
      pose proof (N0 a). pose proof (N0 b). pose proof (N0 c).
      assert (O : - orient a b c <= 8589672450).
      { unfold orient, lo, hi in *. change (2 ^ 15) with 32768 in *. pose proof (mul_small 65535 (fst b - fst a) (snd c - snd a) ltac:(lia) ltac:(lia)). pose proof (mul_small 65535 (snd b - snd a) (fst c - fst a) ltac:(lia) ltac:(lia)). lia. }
      change (2 ^ 66 - 1) with 73786976294838206463. apply Z.le_trans with (8589672450 * (3 * 2147483648)); [|lia]. apply Z.mul_le_mono_nonneg; lia. }
    assert (S : forall l, (forall f, In f l -> lift_at s (4 * f) <= 2 ^ 66 - 1) -> sum (fun f => lift_at s (4 * f)) l <= (2 ^ 66 - 1) * Z.of_nat (length l)).
    { clear. induction l as [|x l IH]; intro H; [reflexivity|]. cbn [sum fold_right length]. fold (sum (fun f => lift_at s (4 * f)) l). specialize (IH (fun f Hf => H f (or_intror Hf))). specialize (H x (or_introl eq_refl)). lia. }
    specialize (S _ B). unfold faces_of in S at 2. rewrite map_length, seq_length in S. unfold far. change (2 ^ 80) with (2 ^ 66 * 16384). nia.
  Qed.

  Lemma flip_step fuel s0 s n : good limit s -> size s = size s0 -> face_or_nil s0 n -> flips s0 s ->
    match flip limit wrap fuel s n with Ok (s', _) => good limit s' /\ size s' = size s0 /\ flips s0 s' | UB => wrap = false | Timeout => Z.of_nat fuel < far end.
  Proof.
    intros G E0 Hn F0. assert (Hn' : face_or_nil s n) by (destruct Hn as [[H1 H2]|H]; [left; split; [lia|assumption]|now right]).
    pose proof (flip_ok limit wrap fuel s n G Hn') as X. destruct (flip limit wrap fuel s n) as [[s' b]| |].
    - destruct (flips_good limit _ _ X G) as (G' & _ & _ & E & _). split; [assumption|]. split; [congruence|]. now apply (flips_trans s0 s s').
    - assumption.
    - pose proof (volume_far s G). lia.
  Qed.
  Lemma node_size s s' n : size s' = size s -> node s n -> node s' n.
  Proof. intros E [H1 H2]. split; [lia|assumption]. Qed.

  Lemma in_face_ok fuel s p u : good limit s -> node s u -> u mod 4 = 0 -> size s < limit -> inbox p ->
    orient p (P s (u + 1)) (P s (u + 2)) < 0 -> orient (P s u) p (P s (u + 2)) < 0 -> orient (P s u) (P s (u + 1)) p < 0 ->
    match insert_in_face limit wrap fuel s (fst p) (snd p) u with
    | Ok s' => good limit s' /\ flips (split3 s (fst p) (snd p) u) s' /\ good limit (split3 s (fst p) (snd p) u)
    | UB => wrap = false | Timeout => Z.of_nat fuel < far
    end.
  Proof.
    intros G Hu Mu Hs Hp C1 C2 C3. destruct p as [px py]. cbn [fst snd]. rewrite (split3_run limit wrap fuel s px py u G Hu Mu Hs Hp).
    pose proof (split3_good limit s px py u G Hu Mu Hs Hp C1 C2 C3) as G0. remember (split3 s px py u) as s0 eqn:E0.
    assert (Gn : forall m, node s0 m <-> _) by (intro m; apply (grown_node s s0 m); [now subst s0|apply (g_size _ _ G)]).
    assert (S0 : size s0 = size s + 1) by now subst s0.
    assert (N1 : node s0 u) by (apply Gn; now left). assert (N2 : node s0 (size s * 8 + 1)) by (apply Gn; tauto). assert (N3 : node s0 (size s * 8 + 4 + 2)) by (apply Gn; tauto). clear Gn E0.
    pose proof (flip_step fuel s0 s0 u G0 eq_refl (or_introl N1) (fl_refl _)) as X.
    destruct (flip limit wrap fuel s0 u) as [[s1 b1]| |]; cbn [bind]; [|exact X|exact X]. destruct X as (G1 & Z1 & F1).
    pose proof (flip_step fuel s0 s1 _ G1 Z1 (or_introl N2) F1) as X.
    destruct (flip limit wrap fuel s1 (size s * 8 + 1)) as [[s2 b2]| |]; cbn [bind]; [|exact X|exact X]. destruct X as (G2 & Z2 & F2).
    pose proof (flip_step fuel s0 s2 _ G2 Z2 (or_introl N3) F2) as X.
    destruct (flip limit wrap fuel s2 (size s * 8 + 4 + 2)) as [[s3 b3]| |]; cbn [bind]; [|exact X|exact X]. destruct X as (G3 & Z3 & F3). auto.
  Qed.

  Lemma on_edge_ok fuel s p u : good limit s -> node s u -> size s < limit -> inbox p -> orient p (P s (nxt u)) (P s (prv u)) = 0 ->
    orient (P s u) (P s (nxt u)) p < 0 -> orient (P s u) p (P s (prv u)) < 0 ->
    match insert_on_edge limit wrap fuel s (fst p) (snd p) u with
    | Ok (s', b) => if tw s u =? 0 then s' = s /\ b = false else
        let ue := Z.min u (tw s u) in b = true /\ good limit s' /\ flips (split4 s (fst p) (snd p) ue) s' /\ good limit (split4 s (fst p) (snd p) ue)
    | UB => wrap = false | Timeout => Z.of_nat fuel < far
    end.
  Proof.
    intros G Hu Hs Hp C1 C2 C3. destruct (Z.eqb_spec (tw s u) 0) as [Ez|Hz].
    { unfold insert_on_edge. rewrite (get_e_ok limit s u G Hu). cbn [bind]. rewrite Ez. cbn. auto. }
    cbv zeta. remember (Z.min u (tw s u)) as ue eqn:Eue. destruct p as [px py]. cbn [fst snd].
    rewrite (split4_run limit wrap fuel s px py u ue G Hu Hz Eue Hs Hp).
    pose proof (tw_node limit s G u Hu Hz) as Hv. pose proof (tw_tw limit s G u Hu Hz) as Htt.
    pose proof (ea_tw limit s G u Hu Hz) as E1. pose proof (eb_tw limit s G u Hu Hz) as E2. unfold ea, eb in E1, E2.
    assert (Q1 : P s (nxt (tw s u)) = P s (prv u)) by (unfold P; now rewrite E1). assert (Q2 : P s (prv (tw s u)) = P s (nxt u)) by (unfold P; now rewrite E2).
    pose proof (g_cw _ _ G u Hu) as D1. pose proof (g_cw _ _ G _ Hv) as D2. rewrite Q1, Q2 in D2.
    destruct (other_side _ _ _ _ _ D1 D2 C1 C2 C3) as [C4 C5].
    assert (Hue : node s ue /\ tw s ue <> 0 /\ orient (P s ue) (P s (nxt ue)) (px, py) < 0 /\ orient (P s (tw s ue)) (px, py) (P s (nxt ue)) < 0 /\
      orient (P s ue) (px, py) (P s (prv ue)) < 0 /\ orient (P s (tw s ue)) (P s (prv ue)) (px, py) < 0).
    { destruct (Z.min_spec u (tw s u)) as [[_ Em]|[_ Em]]; rewrite Em in Eue; subst ue; [auto 10|]. rewrite Htt, Q1, Q2. split; [assumption|]. split; [destruct Hu; lia|]. auto. }
    destruct Hue as (Hue & Hze & K1 & K2 & K3 & K4). clear C1 C2 C3 C4 C5 D1 D2 E1 E2 Q1 Q2 Htt Hv Eue Hu Hz.
    pose proof (split4_good limit s px py ue G Hue Hze Hs Hp K1 K2 K3 K4) as G0. clear K1 K2 K3 K4. pose proof (tw_node limit s G ue Hue Hze) as Hve.
    remember (split4 s px py ue) as s0 eqn:E0.
    assert (Gn : forall m, node s0 m <-> _) by (intro m; apply (grown_node s s0 m); [now subst s0|apply (g_size _ _ G)]).
    assert (N1 : node s0 (prv ue)) by (apply Gn; left; now apply prv_node). assert (N2 : node s0 (size s * 8 + 1)) by (apply Gn; tauto). assert (N3 : node s0 (nxt (tw s ue))) by (apply Gn; left; now apply nxt_node). assert (N4 : node s0 (size s * 8 + 4 + 2)) by (apply Gn; tauto). clear Gn E0.
    pose proof (flip_step fuel s0 s0 _ G0 eq_refl (or_introl N1) (fl_refl _)) as X.
    destruct (flip limit wrap fuel s0 (prv ue)) as [[s1 b1]| |]; cbn [bind]; [|exact X|exact X]. destruct X as (G1 & Z1 & F1).
    pose proof (flip_step fuel s0 s1 _ G1 Z1 (or_introl N2) F1) as X.
    destruct (flip limit wrap fuel s1 (size s * 8 + 1)) as [[s2 b2]| |]; cbn [bind]; [|exact X|exact X]. destruct X as (G2 & Z2 & F2).
    pose proof (flip_step fuel s0 s2 _ G2 Z2 (or_introl N3) F2) as X.
    destruct (flip limit wrap fuel s2 (nxt (tw s ue))) as [[s3 b3]| |]; cbn [bind]; [|exact X|exact X]. destruct X as (G3 & Z3 & F3).
    pose proof (flip_step fuel s0 s3 _ G3 Z3 (or_introl N4) F3) as X.
    destruct (flip limit wrap fuel s3 (size s * 8 + 4 + 2)) as [[s4 b4]| |]; cbn [bind]; [|exact X|exact X]. destruct X as (G4 & Z4 & F4). auto.
  Qed.


  Lemma edge_bits_ok s p u : good limit s -> near p -> node s u -> u mod 4 = 0 ->
    edge_bits (rv s p u) (rv s p (u + 1)) (rv s p (u + 2)) =
      Ok ((if orient p (P s (u + 1)) (P s (u + 2)) <? 0 then 1 else 0) + (if orient p (P s (u + 2)) (P s u) <? 0 then 2 else 0) + (if orient p (P s u) (P s (u + 1)) <? 0 then 4 else 0)).
  Proof.
    intros G Hp Hu Mu. destruct (offs u Mu) as (O1 & O2 & _). pose proof (nxt_node s u Hu) as Hu1. rewrite O1 in Hu1. pose proof (prv_node s u Hu) as Hu2. rewrite O2 in Hu2.
    unfold edge_bits. rewrite !(in_strict_ok s p) by (assumption || now left). reflexivity.
  Qed.

  Lemma base_of s n : node s n -> node s (n / 4 * 4) /\ (n / 4 * 4) mod 4 = 0 /\ n / 4 * 4 / 4 = n / 4.
  Proof.
    intros [H1 H2]. assert (M : (n / 4 * 4) mod 4 = 0) by (apply Z.mod_mul; lia). split; [|split; [assumption|apply Z.div_mul; lia]]. split; [|lia].
    pose proof (Z.div_mod n 4 ltac:(lia)). pose proof (Z.mod_pos_bound n 4 ltac:(lia)). lia.
  Qed.
  Lemma closed_base s p n : node s n -> closed_face s p n -> let u := n / 4 * 4 in
    orient p (P s (u + 1)) (P s (u + 2)) <= 0 /\ orient p (P s (u + 2)) (P s u) <= 0 /\ orient p (P s u) (P s (u + 1)) <= 0.
  Proof.
    intros Hn (C1 & C2 & C3) u. destruct (base_of s n Hn) as (Hu & Mu & Fu). fold u in Hu, Mu, Fu. destruct (offs u Mu) as (O1 & O2 & O3 & O4 & O5 & O6 & _).
    destruct (same_face u n (node_mod s u Hu) (node_mod s n Hn) Fu) as [E|[E|E]]; rewrite E in *; rewrite ?O1, ?O2, ?O3, ?O4, ?O5, ?O6 in *; auto.
  Qed.

  Lemma split3_extends s px py u : good limit s -> extends s (split3 s px py u) /\ has (split3 s px py u) (px, py).
  Proof.
    intro G. pose proof (g_size _ _ G). split.
    - split; [change (size (split3 s px py u)) with (size s + 1); lia|]. intros v Hv. unfold V, split3. cbn [vx vy]. now rewrite !put_ne by lia.
    - exists (size s). change (size (split3 s px py u)) with (size s + 1). split; [lia|]. unfold V, split3. cbn [vx vy]. now rewrite !put_eq.
  Qed.
  Lemma split4_extends s px py u : good limit s -> extends s (split4 s px py u) /\ has (split4 s px py u) (px, py).
  Proof.
    intro G. pose proof (g_size _ _ G). split.
    - split; [change (size (split4 s px py u)) with (size s + 1); lia|]. intros v Hv. unfold V, split4. cbn [vx vy]. now rewrite !put_ne by lia.
    - exists (size s). change (size (split4 s px py u)) with (size s + 1). split; [lia|]. unfold V, split4. cbn [vx vy]. now rewrite !put_eq.
  Qed.

  Lemma insert_node_ok fuel s p n : good limit s -> near p -> n = 0 \/ (node s n /\ closed_face s p n) ->
    match insert_point_at_node limit wrap fuel s (fst p) (snd p) n with
    | Ok (s', r) => good limit s' /\ extends s s' /\ (r = 0 -> s' = s) /\ (r <> 0 -> inbox p /\ has s' p)
    | UB => wrap = false | Timeout => Z.of_nat fuel < far
    end.
  Proof.
    intros G Hp Hn. unfold insert_point_at_node. cbv zeta. destruct (Z.eqb_spec n 0) as [_|Hz].
    { split; [assumption|]. split; [apply extends_refl|]. split; [reflexivity|congruence]. }
    destruct Hn as [Hn|[Hn Cl]]; [contradiction|]. pose proof (closed_box s p n G Hn Cl) as Hb.
    destruct (base_of s n Hn) as (Hu & Mu & _). pose proof (closed_base s p n Hn Cl) as C. cbv zeta in C. set (u := n / 4 * 4) in *. clearbody u. clear Hn Cl Hz n.
    destruct (offs u Mu) as (O1 & O2 & O3 & O4 & O5 & O6 & _). pose proof (nxt_node s u Hu) as Hu1. rewrite O1 in Hu1. pose proof (prv_node s u Hu) as Hu2. rewrite O2 in Hu2.
    rewrite !(rel_ok s p) by (assumption || now left). cbn [bind]. rewrite (edge_bits_ok s p u G Hp Hu Mu). cbn [bind].
    destruct C as (C1 & C2 & C3). pose proof (g_cw _ _ G u Hu) as D. rewrite O1, O2 in D.
    assert (S : orient (P s u) (P s (u + 1)) (P s (u + 2)) = orient p (P s (u + 1)) (P s (u + 2)) + orient p (P s (u + 2)) (P s u) + orient p (P s u) (P s (u + 1))) by (unfold orient; ring).
    assert (Stay : forall r, (r = 0 \/ has s p) -> good limit s /\ extends s s /\ (r = 0 -> s = s) /\ (r <> 0 -> inbox p /\ has s p)).
    { intros r Hr. split; [assumption|]. split; [apply extends_refl|]. split; [reflexivity|]. intro Hz. destruct Hr as [Hr|Hr]; [contradiction|]. auto. }
    assert (Hv : forall m, node s m -> p = P s m -> has s p) by (intros m Hm Em; exists (pt s m); split; [now apply (g_pt _ _ G)|now symmetry]).
    assert (Edge : forall m, node s m -> orient p (P s (nxt m)) (P s (prv m)) = 0 -> orient (P s m) (P s (nxt m)) p < 0 -> orient (P s m) p (P s (prv m)) < 0 ->
      match (if size s >=? limit then Ok (s, 0) else ' (s0, b) <- insert_on_edge limit wrap fuel s (fst p) (snd p) m;; Ok (s0, if b : bool then m else 0)) with
      | Ok (s', r) => good limit s' /\ extends s s' /\ (r = 0 -> s' = s) /\ (r <> 0 -> inbox p /\ has s' p) | UB => wrap = false | Timeout => Z.of_nat fuel < far end).
    { clear D S C1 C2 C3. intros m Hm K1 K2 K3. destruct (Z.geb_spec (size s) limit) as [Hl|Hl]; [apply Stay; now left|].
      pose proof (on_edge_ok fuel s p m G Hm Hl Hb K1 K2 K3) as X. destruct (insert_on_edge limit wrap fuel s (fst p) (snd p) m) as [[s' b]| |]; cbn [bind]; [|exact X|exact X].
      destruct (tw s m =? 0); [destruct X as [-> ->]; apply Stay; now left|]. cbv zeta in X. destruct X as (-> & G' & F & G0).
      destruct (split4_extends s (fst p) (snd p) (Z.min m (tw s m)) G) as [E0 H0]. rewrite <- surjective_pairing in H0.
      pose proof (flips_extends _ _ G0 F) as E1. split; [assumption|]. split; [now apply (extends_trans s _ s' E0)|].
      split; [intro Z; exfalso; destruct Hm; lia|]. intros _. split; [assumption|]. now apply (has_extends _ s' p E1). }
    destruct (Z.ltb_spec (orient p (P s (u + 1)) (P s (u + 2))) 0) as [L1|L1]; destruct (Z.ltb_spec (orient p (P s (u + 2)) (P s u)) 0) as [L2|L2];
      destruct (Z.ltb_spec (orient p (P s u) (P s (u + 1))) 0) as [L3|L3]; try (exfalso; lia); cbn [Z.add Z.eqb Pos.eqb Pos.add Pos.succ].
    - (* inside *) destruct (Z.geb_spec (size s) limit) as [Hl|Hl]; [apply Stay; now left|].
      assert (K2 : orient (P s u) p (P s (u + 2)) < 0) by (rewrite <- (orient_rot (P s u)); exact L2).
      assert (K3 : orient (P s u) (P s (u + 1)) p < 0) by (rewrite (orient_rot p); exact L3).
      pose proof (in_face_ok fuel s p u G Hu Mu Hl Hb L1 K2 K3) as X. destruct (insert_in_face limit wrap fuel s (fst p) (snd p) u) as [s'| |]; cbn [bind]; [|exact X|exact X].
      destruct X as (G' & F & G0). destruct (split3_extends s (fst p) (snd p) u G) as [E0 H0]. rewrite <- surjective_pairing in H0.
      pose proof (flips_extends _ _ G0 F) as E1. split; [assumption|]. split; [now apply (extends_trans s (split3 s (fst p) (snd p) u))|].
      split; [intro Z; exfalso; destruct Hu; lia|]. intros _. split; [assumption|]. now apply (has_extends (split3 s (fst p) (snd p) u)).
    - apply Edge; rewrite ?O5, ?O6; [assumption|lia|rewrite (orient_rot p); exact L2|rewrite <- (orient_rot (P s (u + 2))); exact L1].
    - apply Edge; rewrite ?O3, ?O4; [assumption|lia|rewrite (orient_rot p); exact L1|rewrite <- (orient_rot (P s (u + 1))); exact L3].
    - apply Stay. right. apply (Hv u Hu). apply (at_vertex p _ (P s (u + 1)) (P s (u + 2))); lia.
    - replace (if size s >=? limit then Ok (s, 0) else ' (s0, b) <- insert_on_edge limit wrap fuel s (fst p) (snd p) (u + 0);; Ok (s0, if b : bool then u + 0 else 0))
        with (if size s >=? limit then Ok (s, 0) else ' (s0, b) <- insert_on_edge limit wrap fuel s (fst p) (snd p) u;; Ok (s0, if b : bool then u else 0)) by now rewrite Z.add_0_r.
      apply Edge; rewrite ?O1, ?O2; [assumption|lia|rewrite (orient_rot p); exact L3|rewrite <- (orient_rot (P s u)); exact L2].
    - apply Stay. right. apply (Hv _ Hu1). apply (at_vertex p _ (P s (u + 2)) (P s u)); lia.
    - apply Stay. right. apply (Hv _ Hu2). apply (at_vertex p _ (P s u) (P s (u + 1))); lia.
  Qed.
End Walk.
