(** The walk of locate. *)
From Verif Require Import Base Vec_Model Math_Model Vec_Spec Math_Spec Vec_Props Math_Proofs Cdt_Model Cdt_Geom Cdt_Mesh Cdt_Flip Cdt_Circle Cdt_Insert Cdt_OnEdge Cdt_Walk Cdt_Spec Cdt_Tile.
Local Open Scope Z_scope.

Section Locate.
  Context (limit q : Z).

  (** A vertex in the user's units. *)
  Definition scaled (a : point) : point := (fst a * 2 ^ q, snd a * 2 ^ q).
  Definition PS (s : mesh) (n : Z) : point := scaled (P s n).
  (** The differences between p and the vertices of the square fit an int32_t. *)
  Definition fits (p : point) : Prop := forall c, lo <= c <= hi -> in_s 32 (c * 2 ^ q) /\ in_s 32 (c * 2 ^ q - fst p) /\ in_s 32 (c * 2 ^ q - snd p).
  Definition turn3 (s : mesh) (p : point) (n m : Z) : Z := orient (vertex (PS s n)) (vertex (PS s m)) (query p).

  Lemma rel32_ok s p n : good limit s -> fits p -> face_or_nil s n -> rel32 limit q s (fst p) (snd p) n = Ok (vsub (PS s n) p).
  Proof.
    intros G Hp Hn. unfold rel32, get_p. rewrite (fn_edge limit s n G Hn). cbn [bind]. rewrite (get_v_ok limit s _ G (fn_pt limit s n G Hn)). cbn [bind].
    destruct (fn_box limit s n G Hn) as [B1 B2]. destruct (Hp _ B1) as (X1 & X2 & _). destruct (Hp _ B2) as (Y1 & _ & Y2).
    unfold P, V in X1, X2, Y1, Y2. cbn [fst snd] in *. rewrite (chk32_ok _ X1). cbn [bind]. rewrite (chk32_ok _ X2). cbn [bind]. rewrite (chk32_ok _ Y1). cbn [bind]. rewrite (chk32_ok _ Y2). reflexivity.
  Qed.
  Lemma inside_turn s p n m : good limit s -> fits p -> face_or_nil s n -> face_or_nil s m -> 
    exists r, inside (vsub (PS s n) p) (vsub (PS s m) p) = Ok r /\ (r = true <-> turn3 s p n m < 0) /\ (PS s n <> PS s m -> turn3 s p n m <> 0).
  Proof.
    intros G Hp Hn Hm.
    assert (B : forall k, face_or_nil s k -> int33 (fst (vsub (PS s k) p)) /\ int33 (snd (vsub (PS s k) p))).
    { intros k Hk. destruct (fn_box limit s k G Hk) as [B1 B2]. destruct (Hp _ B1) as (_ & X & _). destruct (Hp _ B2) as (_ & _ & Y). unfold in_s, int33 in *. change (2 ^ (32 - 1)) with 2147483648 in *. change (2 ^ 31) with 2147483648 in *. unfold vsub, PS, scaled. cbn [fst snd]. lia. }
    destruct (B n Hn) as [A1 A2]. destruct (B m Hm) as [C1 C2].
    destruct (inside_moved M0 _ _ (Z.le_refl _) A1 A2 C1 C2) as (r & E & R & Z0). exists r. unfold turn3. rewrite orient_cross. split; [assumption|]. split; [assumption|].
    intro D. apply Z0. intro K. apply D. unfold vsub in K. destruct (PS s n), (PS s m). cbn [fst snd] in K. injection K as K1 K2. f_equal; lia.
  Qed.
  Lemma turn3_anti s p n m : turn3 s p m n = - turn3 s p n m.
  Proof. unfold turn3, orient. ring. Qed.

  Definition inside_face (s : mesh) (p : point) (n : Z) : Prop := turn3 s p n (nxt n) < 0 /\ turn3 s p (nxt n) (prv n) < 0 /\ turn3 s p (prv n) n < 0.
  (** p is beyond a side of the square. *)
  Definition outside (s : mesh) (p : point) : Prop := exists m, node s m /\ tw s m = 0 /\ 0 <= turn3 s p (nxt m) (prv m).
  Definition at32 (s : mesh) (p : point) (e : Z) (p1 p2 : Z * Z) : Prop :=
    (e = 0 /\ outside s p) \/ (node s e /\ p1 = vsub (PS s (nxt e)) p /\ p2 = vsub (PS s (prv e)) p /\ turn3 s p (nxt e) (prv e) < 0).
  Definition found32 (s : mesh) (p : point) (r : res Z) : Prop :=
    match r with Ok n => (n = 0 /\ outside s p) \/ (exists e, node s e /\ n = Z.lor e 3 /\ inside_face s p e) | UB => False | Timeout => True end.

  Hypothesis Hq : 0 <= q.
  Lemma scaled_inj a b : scaled a = scaled b -> a = b.
  Proof. destruct a as [x y], b as [z t]. unfold scaled. cbn [fst snd]. intro H. injection H as H1 H2. assert (0 < 2 ^ q) by (apply Z.pow_pos_nonneg; lia). f_equal; nia. Qed.
  Lemma ends_differ s e : good limit s -> node s e -> PS s (nxt e) <> PS s (prv e).
  Proof. intros G He E. apply scaled_inj in E. pose proof (g_cw _ _ G e He) as C. rewrite E in C. unfold orient in C. lia. Qed.

  Lemma over32 s p e : good limit s -> fits p -> node s e -> 0 <= turn3 s p (nxt e) (prv e) -> at32 s p (tw s e) (vsub (PS s (prv e)) p) (vsub (PS s (nxt e)) p).
  Proof.
    intros G Hp He Ho. assert (F1 : face_or_nil s (nxt e)) by (left; now apply nxt_node). assert (F2 : face_or_nil s (prv e)) by (left; now apply prv_node).
    destruct (twz limit s e G He) as [E|[Hn _]]; [left; split; [assumption|exists e; auto]|right].
    assert (Hz : tw s e <> 0) by (destruct Hn; lia). split; [assumption|].
    pose proof (ea_tw limit s G e He Hz) as E1. pose proof (eb_tw limit s G e He Hz) as E2. unfold ea, eb in E1, E2.
    destruct (inside_turn s p _ _ G Hp F1 F2) as (_ & _ & _ & Z0). specialize (Z0 (ends_differ s e G He)).
    assert (Ea : PS s (nxt (tw s e)) = PS s (prv e)) by (unfold PS, P; now rewrite E1). assert (Eb : PS s (prv (tw s e)) = PS s (nxt e)) by (unfold PS, P; now rewrite E2).
    unfold turn3. rewrite Ea, Eb. split; [reflexivity|]. split; [reflexivity|]. fold (turn3 s p (prv e) (nxt e)). rewrite turn3_anti. lia.
  Qed.
  Lemma over32_nxt s p e : good limit s -> fits p -> node s e -> 0 <= turn3 s p (prv e) e -> at32 s p (tw s (nxt e)) (vsub (PS s e) p) (vsub (PS s (prv e)) p).
  Proof. intros G Hp He Ho. pose proof (node_mod s e He) as M. pose proof (over32 s p (nxt e) G Hp (nxt_node s e He)) as H. rewrite (nxt_nxt e M), (prv_nxt e M) in H. now apply H. Qed.
  Lemma over32_prv s p e : good limit s -> fits p -> node s e -> 0 <= turn3 s p e (nxt e) -> at32 s p (tw s (prv e)) (vsub (PS s (nxt e)) p) (vsub (PS s e) p).
  Proof. intros G Hp He Ho. pose proof (node_mod s e He) as M. pose proof (over32 s p (prv e) G Hp (prv_node s e He)) as H. rewrite (nxt_prv e M), (prv_prv e M) in H. now apply H. Qed.

  Lemma spin32_ok fuel : forall s p e p1 p2, good limit s -> fits p -> at32 s p e p1 p2 ->
    match spin32 limit q fuel s (fst p) (snd p) e p1 p2 with
    | Ok None => outside s p
    | Ok (Some (e', p0, p2')) => node s e' /\ p0 = vsub (PS s e') p /\ at32 s p e' p1 p2' /\ turn3 s p e' (nxt e') < 0
    | UB => False | Timeout => True
    end.
  Proof.
    induction fuel as [|fuel IH]; intros s p e p1 p2 G Hp H; [exact I|]. cbn [spin32]. destruct (Z.eqb_spec e 0) as [E0|Hz].
    { destruct H as [[_ H]|[[H _] _]]; [assumption|lia]. }
    destruct H as [[H _]|(He & -> & -> & Ho)]; [contradiction|].
    assert (F0 : face_or_nil s e) by now left. assert (F1 : face_or_nil s (nxt e)) by (left; now apply nxt_node).
    rewrite (rel32_ok s p e G Hp F0). cbn [bind]. destruct (inside_turn s p e _ G Hp F0 F1) as (r & -> & R & _). cbn [bind]. destruct r.
    - pose proof (proj1 R eq_refl) as L. split; [assumption|]. split; [reflexivity|]. split; [right; auto|assumption].
    - assert (L : 0 <= turn3 s p e (nxt e)) by (apply Z.nlt_ge; intro L; apply R in L; discriminate).
      rewrite (proj1 (fn_e limit s (prv e) G (or_introl (prv_node s e He)))). cbn [bind]. apply IH; [assumption|assumption|]. now apply over32_prv.
  Qed.

  Lemma walk32_ok fuel : forall s p e p1 p2, good limit s -> fits p -> at32 s p e p1 p2 -> found32 s p (walk32 limit q fuel s (fst p) (snd p) e p1 p2).
  Proof.
    induction fuel as [|fuel IH]; intros s p e p1 p2 G Hp H; [exact I|]. cbn [walk32]. destruct (Z.eqb_spec e 0) as [E0|Hz].
    { destruct H as [[_ H]|[[H _] _]]; [left; auto|lia]. }
    destruct H as [[H _]|(He & -> & -> & Ho)]; [contradiction|].
    assert (F0 : face_or_nil s e) by now left. assert (F1 : face_or_nil s (nxt e)) by (left; now apply nxt_node). assert (F2 : face_or_nil s (prv e)) by (left; now apply prv_node).
    rewrite (rel32_ok s p e G Hp F0). cbn [bind]. destruct (inside_turn s p _ e G Hp F2 F0) as (r1 & -> & R1 & _). destruct (inside_turn s p e _ G Hp F0 F1) as (r2 & -> & R2 & _). cbn [bind].
    assert (N : forall (r : bool) x, (r = true <-> x < 0) -> if r then x < 0 else 0 <= x) by (intros [|] x R; [now apply R|apply Z.nlt_ge; intro L; apply R in L; discriminate]).
    apply N in R1. apply N in R2.
    destruct r1, r2; cbn [andb negb].
    - right. exists e. split; [assumption|]. split; [reflexivity|]. unfold inside_face. auto.
    - rewrite (proj1 (fn_e limit s (prv e) G F2)). cbn [bind]. apply IH; [assumption..|now apply over32_prv].
    - rewrite (proj1 (fn_e limit s (nxt e) G F1)). cbn [bind]. apply IH; [assumption..|now apply over32_nxt].
    - rewrite (proj1 (fn_e limit s (nxt e) G F1)). cbn [bind].
      pose proof (spin32_ok fuel s p _ _ _ G Hp (over32_nxt s p e G Hp He R1)) as X.
      destruct (spin32 limit q fuel s (fst p) (snd p) (tw s (nxt e)) (vsub (PS s e) p) (vsub (PS s (prv e)) p)) as [[[[e' p0'] p2']|]| |]; cbn [bind]; [|now left|contradiction|exact I].
      destruct X as (He' & -> & [[K _]|(_ & _ & -> & Ho')] & L3); [exfalso; destruct He'; lia|].
      assert (F0' : face_or_nil s e') by now left. assert (F1' : face_or_nil s (nxt e')) by (left; now apply nxt_node). assert (F2' : face_or_nil s (prv e')) by (left; now apply prv_node).
      destruct (inside_turn s p _ e' G Hp F2' F0') as (r & -> & R & _). cbn [bind]. apply N in R. destruct r.
      + right. exists e'. split; [assumption|]. split; [reflexivity|]. unfold inside_face. auto.
      + rewrite (proj1 (fn_e limit s (nxt e') G F1')). cbn [bind]. apply IH; [assumption..|now apply over32_nxt].
  Qed.

  Lemma locate_ok fuel s p h : good limit s -> fits p -> found32 s p (locate limit q fuel s (fst p) (snd p) h).
  Proof.
    intros G Hp. unfold locate. cbv zeta. pose proof (g_size _ _ G) as Gs.
    set (e := if (h / 4 * 4 <? 24) || (h / 4 * 4 >? size s * 8 - 4) then size s * 8 - 4 else h / 4 * 4).
    assert (M : e mod 4 = 0). { unfold e. destruct (_ || _); [replace (size s * 8 - 4) with ((size s * 2 - 1) * 4) by ring|]; apply Z.mod_mul; lia. }
    assert (He : node s e). { split; [|lia]. unfold e. destruct (Z.ltb_spec (h / 4 * 4) 24); cbn [orb]; [lia|]. destruct (Z.gtb_spec (h / 4 * 4) (size s * 8 - 4)); lia. }
    clearbody e. destruct (offs e M) as (O1 & O2 & _). rewrite <- O1, <- O2.
    assert (F0 : face_or_nil s e) by now left. assert (F1 : face_or_nil s (nxt e)) by (left; now apply nxt_node). assert (F2 : face_or_nil s (prv e)) by (left; now apply prv_node).
    rewrite (rel32_ok s p _ G Hp F1), (rel32_ok s p _ G Hp F2). cbn [bind]. destruct (inside_turn s p _ _ G Hp F1 F2) as (r & -> & R & _). cbn [bind]. destruct r; cbn [negb].
    - apply walk32_ok; [assumption..|]. right. split; [assumption|]. split; [reflexivity|]. split; [reflexivity|]. now apply R.
    - rewrite (proj1 (fn_e limit s e G F0)). cbn [bind]. apply walk32_ok; [assumption..|]. apply over32; [assumption..|]. apply Z.nlt_ge. intro L. apply R in L. discriminate.
  Qed.
End Locate.
