(** Edge flips keep the invariant. *)
From Verif Require Import Base Vec_Model Math_Model Vec_Spec Cdt_Model Cdt_Geom Cdt_Mesh.
Local Open Scope Z_scope.

Lemma put_eq f i v : put f i v i = v.
Proof. unfold put. now rewrite Z.eqb_refl. Qed.
Lemma put_ne f i v j : j <> i -> put f i v j = f j.
Proof. intro H. unfold put. apply Z.eqb_neq in H. now rewrite H. Qed.

Definition putnz (f : Z -> Z) (i v : Z) : Z -> Z := if negb (i =? 0) then put f i v else f.
Lemma putnz_eq f i v : i <> 0 -> putnz f i v i = v.
Proof. intro H. unfold putnz. apply Z.eqb_neq in H. rewrite H. cbn [negb]. apply put_eq. Qed.
Lemma putnz_ne f i v j : j <> i -> putnz f i v j = f j.
Proof. intro H. unfold putnz. destruct (negb (i =? 0)); [now apply put_ne|reflexivity]. Qed.

Ltac neq := solve [assumption | apply not_eq_sym; assumption].
Ltac puts := repeat match goal with
  | |- context [put ?f ?i ?v ?i] => rewrite (put_eq f i v)
  | |- context [put ?f ?i ?v ?j] => rewrite (put_ne f i v j) by neq
  | |- context [putnz ?f ?i ?v ?i] => rewrite (putnz_eq f i v) by neq
  | |- context [putnz ?f ?i ?v ?j] => rewrite (putnz_ne f i v j) by neq
  end.

Section Flip.
  Context (limit q : Z) (wrap : bool).

  Lemma edge_ok s n : good limit s -> node s n -> edge_node limit n = true.
  Proof.
    intros G [H1 H2]. pose proof (g_size _ _ G). unfold edge_node. apply Z.eqb_neq in H2. rewrite H2. cbn [negb]. rewrite andb_true_r.
    apply andb_true_iff. split; [apply Z.leb_le|apply Z.ltb_lt]; lia.
  Qed.
  Lemma edge_ok' n : 0 <= n < 8 * limit -> n mod 4 <> 3 -> edge_node limit n = true.
  Proof.
    intros H1 H2. unfold edge_node. apply Z.eqb_neq in H2. rewrite H2. cbn [negb]. rewrite andb_true_r.
    apply andb_true_iff. split; [apply Z.leb_le|apply Z.ltb_lt]; lia.
  Qed.
  Lemma p_small s v : good limit s -> 0 <= v < size s -> v mod 2 ^ 13 = v.
  Proof. intros G H. pose proof (g_size _ _ G). pose proof (g_limit _ _ G). change (2 ^ 13) with 8192. apply Z.mod_small. lia. Qed.
  Lemma e_small s n : good limit s -> 0 <= n < 8 * size s -> u16 n = n.
  Proof. intros G H. pose proof (g_size _ _ G). pose proof (g_limit _ _ G). unfold u16. change (2 ^ 16) with 65536. apply Z.mod_small. lia. Qed.

  Lemma node_small s n : good limit s -> node s n -> u16 n = n.
  Proof. intros G [H _]. apply (e_small s); [assumption|lia]. Qed.

  (** The mesh after do_flip. *)
  Definition flipped (s : mesh) (ae : Z) : mesh :=
    let be := tw s ae in
    let a1 := nxt ae in let a2 := prv ae in let b1 := nxt be in let b2 := prv be in
    {| size := size s;
       pt := put (put (pt s) a1 (pt s be)) b1 (pt s ae);
       tw := put (put (putnz (put (putnz (put (tw s) ae (tw s b2)) (tw s b2) ae) be (tw s a2)) (tw s a2) be) a2 b2) b2 a2;
       co := put (put (put (put (co s) ae (co s b2)) b2 0) be (co s a2)) a2 0;
       fi := fi s; vx := vx s; vy := vy s |}.

  (** The two faces and their neighbours. *)
  Record around (s : mesh) (ae : Z) : Prop := {
    ar_a : node s ae; ar_a1 : node s (nxt ae); ar_a2 : node s (prv ae);
    ar_b : node s (tw s ae); ar_b1 : node s (nxt (tw s ae)); ar_b2 : node s (prv (tw s ae));
    ar_tt : tw s (tw s ae) = ae; ar_cc : co s (tw s ae) = co s ae;
    ar_p1 : pt s (nxt (tw s ae)) = pt s (prv ae); ar_p2 : pt s (prv (tw s ae)) = pt s (nxt ae);
    ar_f : ae / 4 <> tw s ae / 4;
    ar_u : tw s (prv ae) = 0 \/ (node s (tw s (prv ae)) /\ tw s (tw s (prv ae)) = prv ae /\ tw s (prv ae) / 4 <> ae / 4 /\ tw s (prv ae) / 4 <> tw s ae / 4);
    ar_v : tw s (prv (tw s ae)) = 0 \/ (node s (tw s (prv (tw s ae))) /\ tw s (tw s (prv (tw s ae))) = prv (tw s ae) /\ tw s (prv (tw s ae)) / 4 <> ae / 4 /\ tw s (prv (tw s ae)) / 4 <> tw s ae / 4)
  }.

  Lemma around_ok s ae : good limit s -> node s ae -> tw s ae <> 0 -> around s ae.
  Proof.
    intros G Ha Hz. pose proof (tw_node limit s G ae Ha Hz) as Hb. pose proof (tw_tw limit s G ae Ha Hz) as Htt.
    pose proof (node_mod s ae Ha) as Ma. pose proof (node_mod s _ Hb) as Mb.
    assert (Hbz : tw s (tw s ae) <> 0) by (rewrite Htt; now apply (node_nz s)).
    constructor; try assumption; try (now apply nxt_node); try (now apply prv_node).
    - now apply (co_tw limit s G).
    - now apply (ea_tw limit s G).
    - now apply (eb_tw limit s G).
    - intro E. now apply (tw_other limit s G ae Ha Hz).
    - destruct (Z.eq_dec (tw s (prv ae)) 0) as [E|E]; [now left|right]. pose proof (prv_node s ae Ha) as Ha2. split; [now apply (tw_node limit s G)|]. split; [now apply (tw_tw limit s G)|]. split.
      + pose proof (tw_other limit s G (prv ae) Ha2 E) as H. now rewrite (prv_face ae Ma) in H.
      + apply (two_shared' limit s G (prv ae) ae Ha2 Ha); [now apply prv_face|now apply prv_ne|assumption|assumption].
    - destruct (Z.eq_dec (tw s (prv (tw s ae))) 0) as [E|E]; [now left|right]. pose proof (prv_node s _ Hb) as Hb2. split; [now apply (tw_node limit s G)|]. split; [now apply (tw_tw limit s G)|]. split.
      + replace (ae / 4) with (tw s (tw s ae) / 4) by now rewrite Htt. apply (two_shared' limit s G (prv (tw s ae)) (tw s ae) Hb2 Hb); [now apply prv_face|now apply prv_ne|assumption|assumption].
      + pose proof (tw_other limit s G (prv (tw s ae)) Hb2 E) as H. now rewrite (prv_face _ Mb) in H.
  Qed.

  (** Everything around an edge as variables with all the disequalities between them. *)
  Lemma around_ne s ae : around s ae ->
    let be := tw s ae in
    let a1 := nxt ae in let a2 := prv ae in let b1 := nxt be in let b2 := prv be in
    ae <> a1 /\ ae <> a2 /\ a1 <> a2 /\ be <> b1 /\ be <> b2 /\ b1 <> b2 /\
    ae <> be /\ ae <> b1 /\ ae <> b2 /\ a1 <> be /\ a1 <> b1 /\ a1 <> b2 /\ a2 <> be /\ a2 <> b1 /\ a2 <> b2 /\
    (forall k, (k = tw s a2 \/ k = tw s b2) -> k <> ae /\ k <> a1 /\ k <> a2 /\ k <> be /\ k <> b1 /\ k <> b2) /\
    (tw s a2 <> 0 -> tw s a2 <> tw s b2).
  Proof.
    intros [A0 A1 A2 B0 B1 B2 Htt Hcc P1 P2 F U Vv]. cbv zeta.
    pose proof (node_mod s ae A0) as Ma. pose proof (node_mod s _ B0) as Mb.
    pose proof (nxt_ne ae Ma). pose proof (prv_ne ae Ma). pose proof (nxt_ne_prv ae Ma).
    pose proof (nxt_ne _ Mb). pose proof (prv_ne _ Mb). pose proof (nxt_ne_prv _ Mb).
    pose proof (nxt_face ae) as Fa1. pose proof (prv_face ae Ma) as Fa2. pose proof (nxt_face (tw s ae)) as Fb1. pose proof (prv_face _ Mb) as Fb2.
    do 15 (split; [congruence|]). split.
    - intros k Hk. assert (X : k = 0 \/ (k / 4 <> ae / 4 /\ k / 4 <> tw s ae / 4)).
      { destruct Hk as [-> | ->]; [destruct U as [E|(_ & _ & E)]|destruct Vv as [E|(_ & _ & E)]]; auto. }
      destruct X as [-> |[X1 X2]]; [repeat split; apply not_eq_sym, (node_nz s); assumption|].
      repeat split; intro E; rewrite E in *; congruence.
    - intros Hz E. destruct U as [U|(_ & U & _)]; [contradiction|]. destruct Vv as [Vv|(_ & Vv & _)]; [congruence|].
      assert (prv ae = prv (tw s ae)) by congruence. congruence.
  Qed.

  Lemma do_flip_ok s ae : good limit s -> node s ae -> tw s ae <> 0 -> do_flip limit s ae = Ok (flipped s ae).
  Proof.
    intros G Ha Hz. pose proof (around_ok s ae G Ha Hz) as R. pose proof (around_ne s ae R) as N. destruct R as [A0 A1 A2 B0 B1 B2 Htt Hcc P1 P2 F U Vv].
    unfold flipped, do_flip, get_e. rewrite (edge_ok s ae G A0). cbn [bind]. cbv zeta in *.
    remember (tw s ae) as be eqn:Hbe. remember (nxt ae) as a1 eqn:Ha1. remember (prv ae) as a2 eqn:Ha2. remember (nxt be) as b1 eqn:Hb1. remember (prv be) as b2 eqn:Hb2.
    destruct N as (N1 & N2 & N3 & N4 & N5 & N6 & N7 & N8 & N9 & N10 & N11 & N12 & N13 & N14 & N15 & N16 & N17).
    pose proof (edge_ok s _ G A0) as Ea. pose proof (edge_ok s _ G A1) as Ea1. pose proof (edge_ok s _ G A2) as Ea2.
    pose proof (edge_ok s _ G B0) as Eb. pose proof (edge_ok s _ G B1) as Eb1. pose proof (edge_ok s _ G B2) as Eb2.
    unfold get_p, set_p, get_e, get_c.
    rewrite Eb, Ea1. cbn [bind pt tw co size fi vx vy]. rewrite Ea, Eb1. cbn [bind pt tw co size fi vx vy].
    rewrite (put_ne _ a1 _ ae) by congruence. rewrite Ea2. cbn [bind pt tw co size fi vx vy]. rewrite Eb2. cbn [bind pt tw co size fi vx vy].
    rewrite (p_small s (pt s be) G (g_pt _ _ G _ B0)), (p_small s (pt s ae) G (g_pt _ _ G _ A0)).
    assert (Ku : u16 (tw s a2) = tw s a2 /\ (tw s a2 <> 0 -> edge_node limit (tw s a2) = true)).
    { destruct U as [-> |(Hn & _)]; [split; [reflexivity|congruence]|]. split; [|intros _; now apply (edge_ok s)]. now apply (node_small s). }
    assert (Kv : u16 (tw s b2) = tw s b2 /\ (tw s b2 <> 0 -> edge_node limit (tw s b2) = true)).
    { destruct Vv as [-> |(Hn & _)]; [split; [reflexivity|congruence]|]. split; [|intros _; now apply (edge_ok s)]. now apply (node_small s). }
    destruct Ku as [Ku Ku'], Kv as [Kv Kv'].
    assert (Kn : forall n, node s n -> u16 n = n) by (intros n Hn; now apply (node_small s)).
    unfold set_e at 1. rewrite Ea. cbn [bind pt tw co size fi vx vy]. rewrite Kv.
    unfold putnz.
    assert (S1 : forall s1, (if negb (tw s b2 =? 0) then set_e limit s1 (tw s b2) ae else Ok s1) =
      Ok {| size := size s1; pt := pt s1; tw := (if negb (tw s b2 =? 0) then put (tw s1) (tw s b2) ae else tw s1); co := co s1; fi := fi s1; vx := vx s1; vy := vy s1 |}).
    { intro s1. destruct (Z.eqb_spec (tw s b2) 0) as [E|E]; cbn [negb]; [destruct s1; reflexivity|]. unfold set_e. rewrite (Kv' E), (Kn ae A0). reflexivity. }
    rewrite S1. clear S1. cbn [bind pt tw co size fi vx vy].
    unfold set_e at 1. rewrite Eb. cbn [bind pt tw co size fi vx vy]. rewrite Ku.
    assert (S1 : forall s1, (if negb (tw s a2 =? 0) then set_e limit s1 (tw s a2) be else Ok s1) =
      Ok {| size := size s1; pt := pt s1; tw := (if negb (tw s a2 =? 0) then put (tw s1) (tw s a2) be else tw s1); co := co s1; fi := fi s1; vx := vx s1; vy := vy s1 |}).
    { intro s1. destruct (Z.eqb_spec (tw s a2) 0) as [E|E]; cbn [negb]; [destruct s1; reflexivity|]. unfold set_e. rewrite (Ku' E), (Kn be B0). reflexivity. }
    rewrite S1. clear S1. cbn [bind pt tw co size fi vx vy].
    unfold set_c. rewrite Ea, Eb2. cbn [bind pt tw co size fi vx vy]. rewrite Ea2. cbn [bind pt tw co size fi vx vy].
    rewrite Eb. cbn [bind pt tw co size fi vx vy].
    unfold set_e. rewrite Ea2. cbn [bind pt tw co size fi vx vy]. rewrite Eb2. rewrite (Kn _ A2), (Kn _ B2).
    rewrite (put_ne _ b2 _ a2) by congruence. rewrite (put_ne _ ae _ a2) by congruence.
    assert (C : forall n, node s n -> co s n mod 2 ^ 3 = co s n) by (intros n Hn; destruct (g_co _ _ G n Hn) as [-> | ->]; reflexivity).
    rewrite (C _ B2), (C _ A2). reflexivity.
  Qed.

  Lemma nxt_inj n m : n mod 4 <> 3 -> m mod 4 <> 3 -> nxt n = nxt m -> n = m.
  Proof. intros Hn Hm E. rewrite <- (prv_nxt n Hn), <- (prv_nxt m Hm). now rewrite E. Qed.
  Lemma prv_inj n m : n mod 4 <> 3 -> m mod 4 <> 3 -> prv n = prv m -> n = m.
  Proof. intros Hn Hm E. rewrite <- (nxt_prv n Hn), <- (nxt_prv m Hm). now rewrite E. Qed.

  Definition fphi (s : mesh) (ae n : Z) : Z := if n =? prv (tw s ae) then ae else if n =? prv ae then tw s ae else n.

  (** The edges ae and its twin now run between the other two vertices: as nodes a2 and b2. *)
  Lemma flip_relabel s ae : good limit s -> node s ae -> tw s ae <> 0 ->
    relabel s (flipped s ae) (fphi s ae) (fun n => n = ae \/ n = tw s ae) (fun m => m = prv ae \/ m = prv (tw s ae)).
  Proof.
    intros G Ha Hz. pose proof (around_ok s ae G Ha Hz) as R. pose proof (around_ne s ae R) as N. destruct R as [A0 A1 A2 B0 B1 B2 Htt Hcc P1 P2 F U Vv].
    cbv zeta in N. assert (Ns : forall n, node (flipped s ae) n <-> node s n) by (intro n; reflexivity).
    pose proof (node_mod s ae A0) as Ma. pose proof (node_mod s _ B0) as Mb.
    assert (X1 : forall n, node s n -> n <> ae -> nxt n <> nxt ae) by (intros n Hn D E; apply D, nxt_inj; [exact (node_mod s n Hn)|assumption|assumption]).
    assert (X2 : forall n, node s n -> n <> tw s ae -> nxt n <> nxt (tw s ae)) by (intros n Hn D E; apply D, nxt_inj; [exact (node_mod s n Hn)|assumption|assumption]).
    assert (X3 : forall n, node s n -> n <> prv ae -> prv n <> nxt ae).
    { intros n Hn D E. apply D. rewrite <- (prv_prv ae Ma) in E. apply prv_inj in E; [assumption|exact (node_mod s n Hn)|now apply prv_mod]. }
    assert (X4 : forall n, node s n -> n <> prv (tw s ae) -> prv n <> nxt (tw s ae)).
    { intros n Hn D E. apply D. rewrite <- (prv_prv _ Mb) in E. apply prv_inj in E; [assumption|exact (node_mod s n Hn)|now apply prv_mod]. }
    pose proof (nxt_prv ae Ma) as Y1. pose proof (nxt_prv _ Mb) as Y2. pose proof (prv_prv ae Ma) as Y3. pose proof (prv_prv _ Mb) as Y4.
    remember (tw s ae) as be eqn:Hbe. remember (nxt ae) as a1 eqn:Ha1. remember (prv ae) as a2 eqn:Ha2. remember (nxt be) as b1 eqn:Hb1. remember (prv be) as b2 eqn:Hb2.
    destruct N as (N1 & N2 & N3 & N4 & N5 & N6 & N7 & N8 & N9 & N10 & N11 & N12 & N13 & N14 & N15 & N16 & N17).
    destruct (N16 _ (or_introl eq_refl)) as (U1 & U2 & U3 & U4 & U5 & U6). destruct (N16 _ (or_intror eq_refl)) as (W1 & W2 & W3 & W4 & W5 & W6). clear N16.
    assert (Qt : forall n, tw (flipped s ae) n = put (put (putnz (put (putnz (put (tw s) ae (tw s b2)) (tw s b2) ae) be (tw s a2)) (tw s a2) be) a2 b2) b2 a2 n)
      by (intro n; unfold flipped; cbn [tw]; rewrite <- Hbe, <- Ha2, <- Hb2; reflexivity).
    assert (Qc : forall n, co (flipped s ae) n = put (put (put (put (co s) ae (co s b2)) b2 0) be (co s a2)) a2 0 n)
      by (intro n; unfold flipped; cbn [co]; rewrite <- Hbe, <- Ha2, <- Hb2; reflexivity).
    assert (Qp : forall n, pt (flipped s ae) n = put (put (pt s) a1 (pt s be)) b1 (pt s ae) n)
      by (intro n; unfold flipped; cbn [pt]; rewrite <- Hbe, <- Ha1, <- Hb1; reflexivity).
    unfold relabel, fphi. rewrite <- Hbe, <- Ha2, <- Hb2. clear F.
    split; [|split; [|split]].
    - intros n Hn HD. assert (Da : n <> ae) by tauto. assert (Db : n <> be) by tauto. clear HD.
      destruct (Z.eqb_spec n b2) as [En|E1]; [subst n|destruct (Z.eqb_spec n a2) as [En|E2]; [subst n|]].
      + rewrite Ns. unfold ea, eb. rewrite <- ?Ha1, <- ?Ha2, <- ?Hb2, <- ?Hb1, ?Y2, ?Y4, !Qp, Qc, Qt. puts.
        do 5 (split; [first [assumption | reflexivity | congruence | tauto | (intros [? | ?]; congruence)]|]).
        split; [auto|]. intro Hv. split; [intros [? | ?]; congruence|]. destruct (Z.eqb_spec (tw s b2) b2); [contradiction|]. destruct (Z.eqb_spec (tw s b2) a2); [contradiction|reflexivity].
      + rewrite Ns. unfold ea, eb. rewrite <- ?Ha2, <- ?Hb1, <- ?Hb2, <- ?Ha1, ?Y1, ?Y3, !Qp, Qc, Qt. puts.
        do 5 (split; [first [assumption | reflexivity | congruence | tauto | (intros [? | ?]; congruence)]|]).
        split; [auto|]. intro Hv. split; [intros [? | ?]; congruence|]. destruct (Z.eqb_spec (tw s a2) b2); [contradiction|]. destruct (Z.eqb_spec (tw s a2) a2); [contradiction|reflexivity].
      + rewrite Ns. unfold ea, eb. rewrite !Qp, Qc, Qt. specialize (X1 n Hn Da). specialize (X2 n Hn Db). specialize (X3 n Hn E2). specialize (X4 n Hn E1). puts.
        do 5 (split; [first [assumption | reflexivity | (intros [? | ?]; congruence)]|]).
        assert (Hn0 : n <> 0) by now apply (node_nz s).
        assert (Tn : tw s n <> 0 -> tw s (tw s n) = n) by (apply (tw_tw limit s G n Hn)).
        destruct (Z.eq_dec n (tw s a2)) as [Eu|Eu]; [|destruct (Z.eq_dec n (tw s b2)) as [Ev|Ev]].
        * subst n. destruct U as [U|(_ & U & _)]; [congruence|]. puts. rewrite U.
          split; [intro X; exfalso; exact (node_nz s _ A2 X)|]. intros _. split; [intros [? | ?]; congruence|]. rewrite (proj2 (Z.eqb_neq a2 b2) N15), Z.eqb_refl. reflexivity.
        * subst n. destruct Vv as [Vv|(_ & Vv & _)]; [congruence|]. puts. rewrite Vv.
          split; [intro X; exfalso; exact (node_nz s _ B2 X)|]. intros _. split; [intros [? | ?]; congruence|]. rewrite Z.eqb_refl. reflexivity.
        * puts. split; [auto|]. intro Hv. specialize (Tn Hv). split; [intros [T | T]; rewrite T in Tn; congruence|].
          destruct (Z.eqb_spec (tw s n) b2) as [T|T]; [rewrite T in Tn; congruence|]. destruct (Z.eqb_spec (tw s n) a2) as [T'|T']; [rewrite T' in Tn; congruence|reflexivity].
    - intros m Hm. destruct (Z.eq_dec m a2) as [E|E]; [left; left; exact E|]. destruct (Z.eq_dec m b2) as [E'|E']; [left; right; exact E'|]. right.
      destruct (Z.eq_dec m ae) as [Ea|Ea]; [exists b2|destruct (Z.eq_dec m be) as [Eb|Eb]; [exists a2|exists m]].
      + split; [assumption|]. split; [intros [? | ?]; congruence|]. rewrite Z.eqb_refl. congruence.
      + split; [assumption|]. split; [intros [? | ?]; congruence|]. rewrite (proj2 (Z.eqb_neq a2 b2) N15), Z.eqb_refl. congruence.
      + split; [exact Hm|]. split; [intros [? | ?]; congruence|]. apply Z.eqb_neq in E, E'. now rewrite E, E'.
    - intros n Hn [-> | ->]; [congruence|rewrite Htt; now apply (node_nz s)].
    - intros m Hm HN. assert (T : tw (flipped s ae) a2 = b2 /\ tw (flipped s ae) b2 = a2) by (rewrite !Qt; split; puts; reflexivity). destruct T as [T1 T2].
      assert (C : co (flipped s ae) a2 = 0 /\ co (flipped s ae) b2 = 0) by (rewrite !Qc; split; puts; reflexivity). destruct C as [C1 C2].
      unfold twins, ea, eb. destruct HN as [-> | ->]; rewrite ?T1, ?T2, ?C1, ?C2, ?Y1, ?Y2, ?Y3, ?Y4, !Qp; puts.
      + split; [exact B2|]. auto.
      + split; [exact A2|]. auto.
  Qed.

  (** The orientation of a face, from any of its nodes. *)
  Definition turn (s : mesh) (n : Z) : Z := orient (P s n) (P s (nxt n)) (P s (prv n)).
  Lemma turn_nxt s n : n mod 4 <> 3 -> turn s (nxt n) = turn s n.
  Proof. intro H. unfold turn. rewrite (nxt_nxt n H), (prv_nxt n H). apply orient_rot. Qed.
  Lemma turn_prv s n : n mod 4 <> 3 -> turn s (prv n) = turn s n.
  Proof. intro H. rewrite <- (turn_nxt s (prv n)) by now apply prv_mod. now rewrite nxt_prv. Qed.
  Lemma turn_face s n m : n mod 4 <> 3 -> m mod 4 <> 3 -> n / 4 = m / 4 -> turn s m = turn s n.
  Proof. intros Hn Hm E. destruct (same_face n m Hn Hm E) as [-> |[-> | ->]]; [reflexivity|now apply turn_nxt|now apply turn_prv]. Qed.

  Lemma flipped_pt s ae n : pt (flipped s ae) n = if n =? nxt (tw s ae) then pt s ae else if n =? nxt ae then pt s (tw s ae) else pt s n.
  Proof. unfold flipped. cbn [pt]. unfold put. reflexivity. Qed.

  Lemma flipped_turn s ae n : around s ae -> node s n ->
    turn (flipped s ae) n = if n / 4 =? ae / 4 then orient (P s ae) (P s (tw s ae)) (P s (prv ae))
      else if n / 4 =? tw s ae / 4 then orient (P s (tw s ae)) (P s ae) (P s (nxt ae)) else turn s n.
  Proof.
    intros R Hn. pose proof (around_ne s ae R) as N. destruct R as [A0 A1 A2 B0 B1 B2 Htt Hcc P1 P2 F U Vv]. cbv zeta in N.
    destruct N as (N1 & N2 & N3 & N4 & N5 & N6 & N7 & N8 & N9 & N10 & N11 & N12 & N13 & N14 & N15 & _).
    pose proof (node_mod s ae A0) as Ma. pose proof (node_mod s _ B0) as Mb. pose proof (node_mod s n Hn) as Mn.
    destruct (Z.eqb_spec (n / 4) (ae / 4)) as [E|E]; [|destruct (Z.eqb_spec (n / 4) (tw s ae / 4)) as [E'|E']].
    - rewrite (turn_face _ ae n Ma Mn (eq_sym E)). unfold turn, P. rewrite !flipped_pt. unfold V, flipped. cbn [vx vy].
      repeat match goal with |- context [?a =? ?a] => rewrite Z.eqb_refl | |- context [?a =? ?b] => rewrite (proj2 (Z.eqb_neq a b)) by neq end. reflexivity.
    - rewrite (turn_face _ _ n Mb Mn (eq_sym E')). unfold turn, P. rewrite !flipped_pt. unfold V, flipped. cbn [vx vy].
      repeat match goal with |- context [?a =? ?a] => rewrite Z.eqb_refl | |- context [?a =? ?b] => rewrite (proj2 (Z.eqb_neq a b)) by neq end. rewrite P2. reflexivity.
    - assert (X : forall m, m / 4 = n / 4 -> m <> nxt (tw s ae) /\ m <> nxt ae).
      { intros m Em. split; intro Y; rewrite Y, nxt_face in Em; congruence. }
      pose proof (X n eq_refl). pose proof (X (nxt n) (nxt_face n)). pose proof (X (prv n) (prv_face n Mn)).
      unfold turn, P. rewrite !flipped_pt. unfold V, flipped. cbn [vx vy].
      repeat match goal with |- context [?a =? ?b] => rewrite (proj2 (Z.eqb_neq a b)) by tauto end. reflexivity.
  Qed.

  Lemma good_flipped s ae : good limit s -> node s ae -> tw s ae <> 0 ->
    orient (P s ae) (P s (tw s ae)) (P s (prv ae)) < 0 -> orient (P s (tw s ae)) (P s ae) (P s (nxt ae)) < 0 -> good limit (flipped s ae).
  Proof.
    intros G Ha Hz O1 O2. pose proof (around_ok s ae G Ha Hz) as R. pose proof (flip_relabel s ae G Ha Hz) as RL.
    constructor.
    - apply (g_limit _ _ G).
    - apply (g_size _ _ G).
    - intros n Hn. change (node s n) in Hn. change (size (flipped s ae)) with (size s). rewrite flipped_pt.
      destruct (n =? nxt (tw s ae)); [|destruct (n =? nxt ae)]; apply (g_pt _ _ G); [exact Ha|apply (ar_b _ _ R)|exact Hn].
    - intros n Hn. change (node s n) in Hn. unfold flipped. cbn [co]. unfold put.
      destruct (n =? prv ae); [now left|]. destruct (n =? tw s ae); [apply (g_co _ _ G), (ar_a2 _ _ R)|]. destruct (n =? prv (tw s ae)); [now left|].
      destruct (n =? ae); [apply (g_co _ _ G), (ar_b2 _ _ R)|apply (g_co _ _ G), Hn].
    - apply (relabel_link _ _ _ _ _ RL), (g_link _ _ G).
    - intros n Hn. change (node s n) in Hn. change (turn (flipped s ae) n < 0). rewrite (flipped_turn s ae n R Hn).
      destruct (n / 4 =? ae / 4); [assumption|]. destruct (n / 4 =? tw s ae / 4); [assumption|]. apply (g_cw _ _ G n Hn).
    - apply (g_box _ _ G).
    - apply (g_corners _ _ G).
    - apply (relabel_bounded _ _ _ _ _ RL); [apply (g_link _ _ G)|apply (g_bounded _ _ G)].
    - intros n Hn. destruct (g_nil _ _ G n Hn) as (T & C & Pz).
      assert (X : forall m, node s m -> n <> m) by (intros m [Hm _]; lia).
      pose proof (X _ (ar_a _ _ R)) as Xa. pose proof (X _ (ar_a1 _ _ R)) as Xa1. pose proof (X _ (ar_a2 _ _ R)) as Xa2.
      pose proof (X _ (ar_b _ _ R)) as Xb. pose proof (X _ (ar_b1 _ _ R)) as Xb1. pose proof (X _ (ar_b2 _ _ R)) as Xb2.
      assert (Y : forall k, (k = 0 \/ node s k) -> forall f v, putnz f k v n = f n).
      { intros k [-> |Hk] f v; [reflexivity|]. apply putnz_ne, X, Hk. }
      unfold flipped. cbn [tw co pt]. puts.
      rewrite (Y (tw s (prv ae))) by (destruct (ar_u _ _ R) as [?|[? _]]; tauto). puts.
      rewrite (Y (tw s (prv (tw s ae)))) by (destruct (ar_v _ _ R) as [?|[? _]]; tauto). puts. auto.
  Qed.

  (** ** incircle and flip *)
  Lemma get_v_ok s v : good limit s -> 0 <= v < size s -> get_v limit s v = Ok (vx s v, vy s v).
  Proof.
    intros G H. pose proof (g_size _ _ G). unfold get_v, vert_index. assert (E : (0 <=? v) && (v <? limit) = true); [|now rewrite E].
    apply andb_true_iff. split; [apply Z.leb_le|apply Z.ltb_lt]; lia.
  Qed.
  Lemma get_p_ok s n : good limit s -> node s n -> get_p limit s n = Ok (pt s n).
  Proof. intros G H. unfold get_p. now rewrite (edge_ok s n G H). Qed.
  Lemma get_e_ok s n : good limit s -> node s n -> get_e limit s n = Ok (tw s n).
  Proof. intros G H. unfold get_e. now rewrite (edge_ok s n G H). Qed.
  Lemma get_c_ok s n : good limit s -> node s n -> get_c limit s n = Ok (co s n).
  Proof. intros G H. unfold get_c. now rewrite (edge_ok s n G H). Qed.
End Flip.
