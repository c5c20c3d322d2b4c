(** fill colours exactly the reachable faces. *)
From Verif Require Import Base Vec_Model Math_Model Vec_Spec Cdt_Model Cdt_Geom Cdt_Mesh Cdt_Flip Cdt_Circle Cdt_Insert Cdt_Spec.
Local Open Scope Z_scope.

Section Fill.
  Context (limit : Z) (s0 : mesh) (info f0 : Z).
  Hypothesis G0 : good limit s0.
  Hypothesis Hinfo : 0 <= info < 65536.
  Hypothesis F0 : face s0 f0.
  Hypothesis N0 : fi s0 f0 <> info.

  Definition coloured (s : mesh) (g : Z) : Prop := fi s g = info /\ fi s0 g <> info.
  Definition closed_at (s : mesh) (g i : Z) : Prop := co s0 (4 * g + i) = 0 -> fi s (tw s0 (4 * g + i) / 4) = info.
  Record inv (s : mesh) (W : list Z) : Prop := {
    i_same : size s = size s0 /\ pt s = pt s0 /\ tw s = tw s0 /\ co s = co s0 /\ vx s = vx s0 /\ vy s = vy s0;
    i_col : forall g, fi s g = fi s0 g \/ (coloured s g /\ reach s0 info f0 g /\ face s0 g);
    i_closed : forall g, coloured s g -> ~ In g W -> forall i, side i -> closed_at s g i;
    i_pend : forall g, In g W -> coloured s g;
    i_start : fi s f0 = info
  }.
  Definition unfilled (s : mesh) : nat := length (filter (fun g => negb (fi s g =? info)) (faces_of (size s0))).

  Lemma node_of f i : face s0 f -> side i -> node s0 (4 * f + i).
  Proof.
    intros [H1 H2] Hi. split; [destruct Hi as [-> |[-> | ->]]; lia|]. destruct Hi as [-> |[-> | ->]]; Z.to_euclidean_division_equations; lia.
  Qed.
  Lemma face_edge f i : face s0 f -> side i -> edge_node limit (4 * f + i) = true.
  Proof. intros Hf Hi. apply (edge_ok limit s0 _ G0), node_of; assumption. Qed.
  Lemma twin_face f i : face s0 f -> side i -> co s0 (4 * f + i) = 0 -> face s0 (tw s0 (4 * f + i) / 4).
  Proof.
    intros Hf Hi Hc. pose proof (node_of f i Hf Hi) as Hn. pose proof (co_open limit s0 G0 _ Hn Hc) as Hz. pose proof (tw_node limit s0 G0 _ Hn Hz) as Ht. apply (node_face s0 _ Ht).
  Qed.
  Lemma face_ix f : face s0 f -> face_index limit f = true.
  Proof. intros [H1 H2]. pose proof (g_size _ _ G0). apply face_index_ok. lia. Qed.

  Lemma count_one (p q : Z -> bool) x l : NoDup l -> In x l -> p x = true -> q x = false -> (forall y, y <> x -> q y = p y) -> length (filter p l) = S (length (filter q l)).
  Proof.
    intros ND Hx Hp Hq H. induction ND as [|y l Hy ND IH]; [destruct Hx|]. cbn [filter]. destruct Hx as [-> |Hx].
    - rewrite Hp, Hq. cbn [length]. f_equal. f_equal. apply filter_ext_in. intros z Hz. symmetry. apply H. intros ->. contradiction.
    - rewrite (H y) by (intros ->; contradiction). destruct (p y); cbn [length]; auto.
  Qed.

  Definition more (s s' : mesh) : Prop := forall g, fi s g = info -> fi s' g = info.

  Lemma push_ok s f q k W : inv s W -> face s0 f -> reach s0 info f0 f -> side k -> (length q < 256)%nat -> incl q W ->
    exists s' q', fill_push limit s q f k info = Ok (s', q') /\ (exists t, q' = t ++ q /\ inv s' (t ++ W)) /\ closed_at s' f k /\ more s s' /\
      (length q <= length q' <= length q + 1)%nat /\ (unfilled s' + length q' = unfilled s + length q)%nat.
  Proof.
    intros I Hf Hr Hk Hl Hq. destruct (i_same _ _ I) as (Es & Ep & Et & Ec & Ex & Ey). unfold fill_push, get_c, get_e, get_fi. rewrite (face_edge f k Hf Hk). cbn [bind]. rewrite Ec.
    destruct (Z.eqb_spec (co s0 (4 * f + k)) 0) as [Hc|Hc]; cbn [negb].
    2: { exists s, q. split; [reflexivity|]. split; [exists []; auto|]. split; [intro; contradiction|]. split; [intros g; auto|]. split; lia. }
    rewrite Et. pose proof (twin_face f k Hf Hk Hc) as Hg. set (g := tw s0 (4 * f + k) / 4) in *. rewrite (face_ix g Hg). cbn [bind].
    destruct (Z.eqb_spec (fi s g) info) as [Eg|Eg].
    { exists s, q. split; [reflexivity|]. split; [exists []; auto|]. split; [intro; exact Eg|]. split; [intros h; auto|]. split; lia. }
    assert (Ng : fi s0 g <> info) by (destruct (i_col _ _ I g) as [<-|[[? _] _]]; [assumption|contradiction]).
    rewrite (proj2 (Nat.ltb_lt (length q) 256) Hl). unfold set_fi. rewrite (face_ix g Hg). cbn [bind].
    assert (Ui : u16 info = info) by (unfold u16; change (2 ^ 16) with 65536; now apply Z.mod_small). rewrite Ui.
    eexists. exists (g :: q). split; [reflexivity|]. cbn [length].
    assert (K : forall h, put (fi s) g info h = if h =? g then info else fi s h) by reflexivity.
    split.
    { exists [g]. split; [reflexivity|]. constructor; cbn [size pt tw co fi vx vy app].
      - auto 10.
      - intro h. unfold coloured. cbn [fi]. rewrite K. destruct (Z.eqb_spec h g) as [-> |Dh]; [right|].
        + split; [auto|]. split; [|assumption]. now apply (reach_step s0 info f0 f k).
        + destruct (i_col _ _ I h) as [E|E]; [now left|right]. exact E.
      - intros h [Ch Nh] Hw i Hi. unfold closed_at. cbn [fi]. intro Hci. cbn [fi] in Ch. rewrite K in Ch. rewrite K. destruct (Z.eqb_spec (tw s0 (4 * h + i) / 4) g) as [_|Dt]; [reflexivity|].
        destruct (Z.eqb_spec h g) as [Dh|Dh]; [exfalso; apply Hw; left; congruence|]. apply (i_closed _ _ I h (conj Ch Nh)); [|assumption|assumption]. intro Hin. apply Hw. now right.
      - intros h [Dh|Hh]; unfold coloured; cbn [fi]; rewrite K; [rewrite <- Dh, Z.eqb_refl; auto|]. destruct (i_pend _ _ I h Hh) as [E1 E2]. destruct (h =? g); auto.
      - rewrite K. destruct (f0 =? g); [reflexivity|exact (i_start _ _ I)]. }
    split; [unfold closed_at; intros _; cbn [fi]; rewrite K; fold g; now rewrite Z.eqb_refl|].
    split; [intros h Hh; cbn [fi]; rewrite K; now destruct (h =? g)|]. split; [lia|].
    unfold unfilled. rewrite (count_one (fun h => negb (fi s h =? info)) (fun h => negb (put (fi s) g info h =? info)) g (faces_of (size s0))); cbn [fi].
    - lia.
    - apply faces_of_nodup.
    - destruct Hg. apply faces_of_in; [pose proof (g_size _ _ G0); lia|lia].
    - apply Z.eqb_neq in Eg. now rewrite Eg.
    - rewrite K, Z.eqb_refl, Z.eqb_refl. reflexivity.
    - intros y Dy. rewrite K. apply Z.eqb_neq in Dy. now rewrite Dy.
  Qed.

  Lemma inv_face s W f : inv s W -> In f W -> face s0 f /\ reach s0 info f0 f.
  Proof. intros I H. destruct (i_pend _ _ I f H) as [E1 E2]. destruct (i_col _ _ I f) as [E|(_ & R & F)]; [congruence|auto]. Qed.

  Lemma fill_loops fuel :
    (forall s f q O, inv s (f :: q ++ O) -> (length q <= 252)%nat ->
      match fill_ex limit fuel s f info q with Ok s' => inv s' O /\ (unfilled s' <= unfilled s)%nat | UB => False | Timeout => (fuel <= 2 * (unfilled s + length q))%nat end) /\
    (forall s q O, inv s (q ++ O) -> (1 <= length q <= 255)%nat ->
      match fill_more limit fuel s info q with Ok s' => inv s' O /\ (unfilled s' <= unfilled s)%nat | UB => False | Timeout => (fuel <= 2 * (unfilled s + length q) - 1)%nat end).
  Proof.
    induction fuel as [|fuel [IH1 IH2]]; [split; intros; cbn; lia|]. split.
    - intros s f q O I Hq. cbn [fill_ex]. fold (fill_ex limit) (fill_more limit).
      destruct (inv_face _ _ _ I (or_introl eq_refl)) as [Hf Hr].
      destruct (push_ok s f q 0 _ I Hf Hr (or_introl eq_refl) ltac:(lia)) as (s1 & q1 & -> & (t1 & Eq1 & I1) & C1 & M1 & L1 & U1); [intros x Hx; right; apply in_or_app; now left|]. cbn [bind].
      assert (Q1 : incl q1 (t1 ++ f :: q ++ O)). { rewrite Eq1. intros x Hx. apply in_or_app. apply in_app_or in Hx. destruct Hx as [Hx|Hx]; [now left|right; right; apply in_or_app; now left]. }
      destruct (push_ok s1 f q1 1 _ I1 Hf Hr (or_intror (or_introl eq_refl)) ltac:(lia) Q1) as (s2 & q2 & -> & (t2 & Eq2 & I2) & C2 & M2 & L2 & U2). cbn [bind].
      assert (Q2 : incl q2 (t2 ++ t1 ++ f :: q ++ O)). { rewrite Eq2. intros x Hx. apply in_or_app. apply in_app_or in Hx. destruct Hx as [Hx|Hx]; [now left|right; now apply Q1]. }
      destruct (push_ok s2 f q2 2 _ I2 Hf Hr (or_intror (or_intror eq_refl)) ltac:(lia) Q2) as (s3 & q3 & -> & (t3 & Eq3 & I3) & C3 & M3 & L3 & U3). cbn [bind].
      assert (I4 : inv s3 (q3 ++ O)).
      { destruct I3 as [Is Ic Icl Ip Ist]. constructor; [assumption|assumption| | |exact Ist].
        - intros g Cg Hg i Hi. destruct (Z.eq_dec g f) as [-> |Dg].
          + destruct Hi as [-> |[-> | ->]]; unfold closed_at in *; auto.
          + apply Icl; [assumption| |assumption]. intro Hin. apply Hg. rewrite Eq3, Eq2, Eq1. rewrite !in_app_iff in *. cbn [In] in Hin. rewrite in_app_iff in Hin. intuition congruence.
        - intros g Hg. apply Ip. rewrite Eq3, Eq2, Eq1 in Hg. rewrite !in_app_iff in *. cbn [In]. rewrite in_app_iff. tauto. }
      destruct q3 as [|g q3'] eqn:Eqq; [cbn [app] in I4; split; [assumption|cbn [length] in *; lia]|]. rewrite <- Eqq in *.
      specialize (IH2 s3 q3 O I4). assert (Hl3 : (1 <= length q3 <= 255)%nat) by (split; [rewrite Eqq; cbn [length]; lia|lia]). specialize (IH2 Hl3).
      destruct (fill_more limit fuel s3 info q3) as [s'| |]; [|assumption|lia]. destruct IH2 as [J1 J2]. split; [assumption|lia].
    - intros s q O I Hq. cbn [fill_more]. fold (fill_ex limit) (fill_more limit). destruct q as [|f q']; [cbn [length] in Hq; lia|].
      destruct (Nat.ltb_spec 253 (length (f :: q'))) as [L|L].
      + pose proof (IH1 s f [] (q' ++ O) I ltac:(cbn [length]; lia)) as X. destruct (fill_ex limit fuel s f info []) as [s1| |]; cbn [bind]; [|assumption|cbn [length] in *; lia].
        destruct X as [I1 U1]. cbn [length] in *. specialize (IH2 s1 q' O I1 ltac:(lia)). destruct (fill_more limit fuel s1 info q') as [s2| |]; [|assumption|lia]. destruct IH2 as [J1 J2]. split; [assumption|lia].
      + cbn [length] in *. specialize (IH1 s f q' O I ltac:(lia)). destruct (fill_ex limit fuel s f info q') as [s1| |]; [|assumption|lia]. assumption.
  Qed.
End Fill.

Section FillTop.
  Context (limit : Z).

  Lemma fill_ok fuel s n info : good limit s -> 0 <= n < 8 * size s -> 24 <= n -> 0 <= info < 65536 ->
    match fill limit fuel s n info with
    | Ok s' => (size s' = size s /\ pt s' = pt s /\ tw s' = tw s /\ co s' = co s /\ vx s' = vx s /\ vy s' = vy s) /\
        (forall g, fi s (n / 4) <> info -> reach s info (n / 4) g -> fi s' g = info) /\ (forall g, fi s (n / 4) = info \/ ~ reach s info (n / 4) g -> fi s' g = fi s g)
    | UB => False | Timeout => (fuel < 4 * Z.to_nat (size s))%nat
    end.
  Proof.
    intros G Hn Hn' Hi. unfold fill. cbv zeta. set (f := n / 4).
    assert (Hf : face s f). { unfold face, f. pose proof (Z.div_mod n 4 ltac:(lia)). pose proof (Z.mod_pos_bound n 4 ltac:(lia)). lia. }
    destruct (Z.eqb_spec f 0) as [E|_]; [destruct Hf; lia|]. unfold get_fi. rewrite (face_ix limit s G f Hf). cbn [bind].
    destruct (Z.eqb_spec (fi s f) info) as [Ef|Nf]; [split; [auto 10|]; split; [contradiction|auto]|].
    unfold set_fi. rewrite (face_ix limit s G f Hf). cbn [bind]. assert (Ui : u16 info = info) by (unfold u16; change (2 ^ 16) with 65536; now apply Z.mod_small). rewrite Ui.
    set (s1 := {| size := _ |}).
    assert (K : forall h, fi s1 h = if h =? f then info else fi s h) by reflexivity.
    assert (I : inv s info f s1 (f :: [] ++ [])).
    { constructor.
      - unfold s1. cbn. auto 10.
      - intro g. unfold coloured. rewrite K. destruct (Z.eqb_spec g f) as [D|D]; [right; rewrite D|now left]. split; [auto|]. split; [constructor|assumption].
      - intros g [C N] Hw. rewrite K in C. destruct (Z.eqb_spec g f) as [D|D]; [exfalso; apply Hw; left; congruence|contradiction].
      - intros g [D|[]]. unfold coloured. rewrite <- D, K, Z.eqb_refl. auto.
      - now rewrite K, Z.eqb_refl. }
    pose proof (proj1 (fill_loops limit s info f G Hi fuel) s1 f [] [] I ltac:(cbn; lia)) as X.
    destruct (fill_ex limit fuel s1 f info []) as [s'| |]; [|assumption|].
    - destruct X as [J _]. split; [exact (i_same _ _ _ _ _ J)|].
      assert (Rc : forall g, reach s info f g -> coloured s info s' g /\ face s g).
      { induction 1 as [|g i Hr [IC IF] Hsd Hc Hne].
        - split; [|assumption]. split; [|assumption]. exact (i_start _ _ _ _ _ J).
        - pose proof (i_closed _ _ _ _ _ J g IC (fun H => H) i Hsd Hc) as E. split; [split; assumption|]. now apply (twin_face limit s G). }
      split; [intros g _ Hr; apply (Rc g Hr)|]. intros g [E|Hr]; [contradiction|]. destruct (i_col _ _ _ _ _ J g) as [E|(_ & R & _)]; [assumption|contradiction].
    - unfold unfilled in X. cbn [length] in X. assert (L : forall (p : Z -> bool) l, (length (filter p l) <= length l)%nat) by (intros p l; induction l as [|y l IH]; cbn [filter length]; [lia|destruct (p y); cbn [length]; lia]).
      specialize (L (fun g => negb (fi s1 g =? info)) (faces_of (size s))).
      unfold faces_of in *. rewrite map_length, seq_length in L. pose proof (g_size _ _ G). lia.
  Qed.
End FillTop.
