(** Inserting a vertex on an edge keeps the invariant. *)
From Verif Require Import Base Vec_Model Math_Model Vec_Spec Cdt_Model Cdt_Geom Cdt_Mesh Cdt_Flip Cdt_Circle Cdt_Insert.
Local Open Scope Z_scope.

Ltac putl := repeat match goal with
  | |- context [put ?f ?i ?v ?i] => rewrite (put_eq f i v)
  | |- context [put ?f ?i ?v ?j] => rewrite (put_ne f i v j) by (first [neq | lia])
  | |- context [putnz ?f ?i ?v ?i] => rewrite (putnz_eq f i v) by (first [neq | lia])
  | |- context [putnz ?f ?i ?v ?j] => rewrite (putnz_ne f i v j) by (first [neq | lia])
  end.

(** Disequalities that lia does not look at. *)
Definition ne (a b : Z) : Prop := a <> b.

Section OnEdge.
  Context (limit : Z).

  (** The mesh after the two faces at the edge ue have been cut in two each, before the flips (cdt.h:701-773). *)
  Definition split4 (s : mesh) (px py ue : Z) : mesh :=
    let pn := size s in
    let ve := tw s ue in
    let u1 := nxt ue in let u2 := prv ue in let v1 := nxt ve in let v2 := prv ve in
    let x := pn * 8 in let y := pn * 8 + 4 in
    {| size := pn + 1;
       pt := put (put (put (put (put (put (put (put (pt s) x (pt s ue)) (x + 1) pn) (x + 2) (pt s u2)) u2 pn) y (pt s ve)) (y + 1) (pt s v1)) (y + 2) pn) v1 pn;
       tw := put (putnz (put (put (put (put (put (putnz (put (put (tw s) x y) (x + 1) (tw s u1)) (tw s u1) (x + 1)) (x + 2) u1) u1 (x + 2)) y x) (y + 1) v2) (y + 2) (tw s v2)) (tw s v2) (y + 2)) v2 (y + 1);
       co := put (put (put (put (put (put (put (put (co s) x (co s ue)) (x + 1) (co s u1)) (x + 2) 0) u1 0) y (co s ve)) (y + 1) 0) (y + 2) (co s v2)) v2 0;
       fi := put (put (fi s) (x / 4) (u16 (fi s (ue / 4)))) (y / 4) (u16 (fi s (ve / 4)));
       vx := put (vx s) pn px; vy := put (vy s) pn py |}.

  (** Both faces, the two neighbours that move, and all the disequalities. *)
  Definition setting (s : mesh) (ue ve u1 u2 v1 v2 e1 e2 : Z) : Prop :=
    (node s ue /\ node s ve /\ node s u1 /\ node s u2 /\ node s v1 /\ node s v2) /\
    (tw s ue = ve /\ tw s ve = ue /\ tw s u1 = e1 /\ tw s v2 = e2) /\
    (co s ve = co s ue /\ pt s v1 = pt s u2 /\ pt s v2 = pt s u1) /\
    (u1 = nxt ue /\ u2 = prv ue /\ v1 = nxt ve /\ v2 = prv ve /\ nxt u1 = u2 /\ prv u1 = ue /\ nxt u2 = ue /\ prv u2 = u1 /\ nxt v1 = v2 /\ prv v1 = ve /\ nxt v2 = ve /\ prv v2 = v1) /\
    (ne ue u1 /\ ne ue u2 /\ ne u1 u2 /\ ne ve v1 /\ ne ve v2 /\ ne v1 v2 /\
     ne ue ve /\ ne ue v1 /\ ne ue v2 /\ ne u1 ve /\ ne u1 v1 /\ ne u1 v2 /\ ne u2 ve /\ ne u2 v1 /\ ne u2 v2) /\
    (e1 = 0 \/ (node s e1 /\ tw s e1 = u1)) /\ (e2 = 0 \/ (node s e2 /\ tw s e2 = v2)) /\
    (ne e1 ue /\ ne e1 u1 /\ ne e1 u2 /\ ne e1 ve /\ ne e1 v1 /\ ne e1 v2) /\ (ne e2 ue /\ ne e2 u1 /\ ne e2 u2 /\ ne e2 ve /\ ne e2 v1 /\ ne e2 v2) /\
    (e1 <> 0 -> e1 <> e2).

  Lemma setting_ok s ue : good limit s -> node s ue -> tw s ue <> 0 ->
    setting s ue (tw s ue) (nxt ue) (prv ue) (nxt (tw s ue)) (prv (tw s ue)) (tw s (nxt ue)) (tw s (prv (tw s ue))).
  Proof.
    intros G Ha Hz. pose proof (around_ok limit s ue G Ha Hz) as R. pose proof (around_ne s ue R) as N. destruct R as [A0 A1 A2 B0 B1 B2 Htt Hcc P1 P2 F U Vv].
    cbv zeta in N. destruct N as (N1 & N2 & N3 & N4 & N5 & N6 & N7 & N8 & N9 & N10 & N11 & N12 & N13 & N14 & N15 & N16 & N17).
    pose proof (node_mod s ue A0) as Ma. pose proof (node_mod s _ B0) as Mb.
    unfold setting, ne. split; [auto 10|]. split; [auto|]. split; [auto|].
    split; [rewrite !nxt_nxt, !prv_prv, !nxt_prv, !prv_nxt by assumption; auto 20|]. split; [auto 20|].
    assert (X1 : tw s (nxt ue) = 0 \/ (node s (tw s (nxt ue)) /\ tw s (tw s (nxt ue)) = nxt ue /\ tw s (nxt ue) / 4 <> ue / 4 /\ tw s (nxt ue) / 4 <> tw s ue / 4)).
    { destruct (Z.eq_dec (tw s (nxt ue)) 0) as [E|E]; [now left|right]. split; [now apply (tw_node limit s G)|]. split; [now apply (tw_tw limit s G)|]. split.
      - pose proof (tw_other limit s G (nxt ue) A1 E) as H. now rewrite (nxt_face ue) in H.
      - apply (two_shared' limit s G (nxt ue) ue A1 Ha); [apply nxt_face|now apply nxt_ne|assumption|assumption]. }
    split; [destruct X1 as [?|(? & ? & _)]; [now left|right; auto]|]. split; [destruct Vv as [?|(? & ? & _)]; [now left|right; auto]|].
    pose proof (nxt_face ue) as Fa1. pose proof (prv_face ue Ma) as Fa2. pose proof (nxt_face (tw s ue)) as Fb1. pose proof (prv_face _ Mb) as Fb2.
    split; [|split].
    - destruct X1 as [-> |(_ & _ & D1 & D2)]; [repeat split; apply not_eq_sym, (node_nz s); assumption|]. repeat split; intro E; rewrite E in *; congruence.
    - destruct (N16 _ (or_intror eq_refl)) as (W1 & W2 & W3 & W4 & W5 & W6). auto 10.
    - intros Hz1 E. pose proof (tw_inj limit s G _ _ A1 B2 Hz1 E). congruence.
  Qed.

  Lemma split4_run wrap fuel s px py un ue : good limit s -> node s un -> tw s un <> 0 -> ue = Z.min un (tw s un) -> size s < limit -> inbox (px, py) ->
    insert_on_edge limit wrap fuel s px py un =
      ('(s1, _) <- flip limit wrap fuel (split4 s px py ue) (prv ue) ;; '(s2, _) <- flip limit wrap fuel s1 (size s * 8 + 1) ;;
       '(s3, _) <- flip limit wrap fuel s2 (nxt (tw s ue)) ;; '(s4, _) <- flip limit wrap fuel s3 (size s * 8 + 4 + 2) ;; Ok (s4, true)).
  Proof.
    intros G Hun Hz Eue Hs Hp.
    assert (Hue : node s ue /\ tw s ue <> 0 /\ ((ue = un /\ tw s un = tw s ue) \/ (ue = tw s un /\ un = tw s ue)) /\ (if tw s un <? un then (tw s un, un) else (un, tw s un)) = (ue, tw s ue)).
    { pose proof (tw_node limit s G un Hun Hz) as Hv. pose proof (tw_tw limit s G un Hun Hz) as Htt. destruct (Z.ltb_spec (tw s un) un) as [L|L].
      - rewrite Z.min_r in Eue by lia. subst ue. rewrite Htt. split; [assumption|]. split; [now apply (node_nz s)|]. split; [right; auto|reflexivity].
      - rewrite Z.min_l in Eue by lia. subst ue. split; [assumption|]. split; [assumption|]. auto. }
    destruct Hue as (Hue & Hze & _ & Epair). unfold insert_on_edge, get_e. rewrite (edge_ok limit s un G Hun). cbn [bind].
    rewrite (proj2 (Z.eqb_neq (tw s un) 0) Hz). rewrite Epair. clear un Hun Hz Eue Epair.
    pose proof (setting_ok s ue G Hue Hze) as St. unfold split4.
    remember (tw s ue) as ve eqn:Dve. remember (nxt ue) as u1 eqn:Du1. remember (prv ue) as u2 eqn:Du2. remember (nxt ve) as v1 eqn:Dv1. remember (prv ve) as v2 eqn:Dv2.
    remember (tw s u1) as e1 eqn:De1. remember (tw s v2) as e2 eqn:De2.
    destruct St as ((H1 & H2 & H3 & H4 & H5 & H6) & _ & _ & _ & (N1 & N2 & N3 & N4 & N5 & N6 & N7 & N8 & N9 & N10 & N11 & N12 & N13 & N14 & N15) & X1 & X2 & (Y1 & Y2 & Y3 & Y4 & Y5 & Y6) & (Z1 & Z2 & Z3 & Z4 & Z5 & Z6) & _).
    pose proof (g_size _ _ G) as Gs. pose proof (g_limit _ _ G) as Gl.
    destruct (grown_faces s (proj1 Gs)) as (Fv & Fw & Mv & Mw).
    destruct (offs _ Mv) as (_ & _ & _ & _ & _ & _ & V7 & V8 & _). destruct (offs _ Mw) as (_ & _ & _ & _ & _ & _ & W7 & W8 & _).
    assert (Rn : forall n, node s n -> 24 <= n < 8 * size s) by (intros n [H _]; exact H).
    pose proof (Rn _ H1) as R1. pose proof (Rn _ H2) as R2. pose proof (Rn _ H3) as R3. pose proof (Rn _ H4) as R4. pose proof (Rn _ H5) as R5. pose proof (Rn _ H6) as R6.
    assert (Sm : forall n, 0 <= n < 8 * (size s + 1) -> u16 n = n) by (clear - Gs Gl Hs; intros n Hn; unfold u16; change (2 ^ 16) with 65536; apply Z.mod_small; lia).
    assert (Sp : forall n, node s n -> pt s n mod 2 ^ 13 = pt s n) by (intros n Hn; apply (p_small limit s); [assumption|apply (g_pt _ _ G n Hn)]).
    assert (Sz : size s mod 2 ^ 13 = size s) by (change (2 ^ 13) with 8192; apply Z.mod_small; clear - Gs Gl Hs; lia).
    assert (En : forall k, 24 <= k < 8 * (size s + 1) -> k mod 4 <> 3 -> edge_node limit k = true) by (clear - Gs Gl Hs; intros k Hk Mk; apply edge_ok'; [lia|assumption]).
    assert (T1 : u16 e1 = e1 /\ (e1 <> 0 -> edge_node limit e1 = true) /\ 0 <= e1 < 8 * size s).
    { destruct X1 as [-> |(Hn & _)]; [split; [reflexivity|split; [congruence|lia]]|]. split; [now apply (node_small limit s)|]. split; [intros _; now apply (edge_ok limit s)|]. apply Rn in Hn. lia. }
    assert (T2 : u16 e2 = e2 /\ (e2 <> 0 -> edge_node limit e2 = true) /\ 0 <= e2 < 8 * size s).
    { destruct X2 as [-> |(Hn & _)]; [split; [reflexivity|split; [congruence|lia]]|]. split; [now apply (node_small limit s)|]. split; [intros _; now apply (edge_ok limit s)|]. apply Rn in Hn. lia. }
    destruct T1 as (T1 & T1' & T1''), T2 as (T2 & T2' & T2''). clear X1 X2.
    assert (Fu : face_index limit (ue / 4) = true) by (apply face_index_ok; pose proof (node_face s ue H1); lia).
    assert (Fe : face_index limit (ve / 4) = true) by (apply face_index_ok; pose proof (node_face s ve H2); lia).
    assert (Nf : ve / 4 <> size s * 8 / 4) by (pose proof (node_face s ve H2); lia).
    destruct Hp as [Hx Hy]. cbn [fst snd] in Hx, Hy. apply s16_ok in Hx, Hy.
    pose proof (edge_ok limit s _ G H1) as E1. pose proof (edge_ok limit s _ G H2) as E2. pose proof (edge_ok limit s _ G H3) as E3.
    pose proof (edge_ok limit s _ G H4) as E4. pose proof (edge_ok limit s _ G H5) as E5. pose proof (edge_ok limit s _ G H6) as E6.
    pose proof (co_small limit s _ G H1) as C1. pose proof (co_small limit s _ G H2) as C2. pose proof (co_small limit s _ G H3) as C3. pose proof (co_small limit s _ G H6) as C6.
    pose proof (Sp _ H1) as S1. pose proof (Sp _ H2) as S2. pose proof (Sp _ H4) as S4. pose proof (Sp _ H5) as S5.
    clear H1 H2 H3 H4 H5 H6 Rn Sp G Dve Du1 Du2 Dv1 Dv2 Hue Hze.
    cbv zeta. unfold get_c, get_p, get_fi. rewrite E1. cbn [bind set_size pt tw co fi vx vy size].
    rewrite set_edge_ok; [|apply En; lia|assumption|assumption|apply Sm; lia]. cbn [bind set_size pt tw co fi vx vy size].
    rewrite E3. cbn [bind set_size pt tw co fi vx vy size]. putl. rewrite <- De1.
    rewrite set_edge_ok; [|apply En; lia|assumption|assumption|assumption]. cbn [bind set_size pt tw co fi vx vy size]. putl. rewrite <- De1.
    rewrite set_enz_ok; [|assumption|apply Sm; lia]. cbn [bind set_size pt tw co fi vx vy size].
    rewrite E4. cbn [bind set_size pt tw co fi vx vy size]. putl.
    rewrite set_edge_ok; [|apply En; lia|reflexivity|assumption|apply Sm; lia]. cbn [bind set_size pt tw co fi vx vy size].
    rewrite Fu. cbn [bind]. unfold set_fi at 1. rewrite (face_index_ok limit (size s * 8 / 4)) by lia. cbn [bind set_size pt tw co fi vx vy size].
    rewrite set_e_ok; [|assumption|apply Sm; lia]. cbn [bind set_size pt tw co fi vx vy size].
    rewrite set_c_ok; [|assumption|reflexivity]. cbn [bind set_size pt tw co fi vx vy size].
    rewrite set_p_ok; [|assumption|assumption]. cbn [bind set_size pt tw co fi vx vy size].
    rewrite E2. cbn [bind set_size pt tw co fi vx vy size].
    rewrite (put_ne _ u1 0 ve), (put_ne _ (size s * 8 + 2) 0 ve), (put_ne _ (size s * 8 + 1) _ ve), (put_ne _ (size s * 8) _ ve) by (first [neq | lia]).
    rewrite (put_ne _ u2 _ ve), (put_ne _ (size s * 8 + 2) _ ve), (put_ne _ (size s * 8 + 1) _ ve), (put_ne _ (size s * 8) _ ve) by (first [neq | lia]).
    rewrite set_edge_ok; [|apply En; lia|assumption|assumption|apply Sm; lia]. cbn [bind set_size pt tw co fi vx vy size].
    rewrite E5. cbn [bind set_size pt tw co fi vx vy size].
    rewrite (put_ne _ (size s * 8 + 4) _ v1), (put_ne _ u2 _ v1), (put_ne _ (size s * 8 + 2) _ v1), (put_ne _ (size s * 8 + 1) _ v1), (put_ne _ (size s * 8) _ v1) by (first [neq | lia]).
    rewrite set_edge_ok; [|apply En; lia|reflexivity|assumption|apply Sm; lia]. cbn [bind set_size pt tw co fi vx vy size].
    rewrite E6. cbn [bind set_size pt tw co fi vx vy size].
    rewrite (put_ne _ (size s * 8 + 4 + 1) 0 v2), (put_ne _ (size s * 8 + 4) _ v2), (put_ne _ u1 0 v2), (put_ne _ (size s * 8 + 2) 0 v2), (put_ne _ (size s * 8 + 1) _ v2), (put_ne _ (size s * 8) _ v2) by (first [neq | lia]).
    rewrite (put_ne _ (size s * 8 + 4 + 1) _ v2), (put_ne _ (size s * 8 + 4) _ v2), (put_ne _ u1 _ v2), (put_ne _ (size s * 8 + 2) _ v2), (putnz_ne _ e1 _ v2), (put_ne _ (size s * 8 + 1) _ v2), (put_ne _ (size s * 8) _ v2) by (first [neq | lia]).
    rewrite <- De2.
    rewrite set_edge_ok; [|apply En; lia|assumption|assumption|assumption]. cbn [bind set_size pt tw co fi vx vy size].
    rewrite (put_ne _ (size s * 8 + 4 + 2) _ v2), (put_ne _ (size s * 8 + 4 + 1) _ v2), (put_ne _ (size s * 8 + 4) _ v2), (put_ne _ u1 _ v2), (put_ne _ (size s * 8 + 2) _ v2), (putnz_ne _ e1 _ v2), (put_ne _ (size s * 8 + 1) _ v2), (put_ne _ (size s * 8) _ v2) by (first [neq | lia]).
    rewrite <- De2.
    rewrite set_enz_ok; [|assumption|apply Sm; lia]. cbn [bind set_size pt tw co fi vx vy size].
    rewrite Fe. cbn [bind]. rewrite (put_ne _ (size s * 8 / 4) _ (ve / 4)) by assumption. unfold set_fi at 1. rewrite (face_index_ok limit ((size s * 8 + 4) / 4)) by lia. cbn [bind set_size pt tw co fi vx vy size].
    rewrite set_v_ok; [|lia|assumption|assumption]. cbn [bind set_size pt tw co fi vx vy size].
    rewrite set_e_ok; [|assumption|apply Sm; lia]. cbn [bind set_size pt tw co fi vx vy size].
    rewrite set_c_ok; [|assumption|reflexivity]. cbn [bind set_size pt tw co fi vx vy size].
    rewrite set_p_ok; [|assumption|assumption]. cbn [bind set_size pt tw co fi vx vy size].
    reflexivity.
  Qed.

  Definition phi4 (s : mesh) (ue n : Z) : Z := if n =? nxt ue then size s * 8 + 1 else if n =? prv (tw s ue) then size s * 8 + 4 + 2 else n.
  Definition new4 (s : mesh) (ue m : Z) : Prop :=
    m = ue \/ m = tw s ue \/ m = nxt ue \/ m = prv (tw s ue) \/ m = size s * 8 \/ m = size s * 8 + 2 \/ m = size s * 8 + 4 \/ m = size s * 8 + 4 + 1.

  Lemma old_ne s n k : node s n -> 0 <= k -> n <> size s * 8 + k.
  Proof. intros [H _] Hk. lia. Qed.
  Lemma eqb_ne a b : a <> b -> (a =? b) = false.
  Proof. apply Z.eqb_neq. Qed.

  Lemma split4_relabel s px py ue : good limit s -> node s ue -> tw s ue <> 0 ->
    relabel s (split4 s px py ue) (phi4 s ue) (fun n => n = ue \/ n = tw s ue) (new4 s ue).
  Proof.
    intros G Hue Hze. pose proof (setting_ok s ue G Hue Hze) as St. pose proof (g_size _ _ G) as Gs.
    assert (Gn : forall m, node (split4 s px py ue) m <-> _) by (intro m; exact (grown_node s (split4 s px py ue) m eq_refl (proj1 Gs))).
    assert (Es : size (split4 s px py ue) = size s + 1) by reflexivity.
    unfold phi4, new4, relabel.
    assert (Qp : forall n, pt (split4 s px py ue) n = _ n) by (intro n; unfold split4; cbn [pt]; reflexivity).
    assert (Qt : forall n, tw (split4 s px py ue) n = _ n) by (intro n; unfold split4; cbn [tw]; reflexivity).
    assert (Qc : forall n, co (split4 s px py ue) n = _ n) by (intro n; unfold split4; cbn [co]; reflexivity).
    remember (split4 s px py ue) as s' eqn:Ds'. clear Ds'.
    assert (Tt : forall n, node s n -> tw s n <> 0 -> tw s (tw s n) = n) by (apply (tw_tw limit s G)).
    remember (tw s ue) as ve eqn:Dve. remember (nxt ue) as u1 eqn:Du1. remember (prv ue) as u2 eqn:Du2. remember (nxt ve) as v1 eqn:Dv1. remember (prv ve) as v2 eqn:Dv2.
    remember (tw s u1) as e1 eqn:De1. remember (tw s v2) as e2 eqn:De2.
    destruct St as ((H1 & H2 & H3 & H4 & H5 & H6) & (K1 & K2 & _ & _) & (K3 & K4 & K5) & (_ & _ & _ & _ & J1 & J2 & J3 & J4 & J5 & J6 & J7 & J8) &
      (N1 & N2 & N3 & N4 & N5 & N6 & N7 & N8 & N9 & N10 & N11 & N12 & N13 & N14 & N15) & X1 & X2 & (Y1 & Y2 & Y3 & Y4 & Y5 & Y6) & (Z1 & Z2 & Z3 & Z4 & Z5 & Z6) & E12).
    destruct (grown_faces s (proj1 Gs)) as (Fv & Fw & Mv & Mw).
    destruct (offs _ Mv) as (V1 & V2 & V3 & V4 & V5 & V6 & V7 & V8 & _). destruct (offs _ Mw) as (W1 & W2 & W3 & W4 & W5 & W6 & W7 & W8 & _).
    assert (Rn : forall n, node s n -> 24 <= n < 8 * size s) by (intros n [H _]; exact H).
    pose proof (Rn _ H1) as R1. pose proof (Rn _ H2) as R2. pose proof (Rn _ H3) as R3. pose proof (Rn _ H4) as R4. pose proof (Rn _ H5) as R5. pose proof (Rn _ H6) as R6.
    assert (B1 : 0 <= e1 < 8 * size s) by (destruct X1 as [-> |[Hn _]]; [lia|apply Rn in Hn; lia]).
    assert (B2 : 0 <= e2 < 8 * size s) by (destruct X2 as [-> |[Hn _]]; [lia|apply Rn in Hn; lia]).
    assert (Hz : forall n, node s n -> n <> 0) by (intros n Hn E; apply Rn in Hn; lia).
    change (ue <> u1) in N1. change (ue <> u2) in N2. change (u1 <> u2) in N3.
    assert (Old : forall n, node s n -> node s' n) by (intros n Hn; apply Gn; now left).
    split; [|split; [|split]].
    - intros n Hn HD. pose proof (Rn n Hn) as Rk. assert (Du : ne n ue) by (intro E; apply HD; now left). assert (Dv : ne n ve) by (intro E; apply HD; now right).
      unfold ne in Du, Dv.
      destruct (Z.eqb_spec n u1) as [-> |D1]; [|destruct (Z.eqb_spec n v2) as [-> |D2]].
      + unfold ea, eb. rewrite V3, V4, J1, J2, !Qp, Qc, Qt. fold (ne u1 ue) in Du. fold (ne u1 ve) in Dv.
        clear Du Dv. clear HD.
        assert (N1' : ne ue u1) by assumption. assert (N3' : ne u1 u2) by assumption. assert (N2' : ne ue u2) by assumption. clear N1 N2 N3.
        putl. split; [apply Gn; clear; tauto|]. split; [clear - R1 R2 R3 R6; intro X; lia|]. do 3 (split; [reflexivity|]).
        rewrite <- De1. split; [auto|]. intro Hz1. split; [intros [E|E]; [now apply Y1|now apply Y4]|]. now rewrite (eqb_ne e1 u1 Y2), (eqb_ne e1 v2 Y6).
      + unfold ea, eb. rewrite W5, W6, J7, J8, !Qp, Qc, Qt. clear Du Dv D1 HD.
        assert (N1' : ne ue u1) by assumption. assert (N3' : ne u1 u2) by assumption. assert (N2' : ne ue u2) by assumption. clear N1 N2 N3.
        putl. split; [apply Gn; clear; tauto|]. split; [clear - R1 R2 R3 R6; intro X; lia|]. do 3 (split; [first [reflexivity | congruence]|]).
        rewrite <- De2. split; [auto|]. intro Hz1. split; [intros [E|E]; [now apply Z1|now apply Z4]|]. now rewrite (eqb_ne e2 u1 Z2), (eqb_ne e2 v2 Z6).
      + assert (A1 : ne (nxt n) u2). { intro E. apply D1. rewrite <- (prv_nxt n (node_mod s n Hn)), E. exact J4. }
        assert (A2 : ne (nxt n) v1). { intro E. apply Dv. rewrite <- (prv_nxt n (node_mod s n Hn)), E. exact J6. }
        assert (A3 : ne (prv n) u2). { intro E. apply Du. rewrite <- (nxt_prv n (node_mod s n Hn)), E. exact J3. }
        assert (A4 : ne (prv n) v1). { intro E. apply D2. rewrite <- (nxt_prv n (node_mod s n Hn)), E. exact J5. }
        pose proof (Rn _ (nxt_node s n Hn)) as Q1. pose proof (Rn _ (prv_node s n Hn)) as Q2.
        assert (Du' : ne n ue) by exact Du. assert (Dv' : ne n ve) by exact Dv. assert (D1' : ne n u1) by exact D1. assert (D2' : ne n v2) by exact D2. clear Du Dv D1 D2.
        assert (N1' : ne ue u1) by assumption. assert (N3' : ne u1 u2) by assumption. assert (N2' : ne ue u2) by assumption. clear N1 N2 N3.
        unfold ea, eb. rewrite !Qp, Qc, Qt. putl. split; [now apply Old|]. split; [clear - Du' Dv' D1' D2' Rk; unfold ne in *; intro X; lia|]. do 3 (split; [reflexivity|]).
        pose proof (Tt n Hn) as Tn.
        destruct (Z.eq_dec n e2) as [Q|Q]; [subst n|destruct (Z.eq_dec n e1) as [Q'|Q']; [subst n|]].
        * destruct X2 as [X2|[_ X2]]; [clear - X2 Rk; lia|]. pose proof (Hz e2 Hn) as Hz2. putl. rewrite X2. split; [intro E; now apply Hz in H6|]. intros _.
          split; [intros [E|E]; [apply N9|apply N5]; now symmetry|]. now rewrite (eqb_ne v2 u1 (not_eq_sym N12)), Z.eqb_refl.
        * destruct X1 as [X1|[_ X1]]; [clear - X1 Rk; lia|]. pose proof (Hz e1 Hn) as Hz2. assert (Q2' : ne e1 e2) by exact Q. putl. rewrite X1. split; [intro E; now apply Hz in H3|]. intros _.
          split; [intros [E|E]; [apply N1'; now symmetry|now apply N10]|]. now rewrite Z.eqb_refl.
        * assert (Qa : ne n e1) by exact Q'. assert (Qb : ne n e2) by exact Q. clear Q Q'. putl. split; [auto|]. intro Hzn. specialize (Tn Hzn).
          split; [intros [E|E]; rewrite E in Tn; [apply Dv'; congruence|apply Du'; congruence]|].
          rewrite (eqb_ne (tw s n) u1) by (intro E; rewrite E in Tn; apply Qa; congruence). now rewrite (eqb_ne (tw s n) v2) by (intro E; rewrite E in Tn; apply Qb; congruence).
    - intros m Hm. apply Gn in Hm. destruct Hm as [Hm|[-> |[-> |[-> |[-> |[-> | ->]]]]]]; try (left; clear; tauto).
      + destruct (Z.eq_dec m ue) as [E|D1]; [left; rewrite E; clear; tauto|]. destruct (Z.eq_dec m ve) as [E|D2]; [left; rewrite E; clear; tauto|].
        destruct (Z.eq_dec m u1) as [E|D3]; [left; rewrite E; clear; tauto|]. destruct (Z.eq_dec m v2) as [E|D4]; [left; rewrite E; clear; tauto|].
        right. exists m. split; [assumption|]. split; [intros [E|E]; contradiction|]. now rewrite (eqb_ne m u1 D3), (eqb_ne m v2 D4).
      + right. exists u1. split; [assumption|]. split; [intros [E|E]; [now apply N1|now apply N10]|]. now rewrite Z.eqb_refl.
      + right. exists v2. split; [assumption|]. split; [intros [E|E]; [now apply N9|now apply N5]|]. now rewrite (eqb_ne v2 u1 (not_eq_sym N12)), Z.eqb_refl.
    - intros n Hn [-> | ->]; [congruence|]. rewrite K2. now apply Hz.
    - intros m Hm HN. assert (N1' : ne ue u1) by assumption. assert (N3' : ne u1 u2) by assumption. assert (N2' : ne ue u2) by assumption. clear N1 N2 N3.
      assert (W : forall k t, node s' t -> tw s' k = t -> tw s' t = k -> co s' t = co s' k -> ea s' t = eb s' k -> eb s' t = ea s' k -> twins s' k (tw s' k)).
      { intros k t Q1 Q2 Q3 Q4 Q5 Q6. rewrite Q2. unfold twins. auto 6. }
      assert (Nn : node s' ue /\ node s' ve /\ node s' u1 /\ node s' v2) by auto. destruct Nn as (Nn1 & Nn2 & Nn3 & Nn4).
      assert (Mm : node s' (size s * 8) /\ node s' (size s * 8 + 2) /\ node s' (size s * 8 + 4) /\ node s' (size s * 8 + 4 + 1)) by (split; [|split; [|split]]; apply Gn; clear; tauto).
      destruct Mm as (Mm1 & Mm2 & Mm3 & Mm4).
      destruct HN as [-> |[-> |[-> |[-> |[-> |[-> |[-> | ->]]]]]]];
        [apply (W _ ve)|apply (W _ ue)|apply (W _ (size s * 8 + 2))|apply (W _ (size s * 8 + 4 + 1))|apply (W _ (size s * 8 + 4))|apply (W _ u1)|apply (W _ (size s * 8))|apply (W _ v2)];
        try assumption; unfold ea, eb; rewrite ?Qt, ?Qp, ?Qc, <- ?Du1, <- ?Du2, <- ?Dv1, <- ?Dv2, ?J1, ?J2, ?J3, ?J4, ?J5, ?J6, ?J7, ?J8, ?V1, ?V2, ?V3, ?V4, ?V5, ?V6, ?W1, ?W2, ?W3, ?W4, ?W5, ?W6;
        putl; congruence.
  Qed.

  Lemma split4_points s px py ue : good limit s -> node s ue -> tw s ue <> 0 ->
    let s' := split4 s px py ue in let x := size s * 8 in let y := x + 4 in let ve := tw s ue in
    P s' (prv ue) = (px, py) /\ P s' (nxt ve) = (px, py) /\ P s' x = P s ue /\ P s' (x + 1) = (px, py) /\ P s' (x + 2) = P s (prv ue) /\
    P s' y = P s ve /\ P s' (y + 1) = P s (prv ue) /\ P s' (y + 2) = (px, py) /\ P s (nxt ve) = P s (prv ue) /\ P s (prv ve) = P s (nxt ue) /\
    (forall n, node s n -> n <> prv ue -> n <> nxt ve -> P s' n = P s n).
  Proof.
    intros G Hue Hze s' x y ve. subst s' x y ve. pose proof (setting_ok s ue G Hue Hze) as St. pose proof (g_size _ _ G) as Gs.
    assert (X : forall n, node s n -> V (split4 s px py ue) (pt s n) = P s n).
    { intros n Hn. pose proof (g_pt _ _ G n Hn). unfold P, V, split4. cbn [vx vy]. now rewrite !put_ne by lia. }
    assert (Y : V (split4 s px py ue) (size s) = (px, py)) by (unfold V, split4; cbn [vx vy]; now rewrite !put_eq).
    assert (Qp : forall n, P (split4 s px py ue) n = V (split4 s px py ue) (_ n)) by (intro n; unfold P, split4 at 2; cbn [pt]; reflexivity).
    remember (split4 s px py ue) as s' eqn:Ds'. clear Ds'.
    remember (tw s ue) as ve eqn:Dve. remember (nxt ue) as u1 eqn:Du1. remember (prv ue) as u2 eqn:Du2. remember (nxt ve) as v1 eqn:Dv1. remember (prv ve) as v2 eqn:Dv2.
    destruct St as ((H1 & H2 & H3 & H4 & H5 & H6) & _ & (K3 & K4 & K5) & _ & (N1 & N2 & N3 & N4 & N5 & N6 & N7 & N8 & N9 & N10 & N11 & N12 & N13 & N14 & N15) & _).
    assert (Rn : forall n, node s n -> 24 <= n < 8 * size s) by (intros n [H _]; exact H).
    pose proof (Rn _ H1) as R1. pose proof (Rn _ H2) as R2. pose proof (Rn _ H3) as R3. pose proof (Rn _ H4) as R4. pose proof (Rn _ H5) as R5. pose proof (Rn _ H6) as R6.
    rewrite !Qp. putl. rewrite Y, !X by assumption.
    split; [reflexivity|]. split; [reflexivity|]. split; [reflexivity|]. split; [reflexivity|]. split; [reflexivity|]. split; [reflexivity|].
    assert (Eb : P s v1 = P s u2) by (unfold P; now rewrite K4). split; [assumption|]. split; [reflexivity|]. split; [assumption|]. split; [unfold P; now rewrite K5|].
    intros n Hn D1 D2. assert (D1' : ne n u2) by exact D1. assert (D2' : ne n v1) by exact D2. clear D1 D2. pose proof (Rn n Hn) as Rk. rewrite Qp. putl. now apply X.
  Qed.

  Lemma split4_at h s px py ue n : facewise h -> good limit s -> node s ue -> tw s ue <> 0 -> node (split4 s px py ue) n ->
    at_face h (split4 s px py ue) n =
      if n / 4 =? ue / 4 then h (P s ue) (P s (nxt ue)) (px, py)
      else if n / 4 =? tw s ue / 4 then h (P s (tw s ue)) (px, py) (P s (nxt ue))
      else if n / 4 =? size s * 2 then h (P s ue) (px, py) (P s (prv ue))
      else if n / 4 =? size s * 2 + 1 then h (P s (tw s ue)) (P s (prv ue)) (px, py) else at_face h s n.
  Proof.
    intros F G Hu Hz Hn. pose proof (g_size _ _ G) as Gs.
    destruct (split4_points s px py ue G Hu Hz) as (P0 & P1 & P2 & P3 & P4 & P5 & P6 & P7 & P8 & P9 & P10).
    destruct (setting_ok s ue G Hu Hz) as ((H1 & H2 & H3 & H4 & H5 & H6) & _ & _ & _ & (N1 & N2 & N3 & N4 & N5 & N6 & N7 & N8 & N9 & N10' & N11 & N12 & N13 & N14 & N15) & _).
    destruct (grown_faces s (proj1 Gs)) as (Fv & Fw & Mv & Mw). destruct (offs _ Mv) as (V1 & V2 & _). destruct (offs _ Mw) as (W1 & W2 & _).
    pose proof (node_mod _ n Hn) as Mn. pose proof (node_face s ue Hu) as Ff. pose proof (node_mod s ue Hu) as Mu. pose proof (node_mod s _ H2) as Mve.
    destruct (Z.eqb_spec (n / 4) (ue / 4)) as [E|E]; [|destruct (Z.eqb_spec (n / 4) (tw s ue / 4)) as [E0|E0]; [|destruct (Z.eqb_spec (n / 4) (size s * 2)) as [E1|E1]; [|destruct (Z.eqb_spec (n / 4) (size s * 2 + 1)) as [E2|E2]]]].
    - rewrite (at_same h _ ue n F) by (try assumption; lia). unfold at_face. rewrite P0. rewrite !P10 by assumption. reflexivity.
    - rewrite (at_same h _ (tw s ue) n F) by (try assumption; lia). unfold at_face. rewrite P1. rewrite !P10; [now rewrite P9|assumption|now apply not_eq_sym|now apply not_eq_sym|assumption|now apply not_eq_sym|assumption].
    - rewrite (at_same h _ (size s * 8) n F) by (try assumption; lia). unfold at_face. rewrite V1, V2, P2, P3, P4. reflexivity.
    - rewrite (at_same h _ (size s * 8 + 4) n F) by (try assumption; lia). unfold at_face. rewrite W1, W2, P5, P6, P7. reflexivity.
    - assert (Hn' : node s n).
      { split; [|assumption]. destruct Hn as [Hn _]. change (size (split4 s px py ue)) with (size s + 1) in Hn. pose proof (Z.div_mod n 4 ltac:(lia)). pose proof (Z.mod_pos_bound n 4 ltac:(lia)). lia. }
      assert (A : forall m, node s m -> m / 4 = n / 4 -> P (split4 s px py ue) m = P s m).
      { intros m Hm Em. apply P10; [assumption| |]; intro X; [apply E|apply E0]; rewrite <- Em, X; [now apply prv_face|apply nxt_face]. }
      unfold at_face. rewrite !A; [reflexivity|now apply prv_node|now apply prv_face|now apply nxt_node|apply nxt_face|assumption|reflexivity].
  Qed.

  Lemma split4_good s px py ue : good limit s -> node s ue -> tw s ue <> 0 -> size s < limit -> inbox (px, py) ->
    orient (P s ue) (P s (nxt ue)) (px, py) < 0 -> orient (P s (tw s ue)) (px, py) (P s (nxt ue)) < 0 ->
    orient (P s ue) (px, py) (P s (prv ue)) < 0 -> orient (P s (tw s ue)) (P s (prv ue)) (px, py) < 0 ->
    good limit (split4 s px py ue).
  Proof.
    intros G Hu Hz Hl Hp C1 C2 C3 C4. pose proof (g_size _ _ G) as Gs.
    pose proof (setting_ok s ue G Hu Hz) as St.
    apply (good_grown limit s (split4 s px py ue) px py (phi4 s ue) (fun n => n = ue \/ n = tw s ue) (new4 s ue) G eq_refl Hl); [| |assumption|apply (split4_relabel s px py ue G Hu Hz)| | | |].
    - intros v Hv. unfold V, split4. cbn [vx vy]. now rewrite !put_ne.
    - unfold V, split4. cbn [vx vy]. now rewrite !put_eq.
    - intros n Hn. change (size (split4 s px py ue)) with (size s + 1). unfold split4. cbn [pt]. unfold put.
      destruct St as ((H1 & H2 & H3 & H4 & H5 & H6) & _).
      pose proof (g_pt _ _ G _ H1) as Q1. pose proof (g_pt _ _ G _ H2) as Q2. pose proof (g_pt _ _ G _ H4) as Q4. pose proof (g_pt _ _ G _ H5) as Q5.
      assert (Ho : node s n \/ n = size s * 8 \/ n = size s * 8 + 1 \/ n = size s * 8 + 2 \/ n = size s * 8 + 4 \/ n = size s * 8 + 4 + 1 \/ n = size s * 8 + 4 + 2).
      { apply (grown_node s (split4 s px py ue) n eq_refl (proj1 Gs)) in Hn. clear - Hn. tauto. }
      clear - Ho Q1 Q2 Q4 Q5 G Gs.
      repeat match goal with |- context [if n =? ?k then _ else _] => let D := fresh "D" in destruct (Z.eqb_spec n k) as [D|D]; [clear - Q1 Q2 Q4 Q5 Gs; lia|] end.
      destruct Ho as [Ho|Ho]; [pose proof (g_pt _ _ G n Ho) as Q; clear - Q; lia|exfalso; tauto].
    - intros n Hn. unfold split4. cbn [co]. unfold put.
      destruct St as ((H1 & H2 & H3 & H4 & H5 & H6) & _).
      pose proof (g_co _ _ G _ H1) as Q1. pose proof (g_co _ _ G _ H2) as Q2. pose proof (g_co _ _ G _ H3) as Q3. pose proof (g_co _ _ G _ H6) as Q6.
      assert (Ho : node s n \/ n = size s * 8 \/ n = size s * 8 + 1 \/ n = size s * 8 + 2 \/ n = size s * 8 + 4 \/ n = size s * 8 + 4 + 1 \/ n = size s * 8 + 4 + 2).
      { apply (grown_node s (split4 s px py ue) n eq_refl (proj1 Gs)) in Hn. clear - Hn. tauto. }
      clear - Ho Q1 Q2 Q3 Q6 G Gs.
      repeat match goal with |- context [if n =? ?k then _ else _] => let D := fresh "D" in destruct (Z.eqb_spec n k) as [D|D]; [first [assumption | now left | now right]|] end.
      destruct Ho as [Ho|Ho]; [exact (g_co _ _ G n Ho)|exfalso; tauto].
    - intros n Hn. change (at_face orient (split4 s px py ue) n < 0). rewrite (split4_at orient s px py ue n orient_facewise G Hu Hz Hn).
      destruct (n / 4 =? ue / 4); [assumption|]. destruct (n / 4 =? tw s ue / 4); [assumption|].
      destruct (Z.eqb_spec (n / 4) (size s * 2)) as [|E1]; [assumption|]. destruct (Z.eqb_spec (n / 4) (size s * 2 + 1)) as [|E2]; [assumption|].
      apply (g_cw _ _ G n). split; [|exact (node_mod _ n Hn)]. destruct Hn as [Hn _]. change (size (split4 s px py ue)) with (size s + 1) in Hn. clear - Hn E1 E2. pose proof (Z.div_mod n 4 ltac:(lia)). pose proof (Z.mod_pos_bound n 4 ltac:(lia)). lia.
    - intros n Hn. unfold split4. cbn [tw co pt].
      destruct St as ((H1 & H2 & H3 & H4 & H5 & H6) & _).
      assert (Rn : forall n, node s n -> 24 <= n) by (intros k [H _]; lia).
      pose proof (Rn _ H1) as R1. pose proof (Rn _ H2) as R2. pose proof (Rn _ H3) as R3. pose proof (Rn _ H4) as R4. pose proof (Rn _ H5) as R5. pose proof (Rn _ H6) as R6.
      assert (X : forall k, node s k -> (tw s k = 0 \/ 24 <= tw s k)) by (intros k Hk; destruct (twz limit s k G Hk) as [?|[[? _] _]]; [now left|right; lia]).
      assert (Y : forall k f v, (k = 0 \/ 24 <= k) -> putnz f k v n = f n) by (intros k f v [-> |Hk]; [reflexivity|apply putnz_ne; lia]).
      putl. rewrite (Y (tw s (prv (tw s ue)))) by now apply X. putl. rewrite (Y (tw s (nxt ue))) by now apply X. putl. auto.
  Qed.
End OnEdge.
