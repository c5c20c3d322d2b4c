(** Inserting a vertex in a face keeps the invariant. *)
From Verif Require Import Base Vec_Model Math_Model Vec_Spec Cdt_Model Cdt_Geom Cdt_Mesh Cdt_Flip Cdt_Circle.
Local Open Scope Z_scope.

Section Insert.
  Context (limit : Z).

  Lemma set_edge_ok s n c p e : edge_node limit n = true -> c mod 2 ^ 3 = c -> p mod 2 ^ 13 = p -> u16 e = e ->
    set_edge limit s n c p e = Ok {| size := size s; pt := put (pt s) n p; tw := put (tw s) n e; co := put (co s) n c; fi := fi s; vx := vx s; vy := vy s |}.
  Proof. intros H Ec Ep Ee. unfold set_edge, set_c. rewrite H. cbn [bind]. unfold set_p. rewrite H. cbn [bind]. unfold set_e. rewrite H, Ec, Ep, Ee. reflexivity. Qed.
  Lemma set_e_ok s n e : edge_node limit n = true -> u16 e = e ->
    set_e limit s n e = Ok {| size := size s; pt := pt s; tw := put (tw s) n e; co := co s; fi := fi s; vx := vx s; vy := vy s |}.
  Proof. intros H Ee. unfold set_e. rewrite H, Ee. reflexivity. Qed.
  Lemma set_enz_ok s n e : (n <> 0 -> edge_node limit n = true) -> u16 e = e ->
    (if negb (n =? 0) then set_e limit s n e else Ok s) = Ok {| size := size s; pt := pt s; tw := putnz (tw s) n e; co := co s; fi := fi s; vx := vx s; vy := vy s |}.
  Proof. intros H Ee. unfold putnz. destruct (Z.eqb_spec n 0) as [E|E]; cbn [negb]; [destruct s; reflexivity|]. apply set_e_ok; auto. Qed.
  Lemma set_p_ok s n p : edge_node limit n = true -> p mod 2 ^ 13 = p ->
    set_p limit s n p = Ok {| size := size s; pt := put (pt s) n p; tw := tw s; co := co s; fi := fi s; vx := vx s; vy := vy s |}.
  Proof. intros H Ee. unfold set_p. rewrite H, Ee. reflexivity. Qed.
  Lemma set_c_ok s n c : edge_node limit n = true -> c mod 2 ^ 3 = c ->
    set_c limit s n c = Ok {| size := size s; pt := pt s; tw := tw s; co := put (co s) n c; fi := fi s; vx := vx s; vy := vy s |}.
  Proof. intros H Ee. unfold set_c. rewrite H, Ee. reflexivity. Qed.
  Lemma set_v_ok s v x y : 0 <= v < limit -> s16 x = x -> s16 y = y ->
    set_v limit s v x y = Ok {| size := size s; pt := pt s; tw := tw s; co := co s; fi := fi s; vx := put (vx s) v x; vy := put (vy s) v y |}.
  Proof.
    intros H Ex Ey. unfold set_v, vert_index. assert (E : (0 <=? v) && (v <? limit) = true) by (apply andb_true_iff; split; [apply Z.leb_le|apply Z.ltb_lt]; lia).
    now rewrite E, Ex, Ey.
  Qed.
  Lemma face_index_ok f : 0 <= f < 2 * limit -> face_index limit f = true.
  Proof. intro H. unfold face_index. apply andb_true_iff. split; [apply Z.leb_le|apply Z.ltb_lt]; lia. Qed.
  Lemma s16_ok x : lo <= x <= hi -> s16 x = x.
  Proof. intro H. unfold lo, hi in H. change (2 ^ 15) with 32768 in H. unfold s16. apply swrap_id; [lia|]. unfold in_s. change (2 ^ (16 - 1)) with 32768. lia. Qed.
  Lemma co_small s n : good limit s -> node s n -> co s n mod 2 ^ 3 = co s n.
  Proof. intros G Hn. destruct (g_co _ _ G n Hn) as [-> | ->]; reflexivity. Qed.

  (** The mesh after the face u has been cut in three by a new vertex, before the flips (cdt.h:639-696). *)
  Definition split3 (s : mesh) (px py u : Z) : mesh :=
    let pn := size s in
    let v := pn * 8 in
    let w := v + 4 in
    {| size := pn + 1;
       pt := put (put (put (put (put (put (put (pt s) v (pt s u)) (v + 1) pn) (v + 2) (pt s (u + 2))) w (pt s u)) (w + 1) (pt s (u + 1))) (w + 2) pn) u pn;
       tw := put (put (putnz (put (put (put (put (putnz (put (put (tw s) v (u + 1)) (v + 1) (tw s (u + 1))) (tw s (u + 1)) (v + 1)) (v + 2) (w + 1)) w (u + 2)) (w + 1) (v + 2)) (w + 2) (tw s (u + 2))) (tw s (u + 2)) (w + 2)) (u + 1) v) (u + 2) w;
       co := put (put (put (put (put (put (put (put (co s) v 0) (v + 1) (co s (u + 1))) (v + 2) 0) w 0) (w + 1) 0) (w + 2) (co s (u + 2))) (u + 1) 0) (u + 2) 0;
       fi := put (put (fi s) (v / 4) (u16 (fi s (u / 4)))) (w / 4) (u16 (fi s (u / 4)));
       vx := put (vx s) pn px; vy := put (vy s) pn py |}.

  (** The nodes of a face from its first one. *)
  Lemma offs n : n mod 4 = 0 -> nxt n = n + 1 /\ prv n = n + 2 /\ nxt (n + 1) = n + 2 /\ prv (n + 1) = n /\ nxt (n + 2) = n /\ prv (n + 2) = n + 1 /\
    (n + 1) mod 4 = 1 /\ (n + 2) mod 4 = 2 /\ (n + 1) / 4 = n / 4 /\ (n + 2) / 4 = n / 4.
  Proof.
    intro H. assert (E1 : (n + 1) mod 4 = 1) by (Z.to_euclidean_division_equations; lia). assert (E2 : (n + 2) mod 4 = 2) by (Z.to_euclidean_division_equations; lia).
    assert ((n + 1) / 4 = n / 4) by (Z.to_euclidean_division_equations; lia). assert ((n + 2) / 4 = n / 4) by (Z.to_euclidean_division_equations; lia).
    unfold nxt, prv. rewrite H, E1, E2. cbn. repeat split; lia.
  Qed.

  Lemma twz s n : good limit s -> node s n -> tw s n = 0 \/ (node s (tw s n) /\ tw s (tw s n) = n /\ tw s n / 4 <> n / 4).
  Proof.
    intros G H. destruct (Z.eq_dec (tw s n) 0) as [E|E]; [now left|right]. split; [now apply (tw_node limit s G)|]. split; [now apply (tw_tw limit s G)|now apply (tw_other limit s G)].
  Qed.

  Lemma split3_run wrap fuel s px py u : good limit s -> node s u -> u mod 4 = 0 -> size s < limit -> inbox (px, py) ->
    insert_in_face limit wrap fuel s px py u =
      ('(s1, _) <- flip limit wrap fuel (split3 s px py u) u ;; '(s2, _) <- flip limit wrap fuel s1 (size s * 8 + 1) ;; '(s3, _) <- flip limit wrap fuel s2 (size s * 8 + 4 + 2) ;; Ok s3).
  Proof.
    intros G Hu Mu Hs Hp. destruct (offs u Mu) as (O1 & O2 & O3 & O4 & O5 & O6 & O7 & O8 & O9 & O10).
    pose proof (nxt_node s u Hu) as Hu1. rewrite O1 in Hu1. pose proof (prv_node s u Hu) as Hu2. rewrite O2 in Hu2.
    pose proof (g_size _ _ G) as Gs. pose proof (g_limit _ _ G) as Gl.
    assert (Mv : size s * 8 mod 4 = 0) by (replace (size s * 8) with (size s * 2 * 4) by lia; apply Z.mod_mul; lia).
    destruct (offs _ Mv) as (_ & _ & _ & _ & _ & _ & V7 & V8 & _).
    assert (Mw : (size s * 8 + 4) mod 4 = 0) by (replace (size s * 8 + 4) with ((size s * 2 + 1) * 4) by lia; apply Z.mod_mul; lia).
    destruct (offs _ Mw) as (_ & _ & _ & _ & _ & _ & W7 & W8 & _).
    assert (Ew : (size s * 8 + 4) / 4 = size s * 2 + 1) by (replace (size s * 8 + 4) with ((size s * 2 + 1) * 4) by lia; apply Z.div_mul; lia).
    assert (Ev : size s * 8 / 4 = size s * 2) by (replace (size s * 8) with (size s * 2 * 4) by lia; apply Z.div_mul; lia).
    unfold insert_in_face. cbv zeta.
    assert (Ru : 24 <= u < 8 * size s) by apply Hu. assert (Ru1 : 24 <= u + 1 < 8 * size s) by apply Hu1. assert (Ru2 : 24 <= u + 2 < 8 * size s) by apply Hu2.
    unfold get_p, get_c. rewrite (edge_ok limit s u G Hu), (edge_ok limit s _ G Hu1), (edge_ok limit s _ G Hu2). cbn [bind set_size pt tw co fi vx vy size].
    unfold get_fi. rewrite (face_index_ok (u / 4)) by (pose proof (node_face s u Hu); lia). cbn [bind set_size pt tw co fi vx vy size].
    assert (Sm : forall n, 0 <= n < 8 * (size s + 1) -> u16 n = n) by (intros n Hn; unfold u16; change (2 ^ 16) with 65536; apply Z.mod_small; lia).
    assert (Sp : forall n, node s n -> pt s n mod 2 ^ 13 = pt s n) by (intros n Hn; apply (p_small limit s); [assumption|apply (g_pt _ _ G n Hn)]).
    assert (Sz : size s mod 2 ^ 13 = size s) by (change (2 ^ 13) with 8192; apply Z.mod_small; lia).
    assert (En : forall k, 24 <= k < 8 * (size s + 1) -> k mod 4 <> 3 -> edge_node limit k = true) by (intros k Hk Mk; apply edge_ok'; [lia|assumption]).
    rewrite set_edge_ok; [|apply En; lia|reflexivity|now apply Sp|apply Sm; lia]. cbn [bind set_size pt tw co fi vx vy size].
    unfold get_e. rewrite (edge_ok limit s _ G Hu1). cbn [bind set_size pt tw co fi vx vy size].
    rewrite (put_ne (tw s)) by lia.
    assert (T1 : u16 (tw s (u + 1)) = tw s (u + 1) /\ (tw s (u + 1) <> 0 -> edge_node limit (tw s (u + 1)) = true) /\ tw s (u + 1) <> u + 2).
    { destruct (twz s (u + 1) G Hu1) as [-> |(Hn & _ & D)]; [split; [reflexivity|split; [congruence|lia]]|]. split; [now apply (node_small limit s)|]. split; [intros _; now apply (edge_ok limit s)|]. intro E. rewrite E in D. congruence. }
    assert (T2 : u16 (tw s (u + 2)) = tw s (u + 2) /\ (tw s (u + 2) <> 0 -> edge_node limit (tw s (u + 2)) = true)).
    { destruct (twz s (u + 2) G Hu2) as [-> |(Hn & _ & D)]; [split; [reflexivity|congruence]|]. split; [now apply (node_small limit s)|intros _; now apply (edge_ok limit s)]. }
    destruct T1 as (T1 & T1' & T1''), T2 as (T2 & T2').
    rewrite set_edge_ok; [|apply En; lia|now apply (co_small s)|assumption|assumption]. cbn [bind set_size pt tw co fi vx vy size].
    rewrite set_enz_ok; [|assumption|apply Sm; lia]. cbn [bind set_size pt tw co fi vx vy size].
    rewrite set_edge_ok; [|apply En; lia|reflexivity|now apply Sp|apply Sm; lia]. cbn [bind set_size pt tw co fi vx vy size].
    unfold set_fi at 1. rewrite (face_index_ok (size s * 8 / 4)) by lia. cbn [bind set_size pt tw co fi vx vy size].
    rewrite set_edge_ok; [|apply En; lia|reflexivity|now apply Sp|apply Sm; lia]. cbn [bind set_size pt tw co fi vx vy size].
    rewrite set_edge_ok; [|apply En; lia|reflexivity|now apply Sp|apply Sm; lia]. cbn [bind set_size pt tw co fi vx vy size].
    rewrite (edge_ok limit s _ G Hu2). cbn [bind set_size pt tw co fi vx vy size].
    rewrite (put_ne _ (size s * 8 + 4 + 1) _ (u + 2)) by lia. rewrite (put_ne _ (size s * 8 + 4) _ (u + 2)) by lia. rewrite (put_ne _ (size s * 8 + 2) _ (u + 2)) by lia.
    rewrite putnz_ne by (apply not_eq_sym; assumption). rewrite (put_ne _ (size s * 8 + 1) _ (u + 2)) by lia. rewrite (put_ne _ (size s * 8) _ (u + 2)) by lia.
    rewrite set_edge_ok; [|apply En; lia|now apply (co_small s)|assumption|assumption]. cbn [bind set_size pt tw co fi vx vy size].
    rewrite set_enz_ok; [|assumption|apply Sm; lia]. cbn [bind set_size pt tw co fi vx vy size].
    unfold set_fi at 1. rewrite (face_index_ok ((size s * 8 + 4) / 4)) by lia. cbn [bind set_size pt tw co fi vx vy size].
    destruct Hp as [Hx Hy]. cbn [fst snd] in Hx, Hy.
    rewrite set_v_ok; [|lia|now apply s16_ok|now apply s16_ok]. cbn [bind set_size pt tw co fi vx vy size].
    rewrite set_p_ok; [|apply En; lia|assumption]. cbn [bind set_size pt tw co fi vx vy size].
    rewrite set_c_ok; [|apply En; lia|reflexivity]. cbn [bind set_size pt tw co fi vx vy size].
    rewrite set_e_ok; [|apply En; lia|apply Sm; lia]. cbn [bind set_size pt tw co fi vx vy size].
    rewrite set_c_ok; [|apply En; lia|reflexivity]. cbn [bind set_size pt tw co fi vx vy size].
    rewrite set_e_ok; [|apply En; lia|apply Sm; lia]. cbn [bind set_size pt tw co fi vx vy size].
    reflexivity.
  Qed.

  Lemma good_grown s s' px py phi D N : good limit s -> size s' = size s + 1 -> size s < limit ->
    (forall v, v <> size s -> V s' v = V s v) -> V s' (size s) = (px, py) -> inbox (px, py) -> relabel s s' phi D N ->
    (forall n, node s' n -> 0 <= pt s' n < size s') -> (forall n, node s' n -> co s' n = 0 \/ co s' n = 1) ->
    (forall n, node s' n -> turn s' n < 0) -> (forall n, 0 <= n < 3 -> tw s' n = tw s n /\ co s' n = co s n /\ pt s' n = pt s n) -> good limit s'.
  Proof.
    intros G Es Hl V1 V2 Hp R H1 H2 H3 H4. pose proof (g_size _ _ G) as Gs. constructor; try assumption.
    - apply (g_limit _ _ G).
    - lia.
    - apply (relabel_link _ _ _ _ _ R), (g_link _ _ G).
    - intros v Hv. destruct (Z.eq_dec v (size s)) as [-> |Dv]; [now rewrite V2|]. rewrite V1 by assumption. apply (g_box _ _ G). lia.
    - unfold corners. rewrite !V1 by lia. apply (g_corners _ _ G).
    - apply (relabel_bounded _ _ _ _ _ R); [apply (g_link _ _ G)|apply (g_bounded _ _ G)].
    - intros n Hn. destruct (H4 n Hn) as (-> & -> & ->). apply (g_nil _ _ G n Hn).
  Qed.

  Ltac putl := repeat match goal with
    | |- context [put ?f ?i ?v ?i] => rewrite (put_eq f i v)
    | |- context [put ?f ?i ?v ?j] => rewrite (put_ne f i v j) by (first [neq | lia])
    | |- context [putnz ?f ?i ?v ?i] => rewrite (putnz_eq f i v) by (first [neq | lia])
    | |- context [putnz ?f ?i ?v ?j] => rewrite (putnz_ne f i v j) by (first [neq | lia])
    end.

  Definition phi3 (s : mesh) (u n : Z) : Z := if n =? u + 1 then size s * 8 + 1 else if n =? u + 2 then size s * 8 + 4 + 2 else n.
  Definition new3 (s : mesh) (u m : Z) : Prop :=
    m = u + 1 \/ m = u + 2 \/ m = size s * 8 \/ m = size s * 8 + 2 \/ m = size s * 8 + 4 \/ m = size s * 8 + 4 + 1.

  (** A node of the grown mesh: an old one or one of six new ones. *)
  Lemma grown_node s s' m : size s' = size s + 1 -> 4 <= size s -> node s' m <-> (node s m \/ m = size s * 8 \/ m = size s * 8 + 1 \/ m = size s * 8 + 2 \/ m = size s * 8 + 4 \/ m = size s * 8 + 4 + 1 \/ m = size s * 8 + 4 + 2).
  Proof.
    intros E Hs. unfold node. rewrite E.
    assert (Mv : size s * 8 mod 4 = 0) by (replace (size s * 8) with (size s * 2 * 4) by lia; apply Z.mod_mul; lia).
    assert (Mw : (size s * 8 + 4) mod 4 = 0) by (replace (size s * 8 + 4) with ((size s * 2 + 1) * 4) by lia; apply Z.mod_mul; lia).
    destruct (offs _ Mv) as (_ & _ & _ & _ & _ & _ & V7 & V8 & _). destruct (offs _ Mw) as (_ & _ & _ & _ & _ & _ & W7 & W8 & _). split.
    - intros [H1 H2]. destruct (Z_lt_ge_dec m (8 * size s)) as [L|L]; [left; split; [lia|assumption]|right].
      assert (X : m <> size s * 8 + 3) by (intros ->; apply H2; Z.to_euclidean_division_equations; lia).
      assert (Y : m <> size s * 8 + 4 + 3) by (intros ->; apply H2; Z.to_euclidean_division_equations; lia). clear - L H1 X Y. lia.
    - intros [[H1 H2]|[-> |[-> |[-> |[-> |[-> | ->]]]]]]; (split; [lia|]); lia.
  Qed.

  Lemma split3_relabel s px py u : good limit s -> node s u -> u mod 4 = 0 -> relabel s (split3 s px py u) (phi3 s u) (fun _ => False) (new3 s u).
  Proof.
    intros G Hu Mu. destruct (offs u Mu) as (O1 & O2 & O3 & O4 & O5 & O6 & O7 & O8 & O9 & O10).
    pose proof (nxt_node s u Hu) as Hu1. rewrite O1 in Hu1. pose proof (prv_node s u Hu) as Hu2. rewrite O2 in Hu2.
    pose proof (g_size _ _ G) as Gs.
    assert (Mv : size s * 8 mod 4 = 0) by (replace (size s * 8) with (size s * 2 * 4) by lia; apply Z.mod_mul; lia).
    assert (Mw : (size s * 8 + 4) mod 4 = 0) by (replace (size s * 8 + 4) with ((size s * 2 + 1) * 4) by lia; apply Z.mod_mul; lia).
    destruct (offs _ Mv) as (V1 & V2 & V3 & V4 & V5 & V6 & V7 & V8 & _). destruct (offs _ Mw) as (W1 & W2 & W3 & W4 & W5 & W6 & W7 & W8 & _).
    assert (Gn : forall m, node (split3 s px py u) m <-> _) by (intro m; exact (grown_node s (split3 s px py u) m eq_refl (proj1 Gs))).
    assert (Rn : forall n, node s n -> 24 <= n < 8 * size s) by (intros n [H _]; exact H).
    pose proof (Rn u Hu) as Ru. pose proof (Rn _ Hu1) as Ru1. pose proof (Rn _ Hu2) as Ru2.
    assert (T1 : tw s (u + 1) = 0 \/ (24 <= tw s (u + 1) < 8 * size s /\ tw s (tw s (u + 1)) = u + 1 /\ tw s (u + 1) <> u /\ tw s (u + 1) <> u + 1 /\ tw s (u + 1) <> u + 2)).
    { destruct (twz s (u + 1) G Hu1) as [E|(Hn & E & D)]; [now left|right]. split; [now apply Rn|]. split; [exact E|]. repeat split; intro X; rewrite X in D; congruence. }
    assert (T2 : tw s (u + 2) = 0 \/ (24 <= tw s (u + 2) < 8 * size s /\ tw s (tw s (u + 2)) = u + 2 /\ tw s (u + 2) <> u /\ tw s (u + 2) <> u + 1 /\ tw s (u + 2) <> u + 2)).
    { destruct (twz s (u + 2) G Hu2) as [E|(Hn & E & D)]; [now left|right]. split; [now apply Rn|]. split; [exact E|]. repeat split; intro X; rewrite X in D; congruence. }
    assert (T12 : tw s (u + 1) <> 0 -> tw s (u + 1) <> tw s (u + 2)).
    { intros Hz E. pose proof (tw_inj limit s G _ _ Hu1 Hu2 Hz E). lia. }
    unfold relabel. split; [|split; [|split]].
    - intros n Hn _. unfold phi3, ea, eb, split3. cbn [pt tw co]. pose proof (Rn n Hn) as Rk.
      destruct (Z.eqb_spec n (u + 1)) as [-> |D1]; [|destruct (Z.eqb_spec n (u + 2)) as [-> |D2]].
      + rewrite V3, V4, O3, O4. putl. split; [apply Gn; first [left; assumption | clear; tauto]|]. split; [unfold new3; lia|]. do 3 (split; [reflexivity|]).
        destruct T1 as [Z1|(Z1 & Z2 & Z3 & Z4 & Z5)].
        * rewrite !Z1. split; [auto|congruence].
        * split; [auto|]. intros _. split; [auto|].
          apply Z.eqb_neq in Z4, Z5. now rewrite Z4, Z5.
      + rewrite W5, W6, O5, O6. putl. split; [apply Gn; first [left; assumption | clear; tauto]|]. split; [unfold new3; lia|]. do 3 (split; [reflexivity|]).
        destruct T2 as [Z1|(Z1 & Z2 & Z3 & Z4 & Z5)].
        * rewrite !Z1. split; [auto|congruence].
        * split; [auto|]. intros _. split; [auto|]. apply Z.eqb_neq in Z4, Z5. now rewrite Z4, Z5.
      + assert (X1 : nxt n <> u) by (intro X; apply D2; rewrite <- (prv_nxt n (node_mod s n Hn)), X; exact O2).
        assert (X2 : prv n <> u) by (intro X; apply D1; rewrite <- (nxt_prv n (node_mod s n Hn)), X; exact O1).
        pose proof (Rn _ (nxt_node s n Hn)) as Y1. pose proof (Rn _ (prv_node s n Hn)) as Y2. putl.
        split; [apply Gn; first [left; assumption | clear; tauto]|]. split; [unfold new3; lia|]. do 3 (split; [reflexivity|]).
        assert (Tn : tw s n <> 0 -> tw s (tw s n) = n) by (apply (tw_tw limit s G n Hn)).
        destruct (Z.eq_dec n (tw s (u + 2))) as [E2|E2]; [|destruct (Z.eq_dec n (tw s (u + 1))) as [E1|E1]].
        * subst n. destruct T2 as [T2|(_ & T2 & _)]; [lia|]. putl. rewrite T2. split; [lia|]. intros _. split; [auto|].
          rewrite (proj2 (Z.eqb_neq (u + 2) (u + 1))) by lia. now rewrite Z.eqb_refl.
        * subst n. destruct T1 as [T1|(_ & T1 & _)]; [lia|]. putl. rewrite T1. split; [lia|]. intros _. split; [auto|]. now rewrite Z.eqb_refl.
        * putl. split; [auto|]. intro Hz. split; [auto|]. specialize (Tn Hz).
          destruct (Z.eqb_spec (tw s n) (u + 1)) as [E|E]; [rewrite E in Tn; congruence|]. destruct (Z.eqb_spec (tw s n) (u + 2)) as [E'|E']; [rewrite E' in Tn; congruence|reflexivity].
    - intros m Hm. apply Gn in Hm. unfold new3, phi3. destruct Hm as [Hm|[-> |[-> |[-> |[-> |[-> | ->]]]]]]; try (left; clear; tauto).
      + destruct (Z.eq_dec m (u + 1)); [tauto|]. destruct (Z.eq_dec m (u + 2)); [tauto|]. right. exists m. split; [assumption|]. split; [auto|].
        rewrite (proj2 (Z.eqb_neq m (u + 1))) by assumption. now rewrite (proj2 (Z.eqb_neq m (u + 2))) by assumption.
      + right. exists (u + 1). split; [assumption|]. split; [auto|]. now rewrite Z.eqb_refl.
      + right. exists (u + 2). split; [assumption|]. split; [auto|]. rewrite (proj2 (Z.eqb_neq (u + 2) (u + 1))) by lia. now rewrite Z.eqb_refl.
    - intros n Hn [].
    - intros m Hm HN.
      assert (X1 : tw s (u + 2) < size s * 8 /\ tw s (u + 2) <> u + 1 /\ tw s (u + 2) <> u + 2) by (destruct T2 as [-> |?]; lia).
      assert (X2 : tw s (u + 1) < size s * 8 /\ tw s (u + 1) <> u + 1 /\ tw s (u + 1) <> u + 2) by (destruct T1 as [-> |?]; lia). clear T1 T2.
      unfold twins. destruct HN as [-> |[-> |[-> |[-> |[-> | ->]]]]]; unfold ea, eb, split3; cbn [pt tw co]; putl;
        rewrite ?O3, ?O4, ?O5, ?O6, ?V1, ?V2, ?V3, ?V4, ?V5, ?V6, ?W1, ?W2, ?W3, ?W4, ?W5, ?W6; putl; (split; [apply Gn; first [left; assumption | clear; tauto]|]); auto.
  Qed.

  (** Where the vertices of the nodes are after split3. *)
  Lemma split3_points s px py u : good limit s -> node s u -> u mod 4 = 0 ->
    let s' := split3 s px py u in let v := size s * 8 in let w := v + 4 in
    P s' u = (px, py) /\ P s' v = P s u /\ P s' (v + 1) = (px, py) /\ P s' (v + 2) = P s (u + 2) /\ P s' w = P s u /\ P s' (w + 1) = P s (u + 1) /\ P s' (w + 2) = (px, py) /\
    (forall n, node s n -> n <> u -> P s' n = P s n).
  Proof.
    intros G Hu Mu s' v w. subst s' v w. pose proof (g_size _ _ G) as Gs. destruct (offs u Mu) as (O1 & O2 & _).
    pose proof (nxt_node s u Hu) as Hu1. rewrite O1 in Hu1. pose proof (prv_node s u Hu) as Hu2. rewrite O2 in Hu2.
    assert (Ru : 24 <= u < 8 * size s) by apply Hu.
    assert (X : forall n, node s n -> V (split3 s px py u) (pt s n) = P s n).
    { intros n Hn. pose proof (g_pt _ _ G n Hn). unfold P, V, split3. cbn [vx vy]. now rewrite !put_ne by lia. }
    assert (Y : V (split3 s px py u) (size s) = (px, py)) by (unfold V, split3; cbn [vx vy]; now rewrite !put_eq).
    assert (Z : forall n, P (split3 s px py u) n = V (split3 s px py u) (pt (split3 s px py u) n)) by reflexivity.
    rewrite !Z. unfold split3 at 2 4 6 8 10 12 14. cbn [pt]. putl.
    rewrite Y. rewrite !X by assumption. do 7 (split; [reflexivity|]).
    intros n Hn D. rewrite Z. unfold split3 at 2. cbn [pt]. assert (24 <= n < 8 * size s) by apply Hn. putl. now apply X.
  Qed.

  (** Anything that depends on the three vertices of a face only, up to rotation. *)
  Definition facewise (h : point -> point -> point -> Z) : Prop := forall a b c, h b c a = h a b c.
  Definition at_face (h : point -> point -> point -> Z) (s : mesh) (n : Z) : Z := h (P s n) (P s (nxt n)) (P s (prv n)).
  Lemma at_nxt h s n : facewise h -> n mod 4 <> 3 -> at_face h s (nxt n) = at_face h s n.
  Proof. intros F H. unfold at_face. rewrite (nxt_nxt n H), (prv_nxt n H). apply F. Qed.
  Lemma at_prv h s n : facewise h -> n mod 4 <> 3 -> at_face h s (prv n) = at_face h s n.
  Proof. intros F H. rewrite <- (at_nxt h s (prv n) F) by now apply prv_mod. now rewrite nxt_prv. Qed.
  Lemma at_same h s n m : facewise h -> n mod 4 <> 3 -> m mod 4 <> 3 -> n / 4 = m / 4 -> at_face h s m = at_face h s n.
  Proof. intros F Hn Hm E. destruct (same_face n m Hn Hm E) as [-> |[-> | ->]]; [reflexivity|now apply at_nxt|now apply at_prv]. Qed.

  Lemma grown_faces s : 4 <= size s -> size s * 8 / 4 = size s * 2 /\ (size s * 8 + 4) / 4 = size s * 2 + 1 /\ size s * 8 mod 4 = 0 /\ (size s * 8 + 4) mod 4 = 0.
  Proof.
    intro H. replace (size s * 8) with (size s * 2 * 4) by lia. replace (size s * 2 * 4 + 4) with ((size s * 2 + 1) * 4) by lia.
    rewrite !Z.div_mul, !Z.mod_mul by lia. auto.
  Qed.

  Lemma split3_at h s px py u n : facewise h -> good limit s -> node s u -> u mod 4 = 0 -> node (split3 s px py u) n ->
    at_face h (split3 s px py u) n =
      if n / 4 =? u / 4 then h (px, py) (P s (u + 1)) (P s (u + 2))
      else if n / 4 =? size s * 2 then h (P s u) (px, py) (P s (u + 2))
      else if n / 4 =? size s * 2 + 1 then h (P s u) (P s (u + 1)) (px, py) else at_face h s n.
  Proof.
    intros F G Hu Mu Hn. pose proof (g_size _ _ G) as Gs. destruct (offs u Mu) as (O1 & O2 & O3 & O4 & O5 & O6 & O7 & O8 & O9 & O10).
    pose proof (nxt_node s u Hu) as Hu1. rewrite O1 in Hu1. pose proof (prv_node s u Hu) as Hu2. rewrite O2 in Hu2.
    destruct (split3_points s px py u G Hu Mu) as (P0 & P1 & P2 & P3 & P4 & P5 & P6 & P7).
    destruct (grown_faces s (proj1 Gs)) as (Fv & Fw & Mv & Mw). destruct (offs _ Mv) as (V1 & V2 & _). destruct (offs _ Mw) as (W1 & W2 & _).
    pose proof (node_mod _ n Hn) as Mn. pose proof (node_face s u Hu) as Ff.
    destruct (Z.eqb_spec (n / 4) (u / 4)) as [E|E]; [|destruct (Z.eqb_spec (n / 4) (size s * 2)) as [E1|E1]; [|destruct (Z.eqb_spec (n / 4) (size s * 2 + 1)) as [E2|E2]]].
    - rewrite (at_same h _ u n F) by (try assumption; lia). unfold at_face. rewrite O1, O2, P0. rewrite !P7 by (try assumption; lia). reflexivity.
    - rewrite (at_same h _ (size s * 8) n F) by (try assumption; lia). unfold at_face. rewrite V1, V2, P1, P2, P3. reflexivity.
    - rewrite (at_same h _ (size s * 8 + 4) n F) by (try assumption; lia). unfold at_face. rewrite W1, W2, P4, P5, P6. reflexivity.
    - assert (Hn' : node s n).
      { split; [|assumption]. destruct Hn as [Hn _]. change (size (split3 s px py u)) with (size s + 1) in Hn. pose proof (Z.div_mod n 4 ltac:(lia)). pose proof (Z.mod_pos_bound n 4 ltac:(lia)). lia. }
      unfold at_face. rewrite !P7; [reflexivity|now apply prv_node| |now apply nxt_node| |assumption|].
      + intro X. apply E. rewrite <- X. symmetry. now apply prv_face.
      + intro X. apply E. rewrite <- X. symmetry. apply nxt_face.
      + intro X. apply E. now rewrite X.
  Qed.

  Lemma orient_facewise : facewise orient.
  Proof. intros a b c. apply orient_rot. Qed.
  Lemma lift_facewise : facewise lift.
  Proof. intros a b c. unfold lift. rewrite orient_rot. ring. Qed.

  Lemma split3_good s px py u : good limit s -> node s u -> u mod 4 = 0 -> size s < limit -> inbox (px, py) ->
    orient (px, py) (P s (u + 1)) (P s (u + 2)) < 0 -> orient (P s u) (px, py) (P s (u + 2)) < 0 -> orient (P s u) (P s (u + 1)) (px, py) < 0 ->
    good limit (split3 s px py u).
  Proof.
    intros G Hu Mu Hl Hp C1 C2 C3. pose proof (g_size _ _ G) as Gs. destruct (offs u Mu) as (O1 & O2 & O3 & O4 & O5 & O6 & O7 & O8 & O9 & O10).
    pose proof (nxt_node s u Hu) as Hu1. rewrite O1 in Hu1. pose proof (prv_node s u Hu) as Hu2. rewrite O2 in Hu2.
    apply (good_grown s (split3 s px py u) px py (phi3 s u) (fun _ => False) (new3 s u) G eq_refl Hl); [| |assumption|apply (split3_relabel s px py u G Hu Mu)| | | |].
    - intros v Hv. unfold V, split3. cbn [vx vy]. now rewrite !put_ne.
    - unfold V, split3. cbn [vx vy]. now rewrite !put_eq.
    - intros n Hn. change (size (split3 s px py u)) with (size s + 1). unfold split3. cbn [pt]. unfold put.
      pose proof (g_pt _ _ G u Hu). pose proof (g_pt _ _ G _ Hu1). pose proof (g_pt _ _ G _ Hu2).
      repeat match goal with |- context [if n =? ?k then _ else _] => destruct (Z.eqb_spec n k); [lia|] end.
      assert (node s n) as Ho. { apply (grown_node s (split3 s px py u) n eq_refl (proj1 Gs)) in Hn. destruct Hn as [Hn|Hn]; [assumption|exfalso; lia]. }
      pose proof (g_pt _ _ G n Ho). lia.
    - intros n Hn. unfold split3. cbn [co]. unfold put.
      pose proof (g_co _ _ G u Hu). pose proof (g_co _ _ G _ Hu1). pose proof (g_co _ _ G _ Hu2).
      repeat match goal with |- context [if n =? ?k then _ else _] => destruct (Z.eqb_spec n k); [tauto|] end.
      apply (g_co _ _ G n). apply (grown_node s (split3 s px py u) n eq_refl (proj1 Gs)) in Hn. destruct Hn as [Hn|Hn]; [assumption|exfalso; lia].
    - intros n Hn. change (at_face orient (split3 s px py u) n < 0). rewrite (split3_at orient s px py u n orient_facewise G Hu Mu Hn).
      destruct (n / 4 =? u / 4); [assumption|]. destruct (Z.eqb_spec (n / 4) (size s * 2)) as [|E1]; [assumption|]. destruct (Z.eqb_spec (n / 4) (size s * 2 + 1)) as [|E2]; [assumption|].
      apply (g_cw _ _ G n). split; [|exact (node_mod _ n Hn)]. destruct Hn as [Hn _]. change (size (split3 s px py u)) with (size s + 1) in Hn. pose proof (Z.div_mod n 4 ltac:(lia)). pose proof (Z.mod_pos_bound n 4 ltac:(lia)). lia.
    - intros n Hn. unfold split3. cbn [tw co pt]. assert (Ru : 24 <= u < 8 * size s) by apply Hu.
      assert (X : forall k, node s k -> (tw s k = 0 \/ 24 <= tw s k)) by (intros k Hk; destruct (twz s k G Hk) as [?|[[? _] _]]; [now left|right; lia]).
      assert (Y : forall k f v, (k = 0 \/ 24 <= k) -> putnz f k v n = f n) by (intros k f v [-> |Hk]; [reflexivity|apply putnz_ne; lia]).
      putl. rewrite (Y (tw s (u + 2))) by now apply X. putl. rewrite (Y (tw s (u + 1))) by now apply X. putl. auto.
  Qed.
End Insert.
