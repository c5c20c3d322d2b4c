(** Inserting a point leaves every free edge locally Delaunay if every free edge was. *)
From Coq Require Import List ZArith Lia Bool.
Import ListNotations.
From Verif Require Import Base Vec_Model Math_Model Vec_Spec Cdt_Model Cdt_Geom Cdt_Mesh Cdt_Flip Cdt_Circle Cdt_Insert Cdt_OnEdge Cdt_Walk Cdt_Edge Cdt_Spec Cdt_Tile Cdt_EdgeSpec Cdt_Planar Cdt_Steps Cdt_View_Props Cdt_Star.
Local Open Scope Z_scope.

Lemma rot3_dec x y z a b c : {rot3 x y z a b c} + {~ rot3 x y z a b c}.
Proof.
  unfold rot3. destruct (pt_dec x a), (pt_dec y b), (pt_dec z c), (pt_dec x b), (pt_dec y c), (pt_dec z a), (pt_dec x c), (pt_dec y a), (pt_dec z b); (left; tauto) || (right; tauto).
Defined.
Lemma rot3_turn x y z a b c : rot3 y z x a b c -> rot3 x y z a b c.
Proof. unfold rot3. tauto. Qed.
Lemma rot3_sym x y z a b c : rot3 x y z a b c -> rot3 a b c x y z.
Proof. unfold rot3. intros [(-> & -> & ->)|[(-> & -> & ->)|(-> & -> & ->)]]; auto. Qed.
Lemma rot3_refl a b c : rot3 a b c a b c.
Proof. left. auto. Qed.

(** Whether a triangle is a given one, up to rotation. *)
Definition is_tri (a b c x y z : point) : Z := if rot3_dec x y z a b c then 1 else 0.
Lemma is_tri_facewise a b c : facewise (is_tri a b c).
Proof.
  intros x y z. unfold is_tri. destruct (rot3_dec y z x a b c) as [R|R], (rot3_dec x y z a b c) as [R'|R']; try reflexivity; exfalso.
  - apply R', rot3_turn, R.
  - apply R. do 2 apply rot3_turn. exact R'.
Qed.
Lemma is_tri_one a b c x y z : is_tri a b c x y z = 1 -> rot3 a b c x y z.
Proof. unfold is_tri. destruct (rot3_dec x y z a b c) as [R|R]; [intros _; now apply rot3_sym|discriminate]. Qed.

Section Delaunay.
  Context (limit : Z) (wrap : bool).

  (** The triangles of the mesh and its free edges. *)
  Definition tri (s : mesh) (a b c : point) : Prop := exists n, node s n /\ P s n = a /\ P s (nxt n) = b /\ P s (prv n) = c.
  Definition free (s : mesh) (a b : point) : Prop := exists n, node s n /\ co s n = 0 /\ P s (nxt n) = a /\ P s (prv n) = b.

  Lemma tri_node s n : node s n -> tri s (P s n) (P s (nxt n)) (P s (prv n)).
  Proof. intro H. exists n. auto. Qed.
  Lemma tri_rot s a b c : tri s a b c -> tri s b c a.
  Proof. intros (n & Hn & <- & <- & <-). pose proof (node_mod s n Hn) as M. exists (nxt n). split; [now apply nxt_node|]. rewrite nxt_nxt, prv_nxt by assumption. auto. Qed.
  Lemma tri_rot3 s x y z a b c : rot3 x y z a b c -> tri s a b c -> tri s x y z.
  Proof. intros [(-> & -> & ->)|[(-> & -> & ->)|(-> & -> & ->)]] H; [assumption|now apply tri_rot|now apply tri_rot, tri_rot]. Qed.

  Lemma mesh_ok s : good limit s -> tri_ok (tri s) (free s).
  Proof.
    intro G. split.
    - apply tri_rot.
    - intros a b c (n & Hn & <- & <- & <-). exact (g_cw _ _ G n Hn).
    - intros a b c c' (n & Hn & N1 & N2 & <-) (m & Hm & M1 & M2 & <-). pose proof (node_mod s n Hn) as Mn. pose proof (node_mod s m Hm) as Mm.
      assert (E : prv n = prv m). { apply (same_ends limit s); [assumption|now apply prv_node|now apply prv_node| |]; rewrite ?nxt_prv, ?prv_prv by assumption; congruence. }
      now rewrite E.
    - intros a b (n & Hn & Hc & <- & <-). pose proof (co_open limit s G n Hn Hc) as Hz. pose proof (ea_tw limit s G n Hn Hz) as E1. pose proof (eb_tw limit s G n Hn Hz) as E2. unfold ea, eb in E1, E2.
      exists (tw s n). split; [now apply (tw_node limit s G)|]. split; [|unfold P; now rewrite E1, E2].
      pose proof (around_ok limit s n G Hn Hz) as R. now rewrite (ar_cc _ _ R).
  Qed.

  (** ** Flips *)
  Lemma flipped_P s ae n : P (flipped s ae) n = if n =? nxt (tw s ae) then P s ae else if n =? nxt ae then P s (tw s ae) else P s n.
  Proof. unfold P. rewrite flipped_pt. destruct (n =? nxt (tw s ae)); [reflexivity|]. destruct (n =? nxt ae); reflexivity. Qed.

  Lemma flipped_at h s ae n : facewise h -> around s ae -> node s n ->
    at_face h (flipped s ae) n = if n / 4 =? ae / 4 then h (P s ae) (P s (tw s ae)) (P s (prv ae))
      else if n / 4 =? tw s ae / 4 then h (P s (tw s ae)) (P s ae) (P s (nxt ae)) else at_face h s n.
  Proof.
    intros Fh R Hn. pose proof (around_ne s ae R) as N. destruct R as [A0 A1 A2 B0 B1 B2 Htt Hcc P1 P2 F U Vv]. cbv zeta in N.
    destruct N as (N1 & N2 & N3 & N4 & N5 & N6 & N7 & N8 & N9 & N10 & N11 & N12 & N13 & N14 & N15 & _).
    pose proof (node_mod s ae A0) as Ma. pose proof (node_mod s _ B0) as Mb. pose proof (node_mod s n Hn) as Mn.
    destruct (Z.eqb_spec (n / 4) (ae / 4)) as [E|E]; [|destruct (Z.eqb_spec (n / 4) (tw s ae / 4)) as [E'|E']].
    - rewrite (at_same h _ ae n Fh Ma Mn (eq_sym E)). unfold at_face. rewrite !flipped_P.
      repeat match goal with |- context [?a =? ?a] => rewrite Z.eqb_refl | |- context [?a =? ?b] => rewrite (proj2 (Z.eqb_neq a b)) by neq end. reflexivity.
    - rewrite (at_same h _ _ n Fh Mb Mn (eq_sym E')). unfold at_face. rewrite !flipped_P.
      repeat match goal with |- context [?a =? ?a] => rewrite Z.eqb_refl | |- context [?a =? ?b] => rewrite (proj2 (Z.eqb_neq a b)) by neq end. unfold P. rewrite P2. reflexivity.
    - assert (X : forall m, m / 4 = n / 4 -> m <> nxt (tw s ae) /\ m <> nxt ae).
      { intros m Em. split; intro Y; rewrite Y, nxt_face in Em; congruence. }
      pose proof (X n eq_refl). pose proof (X (nxt n) (nxt_face n)). pose proof (X (prv n) (prv_face n Mn)).
      unfold at_face. rewrite !flipped_P.
      repeat match goal with |- context [?a =? ?b] => rewrite (proj2 (Z.eqb_neq a b)) by tauto end. reflexivity.
  Qed.

  Lemma own_face s' n : at_face (is_tri (P s' n) (P s' (nxt n)) (P s' (prv n))) s' n = 1.
  Proof. unfold at_face, is_tri. destruct (rot3_dec _ _ _ _ _ _) as [|N]; [reflexivity|exfalso; apply N, rot3_refl]. Qed.
  Lemma face_tri s n x y z : node s n -> at_face (is_tri x y z) s n = 1 -> tri s x y z.
  Proof. intros Hn H. unfold at_face in H. apply is_tri_one in H. apply (tri_rot3 s _ _ _ _ _ _ H), tri_node, Hn. Qed.

  Lemma flipped_tri s ae x y z : around s ae -> tri (flipped s ae) x y z ->
    tri s x y z \/ rot3 x y z (P s ae) (P s (tw s ae)) (P s (prv ae)) \/ rot3 x y z (P s (tw s ae)) (P s ae) (P s (nxt ae)).
  Proof.
    intros R (n & Hn & <- & <- & <-). change (node s n) in Hn. pose proof (own_face (flipped s ae) n) as O. rewrite (flipped_at _ s ae n (is_tri_facewise _ _ _) R Hn) in O.
    destruct (n / 4 =? ae / 4); [right; left; now apply is_tri_one|]. destruct (n / 4 =? tw s ae / 4); [right; right; now apply is_tri_one|]. left. now apply (face_tri s n).
  Qed.

  Lemma relabel_free s s' phi D N x y : good limit s -> extends s s' -> relabel s s' phi D N -> free s' x y -> free s x y \/ exists m, node s' m /\ N m /\ co s' m = 0 /\ P s' (nxt m) = x /\ P s' (prv m) = y.
  Proof.
    intros G (_ & EV) (R1 & R2 & _) (m & Hm & Hc & <- & <-). destruct (R2 m Hm) as [HN|(n & Hn & HD & <-)]; [right; exists m; auto|left].
    destruct (R1 n Hn HD) as (_ & _ & K3 & K4 & K5 & _). exists n. split; [assumption|]. split; [congruence|]. unfold ea, eb in K4, K5. unfold P. rewrite K4, K5.
    split; symmetry; apply EV, (g_pt _ _ G); [now apply nxt_node|now apply prv_node].
  Qed.

  Lemma flipped_free s ae x y : good limit s -> node s ae -> tw s ae <> 0 -> free (flipped s ae) x y ->
    free s x y \/ (x = P s ae /\ y = P s (tw s ae)) \/ (x = P s (tw s ae) /\ y = P s ae).
  Proof.
    intros G Ha Hz Hf. pose proof (around_ok limit s ae G Ha Hz) as R. pose proof (node_mod s ae Ha) as Ma. pose proof (node_mod s _ (ar_b _ _ R)) as Mb.
    assert (Ex : extends s (flipped s ae)) by (split; [reflexivity|intros; reflexivity]).
    destruct (relabel_free s _ _ _ _ x y G Ex (flip_relabel limit s ae G Ha Hz) Hf) as [?|(m & Hm & [-> | ->] & _ & <- & <-)]; [now left|right|right].
    - left. pose proof (around_ne s ae R) as N. cbv zeta in N. destruct N as (N1 & N2 & N3 & N4 & N5 & N6 & N7 & N8 & N9 & N10 & N11 & N12 & N13 & N14 & N15 & _).
      rewrite !flipped_P, nxt_prv, prv_prv by assumption. rewrite Z.eqb_refl.
      repeat match goal with |- context [?a =? ?b] => rewrite (proj2 (Z.eqb_neq a b)) by neq end. auto.
    - right. pose proof (around_ne s ae R) as N. cbv zeta in N. destruct N as (N1 & N2 & N3 & N4 & N5 & N6 & N7 & N8 & N9 & N10 & N11 & N12 & N13 & N14 & N15 & _).
      rewrite !flipped_P, nxt_prv, prv_prv by assumption. rewrite Z.eqb_refl.
      repeat match goal with |- context [?a =? ?b] => rewrite (proj2 (Z.eqb_neq a b)) by neq end. auto.
  Qed.

  (** The far sides of some nodes at p. *)
  Definition pend (s : mesh) (l : list Z) (x y : point) : Prop := exists m, In m l /\ P s (nxt m) = x /\ P s (prv m) = y.
  Definition nodes_at (s : mesh) (p : point) (l : list Z) : Prop := forall m, In m l -> node s m /\ P s m = p.
  Definition starry (s : mesh) (p : point) (l : list Z) : Prop :=
    (exists Q, star (tri s) (free s) p Q) /\ delaunay_but (tri s) (free s) p (pend s l) /\ nodes_at s p l.

  Lemma det_turn a b c e : incircle_det b c a e = incircle_det a b c e.
  Proof. apply det_rot. Qed.

  (** Whether flip does something. *)
  Lemma flip_case fuel s ae s' r : good limit s -> node s ae -> flip limit wrap fuel s ae = Ok (s', r) ->
    (s' = s /\ (co s ae = 1 \/ (tw s ae <> 0 /\ co s ae = 0 /\ 0 <= det_at s ae (P s (tw s ae))))) \/
    (exists k s1 s2 s3 r1 r2 r3 r4, fuel = Datatypes.S k /\ can_improve s ae /\ flip limit wrap k (flipped s ae) ae = Ok (s1, r1) /\ flip limit wrap k s1 (nxt ae) = Ok (s2, r2) /\
       flip limit wrap k s2 (tw s ae) = Ok (s3, r3) /\ flip limit wrap k s3 (nxt (tw s ae)) = Ok (s', r4)).
  Proof.
    intros G Hn H. destruct fuel as [|fuel]; [discriminate|]. cbn [flip] in H.
    rewrite (get_c_ok limit s ae G Hn) in H. cbn [bind] in H. destruct (Z.eqb_spec (co s ae) 0) as [Ec|Ec]; cbn [negb] in H.
    2: { left. injection H as -> _. split; [reflexivity|]. left. destruct (g_co _ _ G ae Hn); [contradiction|assumption]. }
    pose proof (co_open limit s G ae Hn Ec) as Hz. pose proof (around_ok limit s ae G Hn Hz) as R.
    rewrite (get_e_ok limit s ae G Hn) in H. cbn [bind] in H. rewrite (get_p_ok limit s _ G (ar_b _ _ R)) in H. cbn [bind] in H.
    destruct (incircle_ok limit wrap s ae (pt s (tw s ae)) G Hn (g_pt _ _ G _ (ar_b _ _ R))) as [I1 [I2|I2]]; rewrite I2 in H; [|discriminate]. clear I1 I2. cbn [bind] in H.
    fold (P s (tw s ae)) in H. destruct (Z.ltb_spec (det_at s ae (P s (tw s ae))) 0) as [Hd|Hd]; cbn [negb] in H.
    2: { left. injection H as -> _. split; [reflexivity|]. right. auto. }
    right. rewrite (do_flip_ok limit s ae G Hn Hz) in H. cbn [bind] in H.
    destruct (flip limit wrap fuel (flipped s ae) ae) as [[s1 r1]| |] eqn:F1; cbn [bind] in H; try discriminate.
    destruct (flip limit wrap fuel s1 (nxt ae)) as [[s2 r2]| |] eqn:F2; cbn [bind] in H; try discriminate.
    destruct (flip limit wrap fuel s2 (tw s ae)) as [[s3 r3]| |] eqn:F3; cbn [bind] in H; try discriminate.
    destruct (flip limit wrap fuel s3 (nxt (tw s ae))) as [[s4 r4]| |] eqn:F4; cbn [bind] in H; try discriminate. injection H as -> _.
    exists fuel, s1, s2, s3, r1, r2, r3, r4. unfold can_improve. auto 10.
  Qed.

  (** Across an edge. *)
  Lemma tri_across s n : good limit s -> node s n -> tw s n <> 0 -> tri s (P s (tw s n)) (P s (prv n)) (P s (nxt n)).
  Proof.
    intros G Hn Hz. pose proof (around_ok limit s n G Hn Hz) as R. exists (tw s n). split; [apply (ar_b _ _ R)|]. unfold P. rewrite (ar_p1 _ _ R), (ar_p2 _ _ R). auto.
  Qed.

  (** A spoke is in order. *)
  Lemma spoke_still s p l m n : good limit s -> starry s p l -> node s m -> P s m = p -> n = nxt m \/ n = prv m -> ~ can_improve s n.
  Proof.
    intros G ((Q & St) & L & Hl) Hm Hp Hn Hi. pose proof (mesh_ok s G) as W. pose proof (node_mod s m Hm) as Mm.
    assert (Hnn : node s n) by (destruct Hn as [-> | ->]; [now apply nxt_node|now apply prv_node]).
    destruct (good_improve limit s n G Hi) as (Hz & _ & _). destruct Hi as (_ & Hc & Hd).
    pose proof (tri_node s n Hnn) as K1. pose proof (tri_across s n G Hnn Hz) as K2. assert (KE : free s (P s (nxt n)) (P s (prv n))) by (exists n; auto).
    unfold det_at in Hd. destruct Hn as [-> | ->].
    - rewrite nxt_nxt, prv_nxt, Hp in * by assumption. set (e := P s (tw s (nxt m))) in *. set (a := P s (nxt m)) in *. set (b := P s (prv m)) in *. pose proof (t_rot' _ _ _ _ _ W K1) as K1'.
      pose proof (t_rot _ _ W _ _ _ K2) as K2'. destruct (st_lead _ _ _ _ St a b K1') as (M1 & M2 & M3 & M4).
      pose proof (spoke_det (Q a b) (Q b e) p a b e M1 M2 M3 M4 (t_cw _ _ W _ _ _ K1') (t_cw _ _ W _ _ _ K2') (st_spoke _ _ _ _ St a b e K1' K2' KE)) as D.
      rewrite det_rot in Hd. lia.
    - rewrite nxt_prv, prv_prv, Hp in * by assumption. set (e := P s (tw s (prv m))) in *. set (a := P s (nxt m)) in *. set (b := P s (prv m)) in *. pose proof (t_rot _ _ W _ _ _ K1) as K1'.
      pose proof (t_rot' _ _ _ _ _ W K2) as K2'. destruct (st_lead _ _ _ _ St e a K2') as (M1 & M2 & M3 & M4).
      pose proof (spoke_det (Q e a) (Q a b) p e a b M1 M2 M3 M4 (t_cw _ _ W _ _ _ K2') (t_cw _ _ W _ _ _ K1') (st_spoke _ _ _ _ St e a b K2' K1' (t_sym _ _ W _ _ KE))) as D.
      replace (incircle_det b p a e) with (incircle_det p e a b) in Hd by (unfold incircle_det, det6; ring). lia.
  Qed.

  (** flip does nothing at a spoke. *)
  Lemma flip_spoke fuel s p l m n s' r : good limit s -> starry s p l -> node s m -> P s m = p -> n = nxt m \/ n = prv m -> flip limit wrap fuel s n = Ok (s', r) -> s' = s.
  Proof.
    intros G S Hm Hp Hn H. assert (Hnn : node s n) by (destruct Hn as [-> | ->]; [now apply nxt_node|now apply prv_node]).
    destruct (flip_case fuel s n s' r G Hnn H) as [[-> _]|(k & s1 & s2 & s3 & r1 & r2 & r3 & r4 & _ & Hi & _)]; [reflexivity|exfalso]. exact (spoke_still s p l m n G S Hm Hp Hn Hi).
  Qed.

  (** A pending far side that is in order. *)
  Lemma starry_drop s p x l : good limit s -> starry s p (x :: l) -> (co s x = 1 \/ 0 <= det_at s x (P s (tw s x))) -> starry s p l.
  Proof.
    intros G (St & L & Hl) Hx. split; [assumption|]. pose proof (mesh_ok s G) as W. split; [|intros m Hm; apply Hl; now right].
    destruct (Hl x (or_introl eq_refl)) as [Nx Px].
    assert (One : forall a b c e, tri s a b c -> tri s e c b -> free s b c -> a = p -> P s (nxt x) = b -> P s (prv x) = c -> 0 <= incircle_det a b c e).
    { intros a b c e K1 K2 (m & Hm & Hc & M1 & M2) -> Eb Ec.
      assert (m = x) as -> by (apply (same_ends limit s); congruence). destruct Hx as [Hx|Hx]; [lia|].
      pose proof (co_open limit s G x Nx Hc) as Hz. pose proof (tri_across s x G Nx Hz) as K3. rewrite Eb, Ec in K3. unfold det_at in Hx. rewrite Px, Eb, Ec in Hx.
      assert (e = P s (tw s x)) as ->; [|assumption]. apply (t_uniq _ _ W c b); now apply (t_rot _ _ W). }
    intros a b c e K1 K2 KE. destruct (L a b c e K1 K2 KE) as [?|[[-> (m & [<- |Hm] & M1 & M2)]|[-> (m & [<- |Hm] & M1 & M2)]]]; [now left| | | |].
    - left. now apply (One p b c e).
    - right. left. split; [reflexivity|]. now exists m.
    - left. rewrite <- det_rev. apply (One p c b a); auto. now apply (t_sym _ _ W).
    - right. right. split; [reflexivity|]. now exists m.
  Qed.

  (** One flip. *)
  Lemma starry_flipped s p x l : good limit s -> starry s p (x :: l) -> can_improve s x ->
    starry (flipped s x) p (x :: nxt (tw s x) :: l) /\ (forall m, node s m -> P s m = p -> P (flipped s x) m = p).
  Proof.
    intros G ((Q & St) & L & Hl) Hi. destruct (good_improve limit s x G Hi) as (Hz & R & G'). destruct Hi as (Nx & Hc & Hd).
    destruct (Hl x (or_introl eq_refl)) as [_ Px]. pose proof (mesh_ok s G) as W. pose proof (mesh_ok _ G') as W'.
    pose proof (node_mod s x Nx) as Mx. pose proof (node_mod s _ (ar_b _ _ R)) as Mb.
    pose proof (tri_node s x Nx) as H1. pose proof (tri_across s x G Nx Hz) as H2. assert (He : free s (P s (nxt x)) (P s (prv x))) by (exists x; auto).
    pose proof (around_ne s x R) as N. cbv zeta in N. destruct N as (N1 & N2 & N3 & N4 & N5 & N6 & N7 & N8 & N9 & N10 & N11 & N12 & N13 & N14 & N15 & _).
    assert (B2 : P s (prv (tw s x)) = P s (nxt x)) by (unfold P; now rewrite (ar_p2 _ _ R)). assert (B1 : P s (nxt (tw s x)) = P s (prv x)) by (unfold P; now rewrite (ar_p1 _ _ R)).
    assert (T1 : P (flipped s x) x = P s x /\ P (flipped s x) (nxt x) = P s (tw s x) /\ P (flipped s x) (prv x) = P s (prv x)).
    { rewrite !flipped_P, !Z.eqb_refl. repeat match goal with |- context [?a =? ?b] => rewrite (proj2 (Z.eqb_neq a b)) by neq end. auto. }
    assert (T2 : P (flipped s x) (tw s x) = P s (tw s x) /\ P (flipped s x) (nxt (tw s x)) = P s x /\ P (flipped s x) (prv (tw s x)) = P s (nxt x)).
    { rewrite !flipped_P, !Z.eqb_refl. repeat match goal with |- context [?a =? ?b] => rewrite (proj2 (Z.eqb_neq a b)) by neq end. auto. }
    destruct T1 as (T1 & T1a & T1b), T2 as (T2 & T2a & T2b).
    assert (K1 : tri (flipped s x) (P s x) (P s (tw s x)) (P s (prv x))) by (exists x; auto).
    assert (K2 : tri (flipped s x) (P s (tw s x)) (P s x) (P s (nxt x))) by (exists (tw s x); split; [apply (ar_b _ _ R)|auto]).
    unfold det_at in Hd. rewrite Px in *. set (a := P s (nxt x)) in *. set (b := P s (prv x)) in *. set (d := P s (tw s x)) in *.
    assert (HT : forall u v w, tri (flipped s x) u v w -> tri s u v w \/ rot3 u v w p d b \/ rot3 u v w d p a).
    { intros u v w K. pose proof (flipped_tri s x u v w R K) as X. now rewrite Px in X. }
    assert (HE : forall u v, free (flipped s x) u v -> free s u v \/ (u = p /\ v = d) \/ (u = d /\ v = p)).
    { intros u v K. pose proof (flipped_free s x u v G Nx Hz K) as X. now rewrite Px in X. }
    destruct (fs_ne (tri s) (tri (flipped s x)) (free s) (free (flipped s x)) p a b d W W' H1 H2 K1) as (X1 & X2 & X3 & X4 & X5 & X6).
    pose proof (star_flip (tri s) (tri (flipped s x)) (free s) (free (flipped s x)) p a b d W W' H1 H2 He K1 K2 HT HE Hd Q (pend s (x :: l)) St L) as St'.
    pose proof (but_flip (tri s) (tri (flipped s x)) (free s) (free (flipped s x)) p a b d W W' H1 H2 K1 K2 HT HE Hd _ (pend s (x :: l)) St' L) as L'.
    assert (Keep : forall m, node s m -> P s m = p -> P (flipped s x) m = p).
    { intros m Hm Em. rewrite flipped_P. destruct (m =? nxt (tw s x)); [assumption|]. destruct (Z.eqb_spec m (nxt x)) as [-> |]; [exfalso; apply X1; symmetry; exact Em|assumption]. }
    split; [|exact Keep]. split; [eexists; exact St'|]. split.
    - apply (but_weaken _ _ _ _ _ ) with (2 := L'). intros u v [[(m & Hm & M1 & M2) Dm]|[[-> ->]|[-> ->]]].
      + destruct Hm as [<- |Hm]; [exfalso; apply Dm; auto|]. destruct (Hl m (or_intror Hm)) as [Nm Pm]. pose proof (node_mod s m Nm) as Mm.
        exists m. split; [right; now right|]. rewrite !flipped_P.
        assert (Fx : m / 4 <> x / 4).
        { intro E. destruct (same_face x m Mx Mm (eq_sym E)) as [E1|[E1|E1]].
          - subst m. apply Dm. auto.
          - apply X1. rewrite <- Pm, E1. reflexivity.
          - apply X2. rewrite <- Pm, E1. reflexivity. }
        assert (Fb : m / 4 <> tw s x / 4).
        { intro E. destruct (same_face _ m Mb Mm (eq_sym E)) as [E1|[E1|E1]].
          - apply X3. rewrite <- Pm, E1. reflexivity.
          - apply X2. rewrite <- Pm, E1. exact B1.
          - apply X1. rewrite <- Pm, E1. exact B2. }
        assert (Y : forall k, k / 4 = m / 4 -> k <> nxt (tw s x) /\ k <> nxt x) by (intros k Ek; split; intro Z; rewrite Z, nxt_face in Ek; congruence).
        destruct (Y (nxt m) (nxt_face m)) as [Y1 Y2]. destruct (Y (prv m) (prv_face m Mm)) as [Y3 Y4].
        rewrite !(proj2 (Z.eqb_neq _ _)) by assumption. auto.
      + exists (nxt (tw s x)). split; [right; now left|]. rewrite nxt_nxt, prv_nxt by assumption. auto.
      + exists x. split; [now left|auto].
    - intros m [<- |[<- |Hm]].
      + split; [exact Nx|]. now rewrite T1.
      + split; [exact (ar_b1 _ _ R)|exact T2a].
      + destruct (Hl m (or_intror Hm)) as [Nm Pm]. split; [exact Nm|now apply Keep].
  Qed.

  (** flip brings the far side it is called for in order. *)
  Lemma flip_starry fuel : forall s p x l s' r, good limit s -> starry s p (x :: l) -> flip limit wrap fuel s x = Ok (s', r) ->
    good limit s' /\ size s' = size s /\ starry s' p l /\ (forall m, node s m -> P s m = p -> P s' m = p).
  Proof.
    induction fuel as [|fuel IH]; intros s p x l s' r G S H; [discriminate|].
    pose proof (proj2 (proj2 S) x (or_introl eq_refl)) as [Nx Px].
    destruct (flip_case _ s x s' r G Nx H) as [[-> Hx]|(k & s1 & s2 & s3 & r1 & r2 & r3 & r4 & Ek & Hi & F1 & F2 & F3 & F4)].
    - split; [assumption|]. split; [reflexivity|]. split; [|auto]. apply (starry_drop s p x l G S). destruct Hx as [?|(_ & _ & ?)]; auto.
    - injection Ek as <-. destruct (good_improve limit s x G Hi) as (Hz & R & G'). destruct (starry_flipped s p x l G S Hi) as [S0 K0].
      destruct (IH _ p x _ s1 r1 G' S0 F1) as (G1 & E1 & S1 & K1). pose proof (ar_b1 _ _ R) as Nb.
      assert (Px1 : P s1 x = p) by (apply K1; [exact Nx|now apply K0]).
      assert (s2 = s1) as -> by (apply (flip_spoke fuel s1 p _ x (nxt x) s2 r2 G1 S1); [now apply (node_size s)|assumption|now left|assumption]).
      assert (Pb1 : P s1 (nxt (tw s x)) = p) by (apply (proj2 (proj2 S1)); now left).
      pose proof (node_mod s _ (ar_b _ _ R)) as Mb.
      assert (s3 = s1) as ->. { apply (flip_spoke fuel s1 p _ (nxt (tw s x)) (tw s x) s3 r3 G1 S1); [now apply (node_size s)|assumption|right; now rewrite prv_nxt|assumption]. }
      destruct (IH _ p _ _ s' r4 G1 S1 F4) as (G4 & E4 & S4 & K4). split; [assumption|]. split; [now rewrite E4, E1|]. split; [assumption|].
      intros m Hm Em. apply K4; [now apply (node_size s)|]. apply K1; [exact Hm|]. now apply K0.
  Qed.

  (** ** Insertions *)
  (** Every free edge is locally Delaunay. *)
  Definition all_ld (s : mesh) : Prop := forall a b c e, tri s a b c -> tri s e c b -> free s b c -> 0 <= incircle_det a b c e.
  Lemma ld_but s p : all_ld s -> delaunay_but (tri s) (free s) p (fun _ _ => False).
  Proof. intros L a b c e K1 K2 K3. left. now apply (L a b c e). Qed.
  Lemma starry_ld s p : starry s p [] -> all_ld s.
  Proof. intros (_ & L & _) a b c e K1 K2 K3. destruct (L a b c e K1 K2 K3) as [?|[[_ (m & [] & _)]|[_ (m & [] & _)]]]. assumption. Qed.

  Lemma split3_tri s px py u x y z : good limit s -> node s u -> u mod 4 = 0 -> tri (split3 s px py u) x y z ->
    tri s x y z \/ rot3 x y z (px, py) (P s u) (P s (u + 1)) \/ rot3 x y z (px, py) (P s (u + 1)) (P s (u + 2)) \/ rot3 x y z (px, py) (P s (u + 2)) (P s u).
  Proof.
    intros G Hu Mu (n & Hn & <- & <- & <-). pose proof (own_face (split3 s px py u) n) as O. rewrite (split3_at limit _ s px py u n (is_tri_facewise _ _ _) G Hu Mu Hn) in O.
    destruct (n / 4 =? u / 4) eqn:E0; [apply is_tri_one in O; tauto|].
    destruct (Z.eqb_spec (n / 4) (size s * 2)) as [E1|E1]; [right; right; right; apply is_tri_one in O; unfold rot3 in *; tauto|].
    destruct (Z.eqb_spec (n / 4) (size s * 2 + 1)) as [E2|E2]; [right; left; apply is_tri_one in O; unfold rot3 in *; tauto|].
    left. apply (face_tri s n); [|assumption]. split; [|exact (node_mod _ n Hn)]. destruct Hn as [Hn _]. change (size (split3 s px py u)) with (size s + 1) in Hn.
    pose proof (Z.div_mod n 4 ltac:(lia)). pose proof (Z.mod_pos_bound n 4 ltac:(lia)). lia.
  Qed.

  Lemma split3_free s px py u x y : good limit s -> node s u -> u mod 4 = 0 -> free (split3 s px py u) x y -> x = (px, py) \/ y = (px, py) \/ free s x y.
  Proof.
    intros G Hu Mu Hf. destruct (offs u Mu) as (O1 & O2 & O3 & O4 & O5 & O6 & O7 & O8 & O9 & O10).
    pose proof (g_size _ _ G) as Gs. destruct (grown_faces s (proj1 Gs)) as (Fv & Fw & Mv & Mw).
    destruct (offs _ Mv) as (V1 & V2 & V3 & V4 & V5 & V6 & V7 & V8 & _). destruct (offs _ Mw) as (W1 & W2 & W3 & W4 & W5 & W6 & W7 & W8 & _).
    destruct (split3_points limit s px py u G Hu Mu) as (P0 & P1 & P2 & P3 & P4 & P5 & P6 & P7).
    destruct (relabel_free s _ _ _ _ x y G (proj1 (split3_extends limit s px py u G)) (split3_relabel limit s px py u G Hu Mu) Hf) as [?|(m & Hm & HN & _ & <- & <-)]; [auto|].
    destruct HN as [-> |[-> |[-> |[-> |[-> | ->]]]]]; rewrite ?O3, ?O4, ?O5, ?O6, ?V1, ?V2, ?V3, ?V4, ?V5, ?V6, ?W1, ?W2, ?W3, ?W4, ?W5, ?W6; tauto.
  Qed.

  (** p is no corner of a triangle. *)
  Definition fresh_at (s : mesh) (p : point) : Prop := forall n, node s n -> P s n <> p.
  Lemma fresh_tri s p : fresh_at s p -> forall x y z, tri s x y z -> x <> p.
  Proof. intros F x y z (n & Hn & <- & _). now apply F. Qed.

  Lemma in_face_start s px py u : good limit s -> node s u -> u mod 4 = 0 -> size s < limit -> inbox (px, py) -> fresh_at s (px, py) ->
    orient (px, py) (P s (u + 1)) (P s (u + 2)) < 0 -> orient (P s u) (px, py) (P s (u + 2)) < 0 -> orient (P s u) (P s (u + 1)) (px, py) < 0 ->
    all_ld s -> good limit (split3 s px py u) /\ starry (split3 s px py u) (px, py) [u; size s * 8 + 1; size s * 8 + 4 + 2].
  Proof.
    intros G Hu Mu Hs Hp Fr C1 C2 C3 L.
    pose proof (split3_good limit s px py u G Hu Mu Hs Hp C1 C2 C3) as G0.
    destruct (offs u Mu) as (O1 & O2 & O3 & O4 & O5 & O6 & O7 & O8 & O9 & O10).
    pose proof (g_size _ _ G) as Gs. destruct (grown_faces s (proj1 Gs)) as (Fv & Fw & Mv & Mw).
    destruct (offs _ Mv) as (V1 & V2 & V3 & V4 & V5 & V6 & V7 & V8 & _). destruct (offs _ Mw) as (W1 & W2 & W3 & W4 & W5 & W6 & W7 & W8 & _).
    destruct (split3_points limit s px py u G Hu Mu) as (P0 & P1 & P2 & P3 & P4 & P5 & P6 & P7).
    pose proof (nxt_node s u Hu) as Hu1. rewrite O1 in Hu1. pose proof (prv_node s u Hu) as Hu2. rewrite O2 in Hu2.
    pose proof (P7 (u + 1) Hu1 ltac:(lia)) as P8. pose proof (P7 (u + 2) Hu2 ltac:(lia)) as P9.
    assert (Gn : forall m, node (split3 s px py u) m <-> _) by (intro m; apply (grown_node s (split3 s px py u) m eq_refl (proj1 Gs))).
    assert (N1 : node (split3 s px py u) u) by (apply Gn; now left). assert (N2 : node (split3 s px py u) (size s * 8 + 1)) by (apply Gn; tauto). assert (N3 : node (split3 s px py u) (size s * 8 + 4 + 2)) by (apply Gn; tauto).
    pose proof (fun x y z => split3_tri s px py u x y z G Hu Mu) as HT. pose proof (fun x y => split3_free s px py u x y G Hu Mu) as HE. clear Gn P7.
    remember (split3 s px py u) as s0 eqn:E0. clear E0.
    pose proof (mesh_ok s G) as W. pose proof (mesh_ok s0 G0) as W'.
    assert (T1 : tri s0 (px, py) (P s (u + 1)) (P s (u + 2))) by (exists u; rewrite O1, O2; auto).
    assert (T2 : tri s0 (px, py) (P s (u + 2)) (P s u)) by (exists (size s * 8 + 1); rewrite V3, V4; auto).
    assert (T3 : tri s0 (px, py) (P s u) (P s (u + 1))) by (exists (size s * 8 + 4 + 2); rewrite W5, W6; auto).
    assert (T0 : tri s (P s u) (P s (u + 1)) (P s (u + 2))) by (exists u; rewrite O1, O2; auto).
    pose proof (in_face_star (tri s) (tri s0) (free s) (free s0) (px, py) W W' (fresh_tri s _ Fr) HE (ld_but s _ L) _ _ _ T0 T3 T1 T2 HT) as St.
    split; [assumption|].
    split; [eexists; exact St|]. split.
      - apply (but_weaken _ _ _ (tri s0 (px, py))).
        + intros x y K. destruct (in_face_at (tri s) (tri s0) (free s) (px, py) W (fresh_tri s _ Fr) _ _ _ T0 HT x y K) as [[-> ->]|[[-> ->]|[-> ->]]].
          * exists (size s * 8 + 4 + 2). rewrite W5, W6. cbn [In]. auto.
          * exists u. rewrite O1, O2. cbn [In]. auto.
          * exists (size s * 8 + 1). rewrite V3, V4. cbn [In]. auto.
        + apply (but_start (tri s) (tri s0) (free s) (free s0) (px, py) W' HE (ld_but s _ L) _) with (2 := St).
          intros x y z K. destruct (HT x y z K) as [?|R]; [now left|]. right. unfold rot3 in R. clear - R. tauto.
      - intros m [<- |[<- |[<- |[]]]]; auto.
  Qed.
  Lemma in_face_ld fuel s px py u s' : good limit s -> node s u -> u mod 4 = 0 -> size s < limit -> inbox (px, py) -> fresh_at s (px, py) ->
    orient (px, py) (P s (u + 1)) (P s (u + 2)) < 0 -> orient (P s u) (px, py) (P s (u + 2)) < 0 -> orient (P s u) (P s (u + 1)) (px, py) < 0 ->
    all_ld s -> insert_in_face limit wrap fuel s px py u = Ok s' -> all_ld s'.
  Proof.
    intros G Hu Mu Hs Hp Fr C1 C2 C3 L H. rewrite (split3_run limit wrap fuel s px py u G Hu Mu Hs Hp) in H.
    destruct (in_face_start s px py u G Hu Mu Hs Hp Fr C1 C2 C3 L) as [G0 S0]. remember (split3 s px py u) as s0 eqn:E0. clear E0.
    destruct (flip limit wrap fuel s0 u) as [[s1 r1]| |] eqn:F1; cbn [bind] in H; try discriminate.
    destruct (flip_starry fuel s0 _ _ _ s1 r1 G0 S0 F1) as (G1 & _ & S1 & _).
    destruct (flip limit wrap fuel s1 (size s * 8 + 1)) as [[s2 r2]| |] eqn:F2; cbn [bind] in H; try discriminate.
    destruct (flip_starry fuel s1 _ _ _ s2 r2 G1 S1 F2) as (G2 & _ & S2 & _).
    destruct (flip limit wrap fuel s2 (size s * 8 + 4 + 2)) as [[s3 r3]| |] eqn:F3; cbn [bind] in H; try discriminate.
    destruct (flip_starry fuel s2 _ _ _ s3 r3 G2 S2 F3) as (G3 & _ & S3 & _). injection H as <-. now apply (starry_ld s3 (px, py)).
  Qed.

  Lemma split4_tri s px py ue x y z : good limit s -> node s ue -> tw s ue <> 0 -> tri (split4 s px py ue) x y z ->
    tri s x y z \/ rot3 x y z (px, py) (P s ue) (P s (nxt ue)) \/ rot3 x y z (px, py) (P s (prv ue)) (P s ue) \/
    rot3 x y z (px, py) (P s (tw s ue)) (P s (prv ue)) \/ rot3 x y z (px, py) (P s (nxt ue)) (P s (tw s ue)).
  Proof.
    intros G Hu Hz (n & Hn & <- & <- & <-). pose proof (own_face (split4 s px py ue) n) as O. rewrite (split4_at limit _ s px py ue n (is_tri_facewise _ _ _) G Hu Hz Hn) in O.
    destruct (n / 4 =? ue / 4) eqn:E0; [right; left; apply is_tri_one in O; unfold rot3 in *; tauto|].
    destruct (n / 4 =? tw s ue / 4) eqn:E0'; [do 4 right; apply is_tri_one in O; unfold rot3 in *; tauto|].
    destruct (Z.eqb_spec (n / 4) (size s * 2)) as [E1|E1]; [right; right; left; apply is_tri_one in O; unfold rot3 in *; tauto|].
    destruct (Z.eqb_spec (n / 4) (size s * 2 + 1)) as [E2|E2]; [do 3 right; left; apply is_tri_one in O; unfold rot3 in *; tauto|].
    left. apply (face_tri s n); [|assumption]. split; [|exact (node_mod _ n Hn)]. destruct Hn as [Hn _]. change (size (split4 s px py ue)) with (size s + 1) in Hn.
    pose proof (Z.div_mod n 4 ltac:(lia)). pose proof (Z.mod_pos_bound n 4 ltac:(lia)). lia.
  Qed.

  Lemma split4_free s px py ue x y : good limit s -> node s ue -> tw s ue <> 0 -> free (split4 s px py ue) x y -> x = (px, py) \/ y = (px, py) \/ free s x y.
  Proof.
    intros G Hu Hz Hf. pose proof (g_size _ _ G) as Gs. destruct (grown_faces s (proj1 Gs)) as (Fv & Fw & Mv & Mw).
    destruct (offs _ Mv) as (V1 & V2 & V3 & V4 & V5 & V6 & V7 & V8 & _). destruct (offs _ Mw) as (W1 & W2 & W3 & W4 & W5 & W6 & W7 & W8 & _).
    destruct (split4_points limit s px py ue G Hu Hz) as (P0 & P1 & P2 & P3 & P4 & P5 & P6 & P7 & P8 & P9 & P10).
    pose proof (node_mod s ue Hu) as Mu. pose proof (node_mod s _ (tw_node limit s G ue Hu Hz)) as Mve.
    destruct (relabel_free s _ _ _ _ x y G (proj1 (split4_extends limit s px py ue G)) (split4_relabel limit s px py ue G Hu Hz) Hf) as [?|(m & Hm & HN & _ & <- & <-)]; [auto|].
    destruct HN as [-> |[-> |[-> |[-> |[-> |[-> |[-> | ->]]]]]]]; rewrite ?(nxt_nxt ue), ?(prv_prv (tw s ue)), ?V1, ?V2, ?V3, ?V4, ?V5, ?V6, ?W1, ?W2, ?W3, ?W4, ?W5, ?W6 by assumption; tauto.
  Qed.

  Lemma puts_at (f : Z -> Z) x y u1 v2 ue c0 c1 c2 c3 c4 c5 c6 c7 : x + 4 = y -> ue < x -> u1 < x -> v2 < x -> ue <> u1 -> ue <> v2 ->
    let g := put (put (put (put (put (put (put (put f x c0) (x + 1) c1) (x + 2) c2) u1 c3) y c4) (y + 1) c5) (y + 2) c6) v2 c7 in g ue = f ue /\ g y = c4.
  Proof.
    intros H1 H2 H3 H4 H5 H6 g. subst g. split.
    - rewrite !put_ne by (assumption || lia). reflexivity.
    - rewrite (put_ne _ v2), (put_ne _ (y + 2)), (put_ne _ (y + 1)), put_eq by lia. reflexivity.
  Qed.
  Lemma split4_co s px py ue : good limit s -> node s ue -> tw s ue <> 0 ->
    co (split4 s px py ue) ue = co s ue /\ co (split4 s px py ue) (size s * 8 + 4) = co s (tw s ue).
  Proof.
    intros G Hu Hz.
    pose proof (setting_ok limit s ue G Hu Hz) as ((H1 & H2 & H3 & H4 & H5 & H6) & _ & _ & _ & (N1 & N2 & N3 & N4 & N5 & N6 & N7 & N8 & N9 & N10 & N11 & N12 & N13 & N14 & N15) & _).
    assert (Rn : forall n, node s n -> n < size s * 8) by (intros n [H _]; lia).
    exact (puts_at (co s) (size s * 8) (size s * 8 + 4) (nxt ue) (prv (tw s ue)) ue _ _ _ _ _ _ _ _ eq_refl (Rn _ H1) (Rn _ H3) (Rn _ H6) N1 N9).
  Qed.

  Lemma split4_half s px py ue : good limit s -> node s ue -> tw s ue <> 0 -> good limit (split4 s px py ue) ->
    (free (split4 s px py ue) (P s (nxt ue)) (px, py) -> free s (P s (nxt ue)) (P s (prv ue))) /\
    (free (split4 s px py ue) (P s (prv ue)) (px, py) -> free s (P s (nxt ue)) (P s (prv ue))).
  Proof.
    intros G Hu Hz G'. pose proof (g_size _ _ G) as Gs. destruct (grown_faces s (proj1 Gs)) as (Fv & Fw & Mv & Mw).
    destruct (offs _ Mw) as (W1 & W2 & _). pose proof (around_ok limit s ue G Hu Hz) as R. destruct (split4_co s px py ue G Hu Hz) as [C1 C2].
    destruct (split4_points limit s px py ue G Hu Hz) as (P0 & P1 & P2 & P3 & P4 & P5 & P6 & P7 & P8 & P9 & P10).
    pose proof (setting_ok limit s ue G Hu Hz) as ((H1 & H2 & H3 & H4 & H5 & H6) & _ & _ & _ & (N1 & N2 & N3 & N4 & N5 & N6 & N7 & N8 & N9 & N10 & N11 & N12 & N13 & N14 & N15) & _).
    pose proof (P10 _ H3 N3 N11) as P11.
    pose proof (proj2 (grown_node s (split4 s px py ue) ue eq_refl (proj1 Gs)) (or_introl H1)) as X1.
    assert (X2 : node (split4 s px py ue) (size s * 8 + 4)) by (apply (grown_node s (split4 s px py ue) _ eq_refl (proj1 Gs)); tauto).
    clear P10. remember (split4 s px py ue) as s0 eqn:E0. clear E0.
    split; intros (m & Hm & Hc & M1 & M2).
    - assert (m = ue) as -> by (apply (same_ends limit s0 m ue G' Hm X1); congruence).
      exists ue. split; [assumption|]. split; [congruence|auto].
    - assert (m = size s * 8 + 4) as -> by (apply (same_ends limit s0 m _ G' Hm X2); rewrite ?W1, ?W2; congruence).
      exists ue. split; [assumption|]. split; [|auto]. rewrite <- (ar_cc _ _ R). congruence.
  Qed.

  Lemma on_edge_start s px py ue : good limit s -> node s ue -> tw s ue <> 0 -> size s < limit -> inbox (px, py) -> fresh_at s (px, py) ->
    orient (P s ue) (P s (nxt ue)) (px, py) < 0 -> orient (P s (tw s ue)) (px, py) (P s (nxt ue)) < 0 ->
    orient (P s ue) (px, py) (P s (prv ue)) < 0 -> orient (P s (tw s ue)) (P s (prv ue)) (px, py) < 0 -> orient (px, py) (P s (nxt ue)) (P s (prv ue)) = 0 ->
    all_ld s -> good limit (split4 s px py ue) /\ starry (split4 s px py ue) (px, py) [prv ue; size s * 8 + 1; nxt (tw s ue); size s * 8 + 4 + 2].
  Proof.
    intros G Hue Hze Hs Hp Fr K1 K2 K3 K4 K5 L.
    pose proof (split4_good limit s px py ue G Hue Hze Hs Hp K1 K2 K3 K4) as G0. pose proof (tw_node limit s G ue Hue Hze) as Hve.
    pose proof (g_size _ _ G) as Gs. destruct (grown_faces s (proj1 Gs)) as (Fv & Fw & Mv & Mw).
    destruct (offs _ Mv) as (V1 & V2 & V3 & V4 & V5 & V6 & V7 & V8 & _). destruct (offs _ Mw) as (W1 & W2 & W3 & W4 & W5 & W6 & W7 & W8 & _).
    destruct (split4_points limit s px py ue G Hue Hze) as (P0 & P1 & P2 & P3 & P4 & P5 & P6 & P7 & P8 & P9 & P10).
    pose proof (setting_ok limit s ue G Hue Hze) as ((H1 & H2 & H3 & H4 & H5 & H6) & _ & _ & _ & (N1 & N2 & N3 & N4 & N5 & N6 & N7 & N8 & N9 & N10 & N11 & N12 & N13 & N14 & N15) & _).
    pose proof (P10 ue H1 N2 N8) as P11. pose proof (P10 (nxt ue) H3 N3 N11) as P12. pose proof (P10 _ H2 (not_eq_sym N13) N4) as P13. pose proof (P10 _ H6 (not_eq_sym N15) (not_eq_sym N6)) as P14.
    pose proof (node_mod s ue Hue) as Mu. pose proof (node_mod s _ Hve) as Mve.
    assert (Gn : forall m, node (split4 s px py ue) m <-> _) by (intro m; apply (grown_node s (split4 s px py ue) m eq_refl (proj1 Gs))).
    assert (M1 : node (split4 s px py ue) (prv ue)) by (apply Gn; now left). assert (M2 : node (split4 s px py ue) (size s * 8 + 1)) by (apply Gn; tauto).
    assert (M3 : node (split4 s px py ue) (nxt (tw s ue))) by (apply Gn; now left). assert (M4 : node (split4 s px py ue) (size s * 8 + 4 + 2)) by (apply Gn; tauto).
    pose proof (fun x y z => split4_tri s px py ue x y z G Hue Hze) as HT. pose proof (fun x y => split4_free s px py ue x y G Hue Hze) as HE.
    destruct (split4_half s px py ue G Hue Hze G0) as [HEa HEb]. clear Gn P10.
    remember (split4 s px py ue) as s0 eqn:E0. clear E0.
    pose proof (mesh_ok s G) as W. pose proof (mesh_ok s0 G0) as W'.
    set (o := P s ue) in *. set (a := P s (nxt ue)) in *. set (b0 := P s (prv ue)) in *. set (d := P s (tw s ue)) in *.
    assert (To : tri s o a b0) by (exists ue; auto). assert (Td : tri s d b0 a) by (apply (tri_across s ue G Hue Hze)).
    assert (T1 : tri s0 (px, py) o a) by (exists (prv ue); rewrite nxt_prv, prv_prv by assumption; auto).
    assert (T2 : tri s0 (px, py) b0 o) by (exists (size s * 8 + 1); rewrite V3, V4; auto).
    assert (T3 : tri s0 (px, py) d b0) by (exists (size s * 8 + 4 + 2); rewrite W5, W6; auto).
    assert (T4 : tri s0 (px, py) a d) by (exists (nxt (tw s ue)); rewrite nxt_nxt, prv_nxt by assumption; split; [assumption|]; split; [assumption|]; split; [congruence|assumption]).
    pose proof (on_edge_star (tri s) (tri s0) (free s) (free s0) (px, py) W W' (fresh_tri s _ Fr) HE (ld_but s _ L) a b0 o d To Td T1 T2 T3 T4 HT HEa HEb K5) as St.
    split; [assumption|].
    split; [eexists; exact St|]. split.
      - apply (but_weaken _ _ _ (tri s0 (px, py))).
        + intros x y K. destruct (on_edge_at (tri s) (tri s0) (free s) (px, py) W (fresh_tri s _ Fr) a b0 o d To Td HT x y K) as [[-> ->]|[[-> ->]|[[-> ->]|[-> ->]]]].
          * exists (prv ue). rewrite nxt_prv, prv_prv by assumption. cbn [In]. auto.
          * exists (size s * 8 + 1). rewrite V3, V4. cbn [In]. auto.
          * exists (size s * 8 + 4 + 2). rewrite W5, W6. cbn [In]. auto 6.
          * exists (nxt (tw s ue)). rewrite nxt_nxt, prv_nxt by assumption. cbn [In]. split; [auto|]. split; [congruence|assumption].
        + apply (but_start (tri s) (tri s0) (free s) (free s0) (px, py) W' HE (ld_but s _ L) _) with (2 := St).
          intros x y z K. destruct (HT x y z K) as [?|Rr]; [now left|]. right. unfold rot3 in Rr. clear - Rr. tauto.
      - intros m [<- |[<- |[<- |[<- |[]]]]]; auto.
  Qed.
  Lemma on_edge_ld fuel s px py u s' b : good limit s -> node s u -> size s < limit -> inbox (px, py) -> fresh_at s (px, py) -> orient (px, py) (P s (nxt u)) (P s (prv u)) = 0 ->
    orient (P s u) (P s (nxt u)) (px, py) < 0 -> orient (P s u) (px, py) (P s (prv u)) < 0 ->
    all_ld s -> insert_on_edge limit wrap fuel s px py u = Ok (s', b) -> all_ld s'.
  Proof.
    intros G Hu Hs Hp Fr C1 C2 C3 L H. destruct (Z.eqb_spec (tw s u) 0) as [Ez|Hz].
    { unfold insert_on_edge in H. rewrite (get_e_ok limit s u G Hu) in H. cbn [bind] in H. rewrite Ez in H. cbn in H. injection H as <- _. exact L. }
    remember (Z.min u (tw s u)) as ue eqn:Eue. rewrite (split4_run limit wrap fuel s px py u ue G Hu Hz Eue Hs Hp) in H.
    pose proof (tw_node limit s G u Hu Hz) as Hv. pose proof (tw_tw limit s G u Hu Hz) as Htt.
    pose proof (ea_tw limit s G u Hu Hz) as E1. pose proof (eb_tw limit s G u Hu Hz) as E2. unfold ea, eb in E1, E2.
    assert (Q1 : P s (nxt (tw s u)) = P s (prv u)) by (unfold P; now rewrite E1). assert (Q2 : P s (prv (tw s u)) = P s (nxt u)) by (unfold P; now rewrite E2).
    pose proof (g_cw _ _ G u Hu) as D1. pose proof (g_cw _ _ G _ Hv) as D2. rewrite Q1, Q2 in D2.
    destruct (other_side _ _ _ _ _ D1 D2 C1 C2 C3) as [C4 C5].
    assert (Hue : node s ue /\ tw s ue <> 0 /\ orient (P s ue) (P s (nxt ue)) (px, py) < 0 /\ orient (P s (tw s ue)) (px, py) (P s (nxt ue)) < 0 /\
      orient (P s ue) (px, py) (P s (prv ue)) < 0 /\ orient (P s (tw s ue)) (P s (prv ue)) (px, py) < 0 /\ orient (px, py) (P s (nxt ue)) (P s (prv ue)) = 0).
    { destruct (Z.min_spec u (tw s u)) as [[_ Em]|[_ Em]]; rewrite Em in Eue; subst ue; [auto 10|]. rewrite Htt, Q1, Q2. split; [assumption|]. split; [destruct Hu; lia|]. repeat split; auto. rewrite orient_swap. lia. }
    destruct Hue as (Hue & Hze & K1 & K2 & K3 & K4 & K5). clear C1 C2 C3 C4 C5 D1 D2 E1 E2 Q1 Q2 Htt Hv Eue Hu Hz u.
    destruct (on_edge_start s px py ue G Hue Hze Hs Hp Fr K1 K2 K3 K4 K5 L) as [G0 S0]. remember (split4 s px py ue) as s0 eqn:E0. clear E0.
    destruct (flip limit wrap fuel s0 (prv ue)) as [[s1 r1]| |] eqn:F1; cbn [bind] in H; try discriminate.
    destruct (flip_starry fuel s0 _ _ _ s1 r1 G0 S0 F1) as (G1 & _ & S1 & _).
    destruct (flip limit wrap fuel s1 (size s * 8 + 1)) as [[s2 r2]| |] eqn:F2; cbn [bind] in H; try discriminate.
    destruct (flip_starry fuel s1 _ _ _ s2 r2 G1 S1 F2) as (G2 & _ & S2 & _).
    destruct (flip limit wrap fuel s2 (nxt (tw s ue))) as [[s3 r3]| |] eqn:F3; cbn [bind] in H; try discriminate.
    destruct (flip_starry fuel s2 _ _ _ s3 r3 G2 S2 F3) as (G3 & _ & S3 & _).
    destruct (flip limit wrap fuel s3 (size s * 8 + 4 + 2)) as [[s4 r4]| |] eqn:F4; cbn [bind] in H; try discriminate.
    destruct (flip_starry fuel s3 _ _ _ s4 r4 G3 S3 F4) as (G4 & _ & S4 & _). injection H as <- _. now apply (starry_ld s4 (px, py)).
  Qed.

  Lemma insert_node_ld fuel s p n s' r : good limit s -> used s -> near p -> n = 0 \/ (node s n /\ closed_face s p n) -> all_ld s ->
    insert_point_at_node limit wrap fuel s (fst p) (snd p) n = Ok (s', r) -> all_ld s'.
  Proof.
    intros G Us Hp Hn L H. unfold insert_point_at_node in H. cbv zeta in H. destruct (Z.eqb_spec n 0) as [_|Hz]; [injection H as <- _; exact L|].
    destruct Hn as [Hn|[Hn Cl]]; [contradiction|]. pose proof (closed_box limit s p n G Hn Cl) as Hb.
    destruct (base_of s n Hn) as (Hu & Mu & _). pose proof (closed_base s p n Hn Cl) as C. cbv zeta in C. set (u := n / 4 * 4) in *. clearbody u. clear Hn Cl Hz n.
    destruct (offs u Mu) as (O1 & O2 & O3 & O4 & O5 & O6 & _). pose proof (nxt_node s u Hu) as Hu1. rewrite O1 in Hu1. pose proof (prv_node s u Hu) as Hu2. rewrite O2 in Hu2.
    rewrite !(rel_ok limit s p) in H by (assumption || now left). cbn [bind] in H. rewrite (edge_bits_ok limit s p u G Hp Hu Mu) in H. cbn [bind] in H.
    destruct C as (C1 & C2 & C3). pose proof (g_cw _ _ G u Hu) as D. rewrite O1, O2 in D.
    assert (S : orient (P s u) (P s (u + 1)) (P s (u + 2)) = orient p (P s (u + 1)) (P s (u + 2)) + orient p (P s (u + 2)) (P s u) + orient p (P s u) (P s (u + 1))) by (unfold orient; ring).
    assert (Cu : closed_face s p u) by (unfold closed_face; rewrite O1, O2; auto).
    assert (Fr : ~ is_corner s p u -> fresh_at s p). { intros Nc m Hm E. exact (not_vertex limit s u p G Us Hu Cu Nc (pt s m) (g_pt _ _ G m Hm) E). }
    assert (Edge : forall m, node s m -> ~ is_corner s p u -> orient p (P s (nxt m)) (P s (prv m)) = 0 -> orient (P s m) (P s (nxt m)) p < 0 -> orient (P s m) p (P s (prv m)) < 0 ->
      (if size s >=? limit then Ok (s, 0) else ' (s0, b) <- insert_on_edge limit wrap fuel s (fst p) (snd p) m;; Ok (s0, if b : bool then m else 0)) = Ok (s', r) -> all_ld s').
    { clear D S C1 C2 C3 H. intros m Hm Nc K1 K2 K3 H. destruct (Z.geb_spec (size s) limit) as [Hl|Hl]; [injection H as <- _; exact L|].
      destruct (insert_on_edge limit wrap fuel s (fst p) (snd p) m) as [[s1 b]| |] eqn:E; cbn [bind] in H; try discriminate. injection H as <- _.
      destruct p as [px py]. cbn [fst snd] in E. now apply (on_edge_ld fuel s px py m s1 b G Hm Hl Hb (Fr Nc)). }
    assert (Nc : (orient p (P s (u + 1)) (P s (u + 2)) < 0 /\ orient p (P s (u + 2)) (P s u) < 0) \/ (orient p (P s (u + 1)) (P s (u + 2)) < 0 /\ orient p (P s u) (P s (u + 1)) < 0) \/ (orient p (P s (u + 2)) (P s u) < 0 /\ orient p (P s u) (P s (u + 1)) < 0) -> ~ is_corner s p u).
    { intros K Ic. unfold is_corner in Ic. rewrite ?O1, ?O2 in Ic. assert (Zr : forall a b, orient a a b = 0 /\ orient a b a = 0) by (intros a b; unfold orient; split; ring).
      destruct Ic as [Ic|[Ic|Ic]]; rewrite Ic in K; rewrite ?(proj1 (Zr _ _)), ?(proj2 (Zr _ _)) in K; lia. }
    destruct (Z.ltb_spec (orient p (P s (u + 1)) (P s (u + 2))) 0) as [L1|L1]; destruct (Z.ltb_spec (orient p (P s (u + 2)) (P s u)) 0) as [L2|L2];
      destruct (Z.ltb_spec (orient p (P s u) (P s (u + 1))) 0) as [L3|L3]; try (exfalso; lia); cbn [Z.add Z.eqb Pos.eqb Pos.add Pos.succ] in H.
    - destruct (Z.geb_spec (size s) limit) as [Hl|Hl]; [injection H as <- _; exact L|].
      assert (K2 : orient (P s u) p (P s (u + 2)) < 0) by (rewrite <- (orient_rot (P s u)); exact L2).
      assert (K3 : orient (P s u) (P s (u + 1)) p < 0) by (rewrite (orient_rot p); exact L3).
      destruct (insert_in_face limit wrap fuel s (fst p) (snd p) u) as [s1| |] eqn:E; cbn [bind] in H; try discriminate. injection H as <- _.
      pose proof (Fr (Nc ltac:(auto))) as Frp. destruct p as [px py]. cbn [fst snd] in E. now apply (in_face_ld fuel s px py u s1 G Hu Mu Hl Hb Frp).
    - apply (Edge (u + 2) Hu2); rewrite ?O5, ?O6; [apply Nc; auto|lia|rewrite (orient_rot p); exact L2|rewrite <- (orient_rot (P s (u + 2))); exact L1|exact H].
    - apply (Edge (u + 1) Hu1); rewrite ?O3, ?O4; [apply Nc; auto|lia|rewrite (orient_rot p); exact L1|rewrite <- (orient_rot (P s (u + 1))); exact L3|exact H].
    - injection H as <- _. exact L.
    - rewrite Z.add_0_r in H. apply (Edge u Hu); rewrite ?O1, ?O2; [apply Nc; auto|lia|rewrite (orient_rot p); exact L3|rewrite <- (orient_rot (P s u)); exact L2|exact H].
    - injection H as <- _. exact L.
    - injection H as <- _. exact L.
  Qed.
End Delaunay.
