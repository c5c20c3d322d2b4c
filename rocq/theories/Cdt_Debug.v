(** A build with assertions does what one without does, as long as no constraint starts at a corner of the square. *)
From Verif Require Import Base Vec_Model Math_Model Vec_Spec Cdt_Model Cdt_Geom Cdt_Mesh Cdt_Flip Cdt_Circle Cdt_Insert Cdt_OnEdge Cdt_Walk Cdt_Edge Cdt_Spec Cdt_EdgeSpec Cdt_Planar Cdt_Steps Cdt_Follow
  Cdt_Search_Model Cdt_Search Cdt_Debug_Model.
Local Open Scope Z_scope.

Lemma try_lift {A B} (r : res A) (f : A -> res (option B)) : try (lift r) f = bind r f.
Proof. now destruct r. Qed.
Lemma lift_bind {A B} (r : res A) (f : A -> res B) : lift (bind r f) = bind r (fun x => lift (f x)).
Proof. now destruct r. Qed.
Lemma try_some {A B} (x : A) (f : A -> res (option B)) : try (Ok (Some x)) f = f x.
Proof. reflexivity. Qed.
Lemma affirm_true {B} (b : bool) (f : unit -> res (option B)) : b = true -> try (affirm b) f = f tt.
Proof. now intros ->. Qed.
Lemma bind_ext {A B} (r : res A) (f g : A -> res B) : (forall x, r = Ok x -> f x = g x) -> bind r f = bind r g.
Proof. intro H. destruct r; cbn [bind]; auto. Qed.
Lemma neqb_true a b : a <> b -> negb (a =? b) = true.
Proof. intro H. now rewrite (proj2 (Z.eqb_neq a b) H). Qed.

Section Debug.
  Context (limit : Z) (wrap : bool).

  (** ** validate_face *)
  (** At most one side of the face is on the boundary. *)
  Definition lone (s : mesh) (n : Z) : Prop :=
    (tw s n <> 0 \/ tw s (nxt n) <> 0) /\ (tw s (nxt n) <> 0 \/ tw s (prv n) <> 0) /\ (tw s (prv n) <> 0 \/ tw s n <> 0).
  Lemma lone_face s n m : n mod 4 <> 3 -> m mod 4 <> 3 -> n / 4 = m / 4 -> lone s n -> lone s m.
  Proof.
    intros Mn Mm E (L1 & L2 & L3). destruct (same_face n m Mn Mm E) as [-> |[-> | ->]]; unfold lone; rewrite ?(nxt_nxt n Mn), ?(prv_nxt n Mn), ?(nxt_prv n Mn), ?(prv_prv n Mn); tauto.
  Qed.
  (** The corners of the square one after the other. *)
  Definition run3 (a b c : Z) : Prop := (a, b, c) = (0, 2, 3) \/ (a, b, c) = (2, 3, 1) \/ (a, b, c) = (3, 1, 0) \/ (a, b, c) = (1, 0, 2).
  Lemma lone_dec s n : good limit s -> node s n -> lone s n \/ run3 (pt s n) (pt s (nxt n)) (pt s (prv n)) \/ run3 (pt s (nxt n)) (pt s (prv n)) (pt s n) \/ run3 (pt s (prv n)) (pt s n) (pt s (nxt n)).
  Proof.
    intros G Hn. pose proof (node_mod s n Hn) as M. destruct (g_bounded _ _ G) as (_ & B & _).
    assert (T : forall m, node s m -> tw s m = 0 -> tw s (nxt m) = 0 -> run3 (pt s (nxt m)) (pt s (prv m)) (pt s m)).
    { intros m Hm H1 H2. pose proof (node_mod s m Hm) as Mm. pose proof (B m Hm H1) as K1. pose proof (B _ (nxt_node s m Hm) H2) as K2. unfold ea, eb in K1, K2. rewrite (nxt_nxt m Mm), (prv_nxt m Mm) in K2.
      cbn [sides4 In] in K1, K2. unfold run3.
      destruct K1 as [K1|[K1|[K1|[K1|[]]]]]; injection K1 as X1 X2; destruct K2 as [K2|[K2|[K2|[K2|[]]]]]; injection K2 as Y1 Y2; rewrite <- X1, <- Y1, <- Y2; try (exfalso; lia); tauto. }
    unfold lone. destruct (Z.eq_dec (tw s n) 0) as [E0|E0]; destruct (Z.eq_dec (tw s (nxt n)) 0) as [E1|E1]; destruct (Z.eq_dec (tw s (prv n)) 0) as [E2|E2]; try (left; tauto).
    - right. right. left. now apply T.
    - right. right. left. now apply T.
    - right. left. specialize (T (prv n) (prv_node s n Hn) E2). rewrite (nxt_prv n M), (prv_prv n M) in T. now apply T.
    - right. right. right. specialize (T (nxt n) (nxt_node s n Hn) E1). rewrite (nxt_nxt n M), (prv_nxt n M) in T. now apply T.
  Qed.
  Lemma lone_vertex s n : good limit s -> node s n -> 4 <= pt s n \/ 4 <= pt s (nxt n) \/ 4 <= pt s (prv n) -> lone s n.
  Proof.
    intros G Hn H. destruct (lone_dec s n G Hn) as [L|L]; [assumption|exfalso]. unfold run3 in L.
    repeat match type of L with _ \/ _ => destruct L as [L|L] end; injection L as L1 L2 L3; lia.
  Qed.

  Lemma chk32_small x : - 65535 <= x <= 65535 -> chk32 x = Ok x.
  Proof. intro H. unfold chk32, in_sb. change (2 ^ (32 - 1)) with 2147483648. rewrite (proj2 (Z.leb_le _ _)), (proj2 (Z.ltb_lt _ _)) by lia. reflexivity. Qed.
  Lemma turns_ok s a b c : inbox a -> inbox b -> inbox c -> orient a b c < 0 -> turns_right s a b c = Ok true.
  Proof.
    intros [A1 A2] [B1 B2] [C1 C2] H. unfold turns_right. unfold lo, hi in *. change (2 ^ 15) with 32768 in *. rewrite !chk32_small by lia. cbn [bind].
    destruct (cross_ok (fst b - fst a, snd b - snd a) (fst c - fst a, snd c - snd a)) as [-> _]; [unfold vec17; cbn [fst snd]; lia..|]. cbn [bind fst snd]. f_equal. apply Z.ltb_lt. unfold orient in H. lia.
  Qed.
  Lemma same_link_ok s n : good limit s -> node s n -> same_link limit s (tw s n) = Ok true.
  Proof.
    intros G Hn. unfold same_link. destruct (fn_e limit s n G (or_introl Hn)) as [_ F]. destruct (fn_e limit s _ G F) as [-> F2]. cbn [bind].
    destruct (Z.eq_dec (tw s n) 0) as [E|E].
    - rewrite E in *. destruct (g_nil _ _ G 0 ltac:(lia)) as (E0 & _ & _). rewrite E0 in *. destruct (fn_e limit s 0 G F) as [-> _]. cbn [bind]. now rewrite E0.
    - rewrite (tw_tw limit s G n Hn E). rewrite (get_e_ok limit s n G Hn). cbn [bind]. now rewrite Z.eqb_refl.
  Qed.
  Lemma fn_c s n : good limit s -> face_or_nil s n -> get_c limit s n = Ok (co s n).
  Proof. intros G H. unfold get_c. now rewrite (fn_edge limit s n G H). Qed.
  Lemma same_co s n : good limit s -> node s n -> get_c limit s (tw s n) = Ok (co s n).
  Proof.
    intros G Hn. destruct (fn_e limit s n G (or_introl Hn)) as [_ F]. rewrite (fn_c s _ G F). f_equal. destruct (g_link _ _ G n Hn) as [[E ->]|(_ & _ & E & _)]; [|exact E].
    rewrite E. now apply (g_nil _ _ G 0).
  Qed.

  Lemma validate_ok s n : good limit s -> node s n -> lone s n -> validate_face limit s n = Ok (Some tt).
  Proof.
    intros G Hn L. unfold validate_face. cbv zeta. destruct (base_of s n Hn) as (Hu & Mu & Fu). apply (lone_face s n (n / 4 * 4) (node_mod s n Hn) (node_mod s _ Hu) (eq_sym Fu)) in L.
    set (u := n / 4 * 4) in *. clearbody u. clear Hn Fu n. destruct (offs u Mu) as (O1 & O2 & _). rewrite <- O1, <- O2.
    pose proof (nxt_node s u Hu) as H1. pose proof (prv_node s u Hu) as H2. pose proof (node_mod s u Hu) as M.
    rewrite !(get_p_ok limit s) by assumption. cbn [bind]. destruct (pts_differ limit s u G Hu) as (D1 & D2 & D3). unfold ea, eb in D1, D2, D3.
    rewrite !affirm_true by (apply neqb_true; congruence). rewrite !(get_e_ok limit s) by assumption. cbn [bind].
    assert (Inj : forall a b, node s a -> node s b -> a <> b -> tw s a <> 0 \/ tw s b <> 0 -> tw s a <> tw s b).
    { intros a b Ha Hb Ne [Hz|Hz] E; [apply Ne; now apply (tw_inj limit s G a b)|apply Ne; symmetry; apply (tw_inj limit s G b a); [assumption..|now symmetry]]. }
    destruct L as (L1 & L2 & L3).
    rewrite affirm_true by (apply neqb_true, Inj; [assumption..|apply not_eq_sym, nxt_ne, M|assumption]).
    rewrite affirm_true by (apply neqb_true, Inj; [assumption..|now apply nxt_ne_prv|assumption]).
    rewrite affirm_true by (apply neqb_true, Inj; [assumption..|apply prv_ne, M|assumption]).
    rewrite !(same_link_ok s) by assumption. cbn [bind]. rewrite !affirm_true by reflexivity. rewrite !(same_co s), !(get_c_ok limit s) by assumption. cbn [bind].
    rewrite !affirm_true by apply Z.eqb_refl.
    rewrite !(get_v_ok limit s) by (assumption || now apply (g_pt _ _ G)). cbn [bind]. pose proof (g_cw _ _ G u Hu) as C.
    fold (V s (pt s u)) (V s (pt s (nxt u))) (V s (pt s (prv u))). fold (P s u) (P s (nxt u)) (P s (prv u)).
    rewrite !turns_ok; try (apply (fn_box limit s); [assumption|now left]); [reflexivity|first [exact C|rewrite (orient_rot (P s u)); exact C|rewrite <- (orient_rot (P s (prv u))); exact C]..].
  Qed.

  (** ** The flips *)
  (** A flip of the Delaunay kind does not cut off a corner of the square. *)
  Lemma corner_circle s a b c v : corners s -> inbox v -> run3 a b c -> incircle_det (V s a) (V s b) (V s c) v <= 0.
  Proof.
    intros (K0 & K1 & K2 & K3) [Hx Hy] R.
    assert (E : incircle_det (V s a) (V s b) (V s c) v = - (65535 * 65535 * ((fst v + 32768) * (32767 - fst v) + (snd v + 32768) * (32767 - snd v)))).
    { unfold run3 in R. destruct R as [R|[R|[R|R]]]; injection R as -> -> ->; rewrite ?K0, ?K1, ?K2, ?K3; unfold incircle_det, det6, lo, hi; change (2 ^ 15) with 32768; cbn [fst snd]; ring. }
    rewrite E. unfold lo, hi in *. change (2 ^ 15) with 32768 in *. assert (0 <= (fst v + 32768) * (32767 - fst v)) by (apply Z.mul_nonneg_nonneg; lia). assert (0 <= (snd v + 32768) * (32767 - snd v)) by (apply Z.mul_nonneg_nonneg; lia). lia.
  Qed.
  Lemma corner_circle3 s a b c v : corners s -> inbox v -> run3 a b c \/ run3 b c a \/ run3 c a b -> incircle_det (V s a) (V s b) (V s c) v <= 0.
  Proof.
    intros K Hv [R|[R|R]]; [now apply corner_circle|rewrite <- (det_rot (V s a)); now apply corner_circle|rewrite (det_rot (V s c)); now apply corner_circle].
  Qed.

  (** The points of the two faces after a flip. *)
  Lemma flipped_pts s ae : good limit s -> around s ae -> let t := flipped s ae in let be := tw s ae in
    (pt t ae = pt s ae /\ pt t (nxt ae) = pt s be /\ pt t (prv ae) = pt s (prv ae)) /\
    (pt t be = pt s be /\ pt t (nxt be) = pt s ae /\ pt t (prv be) = pt s (nxt ae)).
  Proof.
    intros G R. cbv zeta. pose proof (around_ne s ae R) as N. cbv zeta in N. destruct N as (N1 & N2 & N3 & N4 & N5 & N6 & N7 & N8 & N9 & N10 & N11 & N12 & N13 & N14 & N15 & _ & _).
    pose proof (ar_p2 _ _ R) as E2.
    rewrite !flipped_pt. rewrite !Z.eqb_refl.
    repeat match goal with |- context [?a =? ?b] => rewrite (proj2 (Z.eqb_neq a b)) by congruence end. auto 10.
  Qed.
  Lemma lone_improved s ae : good limit s -> can_improve s ae -> lone (flipped s ae) ae /\ lone (flipped s ae) (tw s ae).
  Proof.
    intros G Hi. destruct (good_improve limit s ae G Hi) as (Hz & R & G'). destruct Hi as (Hn & _ & Hd). destruct (flipped_pts s ae G R) as ((A0 & A1 & A2) & (B0 & B1 & B2)).
    pose proof (g_corners _ _ G) as K. unfold det_at, P in Hd. split.
    - destruct (lone_dec (flipped s ae) ae G' (ar_a _ _ R)) as [L|L]; [assumption|exfalso]. rewrite A0, A1, A2 in L.
      pose proof (corner_circle3 s _ _ _ (P s (nxt ae)) K (fn_box limit s _ G (or_introl (ar_a1 _ _ R))) L) as D. rewrite det_swap in Hd. unfold P in D. lia.
    - destruct (lone_dec (flipped s ae) (tw s ae) G' (ar_b _ _ R)) as [L|L]; [assumption|exfalso]. rewrite B0, B1, B2 in L.
      pose proof (corner_circle3 s _ _ _ (P s (prv ae)) K (fn_box limit s _ G (or_introl (ar_a2 _ _ R))) L) as D. rewrite <- det_rev, det_swap in Hd. unfold P in D. lia.
  Qed.

  Lemma mod_neqb n : n mod 4 <> 3 -> negb (n mod 4 =? 3) = true.
  Proof. apply neqb_true. Qed.
  Lemma do_flip_d_ok s ae : good limit s -> node s ae -> co s ae = 0 -> good limit (flipped s ae) -> lone (flipped s ae) ae -> lone (flipped s ae) (tw s ae) ->
    do_flip_d limit s ae = Ok (Some (flipped s ae)).
  Proof.
    intros G Hn Hc G' L1 L2. pose proof (co_open limit s G ae Hn Hc) as Hz. pose proof (around_ok limit s ae G Hn Hz) as R. unfold do_flip_d.
    rewrite (get_c_ok limit s ae G Hn). cbn [bind]. rewrite affirm_true by now apply Z.eqb_eq. rewrite (get_e_ok limit s ae G Hn). cbn [bind].
    rewrite (get_e_ok limit s _ G (ar_b _ _ R)). cbn [bind]. rewrite affirm_true by (apply Z.eqb_eq, (ar_tt _ _ R)).
    rewrite (get_c_ok limit s _ G (ar_b _ _ R)). cbn [bind]. rewrite affirm_true by (apply Z.eqb_eq; now rewrite (ar_cc _ _ R)).
    assert (M : forall n, node s n -> (n mod 4 <? 3) = true) by (intros n [_ M]; apply Z.ltb_lt; pose proof (Z.mod_pos_bound n 4 ltac:(lia)); lia).
    rewrite !affirm_true by (apply M, R). rewrite try_lift, (do_flip_ok limit s ae G Hn Hz). cbn [bind].
    rewrite (validate_ok _ ae G' (ar_a _ _ R) L1), try_some, (validate_ok _ (tw s ae) G' (ar_b _ _ R) L2). reflexivity.
  Qed.

  Lemma nil_mod n : nil_node n -> n mod 4 <> 3.
  Proof. unfold nil_node. intro H. rewrite Z.mod_small; lia. Qed.
  Lemma fn_mod s n : face_or_nil s n -> n mod 4 <> 3.
  Proof. intros [H|H]; [now apply (node_mod s)|now apply nil_mod]. Qed.

  Lemma flip_same fuel : forall s ae, good limit s -> face_or_nil s ae -> flip_d limit wrap fuel s ae = lift (flip limit wrap fuel s ae).
  Proof.
    induction fuel as [|fuel IH]; intros s ae G Hn; [reflexivity|]. cbn [flip_d flip]. rewrite affirm_true by (apply mod_neqb, (fn_mod s), Hn).
    rewrite (fn_c s ae G Hn). cbn [bind]. destruct (Z.eqb_spec (co s ae) 0) as [Ec|Ec]; cbn [negb]; [|reflexivity].
    destruct Hn as [Hn|Hn]; [|exfalso; destruct (g_nil _ _ G ae Hn) as (_ & X & _); rewrite X in Ec; discriminate].
    pose proof (co_open limit s G ae Hn Ec) as Hz. pose proof (around_ok limit s ae G Hn Hz) as R.
    rewrite (get_e_ok limit s ae G Hn). cbn [bind]. rewrite affirm_true by (apply mod_neqb, (node_mod s), R).
    rewrite (get_e_ok limit s _ G (ar_b _ _ R)). cbn [bind]. rewrite affirm_true by (apply Z.eqb_eq, (ar_tt _ _ R)).
    rewrite (get_p_ok limit s _ G (ar_b _ _ R)). cbn [bind]. unfold incircle_d.
    pose proof (g_pt _ _ G _ (ar_b _ _ R)) as Hv. rewrite affirm_true by (apply Z.ltb_lt; lia).
    rewrite affirm_true by (apply Z.ltb_lt; pose proof (node_face s ae Hn); lia). rewrite try_lift, lift_bind.
    destruct (incircle_ok limit wrap s ae (pt s (tw s ae)) G Hn Hv) as [_ [I2|I2]]; rewrite I2; cbn [bind]; [|reflexivity]. clear I2.
    fold (P s (tw s ae)). destruct (Z.ltb_spec (det_at s ae (P s (tw s ae))) 0) as [Hd|Hd]; cbn [negb]; [|reflexivity].
    assert (Hi : can_improve s ae) by (repeat split; assumption || apply Hn). destruct (good_improve limit s ae G Hi) as (_ & _ & G1). destruct (lone_improved s ae G Hi) as [L1 L2].
    rewrite (do_flip_d_ok s ae G Hn Ec G1 L1 L2), try_some, (do_flip_ok limit s ae G Hn Hz). cbn [bind].
    assert (Step : forall t n, good limit t -> size t = size s -> node s n -> flip_d limit wrap fuel t n = lift (flip limit wrap fuel t n) /\ forall t' b, flip limit wrap fuel t n = Ok (t', b) -> good limit t' /\ size t' = size s).
    { intros t n Gt Et Nn. pose proof (node_size s t n Et Nn) as Nt. split; [apply IH; [assumption|now left]|]. intros t' b E. pose proof (flip_ok limit wrap fuel t n Gt (or_introl Nt)) as X. rewrite E in X.
      destruct (flips_good limit _ _ X Gt) as (G' & _ & _ & S' & _). split; [assumption|congruence]. }
    destruct (Step (flipped s ae) ae G1 eq_refl (ar_a _ _ R)) as [-> X]. destruct (flip limit wrap fuel (flipped s ae) ae) as [[s1 b1]| |]; cbn [lift bind try]; [|reflexivity..]. destruct (X _ _ eq_refl) as [Gs1 Es1].
    destruct (Step s1 (nxt ae) Gs1 Es1 (ar_a1 _ _ R)) as [-> X1]. destruct (flip limit wrap fuel s1 (nxt ae)) as [[s2 b2]| |]; cbn [lift bind try]; [|reflexivity..]. destruct (X1 _ _ eq_refl) as [Gs2 Es2].
    destruct (Step s2 (tw s ae) Gs2 Es2 (ar_b _ _ R)) as [-> X2]. destruct (flip limit wrap fuel s2 (tw s ae)) as [[s3 b3]| |]; cbn [lift bind try]; [|reflexivity..]. destruct (X2 _ _ eq_refl) as [Gs3 Es3].
    destruct (Step s3 (nxt (tw s ae)) Gs3 Es3 (ar_b1 _ _ R)) as [-> _]. destruct (flip limit wrap fuel s3 (nxt (tw s ae))) as [[s4 b4]| |]; reflexivity.
  Qed.

  (** A flip at a vertex that is not a corner of the square. *)
  Lemma try_flip_same s n : good limit s -> node s n -> ~ Cdt_Search.corner (P s n) -> try_flip_d limit s n = lift (try_flip limit s n).
  Proof.
    intros G Hn Nc. destruct (try_flip_ok limit s n G Hn) as (s' & b & E & G' & Hb). unfold try_flip in E. unfold try_flip_d, try_flip. rewrite lift_bind.
    destruct (can_flip limit s n) as [b'| |]; cbn [bind] in *; [|reflexivity..]. destruct b'; cbn [negb] in *; [|reflexivity].
    destruct (do_flip limit s n) as [t| |] eqn:Ed; cbn [bind] in E; [|discriminate E..]. injection E as -> <-. destruct Hb as (-> & Hc & _).
    pose proof (co_open limit s G n Hn Hc) as Hz. pose proof (around_ok limit s n G Hn Hz) as R. destruct (flipped_pts s n G R) as ((A0 & _) & (_ & B1 & _)).
    assert (Hp : 4 <= pt s n).
    { apply Z.nlt_ge. intro L. apply Nc. pose proof (g_pt _ _ G n Hn) as Hp. destruct (g_corners _ _ G) as (K0 & K1 & K2 & K3). unfold Cdt_Search.corner, P.
      assert (pt s n = 0 \/ pt s n = 1 \/ pt s n = 2 \/ pt s n = 3) as [-> |[-> |[-> | ->]]] by lia; tauto. }
    rewrite (do_flip_d_ok s n G Hn Hc G'); [reflexivity|apply (lone_vertex _ n G' (ar_a _ _ R)); left; now rewrite A0|apply (lone_vertex _ (tw s n) G' (ar_b _ _ R)); right; left; now rewrite B1].
  Qed.

  (** ** The walk *)
  Lemma in_flip a b : in_ a b = Ok false -> in_ b a = Ok true.
  Proof.
    unfold in_. rewrite (Z.mul_comm (fst b) (snd a)), (Z.mul_comm (snd b) (fst a)). intro H.
    destruct (chk64 (fst a * snd b)) as [l| |]; cbn [bind] in *; [|discriminate H..]. destruct (chk64 (snd a * fst b)) as [r| |]; cbn [bind] in *; [|discriminate H..].
    injection H as H. f_equal. apply Z.leb_gt in H. apply Z.leb_le. lia.
  Qed.
  Lemma spin_same fuel : forall s px py e p1 p2, in_ p1 p2 = Ok true -> spin_d limit fuel s px py e p1 p2 = lift (spin limit fuel s px py e p1 p2).
  Proof.
    induction fuel as [|fuel IH]; intros s px py e p1 p2 H; [reflexivity|]. cbn [spin_d spin]. rewrite H. cbn [bind]. rewrite affirm_true by reflexivity.
    destruct (e =? 0); [reflexivity|]. rewrite lift_bind. apply bind_ext. intros p0 _. rewrite lift_bind. apply bind_ext. intros i Ei. destruct i; [reflexivity|].
    rewrite lift_bind. apply bind_ext. intros e' _. apply IH. now apply in_flip.
  Qed.
  Lemma walk_same fuel : forall s px py e p1 p2, walk_d limit fuel s px py e p1 p2 = lift (walk limit fuel s px py e p1 p2).
  Proof.
    induction fuel as [|fuel IH]; intros s px py e p1 p2; [reflexivity|]. cbn [walk_d walk]. destruct (e =? 0); [reflexivity|].
    rewrite lift_bind. apply bind_ext. intros p0 _. rewrite lift_bind. apply bind_ext. intros i1 E1. rewrite lift_bind. apply bind_ext. intros i2 E2.
    destruct i1, i2; cbn [andb negb]; [reflexivity|rewrite lift_bind; apply bind_ext; intros; apply IH..|].
    rewrite lift_bind. apply bind_ext. intros e' _. rewrite (spin_same fuel s px py e' p0 p2) by now apply in_flip. rewrite try_lift, lift_bind. apply bind_ext. intros [[[e'' p0'] p2']|] _; [|reflexivity].
    rewrite lift_bind. apply bind_ext. intros i3 _. destruct i3; [reflexivity|]. rewrite lift_bind. apply bind_ext. intros; apply IH.
  Qed.
  Lemma locate_same fuel s px py h : locate_d limit fuel s px py h = lift (locate_insertion_node limit fuel s px py h).
  Proof.
    unfold locate_d, locate_insertion_node. cbv zeta. rewrite lift_bind. apply bind_ext. intros p1 _. rewrite lift_bind. apply bind_ext. intros p2 _. rewrite lift_bind. apply bind_ext. intros i _.
    destruct i; cbn [negb]; [apply walk_same|]. rewrite lift_bind. apply bind_ext. intros; apply walk_same.
  Qed.
  (** ** Insertion of a point *)
  Lemma split3_run_d fuel s px py u : good limit s -> node s u -> u mod 4 = 0 -> size s < limit -> inbox (px, py) ->
    insert_in_face_d limit wrap fuel s px py u =
      (let t := split3 s px py u in
       _ <-? validate_face limit t u ;; _ <-? validate_face limit t (size s * 8) ;; _ <-? validate_face limit t (size s * 8 + 4) ;;
       '(s1, _) <-? flip_d limit wrap fuel t u ;; '(s2, _) <-? flip_d limit wrap fuel s1 (size s * 8 + 1) ;; '(s3, _) <-? flip_d limit wrap fuel s2 (size s * 8 + 4 + 2) ;; Ok (Some s3)).
  Proof.
    intros G Hu Mu Hs Hp. destruct (offs u Mu) as (O1 & O2 & O3 & O4 & O5 & O6 & O7 & O8 & O9 & O10).
    pose proof (nxt_node s u Hu) as Hu1. rewrite O1 in Hu1. pose proof (prv_node s u Hu) as Hu2. rewrite O2 in Hu2.
    pose proof (g_size _ _ G) as Gs. pose proof (g_limit _ _ G) as Gl.
    assert (Mv : size s * 8 mod 4 = 0) by (replace (size s * 8) with (size s * 2 * 4) by lia; apply Z.mod_mul; lia).
    destruct (offs _ Mv) as (_ & _ & _ & _ & _ & _ & V7 & V8 & _).
    assert (Mw : (size s * 8 + 4) mod 4 = 0) by (replace (size s * 8 + 4) with ((size s * 2 + 1) * 4) by lia; apply Z.mod_mul; lia).
    destruct (offs _ Mw) as (_ & _ & _ & _ & _ & _ & W7 & W8 & _).
    assert (Ew : (size s * 8 + 4) / 4 = size s * 2 + 1) by (replace (size s * 8 + 4) with ((size s * 2 + 1) * 4) by lia; apply Z.div_mul; lia).
    assert (Ev : size s * 8 / 4 = size s * 2) by (replace (size s * 8) with (size s * 2 * 4) by lia; apply Z.div_mul; lia).
    unfold insert_in_face_d. cbv zeta.
    assert (Ru : 24 <= u < 8 * size s) by apply Hu. assert (Ru1 : 24 <= u + 1 < 8 * size s) by apply Hu1. assert (Ru2 : 24 <= u + 2 < 8 * size s) by apply Hu2.
    unfold get_p, get_c. rewrite (edge_ok limit s u G Hu), (edge_ok limit s _ G Hu1), (edge_ok limit s _ G Hu2). cbn [bind set_size pt tw co fi vx vy size].
    unfold get_fi. rewrite (face_index_ok limit (u / 4)) by (pose proof (node_face s u Hu); lia). cbn [bind set_size pt tw co fi vx vy size].
    assert (Sm : forall n, 0 <= n < 8 * (size s + 1) -> u16 n = n) by (intros n Hn; unfold u16; change (2 ^ 16) with 65536; apply Z.mod_small; lia).
    assert (Sp : forall n, node s n -> pt s n mod 2 ^ 13 = pt s n) by (intros n Hn; apply (p_small limit s); [assumption|apply (g_pt _ _ G n Hn)]).
    assert (Sz : size s mod 2 ^ 13 = size s) by (change (2 ^ 13) with 8192; apply Z.mod_small; lia).
    assert (En : forall k, 24 <= k < 8 * (size s + 1) -> k mod 4 <> 3 -> edge_node limit k = true) by (intros k Hk Mk; apply edge_ok'; [lia|assumption]).
    rewrite set_edge_ok; [|apply En; lia|reflexivity|now apply Sp|apply Sm; lia]. cbn [bind set_size pt tw co fi vx vy size].
    unfold get_e. rewrite (edge_ok limit s _ G Hu1). cbn [bind set_size pt tw co fi vx vy size].
    rewrite (put_ne (tw s)) by lia.
    assert (T1 : u16 (tw s (u + 1)) = tw s (u + 1) /\ (tw s (u + 1) <> 0 -> edge_node limit (tw s (u + 1)) = true) /\ tw s (u + 1) <> u + 2).
    { destruct (twz limit s (u + 1) G Hu1) as [-> |(Hn & _ & D)]; [split; [reflexivity|split; [congruence|lia]]|]. split; [now apply (node_small limit s)|]. split; [intros _; now apply (edge_ok limit s)|]. intro E. rewrite E in D. congruence. }
    assert (T2 : u16 (tw s (u + 2)) = tw s (u + 2) /\ (tw s (u + 2) <> 0 -> edge_node limit (tw s (u + 2)) = true)).
    { destruct (twz limit s (u + 2) G Hu2) as [-> |(Hn & _ & D)]; [split; [reflexivity|congruence]|]. split; [now apply (node_small limit s)|intros _; now apply (edge_ok limit s)]. }
    destruct T1 as (T1 & T1' & T1''), T2 as (T2 & T2').
    rewrite set_edge_ok; [|apply En; lia|now apply (co_small limit s)|assumption|assumption]. cbn [bind set_size pt tw co fi vx vy size].
    rewrite set_enz_ok; [|assumption|apply Sm; lia]. cbn [bind set_size pt tw co fi vx vy size].
    rewrite set_edge_ok; [|apply En; lia|reflexivity|now apply Sp|apply Sm; lia]. cbn [bind set_size pt tw co fi vx vy size].
    unfold set_fi at 1. rewrite (face_index_ok limit (size s * 8 / 4)) by lia. cbn [bind set_size pt tw co fi vx vy size].
    rewrite set_edge_ok; [|apply En; lia|reflexivity|now apply Sp|apply Sm; lia]. cbn [bind set_size pt tw co fi vx vy size].
    rewrite set_edge_ok; [|apply En; lia|reflexivity|now apply Sp|apply Sm; lia]. cbn [bind set_size pt tw co fi vx vy size].
    rewrite (edge_ok limit s _ G Hu2). cbn [bind set_size pt tw co fi vx vy size].
    rewrite (put_ne _ (size s * 8 + 4 + 1) _ (u + 2)) by lia. rewrite (put_ne _ (size s * 8 + 4) _ (u + 2)) by lia. rewrite (put_ne _ (size s * 8 + 2) _ (u + 2)) by lia.
    rewrite putnz_ne by (apply not_eq_sym; assumption). rewrite (put_ne _ (size s * 8 + 1) _ (u + 2)) by lia. rewrite (put_ne _ (size s * 8) _ (u + 2)) by lia.
    rewrite set_edge_ok; [|apply En; lia|now apply (co_small limit s)|assumption|assumption]. cbn [bind set_size pt tw co fi vx vy size].
    rewrite set_enz_ok; [|assumption|apply Sm; lia]. cbn [bind set_size pt tw co fi vx vy size].
    unfold set_fi at 1. rewrite (face_index_ok limit ((size s * 8 + 4) / 4)) by lia. cbn [bind set_size pt tw co fi vx vy size].
    destruct Hp as [Hx Hy]. cbn [fst snd] in Hx, Hy.
    rewrite set_v_ok; [|lia|now apply s16_ok|now apply s16_ok]. cbn [bind set_size pt tw co fi vx vy size].
    rewrite set_p_ok; [|apply En; lia|assumption]. cbn [bind set_size pt tw co fi vx vy size].
    rewrite set_c_ok; [|apply En; lia|reflexivity]. cbn [bind set_size pt tw co fi vx vy size].
    rewrite set_e_ok; [|apply En; lia|apply Sm; lia]. cbn [bind set_size pt tw co fi vx vy size].
    rewrite set_c_ok; [|apply En; lia|reflexivity]. cbn [bind set_size pt tw co fi vx vy size].
    rewrite set_e_ok; [|apply En; lia|apply Sm; lia]. cbn [bind set_size pt tw co fi vx vy size].
    reflexivity.
  Qed.
  Lemma split4_run_d fuel s px py un ue : good limit s -> node s un -> tw s un <> 0 -> ue = Z.min un (tw s un) -> size s < limit -> inbox (px, py) ->
    insert_on_edge_d limit wrap fuel s px py un =
      (let t := split4 s px py ue in
       _ <-? validate_face limit t ue ;; _ <-? validate_face limit t (tw s ue) ;; _ <-? validate_face limit t (size s * 8) ;; _ <-? validate_face limit t (size s * 8 + 4) ;;
       '(s1, _) <-? flip_d limit wrap fuel t (prv ue) ;; '(s2, _) <-? flip_d limit wrap fuel s1 (size s * 8 + 1) ;;
       '(s3, _) <-? flip_d limit wrap fuel s2 (nxt (tw s ue)) ;; '(s4, _) <-? flip_d limit wrap fuel s3 (size s * 8 + 4 + 2) ;; Ok (Some (s4, true))).
  Proof.
    intros G Hun Hz Eue Hs Hp.
    assert (Hue : node s ue /\ tw s ue <> 0 /\ ((ue = un /\ tw s un = tw s ue) \/ (ue = tw s un /\ un = tw s ue)) /\ (if tw s un <? un then (tw s un, un) else (un, tw s un)) = (ue, tw s ue)).
    { pose proof (tw_node limit s G un Hun Hz) as Hv. pose proof (tw_tw limit s G un Hun Hz) as Htt. destruct (Z.ltb_spec (tw s un) un) as [L|L].
      - rewrite Z.min_r in Eue by lia. subst ue. rewrite Htt. split; [assumption|]. split; [now apply (node_nz s)|]. split; [right; auto|reflexivity].
      - rewrite Z.min_l in Eue by lia. subst ue. split; [assumption|]. split; [assumption|]. auto. }
    destruct Hue as (Hue & Hze & _ & Epair). unfold insert_on_edge_d. rewrite (get_e_ok limit s un G Hun). cbn [bind].
    rewrite (proj2 (Z.eqb_neq (tw s un) 0) Hz). rewrite (get_e_ok limit s _ G (tw_node limit s G un Hun Hz)). cbn [bind]. rewrite affirm_true by (apply Z.eqb_eq, (tw_tw limit s G un Hun Hz)). unfold get_e. rewrite Epair. clear un Hun Hz Eue Epair.
    pose proof (setting_ok limit s ue G Hue Hze) as St. unfold split4.
    remember (tw s ue) as ve eqn:Dve. remember (nxt ue) as u1 eqn:Du1. remember (prv ue) as u2 eqn:Du2. remember (nxt ve) as v1 eqn:Dv1. remember (prv ve) as v2 eqn:Dv2.
    remember (tw s u1) as e1 eqn:De1. remember (tw s v2) as e2 eqn:De2.
    destruct St as ((H1 & H2 & H3 & H4 & H5 & H6) & _ & _ & _ & (N1 & N2 & N3 & N4 & N5 & N6 & N7 & N8 & N9 & N10 & N11 & N12 & N13 & N14 & N15) & X1 & X2 & (Y1 & Y2 & Y3 & Y4 & Y5 & Y6) & (Z1 & Z2 & Z3 & Z4 & Z5 & Z6) & _).
    pose proof (g_size _ _ G) as Gs. pose proof (g_limit _ _ G) as Gl.
    destruct (grown_faces s (proj1 Gs)) as (Fv & Fw & Mv & Mw).
    destruct (offs _ Mv) as (_ & _ & _ & _ & _ & _ & V7 & V8 & _). destruct (offs _ Mw) as (_ & _ & _ & _ & _ & _ & W7 & W8 & _).
    assert (Rn : forall n, node s n -> 24 <= n < 8 * size s) by (intros n [H _]; exact H).
    pose proof (Rn _ H1) as R1. pose proof (Rn _ H2) as R2. pose proof (Rn _ H3) as R3. pose proof (Rn _ H4) as R4. pose proof (Rn _ H5) as R5. pose proof (Rn _ H6) as R6.
    assert (Sm : forall n, 0 <= n < 8 * (size s + 1) -> u16 n = n) by (clear - Gs Gl Hs; intros n Hn; unfold u16; change (2 ^ 16) with 65536; apply Z.mod_small; lia).
    assert (Sp : forall n, node s n -> pt s n mod 2 ^ 13 = pt s n) by (intros n Hn; apply (p_small limit s); [assumption|apply (g_pt _ _ G n Hn)]).
    assert (Sz : size s mod 2 ^ 13 = size s) by (change (2 ^ 13) with 8192; apply Z.mod_small; clear - Gs Gl Hs; lia).
    assert (En : forall k, 24 <= k < 8 * (size s + 1) -> k mod 4 <> 3 -> edge_node limit k = true) by (clear - Gs Gl Hs; intros k Hk Mk; apply edge_ok'; [lia|assumption]).
    assert (T1 : u16 e1 = e1 /\ (e1 <> 0 -> edge_node limit e1 = true) /\ 0 <= e1 < 8 * size s).
    { destruct X1 as [-> |(Hn & _)]; [split; [reflexivity|split; [congruence|lia]]|]. split; [now apply (node_small limit s)|]. split; [intros _; now apply (edge_ok limit s)|]. apply Rn in Hn. lia. }
    assert (T2 : u16 e2 = e2 /\ (e2 <> 0 -> edge_node limit e2 = true) /\ 0 <= e2 < 8 * size s).
    { destruct X2 as [-> |(Hn & _)]; [split; [reflexivity|split; [congruence|lia]]|]. split; [now apply (node_small limit s)|]. split; [intros _; now apply (edge_ok limit s)|]. apply Rn in Hn. lia. }
    destruct T1 as (T1 & T1' & T1''), T2 as (T2 & T2' & T2''). clear X1 X2.
    assert (Fu : face_index limit (ue / 4) = true) by (apply face_index_ok; pose proof (node_face s ue H1); lia).
    assert (Fe : face_index limit (ve / 4) = true) by (apply face_index_ok; pose proof (node_face s ve H2); lia).
    assert (Nf : ve / 4 <> size s * 8 / 4) by (pose proof (node_face s ve H2); lia).
    destruct Hp as [Hx Hy]. cbn [fst snd] in Hx, Hy. apply s16_ok in Hx, Hy.
    pose proof (edge_ok limit s _ G H1) as E1. pose proof (edge_ok limit s _ G H2) as E2. pose proof (edge_ok limit s _ G H3) as E3.
    pose proof (edge_ok limit s _ G H4) as E4. pose proof (edge_ok limit s _ G H5) as E5. pose proof (edge_ok limit s _ G H6) as E6.
    pose proof (co_small limit s _ G H1) as C1. pose proof (co_small limit s _ G H2) as C2. pose proof (co_small limit s _ G H3) as C3. pose proof (co_small limit s _ G H6) as C6.
    pose proof (Sp _ H1) as S1. pose proof (Sp _ H2) as S2. pose proof (Sp _ H4) as S4. pose proof (Sp _ H5) as S5.
    clear H1 H2 H3 H4 H5 H6 Rn Sp G Dve Du1 Du2 Dv1 Dv2 Hue Hze.
    cbv zeta. unfold get_c, get_p, get_fi. rewrite E1. cbn [bind set_size pt tw co fi vx vy size].
    rewrite set_edge_ok; [|apply En; lia|assumption|assumption|apply Sm; lia]. cbn [bind set_size pt tw co fi vx vy size].
    rewrite E3. cbn [bind set_size pt tw co fi vx vy size]. putl. rewrite <- De1.
    rewrite set_edge_ok; [|apply En; lia|assumption|assumption|assumption]. cbn [bind set_size pt tw co fi vx vy size]. putl. rewrite <- De1.
    rewrite set_enz_ok; [|assumption|apply Sm; lia]. cbn [bind set_size pt tw co fi vx vy size].
    rewrite E4. cbn [bind set_size pt tw co fi vx vy size]. putl.
    rewrite set_edge_ok; [|apply En; lia|reflexivity|assumption|apply Sm; lia]. cbn [bind set_size pt tw co fi vx vy size].
    rewrite Fu. cbn [bind]. unfold set_fi at 1. rewrite (face_index_ok limit (size s * 8 / 4)) by lia. cbn [bind set_size pt tw co fi vx vy size].
    rewrite set_e_ok; [|assumption|apply Sm; lia]. cbn [bind set_size pt tw co fi vx vy size].
    rewrite set_c_ok; [|assumption|reflexivity]. cbn [bind set_size pt tw co fi vx vy size].
    rewrite set_p_ok; [|assumption|assumption]. cbn [bind set_size pt tw co fi vx vy size].
    rewrite E2. cbn [bind set_size pt tw co fi vx vy size].
    rewrite (put_ne _ u1 0 ve), (put_ne _ (size s * 8 + 2) 0 ve), (put_ne _ (size s * 8 + 1) _ ve), (put_ne _ (size s * 8) _ ve) by (first [neq | lia]).
    rewrite (put_ne _ u2 _ ve), (put_ne _ (size s * 8 + 2) _ ve), (put_ne _ (size s * 8 + 1) _ ve), (put_ne _ (size s * 8) _ ve) by (first [neq | lia]).
    rewrite set_edge_ok; [|apply En; lia|assumption|assumption|apply Sm; lia]. cbn [bind set_size pt tw co fi vx vy size].
    rewrite E5. cbn [bind set_size pt tw co fi vx vy size].
    rewrite (put_ne _ (size s * 8 + 4) _ v1), (put_ne _ u2 _ v1), (put_ne _ (size s * 8 + 2) _ v1), (put_ne _ (size s * 8 + 1) _ v1), (put_ne _ (size s * 8) _ v1) by (first [neq | lia]).
    rewrite set_edge_ok; [|apply En; lia|reflexivity|assumption|apply Sm; lia]. cbn [bind set_size pt tw co fi vx vy size].
    rewrite E6. cbn [bind set_size pt tw co fi vx vy size].
    rewrite (put_ne _ (size s * 8 + 4 + 1) 0 v2), (put_ne _ (size s * 8 + 4) _ v2), (put_ne _ u1 0 v2), (put_ne _ (size s * 8 + 2) 0 v2), (put_ne _ (size s * 8 + 1) _ v2), (put_ne _ (size s * 8) _ v2) by (first [neq | lia]).
    rewrite (put_ne _ (size s * 8 + 4 + 1) _ v2), (put_ne _ (size s * 8 + 4) _ v2), (put_ne _ u1 _ v2), (put_ne _ (size s * 8 + 2) _ v2), (putnz_ne _ e1 _ v2), (put_ne _ (size s * 8 + 1) _ v2), (put_ne _ (size s * 8) _ v2) by (first [neq | lia]).
    rewrite <- De2.
    rewrite set_edge_ok; [|apply En; lia|assumption|assumption|assumption]. cbn [bind set_size pt tw co fi vx vy size].
    rewrite (put_ne _ (size s * 8 + 4 + 2) _ v2), (put_ne _ (size s * 8 + 4 + 1) _ v2), (put_ne _ (size s * 8 + 4) _ v2), (put_ne _ u1 _ v2), (put_ne _ (size s * 8 + 2) _ v2), (putnz_ne _ e1 _ v2), (put_ne _ (size s * 8 + 1) _ v2), (put_ne _ (size s * 8) _ v2) by (first [neq | lia]).
    rewrite <- De2.
    rewrite set_enz_ok; [|assumption|apply Sm; lia]. cbn [bind set_size pt tw co fi vx vy size].
    rewrite Fe. cbn [bind]. rewrite (put_ne _ (size s * 8 / 4) _ (ve / 4)) by assumption. unfold set_fi at 1. rewrite (face_index_ok limit ((size s * 8 + 4) / 4)) by lia. cbn [bind set_size pt tw co fi vx vy size].
    rewrite set_v_ok; [|lia|assumption|assumption]. cbn [bind set_size pt tw co fi vx vy size].
    rewrite set_e_ok; [|assumption|apply Sm; lia]. cbn [bind set_size pt tw co fi vx vy size].
    rewrite set_c_ok; [|assumption|reflexivity]. cbn [bind set_size pt tw co fi vx vy size].
    rewrite set_p_ok; [|assumption|assumption]. cbn [bind set_size pt tw co fi vx vy size].
    reflexivity.
  Qed.

  (** A flip in a mesh as large as the first one. *)
  Lemma flip_same_step fuel s0 s n {B} (f : mesh * bool -> res (option B)) (g : mesh * bool -> res B) : good limit s -> size s = size s0 -> face_or_nil s0 n ->
    (forall t b, good limit t -> size t = size s0 -> f (t, b) = lift (g (t, b))) ->
    try (flip_d limit wrap fuel s n) f = lift (bind (flip limit wrap fuel s n) g).
  Proof.
    intros G E Hn H. assert (Hn' : face_or_nil s n) by (destruct Hn as [Hn|Hn]; [left; now apply (node_size s0)|now right]).
    rewrite (flip_same fuel s n G Hn'), try_lift, lift_bind. apply bind_ext. intros [t b] Et. pose proof (flip_step limit wrap fuel s s n G eq_refl Hn' (fl_refl _)) as X. rewrite Et in X. apply H; [apply X|]. destruct X as (_ & X & _). congruence.
  Qed.
  Lemma in_face_same fuel s p u : good limit s -> node s u -> u mod 4 = 0 -> size s < limit -> inbox p ->
    orient p (P s (u + 1)) (P s (u + 2)) < 0 -> orient (P s u) p (P s (u + 2)) < 0 -> orient (P s u) (P s (u + 1)) p < 0 ->
    insert_in_face_d limit wrap fuel s (fst p) (snd p) u = lift (insert_in_face limit wrap fuel s (fst p) (snd p) u).
  Proof.
    intros G Hu Mu Hs Hp C1 C2 C3. destruct p as [px py]. cbn [fst snd]. rewrite (split3_run limit wrap fuel s px py u G Hu Mu Hs Hp), (split3_run_d fuel s px py u G Hu Mu Hs Hp). cbv zeta.
    pose proof (split3_good limit s px py u G Hu Mu Hs Hp C1 C2 C3) as G0. pose proof (g_size _ _ G) as Gs.
    assert (Gn : forall m, node (split3 s px py u) m <-> _) by (intro m; apply (grown_node s (split3 s px py u) m); [reflexivity|apply Gs]).
    destruct (grown_faces s (proj1 Gs)) as (Fv & Fw & Mv & Mw). destruct (offs _ Mv) as (V1 & V2 & _). destruct (offs _ Mw) as (W1 & W2 & _).
    pose proof (proj1 Hu) as Ru.
    assert (Pu : pt (split3 s px py u) u = size s) by (unfold split3; cbn [pt]; apply put_eq).
    assert (Pv : pt (split3 s px py u) (size s * 8 + 1) = size s) by (unfold split3; cbn [pt]; rewrite !(put_ne _ _ _ (size s * 8 + 1)) by lia; apply put_eq).
    assert (Pw : pt (split3 s px py u) (size s * 8 + 4 + 2) = size s) by (unfold split3; cbn [pt]; rewrite !(put_ne _ _ _ (size s * 8 + 4 + 2)) by lia; apply put_eq).
    assert (N1 : node (split3 s px py u) u) by (apply Gn; now left). assert (N2 : node (split3 s px py u) (size s * 8)) by (apply Gn; tauto). assert (N3 : node (split3 s px py u) (size s * 8 + 4)) by (apply Gn; tauto).
    assert (N4 : node (split3 s px py u) (size s * 8 + 1)) by (apply Gn; tauto). assert (N5 : node (split3 s px py u) (size s * 8 + 4 + 2)) by (apply Gn; tauto).
    rewrite (validate_ok _ u G0 N1), try_some by (apply lone_vertex; [assumption..|left; lia]).
    rewrite (validate_ok _ _ G0 N2), try_some by (apply lone_vertex; [assumption..|right; left; rewrite V1; lia]).
    rewrite (validate_ok _ _ G0 N3), try_some by (apply lone_vertex; [assumption..|right; right; rewrite W2; lia]).
    remember (split3 s px py u) as s0. clear - G0 N1 N4 N5.
    apply (flip_same_step fuel s0); [assumption|reflexivity|now left|]. intros s1 _ G1 E1. apply (flip_same_step fuel s0); [assumption|assumption|now left|]. intros s2 _ G2 E2.
    apply (flip_same_step fuel s0); [assumption|assumption|now left|]. reflexivity.
  Qed.
  Lemma on_edge_same fuel s p u : good limit s -> node s u -> size s < limit -> inbox p -> orient p (P s (nxt u)) (P s (prv u)) = 0 ->
    orient (P s u) (P s (nxt u)) p < 0 -> orient (P s u) p (P s (prv u)) < 0 ->
    insert_on_edge_d limit wrap fuel s (fst p) (snd p) u = lift (insert_on_edge limit wrap fuel s (fst p) (snd p) u).
  Proof.
    intros G Hu Hs Hp C1 C2 C3. destruct (Z.eqb_spec (tw s u) 0) as [Ez|Hz].
    { unfold insert_on_edge, insert_on_edge_d. rewrite (get_e_ok limit s u G Hu). cbn [bind]. rewrite Ez. reflexivity. }
    remember (Z.min u (tw s u)) as ue eqn:Eue. destruct p as [px py]. cbn [fst snd].
    rewrite (split4_run limit wrap fuel s px py u ue G Hu Hz Eue Hs Hp), (split4_run_d fuel s px py u ue G Hu Hz Eue Hs Hp). cbv zeta.
    pose proof (tw_node limit s G u Hu Hz) as Hv. pose proof (tw_tw limit s G u Hu Hz) as Htt.
    pose proof (ea_tw limit s G u Hu Hz) as E1. pose proof (eb_tw limit s G u Hu Hz) as E2. unfold ea, eb in E1, E2.
    assert (Q1 : P s (nxt (tw s u)) = P s (prv u)) by (unfold P; now rewrite E1). assert (Q2 : P s (prv (tw s u)) = P s (nxt u)) by (unfold P; now rewrite E2).
    pose proof (g_cw _ _ G u Hu) as D1. pose proof (g_cw _ _ G _ Hv) as D2. rewrite Q1, Q2 in D2.
    destruct (other_side _ _ _ _ _ D1 D2 C1 C2 C3) as [C4 C5].
    assert (Hue : node s ue /\ tw s ue <> 0 /\ orient (P s ue) (P s (nxt ue)) (px, py) < 0 /\ orient (P s (tw s ue)) (px, py) (P s (nxt ue)) < 0 /\
      orient (P s ue) (px, py) (P s (prv ue)) < 0 /\ orient (P s (tw s ue)) (P s (prv ue)) (px, py) < 0).
    { destruct (Z.min_spec u (tw s u)) as [[_ Em]|[_ Em]]; rewrite Em in Eue; subst ue; [auto 10|]. rewrite Htt, Q1, Q2. split; [assumption|]. split; [destruct Hu; lia|]. auto. }
    destruct Hue as (Hue & Hze & K1 & K2 & K3 & K4). clear C1 C2 C3 C4 C5 D1 D2 E1 E2 Q1 Q2 Htt Hv Eue Hu Hz u.
    pose proof (split4_good limit s px py ue G Hue Hze Hs Hp K1 K2 K3 K4) as G0. clear K1 K2 K3 K4. pose proof (tw_node limit s G ue Hue Hze) as Hve. pose proof (g_size _ _ G) as Gs.
    assert (Gn : forall m, node (split4 s px py ue) m <-> _) by (intro m; apply (grown_node s (split4 s px py ue) m); [reflexivity|apply Gs]).
    destruct (grown_faces s (proj1 Gs)) as (Fv & Fw & Mv & Mw). destruct (offs _ Mv) as (V1 & V2 & _). destruct (offs _ Mw) as (W1 & W2 & _).
    pose proof (around_ok limit s ue G Hue Hze) as R.
    pose proof (proj1 (ar_a2 _ _ R)) as R2. pose proof (proj1 (ar_b1 _ _ R)) as R3.
    assert (Nuv : prv ue <> nxt (tw s ue)) by (intro E; apply (ar_f _ _ R); rewrite <- (prv_face ue (node_mod s ue Hue)), <- (nxt_face (tw s ue)); now rewrite E).
    assert (Pa : pt (split4 s px py ue) (prv ue) = size s /\ pt (split4 s px py ue) (nxt (tw s ue)) = size s /\ pt (split4 s px py ue) (size s * 8 + 1) = size s /\ pt (split4 s px py ue) (size s * 8 + 4 + 2) = size s).
    { clear - R2 R3 Nuv. unfold split4. cbn [pt]. set (a := prv ue) in *. set (b := nxt (tw s ue)) in *. clearbody a b. repeat split; putl; reflexivity. }
    destruct Pa as (Pu & Pv & Px & Py).
    assert (N1 : node (split4 s px py ue) ue) by (apply Gn; now left). assert (N2 : node (split4 s px py ue) (tw s ue)) by (apply Gn; now left).
    assert (N3 : node (split4 s px py ue) (size s * 8)) by (apply Gn; tauto). assert (N4 : node (split4 s px py ue) (size s * 8 + 4)) by (apply Gn; tauto).
    assert (N5 : node (split4 s px py ue) (prv ue)) by now apply prv_node. assert (N6 : node (split4 s px py ue) (size s * 8 + 1)) by (apply Gn; tauto).
    assert (N7 : node (split4 s px py ue) (nxt (tw s ue))) by now apply nxt_node. assert (N8 : node (split4 s px py ue) (size s * 8 + 4 + 2)) by (apply Gn; tauto).
    rewrite (validate_ok _ ue G0 N1), try_some by (apply lone_vertex; [assumption..|right; right; lia]).
    rewrite (validate_ok _ _ G0 N2), try_some by (apply lone_vertex; [assumption..|right; left; lia]).
    rewrite (validate_ok _ _ G0 N3), try_some by (apply lone_vertex; [assumption..|right; left; rewrite V1; lia]).
    rewrite (validate_ok _ _ G0 N4), try_some by (apply lone_vertex; [assumption..|right; right; rewrite W2; lia]).
    remember (split4 s px py ue) as s0. clear - G0 N5 N6 N7 N8.
    apply (flip_same_step fuel s0); [assumption|reflexivity|now left|]. intros s1 _ G1 E1. apply (flip_same_step fuel s0); [assumption|assumption|now left|]. intros s2 _ G2 E2.
    apply (flip_same_step fuel s0); [assumption|assumption|now left|]. intros s3 _ G3 E3. apply (flip_same_step fuel s0); [assumption|assumption|now left|]. reflexivity.
  Qed.

  (** Each vector of a face that p is not a vertex of. *)
  Lemma rv_nz s p n : P s n <> p -> negb (is_zero (rv s p n)) = true.
  Proof. intro H. destruct (is_zero (rv s p n)) eqn:E; [|reflexivity]. apply is_zero_eq, rv_zero in E. contradiction. Qed.
  Lemma orient_aa a b : orient a a b = 0.
  Proof. unfold orient. ring. Qed.
  Lemma orient_aba a b : orient a b a = 0.
  Proof. unfold orient. ring. Qed.

  Lemma at_node_same fuel s p n : good limit s -> near p -> n = 0 \/ (node s n /\ closed_face s p n) ->
    insert_point_at_node_d limit wrap fuel s (fst p) (snd p) n = lift (insert_point_at_node limit wrap fuel s (fst p) (snd p) n).
  Proof.
    intros G Hp Hn. unfold insert_point_at_node_d, insert_point_at_node. cbv zeta. destruct (Z.eqb_spec n 0) as [_|Hz]; [reflexivity|].
    destruct Hn as [Hn|[Hn Cl]]; [contradiction|]. pose proof (closed_box limit s p n G Hn Cl) as Hb.
    destruct (base_of s n Hn) as (Hu & Mu & _). pose proof (closed_base s p n Hn Cl) as C. cbv zeta in C. set (u := n / 4 * 4) in *. clearbody u. clear Hn Cl Hz n.
    destruct (offs u Mu) as (O1 & O2 & O3 & O4 & O5 & O6 & _). pose proof (nxt_node s u Hu) as Hu1. rewrite O1 in Hu1. pose proof (prv_node s u Hu) as Hu2. rewrite O2 in Hu2.
    rewrite !(rel_ok limit s p) by (assumption || now left). cbn [bind]. destruct C as (C1 & C2 & C3).
    rewrite !(in_ok limit s p) by (assumption || now left). cbn [bind]. rewrite (proj2 (Z.leb_le _ _) C3). cbn [bind]. rewrite (proj2 (Z.leb_le _ _) C1). cbn [bind]. rewrite (proj2 (Z.leb_le _ _) C2). cbn [bind].
    rewrite affirm_true by reflexivity. rewrite (edge_bits_ok limit s p u G Hp Hu Mu). cbn [bind].
    pose proof (g_cw _ _ G u Hu) as D. rewrite O1, O2 in D.
    assert (S : orient (P s u) (P s (u + 1)) (P s (u + 2)) = orient p (P s (u + 1)) (P s (u + 2)) + orient p (P s (u + 2)) (P s u) + orient p (P s u) (P s (u + 1))) by (unfold orient; ring).
    assert (Edge : forall m m', m' = m -> node s m -> orient p (P s (nxt m)) (P s (prv m)) = 0 -> orient (P s m) (P s (nxt m)) p < 0 -> orient (P s m) p (P s (prv m)) < 0 ->
      (if size s >=? limit then Ok (Some (s, 0)) else ' (s0, b) <-? insert_on_edge_d limit wrap fuel s (fst p) (snd p) m';; Ok (Some (s0, if b : bool then m' else 0))) =
      lift (if size s >=? limit then Ok (s, 0) else ' (s0, b) <- insert_on_edge limit wrap fuel s (fst p) (snd p) m';; Ok (s0, if b : bool then m' else 0))).
    { intros m m' -> Hm K1 K2 K3. destruct (Z.geb_spec (size s) limit) as [Hl|Hl]; [reflexivity|]. rewrite (on_edge_same fuel s p m G Hm Hl Hb K1 K2 K3), try_lift, lift_bind. apply bind_ext. intros [s' b] _. reflexivity. }
    destruct (Z.ltb_spec (orient p (P s (u + 1)) (P s (u + 2))) 0) as [L1|L1]; destruct (Z.ltb_spec (orient p (P s (u + 2)) (P s u)) 0) as [L2|L2];
      destruct (Z.ltb_spec (orient p (P s u) (P s (u + 1))) 0) as [L3|L3]; try (exfalso; lia); cbn [Z.add Z.eqb Pos.eqb Pos.add Pos.succ]; rewrite affirm_true by reflexivity; try reflexivity.
    all: rewrite affirm_true by (rewrite !rv_nz; [reflexivity|intro Ep; rewrite Ep, ?orient_aa, ?orient_aba in *; lia..]).
    - (* inside *) destruct (Z.geb_spec (size s) limit) as [Hl|Hl]; [reflexivity|].
      assert (K2 : orient (P s u) p (P s (u + 2)) < 0) by (rewrite <- (orient_rot (P s u)); exact L2).
      assert (K3 : orient (P s u) (P s (u + 1)) p < 0) by (rewrite (orient_rot p); exact L3).
      rewrite (in_face_same fuel s p u G Hu Mu Hl Hb L1 K2 K3), try_lift, lift_bind. apply bind_ext. reflexivity.
    - apply (Edge (u + 2)); [reflexivity|..]; rewrite ?O5, ?O6; [assumption|lia|rewrite (orient_rot p); exact L2|rewrite <- (orient_rot (P s (u + 2))); exact L1].
    - apply (Edge (u + 1)); [reflexivity|..]; rewrite ?O3, ?O4; [assumption|lia|rewrite (orient_rot p); exact L1|rewrite <- (orient_rot (P s (u + 1))); exact L3].
    - apply (Edge u); [apply Z.add_0_r|..]; rewrite ?O1, ?O2; [assumption|lia|rewrite (orient_rot p); exact L3|rewrite <- (orient_rot (P s u)); exact L2].
  Qed.

  Lemma next_same s n : face_or_nil s n -> next_edge_d n = Ok (Some (next_edge n)).
  Proof. intro H. unfold next_edge_d. now rewrite affirm_true by (apply mod_neqb, (fn_mod s n H)). Qed.
  Lemma constrain_same fuel s n : good limit s -> node s n -> constrain_edge_d limit wrap fuel s n = lift (constrain_edge limit wrap fuel s n).
  Proof.
    intros G Hn. unfold constrain_edge_d, constrain_edge. cbv zeta. destruct (fn_e limit s n G (or_introl Hn)) as [-> Ft]. cbn [bind].
    unfold set_c. rewrite (fn_edge limit s _ G Ft), (fn_edge limit s _ G (or_introl Hn)). cbn [bind size pt tw co fi vx vy]. change (1 mod 2 ^ 3) with 1. fold (marked s n).
    pose proof (marked_good limit s n G Hn) as G0. assert (F0 : face_or_nil (marked s n) n) by now left. remember (marked s n) as s0 eqn:E0. clear E0.
    pose proof (next_edge_ok _ _ F0) as F1. pose proof (next_edge_ok _ _ F1) as F2. pose proof (next_edge_ok _ _ F2) as F3.
    rewrite (next_same _ _ F0), try_some; cbn beta. rewrite (next_same _ _ F1), try_some; cbn beta. rewrite try_some; cbn beta.
    apply (flip_same_step fuel s0); [assumption|reflexivity|assumption|]. intros s1 _ G1 Z1. rewrite (next_same _ _ F2), try_some; cbn beta.
    apply (flip_same_step fuel s0); [assumption|assumption|assumption|]. intros s2 _ G2 Z2.
    assert (F0' : face_or_nil s2 n) by (destruct F0 as [F0|F0]; [left; now apply (node_size s0)|now right]).
    destruct (fn_e limit s2 n G2 F0') as [-> Ft2]. cbn [bind].
    assert (Ft3 : face_or_nil s0 (tw s2 n)) by (destruct Ft2 as [Ft2|Ft2]; [left; now apply (node_size s2)|now right]).
    pose proof (next_edge_ok _ _ Ft3) as J1. pose proof (next_edge_ok _ _ J1) as J2. pose proof (next_edge_ok _ _ J2) as J3.
    rewrite (next_same _ _ Ft3), try_some; cbn beta. rewrite (next_same _ _ J1), try_some; cbn beta. rewrite try_some; cbn beta.
    apply (flip_same_step fuel s0); [assumption|assumption|assumption|]. intros s3 _ G3 Z3. rewrite (next_same _ _ J2), try_some; cbn beta.
    apply (flip_same_step fuel s0); [assumption|assumption|assumption|]. reflexivity.
  Qed.
  Lemma intersect_same q a b : vec17 q -> vec17 a -> vec17 b -> vec17 (fst b - fst a, snd b - snd a) -> fst a * snd q - snd a * fst q < 0 -> 0 < fst b * snd q - snd b * fst q ->
    intersect_edges_d q a b = lift (intersect_edges q a b).
  Proof.
    intros Hq Ha Hb Hu Ca Cb. unfold intersect_edges_d.
    destruct Ha as [A1 A2], Hb as [B1 B2]. rewrite !chk64_ok by (apply in_s64; lia). cbn [bind].
    destruct (cross_ok _ _ Hu Hq) as [-> _]. cbn [bind fst snd] in *. rewrite affirm_true by (apply Z.gtb_lt; lia). destruct (cross_ok q a Hq (conj A1 A2)) as [-> _]. cbn [bind].
    rewrite affirm_true; [reflexivity|]. apply andb_true_iff. split; [apply Z.geb_le|apply Z.leb_le]; lia.
  Qed.

  Lemma located_ok s p fuel h : sound limit s -> near p -> match locate_insertion_node limit fuel s (fst p) (snd p) h with Ok n => n = 0 \/ (node s n /\ closed_face s p n) | UB => False | Timeout => True end.
  Proof.
    intros S Np. destruct S as (G & U & D). assert (Dec : inbox p \/ ~ inbox p) by (unfold inbox; lia). destruct Dec as [Hb|Hb].
    - pose proof (locate_in limit fuel s p h G Hb) as X. destruct (locate_insertion_node limit fuel s (fst p) (snd p) h) as [n| |]; auto.
    - pose proof (locate_out limit fuel s p h G Np Hb) as X. destruct (locate_insertion_node limit fuel s (fst p) (snd p) h) as [n| |]; auto.
  Qed.
  Lemma same_vec_ne s p n m : P s n <> P s m -> negb (same_vec (rv s p n) (rv s p m)) = true.
  Proof.
    intro N. destruct (same_vec (rv s p n) (rv s p m)) eqn:E; [|reflexivity]. exfalso. apply N. unfold same_vec, rv in E. cbn [fst snd] in E. apply andb_true_iff in E. rewrite !Z.eqb_eq in E.
    destruct (P s n), (P s m). cbn [fst snd] in E. f_equal; lia.
  Qed.
  Lemma edge_same fuel :
    (forall s p q h, sound limit s -> near p -> near q -> ~ Cdt_Search.corner p -> insert_edge64_d limit wrap fuel s (fst p) (snd p) (fst q) (snd q) h = lift (insert_edge64 limit wrap fuel s (fst p) (snd p) (fst q) (snd q) h)) /\
    (forall s p q pn, sound limit s -> has s p -> has s q -> p = q \/ ~ Cdt_Search.corner p -> node s pn -> is_corner s p pn ->
      edge_loop_d limit wrap fuel s (fst p) (snd p) (fst q) (snd q) pn = lift (edge_loop limit wrap fuel s (fst p) (snd p) (fst q) (snd q) pn)).
  Proof.
    induction fuel as [|fuel [IHe IHl]]; [split; intros; reflexivity|]. split.
    - intros s p q h S Hp Hq Nc. cbn [insert_edge64 insert_edge64_d]. fold (insert_edge64 limit wrap) (edge_loop limit wrap) (insert_edge64_d limit wrap) (edge_loop_d limit wrap).
      pose proof (insert_any limit wrap fuel s p h S Hp) as X. pose proof (located_ok s p fuel h S Hp) as L. rewrite locate_same, try_lift, lift_bind. apply bind_ext. intros n En. rewrite En in X, L.
      rewrite (at_node_same fuel s p n (proj1 S) Hp L), try_lift, lift_bind. apply bind_ext. intros [s1 pn] E1. rewrite E1 in X.
      destruct X as [[X Hbp]|(-> & -> & _)]; [|reflexivity].
      destruct (inserted_has limit s p s1 pn (proj1 S) X) as [S01 H1]. pose proof (steps_sound limit _ _ S01 S) as S1.
      destruct (Z.eqb_spec pn 0) as [_|Hpn]; [reflexivity|]. specialize (H1 Hpn).
      destruct ((fst p =? fst q) && (snd p =? snd q)) eqn:E; [reflexivity|].
      pose proof (insert_any limit wrap fuel s1 q pn S1 Hq) as Y. pose proof (located_ok s1 q fuel pn S1 Hq) as L1. rewrite locate_same, try_lift, lift_bind. apply bind_ext. intros n2 En2. rewrite En2 in Y, L1.
      rewrite (at_node_same fuel s1 q n2 (proj1 S1) Hq L1), try_lift, lift_bind. apply bind_ext. intros [s2 qn] E2. rewrite E2 in Y.
      destruct Y as [[Y Hbq]|(-> & -> & _)]; [|reflexivity].
      destruct (inserted_has limit s1 q s2 qn (proj1 S1) Y) as [S12 H2]. pose proof (steps_sound limit _ _ S12 S1) as S2.
      destruct (Z.eqb_spec qn 0) as [_|Hqn]; [reflexivity|]. specialize (H2 Hqn).
      assert (H3 : has s2 p) by (apply (has_extends s1 s2 p); [now apply (steps_extends limit s1 s2 S12 (proj1 S1))|assumption]).
      pose proof (at_corner limit fuel s2 p pn S2 H3) as Z. rewrite locate_same, try_lift, lift_bind. apply bind_ext. intros n3 En3. rewrite En3 in Z.
      apply IHl; auto; apply Z.
    - intros s p q pn S Hp Hq Hd Hpn Hc. assert (G : good limit s) by apply S.
      assert (Hbp : inbox p) by (destruct Hp as (v & Hv & <-); now apply (g_box _ _ G)). assert (Hbq : inbox q) by (destruct Hq as (v & Hv & <-); now apply (g_box _ _ G)).
      cbn [edge_loop edge_loop_d]. fold (insert_edge64 limit wrap) (edge_loop limit wrap) (insert_edge64_d limit wrap) (edge_loop_d limit wrap). cbv zeta.
      destruct (base_of s pn Hpn) as (Hn & Mn & Fn). set (n := pn / 4 * 4) in *. clearbody n.
      apply (is_corner_face s p n pn (node_mod s n Hn) (node_mod s pn Hpn) Fn) in Hc.
      destruct (offs n Mn) as (O1 & O2 & O3 & O4 & O5 & O6 & _). pose proof (nxt_node s n Hn) as Hn1. rewrite O1 in Hn1. pose proof (prv_node s n Hn) as Hn2. rewrite O2 in Hn2.
      pose proof (inbox_near _ Hbp) as Np. rewrite !(rel_ok limit s p) by (assumption || now left). cbn [bind].
      assert (Hqv : vec17 (fst q - fst p, snd q - snd p)). { destruct Hbp as [P1 P2], Hbq as [Q1 Q2]. unfold lo, hi in *. change (2 ^ 15) with 32768 in *. unfold vec17. cbn [fst snd]. lia. }
      rewrite !(chk64_ok (fst q - fst p)), !(chk64_ok (snd q - snd p)) by (apply in_s64; unfold vec17 in Hqv; cbn [fst snd] in Hqv; lia). cbn [bind].
      destruct (is_zero (fst q - fst p, snd q - snd p)) eqn:Ez; [reflexivity|].
      assert (Ne : p <> q) by (intros <-; rewrite !Z.sub_diag in Ez; discriminate). clear Ez. destruct Hd as [Hd|Nc]; [contradiction|].
      pose proof (g_cw _ _ G n Hn) as D. rewrite O1, O2 in D.
      rewrite !affirm_true by (apply same_vec_ne; intro Ep; rewrite Ep in D; unfold orient in D; lia).
      rewrite affirm_true.
      2: { unfold is_corner in Hc. rewrite O1, O2 in Hc. rewrite !orb_true_iff, !is_zero_eq, !rv_zero. destruct Hc as [Hc|[Hc|Hc]]; symmetry in Hc; auto. }
      pose (a := (if is_zero (rv s p n) then (0, rv s p (n + 1), rv s p (n + 2)) else if is_zero (rv s p (n + 1)) then (1, rv s p (n + 2), rv s p n) else (2, rv s p n, rv s p (n + 1))) : Z * (Z * Z) * (Z * Z)).
      assert (Sel : exists k k1 k2, a = (k, rv s p (n + k1), rv s p (n + k2)) /\ (if k =? 0 then 1 else if k =? 1 then 2 else 0) = k1 /\ (if k =? 0 then 2 else if k =? 1 then 0 else 1) = k2 /\
        node s (n + k) /\ P s (n + k) = p /\ n + k1 = nxt (n + k) /\ n + k2 = prv (n + k)).
      { unfold a. destruct (is_zero (rv s p n)) eqn:Z0; [|destruct (is_zero (rv s p (n + 1))) eqn:Z1].
        - exists 0, 1, 2. rewrite Z.add_0_r. apply is_zero_eq, rv_zero in Z0. auto 10.
        - exists 1, 2, 0. rewrite Z.add_0_r. apply is_zero_eq, rv_zero in Z1. auto 10.
        - exists 2, 0, 1. rewrite Z.add_0_r. do 4 (split; [first [reflexivity|assumption]|]). split; [|auto]. unfold is_corner in Hc. rewrite O1, O2 in Hc. destruct Hc as [K|[K|K]]; [| |now symmetry].
          + exfalso. symmetry in K. apply (rv_zero s p n), is_zero_eq in K. congruence.
          + exfalso. symmetry in K. apply (rv_zero s p (n + 1)), is_zero_eq in K. congruence. }
      fold a. destruct Sel as (k & k1 & k2 & -> & Ek1 & Ek2 & Nm & Pm & Em1 & Em2). rewrite Ek1, Ek2, Em1, Em2. clear Ek1 Ek2 Em1 Em2.
      set (m := n + k) in *. clearbody m. clear O1 O2 O3 O4 O5 O6 Hn1 Hn2 Hc Fn Mn Hn D n k k1 k2.
      pose proof (nxt_node s m Nm) as Nm1. pose proof (prv_node s m Nm) as Nm2. pose proof (node_mod s m Nm) as Mm.
      pose proof (rv_vec limit s p _ G Hbp (or_introl Nm1)) as V1. pose proof (rv_vec limit s p _ G Hbp (or_introl Nm2)) as V2.
      destruct (cross_ok _ _ V1 Hqv) as [-> _]. cbn [bind]. destruct (cross_ok _ _ V2 Hqv) as [-> _]. cbn [bind].
      assert (E1 : fst (rv s p (nxt m)) * snd (fst q - fst p, snd q - snd p) - snd (rv s p (nxt m)) * fst (fst q - fst p, snd q - snd p) = orient p (P s (nxt m)) q) by (unfold rv, orient; cbn [fst snd]; ring).
      assert (E2 : fst (rv s p (prv m)) * snd (fst q - fst p, snd q - snd p) - snd (rv s p (prv m)) * fst (fst q - fst p, snd q - snd p) = orient p (P s (prv m)) q) by (unfold rv, orient; cbn [fst snd]; ring).
      rewrite E1, E2. destruct (next_ok limit s p m G Nc Nm Pm) as (Nt & _ & _ & _).
      assert (Rim : ~ on_rim p) by (intro R; apply Nc; now apply (rim_corner limit s p S Hp)).
      destruct (Z.ltb_spec (orient p (P s (nxt m)) q) 0) as [La|La]; destruct (Z.geb_spec (orient p (P s (prv m)) q) 0) as [Lb|Lb]; cbn [andb].
      2, 3, 4: rewrite (proj1 (fn_e limit s _ G (or_introl Nm2))); cbn [bind]; apply IHl; [assumption..|now right|assumption|]; unfold is_corner; right; right;
        pose proof (eb_tw limit s G _ Nm2 (node_nz s _ Nt)) as Eb; unfold ea, eb in Eb; rewrite (nxt_prv m Mm) in Eb; unfold P; rewrite Eb; now symmetry.
      assert (Nq : q <> P s m) by congruence.
      destruct (Z.eqb_spec (orient p (P s (prv m)) q) 0) as [Lz|Lz].
      + (* along an edge *)
        assert (Sg : on_segment (P s (prv m)) p q) by (rewrite <- Pm in La, Lz |- *; now apply (along limit)).
        pose proof (constrain_ok limit wrap fuel s (nxt m) G Nm1) as X. rewrite (constrain_same fuel s (nxt m) G Nm1), try_lift, lift_bind. apply bind_ext. intros s1 Es1. rewrite Es1 in X. destruct X as [G1 F].
        assert (S01 : steps limit s s1). { eapply steps_cons; [apply (st_mark limit s (nxt m)); assumption|]. apply flips_steps; [assumption|now apply marked_good]. }
        pose proof (steps_sound limit _ _ S01 S) as S1. pose proof (steps_extends limit _ _ S01 G) as Ex.
        assert (N1 : node s1 (nxt m)) by (destruct Nm1 as [Nka Nkb]; split; [destruct Ex; lia|assumption]).
        rewrite (proj1 (fn_e limit s1 _ G1 (or_introl N1))). cbn [bind].
        assert (Hx : fst p + fst (rv s p (prv m)) = fst (P s (prv m)) /\ snd p + snd (rv s p (prv m)) = snd (P s (prv m))) by (unfold rv; cbn [fst snd]; lia).
        destruct Hx as [-> ->]. pose proof (fn_box limit s _ G (or_introl Nm2)) as Hb. rewrite !(chk64_ok (fst (P s (prv m)))), !(chk64_ok (snd (P s (prv m)))) by (apply in_s64; destruct Hb as [Hb1 Hb2]; unfold lo, hi in *; change (2 ^ 15) with 32768 in *; lia). cbn [bind].
        assert (Hh : has s1 (P s (prv m))) by (apply (has_extends s s1 _ Ex); exists (pt s (prv m)); split; [now apply (g_pt _ _ G)|reflexivity]).
        pose proof (at_corner limit fuel s1 (P s (prv m)) (tw s1 (nxt m)) S1 Hh) as Z.
        rewrite locate_same, try_lift, lift_bind. apply bind_ext. intros n3 En3. rewrite En3 in Z.
        apply IHl; [assumption|assumption|now apply (has_extends s s1 q Ex)| |apply Z|apply Z].
        assert (Dec : P s (prv m) = q \/ P s (prv m) <> q). { destruct (P s (prv m)) as [x y], q as [x' y']. destruct (Z.eq_dec x x') as [->|N]; [|right; congruence]. destruct (Z.eq_dec y y') as [->|N]; [now left|right; congruence]. }
        destruct Dec as [Dec|Dec]; [now left|right]. apply (hull_corner _ p q Hbp Hbq Rim); [now apply segment_hull|assumption].
      + assert (Ncm : ~ Cdt_Search.corner (P s m)) by now rewrite Pm.
        rewrite (try_flip_same s m G Nm Ncm), try_lift, lift_bind. destruct (try_flip_ok limit s m G Nm) as (s1 & b & -> & G1 & Hb). cbn [bind]. destruct b; cbn [negb].
        * destruct Hb as (-> & Hc & Q1 & Q2). assert (S01 : steps limit s (flipped s m)) by (apply steps_one; now apply st_flip).
          pose proof (steps_sound limit _ _ S01 S) as S1. pose proof (steps_extends limit _ _ S01 G) as Ex.
          pose proof (at_corner limit fuel (flipped s m) p pn S1 (has_extends s _ p Ex Hp)) as Z.
          rewrite locate_same, try_lift, lift_bind. apply bind_ext. intros n3 En3. rewrite En3 in Z.
          apply IHl; [assumption|now apply (has_extends s)|now apply (has_extends s)|now right|apply Z|apply Z].
        * subst s1.
          assert (Hu : vec17 (fst (rv s p (prv m)) - fst (rv s p (nxt m)), snd (rv s p (prv m)) - snd (rv s p (nxt m)))).
          { pose proof (fn_box limit s _ G (or_introl Nm1)) as [A1 A2]. pose proof (fn_box limit s _ G (or_introl Nm2)) as [B1 B2]. unfold lo, hi in *. change (2 ^ 15) with 32768 in *. unfold vec17, rv. cbn [fst snd]. lia. }
          pose proof (intersect_value _ _ _ Hqv V1 V2 Hu ltac:(lia) ltac:(lia)) as Iv. cbv zeta in Iv.
          rewrite (intersect_same _ _ _ Hqv V1 V2 Hu ltac:(lia) ltac:(lia)), try_lift.
          destruct (intersect_ok _ _ _ Hqv V1 V2 Hu ltac:(lia) ltac:(lia)) as (r & Ir & Rx & Ry). rewrite Ir. cbn [bind]. rewrite Ir in Iv.
          destruct (is_zero r || same_vec r (fst q - fst p, snd q - snd p)) eqn:Erq; [reflexivity|].
          assert (Bs : beside (fst p + fst r, snd p + snd r) p q).
          { pose proof (beyond limit s m q S Nm Hq Nq) as By. rewrite Pm in By. specialize (By La ltac:(lia)).
            assert (By' : 0 < orient q (P s (nxt m)) (P s (prv m))). { destruct By as [By|By]; [|assumption]. exfalso. apply Lz. rewrite By. unfold orient. ring. }
            pose proof (g_cw _ _ G m Nm) as Cw. rewrite Pm in Cw.
            assert (Eq : q = (fst p + fst (fst q - fst p, snd q - snd p), snd p + snd (fst q - fst p, snd q - snd p))) by (cbn [fst snd]; destruct q, p; cbn [fst snd]; f_equal; lia).
            rewrite Eq. apply (beside_meet p (fst q - fst p, snd q - snd p) (rv s p (nxt m)) (rv s p (prv m)) r); [lia|lia| | |injection Iv as Iv; exact Iv].
            - unfold rv, orient in *. cbn [fst snd]. lia.
            - unfold rv, orient in *. cbn [fst snd]. lia. }
          assert (Hr : inbox (fst p + fst r, snd p + snd r)).
          { pose proof (fn_box limit s _ G (or_introl Nm1)) as [A1 A2]. pose proof (fn_box limit s _ G (or_introl Nm2)) as [B1 B2]. unfold rv in Rx, Ry. cbn [fst snd] in Rx, Ry. unfold inbox. cbn [fst snd]. lia. }
          rewrite !(chk64_ok (fst p + fst r)), !(chk64_ok (snd p + snd r)) by (apply in_s64; destruct Hr as [Hr1 Hr2]; cbn [fst snd] in *; unfold lo, hi in *; change (2 ^ 15) with 32768 in *; lia). cbn [bind].
          assert (Ncr : ~ Cdt_Search.corner (fst p + fst r, snd p + snd r)).
          { apply (hull_corner _ p q Hbp Hbq Rim); [now apply beside_hull|]. intro Eq. apply orb_false_iff in Erq. destruct Erq as [_ Erq]. rewrite <- Eq in Erq. cbn [fst snd] in Erq. unfold same_vec in Erq. cbn [fst snd] in Erq.
            replace (fst p + fst r - fst p) with (fst r) in Erq by lia. replace (snd p + snd r - snd p) with (snd r) in Erq by lia. now rewrite !Z.eqb_refl in Erq. }
          pose proof (proj1 (follow_all limit wrap fuel) s p (fst p + fst r, snd p + snd r) pn S Np (inbox_near _ Hr)) as X. pose proof (IHe s p (fst p + fst r, snd p + snd r) pn S Np (inbox_near _ Hr) Nc) as Y. cbn [fst snd] in X, Y. rewrite Y, try_lift, lift_bind. apply bind_ext.
          intros [s1 b1] Eb1. rewrite Eb1 in X. destruct X as [S01 _]. cbn [fst snd]. replace (fst p + (fst q - fst p)) with (fst q) by lia. replace (snd p + (snd q - snd p)) with (snd q) by lia.
          rewrite !(chk64_ok (fst q)), !(chk64_ok (snd q)) by (apply in_s64; destruct Hbq as [Hq1 Hq2]; cbn [fst snd] in *; unfold lo, hi in *; change (2 ^ 15) with 32768 in *; lia). cbn [bind].
          pose proof (steps_sound limit _ _ S01 S) as S1.
          pose proof (IHe s1 (fst p + fst r, snd p + snd r) q pn S1 (inbox_near _ Hr) (inbox_near _ Hbq) Ncr) as Y2. cbn [fst snd] in Y2. rewrite Y2, try_lift, lift_bind. apply bind_ext. intros [s2 b2] _. reflexivity.
  Qed.
End Debug.
