(** From locally Delaunay to globally Delaunay, and why the walks end: crossing an edge towards a point lowers the power of the point,
    or leaves it and makes the angle that faces the edge smaller. *)
From Coq Require Import List ZArith Lia.
Import ListNotations.
From Verif Require Import Base Vec_Model Vec_Spec Cdt_Model Cdt_Geom Cdt_Mesh Cdt_Flip Cdt_Circle Cdt_Star.
Local Open Scope Z_scope.

Definition dot (o b c : point) : Z := (fst b - fst o) * (fst c - fst o) + (snd b - snd o) * (snd c - snd o).

(** ** Two triangles at an edge *)
Lemma pencil_power o b c e p : incircle_det e c b p * orient o b c - incircle_det o b c p * orient e c b = incircle_det o b c e * orient p b c.
Proof. unfold incircle_det, det6, orient. ring. Qed.
Lemma det_dot o b c e : incircle_det o b c e = - (dot o b c * orient e c b + dot e c b * orient o b c).
Proof. unfold incircle_det, det6, dot, orient. ring. Qed.

(** ** Keys *)
(** The power of p (times the twofold area), the scalar product that belongs to the angle at the corner o, and the twofold area. *)
Definition kF (o b c p : point) : Z := incircle_det o b c p.
Definition lt_key (F' d' D' F d D : Z) : Prop := F' * D < F * D' \/ (F' * D = F * D' /\ d * D' < d' * D).
Definition lt_keyb (F' d' D' F d D : Z) : bool := ((F' * D <? F * D') || ((F' * D =? F * D') && (d * D' <? d' * D)))%bool.
Lemma lt_keyb_ok F' d' D' F d D : lt_keyb F' d' D' F d D = true <-> lt_key F' d' D' F d D.
Proof. unfold lt_keyb, lt_key. rewrite Bool.orb_true_iff, Bool.andb_true_iff, !Z.ltb_lt, Z.eqb_eq. tauto. Qed.
Lemma lt_key_irrefl F d D : ~ lt_key F d D F d D.
Proof. unfold lt_key. lia. Qed.
Lemma frac_lt_le a b c A B C : 0 < A -> 0 < B -> 0 < C -> a * B < b * A -> b * C <= c * B -> a * C < c * A.
Proof.
  intros HA HB HC H1 H2. apply (Zmult_lt_reg_r _ _ B HB). assert (X : a * B * C < b * A * C) by (apply Zmult_lt_compat_r; assumption). assert (Y : b * C * A <= c * B * A) by (apply Zmult_le_compat_r; lia). lia.
Qed.
Lemma frac_le_lt a b c A B C : 0 < A -> 0 < B -> 0 < C -> a * B <= b * A -> b * C < c * B -> a * C < c * A.
Proof.
  intros HA HB HC H1 H2. apply (Zmult_lt_reg_r _ _ B HB). assert (X : a * B * C <= b * A * C) by (apply Zmult_le_compat_r; lia). assert (Y : b * C * A < c * B * A) by (apply Zmult_lt_compat_r; lia). lia.
Qed.
Lemma frac_eq a b c A B C : 0 < B -> a * B = b * A -> b * C = c * B -> a * C = c * A.
Proof. intros HB H1 H2. apply (Z.mul_reg_r _ _ B); [lia|]. replace (a * C * B) with (a * B * C) by ring. rewrite H1. replace (b * A * C) with (b * C * A) by ring. rewrite H2. ring. Qed.
Lemma lt_key_trans F1 d1 D1 F2 d2 D2 F3 d3 D3 : 0 < D1 -> 0 < D2 -> 0 < D3 -> lt_key F1 d1 D1 F2 d2 D2 -> lt_key F2 d2 D2 F3 d3 D3 -> lt_key F1 d1 D1 F3 d3 D3.
Proof.
  intros H1 H2 H3 [A|[A1 A2]] [B|[B1 B2]].
  - left. apply (frac_lt_le F1 F2 F3 D1 D2 D3); lia.
  - left. apply (frac_lt_le F1 F2 F3 D1 D2 D3); lia.
  - left. apply (frac_le_lt F1 F2 F3 D1 D2 D3); lia.
  - right. split; [now apply (frac_eq F1 F2 F3 D1 D2 D3)|]. apply (frac_lt_le d3 d2 d1 D3 D2 D1); lia.
Qed.

(** Across the edge b c, towards p. *)
Lemma down o b c e p k l m : orient o b c < 0 -> orient e c b < 0 -> 0 < orient p b c -> 0 <= incircle_det o b c e ->
  (k = c /\ l = b /\ m = e) \/ (k = b /\ l = e /\ m = c) ->
  lt_key (incircle_det k l m p) (dot k l m) (- orient k l m) (incircle_det o b c p) (dot o b c) (- orient o b c).
Proof.
  intros Ho He Hp Hd H.
  assert (E1 : incircle_det k l m p = incircle_det e c b p).
  { destruct H as [(-> & -> & ->)|(-> & -> & ->)]; unfold incircle_det, det6; ring. }
  assert (E2 : orient k l m = orient e c b). { destruct H as [(-> & -> & ->)|(-> & -> & ->)]; unfold orient; ring. }
  rewrite E1, E2. pose proof (pencil_power o b c e p) as I. unfold lt_key.
  destruct (Z.eq_dec (incircle_det o b c e) 0) as [Z0|Z0].
  - right. rewrite Z0 in I. split; [lia|]. pose proof (det_dot o b c e) as J. rewrite Z0 in J.
    destruct (orient_ne e c b ltac:(lia)) as (N1 & N2 & N3).
    assert (K : 0 < dot k l m + dot e c b).
    { destruct H as [(-> & -> & ->)|(-> & -> & ->)].
      - replace (dot c b e + dot e c b) with (sqd e c) by (unfold dot, sqd; ring). now apply sqd_pos.
      - replace (dot b e c + dot e c b) with (sqd e b) by (unfold dot, sqd; ring). now apply sqd_pos. }
    assert (L : 0 < (dot k l m + dot e c b) * - orient o b c) by (apply Z.mul_pos_pos; lia). lia.
  - left. assert (0 < incircle_det o b c e * orient p b c) by (apply Z.mul_pos_pos; lia). lia.
Qed.

(** ** The rank of a node *)
Section Rank.
  Context (limit : Z) (s : mesh) (Q : Z -> point) (p : point).
  Hypothesis Gs : good limit s.
  Hypothesis Qcw : forall n, node s n -> orient (Q n) (Q (nxt n)) (Q (prv n)) < 0.
  Hypothesis Qtw : forall n, node s n -> tw s n <> 0 -> Q (nxt (tw s n)) = Q (prv n) /\ Q (prv (tw s n)) = Q (nxt n).
  Hypothesis Qld : forall n, node s n -> tw s n <> 0 -> 0 <= incircle_det (Q n) (Q (nxt n)) (Q (prv n)) (Q (tw s n)).

  Definition pw (n : Z) : Z := incircle_det (Q n) (Q (nxt n)) (Q (prv n)) p.
  Definition dt (n : Z) : Z := dot (Q n) (Q (nxt n)) (Q (prv n)).
  Definition ar (n : Z) : Z := - orient (Q n) (Q (nxt n)) (Q (prv n)).
  Definition below (m n : Z) : Prop := lt_key (pw m) (dt m) (ar m) (pw n) (dt n) (ar n).
  Definition belowb (m n : Z) : bool := lt_keyb (pw m) (dt m) (ar m) (pw n) (dt n) (ar n).
  Definition node_list : list Z := map Z.of_nat (seq 24 (Z.to_nat (8 * size s - 24))).
  Definition is_node (n : Z) : bool := negb (n mod 4 =? 3).
  Definition rank (n : Z) : nat := length (filter (fun m => is_node m && belowb m n)%bool node_list).

  Lemma node_list_ok n : In n node_list /\ is_node n = true <-> node s n.
  Proof.
    unfold node_list, is_node, node. rewrite in_map_iff, Bool.negb_true_iff, Z.eqb_neq. split.
    - intros [(k & <- & H) H2]. apply in_seq in H. split; [lia|assumption].
    - intros [H1 H2]. split; [|assumption]. exists (Z.to_nat n). split; [lia|]. apply in_seq. lia.
  Qed.
  Lemma below_trans a b c : node s a -> node s b -> node s c -> below a b -> below b c -> below a c.
  Proof. intros Ha Hb Hc. apply lt_key_trans; unfold ar; [pose proof (Qcw a Ha)|pose proof (Qcw b Hb)|pose proof (Qcw c Hc)]; lia. Qed.

  Lemma filter_sub (f g : Z -> bool) (l : list Z) : (forall x, f x = true -> g x = true) -> (length (filter f l) <= length (filter g l))%nat.
  Proof. intro H. induction l as [|x l IH]; cbn [filter]; [lia|]. destruct (f x) eqn:E; [rewrite (H x E); cbn [length]; lia|]. destruct (g x); cbn [length]; lia. Qed.
  Lemma filter_strict (f g : Z -> bool) (l : list Z) a : (forall x, f x = true -> g x = true) -> In a l -> f a = false -> g a = true -> (length (filter f l) < length (filter g l))%nat.
  Proof.
    intros H Ha Fa Ga. induction l as [|x l IH]; [contradiction|]. cbn [filter]. destruct Ha as [-> |Ha].
    - rewrite Fa, Ga. cbn [length]. pose proof (filter_sub f g l H). lia.
    - specialize (IH Ha). destruct (f x) eqn:E; [rewrite (H x E); cbn [length]; lia|]. destruct (g x); cbn [length]; lia.
  Qed.

  Lemma rank_below m n : node s m -> node s n -> below m n -> (rank m < rank n)%nat.
  Proof.
    intros Hm Hn H. unfold rank. destruct (proj2 (node_list_ok m) Hm) as [I1 I2].
    set (l := filter is_node node_list).
    assert (F : forall k, filter (fun x => is_node x && belowb x k)%bool node_list = filter (fun x => belowb x k) l).
    { intro k. unfold l. clear. induction node_list as [|x t IH]; [reflexivity|]. cbn [filter]. destruct (is_node x); cbn [andb filter]; [destruct (belowb x k); rewrite IH; reflexivity|apply IH]. }
    rewrite !F. assert (El : forall x, In x l -> node s x) by (intros x Hx; apply node_list_ok; apply filter_In in Hx; tauto).
    assert (Hml : In m l) by (apply filter_In; auto). clearbody l. clear I1 I2 F.
    assert (Sub : (length (filter (fun x => belowb x m) l) <= length (filter (fun x => belowb x n) l))%nat /\ (In m l -> (length (filter (fun x => belowb x m) l) < length (filter (fun x => belowb x n) l))%nat)).
    { clear Hml. induction l as [|x l IH]; [split; [reflexivity|contradiction]|]. destruct IH as [IH1 IH2]; [intros y Hy; apply El; now right|]. pose proof (El x (or_introl eq_refl)) as Hx. cbn [filter].
      destruct (belowb x m) eqn:E1.
      - apply lt_keyb_ok in E1. pose proof (below_trans x m n Hx Hm Hn E1 H) as E2. apply lt_keyb_ok in E2. fold (belowb x n) in E2. rewrite E2. cbn [length]. split; [lia|].
        intros [-> |Hl]; [exfalso; exact (lt_key_irrefl _ _ _ E1)|]. specialize (IH2 Hl). lia.
      - split; [destruct (belowb x n); cbn [length]; lia|]. intros [-> |Hl].
        + assert (E2 : belowb m n = true) by now apply lt_keyb_ok. rewrite E2. cbn [length]. lia.
        + specialize (IH2 Hl). destruct (belowb x n); cbn [length]; lia. }
    now apply Sub.
  Qed.

  Lemma cross_below n m : node s n -> tw s n <> 0 -> 0 < orient p (Q (nxt n)) (Q (prv n)) -> m = nxt (tw s n) \/ m = prv (tw s n) -> below m n.
  Proof.
    intros Hn Hz Hp Hm. pose proof (tw_node limit s Gs n Hn Hz) as Ht. pose proof (node_mod s _ Ht) as M. destruct (Qtw n Hn Hz) as [E1 E2].
    unfold below, pw, dt, ar. apply (down (Q n) (Q (nxt n)) (Q (prv n)) (Q (tw s n)) p).
    - now apply Qcw.
    - rewrite <- E1, <- E2. now apply Qcw.
    - assumption.
    - now apply Qld.
    - rewrite <- E1, <- E2. destruct Hm as [-> | ->]; rewrite ?nxt_nxt, ?prv_nxt, ?nxt_prv, ?prv_prv by assumption; auto.
  Qed.
  Lemma cross_rank n m : node s n -> tw s n <> 0 -> 0 < orient p (Q (nxt n)) (Q (prv n)) -> m = nxt (tw s n) \/ m = prv (tw s n) -> (rank m < rank n)%nat.
  Proof.
    intros Hn Hz Hp Hm. pose proof (tw_node limit s Gs n Hn Hz) as Ht.
    apply rank_below; [destruct Hm as [-> | ->]; [now apply nxt_node|now apply prv_node]|assumption|]. now apply cross_below.
  Qed.
  Lemma rank_bound n : node s n -> Z.of_nat (rank n) < 8 * size s.
  Proof.
    intro Hn. pose proof (g_size _ _ Gs). unfold rank. pose proof (filter_sub (fun m => is_node m && belowb m n)%bool (fun _ => true) node_list (fun _ _ => eq_refl)) as H1.
    assert (E : forall l : list Z, filter (fun _ => true) l = l) by (induction l as [|x l IH]; cbn [filter]; congruence). rewrite E in H1. unfold node_list in *. rewrite map_length, seq_length in H1. lia.
  Qed.
  (** The power of p does not rise. *)
  Lemma cross_power n m : node s n -> tw s n <> 0 -> 0 < orient p (Q (nxt n)) (Q (prv n)) -> m = nxt (tw s n) \/ m = prv (tw s n) -> pw n < 0 -> pw m < 0.
  Proof.
    intros Hn Hz Hp Hm Hw. pose proof (cross_below n m Hn Hz Hp Hm) as B. pose proof (tw_node limit s Gs n Hn Hz) as Ht.
    assert (Hmn : node s m) by (destruct Hm as [-> | ->]; [now apply nxt_node|now apply prv_node]). pose proof (Qcw n Hn) as C1. pose proof (Qcw m Hmn) as C2.
    assert (A1 : 0 < ar n) by (unfold ar; lia). assert (A2 : 0 < ar m) by (unfold ar; lia). assert (L : pw m * ar n <= pw n * ar m) by (destruct B as [B|[B _]]; lia).
    assert (pw n * ar m < 0) by (apply Z.mul_neg_pos; assumption). apply Z.nle_gt. intro K. assert (0 <= pw m * ar n) by (apply Z.mul_nonneg_nonneg; lia). lia.
  Qed.
End Rank.
