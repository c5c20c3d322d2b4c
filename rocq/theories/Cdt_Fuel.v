(** More fuel never changes a result: Timeout is the only thing that fuel decides. *)
From Verif Require Import Base Vec_Model Math_Model Vec_Spec Cdt_Model Cdt_Spec.
Local Open Scope Z_scope.

Definition upto {A} (r r' : res A) : Prop := r = Timeout \/ r' = r.
Lemma upto_refl {A} (r : res A) : upto r r.
Proof. now right. Qed.
Lemma upto_timeout {A} (r : res A) : upto Timeout r.
Proof. now left. Qed.
Lemma upto_bind {A B} (r r' : res A) (f f' : A -> res B) : upto r r' -> (forall x, upto (f x) (f' x)) -> upto (bind r f) (bind r' f').
Proof. intros [-> | ->] H; [now left|]. destruct r as [x| |]; [apply H|now right|now left]. Qed.
Lemma upto_ok {A} (r r' : res A) x : upto r r' -> r = Ok x -> r' = Ok x.
Proof. intros [-> | ->]; congruence. Qed.

Section Fuel.
  Context (limit q : Z) (wrap : bool).

  Ltac mono := repeat first
    [ match goal with |- upto ?r ?r => exact (upto_refl r) | |- upto Timeout ?r => exact (upto_timeout r) end
    | match goal with |- upto (bind _ _) (bind _ _) => apply upto_bind; [|intro] end
    | match goal with H : forall _, _ |- upto _ _ => apply H; solve [lia] end
    | match goal with |- upto (match ?x with _ => _ end) _ => destruct x end ].

  Lemma spin_mono n : forall m s px py e p1 p2, (n <= m)%nat -> upto (spin limit n s px py e p1 p2) (spin limit m s px py e p1 p2).
  Proof. induction n as [|n IH]; intros [|m] s px py e p1 p2 L; try lia; [now left|now left|]. cbn [spin]. mono. Qed.
  Lemma walk_mono n : forall m s px py e p1 p2, (n <= m)%nat -> upto (walk limit n s px py e p1 p2) (walk limit m s px py e p1 p2).
  Proof. pose proof spin_mono. induction n as [|n IH]; intros [|m] s px py e p1 p2 L; try lia; [now left|now left|]. cbn [walk]. mono. Qed.
  Lemma locate_mono n m s px py h : (n <= m)%nat -> upto (locate_insertion_node limit n s px py h) (locate_insertion_node limit m s px py h).
  Proof. intro L. pose proof walk_mono. unfold locate_insertion_node. cbv zeta. mono. Qed.
  Lemma flip_mono n : forall m s e, (n <= m)%nat -> upto (flip limit wrap n s e) (flip limit wrap m s e).
  Proof. induction n as [|n IH]; intros [|m] s e L; try lia; [now left|now left|]. cbn [flip]. mono. Qed.
  Lemma in_face_mono n m s px py u : (n <= m)%nat -> upto (insert_in_face limit wrap n s px py u) (insert_in_face limit wrap m s px py u).
  Proof. intro L. pose proof flip_mono. unfold insert_in_face. cbv zeta. mono. Qed.
  Lemma on_edge_mono n m s px py u : (n <= m)%nat -> upto (insert_on_edge limit wrap n s px py u) (insert_on_edge limit wrap m s px py u).
  Proof. intro L. pose proof flip_mono. unfold insert_on_edge. cbv zeta. mono. Qed.
  Lemma at_node_mono n m s px py k : (n <= m)%nat -> upto (insert_point_at_node limit wrap n s px py k) (insert_point_at_node limit wrap m s px py k).
  Proof. intro L. pose proof in_face_mono. pose proof on_edge_mono. unfold insert_point_at_node. cbv zeta. mono. Qed.
  Lemma constrain_mono n m s e : (n <= m)%nat -> upto (constrain_edge limit wrap n s e) (constrain_edge limit wrap m s e).
  Proof. intro L. pose proof flip_mono. unfold constrain_edge. cbv zeta. mono. Qed.

  Lemma edge_mono n :
    (forall m s px py qx qy h, (n <= m)%nat -> upto (insert_edge64 limit wrap n s px py qx qy h) (insert_edge64 limit wrap m s px py qx qy h)) /\
    (forall m s px py qx qy pn, (n <= m)%nat -> upto (edge_loop limit wrap n s px py qx qy pn) (edge_loop limit wrap m s px py qx qy pn)).
  Proof.
    pose proof locate_mono. pose proof at_node_mono. pose proof constrain_mono.
    induction n as [|n [IHe IHl]]; [split; intros; now left|]. split; intros [|m] s px py qx qy h L; try lia.
    - cbn [insert_edge64]. fold (insert_edge64 limit wrap) (edge_loop limit wrap). mono.
    - cbn [edge_loop]. fold (insert_edge64 limit wrap) (edge_loop limit wrap). cbv zeta. mono.
  Qed.

  Lemma spin32_mono n : forall m s px py e p1 p2, (n <= m)%nat -> upto (spin32 limit q n s px py e p1 p2) (spin32 limit q m s px py e p1 p2).
  Proof. induction n as [|n IH]; intros [|m] s px py e p1 p2 L; try lia; [now left|now left|]. cbn [spin32]. mono. Qed.
  Lemma walk32_mono n : forall m s px py e p1 p2, (n <= m)%nat -> upto (walk32 limit q n s px py e p1 p2) (walk32 limit q m s px py e p1 p2).
  Proof. pose proof spin32_mono. induction n as [|n IH]; intros [|m] s px py e p1 p2 L; try lia; [now left|now left|]. cbn [walk32]. mono. Qed.
  Lemma locate32_mono n m s px py h : (n <= m)%nat -> upto (locate limit q n s px py h) (locate limit q m s px py h).
  Proof. intro L. pose proof walk32_mono. unfold locate. cbv zeta. mono. Qed.
  Lemma fill_mono n : (forall m s f i l, (n <= m)%nat -> upto (fill_ex limit n s f i l) (fill_ex limit m s f i l)) /\ (forall m s i l, (n <= m)%nat -> upto (fill_more limit n s i l) (fill_more limit m s i l)).
  Proof.
    induction n as [|n [IHe IHl]]; [split; intros; now left|]. split.
    - intros [|m] s f i l L; try lia. cbn [fill_ex]. fold (fill_ex limit) (fill_more limit). mono.
    - intros [|m] s i l L; try lia. cbn [fill_more]. fold (fill_ex limit) (fill_more limit). mono.
  Qed.
  Lemma run_mono n m s o : (n <= m)%nat -> upto (run_op limit q wrap n s o) (run_op limit q wrap m s o).
  Proof.
    intro L. destruct o as [|p h|p r h|k info]; cbn [run_op]; [apply upto_refl| | |].
    - unfold insert_point, insert_point64. pose proof locate_mono. pose proof at_node_mono. mono.
    - unfold insert_edge. pose proof (proj1 (edge_mono n)). mono.
    - unfold fill. cbv zeta. pose proof (proj1 (fill_mono n)). mono.
  Qed.
End Fuel.
