(** The invariant of the triangulation, and edge flips. *)
From Verif Require Import Base Vec_Model Math_Model Vec_Spec Cdt_Model Cdt_Geom.
Local Open Scope Z_scope.

Definition node (s : mesh) (n : Z) : Prop := 24 <= n < 8 * size s /\ n mod 4 <> 3.
Definition V (s : mesh) (v : Z) : point := (vx s v, vy s v).
Definition P (s : mesh) (n : Z) : point := V s (pt s n).

(** The directed edge of node n goes from vertex ea to vertex eb; its twin runs the other way. *)
Definition ea (s : mesh) (n : Z) : Z := pt s (nxt n).
Definition eb (s : mesh) (n : Z) : Z := pt s (prv n).
Definition twins (s : mesh) (n m : Z) : Prop :=
  node s m /\ tw s m = n /\ co s m = co s n /\ ea s m = eb s n /\ eb s m = ea s n.
Definition link (s : mesh) (n : Z) : Prop := (tw s n = 0 /\ co s n = 1) \/ twins s n (tw s n).

Definition sides4 : list (Z * Z) := [(0, 2); (2, 3); (3, 1); (1, 0)].
Definition bounded (s : mesh) : Prop :=
  (forall u w, In (u, w) sides4 -> exists n, node s n /\ tw s n = 0 /\ ea s n = u /\ eb s n = w) /\
  (forall n, node s n -> tw s n = 0 -> In (ea s n, eb s n) sides4) /\
  (forall n m, node s n -> node s m -> tw s n = 0 -> tw s m = 0 -> ea s n = ea s m -> n = m).

Definition corners (s : mesh) : Prop := V s 0 = (lo, lo) /\ V s 1 = (hi, lo) /\ V s 2 = (lo, hi) /\ V s 3 = (hi, hi).
Definition inbox (p : point) : Prop := lo <= fst p <= hi /\ lo <= snd p <= hi.

Record good (limit : Z) (s : mesh) : Prop := {
  g_limit : limit <= 8192;
  g_size : 4 <= size s <= limit;
  g_pt : forall n, node s n -> 0 <= pt s n < size s;
  g_co : forall n, node s n -> co s n = 0 \/ co s n = 1;
  g_link : forall n, node s n -> link s n;
  g_cw : forall n, node s n -> orient (P s n) (P s (nxt n)) (P s (prv n)) < 0;
  g_box : forall v, 0 <= v < size s -> inbox (V s v);
  g_corners : corners s;
  g_bounded : bounded s;
  g_nil : forall n, 0 <= n < 3 -> tw s n = 0 /\ co s n = 1 /\ pt s n = 0
}.

(** ** Nodes *)
Lemma nxt_face n : nxt n / 4 = n / 4.
Proof. unfold nxt. destruct (n mod 4 <? 2) eqn:E; [apply Z.ltb_lt in E|apply Z.ltb_ge in E]; pose proof (Z.mod_pos_bound n 4 ltac:(lia)); Z.to_euclidean_division_equations; lia. Qed.
Lemma prv_face n : n mod 4 <> 3 -> prv n / 4 = n / 4.
Proof. unfold prv. rewrite Z.gtb_ltb. destruct (0 <? n mod 4) eqn:E; [apply Z.ltb_lt in E|apply Z.ltb_ge in E]; pose proof (Z.mod_pos_bound n 4 ltac:(lia)); intros; Z.to_euclidean_division_equations; lia. Qed.

Lemma node_split n : n mod 4 <> 3 -> n mod 4 = 0 \/ n mod 4 = 1 \/ n mod 4 = 2.
Proof. pose proof (Z.mod_pos_bound n 4 ltac:(lia)). lia. Qed.
(** nxt and prv by cases on n mod 4, for lia. *)
Lemma nxt_prv_cases n : n mod 4 <> 3 ->
  (n mod 4 = 0 /\ nxt n = n + 1 /\ prv n = n + 2) \/ (n mod 4 = 1 /\ nxt n = n + 1 /\ prv n = n - 1) \/ (n mod 4 = 2 /\ nxt n = n - 2 /\ prv n = n - 1).
Proof.
  intro H. unfold nxt, prv. destruct (node_split n H) as [E|[E|E]]; rewrite E; cbn; auto.
Qed.

Lemma nxt_mod n : n mod 4 <> 3 -> nxt n mod 4 <> 3.
Proof. intro H. destruct (nxt_prv_cases n H) as [(E & -> & _)|[(E & -> & _)|(E & -> & _)]]; Z.to_euclidean_division_equations; lia. Qed.
Lemma prv_mod n : n mod 4 <> 3 -> prv n mod 4 <> 3.
Proof. intro H. destruct (nxt_prv_cases n H) as [(E & _ & ->)|[(E & _ & ->)|(E & _ & ->)]]; Z.to_euclidean_division_equations; lia. Qed.

Lemma nxt_node s n : node s n -> node s (nxt n).
Proof. intros [H1 H2]. split; [|now apply nxt_mod]. destruct (nxt_prv_cases n H2) as [(E & -> & _)|[(E & -> & _)|(E & -> & _)]]; Z.to_euclidean_division_equations; lia. Qed.
Lemma prv_node s n : node s n -> node s (prv n).
Proof. intros [H1 H2]. split; [|now apply prv_mod]. destruct (nxt_prv_cases n H2) as [(E & _ & ->)|[(E & _ & ->)|(E & _ & ->)]]; Z.to_euclidean_division_equations; lia. Qed.

Lemma nxt_nxt n : n mod 4 <> 3 -> nxt (nxt n) = prv n.
Proof.
  intro H. destruct (nxt_prv_cases n H) as [(E & H1 & H2)|[(E & H1 & H2)|(E & H1 & H2)]]; rewrite H1, H2; unfold nxt.
  - replace ((n + 1) mod 4) with 1 by (Z.to_euclidean_division_equations; lia). cbn. lia.
  - replace ((n + 1) mod 4) with 2 by (Z.to_euclidean_division_equations; lia). cbn. lia.
  - replace ((n - 2) mod 4) with 0 by (Z.to_euclidean_division_equations; lia). cbn. lia.
Qed.
Lemma nxt_prv n : n mod 4 <> 3 -> nxt (prv n) = n.
Proof.
  intro H. destruct (nxt_prv_cases n H) as [(E & H1 & H2)|[(E & H1 & H2)|(E & H1 & H2)]]; rewrite H2; unfold nxt.
  - replace ((n + 2) mod 4) with 2 by (Z.to_euclidean_division_equations; lia). cbn. lia.
  - replace ((n - 1) mod 4) with 0 by (Z.to_euclidean_division_equations; lia). cbn. lia.
  - replace ((n - 1) mod 4) with 1 by (Z.to_euclidean_division_equations; lia). cbn. lia.
Qed.
Lemma prv_nxt n : n mod 4 <> 3 -> prv (nxt n) = n.
Proof. intro H. rewrite <- (nxt_nxt (nxt n)) by now apply nxt_mod. rewrite (nxt_nxt n) by assumption. now apply nxt_prv. Qed.
Lemma prv_prv n : n mod 4 <> 3 -> prv (prv n) = nxt n.
Proof. intro H. rewrite <- (nxt_nxt (prv n)) by now apply prv_mod. now rewrite nxt_prv. Qed.

Lemma nxt_ne n : n mod 4 <> 3 -> nxt n <> n.
Proof. intro H. destruct (nxt_prv_cases n H) as [(E & H1 & H2)|[(E & H1 & H2)|(E & H1 & H2)]]; lia. Qed.
Lemma prv_ne n : n mod 4 <> 3 -> prv n <> n.
Proof. intro H. destruct (nxt_prv_cases n H) as [(E & H1 & H2)|[(E & H1 & H2)|(E & H1 & H2)]]; lia. Qed.
Lemma nxt_ne_prv n : n mod 4 <> 3 -> nxt n <> prv n.
Proof. intro H. destruct (nxt_prv_cases n H) as [(E & H1 & H2)|[(E & H1 & H2)|(E & H1 & H2)]]; lia. Qed.

Lemma same_face n m : n mod 4 <> 3 -> m mod 4 <> 3 -> n / 4 = m / 4 -> m = n \/ m = nxt n \/ m = prv n.
Proof.
  intros Hn Hm E. destruct (nxt_prv_cases n Hn) as [(En & H1 & H2)|[(En & H1 & H2)|(En & H1 & H2)]]; rewrite H1, H2;
    destruct (node_split m Hm) as [Em|[Em|Em]]; Z.to_euclidean_division_equations; lia.
Qed.

Lemma ea_nxt s n : n mod 4 <> 3 -> ea s (nxt n) = eb s n.
Proof. intro H. unfold ea, eb. now rewrite nxt_nxt. Qed.
Lemma eb_nxt s n : n mod 4 <> 3 -> eb s (nxt n) = pt s n.
Proof. intro H. unfold eb. now rewrite prv_nxt. Qed.
Lemma ea_prv s n : n mod 4 <> 3 -> ea s (prv n) = pt s n.
Proof. intro H. unfold ea. now rewrite nxt_prv. Qed.
Lemma eb_prv s n : n mod 4 <> 3 -> eb s (prv n) = ea s n.
Proof. intro H. unfold ea, eb. now rewrite prv_prv. Qed.

(** The vertices of a face differ. *)
Lemma pts_differ limit s n : good limit s -> node s n -> pt s n <> ea s n /\ pt s n <> eb s n /\ ea s n <> eb s n.
Proof.
  intros G Hn. pose proof (g_cw _ _ G n Hn) as C. unfold P, ea, eb in *.
  repeat split; intro E; rewrite E in C; unfold orient in C; lia.
Qed.

(** ** Twins *)
Section Twins.
  Context (limit : Z) (s : mesh) (G : good limit s).

  Lemma node_mod n : node s n -> n mod 4 <> 3.
  Proof. intros [_ H]. exact H. Qed.
  Lemma node_nz n : node s n -> n <> 0.
  Proof. intros [H _]. lia. Qed.

  Lemma tw_twins n : node s n -> tw s n <> 0 -> twins s n (tw s n).
  Proof. intros Hn Hz. destruct (g_link _ _ G n Hn) as [[E _]|H]; [contradiction|exact H]. Qed.
  Lemma tw_node n : node s n -> tw s n <> 0 -> node s (tw s n).
  Proof. intros Hn Hz. apply (tw_twins n Hn Hz). Qed.
  Lemma tw_tw n : node s n -> tw s n <> 0 -> tw s (tw s n) = n.
  Proof. intros Hn Hz. apply (tw_twins n Hn Hz). Qed.
  Lemma co_tw n : node s n -> tw s n <> 0 -> co s (tw s n) = co s n.
  Proof. intros Hn Hz. apply (tw_twins n Hn Hz). Qed.
  Lemma ea_tw n : node s n -> tw s n <> 0 -> ea s (tw s n) = eb s n.
  Proof. intros Hn Hz. apply (tw_twins n Hn Hz). Qed.
  Lemma eb_tw n : node s n -> tw s n <> 0 -> eb s (tw s n) = ea s n.
  Proof. intros Hn Hz. apply (tw_twins n Hn Hz). Qed.
  Lemma co_open n : node s n -> co s n = 0 -> tw s n <> 0.
  Proof. intros Hn Hc Hz. destruct (g_link _ _ G n Hn) as [[_ E]|H]; [lia|]. destruct H as [[Hb _] _]. rewrite Hz in Hb. lia. Qed.

  Lemma tw_other n : node s n -> tw s n <> 0 -> tw s n / 4 <> n / 4.
  Proof.
    intros Hn Hz E. pose proof (tw_node n Hn Hz) as Ht. pose proof (node_mod n Hn) as M. pose proof (node_mod _ Ht) as Mt.
    pose proof (ea_tw n Hn Hz) as Ea. pose proof (eb_tw n Hn Hz) as Eb. destruct (pts_differ limit s n G Hn) as (D1 & D2 & D3).
    destruct (same_face n (tw s n) M Mt (eq_sym E)) as [H|[H|H]]; rewrite H in *.
    - congruence.
    - rewrite (eb_nxt s n M) in Eb. congruence.
    - rewrite (ea_prv s n M) in Ea. congruence.
  Qed.

  Lemma tw_inj n m : node s n -> node s m -> tw s n <> 0 -> tw s n = tw s m -> n = m.
  Proof. intros Hn Hm Hz E. rewrite <- (tw_tw n Hn Hz), E. apply tw_tw; [assumption|congruence]. Qed.

  Lemma two_shared n : node s n -> tw s n <> 0 -> tw s (nxt n) <> 0 -> tw s n / 4 <> tw s (nxt n) / 4.
  Proof.
    intros Hn Hz Hz' E. pose proof (nxt_node s n Hn) as Hm. pose proof (tw_node n Hn Hz) as Ht. pose proof (tw_node _ Hm Hz') as Ht'.
    pose proof (node_mod n Hn) as M. pose proof (node_mod _ Ht) as Mt. pose proof (node_mod _ Ht') as Mt'.
    pose proof (ea_tw n Hn Hz) as Ea. pose proof (eb_tw n Hn Hz) as Eb. pose proof (ea_tw _ Hm Hz') as Ea'. pose proof (eb_tw _ Hm Hz') as Eb'.
    rewrite (eb_nxt s n M) in Ea'. rewrite (ea_nxt s n M) in Eb'.
    destruct (pts_differ limit s n G Hn) as (D1 & D2 & D3).
    destruct (same_face (tw s n) (tw s (nxt n)) Mt Mt' E) as [H|[H|H]]; rewrite H in *.
    - congruence.
    - rewrite (ea_nxt s _ Mt) in Ea'. congruence.
    - rewrite (ea_prv s _ Mt) in Ea'. pose proof (g_cw _ _ G n Hn) as C1. pose proof (g_cw _ _ G _ Ht) as C2.
      unfold P in *. fold (ea s n) (eb s n) (ea s (tw s n)) (eb s (tw s n)) in *. rewrite Ea', Ea, Eb in C2. rewrite orient_swap in C2. lia.
  Qed.

  Lemma two_shared' n m : node s n -> node s m -> n / 4 = m / 4 -> n <> m -> tw s n <> 0 -> tw s m <> 0 -> tw s n / 4 <> tw s m / 4.
  Proof.
    intros Hn Hm E D Hz Hz'. destruct (same_face n m (node_mod n Hn) (node_mod m Hm) E) as [->|[->| ->]]; [congruence|now apply two_shared|].
    pose proof (two_shared (prv n) Hm Hz') as H. rewrite (nxt_prv n (node_mod n Hn)) in H. specialize (H Hz). congruence.
  Qed.
End Twins.

(** ** Relabelling: how an operation moves the edges that stay. *)
Definition relabel (s s' : mesh) (phi : Z -> Z) (D N : Z -> Prop) : Prop :=
  (forall n, node s n -> ~ D n -> node s' (phi n) /\ ~ N (phi n) /\ co s' (phi n) = co s n /\ ea s' (phi n) = ea s n /\ eb s' (phi n) = eb s n /\
     (tw s n = 0 -> tw s' (phi n) = 0) /\ (tw s n <> 0 -> ~ D (tw s n) /\ tw s' (phi n) = phi (tw s n))) /\
  (forall m, node s' m -> N m \/ exists n, node s n /\ ~ D n /\ phi n = m) /\
  (forall n, node s n -> D n -> tw s n <> 0) /\
  (forall m, node s' m -> N m -> twins s' m (tw s' m)).

Lemma relabel_link s s' phi D N : relabel s s' phi D N -> (forall n, node s n -> link s n) -> forall m, node s' m -> link s' m.
Proof.
  intros (R1 & R2 & R3 & R4) L m Hm. destruct (R2 m Hm) as [HN|(n & Hn & HD & <-)]; [right; apply R4; assumption|].
  destruct (R1 n Hn HD) as (K1 & K2 & K3 & K4 & K5 & K6 & K7). destruct (L n Hn) as [[Z C]|T]; [left; split; [now apply K6|congruence]|].
  destruct T as (T1 & T2 & T3 & T4 & T5). assert (Hz : tw s n <> 0) by (intro Hz; rewrite Hz in T1; destruct T1 as [T1 _]; lia).
  destruct (K7 Hz) as (HD' & E). right. rewrite E. destruct (R1 (tw s n) T1 HD') as (J1 & J2 & J3 & J4 & J5 & J6 & J7).
  assert (Hn0 : tw s (tw s n) <> 0) by (rewrite T2; destruct Hn; lia).
  destruct (J7 Hn0) as (_ & E'). rewrite T2 in E'. unfold twins. rewrite J3, J4, J5, K3, K4, K5, E'. auto.
Qed.

Lemma relabel_bounded s s' phi D N : relabel s s' phi D N -> (forall n, node s n -> link s n) -> bounded s -> bounded s'.
Proof.
  intros (R1 & R2 & R3 & R4) L (B1 & B2 & B3).
  assert (X : forall m, node s' m -> tw s' m = 0 -> exists n, node s n /\ ~ D n /\ phi n = m /\ tw s n = 0 /\ ea s' m = ea s n /\ eb s' m = eb s n).
  { intros m Hm Hz. destruct (R2 m Hm) as [HN|(n & Hn & HD & <-)].
    - destruct (R4 m Hm HN) as ((Hb & _) & _). rewrite Hz in Hb. lia.
    - exists n. destruct (R1 n Hn HD) as (K1 & K2 & K3 & K4 & K5 & K6 & K7). repeat (split; [assumption || reflexivity|]).
      split; [|auto]. destruct (Z.eq_dec (tw s n) 0) as [E|E]; [assumption|]. destruct (K7 E) as (HD' & E'). exfalso. rewrite Hz in E'.
      destruct (L n Hn) as [[E0 _]|(T1 & _)]; [contradiction|]. destruct (R1 _ T1 HD') as ((Hb & _) & _). lia. }
  split; [|split].
  - intros u w H. destruct (B1 u w H) as (n & Hn & Hz & <- & <-). assert (HD : ~ D n) by (intro HD; exact (R3 n Hn HD Hz)).
    destruct (R1 n Hn HD) as (K1 & K2 & K3 & K4 & K5 & K6 & K7). exists (phi n). auto.
  - intros m Hm Hz. destruct (X m Hm Hz) as (n & Hn & _ & _ & Hz' & -> & ->). apply B2; assumption.
  - intros m m' Hm Hm' Hz Hz' E. destruct (X m Hm Hz) as (n & Hn & _ & <- & Hzn & E1 & _). destruct (X m' Hm' Hz') as (n' & Hn' & _ & <- & Hzn' & E1' & _).
    rewrite E1, E1' in E. now rewrite (B3 n n' Hn Hn' Hzn Hzn' E).
Qed.
