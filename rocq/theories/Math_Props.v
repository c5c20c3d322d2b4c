(** Properties of the exact integer part of math.h (C39-C44, C64). *)
From Coq Require Import Permutation.
From Verif Require Import Base Vec_Model Vec_Spec Vec_Props Math_Model Math_Spec Math_Proofs.
Local Open Scope Z_scope.

(** ** C39 inside *)

(** C39: inside is always defined, and true exactly when the cross product is negative after both vectors are moved by a
    small step in x and a much smaller step in y: any step 1/N with N >= 2^33 gives the same answer. *)
Theorem C39_inside : forall N a b, 2 ^ 33 <= N -> int32 (fst a) -> int32 (snd a) -> int32 (fst b) -> int32 (snd b) ->
  exists r, inside a b = Ok r /\ (r = true <-> cross_product (moved N a) (moved N b) < 0).
Proof.
  intros N a b HN H1 H2 H3 H4. destruct (inside_moved N a b HN) as (r & E & R & _); try (unfold int33, int32 in *; lia). exists r. now split.
Qed.
Print Assumptions C39_inside.

(** C39: inside a a is false, and for a <> b exactly one of inside a b and inside b a is true. *)
Theorem C39_antisymmetric : forall a b, int32 (fst a) -> int32 (snd a) -> int32 (fst b) -> int32 (snd b) ->
  inside a a = Ok false /\ (a <> b -> exists r, inside a b = Ok r /\ inside b a = Ok (negb r)).
Proof.
  intros a b H1 H2 H3 H4. assert (I : forall x, int32 x -> int33 x) by (unfold int33, int32; intros; lia).
  split.
  - destruct (inside_moved (2 ^ 33) a a (Z.le_refl _)) as (r & E & R & _); auto. rewrite E. f_equal. destruct r; [|reflexivity].
    exfalso. assert (H : cross_product (moved (2 ^ 33) a) (moved (2 ^ 33) a) < 0) by (now apply R). unfold cross_product in H. lia.
  - intro Hab. destruct (inside_moved (2 ^ 33) a b (Z.le_refl _)) as (r & E & R & N0); auto.
    destruct (inside_moved (2 ^ 33) b a (Z.le_refl _)) as (r' & E' & R' & _); auto. specialize (N0 Hab).
    exists r. split; [assumption|]. rewrite E'. f_equal.
    assert (S0 : cross_product (moved (2 ^ 33) b) (moved (2 ^ 33) a) = - cross_product (moved (2 ^ 33) a) (moved (2 ^ 33) b)) by (unfold cross_product; ring).
    rewrite S0 in R'. revert R R' N0. generalize (cross_product (moved (2 ^ 33) a) (moved (2 ^ 33) b)). intros c R R' N0.
    destruct r, r'; cbn [negb]; try reflexivity; exfalso.
    + assert (c < 0) by (now apply R). assert (- c < 0) by (now apply R'). lia.
    + assert (~ c < 0) by (intro X; apply R in X; discriminate). assert (~ - c < 0) by (intro X; apply R' in X; discriminate). lia.
Qed.
Print Assumptions C39_antisymmetric.

(** C39: off ties it is the plain sign test. *)
Theorem C39_sign : forall a b, int32 (fst a) -> int32 (snd a) -> int32 (fst b) -> int32 (snd b) -> cross_product a b <> 0 ->
  inside a b = Ok (cross_product a b <? 0).
Proof.
  intros a b H1 H2 H3 H4 N0. destruct (inside_ok a b) as (r & E & R); try (unfold int33, int32 in *; lia). rewrite E. f_equal.
  destruct (Z.ltb_spec (cross_product a b) 0); destruct r; try reflexivity; exfalso.
  - assert (false = true) by (apply R; now left). discriminate.
  - assert (cross_product a b < 0 \/ cross_product a b = 0 /\ (snd b - snd a < 0 \/ snd b - snd a = 0 /\ fst a - fst b < 0)) by (now apply R). lia.
Qed.
Print Assumptions C39_sign.

Example C39_nonvacuous : inside (-1, 0) (1, 0) = Ok true /\ inside (1, 0) (-1, 0) = Ok false /\
  inside (-2147483648, -2147483648) (2147483647, 2147483647) = Ok false /\ cross_product (2, 4) (-1, -2) = 0 /\ inside (2, 4) (-1, -2) = Ok true.
Proof. repeat split. Qed.

(** ** C40 meshes *)

(** C40: in any mesh of clockwise triangles, in which inner sides match in opposite directions, the number of triangles
    that claim a point p (also on an edge or a vertex) is minus the winding number of the boundary around p moved by an
    infinitesimal step: it depends on the boundary only, not on the triangulation. *)
Theorem C40_mesh : forall p ts boundary o, within (2 ^ 30 - 1) p -> Forall tri_ok ts -> Forall (within (2 ^ 30 - 1)) boundary ->
  Forall clockwise ts -> mesh_with_boundary ts boundary -> off_spokes o (query p) (map vertex boundary) ->
  exists rs, map (inside3_of p) ts = map Ok rs /\ Z.of_nat (count_true rs) = - winding o (query p) (map vertex boundary).
Proof.
  intros p ts boundary o Hp F1 Fb F2 HM Hs. destruct (mesh_count p ts Hp F1 F2) as (rs & E & C). exists rs. split; [assumption|].
  rewrite C, (mesh_boundary p ts boundary HM). f_equal. symmetry. apply fan_closed; [|assumption].
  intros a b Hab. rewrite edges_vertex in Hab. apply in_map_iff in Hab. destruct Hab as ([a' b'] & Eab & Hin). inversion Eab. subst. cbn [fst snd].
  assert (Hv : forall l, (forall v, In v l -> within KM v) -> forall x, within KM x -> forall u w, In (u, w) (chain x l) -> within KM u /\ within KM w).
  { induction l as [|y l IH]; intros Hl x Hx u w Huw; [destruct Huw|]. cbn [chain] in Huw. destruct Huw as [Eu|Huw]; [inversion Eu; subst; split; [assumption|apply Hl; now left]|].
    apply (IH (fun v Hv => Hl v (or_intror Hv)) y (Hl y (or_introl eq_refl)) u w Huw). }
  destruct boundary as [|x l]; [destruct Hin|]. rewrite Forall_forall in Fb.
  destruct (Hv (x :: l) Fb (last (x :: l) (0, 0))) with (u := a') (w := b') as [Ha Hb].
  - apply Fb. destruct (exists_last (l := x :: l) ltac:(discriminate)) as (m & t & Em). rewrite Em, last_last. apply in_or_app. right. now left.
  - exact Hin.
  - now apply generic.
Qed.
Print Assumptions C40_mesh.

Lemma edges_in l a b : In (a, b) (edges l) -> In a l /\ In b l.
Proof.
  unfold edges. destruct l as [|x l]; [intros []|]. intro H. destruct (chain_in _ _ _ _ H) as [Ha Hb]. split; [|assumption].
  destruct Ha as [<-|Ha]; [|assumption]. destruct (exists_last (l := x :: l) ltac:(discriminate)) as (m & t & Em). rewrite Em, last_last. apply in_or_app. right. now left.
Qed.

Lemma convex_vertex l : convex_clockwise l -> convex_clockwise (map vertex l).
Proof.
  assert (T : forall a l, turn_around a l -> turn_around (vertex a) (map vertex l)).
  { intros a. induction l0 as [|b l0 IH]; [auto|]. intros [H1 H2]. cbn [map turn_around]. split; [|now apply IH].
    intros c Hc. apply in_map_iff in Hc. destruct Hc as (c' & <- & Hc). rewrite orient_vertex. apply Z.mul_pos_neg; [reflexivity|now apply H1]. }
  induction l as [|a l IH]; [auto|]. intros [H1 H2]. cbn [map convex_clockwise]. split; [now apply T|now apply IH].
Qed.

(** C40: the triangles of a triangulated convex polygon partition its points: a point passes the three tests of exactly
    one triangle if it passes the test of every edge of the polygon, and of no triangle otherwise. *)
Theorem C40_partition : forall p ts boundary, within (2 ^ 30 - 1) p -> Forall tri_ok ts -> Forall (within (2 ^ 30 - 1)) boundary ->
  Forall clockwise ts -> mesh_with_boundary ts boundary -> convex_clockwise boundary -> (3 <= length boundary)%nat ->
  exists rs, map (inside3_of p) ts = map Ok rs /\
    let in_polygon := forall a b, In (a, b) (edges boundary) -> inside (vsub a p) (vsub b p) = Ok true in
    (in_polygon -> count_true rs = 1%nat) /\ (~ in_polygon -> count_true rs = 0%nat).
Proof.
  intros p ts boundary Hp F1 Fb F2 HM HC HL. destruct (mesh_count p ts Hp F1 F2) as (rs & E & C). exists rs. split; [assumption|].
  rewrite (mesh_boundary p ts boundary HM) in C. rewrite Forall_forall in Fb. cbv zeta.
  destruct boundary as [|v0 [|v1 [|v2 l]]]; cbn [length] in HL; try lia.
  assert (D : forall v, In v (v1 :: v2 :: l) -> v0 <> v).
  { destruct HC as [[H1 H2] _]. intros v [<-|Hv] Ev.
    - specialize (H1 v2 (or_introl eq_refl)). rewrite Ev in H1. unfold orient in H1. lia.
    - specialize (H1 v Hv). rewrite <- Ev in H1. unfold orient in H1. lia. }
  cbn [map] in C. rewrite convex_total in C.
  - change (vertex v0 :: vertex v1 :: vertex v2 :: map vertex l) with (map vertex (v0 :: v1 :: v2 :: l)) in C. rewrite edges_vertex in C.
    assert (B : forallb (fun e => orient (fst e) (snd e) (query p) <? 0) (map vedge (edges (v0 :: v1 :: v2 :: l))) = true <->
                (forall a b, In (a, b) (edges (v0 :: v1 :: v2 :: l)) -> inside (vsub a p) (vsub b p) = Ok true)).
    { rewrite forallb_forall. split.
      - intros H a b Hab. destruct (edges_in _ _ _ Hab) as [Ia Ib]. destruct (inside_edge p a b Hp (Fb a Ia) (Fb b Ib)) as (r & Er & R & _). rewrite Er. f_equal.
        apply R. specialize (H (vedge (a, b)) (in_map vedge _ _ Hab)). now apply Z.ltb_lt in H.
      - intros H e He. apply in_map_iff in He. destruct He as ([a b] & <- & Hab). cbn [vedge fst snd]. destruct (edges_in _ _ _ Hab) as [Ia Ib].
        destruct (inside_edge p a b Hp (Fb a Ia) (Fb b Ib)) as (r & Er & R & _). apply Z.ltb_lt. apply R. specialize (H a b Hab). congruence. }
    destruct (forallb _ _) eqn:Ef.
    + split; [lia|]. intro N. exfalso. apply N. now apply B.
    + split; [|lia]. intro Y. apply B in Y. discriminate.
  - change (convex_clockwise (map vertex (v0 :: v1 :: v2 :: l))). now apply convex_vertex.
  - change (off_edges (query p) (map vertex (v0 :: v1 :: v2 :: l))). intros a b Hab. rewrite edges_vertex in Hab. apply in_map_iff in Hab. destruct Hab as ([a' b'] & Eab & Hin).
    inversion Eab. subst. destruct (edges_in _ _ _ Hin) as [Ia Ib]. cbn [fst snd]. apply generic; [assumption|apply Fb; assumption|apply Fb; assumption].
  - change (off_spokes (vertex v0) (query p) (map vertex (v0 :: v1 :: v2 :: l))). intros a Ha. apply in_map_iff in Ha. destruct Ha as (a' & <- & Ia). apply generic; [assumption|apply Fb; now left|apply Fb; assumption].
  - change (forall v, In v (map vertex (v1 :: v2 :: l)) -> orient (vertex v0) v (query p) <> 0). intros v Hv. apply in_map_iff in Hv. destruct Hv as (v' & <- & Iv).
    destruct (inside_edge p v0 v' Hp (Fb v0 (or_introl eq_refl)) (Fb v' (or_intror Iv))) as (_ & _ & _ & N0). apply N0. now apply D.
Qed.
Print Assumptions C40_partition.

(** C40: a point strictly inside the convex polygon is in exactly one triangle, a point strictly outside some edge in none. *)
Theorem C40_interior_exterior : forall p ts boundary, within (2 ^ 30 - 1) p -> Forall tri_ok ts -> Forall (within (2 ^ 30 - 1)) boundary ->
  Forall clockwise ts -> mesh_with_boundary ts boundary -> convex_clockwise boundary -> (3 <= length boundary)%nat ->
  exists rs, map (inside3_of p) ts = map Ok rs /\
    ((forall a b, In (a, b) (edges boundary) -> orient a b p < 0) -> count_true rs = 1%nat) /\
    ((exists a b, In (a, b) (edges boundary) /\ 0 < orient a b p) -> count_true rs = 0%nat).
Proof.
  intros p ts boundary Hp F1 Fb F2 HM HC HL. destruct (C40_partition p ts boundary Hp F1 Fb F2 HM HC HL) as (rs & E & C1 & C0).
  exists rs. split; [assumption|]. rewrite Forall_forall in Fb.
  assert (S0 : forall a b, In (a, b) (edges boundary) -> orient a b p <> 0 -> inside (vsub a p) (vsub b p) = Ok (orient a b p <? 0)).
  { intros a b Hab N0. destruct (edges_in _ _ _ Hab) as [Ia Ib]. assert (Eo : orient a b p = cross_product (vsub a p) (vsub b p)) by (unfold orient, cross_product, vsub; cbn [fst snd]; ring).
    rewrite Eo in *. pose proof (Fb a Ia) as Wa. pose proof (Fb b Ib) as Wb. unfold within in Hp, Wa, Wb. change (2 ^ 30 - 1) with 1073741823 in *.
    apply C39_sign; [unfold int32, vsub; change (2 ^ 31) with 2147483648; cbn [fst snd]; lia..|assumption]. }
  split.
  - intro H. apply C1. intros a b Hab. pose proof (H a b Hab). rewrite S0 by (assumption || lia). f_equal. now apply Z.ltb_lt.
  - intros (a & b & Hab & H). apply C0. intro Y. specialize (Y a b Hab). rewrite S0 in Y by (assumption || lia).
    assert (orient a b p <? 0 = true) as L by congruence. apply Z.ltb_lt in L. lia.
Qed.
Print Assumptions C40_interior_exterior.

(** C40: two triangles on the two sides of an edge never both claim a point. *)
Theorem C40_neighbours : forall p a b c d, within (2 ^ 30 - 1) p -> within (2 ^ 30 - 1) a -> within (2 ^ 30 - 1) b -> within (2 ^ 30 - 1) c -> within (2 ^ 30 - 1) d ->
  inside3 p a b c = Ok true -> inside3 p b a d <> Ok true.
Proof.
  intros p a b c d Hp Ha Hb Hc Hd H1 H2. destruct (inside3_ok p a b c Hp Ha Hb Hc) as (r1 & E1 & R1). destruct (inside3_ok p b a d Hp Hb Ha Hd) as (r2 & E2 & R2).
  rewrite H1 in E1. rewrite H2 in E2. assert (r1 = true) as T1 by congruence. assert (r2 = true) as T2 by congruence. apply R1 in T1. apply R2 in T2.
  rewrite (orient_swap (vertex a) (vertex b)) in T2. lia.
Qed.
Print Assumptions C40_neighbours.

(** A square cut along a diagonal; points on the diagonal, on the sides and at the corners are claimed at most once. *)
Definition square : list point := [(0, 0); (0, 4); (4, 4); (4, 0)].
Definition halves : list triangle := [((0, 0), (0, 4), (4, 4)); ((0, 0), (4, 4), (4, 0))].
Example C40_nonvacuous : Forall clockwise halves /\ mesh_with_boundary halves square /\ convex_clockwise square /\ Forall tri_ok halves /\
  map (inside3_of (2, 2)) halves = [Ok true; Ok false] /\ map (inside3_of (0, 2)) halves = [Ok false; Ok false] /\ map (inside3_of (4, 2)) halves = [Ok false; Ok true].
Proof.
  split; [|split; [|split; [|split]]].
  - repeat constructor.
  - exists [((4, 4), (0, 0))]. cbn [flat_map sides halves app edges square last chain map flip fst snd].
    apply Permutation_sym. eapply Permutation_trans; [apply (Permutation_cons_app [((0, 0), (0, 4)); ((0, 4), (4, 4)); ((4, 4), (4, 0)); ((4, 4), (0, 0)); ((0, 0), (4, 4))] [] ((4, 0), (0, 0)))|].
    { rewrite app_nil_r. apply Permutation_refl. }
    cbn [app]. do 2 apply perm_skip. eapply Permutation_trans; [apply perm_swap|]. apply perm_skip. eapply Permutation_trans; [apply perm_swap|]. apply Permutation_refl.
  - unfold square. cbn [convex_clockwise turn_around]. repeat split; intros c Hc; cbn [In] in Hc; intuition; subst; reflexivity.
  - unfold halves. constructor; [|constructor; [|constructor]]; unfold tri_ok, within, KM; cbn [fst snd]; change (2 ^ 30 - 1) with 1073741823; lia.
  - vm_compute. auto.
Qed.

(** ** C41, C42 distances *)

Ltac dots k H :=
  repeat match goal with
  | |- context [dot64 ?a ?b ?c ?d] =>
      let E := fresh "E" in let B := fresh "B" in
      destruct (dot64_ok k a b c d) as [E B]; [lia|lia|lia|lia|lia|reflexivity|]; rewrite E; cbn [bind]
  end.

Theorem C41_point : forall x y rr, - 2 ^ 31 < x < 2 ^ 31 -> - 2 ^ 31 < y < 2 ^ 31 -> in_range_rr x y rr = Ok (x * x + y * y <? rr).
Proof.
  change (2 ^ 31) with 2147483648. intros x y rr Hx Hy. unfold in_range_rr. dots 2147483647 I. reflexivity.
Qed.
Print Assumptions C41_point.

Lemma flag (b : bool) (P : Prop) (m : res bool) : m = Ok b -> (b = true <-> P) -> exists r, m = Ok r /\ (r = true <-> P).
Proof. intros. exists b. auto. Qed.

(** C41: true exactly when the distance to the line is less than sqrt(rr). *)
Theorem C41_line : forall px py rr dx dy, - 2 ^ 31 < px < 2 ^ 31 -> - 2 ^ 31 < py < 2 ^ 31 -> - 2 ^ 31 < dx < 2 ^ 31 -> - 2 ^ 31 < dy < 2 ^ 31 -> 0 <= rr < 2 ^ 63 ->
  exists r, in_range_rr_line px py rr dx dy = Ok r /\ (r = true <-> near_line px py rr dx dy).
Proof.
  change (2 ^ 31) with 2147483648. change (2 ^ 63) with 9223372036854775808. intros px py rr dx dy H1 H2 H3 H4 Hr. unfold in_range_rr_line. dots 2147483647 I.
  destruct (Z.ltb_spec (px * px + py * py) rr) as [L|L].
  - exists true. split; [reflexivity|]. split; [|reflexivity]. intros _. exists 0, 1. split; [lia|]. now apply closer_start.
  - dots 2147483647 I. rewrite chk64_ok' by (change (2 ^ 63) with 9223372036854775808; lia). cbn [bind].
    rewrite ab_less_cd_ok by (unfold in_s; change (2 ^ (64 - 1)) with 9223372036854775808; lia). eexists. split; [reflexivity|]. rewrite Z.ltb_lt. split.
    + intro C. apply closer_foot in C. destruct C as [D C]. eexists _, _. split; [exact D|exact C].
    + intros (n & m & Hm & C). now apply (closer_line px py rr dx dy n m).
Qed.
Print Assumptions C41_line.

Theorem C41_ray : forall px py rr dx dy, - 2 ^ 31 < px < 2 ^ 31 -> - 2 ^ 31 < py < 2 ^ 31 -> - 2 ^ 31 < dx < 2 ^ 31 -> - 2 ^ 31 < dy < 2 ^ 31 -> 0 <= rr < 2 ^ 63 ->
  exists r, in_range_rr_ray px py rr dx dy = Ok r /\ (r = true <-> near_ray px py rr dx dy).
Proof.
  change (2 ^ 31) with 2147483648. change (2 ^ 63) with 9223372036854775808. intros px py rr dx dy H1 H2 H3 H4 Hr. unfold in_range_rr_ray. dots 2147483647 I.
  destruct (Z.ltb_spec (px * px + py * py) rr) as [L|L].
  - exists true. split; [reflexivity|]. split; [|reflexivity]. intros _. exists 0, 1. split; [lia|]. split; [lia|]. now apply closer_start.
  - dots 2147483647 I. destruct (Z.ltb_spec (px * dx + py * dy) 0) as [D|D].
    + exists false. split; [reflexivity|]. split; [discriminate|]. intros (n & m & Hm & Hn & C). exfalso. now apply (closer_behind px py rr dx dy n m).
    + dots 2147483647 I. rewrite chk64_ok' by (change (2 ^ 63) with 9223372036854775808; lia). cbn [bind].
      rewrite ab_less_cd_ok by (unfold in_s; change (2 ^ (64 - 1)) with 9223372036854775808; lia). eexists. split; [reflexivity|]. rewrite Z.ltb_lt. split.
      * intro C. apply closer_foot in C. destruct C as [D' C]. eexists _, _. split; [exact D'|]. split; [exact D|exact C].
      * intros (n & m & Hm & Hn & C). now apply (closer_line px py rr dx dy n m).
Qed.
Print Assumptions C41_ray.

Theorem C41_segment : forall px py rr dx dy, - 2 ^ 30 < px < 2 ^ 30 -> - 2 ^ 30 < py < 2 ^ 30 -> - 2 ^ 30 < dx < 2 ^ 30 -> - 2 ^ 30 < dy < 2 ^ 30 -> 0 <= rr < 2 ^ 63 ->
  exists r, in_range_rr_segment px py rr dx dy = Ok r /\ (r = true <-> near_segment px py rr dx dy).
Proof.
  change (2 ^ 30) with 1073741824. change (2 ^ 63) with 9223372036854775808. intros px py rr dx dy H1 H2 H3 H4 Hr. unfold in_range_rr_segment. dots 2147483647 I.
  destruct (Z.ltb_spec (px * px + py * py) rr) as [L|L].
  - exists true. split; [reflexivity|]. split; [|reflexivity]. intros _. exists 0, 1. split; [lia|]. split; [lia|]. now apply closer_start.
  - dots 2147483647 I. destruct (Z.ltb_spec (px * dx + py * dy) 0) as [D|D].
    + exists false. split; [reflexivity|]. split; [discriminate|]. intros (n & m & Hm & Hn & C). exfalso. apply (closer_behind px py rr dx dy n m); try assumption. lia.
    + rewrite (chk64_ok' (px - dx)), (chk64_ok' (py - dy)) by (change (2 ^ 63) with 9223372036854775808; lia). cbn [bind].
      assert (U : (px - dx) * (px - dx) + (py - dy) * (py - dy) = px * px + py * py - 2 * (px * dx + py * dy) + (dx * dx + dy * dy)) by ring.
      destruct (dot64_ok 2147483647 (px - dx) (px - dx) (py - dy) (py - dy)) as [Eu Bu]; [lia|lia|lia|lia|lia|reflexivity|]. rewrite Eu. cbn [bind].
      destruct (Z.ltb_spec ((px - dx) * (px - dx) + (py - dy) * (py - dy)) rr) as [Lu|Lu].
      * exists true. split; [reflexivity|]. split; [|reflexivity]. intros _. exists 1, 1. split; [lia|]. split; [lia|]. unfold closer. rewrite !Z.mul_1_l, Z.mul_1_r. exact Lu.
      * dots 2147483647 I. destruct (Z.ltb_spec (dx * dx + dy * dy) (px * dx + py * dy)) as [G|G].
        -- exists false. split; [reflexivity|]. split; [discriminate|]. intros (n & m & Hm & Hn & C). exfalso. apply (closer_beyond px py rr dx dy n m); try assumption. rewrite U in Lu. exact Lu.
        -- rewrite chk64_ok' by (change (2 ^ 63) with 9223372036854775808; lia). cbn [bind].
           rewrite ab_less_cd_ok by (unfold in_s; change (2 ^ (64 - 1)) with 9223372036854775808; lia). eexists. split; [reflexivity|]. rewrite Z.ltb_lt. split.
           ++ intro C. apply closer_foot in C. destruct C as [D' C]. eexists _, _. split; [exact D'|]. split; [split; [exact D|exact G]|exact C].
           ++ intros (n & m & Hm & Hn & C). now apply (closer_line px py rr dx dy n m).
Qed.
Print Assumptions C41_segment.

Example C41_nonvacuous : in_range_rr_segment 5 3 10 10 0 = Ok true /\ in_range_rr_segment 12 3 10 10 0 = Ok false /\
  in_range_rr_ray 12 3 10 10 0 = Ok true /\ in_range_rr_ray (-3) 3 10 10 0 = Ok false /\ in_range_rr_line (-3) 3 10 10 0 = Ok true /\ in_range_rr_line (-3) 3 9 10 0 = Ok false.
Proof. repeat split. Qed.

(** C42: what in_range_rr_edge computes. It is the stated test except when the point is near the start of the edge (within
    the radius of the origin) but past its end. *)
Theorem C42_edge_partial : forall px py rr dx dy, - 2 ^ 31 < px < 2 ^ 31 -> - 2 ^ 31 < py < 2 ^ 31 -> - 2 ^ 31 < dx < 2 ^ 31 -> - 2 ^ 31 < dy < 2 ^ 31 -> 0 <= rr < 2 ^ 63 ->
  exists r, in_range_rr_edge px py rr dx dy = Ok r /\
    (r = true <-> (near_line px py rr dx dy /\ projects_on px py dx dy) \/ (px * px + py * py < rr /\ dx * dx + dy * dy < px * dx + py * dy)).
Proof.
  change (2 ^ 31) with 2147483648. change (2 ^ 63) with 9223372036854775808. intros px py rr dx dy H1 H2 H3 H4 Hr. unfold in_range_rr_edge, projects_on.
  destruct (dot64_ok 2147483647 px dx py dy) as [E B]; [lia|lia|lia|lia|lia|reflexivity|]. rewrite E. cbn [bind].
  assert (DD : 0 <= dx * dx + dy * dy) by nia.
  destruct (Z.ltb_spec (px * dx + py * dy) 0) as [D|D].
  - exists false. split; [reflexivity|]. split; [discriminate|]. lia.
  - destruct (dot64_ok 2147483647 px px py py) as [E1 B1]; [lia|lia|lia|lia|lia|reflexivity|]. rewrite E1. cbn [bind].
    destruct (Z.ltb_spec (px * px + py * py) rr) as [L|L].
    + exists true. split; [reflexivity|]. split; [|reflexivity]. intros _. destruct (Z_lt_ge_dec (dx * dx + dy * dy) (px * dx + py * dy)); [right; lia|left].
      split; [exists 0, 1; split; [lia|]; now apply closer_start|lia].
    + destruct (dot64_ok 2147483647 dx dx dy dy) as [E2 B2]; [lia|lia|lia|lia|lia|reflexivity|]. rewrite E2. cbn [bind].
      destruct (Z.ltb_spec (dx * dx + dy * dy) (px * dx + py * dy)) as [G|G].
      * exists false. split; [reflexivity|]. split; [discriminate|]. lia.
      * rewrite chk64_ok' by (change (2 ^ 63) with 9223372036854775808; lia). cbn [bind].
        rewrite ab_less_cd_ok by (unfold in_s; change (2 ^ (64 - 1)) with 9223372036854775808; lia). eexists. split; [reflexivity|]. rewrite Z.ltb_lt. split.
        -- intro C. left. apply closer_foot in C. destruct C as [D' C]. split; [eexists _, _; split; [exact D'|exact C]|lia].
        -- intros [[(n & m & Hm & C) _]|[? _]]; [|lia]. now apply (closer_line px py rr dx dy n m).
Qed.
Print Assumptions C42_edge_partial.

(** C42 is false of the code: (2, 0) is within sqrt(5) of the origin, but its projection is past the end (1, 0). *)
Theorem C42_edge_refuted : in_range_rr_edge 2 0 5 1 0 = Ok true /\ ~ projects_on 2 0 1 0.
Proof. split; [reflexivity|]. unfold projects_on. lia. Qed.
Print Assumptions C42_edge_refuted.

(** The ball tests are the range tests of the differences, for 31-bit coordinates. *)
Theorem C41_ball_hits_ray : forall p rr a b, within (2 ^ 30 - 1) p -> within (2 ^ 30 - 1) a -> within (2 ^ 30 - 1) b -> 0 <= rr < 2 ^ 63 ->
  exists r, ball_hits_ray p rr a b = Ok r /\ (r = true <-> near_ray (fst p - fst a) (snd p - snd a) rr (fst b - fst a) (snd b - snd a)).
Proof.
  intros p rr a b Hp Ha Hb Hr. unfold ball_hits_ray. rewrite (proj1 (sub2_ok p a Hp Ha)), (proj1 (sub2_ok b a Hb Ha)). cbn [bind]. unfold vsub. cbn [fst snd].
  unfold within in *. change (2 ^ 30 - 1) with 1073741823 in *. apply C41_ray; change (2 ^ 31) with 2147483648; lia.
Qed.
Print Assumptions C41_ball_hits_ray.

Theorem C42_ball_hits_edge_partial : forall p rr a b, within (2 ^ 30 - 1) p -> within (2 ^ 30 - 1) a -> within (2 ^ 30 - 1) b -> 0 <= rr < 2 ^ 63 ->
  let px := fst p - fst a in let py := snd p - snd a in let dx := fst b - fst a in let dy := snd b - snd a in
  exists r, ball_hits_edge p rr a b = Ok r /\
    (r = true <-> (near_line px py rr dx dy /\ projects_on px py dx dy) \/ (px * px + py * py < rr /\ dx * dx + dy * dy < px * dx + py * dy)).
Proof.
  intros p rr a b Hp Ha Hb Hr. cbv zeta. unfold ball_hits_edge. rewrite (proj1 (sub2_ok p a Hp Ha)), (proj1 (sub2_ok b a Hb Ha)). cbn [bind]. unfold vsub. cbn [fst snd].
  unfold within in *. change (2 ^ 30 - 1) with 1073741823 in *. apply C42_edge_partial; change (2 ^ 31) with 2147483648; lia.
Qed.
Print Assumptions C42_ball_hits_edge_partial.

(** ** C43 128-bit comparison *)

Theorem C43_ab_less_cd : forall a b c d, in_s 64 a -> in_s 64 b -> in_s 64 c -> in_s 64 d ->
  ab_less_cd a b c d = Ok (a * b <? c * d) /\ ab_less_cd_msvc a b c d = Ok (a * b <? c * d).
Proof.
  intros a b c d Ha Hb Hc Hd. split; [now apply ab_less_cd_ok|]. unfold ab_less_cd_msvc, mul128.
  rewrite s64 in *. p64.
  assert (B : - 85070591730234615865843651857942052864 <= c * d <= 85070591730234615865843651857942052864) by nia.
  pose proof (Z.div_mod (a * b) (2 ^ 64)) as D1. pose proof (Z.div_mod (c * d) (2 ^ 64)) as D2. pose proof (Z.mod_pos_bound (a * b) (2 ^ 64)) as M1. pose proof (Z.mod_pos_bound (c * d) (2 ^ 64)) as M2.
  change (2 ^ 64) with 18446744073709551616 in *.
  revert D1 D2 M1 M2 B. generalize (a * b) (c * d). intros x y. generalize (x / 18446744073709551616) (y / 18446744073709551616) (x mod 18446744073709551616) (y mod 18446744073709551616).
  intros xh yh xl yl D1 D2 M1 M2 B. destruct (Z.ltb_spec xl yl).
  - rewrite chk64_ok' by (change (2 ^ 63) with 9223372036854775808; lia). cbn [bind]. f_equal. destruct (Z.ltb_spec xh (yh + 1)), (Z.ltb_spec x y); try reflexivity; lia.
  - rewrite chk64_ok' by (change (2 ^ 63) with 9223372036854775808; lia). cbn [bind]. f_equal. destruct (Z.ltb_spec xh (yh + 0)), (Z.ltb_spec x y); try reflexivity; lia.
Qed.
Print Assumptions C43_ab_less_cd.

Example C43_nonvacuous : ab_less_cd_msvc (-9223372036854775808) (-9223372036854775808) 9223372036854775807 9223372036854775807 = Ok false /\
  ab_less_cd_msvc (-1) 1 0 0 = Ok true /\ ab_less_cd_msvc (2 ^ 40) (2 ^ 40) (2 ^ 40) (2 ^ 40 + 1) = Ok true.
Proof. repeat split. Qed.

(** ** C64 degrees *)

(** C64: for multiples of 45 degrees, that many eighths of a turn (a turn is 2^31), modulo the 2^32 of the result type. *)
Theorem C64_eighths : forall k, int32 (45 * k) -> degrees_to_angle (45 * k) = Ok (s32 (k * 2 ^ 28)).
Proof.
  unfold int32. change (2 ^ 31) with 2147483648. intros k Hk. unfold degrees_to_angle. rewrite chk64_ok' by (change (2 ^ 63) with 9223372036854775808; lia). cbn [bind].
  unfold div64. cbn [Z.eqb]. replace (45 * k * 268435456) with (k * 2 ^ 28 * 45) by (change (2 ^ 28) with 268435456; lia). rewrite Z.quot_mul by lia.
  rewrite chk64_ok' by (change (2 ^ 63) with 9223372036854775808; change (2 ^ 28) with 268435456; lia). reflexivity.
Qed.
Print Assumptions C64_eighths.

(** C64: never undefined; the exact angle d * 2^31 / 360 is rounded towards zero by less than one unit before the
    reduction to 32 bits. *)
Theorem C64_exact : forall d, int32 d -> exists q, degrees_to_angle d = Ok (s32 q) /\ Z.abs (360 * q - d * 2 ^ 31) < 360 /\ Z.abs (360 * q) <= Z.abs (d * 2 ^ 31).
Proof.
  unfold int32. change (2 ^ 31) with 2147483648. intros d Hd. unfold degrees_to_angle. rewrite chk64_ok' by (change (2 ^ 63) with 9223372036854775808; lia). cbn [bind].
  unfold div64. cbn [Z.eqb]. pose proof (Z.quot_rem' (d * 268435456) 45) as Q. pose proof (Z.rem_bound_abs (d * 268435456) 45 ltac:(lia)) as R.
  change (Z.abs 45) with 45 in R. rewrite chk64_ok'.
  - cbn [bind]. eexists. split; [reflexivity|]. split; [lia|].
    destruct (Z_lt_ge_dec d 0); [pose proof (Z.mul_quot_ge (d * 268435456) 45 ltac:(lia) ltac:(lia))|pose proof (Z.mul_quot_le (d * 268435456) 45 ltac:(lia) ltac:(lia))]; lia.
  - change (2 ^ 63) with 9223372036854775808. lia.
Qed.
Print Assumptions C64_exact.

Example C64_nonvacuous : degrees_to_angle 90 = Ok 0x20000000 /\ degrees_to_angle 360 = Ok (-0x80000000) /\ degrees_to_angle (-45) = Ok (-0x10000000) /\ degrees_to_angle 1 = Ok 5965232.
Proof. repeat split. Qed.

(** ** C44 intersect *)

Theorem C44_muldiv32 : forall bx by_ n d, int32 bx -> int32 by_ -> int32 n -> int32 d -> d <> 0 ->
  muldiv32 (bx, by_) n d = Ok (s32 (Z.quot (bx * n) d), s32 (Z.quot (by_ * n) d)).
Proof.
  intros bx by_ n d H1 H2 H3 H4 D. unfold muldiv32, div64. cbn [fst snd]. pose proof (prod_bound bx n H1 H3) as [B1 _]. pose proof (prod_bound by_ n H2 H3) as [B2 _].
  assert (Q : forall x, - 2 ^ 62 <= x <= 2 ^ 62 -> - 2 ^ 63 <= Z.quot x d < 2 ^ 63).
  { intros x Hx. pose proof (Z.quot_abs x d D) as A. assert (Z.abs x ÷ Z.abs d <= Z.abs x) by (apply Z.quot_le_upper_bound; nia). p64. lia. }
  apply Z.eqb_neq in D. rewrite D. rewrite (chk64_ok' (bx * n)) by (p64; lia). cbn [bind]. rewrite (chk64_ok' (Z.quot (bx * n) d)) by (apply Q; p64; lia). cbn [bind].
  rewrite (chk64_ok' (by_ * n)) by (p64; lia). cbn [bind]. rewrite (chk64_ok' (Z.quot (by_ * n) d)) by (apply Q; p64; lia). reflexivity.
Qed.
Print Assumptions C44_muldiv32.

Lemma sub2_small k a b : within k a -> within k b -> 2 * k < 2 ^ 31 -> sub2 a b = Ok (fst a - fst b, snd a - snd b).
Proof.
  unfold within, sub2. intros Ha Hb Hk. rewrite (chk32_ok (fst a - fst b)), (chk32_ok (snd a - snd b)) by (unfold in_s; change (2 ^ (32 - 1)) with (2 ^ 31); lia). reflexivity.
Qed.

(** C44: intersect reports parallel lines, and only those. *)
Theorem C44_parallel : forall p0 p1 q0 q1, within (2 ^ 30 - 1) p0 -> within (2 ^ 30 - 1) p1 -> within (2 ^ 30 - 1) q0 -> within (2 ^ 30 - 1) q1 ->
  let d := (fst p1 - fst p0) * (snd q1 - snd q0) - (snd p1 - snd p0) * (fst q1 - fst q0) in
  (d = 0 -> intersect p0 p1 q0 q1 = Ok (false, p0)) /\ (d <> 0 -> forall f r, intersect p0 p1 q0 q1 = Ok (f, r) -> f = true).
Proof.
  intros p0 p1 q0 q1 H1 H2 H3 H4 d. unfold intersect. rewrite !(sub2_small (2 ^ 30 - 1)) by (assumption || reflexivity). cbn [bind].
  unfold within in *. change (2 ^ 30 - 1) with 1073741823 in *.
  rewrite C37_crossx2 by (unfold int32; change (2 ^ 31) with 2147483648; lia). cbn [bind]. fold d. split.
  - intros ->. reflexivity.
  - intros D f r. apply Z.eqb_neq in D. rewrite D. intro E. repeat (apply bind_Ok_inv in E; destruct E as (? & _ & E)). congruence.
Qed.
Print Assumptions C44_parallel.

Lemma abs_mul_le a b c d : Z.abs a <= c -> Z.abs b <= d -> Z.abs (a * b) <= c * d.
Proof. intros H1 H2. rewrite Z.abs_mul. apply Z.mul_le_mono_nonneg; lia. Qed.

Lemma muldiv_core b t d d16 r rho n : Z.abs b <= 8388608 -> d = 65536 * d16 + r -> 0 <= r < 65536 -> n * 65536 = d16 * t + rho -> Z.abs rho < Z.abs d16 ->
  Z.abs t <= 8589934592 -> (d < 0 -> Z.abs t <= 4294967296) -> d16 <> 0 ->
  Z.abs (Z.shiftr (b * t) 32) <= 16777216 /\ Z.abs (Z.shiftr (b * t) 32 * d - b * n) <= 2 * Z.abs d + 131072 * Z.abs b.
Proof.
  intros Hb Dd Dm Q Rb Bt Bt' N0. rewrite Z.shiftr_div_pow2 by lia. change (2 ^ 32) with 4294967296.
  pose proof (Z.div_mod (b * t) 4294967296 ltac:(lia)) as Xd. pose proof (Z.mod_pos_bound (b * t) 4294967296 ltac:(lia)) as Xm.
  pose proof (abs_mul_le b t _ _ Hb Bt) as Bb.
  remember (b * t / 4294967296) as x eqn:Ex. remember (b * t mod 4294967296) as f eqn:Ef. clear Ex Ef.
  split; [clear - Bb Xd Xm; lia|].
  assert (I : 4294967296 * (x * d - b * n) = b * (t * r - 65536 * rho) - d * f).
  { replace (4294967296 * (x * d - b * n)) with (d * (4294967296 * x) - b * (65536 * (n * 65536))) by ring. rewrite Q.
    replace (4294967296 * x) with (b * t - f) by (clear - Xd; lia). replace r with (d - 65536 * d16) by (clear - Dd; lia). ring. }
  assert (A3 : Z.abs (d * f) <= Z.abs d * 4294967296) by (apply abs_mul_le; [apply Z.le_refl|clear - Xm; lia]).
  assert (C : forall T, Z.abs t <= T -> 4294967296 * Z.abs (x * d - b * n) <= Z.abs b * (T * 65536) + 65536 * (Z.abs b * Z.abs d16) + Z.abs d * 4294967296).
  { intros T HT. assert (A0 : Z.abs (t * r) <= T * 65536) by (apply abs_mul_le; [assumption|clear - Dm; lia]).
    assert (A1 : Z.abs (t * r - 65536 * rho) <= T * 65536 + 65536 * Z.abs d16) by (clear - A0 Rb; lia).
    pose proof (abs_mul_le b _ (Z.abs b) _ (Z.le_refl _) A1) as A2.
    rewrite Z.mul_add_distr_l in A2. replace (Z.abs b * (65536 * Z.abs d16)) with (65536 * (Z.abs b * Z.abs d16)) in A2 by ring.
    replace (4294967296 * Z.abs (x * d - b * n)) with (Z.abs (4294967296 * (x * d - b * n))) by (now rewrite Z.abs_mul). rewrite I.
    clear - A2 A3. lia. }
  destruct (Z_lt_ge_dec d 0) as [Neg|Pos].
  - specialize (C _ (Bt' Neg)). assert (A4 : 65536 * Z.abs d16 <= Z.abs d + 65536) by (clear - Dd Dm; lia).
    assert (A5 : Z.abs b * (65536 * Z.abs d16) <= Z.abs b * (Z.abs d + 65536)) by (apply Z.mul_le_mono_nonneg_l; [apply Z.abs_nonneg|assumption]).
    assert (A6 : Z.abs b * Z.abs d <= 8388608 * Z.abs d) by (apply Z.mul_le_mono_nonneg_r; [apply Z.abs_nonneg|assumption]).
    clear - C A5 A6. lia.
  - specialize (C _ Bt). assert (A4 : 65536 * Z.abs d16 <= Z.abs d) by (clear - Dd Dm Pos; lia).
    assert (A5 : Z.abs b * (65536 * Z.abs d16) <= Z.abs b * Z.abs d) by (apply Z.mul_le_mono_nonneg_l; [apply Z.abs_nonneg|assumption]).
    assert (A6 : Z.abs b * Z.abs d <= 8388608 * Z.abs d) by (apply Z.mul_le_mono_nonneg_r; [apply Z.abs_nonneg|assumption]).
    clear - C A5 A6. lia.
Qed.

Lemma muldiv64_close bx by_ n d : Z.abs bx <= 2 ^ 23 -> Z.abs by_ <= 2 ^ 23 -> Z.abs n < 2 ^ 47 -> Z.abs n <= Z.abs d -> Z.abs d < 2 ^ 47 -> Z.shiftr d 16 <> 0 ->
  exists x y, muldiv64 (bx, by_) n d = Ok (x, y) /\ Z.abs x <= 2 ^ 24 /\ Z.abs y <= 2 ^ 24 /\
    Z.abs (x * d - bx * n) <= 2 * Z.abs d + 2 ^ 17 * Z.abs bx /\ Z.abs (y * d - by_ * n) <= 2 * Z.abs d + 2 ^ 17 * Z.abs by_.
Proof.
  intros Hx Hy Hn Hnd Hd N0. unfold muldiv64. apply Z.eqb_neq in N0. rewrite N0. apply Z.eqb_neq in N0. rewrite Z.shiftr_div_pow2 in * by lia.
  change (2 ^ 23) with 8388608 in *. change (2 ^ 24) with 16777216. change (2 ^ 47) with 140737488355328 in *. change (2 ^ 16) with 65536 in *. change (2 ^ 17) with 131072.
  pose proof (Z.div_mod d 65536 ltac:(lia)) as Dd. pose proof (Z.mod_pos_bound d 65536 ltac:(lia)) as Dm.
  remember (d / 65536) as d16 eqn:E16. remember (d mod 65536) as r eqn:Er. clear E16 Er.
  rewrite (chk64_ok' (n * 65536)) by (change (2 ^ 63) with 9223372036854775808; lia). cbn [bind]. unfold div64. assert (Ez : (d16 =? 0) = false) by (now apply Z.eqb_neq). rewrite Ez.
  pose proof (Z.quot_rem' (n * 65536) d16) as Q. pose proof (Z.rem_bound_abs (n * 65536) d16 N0) as Rb.
  remember (Z.quot (n * 65536) d16) as t eqn:Et. remember (Z.rem (n * 65536) d16) as rho eqn:Erho.
  assert (Bt : Z.abs t <= 8589934592).
  { subst t. rewrite <- Z.quot_abs by assumption. apply Z.quot_le_upper_bound; [lia|]. rewrite Z.abs_mul. change (Z.abs 65536) with 65536. assert (Z.abs d <= 131072 * Z.abs d16) by lia. lia. }
  assert (Bt' : d < 0 -> Z.abs t <= 4294967296).
  { intro Neg. subst t. rewrite <- Z.quot_abs by assumption. apply Z.quot_le_upper_bound; [lia|]. rewrite Z.abs_mul. change (Z.abs 65536) with 65536. assert (Z.abs d <= 65536 * Z.abs d16) by lia. lia. }
  clear Et Erho. rewrite (chk64_ok' t) by (change (2 ^ 63) with 9223372036854775808; lia). cbn [bind].
  assert (Bp : forall b, Z.abs b <= 8388608 -> Z.abs (b * t) <= 72057594037927936) by (intros b Hb; rewrite Z.abs_mul; nia).
  cbn [fst snd]. pose proof (Bp bx Hx). pose proof (Bp by_ Hy).
  rewrite (chk64_ok' (bx * t)) by (change (2 ^ 63) with 9223372036854775808; lia). cbn [bind]. rewrite (chk64_ok' (by_ * t)) by (change (2 ^ 63) with 9223372036854775808; lia). cbn [bind].
  assert (Core : forall b, Z.abs b <= 8388608 -> Z.abs (Z.shiftr (b * t) 32) <= 16777216 /\ Z.abs (Z.shiftr (b * t) 32 * d - b * n) <= 2 * Z.abs d + 131072 * Z.abs b).
  { intros b Hb. apply (muldiv_core b t d d16 r rho n); assumption. }
  destruct (Core bx Hx) as [X1 X2]. destruct (Core by_ Hy) as [Y1 Y2].
  assert (W : forall v, Z.abs v <= 16777216 -> s32 v = v) by (intros v Hv; clear - Hv; apply swrap_id; [reflexivity|]; unfold in_s; change (2 ^ (32 - 1)) with 2147483648; lia).
  rewrite (W _ X1), (W _ Y1). eexists _, _. split; [reflexivity|]. split; [assumption|]. split; [assumption|]. split; assumption.
Qed.

(** C44, the accuracy that does hold: for 23-bit coordinates, when the intersection lies on the segment p0 p1 and the
    cross product d of the directions is not in [0, 2^16), both coordinates of the result are within 2 + 2^17 |p| / |d| of the
    true intersection p0 + p * t / d. The full statement (within rounding) is false, see below. *)
Theorem C44_accuracy_partial : forall p0 p1 q0 q1, within (2 ^ 22 - 1) p0 -> within (2 ^ 22 - 1) p1 -> within (2 ^ 22 - 1) q0 -> within (2 ^ 22 - 1) q1 ->
  let px := fst p1 - fst p0 in let py := snd p1 - snd p0 in let qx := fst q1 - fst q0 in let qy := snd q1 - snd q0 in
  let d := px * qy - py * qx in
  let t := (fst q0 - fst p0) * qy - (snd q0 - snd p0) * qx in
  ~ (0 <= d < 2 ^ 16) -> Z.abs t <= Z.abs d ->
  exists x y, intersect p0 p1 q0 q1 = Ok (true, (x, y)) /\
    Z.abs ((x - fst p0) * d - px * t) <= 2 * Z.abs d + 2 ^ 17 * Z.abs px /\ Z.abs ((y - snd p0) * d - py * t) <= 2 * Z.abs d + 2 ^ 17 * Z.abs py.
Proof.
  intros p0 p1 q0 q1 H1 H2 H3 H4 px py qx qy d t Hd Ht. unfold intersect. rewrite !(sub2_small (2 ^ 22 - 1)) by (assumption || reflexivity). cbn [bind].
  fold px py qx qy. unfold within in *. change (2 ^ 22 - 1) with 4194303 in *.
  rewrite C37_crossx2 by (unfold int32; change (2 ^ 31) with 2147483648; lia). cbn [bind]. fold d.
  assert (Ed : (d =? 0) = false) by (apply Z.eqb_neq; intro; apply Hd; change (2 ^ 16) with 65536; lia). rewrite Ed.
  rewrite C37_crossx2 by (unfold int32; change (2 ^ 31) with 2147483648; lia). cbn [bind]. fold t.
  assert (Bd : Z.abs d < 140737488355328).
  { unfold d. assert (Z.abs (px * qy) <= 8388606 * 8388606) by (rewrite Z.abs_mul; nia). assert (Z.abs (py * qx) <= 8388606 * 8388606) by (rewrite Z.abs_mul; nia). lia. }
  destruct (muldiv64_close px py t d) as (x & y & E & Bx & By & Ax & Ay).
  - change (2 ^ 23) with 8388608. lia.
  - change (2 ^ 23) with 8388608. lia.
  - change (2 ^ 47) with 140737488355328. lia.
  - exact Ht.
  - exact Bd.
  - rewrite Z.shiftr_div_pow2 by lia. change (2 ^ 16) with 65536 in *. intro E. pose proof (Z.div_mod d 65536 ltac:(lia)). pose proof (Z.mod_pos_bound d 65536 ltac:(lia)). lia.
  - rewrite E. cbn [bind]. change (2 ^ 24) with 16777216 in *. unfold add2. cbn [fst snd].
    rewrite (chk32_ok (fst p0 + x)), (chk32_ok (snd p0 + y)) by (unfold in_s; change (2 ^ (32 - 1)) with 2147483648; lia). cbn [bind].
    exists (fst p0 + x), (snd p0 + y). split; [reflexivity|]. replace (fst p0 + x - fst p0) with x by lia. replace (snd p0 + y - snd p0) with y by lia. split; assumption.
Qed.
Print Assumptions C44_accuracy_partial.

(** C44 is false of the code for short segments: the diagonals of a square of side 10 meet in (5, 5), the code says (0, 0);
    drawn the other way the end point (10, 10). And coordinates of 26 bits overflow in n << 16. *)
Theorem C44_refuted : intersect (0, 0) (10, 10) (0, 10) (10, 0) = Ok (true, (0, 0)) /\ intersect (0, 0) (10, 10) (10, 0) (0, 10) = Ok (true, (10, 10)) /\
  intersect (0, 0) (2 ^ 25, 0) (2 ^ 24, - 2 ^ 24) (2 ^ 24, 2 ^ 24) = UB.
Proof. vm_compute. auto. Qed.
Print Assumptions C44_refuted.

Example C44_nonvacuous : intersect (0, 0) (2000000, 2000000) (0, 2000000) (2000000, 0) = Ok (true, (999999, 999999)).
Proof. reflexivity. Qed.
