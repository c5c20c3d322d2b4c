(** The faces cover the whole square, rim included, and the exhaustive search finds a face of every point of it. *)
From Verif Require Import Base Vec_Model Math_Model Vec_Spec Vec_Props Math_Spec Math_Proofs Cdt_Model Cdt_Geom Cdt_Mesh Cdt_Flip Cdt_Circle Cdt_Insert Cdt_OnEdge Cdt_Walk Cdt_Spec Cdt_Tile Cdt_Planar Cdt_Search_Model.
Local Open Scope Z_scope.

Section Cover.
  Context (limit : Z).

  (** A point a little towards the middle of the square from p. *)
  Definition unit_in (c : Z) : Z := if c <? 0 then 1 else - 1.
  Definition inward (k : Z) (p : point) : point := (k * fst p + unit_in (fst p), k * snd p + unit_in (snd p)).
  Lemma unit_pm c : - 1 <= unit_in c <= 1.
  Proof. unfold unit_in. destruct (c <? 0); lia. Qed.
  Lemma line_inward k a b p : line k a b (inward k p) = k * orient a b p + ((fst b - fst a) * unit_in (snd p) - (snd b - snd a) * unit_in (fst p)).
  Proof. unfold line, inward, orient. cbn [fst snd]. ring. Qed.
  Lemma line_small a b p : inbox a -> inbox b -> - 131070 <= (fst b - fst a) * unit_in (snd p) - (snd b - snd a) * unit_in (fst p) <= 131070.
  Proof.
    intros [A1 A2] [B1 B2]. unfold lo, hi in *. change (2 ^ 15) with 32768 in *. pose proof (unit_pm (fst p)) as U1. pose proof (unit_pm (snd p)) as U2.
    assert (- 65535 <= (fst b - fst a) * unit_in (snd p) <= 65535) by nia. assert (- 65535 <= (snd b - snd a) * unit_in (fst p) <= 65535) by nia. lia.
  Qed.
  Lemma line_back a b p : inbox a -> inbox b -> line 1000000 a b (inward 1000000 p) <= 0 -> orient a b p <= 0.
  Proof. intros Ha Hb. rewrite line_inward. pose proof (line_small a b p Ha Hb). lia. Qed.

  Lemma square_in p : inbox p -> forallb (fun e => orient (fst e) (snd e) (query (inward 1000000 p)) <? 0) (edges (map (vbig 1000000) Cdt_Spec.square)) = true.
  Proof.
    intro Hp. apply forallb_forall. intros e He. rewrite edges_big in He. apply in_map_iff in He. destruct He as ([a b] & <- & Hin). unfold ebig. cbn [fst snd]. apply Z.ltb_lt.
    pose proof square_box as F. rewrite Forall_forall in F.
    assert (Hab : In a Cdt_Spec.square /\ In b Cdt_Spec.square /\ line 1000000 a b (inward 1000000 p) < 0).
    { destruct Hp as [H1 H2]. unfold lo, hi in *. change (2 ^ 15) with 32768 in *. cbn in Hin. unfold low, high in Hin. rewrite line_inward. unfold orient, unit_in.
      destruct (Z.ltb_spec (fst p) 0), (Z.ltb_spec (snd p) 0); cbn [In Cdt_Spec.square]; unfold low, high; (destruct Hin as [E|[E|[E|[E|[]]]]]; injection E as <- <-; cbn [fst snd]; (split; [tauto|]); (split; [tauto|]); lia). }
    destruct Hab as (Ha & Hb & L). apply (orient_line 1000000 a b (inward 1000000 p)); [lia|now apply F|now apply F|assumption].
  Qed.

  Theorem cover s p : good limit s -> inbox p -> exists f, 6 <= f < 2 * size s /\ closed_face s p (4 * f).
  Proof.
    intros G Hp. pose proof (count_big 1000000 (inward 1000000 p) (triangles s) ltac:(lia) (good_box_tri limit s G) (good_cw_tri limit s G)) as C.
    rewrite (sides_big 1000000 _ _ _ (tiles limit s G)), (square_total 1000000 _ ltac:(lia)), (square_in p Hp) in C.
    destruct (filter (contains 1000000 (inward 1000000 p)) (triangles s)) as [|t l] eqn:E; [cbn in C; lia|]. clear C.
    assert (Ht : In t (filter (contains 1000000 (inward 1000000 p)) (triangles s))) by (rewrite E; now left). apply filter_In in Ht. destruct Ht as [Ht C]. clear E l.
    apply in_map_iff in Ht. destruct Ht as (f & <- & Hf). assert (Hf' : 6 <= f < 2 * size s) by (apply faces_of_in; [pose proof (g_size _ _ G); lia|exact Hf]). clear Hf. rename Hf' into Hf.
    exists f. split; [assumption|]. pose proof (face_node s f Hf) as Hn.
    pose proof (fn_box limit s _ G (or_introl Hn)) as B0. pose proof (fn_box limit s _ G (or_introl (nxt_node s _ Hn))) as B1. pose proof (fn_box limit s _ G (or_introl (prv_node s _ Hn))) as B2.
    assert (T : face_triangle s f = (P s (4 * f), P s (nxt (4 * f)), P s (prv (4 * f)))) by (unfold face_triangle, corner; destruct (four f) as (-> & -> & _); change (0 mod 3) with 0; rewrite Z.add_0_r; reflexivity).
    rewrite T in C. unfold contains in C. rewrite !andb_true_iff, !Z.ltb_lt in C. destruct C as ((C1 & C2) & C3).
    assert (K : forall a b, inbox a -> inbox b -> orient (vbig 1000000 a) (vbig 1000000 b) (query (inward 1000000 p)) < 0 -> orient p a b <= 0).
    { intros a b Ha Hb H. rewrite <- orient_rot. apply line_back; [assumption..|]. now apply (orient_line 1000000 a b (inward 1000000 p) ltac:(lia) Ha Hb). }
    unfold closed_face. split; [|split]; apply K; assumption.
  Qed.

  Lemma search_from_ok k : forall s p, good limit s -> near p -> (Z.of_nat k <= 2 * size s - 6) ->
    exists n, search_from limit k s (fst p) (snd p) = Ok n /\
      ((n = 0 /\ forall f, 6 <= f < Z.of_nat k + 6 -> ~ closed_face s p (4 * f)) \/ (node s n /\ closed_face s p n)).
  Proof.
    induction k as [|k IH]; intros s p G Np Hk; [exists 0; split; [reflexivity|]; left; split; [reflexivity|intros; lia]|].
    cbn [search_from]. set (f := Z.of_nat k + 6). assert (Hf : 6 <= f < 2 * size s) by (unfold f; lia). pose proof (face_node s f Hf) as Hn. destruct (four f) as (E1 & E2 & _).
    assert (F0 : face_or_nil s (4 * f)) by now left. assert (F1 : face_or_nil s (4 * f + 1)) by (left; rewrite <- E1; now apply nxt_node). assert (F2 : face_or_nil s (4 * f + 2)) by (left; rewrite <- E2; now apply prv_node).
    rewrite (rel_ok limit s p _ G Np F0), (rel_ok limit s p _ G Np F1), (rel_ok limit s p _ G Np F2). cbn [bind].
    rewrite (in_ok limit s p _ _ G Np F0 F1). cbn [bind].
    destruct (IH s p G Np ltac:(lia)) as (n & En & Hn'). rewrite En.
    assert (No : ~ closed_face s p (4 * f) -> exists n0, Ok n = Ok n0 /\ ((n0 = 0 /\ forall g, 6 <= g < Z.of_nat (S k) + 6 -> ~ closed_face s p (4 * g)) \/ (node s n0 /\ closed_face s p n0))).
    { intro N. exists n. split; [reflexivity|]. destruct Hn' as [[H1 H2]|H]; [left|now right]. split; [assumption|]. intros g Hg. destruct (Z.eq_dec g f) as [->|]; [assumption|]. apply H2. unfold f in *. lia. }
    unfold closed_face in No. rewrite E1, E2 in No.
    destruct (Z.leb_spec (orient p (P s (4 * f)) (P s (4 * f + 1))) 0) as [L1|L1]; cbn [bind]; [|apply No; lia].
    rewrite (in_ok limit s p _ _ G Np F1 F2). cbn [bind]. destruct (Z.leb_spec (orient p (P s (4 * f + 1)) (P s (4 * f + 2))) 0) as [L2|L2]; cbn [bind]; [|apply No; lia].
    rewrite (in_ok limit s p _ _ G Np F2 F0). cbn [bind]. destruct (Z.leb_spec (orient p (P s (4 * f + 2)) (P s (4 * f))) 0) as [L3|L3]; [|apply No; lia].
    exists (f * 4). split; [reflexivity|]. right. replace (f * 4) with (4 * f) by lia. split; [assumption|]. unfold closed_face. rewrite E1, E2. auto.
  Qed.
  Lemma search_ok s p : good limit s -> near p -> exists n, search limit s (fst p) (snd p) = Ok n /\ ((n = 0 /\ ~ inbox p) \/ (node s n /\ closed_face s p n)).
  Proof.
    intros G Np. pose proof (g_size _ _ G) as Gs. destruct (search_from_ok (Z.to_nat (size s * 2 - 6)) s p G Np ltac:(lia)) as (n & E & H). exists n. split; [exact E|].
    destruct H as [[Hn H]|H]; [left|now right]. split; [assumption|]. intro Hp. destruct (cover s p G Hp) as (f & Hf & C). apply (H f); [lia|assumption].
  Qed.
End Cover.
