(** The empty triangulation. *)
From Verif Require Import Base Vec_Model Math_Model Vec_Spec Cdt_Model Cdt_Geom Cdt_Mesh Cdt_Flip.
Local Open Scope Z_scope.

(** What reset leaves: the values of the first 32 nodes. *)
Definition fresh (s0 s : mesh) : Prop :=
  size s = 4 /\
  (forall n, 0 <= n < 24 -> n mod 4 <> 3 -> tw s n = 0 /\ co s n = 1 /\ pt s n = 0) /\
  (tw s 24 = 28 /\ tw s 25 = 0 /\ tw s 26 = 0 /\ tw s 28 = 24 /\ tw s 29 = 0 /\ tw s 30 = 0) /\
  (co s 24 = 0 /\ co s 25 = 1 /\ co s 26 = 1 /\ co s 28 = 0 /\ co s 29 = 1 /\ co s 30 = 1) /\
  (pt s 24 = 0 /\ pt s 25 = 2 /\ pt s 26 = 1 /\ pt s 28 = 3 /\ pt s 29 = 1 /\ pt s 30 = 2) /\
  V s 0 = (lo, lo) /\ V s 1 = (hi, lo) /\ V s 2 = (lo, hi) /\ V s 3 = (hi, hi) /\
  (forall f, 0 <= f < 8 -> fi s f = 0).

Section Reset.
  Context (limit : Z).

  Ltac byput := cbn [pt tw co fi vx vy size]; unfold put; repeat (match goal with |- context [?a =? ?b] => rewrite (proj2 (Z.eqb_neq a b)) by lia end); reflexivity.

  Lemma reset_ok s0 : 4 <= limit <= 8192 -> exists s, reset limit s0 = Ok s /\ fresh s0 s.
  Proof.
    intro Hl.
    assert (En : forall k, 0 <= k < 32 -> (k mod 4 =? 3) = false -> edge_node limit k = true).
    { intros k Hk Mk. unfold edge_node. rewrite Mk. apply andb_true_iff. split; [|reflexivity]. apply andb_true_iff. split; [apply Z.leb_le|apply Z.ltb_lt]; lia. }
    assert (Fn : forall f, 0 <= f < 8 -> face_index limit f = true) by (intros f Hf; unfold face_index; apply andb_true_iff; split; [apply Z.leb_le|apply Z.ltb_lt]; lia).
    assert (Vn : forall v, 0 <= v < 4 -> vert_index limit v = true) by (intros f Hf; unfold vert_index; apply andb_true_iff; split; [apply Z.leb_le|apply Z.ltb_lt]; lia).
    assert (Se : forall s k c p e, 0 <= k < 32 -> (k mod 4 =? 3) = false -> set_edge limit s k c p e =
      Ok {| size := size s; pt := put (pt s) k (p mod 2 ^ 13); tw := put (tw s) k (u16 e); co := put (co s) k (c mod 2 ^ 3); fi := fi s; vx := vx s; vy := vy s |}).
    { intros s k c p e Hk Mk. unfold set_edge, set_c, set_p, set_e. rewrite (En k Hk Mk). reflexivity. }
    unfold reset, reset_face, set_fi, set_v.
    repeat (first [rewrite Se by (lia || reflexivity) | rewrite Fn by lia | rewrite Vn by lia]; cbn [bind set_size pt tw co fi vx vy size]).
    eexists. split; [reflexivity|]. unfold fresh. cbn [size]. split; [reflexivity|]. split.
    { intros n Hn Mn. cbn [tw co pt]. assert (Cs : n = 0 \/ n = 1 \/ n = 2 \/ n = 4 \/ n = 5 \/ n = 6 \/ n = 8 \/ n = 9 \/ n = 10 \/ n = 12 \/ n = 13 \/ n = 14 \/ n = 16 \/ n = 17 \/ n = 18 \/ n = 20 \/ n = 21 \/ n = 22) by (Z.to_euclidean_division_equations; lia).
      repeat destruct Cs as [-> |Cs]; try subst n; cbn; auto. }
    split; [cbn; auto 10|]. split; [cbn; auto 10|]. split; [cbn; auto 10|]. do 4 (split; [reflexivity|]).
    intros f Hf. assert (f = 0 \/ f = 1 \/ f = 2 \/ f = 3 \/ f = 4 \/ f = 5 \/ f = 6 \/ f = 7) as Cs by lia. repeat destruct Cs as [-> |Cs]; try subst f; reflexivity.
  Qed.

  Ltac nn := change (nxt 24) with 25; change (prv 24) with 26; change (nxt 25) with 26; change (prv 25) with 24; change (nxt 26) with 24; change (prv 26) with 25; change (nxt 28) with 29; change (prv 28) with 30; change (nxt 29) with 30; change (prv 29) with 28; change (nxt 30) with 28; change (prv 30) with 29.
  Lemma fresh_good s0 s : 4 <= limit <= 8192 -> fresh s0 s -> good limit s.
  Proof.
    intros Hl (Es & F0 & (T1 & T2 & T3 & T4 & T5 & T6) & (C1 & C2 & C3 & C4 & C5 & C6) & (P1 & P2 & P3 & P4 & P5 & P6) & V0 & V1 & V2 & V3 & _).
    assert (Cs : forall n, node s n -> n = 24 \/ n = 25 \/ n = 26 \/ n = 28 \/ n = 29 \/ n = 30).
    { intros n [Hn Mn]. rewrite Es in Hn. Z.to_euclidean_division_equations; lia. }
    assert (Nd : forall n, n = 24 \/ n = 25 \/ n = 26 \/ n = 28 \/ n = 29 \/ n = 30 -> node s n).
    { intros n Hn. split; [lia|]. repeat destruct Hn as [-> |Hn]; try subst n; cbn; lia. }
    constructor.
    - lia.
    - lia.
    - intros n Hn. apply Cs in Hn. rewrite Es. repeat destruct Hn as [-> |Hn]; try subst n; rewrite ?P1, ?P2, ?P3, ?P4, ?P5, ?P6; lia.
    - intros n Hn. apply Cs in Hn. repeat destruct Hn as [-> |Hn]; try subst n; auto.
    - intros n Hn. apply Cs in Hn. destruct Hn as [-> |[-> |[-> |[-> |[-> | ->]]]]].
      + right. rewrite T1. unfold twins, ea, eb. nn. split; [apply Nd; tauto|]. rewrite T4, C1, C4. split; [reflexivity|]. split; [reflexivity|]. split; congruence.
      + left; auto.
      + left; auto.
      + right. rewrite T4. unfold twins, ea, eb. nn. split; [apply Nd; tauto|]. rewrite T1, C1, C4. split; [reflexivity|]. split; [reflexivity|]. split; congruence.
      + left; auto.
      + left; auto.
    - intros n Hn. apply Cs in Hn. unfold P. destruct Hn as [-> |[-> |[-> |[-> |[-> | ->]]]]]; nn; rewrite ?P1, ?P2, ?P3, ?P4, ?P5, ?P6, ?V0, ?V1, ?V2, ?V3; reflexivity.
    - intros v Hv. rewrite Es in Hv. assert (v = 0 \/ v = 1 \/ v = 2 \/ v = 3) as [-> |[-> |[-> | ->]]] by lia; rewrite ?V0, ?V1, ?V2, ?V3; unfold inbox, lo, hi; change (2 ^ 15) with 32768; cbn [fst snd]; lia.
    - split; [assumption|]. split; [assumption|]. split; assumption.
    - split; [|split].
      + intros u w H. cbn [sides4 In] in H. destruct H as [H|[H|[H|[H|[]]]]]; inversion H; subst; [exists 26|exists 29|exists 30|exists 25]; unfold ea, eb; nn; (split; [apply Nd; tauto|]); auto.
      + intros n Hn Hz. apply Cs in Hn. destruct Hn as [-> |[-> |[-> |[-> |[-> | ->]]]]]; unfold ea, eb; nn; rewrite ?P1, ?P2, ?P3, ?P4, ?P5, ?P6; cbn [sides4 In]; try tauto; exfalso; congruence.
      + intros n m Hn Hm Hz Hw. apply Cs in Hn, Hm. unfold ea.
        destruct Hn as [-> |[-> |[-> |[-> |[-> | ->]]]]]; try (exfalso; congruence); destruct Hm as [-> |[-> |[-> |[-> |[-> | ->]]]]]; try (exfalso; congruence); try reflexivity;
          nn; rewrite ?P1, ?P2, ?P3, ?P4, ?P5, ?P6; intro E; discriminate E.
    - intros n Hn. apply F0; [lia|]. rewrite Z.mod_small by lia. lia.
  Qed.
End Reset.
