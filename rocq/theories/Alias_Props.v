(** What happens when an argument refers to what the function writes (C96, C97). *)
From Coq Require Import Arith.
From Verif Require Import Base Vec_Model Math_Model Dictionary_Model Alias_Model.
Local Open Scope Z_scope.

(** ** C96 intersect *)

Lemma put_same m r v : put m r v r = v.
Proof. unfold put. now rewrite Nat.eqb_refl. Qed.
Lemma put_other m r v k : k <> r -> put m r v k = m k.
Proof. intro H. unfold put. apply Nat.eqb_neq in H. now rewrite H. Qed.

(** The result may be the object that holds p0, but none of the others: then what is written is what intersect computes from the
    values, and no other object changes. *)
Theorem C96_intersect_partial : forall m p0 p1 q0 q1 r, r <> p1 -> r <> q0 -> r <> q1 ->
  match intersect (m p0) (m p1) (m q0) (m q1) with
  | Ok (f, v) => exists m', intersect_r m p0 p1 q0 q1 r = Ok (f, m') /\ m' r = v /\ forall k, k <> r -> m' k = m k
  | UB => intersect_r m p0 p1 q0 q1 r = UB
  | Timeout => False
  end.
Proof.
  intros m p0 p1 q0 q1 r H1 H2 H3. unfold intersect_r. cbv zeta.
  assert (E0 : put m r (m p0) p0 = m p0) by (destruct (Nat.eq_dec p0 r) as [<-|N]; [apply put_same|now apply put_other]).
  rewrite E0, !(put_other m r (m p0)) by congruence. unfold intersect.
  assert (S : forall a b, sub2 a b <> Timeout) by (intros a b; unfold sub2, chk32; destruct (in_sb 32 _); cbn [bind]; [destruct (in_sb 32 _); discriminate|discriminate]).
  assert (A : forall a b, add2 a b <> Timeout) by (intros a b; unfold add2, chk32; destruct (in_sb 32 _); cbn [bind]; [destruct (in_sb 32 _); discriminate|discriminate]).
  assert (C : forall a b, crossx2 a b <> Timeout) by (intros a b; unfold crossx2, chk64; repeat (destruct (in_sb 64 _); cbn [bind]; try discriminate)).
  assert (M : forall a b c, muldiv64 a b c <> Timeout).
  { intros a b c. unfold muldiv64. destruct (Z.shiftr c 16 =? 0) eqn:Z0; [discriminate|]. unfold div64. rewrite Z0. unfold chk64. repeat (destruct (in_sb 64 _); cbn [bind]; try discriminate). }
  specialize (S (m p1) (m p0)) as S1. specialize (S (m q1) (m q0)) as S2. specialize (S (m q0) (m p0)) as S3.
  destruct (sub2 (m p1) (m p0)) as [p| |]; cbn [bind]; [|reflexivity|congruence].
  destruct (sub2 (m q1) (m q0)) as [q| |]; cbn [bind]; [|reflexivity|congruence].
  pose proof (C p q) as C1. destruct (crossx2 p q) as [d| |]; cbn [bind]; [|reflexivity|congruence].
  destruct (d =? 0).
  { eexists. split; [reflexivity|]. split; [apply put_same|]. intros k Hk. now apply put_other. }
  destruct (sub2 (m q0) (m p0)) as [s| |]; cbn [bind]; [|reflexivity|congruence].
  pose proof (C s q) as C2. destruct (crossx2 s q) as [t| |]; cbn [bind]; [|reflexivity|congruence].
  pose proof (M p t d) as M1. destruct (muldiv64 p t d) as [v| |]; cbn [bind]; [|reflexivity|congruence].
  pose proof (A (m p0) v) as A1. destruct (add2 (m p0) v) as [w| |]; cbn [bind]; [|reflexivity|congruence].
  eexists. split; [reflexivity|]. split; [apply put_same|]. intros k Hk. now rewrite !put_other.
Qed.
Print Assumptions C96_intersect_partial.

Lemma sub2_value a b v : sub2 a b = Ok v -> v = (fst a - fst b, snd a - snd b).
Proof.
  unfold sub2, chk32. destruct (in_sb 32 _); cbn [bind]; [|discriminate]. destruct (in_sb 32 _); cbn [bind]; [|discriminate]. congruence.
Qed.
Lemma add2_value a b v : add2 a b = Ok v -> v = (fst a + fst b, snd a + snd b).
Proof.
  unfold add2, chk32. destruct (in_sb 32 _); cbn [bind]; [|discriminate]. destruct (in_sb 32 _); cbn [bind]; [|discriminate]. congruence.
Qed.
Lemma crossx2_value a b v : crossx2 a b = Ok v -> v = fst a * snd b - snd a * fst b.
Proof.
  unfold crossx2, chk64. do 3 (destruct (in_sb 64 _); cbn [bind]; [|discriminate]). congruence.
Qed.
Lemma muldiv64_zero b d v : muldiv64 b 0 d = Ok v -> v = b \/ v = (0, 0).
Proof.
  unfold muldiv64. destruct (Z.shiftr d 16 =? 0) eqn:E; [left; congruence|]. unfold div64. rewrite E. apply Z.eqb_neq in E.
  cbn [Z.mul]. rewrite (chk64_ok 0) by (unfold in_s; lia). cbn [bind]. rewrite Z.quot_0_l by assumption. rewrite (chk64_ok 0) by (unfold in_s; lia). cbn [bind].
  rewrite !Z.mul_0_r, (chk64_ok 0) by (unfold in_s; lia). cbn [bind]. intro H. right. injection H as <-. reflexivity.
Qed.

(** The full property, with the result in any object, fails: whatever the lines are, a result in the object that holds p1, q0 or q1
    is one of the end points p0 and p1. *)
Theorem C96_intersect_refuted :
  (forall m p0 p1 q0 q1 r f m', r = p1 \/ r = q0 \/ r = q1 -> intersect_r m p0 p1 q0 q1 r = Ok (f, m') ->
     (m' r = m p0 \/ m' r = m p1) /\ (r = p1 -> f = false)) /\
  (let m := fun k => nth k [(0, 0); (2000000, 2000000); (0, 2000000); (2000000, 0); (7, 7)] (0, 0) in
   let end_point (o : res (bool * points)) (r : nat) (f : bool) := exists m', o = Ok (f, m') /\ m' r = (0, 0) in
   (exists m', intersect_r m 0 1 2 3 4 = Ok (true, m') /\ m' 4%nat = (999999, 999999)) /\
   end_point (intersect_r m 0 1 2 3 1) 1%nat false /\ end_point (intersect_r m 0 1 2 3 2) 2%nat true /\ end_point (intersect_r m 0 1 2 3 3) 3%nat true).
Proof.
  split.
  2:{ cbv zeta. repeat split; eexists; (split; [vm_compute; reflexivity|reflexivity]). }
  intros m p0 p1 q0 q1 r f m' HR. unfold intersect_r. cbv zeta.
  assert (E0 : put m r (m p0) p0 = m p0) by (destruct (Nat.eq_dec p0 r) as [<-|N]; [apply put_same|now apply put_other]). rewrite E0.
  destruct (sub2 (put m r (m p0) p1) (m p0)) as [p| |] eqn:P; cbn [bind]; try discriminate. apply sub2_value in P.
  destruct (sub2 (put m r (m p0) q1) (put m r (m p0) q0)) as [q| |] eqn:Q; cbn [bind]; try discriminate. apply sub2_value in Q.
  destruct (crossx2 p q) as [d| |] eqn:D; cbn [bind]; try discriminate. apply crossx2_value in D.
  assert (F : r = p1 -> d = 0).
  { intros <-. rewrite put_same in P. rewrite D, P. cbn [fst snd]. rewrite !Z.sub_diag. reflexivity. }
  destruct (Z.eqb_spec d 0) as [Z0|Z0].
  { intro H. injection H as <- <-. rewrite put_same. auto. }
  assert (N1 : r <> p1) by (intro N; apply Z0, F, N). rewrite (put_other m r (m p0) p1) in P by congruence.
  destruct (sub2 (put m r (m p0) q0) (m p0)) as [s| |] eqn:S; cbn [bind]; try discriminate. apply sub2_value in S.
  destruct (crossx2 s q) as [t| |] eqn:T; cbn [bind]; try discriminate. apply crossx2_value in T.
  assert (T0 : t = 0).
  { destruct HR as [HR|[HR|HR]]; [contradiction| |]; subst r.
    - rewrite put_same in S. rewrite T, S. cbn [fst snd]. rewrite !Z.sub_diag. reflexivity.
    - destruct (Nat.eq_dec q1 q0) as [E|E].
      + subst q1. rewrite put_same in S. rewrite T, S. cbn [fst snd]. rewrite !Z.sub_diag. reflexivity.
      + rewrite put_same in Q. rewrite T, S, Q. cbn [fst snd]. ring. }
  rewrite T0. destruct (muldiv64 p 0 d) as [v| |] eqn:V; cbn [bind]; try discriminate. apply muldiv64_zero in V.
  destruct (add2 (m p0) v) as [w| |] eqn:W; cbn [bind]; try discriminate. apply add2_value in W.
  intro H. injection H as <- <-. rewrite put_same. split; [|contradiction].
  destruct V as [-> | ->]; rewrite W; [right|left]; rewrite ?P; cbn [fst snd].
  - destruct (m p1); cbn [fst snd]; f_equal; lia.
  - destruct (m p0); cbn [fst snd]; f_equal; lia.
Qed.
Print Assumptions C96_intersect_refuted.

(** Two instances of the hypotheses of the first theorem: the result in an object of its own, and in the one that holds p0. *)
Example C96_case :
  let m := fun k => nth k [(0, 0); (2000000, 2000000); (0, 2000000); (2000000, 0); (7, 7)] (0, 0) in
  (exists m', intersect_r m 0 1 2 3 4 = Ok (true, m') /\ m' 4%nat = (999999, 999999)) /\ (exists m', intersect_r m 0 1 2 3 0 = Ok (true, m') /\ m' 0%nat = (999999, 999999)).
Proof. cbv zeta. split; eexists; (split; [vm_compute; reflexivity|reflexivity]). Qed.

(** ** C97 bind *)

Section Bind.
Variables K V : Type.
Variable eqb : K -> K -> bool.
Variable geb : K -> K -> bool.
Hypothesis eqb_spec : forall a b, eqb a b = true <-> a = b.
Notation O := (option V).

Lemma heap_name fuel d n i j : d_heap_scan K O eqb geb fuel d n i = Ok (Some j) -> getz (d_names K O d) j = Ok n.
Proof.
  revert i. induction fuel as [|fuel IH]; intro i; cbn [d_heap_scan]; destruct (i <? d_heap K O d); try discriminate.
  destruct (getz (d_names K O d) i) as [k| |] eqn:G; cbn [bind]; try discriminate. destruct (eqb k n) eqn:E; [|apply IH].
  intro H. injection H as <-. apply eqb_spec in E. now subst.
Qed.

Lemma linear_name fuel d n i j : d_linear_scan K O eqb fuel d n i = Ok j -> j <> 0 -> getz (d_names K O d) j = Ok n.
Proof.
  revert i. induction fuel as [|fuel IH]; intro i; cbn [d_linear_scan]; destruct (i <? d_size K O d); try discriminate; try congruence.
  destruct (getz (d_names K O d) i) as [k| |] eqn:G; cbn [bind]; try discriminate. destruct (eqb k n) eqn:E; [|apply IH].
  intro H. injection H as <-. apply eqb_spec in E. now subst.
Qed.

Lemma find_name d n j : d_find K O eqb geb d n = Ok j -> j <> 0 -> getz (d_names K O d) j = Ok n.
Proof.
  unfold d_find. destruct (d_heap_scan _ _ _ _ _ _ _ _) as [[i|]| |] eqn:H; cbn [bind]; try discriminate.
  - intro E. injection E as <-. intros _. now apply heap_name in H.
  - apply linear_name.
Qed.

Lemma setz_cases {A} (l : list A) i v w : (exists l' l'', setz l i v = Ok l' /\ setz l i w = Ok l'' /\ setz l' i w = Ok l'' /\ getz l' i = Ok v /\ (forall j, j <> i -> getz l' j = getz l j)) \/ (setz l i v = UB /\ setz l i w = UB).
Proof.
  unfold setz, getz. destruct (Z.ltb_spec i 0) as [H|H]; [right; auto|]. unfold set, get. destruct (Nat.ltb_spec (Z.to_nat i) (length l)) as [L|L]; [left|right; auto].
  assert (LU : forall l k (x : A), length (upd l k x) = length l).
  { clear. induction l as [|y l IH]; intros [|k] x; cbn [upd length]; auto. }
  assert (UU : forall l k (x y : A), upd (upd l k x) k y = upd l k y).
  { clear. induction l as [|z l IH]; intros [|k] x y; cbn [upd]; auto. now rewrite IH. }
  assert (NS : forall l k (x : A), (k < length l)%nat -> nth_error (upd l k x) k = Some x).
  { clear. induction l as [|z l IH]; intros [|k] x L; cbn [upd length nth_error] in *; try lia; auto. apply IH. lia. }
  assert (NO : forall l k j (x : A), j <> k -> nth_error (upd l k x) j = nth_error l j).
  { clear. induction l as [|z l IH]; intros [|k] [|j] x L; cbn [upd nth_error] in *; try congruence; auto. }
  eexists _, _. split; [reflexivity|]. split; [reflexivity|]. rewrite LU. destruct (Nat.ltb_spec (Z.to_nat i) (length l)); [|lia].
  split; [now rewrite UU|]. split; [now rewrite NS|]. intros j Hj. destruct (Z.ltb_spec j 0); [reflexivity|]. rewrite NO by lia. reflexivity.
Qed.

(** Binding a name to the value of another name is the same as binding it to a copy of that value, in any dictionary. *)
Theorem bind_other : forall N d n m v, d_at_name K O eqb geb d m = Ok (Some v) -> n <> m ->
  d_bind_name K V eqb geb N d n m = d_bind K O eqb geb N d n (Some v).
Proof.
  intros N d n m v. unfold d_at_name, d_bind_name, d_at, d_bind_ref, d_bind.
  destruct (d_find K O eqb geb d m) as [j| |] eqn:Fm; cbn [bind]; try discriminate.
  destruct (Z.eqb_spec j 0) as [J0|J0]; cbn [negb andb]; [discriminate|]. destruct (Z.ltb_spec j (d_size K O d)) as [Js|Js]; [|discriminate].
  intros G NE. destruct (d_find K O eqb geb d n) as [i| |] eqn:Fn; cbn [bind]; try reflexivity.
  destruct (Z.eqb_spec i 0) as [I0|I0]; cbn [andb].
  - destruct (N <=? d_size K O d); [reflexivity|]. cbv zeta. set (i' := d_size K O d + (if d_size K O d =? 0 then 1 else 0)).
    assert (NJ : j <> i') by (unfold i'; destruct (d_size K O d =? 0); lia).
    destruct (setz (d_names K O d) i' n) as [names| |]; cbn [bind]; try reflexivity.
    destruct (setz_cases (d_data K O d) i' None (Some v)) as [(l' & l'' & E1 & E2 & E3 & _ & E5)|[E1 E2]]; rewrite E1, E2; cbn [bind]; [|reflexivity].
    rewrite E5 by assumption. rewrite G. cbn [bind]. rewrite E3. reflexivity.
  - cbv zeta. cbn [bind].
    assert (NJ : j <> i) by (intro E; subst i; apply NE; apply find_name in Fm; [|assumption]; apply find_name in Fn; [congruence|assumption]).
    destruct (setz_cases (d_data K O d) i None (Some v)) as [(l' & l'' & E1 & E2 & E3 & _ & E5)|[E1 E2]]; rewrite E1, E2; cbn [bind]; [|reflexivity].
    rewrite E5 by assumption. rewrite G. cbn [bind]. rewrite E3. reflexivity.
Qed.

Theorem bind_own : forall N d m v, d_at_name K O eqb geb d m = Ok (Some v) -> d_bind_name K V eqb geb N d m m = UB.
Proof.
  intros N d m v. unfold d_at_name, d_bind_name, d_at, d_bind_ref.
  destruct (d_find K O eqb geb d m) as [j| |] eqn:Fm; cbn [bind]; try discriminate.
  destruct (Z.eqb_spec j 0) as [J0|J0]; cbn [negb andb]; [discriminate|]. destruct (j <? d_size K O d); [|discriminate]. intros _. cbv zeta. cbn [bind].
  destruct (setz_cases (d_data K O d) j None (Some v)) as [(l' & l'' & E1 & E2 & E3 & E4 & E5)|[E1 E2]]; rewrite E1; cbn [bind]; [|reflexivity].
  rewrite E4. reflexivity.
Qed.
End Bind.

(** C97. For every dictionary d and names n and m: if m is bound, to a value v, and n is another name, then d.bind(n, d[m]) does what
    d.bind(n, v) does. *)
Theorem C97_bind_reference_partial : forall K V eqb geb, (forall a b : K, eqb a b = true <-> a = b) ->
  forall N (d : dict K (option V)) n m v, d_at_name K (option V) eqb geb d m = Ok (Some v) -> n <> m ->
  d_bind_name K V eqb geb N d n m = d_bind K (option V) eqb geb N d n (Some v).
Proof. intros K V eqb geb E. exact (bind_other K V eqb geb E). Qed.
Print Assumptions C97_bind_reference_partial.

(** The full property fails for n = m, which ought to change nothing: the value is destroyed before it is read. *)
Theorem C97_bind_own_refuted : forall K V eqb geb, (forall a b : K, eqb a b = true <-> a = b) ->
  forall N (d : dict K (option V)) m v, d_at_name K (option V) eqb geb d m = Ok (Some v) -> d_bind_name K V eqb geb N d m m = UB.
Proof. intros K V eqb geb E. exact (bind_own K V eqb geb). Qed.
Print Assumptions C97_bind_own_refuted.

(** A dictionary made by two binds: bind(9, d[7]) copies the value of 7, bind(7, d[7]) is UB. *)
Example C97_case : exists is d, d_run Z (option Z) Z.eqb Z.geb 4 (d_init Z (option Z) 4 0 (Some 0)) [(7, Some 70); (8, Some 80)] = Ok (is, d) /\
  d_at_name Z (option Z) Z.eqb Z.geb d 7 = Ok (Some 70) /\
  (exists d', d_bind_name Z Z Z.eqb Z.geb 4 d 9 7 = Ok (3, d') /\ d_at_name Z (option Z) Z.eqb Z.geb d' 9 = Ok (Some 70)) /\
  (exists d', d_bind_name Z Z Z.eqb Z.geb 4 d 8 7 = Ok (2, d') /\ d_at_name Z (option Z) Z.eqb Z.geb d' 8 = Ok (Some 70)) /\
  d_bind_name Z Z Z.eqb Z.geb 4 d 7 7 = UB.
Proof.
  eexists _, _. split; [vm_compute; reflexivity|]. split; [reflexivity|]. split; [|split; [|reflexivity]]; eexists; (split; [vm_compute; reflexivity|reflexivity]).
Qed.
