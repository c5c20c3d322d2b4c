(** Properties of the vector products and of in_polygon (C37, C38). *)
From Coq Require Import Permutation.
From Verif Require Import Base Vec_Model Vec_Spec.
Local Open Scope Z_scope.

Definition int32 (x : Z) : Prop := - 2 ^ 31 <= x < 2 ^ 31.

Lemma s64 x : in_s 64 x <-> - 2 ^ 63 <= x < 2 ^ 63.
Proof. reflexivity. Qed.

Lemma prod_bound a b : int32 a -> int32 b -> - 2 ^ 62 + 2 ^ 31 <= a * b <= 2 ^ 62 /\ (a * b = 2 ^ 62 -> a = - 2 ^ 31 /\ b = - 2 ^ 31).
Proof. unfold int32. change (2 ^ 31) with 2147483648. change (2 ^ 62) with 4611686018427387904. intros. split; [nia|]. intro. split; nia. Qed.

Lemma chk64_ok' x : - 2 ^ 63 <= x < 2 ^ 63 -> chk64 x = Ok x.
Proof. intro. now apply chk64_ok. Qed.

Lemma chk64_bad x : ~ (- 2 ^ 63 <= x < 2 ^ 63) -> chk64 x = UB.
Proof. intro H. unfold chk64. destruct (in_sb 64 x) eqn:E; [|reflexivity]. apply in_sb_spec in E. contradiction. Qed.

Ltac p64 := change (2 ^ 31) with 2147483648 in *; change (2 ^ 62) with 4611686018427387904 in *; change (2 ^ 63) with 9223372036854775808 in *.

(** C37: the scalar overloads: exact for every pair of int32_t; for int64_t exact when the product fits, overflow otherwise. *)
Theorem C37_scalar : (forall a b, int32 a -> int32 b -> dotx32 a b = Ok (a * b) /\ sqrx32 a = Ok (a * a)) /\
  (forall a b, (- 2 ^ 63 <= a * b < 2 ^ 63 -> dotx64 a b = Ok (a * b)) /\ (~ (- 2 ^ 63 <= a * b < 2 ^ 63) -> dotx64 a b = UB)) /\
  (forall a, (a * a < 2 ^ 63 -> sqrx64 a = Ok (a * a)) /\ (2 ^ 63 <= a * a -> sqrx64 a = UB)).
Proof.
  split; [|split].
  - intros a b Ha Hb. pose proof (prod_bound a b Ha Hb) as [B _]. pose proof (prod_bound a a Ha Ha) as [B' _]. unfold dotx32, sqrx32. split; apply chk64_ok'; p64; lia.
  - intros a b. unfold dotx64. split; [apply chk64_ok'|apply chk64_bad].
  - intro a. unfold sqrx64. split; intro; [apply chk64_ok'; p64; nia|apply chk64_bad; lia].
Qed.
Print Assumptions C37_scalar.

(** C37: crossx of int32_t vec2 is defined for every pair of vectors and equals the mathematical cross product. *)
Theorem C37_crossx2 : forall ax ay bx by_, int32 ax -> int32 ay -> int32 bx -> int32 by_ ->
  crossx2 (ax, ay) (bx, by_) = Ok (ax * by_ - ay * bx).
Proof.
  intros ax ay bx by_ H1 H2 H3 H4. unfold crossx2. cbn [fst snd].
  pose proof (prod_bound ax by_ H1 H4) as [B1 _]. pose proof (prod_bound ay bx H2 H3) as [B2 _].
  rewrite (chk64_ok' (ax * by_)) by (p64; lia). cbn [bind]. rewrite (chk64_ok' (ay * bx)) by (p64; lia). cbn [bind]. apply chk64_ok'. p64. lia.
Qed.
Print Assumptions C37_crossx2.

Theorem C37_crossx3 : forall ax ay az bx by_ bz, int32 ax -> int32 ay -> int32 az -> int32 bx -> int32 by_ -> int32 bz ->
  crossx3 (ax, ay, az) (bx, by_, bz) = Ok (ay * bz - az * by_, az * bx - ax * bz, ax * by_ - ay * bx).
Proof. intros. unfold crossx3. rewrite !C37_crossx2 by assumption. reflexivity. Qed.
Print Assumptions C37_crossx3.

(** C37: dotx of vec2 is exact for every pair of vectors but one, and for that one it overflows. *)
Theorem C37_dotx2 : forall ax ay bx by_, int32 ax -> int32 ay -> int32 bx -> int32 by_ ->
  let extreme := ax = - 2 ^ 31 /\ ay = - 2 ^ 31 /\ bx = - 2 ^ 31 /\ by_ = - 2 ^ 31 in
  (~ extreme -> dotx2 (ax, ay) (bx, by_) = Ok (ax * bx + ay * by_)) /\ (extreme -> dotx2 (ax, ay) (bx, by_) = UB).
Proof.
  intros ax ay bx by_ H1 H2 H3 H4 extreme. unfold dotx2. cbn [fst snd].
  pose proof (prod_bound ax bx H1 H3) as [B1 C1]. pose proof (prod_bound ay by_ H2 H4) as [B2 C2].
  rewrite (chk64_ok' (ax * bx)) by (p64; lia). cbn [bind]. rewrite (chk64_ok' (ay * by_)) by (p64; lia). cbn [bind]. split.
  - intro N. apply chk64_ok'. assert (ax * bx <> 2 ^ 62 \/ ay * by_ <> 2 ^ 62).
    { destruct (Z.eq_dec (ax * bx) (2 ^ 62)) as [E|E]; [|now left]. right. intro E'. apply N. unfold extreme. tauto. }
    p64. lia.
  - intros (-> & -> & -> & ->). reflexivity.
Qed.
Print Assumptions C37_dotx2.

Theorem C37_sqrx2 : forall ax ay, int32 ax -> int32 ay ->
  let extreme := ax = - 2 ^ 31 /\ ay = - 2 ^ 31 in
  (~ extreme -> sqrx2 (ax, ay) = Ok (ax * ax + ay * ay)) /\ (extreme -> sqrx2 (ax, ay) = UB).
Proof. intros ax ay H1 H2 extreme. destruct (C37_dotx2 ax ay ax ay H1 H2 H1 H2) as [A B]. unfold extreme. split; intro; [apply A|apply B]; tauto. Qed.
Print Assumptions C37_sqrx2.

(** C37: dotx of vec3 is exact exactly when the sum of the first two products and the whole sum fit 64 bits. *)
Theorem C37_dotx3 : forall ax ay az bx by_ bz, int32 ax -> int32 ay -> int32 az -> int32 bx -> int32 by_ -> int32 bz ->
  let total := ax * bx + ay * by_ + az * bz in
  let fits := ax * bx + ay * by_ < 2 ^ 63 /\ - 2 ^ 63 <= total < 2 ^ 63 in
  (fits -> dotx3 (ax, ay, az) (bx, by_, bz) = Ok total) /\ (~ fits -> dotx3 (ax, ay, az) (bx, by_, bz) = UB).
Proof.
  intros ax ay az bx by_ bz H1 H2 H3 H4 H5 H6 total fits. unfold dotx3.
  pose proof (prod_bound ax bx H1 H4) as [B1 _]. pose proof (prod_bound ay by_ H2 H5) as [B2 _]. pose proof (prod_bound az bz H3 H6) as [B3 _].
  rewrite (chk64_ok' (ax * bx)) by (p64; lia). cbn [bind]. rewrite (chk64_ok' (ay * by_)) by (p64; lia). cbn [bind]. split.
  - intros [F1 F2]. rewrite (chk64_ok' (ax * bx + ay * by_)) by (p64; lia). cbn [bind]. rewrite (chk64_ok' (az * bz)) by (p64; lia). cbn [bind].
    apply chk64_ok'. exact F2.
  - intro F. destruct (Z_lt_ge_dec (ax * bx + ay * by_) (2 ^ 63)) as [L|G].
    + rewrite (chk64_ok' (ax * bx + ay * by_)) by (p64; lia). cbn [bind]. rewrite (chk64_ok' (az * bz)) by (p64; lia). cbn [bind].
      apply chk64_bad. intro. apply F. split; assumption.
    + rewrite chk64_bad by lia. reflexivity.
Qed.
Print Assumptions C37_dotx3.

Example C37_nonvacuous : crossx2 (-2147483648, 2147483647) (2147483647, -2147483648) = Ok 4294967295 /\
  dotx3 (2147483647, 2147483647, 2147483647) (2147483647, 2147483647, 2147483647) = UB /\ dotx3 (1, 2, 3) (4, -5, 6) = Ok 12.
Proof. split; [|split]; reflexivity. Qed.

(** ** in_polygon *)

(** What the loop adds for the edge whose ends are seen from p at -A and -B. *)
Definition cross (A B : point) : Z := fst A * snd B - snd A * fst B.
Definition crossing (A B : point) : Z :=
  if snd A <? 0 then (if snd B <? 0 then 0 else if cross A B <? 0 then -1 else 0)
  else (if snd B <? 0 then (if 0 <? cross A B then 1 else 0) else 0).
Definition vsub (p a : point) : point := (fst p - fst a, snd p - snd a).

Lemma lxor_neg a b : (Z.lxor a b <? 0) = xorb (a <? 0) (b <? 0).
Proof.
  pose proof (Z.lxor_nonneg a b) as H. destruct (Z.ltb_spec (Z.lxor a b) 0), (Z.ltb_spec a 0), (Z.ltb_spec b 0); cbn [xorb]; try reflexivity; exfalso; lia.
Qed.

Lemma crossing_anti A B : crossing B A = - crossing A B.
Proof.
  unfold crossing. assert (cross B A = - cross A B) as -> by (unfold cross; lia).
  destruct (snd A <? 0), (snd B <? 0); try reflexivity.
  - destruct (Z.ltb_spec (cross A B) 0), (Z.ltb_spec 0 (- cross A B)); lia.
  - destruct (Z.ltb_spec 0 (cross A B)), (Z.ltb_spec (- cross A B) 0); lia.
Qed.

Definition sum (l : list Z) : Z := fold_right Z.add 0 l.
Definition total (p : point) (es : list (point * point)) : Z := sum (map (fun e => crossing (vsub p (fst e)) (vsub p (snd e))) es).

Definition K : Z := 2 ^ 30.

Lemma loop_total p : within K p -> forall ps prev w, within K prev -> Forall (within K) ps -> 0 <= w < 2 ^ 64 ->
  ip_loop (fst p) (snd p) (fst p - fst prev) (snd p - snd prev) w ps = Ok (u64 (w + total p (chain prev ps))).
Proof.
  intros Hp. induction ps as [|q ps IH]; intros prev w Hprev F Hw; cbn [ip_loop chain].
  - unfold total. cbn [map sum fold_right]. rewrite Z.add_0_r. unfold u64. now rewrite Z.mod_small.
  - inversion F as [|? ? Hq F']; subst. unfold within, K in Hp, Hprev, Hq. change (2 ^ 30) with 1073741824 in *.
    rewrite (chk64_ok' (fst p - fst q)), (chk64_ok' (snd p - snd q)) by (p64; lia). cbn [bind]. rewrite lxor_neg.
    unfold total. cbn [map fst snd sum fold_right]. fold (sum (map (fun e => crossing (vsub p (fst e)) (vsub p (snd e))) (chain q ps))).
    fold (total p (chain q ps)).
    remember (fst p - fst prev) as ax eqn:Eax. remember (snd p - snd prev) as ay eqn:Eay. remember (fst p - fst q) as bx eqn:Ebx. remember (snd p - snd q) as by_ eqn:Eby.
    assert (Ev : vsub p prev = (ax, ay) /\ vsub p q = (bx, by_)) by (unfold vsub; split; congruence). destruct Ev as [-> ->].
    assert (Hax : - 2147483648 <= ax <= 2147483648) by lia. assert (Hay : - 2147483648 <= ay <= 2147483648) by lia.
    assert (Hbx : - 2147483648 <= bx <= 2147483648) by lia. assert (Hby : - 2147483648 <= by_ <= 2147483648) by lia.
    assert (IH' : forall w, 0 <= w < 2 ^ 64 -> ip_loop (fst p) (snd p) bx by_ w ps = Ok (u64 (w + total p (chain q ps)))).
    { intros w' Hw'. rewrite Ebx, Eby. apply IH; [unfold within, K; change (2 ^ 30) with 1073741824; lia|assumption|assumption]. }
    destruct (xorb (ay <? 0) (by_ <? 0)) eqn:X.
    + assert (B1 : - 4611686018427387904 <= ax * by_ <= 4611686018427387904) by nia.
      assert (B2 : - 4611686018427387904 <= ay * bx <= 4611686018427387904) by nia.
      rewrite (chk64_ok' (ax * by_)), (chk64_ok' (ay * bx)) by (p64; lia). cbn [bind].
      destruct (Z.eq_dec (ax * by_ - ay * bx) 9223372036854775808) as [Ebad|Hok].
      { exfalso. assert (ax * by_ = 4611686018427387904) by lia. assert (ay * bx = - 4611686018427387904) by lia.
        destruct (Z.ltb_spec ay 0), (Z.ltb_spec by_ 0); try discriminate; nia. }
      rewrite chk64_ok' by (p64; lia). cbn [bind]. rewrite lxor_neg. rewrite IH' by (unfold u64; apply Z.mod_pos_bound; lia). f_equal.
      unfold u64. rewrite Z.add_mod_idemp_l by lia. f_equal. rewrite Z.add_assoc. f_equal. f_equal.
      unfold crossing, cross. cbn [fst snd]. remember (ax * by_ - ay * bx) as ab eqn:Eab. clear - X.
      destruct (Z.ltb_spec ay 0), (Z.ltb_spec by_ 0); cbn [xorb] in X; try discriminate;
        destruct (Z.ltb_spec ab 0), (Z.ltb_spec 0 ab); cbn [xorb]; try reflexivity; lia.
    + rewrite IH' by assumption. f_equal. unfold crossing. cbn [fst snd]. destruct (ay <? 0), (by_ <? 0); try discriminate; reflexivity.
Qed.

Lemma in_polygon_total p ps : within K p -> Forall (within K) ps -> in_polygon p ps = Ok (u64 (total p (edges ps))).
Proof.
  intros Hp F. unfold in_polygon, edges. destruct ps as [|q ps]; [reflexivity|].
  assert (Hl : within K (last (q :: ps) (0, 0))).
  { destruct (exists_last (l := q :: ps) ltac:(discriminate)) as (m & t & Em). rewrite Em in *. rewrite last_last. apply Forall_app in F. destruct F as [_ F]. now inversion F. }
  pose proof Hp as Hp'. pose proof Hl as Hl'. unfold within, K in Hp', Hl'. change (2 ^ 30) with 1073741824 in *.
  change vec2 with point.
  rewrite (chk64_ok' (fst p - fst (last (q :: ps) (0, 0)))) by (p64; lia). cbn [bind].
  rewrite (chk64_ok' (snd p - snd (last (q :: ps) (0, 0)))) by (p64; lia). cbn [bind].
  rewrite loop_total; [rewrite Z.add_0_l; reflexivity|assumption|assumption|assumption|lia].
Qed.

Lemma same_side ux uy vx vy : ux * vy - uy * vx = 0 -> 0 < ux * vx \/ 0 < uy * vy -> (uy < 0 /\ vy < 0) \/ (uy = 0 /\ vy = 0) \/ (0 < uy /\ 0 < vy).
Proof.
  intros E [P|P]; [|assert (uy <> 0) by nia; nia].
  assert (ux <> 0) by nia. assert (S2 : 0 < ux * ux) by nia.
  assert (I : uy * (ux * vx) = ux * ux * vy) by (replace (uy * (ux * vx)) with (ux * (uy * vx)) by ring; replace (uy * vx) with (ux * vy) by lia; ring).
  destruct (Z.lt_trichotomy uy 0) as [L|[L|L]].
  - left. split; [assumption|]. assert (ux * ux * vy < 0) by (rewrite <- I; nia). nia.
  - right. left. split; [assumption|]. assert (ux * ux * vy = 0) by (rewrite <- I; nia). nia.
  - right. right. split; [assumption|]. assert (0 < ux * ux * vy) by (rewrite <- I; nia). nia.
Qed.

(** The triangle lemma depends on the signs only, so it is a finite check: 3^6 sign patterns. *)
Definition crossing_sign (x y xy : Z) : Z :=
  if x <? 0 then (if y <? 0 then 0 else if xy <? 0 then -1 else 0) else (if y <? 0 then (if 0 <? xy then 1 else 0) else 0).
Definition winding_sign (ab bc ca : Z) : Z :=
  if (0 <? ab) && (0 <? bc) && (0 <? ca) then 1 else if (ab <? 0) && (bc <? 0) && (ca <? 0) then -1 else 0.
Definition balanced (p q r : Z) : bool :=
  ((p =? 0) && (q =? 0) && (r =? 0)) || (((p =? 1) || (q =? 1) || (r =? 1)) && ((p =? -1) || (q =? -1) || (r =? -1))).
Definition sign_case (a b c ab bc ca : Z) : bool :=
  implb (balanced (c * ab) (a * bc) (b * ca)
         && implb (ab =? 0) (a =? b) && implb (bc =? 0) (b =? c) && implb (ca =? 0) (c =? a)
         && implb ((a =? 0) && (b =? 0)) (ab =? 0) && implb ((b =? 0) && (c =? 0)) (bc =? 0) && implb ((c =? 0) && (a =? 0)) (ca =? 0)
         && implb ((a =? 0) && (b =? 0)) (ca =? - bc) && implb ((b =? 0) && (c =? 0)) (ab =? - ca) && implb ((c =? 0) && (a =? 0)) (bc =? - ab))
        (crossing_sign a b ab + crossing_sign b c bc + crossing_sign c a ca =? winding_sign ab bc ca).
Definition three : list Z := [-1; 0; 1].
Lemma sign_cases : forallb (fun a => forallb (fun b => forallb (fun c => forallb (fun ab => forallb (fun bc => forallb (fun ca => sign_case a b c ab bc ca) three) three) three) three) three) three = true.
Proof. vm_compute. reflexivity. Qed.

Lemma sgn_three x : In (Z.sgn x) three.
Proof. unfold three. cbn [In]. destruct (Z.sgn_spec x) as [[_ E]|[[_ E]|[_ E]]]; rewrite E; auto. Qed.

Lemma sgn_neg x : (Z.sgn x <? 0) = (x <? 0). Proof. now destruct x. Qed.
Lemma sgn_pos' x : (0 <? Z.sgn x) = (0 <? x). Proof. now destruct x. Qed.
Lemma crossing_sgn x y xy : crossing_sign (Z.sgn x) (Z.sgn y) (Z.sgn xy) = crossing_sign x y xy.
Proof. unfold crossing_sign. now rewrite !sgn_neg, sgn_pos'. Qed.
Lemma winding_sgn x y z : winding_sign (Z.sgn x) (Z.sgn y) (Z.sgn z) = winding_sign x y z.
Proof. unfold winding_sign. now rewrite !sgn_neg, !sgn_pos'. Qed.
Lemma balanced_sgn p q r : p + q + r = 0 -> balanced (Z.sgn p) (Z.sgn q) (Z.sgn r) = true.
Proof. intro. destruct p, q, r; try reflexivity; exfalso; lia. Qed.

Lemma opposite u v y k l : k = - (y * u) -> l = y * v -> 0 < u * v -> Z.sgn k = - Z.sgn l.
Proof.
  intros -> -> H. rewrite Z.sgn_opp, !Z.sgn_mul. assert (Z.sgn u = Z.sgn v); [|congruence].
  destruct u, v; try reflexivity; exfalso; lia.
Qed.

Lemma implb_of (b c : bool) : (b = true -> c = true) -> implb b c = true.
Proof. destruct b, c; auto. Qed.

(** The three edges of a triangle. *)
Lemma triangle_crossing p a b c : ~ on_segment p a b -> ~ on_segment p b c -> ~ on_segment p c a ->
  crossing (vsub p a) (vsub p b) + crossing (vsub p b) (vsub p c) + crossing (vsub p c) (vsub p a) = triangle_winding p a b c.
Proof.
  unfold on_segment, triangle_winding.
  assert (O : forall x y, orient x y p = cross (vsub p x) (vsub p y)) by (intros; unfold orient, cross, vsub; cbn [fst snd]; ring).
  rewrite !O. unfold crossing, cross.
  replace ((fst p - fst a) * (fst p - fst b)) with (fst (vsub p a) * fst (vsub p b)) by reflexivity.
  replace ((fst p - fst b) * (fst p - fst c)) with (fst (vsub p b) * fst (vsub p c)) by reflexivity.
  replace ((fst p - fst c) * (fst p - fst a)) with (fst (vsub p c) * fst (vsub p a)) by reflexivity.
  replace ((snd p - snd a) * (snd p - snd b)) with (snd (vsub p a) * snd (vsub p b)) by reflexivity.
  replace ((snd p - snd b) * (snd p - snd c)) with (snd (vsub p b) * snd (vsub p c)) by reflexivity.
  replace ((snd p - snd c) * (snd p - snd a)) with (snd (vsub p c) * snd (vsub p a)) by reflexivity.
  generalize (vsub p a) (vsub p b) (vsub p c). clear. intros [ax ay] [bx by_] [cx cy]. cbn [fst snd].
  remember (ax * by_ - ay * bx) as ab eqn:Eab. remember (bx * cy - by_ * cx) as bc eqn:Ebc. remember (cx * ay - cy * ax) as ca eqn:Eca.
  assert (I1 : cy * ab + ay * bc + by_ * ca = 0) by (subst; ring).
  assert (I2 : cx * ab + ax * bc + bx * ca = 0) by (subst; ring).
  intros N1 N2 N3.
  assert (M1 : ab = 0 -> 0 < ax * bx \/ 0 < ay * by_) by (intro; destruct (Z_lt_ge_dec 0 (ax * bx)); [now left|]; destruct (Z_lt_ge_dec 0 (ay * by_)); [now right|]; exfalso; apply N1; lia).
  assert (M2 : bc = 0 -> 0 < bx * cx \/ 0 < by_ * cy) by (intro; destruct (Z_lt_ge_dec 0 (bx * cx)); [now left|]; destruct (Z_lt_ge_dec 0 (by_ * cy)); [now right|]; exfalso; apply N2; lia).
  assert (M3 : ca = 0 -> 0 < cx * ax \/ 0 < cy * ay) by (intro; destruct (Z_lt_ge_dec 0 (cx * ax)); [now left|]; destruct (Z_lt_ge_dec 0 (cy * ay)); [now right|]; exfalso; apply N3; lia).
  assert (S1 : ab = 0 -> (ay < 0 /\ by_ < 0) \/ (ay = 0 /\ by_ = 0) \/ (0 < ay /\ 0 < by_)) by (intro E; apply (same_side ax ay bx by_); [congruence|exact (M1 E)]).
  assert (S2 : bc = 0 -> (by_ < 0 /\ cy < 0) \/ (by_ = 0 /\ cy = 0) \/ (0 < by_ /\ 0 < cy)) by (intro E; apply (same_side bx by_ cx cy); [congruence|exact (M2 E)]).
  assert (S3 : ca = 0 -> (cy < 0 /\ ay < 0) \/ (cy = 0 /\ ay = 0) \/ (0 < cy /\ 0 < ay)) by (intro E; apply (same_side cx cy ax ay); [congruence|exact (M3 E)]).
  assert (Z1 : ay = 0 -> by_ = 0 -> ab = 0) by (clear - Eab; intros -> ->; lia).
  assert (Z2 : by_ = 0 -> cy = 0 -> bc = 0) by (clear - Ebc; intros -> ->; lia).
  assert (Z3 : cy = 0 -> ay = 0 -> ca = 0) by (clear - Eca; intros -> ->; lia).
  assert (Y1 : ay = 0 -> by_ = 0 -> Z.sgn ca = - Z.sgn bc) by (clear - Eca Ebc Eab M1; intros -> ->; apply (opposite ax bx cy); [clear - Eca; lia|clear - Ebc; lia|]; destruct M1; clear Eca Ebc; lia).
  assert (Y2 : by_ = 0 -> cy = 0 -> Z.sgn ab = - Z.sgn ca) by (clear - Eca Ebc Eab M2; intros -> ->; apply (opposite bx cx ay); [clear - Eab; lia|clear - Eca; lia|]; destruct M2; clear Eca Eab; lia).
  assert (Y3 : cy = 0 -> ay = 0 -> Z.sgn bc = - Z.sgn ab) by (clear - Eca Ebc Eab M3; intros -> ->; apply (opposite cx ax by_); [clear - Ebc; lia|clear - Eab; lia|]; destruct M3; clear Ebc Eab; lia).
  clear N1 N2 N3 M1 M2 M3 I2 Eab Ebc Eca.
  change (crossing_sign ay by_ ab + crossing_sign by_ cy bc + crossing_sign cy ay ca = winding_sign ab bc ca).
  rewrite <- (crossing_sgn ay), <- (crossing_sgn by_), <- (crossing_sgn cy), <- winding_sgn. apply Z.eqb_eq.
  pose proof (proj1 (forallb_forall _ _) sign_cases _ (sgn_three ay)) as T1. cbv beta in T1.
  pose proof (proj1 (forallb_forall _ _) T1 _ (sgn_three by_)) as T2. cbv beta in T2.
  pose proof (proj1 (forallb_forall _ _) T2 _ (sgn_three cy)) as T3. cbv beta in T3.
  pose proof (proj1 (forallb_forall _ _) T3 _ (sgn_three ab)) as T4. cbv beta in T4.
  pose proof (proj1 (forallb_forall _ _) T4 _ (sgn_three bc)) as T5. cbv beta in T5.
  pose proof (proj1 (forallb_forall _ _) T5 _ (sgn_three ca)) as T6. cbv beta in T6. clear T1 T2 T3 T4 T5.
  unfold sign_case in T6. rewrite <- !Z.sgn_mul in T6. rewrite balanced_sgn in T6 by assumption. cbn [andb] in T6.
  assert (I : forall x y k, (k = 0 -> x < 0 /\ y < 0 \/ x = 0 /\ y = 0 \/ 0 < x /\ 0 < y) -> implb (Z.sgn k =? 0) (Z.sgn x =? Z.sgn y) = true).
  { intros x y k Hk. apply implb_of. intro E. apply Z.eqb_eq in E. apply (proj1 (Z.sgn_null_iff _)) in E. specialize (Hk E). apply Z.eqb_eq.
    clear - Hk; destruct x, y; try reflexivity; exfalso; lia. }
  assert (J : forall x y k, (x = 0 -> y = 0 -> k = 0) -> implb ((Z.sgn x =? 0) && (Z.sgn y =? 0)) (Z.sgn k =? 0) = true).
  { intros x y k Hk. apply implb_of. intro E. apply andb_true_iff in E. destruct E as [E1 E2]. apply Z.eqb_eq in E1, E2.
    apply (proj1 (Z.sgn_null_iff _)) in E1, E2. rewrite (Hk E1 E2). reflexivity. }
  assert (L : forall x y k l, (x = 0 -> y = 0 -> Z.sgn k = - Z.sgn l) -> implb ((Z.sgn x =? 0) && (Z.sgn y =? 0)) (Z.sgn k =? - Z.sgn l) = true).
  { intros x y k l Hk. apply implb_of. intro E. apply andb_true_iff in E. destruct E as [E1 E2]. apply Z.eqb_eq in E1, E2.
    apply (proj1 (Z.sgn_null_iff _)) in E1, E2. rewrite (Hk E1 E2). apply Z.eqb_refl. }
  rewrite (I _ _ _ S1), (I _ _ _ S2), (I _ _ _ S3), (J _ _ _ Z1), (J _ _ _ Z2), (J _ _ _ Z3), (L _ _ _ _ Y1), (L _ _ _ _ Y2), (L _ _ _ _ Y3) in T6. exact T6.
Qed.

Lemma sum_app l1 l2 : sum (l1 ++ l2) = sum l1 + sum l2.
Proof. unfold sum. induction l1 as [|x l1 IH]; cbn [app fold_right]; lia. Qed.

Lemma chain_app prev l1 l2 : chain prev (l1 ++ l2) = chain prev l1 ++ chain (last l1 prev) l2.
Proof.
  revert prev. induction l1 as [|x l1 IH]; intro prev; [reflexivity|]. cbn [app chain]. rewrite IH. f_equal. f_equal.
  destruct l1 as [|y l1]; [reflexivity|]. cbn [last]. f_equal. clear IH. revert y. induction l1 as [|z l1 IH]; intro y; [reflexivity|]. apply IH.
Qed.

Lemma last_ind_dep (l : list point) d d' : l <> [] -> last l d = last l d'.
Proof. intro H. destruct (exists_last H) as (m & x & ->). now rewrite !last_last. Qed.

Lemma total_app p e1 e2 : total p (e1 ++ e2) = total p e1 + total p e2.
Proof. unfold total. now rewrite map_app, sum_app. Qed.

Lemma total_perm p e1 e2 : Permutation e1 e2 -> total p e1 = total p e2.
Proof. unfold total. induction 1; cbn [map sum fold_right] in *; unfold sum in *; lia. Qed.

(** Fan: the triangles between o and a chain of edges, minus the two end spokes. *)
Lemma fan p o : forall ps prev,
  (forall a b, In (a, b) (chain prev ps) -> ~ on_segment p a b) -> (forall a, In a (prev :: ps) -> ~ on_segment p o a) ->
  sum (map (fun e => triangle_winding p o (fst e) (snd e)) (chain prev ps)) =
  crossing (vsub p o) (vsub p prev) + total p (chain prev ps) + crossing (vsub p (last ps prev)) (vsub p o).
Proof.
  induction ps as [|q ps IH]; intros prev He Hs.
  - unfold total. cbn [chain map sum fold_right last]. rewrite (crossing_anti (vsub p o) (vsub p prev)). lia.
  - cbn [chain map sum fold_right fst snd]. fold (sum (map (fun e => triangle_winding p o (fst e) (snd e)) (chain q ps))).
    rewrite IH; [|intros a b H; apply He; now right|intros a H; apply Hs; now right].
    assert (El : last (q :: ps) prev = last ps q).
    { destruct ps as [|r ps]; [reflexivity|]. change (last (q :: r :: ps) prev) with (last (r :: ps) prev). apply last_ind_dep. discriminate. }
    rewrite El. rewrite <- triangle_crossing.
    + unfold total. cbn [map sum fold_right fst snd]. fold (sum (map (fun e => crossing (vsub p (fst e)) (vsub p (snd e))) (chain q ps))).
      rewrite (crossing_anti (vsub p o) (vsub p q)). lia.
    + apply Hs. now left.
    + apply He. now left.
    + intros [O1 [O2 O3]]. apply (Hs q); [right; now left|]. unfold on_segment, orient in *. lia.
Qed.

Lemma fan_closed p o ps : off_edges p ps -> off_spokes o p ps -> winding o p ps = total p (edges ps).
Proof.
  intros He Hs. unfold winding, edges in *. destruct ps as [|q ps]; [reflexivity|].
  change (fold_right Z.add 0) with sum. rewrite fan.
  - rewrite (last_ind_dep (q :: ps) (last (q :: ps) (0, 0)) (0, 0)) by discriminate. rewrite crossing_anti. lia.
  - exact He.
  - intros a [<-|H]; [|now apply Hs]. apply Hs. destruct (exists_last (l := q :: ps) ltac:(discriminate)) as (m & t & Em). rewrite Em, last_last. apply in_or_app. right. now left.
Qed.

(** C38: with coordinates of at most 2^30 there is no overflow, and for every point on no edge the result is the winding
    number of the polygon, as a size_t, whatever apex o the winding number is counted from. *)
Theorem C38_winding : forall o p ps, within (2 ^ 30) p -> Forall (within (2 ^ 30)) ps -> off_edges p ps -> off_spokes o p ps ->
  in_polygon p ps = Ok (u64 (winding o p ps)).
Proof. intros o p ps Hp F He Hs. rewrite fan_closed by assumption. now apply in_polygon_total. Qed.
Print Assumptions C38_winding.

(** There always is such an apex: the winding number of C38_winding exists for every polygon and every point off its edges. *)
Theorem C38_apex : forall p ps, within (2 ^ 30) p -> Forall (within (2 ^ 30)) ps -> off_edges p ps -> exists o, off_spokes o p ps.
Proof.
  intros p ps Hp F He. exists (fst p + 1, snd p + 2 ^ 32). intros a Ha [O [X Y]].
  assert (Hv : a <> p).
  { intros ->. assert (exists b, In (b, p) (edges ps)) as [b Hb].
    { unfold edges. generalize (last ps (0, 0)). clear - Ha. induction ps as [|q ps IH]; [destruct Ha|]. intro prev. cbn [chain].
      destruct Ha as [->|Ha]; [exists prev; now left|]. destruct (IH Ha q) as [b Hb]. exists b. now right. }
    apply (He b p Hb). unfold on_segment, orient. lia. }
  apply Hv. pose proof (proj1 (Forall_forall _ _) F a Ha) as Hin. unfold within, orient in *. cbn [fst snd] in *.
  change (2 ^ 30) with 1073741824 in *. change (2 ^ 32) with 4294967296 in *.
  assert (E : snd p - snd a = 4294967296 * (fst p - fst a)) by lia.
  assert (fst p - fst a = 0) by lia. destruct a as [ax ay], p as [px py]. cbn [fst snd] in *. f_equal; lia.
Qed.
Print Assumptions C38_apex.

(** C38: the start vertex does not matter. *)
Theorem C38_rotation : forall p l1 l2, within (2 ^ 30) p -> Forall (within (2 ^ 30)) (l1 ++ l2) -> in_polygon p (l1 ++ l2) = in_polygon p (l2 ++ l1).
Proof.
  intros p l1 l2 Hp F. rewrite !in_polygon_total; [|assumption|apply Forall_app in F; apply Forall_app; tauto|assumption|assumption].
  f_equal. f_equal. destruct l1 as [|x l1]; [now rewrite app_nil_r|]. destruct l2 as [|y l2]; [now rewrite app_nil_r|].
  apply total_perm. unfold edges. rewrite !chain_app.
  assert (L : forall a (l m : list point), last (l ++ a :: m) (0, 0) = last (a :: m) (0, 0)).
  { intros a l m. destruct (exists_last (l := a :: m) ltac:(discriminate)) as (n & t & ->). rewrite app_assoc. now rewrite !last_last. }
  rewrite !L. rewrite (last_ind_dep (x :: l1) (last (y :: l2) (0, 0)) (0, 0)) by discriminate.
  rewrite (last_ind_dep (y :: l2) (last (x :: l1) (0, 0)) (0, 0)) by discriminate. apply Permutation_app_comm.
Qed.
Print Assumptions C38_rotation.

(** C38: walking the polygon the other way negates the count. *)
Theorem C38_reversal : forall p ps w, within (2 ^ 30) p -> Forall (within (2 ^ 30)) ps -> in_polygon p ps = Ok w -> in_polygon p (rev ps) = Ok (u64 (- w)).
Proof.
  intros p ps w Hp F H. rewrite in_polygon_total in * by (try apply Forall_rev; assumption).
  assert (Ew : w = u64 (total p (edges ps))) by congruence. subst w. f_equal.
  assert (T : total p (edges (rev ps)) = - total p (edges ps)).
  { clear - Hp. unfold edges. destruct ps as [|x ps]; [reflexivity|].
    assert (G : forall (l : list point) (a : point), total p (chain (last (a :: l) (0, 0)) (rev (a :: l))) = crossing (vsub p (last (a :: l) (0, 0))) (vsub p (last (a :: l) (0, 0))) - total p (chain a l)).
    { induction l as [|b l IH]; intro a.
      - unfold total. cbn [last rev app chain map sum fold_right fst snd]. lia.
      - change (last (a :: b :: l) (0, 0)) with (last (b :: l) (0, 0)). change (rev (a :: b :: l)) with (rev (b :: l) ++ [a]). rewrite chain_app, total_app, IH.
        assert (Er : last (rev (b :: l)) (last (b :: l) (0, 0)) = b) by (cbn [rev]; apply last_last). rewrite Er.
        unfold total. cbn [chain map sum fold_right fst snd]. rewrite (crossing_anti (vsub p a) (vsub p b)). unfold sum. lia. }
    assert (Zero : forall A, crossing A A = 0) by (intro A; pose proof (crossing_anti A A); lia).
    assert (El : last (rev (x :: ps)) (0, 0) = x) by (cbn [rev]; apply last_last). rewrite El.
    cbn [chain]. unfold total at 2. cbn [map sum fold_right fst snd]. fold (sum (map (fun e => crossing (vsub p (fst e)) (vsub p (snd e))) (chain x ps))). fold (total p (chain x ps)).
    destruct (exists_last (l := rev (x :: ps))) as (m & t & Em). { cbn [rev]. destruct (rev ps); discriminate. }
    assert (Ht : t = x) by (rewrite Em, last_last in El; exact El). subst t.
    pose proof (G ps x) as Gx. rewrite Em in *.
    destruct m as [|y m].
    - assert (ps = []). { cbn [rev] in Em. destruct (rev ps) eqn:Er; [rewrite <- (rev_involutive ps), Er; reflexivity|]. destruct l; discriminate. }
      subst ps. unfold total. cbn [app chain map sum fold_right fst snd last]. rewrite !Zero. lia.
    - assert (Hy : y = last (x :: ps) (0, 0)).
      { apply (f_equal (@rev point)) in Em. rewrite rev_involutive in Em. rewrite Em. cbn [app rev]. now rewrite last_last. }
      cbn [app chain] in *. rewrite <- Hy in Gx. unfold total at 1 in Gx. unfold total at 1. cbn [map sum fold_right fst snd] in *. rewrite Zero in Gx. rewrite <- Hy.
      rewrite (crossing_anti (vsub p y) (vsub p x)). lia. }
  rewrite T. unfold u64. generalize (total p (edges ps)). intro t. symmetry. exact (Zminus_mod_idemp_r 0 t (2 ^ 64)).
Qed.
Print Assumptions C38_reversal.

(** C38: for a triangle, 1 strictly inside a counterclockwise one, -1 strictly inside a clockwise one, 0 outside. *)
Theorem C38_triangle : forall p a b c, within (2 ^ 30) p -> within (2 ^ 30) a -> within (2 ^ 30) b -> within (2 ^ 30) c ->
  ~ on_segment p a b -> ~ on_segment p b c -> ~ on_segment p c a -> in_polygon p [a; b; c] = Ok (u64 (triangle_winding p a b c)).
Proof.
  intros p a b c Hp Ha Hb Hc N1 N2 N3. rewrite in_polygon_total; [|assumption|constructor; [assumption|constructor; [assumption|constructor; [assumption|constructor]]]].
  f_equal. f_equal. rewrite <- triangle_crossing by assumption. unfold total, edges. cbn [last chain map sum fold_right fst snd]. lia.
Qed.
Print Assumptions C38_triangle.

(** The bound on the coordinates is needed: at the corners of the int32_t range the products overflow. *)
Theorem C38_overflow_refuted : exists p ps, Forall (fun q => int32 (fst q) /\ int32 (snd q)) (p :: ps) /\ off_edges p ps /\ in_polygon p ps = UB.
Proof.
  exists (2147483646, 0), [(-2147483648, 2147483647); (-2147483648, -2147483648); (2147483647, 0)]. split; [|split].
  - repeat constructor; cbn [fst snd]; lia.
  - intros a b H. unfold edges in H. cbn [last chain In] in H. destruct H as [H|[H|[H|[]]]]; inversion H; subst; unfold on_segment, orient; cbn [fst snd]; lia.
  - reflexivity.
Qed.
Print Assumptions C38_overflow_refuted.

Example C38_nonvacuous : in_polygon (1, 1) [(0, 0); (4, 0); (4, 4); (0, 4)] = Ok 1 /\ winding (100, 7) (1, 1) [(0, 0); (4, 0); (4, 4); (0, 4)] = 1 /\
  in_polygon (1, 1) [(0, 4); (4, 4); (4, 0); (0, 0)] = Ok (2 ^ 64 - 1) /\ in_polygon (5, 1) [(0, 0); (4, 0); (4, 4); (0, 4)] = Ok 0.
Proof. split; [|split; [|split]]; reflexivity. Qed.
