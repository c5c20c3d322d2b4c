(** Properties of the dictionary (C32). *)
From Verif Require Import Base Dictionary_Model Dictionary_Spec.
Local Open Scope Z_scope.

Section Dictionary.
Variables K V : Type.
Variable eqb : K -> K -> bool.
Variable geb : K -> K -> bool.
Hypothesis eqb_spec : forall a b, eqb a b = true <-> a = b.
Variable N : Z.
Variable k0 : K.
Variable v0 : V.
Hypothesis HN : 2 <= N.

Notation find := (d_find K V eqb geb).
Notation bind_ := (d_bind K V eqb geb N).
Notation run := (d_run K V eqb geb N).
Notation init := (d_init K V N k0 v0).

(** The events of a history: a bind was accepted when its handle is not nil. *)
Definition events (h : list (K * V)) (is : list Z) : list (event K V) :=
  map (fun '((k, v), i) => (k, v, negb (i =? 0))) (combine h is).

(** The position of a key in an association list. *)
Fixpoint pos (k : K) (m : list (K * V)) : option nat :=
  match m with
  | [] => None
  | (k', _) :: m => if eqb k' k then Some O else match pos k m with Some j => Some (S j) | None => None end
  end.

Lemma pos_none k m : pos k m = None <-> ~ In k (map fst m).
Proof.
  induction m as [|(k', v') m IH]; cbn [pos map fst In]; [tauto|]. destruct (eqb k' k) eqn:E.
  - apply eqb_spec in E. subst. split; [discriminate|tauto].
  - assert (k' <> k) by (intro; subst; rewrite (proj2 (eqb_spec k k) eq_refl) in E; discriminate).
    destruct (pos k m) as [j|].
    + split; [discriminate|]. intro C. exfalso. assert (Some j = None) by (apply IH; tauto). discriminate.
    + split; [|reflexivity]. intros _ [C|C]; [auto|]. exact (proj1 IH eq_refl C).
Qed.

Lemma pos_some k m j : pos k m = Some j -> exists v, nth_error m j = Some (k, v).
Proof.
  revert j. induction m as [|(k', v') m IH]; intros j; cbn [pos]; [discriminate|]. destruct (eqb k' k) eqn:E.
  - intros [= <-]. apply eqb_spec in E. subst. exists v'. reflexivity.
  - destruct (pos k m) as [i|]; [|discriminate]. intros [= <-]. destruct (IH i eq_refl) as [v Hv]. exists v. exact Hv.
Qed.

(** The representation of the association list m. *)
Definition repr (m : list (K * V)) (d : dict K V) : Prop :=
  NoDup (map fst m) /\ ~ In k0 (map fst m) /\ (length m <= Z.to_nat N - 1)%nat /\
  d_size K V d = (match m with [] => 0 | _ => 1 + Z.of_nat (length m) end) /\ d_heap K V d = 0 /\
  d_names K V d = k0 :: map fst m ++ repeat k0 (Z.to_nat N - 1 - length m) /\
  d_data K V d = v0 :: map snd m ++ repeat v0 (Z.to_nat N - 1 - length m).

Lemma getz_mid {A} (pre : list A) x l i : i = Z.of_nat (length pre) -> getz (pre ++ x :: l) i = Ok x.
Proof.
  intros ->. unfold getz. destruct (Z.ltb_spec (Z.of_nat (length pre)) 0); [lia|].
  unfold get. rewrite Nat2Z.id, nth_error_app2, Nat.sub_diag by lia. reflexivity.
Qed.

Lemma scan d n : forall ms fuel pre post, d_names K V d = pre ++ map fst ms ++ post ->
  d_size K V d = Z.of_nat (length pre) + Z.of_nat (length ms) -> (length ms <= fuel)%nat ->
  d_linear_scan K V eqb fuel d n (Z.of_nat (length pre)) =
    Ok (match pos n ms with Some j => Z.of_nat (length pre) + Z.of_nat j | None => 0 end).
Proof.
  induction ms as [|(k, v) ms IH]; intros fuel pre post En Es Hf.
  - destruct fuel; cbn [d_linear_scan]; rewrite Es; cbn [length]; destruct (Z.ltb_spec (Z.of_nat (length pre)) (Z.of_nat (length pre) + Z.of_nat 0)); try lia; reflexivity.
  - destruct fuel as [|fuel]; [cbn in Hf; lia|]. cbn [d_linear_scan]. rewrite Es. cbn [length] in *.
    destruct (Z.ltb_spec (Z.of_nat (length pre)) (Z.of_nat (length pre) + Z.of_nat (S (length ms)))); [|lia].
    rewrite En. cbn [map fst app]. rewrite getz_mid by reflexivity. cbn [bind pos]. destruct (eqb k n).
    + f_equal. lia.
    + assert (En' : d_names K V d = (pre ++ [k]) ++ map fst ms ++ post) by (rewrite <- app_assoc; exact En).
      specialize (IH fuel (pre ++ [k]) post En').
      rewrite app_length in IH. cbn [length] in IH. rewrite Es in IH. specialize (IH ltac:(lia) ltac:(lia)).
      replace (Z.of_nat (length pre) + 1) with (Z.of_nat (length pre + 1)) by lia. rewrite IH. destruct (pos n ms); f_equal; lia.
Qed.

Lemma find_repr m d n : repr m d -> n <> k0 -> find d n = Ok (match pos n m with Some j => 1 + Z.of_nat j | None => 0 end).
Proof.
  intros (_ & _ & _ & Es & Eh & En & _) Hn. unfold d_find. rewrite Eh. cbn [Z.to_nat d_heap_scan]. rewrite Eh.
  change (1 <? 0) with false. cbn [bind]. rewrite Z.sub_0_r.
  assert (E0 : eqb k0 n = false) by (destruct (eqb k0 n) eqn:E; [apply eqb_spec in E; congruence|reflexivity]).
  destruct m as [|kv m].
  - rewrite Es. cbn [Z.to_nat d_linear_scan]. rewrite Es. reflexivity.
  - pose proof (scan d n ((k0, v0) :: kv :: m) (Z.to_nat (d_size K V d)) [] (repeat k0 (Z.to_nat N - 1 - length (kv :: m)))) as S.
    cbn [length Z.of_nat] in *. rewrite S; [|exact En|lia|lia]. cbn [pos]. rewrite E0. destruct kv as [k v]. destruct (eqb k n); [f_equal; lia|].
    destruct (pos n m); f_equal. lia.
Qed.

Lemma init_repr : repr [] init.
Proof.
  unfold repr, d_init. cbn [d_size d_heap d_names d_data map length app].
  assert (E : (2 <= Z.to_nat N)%nat) by lia. destruct (Z.to_nat N) as [|n]; [lia|]. cbn [repeat]. replace (S n - 1 - 0)%nat with n by lia.
  split; [constructor|]. split; [tauto|]. split; [lia|]. auto.
Qed.

Lemma setz_mid {A} (pre : list A) x l i v : i = Z.of_nat (length pre) -> setz (pre ++ x :: l) i v = Ok (pre ++ v :: l).
Proof.
  intros ->. unfold setz. destruct (Z.ltb_spec (Z.of_nat (length pre)) 0); [lia|]. rewrite Nat2Z.id.
  rewrite set_Ok by (rewrite app_length; cbn [length]; lia). now rewrite upd_app_mid.
Qed.

Lemma NoDup_snoc {A} (l : list A) x : NoDup l -> ~ In x l -> NoDup (l ++ [x]).
Proof.
  intros H Hx. induction H as [|y l Hy H IH]; cbn [app]; [constructor; [tauto|constructor]|]. constructor.
  - intro I. apply in_app_or in I. destruct I as [I|[I|[]]]; [auto|]. subst. apply Hx. now left.
  - apply IH. intro. apply Hx. now right.
Qed.

Lemma bind_repr m d n v : repr m d -> n <> k0 ->
  match pos n m with
  | Some j => exists d' v' m1 m2, m = m1 ++ (n, v') :: m2 /\ length m1 = j /\ bind_ d n v = Ok (1 + Z.of_nat j, d') /\ repr (m1 ++ (n, v) :: m2) d'
  | None => if (length m =? Z.to_nat N - 1)%nat then bind_ d n v = Ok (0, d)
            else exists d', bind_ d n v = Ok (1 + Z.of_nat (length m), d') /\ repr (m ++ [(n, v)]) d'
  end.
Proof.
  intros R Hn. pose proof (find_repr m d n R Hn) as F. pose proof R as (Nd & N0 & Lm & Es & Eh & En & Ed).
  unfold d_bind. rewrite F. cbn [bind]. destruct (pos n m) as [j|] eqn:P.
  - destruct (pos_some n m j P) as [v' Hj]. apply nth_error_split in Hj. destruct Hj as (m1 & m2 & -> & Lj).
    destruct (Z.eqb_spec (1 + Z.of_nat j) 0); [lia|].
    rewrite Ed, map_app. cbn [map snd].
    replace (v0 :: (map snd m1 ++ v' :: map snd m2) ++ repeat v0 (Z.to_nat N - 1 - length (m1 ++ (n, v') :: m2)))
      with ((v0 :: map snd m1) ++ v' :: (map snd m2 ++ repeat v0 (Z.to_nat N - 1 - length (m1 ++ (n, v') :: m2)))) by (rewrite <- app_assoc; reflexivity).
    rewrite setz_mid by (cbn [length]; rewrite map_length; lia). cbn [bind].
    eexists _, v', m1, m2. split; [reflexivity|]. split; [assumption|]. split; [reflexivity|].
    assert (Ef : map fst (m1 ++ (n, v) :: m2) = map fst (m1 ++ (n, v') :: m2)) by (rewrite !map_app; reflexivity).
    assert (El : length (m1 ++ (n, v) :: m2) = length (m1 ++ (n, v') :: m2)) by (rewrite !app_length; reflexivity).
    unfold repr. rewrite Ef, El. cbn [d_size d_heap d_names d_data].
    split; [assumption|]. split; [assumption|]. split; [assumption|]. split; [|split; [assumption|split; [assumption|]]].
    + rewrite Es. destruct m1; cbn [app]; [reflexivity|]. cbn [length]. rewrite !app_length. reflexivity.
    + rewrite map_app. cbn [map snd]. rewrite <- !app_assoc. reflexivity.
  - cbn [Z.eqb]. apply pos_none in P.
    destruct (Nat.eqb_spec (length m) (Z.to_nat N - 1)) as [Ef|Ef].
    + destruct (Z.leb_spec N (d_size K V d)); [reflexivity|]. rewrite Es in *. destruct m; cbn [length] in *; lia.
    + assert (Sz : d_size K V d + (if d_size K V d =? 0 then 1 else 0) = 1 + Z.of_nat (length m)).
      { rewrite Es. destruct m; [reflexivity|]. destruct (Z.eqb_spec (1 + Z.of_nat (length (p :: m))) 0); lia. }
      destruct (Z.leb_spec N (d_size K V d)); [rewrite Es in *; destruct m; cbn [length] in *; lia|].
      cbv zeta. rewrite Sz, En, Ed.
      assert (Er : (Z.to_nat N - 1 - length m = S (Z.to_nat N - 1 - length (m ++ [(n, v)])))%nat) by (rewrite app_length; cbn [length]; lia).
      rewrite Er. cbn [repeat].
      change (k0 :: map fst m ++ k0 :: repeat k0 (Z.to_nat N - 1 - length (m ++ [(n, v)]))) with ((k0 :: map fst m) ++ k0 :: repeat k0 (Z.to_nat N - 1 - length (m ++ [(n, v)]))).
      change (v0 :: map snd m ++ v0 :: repeat v0 (Z.to_nat N - 1 - length (m ++ [(n, v)]))) with ((v0 :: map snd m) ++ v0 :: repeat v0 (Z.to_nat N - 1 - length (m ++ [(n, v)]))).
      rewrite !setz_mid by (cbn [length]; rewrite map_length; lia). cbn [bind].
      eexists. split; [reflexivity|]. unfold repr. cbn [d_size d_heap d_names d_data]. rewrite !map_app. cbn [map fst snd].
      split; [|split; [|split; [|split; [|split; [assumption|split]]]]].
      * apply NoDup_snoc; assumption.
      * intro I. apply in_app_or in I. destruct I as [I|[I|[]]]; [auto|congruence].
      * rewrite app_length. cbn [length]. lia.
      * rewrite app_length. cbn [length]. destruct m; cbn [app length]; lia.
      * cbn [app]. rewrite <- app_assoc. reflexivity.
      * cbn [app]. rewrite <- app_assoc. reflexivity.
Qed.

Lemma combine_app_eq {A B} (l : list A) (r : list B) a b : length r = length l -> combine (l ++ [a]) (r ++ [b]) = combine l r ++ [(a, b)].
Proof. revert r. induction l as [|x l IH]; intros [|y r] E; try discriminate; [reflexivity|]. cbn [app combine]. f_equal. apply IH. now injection E. Qed.

(** How the association list reflects the history. *)
Definition reflects (m : list (K * V)) (ev : list (event K V)) : Prop :=
  (forall k, In k (map fst m) <-> bound K V ev k) /\ (forall k v, In (k, v) m -> last_value K V k v ev).

Lemma bound_snoc ev k v b k' : bound K V (ev ++ [(k, v, b)]) k' <-> bound K V ev k' \/ (k' = k /\ b = true).
Proof.
  unfold bound. split.
  - intros (v' & I). apply in_app_or in I. destruct I as [I|[I|[]]]; [left; eauto|]. injection I as -> -> ->. now right.
  - intros [(v' & I)|[-> ->]]; [exists v'; apply in_or_app; now left|]. exists v. apply in_or_app. right. now left.
Qed.

Lemma run_app h1 h2 d : run d (h1 ++ h2) = ('(is, d) <- run d h1 ;; '(js, d) <- run d h2 ;; Ok (is ++ js, d)).
Proof.
  revert d. induction h1 as [|(n, v) h1 IH]; intro d; cbn [app d_run bind].
  - destruct (run d h2) as [[js d']| |]; reflexivity.
  - destruct (bind_ d n v) as [[i d']| |]; cbn [bind]; [|reflexivity|reflexivity]. rewrite IH.
    destruct (run d' h1) as [[is d1]| |]; cbn [bind]; [|reflexivity|reflexivity]. destruct (run d1 h2) as [[js d2]| |]; reflexivity.
Qed.

Lemma key_in (m : list (K * V)) k v : In (k, v) m -> In k (map fst m).
Proof. intro I. apply in_map_iff. exists (k, v). auto. Qed.

Lemma run_repr : forall h, Forall (fun kv => fst kv <> k0) h ->
  exists is d m, run init h = Ok (is, d) /\ length is = length h /\ repr m d /\ reflects m (events h is).
Proof.
  induction h as [|(n, v) h IH] using rev_ind; intro F.
  - exists [], init, []. split; [reflexivity|]. split; [reflexivity|]. split; [apply init_repr|].
    split; [|intros k v []]. intro k. split; [intros []|]. intros (v & []).
  - apply Forall_app in F. destruct F as [F1 F2]. inversion F2 as [|? ? Fn _]; subst. cbn [fst] in Fn.
    destruct (IH F1) as (is & d & m & Er & El & R & [Rb Rv]).
    pose proof (bind_repr m d n v R Fn) as B.
    assert (Ev : forall i, events (h ++ [(n, v)]) (is ++ [i]) = events h is ++ [(n, v, negb (i =? 0))]).
    { intro i. unfold events. rewrite combine_app_eq by auto. rewrite map_app. reflexivity. }
    rewrite run_app, Er. cbn [bind]. destruct (pos n m) as [j|] eqn:P.
    + destruct B as (d' & v' & m1 & m2 & -> & Lj & Eb & R'). cbn [d_run]. rewrite Eb. cbn [bind].
      exists (is ++ [1 + Z.of_nat j]), d', (m1 ++ (n, v) :: m2). split; [reflexivity|]. split; [rewrite !app_length; cbn [length]; lia|].
      split; [assumption|]. rewrite Ev. destruct (Z.eqb_spec (1 + Z.of_nat j) 0); [lia|]. cbn [negb].
      destruct R' as (Nd & _). split.
      * intro k. rewrite bound_snoc, <- Rb. rewrite !map_app. cbn [map fst]. rewrite !in_app_iff. cbn [In]. split; [tauto|]. intros [H|[-> _]]; [assumption|]. tauto.
      * intros k w I. apply in_app_or in I. destruct I as [I|[I|I]].
        -- apply lv_other; [apply Rv; apply in_or_app; now left|]. left. intros ->. rewrite map_app in Nd. cbn [map fst] in Nd.
           apply NoDup_remove_2 in Nd. apply Nd. apply in_or_app. left. now apply key_in in I.
        -- injection I as -> ->. apply lv_here.
        -- apply lv_other; [apply Rv; apply in_or_app; right; now right|]. left. intros ->. rewrite map_app in Nd. cbn [map fst] in Nd.
           apply NoDup_remove_2 in Nd. apply Nd. apply in_or_app. right. now apply key_in in I.
    + destruct (length m =? Z.to_nat N - 1)%nat.
      * cbn [d_run]. rewrite B. cbn [bind]. exists (is ++ [0]), d, m. split; [reflexivity|]. split; [rewrite !app_length; cbn [length]; lia|].
        split; [assumption|]. rewrite Ev. change (negb (0 =? 0)) with false. split.
        -- intro k. rewrite bound_snoc, <- Rb. split; [tauto|]. intros [H|[_ H]]; [assumption|discriminate].
        -- intros k w I. apply lv_other; auto.
      * destruct B as (d' & Eb & R'). cbn [d_run]. rewrite Eb. cbn [bind]. exists (is ++ [1 + Z.of_nat (length m)]), d', (m ++ [(n, v)]).
        split; [reflexivity|]. split; [rewrite !app_length; cbn [length]; lia|]. split; [assumption|]. rewrite Ev.
        destruct (Z.eqb_spec (1 + Z.of_nat (length m)) 0); [lia|]. cbn [negb]. apply pos_none in P. split.
        -- intro k. rewrite bound_snoc, <- Rb, map_app, in_app_iff. cbn [map fst In]. split; [intros [H|[H|[]]]; [tauto|right; auto]|].
           intros [H|[-> _]]; [tauto|]. right. now left.
        -- intros k w I. apply in_app_or in I. destruct I as [I|[I|[]]]; [|injection I as -> ->; apply lv_here].
           apply lv_other; [auto|]. left. intros ->. apply P. now apply key_in in I.
Qed.

Lemma at_repr m d j k v : repr m d -> nth_error m j = Some (k, v) -> d_at K V d (1 + Z.of_nat j) = Ok v.
Proof.
  intros (_ & _ & _ & Es & _ & _ & Ed) E. unfold d_at. pose proof E as E'. apply nth_error_split in E'. destruct E' as (m1 & m2 & -> & Lj).
  destruct (Z.eqb_spec (1 + Z.of_nat j) 0); [lia|].
  assert (Sz : d_size K V d = 1 + Z.of_nat (length (m1 ++ (k, v) :: m2))) by (rewrite Es; destruct m1; reflexivity).
  rewrite Sz, app_length. cbn [length negb andb].
  destruct (Z.ltb_spec (1 + Z.of_nat j) (1 + Z.of_nat (length m1 + S (length m2)))); [|lia].
  rewrite Ed, map_app. cbn [map snd]. rewrite <- app_assoc.
  change (v0 :: map snd m1 ++ (v :: map snd m2) ++ ?r) with ((v0 :: map snd m1) ++ v :: (map snd m2 ++ r)).
  apply (getz_mid (v0 :: map snd m1)). cbn [length]. rewrite map_length. lia.
Qed.

Lemma pos_in m k v : NoDup (map fst m) -> In (k, v) m -> exists j, pos k m = Some j /\ nth_error m j = Some (k, v).
Proof.
  intros Nd I. destruct (pos k m) as [j|] eqn:P.
  - exists j. split; [reflexivity|]. destruct (pos_some k m j P) as [w Hw]. rewrite Hw.
    apply In_nth_error in I. destruct I as [i Hi]. assert (i = j); [|congruence].
    apply (proj1 (NoDup_nth_error (map fst m)) Nd); [|rewrite !nth_error_map, Hi, Hw; reflexivity].
    apply nth_error_Some. rewrite nth_error_map, Hi. discriminate.
  - exfalso. apply pos_none in P. apply P. now apply key_in in I.
Qed.

Lemma stored_repr m ev : NoDup (map fst m) -> reflects m ev -> forall n, stored K V ev n <-> n = length m.
Proof.
  intros Nd [Rb _] n. split.
  - intros (ks & Nk & <- & Hk). apply Nat.le_antisymm.
    + rewrite <- (map_length fst m). apply NoDup_incl_length; [assumption|]. intros k I. apply Rb, Hk, I.
    + rewrite <- (map_length fst m). apply NoDup_incl_length; [assumption|]. intros k I. apply Hk, Rb, I.
  - intros ->. exists (map fst m). split; [assumption|]. split; [apply map_length|assumption].
Qed.

Lemma pos_app_some k m1 m2 j : pos k m1 = Some j -> pos k (m1 ++ m2) = Some j.
Proof.
  revert j. induction m1 as [|(k', v') m1 IH]; intros j; cbn [pos app]; [discriminate|]. destruct (eqb k' k); [auto|].
  destruct (pos k m1) as [i|]; [|discriminate]. intros [= <-]. now rewrite (IH i eq_refl).
Qed.

Lemma pos_replace k n v v' m1 m2 : pos k (m1 ++ (n, v) :: m2) = pos k (m1 ++ (n, v') :: m2).
Proof. induction m1 as [|(k', w) m1 IH]; cbn [pos app]; [reflexivity|]. now rewrite IH. Qed.

(** C32: find and operator[] after any history of binds of keys other than the value-initialised one. *)
Theorem find_history : forall h, Forall (fun kv => fst kv <> k0) h ->
  exists is d, run init h = Ok (is, d) /\ length is = length h /\
  forall k, k <> k0 -> exists i, find d k = Ok i /\ 0 <= i < N /\
    (i <> 0 <-> bound K V (events h is) k) /\
    (i <> 0 -> exists v, last_value K V k v (events h is) /\ d_at K V d i = Ok v /\ d_at_name K V eqb geb d k = Ok v).
Proof.
  intros h F. destruct (run_repr h F) as (is & d & m & Er & El & R & Rf). exists is, d. split; [assumption|]. split; [assumption|].
  intros k Hk. pose proof (find_repr m d k R Hk) as Fi. destruct (pos k m) as [j|] eqn:P.
  - destruct (pos_some k m j P) as [v Hv]. exists (1 + Z.of_nat j). split; [assumption|].
    assert (Lj : (j < length m)%nat) by (apply nth_error_Some; congruence).
    pose proof R as (_ & _ & Lm & _). split; [lia|]. split.
    + split; [|lia]. intros _. apply Rf. apply nth_error_In in Hv. now apply key_in in Hv.
    + intros _. exists v. split; [apply Rf; now apply nth_error_In in Hv|]. pose proof (at_repr m d j k v R Hv) as A. split; [assumption|].
      unfold d_at_name. rewrite Fi. exact A.
  - exists 0. split; [assumption|]. split; [lia|]. split; [|congruence]. split; [congruence|].
    intros B. apply Rf in B. apply pos_none in P. contradiction.
Qed.

(** C32: one more bind: when it fails, which handle it returns, and what it leaves alone. *)
Theorem bind_history : forall h k v, Forall (fun kv => fst kv <> k0) h -> k <> k0 ->
  exists is d i d', run init h = Ok (is, d) /\ bind_ d k v = Ok (i, d') /\
    (i = 0 <-> ~ bound K V (events h is) k /\ stored K V (events h is) (Z.to_nat (N - 1))) /\
    (i = 0 -> d' = d) /\
    (i <> 0 -> find d' k = Ok i) /\
    (bound K V (events h is) k -> find d k = Ok i) /\
    (forall k', k' <> k -> k' <> k0 -> find d' k' = find d k') /\
    (forall k' j w, k' <> k -> k' <> k0 -> find d k' = Ok j -> d_at K V d j = Ok w -> d_at K V d' j = Ok w).
Proof.
  intros h k v F Hk. destruct (run_repr h F) as (is & d & m & Er & El & R & Rf). pose proof (bind_repr m d k v R Hk) as B.
  pose proof R as (Nd & N0 & Lm & _). pose proof (stored_repr m _ Nd Rf) as St.
  assert (Pk : forall k', pos k' m = None <-> ~ bound K V (events h is) k') by (intro; rewrite pos_none; destruct Rf as [Rb _]; now rewrite Rb).
  assert (At0 : forall k' w, k' <> k0 -> pos k' m = None -> find d k' = Ok 0 /\ d_at K V d 0 <> Ok w).
  { intros k' w H P. rewrite (find_repr m d k' R H), P. split; [reflexivity|discriminate]. }
  destruct (pos k m) as [j|] eqn:P.
  - destruct B as (d' & v' & m1 & m2 & -> & Lj & Eb & R'). exists is, d, (1 + Z.of_nat j), d'.
    split; [assumption|]. split; [assumption|]. split; [|split; [lia|split; [|split; [|split]]]].
    + split; [lia|]. intros [H _]. apply Pk in H. congruence.
    + intros _. rewrite (find_repr _ d' k R' Hk), (pos_replace k k v v'), P. reflexivity.
    + intros _. rewrite (find_repr _ d k R Hk), P. reflexivity.
    + intros k' _ H. rewrite (find_repr _ d' k' R' H), (find_repr _ d k' R H), (pos_replace k' k v v'). reflexivity.
    + intros k' i w Hkk H Ef Ea. rewrite (find_repr _ d k' R H) in Ef. destruct (pos k' (m1 ++ (k, v') :: m2)) as [i'|] eqn:P'.
      2:{ injection Ef as <-. discriminate. }
      assert (Ei : i = 1 + Z.of_nat i') by congruence. subst i. destruct (pos_some _ _ _ P') as [w' Hw']. pose proof (at_repr _ d i' k' w' R Hw') as A. rewrite A in Ea. injection Ea as ->.
      apply (at_repr _ d' i' k' w R'). clear - Hw' Hkk. revert i' Hw'. induction m1 as [|x m1 IH]; intros [|i'] H; cbn [app nth_error] in *; auto. congruence.
  - destruct (Nat.eqb_spec (length m) (Z.to_nat N - 1)) as [Ef|Ef].
    + exists is, d, 0, d. split; [assumption|]. split; [assumption|]. split; [|split; [auto|split; [congruence|split; [|split; auto]]]].
      * split; [|auto]. intros _. split; [now apply Pk|]. apply St. lia.
      * intro H. exfalso. now apply (proj1 (Pk k)).
    + destruct B as (d' & Eb & R'). exists is, d, (1 + Z.of_nat (length m)), d'.
      assert (Pa : forall k', k' <> k -> pos k' (m ++ [(k, v)]) = pos k' m).
      { clear - eqb_spec. intros k' H. induction m as [|(a, w) m IH]; cbn [pos app].
        - destruct (eqb k k') eqn:E; [apply eqb_spec in E; congruence|reflexivity].
        - now rewrite IH. }
      split; [assumption|]. split; [assumption|]. split; [|split; [lia|split; [|split; [|split]]]].
      * split; [lia|]. intros [_ H]. apply St in H. lia.
      * intros _. rewrite (find_repr _ d' k R' Hk).
        destruct (pos_in (m ++ [(k, v)]) k v) as (j & Pj & Ej); [apply R'|apply in_or_app; right; now left|]. rewrite Pj. f_equal. f_equal. f_equal.
        assert (Lt : (j < length (m ++ [(k, v)]))%nat) by (apply nth_error_Some; congruence). rewrite app_length in Lt. cbn [length] in Lt.
        destruct (Nat.eq_dec j (length m)); [assumption|]. exfalso. rewrite nth_error_app1 in Ej by lia. apply nth_error_In, key_in in Ej.
        now apply (proj1 (pos_none k m)) in P.
      * intro H. exfalso. now apply (proj1 (Pk k)).
      * intros k' Hkk H. rewrite (find_repr _ d' k' R' H), (find_repr _ d k' R H), Pa by assumption. reflexivity.
      * intros k' i w Hkk H Efi Ea. rewrite (find_repr _ d k' R H) in Efi. destruct (pos k' m) as [i'|] eqn:P'.
        2:{ injection Efi as <-. discriminate. }
        assert (Ei : i = 1 + Z.of_nat i') by congruence. subst i. destruct (pos_some _ _ _ P') as [w' Hw']. pose proof (at_repr _ d i' k' w' R Hw') as A. rewrite A in Ea. injection Ea as ->.
        apply (at_repr _ d' i' k' w R'). rewrite nth_error_app1; [assumption|]. apply nth_error_Some. congruence.
Qed.
End Dictionary.

(** C32 for every history of binds whose keys differ from the value-initialised key K{}: find returns a handle exactly
    for the keys bound successfully, and the handle leads to the value bound last. Missing: the key K{} (see below). *)
Theorem C32_find_partial : forall K V eqb geb, (forall a b : K, eqb a b = true <-> a = b) ->
  forall N k0 (v0 : V), 2 <= N -> forall h, Forall (fun kv => fst kv <> k0) h ->
  exists is d, d_run K V eqb geb N (d_init K V N k0 v0) h = Ok (is, d) /\ length is = length h /\
  forall k, k <> k0 -> exists i, d_find K V eqb geb d k = Ok i /\ 0 <= i < N /\
    (i <> 0 <-> bound K V (events K V h is) k) /\
    (i <> 0 -> exists v, last_value K V k v (events K V h is) /\ d_at K V d i = Ok v /\ d_at_name K V eqb geb d k = Ok v).
Proof. intros. apply find_history; assumption. Qed.
Print Assumptions C32_find_partial.

(** C32: a further bind fails exactly when the key is new and N - 1 keys are stored, and then changes nothing; otherwise its
    handle is what find returns from then on, a key already bound keeps its handle, and every other key keeps its handle
    and its value. *)
Theorem C32_bind_partial : forall K V eqb geb, (forall a b : K, eqb a b = true <-> a = b) ->
  forall N k0 (v0 : V), 2 <= N -> forall h k v, Forall (fun kv => fst kv <> k0) h -> k <> k0 ->
  exists is d i d', d_run K V eqb geb N (d_init K V N k0 v0) h = Ok (is, d) /\ d_bind K V eqb geb N d k v = Ok (i, d') /\
    (i = 0 <-> ~ bound K V (events K V h is) k /\ stored K V (events K V h is) (Z.to_nat (N - 1))) /\
    (i = 0 -> d' = d) /\
    (i <> 0 -> d_find K V eqb geb d' k = Ok i) /\
    (bound K V (events K V h is) k -> d_find K V eqb geb d k = Ok i) /\
    (forall k', k' <> k -> k' <> k0 -> d_find K V eqb geb d' k' = d_find K V eqb geb d k') /\
    (forall k' j w, k' <> k -> k' <> k0 -> d_find K V eqb geb d k' = Ok j -> d_at K V d j = Ok w -> d_at K V d' j = Ok w).
Proof. intros. apply bind_history; assumption. Qed.
Print Assumptions C32_bind_partial.

Example C32_nonvacuous :
  d_run Z Z Z.eqb Z.geb 3 (d_init Z Z 3 0 0) [(7, 70); (8, 80); (7, 71); (9, 90)] =
    Ok ([1; 2; 1; 0], {| d_size := 3; d_data := [0; 71; 80]; d_heap := 0; d_names := [0; 7; 8] |}).
Proof. reflexivity. Qed.

(** C32 fails for the key K{}: names[0] holds it, so find answers nil for it after every history. *)
Theorem C32_refuted_zero_key : forall K V eqb geb, (forall a b : K, eqb a b = true <-> a = b) ->
  forall N k0 (v0 : V), 2 <= N -> forall h is d,
  d_run K V eqb geb N (d_init K V N k0 v0) h = Ok (is, d) -> d_find K V eqb geb d k0 = Ok 0.
Proof.
  intros K V eqb geb Heq N k0 v0 HN h is d.
  assert (I0 : exists r, d_names K V (d_init K V N k0 v0) = k0 :: r).
  { cbn [d_names d_init]. destruct (Z.to_nat N) eqn:E; [lia|]. cbn [repeat]. eauto. }
  assert (H0 : d_heap K V (d_init K V N k0 v0) = 0) by reflexivity.
  assert (S0 : 0 <= d_size K V (d_init K V N k0 v0)) by (cbn; lia).
  remember (d_init K V N k0 v0) as d0 eqn:Ed. clear Ed.
  assert (F : forall d, (exists r, d_names K V d = k0 :: r) -> d_heap K V d = 0 -> 0 <= d_size K V d -> d_find K V eqb geb d k0 = Ok 0).
  { clear - Heq. intros d (r & Er) Eh Hs. unfold d_find. rewrite Eh. cbn [Z.to_nat d_heap_scan]. rewrite Eh. change (1 <? 0) with false.
    cbn [bind]. rewrite Z.sub_0_r. destruct (Z.to_nat (d_size K V d)) eqn:E; cbn [d_linear_scan].
    - destruct (Z.ltb_spec 0 (d_size K V d)); [lia|reflexivity].
    - destruct (Z.ltb_spec 0 (d_size K V d)); [|reflexivity]. rewrite Er. cbn [getz Z.ltb Z.compare Z.to_nat get nth_error bind].
      rewrite (proj2 (Heq k0 k0) eq_refl). reflexivity. }
  revert is d0 I0 H0 S0. induction h as [|(n, v) h IH]; intros is d0 I0 H0 S0; cbn [d_run].
  - intros [= <- <-]. apply F; assumption.
  - destruct (d_bind K V eqb geb N d0 n v) as [[i d1]| |] eqn:Eb; cbn [bind]; [|discriminate|discriminate].
    destruct (d_run K V eqb geb N d1 h) as [[js d2]| |] eqn:Er; cbn [bind]; [|discriminate|discriminate]. intros [= <- <-].
    apply (IH js d1); [| | |assumption].
    all: revert Eb; unfold d_bind; destruct (d_find K V eqb geb d0 n) as [f| |]; cbn [bind]; try discriminate.
    all: destruct (f =? 0).
    1,3,5: destruct (N <=? d_size K V d0); [intros [= <- <-]; assumption|].
    1,2,3: cbv zeta; destruct (setz (d_names K V d0) (d_size K V d0 + (if d_size K V d0 =? 0 then 1 else 0)) n) as [nm| |] eqn:En; cbn [bind]; try discriminate;
      destruct (setz (d_data K V d0) (d_size K V d0 + (if d_size K V d0 =? 0 then 1 else 0)) v) as [dt| |]; cbn [bind]; try discriminate;
      intros [= <- <-]; cbn [d_names d_heap d_size].
    4,5,6: destruct (setz (d_data K V d0) f v) as [dt| |]; cbn [bind]; try discriminate; intros [= <- <-]; assumption.
    + destruct I0 as (r & Er0). rewrite Er0 in En. unfold setz in En.
      destruct (Z.eqb_spec (d_size K V d0) 0); (destruct (_ <? 0); [discriminate|]); unfold set in En.
      * replace (Z.to_nat (d_size K V d0 + 1)) with 1%nat in En by lia. destruct r as [|x r]; [discriminate|]. injection En as <-. eauto.
      * destruct (Z.to_nat (d_size K V d0 + 0)) as [|m] eqn:Em; [lia|]. destruct (_ <? _)%nat; [|discriminate]. injection En as <-. cbn [upd]. eauto.
    + assumption.
    + destruct (d_size K V d0 =? 0); lia.
Qed.
Print Assumptions C32_refuted_zero_key.

(** ... and every bind of it takes a fresh slot: after two of them a three-slot dictionary rejects a second key. *)
Theorem C32_refuted_leak :
  d_run Z Z Z.eqb Z.geb 3 (d_init Z Z 3 0 0) [(0, 1); (0, 2); (7, 3)] =
    Ok ([1; 2; 0], {| d_size := 3; d_data := [0; 1; 2]; d_heap := 0; d_names := [0; 0; 0] |}).
Proof. reflexivity. Qed.
Print Assumptions C32_refuted_leak.

(** N = 1 compiles, and the first bind writes past both arrays, whatever is bound. *)
Theorem C32_refuted_one_slot : forall K V eqb geb k0 (v0 : V) (k : K) v, d_bind K V eqb geb 1 (d_init K V 1 k0 v0) k v = UB.
Proof. reflexivity. Qed.
Print Assumptions C32_refuted_one_slot.

(** Extra: a dictionary whose first names a user has arranged as a binary search tree (heap > 0; optimize() is
    a stub). For every such dictionary with distinct names find is exact on every key, the key K{} included. *)
Section Heap.
Variables (K V : Type) (eqb geb : K -> K -> bool) (lt : K -> K -> Prop).
Hypothesis eqb_spec : forall a b, eqb a b = true <-> a = b.
Hypothesis geb_spec : forall a b, geb a b = false <-> lt a b.
Hypothesis lt_asym : forall a b, lt a b -> ~ lt b a.

Lemma half_step j t i : 0 <= t -> j / 2 ^ (t + 1) = i -> j / 2 ^ t = 2 * i \/ j / 2 ^ t = 2 * i + 1.
Proof.
  intros Ht E. rewrite Z.pow_add_r, <- Z.div_div in E by lia. change (2 ^ 1) with 2 in E.
  pose proof (Z.div_mod (j / 2 ^ t) 2 ltac:(lia)). pose proof (Z.mod_pos_bound (j / 2 ^ t) 2 ltac:(lia)). lia.
Qed.

Lemma getz_nth {A} (l : list A) i x : 0 <= i -> getz l i = Ok x <-> nth_error l (Z.to_nat i) = Some x.
Proof.
  intro Hi. unfold getz, get. destruct (Z.ltb_spec i 0); [lia|]. destruct (nth_error l (Z.to_nat i)); split; congruence.
Qed.

Lemma heap_scan_sound d n : forall fuel i, 1 <= i -> d_heap K V d <= i + Z.of_nat fuel -> d_heap K V d <= Z.of_nat (length (d_names K V d)) ->
  exists o, d_heap_scan K V eqb geb fuel d n i = Ok o /\
    forall j, o = Some j -> i <= j < d_heap K V d /\ nth_error (d_names K V d) (Z.to_nat j) = Some n.
Proof.
  induction fuel as [|fuel IH]; intros i Hi Hf Hl; cbn [d_heap_scan]; destruct (Z.ltb_spec i (d_heap K V d)) as [Hlt|].
  - lia.
  - exists None. split; [reflexivity|discriminate].
  - destruct (nth_error (d_names K V d) (Z.to_nat i)) as [k|] eqn:E; [|apply nth_error_None in E; lia].
    rewrite (proj2 (getz_nth (d_names K V d) i k ltac:(lia)) E). cbn [bind]. destruct (eqb k n) eqn:Eq.
    + exists (Some i). split; [reflexivity|]. intros j [= <-]. apply eqb_spec in Eq. subst. split; [lia|assumption].
    + destruct (IH (i + (i + (if geb k n then 1 else 0)))) as (o & Eo & Ho); [destruct (geb k n); lia|destruct (geb k n); lia|assumption|].
      exists o. split; [assumption|]. intros j Ej. destruct (Ho j Ej) as [Hj Hn]. split; [|assumption]. destruct (geb k n); lia.
  - exists None. split; [reflexivity|discriminate].
Qed.

Lemma heap_scan_complete d n j : search_tree lt (d_names K V d) (d_heap K V d) -> 1 <= j < d_heap K V d ->
  nth_error (d_names K V d) (Z.to_nat j) = Some n -> d_heap K V d <= Z.of_nat (length (d_names K V d)) ->
  forall fuel i t, 1 <= i -> d_heap K V d <= i + Z.of_nat fuel -> 0 <= t -> j / 2 ^ t = i -> d_heap_scan K V eqb geb fuel d n i <> Ok None.
Proof.
  intros T Hj Ej Hl. induction fuel as [|fuel IH]; intros i t Hi Hf Ht Et.
  all: assert (Hle : i <= j) by (subst i; apply Z.div_le_upper_bound; [apply Z.pow_pos_nonneg; lia|]; assert (1 <= 2 ^ t) by (apply Z.pow_le_mono_r with (a := 2) (b := 0) (c := t); lia); nia).
  - lia.
  - cbn [d_heap_scan]. destruct (Z.ltb_spec i (d_heap K V d)) as [Hlt|]; [|lia].
    destruct (nth_error (d_names K V d) (Z.to_nat i)) as [k|] eqn:E; [|apply nth_error_None in E; lia].
    rewrite (proj2 (getz_nth (d_names K V d) i k ltac:(lia)) E). cbn [bind]. destruct (eqb k n) eqn:Eq; [discriminate|].
    assert (Ht' : 1 <= t). { destruct (Z.eq_dec t 0) as [->|]; [|lia]. exfalso. rewrite Z.pow_0_r, Z.div_1_r in Et. subst i. rewrite Ej in E. injection E as <-.
      rewrite (proj2 (eqb_spec n n) eq_refl) in Eq. discriminate. }
    destruct (half_step j (t - 1) i ltac:(lia)) as [C|C]; [now replace (t - 1 + 1) with t by lia| |].
    + pose proof (proj1 (T i j (t - 1) k n ltac:(lia) Hj ltac:(lia) E Ej) C) as L. apply geb_spec in L. rewrite L.
      apply (IH _ (t - 1)); lia.
    + pose proof (proj2 (T i j (t - 1) k n ltac:(lia) Hj ltac:(lia) E Ej) C) as L.
      destruct (geb k n) eqn:G; [|apply geb_spec in G; exfalso; exact (lt_asym _ _ L G)].
      apply (IH _ (t - 1)); lia.
Qed.

Lemma linear_scan_exact d n : forall fuel i, 1 <= i -> d_size K V d <= i + Z.of_nat fuel -> d_size K V d <= Z.of_nat (length (d_names K V d)) ->
  exists r, d_linear_scan K V eqb fuel d n i = Ok r /\ (r = 0 \/ i <= r < d_size K V d /\ nth_error (d_names K V d) (Z.to_nat r) = Some n) /\
    (r = 0 -> forall j, i <= j < d_size K V d -> nth_error (d_names K V d) (Z.to_nat j) <> Some n).
Proof.
  induction fuel as [|fuel IH]; intros i Hi Hf Hl; cbn [d_linear_scan]; destruct (Z.ltb_spec i (d_size K V d)) as [Hlt|].
  - lia.
  - exists 0. split; [reflexivity|]. split; [now left|]. intros; lia.
  - destruct (nth_error (d_names K V d) (Z.to_nat i)) as [k|] eqn:E; [|apply nth_error_None in E; lia].
    rewrite (proj2 (getz_nth (d_names K V d) i k ltac:(lia)) E). cbn [bind]. destruct (eqb k n) eqn:Eq.
    + exists i. apply eqb_spec in Eq. subst. split; [reflexivity|]. split; [right; split; [lia|assumption]|]. lia.
    + destruct (IH (i + 1)) as (r & Er & Hr & H0); [lia|lia|assumption|]. exists r. split; [assumption|]. split.
      * destruct Hr as [?|[? ?]]; [now left|]. right. split; [lia|assumption].
      * intros R j Hj C. destruct (Z.eq_dec j i) as [->|]; [|apply (H0 R j); [lia|assumption]].
        rewrite C in E. injection E as <-. rewrite (proj2 (eqb_spec n n) eq_refl) in Eq. discriminate.
  - exists 0. split; [reflexivity|]. split; [now left|]. intros; lia.
Qed.

Lemma heap_find d : 1 <= d_heap K V d <= d_size K V d -> d_size K V d <= Z.of_nat (length (d_names K V d)) ->
  NoDup (d_names K V d) -> search_tree lt (d_names K V d) (d_heap K V d) ->
  forall n, exists i, d_find K V eqb geb d n = Ok i /\ 0 <= i < d_size K V d /\
    forall j, 1 <= j < d_size K V d -> (nth_error (d_names K V d) (Z.to_nat j) = Some n <-> i = j).
Proof.
  intros Hh Hl Nd T n. unfold d_find.
  destruct (heap_scan_sound d n (Z.to_nat (d_heap K V d)) 1 ltac:(lia) ltac:(lia) ltac:(lia)) as (o & Eo & Ho). rewrite Eo. cbn [bind].
  assert (U : forall a b, 0 <= a -> 0 <= b -> nth_error (d_names K V d) (Z.to_nat a) = Some n -> nth_error (d_names K V d) (Z.to_nat b) = Some n -> a = b).
  { intros a b Ha Hb Ea Eb. apply Z2Nat.inj; [lia|lia|]. apply (proj1 (NoDup_nth_error _) Nd); [apply nth_error_Some; congruence|congruence]. }
  destruct o as [i|].
  - destruct (Ho i eq_refl) as [Hi Ei]. exists i. split; [reflexivity|]. split; [lia|]. intros j Hj. split; [|intros <-; assumption].
    intro Ej. apply U; [lia|lia|assumption|assumption].
  - destruct (linear_scan_exact d n (Z.to_nat (d_size K V d - d_heap K V d)) (d_heap K V d) ltac:(lia) ltac:(lia) Hl) as (r & Er & Hr & H0).
    exists r. split; [assumption|]. split; [destruct Hr; lia|]. intros j Hj. split.
    + intro Ej. destruct (Z_lt_ge_dec j (d_heap K V d)) as [L|G].
      * exfalso. apply (heap_scan_complete d n j T ltac:(lia) Ej ltac:(lia) (Z.to_nat (d_heap K V d)) 1 (Z.log2 j)); [lia|lia|apply Z.log2_nonneg| |assumption].
        pose proof (Z.log2_spec j ltac:(lia)) as [L1 L2]. rewrite Z.pow_succ_r in L2 by apply Z.log2_nonneg.
        symmetry. apply (Z.div_unique_pos j (2 ^ Z.log2 j) 1 (j - 2 ^ Z.log2 j)); lia.
      * destruct Hr as [->|[Hr Er']]; [exfalso; apply (H0 eq_refl j); [lia|assumption]|]. apply U; [lia|lia|assumption|assumption].
    + intros ->. destruct Hr as [->|[_ ?]]; [lia|assumption].
Qed.
End Heap.

Theorem C32_find_with_heap : forall K V eqb geb (lt : K -> K -> Prop),
  (forall a b, eqb a b = true <-> a = b) -> (forall a b, geb a b = false <-> lt a b) -> (forall a b, lt a b -> ~ lt b a) ->
  forall d : dict K V, 1 <= d_heap K V d <= d_size K V d -> d_size K V d <= Z.of_nat (length (d_names K V d)) ->
  NoDup (d_names K V d) -> search_tree lt (d_names K V d) (d_heap K V d) ->
  forall n, exists i, d_find K V eqb geb d n = Ok i /\ 0 <= i < d_size K V d /\
    forall j, 1 <= j < d_size K V d -> (nth_error (d_names K V d) (Z.to_nat j) = Some n <-> i = j).
Proof. intros K V eqb geb lt H1 H2 H3. now apply (heap_find K V eqb geb lt). Qed.
Print Assumptions C32_find_with_heap.

(** A heap of three names (5 at the root, 8 on the 2i side, 2 on the 2i+1 side) and one name after it. *)
Example C32_heap_nonvacuous :
  let d := {| d_size := 5; d_data := [0; 50; 80; 20; 90]; d_heap := 4; d_names := [-1; 5; 8; 2; 0] |} in
  search_tree Z.lt (d_names Z Z d) 4 /\ map (d_find Z Z Z.eqb Z.geb d) [5; 8; 2; 0; 7] = [Ok 1; Ok 2; Ok 3; Ok 4; Ok 0].
Proof.
  split; [|reflexivity]. intros i j t ki kj Hi Hj Ht. cbn [d_names].
  assert (T : t = 0 \/ j / 2 ^ t <= 1).
  { destruct (Z.eq_dec t 0); [now left|right]. assert (2 ^ 1 <= 2 ^ t) by (apply Z.pow_le_mono_r; lia). change (2 ^ 1) with 2 in *.
    enough (j / 2 ^ t < 2) by lia. apply Z.div_lt_upper_bound; lia. }
  destruct T as [->|T].
  - rewrite Z.pow_0_r, Z.div_1_r. assert (I : i = 1 \/ i = 2 \/ i = 3) by lia. assert (J : j = 1 \/ j = 2 \/ j = 3) by lia.
    destruct I as [-> | [-> | -> ]], J as [-> | [-> | -> ]]; cbn; intros [= <-] [= <-]; split; lia.
  - intros _ _. split; lia.
Qed.
