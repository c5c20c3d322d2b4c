(** A walk that has not come to an end after a number of turns that depends on the size of the arrays only will never do so. *)
From Coq Require Import List.
Import ListNotations.
From Verif Require Import Base Vec_Model Math_Model Vec_Spec Cdt_Model Cdt_Fuel Cdt_Search_Model Cdt_Cycle_Props.
Local Open Scope Z_scope.

(** ** A deterministic machine on a finite set *)
Section Machine.
  Context {A : Type} (dec : forall x y : A, {x = y} + {x <> y}) (step : A -> option A) (L : list A) (halt : A -> Prop).
  Hypothesis closed : forall x y, In x L -> step x = Some y -> In y L \/ halt y.
  Definition stops (y : A) : Prop := (In y L /\ step y = None) \/ halt y.
  Fixpoint iter (n : nat) (x : A) : option A := match n with O => Some x | S n => match step x with Some y => iter n y | None => None end end.

  Lemma iter_app n m x y : iter n x = Some y -> iter (n + m) x = iter m y.
  Proof. revert x. induction n as [|n IH]; intros x E; cbn [iter plus] in *; [congruence|]. destruct (step x); [now apply IH|discriminate E]. Qed.
  Lemma iter_snoc n x y : iter n x = Some y -> iter (S n) x = step y.
  Proof. intro E. rewrite <- Nat.add_1_r, (iter_app n 1 x y E). cbn [iter]. now destruct (step y). Qed.
  Lemma iter_back n m x y : iter n x = Some y -> (m <= n)%nat -> exists z, iter m x = Some z.
  Proof.
    revert x m. induction n as [|n IH]; intros x [|m] E Hm; try lia; [now exists x|now exists x|]. cbn [iter] in *. destruct (step x); [|discriminate E]. apply (IH a m E). lia.
  Qed.

  Lemma path k : forall x, In x L -> (exists n y, (n <= S k)%nat /\ iter n x = Some y /\ stops y) \/ exists l, length l = S k /\ (forall i y, nth_error l i = Some y -> iter i x = Some y) /\ incl l L.
  Proof.
    induction k as [|k IH]; intros x Hx.
    - right. exists [x]. split; [reflexivity|]. split; [intros [|[|i]] y E; cbn in E; try discriminate E; now injection E as <-|intros y [<-|[]]; assumption].
    - destruct (step x) as [y|] eqn:E; [|left; exists O, x; split; [lia|split; [reflexivity|left; auto]]]. destruct (closed x y Hx E) as [Hy|Hy].
      + destruct (IH y Hy) as [(n & z & Hn & E1 & E2)|(l & Ln & Hl & Il)].
        * left. exists (S n), z. split; [lia|]. cbn [iter]. rewrite E. auto.
        * right. exists (x :: l). split; [cbn; lia|]. split; [|intros z [<-|Hz]; [assumption|now apply Il]]. intros [|i] z Ez; cbn in Ez; [now injection Ez as <-|]. cbn [iter]. rewrite E. now apply Hl.
      + left. exists 1%nat, y. split; [lia|]. cbn [iter]. rewrite E. split; [reflexivity|now right].
  Qed.
  (** It stops after at most one step more than there are states, or never. *)
  Lemma machine x : In x L -> (exists n y, (n <= S (length L))%nat /\ iter n x = Some y /\ stops y) \/ forall n, exists y, iter n x = Some y.
  Proof.
    intro Hx. destruct (path (length L) x Hx) as [H|(l & Ln & Hl & Il)]; [now left|right].
    assert (D : exists i j y, (i < j)%nat /\ iter i x = Some y /\ iter j x = Some y).
    { assert (ND : ~ NoDup l) by (intro ND; pose proof (NoDup_incl_length ND Il); lia). clear Ln Il Hx.
      assert (G : forall l, ~ NoDup l -> exists i j (y : A), (i < j)%nat /\ nth_error l i = Some y /\ nth_error l j = Some y).
      { clear -dec. induction l as [|a l IH]; intro N; [destruct N; constructor|]. destruct (in_dec dec a l) as [Ha|Ha].
        - apply In_nth_error in Ha. destruct Ha as (j & Ej). exists O, (S j), a. split; [lia|]. split; [reflexivity|assumption].
        - destruct IH as (i & j & y & H1 & H2 & H3); [intro D; apply N; now constructor|]. exists (S i), (S j), y. split; [lia|]. split; assumption. }
      destruct (G l ND) as (i & j & y & Hij & E1 & E2). exists i, j, y. split; [assumption|]. split; now apply Hl. }
    destruct D as (i & j & y & Hij & E1 & E2).
    assert (Cyc : forall n, exists z, iter n y = Some z).
    { intro n. induction n as [n IH] using (well_founded_induction lt_wf). replace j with (i + (j - i))%nat in E2 by lia. rewrite (iter_app i _ x y E1) in E2.
      destruct (le_lt_dec (j - i) n) as [Ln'|Ln']; [|now apply (iter_back (j - i) n y y E2); lia]. destruct (IH (n - (j - i))%nat ltac:(lia)) as (z & Ez). exists z. replace n with ((j - i) + (n - (j - i)))%nat by lia. now rewrite (iter_app _ _ y y E2). }
    intro n. destruct (le_lt_dec i n) as [Li|Li]; [|now apply (iter_back i n x y E1); lia]. destruct (Cyc (n - i)%nat) as (z & Ez). exists z. replace n with (i + (n - i))%nat by lia. now rewrite (iter_app _ _ x y E1).
  Qed.
End Machine.

Section Bound.
  Context (limit : Z) (s : mesh) (px py : Z).
  Local Notation state := (Z * (Z * Z) * (Z * Z))%type.

  Definition indices : list Z := map Z.of_nat (seq 0 (Z.to_nat (8 * limit))).
  Definition vectors : list (Z * Z) := map (fun n => match rel limit s px py n with Ok v => v | _ => (0, 0) end) indices.
  Definition states : list state := list_prod (list_prod indices vectors) vectors.
  Definition span : nat := Z.to_nat (8 * limit).
  Lemma states_length : length states = (span * span * span)%nat.
  Proof. unfold states. rewrite !prod_length. unfold vectors. rewrite map_length. unfold indices. now rewrite map_length, seq_length. Qed.
  Lemma index_in n : edge_node limit n = true -> In n indices.
  Proof. unfold edge_node. rewrite !andb_true_iff, Z.leb_le, Z.ltb_lt. intros [[H1 H2] _]. apply in_map_iff. exists (Z.to_nat n). split; [lia|]. apply in_seq. lia. Qed.
  Lemma rel_index n v : rel limit s px py n = Ok v -> edge_node limit n = true.
  Proof. unfold rel, get_p. destruct (edge_node limit n); [reflexivity|discriminate]. Qed.
  Lemma vector_in n v : rel limit s px py n = Ok v -> In v vectors.
  Proof. intro E. apply in_map_iff. exists n. rewrite E. split; [reflexivity|]. apply index_in. now apply (rel_index n v). Qed.
  Lemma state_in e p1 p2 : In (e, p1, p2) states <-> In e indices /\ In p1 vectors /\ In p2 vectors.
  Proof. unfold states. rewrite !in_prod_iff. tauto. Qed.
  Lemma state_dec (x y : state) : {x = y} + {x <> y}.
  Proof. repeat decide equality. Qed.

  (** *** The spin *)
  Definition spin_step (st : state) : option state :=
    let '(e, p1, p2) := st in
    if e =? 0 then None else
    match rel limit s px py e with
    | Ok p0 => match in_ p0 p1 with Ok false => match get_e limit s (prv e) with Ok e' => Some (e', p1, p0) | _ => None end | _ => None end
    | _ => None end.
  Definition spin_of (fuel : nat) (st : state) := let '(e, p1, p2) := st in spin limit fuel s px py e p1 p2.
  Lemma spin_next fuel st st' : spin_step st = Some st' -> spin_of (S fuel) st = spin_of fuel st'.
  Proof.
    destruct st as [[e p1] p2]. unfold spin_step, spin_of. cbn [spin]. destruct (e =? 0); [discriminate|]. destruct (rel limit s px py e) as [p0| |]; try discriminate. cbn [bind]. destruct (in_ p0 p1) as [[|]| |]; try discriminate. cbn [bind].
    destruct (get_e limit s (prv e)) as [e'| |]; try discriminate. cbn [bind]. now intros [= <-].
  Qed.
  Lemma spin_stop fuel st : spin_step st = None -> spin_of (S fuel) st <> Timeout.
  Proof.
    destruct st as [[e p1] p2]. unfold spin_step, spin_of. cbn [spin]. destruct (e =? 0); [discriminate|]. assert (R : rel limit s px py e <> Timeout). { unfold rel, get_p, get_v, chk64. destruct (edge_node limit e); cbn [bind]; [|discriminate]. destruct (vert_index limit (pt s e)); cbn [bind]; [|discriminate]. destruct (in_sb 64 (vx s (pt s e) - px)); cbn [bind]; [|discriminate]. destruct (in_sb 64 (vy s (pt s e) - py)); cbn [bind]; discriminate. }
    destruct (rel limit s px py e) as [p0| |]; cbn [bind]; [|discriminate|congruence].
    assert (I : in_ p0 p1 <> Timeout). { unfold in_, chk64. destruct (in_sb 64 (fst p0 * snd p1)); cbn [bind]; [|discriminate]. destruct (in_sb 64 (snd p0 * fst p1)); cbn [bind]; discriminate. }
    destruct (in_ p0 p1) as [[|]| |]; cbn [bind]; try discriminate; [|congruence]. unfold get_e. destruct (edge_node limit (prv e)); cbn [bind]; discriminate.
  Qed.
  Lemma spin_closed x y : In x states -> spin_step x = Some y -> In y states \/ forall fuel, spin_of (S fuel) y <> Timeout.
  Proof.
    destruct x as [[e p1] p2]. intro H. apply state_in in H. destruct H as (_ & H1 & H2). unfold spin_step at 1. destruct (e =? 0); [discriminate|]. destruct (rel limit s px py e) as [p0| |] eqn:Er; try discriminate.
    destruct (in_ p0 p1) as [[|]| |]; try discriminate. destruct (get_e limit s (prv e)) as [e'| |]; try discriminate. intros [= <-].
    destruct (rel limit s px py e') as [v| |] eqn:Er'.
    - left. apply state_in. split; [apply index_in; now apply (rel_index e' v)|]. split; [assumption|now apply (vector_in e)].
    - right. intro fuel. apply spin_stop. unfold spin_step. rewrite Er'. now destruct (e' =? 0).
    - right. intro fuel. apply spin_stop. unfold spin_step. rewrite Er'. now destruct (e' =? 0).
  Qed.
  Definition spin_turns : nat := S (S (span * span * span)).
  Lemma spin_never st : In st states -> spin_of spin_turns st = Timeout -> forall fuel, spin_of fuel st = Timeout.
  Proof.
    intros H T. destruct (machine state_dec spin_step states (fun y => forall fuel, spin_of (S fuel) y <> Timeout) spin_closed st H) as [(n & y & Hn & E & Hy)|Al].
    - exfalso. assert (Hy' : forall fuel, spin_of (S fuel) y <> Timeout) by (destruct Hy as [[_ Hy]|Hy]; [intro fuel; now apply spin_stop|assumption]). clear Hy. rewrite states_length in Hn. unfold spin_turns in T. replace (S (S (span * span * span))) with (n + S (S (span * span * span) - n))%nat in T by lia. revert T. generalize (S (span * span * span) - n)%nat. clear H Hn. revert st E.
      induction n as [|n IH]; intros st E m; cbn [iter] in E; [injection E as ->; apply Hy'|]. destruct (spin_step st) as [st'|] eqn:Es; [|discriminate E]. cbn [plus]. rewrite (spin_next _ _ _ Es). now apply IH.
    - intro fuel. clear H T. revert st Al. induction fuel as [|fuel IH]; intros st Al; [now destruct st as [[? ?] ?]|]. destruct (Al 1%nat) as (y & Ey). cbn [iter] in Ey. destruct (spin_step st) as [st'|] eqn:Es; [|discriminate Ey].
      rewrite (spin_next _ _ _ Es). apply IH. intro n. destruct (Al (S n)) as (z & Ez). cbn [iter] in Ez. rewrite Es in Ez. now exists z.
  Qed.

  (** *** The walk *)
  Definition walk_step (st : state) : option state := match walk_turn limit s px py spin_turns st with Ok (Some y) => Some y | _ => None end.
  Definition walk_of (fuel : nat) (st : state) := let '(e, p1, p2) := st in walk limit fuel s px py e p1 p2.
  Lemma rel_total n : rel limit s px py n <> Timeout.
  Proof.
    unfold rel, get_p, get_v, chk64. destruct (edge_node limit n); cbn [bind]; [|discriminate]. destruct (vert_index limit (pt s n)); cbn [bind]; [|discriminate]. destruct (in_sb 64 (vx s (pt s n) - px)); cbn [bind]; [|discriminate]. destruct (in_sb 64 (vy s (pt s n) - py)); cbn [bind]; discriminate.
  Qed.
  Lemma in_total a b : in_ a b <> Timeout.
  Proof. unfold in_, chk64. destruct (in_sb 64 (fst a * snd b)); cbn [bind]; [|discriminate]. destruct (in_sb 64 (snd a * fst b)); cbn [bind]; discriminate. Qed.
  Lemma get_total n : get_e limit s n <> Timeout.
  Proof. unfold get_e. destruct (edge_node limit n); discriminate. Qed.

  Lemma spin_vectors fuel : forall e p1 p2 e' p0 p2', In p2 vectors -> spin limit fuel s px py e p1 p2 = Ok (Some (e', p0, p2')) -> In p0 vectors /\ In p2' vectors.
  Proof.
    induction fuel as [|fuel IH]; intros e p1 p2 e' p0 p2' H E; [discriminate E|]. cbn [spin] in E. destruct (e =? 0); [discriminate E|]. destruct (rel limit s px py e) as [v| |] eqn:Er; try discriminate E. cbn [bind] in E.
    destruct (in_ v p1) as [[|]| |]; try discriminate E; cbn [bind] in E; [injection E as <- <- <-; split; [now apply (vector_in e)|assumption]|]. destruct (get_e limit s (prv e)) as [k| |]; try discriminate E. cbn [bind] in E. apply (IH k p1 v e' p0 p2'); [now apply (vector_in e)|assumption].
  Qed.
  Lemma walk_closed x y : In x states -> walk_step x = Some y -> In y states \/ forall fuel, walk_of (S fuel) y <> Timeout.
  Proof.
    destruct x as [[e p1] p2]. intro H. apply state_in in H. destruct H as (_ & H1 & H2). intro E.
    assert (K : let '(_, a, b) := y in In a vectors /\ In b vectors).
    { unfold walk_step, walk_turn in E. destruct (e =? 0); [discriminate E|]. destruct (rel limit s px py e) as [p0| |] eqn:Er; try discriminate E. cbn [bind] in E. pose proof (vector_in e p0 Er) as H0.
      destruct (in_ p2 p0) as [i1| |]; try discriminate E. cbn [bind] in E. destruct (in_ p0 p1) as [i2| |]; try discriminate E. cbn [bind] in E.
      destruct i1, i2; cbn [andb negb] in E; try discriminate E.
      - destruct (get_e limit s (prv e)) as [e'| |]; try discriminate E. injection E as <-. auto.
      - destruct (get_e limit s (nxt e)) as [e'| |]; try discriminate E. injection E as <-. auto.
      - destruct (get_e limit s (nxt e)) as [e'| |]; try discriminate E. cbn [bind] in E. destruct (spin limit spin_turns s px py e' p0 p2) as [[[[e2 q0] q2]|]| |] eqn:Es; try discriminate E. cbn [bind] in E.
        destruct (spin_vectors _ _ _ _ _ _ _ H2 Es) as [V1 V2]. destruct (in_ q2 q0) as [[|]| |]; try discriminate E. cbn [bind] in E. destruct (get_e limit s (nxt e2)) as [e3| |]; try discriminate E. injection E as <-. auto. }
    destruct y as [[e' a] b]. destruct K as [K1 K2]. destruct (rel limit s px py e') as [v| |] eqn:Er'.
    - left. apply state_in. split; [apply index_in; now apply (rel_index e' v)|auto].
    - right. intro fuel. unfold walk_of. cbn [walk]. rewrite Er'. now destruct (e' =? 0).
    - exfalso. now apply (rel_total e').
  Qed.
  Lemma walk_of_next fuel st st' : walk_step st = Some st' -> walk_of (S fuel) st = Timeout \/ walk_of (S fuel) st = walk_of fuel st'.
  Proof.
    intro E. unfold walk_step in E. destruct (walk_turn limit s px py spin_turns st) as [[y|]| |] eqn:Et; try discriminate E. injection E as ->. exact (walk_next limit s px py spin_turns fuel st st' Et).
  Qed.
  Lemma walk_of_far fuel st st' : (spin_turns <= fuel)%nat -> walk_step st = Some st' -> walk_of (S fuel) st = walk_of fuel st'.
  Proof.
    intros L E. destruct st as [[e p1] p2]. unfold walk_step, walk_turn in E. unfold walk_of. cbn [walk]. destruct (e =? 0); [discriminate E|].
    destruct (rel limit s px py e) as [p0| |]; cbn [bind] in *; try discriminate E. destruct (in_ p2 p0) as [i1| |]; cbn [bind] in *; try discriminate E. destruct (in_ p0 p1) as [i2| |]; cbn [bind] in *; try discriminate E.
    destruct i1, i2; cbn [andb negb] in *; try discriminate E.
    - destruct (get_e limit s (prv e)) as [e'| |]; cbn [bind] in *; try discriminate E. now injection E as <-.
    - destruct (get_e limit s (nxt e)) as [e'| |]; cbn [bind] in *; try discriminate E. now injection E as <-.
    - destruct (get_e limit s (nxt e)) as [e'| |]; cbn [bind] in *; try discriminate E. destruct (spin limit spin_turns s px py e' p0 p2) as [r| |] eqn:Es; cbn [bind] in E; try discriminate E.
      rewrite (upto_ok _ _ _ (spin_mono limit spin_turns fuel s px py e' p0 p2 L) Es). cbn [bind]. destruct r as [[[e2 q0] q2]|]; [|discriminate E].
      destruct (in_ q2 q0) as [[|]| |]; cbn [bind] in *; try discriminate E. destruct (get_e limit s (nxt e2)) as [e3| |]; cbn [bind] in *; try discriminate E. now injection E as <-.
  Qed.
  (** A turn without a next one ends the walk, or it spins for ever. *)
  Lemma walk_stop st : In st states -> walk_step st = None -> (forall fuel, (spin_turns <= fuel)%nat -> walk_of (S fuel) st <> Timeout) \/ forall fuel, walk_of fuel st = Timeout.
  Proof.
    destruct st as [[e p1] p2]. intros H E. apply state_in in H. destruct H as (_ & H1 & H2). unfold walk_step, walk_turn in E. unfold walk_of.
    destruct (e =? 0) eqn:E0; [left; intros fuel _; cbn [walk]; rewrite E0; discriminate|].
    pose proof (rel_total e) as R. destruct (rel limit s px py e) as [p0| |] eqn:Er; cbn [bind] in E; [|left; intros fuel _; cbn [walk]; rewrite E0, Er; discriminate|congruence]. pose proof (vector_in e p0 Er) as H0.
    pose proof (in_total p2 p0) as I1. destruct (in_ p2 p0) as [i1| |] eqn:Ei1; cbn [bind] in E; [|left; intros fuel _; cbn [walk]; rewrite E0, Er; cbn [bind]; rewrite Ei1; discriminate|congruence].
    pose proof (in_total p0 p1) as I2. destruct (in_ p0 p1) as [i2| |] eqn:Ei2; cbn [bind] in E; [|left; intros fuel _; cbn [walk]; rewrite E0, Er; cbn [bind]; rewrite Ei1; cbn [bind]; rewrite Ei2; discriminate|congruence].
    assert (U : forall fuel, walk limit (S fuel) s px py e p1 p2 = if (i1 && i2)%bool then Ok e else if (i1 && negb i2)%bool then (e <- get_e limit s (prv e) ;; walk limit fuel s px py e p1 p0)
      else if (negb i1 && i2)%bool then (e <- get_e limit s (nxt e) ;; walk limit fuel s px py e p0 p2) else
        e <- get_e limit s (nxt e) ;; r <- spin limit fuel s px py e p0 p2 ;;
        match r with None => Ok 0 | Some (e, p0', p2) => i <- in_ p2 p0' ;; if (i : bool) then Ok e else (e <- get_e limit s (nxt e) ;; walk limit fuel s px py e p0' p2) end).
    { intro fuel. cbn [walk]. rewrite E0, Er. cbn [bind]. rewrite Ei1. cbn [bind]. rewrite Ei2. reflexivity. }
    destruct i1, i2; cbn [andb negb] in *.
    - left. intros fuel _. rewrite U. discriminate.
    - left. intros fuel _. rewrite U. pose proof (get_total (prv e)) as T. destruct (get_e limit s (prv e)) as [e'| |]; cbn [bind] in *; [discriminate E|discriminate|congruence].
    - left. intros fuel _. rewrite U. pose proof (get_total (nxt e)) as T. destruct (get_e limit s (nxt e)) as [e'| |]; cbn [bind] in *; [discriminate E|discriminate|congruence].
    - pose proof (get_total (nxt e)) as T. destruct (get_e limit s (nxt e)) as [e'| |]; cbn [bind] in *; [|left; intros fuel _; rewrite U; discriminate|congruence].
      destruct (spin limit spin_turns s px py e' p0 p2) as [r| |] eqn:Es; cbn [bind] in E.
      + left. intros fuel L. rewrite U, (upto_ok _ _ _ (spin_mono limit spin_turns fuel s px py e' p0 p2 L) Es). cbn [bind]. destruct r as [[[e2 q0] q2]|]; [|discriminate].
        pose proof (in_total q2 q0) as I3. destruct (in_ q2 q0) as [[|]| |]; cbn [bind] in *; [discriminate| |discriminate|congruence]. pose proof (get_total (nxt e2)) as T3. destruct (get_e limit s (nxt e2)) as [e3| |]; cbn [bind] in *; [discriminate E|discriminate|congruence].
      + left. intros fuel L. rewrite U. destruct (spin_mono limit spin_turns fuel s px py e' p0 p2 L) as [X|X]; rewrite Es in X; [discriminate X|]. rewrite X. discriminate.
      + right. assert (S' : forall fuel, spin limit fuel s px py e' p0 p2 = Timeout).
        { destruct (rel limit s px py e') as [v| |] eqn:Er'.
          - apply (spin_never (e', p0, p2)); [|exact Es]. apply state_in. split; [apply index_in; now apply (rel_index e' v)|auto].
          - exfalso. unfold spin_turns in Es. cbn [spin] in Es. rewrite Er' in Es. destruct (e' =? 0); discriminate Es.
          - exfalso. now apply (rel_total e'). }
        intros [|fuel]; [reflexivity|]. rewrite U, S'. reflexivity.
  Qed.
  Definition walk_turns : nat := (span * span * span + (spin_turns + 3))%nat.
  Lemma walk_never_ends st : In st states -> walk_of walk_turns st = Timeout -> forall fuel, walk_of fuel st = Timeout.
  Proof.
    assert (Go : forall n st y, iter walk_step n st = Some y -> (forall fuel, walk_of fuel y = Timeout) -> forall fuel, walk_of fuel st = Timeout).
    { clear st. induction n as [|n IH]; intros st y E H fuel; cbn [iter] in E; [injection E as <-; apply H|]. destruct (walk_step st) as [st'|] eqn:Es; [|discriminate E].
      destruct fuel as [|fuel]; [now destruct st as [[? ?] ?]|]. destruct (walk_of_next fuel st st' Es) as [-> | ->]; [reflexivity|]. now apply (IH st' y). }
    intros H T. destruct (machine state_dec walk_step states (fun y => forall fuel, walk_of (S fuel) y <> Timeout) walk_closed st H) as [(n & y & Hn & E & Hy)|Al].
    - assert (D : (forall fuel, (spin_turns <= fuel)%nat -> walk_of (S fuel) y <> Timeout) \/ forall fuel, walk_of fuel y = Timeout) by (destruct Hy as [[Iy Hy]|Hy]; [now apply walk_stop|left; auto]).
      destruct D as [D|D]; [exfalso|now apply (Go n st y)]. rewrite states_length in Hn. unfold walk_turns in T. replace (span * span * span + (spin_turns + 3))%nat with (n + S (spin_turns + (S (S (span * span * span)) - n)))%nat in T by lia.
      revert T. generalize (S (S (span * span * span)) - n)%nat. clear H Hn Hy. revert st E. induction n as [|n IH]; intros st E m; cbn [iter] in E; [injection E as ->; apply D; lia|].
      destruct (walk_step st) as [st'|] eqn:Es; [|discriminate E]. cbn [plus]. rewrite (walk_of_far (n + S (spin_turns + m)) st st' ltac:(lia) Es). now apply IH.
    - intro fuel. clear H T. revert st Al. induction fuel as [|fuel IH]; intros st Al; [now destruct st as [[? ?] ?]|]. destruct (Al 1%nat) as (y & Ey). cbn [iter] in Ey. destruct (walk_step st) as [st'|] eqn:Es; [|discriminate Ey].
      destruct (walk_of_next fuel st st' Es) as [-> | ->]; [reflexivity|]. apply IH. intro n. destruct (Al (S n)) as (z & Ez). cbn [iter] in Ez. rewrite Es in Ez. now exists z.
  Qed.

  Lemma walk_of_any st : (let '(_, a, b) := st in In a vectors /\ In b vectors) -> walk_of walk_turns st = Timeout -> forall fuel, walk_of fuel st = Timeout.
  Proof.
    destruct st as [[e a] b]. intros [Ha Hb] T. destruct (rel limit s px py e) as [v| |] eqn:Er.
    - apply walk_never_ends; [|assumption]. apply state_in. split; [apply index_in; now apply (rel_index e v)|auto].
    - exfalso. unfold walk_turns in T. rewrite Nat.add_succ_r, Nat.add_succ_r in T. unfold walk_of in T. cbn [walk] in T. rewrite Er in T. destruct (e =? 0); discriminate T.
    - exfalso. now apply (rel_total e).
  Qed.
  Theorem locate_never h : locate_insertion_node limit walk_turns s px py h = Timeout -> forall fuel, locate_insertion_node limit fuel s px py h = Timeout.
  Proof.
    unfold locate_insertion_node. cbv zeta. set (e := (if (h <? 24) || (h >=? size s * 8) then size s * 8 - 4 else h) / 4 * 4).
    destruct (rel limit s px py (e + 1)) as [p1| |] eqn:E1; cbn [bind]; [|discriminate|reflexivity]. destruct (rel limit s px py (e + 2)) as [p2| |] eqn:E2; cbn [bind]; [|discriminate|reflexivity].
    pose proof (vector_in _ _ E1) as V1. pose proof (vector_in _ _ E2) as V2. destruct (in_ p1 p2) as [[|]| |]; cbn [bind negb]; [|  |discriminate|reflexivity].
    - apply (walk_of_any (e, p1, p2)). auto.
    - destruct (get_e limit s e) as [e'| |]; cbn [bind]; [|discriminate|reflexivity]. apply (walk_of_any (e', p2, p1)). auto.
  Qed.
End Bound.

(** ** insert_edge with the walks cut off, and without *)
Section Cut.
  Context (limit : Z) (wrap : bool).

  Definition alike {A} (r r' : res A) : Prop := r = Timeout \/ r' = Timeout \/ r = r'.
  Lemma alike_mono {A} (f : nat -> res A) : (forall n m, (n <= m)%nat -> upto (f n) (f m)) -> forall n m, alike (f n) (f m).
  Proof. intros H n m. destruct (Nat.le_ge_cases n m) as [L|L]; destruct (H _ _ L) as [X|X]; unfold alike; [now left|right; right; now symmetry|now right; left|now right; right]. Qed.

  (** With [o] the run with cut walks and [r] the run of the code: a result of [o] is the result of [r] when that is long enough. *)
  Definition gives {A} (o : res (option A)) (r : res A) : Prop := forall x, o = Ok (Some x) -> r = Ok x.
  (** And if [o] gave up, [r] does not end. *)
  Definition stuck {A} (o : res (option A)) (r : res A) : Prop := match o with Ok (Some x) => r = Ok x \/ r = Timeout | Ok None => r = Timeout | _ => True end.

  Lemma gives_bind {A B} (r r' : res A) (k : A -> res (option B)) k' : upto r r' -> (forall x, gives (k x) (k' x)) -> gives (bind r k) (bind r' k').
  Proof. intros [-> | ->] H x E; [discriminate E|]. destruct r as [y| |]; cbn [bind] in *; [now apply H|discriminate E..]. Qed.
  Lemma gives_try {A B} o (r : res A) (k : A -> res (option B)) k' : gives o r -> (forall x, gives (k x) (k' x)) -> gives (try o k) (bind r k').
  Proof. intros Ho H x E. unfold try in E. destruct o as [[y|]| |]; cbn [bind] in E; try discriminate E. rewrite (Ho y eq_refl). cbn [bind]. now apply H. Qed.
  Lemma gives_ok {A} (x : A) : gives (Ok (Some x)) (Ok x).
  Proof. intros y E. congruence. Qed.
  Lemma gives_bad {A} (r : res A) : gives UB r /\ gives Timeout r.
  Proof. split; discriminate. Qed.
  Lemma stuck_bind {A B} (r r' : res A) (k : A -> res (option B)) k' : alike r r' -> (forall x, stuck (k x) (k' x)) -> stuck (bind r k) (bind r' k').
  Proof. intros [-> |[-> | ->]] H; [exact I| |destruct r' as [y| |]; cbn [bind]; [apply H|exact I..]]. destruct r as [y| |]; cbn [bind]; [|exact I..]. destruct (k y) as [[z|]| |]; cbn [stuck]; auto. Qed.
  Lemma stuck_try {A B} o (r : res A) (k : A -> res (option B)) k' : stuck o r -> (forall x, stuck (k x) (k' x)) -> stuck (try o k) (bind r k').
  Proof. intros Ho H. unfold try. destruct o as [[y|]| |]; cbn [bind stuck] in *; [|now rewrite Ho|exact I..]. destruct Ho as [-> | ->]; cbn [bind]; [apply H|]. destruct (k y) as [[z|]| |]; cbn [stuck]; auto. Qed.
  Lemma stuck_ok {A} (x : A) : stuck (Ok (Some x)) (Ok x).
  Proof. now left. Qed.

  Lemma alike_refl {A} (r : res A) : alike r r.
  Proof. right. now right. Qed.
  Ltac go :=
    repeat first
    [ match goal with |- gives (Ok (Some ?x)) (Ok ?x) => exact (gives_ok x) | |- stuck (Ok (Some ?x)) (Ok ?x) => exact (stuck_ok x) | |- upto ?r ?r => exact (upto_refl r) | |- alike ?r ?r => exact (alike_refl r) end
    | match goal with |- gives (try _ _) (bind _ _) => apply gives_try; [|intro] | |- stuck (try _ _) (bind _ _) => apply stuck_try; [|intro]
        | |- gives (bind _ _) (bind _ _) => apply gives_bind; [|intro] | |- stuck (bind _ _) (bind _ _) => apply stuck_bind; [|intro] end
    | match goal with
      | H : forall _, _ |- gives (walk_at_most _ _ _ _ _ _) _ => apply H; solve [lia]
      | H : forall _, _ |- gives (insert_edge_by _ _ _ _ _ _ _ _ _ _) (insert_edge64 _ _ _ _ _ _ _ _ _) => apply H; solve [lia]
      | H : forall _, _ |- gives (edge_loop_by _ _ _ _ _ _ _ _ _ _) (edge_loop _ _ _ _ _ _ _ _ _) => apply H; solve [lia]
      | H : forall _, _ |- upto (insert_point_at_node _ _ _ _ _ _ _) _ => apply H; solve [lia]
      | H : forall _, _ |- upto (constrain_edge _ _ _ _ _) _ => apply H; solve [lia]
      | H : forall _, _ |- stuck (walk_at_most _ _ _ _ _ _) (locate_insertion_node _ _ _ _ _ _) => exact (H _ _ _ _ _)
      | H : forall _, _ |- stuck (insert_edge_by _ _ _ _ _ _ _ _ _ _) (insert_edge64 _ _ _ _ _ _ _ _ _) => exact (H _ _ _ _ _ _ _)
      | H : forall _, _ |- stuck (edge_loop_by _ _ _ _ _ _ _ _ _ _) (edge_loop _ _ _ _ _ _ _ _ _) => exact (H _ _ _ _ _ _ _)
      | H : forall _, _ |- alike (insert_point_at_node _ _ _ _ _ _ _) _ => exact (H _ _ _ _ _ _)
      | H : forall _, _ |- alike (constrain_edge _ _ _ _ _) _ => exact (H _ _ _ _)
      end
    | match goal with |- _ (match ?x with _ => _ end) _ => destruct x end ].

  Lemma walk_gives F n s px py h : (F <= n)%nat -> gives (walk_at_most limit F s px py h) (locate_insertion_node limit n s px py h).
  Proof.
    intros L x E. unfold walk_at_most in E. destruct (locate_insertion_node limit F s px py h) as [y| |] eqn:El; [|discriminate E..]. injection E as <-. exact (upto_ok _ _ _ (locate_mono limit F n s px py h L) El).
  Qed.
  Lemma cut_gives F fuel :
    (forall n s px py qx qy h, (fuel + F <= n)%nat -> gives (insert_edge_by limit wrap (walk_at_most limit F) fuel s px py qx qy h) (insert_edge64 limit wrap n s px py qx qy h)) /\
    (forall n s px py qx qy pn, (fuel + F <= n)%nat -> gives (edge_loop_by limit wrap (walk_at_most limit F) fuel s px py qx qy pn) (edge_loop limit wrap n s px py qx qy pn)).
  Proof.
    pose proof (walk_gives F) as W. pose proof (at_node_mono limit wrap) as A. pose proof (constrain_mono limit wrap) as C.
    induction fuel as [|fuel [IHe IHl]]; [split; discriminate|]. split; intros [|n] s px py qx qy h L; try lia.
    - cbn [insert_edge_by insert_edge64]. fold (insert_edge_by limit wrap (walk_at_most limit F)) (edge_loop_by limit wrap (walk_at_most limit F)) (insert_edge64 limit wrap) (edge_loop limit wrap). go.
    - cbn [edge_loop_by edge_loop]. fold (insert_edge_by limit wrap (walk_at_most limit F)) (edge_loop_by limit wrap (walk_at_most limit F)) (insert_edge64 limit wrap) (edge_loop limit wrap). cbv zeta. go.
  Qed.

  Lemma walk_stuck n s px py h : stuck (walk_at_most limit (walk_turns limit) s px py h) (locate_insertion_node limit n s px py h).
  Proof.
    unfold walk_at_most. pose proof (alike_mono (fun n => locate_insertion_node limit n s px py h) (fun a b L => locate_mono limit a b s px py h L) (walk_turns limit) n) as X. cbv beta in X.
    destruct (locate_insertion_node limit (walk_turns limit) s px py h) as [y| |] eqn:El; cbn [stuck]; [|exact I|now apply locate_never]. destruct X as [X|[X|X]]; [discriminate X|now right|now left].
  Qed.
  Lemma cut_stuck fuel :
    (forall n s px py qx qy h, stuck (insert_edge_by limit wrap (walk_at_most limit (walk_turns limit)) fuel s px py qx qy h) (insert_edge64 limit wrap n s px py qx qy h)) /\
    (forall n s px py qx qy pn, stuck (edge_loop_by limit wrap (walk_at_most limit (walk_turns limit)) fuel s px py qx qy pn) (edge_loop limit wrap n s px py qx qy pn)).
  Proof.
    pose proof walk_stuck as W.
    assert (A : forall n m s px py k, alike (insert_point_at_node limit wrap n s px py k) (insert_point_at_node limit wrap m s px py k)) by (intros n m s px py k; apply (alike_mono (fun n => insert_point_at_node limit wrap n s px py k)); intros; now apply at_node_mono).
    assert (C : forall n m s e, alike (constrain_edge limit wrap n s e) (constrain_edge limit wrap m s e)) by (intros n m s e; apply (alike_mono (fun n => constrain_edge limit wrap n s e)); intros; now apply constrain_mono).
    assert (T : forall {B} (o : res (option B)), stuck o Timeout) by (intros B [[x|]| |]; cbn [stuck]; auto).
    set (F := walk_turns limit) in *. clearbody F.
    induction fuel as [|fuel [IHe IHl]]; [split; intros; exact I|]. split; intros [|n] s px py qx qy h; try apply T.
    - cbn [insert_edge_by insert_edge64]. fold (insert_edge_by limit wrap (walk_at_most limit F)) (edge_loop_by limit wrap (walk_at_most limit F)) (insert_edge64 limit wrap) (edge_loop limit wrap). go.
    - cbn [edge_loop_by edge_loop]. fold (insert_edge_by limit wrap (walk_at_most limit F)) (edge_loop_by limit wrap (walk_at_most limit F)) (insert_edge64 limit wrap) (edge_loop limit wrap). cbv zeta. go.
  Qed.
End Cut.
