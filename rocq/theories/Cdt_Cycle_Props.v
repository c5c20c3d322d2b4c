(** C77: on a mesh with inserted edges the walk to a point can go round in circles for ever. *)
From Coq Require Import List ZArith Lia.
Import ListNotations.
From Verif Require Import Base Vec_Model Math_Model Vec_Spec Cdt_Model Cdt_Spec Cdt_Props Cdt_Fuel Cdt_Edge_Props.
Local Open Scope Z_scope.

Section Cycle.
  Context (limit q : Z) (s : mesh) (px py : Z).
  Local Notation state := (Z * (Z * Z) * (Z * Z))%type.

  (** One turn of the loop of the walk: the next state, or None when the walk ends. *)
  Definition walk_turn (k : nat) (st : state) : res (option state) :=
    let '(e, p1, p2) := st in
    if e =? 0 then Ok None
    else
      p0 <- rel limit s px py e ;; in1 <- in_ p2 p0 ;; in2 <- in_ p0 p1 ;;
      if (in1 && in2)%bool then Ok None
      else if (in1 && negb in2)%bool then (e <- get_e limit s (prv e) ;; Ok (Some (e, p1, p0)))
      else if (negb in1 && in2)%bool then (e <- get_e limit s (nxt e) ;; Ok (Some (e, p0, p2)))
      else
        e <- get_e limit s (nxt e) ;; r <- spin limit k s px py e p0 p2 ;;
        match r with
        | None => Ok None
        | Some (e, p0', p2) => i <- in_ p2 p0' ;; if (i : bool) then Ok None else (e <- get_e limit s (nxt e) ;; Ok (Some (e, p0', p2)))
        end.
  Definition walk32_turn (k : nat) (st : state) : res (option state) :=
    let '(e, p1, p2) := st in
    if e =? 0 then Ok None
    else
      p0 <- rel32 limit q s px py e ;; in1 <- inside p2 p0 ;; in2 <- inside p0 p1 ;;
      if (in1 && in2)%bool then Ok None
      else if (in1 && negb in2)%bool then (e <- get_e limit s (prv e) ;; Ok (Some (e, p1, p0)))
      else if (negb in1 && in2)%bool then (e <- get_e limit s (nxt e) ;; Ok (Some (e, p0, p2)))
      else
        e <- get_e limit s (nxt e) ;; r <- spin32 limit q k s px py e p0 p2 ;;
        match r with
        | None => Ok None
        | Some (e, p0', p2) => i <- inside p2 p0' ;; if (i : bool) then Ok None else (e <- get_e limit s (nxt e) ;; Ok (Some (e, p0', p2)))
        end.
  Fixpoint turns (f : state -> res (option state)) (n : nat) (st : state) : res (option state) :=
    match n with O => Ok (Some st) | S n => r <- f st ;; match r with None => Ok None | Some st => turns f n st end end.

  Lemma spin_any k : forall m e p1 p2 r, spin limit k s px py e p1 p2 = Ok r -> spin limit m s px py e p1 p2 = Timeout \/ spin limit m s px py e p1 p2 = Ok r.
  Proof.
    induction k as [|k IH]; intros m e p1 p2 r H; [discriminate H|]. destruct m as [|m]; [now left|]. cbn [spin] in *. destruct (e =? 0); [now right|].
    destruct (rel limit s px py e) as [p0| |]; cbn [bind] in *; try discriminate H. destruct (in_ p0 p1) as [[|]| |]; cbn [bind] in *; try discriminate H; [now right|].
    destruct (get_e limit s (prv e)) as [e'| |]; cbn [bind] in *; try discriminate H. now apply IH.
  Qed.
  Lemma spin32_any k : forall m e p1 p2 r, spin32 limit q k s px py e p1 p2 = Ok r -> spin32 limit q m s px py e p1 p2 = Timeout \/ spin32 limit q m s px py e p1 p2 = Ok r.
  Proof.
    induction k as [|k IH]; intros m e p1 p2 r H; [discriminate H|]. destruct m as [|m]; [now left|]. cbn [spin32] in *. destruct (e =? 0); [now right|].
    destruct (rel32 limit q s px py e) as [p0| |]; cbn [bind] in *; try discriminate H. destruct (inside p0 p1) as [[|]| |]; cbn [bind] in *; try discriminate H; [now right|].
    destruct (get_e limit s (prv e)) as [e'| |]; cbn [bind] in *; try discriminate H. now apply IH.
  Qed.
  Lemma walk_next k fuel st st' : walk_turn k st = Ok (Some st') -> let w f (x : state) := let '(e, p1, p2) := x in walk limit f s px py e p1 p2 in w (S fuel) st = Timeout \/ w (S fuel) st = w fuel st'.
  Proof.
    destruct st as [[e p1] p2]. unfold walk_turn. cbn [walk]. cbv zeta. destruct (e =? 0); [discriminate|].
    destruct (rel limit s px py e) as [p0| |]; cbn [bind]; try discriminate. destruct (in_ p2 p0) as [i1| |]; cbn [bind]; try discriminate. destruct (in_ p0 p1) as [i2| |]; cbn [bind]; try discriminate.
    destruct i1, i2; cbn [andb negb]; try discriminate; intro H.
    - destruct (get_e limit s (prv e)) as [e'| |]; cbn [bind] in *; try discriminate H. injection H as <-. now right.
    - destruct (get_e limit s (nxt e)) as [e'| |]; cbn [bind] in *; try discriminate H. injection H as <-. now right.
    - destruct (get_e limit s (nxt e)) as [e'| |]; cbn [bind] in *; try discriminate H. destruct (spin limit k s px py e' p0 p2) as [r| |] eqn:Es; cbn [bind] in *; try discriminate H.
      destruct (spin_any k fuel e' p0 p2 r Es) as [-> | ->]; cbn [bind]; [now left|]. destruct r as [[[e2 p0'] p2']|]; [|discriminate H].
      destruct (in_ p2' p0') as [[|]| |]; cbn [bind] in *; try discriminate H. destruct (get_e limit s (nxt e2)) as [e3| |]; cbn [bind] in *; try discriminate H. injection H as <-. now right.
  Qed.
  Lemma walk32_next k fuel st st' : walk32_turn k st = Ok (Some st') -> let w f (x : state) := let '(e, p1, p2) := x in walk32 limit q f s px py e p1 p2 in w (S fuel) st = Timeout \/ w (S fuel) st = w fuel st'.
  Proof.
    destruct st as [[e p1] p2]. unfold walk32_turn. cbn [walk32]. cbv zeta. destruct (e =? 0); [discriminate|].
    destruct (rel32 limit q s px py e) as [p0| |]; cbn [bind]; try discriminate. destruct (inside p2 p0) as [i1| |]; cbn [bind]; try discriminate. destruct (inside p0 p1) as [i2| |]; cbn [bind]; try discriminate.
    destruct i1, i2; cbn [andb negb]; try discriminate; intro H.
    - destruct (get_e limit s (prv e)) as [e'| |]; cbn [bind] in *; try discriminate H. injection H as <-. now right.
    - destruct (get_e limit s (nxt e)) as [e'| |]; cbn [bind] in *; try discriminate H. injection H as <-. now right.
    - destruct (get_e limit s (nxt e)) as [e'| |]; cbn [bind] in *; try discriminate H. destruct (spin32 limit q k s px py e' p0 p2) as [r| |] eqn:Es; cbn [bind] in *; try discriminate H.
      destruct (spin32_any k fuel e' p0 p2 r Es) as [-> | ->]; cbn [bind]; [now left|]. destruct r as [[[e2 p0'] p2']|]; [|discriminate H].
      destruct (inside p2' p0') as [[|]| |]; cbn [bind] in *; try discriminate H. destruct (get_e limit s (nxt e2)) as [e3| |]; cbn [bind] in *; try discriminate H. injection H as <-. now right.
  Qed.
  Section Loop.
    Context (f : state -> res (option state)) {R : Type} (w : nat -> state -> res R).
    Hypothesis w0 : forall st, w 0%nat st = Timeout.
    Hypothesis wS : forall fuel st st', f st = Ok (Some st') -> w (S fuel) st = Timeout \/ w (S fuel) st = w fuel st'.
    Lemma turns_reduce n : forall st st' fuel, turns f n st = Ok (Some st') -> w fuel st = Timeout \/ exists fuel', (fuel' + n = fuel)%nat /\ w fuel st = w fuel' st'.
    Proof.
      induction n as [|n IH]; intros st st' fuel H; cbn [turns] in H.
      - injection H as <-. right. exists fuel. split; [lia|reflexivity].
      - destruct (f st) as [[st1|]| |] eqn:E; cbn [bind] in H; try discriminate H. destruct fuel as [|fuel]; [left; apply w0|]. destruct (wS fuel st st1 E) as [X|X]; [now left|]. rewrite X.
        destruct (IH st1 st' fuel H) as [Y|(k & Hk & Y)]; [now left|]. right. exists k. split; [lia|assumption].
    Qed.
    (** A state that comes back never ends. *)
    Lemma turns_cycle n st : (0 < n)%nat -> turns f n st = Ok (Some st) -> forall fuel, w fuel st = Timeout.
    Proof.
      intros Hn H fuel. induction fuel as [fuel IH] using (well_founded_induction lt_wf). destruct (turns_reduce n st st fuel H) as [X|(k & Hk & X)]; [assumption|]. rewrite X. apply IH. lia.
    Qed.
    Lemma turns_lasso a n st st' : (0 < n)%nat -> turns f a st = Ok (Some st') -> turns f n st' = Ok (Some st') -> forall fuel, w fuel st = Timeout.
    Proof. intros Hn H1 H2 fuel. destruct (turns_reduce a st st' fuel H1) as [X|(k & Hk & X)]; [assumption|]. rewrite X. now apply (turns_cycle n st'). Qed.
  End Loop.

  (** The states in which the two searches start. *)
  Definition walk_start (hint : Z) : res state :=
    let hint := if (hint <? 24) || (hint >=? size s * 8) then size s * 8 - 4 else hint in
    let e := hint / 4 * 4 in
    p1 <- rel limit s px py (e + 1) ;; p2 <- rel limit s px py (e + 2) ;; i <- in_ p1 p2 ;;
    if negb i then (e <- get_e limit s e ;; Ok (e, p2, p1)) else Ok (e, p1, p2).
  Definition walk32_start (hint : Z) : res state :=
    let e := hint / 4 * 4 in
    let e := if (e <? 24) || (e >? size s * 8 - 4) then size s * 8 - 4 else e in
    p1 <- rel32 limit q s px py (e + 1) ;; p2 <- rel32 limit q s px py (e + 2) ;; i <- inside p1 p2 ;;
    if negb i then (e <- get_e limit s e ;; Ok (e, p2, p1)) else Ok (e, p1, p2).
  Lemma walk_never k hint a n st st' : walk_start hint = Ok st -> (0 < n)%nat -> turns (walk_turn k) a st = Ok (Some st') -> turns (walk_turn k) n st' = Ok (Some st') ->
    forall fuel, locate_insertion_node limit fuel s px py hint = Timeout.
  Proof.
    intros H Hn H1 H2 fuel. pose proof (turns_lasso (walk_turn k) (fun f (x : state) => let '(e, p1, p2) := x in walk limit f s px py e p1 p2) (fun '(_, _, _) => eq_refl) (fun f x x' => walk_next k f x x') a n st st' Hn H1 H2 fuel) as X.
    unfold walk_start in H. unfold locate_insertion_node. cbv zeta in *. set (e := (if (hint <? 24) || (hint >=? size s * 8) then size s * 8 - 4 else hint) / 4 * 4) in *.
    destruct (rel limit s px py (e + 1)) as [p1| |]; cbn [bind] in *; try discriminate H. destruct (rel limit s px py (e + 2)) as [p2| |]; cbn [bind] in *; try discriminate H. destruct (in_ p1 p2) as [[|]| |]; cbn [bind negb] in *; try discriminate H.
    - injection H as <-. exact X.
    - destruct (get_e limit s e) as [e'| |]; cbn [bind] in *; try discriminate H. injection H as <-. exact X.
  Qed.
  Lemma walk32_never k hint a n st st' : walk32_start hint = Ok st -> (0 < n)%nat -> turns (walk32_turn k) a st = Ok (Some st') -> turns (walk32_turn k) n st' = Ok (Some st') ->
    forall fuel, locate limit q fuel s px py hint = Timeout.
  Proof.
    intros H Hn H1 H2 fuel. pose proof (turns_lasso (walk32_turn k) (fun f (x : state) => let '(e, p1, p2) := x in walk32 limit q f s px py e p1 p2) (fun '(_, _, _) => eq_refl) (fun f x x' => walk32_next k f x x') a n st st' Hn H1 H2 fuel) as X.
    unfold walk32_start in H. unfold locate. cbv zeta in *. set (e := if (hint / 4 * 4 <? 24) || (hint / 4 * 4 >? size s * 8 - 4) then size s * 8 - 4 else hint / 4 * 4) in *.
    destruct (rel32 limit q s px py (e + 1)) as [p1| |]; cbn [bind] in *; try discriminate H. destruct (rel32 limit q s px py (e + 2)) as [p2| |]; cbn [bind] in *; try discriminate H. destruct (inside p1 p2) as [[|]| |]; cbn [bind negb] in *; try discriminate H.
    - injection H as <-. exact X.
    - destruct (get_e limit s e) as [e'| |]; cbn [bind] in *; try discriminate H. injection H as <-. exact X.
  Qed.
  (** The state is met again after n more turns. *)
  Definition lasso (f : state -> res (option state)) (a n : nat) (st : res state) : bool :=
    match st with
    | Ok st => match turns f a st with
      | Ok (Some x) => match turns f n x with
        | Ok (Some y) => let '(e, (a1, a2), (b1, b2)) := x in let '(e', (a1', a2'), (b1', b2')) := y in (e =? e') && (a1 =? a1') && (a2 =? a2') && (b1 =? b1') && (b2 =? b2')
        | _ => false end
      | _ => false end
    | _ => false
    end.
  Lemma lasso_ok f a n r : lasso f a n r = true -> exists st st', r = Ok st /\ turns f a st = Ok (Some st') /\ turns f n st' = Ok (Some st').
  Proof.
    unfold lasso. destruct r as [st| |]; try discriminate. destruct (turns f a st) as [[x|]| |] eqn:E1; try discriminate. destruct (turns f n x) as [[y|]| |] eqn:E2; try discriminate.
    destruct x as [[e [a1 a2]] [b1 b2]], y as [[e' [a1' a2']] [b1' b2']]. intro H. repeat (apply andb_prop in H as [H ?]). repeat match goal with K : (_ =? _) = true |- _ => apply Z.eqb_eq in K end. subst.
    exists st, (e', (a1', a2'), (b1', b2')). auto.
  Qed.
End Cycle.

(** Six edges that turn around the origin. *)
Definition pinwheel : list op :=
  [Edge (2332, -518) (-2624, 4546) 0; Edge (-1614, -1762) (9578, 822) 0; Edge (-718, 2280) (-2624, -4546) 0; Edge (5248, 0) (2332, -518) 0; Edge (-718, 2280) (-4078, -8706) 0; Edge (2332, -518) (-5502, 7884) 0].

(** C77 (refuted): on a mesh that six calls of insert_edge have made, insert_point, insert_edge and locate of the origin never end, with
    the default hint. *)
Theorem C77_refuted : exists s, reachable 32 0 true s /\ size s = 13 /\
  (forall fuel, insert_point 32 0 true fuel s (0, 0) 0 = Timeout) /\
  (forall fuel r, insert_edge 32 0 true fuel s (0, 0) r 0 = Timeout) /\
  (forall fuel, locate 32 0 fuel s 0 0 0 = Timeout).
Proof.
  assert (K : match history 32 true 200 pinwheel with
    | Ok s => (size s =? 13) && lasso (walk_turn 32 s 0 0 20) 12 3 (walk_start 32 s 0 0 0) && lasso (walk32_turn 32 0 s 0 0 20) 12 3 (walk32_start 32 0 s 0 0 0)
    | _ => false end = true) by (vm_compute; reflexivity).
  destruct (history 32 true 200 pinwheel) as [s| |] eqn:Es; try discriminate K. apply andb_prop in K as [K K3]. apply andb_prop in K as [K1 K2]. apply Z.eqb_eq in K1.
  apply lasso_ok in K2 as (st & st' & A1 & A2 & A3). apply lasso_ok in K3 as (su & su' & B1 & B2 & B3).
  pose proof (walk_never 32 s 0 0 20 0 12 3 st st' A1 ltac:(lia) A2 A3) as X. pose proof (walk32_never 32 0 s 0 0 20 0 12 3 su su' B1 ltac:(lia) B2 B3) as Y.
  exists s. split; [apply (history_reachable 32 true 200 pinwheel); [reflexivity|assumption]|]. split; [assumption|]. split; [|split; [|assumption]].
  - intro fuel. unfold insert_point, insert_point64. change (grid 0 (fst (0, 0))) with 0. change (grid 0 (snd (0, 0))) with 0. rewrite X. reflexivity.
  - intros fuel r. unfold insert_edge. change (grid 0 (fst (0, 0))) with 0. change (grid 0 (snd (0, 0))) with 0. destruct fuel as [|fuel]; [reflexivity|]. cbn [insert_edge64]. rewrite X. reflexivity.
Qed.
Print Assumptions C77_refuted.
