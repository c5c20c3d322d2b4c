(** C50: visiting values. *)
From Coq Require Import String Lia.
From Verif Require Import Base Io_Model Io_Spec.
Local Open Scope nat_scope.

Section Induction.
  Context (P : value -> Prop)
    (HA : forall a, P (VAtom a)) (HF : forall d, Forall P d -> P (VFixed d)) (HC : forall n d, Forall P d -> P (VClass n d))
    (HL : forall s d, Forall P d -> P (VList s d)) (HV : forall d, Forall P d -> P (VVec d)) (H2 : forall x y, P x -> P y -> P (VVec2 x y))
    (HS : forall v, P v -> P (VAs v)).
  Fixpoint value_ind' (v : value) : P v :=
    let fix all (l : list value) : Forall P l := match l with [] => Forall_nil P | x :: l => Forall_cons x (value_ind' x) (all l) end in
    match v with
    | VAtom a => HA a
    | VFixed d => HF d (all d)
    | VClass n d => HC n d (all d)
    | VList s d => HL s d (all d)
    | VVec d => HV d (all d)
    | VVec2 x y => H2 x y (value_ind' x) (value_ind' y)
    | VAs v => HS v (value_ind' v)
    end.
End Induction.

Lemma wf_all : forall d, (fix all (l : list value) : Prop := match l with [] => True | v :: l => well_formed v /\ all l end) d <-> Forall well_formed d.
Proof. induction d as [|v d IH]; [split; constructor|]. rewrite IH. split; [intros [A B]; constructor; assumption|inversion 1; tauto]. Qed.

(** Reading goes on after t was put on a stack. *)
Definition after (t : tree) (st : list frame) (rest : list event) : option tree :=
  match put t st with None => None | Some (inl st) => rebuild rest st | Some (inr t) => match rest with [] => Some t | _ => None end end.

Definition reads (v : value) : Prop := well_formed v ->
  exists es, visit keep v = Ok es /\ forall st rest, rebuild (es ++ rest) st = after (document v) st rest.

Lemma array_reads : forall data n dyn (pre : list value) st rest, Forall reads data -> Forall well_formed data -> n <= length data ->
  forall all, length pre = length all - length data -> skipn (length pre) all = data ->
  exists es, visit_array n (length pre) (map (visit keep) all) = Ok es /\
    forall items size, rebuild (es ++ rest) (FArray size dyn items :: st) = rebuild rest (FArray size dyn (items ++ firstn n (map document data)) :: st).
Proof.
  induction data as [|v data IH]; intros n dyn pre st rest HR HW Hn all Hl Hs.
  - cbn in Hn. assert (n = 0) by lia. subst n. exists []. split; [reflexivity|]. intros. cbn. rewrite app_nil_r. reflexivity.
  - destruct n as [|n]; [exists []; split; [reflexivity|]; intros; cbn; rewrite app_nil_r; reflexivity|].
    inversion HR as [|v' d' Hv HR']; subst. inversion HW as [|v' d' Wv HW']; subst.
    assert (LA : length all = length pre + S (length data)).
    { rewrite <- (firstn_skipn (length pre) all). rewrite Hs. rewrite app_length. cbn [length]. rewrite firstn_length. 
      assert (length pre <= length all). { destruct (le_lt_dec (length pre) (length all)); [assumption|]. rewrite skipn_all2 in Hs by lia. discriminate. } lia. }
    cbn [visit_array]. unfold get at 1. rewrite nth_error_map.
    assert (NE : nth_error all (length pre) = Some v).
    { rewrite <- (firstn_skipn (length pre) all), Hs. rewrite nth_error_app2 by (rewrite firstn_length; lia). rewrite firstn_length.
      replace (length pre - Nat.min (length pre) (length all)) with 0 by lia. reflexivity. }
    rewrite NE. cbn [option_map bind]. destruct (Hv Wv) as (es & Ev & Rv). rewrite Ev. cbn [bind].
    destruct (IH n dyn (pre ++ [v]) st rest HR' HW' ltac:(cbn in Hn; lia) all) as (es2 & E2 & R2).
    + rewrite app_length. cbn [length]. lia.
    + rewrite app_length. cbn [length]. assert (K : forall (l : list value) k x m, skipn k l = x :: m -> skipn (k + 1) l = m).
      { clear. induction l as [|y l IH]; intros k x m H; [destruct k; discriminate|]. destruct k; [cbn in H; injection H as <- <-; reflexivity|]. cbn in *. eapply IH. exact H. }
      eapply K. exact Hs.
    + rewrite app_length in E2. cbn [length] in E2. rewrite Nat.add_1_r in E2. rewrite E2. cbn [bind]. exists (es ++ es2). split; [reflexivity|].
      intros items size. rewrite <- app_assoc. rewrite Rv. unfold after. cbn [put]. rewrite R2. cbn [map firstn]. rewrite <- app_assoc. reflexivity.
Qed.

Lemma fields_reads : forall data names i st rest, Forall reads data -> Forall well_formed data -> length names = i + length data ->
  exists es, visit_fields i names (map (visit keep) data) = Ok es /\
    forall fs, rebuild (es ++ rest) (FClass fs None :: st) = rebuild rest (FClass (fs ++ combine (skipn i names) (map document data)) None :: st).
Proof.
  induction data as [|v data IH]; intros names i st rest HR HW Hn.
  - exists []. split; [reflexivity|]. intro fs. cbn [map]. assert (E : forall {A B} (l : list A), combine l (@nil B) = []) by (intros A B [|]; reflexivity). rewrite E, app_nil_r. reflexivity.
  - inversion HR as [|v' d' Hv HR']; subst. inversion HW as [|v' d' Wv HW']; subst. cbn [map visit_fields length] in *.
    destruct (nth_error names i) as [s|] eqn:Es; [|apply nth_error_None in Es; lia].
    unfold get. rewrite Es. cbn [bind]. destruct (Hv Wv) as (es & Ev & Rv). rewrite Ev. cbn [bind].
    destruct (IH names (S i) st rest HR' HW' ltac:(lia)) as (es2 & E2 & R2). unfold get in E2. rewrite E2. cbn [bind].
    exists (Name s :: es ++ es2). split; [reflexivity|]. intro fs. cbn [app rebuild step]. rewrite <- app_assoc. rewrite Rv. unfold after. cbn [put].
    rewrite R2. assert (SK : skipn i names = s :: skipn (S i) names).
    { clear - Es. revert i Es. induction names as [|x names IH]; intros i Es; [destruct i; discriminate|]. destruct i; [cbn in Es; injection Es as ->; reflexivity|]. cbn [skipn]. apply IH. exact Es. }
    rewrite SK. cbn [combine]. rewrite <- app_assoc. reflexivity.
Qed.

Lemma span_reads : forall data n dyn, Forall reads data -> Forall well_formed data -> n <= length data ->
  exists es, visit_span keep n dyn (map (visit keep) data) = Ok es /\
    forall st rest, rebuild (es ++ rest) st = after (TArray dyn (firstn n (map document data))) st rest.
Proof.
  intros data n dyn HR HW Hn. unfold visit_span. change (keep n dyn) with n. cbv zeta.
  assert (K : exists es, visit_array n 0 (map (visit keep) data) = Ok es).
  { destruct (array_reads data n dyn [] [] [] HR HW Hn data ltac:(cbn; lia) eq_refl) as (es & E & _). exists es. exact E. }
  destruct K as [es E]. cbn [length] in *. rewrite E. cbn [bind]. eexists. split; [reflexivity|].
  intros st rest. cbn [app rebuild step]. rewrite <- app_assoc.
  destruct (array_reads data n dyn [] st ([LeaveArray n dyn] ++ rest) HR HW Hn data ltac:(cbn; lia) eq_refl) as (es2 & E2 & R2).
  cbn [length] in E2. rewrite E in E2. injection E2 as <-. rewrite R2. cbn [app rebuild step]. rewrite !firstn_length, map_length.
  rewrite Nat.min_l by exact Hn. rewrite !Nat.eqb_refl, Bool.eqb_reflx. cbn [andb]. reflexivity.
Qed.

Lemma class_reads : forall data names, Forall reads data -> Forall well_formed data -> length names = length data ->
  exists es, visit_class names (map (visit keep) data) = Ok es /\
    forall st rest, rebuild (es ++ rest) st = after (TClass (combine names (map document data))) st rest.
Proof.
  intros data names HR HW Hn. unfold visit_class.
  destruct (fields_reads data names 0 [] [] HR HW Hn) as (es & E & _). rewrite E. cbn [bind]. eexists. split; [reflexivity|].
  intros st rest. cbn [app rebuild step]. rewrite <- app_assoc.
  destruct (fields_reads data names 0 st ([LeaveClass] ++ rest) HR HW Hn) as (es2 & E2 & R2). rewrite E in E2. injection E2 as <-.
  rewrite R2. cbn [app rebuild step skipn]. reflexivity.
Qed.

Lemma visit_reads : forall v, reads v.
Proof.
  apply value_ind'; unfold reads.
  - intros a _. exists [Atom a]. split; [reflexivity|]. intros st rest. cbn [app rebuild step]. reflexivity.
  - intros d HR HW. cbn [well_formed] in HW. apply wf_all in HW. destruct (span_reads d (length d) false HR HW (le_n _)) as (es & E & R).
    exists es. split; [exact E|]. intros st rest. rewrite R. cbn [document]. rewrite firstn_all2 by (rewrite map_length; lia). reflexivity.
  - intros n d HR [Hn HW]. apply wf_all in HW. exact (class_reads d n HR HW Hn).
  - intros s d HR [Hs HW]. apply wf_all in HW. exact (span_reads d s true HR HW Hs).
  - intros d HR HW. cbn [well_formed] in HW. apply wf_all in HW. destruct (span_reads d (length d) false HR HW (le_n _)) as (es & E & R).
    exists es. split; [exact E|]. intros st rest. rewrite R. cbn [document]. rewrite firstn_all2 by (rewrite map_length; lia). reflexivity.
  - intros x y Hx Hy [Wx Wy].
    exact (class_reads [x; y] ["x"; "y"]%string (Forall_cons _ Hx (Forall_cons _ Hy (Forall_nil _))) (Forall_cons _ Wx (Forall_cons _ Wy (Forall_nil _))) eq_refl).
  - intros v Hv Wv. exact (Hv Wv).
Qed.

(** The calls made for a value are exactly one properly nested document, and a reader rebuilds the value from it: every scalar, in
    order, under its name. *)
Theorem C50_rebuild : forall v, well_formed v -> exists es, visit keep v = Ok es /\ rebuild es [] = Some (document v).
Proof.
  intros v Hv. destruct (visit_reads v Hv) as (es & E & R). exists es. split; [exact E|].
  specialize (R [] []). rewrite app_nil_r in R. exact R.
Qed.
Print Assumptions C50_rebuild.

(** Different documents are visited differently. *)
Theorem C50_injective : forall v w, well_formed v -> well_formed w -> visit keep v = visit keep w -> document v = document w.
Proof.
  intros v w Hv Hw E. destruct (C50_rebuild v Hv) as (es & Ev & Rv). destruct (C50_rebuild w Hw) as (fs & Ew & Rw).
  rewrite Ev, Ew in E. injection E as ->. congruence.
Qed.
Print Assumptions C50_injective.

(** A reader that stores a size no larger than the room in the array stays in bounds, whatever the value. *)
Definition in_room (enter : nat -> bool -> nat) : Prop := forall size dyn, enter size dyn <= size.

Lemma array_bounds : forall (items : list (res (list event))) n i, Forall (fun r => exists e, r = Ok e) items -> i + n <= length items ->
  exists e, visit_array n i items = Ok e.
Proof.
  intros items. induction n as [|n IH]; intros i HF Hn; cbn [visit_array]; [eexists; reflexivity|].
  destruct (nth_error items i) as [r|] eqn:E; [|apply nth_error_None in E; lia]. unfold get. rewrite E. cbn [bind].
  destruct (proj1 (Forall_forall _ _) HF r (nth_error_In _ _ E)) as [e ->]. cbn [bind].
  destruct (IH (S i) HF ltac:(lia)) as [e2 E2]. unfold get in E2. rewrite E2. cbn [bind]. eexists. reflexivity.
Qed.
Lemma fields_bounds : forall (items : list (res (list event))) names i, Forall (fun r => exists e, r = Ok e) items -> length names = i + length items ->
  exists e, visit_fields i names items = Ok e.
Proof.
  induction items as [|r items IH]; intros names i HF Hn; cbn [visit_fields]; [eexists; reflexivity|]. cbn [length] in Hn.
  destruct (nth_error names i) as [s|] eqn:E; [|apply nth_error_None in E; lia]. unfold get. rewrite E. cbn [bind].
  inversion HF as [|r' i' [e ->] HF']; subst. cbn [bind]. destruct (IH names (S i) HF' ltac:(lia)) as [e2 E2]. unfold get in E2. rewrite E2. cbn [bind]. eexists. reflexivity.
Qed.

Theorem C50_bounds : forall enter v, in_room enter -> well_formed v -> exists es, visit enter v = Ok es.
Proof.
  intros enter v HE. revert v. apply (value_ind' (fun v => well_formed v -> exists es, visit enter v = Ok es)).
  - intros a _. eexists. reflexivity.
  - intros d HR HW. cbn [well_formed] in HW. apply wf_all in HW. cbn [visit]. unfold visit_span.
    destruct (array_bounds (map (visit enter) d) (enter (length d) false) 0) as [e E].
    + apply Forall_map. apply Forall_forall. intros x Hx. apply (proj1 (Forall_forall _ _) HR x Hx). exact (proj1 (Forall_forall _ _) HW x Hx).
    + rewrite map_length. exact (HE (length d) false).
    + rewrite E. eexists. reflexivity.
  - intros n d HR [Hn HW]. apply wf_all in HW. cbn [visit]. unfold visit_class.
    destruct (fields_bounds (map (visit enter) d) n 0) as [e E].
    + apply Forall_map. apply Forall_forall. intros x Hx. apply (proj1 (Forall_forall _ _) HR x Hx). exact (proj1 (Forall_forall _ _) HW x Hx).
    + rewrite map_length. exact Hn.
    + rewrite E. eexists. reflexivity.
  - intros s d HR [Hs HW]. apply wf_all in HW. cbn [visit]. unfold visit_span.
    destruct (array_bounds (map (visit enter) d) (enter s true) 0) as [e E].
    + apply Forall_map. apply Forall_forall. intros x Hx. apply (proj1 (Forall_forall _ _) HR x Hx). exact (proj1 (Forall_forall _ _) HW x Hx).
    + rewrite map_length. specialize (HE s true). lia.
    + rewrite E. eexists. reflexivity.
  - intros d HR HW. cbn [well_formed] in HW. apply wf_all in HW. cbn [visit]. unfold visit_span.
    destruct (array_bounds (map (visit enter) d) (enter (length d) false) 0) as [e E].
    + apply Forall_map. apply Forall_forall. intros x Hx. apply (proj1 (Forall_forall _ _) HR x Hx). exact (proj1 (Forall_forall _ _) HW x Hx).
    + rewrite map_length. exact (HE (length d) false).
    + rewrite E. eexists. reflexivity.
  - intros x y Hx Hy [Wx Wy]. cbn [visit]. destruct (Hx Wx) as [ex Ex]. destruct (Hy Wy) as [ey Ey]. rewrite Ex, Ey. eexists. reflexivity.
  - intros v Hv Wv. exact (Hv Wv).
Qed.
Print Assumptions C50_bounds.

(** A reader cannot grow a list, even within its capacity, without being trusted: io does not check the size it stores. *)
Theorem C50_reader_refuted : exists enter v, well_formed v /\ visit enter v = UB.
Proof. exists (fun _ _ => 3), (VList 0 [VAtom 1; VAtom 2]). split; [cbn; repeat split; lia|]. reflexivity. Qed.
Print Assumptions C50_reader_refuted.

Example C50_nonvacuous :
  let v := VClass ["p"; "tags"]%string [VVec2 (VAtom 3) (VAtom (-4)); VList 2 [VAtom 7; VAtom 8; VAtom 9]] in
  well_formed v /\ document v = TClass [("p"%string, TClass [("x"%string, TAtom 3); ("y"%string, TAtom (-4))]); ("tags"%string, TArray true [TAtom 7; TAtom 8])].
Proof. cbn. repeat split; lia. Qed.
