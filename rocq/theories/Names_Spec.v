(** Argument lists as C++ source text. *)
From Verif Require Import Base.
Local Open Scope Z_scope.

(** ASCII characters other than NUL. *)
Definition ascii7 (c : Z) : Prop := 0 < c < 128.
Definition blank (c : Z) : Prop := 0 < c <= 32.

(** The inside of a string or character literal delimited by d. *)
Inductive literal (d : Z) : list Z -> Prop :=
  | lit_nil : literal d []
  | lit_plain : forall c s, ascii7 c -> c <> d -> c <> 92 -> literal d s -> literal d (c :: s)
  | lit_escape : forall c s, ascii7 c -> literal d s -> literal d (92 :: c :: s).

(** Source text with balanced brackets and closed literals; commas = true where a comma does not separate arguments. *)
Inductive balanced : bool -> list Z -> Prop :=
  | bal_nil : forall b, balanced b []
  | bal_plain : forall b c s, ascii7 c -> ~ In c [34; 39; 40; 41; 91; 93; 123; 125; 44] -> balanced b s -> balanced b (c :: s)
  | bal_comma : forall s, balanced true s -> balanced true (44 :: s)
  | bal_bracket : forall b o c s t, In (o, c) [(40, 41); (91, 93); (123, 125)] -> balanced true s -> balanced b t ->
      balanced b (o :: s ++ c :: t)
  | bal_literal : forall b d s t, d = 34 \/ d = 39 -> literal d s -> balanced b t -> balanced b (d :: s ++ d :: t).

(** Without blanks at either end, and not empty. *)
Definition trimmed (s : list Z) : Prop :=
  s <> [] /\ (forall c r, s = c :: r -> ~ blank c) /\ (forall c r, s = r ++ [c] -> ~ blank c).

(** Blanks, an expression, blanks. *)
Definition padded (e t : list Z) : Prop := exists a b, t = a ++ e ++ b /\ Forall blank a /\ Forall blank b.

(** Separated by commas. *)
Fixpoint joined (ts : list (list Z)) : list Z :=
  match ts with [] => [] | [t] => t | t :: ts => t ++ 44 :: joined ts end.

(** An identifier, or anything else without blanks and commas. *)
Definition word (s : list Z) : Prop := s <> [] /\ Forall (fun c => 32 < c < 128 /\ c <> 44) s.

Definition not_comma_end (s : list Z) : Prop := forall r, s <> r ++ [44].

(** A list of arguments: all but the last without commas outside brackets and literals; the last may have them (f<a, b>(c)), but
    does not end with one. *)
Fixpoint arguments (es : list (list Z)) : Prop :=
  match es with
  | [] => False
  | [e] => trimmed e /\ balanced true e /\ not_comma_end e
  | e :: es => trimmed e /\ balanced false e /\ arguments es
  end.

(** Blanks, then a word; blanks after the last word only. *)
Fixpoint fields (es ts : list (list Z)) : Prop :=
  match es, ts with
  | [e], [t] => word e /\ padded e t
  | e :: es, t :: ts => word e /\ (exists a, t = a ++ e /\ Forall blank a) /\ fields es ts
  | _, _ => False
  end.
