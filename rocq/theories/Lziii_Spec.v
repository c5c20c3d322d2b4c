(** The lziii format (comment at lziii.h:33-39), independent of the decoder. *)
From Verif Require Import Base.
Local Open Scope Z_scope.

(** A literal byte, or a back-reference: copy [len] bytes starting [dist] before the end. *)
Inductive token := Lit (b : Z) | Span (dist len : Z).

Definition token_ok (t : token) : Prop :=
  match t with
  | Lit b => 0 <= b < 256
  | Span dist len => 1 <= dist <= 4096 /\ 3 <= len <= 18
  end.

(** One or two bytes: length = span[1] / 16 + 3, offset = span[1] % 16 * 256 + span[0] - 4096. *)
Definition payload (t : token) : list Z :=
  match t with
  | Lit b => [b]
  | Span dist len => [(4096 - dist) mod 256; (len - 3) * 16 + (4096 - dist) / 256]
  end.

Definition is_lit (t : token) : bool := match t with Lit _ => true | _ => false end.

(** A stream: groups of a control byte and eight tokens (the last group may have fewer, at least one).
    Bit j of the control byte says whether token j is a literal; unused bits are arbitrary. *)
Inductive stream : list token -> list Z -> Prop :=
| stream_nil : stream [] []
| stream_group : forall ctrl group tokens rest,
    0 <= ctrl < 256 -> (1 <= length group <= 8)%nat ->
    (forall j t, nth_error group j = Some t -> Z.testbit ctrl (Z.of_nat j) = is_lit t) ->
    Forall token_ok group ->
    (length group = 8%nat \/ tokens = []) -> stream tokens rest ->
    stream (group ++ tokens) (ctrl :: flat_map payload group ++ rest).

(** Copying one byte at a time from [dist] before the end, so that overlap repeats. *)
Fixpoint copy (out : list Z) (dist : nat) (n : nat) : option (list Z) :=
  match n with
  | O => Some out
  | S n => match nth_error out (length out - dist) with
           | Some v => copy (out ++ [v]) dist n
           | None => None
           end
  end.

(** The expansion of a token sequence; None if a reference goes before the start. *)
Fixpoint expand (out : list Z) (ts : list token) : option (list Z) :=
  match ts with
  | [] => Some out
  | Lit b :: ts => expand (out ++ [b]) ts
  | Span dist len :: ts =>
      if dist <=? Z.of_nat (length out) then
        match copy out (Z.to_nat dist) (Z.to_nat len) with
        | Some out => expand out ts
        | None => None
        end
      else None
  end.

(** The number of bytes a token stands for. *)
Definition token_len (t : token) : Z := match t with Lit _ => 1 | Span _ len => len end.
Definition total_len (ts : list token) : Z := fold_right (fun t n => token_len t + n) 0 ts.
