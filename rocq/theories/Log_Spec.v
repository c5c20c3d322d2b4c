(** What a log line and a failed check look like. *)
From Coq Require Import String Ascii.
From Verif Require Import Base AsString_Model AsString_Spec Os_Spec Log_Model.
Local Open Scope Z_scope.

(** Characters given by their codes, signed or not. *)
Definition chars (l : list Z) : string := string_of_list_ascii (map (fun c => ascii_of_nat (Z.to_nat (c mod 256))) l).

(** The part of a text before its first NUL, if it has one. *)
Definition before_nul (l p : list Z) : Prop := ~ In 0 p /\ (l = p \/ exists r, l = p ++ 0 :: r).

(** The text of an argument in a log line: strings as they are, whatever their length, a null pointer as nothing; other values
    as as_string converts them. *)
Inductive logged : arg -> string -> Prop :=
| logged_null : logged (AStr None) ""
| logged_str m l : cstring m l -> logged (AStr (Some m)) (chars l)
| logged_chars m l : cstring m l -> logged (AChars m) (chars l)
| logged_other a v l p : arg_shows (a, v) l -> before_nul l p -> logged (AOther a v) (chars p).

(** Arguments that can be logged: terminated strings, and what as_string can convert. *)
Definition loggable (x : arg) : Prop :=
  match x with AStr None => True | AStr (Some m) | AChars m => In 0 m | AOther a v => arg_ok (a, v) end.

(** Arguments of CE_LOG_MSG, which are converted together. *)
Definition message_arg (x : arg) : Prop := arg_ok (as_val x).
Definition message_shows (x : arg) (l : list Z) : Prop := arg_shows (as_val x) l.

(** The buffers of converted values, from the i-th on, have the size the compiler gives them. *)
Definition room (init : list Z) (x : arg) : Prop :=
  match x with AOther a v => (measure v + 1 <= length init)%nat | _ => True end.
Definition buffers (init : nat -> list Z) (i : nat) (xs : list arg) : Prop :=
  forall j x, nth_error xs j = Some x -> room (init (i + j)%nat) x.

(** The letter of a level by its name. *)
Definition level_letter (name : string) : string :=
  match find (fun p => String.eqb name (fst p))
    [("fatal", "F"); ("error", "E"); ("warn", "W"); ("note", "N"); ("info", "I"); ("debug", "D"); ("spam", "S"); ("more", "M")]%string with
  | Some p => snd p
  | None => "M"%string
  end.

(** A line: a letter and pairs of quoted texts. *)
Definition line (letter : string) (pairs : list (string * string)) : string :=
  (letter ++ ": { " ++ String.concat ", " (map pair_text pairs) ++ " }" ++ nl)%string.

(** The report of a failed check. *)
Definition report (kind what file more : string) (values : list string) : string :=
  ("******** FAILED ********" ++ nl ++ file ++ ": " ++ kind ++ ": " ++ what ++ ": (" ++ more ++ ") = (" ++
   String.concat ", " values ++ ")" ++ nl)%string.
