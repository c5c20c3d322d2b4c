(** Model of the log macros (lib/h/ce/ce.h:1174-1195), of as_string's choice for one argument (ce.h:1068-1080) and of the check
    macros' hook (ce.h:1104-1108), from the text and the arguments at the macro to the characters written. No proofs here. *)
From Coq Require Import String Ascii.
From Verif Require Import Base ToText_Model AsString_Model Names_Model Os_Model.
Local Open Scope Z_scope.

(** Characters as bytes; chars above 127 are negative. *)
Definition byte (c : Z) : ascii := ascii_of_nat (Z.to_nat (c mod 256)).
Definition str (l : list Z) : string := string_of_list_ascii (map byte l).

(** An argument: a char const*, an array of chars (always seen as const: the macro's functions take references to const), or
    anything else with the address it decays to if it is an array of something else (see AsString_Model). *)
Inductive arg :=
| AStr (p : option (list Z))
| AChars (m : list Z)
| AOther (a : Z) (v : val).

Definition as_val (x : arg) : Z * val :=
  match x with AStr p => (0, VCharPtr p) | AChars m => (0, VCharArr m) | AOther a v => (a, v) end.

(** as_string{ x }.as (ce.h:1057-1080): a char const* and an array of const chars are kept as they are; anything else is
    converted into a buffer, whose first contents are init. *)
Definition as_string_1 (init : list Z) (x : arg) : res (option (list Z)) :=
  match x with
  | AStr p => Ok p
  | AChars m => Ok (Some m)
  | AOther a v => b <- as_string init [(a, v)] ;; Ok (Some b)
  end.

(** os_posix.cpp:36-42 debug_out: what is written for a pointer: nothing if it is null, else up to the terminator. *)
Definition debug_text (p : option (list Z)) : res string :=
  match p with None => Ok EmptyString | Some m => l <- opt (c_string m) ;; Ok (str l) end.

(** ce.h:1174-1178 call_log_hook: the rows { *keys++, as_string{ ts }.as }, left to right. The buffer of the i-th argument has
    the contents init i at first. The strings are read here and not by log. *)
Fixpoint log_rows (init : nat -> list Z) (i : nat) (keys : list (option (list Z))) (xs : list arg) : res (list (string * string)) :=
  match xs with
  | [] => Ok []
  | x :: xs =>
      k <- get keys 0 ;;
      p <- as_string_1 (init i) x ;;
      v <- debug_text p ;;
      k <- opt k ;;
      rows <- log_rows init (S i) (skipn 1 keys) xs ;;
      Ok ((str k, v) :: rows)
  end.
Definition call_log_hook (init : nat -> list Z) (level : Z) (keys : list (option (list Z))) (xs : list arg) : res string :=
  rows <- log_rows init 0 keys xs ;;
  log level (length xs) rows.

(** ce.h:1181-1190 _CE_LOG_fatal ... _CE_LOG_more and _CE_LOG_LVL: the second of the tokens `_CE_LOG_LEVEL, 7`, where a known level
    expands to two tokens. LEVEL is not itself a macro. *)
Definition log_level_macro (level : string) : option Z :=
  if String.eqb level "fatal" then Some 0 else if String.eqb level "error" then Some 1
  else if String.eqb level "warn" then Some 2 else if String.eqb level "note" then Some 3
  else if String.eqb level "info" then Some 4 else if String.eqb level "debug" then Some 5
  else if String.eqb level "spam" then Some 6 else if String.eqb level "more" then Some 7 else None.
Definition log_level (level : string) : Z := match log_level_macro level with Some n => n | None => 7 end.

(** ce.h:1192 CE_LOG_EX, with CE_LOG_LEVEL (ce.h:211-215) 0 or 1: names of the arguments (1172) and call_log_hook, or nothing at
    all. NAMES is the text of the literal. *)
Definition ce_log_ex (on : bool) (init : nat -> list Z) (lvl : Z) (NAMES : list Z) (xs : list arg) : res string :=
  if on then
    '(text, starts) <- names (length xs) NAMES ;;
    call_log_hook init lvl (map (name_at text) starts) xs
  else Ok EmptyString.

(** ce.h:1194 CE_LOG(LEVEL, ...): args is the text of the arguments, xs are their values. *)
Definition ce_log (on : bool) (init : nat -> list Z) (level : string) (args : list Z) (xs : list arg) : res string :=
  ce_log_ex on init (log_level level) (bytes_of_string "$," ++ args) (AChars (lit level) :: xs).

(** as_string{ ... }.as of several arguments (ce.h:1057-1080): a buffer with contents buf at first, unless there is one argument
    that is kept as it is. *)
Definition as_string_all (buf : list Z) (xs : list arg) : res arg :=
  match xs with
  | [AStr p] => Ok (AStr p)
  | [AChars m] => Ok (AChars m)
  | _ => b <- as_string buf (map as_val xs) ;; Ok (AChars b)
  end.

(** ce.h:1195 CE_LOG_MSG(LEVEL, ...). *)
Definition ce_log_msg (on : bool) (init : nat -> list Z) (buf : list Z) (level : string) (xs : list arg) : res string :=
  if on then
    x <- as_string_all buf xs ;;
    ce_log_ex on init (log_level level) (bytes_of_string "$,$msg") [AChars (lit level); x]
  else Ok EmptyString.

(** ce.h:1104-1108 error_hook::fn: as_string{ ts }.as of each argument. An array of const chars has decayed to a char const*; an
    array of chars that are not const to a char*, and is the argument [AOther 0 (VCharPtr (Some m))]. *)
Fixpoint error_args (init : nat -> list Z) (i : nat) (xs : list arg) : res (list string) :=
  match xs with
  | [] => Ok []
  | x :: xs =>
      p <- as_string_1 (init i) x ;;
      v <- debug_text p ;;
      vs <- error_args init (S i) xs ;;
      Ok (v :: vs)
  end.

(** ce.h:230 _CE_ERROR with the default hooks: call_error_hook (1082-1102) logs and then reports. The characters written, and
    whether a break is asked for. *)
Definition report_error (init : nat -> list Z) (kind what file more : string) (xs : list arg) : res (string * bool) :=
  vs <- error_args init 0 xs ;;
  '(level, argv) <- call_error_hook (error_info kind what file more) vs ;;
  a <- log level (length argv) argv ;;
  '(b, brk) <- error level (length argv) argv ;;
  Ok ((a ++ b)%string, brk).

(** ce.h:232-241 CE_VERIFY, CE_ASSERT and CE_REJECT at error level 1: kind is the name of the macro, test its condition's text and
    t its value. CE_REJECT fails when the condition is true. *)
Definition check_output (init : nat -> list Z) (kind test file more : string) (t : bool) (xs : list arg) : res string :=
  if (if String.eqb kind "CE_REJECT" then negb t else t) then Ok EmptyString
  else '(s, _) <- report_error init kind test file more xs ;; Ok s.
