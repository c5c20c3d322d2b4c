(** Model of lib/os_win32.cpp (to_utf16, sleep_ns, the mapping of files), lib/os_posix.cpp (sleep_ns, monotonic_timestamp),
    lib/os.cpp (log, error) and of the error macros of lib/h/ce/ce.h. No proofs. *)
From Coq Require Import String Ascii.
From Verif Require Import Base.
Local Open Scope Z_scope.

(** ** to_utf16 *)

(** os_win32.cpp:33-54 to_utf16. The source is the list of its src_size bytes, and reading past them is undefined. The
    destination has cap units left (CE_TO_UTF16, line 61, gives it src_size), and writing past them is undefined. Each turn of
    the loop consumes at least one byte, so the length of the source is enough fuel. Values are converted to char16_t. *)
Fixpoint to_utf16_loop (fuel : nat) (cap : nat) (s : list Z) : res (list Z) :=
  match s with
  | [] => Ok []
  | s0 :: _ =>
      match fuel with
      | O => Timeout
      | S fuel =>
          let put (n : nat) (units : list Z) :=
            if Nat.leb (length units) cap then
              rest <- to_utf16_loop fuel (cap - length units) (skipn n s) ;; Ok (units ++ rest)
            else UB in
          if s0 <? 0x80 then put 1%nat [u16 s0]
          else if s0 <? 0xe0 then
            s1 <- get s 1 ;;
            put 2%nat [u16 (s0 * 64 + s1 - 0xc0 * 64 - 0x80)]
          else if s0 <? 0xf0 then
            s1 <- get s 1 ;;
            s2 <- get s 2 ;;
            put 3%nat [u16 (s0 * 64 * 64 + s1 * 64 + s2 - 0x80 * 64 - 0x80)]
          else
            s1 <- get s 1 ;;
            s2 <- get s 2 ;;
            s3 <- get s 3 ;;
            put 4%nat [u16 (0xd800 - 0xf248 + s0 * 256 + s1 * 4 + s2 / 16); u16 (0xdc00 - 0x0080 + s2 mod 16 * 64 + s3)]
      end
  end.
Definition to_utf16 (cap : nat) (s : list Z) : res (list Z) := to_utf16_loop (length s) cap s.

(** os_win32.cpp:59-61 as_span and CE_TO_UTF16: the string with its terminator, and as many units of room. *)
Definition ce_to_utf16 (path : list Z) : res (list Z) := to_utf16 (length path + 1) (path ++ [0]).

(** ** sleep_ns *)

(** os_posix.cpp:58-72: the timespec (tv_sec, tv_nsec) given to nanosleep. time_t and long are int64_t. *)
Definition sleep_ns_posix (ns : Z) : Z * Z :=
  if ns <? 1000000000 then (0, s64 ns) else (s64 (ns / 1000000000), s64 (ns mod 1000000000)).

(** os_win32.cpp:92-103: the milliseconds given to SleepEx. DWORD is uint32_t. *)
Definition sleep_ns_win32 (ns : Z) : Z :=
  if negb (ns =? 0) then
    let ms64 := if ns <? 1000000 then 1 else ns / 1000000 in
    let ms := u32 ms64 in
    if negb (ms =? ms64) then u32 (Z.lnot 0) else ms
  else 0.

(** os_posix.cpp:44-51 monotonic_timestamp of a clock that reads (tv_sec, tv_nsec); None when clock_gettime fails. *)
Definition monotonic_timestamp_posix (ts : option (Z * Z)) : res Z :=
  match ts with
  | None => Ok 0
  | Some (sec, nsec) => p <- chk64 (sec * 1000000000) ;; t <- chk64 (nsec + p) ;; Ok (u64 t)
  end.

(** ** log and error: the text passed to debug_out, in order *)

Local Open Scope string_scope.

Definition quote : string := String (ascii_of_nat 34) EmptyString.
Definition newline : string := String (ascii_of_nat 10) EmptyString.

(** os.cpp:33-34 the header: "FEWNIDSM"[clamped level], ':', ' ', '{'. *)
Definition log_letter (level : Z) : string :=
  match String.get (Z.to_nat (if (level <? 0)%Z then 0 else if (7 <? level)%Z then 7 else level)%Z) "FEWNIDSM" with
  | Some c => String c EmptyString
  | None => EmptyString
  end.

(** os.cpp:37-46 the loop of log, from index i, n turns left. *)
Fixpoint log_loop (n : nat) (i : nat) (prefix : string) (argv : list (string * string)) : res string :=
  match n with
  | O => Ok ""
  | S n =>
      '(k, v) <- get argv i ;;
      rest <- log_loop n (S i) ", " argv ;;
      Ok (prefix ++ quote ++ k ++ quote ++ ": " ++ quote ++ v ++ quote ++ rest)
  end.

(** os.cpp:31-48 log. *)
Definition log (level : Z) (argc : nat) (argv : list (string * string)) : res string :=
  body <- log_loop argc 0 " " argv ;;
  Ok (log_letter level ++ ": {" ++ body ++ " }" ++ newline).

(** os.cpp:66-74 the loop of error, from index i. *)
Fixpoint error_loop (n : nat) (i : nat) (prefix : string) (argv : list (string * string)) : res string :=
  match n with
  | O => Ok ""
  | S n =>
      '(_, v) <- get argv i ;;
      rest <- error_loop n (S i) ", " argv ;;
      Ok (prefix ++ v ++ rest)
  end.

(** os.cpp:50-79 error: the text written and the result. argv is not null here (call_error_hook passes an array). *)
Definition error (level : Z) (argc : nat) (argv : list (string * string)) : res (string * bool) :=
  body <- (if Nat.ltb 1 argc then
             '(k0, v0) <- get argv 0 ;;
             '(k1, v1) <- get argv 1 ;;
             rest <- error_loop (argc - 2) 2 "" argv ;;
             Ok (v0 ++ ": " ++ k0 ++ ": " ++ k1 ++ ": (" ++ v1 ++ ") = (" ++ rest ++ ")" ++ newline)
           else Ok "") ;;
  Ok ("******** FAILED ********" ++ newline ++ body, (level =? 0)%Z).

(** ** call_error_hook *)

(** Characters from p to the terminator; None if there is none in the array. *)
Fixpoint c_str (m : list ascii) : option string :=
  match m with
  | [] => None
  | c :: m => if Ascii.eqb c zero then Some EmptyString else option_map (String c) (c_str m)
  end.

(** ce.h:1084 next: the position after the terminator that follows p. *)
Fixpoint next_str (m : list ascii) : option (list ascii) :=
  match m with
  | [] => None
  | c :: m => if Ascii.eqb c zero then Some m else next_str m
  end.

Definition opt {A} (o : option A) : res A := match o with Some a => Ok a | None => UB end.

(** ce.h:1082-1102 call_error_hook up to the calls of the hooks: the level and the argv they both receive. Pointers into info
    are the rests of the array from there. *)
Definition call_error_hook (info : list ascii) (args : list string) : res (Z * list (string * string)) :=
  c0 <- get info 0 ;;
  let kind := skipn 1 info in
  what <- opt (next_str kind) ;;
  file <- opt (next_str what) ;;
  more <- opt (next_str file) ;;
  k <- opt (c_str kind) ;;
  f <- opt (c_str file) ;;
  w <- opt (c_str what) ;;
  m <- opt (c_str more) ;;
  Ok (s8 (Z.of_nat (nat_of_ascii c0)), (k, f) :: (w, m) :: map (fun a => ("...", a)) args).

(** ce.h:230 _CE_ERROR's first argument: "\0" KIND "\0" WHAT "\0" FILELINE "\0" #__VA_ARGS__, with the literal's terminator. *)
Definition error_info (kind what file more : string) : list ascii :=
  let s x := list_ascii_of_string x in
  [zero] ++ s kind ++ [zero] ++ s what ++ [zero] ++ s file ++ [zero] ++ s more ++ [zero].

(** ** The macros: an expression has a value and a trace of what was evaluated. *)
Inductive event := EvalTest | CallHook | Break.
Definition expr := (list event * bool)%type.

(** || && ! and the comma, with short circuits. *)
Definition e_or (a b : expr) : expr := if snd a then a else (fst a ++ fst b, snd b)%list.
Definition e_and (a b : expr) : expr := if snd a then (fst a ++ fst b, snd b)%list else a.
Definition e_not (a : expr) : expr := (fst a, negb (snd a)).
Definition e_comma (a b : expr) : expr := (fst a ++ fst b, snd b)%list.

(** bool{ TEST }: evaluates the test once. *)
Definition e_test (t : bool) : expr := ([EvalTest], t).
(** _CE_ERROR(...): calls the hooks, and has the error hook's result. *)
Definition e_error (hook : bool) : expr := ([CallHook], hook).
(** CE_DEBUG_BREAK() *)
Definition e_break : expr := ([Break], true).

(** ce.h:232-236 CE_AFFIRM, as tokens to the right of an optional prefix: || binds less than &&, and a prefix ! applies to
    bool{ TEST } only. neg says whether the macro is preceded by !. *)
Definition ce_affirm (level : Z) (neg : bool) (t hook : bool) : expr :=
  let first := if neg then e_not (e_test t) else e_test t in
  if (level =? 1)%Z then e_or first (e_and (e_error hook) (e_comma e_break ([], false))) else first.

(** ce.h:240 CE_VERIFY, :239 CE_ASSERT (its value is void), :241 CE_REJECT: !(!AFFIRM). *)
Definition ce_verify (level : Z) (t hook : bool) : expr := ce_affirm level false t hook.
Definition ce_assert (level : Z) (t hook : bool) : list event := fst (ce_affirm level false t hook).
Definition ce_reject (level : Z) (t hook : bool) : expr := e_not (ce_affirm level true t hook).
(** ce.h:238 CE_ERROR: the hooks and then a break, whatever they return. *)
Definition ce_error (hook : bool) : list event := fst (e_comma (e_error hook) e_break).

(** ** Mapping a file (Win32) *)

(** What the operating system answers to each call, and the handles it hands out (0 stands for INVALID_HANDLE_VALUE / NULL). *)
Record os_answers := {
  os_create : Z;          (* CreateFileW *)
  os_size : option Z;     (* GetFileSizeEx *)
  os_mapping : Z;         (* CreateFileMappingW, NULL is 0 *)
  os_view : Z             (* MapViewOfFile, nullptr is 0 *)
}.
Inductive os_event := OpenHandle (h : Z) | CloseHandle (h : Z) | MapView (a : Z) | UnmapView (a : Z).

(** os_win32.cpp:105-110 open_file: the event of a handle opened, if it was. *)
Definition open_file (o : os_answers) : list os_event * Z :=
  (if (os_create o =? 0)%Z then [] else [OpenHandle (os_create o)], os_create o)%list.

(** os_win32.cpp:112-116 open_file into a file_t: events, result and the handle left in it. *)
Definition open_file_into (o : os_answers) : list os_event * bool * Z :=
  let '(ev, h) := open_file o in (ev, negb (h =? 0)%Z, h).

(** os_win32.cpp:118-123 close_file: the handle is forgotten and then closed. *)
Definition close_file (handle : Z) : list os_event * Z := ([CloseHandle handle], 0%Z).

(** os_win32.cpp:125-153 map_span of a file: events, result, and (span.size, span.data). GetFileSizeEx and CreateFileMappingW
    of an invalid handle fail. SIZE_T has [bits] bits. *)
Definition map_span_file (bits : Z) (o : os_answers) (handle : Z) : list os_event * bool * (Z * Z) :=
  match (if (handle =? 0)%Z then None else os_size o) with
  | None => ([], false, (0, 0)%Z)
  | Some quad =>
      let map := if (handle =? 0)%Z then 0%Z else os_mapping o in
      if (map =? 0)%Z then ([], false, (0, 0)%Z)
      else
        let size := (quad mod 2 ^ bits)%Z in
        let data := os_view o in
        let ev := ([OpenHandle map] ++ (if (data =? 0)%Z then [] else [MapView data]) ++ [CloseHandle map])%list in
        if (data =? 0)%Z then (ev, false, (0, 0)%Z) else (ev, true, (size, data))
  end.

(** os_win32.cpp:155-161 map_span of a path: open, map, close. close_file (118-123) calls CloseHandle even on an invalid
    handle, which then fails and does nothing. *)
Definition map_span_path (bits : Z) (o : os_answers) : list os_event * bool * (Z * Z) :=
  let '(e1, h) := open_file o in
  let '(e2, okay, span) := map_span_file bits o h in
  let '(e3, _) := close_file h in
  ((e1 ++ e2 ++ e3)%list, okay, span).

(** os_win32.cpp:163-169 unmap_span: events and the span left. *)
Definition unmap_span (span : Z * Z) : list os_event * (Z * Z) := ([UnmapView (snd span)], (0, 0)%Z).

(** ce.h:1237-1242 map_span<T> of a path: the span of bytes as a span of Ts of [sizeof_t] bytes. *)
Definition map_span_as (sizeof_t bits : Z) (o : os_answers) : list os_event * (Z * Z) :=
  let '(ev, _, (size, data)) := map_span_path bits o in
  (ev, ((size / sizeof_t)%Z, data)).

(** os_posix.cpp:74-110 the same calls on POSIX: no file is opened or mapped, no handle is made. The results of open_file into a
    file_t, close_file, map_span, map_span of a path and unmap_span, and the span left by the last three. *)
Definition posix_open_file_into : bool := false.
Definition posix_close_file : bool := false.
Definition posix_map_span : bool * (Z * Z) := (false, (0, 0)%Z).
Definition posix_map_span_path : bool * (Z * Z) := let '(okay, span) := posix_map_span in let _ := posix_close_file in (okay, span).
Definition posix_unmap_span : bool * (Z * Z) := (false, (0, 0)%Z).
