(** A program that uses the file calls of ce::os: its file_t and span objects, and what the operating system has open for it.
    The events of a call (Os_Model) are carried out one by one; closing a handle or unmapping a view that is not open is an
    error of the program (None), as the number may by then belong to somebody else. *)
From Coq Require Import ZArith List.
From Verif Require Import Base Os_Model.
Import ListNotations.
Local Open Scope Z_scope.

Record world := {
  open : list Z;              (* handles of files and of mapping objects *)
  mapped : list Z;            (* addresses of views *)
  files : nat -> Z;           (* the file_t objects of the program; 0 is INVALID_HANDLE_VALUE *)
  spans : nat -> Z * Z        (* its spans: size and data; 0 is nullptr *)
}.

(** CloseHandle of the invalid handle and UnmapViewOfFile of nullptr fail and do nothing. *)
Definition event_step (s : list Z * list Z) (e : os_event) : option (list Z * list Z) :=
  let '(hs, vs) := s in
  match e with
  | OpenHandle h => Some (h :: hs, vs)
  | CloseHandle h => if h =? 0 then Some (hs, vs) else if in_dec Z.eq_dec h hs then Some (remove Z.eq_dec h hs, vs) else None
  | MapView a => Some (hs, a :: vs)
  | UnmapView a => if a =? 0 then Some (hs, vs) else if in_dec Z.eq_dec a vs then Some (hs, remove Z.eq_dec a vs) else None
  end.
Fixpoint events (s : list Z * list Z) (es : list os_event) : option (list Z * list Z) :=
  match es with
  | [] => Some s
  | e :: es => match event_step s e with Some s => events s es | None => None end
  end.

(** The calls, with the answers of the operating system. *)
Inductive call :=
| Open (f : nat) (o : os_answers)
| Close (f : nat)
| MapFile (s f : nat) (o : os_answers)
| MapPath (s : nat) (o : os_answers)
| Unmap (s : nat).

Definition put {A} (m : nat -> A) (i : nat) (v : A) : nat -> A := fun j => if Nat.eqb j i then v else m j.

Definition perform (w : world) (es : list os_event) (fs : nat -> Z) (ss : nat -> Z * Z) : option world :=
  match events (open w, mapped w) es with
  | Some (hs, vs) => Some {| open := hs; mapped := vs; files := fs; spans := ss |}
  | None => None
  end.

Definition do_call (bits : Z) (w : world) (c : call) : option world :=
  match c with
  | Open f o => let '(es, _, h) := open_file_into o in perform w es (put (files w) f h) (spans w)
  | Close f => let '(es, h) := close_file (files w f) in perform w es (put (files w) f h) (spans w)
  | MapFile s f o => let '(es, _, sp) := map_span_file bits o (files w f) in perform w es (files w) (put (spans w) s sp)
  | MapPath s o => let '(es, _, sp) := map_span_path bits o in perform w es (files w) (put (spans w) s sp)
  | Unmap s => let '(es, sp) := unmap_span (spans w s) in perform w es (files w) (put (spans w) s sp)
  end.

(** The operating system hands out handles and addresses that are not in use. *)
Definition answers_ok (w : world) (o : os_answers) : Prop :=
  ~ In (os_create o) (open w) /\ ~ In (os_mapping o) (open w) /\ (os_create o <> os_mapping o \/ os_create o = 0) /\ ~ In (os_view o) (mapped w).

(** The one rule for the program: a file_t that holds an open file is not opened again, a span that holds a view is not mapped
    again. Closing and unmapping are allowed at any time, also twice. *)
Definition allowed (w : world) (c : call) : Prop :=
  match c with
  | Open f o => files w f = 0 /\ answers_ok w o
  | MapFile s f o => snd (spans w s) = 0 /\ answers_ok w o
  | MapPath s o => snd (spans w s) = 0 /\ answers_ok w o
  | Close _ | Unmap _ => True
  end.

Inductive reachable (bits : Z) : world -> Prop :=
| reach_start : reachable bits {| open := []; mapped := []; files := fun _ => 0; spans := fun _ => (0, 0) |}
| reach_call w c w' : reachable bits w -> allowed w c -> do_call bits w c = Some w' -> reachable bits w'.
