(** The project's own tests (/repo/test), run on the model: what the model computes is what the tests expect of the code. These are
    tests of the model, not proofs about it. *)
From Coq Require Import String Ascii.
From Verif Require Import Base.
From Verif Require Bulk_Model Dictionary_Model Pool_Model Pool_Props Nameof_Model Nameof_Props Io_Model Cordic_Model Cordic_Props Math_Model Sort_Model Sqrt_Model
  Random_Model Interlocked_Model Cdt_Model Hash_Model Vec_Model Cordic_Atan.
Local Open Scope Z_scope.

(** test/math.cpp:7-15. *)
Example test_ab_less_cd : Math_Model.ab_less_cd 5 7 11 13 = Ok true.
Proof. reflexivity. Qed.

(** test/math.cpp:17-28. *)
Example test_inside :
  map (fun '(p, q) => Math_Model.inside p q) [((0, 10), (10, 0)); ((0, 0), (10, 0)); ((10, 0), (0, 10)); ((10, 0), (0, 0))] = [Ok true; Ok true; Ok false; Ok false].
Proof. reflexivity. Qed.

(** test/math.cpp:30-36. *)
Example test_isqrt : Sqrt_Model.isqrt (0x01234567 * 0x01234567) = 0x01234567.
Proof. reflexivity. Qed.

(** test/math.cpp:38-54. _180 is 2^30. *)
Definition deg45 : Z := 2 ^ 28.
Example test_polar :
  map (fun '(x, y) => Cordic_Model.polar_ang x y) [(100, 0); (100, 100); (0, 100); (-100, 100); (-100, 0); (-100, -100); (0, -100); (100, -100)] =
    map (fun k => Ok (k * deg45)) [0; 1; 2; 3; -4; -3; -2; -1] /\
  Cordic_Model.polar_mag 300 400 = Ok 500.
Proof. unfold Cordic_Model.polar_ang, Cordic_Model.polar_mag, Cordic_Model.to_polar, Cordic_Model.vector. rewrite Cordic_Atan.ks_values. split; vm_compute; reflexivity. Qed.

(** test/math.cpp:78-88. *)
Example test_degrees : map Math_Model.degrees_to_angle [0; 45; 90; 135; -180; -135; -90; -45] = map (fun k => Ok (k * deg45)) [0; 1; 2; 3; -4; -3; -2; -1].
Proof. reflexivity. Qed.

(** test/sort.cpp:5-54. *)
Definition unsorted : list Z := [10; 2; 6; 2; 5; 7; 4; 9; 12; 10].
Definition in_order : list Z := [2; 2; 4; 5; 6; 7; 9; 10; 10; 12].
Definition sorted_by (n : nat) (l : list Z) : res (list Z) := '(l, _) <- Sort_Model.intro_sort Z.ltb n 20 l 0 10 ;; Ok l.
Example test_sort : sorted_by 2 unsorted = Ok in_order /\ sorted_by 2 in_order = Ok in_order /\ sorted_by 16 unsorted = Ok in_order /\
  Sort_Model.insertion_sort Z.ltb unsorted 0 10 = Ok in_order.
Proof. vm_compute. auto. Qed.

(** test/main.cpp:136-169 bulk_simple. *)
Definition int_traits : Bulk_Model.traits Z := {| Bulk_Model.triv_ctor := true; Bulk_Model.triv_dtor := true; Bulk_Model.has_default := true; Bulk_Model.dflt := 0; Bulk_Model.moved := fun v => v |}.
Section BulkTests.
Import Bulk_Model.
Example test_bulk_simple :
  ('(rs, _) <- run int_traits 4 start [New; Size 0; Append 0 1%Z; Append 0 2%Z; Size 0; AppendN 0 10; Size 0; Append 0 3%Z; Size 0; Append 0 4%Z; Size 0; Append 0 5%Z; Size 0;
     RemoveAt false 0 0; Size 0; Read 0 0; Read 0 1; Read 0 2; RemoveAt true 0 0; Size 0; Read 0 0; Read 0 1] ;; Ok rs)%nat =
  Ok ([Unit; Nat 0; Bool true; Bool true; Nat 2; Bool false; Nat 2; Bool true; Nat 3; Bool true; Nat 4; Bool false; Nat 4;
     Bool true; Nat 3; Val 4%Z; Val 2%Z; Val 3%Z; Bool true; Nat 2; Val 2%Z; Val 3%Z]%nat).
Proof. reflexivity. Qed.

(** test/main.cpp:222-272 bulk_complex, to line 272: after each step the result, the size, and how many objects have been destroyed and
    constructed (the model counts every constructor alike). *)
Definition big_traits : traits unit := {| triv_ctor := false; triv_dtor := false; has_default := true; dflt := tt; moved := fun v => v |}.
Fixpoint watch (s : @state unit) (os : list op) : res (list (@ret unit * nat * nat * nat)) :=
  match os with
  | [] => Ok []
  | o :: os =>
      '(r, s) <- step big_traits 3 s o ;; b <- obj s 0 ;; rest <- watch s os ;;
      Ok ((r, bsize b, dtors (cnt s), ctors (cnt s)) :: rest)
  end.
Example test_bulk_complex :
  watch start [New; Append 0 tt; Append 0 tt; AppendN 0 10; Append 0 tt; Append 0 tt; RemoveAt false 0 0; RemoveAt false 0 1; Clear 0; AppendN 0 3; AppendN 0 3;
    Resize 0 2; Resize 0 6; Resize 0 0]%nat =
  Ok [(Unit, 0, 0, 0); (Bool true, 1, 0, 1); (Bool true, 2, 0, 2); (Bool false, 2, 0, 2); (Bool true, 3, 0, 3); (Bool false, 3, 0, 3);
      (Bool true, 2, 1, 3); (Bool true, 1, 2, 3); (Unit, 0, 3, 3); (Bool true, 3, 3, 6); (Bool false, 3, 3, 6);
      (Bool true, 2, 4, 6); (Bool false, 2, 4, 6); (Bool true, 0, 6, 6)]%nat.
Proof. reflexivity. Qed.

(** test/main.cpp:275 assigns to b[0] of the now empty b, an object that has been destroyed. *)
Example test_bulk_complex_ub :
  watch start [New; AppendN 0 3; Resize 0 0; Write 0 0 tt]%nat = UB.
Proof. reflexivity. Qed.
End BulkTests.

(** test/dictionary.cpp:13-30; the capacity is 256. *)
Definition codes (s : string) : list Z := map (fun c => Z.of_nat (nat_of_ascii c)) (list_ascii_of_string s).
Definition key (s : string) : Z := Hash_Model.fnv1a 32 1 (codes s) (Hash_Model.fnv_basis 32).
Section DictionaryTests.
Import Dictionary_Model.
Example test_dictionary :
  let run := d_run Z (Z * Z) Z.eqb Z.geb 256 (d_init Z (Z * Z) 256 0 (0, 0)) [(key "Mallori", (1, 2)); (key "Jimmy", (0, 9)); (key "Sydney", (0, 9))] in
  match run with
  | Ok (_, d) => d_size Z (Z * Z) d = 4 /\
      d_at_name Z (Z * Z) Z.eqb Z.geb d (key "Mallori") = Ok (1, 2) /\
      d_at_name Z (Z * Z) Z.eqb Z.geb d (key "Sydney") = Ok (0, 9) /\ d_at_name Z (Z * Z) Z.eqb Z.geb d (key "Jimmy") = Ok (0, 9) /\
      d_find Z (Z * Z) Z.eqb Z.geb d (key "Sydney") = Ok 3 /\ d_find Z (Z * Z) Z.eqb Z.geb d (key "Jimmy") = Ok 2
  | _ => False
  end.
Proof. vm_compute. repeat split; reflexivity. Qed.
End DictionaryTests.

(** test/pool.cpp, with 16 nodes instead of 1024. *)
Section PoolTests.
Import Pool_Model Pool_Props.
Definition some_pool : pool Z := {| p_next := repeat 77 16; p_size := 5; p_data := repeat 0 16 |}.
Example test_append_tail :
  (c <- p_start Z some_pool 1 ;;
   run_ops c [IsEmpty Z 0; Append Z 0 0; Append Z 0 1; Append Z 0 2; IsEmpty Z 0; Head Z 0; Remove Z 0; Head Z 0; Remove Z 0; Head Z 0; Remove Z 0]) =
  Ok [OBool Z true; OBool Z true; OBool Z true; OBool Z true; OBool Z false; OVal Z 0; OBool Z true; OVal Z 1; OBool Z true; OVal Z 2; OBool Z true].
Proof. reflexivity. Qed.
Example test_insert_head :
  (c <- p_start Z some_pool 1 ;;
   run_ops c [IsEmpty Z 0; Insert Z 0 2; Insert Z 0 1; Insert Z 0 0; IsEmpty Z 0; Head Z 0; Remove Z 0; Head Z 0; Remove Z 0; Head Z 0; Remove Z 0]) =
  Ok [OBool Z true; OBool Z true; OBool Z true; OBool Z true; OBool Z false; OVal Z 0; OBool Z true; OVal Z 1; OBool Z true; OVal Z 2; OBool Z true].
Proof. reflexivity. Qed.
End PoolTests.

(** test/nameof.cpp. *)
Section NameofTests.
Import Nameof_Model.
Definition int32_enum : enum_type := {| e_signed := true; e_bits := 32 |}.
Definition uint32_enum : enum_type := {| e_signed := false; e_bits := 32 |}.
Definition city (n : Z) : string :=
  match n with 0 => "city::_unknown" | 1 => "city::newport" | 2 => "city::irvine" | 3 => "city::costa_mesa" | 4 => "city::langua_beach" | _ => "(city)45" end%string.
Definition university (n : Z) : string :=
  match n with 0 => "university::_unknown" | 1 => "university::ucla" | 2 => "university::uci" | 3 => "university::berkeley" | _ => "(university::test)9" end%string.
Definition color (n : Z) : string := match n with 0 => "red" | 1 => "green" | 2 => "blue" | _ => "(<unnamed enum>)9" end%string.
Example test_nameof :
  nameof Nameof_Props.gcc int32_enum city 2 = Ok "irvine"%string /\ nameof Nameof_Props.gcc int32_enum city 45 = Ok "???"%string /\
  nameof Nameof_Props.gcc uint32_enum university 1 = Ok "ucla"%string /\ nameof Nameof_Props.gcc uint32_enum color 1 = Ok "green"%string /\
  as_enum Nameof_Props.gcc uint32_enum color "blue" 0 = Ok 2 /\ as_enum Nameof_Props.gcc uint32_enum color "green" 0 = Ok 1 /\
  as_enum Nameof_Props.gcc uint32_enum color "grey" 0 = Ok 0.
Proof. vm_compute. repeat split; reflexivity. Qed.
End NameofTests.

(** test/io.cpp:24-42 the visitor: the text so far and the prefix. *)
Section IoTests.
Import Io_Model.
Local Open Scope string_scope.
Definition digit (n : Z) : string := String (ascii_of_nat (48 + Z.to_nat n)) "".
Definition decimal (a : Z) : string := if (a <? 0)%Z then "-" ++ digit (- a) else if (a <? 10)%Z then digit a else digit (a / 10) ++ digit (a mod 10).
Definition cjson_step (t : string * string) (e : event) : string * string :=
  let '(at_, prefix) := t in
  match e with
  | EnterClass => (at_ ++ prefix ++ "{", " ")
  | LeaveClass => (at_ ++ " }", prefix)
  | EnterArray _ _ => (at_ ++ prefix ++ "[", "")
  | LeaveArray _ _ => (at_ ++ "]", ", ")
  | Name s => (at_ ++ prefix ++ s, ": ")
  | Atom a => (at_ ++ prefix ++ decimal a, ", ")
  end.
Definition cjson (name : string) (v : value) : res string :=
  es <- visit keep v ;; Ok (fst (fold_left cjson_step (Name name :: es)%list ("", ""))).
(** test/io.cpp:5-19; vec2<int> is written as int[2]. *)
Definition int2 (x y : Z) : value := VAs (VFixed [VAtom x; VAtom y]).
Definition body (p : value) (s0 s1 : value) : value := VClass ["p"; "steps"] [p; VFixed [s0; s1]].
Definition world (n : nat) (bodies : list value) : value := VClass ["time"; "bodies"] [VAtom 0; VList n bodies].
Definition body0 : value := body (int2 0 0) (int2 0 0) (int2 0 0).
Example test_io :
  cjson "x" (VAtom 42) = Ok "x: 42" /\
  cjson "v" (int2 1 2) = Ok "v: [1, 2]" /\
  cjson "w" (world 0 (repeat body0 10)) = Ok "w: { time: 0, bodies: [] }" /\
  cjson "w" (world 2 (body (int2 1 2) (int2 3 4) (int2 5 6) :: body (int2 (-1) (-2)) (int2 (-3) (-4)) (int2 (-5) (-6)) :: repeat body0 8)) =
    Ok "w: { time: 0, bodies: [{ p: [1, 2], steps: [[3, 4], [5, 6]] }, { p: [-1, -2], steps: [[-3, -4], [-5, -6]] }] }".
Proof. vm_compute. repeat split; reflexivity. Qed.
End IoTests.

(** test/cdt.cpp: cdt<10, 4096>; the object starts as zeros. *)
Section CdtTests.
Import Cdt_Model.
Definition zeros : mesh :=
  {| size := 0; pt := fun _ => 0; tw := fun _ => 0; co := fun _ => 0; fi := fun _ => 0; vx := fun _ => 0; vy := fun _ => 0 |}.
Example test_cdt : (m <- reset 4096 zeros ;; locate 4096 10 20 m 0 0 0) = Ok 31.
Proof. vm_compute. reflexivity. Qed.
End CdtTests.

(** test/atomic.cpp:54-92 on the int and the pointer (&n is 1000), with both headers; one thread. n is 10, and then 3. *)
Section AtomicTests.
Import Interlocked_Model.
Definition test_types : list ty := [ {| t_size := 4; t_kind := KInt true |}; {| t_size := 8; t_kind := KPtr 4 |} ].
Definition returned (o : outcome) : list ret :=
  match o with Next _ tr => flat_map (fun e => match e with Ret _ r => [r] | _ => [] end) tr | _ => [] end.
Definition test_calls : list (nat * call) :=
  (map (pair 0) [CStore 0; CAdd 5; CSub 2; CStore 7; CExchange 3; CCas 10 9; CCas 3 9; CLoad] ++
   map (pair 1) [CStore 1000; CAdd 10; CLoad; CAdd 10; CLoad])%nat.
Example test_atomic : Forall (fun how =>
    returned (run how test_types (repeat (0%nat, exact) 39) (start [1; 0] [test_calls])) =
    [(0, true); (0, true); (5, true); (0, true); (7, true); (3, false); (3, true); (9, true);
     (0, true); (1000, true); (1040, true); (1040, true); (1080, true)])
  [std_impl false; std_impl true; msvc_impl X64].
Proof. repeat constructor. Qed.
End AtomicTests.

(** test/sort.cpp:56-71: the numbers it sorts. The eighth draw shifts by 32, which the comment in ce.h:786-793 calls undefined: the test
    itself gets there. (With the shift taken as a rotation, its 4096 numbers are sorted; that takes too long for this file.) *)
Section RandomTests.
Import Random_Model.
Fixpoint draws (n : nat) (g : Z) : res (list Z) :=
  match n with
  | O => Ok []
  | S n => '(r, g) <- next_unbiased pcg_read pcg_step 20 g 6 ;; rs <- draws n g ;; Ok (r :: rs)
  end.
Example test_random : draws 7 (pcg_seed 0xABCDEF0123456789) = Ok [2; 2; 0; 5; 1; 3; 3] /\ draws 8 (pcg_seed 0xABCDEF0123456789) = UB.
Proof. vm_compute. auto. Qed.
End RandomTests.
