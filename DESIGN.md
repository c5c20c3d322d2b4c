# A machine-checked model of jeaiii/ce in Rocq (Coq 8.16.1)

## Trusted base

* Coq's kernel (8.16.1). Every theorem is accepted by the kernel; `vm_compute`
  conversions are used only on small closed terms and are re-checked by `coqchk`.
* `Print Assumptions` is run for every theorem listed in MANIFEST.json (see the
  `*_Props.v` files). Unless a section below says otherwise the answer is
  "Closed under the global context". The few theorems stated over the reals use axioms
  of the standard library, listed in "Axioms" below. No axiom is added here.
* The correspondence between the C++ text and the Gallina functions. It is by
  reading: every model definition cites file and lines, and says where it
  simplifies. There is no extraction and no C++ semantics in Coq.
* Platform assumptions: two's complement, little-endian, 8-bit `char`, 32-bit `int`,
  64-bit `long long`/`size_t`, arithmetic right shift (all guaranteed or de facto
  on the targets the library supports).

## Conventions

* A value of an n-bit C++ integer type is a `Z`; unsigned arithmetic wraps explicitly
  (`u32`, `u64`, ...), signed arithmetic that could overflow goes through a checked
  operation which yields `UB`.
* Undefined behaviour (out-of-bounds access, signed overflow, bad shift, division by
  zero, null dereference, use of dead storage) is the distinct outcome `UB` of the `res`
  monad (`Base.v`); a theorem that concludes `= Ok ...` therefore also proves absence of
  UB.
* Arrays are lists; all reads and writes are bounds checked in the model.
* Loops become structural recursion or recursion on fuel, in which case a distinct
  outcome tells fuel exhaustion and the theorem shows it is not reached.
* For each component `X`: `X_Model.v` (executable model, no proofs), `X_Spec.v`
  (small specification that does not mention the model; sometimes at the top of
  `X_Props.v`), `X_Proofs.v`, `X_Props.v` (the theorems named in MANIFEST.json, their
  `Print Assumptions`, and examples showing that hypotheses are met).
* Properties that are false of the code are kept in view: the true part is proved
  (`_partial`) and the false part is refuted by a theorem with suffix `_refuted`.

## Plan per property

| id | modelled | proof |
|----|----------|-------|
| C01 | `to_text_from_integer.h` macros as a decision tree over Z with 64-bit wrap, writing into a byte list | fixed-point reciprocal error bound, then digit-pair invariant; spec: the decimal numeral is characterised by value, digit range and no leading zero |
| C02 | `measure`, `to_text` overloads, `as_string` buffer | length of numeral bounds; refutation for unterminated char arrays |
| C03 | `insertion_sort` on a list with swaps, arbitrary `ltb` | invariant: sorted prefix; Permutation; stability by filtering on equivalence classes |
| C04 | `intro_sort<N>`, `partition`, `median` with indices, UB on out of range | loop invariants for partition, induction on length |
| C05 | same, with depth counter | refuted: an all-equal array of length n recurses linearly |
| C06 | `lower_bound`, `upper_bound` | binary search invariant |
| C07 | `heap_raise`, `heap_lower`, queue operations on list | heap invariant with one hole; refinement to multiset |
| C08, C09 | `bulk` over storage cells with liveness and type traits | simulation with list; liveness invariant |
| C10 | `bitset` on byte list | `Z.testbit` extensionality |
| C11-C13 | table construction, byte/word/dword steps, CRC over bits | GF(2) linearity of the step; induction on data; invertibility for bursts |
| C14, C15 | `fnv1a` element loop | induction; odd prime invertible modulo 2^n |
| C16, C17 | xoroshiro step as Z bit operations and as GF(2) matrix | linear map, order of one vector via matrix powers + prime factorisation, pigeonhole for full orbit |
| C18 | `seed` | refuted by a concrete seed; true part characterised |
| C19, C20 | pcg step/read | Hull-Dobell argument by induction on the exponent; shift by 32 is UB -> refuted / characterised exactly |
| C21, C22 | `next_ranged`, `next_unbiased` | division bounds; refutation by counting |
| C23, C24 | `base64::size/decode` with bounds-checked text | induction on 3-byte groups |
| C25, C26 | `lziii::size/decode` with wrap-around distances | induction on tokens; refutation for malformed streams; two runs from different buffers agree on what is written |
| C27-C31 | `zorder.h` | testbit reasoning; aligned squares as ranges of codes, from the high bits of a code; span-stack invariants; refutations with witnesses; a sharp bound on the false positives from the boxes that are not split; a sharp bound on the extents that fit the span stack, by counting the lower halves a box can still be split into |
| C32 | `dictionary` tree arrays | BST invariant; refinement to a map; refutation for key 0 |
| C33, C34 | `pool` | free-list/queue disjointness invariant; refinement to lists |
| C35 | `clock` | residual invariant by induction on the history |
| C36 | `sequence` metafunction as recursion | strong induction on N |
| C37 | `vec` operations with checked int64 | interval arithmetic (nia) + refutations |
| C38 | `in_polygon_xy` | edge-crossing algebra |
| C39, C40 | `inside` | case analysis; perturbation with an explicit epsilon |
| C41-C44 | `math.h` predicates | nonlinear arithmetic; reals for the distance meaning |
| C45 | `cordic_n` | quadrant case split |
| C46 | `to_utf16` | case split on encoding length |
| C47 | `nameof.h` tables, the casts to and from the enum's underlying type | list search; partial: an enum over a signed 8-bit type has its negative enumerators found by as_enum and not by nameof |
| C48, C49 | `names`, `names_t` scanners | invariant of scanner state |
| C50 | `io` visiting a datatype of values | structural induction |
| C51, C52 | `os::log`, `error`, macros | induction on arguments |
| C53, C54 | `cdt` reset/insert/flip on arrays | local-change invariants |
| C55, C56 | `incircle` | polynomial identity; refutation of no-overflow |
| C57 | `fill` | reachability invariant |
| C58 | `locate` | loop exit condition |
| C59, C60, C66 | small-step interleaving semantics | invariants over all schedules |
| C61, C62, C64 | direct | arithmetic |
| C65 | `to_text` of every kind of value; the overloads that a call finds follow two-phase lookup of standard C++ (older MSVC modes find later ones too) | concatenation of writes; refutation for arrays of arrays |
| C63 | `isqrt` through double rounding | Flocq's binary64 rounding to nearest even of the real square root |
| C67 | type lists as lists of an arbitrary type with decidable equality | induction on the list |
| C68 | `to_polar` by the CORDIC loop | error bounds over the reals against length and angle |
| C69 | `map_span` (Win32) over an oracle for the system calls | case analysis over every outcome of every call; the set of open handles |
| C70 | histories of `insert_point` | local Delaunay property kept by the flips; local implies global by the lifting to the paraboloid along a walk |
| C71 | the face and edge views as index iterations | bijection between indices and faces / edges; Euler's formula by counting |
| C72, C73 | `insert_point`, `insert_edge` | the loops' invariants, then induction over the history |
| C74 | `insert_edge` | refuted: an edge from a corner of the square; see also C77. Proved otherwise: insert_edge over any way of finding faces ends (the rest of the segment gets shorter, flips add edges at the point, turning around a point finds a face ahead), applied to walks cut off after F turns and to the exhaustive search under `#if 0`; a walk longer than the number of its states never ends |
| C75 | the mesh of any history | no two edges cross: sides of clockwise faces that tile the square |
| C76 | `insert_point`, `locate` | the walk decreases the power of the point in the circumcircle; every flip adds a neighbour to the new vertex |
| C77 | `insert_point`, `insert_edge`, `locate` after `insert_edge` | refuted: a pinwheel of constrained edges on which the walk is periodic, for every fuel |
| C78 | the calls of the triangulation, with every CE_ASSERT as an outcome of its own | the model with assertions equals the one without on every reachable mesh, by the invariants of C54-C75 (new faces have at most one side of the square); refuted for constraints from the low corner |
| C79 | the spin locks, interlocked operations and volatile loads of atomic_msvc_x86.h, on processors with store buffers (x86-TSO) | simulation of the interleaving model of C60: the simulated state has the buffers flushed; stores under way for one lock are in one buffer, and the lock is held until the last is in memory; on fair schedules a measure of accesses left and stores under way falls again and again |
| C80 | every operation of atomic_std.h, and of atomic_msvc_x86.h on objects that need no lock: which implementation the type traits select, its accesses, threads with any sequences of calls | forward simulation to a history with the instants of the effects inserted (linearizability of Herlihy and Wing); a measure that every step without a return decreases (lock freedom); counting turns (wait freedom of the calls without a loop, and for every n an execution that keeps a call with a loop in it for n turns) |
| C81 | the operators of vec2 and vec3 on integer elements; references are addresses in a memory of elements | case analysis on which component is undefined; the cells written do not include the cells still to be read |
| C82 | the file calls of os_win32.cpp as events on the handles and views the operating system has open (Os_Model), the program's file_t and span objects (Mapping_Spec) | invariant over call histories: open handles and views are those of the objects, one each |
| C83 | the generators of C16, C17 and C20 | the complete cycle gives a bijection between positions and states; for each result the states giving it are listed (rotations and multiplications by odd numbers are invertible; for pcg32 the state is solved bit by bit from the top); pairs: x ^ (x << 9) is inverted, so two results give the state |
| C84 | ascii::is_* on integers from -128 to 255 | interval arithmetic |
| C85 | normal on binary32 floats of Coq's SpecFloat; rsqrtss is any function with the error bound of Intel's manual (Normal_Spec) | Flocq: each operation is the rounding of the real result; the errors are added up with real arithmetic |
| C86 | edge_vert_a, edge_vert_b, edge_vert_o and collinear beside the views of C71 | the invariant that every face is clockwise; convex combinations over the rationals |
| C87 | C++ types as a datatype; a trait is a list of patterns, of which the compiler takes the most specialised match | case analysis on the qualifiers; induction on the type for arrays |
| C88 | histories of reset and insert_point on two meshes | the centre of a face of one mesh is in a face of the other; both planes under the lifted paraboloid meet there, so the circles agree |
| C89 | the operators of vec2 and vec3 on SpecFloat floats of 24 or 53 bits; references are addresses in a memory of elements | Flocq: each operation is the rounding of the real result, and the rounding is the nearest value of a format written out in VecFloat_Spec |
| C90 | sqrx, dotx and crossx of floats | the error bound of one rounding, added up with real arithmetic; whole numbers below 2^24 are in the format |
| C91 | aggregates as lists of values; the compiler as a function that gives a value or refuses; unqualified lookup as a list of candidates | case analysis on the number of members |
| C92 | the macros as functions of the level's name, the literal and the values; composed of the models of names, as_string and log | theorems of C48, C02 and C51 composed; texts of values shown unique |
| C93 | the check macros with the default hooks, composed of the models of as_string, call_error_hook, log and error | theorems of C02 and C51 composed |
| C94 | the function as it is, on the meshes of C53 | the signs of three orientations; each point on a side is a mixture of its ends |
| C95 | the operators of C81 on a type of nested vectors | induction on the nesting; lists of scalars and cells of memory are appended |
| C96 | intersect on objects named by addresses | case analysis; refutation for every value of the points |
| C97 | bind with a reference into the dictionary; a destroyed datum is absent | lemmas on find; refutation for every dictionary |
| C98 | fill, constrained edges, winding numbers of polygons (no new model) | two triangles of differences show that a point may move without changing the count if its way does not meet the polygon; planarity (no point inside two faces) shows that ways within a face, or across an unconstrained edge, meet no constrained edge; induction on the fill |
| C99 | face infos under flips, splits, marks and fills (no new model) | invariant: equal infos across unconstrained edges, kept by each step (relabelling of edges); a face that a step does not change keeps its info, and two faces of one mesh share no point, so only changed faces matter; between steps the place is moved a little (symbolic perturbation) so that it is strictly inside a face of every mesh on the way |
| C100 | `insert_edge` again (no new model) | planarity: a vertex on an edge is one of its ends, two points have at most one edge, and no edge starts into the inside of a face; so the loop of insert_edge only ever meets the case along an edge; flips and marks change no other constraint (relabelling) |
| C101 | the functions of sort.h and the heap once more with a counter of calls of operator< (Cost_Model) | forgetting the counter gives the models of C03-C07; inductions on the loops; inversions counted against the sorted prefix; log2 of the index in the heap; n log n of intro_sort is refuted by equal elements |
| C102 | `crc32` again (no new model) | linearity of the register; the parity of the register is that of the message; the register started at 1 comes back to 1 after 2^31 - 1 steps and not earlier, because x^(2^31-1) = 1 modulo the polynomial (computed) and 2^31 - 1 is prime (Pocklington) |
| C103 | `insert_point` again (no new model) | from C70 (no vertex in the circle of a face) and the covering of the square, extended to rational points: the face around the middle of p r has p and r as corners, because the powers of p and r with respect to its circle add up to a sum of products of one sign; the face at p in the direction of r lies, on the paraboloid, under r, so that one of its two other corners is nearer to the point when r is |
| C104 | the functions of sort.h and the heap for an operator< that takes and returns a state (Calls_Model) | inductions on the loops with nothing known of the answers: each swap permutes the range, the partition point stays in it, the hole of the heap is a swap; any count that a call raises by at most one is bounded along; with a counter for the state these are the functions of C101 (C101_counted) |
| C105 | `crc32` again (no new model) | the register after a message xor its checksum is all ones; one step of the register is a bijection of the 32 bit words when the top bit of the polynomial is set, so four bytes reach every register in one way; linearity of the register in the differences |
| C106 | `rotate`, `to_polar`, `to_cartesian` again (no new model) | induction over the turns: an exact turn keeps distances (Rgeom of the standard library), each computed one adds the error of C45; polar: C68 and C45 with the mean value theorem for sine and cosine |
| C107 | `intro_sort`, `lower_bound`, `upper_bound`, `min_priority_queue`, `z_query` and `z_inside` again, one after the other (no new model) | the theorems of the parts, each giving what the next one needs; a sorted permutation is unique when different elements are not equivalent |
| C108 | `lziii::decoder` on top of `base64::decoder` (no new model but their composition, `embedded`) | C23 and C25 give the round trip; the size of a stream is a function of its tokens, and a weight of 145 for a literal is kept by every group of tokens, which gives the sharp bound |
| C109 | the generators of C16, C17, C19 (no new model) | two periods have their gcd as a period; a value comes in every period equally often, and by C83 two values come c and c + 1 times, so that the gcd is the whole period. pcg32: otherwise 2^63 is a period, but 2^63 steps flip the highest bit of the state, and two results differ |
| C110 | the triangulation of C70 (no new model) | the in-circle determinant of a face is, as a function of the fourth point, the squared norm times a positive number plus an affine function; summed with the weights and compared with the corners, where it is 0, it gives the difference of the mean squared distances |

This table is the plan; the state of each claim is in MANIFEST.json.

## Axioms

Every theorem in MANIFEST.json is closed under the global context except these, for which
`Print Assumptions` lists

* `ClassicalDedekindReals.sig_forall_dec`, `ClassicalDedekindReals.sig_not_dec`,
  `FunctionalExtensionality.functional_extensionality_dep`, `Classical_Prop.classic`:
  C45_quarter_turn, C45_accuracy, C45_cos_sin, C63_squares, C63_nearest, C63_close,
  C63_monotone, C63_out_of_range, C63_hypot, C63_hypot_total, C63_hypot_portable, C68_polar, C85_x86_partial, C85_portable_partial,
  C89_formats, C89_binary, C89_rounded_unique, C89_compare, C89_compound_vector, C89_compound_scalar_partial,
  C90_error, C90_whole, C90_parallel;
* the first three of them: C63_nearest_refuted, C85_zero_refuted;
* sig_forall_dec and functional_extensionality_dep only: C89_alias_refuted.

`coqchk` also lists the other constants of `Coq.Reals.Rdefinitions` (`R`, `Rplus`, ...),
which are opaque definitions behind a module signature, and those of `Coq.ssr.ssrunder`
(`Under_rel`), which the ssreflect plugin files required by the standard library declare
in the same way. No theorem depends on the latter.

## The project's tests on the model

`Repo_Tests.v` runs the project's own tests (/repo/test) on the model, as a check that the
model computes what the code computes: math.cpp, sort.cpp, dictionary.cpp, pool.cpp,
nameof.cpp, io.cpp, cdt.cpp, atomic.cpp (int and pointer) and the bulk tests of main.cpp. Two of them
reach undefined behaviour, in the code as in the model: bulk_complex assigns to a destroyed
object (main.cpp:275) and sort.cpp's random test shifts by 32. Run by hand, as they are too long
for the file: all 2048 cosines of math.cpp:56-74 equal the rounded ones; the three
generators' sums of squares (main.cpp:303-346) are 19022, 13472 and 19760 (with the shift by 32 taken as
a rotation), below the limit of 24576; and the 4096 numbers of sort.cpp are sorted. Not run:
the tests of clocks and mutexes, whose outcome is the platform's.

## What is modelled

Line numbers are those of /repo/lib (`lib/h/ce` for headers). "Modelled" means that a
definition in a `*_Model.v` file follows the lines statement by statement, unless the
comment on that definition says where it simplifies.

| file | modelled | model file |
|------|----------|------------|
| atomic_std.h | the compare-exchange loops, 62-70 | Atomic_Model |
| atomic_msvc_x86.h | the compare-exchange loops and the spin lock, 69, 81, 262-280 | Atomic_Model |
| atomic_msvc_x86.h | the spin lock, interlocked operations and volatile loads on x86-TSO | Tso_Model |
| atomic_std.h, atomic_msvc_x86.h | all operations on objects that need no lock, and the traits that select them (97-129, 178-325; 51-84) | Interlocked_Model |
| cdt.h | 33-1070: reset, orient, incircle, flip, locate, insert_point, insert_edge, fill, views | Cdt_Model, Cdt_View_Model, Cdt_Search_Model (516-525, `#if 0`), Cdt_Debug_Model (the same functions with their CE_ASSERTs) |
| ce.h | rotl32 76-79, error macros 230-241, type lists and sequence 285-316, 374-414, tuple and get 385-435, type traits 331-368, crc32 and fnv1a 439-581, vec 585-699, random 705-852, base64 856-901, to_text and as_string 919-1080, error and log hooks 1082-1108 and 1174-1178, argument names 1112-1170, log macros 1181-1195, span 1199-1218, map_span<T> 1237-1242, construct/destroy helpers and bulk 1250-1411, heap and min_priority_queue 1419-1478, bitset 1482-1526 | AsString, Base64, Bitset, Bulk, Hash, Heap, Log, Mat, Names, Os, Random, Sequence, Traits, Tuple, Vec, VecFloat, VecOps |
| clock.h | 33-69 | Clock_Model |
| dictionary.h | 38-110 | Dictionary_Model, Alias_Model |
| io.h | 30-129 | Io_Model, Names_Model |
| lziii.h | 33-100 | Lziii_Model |
| math.h | vec products, in_polygon, inside, in_range tests, ab_less_cd, intersect, cordic, to_polar, isqrt, hypot, normal, degrees_to_angle | Math_Model, Alias_Model, Vec_Model, Cordic_Model, Sqrt_Model, Normal_Model |
| nameof.h | 33-143 | Nameof_Model |
| pool.h | 43-181 | Pool_Model |
| sort.h | 30-144 | Sort_Model, Heap_Model, Cost_Model, Calls_Model |
| zorder.h | 30-170 | Zorder_Model |
| mutex_std.cpp, mutex_win32.cpp | the wrappers, 30-43 and 32-45 | Atomic_Model (C66) |
| os.cpp | 31-79 | Os_Model |
| os_posix.cpp | sleep_ns 44-51, log output 58-72, file calls 74-110 | Os_Model |
| os_win32.cpp | to_utf16 33-54, sleep 59-61, log output 92-110, files and mapping 105-169 | Os_Model |
| to_text.cpp, to_text_from_integer.h | 49-62, 79-140 | ToText_Model |

Not modelled:

* The text of a floating point number: `to_text(float)`, `to_text(double)` call
  `std::to_chars` (to_text.cpp:49-50), whose text (at most 24 characters) is a parameter.
* Hardware and library primitives, which are taken at their documented behaviour:
  single atomic operations, `std::mutex`, `std::shared_mutex`, SRWLOCK, `nanosleep`,
  `Sleep`, the Win32 file calls, `memcpy`, `sqrt`. Weak memory: the
  interleaving semantics is sequentially consistent, except in Tso_Model (C79), which has
  the store buffers of x86. What the compiler may move is not modelled: `volatile`,
  `_ReadWriteBarrier` and the intrinsics are taken to keep the order of the source.
* Overload resolution and template instantiation: a model takes the overload or the
  instantiation that the C++ rules select, and says so in its comment.
* Preprocessor platform selection (ce.h:96-150), `rgba` (a view of four members as an array),
  members of aggregates that are arrays or references in `get`,
  virtual_alloc.
* What follows a failed assertion (`CE_DEBUG_BREAK`; the report it makes is C93); that the assertions of
  cdt.h do not fail is C78; in the other models a failed assertion is the outcome UB.
* Time and memory limits: no theorem speaks about running time, except through the
  number of iterations, of comparisons (C101) or the recursion depth where it says so.
