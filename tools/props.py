#!/usr/bin/env python3
"""Regenerates properties.jsonl. One tuple per property."""
import json, os
P = []
def p(id, title, statement, quantifier, why, *anchors):
    P.append(dict(id=id, title=title, statement=statement, quantifier=quantifier,
                  why_tests_cant=why, anchors=list(anchors)))

p("C01", "Integer to text is exact decimal",
  "to_text(buf, i) writes exactly the canonical base-10 digits of i (a leading '-' only for negative i, no leading zeros, '0' for zero) and returns buf plus the number of characters written, for every value of every built-in integer type.",
  "every value of signed/unsigned char, short, int, long, long long (8, 16, 32, 64 bits)",
  "2^64 inputs and ten different fixed-point reciprocal constants; a wrong rounding constant only shows for rare values.",
  "lib/to_text_from_integer.h: to_text_from_integer, JEAIII_A/S/D/W, JEAIII_L09, JEAIII_KX, JEAIII_KYX", "lib/to_text.cpp: to_text")
p("C02", "as_string buffers are large enough",
  "For every argument of integer, bool, char, enum, pointer, NUL-terminated char array or char pointer type, the characters produced by as_string never exceed measure<T>::value, so the as_string buffer (sum of measures + 1) is never overrun and is NUL terminated.",
  "every argument list of the supported types and every value of them",
  "Overrun depends on the longest text over all values; char arrays are converted through a decayed pointer so the bound used is not the array's bound.",
  "lib/h/ce/ce.h: measure, to_text_m, to_text_s, as_string")
p("C03", "insertion_sort is a stable sort",
  "insertion_sort(a,b) leaves the range an ordered permutation of its input in which elements that compare equal keep their original relative order, touching nothing outside [a,b).",
  "every array and every strict weak order given by operator<",
  "Infinitely many arrays and orders.",
  "lib/h/ce/sort.h: insertion_sort")
p("C04", "intro_sort sorts every array for every cutoff",
  "intro_sort<N>(a,b) terminates without leaving [a,b) and leaves an ordered permutation of the input.",
  "every array (also all-equal, length 0, 1, 2), every cutoff N >= 1, every strict weak order",
  "Pivot aliasing for tiny ranges, duplicate keys, arbitrary sizes.",
  "lib/h/ce/sort.h: intro_sort, partition, median")
p("C05", "intro_sort recursion stays logarithmic",
  "The recursion depth of intro_sort is bounded by a logarithmic function of the array length (the 'intro' in intro sort), so sorting large arrays cannot exhaust the stack.",
  "every array",
  "Depth is an execution property over all arrays; only adversarial inputs show it.",
  "lib/h/ce/sort.h: intro_sort(T*,T*,size_t)")
p("C06", "lower_bound and upper_bound find the exact boundary",
  "On a range sorted by operator<, lower_bound returns the first position whose element is not less than k and upper_bound the first whose element is greater than k; both only read inside the range.",
  "every sorted array, every key, every strict weak order",
  "Off-by-one errors depend on length and position.",
  "lib/h/ce/sort.h: lower_bound, upper_bound", "lib/h/ce/zorder.h: z_lower_bound")
p("C07", "min_priority_queue behaves as a priority queue",
  "After any sequence of enqueue/dequeue, dequeue on a non-empty queue returns a minimum of the current contents, the contents are exactly the enqueued items not yet dequeued, enqueue fails (changing nothing) exactly when the queue holds N items, and head() is the minimum.",
  "every operation history, every capacity N, every strict weak order",
  "Heap corruption shows only after specific long histories.",
  "lib/h/ce/ce.h: heap_raise, heap_lower, min_priority_queue")
p("C08", "bulk behaves as a bounded list",
  "Any sequence of append, append_n, resize, remove_at, ordered remove_at, clear, copy and assignment on a bulk<N,T> has the effects and return values of the same operations on a plain list of at most N elements; failed operations change nothing; size never exceeds N.",
  "every operation history, every N, every element type",
  "Histories are unbounded.",
  "lib/h/ce/ce.h: bulk, assign_items, construct_at, destroy_at")
p("C09", "bulk constructs and destroys each element exactly once",
  "In any history, elements are only assigned or destroyed while alive and only constructed in dead storage; exactly the first size slots are alive; destroying the bulk leaves nothing alive. (Holds for default-constructible or trivial T; copying a bulk of a non-default-constructible non-trivial T assigns to dead storage.)",
  "every operation history and every combination of T's triviality/constructibility traits",
  "Lifetime errors depend on traits and history and are invisible without instrumentation.",
  "lib/h/ce/ce.h: bulk, construct_copy, is_constructible_with, assign_items, destroy_at, construct_at")
p("C10", "bitset behaves as an array of booleans",
  "set/reset/set(i,v) change exactly bit i, whole-set operations change all bits, and operator[] reads the last value written, with no access outside the byte array.",
  "every N, every index below N, every history",
  "Bit aliasing across bytes for all N and all histories.",
  "lib/h/ce/ce.h: bitset")
p("C11", "crc32 table algorithms compute the polynomial CRC",
  "crc32 over bytes, over 32-bit words and over 64-bit words all equal the bit-at-a-time reflected CRC with polynomial P and initial/final inversion of the (little-endian) byte stream; crc32c is this with the Castagnoli polynomial.",
  "every polynomial P, every starting crc, every data length and content",
  "2^32 start values times all messages; slicing tables are only correct by GF(2) linearity.",
  "lib/h/ce/ce.h: detail::crc32, crc32(T,size_t,uint8_t const[]), crc32(...uint32_t...), crc32(...uint64_t...), crc32c")
p("C12", "crc32 can be computed incrementally",
  "crc32(crc32(c, a), b) equals crc32(c, a followed by b) for every element width.",
  "every pair of buffers and every start value",
  "All split points of all buffers.",
  "lib/h/ce/ce.h: crc32")
p("C13", "crc32 detects every error burst of up to 32 bits",
  "If two equal-length messages differ, and all differing bits lie within 32 consecutive bits, their crc32 with a polynomial whose reflected form has bit 31 set (such as Castagnoli) differ; in particular every single-bit error is detected.",
  "every pair of messages of every length differing in one burst",
  "Quantifies over all pairs of messages.",
  "lib/h/ce/ce.h: crc32, crc32c_t")
p("C14", "fnv1a depends only on the byte stream",
  "fnv1a over 1, 2, 4 or 8 byte elements (signed or unsigned) equals FNV-1a of the little-endian bytes; hashing a then b with the hash of a as basis equals hashing the concatenation; the C-string form equals the sized form on the characters before NUL.",
  "every buffer, element width, basis, 32 and 64 bit hashes",
  "All inputs.",
  "lib/h/ce/ce.h: hash::fnv1a, fnv1a32, fnv1a64, fnv1a(char const[])")
p("C15", "fnv1a never collides on a one-byte change",
  "Two equal-length byte strings that differ in exactly one position have different fnv1a hashes (32 and 64 bit, any basis), and for fixed data different bases give different hashes.",
  "every pair of such strings of every length",
  "Quantifies over all pairs of messages.",
  "lib/h/ce/ce.h: hash::fnv1a, detail::fnv1a::prime")
p("C16", "xoroshiro64ss has full period",
  "From any non-zero state the state sequence of next() visits every non-zero 64-bit state and repeats after exactly 2^64-1 calls; it never reaches the zero state. The results are those of the published xoroshiro64**, and next64() puts two of them together.",
  "every non-zero state",
  "2^64 states.",
  "lib/h/ce/ce.h: xoroshiro64ss::next, CE_ROTL32")
p("C17", "xoroshiro128pp has full period",
  "From any non-zero state next() repeats after exactly 2^128-1 calls, visiting every non-zero state. The results are those of the published xoroshiro128++.",
  "every non-zero 128-bit state",
  "2^128 states.",
  "lib/h/ce/ce.h: xoroshiro128pp::next")
p("C18", "seeding never yields the stuck all-zero generator state",
  "After seed(g, size, data) a xoroshiro generator is not in the all-zero state, from which next() returns 0 forever.",
  "every seed buffer including the empty one",
  "Needs a preimage over all buffers; only special seeds fail.",
  "lib/h/ce/ce.h: seed(xoroshiro64ss&), seed(xoroshiro128pp&)")
p("C19", "pcg32 state sequence has full period",
  "step() is a bijection on 64-bit states whose orbit from any state visits all 2^64 states before repeating.",
  "every 64-bit state",
  "2^64 states.",
  "lib/h/ce/ce.h: random::step(pcg32_64_t)")
p("C20", "pcg32 read has defined behaviour and is the XSH-RR output",
  "read(g) performs no undefined shift and equals rotate-right of the xorshifted state.",
  "every 64-bit state",
  "UB only for states whose top five bits are zero and hidden by x86 shifters.",
  "lib/h/ce/ce.h: random::read(pcg32_64_t)")
p("C21", "next_ranged and next_unbiased stay in range and advance once",
  "For n > 0 the result is in [0,n); n = 0 gives 0 without dividing by zero; the generator state afterwards is the state after at least one step, and next_unbiased terminates.",
  "every n and every generator state, any generator with 32-bit output",
  "2^32 bounds times all states.",
  "lib/h/ce/ce.h: next_ranged, next_unbiased, next")
p("C22", "next_unbiased is unbiased",
  "For each n, under uniformly distributed 32-bit raw outputs, every result in [0,n) is produced by the same number of accepted raw outputs.",
  "every n",
  "A statement about exact counts over 2^32 raw values for every n.",
  "lib/h/ce/ce.h: next_unbiased")
p("C23", "base64 decode inverts base64 encoding",
  "For every byte string, decoding its RFC 4648 encoding (padded or not, followed by any non-alphabet terminator) with the size computed from the text yields the byte string.",
  "every byte string of every length",
  "All strings.",
  "lib/h/ce/ce.h: base64::size, base64::decode, ascii::is_base64")
p("C24", "base64 size and decode stay in bounds",
  "size(src) is floor(3n/4) (without intermediate overflow) for the length n of the leading run of alphabet characters, and decode with that size reads only the alphabet characters and writes exactly dst_size bytes.",
  "every text",
  "All texts.",
  "lib/h/ce/ce.h: base64::size, base64::decode")
p("C25", "lziii decode expands exactly the encoded tokens",
  "For every sequence of literals and back-references (distance 1..4096 within the data so far, length 3..18, overlapping allowed), size() of its documented serialisation is the expanded length and decode() produces the expansion.",
  "every well-formed token sequence of every length",
  "All token sequences.",
  "lib/h/ce/lziii.h: size, decode")
p("C26", "lziii memory safety",
  "On a well-formed stream, size and decode read only the encoded bytes and decode reads only already decoded bytes and writes exactly dst[0..dst_size). (Malformed streams are not detected: they read out of bounds.)",
  "every stream",
  "All byte streams.",
  "lib/h/ce/lziii.h: size, decode")
p("C27", "z_encode interleaves bits and is injective",
  "Bit 2i of z_encode(x,y) is bit i of x with the sign flipped and bit 2i+1 that of y; so distinct points have distinct codes, every 64-bit code is the code of exactly one point, the code is monotone in each coordinate, and the codes of the points of an aligned square of side 2^k are exactly the 4^k consecutive codes from that of its lowest corner.",
  "every pair of 32-bit coordinates",
  "2^64 pairs.",
  "lib/h/ce/zorder.h: z_expand, z_encode")
p("C28", "z_inside is the rectangle test",
  "z_inside(z_encode(x0,y0), z_encode(x1,y1), z_encode(x,y)) holds iff x0<=x<=x1 and y0<=y<=y1.",
  "every rectangle and point",
  "2^192 inputs.",
  "lib/h/ce/zorder.h: z_inside")
p("C29", "z_query reports every stored code inside the box",
  "Given sorted data, every stored code whose point lies in the query rectangle is written to out, in order and without duplicates, and all written codes come from data.",
  "every sorted data array and every rectangle",
  "Depends on the geometry of all sub-boxes; a code on the last cell boundary is easily missed.",
  "lib/h/ce/zorder.h: z_query, z_split, z_lower_bound")
p("C30", "z_query never overflows its span stack",
  "z_query keeps at most 32 pending spans.",
  "every data array and rectangle",
  "Only very large rectangles with a point in the deepest sub-box reach the limit.",
  "lib/h/ce/zorder.h: z_query spans[32*2]")
p("C31", "z_query reports only codes inside the box",
  "Every code written by z_query lies in the query rectangle (at the 256x256 cell granularity).",
  "every data array and rectangle",
  "False positives occur only for special alignments of boxes.",
  "lib/h/ce/zorder.h: z_query, z_split")
p("C32", "dictionary behaves as a finite map",
  "After any sequence of bind calls on a zero-initialised dictionary, find(k) returns a handle to the most recently bound value of k or nil if k was never successfully bound; bind of a new key fails exactly when N-1 keys are stored; handles never change; other keys are unaffected.",
  "every history of binds, every N >= 2, every key",
  "Unbounded histories; special key values.",
  "lib/h/ce/dictionary.h: find, bind, operator[]")
p("C33", "pool never hands out a live node twice",
  "Across any history of alloc_index/free_index (freeing only live nodes once), allocated indices are non-zero, below N, pairwise distinct while live, and allocation fails exactly when N-1 nodes are live.",
  "every history, every N",
  "Unbounded histories.",
  "lib/h/ce/pool.h: reset, alloc_index, free_index")
p("C34", "pool queues are independent deques",
  "Any number of queues sharing one pool behave as independent sequences under append_tail, insert_head, remove_head, head, tail and is_empty; insertion fails (changing nothing) exactly when the pool is full; no node leaks.",
  "every history over every number of queues and every capacity",
  "Unbounded histories and interference between queues.",
  "lib/h/ce/pool.h: append_tail, insert_head, remove_head, head, tail, is_empty")
p("C35", "clock never drifts",
  "After reset, for any sequence of elapsed()/current() calls the accumulated tick equals floor(total elapsed timestamp * Fn / (frequency * Fd)) exactly, and the returned increments sum to tick, however the time is sliced (as long as the intermediate products fit 64 bits).",
  "every sequence of timestamps, every rate Fn/Fd, every frequency",
  "Unbounded histories; drift is a cumulative effect.",
  "lib/h/ce/clock.h: clock::elapsed, current, reset")
p("C36", "sequence_t<T,N> is 0..N-1",
  "sequence_t<T,N> is items<T,0,1,...,N-1> for every N and uses recursion depth logarithmic in N.",
  "every N",
  "Every N.",
  "lib/h/ce/ce.h: detail::sequence, sequence_t")
p("C37", "crossx, dotx and sqrx are exact",
  "crossx of int32 vec2 never overflows and equals the mathematical cross product; dotx and sqrx are exact except for the stated extreme inputs, where the code has signed overflow.",
  "every pair of int32 vectors",
  "2^128 inputs; overflow only at extreme corners.",
  "lib/h/ce/ce.h: sqrx, dotx, crossx")
p("C38", "in_polygon computes the winding number",
  "For a point not on the boundary, in_polygon equals the winding number of the closed polygon: the sum over a fan triangulation of +1/-1 for each positively/negatively oriented triangle that strictly contains the point; it is invariant under rotating the vertex list and negated by reversing it.",
  "every polygon (self-intersecting too), every point off the boundary, coordinates within 30 bits",
  "All polygons.",
  "lib/h/ce/ce.h: in_polygon_xy, in_polygon")
p("C39", "inside() is the cross product sign under symbolic perturbation",
  "inside(a,b) is false for a==b, exactly one of inside(a,b), inside(b,a) holds for a!=b, and it equals the sign test of the cross product after moving the query point by an infinitesimal amount in x and a smaller one in y.",
  "every pair of int32 vectors",
  "2^128 inputs; ties only.",
  "lib/h/ce/math.h: inside")
p("C40", "every point is inside exactly one triangle",
  "For a clockwise triangle a,b,c and its neighbour across an edge, no point satisfies the three inside() tests of both; the triangles of a triangulated convex polygon partition its points.",
  "every triangulation and every point (also on edges and vertices)",
  "All points and meshes; only degenerate positions are interesting.",
  "lib/h/ce/math.h: inside")
p("C41", "in_range tests are the Euclidean distance tests",
  "in_range_rr / _line / _ray / _segment return true iff the distance from the point to the point / line / ray / segment is less than sqrt(rr).",
  "every int32 point and direction and radius within the stated magnitude",
  "All inputs; boundaries.",
  "lib/h/ce/math.h: in_range_rr, in_range_rr_line, in_range_rr_ray, in_range_rr_segment, ab_less_cd")
p("C42", "in_range_rr_edge requires the projection to lie on the edge",
  "in_range_rr_edge returns true iff the point is closer than sqrt(rr) to the line and its projection lies on the edge.",
  "every input",
  "Only points near one end but past the other show the defect.",
  "lib/h/ce/math.h: in_range_rr_edge, ball_hits_edge")
p("C43", "ab_less_cd compares 128 bit products exactly",
  "ab_less_cd(a,b,c,d) iff a*b < c*d in exact arithmetic, for the __int128 build and for the MSVC build.",
  "every four int64 values",
  "2^256 inputs.",
  "lib/h/ce/math.h: ab_less_cd")
p("C44", "intersect returns the line intersection",
  "intersect(p0,p1,q0,q1,r) returns false iff the lines are parallel, otherwise r is within rounding of the true intersection.",
  "every two segments",
  "All inputs.",
  "lib/h/ce/math.h: intersect, muldiv")
p("C45", "cordic rotation is accurate, periodic and quadrant-symmetric",
  "Rotating a vector no longer than the largest int32 never overflows and gives each coordinate within 0.501 + 1.26(|x|+|y|)/2^31 of the real rotation, so cos_2pi and sin_2pi are within two units for every radius and angle; rotating by an angle and by the angle plus a full turn give the same result; adding a quarter turn maps (x,y) to (-y,x) exactly; the error branch is never taken.",
  "every vector, radius and angle",
  "2^64 inputs.",
  "lib/h/ce/math.h: cordic_n::rotate, to_cartesian, cos_2pi, sin_2pi")
p("C46", "UTF-8 paths convert to UTF-16 correctly",
  "For every sequence of Unicode scalar values, to_utf16 of its UTF-8 encoding writes its UTF-16 encoding (surrogate pairs included) and never more units than input bytes.",
  "every sequence of Unicode scalar values",
  "All strings; constants folded modulo 2^16.",
  "lib/os_win32.cpp: to_utf16")
p("C47", "nameof and as_enum are inverse",
  "For an enum whose known enumerators in 0..255 have distinct names, as_enum(nameof(v)) is v for every known v, as_enum of any other string is the given default, and nameof of any other value is '???'.",
  "every enum table, every value, every string",
  "Templates instantiated over all 256 candidate values, any string.",
  "lib/h/ce/nameof.h: nameof_enum, as_enum, same")
p("C48", "CE_LOG argument names are split correctly and in bounds",
  "For the stringised argument list of COUNT expressions with balanced brackets and closed quotes, names yields exactly the trimmed expressions, and for any string at all it writes only inside its text buffer with every name NUL-terminated there.",
  "every source string and count",
  "All strings.",
  "lib/h/ce/ce.h: names, CE_AS_NAMES_EX")
p("C49", "serialisation field names are split correctly and in bounds",
  "names_t for a list of COUNT identifiers separated by commas and blanks yields exactly these identifiers and writes only inside text[N].",
  "every list of identifiers",
  "All lists.",
  "lib/h/ce/io.h: names_t")
p("C50", "io visits every field once, properly nested",
  "Visiting a value with an io produces balanced enter/leave events, one name per field in declaration order and one atom per scalar, from which the value can be rebuilt.",
  "every composite type and value",
  "All types and values.",
  "lib/h/ce/io.h: io::item, io::items, reflection")
p("C51", "log and error hooks receive and print exactly the arguments",
  "os::log prints the level letter (clamped) and every key/value pair once in order; the error hook receives kind, condition text, file(line) and argument text exactly as written at the macro.",
  "every argument list and level",
  "All argument lists.",
  "lib/os.cpp: log, error", "lib/h/ce/ce.h: call_error_hook, CE_AFFIRM")
p("C52", "CE_VERIFY and CE_REJECT return the condition and report exactly on failure",
  "CE_VERIFY(x) evaluates to x and calls the error hook iff x is false; CE_REJECT(x) evaluates to x and calls it iff x is true; both evaluate x once; with CE_ERROR_LEVEL 0 no hook is called and the value is the same.",
  "every condition value and hook behaviour",
  "Interaction of macro expansion, precedence and hook results.",
  "lib/h/ce/ce.h: CE_AFFIRM, CE_VERIFY, CE_REJECT, CE_ASSERT")
p("C53", "cdt mesh links stay consistent",
  "After reset and any sequence of insert_point / edge flips, every non-boundary edge's twin's twin is itself, twins connect the same two vertices, constraint flags of twins agree, the three vertices of a face differ, and all indices are in range.",
  "every history of insertions, any coordinates",
  "Unbounded histories.",
  "lib/h/ce/cdt.h: reset, insert_point_at_node, do_flip, flip")
p("C54", "cdt faces stay clockwise and tile the square",
  "Every face is strictly clockwise and the total area of the faces is that of the bounding square after any sequence of insertions.",
  "every history",
  "Unbounded histories; degenerate positions.",
  "lib/h/ce/cdt.h: insert_point_at_node, do_flip, flip, incircle")
p("C55", "incircle is the exact empty-circle predicate",
  "For a clockwise face, incircle(f,v) holds iff v is strictly inside the circumscribed circle, whenever the 64-bit arithmetic does not overflow.",
  "every clockwise triangle and point",
  "All coordinates; near-cocircular positions.",
  "lib/h/ce/cdt.h: incircle")
p("C56", "incircle never overflows",
  "The 64-bit intermediate products of incircle do not overflow for any coordinates the mesh can hold.",
  "every mesh",
  "Only far-apart vertices overflow.",
  "lib/h/ce/cdt.h: incircle")
p("C57", "cdt fill floods exactly the enclosed region",
  "fill(n,info) sets the info of exactly those faces reachable from face n through unconstrained edges without passing a face that already has that info, leaves all others unchanged, terminates, and never overruns its 256-entry stack.",
  "every mesh, start face and info value",
  "All meshes; region sizes beyond the stack limit.",
  "lib/h/ce/cdt.h: fill, fill_ex")
p("C58", "locate returns a face containing the point",
  "If locate returns a non-zero node then its face passes the three inside() tests for the point.",
  "every mesh, point and hint",
  "All walks.",
  "lib/h/ce/cdt.h: locate, locate_insertion_node")
p("C59", "atomic_fetch_add/sub by compare-exchange loses no update",
  "With any number of threads running the compare-exchange polyfill, in every interleaving (spurious failures included) the final value is the initial value plus all contributions and the returned values are the successive intermediate values; a loop goes round at most once for each of the other calls, once for a stale first load and once for each spurious failure, before it returns.",
  "every number of threads, every schedule, every spurious failure",
  "All interleavings.",
  "lib/h/ce/atomic_std.h: atomic_fetch_add, atomic_fetch_sub", "lib/h/ce/atomic_msvc_x86.h: atomic_fetch_add")
p("C60", "the MSVC spin lock gives mutual exclusion",
  "Operations on non-lock-free atomics guarded by the hashed spin locks never overlap for the same object, in any schedule, and a released lock can be taken again; when every thread keeps getting turns, every call returns.",
  "every number of threads, every schedule",
  "All interleavings.",
  "lib/h/ce/atomic_msvc_x86.h: scope_spin_lock")
p("C61", "span skip and trim",
  "skip(s,n) drops the first min(n,size) elements and trim(s,n) the last min(n,size); the result always lies inside s.",
  "every span and count",
  "All sizes.",
  "lib/h/ce/ce.h: span::skip, span::trim")
p("C62", "sleep_ns passes a normalised interval",
  "On POSIX the timespec given to nanosleep is exactly ns nanoseconds with 0 <= tv_nsec < 10^9; on Win32 the sleep in milliseconds is 0 only for ns = 0, never more than max(1, ns/10^6) and saturates below INFINITE semantics.",
  "every 64-bit ns",
  "2^64 inputs.",
  "lib/os_posix.cpp: sleep_ns", "lib/os_win32.cpp: sleep_ns")
p("C63", "isqrt and hypot are exact on perfect squares",
  "isqrt(x*x) is |x| for every int32 x, and isqrt(v) is the integer nearest to sqrt(v).",
  "every non-negative 62-bit integer",
  "2^62 inputs through three floating-point roundings.",
  "lib/h/ce/math.h: isqrt, hypot")
p("C64", "degrees_to_angle is exact on multiples of 45 and never overflows",
  "degrees_to_angle(45k) is k eighths of a turn modulo a full turn and the 64-bit product never overflows.",
  "every int32 degree value",
  "2^32 inputs.",
  "lib/h/ce/math.h: degrees_to_angle")
p("C65", "to_text of several values is the concatenation",
  "to_text(buf, a, b, ...) writes the texts of a, b, ... one after another and arrays and vectors as [a, b, ...], each element as it is shown alone.",
  "every list of values",
  "All lists.",
  "lib/h/ce/ce.h: to_text, to_text_n, to_text_s, to_text_p")
p("C66", "mutex wrappers preserve exclusion",
  "Every exclusive acquire maps to the exclusive primitive and every shared acquire to the shared one, so under any schedule a writer is alone and a thread_mutex has one owner.",
  "every number of threads and schedule",
  "All interleavings.",
  "lib/mutex_std.cpp", "lib/mutex_win32.cpp", "lib/h/ce/mutex.h")
p("C67", "type lists select, compare and split as documented",
  "cond_t, enable_t and select_t pick the documented type; has_v, are_same_v and count_leading_t decide membership, equality and the length of the leading run; car_t and cdr_t split a list.",
  "every list of types",
  "Lists of every length.",
  "lib/h/ce/ce.h: select_t, cond_t, enable_t, has_v, are_same_v, count_leading_t, car_t, cdr_t")
p("C68", "to_polar gives the length and the direction of a vector",
  "For every vector no longer than the largest int32, to_polar (and polar_mag, polar_ang, atan2_2pi) does not overflow, gives the length within 0.501 + r/2^33 and, away from the origin, the angle within 0.67 + 79/r units of 2^-31 turn.",
  "every vector of two int32 coordinates",
  "2^64 inputs; the error analysis is about real numbers.",
  "lib/h/ce/math.h: cordic_n::vector, to_polar, polar_mag, polar_ang, atan2_2pi")

p("C69", "mapping a file leaks no handle",
  "map_span(path) closes every handle it opens, exactly once, whichever of the operating system's calls fail; it returns true exactly when there is a view, and the span is then that view with the file's size (in a 32 bit program, for files below 4 GB), and empty otherwise.",
  "every combination of answers of the operating system",
  "Failures of each call cannot be provoked in a test.",
  "lib/os_win32.cpp: open_file, close_file, map_span, unmap_span")
p("C71", "the views list every face and every edge once",
  "A loop over faces() sees every face once; a loop over edges() sees the three sides of every face, and among the primary ones every edge of the triangulation exactly once, with its end points and constraint; with V vertices there are 2V-6 faces and 3V-7 edges. The loops end and no coordinate overflows for Q up to 16.",
  "every history of calls",
  "Unbounded histories.",
  "lib/h/ce/cdt.h: edges, faces, edge_view, face_view, operator[]")
p("C72", "insert_point reports exactly what it did",
  "insert_point(p) returns true iff the grid point of p (coordinates rounded down to a multiple of 2^(Q+1)) is a vertex already, or is strictly inside the square and the capacity is not used up. When it returns false, or the vertex was there, the mesh is unchanged; otherwise there is exactly one vertex more, at the grid point, and no other vertex moves.",
  "every history of calls, every int32 point, any hint",
  "All positions relative to all meshes: on vertices, edges, the rim, full meshes.",
  "lib/h/ce/cdt.h: insert_point, insert_point_at_node, locate_insertion_node")
p("C73", "insert_edge leaves a chain of constrained edges, for ever",
  "When insert_edge(p, q) returns true, constrained edges lead from the grid point of p to that of q along the segment, bending only at vertices less than one grid unit beside the segment they replace; no later insert_point, insert_edge or fill undoes this: a constrained edge is only ever split.",
  "every history of calls before and after, every pair of points, any hint",
  "Unbounded histories, crossing constraints, rounding of the crossings.",
  "lib/h/ce/cdt.h: insert_edge, split_constraint, intersect_edges, constrain_edge, try_flip")
p("C74", "insert_edge ends",
  "insert_edge ends for every pair of points of the square.",
  "every history of calls, every pair of points, any hint",
  "A loop without a bound in the code.",
  "lib/h/ce/cdt.h: insert_edge")
p("C75", "the triangulation is planar",
  "Different vertices are at different places, every vertex is a corner of a face, and no vertex is inside a face or on an edge of it other than its corners.",
  "every history of calls, every vertex and face",
  "Unbounded histories, collinear points.",
  "lib/h/ce/cdt.h: insert_point_at_node, flip, do_flip, try_flip, insert_edge")
p("C70", "a triangulation of points is Delaunay",
  "insert_point keeps every unconstrained edge locally Delaunay (the far corner is not inside the circle of the face), whatever edges are constrained. After any history of reset, insert_point and fill the mesh is the Delaunay triangulation of its vertices: no vertex is inside the circumcircle of any face.",
  "every history of calls, every int32 point, any hint, all faces and vertices",
  "A global property of meshes of unbounded size, kept by recursive flips.",
  "lib/h/ce/cdt.h: insert_point, insert_point_at_node, flip, do_flip, incircle")
p("C76", "insert_point and locate end on triangulations of points",
  "On a mesh made by reset, insert_point and fill, insert_point and locate end for every hint: the walk, the spin around vertices and the recursion of the flips are bounded by a linear function of the number of vertices.",
  "every such mesh, every point, any hint",
  "Loops without a bound in the code; a walk in a triangulation can cycle when it is not Delaunay.",
  "lib/h/ce/cdt.h: locate_insertion_node, locate, insert_point_at_node, flip")
p("C77", "the walk to a point ends on every mesh",
  "insert_point, insert_edge and locate find the face of their point, for every mesh that calls can make and every hint.",
  "every history of calls, every point, any hint",
  "A walk in a triangulation that is not Delaunay can go round in circles; only special meshes show it.",
  "lib/h/ce/cdt.h: locate_insertion_node, locate")
p("C78", "the assertions of the triangulation hold",
  "No CE_ASSERT of the triangulation fails in reset, insert_point, insert_edge or fill, and a build with assertions (the default) does what one without does: same mesh, same result.",
  "every history of calls, every int32 point, any hint, both overflow semantics",
  "Assertions state invariants of meshes of unbounded size in the middle of recursive updates; a test only sees those its points lead to.",
  "lib/h/ce/cdt.h: validate_face, do_flip, flip, incircle, next_edge, locate_insertion_node, insert_point_at_node, intersect_edges, insert_edge", "lib/h/ce/ce.h: CE_ASSERT, CE_AFFIRM, CE_ERROR_LEVEL")

p("C79", "atomics on processors that delay stores",
  "With the MSVC x86 atomics on processors with store buffers, the atomic operations (guarded by a spin lock or interlocked) take effect one at a time, in an order that respects which returned before which; two operations are never inside the same object; no call waits for ever for a lock; and what a processor wrote to its own variables before an atomic store, exchange, add or compare-exchange is seen by every processor that reads after it.",
  "every number of processors, every list of calls for each, every interleaving and every delay of the stores",
  "Delays depend on the hardware and are rare; a test machine may never show them.",
  "lib/h/ce/atomic_msvc_x86.h: scope_spin_lock, atomic_load, atomic_store, atomic_exchange, atomic_compare_exchange, atomic_fetch_add, atomic_fetch_sub")

p("C80", "atomic objects behave as if each call were made at one instant",
  "Threads that make any sequences of atomic_load, store, exchange, compare_exchange, fetch_add, fetch_sub (and xor, and, or) calls on shared atomic objects see results that the same calls would give one at a time, each at an instant between its start and its return; integers wrap round, pointers move by whole elements, compare_exchange compares object representations. Nothing is undefined for arguments of the parameter types, and among threads that keep calling, calls keep returning.",
  "every number of threads, sequence of calls, element type, schedule, stale relaxed load and spurious failure",
  "Schedules; torn values and missed updates show only in rare interleavings.",
  "lib/h/ce/atomic_std.h", "lib/h/ce/atomic_msvc_x86.h: info, as_atom, atomic_load, atomic_store, atomic_exchange, atomic_compare_exchange, atomic_fetch_add, atomic_fetch_sub")
p("C81", "vector operators work component by component",
  "For vectors of integers + - with a vector and * / with a scalar are defined exactly when every component is and give each component's result; == and != compare all components; and += -= *= /= store what the binary operators give, also when an operand is the vector itself or one of its components, and touch nothing else.",
  "every integer type, vectors, scalars and overlap of the operands",
  "Values and overlaps: the failing case is an operand that aliases a component.",
  "lib/h/ce/ce.h: operator==, operator!=, operator+, operator-, operator*, operator/, operator+=, operator-=, operator*=, operator/= of vec2 and vec3")
p("C82", "file handles and views do not leak over any sequence of calls",
  "A program that opens, maps, unmaps and closes files in any order, without opening into a file_t that holds an open file or mapping into a span that holds a view, never closes or unmaps anything twice, whatever fails; the open handles and views are exactly those its objects hold, so that nothing is left once they are closed. A span of T made by mapping a file has all whole Ts of the file, or is empty.",
  "every sequence of calls and every combination of answers of the operating system, file size and element size",
  "Histories and failures of the operating system cannot be enumerated.",
  "lib/os_win32.cpp: open_file, close_file, map_span, unmap_span", "lib/os_posix.cpp: open_file, close_file, map_span, unmap_span", "lib/h/ce/ce.h: map_span")
p("C83", "over a period every number comes equally often",
  "From any nonzero state, the 2^64-1 results of xoroshiro64ss next() over a period contain every nonzero 32 bit number exactly 2^32 times and 0 exactly 2^32-1 times; the 2^128-1 results of xoroshiro128pp contain every nonzero 64 bit number 2^64 times and 0 2^64-1 times; the 2^64 results of pcg32 read() over a period contain every 32 bit number 2^32 times, and next_ranged(n) and next_unbiased(n) give each number below n its share of them. As two consecutive results of xoroshiro64ss every pair of numbers but (0, 0) comes exactly once, so next64() gives every nonzero 64 bit number once; two results determine all later ones.",
  "every starting state and every number",
  "No run can count 2^64 results, and the starting states are as many.",
  "lib/h/ce/ce.h: xoroshiro64ss::next, xoroshiro128pp::next, random::read(pcg32_64_t), random::step(pcg32_64_t)")
p("C84", "character classes accept exactly the characters they are named for",
  "For every char value, signed or unsigned, is_base10, is_base16, is_base64, is_alpha, is_upper and is_lower are true exactly for the decimal digits, the hexadecimal digits in either case, the base64 alphabet, the ASCII letters, the upper case and the lower case letters.",
  "every char value, for signed and unsigned char",
  "The signedness of char differs between the platforms the header is compiled for, so a test run covers half of the values.",
  "lib/h/ce/ce.h: ascii::is_base10, is_base16, is_base64, is_alpha, is_upper, is_lower")
p("C85", "normal of a float vector has its direction and length one",
  "normal(v) of a vec3<float> with finite components that is not zero has components v.x / |v|, v.y / |v| and v.z / |v| up to a relative error of 2^-11 on x86 and 2^-21 elsewhere, so its length is 1 up to twice that.",
  "every vector of finite floats",
  "2^96 vectors; the error is the sum of up to nine roundings and of an instruction that is specified by an error bound only.",
  "lib/h/ce/math.h: normal")
p("C86", "the vertices of an edge are its left end, its right end and the corner opposite",
  "After any history of calls, for every edge of every face edge_vert_a, edge_vert_b and edge_vert_o give the three corners of the face in the user's units: for somebody in the face who looks at the edge a is on the left and b on the right, o is the corner not on the edge, and for the edge's twin a and b change places. collinear is true exactly for three points on a line while the products of their differences fit an int64_t.",
  "every history of calls, every face and edge of the mesh, every viewpoint in the face and every point of the edge; every three points",
  "The orientation of every face after any history is an invariant of the triangulation, not a fact about a few meshes.",
  "lib/h/ce/cdt.h: edge_vert_a, edge_vert_b, edge_vert_o, on, collinear")
p("C87", "the type functions remove exactly the outer qualifiers, references and pointers",
  "For every type, remove_reference_t, remove_const_t, remove_volatile_t, remove_cv_t, remove_cvref_t and remove_pointer_t are defined (one best specialisation exists) and remove exactly the reference, const, volatile or pointer at the top of the type, array elements included; is_ptr is true exactly for pointers with any qualifiers and references to them; best_pass_by_value_t is the type itself when it is trivially copyable with at most 16 bytes and a reference to it as const otherwise.",
  "every type built from named types, pointers, references, arrays and functions, to any depth",
  "There are infinitely many types, and each trait is a choice between overlapping partial specialisations.",
  "lib/h/ce/ce.h: remove_reference_t, remove_const_t, remove_volatile_t, remove_cv_t, remove_cvref_t, remove_pointer_t, is_ptr, best_pass_by_value_t")
p("C88", "the triangulation depends on the points only, not on the order of the calls",
  "After a reset, inserting points gives the same set of triangles in whatever order the points come, with whatever hints, repetitions and points outside, and whatever the mesh held before the reset, unless four vertices lie on a circle with no vertex inside.",
  "every two lists of insert_point calls with the same grid points, every hint, capacity and earlier state",
  "There are n! orders of n points, and every hint changes the walk.",
  "lib/h/ce/cdt.h: reset, insert_point")
p("C89", "operators of float and double vectors are correctly rounded in every component",
  "Each component of a + b, a - b, a * s, a / s and their assigning forms is the value nearest to the exact result, ties to even; an infinity where it overflows. Two vectors are equal when all their components are equal as numbers (-0 equals 0, a NaN equals nothing). Only the components of the left operand are written, also when the right operand is the left one or a component of it.",
  "every two vectors of float or double and every scalar, including infinities, NaNs and subnormal numbers, and every overlap of the operands",
  "There are 2^128 pairs of float vectors; rounding and overflow happen at the boundaries.",
  "lib/h/ce/ce.h: vec2, vec3, operator ==, operator !=, operator +, operator -, operator *, operator /, operator +=, operator -=, operator *=, operator /=")
p("C90", "products of float vectors are exact up to rounding in the last place",
  "sqrx, dotx and crossx of float vectors differ from the exact products by at most 9/4 (7/2 for dotx of vec3) units of 2^-24 of the sum of the absolute products. They are exact for whole numbers up to 2364. sqrx is never negative; dotx is symmetric, crossx antisymmetric; crossx(a, a) is zero unless it overflows.",
  "every vector of float",
  "There are 2^128 pairs of float vectors; cancellation and underflow happen at special ones.",
  "lib/h/ce/ce.h: sqrx, dotx, crossx")
p("C91", "get<N> is member N of a tuple",
  "ce::get<N>(t) returns a copy of member N of t, for every tuple or other aggregate of one to four members; a program that asks for a member that is not there is refused.",
  "every aggregate of members that are neither arrays nor references, every N",
  "Every instantiation is a different program, and those that should be refused cannot be run.",
  "lib/h/ce/ce.h: tuple, get, detail::crack, detail::arrity_count, detail::is_arrity")
p("C92", "a log line has the text of each argument with its value",
  "CE_LOG(level, args...) writes one line: the letter of the level (M for a level that is not one of the eight), the level's name under the key $, and then for each argument, in order, its source text without the blanks around it and the text of its value: strings whole whatever their length, a null string as nothing, other values as as_string converts them. CE_LOG_MSG writes the concatenation of its arguments under the key $msg. With CE_LOG_LEVEL 0 nothing is evaluated or written.",
  "every level name, every list of arguments with balanced brackets and closed literals, every value",
  "All argument texts and values: the keys come from splitting one literal at run time and the values from buffers whose first contents are indeterminate.",
  "lib/h/ce/ce.h: CE_LOG, CE_LOG_MSG, CE_LOG_EX, call_log_hook, as_string, names", "lib/os.cpp: log")
p("C93", "a failed check reports the condition, the place and the values",
  "CE_VERIFY and CE_ASSERT with a false condition, CE_REJECT with a true one, and CE_ERROR write a log line of level fatal and then a report, each with the macro's name, the file and line, the text of the condition, the text of the arguments and the text of each argument's value in order; then a break is asked for. A check that holds writes nothing.",
  "every condition, text and list of argument values",
  "All texts and values; the parts are packed in one literal with NULs between them and unpacked at run time.",
  "lib/h/ce/ce.h: _CE_ERROR, CE_AFFIRM, error_hook, call_error_hook", "lib/os.cpp: log, error")
p("C94", "refine tells where a point lies in relation to a face",
  "For every face f of a mesh, refine(x, y, 4 f) is 4 f + 3 exactly for the points inside the face, 4 f + i for the points strictly between the ends of the side i opposite to corner i, and 0 for the corners; in general it is 4 f + i when side i is the only one whose line the point is on or past, and 0 when there are two.",
  "every sequence of calls that built the mesh, every face, every point with coordinates up to 2^31 in absolute value",
  "Meshes and points cannot be enumerated; the answers change on lines.",
  "lib/h/ce/cdt.h: refine")
p("C95", "operators of matrices work scalar by scalar",
  "For vectors of vectors, nested to any depth, + and - are defined exactly when they are for each pair of scalars in the same place and give those results, == holds exactly when all scalars are equal (with a single row: when each row equals it), != is its opposite, and += and -= store what + and - give and change nothing else, also when both operands are the same object.",
  "every nesting of vec2 and vec3, every integer type, all values, every memory and every two places for the operands",
  "The nestings are unbounded and the values cannot be enumerated.",
  "lib/h/ce/ce.h: math::mat", "lib/h/ce/ce.h: operator+(vec2, vec2)", "lib/h/ce/ce.h: operator+=(vec3, vec3)", "lib/h/ce/ce.h: operator==(vec2, car_t)")
p("C96", "intersect with its result in one of its arguments",
  "intersect(p0,p1,q0,q1,r) leaves in r what it would leave in a separate object, and changes no other object, also when r is one of p0, p1, q0 and q1.",
  "every placement of the five references and every value of the points",
  "All values and placements; a test of one aliasing says nothing of the others.",
  "lib/h/ce/math.h: intersect", "lib/h/ce/ce.h: operator+, operator-, crossx")
p("C97", "bind of a name to a value that is in the dictionary",
  "d.bind(n, d[m]) does what d.bind(n, v) does for a copy v of d[m], for every bound name m, also when n is m.",
  "every dictionary, every name n and every bound name m",
  "All dictionaries and pairs of names.",
  "lib/h/ce/dictionary.h: dictionary::bind, dictionary::operator[], dictionary::find")
p("C98", "a fill stays within closed polygons of inserted edges",
  "Take any closed polygon whose sides are covered by constrained edges, for instance because they were inserted with insert_edge. If a fill changes a face, then the polygon winds round the points inside that face as often as round the points inside the face where the fill starts: a fill that starts inside does not leak out, one that starts outside does not leak in, and in_polygon says the same of all filled places.",
  "every mesh a history of calls can reach, every fill, every closed polygon of covered sides (also one that crosses itself), every pair of points inside the faces, with rational coordinates",
  "Rests on planarity of the whole mesh and a Jordan curve argument for arbitrary polygons; tests see a few polygons.",
  "lib/h/ce/cdt.h: fill, insert_edge", "lib/h/ce/ce.h: in_polygon")
p("C99", "the info of a face belongs to its place and its region",
  "Faces on both sides of an unconstrained edge have the same info, so all faces of a region between constrained edges have. insert_point and insert_edge, however often they are called and however many faces they split and flip, leave the info at every place as it was. A fill gives its info to all faces of the region where it starts and to no other.",
  "every mesh a history of calls can reach, every number of later insertions, every place (rational coordinates) that is inside a face before and after, every fill",
  "All histories and all places; flips and splits interact with constrained edges in ways a few tests do not cover.",
  "lib/h/ce/cdt.h: insert_point, insert_edge, fill, insert_in_face, insert_on_edge, do_flip")
p("C100", "an edge that is already there is inserted without change",
  "When constrained edges already cover the segment between two points, insert_edge of these points returns true (if it returns) and changes neither the vertices nor which edges are constrained. When an edge of the triangulation already joins the two points, insert_edge returns true, adds no vertex, and constrains that edge and no other.",
  "every mesh a history of calls can reach, every pair of points whose segment is covered or whose ends are joined, every hint, every grid shift",
  "insert_edge splits and flips on its way and recurses at rounded crossings; that it never does so along edges that exist depends on the whole mesh.",
  "lib/h/ce/cdt.h: insert_edge, constrain_edge, try_flip, can_flip, split_constraint")
p("C101", "sorting, searching and the priority queue compare only so often",
  "insertion_sort of n elements calls operator< at most once per pair standing the wrong way round plus n - 1 times, and with a strict weak order at least once per such pair; so at most n (n - 1) / 2 times and n - 1 times on ordered input. lower_bound and upper_bound call it at most 1 + log2 n times (0 for n = 0), enqueue on a queue of n items at most log2 (n + 1) times, dequeue at most 2 log2 (n - 1) times. intro_sort calls it at most a constant times n log n times.",
  "every element type and operator<, every array, range, cutoff above zero and queue state, of any length",
  "A bound on comparisons for every length and every content cannot be sampled; the worst inputs of a sort are rare.",
  "lib/h/ce/sort.h: insertion_sort, median, partition, intro_sort, lower_bound, upper_bound", "lib/h/ce/ce.h: heap_raise, heap_lower, min_priority_queue")
p("C102", "crc32c detects every error of up to three bits",
  "Two messages of the same length, of fewer than 2^28 bytes, that differ in one, two or three bits have different crc32c, in every overload and from every starting value; messages of any length that differ in an odd number of bits have different crc32c; and two flipped bits go unnoticed exactly when their distance is a multiple of 2^31 - 1 bits.",
  "every pair of messages, every starting value, all places of the errors",
  "Pairs and triples of places in a message of a megabyte are too many to try, and the distances at which two errors cancel are found by no sample.",
  "lib/h/ce/ce.h: crc32c_t, crc32, crc32c, detail::crc32")
p("C103", "edges connect near vertices and lead to the nearest one",
  "After any history of reset, insert_point and fill: two vertices with no other vertex in the circle between them (or on it) are joined by an edge; so every vertex is joined to its nearest vertices, the shortest connections between any two groups of vertices are edges, and what jumps of bounded length between vertices can reach, edges of that length can. For any point, a vertex that is not the nearest to it has an edge to a nearer vertex, so that walking to nearer vertices ends at the nearest one.",
  "every history of calls without insert_edge, every vertex, pair and grouping of vertices, every point with rational coordinates inside or outside the square",
  "A relation between all the vertices of meshes of unbounded size; a few meshes say nothing about others.",
  "lib/h/ce/cdt.h: insert_point, insert_point_at_node, flip, incircle, edges")

p("C104", "any operator< at all is safe",
  "Whatever operator< answers - no order, contradictory answers to the same question, answers that depend on what was asked before - insertion_sort and intro_sort (cutoff at least 1) end, touch nothing outside of the range and leave a permutation of it after at most quadratically many calls; lower_bound and upper_bound return a position in the range or its end after at most logarithmically many calls; and the priority queue is a bag of bounded size: enqueue fails only when it is full, each dequeue takes one of the items that are in it, head is what the next dequeue takes, and none is lost or doubled.",
  "every type, every operator< with any state of its own, every array, range, cutoff and history of the queue",
  "A test has a few comparisons, mostly orders; it cannot range over answers that depend on a history.",
  "lib/h/ce/sort.h: insertion_sort, intro_sort, partition, median, lower_bound, upper_bound", "lib/h/ce/ce.h: heap_raise, heap_lower, min_priority_queue")

p("C105", "a checksum appended is recognised, and checksums are spread evenly",
  "The crc32 of a message followed by its own crc32, low byte first, is one number for all messages and start values, for crc32c 0x48674bc7; and a receiver who computes this number knows that the last four bytes are the crc32c of the rest. Four bytes anywhere in a message can be chosen in exactly one way for it to have a given crc32, so that among the messages of any length from 4 bytes up every checksum comes equally often. How the checksums of two messages of the same length differ depends only on how the messages differ.",
  "every message of any length, every start value, every place of the four bytes, every checksum, every reflected polynomial (of degree 32 with a constant term where uniqueness is claimed)",
  "Relations between all messages of all lengths; a sample of messages says nothing about the checksums of the others.",
  "lib/h/ce/ce.h: crc32c_t, crc32, detail::crc32")

p("C106", "repeated turns do not drift faster than one rounding each, and polar form converts back",
  "After any sequence of n rotations the vector is within n times 0.71 (plus a share of its length below 2^-29) of where one exact rotation by the sum of the angles brings it, and its length is off by no more; everything is defined as long as the vector stays clear of the int32 range. Rotations that add up to whole turns bring every vector back to within the same bound; a rotation and its reverse change each coordinate of a vector of length up to 2^27 by at most one; to_polar followed by to_cartesian changes each coordinate of a vector of length up to 2^28 by at most one.",
  "every vector within the circle of int32, every sequence of int32 angles of any length",
  "The errors of a test with one angle say nothing about how those of a long sequence of turns add up.",
  "lib/h/ce/math.h: rotate, to_polar, to_cartesian")

p("C107", "sorting, searching, the queue and the z-curve work together",
  "The codes of any points, sorted with intro_sort and asked for a rectangle with z_query, give after z_inside exactly the points in the rectangle, each as often as it was there. After intro_sort, upper_bound minus lower_bound is the number of elements equivalent to the key, and the elements between are those. n values put into a min_priority_queue with room for n come out sorted. When different elements are never equivalent, insertion_sort, intro_sort and the queue give the same list.",
  "every list of points on the int32 grid, every rectangle that z_query can do, every list, key and strict weak order, every cutoff and every queue with enough room",
  "The parts are combined over all inputs; a test sees a few arrays, and what one part promises may not be what the next one needs.",
  "lib/h/ce/sort.h: insertion_sort, intro_sort, lower_bound, upper_bound; lib/h/ce/ce.h: min_priority_queue; lib/h/ce/zorder.h: z_encode, z_query, z_inside")

p("C108", "any data can be embedded as text, and how short the text can be",
  "lziii::decoder of base64::decoder of a text that is the base64 of an lziii stream, with anything behind it, has the data of the stream as its member. Every sequence of bytes has such a text, of a stream with at most one more byte for each eight. Data of n bytes (n at least 1) never has a stream of fewer than (17 n + 145) / 144 bytes, and for runs of one byte of length 127 + 144 k there is a stream of exactly that size.",
  "every sequence of bytes, every lziii stream, every text that follows, of any length below 2^57",
  "A test decodes a few texts; that every data can be encoded, and that no encoding is shorter than the bound, are claims about all streams.",
  "lib/h/ce/lziii.h: decoder, size, decode", "lib/h/ce/ce.h: base64::decoder, base64::size, base64::decode")

p("C109", "the numbers of the generators repeat after the whole period and no sooner",
  "The sequence of results of xoroshiro64ss, from any place on, is the same d results later exactly when d is a multiple of 2^64 - 1; for xoroshiro128pp exactly when d is a multiple of 2^128 - 1; for pcg32 exactly when d is a multiple of 2^64. That the states have this period does not say it of the results, which have fewer bits than the state.",
  "every state other than zero (every state for pcg32), every distance d, every place from which on the sequences are compared",
  "No test runs 2^64 steps, and a shorter period of the results could start anywhere.",
  "lib/h/ce/ce.h: xoroshiro64ss::next, xoroshiro128pp::next, random::step(pcg32_64_t), random::read(pcg32_64_t)")

p("C110", "the face around a place has the nearest data to interpolate from",
  "In a triangulation of points, take a place in a face and write it as the weighted mean of the corners of the face. Whatever other vertices, any number of them, the place is a weighted mean of, the weighted mean of their squared distances to the place is at least that of the corners; and it is greater if one of them with a weight is outside of the circle of the face. With inserted edges this can fail, even in a face that is not cut off by the inserted edge from the vertices in question.",
  "every history of reset, insert_point and fill, every face, every place in it with rational coordinates, every weighting of any vertices with the place as its mean",
  "It compares a face with all combinations of all vertices of all meshes.",
  "lib/h/ce/cdt.h: insert_point, incircle, flip")

if __name__ == "__main__":
    out = os.path.join(os.path.dirname(os.path.abspath(__file__)), "..", "properties.jsonl")
    with open(out, "w") as f:
        for r in P:
            f.write(json.dumps(r) + "\n")
    print(len(P))
