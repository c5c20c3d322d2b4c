NOTES = {
 "C01": ("proved", "All 8/16/32/64-bit signed and unsigned types; float/double delegated to std::to_chars are outside."),
 "C02": ("partial", "Proved for arguments whose char arrays contain a NUL and whose char pointers are non-null; the unrestricted property is false of the code and refuted by two theorems. Floating point arguments are given by the text of std::to_chars, of at most 24 characters."),
 "C65": ("partial", "The text is proved for every list of values (floating point by the text of std::to_chars). Elements are shown as they are shown alone unless they are arrays or vectors themselves: to_text_n is declared before the overloads for those, so a compiler with two-phase lookup shows a row of a matrix as #<ref address>, and the property is refuted for them."),
 "C03": ("proved", "Any strict weak order; also memory safety for arbitrary operator<."),
 "C04": ("proved", "For every cutoff N >= 1 (N = 0 is refuted as a precondition)."),
 "C05": ("partial", "A logarithmic depth bound is false of the code (the introsort limit is unused) and refuted for every cutoff and constant; the true linear bound is proved."),
 "C06": ("proved", ""),
 "C07": ("proved", "Every history of enqueue, peek and dequeue; dequeue on an empty queue is refuted as safe (it is a precondition)."),
 "C08": ("proved", "Every history over any number of bulks; back() on an empty bulk is refuted as safe (precondition)."),
 "C09": ("proved", "For every combination of traits; copying a non-empty bulk of a T that is not default-constructible is refuted, as the property says."),
 "C10": ("proved", "Every N and history with indices below N, from arbitrary initial bytes."),
 "C11": ("proved", "All polynomials, start values and messages."),
 "C12": ("proved", "Including mixed widths."),
 "C13": ("proved", "The condition on the polynomial is shown to be needed."),
 "C14": ("proved", ""),
 "C15": ("proved", ""),
 "C61": ("proved", ""),
 "C16": ("proved", "Complete cycle structure on the nonzero states, no undefined shift, and the results of the published generator."),
 "C17": ("proved", "Complete cycle structure on the nonzero states, no undefined shift, and the results of the published generator."),
 "C18": ("partial", "Proved for xoroshiro128pp for every buffer. For xoroshiro64ss it is false of the code: refuted for the empty buffer and for every size from 8 up; proved for sizes 1 to 7."),
 "C19": ("proved", ""),
 "C20": ("partial", "Proved for states >= 2^59; below that the code shifts by 32, refuted exactly there. Every generator reaches such a state."),
 "C21": ("proved", "Any generator with 32-bit output; exactly one step is taken."),
 "C22": ("partial", "False of the code (0u - n % n is 0, nothing is ever rejected): refuted for every n that does not divide 2^32; counts differ by at most one."),
 "C23": ("proved", "Padded, unpadded and any terminator."),
 "C24": ("proved", "Every text; smaller destination sizes too."),
 "C25": ("proved", "Overlapping references included; the decoder class too."),
 "C26": ("proved", "Exact characterisation: for every byte stream that size() accepts, decode is defined if and only if the bytes are a well-formed stream."),
 "C27": ("proved", "C27_blocks and C27_square: the aligned squares of side 2^k are the ranges of 4^k consecutive codes."),
 "C28": ("proved", ""),
 "C29": ("partial", "Proved for every rectangle whose upper corner is not in the last 256x256 cell, when the query returns; it provably returns for extents of at most 2^(8+nx)-256 by 2^(8+ny)-256 with nx+ny = 32 (C30_extent_partial), or that do not cross a multiple of 2^24. For the last cell it is false of the code (hi + 0xffff wraps): nothing outside the first cell is reported (C29_last_cell_refuted). At the granularity of cells everything of the rectangle's cells is reported (C29_cells_partial) but the last point of the last cell, which never is (C29_last_point_refuted)."),
 "C30": ("partial", "False of the code: refuted by a concrete query. Proved for extents of at most 2^(8+nx)-256 by 2^(8+ny)-256 with nx+ny = 32 (2^24-256 square, or any height for a width of 2^16-256), sharp: nx+ny = 33 overflows; also for extents not crossing a multiple of 2^24; and termination always."),
 "C31": ("partial", "False of the code: refuted (z_split stops too early). Proved: results come from data and lie between the corners in z-order; filtering with z_inside gives exactly the rectangle (C29_filtered_exact_partial). How far off a result can be is bounded sharply (C31_near_partial): in the next cell in z-order, or off in one direction by less than the extent in the other. For aligned squares given by cell corners the query always returns, whatever the size, and the result is exact but for the last point (C31_square_partial)."),
 "C32": ("partial", "Proved for every history over keys other than the value-initialised key K{} (the one in names[0]), any N >= 2. For K{} it is false of the code: find never finds it and each bind of it leaks a slot (refuted). N = 1 is undefined behaviour. The heap search is proved exact for every name table laid out as a search tree."),
 "C33": ("proved", "For every history of allocations and frees of live items. Freeing an item twice breaks it (C33_double_free_refuted)."),
 "C34": ("proved", ""),
 "C35": ("proved", "Needs (f*Fd-1)*(Fn+1) < 2^64 for the frequency ratio; C35_condition_needed shows it fails without."),
 "C36": ("proved", ""),
 "C37": ("proved", "Exact characterisation of overflow for each product."),
 "C38": ("proved", "For coordinates up to 2^30 in absolute value; beyond that signed overflow is possible (C38_overflow_refuted)."),
 "C67": ("proved", ""),
 "C39": ("proved", ""),
 "C40": ("proved", "For every mesh of clockwise triangles: the number of triangles claiming a point depends on the boundary only; exactly one or none when the boundary is strictly convex."),
 "C41": ("proved", "Distances over the rationals, where the closest point lies. Components below 2^31 in absolute value (2^30 for the segment test)."),
 "C42": ("partial", "False of the code (the radius test at the start comes before the end test): refuted; exact characterisation of what it computes."),
 "C43": ("proved", "Both builds."),
 "C44": ("partial", "Parallel lines exactly; accuracy 2 + 2^17 |p| / |d| for 23-bit coordinates; false in general: refuted for short segments and overflow for long ones."),
 "C64": ("proved", ""),
 "C45": ("proved", "Against the real cosine and sine; the most negative radius overflows at half a turn (refuted for that one value). Axioms of the real numbers."),
 "C68": ("proved", "Against the real length and angle; the angle of the origin is not 0, and vectors longer than the largest int32 overflow (theorems with suffix _refuted). Axioms of the real numbers."),
    "C46": ("proved", "Every sequence of Unicode scalar values (C46_utf16, C46_path with terminator), and the output never exceeds the buffer for any bytes (C46_no_overrun). Malformed UTF-8 is outside the claim and unsafe: C46_truncated_refuted gives a path whose terminator is swallowed and one that reads out of bounds. Different well-formed paths have different results (C46_distinct); paths that are not UTF-8 are accepted and can be converted to the same as a well-formed one (C46_overlong_refuted)."),
    "C51": ("proved", "log's text and letters, the argv of the hooks from the macro's string literal, and the default error text end to end. Texts have no embedded NUL (they are stringised source). The formatting of each argument is C01/C65."),
    "C52": ("proved", "Macro expansions as expression trees with short-circuit evaluation and a trace; every condition, hook result and level."),
    "C62": ("partial", "POSIX fully proved; Win32 proved except that long waits are meant to stay finite: C62_win32_refuted shows that every ns >= (2^32-1)*10^6 passes 0xFFFFFFFF, which is INFINITE."),
    "C63": ("partial", "C63_squares covers every int32. Nearest integer is proved for v <= 2^50 - 2^25 and refuted above (C63_nearest_refuted); C63_close bounds the error up to the last v with an int32 result and C63_out_of_range says what comes back for every other int64; C63_hypot_total covers all pairs of int32. hypot is exact on Pythagorean triples within the stated range, and the two builds can differ (C63_builds_agree_refuted)."),
    "C69": ("proved", "Win32 only. The operating system is an arbitrary oracle; the one assumption is that two handles open at the same time differ."),
    "C47": ("partial", "Any compiler texts, any table of enumerators and any underlying type of at most 32 bits. Proved: nameof names every enumerator in 0..255, as_enum returns it, and the two are inverse there. Partial because as_enum does not answer unknown for exactly the names nameof never returns: over a signed 8-bit type static_cast<T>(128..255) is negative, so as_enum finds negative enumerators (C47_as_enum_int8) which nameof prints as ??? (C47_negative_refuted); C47_as_enum_partial excludes that type. Beyond the claim: C47_wide_refuted (64-bit enums alias modulo 2^32) and C47_type_injective_refuted (nameof<unsigned int>() is int)."),
    "C48": ("proved", "C48_safe for every string; C48_split for balanced ASCII arguments with closed literals (the last may have top-level commas). C48_source_refuted lists C++ texts outside that grammar that are split wrongly: digit separators, template commas, non-ASCII."),
    "C49": ("partial", "C49_split for words separated by commas with blanks only after the commas; the property's blanks before a comma are refuted (C49_blank_refuted). C49_safe for every text with enough commas."),
    "C50": ("proved", "Every value of the reflected universe (atoms, arrays, bound classes, lists, vecs, aliases). C50_bounds covers readers that do not grow arrays; C50_reader_refuted shows io does not check a size stored by a reader."),
    "C59": ("proved", "Linearizability with values, for any number of threads, schedule, stale first load and spurious failure; both the std and the MSVC loop. C59_accesses: a thread makes at most n + 2 accesses among n calls (plus its spurious failures), and C59_enabled: it is never stuck. Sequentially consistent interleaving of the compare-exchanges; memory-order effects on other locations are not modelled."),
    "C60": ("proved", "Mutual exclusion per object, linearizability of word-by-word operations, freedom from deadlock. C60_fair: on every fair schedule every call returns (C60_unfair_refuted: not without fairness; C60_overtaking_refuted: other calls can overtake a call any number of times). C60_mixed_refuted: for non-built-in types of 1, 2, 4 or 8 bytes atomic_store bypasses the lock and a load can tear."),
    "C66": ("proved", "Both back ends. The primitives of std::mutex, std::shared_mutex and SRWLOCK are given by their documented behaviour (prim_step)."),
    "C53": ("proved", "Every history of reset, insert_point, insert_edge and fill with any hints, from a reset (C53_consistent); no call leaves the arrays or has undefined behaviour when the in-circle arithmetic wraps around (C53_safe). Executions that end: the model's fuel is universally quantified."),
    "C54": ("proved", "Orientation, area, the matching of sides and the partition of the square's points, for every history; C54_cover: the closed faces cover the square with its sides."),
    "C55": ("proved", "Against the circle itself (equal distances from a rational centre). Exact with wrap-around always, and without whenever it does not overflow."),
    "C56": ("partial", "False of the code: C56_refuted, the first insert_point on a fresh mesh overflows. C56_wraparound_exact: where the machine wraps around, the sign of the result is still exact for every mesh."),
    "C57": ("proved", "Every reachable mesh; terminates within 4*size steps of the model."),
    "C58": ("proved", "Every reachable mesh and hint, for executions that end. C58_overflow_refuted: with Q = 16 the differences to far corners overflow, so the precondition is needed."),
    "C70": ("proved", "C70_point for every reachable mesh whose unconstrained edges are locally Delaunay; C70_delaunay for every history without insert_edge. insert_edge does not keep it: C70_edge_refuted."),
    "C71": ("proved", "Every reachable mesh; Q at most 16."),
    "C72": ("proved", "Every reachable mesh, int32 point and hint, for executions that end; C72_cell relates the grid point to the user's point."),
    "C73": ("proved", "C73_follows and C73_persists for every history and executions that end. Stronger claims are false: C73_exact_refuted (true is returned although the segment is not covered by constrained edges, because crossings are rounded), C73_false_refuted (false is returned half-way although both points are inside and there is room)."),
    "C74": ("partial", "False of the code in two cases: C74_refuted (an edge from the low corner of the square never ends, with any fuel) and C77_refuted (a walk of it never ends). Everything else is proved: from any other point, the code ends whenever its walks do (C74_walks_partial), it ends or never does because of a walk, decided after a number of turns that depends on the capacity only (C74_dichotomy_partial, C74_walk_bound), and with the exhaustive search that the source has under #if 0 it always ends (C74_search_partial)."),
    "C75": ("proved", "Every history."),
    "C77": ("partial", "False of the code: C77_refuted, after six insert_edge calls insert_point, insert_edge and locate of a point never end, with the default hint and any fuel. It holds for every mesh without inserted edges (C76)."),
    "C78": ("partial", "False of the code for constraints that start at the low corner of the square: C78_corner_refuted, an assertion fails although without assertions the call ends well. Proved for every other call on every reachable mesh (C78_no_assertion_partial, C78_point, C78_edge_partial): the build with assertions has the same outcome."),
    "C79": ("proved", "x86-TSO: a first-in first-out store buffer per processor, locked instructions wait for it, loads see it. Linearizability over guarded and interlocked operations together, exclusion, freedom from deadlock, and sequentially consistent variables where writes are published before another processor touches them (C79_race_free, C79_publish). C79_delayed_refuted: without the publishing call two processors can both read old values. C79_fair: on every schedule that gives calls and store buffers turns again and again, all calls return and all stores reach memory; C79_unfair_refuted: the buffers' turns are needed."),
    "C80": ("partial", "atomic_std.h fully (C80_std_linearizable). atomic_msvc_x86.h for integers, pointers, floating point and classes of 1, 2, 4 and 8 bytes, except loads of such classes and, on 32 bit processors, loads of 8 bytes. The rest is false of the code: C80_halves_refuted (a 64 bit load on a 32 bit processor returns a value that never was there), C80_least_refuted (fetch_sub of the least number overflows), C80_compare_exchange_refuted (no return statement for sizes that are not powers of two up to 16), C60_mixed_refuted (classes of 1 to 8 bytes), C80_member_refuted (fetch_add of a class whose operators are members adds representations). Lock freedom: with n threads any 3nn+4n+1 steps see a return. Wait freedom: calls without a loop return at every third turn of their thread (C80_wait_free); calls with a loop can be kept in it for ever (C80_wait_free_refuted)."),
    "C81": ("partial", "All but *= and /= by a component of the vector other than the last, where the code is wrong (C81_alias_refuted: v /= v.x divides y by the new x). Floating point elements are in C89, vectors of vectors in C95."),
    "C85": ("partial", "Proved for lengths from 2^-62 to 2^62. False of the code outside: C85_zero_refuted (NaNs), C85_extremes_refuted (a component of 2^-80 gives an infinity, one of 2^64 gives the zero vector). No fused multiply-add."),
    "C86": ("proved", "Every reachable mesh; Q at most 16. C86_overflow_refuted: int32_t coordinates can overflow collinear beyond the stated range."),
    "C87": ("proved", "The compiler's choice of a partial specialisation is modelled: the matching pattern that is more specialised than the others."),
    "C88": ("proved", "Histories without insert_edge. C88_cocircular_refuted: the condition on circles is needed, four points of a square come out differently in another order."),
    "C83": ("partial", "Both xoroshiro engines completely. For pcg32 the code has no defined result at the 2^59 states below 2^59 (C20); over the others every number comes exactly 31 * 2^27 times, and every result of next_ranged(n) and next_unbiased(n) so many times for each raw number that gives it."),
    "C89": ("partial", "All but *= and /= by a component of the vector other than the last, where the code is wrong (C89_alias_refuted, as in C81). One NaN; no fused multiply-add, round to nearest."),
    "C90": ("proved", "The bound is for absolute products up to 2^126, plus 2^-147 for underflow. No fused multiply-add, round to nearest."),
    "C91": ("partial", "False of the code: with structured bindings (every C++17 compiler) the name get in crack::get is the member function itself, and no call of ce::get compiles (C91_get_refuted). Proved for builds without, and for the same code without the clash of names."),
    "C92": ("proved", "With the default hook, on POSIX. LEVEL is not itself a macro; argument lists as in C48 (no commas of template argument lists except in the last argument, no digit separators)."),
    "C93": ("proved", "With the default hooks, on POSIX."),
    "C94": ("proved", ""),
    "C96": ("partial", "Proved for a result that is none of p1, q0 and q1 (it may be p0). For those the property is refuted: the result is written before they are read, and the answer is always one of the end points p0 and p1."),
 "C97": ("partial", "Proved for n other than m, for every dictionary. For n = m it is refuted for every dictionary: the value is destroyed before it is copied."),
 "C95": ("proved", ""),
 "C102": ("proved", "C102_sharp: at 2^28 bytes two flipped bits can go unnoticed. Odd numbers of errors for every polynomial with an even number of terms."),
 "C101": ("partial", "All but the last sentence. intro_sort takes at most n (n + 5) / 2 comparisons (C101_intro_sort_partial), a bound that equal elements meet (C101_intro_sort_sharp); n log n is refuted for every cutoff and constant (C101_intro_sort_nlogn_refuted)."),
 "C104": ("proved", "operator< may have any state of its own but does not change the array, the range or the queue it is called from. dequeue and head of an empty queue are undefined (C07_dequeue_empty_refuted)."),
 "C105": ("proved", "On the models of crc32 of C11; C105_residue_words32 for the overload of 32 bit words."),
 "C106": ("proved", "On the models of C45 and C68. C106_turns, C106_closed, C106_length for any number of turns; C106_polar with the bound for every length."),
 "C108": ("proved", "On the models of C23 to C26. For data of 0 bytes the decoder would have an array of size 0, which is ill-formed in C++; the model gives an empty list there."),
 "C109": ("partial", "Complete for the two xoroshiro generators. For pcg32, read() is undefined in the states below 2^59 (C20_pcg_read_refuted); C109_pcg32_partial takes the result of the reference there and is about read() everywhere else."),
 "C110": ("proved", "Histories without insert_edge; C110_edge_refuted: it does not hold with insert_edge. Both weightings have the same sum of weights, which scaling by a common multiple always gives."),
 "C107": ("proved", "On the models of C03, C04, C06, C07, C27 to C30. C107_index for the rectangles for which z_query is proved not to overflow its stack and whose upper corner is not in the last cell (the others are in C29 and C30)."),
 "C103": ("proved", "Refuted beside it: with insert_edge a constrained edge keeps nearest vertices apart (C103_edge_refuted); the nearest vertex need not be a corner of the face around the point (C103_locate_refuted)."),
 "C100": ("proved", "For executions that end. Stronger claims are false: C100_free_refuted (with no constrained edge in the square, an edge between two vertices costs a vertex that is not on the segment, because an edge of a non-convex quad is split at a rounded point instead of flipped around), C100_crossing_refuted (one crossing costs 21 vertices)."),
 "C99": ("proved", "Places strictly inside a face before and after; with C54 those are all places but the edges."),
 "C98": ("proved", "For polygons covered by constrained edges; C98_outline gives such a polygon when the sides were inserted as edges, which may bend at vertices less than one grid unit beside them (C73)."),
    "C84": ("proved", ""),
    "C82": ("partial", "All but files of 4 GB and more in 32 bit programs, where map_span returns true and a span that is too short (C82_big_file_refuted)."),
    "C76": ("proved", "Every history without insert_edge; bound 8 n + 8 on fuel, which bounds every loop and the depth of the recursion. For meshes with inserted edges see C74."),
}
