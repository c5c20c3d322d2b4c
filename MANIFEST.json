{
 "claims": [
  {
   "property": "C01",
   "status": "proved",
   "theorems": [
    "C01_to_text_decimal",
    "C01_to_text_injective"
   ],
   "note": "All 8/16/32/64-bit signed and unsigned types; float/double delegated to std::to_chars are outside."
  },
  {
   "property": "C02",
   "status": "partial",
   "theorems": [
    "C02_as_string_fits_partial",
    "C02_measure_tight",
    "C02_unterminated_array_refuted",
    "C02_null_char_pointer_refuted"
   ],
   "note": "Proved for arguments whose char arrays contain a NUL and whose char pointers are non-null; the unrestricted property is false of the code and refuted by two theorems. Floating point arguments are given by the text of std::to_chars, of at most 24 characters."
  },
  {
   "property": "C03",
   "status": "proved",
   "theorems": [
    "C03_insertion_sort_stable",
    "C03_insertion_sort_safe"
   ],
   "note": "Any strict weak order; also memory safety for arbitrary operator<."
  },
  {
   "property": "C04",
   "status": "proved",
   "theorems": [
    "C04_intro_sort_sorts",
    "C04_intro_sort_safe",
    "C04_cutoff_zero_refuted"
   ],
   "note": "For every cutoff N >= 1 (N = 0 is refuted as a precondition)."
  },
  {
   "property": "C05",
   "status": "partial",
   "theorems": [
    "C05_depth_linear_partial",
    "C05_log_depth_refuted"
   ],
   "note": "A logarithmic depth bound is false of the code (the introsort limit is unused) and refuted for every cutoff and constant; the true linear bound is proved."
  },
  {
   "property": "C06",
   "status": "proved",
   "theorems": [
    "C06_lower_bound",
    "C06_upper_bound"
   ],
   "note": ""
  },
  {
   "property": "C07",
   "status": "proved",
   "theorems": [
    "C07_priority_queue",
    "C07_dequeue_empty_refuted"
   ],
   "note": "Every history of enqueue, peek and dequeue; dequeue on an empty queue is refuted as safe (it is a precondition)."
  },
  {
   "property": "C08",
   "status": "proved",
   "theorems": [
    "C08_bulk_is_bounded_list",
    "C08_size_bounded",
    "C08_objects",
    "C08_back_empty_refuted"
   ],
   "note": "Every history over any number of bulks; back() on an empty bulk is refuted as safe (precondition)."
  },
  {
   "property": "C09",
   "status": "proved",
   "theorems": [
    "C09_construct_destroy_balance",
    "C09_exactly_first_size_alive",
    "C09_no_leak",
    "C09_copy_not_default_constructible_refuted"
   ],
   "note": "For every combination of traits; copying a non-empty bulk of a T that is not default-constructible is refuted, as the property says."
  },
  {
   "property": "C10",
   "status": "proved",
   "theorems": [
    "C10_bitset_is_bool_array",
    "C10_storage"
   ],
   "note": "Every N and history with indices below N, from arbitrary initial bytes."
  },
  {
   "property": "C11",
   "status": "proved",
   "theorems": [
    "C11_crc32_bytes",
    "C11_crc32_words32",
    "C11_crc32_words64",
    "C11_crc32c"
   ],
   "note": "All polynomials, start values and messages."
  },
  {
   "property": "C12",
   "status": "proved",
   "theorems": [
    "C12_crc32_incremental_bytes",
    "C12_crc32_incremental_words32",
    "C12_crc32_incremental_words64",
    "C12_crc32_mixed"
   ],
   "note": "Including mixed widths."
  },
  {
   "property": "C13",
   "status": "proved",
   "theorems": [
    "C13_crc32_burst",
    "C13_crc32c_one_byte",
    "C13_polynomial_condition_needed_refuted"
   ],
   "note": "The condition on the polynomial is shown to be needed."
  },
  {
   "property": "C14",
   "status": "proved",
   "theorems": [
    "C14_fnv1a32_bytes",
    "C14_fnv1a64_bytes",
    "C14_signedness",
    "C14_concat",
    "C14_bases",
    "C14_c_string",
    "C14_default_basis"
   ],
   "note": ""
  },
  {
   "property": "C15",
   "status": "proved",
   "theorems": [
    "C15_fnv1a_one_byte",
    "C15_fnv1a_basis_injective"
   ],
   "note": ""
  },
  {
   "property": "C16",
   "status": "proved",
   "theorems": [
    "C16_xoroshiro64ss_reference",
    "C16_next64",
    "C16_xoroshiro64ss_period",
    "C16_xoroshiro64ss_visits_all",
    "C16_xoroshiro64ss_never_zero"
   ],
   "note": "Complete cycle structure on the nonzero states, no undefined shift, and the results of the published generator."
  },
  {
   "property": "C17",
   "status": "proved",
   "theorems": [
    "C17_xoroshiro128pp_reference",
    "C17_xoroshiro128pp_period",
    "C17_xoroshiro128pp_visits_all",
    "C17_xoroshiro128pp_never_zero"
   ],
   "note": "Complete cycle structure on the nonzero states, no undefined shift, and the results of the published generator."
  },
  {
   "property": "C18",
   "status": "partial",
   "theorems": [
    "C18_zero_is_stuck",
    "C18_seed128pp_nonzero",
    "C18_seed64ss_refuted",
    "C18_seed64ss_partial"
   ],
   "note": "Proved for xoroshiro128pp for every buffer. For xoroshiro64ss it is false of the code: refuted for the empty buffer and for every size from 8 up; proved for sizes 1 to 7."
  },
  {
   "property": "C19",
   "status": "proved",
   "theorems": [
    "C19_pcg_reference",
    "C19_pcg_step_bijective",
    "C19_pcg_period",
    "C19_pcg_visits_all",
    "C19_pcg_seed_injective"
   ],
   "note": ""
  },
  {
   "property": "C20",
   "status": "partial",
   "theorems": [
    "C20_pcg_read_partial",
    "C20_pcg_read_refuted",
    "C20_pcg_reaches_undefined_refuted"
   ],
   "note": "Proved for states >= 2^59; below that the code shifts by 32, refuted exactly there. Every generator reaches such a state."
  },
  {
   "property": "C21",
   "status": "proved",
   "theorems": [
    "C21_next_ranged",
    "C21_next_unbiased",
    "C21_next"
   ],
   "note": "Any generator with 32-bit output; exactly one step is taken."
  },
  {
   "property": "C22",
   "status": "partial",
   "theorems": [
    "C22_next_unbiased_refuted",
    "C22_next_unbiased_partial"
   ],
   "note": "False of the code (0u - n % n is 0, nothing is ever rejected): refuted for every n that does not divide 2^32; counts differ by at most one."
  },
  {
   "property": "C23",
   "status": "proved",
   "theorems": [
    "C23_round_trip"
   ],
   "note": "Padded, unpadded and any terminator."
  },
  {
   "property": "C24",
   "status": "proved",
   "theorems": [
    "C24_size_n",
    "C24_size_text",
    "C24_other_characters",
    "C24_decode"
   ],
   "note": "Every text; smaller destination sizes too."
  },
  {
   "property": "C25",
   "status": "proved",
   "theorems": [
    "C25_size",
    "C25_decode",
    "C25_decoder",
    "C25_every_token_sequence"
   ],
   "note": "Overlapping references included; the decoder class too."
  },
  {
   "property": "C26",
   "status": "proved",
   "theorems": [
    "C26_safe_exactly_on_streams",
    "C26_buffer_irrelevant",
    "C26_decoder",
    "C26_malformed_not_detected"
   ],
   "note": "Exact characterisation: for every byte stream that size() accepts, decode is defined if and only if the bytes are a well-formed stream."
  },
  {
   "property": "C27",
   "status": "proved",
   "theorems": [
    "C27_blocks",
    "C27_square",
    "C27_interleaves",
    "C27_code_unique",
    "C27_injective",
    "C27_surjective",
    "C27_monotone"
   ],
   "note": "C27_blocks and C27_square: the aligned squares of side 2^k are the ranges of 4^k consecutive codes."
  },
  {
   "property": "C28",
   "status": "proved",
   "theorems": [
    "C28_rectangle"
   ],
   "note": ""
  },
  {
   "property": "C29",
   "status": "partial",
   "theorems": [
    "C29_cells_partial",
    "C29_last_point_refuted",
    "C29_complete_partial",
    "C29_small_rectangles",
    "C29_filtered_exact_partial",
    "C29_refuted_top_cell",
    "C29_last_cell_refuted"
   ],
   "note": "Proved for every rectangle whose upper corner is not in the last 256x256 cell, when the query returns; it provably returns for extents of at most 2^(8+nx)-256 by 2^(8+ny)-256 with nx+ny = 32 (C30_extent_partial), or that do not cross a multiple of 2^24. For the last cell it is false of the code (hi + 0xffff wraps): nothing outside the first cell is reported (C29_last_cell_refuted). At the granularity of cells everything of the rectangle's cells is reported (C29_cells_partial) but the last point of the last cell, which never is (C29_last_point_refuted)."
  },
  {
   "property": "C30",
   "status": "partial",
   "theorems": [
    "C30_no_overflow_partial",
    "C30_extent_partial",
    "C30_extent_sharp_refuted",
    "C30_refuted"
   ],
   "note": "False of the code: refuted by a concrete query. Proved for extents of at most 2^(8+nx)-256 by 2^(8+ny)-256 with nx+ny = 32 (2^24-256 square, or any height for a width of 2^16-256), sharp: nx+ny = 33 overflows; also for extents not crossing a multiple of 2^24; and termination always."
  },
  {
   "property": "C31",
   "status": "partial",
   "theorems": [
    "C31_square_partial",
    "C31_between_corners_partial",
    "C31_near_partial",
    "C31_refuted"
   ],
   "note": "False of the code: refuted (z_split stops too early). Proved: results come from data and lie between the corners in z-order; filtering with z_inside gives exactly the rectangle (C29_filtered_exact_partial). How far off a result can be is bounded sharply (C31_near_partial): in the next cell in z-order, or off in one direction by less than the extent in the other. For aligned squares given by cell corners the query always returns, whatever the size, and the result is exact but for the last point (C31_square_partial)."
  },
  {
   "property": "C32",
   "status": "partial",
   "theorems": [
    "C32_find_partial",
    "C32_bind_partial",
    "C32_refuted_zero_key",
    "C32_refuted_leak",
    "C32_refuted_one_slot",
    "C32_find_with_heap"
   ],
   "note": "Proved for every history over keys other than the value-initialised key K{} (the one in names[0]), any N >= 2. For K{} it is false of the code: find never finds it and each bind of it leaks a slot (refuted). N = 1 is undefined behaviour. The heap search is proved exact for every name table laid out as a search tree."
  },
  {
   "property": "C33",
   "status": "proved",
   "theorems": [
    "C33_alloc",
    "C33_double_free_refuted"
   ],
   "note": "For every history of allocations and frees of live items. Freeing an item twice breaks it (C33_double_free_refuted)."
  },
  {
   "property": "C34",
   "status": "proved",
   "theorems": [
    "C34_queues",
    "C34_spec_determined"
   ],
   "note": ""
  },
  {
   "property": "C35",
   "status": "proved",
   "theorems": [
    "C35_no_drift",
    "C35_increments_sum",
    "C35_exact",
    "C35_condition_needed"
   ],
   "note": "Needs (f*Fd-1)*(Fn+1) < 2^64 for the frequency ratio; C35_condition_needed shows it fails without."
  },
  {
   "property": "C36",
   "status": "proved",
   "theorems": [
    "C36_sequence"
   ],
   "note": ""
  },
  {
   "property": "C37",
   "status": "proved",
   "theorems": [
    "C37_scalar",
    "C37_crossx2",
    "C37_crossx3",
    "C37_dotx2",
    "C37_sqrx2",
    "C37_dotx3"
   ],
   "note": "Exact characterisation of overflow for each product."
  },
  {
   "property": "C38",
   "status": "proved",
   "theorems": [
    "C38_winding",
    "C38_apex",
    "C38_rotation",
    "C38_reversal",
    "C38_triangle",
    "C38_overflow_refuted"
   ],
   "note": "For coordinates up to 2^30 in absolute value; beyond that signed overflow is possible (C38_overflow_refuted)."
  },
  {
   "property": "C39",
   "status": "proved",
   "theorems": [
    "C39_inside",
    "C39_antisymmetric",
    "C39_sign"
   ],
   "note": ""
  },
  {
   "property": "C40",
   "status": "proved",
   "theorems": [
    "C40_mesh",
    "C40_partition",
    "C40_interior_exterior",
    "C40_neighbours"
   ],
   "note": "For every mesh of clockwise triangles: the number of triangles claiming a point depends on the boundary only; exactly one or none when the boundary is strictly convex."
  },
  {
   "property": "C41",
   "status": "proved",
   "theorems": [
    "C41_point",
    "C41_line",
    "C41_ray",
    "C41_segment",
    "C41_ball_hits_ray"
   ],
   "note": "Distances over the rationals, where the closest point lies. Components below 2^31 in absolute value (2^30 for the segment test)."
  },
  {
   "property": "C42",
   "status": "partial",
   "theorems": [
    "C42_edge_partial",
    "C42_edge_refuted",
    "C42_ball_hits_edge_partial"
   ],
   "note": "False of the code (the radius test at the start comes before the end test): refuted; exact characterisation of what it computes."
  },
  {
   "property": "C43",
   "status": "proved",
   "theorems": [
    "C43_ab_less_cd"
   ],
   "note": "Both builds."
  },
  {
   "property": "C44",
   "status": "partial",
   "theorems": [
    "C44_muldiv32",
    "C44_parallel",
    "C44_accuracy_partial",
    "C44_refuted"
   ],
   "note": "Parallel lines exactly; accuracy 2 + 2^17 |p| / |d| for 23-bit coordinates; false in general: refuted for short segments and overflow for long ones."
  },
  {
   "property": "C45",
   "status": "proved",
   "theorems": [
    "C45_no_error_branch",
    "C45_periodic",
    "C45_quarter_turn",
    "C45_accuracy",
    "C45_cos_sin",
    "C45_min_radius_refuted"
   ],
   "note": "Against the real cosine and sine; the most negative radius overflows at half a turn (refuted for that one value). Axioms of the real numbers."
  },
  {
   "property": "C46",
   "status": "proved",
   "theorems": [
    "C46_utf16",
    "C46_path",
    "C46_no_overrun",
    "C46_truncated_refuted",
    "C46_distinct",
    "C46_overlong_refuted"
   ],
   "note": "Every sequence of Unicode scalar values (C46_utf16, C46_path with terminator), and the output never exceeds the buffer for any bytes (C46_no_overrun). Malformed UTF-8 is outside the claim and unsafe: C46_truncated_refuted gives a path whose terminator is swallowed and one that reads out of bounds. Different well-formed paths have different results (C46_distinct); paths that are not UTF-8 are accepted and can be converted to the same as a well-formed one (C46_overlong_refuted)."
  },
  {
   "property": "C47",
   "status": "partial",
   "theorems": [
    "C47_item_text",
    "C47_type_text",
    "C47_short",
    "C47_unknown_text",
    "C47_nameof",
    "C47_as_enum_partial",
    "C47_as_enum_int8",
    "C47_inverse",
    "C47_negative_refuted",
    "C47_wide_refuted",
    "C47_type",
    "C47_type_injective_refuted"
   ],
   "note": "Any compiler texts, any table of enumerators and any underlying type of at most 32 bits. Proved: nameof names every enumerator in 0..255, as_enum returns it, and the two are inverse there. Partial because as_enum does not answer unknown for exactly the names nameof never returns: over a signed 8-bit type static_cast<T>(128..255) is negative, so as_enum finds negative enumerators (C47_as_enum_int8) which nameof prints as ??? (C47_negative_refuted); C47_as_enum_partial excludes that type. Beyond the claim: C47_wide_refuted (64-bit enums alias modulo 2^32) and C47_type_injective_refuted (nameof<unsigned int>() is int)."
  },
  {
   "property": "C48",
   "status": "proved",
   "theorems": [
    "C48_safe",
    "C48_split",
    "C48_no_arguments",
    "C48_source_refuted"
   ],
   "note": "C48_safe for every string; C48_split for balanced ASCII arguments with closed literals (the last may have top-level commas). C48_source_refuted lists C++ texts outside that grammar that are split wrongly: digit separators, template commas, non-ASCII."
  },
  {
   "property": "C49",
   "status": "partial",
   "theorems": [
    "C49_safe",
    "C49_split",
    "C49_blank_refuted"
   ],
   "note": "C49_split for words separated by commas with blanks only after the commas; the property's blanks before a comma are refuted (C49_blank_refuted). C49_safe for every text with enough commas."
  },
  {
   "property": "C50",
   "status": "proved",
   "theorems": [
    "C50_rebuild",
    "C50_injective",
    "C50_bounds",
    "C50_reader_refuted"
   ],
   "note": "Every value of the reflected universe (atoms, arrays, bound classes, lists, vecs, aliases). C50_bounds covers readers that do not grow arrays; C50_reader_refuted shows io does not check a size stored by a reader."
  },
  {
   "property": "C51",
   "status": "proved",
   "theorems": [
    "C51_log",
    "C51_letter",
    "C51_hook",
    "C51_error"
   ],
   "note": "log's text and letters, the argv of the hooks from the macro's string literal, and the default error text end to end. Texts have no embedded NUL (they are stringised source). The formatting of each argument is C01/C65."
  },
  {
   "property": "C52",
   "status": "proved",
   "theorems": [
    "C52_verify",
    "C52_reject",
    "C52_assert",
    "C52_error"
   ],
   "note": "Macro expansions as expression trees with short-circuit evaluation and a trace; every condition, hook result and level."
  },
  {
   "property": "C53",
   "status": "proved",
   "theorems": [
    "C53_fuel",
    "C53_consistent",
    "C53_safe"
   ],
   "note": "Every history of reset, insert_point, insert_edge and fill with any hints, from a reset (C53_consistent); no call leaves the arrays or has undefined behaviour when the in-circle arithmetic wraps around (C53_safe). Executions that end: the model's fuel is universally quantified."
  },
  {
   "property": "C54",
   "status": "proved",
   "theorems": [
    "C54_clockwise_area",
    "C54_mesh",
    "C54_partition",
    "C54_cover"
   ],
   "note": "Orientation, area, the matching of sides and the partition of the square's points, for every history; C54_cover: the closed faces cover the square with its sides."
  },
  {
   "property": "C55",
   "status": "proved",
   "theorems": [
    "C55_incircle"
   ],
   "note": "Against the circle itself (equal distances from a rational centre). Exact with wrap-around always, and without whenever it does not overflow."
  },
  {
   "property": "C56",
   "status": "partial",
   "theorems": [
    "C56_refuted",
    "C56_wraparound_exact"
   ],
   "note": "False of the code: C56_refuted, the first insert_point on a fresh mesh overflows. C56_wraparound_exact: where the machine wraps around, the sign of the result is still exact for every mesh."
  },
  {
   "property": "C57",
   "status": "proved",
   "theorems": [
    "C57_fill",
    "C57_fill_outside"
   ],
   "note": "Every reachable mesh; terminates within 4*size steps of the model."
  },
  {
   "property": "C58",
   "status": "proved",
   "theorems": [
    "C58_locate",
    "C58_unique",
    "C58_overflow_refuted"
   ],
   "note": "Every reachable mesh and hint, for executions that end. C58_overflow_refuted: with Q = 16 the differences to far corners overflow, so the precondition is needed."
  },
  {
   "property": "C59",
   "status": "proved",
   "theorems": [
    "C59_accesses",
    "C59_enabled",
    "C59_fetch_linearizable",
    "C59_fetch_add_total",
    "C59_fetch_finishes"
   ],
   "note": "Linearizability with values, for any number of threads, schedule, stale first load and spurious failure; both the std and the MSVC loop. C59_accesses: a thread makes at most n + 2 accesses among n calls (plus its spurious failures), and C59_enabled: it is never stuck. Sequentially consistent interleaving of the compare-exchanges; memory-order effects on other locations are not modelled."
  },
  {
   "property": "C60",
   "status": "proved",
   "theorems": [
    "C60_fair",
    "C60_unfair_refuted",
    "C60_overtaking_refuted",
    "C60_exclusion",
    "C60_linearizable",
    "C60_no_deadlock",
    "C60_lock_in_table",
    "C60_mixed_refuted"
   ],
   "note": "Mutual exclusion per object, linearizability of word-by-word operations, freedom from deadlock. C60_fair: on every fair schedule every call returns (C60_unfair_refuted: not without fairness; C60_overtaking_refuted: other calls can overtake a call any number of times). C60_mixed_refuted: for non-built-in types of 1, 2, 4 or 8 bytes atomic_store bypasses the lock and a load can tear."
  },
  {
   "property": "C61",
   "status": "proved",
   "theorems": [
    "C61_span_skip",
    "C61_span_trim"
   ],
   "note": ""
  },
  {
   "property": "C62",
   "status": "partial",
   "theorems": [
    "C62_posix",
    "C62_win32",
    "C62_win32_refuted",
    "C62_timestamp"
   ],
   "note": "POSIX fully proved; Win32 proved except that long waits are meant to stay finite: C62_win32_refuted shows that every ns >= (2^32-1)*10^6 passes 0xFFFFFFFF, which is INFINITE."
  },
  {
   "property": "C63",
   "status": "partial",
   "theorems": [
    "C63_squares",
    "C63_nearest",
    "C63_nearest_refuted",
    "C63_close",
    "C63_monotone",
    "C63_out_of_range",
    "C63_hypot",
    "C63_hypot_total",
    "C63_hypot_refuted",
    "C63_hypot_portable",
    "C63_builds_agree_refuted"
   ],
   "note": "C63_squares covers every int32. Nearest integer is proved for v <= 2^50 - 2^25 and refuted above (C63_nearest_refuted); C63_close bounds the error up to the last v with an int32 result and C63_out_of_range says what comes back for every other int64; C63_hypot_total covers all pairs of int32. hypot is exact on Pythagorean triples within the stated range, and the two builds can differ (C63_builds_agree_refuted)."
  },
  {
   "property": "C64",
   "status": "proved",
   "theorems": [
    "C64_eighths",
    "C64_exact"
   ],
   "note": ""
  },
  {
   "property": "C65",
   "status": "partial",
   "theorems": [
    "C65_to_text_concat",
    "C65_flat_partial",
    "C65_nested_refuted"
   ],
   "note": "The text is proved for every list of values (floating point by the text of std::to_chars). Elements are shown as they are shown alone unless they are arrays or vectors themselves: to_text_n is declared before the overloads for those, so a compiler with two-phase lookup shows a row of a matrix as #<ref address>, and the property is refuted for them."
  },
  {
   "property": "C66",
   "status": "proved",
   "theorems": [
    "C66_exclusion",
    "C66_acquire",
    "C66_release",
    "C66_construct"
   ],
   "note": "Both back ends. The primitives of std::mutex, std::shared_mutex and SRWLOCK are given by their documented behaviour (prim_step)."
  },
  {
   "property": "C67",
   "status": "proved",
   "theorems": [
    "C67_type_lists"
   ],
   "note": ""
  },
  {
   "property": "C68",
   "status": "proved",
   "theorems": [
    "C68_polar",
    "C68_origin_refuted",
    "C68_long_vector_refuted"
   ],
   "note": "Against the real length and angle; the angle of the origin is not 0, and vectors longer than the largest int32 overflow (theorems with suffix _refuted). Axioms of the real numbers."
  },
  {
   "property": "C69",
   "status": "proved",
   "theorems": [
    "C69_no_leak"
   ],
   "note": "Win32 only. The operating system is an arbitrary oracle; the one assumption is that two handles open at the same time differ."
  },
  {
   "property": "C71",
   "status": "proved",
   "theorems": [
    "C71_faces",
    "C71_edges",
    "C71_primary",
    "C71_euler"
   ],
   "note": "Every reachable mesh; Q at most 16."
  },
  {
   "property": "C72",
   "status": "proved",
   "theorems": [
    "C72_point",
    "C72_cell"
   ],
   "note": "Every reachable mesh, int32 point and hint, for executions that end; C72_cell relates the grid point to the user's point."
  },
  {
   "property": "C73",
   "status": "proved",
   "theorems": [
    "C73_follows",
    "C73_persists",
    "C73_exact_refuted",
    "C73_false_refuted"
   ],
   "note": "C73_follows and C73_persists for every history and executions that end. Stronger claims are false: C73_exact_refuted (true is returned although the segment is not covered by constrained edges, because crossings are rounded), C73_false_refuted (false is returned half-way although both points are inside and there is room)."
  },
  {
   "property": "C74",
   "status": "partial",
   "theorems": [
    "C74_refuted",
    "C74_walks_partial",
    "C74_dichotomy_partial",
    "C74_walk_bound",
    "C74_search_partial"
   ],
   "note": "False of the code in two cases: C74_refuted (an edge from the low corner of the square never ends, with any fuel) and C77_refuted (a walk of it never ends). Everything else is proved: from any other point, the code ends whenever its walks do (C74_walks_partial), it ends or never does because of a walk, decided after a number of turns that depends on the capacity only (C74_dichotomy_partial, C74_walk_bound), and with the exhaustive search that the source has under #if 0 it always ends (C74_search_partial)."
  },
  {
   "property": "C75",
   "status": "proved",
   "theorems": [
    "C75_planar"
   ],
   "note": "Every history."
  },
  {
   "property": "C70",
   "status": "proved",
   "theorems": [
    "C70_point",
    "C70_delaunay",
    "C70_edge_refuted"
   ],
   "note": "C70_point for every reachable mesh whose unconstrained edges are locally Delaunay; C70_delaunay for every history without insert_edge. insert_edge does not keep it: C70_edge_refuted."
  },
  {
   "property": "C76",
   "status": "proved",
   "theorems": [
    "C76_insert_point",
    "C76_locate"
   ],
   "note": "Every history without insert_edge; bound 8 n + 8 on fuel, which bounds every loop and the depth of the recursion. For meshes with inserted edges see C74."
  },
  {
   "property": "C77",
   "status": "partial",
   "theorems": [
    "C77_refuted"
   ],
   "note": "False of the code: C77_refuted, after six insert_edge calls insert_point, insert_edge and locate of a point never end, with the default hint and any fuel. It holds for every mesh without inserted edges (C76)."
  },
  {
   "property": "C78",
   "status": "partial",
   "theorems": [
    "C78_no_assertion_partial",
    "C78_point",
    "C78_edge_partial",
    "C78_corner_refuted"
   ],
   "note": "False of the code for constraints that start at the low corner of the square: C78_corner_refuted, an assertion fails although without assertions the call ends well. Proved for every other call on every reachable mesh (C78_no_assertion_partial, C78_point, C78_edge_partial): the build with assertions has the same outcome."
  },
  {
   "property": "C79",
   "status": "proved",
   "theorems": [
    "C79_fair",
    "C79_unfair_refuted",
    "C79_linearizable",
    "C79_exclusion",
    "C79_no_deadlock",
    "C79_race_free",
    "C79_publish",
    "C79_delayed_refuted"
   ],
   "note": "x86-TSO: a first-in first-out store buffer per processor, locked instructions wait for it, loads see it. Linearizability over guarded and interlocked operations together, exclusion, freedom from deadlock, and sequentially consistent variables where writes are published before another processor touches them (C79_race_free, C79_publish). C79_delayed_refuted: without the publishing call two processors can both read old values. C79_fair: on every schedule that gives calls and store buffers turns again and again, all calls return and all stores reach memory; C79_unfair_refuted: the buffers' turns are needed."
  },
  {
   "property": "C80",
   "status": "partial",
   "theorems": [
    "C80_msvc_linearizable_partial",
    "C80_std_linearizable",
    "C80_enabled",
    "C80_lock_free",
    "C80_halves_refuted",
    "C80_halves_alone",
    "C80_least_refuted",
    "C80_compare_exchange_refuted",
    "C80_mechanism",
    "C80_sixteen",
    "C80_member_adds",
    "C80_member_calls",
    "C80_member_refuted",
    "C80_wait_free",
    "C80_wait_free_refuted"
   ],
   "note": "atomic_std.h fully (C80_std_linearizable). atomic_msvc_x86.h for integers, pointers, floating point and classes of 1, 2, 4 and 8 bytes, except loads of such classes and, on 32 bit processors, loads of 8 bytes. The rest is false of the code: C80_halves_refuted (a 64 bit load on a 32 bit processor returns a value that never was there), C80_least_refuted (fetch_sub of the least number overflows), C80_compare_exchange_refuted (no return statement for sizes that are not powers of two up to 16), C60_mixed_refuted (classes of 1 to 8 bytes), C80_member_refuted (fetch_add of a class whose operators are members adds representations). Lock freedom: with n threads any 3nn+4n+1 steps see a return. Wait freedom: calls without a loop return at every third turn of their thread (C80_wait_free); calls with a loop can be kept in it for ever (C80_wait_free_refuted)."
  },
  {
   "property": "C81",
   "status": "partial",
   "theorems": [
    "C81_binary",
    "C81_value_unique",
    "C81_compare",
    "C81_compound_vector",
    "C81_compound_scalar_partial",
    "C81_alias_refuted",
    "C81_inverse"
   ],
   "note": "All but *= and /= by a component of the vector other than the last, where the code is wrong (C81_alias_refuted: v /= v.x divides y by the new x). Floating point elements are in C89, vectors of vectors in C95."
  },
  {
   "property": "C82",
   "status": "partial",
   "theorems": [
    "C82_no_double_close",
    "C82_no_leak",
    "C82_again",
    "C82_typed_partial",
    "C82_big_file_refuted",
    "C82_reports",
    "C82_posix"
   ],
   "note": "All but files of 4 GB and more in 32 bit programs, where map_span returns true and a span that is too short (C82_big_file_refuted)."
  },
  {
   "property": "C83",
   "status": "partial",
   "theorems": [
    "C83_xoroshiro64ss",
    "C83_xoroshiro128pp",
    "C83_pcg32_partial",
    "C83_pcg32_ranged_partial",
    "C83_predictable",
    "C83_pairs",
    "C83_next64"
   ],
   "note": "Both xoroshiro engines completely. For pcg32 the code has no defined result at the 2^59 states below 2^59 (C20); over the others every number comes exactly 31 * 2^27 times, and every result of next_ranged(n) and next_unbiased(n) so many times for each raw number that gives it."
  },
  {
   "property": "C84",
   "status": "proved",
   "theorems": [
    "C84_classes",
    "C84_relations"
   ],
   "note": ""
  },
  {
   "property": "C85",
   "status": "partial",
   "theorems": [
    "C85_x86_partial",
    "C85_portable_partial",
    "C85_zero_refuted",
    "C85_extremes_refuted"
   ],
   "note": "Proved for lengths from 2^-62 to 2^62. False of the code outside: C85_zero_refuted (NaNs), C85_extremes_refuted (a component of 2^-80 gives an infinity, one of 2^64 gives the zero vector). No fused multiply-add."
  },
  {
   "property": "C86",
   "status": "proved",
   "theorems": [
    "C86_verts",
    "C86_twin",
    "C86_collinear",
    "C86_overflow_refuted"
   ],
   "note": "Every reachable mesh; Q at most 16. C86_overflow_refuted: int32_t coordinates can overflow collinear beyond the stated range."
  },
  {
   "property": "C87",
   "status": "proved",
   "theorems": [
    "C87_remove_reference",
    "C87_remove_const",
    "C87_remove_volatile",
    "C87_remove_cv",
    "C87_remove_cvref",
    "C87_remove_pointer",
    "C87_is_ptr",
    "C87_best_pass",
    "C87_ordering",
    "C87_idempotent"
   ],
   "note": "The compiler's choice of a partial specialisation is modelled: the matching pattern that is more specialised than the others."
  },
  {
   "property": "C88",
   "status": "proved",
   "theorems": [
    "C88_unique",
    "C88_vertices",
    "C88_order",
    "C88_result",
    "C88_cocircular_refuted"
   ],
   "note": "Histories without insert_edge. C88_cocircular_refuted: the condition on circles is needed, four points of a square come out differently in another order."
  },
  {
   "property": "C89",
   "status": "partial",
   "theorems": [
    "C89_formats",
    "C89_binary",
    "C89_rounded_unique",
    "C89_compare",
    "C89_compound_vector",
    "C89_compound_scalar_partial",
    "C89_alias_refuted"
   ],
   "note": "All but *= and /= by a component of the vector other than the last, where the code is wrong (C89_alias_refuted, as in C81). One NaN; no fused multiply-add, round to nearest."
  },
  {
   "property": "C90",
   "status": "proved",
   "theorems": [
    "C90_symmetric",
    "C90_squares",
    "C90_error",
    "C90_whole",
    "C90_parallel"
   ],
   "note": "The bound is for absolute products up to 2^126, plus 2^-147 for underflow. No fused multiply-add, round to nearest."
  },
  {
   "property": "C91",
   "status": "partial",
   "theorems": [
    "C91_count",
    "C91_get_partial",
    "C91_get_refuted"
   ],
   "note": "False of the code: with structured bindings (every C++17 compiler) the name get in crack::get is the member function itself, and no call of ce::get compiles (C91_get_refuted). Proved for builds without, and for the same code without the clash of names."
  },
  {
   "property": "C92",
   "status": "proved",
   "theorems": [
    "C92_log",
    "C92_levels",
    "C92_log_nothing",
    "C92_text",
    "C92_message",
    "C92_message_string",
    "C92_off"
   ],
   "note": "With the default hook, on POSIX. LEVEL is not itself a macro; argument lists as in C48 (no commas of template argument lists except in the last argument, no digit separators)."
  },
  {
   "property": "C93",
   "status": "proved",
   "theorems": [
    "C93_report",
    "C93_check"
   ],
   "note": "With the default hooks, on POSIX."
  },
  {
   "property": "C94",
   "status": "proved",
   "theorems": [
    "C94_refine"
   ],
   "note": ""
  },
  {
   "property": "C95",
   "status": "proved",
   "theorems": [
    "C95_binary",
    "C95_compare",
    "C95_compound",
    "C95_flat"
   ],
   "note": ""
  },
  {
   "property": "C96",
   "status": "partial",
   "theorems": [
    "C96_intersect_partial",
    "C96_intersect_refuted"
   ],
   "note": "Proved for a result that is none of p1, q0 and q1 (it may be p0). For those the property is refuted: the result is written before they are read, and the answer is always one of the end points p0 and p1."
  },
  {
   "property": "C97",
   "status": "partial",
   "theorems": [
    "C97_bind_reference_partial",
    "C97_bind_own_refuted"
   ],
   "note": "Proved for n other than m, for every dictionary. For n = m it is refuted for every dictionary: the value is destroyed before it is copied."
  },
  {
   "property": "C98",
   "status": "proved",
   "theorems": [
    "C98_fill",
    "C98_in_polygon",
    "C98_outline"
   ],
   "note": "For polygons covered by constrained edges; C98_outline gives such a polygon when the sides were inserted as edges, which may bend at vertices less than one grid unit beside them (C73)."
  },
  {
   "property": "C99",
   "status": "proved",
   "theorems": [
    "C99_edges",
    "C99_regions",
    "C99_places",
    "C99_fill"
   ],
   "note": "Places strictly inside a face before and after; with C54 those are all places but the edges."
  },
  {
   "property": "C100",
   "status": "proved",
   "theorems": [
    "C100_again",
    "C100_edge",
    "C100_twice",
    "C100_free_refuted",
    "C100_crossing_refuted"
   ],
   "note": "For executions that end. Stronger claims are false: C100_free_refuted (with no constrained edge in the square, an edge between two vertices costs a vertex that is not on the segment, because an edge of a non-convex quad is split at a rounded point instead of flipped around), C100_crossing_refuted (one crossing costs 21 vertices)."
  },
  {
   "property": "C101",
   "status": "partial",
   "theorems": [
    "C101_counted",
    "C101_same",
    "C101_insertion_sort",
    "C101_insertion_sort_ordered",
    "C101_lower_bound",
    "C101_upper_bound",
    "C101_enqueue",
    "C101_dequeue",
    "C101_intro_sort_partial",
    "C101_intro_sort_sharp",
    "C101_intro_sort_nlogn_refuted"
   ],
   "note": "All but the last sentence. intro_sort takes at most n (n + 5) / 2 comparisons (C101_intro_sort_partial), a bound that equal elements meet (C101_intro_sort_sharp); n log n is refuted for every cutoff and constant (C101_intro_sort_nlogn_refuted)."
  },
  {
   "property": "C102",
   "status": "proved",
   "theorems": [
    "C102_odd",
    "C102_odd_crc32c",
    "C102_two",
    "C102_three",
    "C102_three_words32",
    "C102_three_words64",
    "C102_three_text",
    "C102_sharp"
   ],
   "note": "C102_sharp: at 2^28 bytes two flipped bits can go unnoticed. Odd numbers of errors for every polynomial with an even number of terms."
  },
  {
   "property": "C103",
   "status": "proved",
   "theorems": [
    "C103_circle",
    "C103_nearest",
    "C103_groups",
    "C103_jumps",
    "C103_step",
    "C103_walk",
    "C103_edge_refuted",
    "C103_locate_refuted"
   ],
   "note": "Refuted beside it: with insert_edge a constrained edge keeps nearest vertices apart (C103_edge_refuted); the nearest vertex need not be a corner of the face around the point (C103_locate_refuted)."
  },
  {
   "property": "C104",
   "status": "proved",
   "theorems": [
    "C104_insertion_sort",
    "C104_intro_sort",
    "C104_sort_calls",
    "C104_search",
    "C104_queue"
   ],
   "note": "operator< may have any state of its own but does not change the array, the range or the queue it is called from. dequeue and head of an empty queue are undefined (C07_dequeue_empty_refuted)."
  },
  {
   "property": "C105",
   "status": "proved",
   "theorems": [
    "C105_residue",
    "C105_residue_crc32c",
    "C105_residue_words32",
    "C105_patch",
    "C105_receiver",
    "C105_difference",
    "C105_balanced"
   ],
   "note": "On the models of crc32 of C11; C105_residue_words32 for the overload of 32 bit words."
  },
  {
   "property": "C106",
   "status": "proved",
   "theorems": [
    "C106_turns",
    "C106_closed",
    "C106_back",
    "C106_length",
    "C106_polar",
    "C106_polar_back",
    "C106_polar_origin"
   ],
   "note": "On the models of C45 and C68. C106_turns, C106_closed, C106_length for any number of turns; C106_polar with the bound for every length."
  },
  {
   "property": "C107",
   "status": "proved",
   "theorems": [
    "C107_index",
    "C107_count",
    "C107_queue_sorts",
    "C107_same"
   ],
   "note": "On the models of C03, C04, C06, C07, C27 to C30. C107_index for the rectangles for which z_query is proved not to overflow its stack and whose upper corner is not in the last cell (the others are in C29 and C30)."
  },
  {
   "property": "C108",
   "status": "proved",
   "theorems": [
    "C108_any_stream",
    "C108_every_data",
    "C108_ratio",
    "C108_ratio_reached"
   ],
   "note": "On the models of C23 to C26. For data of 0 bytes the decoder would have an array of size 0, which is ill-formed in C++; the model gives an empty list there."
  },
  {
   "property": "C109",
   "status": "partial",
   "theorems": [
    "C109_xoroshiro64ss",
    "C109_xoroshiro128pp",
    "C109_pcg32_partial"
   ],
   "note": "Complete for the two xoroshiro generators. For pcg32, read() is undefined in the states below 2^59 (C20_pcg_read_refuted); C109_pcg32_partial takes the result of the reference there and is about read() everywhere else."
  },
  {
   "property": "C110",
   "status": "proved",
   "theorems": [
    "C110_nearest_data",
    "C110_edge_refuted"
   ],
   "note": "Histories without insert_edge; C110_edge_refuted: it does not hold with insert_edge. Both weightings have the same sum of weights, which scaling by a common multiple always gives."
  }
 ]
}