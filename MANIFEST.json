{
 "claims": [
  {
   "property": "C01",
   "status": "proved",
   "theorems": [
    "C01_vec_is_sequence",
    "C01_vec_reads"
   ],
   "note": "Every legal history from every vec whose first size slots are live; element conversions (from/clone) are applied by the caller; source arrays do not overlap the vec."
  },
  {
   "property": "C02",
   "status": "proved",
   "theorems": [
    "C02_vec_destroys_once",
    "C02_vec_copy_destroys_old"
   ],
   "note": "Every legal history from an empty vec ending in drop; resize counts each copy of its null value as moved in."
  },
  {
   "property": "C03",
   "status": "partial",
   "theorems": [
    "C03_cspan_each_partial",
    "C03_cspan_each_empty_refuted",
    "C03_deque_each",
    "C03_hmap_each",
    "C03_list_each",
    "C03_crange_each_empty_refuted",
    "C03_smap_each",
    "C03_stack_each_empty_refuted",
    "C03_stack_each_partial",
    "C03_vec_each_empty_refuted",
    "C03_vec_each_partial",
    "C03_chars_partial",
    "C03_view_chars_partial",
    "C03_empty_string_refuted",
    "C03_empty_view_refuted"
   ],
   "note": "Violated on emptied vec/stack that keep a buffer, every empty fixed stack, empty strings and views, empty spans and empty cranges (\u2026_refuted); proved for non-empty and bufferless containers, non-empty strings and spans."
  },
  {
   "property": "C04",
   "status": "partial",
   "theorems": [
    "C04_append_exact_fit_refuted",
    "C04_fixed_stack_partial",
    "C04_append_all_or_nothing"
   ],
   "note": "Violated: append_uninit refuses an exact fit (C04_append_exact_fit_refuted). Everything else proved for all capacities and histories."
  },
  {
   "property": "C05",
   "status": "proved",
   "theorems": [
    "C05_deque_is_sequence",
    "C05_deque_from_empty",
    "C05_deque_front_back",
    "C05_deque_find"
   ],
   "note": "Every legal history from every well-formed ring (all offsets, all power-of-two capacities). Allocation succeeds."
  },
  {
   "property": "C06",
   "status": "proved",
   "theorems": [
    "C06_deque_insert_is_splice",
    "C06_deque_erase_is_splice"
   ],
   "note": "insert_n / insert_uninit followed by filling, and erase_n, from every ring layout."
  },
  {
   "property": "C07",
   "status": "partial",
   "theorems": [
    "C07_insert_at_end_refuted",
    "C07_erase_to_end_refuted",
    "C07_deque_iterators_partial"
   ],
   "note": "Violated: deque_end() denotes slot 0, so insert_at(end) and erase_range(it, end) act on a wrong position (two refutations). C07_deque_iterators_partial proves positions reached from begin."
  },
  {
   "property": "C08",
   "status": "proved",
   "theorems": [
    "C08_deque_clone",
    "C08_deque_eq"
   ],
   "note": "All pairs of rings; values in the model share nothing, so a clone has its own storage by construction."
  },
  {
   "property": "C09",
   "status": "proved",
   "theorems": [
    "C09_pqueue_is_max_bag",
    "C09_pqueue_drains_sorted",
    "C09_make_heap_establishes"
   ],
   "note": "All histories of push/pop/clear/reserve/shrink_to_fit/make_heap, all strict weak orders; make_heap from arbitrary content."
  },
  {
   "property": "C10",
   "status": "partial",
   "theorems": [
    "C10_erase_at_breaks_order_refuted",
    "C10_erase_at_partial"
   ],
   "note": "Violated: erase_at only sifts down; C10_erase_at_breaks_order_refuted gives a history where a later top is not maximal. C10_erase_at_partial proves it for index 0 and whenever the last element is not greater than the erased element's parent."
  },
  {
   "property": "C11",
   "status": "partial",
   "theorems": [
    "C11_pull_always_returns_dropped",
    "C11_pull_returns_dropped_refuted",
    "C11_pull_value_partial"
   ],
   "note": "Violated: C11_pull_always_returns_dropped shows every pull returns an element already passed to the destructor (witness C11_pull_returns_dropped_refuted). C11_pull_value_partial: the returned value is maximal and removed once."
  },
  {
   "property": "C12",
   "status": "proved",
   "theorems": [
    "C12_list_is_sequence",
    "C12_list_from_empty",
    "C12_list_front_back",
    "C12_list_clone",
    "C12_list_eq",
    "C12_list_find"
   ],
   "note": "Histories over push_back, push_front, insert_at, erase_at, erase_range (non-empty list), pop_front, clear, reverse, remove on the pointer structure; clone, eq, find, count, front, back."
  },
  {
   "property": "C13",
   "status": "proved",
   "theorems": [
    "C13_list_splice",
    "C13_list_split_off",
    "C13_list_splice_range",
    "C13_list_reverse",
    "C13_list_remove"
   ],
   "note": "splice, split_off, splice_range, reverse, remove with frame and no-leak conditions."
  },
  {
   "property": "C14",
   "status": "proved",
   "theorems": [
    "C14_list_sort",
    "C14_sort_is_sorted_permutation"
   ],
   "note": "Every content, every strict weak order, keys whose raw form is a copy. Elements are accessed through a checked random access array (the deque/vec index mapping is the subject of C01/C05)."
  },
  {
   "property": "C15",
   "status": "partial",
   "theorems": [
    "C15_sort_lowhigh_touches_outside_refuted",
    "C15_sort_lowhigh_partial"
   ],
   "note": "Violated as documented: C15_sort_lowhigh_touches_outside_refuted gives a witness; C15_sort_lowhigh_partial proves it when nothing before the range is greater than anything in it."
  },
  {
   "property": "C16",
   "status": "partial",
   "theorems": [
    "C16_sort_by_reference_refuted"
   ],
   "note": "Violated: C16_sort_by_reference_refuted gives a content on which sorting through references into the slots leaves the array unsorted."
  },
  {
   "property": "C17",
   "status": "proved",
   "theorems": [
    "C17_lower_bound_exact",
    "C17_binary_search_exact",
    "C17_search_range_exact"
   ],
   "note": "Full range and every subrange, every strict weak order."
  },
  {
   "property": "C18",
   "status": "proved",
   "theorems": [
    "C18_hmap_is_finite_map",
    "C18_finite_map_laws"
   ],
   "note": "Every legal history of insert, emplace, insert_or_assign, emplace_or_assign, erase, erase_if, clear, reserve, shrink_to_fit from an empty map; hypotheses: key_ok (equality is an equivalence compatible with the hash) and spread (10-bit distances suffice)."
  },
  {
   "property": "C19",
   "status": "proved",
   "theorems": [
    "C19_hmap_total_with_room",
    "C19_hmap_safe_any_hash"
   ],
   "note": "C19_hmap_safe_any_hash: every history (at most 2^60 operations), every hash function and key comparison, any number of collisions: returns Ok (no access outside the arrays, loops end). C19_hmap_total_with_room: load at most 81%, an empty bucket remains."
  },
  {
   "property": "C20",
   "status": "proved",
   "theorems": [
    "C20_hmap_iteration"
   ],
   "note": "Visited entries are a permutation of the stored entries, which have pairwise different keys."
  },
  {
   "property": "C21",
   "status": "proved",
   "theorems": [
    "C21_hmap_erase_if"
   ],
   "note": "Every entry is examined at least once (an entry that wrapped around may be examined twice), exactly the matching ones are removed and destroyed."
  },
  {
   "property": "C22",
   "status": "partial",
   "theorems": [
    "C22_hmap_any_hash_partial",
    "C22_hmap_any_hash_refuted",
    "C22_hmap_any_hash_refuted_witness"
   ],
   "note": "Holds for every hash function up to 1023 keys; refuted beyond: with 1024 colliding keys the last one is lost (10-bit distance field overflows)."
  },
  {
   "property": "C23",
   "status": "proved",
   "theorems": [
    "C23_hmap_reserve"
   ],
   "note": "reserve/shrink_to_fit from any legal history; automatic growth is inside C18."
  },
  {
   "property": "C24",
   "status": "proved",
   "theorems": [
    "C24_smap_is_finite_map",
    "C24_finite_map_laws",
    "C24_smap_at"
   ],
   "note": "Every legal history for every comparator that is a strict total preorder; legal = at most max(reserved, 715827882) entries (growth beyond reaches uint32 overflow, an Err of the model) and reservations below 2^31. Allocation succeeds."
  },
  {
   "property": "C25",
   "status": "proved",
   "theorems": [
    "C25_smap_order",
    "C25_smap_find",
    "C25_smap_advance"
   ],
   "note": "Every legal history; iteration, lower_bound, find, advance, front, back."
  },
  {
   "property": "C26",
   "status": "proved",
   "theorems": [
    "C26_smap_balanced"
   ],
   "note": "Path length bound for every legal history; sufficiency of the 36/64 entry stacks is part of the Ok outcome of C24/C25 (a push on a full stack is Err OOB)."
  },
  {
   "property": "C27",
   "status": "partial",
   "theorems": [
    "C27_smap_clone_same",
    "C27_smap_clone_usable_partial",
    "C27_smap_clone_after_erase_refuted"
   ],
   "note": "Violated: clone/shrink_to_fit keep the high-water mark of the original with capacity = size, so inserting a new key after any net erasure writes out of bounds (C27_smap_clone_after_erase_refuted, for every such history). Usability proved for the complementary case."
  },
  {
   "property": "C28",
   "status": "partial",
   "theorems": [
    "C28_history",
    "C28_init",
    "C28_from",
    "C28_with_size",
    "C28_with_capacity",
    "C28_clone",
    "C28_observed",
    "C28_reserve",
    "C28_shrink",
    "C28_push",
    "C28_pop_char",
    "C28_append_uninit",
    "C28_flag_little_endian",
    "C28_flag_big_endian",
    "C28_flag_short",
    "C28_pop_empty_refuted"
   ],
   "note": "Every history of assign/append/append of a part of itself/insert/replace_at/erase/resize/reserve/shrink/pop/clear/append_fmt/printf proved to give the edited byte string (sizes up to 2^60), with size, terminator, capacity and the short/long flag; constructors and clone too. Refuted: pop of an empty string reads before the buffer."
  },
  {
   "property": "C29",
   "status": "partial",
   "theorems": [
    "C29_append_self",
    "C29_assign_self_partial",
    "C29_assign_self_refuted"
   ],
   "note": "append_self proved. Assigning a part of itself proved only if the part starts at 0 or after its own length; else refuted (the terminator is written into the part before it is moved)."
  },
  {
   "property": "C30",
   "status": "partial",
   "theorems": [
    "C30_cstr_find_at",
    "C30_cstr_find_beyond",
    "C30_cstr_starts_with",
    "C30_find_sv",
    "C30_find",
    "C30_contains",
    "C30_starts_with",
    "C30_ends_with",
    "C30_first_unique",
    "C30_z_find_partial",
    "C30_z_find_after_zero_refuted"
   ],
   "note": "csview_find/find_sv/contains/starts_with/ends_with proved for all bytes. zsview_find and cstr_find (strstr) proved for text without zero bytes; with an embedded zero byte violated (refuted)."
  },
  {
   "property": "C31",
   "status": "partial",
   "theorems": [
    "C31_replace",
    "C31_replaced_is_a_function",
    "C31_replace_all_partial",
    "C31_replace_all_refuted",
    "C31_empty_search"
   ],
   "note": "Proved for all texts, patterns, replacements and positive counts; for count 0 (all) proved for texts under 2^31 bytes, refuted beyond (0 stands for 2^31-1 replacements)."
  },
  {
   "property": "C32",
   "status": "proved",
   "theorems": [
    "C32_join",
    "C32_split_join",
    "C32_tokens",
    "C32_split_unique",
    "C32_empty_separator_loops"
   ],
   "note": "c_token_sv/csview_token: tokens proved to be the unique left-to-right split, rejoin to the input and contain no separator; an empty separator provably never ends. cstr_join_n proved to give the joined string, and to invert the split."
  },
  {
   "property": "C33",
   "status": "partial",
   "theorems": [
    "C33_cstr_view",
    "C33_subview",
    "C33_subview_rejects",
    "C33_slice",
    "C33_subview_pro",
    "C33_z_tail",
    "C33_z_from_pos",
    "C33_tail_partial",
    "C33_tail_clamps_refuted",
    "C33_subview_any_length_refuted"
   ],
   "note": "subview, slice, subview_pro, zsview/cstr tail and from_pos proved. Violated: csview_tail with a length over the size fails an assertion instead of clamping; subview with pos+len over ISIZE_MAX overflows."
  },
  {
   "property": "C34",
   "status": "partial",
   "theorems": [
    "C34_trim_start_partial",
    "C34_trim_end_partial",
    "C34_trim_partial",
    "C34_trim_signed_char_refuted"
   ],
   "note": "Proved where char is unsigned, and for ASCII text in general. Violated where char is signed: bytes from 0x80 on are trimmed."
  },
  {
   "property": "C35",
   "status": "proved",
   "theorems": [
    "C35_encode_is_utf8",
    "C35_encode_rejects_non_scalars",
    "C35_round_trip",
    "C35_peek",
    "C35_peek_ill_formed",
    "C35_prefix_free"
   ],
   "note": "Encoding equals the standard one (arithmetic specification), decoding gives the value back and consumes exactly its bytes in any context; non-scalar values are not encoded; encodings are prefix free."
  },
  {
   "property": "C36",
   "status": "partial",
   "theorems": [
    "C36_valid",
    "C36_valid_n_no_zero",
    "C36_valid_n_zero",
    "C36_valid_n_refuted"
   ],
   "note": "Proved for utf8_valid (zero-terminated) and for utf8_valid_n on views without zero bytes. Violated otherwise: utf8_valid_n stops at the first zero byte and calls the rest valid (C36_valid_n_refuted)."
  },
  {
   "property": "C37",
   "status": "proved",
   "theorems": [
    "C37_decode_progress_in_bounds",
    "C37_decode_all_any",
    "C37_decode_all_well_formed"
   ],
   "note": "For memory that ends where the view ends."
  },
  {
   "property": "C38",
   "status": "partial",
   "theorems": [
    "C38_cstr_u8_erase",
    "C38_cstr_u8_replace",
    "C38_cstr_u8_insert",
    "C38_count",
    "C38_at",
    "C38_at_past_end",
    "C38_peek_at",
    "C38_offset_back",
    "C38_offset_back_from_end_refuted",
    "C38_count_n_partial",
    "C38_count_n_reads_past_view_refuted",
    "C38_u8_tail",
    "C38_u8_subview_partial",
    "C38_u8_at_partial",
    "C38_u8_subview_reads_past_view_refuted",
    "C38_z_u8_subview"
   ],
   "note": "Proved for zero-terminated strings, forwards and backwards, and u8_tail of views. Violated: utf8_count_n, csview_u8_subview and csview_u8_at read the byte after the view; utf8_offset with a negative offset does not move back from the terminator."
  },
  {
   "property": "C39",
   "status": "partial",
   "theorems": [
    "C39_well_formed",
    "C39_any_bytes_partial",
    "C39_ill_formed_refuted",
    "C39_short_ill_formed_refuted"
   ],
   "note": "Proved for all well-formed input, and for any bytes whose decoded and mapped form fits the reserved buffer; refuted for ill-formed bytes (buffer overflow, or the short form's size byte overwritten)."
  },
  {
   "property": "C40",
   "status": "partial",
   "theorems": [
    "C40_icmp_zero",
    "C40_icmp_any_bytes",
    "C40_icmp_order_unsigned_char",
    "C40_lex_is_an_order",
    "C40_icmp_antisymmetric_refuted",
    "C40_icompare_partial",
    "C40_ascii_keeps",
    "C40_icompare_refuted",
    "C40_iequals_partial",
    "C40_istarts_with_partial",
    "C40_istarts_with_refuted",
    "C40_iends_with_partial",
    "C40_iends_with_view_refuted"
   ],
   "note": "utf8_icmp is zero iff the folded sequences are equal (proved, any bytes) and ordered lexicographically where char is unsigned. Violated: not antisymmetric where char is signed; utf8_icompare on views confuses strings whose folding changes the byte count; istarts_with compares whole strings; csview_iends_with reads past the view. Proved for views whose folding keeps sizes."
  },
  {
   "property": "C41",
   "status": "partial",
   "theorems": [
    "C41_cmp_is_lexicographic",
    "C41_eq",
    "C41_cmp_zero_iff_eq",
    "C41_lexicographic_is_total",
    "C41_strcmp_partial",
    "C41_strcmp_zero_bytes_refuted"
   ],
   "note": "csview_cmp/eq proved for all bytes. zsview_cmp/cstr_cmp (strcmp) proved without zero bytes, refuted with them."
  },
  {
   "property": "C42",
   "status": "proved",
   "theorems": [
    "C42_basehash_depends_on_bytes",
    "C42_hash_depends_on_bytes",
    "C42_equal_views_hash_equal",
    "C42_hash_str"
   ],
   "note": "c_basehash_n, c_hash_n, c_hash_str, csview_hash are functions of the key bytes only; modelled for an 8 byte little-endian size_t."
  },
  {
   "property": "C43",
   "status": "proved",
   "theorems": [
    "C43_cbits_is_bit_list",
    "C43_cbits_from_any_state",
    "C43_cbits_test",
    "C43_cbits_repr_unique",
    "C43_cbits_disjoint",
    "C43_cbits_fixed_with_size",
    "C43_cbits_fixed_with_pattern",
    "C43_cbits_fixed_from",
    "C43_popcount64",
    "C43_popcount32",
    "C43_popcount_is_bits",
    "C43_cbits_count_portable64",
    "C43_cbits_count_portable32",
    "C43_cbits_at_out_of_range"
   ],
   "note": "Histories over any number of dynamic bit sets refine lists of booleans, for every word size; fixed-size constructors; portable popcount (64 and 32 bit) proved equal to the bit count."
  },
  {
   "property": "C44",
   "status": "partial",
   "theorems": [
    "C44_cbits_resize",
    "C44_cbits_shrink_grow",
    "C44_cbits_resize_zero_refuted"
   ],
   "note": "resize proved for every n > 0 (and n = 0 when realloc(p,0) returns a block); with glibc's realloc, resize to 0 leaves a dangling buffer (refuted)."
  },
  {
   "property": "C45",
   "status": "partial",
   "theorems": [
    "C45_subset_of_reversed",
    "C45_subset_of_refuted"
   ],
   "note": "The documented direction is refuted; proved that subset_of(self, other) tests other within self."
  },
  {
   "property": "C46",
   "status": "partial",
   "theorems": [
    "C46_packed_offset_partial",
    "C46_packed_bijection_partial",
    "C46_large_shape_refuted",
    "C46_index_checked"
   ],
   "note": "Proved for every rank and shape with positive extents whose strides fit int32; out-of-range tuples assert. For shapes whose stride product exceeds 2^31-1 stride computation overflows (refuted)."
  },
  {
   "property": "C47",
   "status": "proved",
   "theorems": [
    "C47_iteration"
   ],
   "note": "Every rank, positive extents up to 2^31-1, any strides whose elements lie in memory."
  },
  {
   "property": "C48",
   "status": "partial",
   "theorems": [
    "C48_slice_partial",
    "C48_slice_accepts",
    "C48_transpose",
    "C48_swap_axes",
    "C48_submd",
    "C48_subspan_partial",
    "C48_subspan_refuted",
    "C48_history_partial"
   ],
   "note": "slice/transpose/swap_axes/submd/subspan and any sequence of them proved for slice starts >= 0 and subspan counts inside the span; negative starts and large counts are accepted by the run-time checks and leave the array (refuted, see C80)."
  },
  {
   "property": "C49",
   "status": "proved",
   "theorems": [
    "C49_uniform64_in_range",
    "C49_uniform64_mod_in_range",
    "C49_uniform32_in_range",
    "C49_uniform_unbiased",
    "C49_uniform_mod_unbiased",
    "C49_uniform64_stops",
    "C49_full_range_refuted"
   ],
   "note": "For every range that make_uniform can represent. Both the 128-bit multiplication and the remainder version. Termination of the rejection loop on a given engine sequence is not claimed: the loop ends with the first accepted output. C49_full_range_refuted: a range of 2^63 values or more overflows signed arithmetic in make_uniform."
  },
  {
   "property": "C50",
   "status": "proved",
   "theorems": [
    "C50_engine64_bijective",
    "C50_engine64_period",
    "C50_engine32_bijective",
    "C50_engine32_period",
    "C50_seed",
    "C50_even_stream_counterexample"
   ],
   "note": "Bijection for every stream, no recurrence within 2^64 (2^32) draws for odd streams; even streams have a counterexample."
  },
  {
   "property": "C51",
   "status": "proved",
   "theorems": [
    "C51_shuffle_permutes",
    "C51_shuffle64",
    "C51_shuffle_reaches_all",
    "C51_real64",
    "C51_real32"
   ],
   "note": "Permutation for any generator; every permutation is reachable; reals are exact doubles in [0,1)."
  },
  {
   "property": "C52",
   "status": "proved",
   "theorems": [
    "C52_arc",
    "C52_arc_lp64",
    "C52_counter_wraps_refuted",
    "C52_plain_counting_refuted"
   ],
   "note": "Any number of threads, any interleaving of the atomic steps (sequentially consistent), arbitrary placements. Side condition: at most 2^w-1 handles for a w-bit counter; for 64-bit long it follows from the size of the address space (C52_arc_lp64); where long has 32 bits the counter can wrap (C52_counter_wraps_refuted). Plain counting (i_no_atomic) shared between threads is refuted, as expected."
  },
  {
   "property": "C53",
   "status": "proved",
   "theorems": [
    "C53_placement",
    "C53_no_dummy_bytes_refuted"
   ],
   "note": "For every placement of the blocks the address test in drop chooses the way the memory was obtained (C53_placement), and no run frees a wrong block (C52_arc never errs). Without the 4 dummy bytes it would fail (C53_no_dummy_bytes_refuted)."
  },
  {
   "property": "C54",
   "status": "proved",
   "theorems": [
    "C54_box",
    "C54_box_end"
   ],
   "note": "Refinement of value semantics for all histories: each variable holds its own value, every live object has exactly one owner (a variable or the client), each object is destroyed at most once and exactly once at the end. Addresses are identities (sizes of blocks not modelled); an i_keydrop that calls back into the box is not modelled."
  },
  {
   "property": "C55",
   "status": "partial",
   "theorems": [
    "C55_meaning",
    "C55_argv_permutation",
    "C55_stop_at_error",
    "C55_ambiguous_never_ends",
    "C55_terminates_refuted"
   ],
   "note": "Proved: exact meaning of every command line (events, order, opt.ind), argv a permutation after any number of calls, no access outside argv or a string, termination of every client that stops at errors and of every client when no long option is ambiguous. Refuted: a client that continues after an ambiguous long option never ends (coption_get returns '?' without advancing). Side conditions: no option value is -1 (it would be taken for the end)."
  },
  {
   "property": "C56",
   "status": "partial",
   "theorems": [
    "C56_at_most_once",
    "C56_exactly_once",
    "C56_polite",
    "C56_after_stop",
    "C56_done_for_good",
    "C56_stop_twice_refuted",
    "C56_stop_after_yield_final_refuted",
    "C56_suspension_in_cleanup_refuted"
   ],
   "note": "Proved for every coroutine function (any statements, conditions and gotos; body, cco_finally and cleanup obeying the documented rules) and every history of resumptions, stops and memory changes: at most one cleanup, body statements never after it, exactly one at completion iff no stop came while cleanup was already due (C56_polite: two stops with a resumption in between), after a stop only cleanup and the next resumption completes, done stays done. Refuted as stated: cco_stop twice without a resumption, or cco_stop after cco_yield_final, completes the coroutine without its cleanup; suspending in the cleanup (against rule 3) can run it twice."
  },
  {
   "property": "C57",
   "status": "partial",
   "theorems": [
    "C57_run_partial",
    "C57_round_robin",
    "C57_no_starvation_partial",
    "C57_spawn_and_finish_refuted",
    "C57_spawn_on_predecessor_refuted",
    "C57_successor_skipped_refuted",
    "C57_starvation_refuted"
   ],
   "note": "Pointer-level model of the ring; any behaviours and spawn targets. Proved: memory safety, refinement to a queue, every fiber freed at most once, the loop ends exactly when all fibers ever made were freed, exact round robin while no fiber finishes (spawned fibers included), and a bound n(n+1)/2 on waiting when none is spawned; under the condition that a finishing fiber does not spawn on its predecessor in the ring (on itself when alone) in its last resumption. Refuted without: such a spawned fiber is lost, never resumed and leaked. Refuted as stated: the successor of a finished fiber loses its turn; a fiber that keeps spawning short fibers starves another one forever."
  },
  {
   "property": "C58",
   "status": "proved",
   "theorems": [
    "C58_holders",
    "C58_wait",
    "C58_go",
    "C58_foul_release_refuted"
   ],
   "note": "On top of the coroutine model of C56: any coroutine code using cco_await_semaphore/cco_release_semaphore, any schedule of resumptions and stops. A release without an acquire is excluded (and shown to break it)."
  },
  {
   "property": "C59",
   "status": "partial",
   "theorems": [
    "C59_c_range3",
    "C59_c_range4_partial",
    "C59_c_range4_overflow_refuted",
    "C59_crange_each_partial",
    "C59_crange_empty_refuted",
    "C59_crange_each_n_partial",
    "C59_crange_advance_partial"
   ],
   "note": "c_range loops proved for every start/stop/step that stay inside the type; missing and refuted: the loop variable overflows when stop is within one step of the type's end, and an empty crange still visits its start value (C59_crange_empty_refuted). crange iteration, each_n and advance proved for non-empty ranges."
  },
  {
   "property": "C60",
   "status": "partial",
   "theorems": [
    "C60_filter_partial",
    "C60_filter_zip_partial",
    "C60_filter_pairwise_partial",
    "C60_twenty_counters_refuted",
    "C60_counter_wraps_refuted"
   ],
   "note": "Proved for pipelines with at most 19 counters and 20 flags over fewer than 2^32 values, for c_filter, c_filter_zip and c_filter_pairwise; refuted: the 20th counter is out of bounds, and counters wrap at 2^32."
  },
  {
   "property": "C61",
   "status": "partial",
   "theorems": [
    "C61_vec_eraseremove_partial",
    "C61_vec_find_partial",
    "C61_vec_all_any_none_partial",
    "C61_vec_append_if_partial",
    "C61_vec_reverse",
    "C61_vec_emptied_refuted",
    "C61_deque_eraseremove",
    "C61_deque_find",
    "C61_deque_all_any_none",
    "C61_deque_append_if",
    "C61_deque_reverse"
   ],
   "note": "Proved for deque in full and for vec except when a vec has been emptied but keeps its buffer, where the macros read uninitialised memory (C61_vec_emptied_refuted). c_append_if is modelled with an output container different from its source."
  },
  {
   "property": "C62",
   "status": "proved",
   "theorems": [
    "C62_next_pow2_smallest",
    "C62_next_pow2_zero"
   ],
   "note": "c_next_pow2 on 64-bit isize for every n from 0 to 2^62 (the range without wrap-around); 0 maps to 0."
  },
  {
   "property": "C63",
   "status": "partial",
   "theorems": [
    "C63_match",
    "C63_match_next",
    "C63_is_match",
    "C63_line_start_refuted",
    "C63_caseless_start_refuted"
   ],
   "note": "Proved over compiled programs (language of a program = paths of its instructions), for text of well-formed UTF-8, without case-flag changes and word boundaries, including captures, cregex_match_next and cregex_is_match. Refuted for programs that start with ^ (a line break is skipped) and for caseless ones whose first letter is ASCII when the text has a non-ASCII character folding to it; there only soundness is proved."
  },
  {
   "property": "C64",
   "status": "partial",
   "theorems": [
    "C64_compile",
    "C64_grammar_unique",
    "C64_spans",
    "C64_tokens",
    "C64_match",
    "C64_hex_letter_refuted",
    "C64_open_flags_refuted",
    "C64_long_class_refuted"
   ],
   "note": "Proved for all patterns over literals, escapes, \\x{..}, \\p{..}, dot, anchors, classes (also with [:name:] and \\p{..}), groups, closures, alternation: the program means the expression of the grammar (also with captures), the expression is unique, errors only for underivable patterns or limits; with C63 for the matcher; for any other syntax relative to the lexer's tokens (C64_tokens). Refuted: \\x{64} means \\d, unclosed (? is accepted, classes with more than 32 members. Not covered: the meaning of \\Q..\\E and flags as text, and _optimize's reallocation."
  },
  {
   "property": "C65",
   "status": "partial",
   "theorems": [
    "C65_union",
    "C65_disjoint",
    "C65_class",
    "C65_set_in_range_refuted",
    "C65_range_escape_refuted"
   ],
   "note": "Union proved when no written range contains a token of a set, also from the text of the class; refuted: a set inside of a huge range is lost, and an escape at the end of a range is not translated."
  },
  {
   "property": "C66",
   "status": "partial",
   "theorems": [
    "C66_view_partial",
    "C66_outside_refuted",
    "C66_first_next_refuted",
    "C66_to_end"
   ],
   "note": "Proved for views up to the end of the text, and for any view for programs with no fast start and no \\Z; otherwise refuted: the fast start finds matches behind the view, and the first cregex_match_next_sv ignores its end."
  },
  {
   "property": "C67",
   "status": "partial",
   "theorems": [
    "C67_template",
    "C67_replace_partial",
    "C67_string_partial",
    "C67_rounds",
    "C67_pattern_partial",
    "C67_empty_refuted",
    "C67_line_start_refuted",
    "C67_gives_up_refuted",
    "C67_view_refuted"
   ],
   "note": "Templates proved in full. Replacement proved for patterns of the core syntax on C strings and views up to the end of the text (leftmost longest matches replaced, rest copied, up to a place where the matcher reports a full list); the number of rounds is bounded. Refuted: an empty match is replaced again and again at one place; ^ matches behind each match; where the matcher gives up the rest is copied silently; a view ending before the text gives a negative size."
  },
  {
   "property": "C68",
   "status": "proved",
   "theorems": [
    "C68_getdelim",
    "C68_read_lines",
    "C68_lines_keep_bytes"
   ],
   "note": "getdelim and a client reading all lines, for every stream content, delimiter and buffer state (streams under 2^60 bytes)."
  },
  {
   "property": "C69",
   "status": "partial",
   "theorems": [
    "C69_list_erase_range_refuted",
    "C69_list_erase_range_partial"
   ],
   "note": "Holds for every non-empty list; refuted for the empty list (null dereference)."
  },
  {
   "property": "C70",
   "status": "partial",
   "theorems": [
    "C70_erase_range_iterator_refuted",
    "C70_insert_at_end_iterator_refuted",
    "C70_insert_at_iterator_partial",
    "C70_erase_at_iterator_partial"
   ],
   "note": "Holds for insert_at and erase_at with iterators reached from begin; refuted for the iterator erase_range returns and for insert_at(list_end())."
  },
  {
   "property": "C71",
   "status": "proved",
   "theorems": [
    "C71_hmap_destroys_once"
   ],
   "note": "Same histories as C18, followed by drop."
  },
  {
   "property": "C72",
   "status": "proved",
   "theorems": [
    "C72_hmap_clone"
   ],
   "note": "Same histories as C18 before and after cloning."
  },
  {
   "property": "C73",
   "status": "partial",
   "theorems": [
    "C73_hmap_eq_is_key_equality",
    "C73_hmap_eq_compares_values_refuted"
   ],
   "note": "_eq compares key sets only, for any two histories; comparing mapped values is refuted."
  },
  {
   "property": "C74",
   "status": "proved",
   "theorems": [
    "C74_smap_erase_at",
    "C74_smap_erase_range",
    "C74_smap_erase_if"
   ],
   "note": "Every legal history. erase_range compares key objects with memcmp: modelled as a relation reflexive and implying equivalence."
  },
  {
   "property": "C75",
   "status": "proved",
   "theorems": [
    "C75_smap_drop",
    "C75_smap_eq_keys_only"
   ],
   "note": "Every legal history."
  },
  {
   "property": "C76",
   "status": "partial",
   "theorems": [
    "C76_vec_iterators_partial",
    "C76_vec_end_refuted",
    "C76_vec_returned_positions"
   ],
   "note": "Violated for vec_end(): C76_vec_end_refuted (for every non-empty vec). Proved for all positions reached from begin."
  },
  {
   "property": "C77",
   "status": "partial",
   "theorems": [
    "C77_normal_pairs_partial",
    "C77_normal_call_limit_refuted"
   ],
   "note": "Proved below 2^31 calls; beyond that refuted: the int call counter overflows (C77_normal_call_limit_refuted). Floating point of the sample is abstract."
  },
  {
   "property": "C79",
   "status": "proved",
   "theorems": [
    "C79_casefold",
    "C79_tolower",
    "C79_toupper",
    "C79_ascii"
   ],
   "note": "By a decision over all code points that the tables change, and the identity elsewhere."
  },
  {
   "property": "C78",
   "status": "partial",
   "theorems": [
    "C78_insert_self_partial",
    "C78_insert_self_refuted",
    "C78_insert_self_freed_refuted"
   ],
   "note": "Proved for parts before the position without reallocation; otherwise refuted (wrong bytes, or read after free)."
  },
  {
   "property": "C80",
   "status": "partial",
   "theorems": [
    "C80_slice_checked_partial",
    "C80_negative_start_refuted",
    "C80_rank_checked_late_refuted"
   ],
   "note": "Every request that does not fit is refused for starts >= 0; a negative start passes (refuted) and a rank mismatch writes past the result before the assertion (refuted)."
  },
  {
   "property": "C81",
   "status": "partial",
   "theorems": [
    "C81_print_partial"
   ],
   "note": "Proved for positive extents, rank at most 8; empty spans visit an element that is not there (C03)."
  },
  {
   "property": "C82",
   "status": "partial",
   "theorems": [
    "C82_eq_partial",
    "C82_set_all_partial",
    "C82_layout",
    "C82_back_partial",
    "C82_back_refuted"
   ],
   "note": "eq, set_all, is_layout proved for positive extents; cspan_back proved for packed spans, refuted for strided ones."
  },
  {
   "property": "C83",
   "status": "proved",
   "theorems": [
    "C83_resumes",
    "C83_complete",
    "C83_deterministic"
   ],
   "note": "Refinement in both directions between the state machine of the macros and an uninterrupted execution with a program counter; the stop requests must be careful as in C56."
  },
  {
   "property": "C84",
   "status": "partial",
   "theorems": [
    "C84_compile_safe_partial",
    "C84_pattern_safe",
    "C84_program_closed",
    "C84_trailing_escape_refuted",
    "C84_open_quote_refuted",
    "C84_open_class_refuted"
   ],
   "note": "Proved for the core syntax (C84_pattern_safe) and for all byte strings where each \\ is followed by something but not Q and each [ is closed or the end is within 30 bytes; refuted for a trailing \\, an unclosed \\Q and an unclosed class with 32 members."
  },
  {
   "property": "C85",
   "status": "partial",
   "theorems": [
    "C85_full_sound_partial",
    "C85_full_refuted"
   ],
   "note": "Proved: a reported full match is a match of a whole line. Refuted the other way: with two alternatives ending at the end of the line the last one decides."
  },
  {
   "property": "C86",
   "status": "partial",
   "theorems": [
    "C86_inside_partial",
    "C86_at_end_refuted",
    "C86_not_boundary_refuted"
   ],
   "note": "Proved inside the text; refuted at the end of a C string, and for \\B at a boundary, which takes a character."
  },
  {
   "property": "C87",
   "status": "partial",
   "theorems": [
    "C87_lists_refuted"
   ],
   "note": "Refuted: a pattern with seven alternatives writes behind the list of ten entries."
  },
  {
   "property": "C88",
   "status": "partial",
   "theorems": [
    "C88_accepts",
    "C88_translates",
    "C88_printf",
    "C88_print_partial",
    "C88_no_arguments_refuted",
    "C88_buffer_refuted"
   ],
   "note": "Holds for formats with arguments whose translation fits the buffer (C88_accepts, C88_translates, C88_printf, C88_print_partial). Without arguments the raw format is passed to printf, so {{ and % are not handled (C88_no_arguments_refuted); formats within 127 characters can overrun the 128 byte buffer (C88_buffer_refuted). printf is modelled only as a reader of its format."
  },
  {
   "property": "C89",
   "status": "partial",
   "theorems": [
    "C89_stream",
    "C89_fresh_partial",
    "C89_fresh_empty_refuted"
   ],
   "note": "Holds once something was printed (C89_stream) and for a fresh stream whose first text is not empty (C89_fresh_partial); an empty first text writes through a null pointer (C89_fresh_empty_refuted)."
  },
  {
   "property": "C90",
   "status": "partial",
   "theorems": [
    "C90_groups",
    "C90_categories",
    "C90_classes",
    "C90_disjoint",
    "C90_lower",
    "C90_upper_partial",
    "C90_named",
    "C90_escapes",
    "C90_posix_partial",
    "C90_ctype_refuted",
    "C90_unknown_refuted",
    "C90_letters_refuted",
    "C90_beyond_refuted",
    "C90_case_refuted",
    "C90_caseless_refuted"
   ],
   "note": "Proved: the early-stopping scan is membership, the categories are those of Unicode 14 (independent tables) up to 65535, the utf8_is* classes, disjointness, what \\d \\s \\w \\p{..} \\P{..} accept from the text of the pattern, [[:name:]] for code points below 256. Refuted: ctype functions are called with values above 255 (undefined), unknown names are taken as text, nothing beyond 65535 is in a group, letters of other scripts are no letters while digits and currency signs of a script are, \\p{Lu} takes three code points that are no characters and \\p{Ll} misses letters, and without case \\p{Lt} fails."
  },
  {
   "property": "C91",
   "status": "partial",
   "theorems": [
    "C91_total_partial",
    "C91_match_partial"
   ],
   "note": "Proved for every pattern of the grammar (word boundaries included) compiled by the model: the matcher returns, for default and full matching and for the next match, if the text is ASCII or the pattern asks no function of ctype.h, and if the pattern has no | * + ? or at most six elements that take a character; without branches and with at most 97 such elements it never gives up, so the best match is found or none exists. Missing: patterns with branches and more than six such elements (C87_lists_refuted: there the list can be overrun), patterns with (?i) flags or \\Q..\\E, views with an end pointer."
  },
  {
   "property": "C92",
   "status": "proved",
   "theorems": [
    "C92_runs",
    "C92_blocks",
    "C92_once",
    "C92_end",
    "C92_with_size_refuted"
   ],
   "note": "For vec.h and the growing form of stack.h, as refinement of lists with element identities. with_size and resize fill with a value that owns nothing; C92_with_size_refuted shows that an owning one is destroyed once per slot. insert_n/emplace_n on a vec are in C01."
  },
  {
   "property": "C93",
   "status": "partial",
   "theorems": [
    "C93_reserve_fails",
    "C93_push_fails",
    "C93_copy_n_fails",
    "C93_stack_refuted",
    "C93_put_n_refuted",
    "C93_pq_push_refuted"
   ],
   "note": "reserve and push of vec and stack and copy_n of vec change nothing on failure (proved). Refuted: stack with_capacity, with_size and clone leave or use a NULL buffer, put_n loses the element, pqueue push writes through NULL."
  },
  {
   "property": "C94",
   "status": "partial",
   "theorems": [
    "C94_reserve_partial",
    "C94_shrink_refuted",
    "C94_clone"
   ],
   "note": "Proved unless realloc is asked for 0 bytes of an existing block; shrink_to_fit of an empty pqueue with a buffer does that, and where realloc then frees the block the queue dangles (C94_shrink_refuted: double free or use after free)."
  },
  {
   "property": "C95",
   "status": "partial",
   "theorems": [
    "C95_small",
    "C95_lengths_refuted",
    "C95_mix_last",
    "C95_mix_two",
    "C95_mix_erased_refuted"
   ],
   "note": "Injective per length up to 8 bytes; the last word of c_hash_mix always shows. Refuted: the length is not hashed and the last block keeps bytes of the block before, so \"ABCDEFGHI\" and \"ABCDEFGHIBCDEFGH\" collide; a word of all ones in c_hash_mix erases every word before it. Distribution of longer keys is not looked at."
  },
  {
   "property": "C96",
   "status": "proved",
   "theorems": [
    "C96_runs",
    "C96_any_bits_refuted"
   ],
   "note": "Simulation of a call stack for all programs that keep to the rules (no suspension in cleanup, no task twice on the chain, recovery only while being unwound); the parent pointers are the stack. C96_any_bits_refuted: with awaitbits that include CCO_NOOP a nested await is lost."
  },
  {
   "property": "C97",
   "status": "partial",
   "theorems": [
    "C97_unwinding",
    "C97_recover_own_refuted",
    "C97_stopped_refuted"
   ],
   "note": "Order and completeness of unwinding, exit code and continuation after recovery proved. Refuted: cco_recover_error in the task that threw restarts its body (stale recover_state); a task asked to stop while awaiting is not cleaned up when the awaited task fails."
  },
  {
   "property": "C98",
   "status": "proved",
   "theorems": [
    "C98_runs",
    "C98_nodes",
    "C98_once",
    "C98_end",
    "C98_splice_self_refuted"
   ],
   "note": "The specification excludes splicing a list into itself (C98_splice_self_refuted: everything is lost, no assertion fires) and erase_range on an empty list (C69). Node addresses are not reused in the model; sort is in C14; running out of memory is not modelled (push_back does not check malloc)."
  },
  {
   "property": "C99",
   "status": "partial",
   "theorems": [
    "C99_cstr_fits_partial",
    "C99_cstr_grow_refuted",
    "C99_cstr_shrink_refuted",
    "C99_cstr_from_n_refuted",
    "C99_hmap_histories",
    "C99_hmap_owns",
    "C99_hmap_clone_unusable",
    "C99_hmap_clone_refuted",
    "C99_deque_histories_partial",
    "C99_deque_all_well",
    "C99_deque_reserve",
    "C99_insert_n_overwrites",
    "C99_insert_n_refuted",
    "C99_clone_refuted",
    "C99_clone_unusable",
    "C99_put_n_refuted",
    "C99_smap_room_partial",
    "C99_smap_loses_all",
    "C99_smap_insert_refuted",
    "C99_smap_clone_refuted"
   ],
   "note": "Proved for deque and queue (histories with any failing allocations, except insert_n and emplace_n, which overwrite elements when refused, and clone) and for hmap and hset (all operations but clone). False for smap (a refused insertion sets the root to 0 and loses every entry; proved for every history), for cstr (a refused growth loses the buffer of a long string and writes to NULL for a short one; proved for every string), and for clone of deque, hmap and smap."
  },
  {
   "property": "C100",
   "status": "proved",
   "theorems": [
    "C100_hmap_raw",
    "C100_hmap_raw_owns",
    "C100_hmap_put_n",
    "C100_smap_raw",
    "C100_smap_lower_bound",
    "C100_smap_raw_owns",
    "C100_smap_put_n"
   ],
   "note": "Models Hraw and Sraw make every conversion to and from raw values explicit and count the objects made; proved by simulation onto the maps over converted keys. Raw values that point into the map itself are C101."
  },
  {
   "property": "C101",
   "status": "partial",
   "theorems": [
    "C101_hmap_emplace_own_value",
    "C101_hmap_put_own_value",
    "C101_hmap_put_self_refuted",
    "C101_hmap_own_key",
    "C101_hmap_own_key_refuted",
    "C101_hmap_own_short_value_refuted",
    "C101_smap_own_value",
    "C101_smap_put_self_refuted",
    "C101_smap_own_short_value",
    "C101_smap_own_key",
    "C101_smap_own_short_value_refuted",
    "C101_vec_put_n_own",
    "C101_vec_put_n_own_refuted",
    "C101_vec_insert_n_own",
    "C101_vec_insert_n_own_refuted",
    "C101_vec_insert_n_overlap_refuted"
   ],
   "note": "Proved: hmap/smap emplace with a block owned by any stored value, put unless it is the value of the same key, smap with values in place when the nodes are not reallocated, smap with own keys, hmap with own keys below the load limit, vec put_n up to one element beyond the room, vec insert_n of elements before the position with room. Refuted: put of a key's own value destroys it before reading it (hmap, smap: for every present key); hmap emplace with a short string value stored in the map may copy another entry's value after displacement, or read the freed table when it grows, as does passing a stored short key; smap and vec read freed memory when they grow; vec insert_n of elements behind the position inserts the wrong ones."
  },
  {
   "property": "C102",
   "status": "partial",
   "theorems": [
    "C102_tags",
    "C102_variant",
    "C102_when",
    "C102_when_all",
    "C102_when_zero",
    "C102_payload",
    "C102_if_is",
    "C102_if_is_when",
    "C102_null",
    "C102_no_escape",
    "C102_if_is_break_refuted",
    "C102_or_is_after_body_refuted"
   ],
   "note": "C102_tags, C102_variant, C102_when, C102_when_all, C102_when_zero, C102_payload, C102_if_is, C102_if_is_when, C102_null and C102_no_escape hold for all arm lists, bodies and objects, the macros being modelled by the statements they expand to. Refuted where a reader may expect more: break in 'if (c_is(..))' does not leave a loop around it although documentation only warns of continue (C102_if_is_break_refuted), and c_or_is after a body is run into by that body (C102_or_is_after_body_refuted). Missing: the preprocessor expansion itself (c_LOOP, c_EVAL and their limit on the number of variants) and goto out of a body."
  },
  {
   "property": "C103",
   "status": "proved",
   "theorems": [
    "C103_deque_variables",
    "C103_hmap_variables",
    "C103_smap_variables",
    "C103_illegal_programs_refuted"
   ],
   "note": "Proved for every program from uninitialised variables, for deque/queue (C103_deque_variables), hmap/hset and smap/sset. Blocks of one container count as one; allocation succeeds. The restriction on cloning sorted maps is part of the property (the clone of a map that has shrunk is broken: C27). C103_illegal_programs_refuted shows that double drop, use after drop and overwriting an owner break it."
  },
  {
   "property": "C104",
   "status": "partial",
   "theorems": [
    "C104_fixed_stack_variables_partial",
    "C104_move_keeps_source_refuted",
    "C104_self_take_refuted",
    "C104_put_n_full_refuted"
   ],
   "note": "Missing: the last sentence is false. C104_move_keeps_source_refuted: with i_capacity _move only copies, so dropping source and destination destroys each element twice; C104_self_take_refuted; C104_put_n_full_refuted: what put_n makes beyond the capacity is leaked. Proved (C104_fixed_stack_variables_partial) for all programs that do not use a moved-from variable before assigning to it, take from other variables only and put no more than fits."
  },
  {
   "property": "C105",
   "status": "partial",
   "theorems": [
    "C105_cstr_variables_partial",
    "C105_all_freed_partial",
    "C105_take_leaks_refuted",
    "C105_take_reads_unwritten_refuted"
   ],
   "note": "Missing: that every buffer is freed is false. C105_take_leaks_refuted: cstr_take(&x, s) with x long and s short compares x's pointer with the first 8 characters of s and does not free x's buffer when they are equal; C105_take_reads_unwritten_refuted: for fewer than 7 characters some of these bytes were never written. Proved for all programs (C105_cstr_variables_partial): no use after free, no double free, texts, no sharing, every live buffer has an owner or was left by such a take; C105_all_freed_partial: all is freed when the strings taken are long or have at least 8 characters, none 0, and addresses have a zero byte."
  },
  {
   "property": "C106",
   "status": "proved",
   "theorems": [
    "C106_cbits_variables",
    "C106_all_freed",
    "C106_illegal_programs_refuted"
   ],
   "note": "All programs (C106_cbits_variables, C106_all_freed); C106_illegal_programs_refuted shows that the condition on programs is needed. Allocation is taken to succeed."
  }
 ]
}