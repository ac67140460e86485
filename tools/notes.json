{
 "C01": {
  "status": "proved",
  "note": "Every legal history from every vec whose first size slots are live; element conversions (from/clone) are applied by the caller; source arrays do not overlap the vec."
 },
 "C02": {
  "status": "proved",
  "note": "Every legal history from an empty vec ending in drop; resize counts each copy of its null value as moved in."
 },
 "C03": {
  "status": "partial",
  "note": "Violated on emptied vec/stack that keep a buffer, every empty fixed stack, empty strings and views, empty spans and empty cranges (\u2026_refuted); proved for non-empty and bufferless containers, non-empty strings and spans."
 },
 "C04": {
  "status": "partial",
  "note": "Violated: append_uninit refuses an exact fit (C04_append_exact_fit_refuted). Everything else proved for all capacities and histories."
 },
 "C05": {
  "status": "proved",
  "note": "Every legal history from every well-formed ring (all offsets, all power-of-two capacities). Allocation succeeds."
 },
 "C06": {
  "status": "proved",
  "note": "insert_n / insert_uninit followed by filling, and erase_n, from every ring layout."
 },
 "C07": {
  "status": "partial",
  "note": "Violated: deque_end() denotes slot 0, so insert_at(end) and erase_range(it, end) act on a wrong position (two refutations). C07_deque_iterators_partial proves positions reached from begin."
 },
 "C08": {
  "status": "proved",
  "note": "All pairs of rings; values in the model share nothing, so a clone has its own storage by construction."
 },
 "C09": {
  "status": "proved",
  "note": "All histories of push/pop/clear/reserve/shrink_to_fit/make_heap, all strict weak orders; make_heap from arbitrary content."
 },
 "C10": {
  "status": "partial",
  "note": "Violated: erase_at only sifts down; C10_erase_at_breaks_order_refuted gives a history where a later top is not maximal. C10_erase_at_partial proves it for index 0 and whenever the last element is not greater than the erased element's parent."
 },
 "C100": {
  "status": "proved",
  "note": "Models Hraw and Sraw make every conversion to and from raw values explicit and count the objects made; proved by simulation onto the maps over converted keys. Raw values that point into the map itself are C101."
 },
 "C101": {
  "status": "partial",
  "note": "Proved: hmap/smap emplace with a block owned by any stored value, put unless it is the value of the same key, smap with values in place when the nodes are not reallocated, smap with own keys, hmap with own keys below the load limit, vec put_n up to one element beyond the room, vec insert_n of elements before the position with room. Refuted: put of a key's own value destroys it before reading it (hmap, smap: for every present key); hmap emplace with a short string value stored in the map may copy another entry's value after displacement, or read the freed table when it grows, as does passing a stored short key; smap and vec read freed memory when they grow; vec insert_n of elements behind the position inserts the wrong ones."
 },
 "C102": {
  "status": "partial",
  "note": "C102_tags, C102_variant, C102_when, C102_when_all, C102_when_zero, C102_payload, C102_if_is, C102_if_is_when, C102_null and C102_no_escape hold for all arm lists, bodies and objects, the macros being modelled by the statements they expand to. Refuted where a reader may expect more: break in 'if (c_is(..))' does not leave a loop around it although documentation only warns of continue (C102_if_is_break_refuted), and c_or_is after a body is run into by that body (C102_or_is_after_body_refuted). Missing: the preprocessor expansion itself (c_LOOP, c_EVAL and their limit on the number of variants) and goto out of a body."
 },
 "C103": {
  "status": "proved",
  "note": "Proved for every program from uninitialised variables, for deque/queue (C103_deque_variables), hmap/hset and smap/sset. Blocks of one container count as one; allocation succeeds. The restriction on cloning sorted maps is part of the property (the clone of a map that has shrunk is broken: C27). C103_illegal_programs_refuted shows that double drop, use after drop and overwriting an owner break it."
 },
 "C104": {
  "status": "partial",
  "note": "Missing: the last sentence is false. C104_move_keeps_source_refuted: with i_capacity _move only copies, so dropping source and destination destroys each element twice; C104_self_take_refuted; C104_put_n_full_refuted: what put_n makes beyond the capacity is leaked. Proved (C104_fixed_stack_variables_partial) for all programs that do not use a moved-from variable before assigning to it, take from other variables only and put no more than fits."
 },
 "C105": {
  "status": "partial",
  "note": "Missing: that every buffer is freed is false. C105_take_leaks_refuted: cstr_take(&x, s) with x long and s short compares x's pointer with the first 8 characters of s and does not free x's buffer when they are equal; C105_take_reads_unwritten_refuted: for fewer than 7 characters some of these bytes were never written. Proved for all programs (C105_cstr_variables_partial): no use after free, no double free, texts, no sharing, every live buffer has an owner or was left by such a take; C105_all_freed_partial: all is freed when the strings taken are long or have at least 8 characters, none 0, and addresses have a zero byte."
 },
 "C106": {
  "status": "proved",
  "note": "All programs (C106_cbits_variables, C106_all_freed); C106_illegal_programs_refuted shows that the condition on programs is needed. Allocation is taken to succeed."
 },
 "C11": {
  "status": "partial",
  "note": "Violated: C11_pull_always_returns_dropped shows every pull returns an element already passed to the destructor (witness C11_pull_returns_dropped_refuted). C11_pull_value_partial: the returned value is maximal and removed once."
 },
 "C12": {
  "status": "proved",
  "note": "Histories over push_back, push_front, insert_at, erase_at, erase_range (non-empty list), pop_front, clear, reverse, remove on the pointer structure; clone, eq, find, count, front, back."
 },
 "C13": {
  "status": "proved",
  "note": "splice, split_off, splice_range, reverse, remove with frame and no-leak conditions."
 },
 "C14": {
  "status": "proved",
  "note": "Every content, every strict weak order, keys whose raw form is a copy. Elements are accessed through a checked random access array (the deque/vec index mapping is the subject of C01/C05)."
 },
 "C15": {
  "status": "partial",
  "note": "Violated as documented: C15_sort_lowhigh_touches_outside_refuted gives a witness; C15_sort_lowhigh_partial proves it when nothing before the range is greater than anything in it."
 },
 "C16": {
  "status": "partial",
  "note": "Violated: C16_sort_by_reference_refuted gives a content on which sorting through references into the slots leaves the array unsorted."
 },
 "C17": {
  "status": "proved",
  "note": "Full range and every subrange, every strict weak order."
 },
 "C18": {
  "status": "proved",
  "note": "Every legal history of insert, emplace, insert_or_assign, emplace_or_assign, erase, erase_if, clear, reserve, shrink_to_fit from an empty map; hypotheses: key_ok (equality is an equivalence compatible with the hash) and spread (10-bit distances suffice)."
 },
 "C19": {
  "status": "proved",
  "note": "C19_hmap_safe_any_hash: every history (at most 2^60 operations), every hash function and key comparison, any number of collisions: returns Ok (no access outside the arrays, loops end). C19_hmap_total_with_room: load at most 81%, an empty bucket remains."
 },
 "C20": {
  "status": "proved",
  "note": "Visited entries are a permutation of the stored entries, which have pairwise different keys."
 },
 "C21": {
  "status": "proved",
  "note": "Every entry is examined at least once (an entry that wrapped around may be examined twice), exactly the matching ones are removed and destroyed."
 },
 "C22": {
  "status": "partial",
  "note": "Holds for every hash function up to 1023 keys; refuted beyond: with 1024 colliding keys the last one is lost (10-bit distance field overflows)."
 },
 "C23": {
  "status": "proved",
  "note": "reserve/shrink_to_fit from any legal history; automatic growth is inside C18."
 },
 "C24": {
  "status": "proved",
  "note": "Every legal history for every comparator that is a strict total preorder; legal = at most max(reserved, 715827882) entries (growth beyond reaches uint32 overflow, an Err of the model) and reservations below 2^31. Allocation succeeds."
 },
 "C25": {
  "status": "proved",
  "note": "Every legal history; iteration, lower_bound, find, advance, front, back."
 },
 "C26": {
  "status": "proved",
  "note": "Path length bound for every legal history; sufficiency of the 36/64 entry stacks is part of the Ok outcome of C24/C25 (a push on a full stack is Err OOB)."
 },
 "C27": {
  "status": "partial",
  "note": "Violated: clone/shrink_to_fit keep the high-water mark of the original with capacity = size, so inserting a new key after any net erasure writes out of bounds (C27_smap_clone_after_erase_refuted, for every such history). Usability proved for the complementary case."
 },
 "C28": {
  "status": "partial",
  "note": "Every history of assign/append/append of a part of itself/insert/replace_at/erase/resize/reserve/shrink/pop/clear/append_fmt/printf proved to give the edited byte string (sizes up to 2^60), with size, terminator, capacity and the short/long flag; constructors and clone too. Refuted: pop of an empty string reads before the buffer."
 },
 "C29": {
  "status": "partial",
  "note": "append_self proved. Assigning a part of itself proved only if the part starts at 0 or after its own length; else refuted (the terminator is written into the part before it is moved)."
 },
 "C30": {
  "status": "partial",
  "note": "csview_find/find_sv/contains/starts_with/ends_with proved for all bytes. zsview_find and cstr_find (strstr) proved for text without zero bytes; with an embedded zero byte violated (refuted)."
 },
 "C31": {
  "status": "partial",
  "note": "Proved for all texts, patterns, replacements and positive counts; for count 0 (all) proved for texts under 2^31 bytes, refuted beyond (0 stands for 2^31-1 replacements)."
 },
 "C32": {
  "status": "proved",
  "note": "c_token_sv/csview_token: tokens proved to be the unique left-to-right split, rejoin to the input and contain no separator; an empty separator provably never ends. cstr_join_n proved to give the joined string, and to invert the split."
 },
 "C33": {
  "status": "partial",
  "note": "subview, slice, subview_pro, zsview/cstr tail and from_pos proved. Violated: csview_tail with a length over the size fails an assertion instead of clamping; subview with pos+len over ISIZE_MAX overflows."
 },
 "C34": {
  "status": "partial",
  "note": "Proved where char is unsigned, and for ASCII text in general. Violated where char is signed: bytes from 0x80 on are trimmed."
 },
 "C35": {
  "status": "proved",
  "note": "Encoding equals the standard one (arithmetic specification), decoding gives the value back and consumes exactly its bytes in any context; non-scalar values are not encoded; encodings are prefix free."
 },
 "C36": {
  "status": "partial",
  "note": "Proved for utf8_valid (zero-terminated) and for utf8_valid_n on views without zero bytes. Violated otherwise: utf8_valid_n stops at the first zero byte and calls the rest valid (C36_valid_n_refuted)."
 },
 "C37": {
  "status": "proved",
  "note": "For memory that ends where the view ends."
 },
 "C38": {
  "status": "partial",
  "note": "Proved for zero-terminated strings, forwards and backwards, and u8_tail of views. Violated: utf8_count_n, csview_u8_subview and csview_u8_at read the byte after the view; utf8_offset with a negative offset does not move back from the terminator."
 },
 "C39": {
  "status": "partial",
  "note": "Proved for all well-formed input, and for any bytes whose decoded and mapped form fits the reserved buffer; refuted for ill-formed bytes (buffer overflow, or the short form's size byte overwritten)."
 },
 "C40": {
  "status": "partial",
  "note": "utf8_icmp is zero iff the folded sequences are equal (proved, any bytes) and ordered lexicographically where char is unsigned. Violated: not antisymmetric where char is signed; utf8_icompare on views confuses strings whose folding changes the byte count; istarts_with compares whole strings; csview_iends_with reads past the view. Proved for views whose folding keeps sizes."
 },
 "C41": {
  "status": "partial",
  "note": "csview_cmp/eq proved for all bytes. zsview_cmp/cstr_cmp (strcmp) proved without zero bytes, refuted with them."
 },
 "C42": {
  "status": "proved",
  "note": "c_basehash_n, c_hash_n, c_hash_str, csview_hash are functions of the key bytes only; modelled for an 8 byte little-endian size_t."
 },
 "C43": {
  "status": "proved",
  "note": "Histories over any number of dynamic bit sets refine lists of booleans, for every word size; fixed-size constructors; portable popcount (64 and 32 bit) proved equal to the bit count."
 },
 "C44": {
  "status": "partial",
  "note": "resize proved for every n > 0 (and n = 0 when realloc(p,0) returns a block); with glibc's realloc, resize to 0 leaves a dangling buffer (refuted)."
 },
 "C45": {
  "status": "partial",
  "note": "The documented direction is refuted; proved that subset_of(self, other) tests other within self."
 },
 "C46": {
  "status": "partial",
  "note": "Proved for every rank and shape with positive extents whose strides fit int32; out-of-range tuples assert. For shapes whose stride product exceeds 2^31-1 stride computation overflows (refuted)."
 },
 "C47": {
  "status": "proved",
  "note": "Every rank, positive extents up to 2^31-1, any strides whose elements lie in memory."
 },
 "C48": {
  "status": "partial",
  "note": "slice/transpose/swap_axes/submd/subspan and any sequence of them proved for slice starts >= 0 and subspan counts inside the span; negative starts and large counts are accepted by the run-time checks and leave the array (refuted, see C80)."
 },
 "C49": {
  "status": "proved",
  "note": "For every range that make_uniform can represent. Both the 128-bit multiplication and the remainder version. Termination of the rejection loop on a given engine sequence is not claimed: the loop ends with the first accepted output. C49_full_range_refuted: a range of 2^63 values or more overflows signed arithmetic in make_uniform."
 },
 "C50": {
  "status": "proved",
  "note": "Bijection for every stream, no recurrence within 2^64 (2^32) draws for odd streams; even streams have a counterexample."
 },
 "C51": {
  "status": "proved",
  "note": "Permutation for any generator; every permutation is reachable; reals are exact doubles in [0,1)."
 },
 "C52": {
  "status": "proved",
  "note": "Any number of threads, any interleaving of the atomic steps (sequentially consistent), arbitrary placements. Side condition: at most 2^w-1 handles for a w-bit counter; for 64-bit long it follows from the size of the address space (C52_arc_lp64); where long has 32 bits the counter can wrap (C52_counter_wraps_refuted). Plain counting (i_no_atomic) shared between threads is refuted, as expected."
 },
 "C53": {
  "status": "proved",
  "note": "For every placement of the blocks the address test in drop chooses the way the memory was obtained (C53_placement), and no run frees a wrong block (C52_arc never errs). Without the 4 dummy bytes it would fail (C53_no_dummy_bytes_refuted)."
 },
 "C54": {
  "status": "proved",
  "note": "Refinement of value semantics for all histories: each variable holds its own value, every live object has exactly one owner (a variable or the client), each object is destroyed at most once and exactly once at the end. Addresses are identities (sizes of blocks not modelled); an i_keydrop that calls back into the box is not modelled."
 },
 "C55": {
  "status": "partial",
  "note": "Proved: exact meaning of every command line (events, order, opt.ind), argv a permutation after any number of calls, no access outside argv or a string, termination of every client that stops at errors and of every client when no long option is ambiguous. Refuted: a client that continues after an ambiguous long option never ends (coption_get returns '?' without advancing). Side conditions: no option value is -1 (it would be taken for the end)."
 },
 "C56": {
  "status": "partial",
  "note": "Proved for every coroutine function (any statements, conditions and gotos; body, cco_finally and cleanup obeying the documented rules) and every history of resumptions, stops and memory changes: at most one cleanup, body statements never after it, exactly one at completion iff no stop came while cleanup was already due (C56_polite: two stops with a resumption in between), after a stop only cleanup and the next resumption completes, done stays done. Refuted as stated: cco_stop twice without a resumption, or cco_stop after cco_yield_final, completes the coroutine without its cleanup; suspending in the cleanup (against rule 3) can run it twice."
 },
 "C57": {
  "status": "partial",
  "note": "Pointer-level model of the ring; any behaviours and spawn targets. Proved: memory safety, refinement to a queue, every fiber freed at most once, the loop ends exactly when all fibers ever made were freed, exact round robin while no fiber finishes (spawned fibers included), and a bound n(n+1)/2 on waiting when none is spawned; under the condition that a finishing fiber does not spawn on its predecessor in the ring (on itself when alone) in its last resumption. Refuted without: such a spawned fiber is lost, never resumed and leaked. Refuted as stated: the successor of a finished fiber loses its turn; a fiber that keeps spawning short fibers starves another one forever."
 },
 "C58": {
  "status": "proved",
  "note": "On top of the coroutine model of C56: any coroutine code using cco_await_semaphore/cco_release_semaphore, any schedule of resumptions and stops. A release without an acquire is excluded (and shown to break it)."
 },
 "C59": {
  "status": "partial",
  "note": "c_range loops proved for every start/stop/step that stay inside the type; missing and refuted: the loop variable overflows when stop is within one step of the type's end, and an empty crange still visits its start value (C59_crange_empty_refuted). crange iteration, each_n and advance proved for non-empty ranges."
 },
 "C60": {
  "status": "partial",
  "note": "Proved for pipelines with at most 19 counters and 20 flags over fewer than 2^32 values, for c_filter, c_filter_zip and c_filter_pairwise; refuted: the 20th counter is out of bounds, and counters wrap at 2^32."
 },
 "C61": {
  "status": "partial",
  "note": "Proved for deque in full and for vec except when a vec has been emptied but keeps its buffer, where the macros read uninitialised memory (C61_vec_emptied_refuted). c_append_if is modelled with an output container different from its source."
 },
 "C62": {
  "status": "proved",
  "note": "c_next_pow2 on 64-bit isize for every n from 0 to 2^62 (the range without wrap-around); 0 maps to 0."
 },
 "C63": {
  "status": "partial",
  "note": "Proved over compiled programs (language of a program = paths of its instructions), for text of well-formed UTF-8, without case-flag changes and word boundaries, including captures, cregex_match_next and cregex_is_match. Refuted for programs that start with ^ (a line break is skipped) and for caseless ones whose first letter is ASCII when the text has a non-ASCII character folding to it; there only soundness is proved."
 },
 "C64": {
  "status": "partial",
  "note": "Proved for all patterns over literals, escapes, \\x{..}, \\p{..}, dot, anchors, classes (also with [:name:] and \\p{..}), groups, closures, alternation: the program means the expression of the grammar (also with captures), the expression is unique, errors only for underivable patterns or limits; with C63 for the matcher; for any other syntax relative to the lexer's tokens (C64_tokens). Refuted: \\x{64} means \\d, unclosed (? is accepted, classes with more than 32 members. Not covered: the meaning of \\Q..\\E and flags as text, and _optimize's reallocation."
 },
 "C65": {
  "status": "partial",
  "note": "Union proved when no written range contains a token of a set, also from the text of the class; refuted: a set inside of a huge range is lost, and an escape at the end of a range is not translated."
 },
 "C66": {
  "status": "partial",
  "note": "Proved for views up to the end of the text, and for any view for programs with no fast start and no \\Z; otherwise refuted: the fast start finds matches behind the view, and the first cregex_match_next_sv ignores its end."
 },
 "C67": {
  "status": "partial",
  "note": "Templates proved in full. Replacement proved for patterns of the core syntax on C strings and views up to the end of the text (leftmost longest matches replaced, rest copied, up to a place where the matcher reports a full list); the number of rounds is bounded. Refuted: an empty match is replaced again and again at one place; ^ matches behind each match; where the matcher gives up the rest is copied silently; a view ending before the text gives a negative size."
 },
 "C68": {
  "status": "proved",
  "note": "getdelim and a client reading all lines, for every stream content, delimiter and buffer state (streams under 2^60 bytes)."
 },
 "C69": {
  "status": "partial",
  "note": "Holds for every non-empty list; refuted for the empty list (null dereference)."
 },
 "C70": {
  "status": "partial",
  "note": "Holds for insert_at and erase_at with iterators reached from begin; refuted for the iterator erase_range returns and for insert_at(list_end())."
 },
 "C71": {
  "status": "proved",
  "note": "Same histories as C18, followed by drop."
 },
 "C72": {
  "status": "proved",
  "note": "Same histories as C18 before and after cloning."
 },
 "C73": {
  "status": "partial",
  "note": "_eq compares key sets only, for any two histories; comparing mapped values is refuted."
 },
 "C74": {
  "status": "proved",
  "note": "Every legal history. erase_range compares key objects with memcmp: modelled as a relation reflexive and implying equivalence."
 },
 "C75": {
  "status": "proved",
  "note": "Every legal history."
 },
 "C76": {
  "status": "partial",
  "note": "Violated for vec_end(): C76_vec_end_refuted (for every non-empty vec). Proved for all positions reached from begin."
 },
 "C77": {
  "status": "partial",
  "note": "Proved below 2^31 calls; beyond that refuted: the int call counter overflows (C77_normal_call_limit_refuted). Floating point of the sample is abstract."
 },
 "C78": {
  "status": "partial",
  "note": "Proved for parts before the position without reallocation; otherwise refuted (wrong bytes, or read after free)."
 },
 "C79": {
  "status": "proved",
  "note": "By a decision over all code points that the tables change, and the identity elsewhere."
 },
 "C80": {
  "status": "partial",
  "note": "Every request that does not fit is refused for starts >= 0; a negative start passes (refuted) and a rank mismatch writes past the result before the assertion (refuted)."
 },
 "C81": {
  "status": "partial",
  "note": "Proved for positive extents, rank at most 8; empty spans visit an element that is not there (C03)."
 },
 "C82": {
  "status": "partial",
  "note": "eq, set_all, is_layout proved for positive extents; cspan_back proved for packed spans, refuted for strided ones."
 },
 "C83": {
  "status": "proved",
  "note": "Refinement in both directions between the state machine of the macros and an uninterrupted execution with a program counter; the stop requests must be careful as in C56."
 },
 "C84": {
  "status": "partial",
  "note": "Proved for the core syntax (C84_pattern_safe) and for all byte strings where each \\ is followed by something but not Q and each [ is closed or the end is within 30 bytes; refuted for a trailing \\, an unclosed \\Q and an unclosed class with 32 members."
 },
 "C85": {
  "status": "partial",
  "note": "Proved: a reported full match is a match of a whole line. Refuted the other way: with two alternatives ending at the end of the line the last one decides."
 },
 "C86": {
  "status": "partial",
  "note": "Proved inside the text; refuted at the end of a C string, and for \\B at a boundary, which takes a character."
 },
 "C87": {
  "status": "partial",
  "note": "Refuted: a pattern with seven alternatives writes behind the list of ten entries."
 },
 "C88": {
  "status": "partial",
  "note": "Holds for formats with arguments whose translation fits the buffer (C88_accepts, C88_translates, C88_printf, C88_print_partial). Without arguments the raw format is passed to printf, so {{ and % are not handled (C88_no_arguments_refuted); formats within 127 characters can overrun the 128 byte buffer (C88_buffer_refuted). printf is modelled only as a reader of its format."
 },
 "C89": {
  "status": "partial",
  "note": "Holds once something was printed (C89_stream) and for a fresh stream whose first text is not empty (C89_fresh_partial); an empty first text writes through a null pointer (C89_fresh_empty_refuted)."
 },
 "C90": {
  "status": "partial",
  "note": "Proved: the early-stopping scan is membership, the categories are those of Unicode 14 (independent tables) up to 65535, the utf8_is* classes, disjointness, what \\d \\s \\w \\p{..} \\P{..} accept from the text of the pattern, [[:name:]] for code points below 256. Refuted: ctype functions are called with values above 255 (undefined), unknown names are taken as text, nothing beyond 65535 is in a group, letters of other scripts are no letters while digits and currency signs of a script are, \\p{Lu} takes three code points that are no characters and \\p{Ll} misses letters, and without case \\p{Lt} fails."
 },
 "C91": {
  "status": "partial",
  "note": "Proved for every pattern of the grammar (word boundaries included) compiled by the model: the matcher returns, for default and full matching and for the next match, if the text is ASCII or the pattern asks no function of ctype.h, and if the pattern has no | * + ? or at most six elements that take a character; without branches and with at most 97 such elements it never gives up, so the best match is found or none exists. Missing: patterns with branches and more than six such elements (C87_lists_refuted: there the list can be overrun), patterns with (?i) flags or \\Q..\\E, views with an end pointer."
 },
 "C92": {
  "status": "proved",
  "note": "For vec.h and the growing form of stack.h, as refinement of lists with element identities. with_size and resize fill with a value that owns nothing; C92_with_size_refuted shows that an owning one is destroyed once per slot. insert_n/emplace_n on a vec are in C01."
 },
 "C93": {
  "status": "partial",
  "note": "reserve and push of vec and stack and copy_n of vec change nothing on failure (proved). Refuted: stack with_capacity, with_size and clone leave or use a NULL buffer, put_n loses the element, pqueue push writes through NULL."
 },
 "C94": {
  "status": "partial",
  "note": "Proved unless realloc is asked for 0 bytes of an existing block; shrink_to_fit of an empty pqueue with a buffer does that, and where realloc then frees the block the queue dangles (C94_shrink_refuted: double free or use after free)."
 },
 "C95": {
  "status": "partial",
  "note": "Injective per length up to 8 bytes; the last word of c_hash_mix always shows. Refuted: the length is not hashed and the last block keeps bytes of the block before, so \"ABCDEFGHI\" and \"ABCDEFGHIBCDEFGH\" collide; a word of all ones in c_hash_mix erases every word before it. Distribution of longer keys is not looked at."
 },
 "C96": {
  "status": "proved",
  "note": "Simulation of a call stack for all programs that keep to the rules (no suspension in cleanup, no task twice on the chain, recovery only while being unwound); the parent pointers are the stack. C96_any_bits_refuted: with awaitbits that include CCO_NOOP a nested await is lost."
 },
 "C97": {
  "status": "partial",
  "note": "Order and completeness of unwinding, exit code and continuation after recovery proved. Refuted: cco_recover_error in the task that threw restarts its body (stale recover_state); a task asked to stop while awaiting is not cleaned up when the awaited task fails."
 },
 "C98": {
  "status": "proved",
  "note": "The specification excludes splicing a list into itself (C98_splice_self_refuted: everything is lost, no assertion fires) and erase_range on an empty list (C69). Node addresses are not reused in the model; sort is in C14; running out of memory is not modelled (push_back does not check malloc)."
 },
 "C99": {
  "status": "partial",
  "note": "Proved for deque and queue (histories with any failing allocations, except insert_n and emplace_n, which overwrite elements when refused, and clone) and for hmap and hset (all operations but clone). False for smap (a refused insertion sets the root to 0 and loses every entry; proved for every history), for cstr (a refused growth loses the buffer of a long string and writes to NULL for a short one; proved for every string), and for clone of deque, hmap and smap."
 }
}