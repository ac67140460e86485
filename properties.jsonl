{"id": "C01", "title": "vec is a sequence under every operation history", "statement": "After any history of push, pop, insert_n, erase_n, insert_uninit-based insertion, resize, reserve, shrink_to_fit and clear (with in-range arguments and successful allocation), reading a vec back gives exactly the list those operations produce on a mathematical sequence; no operation reads or writes outside the allocated buffer, and size <= capacity always holds.", "quantifier": "all element types/values, all finite operation histories, all initial vecs satisfying size<=capacity", "why_tests_cant": "Tests exercise a few growth steps and positions; the claim is about every interleaving of growth, middle insertion and shrinking at every size/capacity relation.", "anchors": ["include/stc/vec.h: _push, _insert_uninit, _erase_n, _reserve, _resize, _shrink_to_fit, _clear, _pop, _pull"]}
{"id": "C02", "title": "vec destroys each element exactly once", "statement": "Over any history ending in drop, the multiset of elements moved into a vec equals the multiset of elements that were handed to the element destructor plus those moved out to the caller (pull): nothing is leaked and nothing is dropped twice.", "quantifier": "all operation histories of a vec, all element values", "why_tests_cant": "Leaks/double drops appear only on particular combinations of erase, resize-down, clear and reallocation.", "anchors": ["include/stc/vec.h: _clear, _drop, _erase_n, _resize, _pop, _pull, _value_drop"]}
{"id": "C03", "title": "A for-each loop visits every element once, in order, and nothing when empty", "statement": "for (c_each(it, C, cnt)) runs its body exactly once per element, in container order, and zero times if the container is empty; this for vec, stack, deque, list, hmap, smap, cstr/csview, crange and cspan.", "quantifier": "all containers of each kind, including emptied ones that still own a buffer", "why_tests_cant": "Tests iterate over non-empty or freshly initialised containers; the failing state (emptied but allocated) needs a history.", "anchors": ["include/stc/vec.h: _begin, _next, _end", "include/stc/stack.h: _begin, _next", "include/stc/priv/queue_prv.h: _begin, _next", "include/stc/common.h: c_each", "include/stc/cspan.h: _begin, _next", "include/stc/csview.h: csview_begin", "include/stc/sys/crange.h: crange_begin"]}
{"id": "C04", "title": "Fixed-capacity stack refuses exactly when full", "statement": "For a stack with i_capacity N, push returns NULL and changes nothing iff the stack holds N elements, otherwise appends; append_uninit(n) succeeds iff n more elements fit; no write goes beyond the N inline slots.", "quantifier": "all N, all operation histories, all n", "why_tests_cant": "Boundary between full and not-full for every N and n cannot be enumerated.", "anchors": ["include/stc/stack.h: _push, _append_uninit, _reserve"]}
{"id": "C05", "title": "deque/queue is a double-ended sequence under every history", "statement": "For any history of push_back, push_front, pop_back, pop_front, reserve, shrink_to_fit, clear, the elements read by index or iteration equal the list produced by the same operations on a mathematical sequence, whatever the ring offset; size always equals the list's length; no slot outside the ring buffer is touched.", "quantifier": "all histories, all ring offsets and capacities (powers of two), all element values", "why_tests_cant": "Wrap-around layouts depend on the complete history; the number of (start,end,capacity) layouts is unbounded.", "anchors": ["include/stc/priv/queue_prv.h: _push, _pop, _reserve, _shrink_to_fit, _size, _next, _clear", "include/stc/deque.h: _push_front, _pop_back, _at"]}
{"id": "C06", "title": "deque positional insert and erase are sequence splices", "statement": "insert_n/insert_uninit at any index 0..size and erase_n of any in-range block change the sequence exactly as list insertion/removal at that index, for every ring layout (wrapped or not), preserving the order of all other elements.", "quantifier": "all indices, block sizes, layouts", "why_tests_cant": "The memmove/loop cases depend on the relation of start, end, position and capacity.", "anchors": ["include/stc/deque.h: _insert_uninit, _erase_n, _insert_n, _at"]}
{"id": "C07", "title": "deque end iterator is a valid position", "statement": "insert_at(d, end) appends and erase_range(d, it, end) removes everything from it, as with every sequence container.", "quantifier": "all deques, all start iterators", "why_tests_cant": "Whether it works depends on the ring offset reached by the history.", "anchors": ["include/stc/deque.h: _insert_at, _erase_range, _end", "include/stc/priv/queue_prv.h: _end"]}
{"id": "C08", "title": "deque/queue clone and equality", "statement": "clone yields a deque with the same sequence that shares no storage; eq(a,b) holds iff the sequences are element-wise equal, independent of ring layout and capacity.", "quantifier": "all pairs of deques in all layouts", "why_tests_cant": "Layouts of the two operands vary independently.", "anchors": ["include/stc/priv/queue_prv.h: _clone, _eq"]}
{"id": "C09", "title": "pqueue always yields a maximal element", "statement": "After any history of push, pop and make_heap on any content, top is an element such that no other stored element is greater; pop removes exactly one occurrence of it; popping until empty yields the inserted multiset in non-increasing order.", "quantifier": "all histories, all strict weak orders, all element multisets", "why_tests_cant": "Heap shape depends on the entire history and tie structure.", "anchors": ["include/stc/pqueue.h: _push, _pop, _top, _make_heap, _sift_down_, _erase_at"]}
{"id": "C10", "title": "pqueue erase_at keeps the priority queue valid", "statement": "Erasing any index leaves a queue whose top is still a maximal remaining element, now and after further pops.", "quantifier": "all valid heaps and all indices", "why_tests_cant": "Only certain heap shapes fail.", "anchors": ["include/stc/pqueue.h: _erase_at"]}
{"id": "C11", "title": "pqueue pull hands over ownership once", "statement": "pull returns the top element to the caller without that element also having been given to the destructor.", "quantifier": "all queues", "why_tests_cant": "Invisible for plain int elements used by tests.", "anchors": ["include/stc/pqueue.h: _pull, _erase_at, _value_drop"]}
{"id": "C12", "title": "list is a sequence under every history", "statement": "For any history of push_back, push_front, insert_at, erase_at, pop_front, clear the traversal of a list from front to back gives the corresponding sequence; the link structure is a single cycle through the nodes with last pointing at the final one; every removed node is freed exactly once and no freed node is read.", "quantifier": "all histories, all positions", "why_tests_cant": "Pointer surgery at first/last/only node combined with arbitrary history.", "anchors": ["include/stc/list.h: _push_back_node, _push_front_node, _insert_after_node, _erase_at, _unlink_after_node, _begin, _next"]}
{"id": "C13", "title": "list splice, split_off, reverse and remove", "statement": "splice inserts the whole other list before the given position and empties the other; split_off removes exactly the given range and returns it as a list in order; reverse reverses; remove deletes exactly the elements equal to the key, keeps the order of the others and returns the number removed. No node is lost or duplicated.", "quantifier": "all lists, positions, ranges and keys", "why_tests_cant": "Circular representation has special cases at the ends and for empty lists.", "anchors": ["include/stc/list.h: _splice, _split_off, _reverse, _remove, _erase_range"]}
{"id": "C14", "title": "sort returns a sorted permutation", "statement": "X_sort on vec/stack/deque terminates for every content, touches only indices 0..n-1, leaves a permutation of the input and orders it: no later element is less than an earlier one.", "quantifier": "all lengths, all contents, all strict weak orders given by i_less/i_cmp on by-value keys", "why_tests_cant": "Quicksort with Hoare partition has failing corner cases for specific duplicates/patterns; input space unbounded.", "anchors": ["include/stc/priv/sort_prv.h: _insertsort_lowhigh, _sort_lowhigh, _sort"]}
{"id": "C15", "title": "sort_lowhigh only touches the requested range", "statement": "sort_lowhigh(lo,hi) sorts the elements at indices lo..hi and leaves all the others unchanged.", "quantifier": "all contents and all 0<=lo<=hi<n", "why_tests_cant": "Depends on values below lo.", "anchors": ["include/stc/priv/sort_prv.h: _sort_lowhigh, _insertsort_lowhigh"]}
{"id": "C16", "title": "sort is correct for keys compared through references", "statement": "X_sort also orders containers whose raw key type refers into the element itself (e.g. i_key cstr, whose raw form is a pointer to the characters stored inside the element for short strings).", "quantifier": "all contents", "why_tests_cant": "Only fails for patterns in which the pivot's slot is exchanged during partitioning.", "anchors": ["include/stc/priv/sort_prv.h: _sort_lowhigh", "include/stc/cstr.h: cstr_toraw"]}
{"id": "C17", "title": "lower_bound and binary_search are exact on sorted data", "statement": "On a sorted container lower_bound(raw) returns the first index whose element is not less than raw (none if there is no such element), and binary_search(raw) returns the index of an equal element iff one exists.", "quantifier": "all sorted sequences, all keys, all subranges [start,end)", "why_tests_cant": "Off-by-one at every length.", "anchors": ["include/stc/priv/sort_prv.h: _lower_bound_range, _binary_search_range"]}
{"id": "C18", "title": "hmap is a finite map under every history", "statement": "For any history of insert, insert_or_assign, erase, clear, reserve, shrink_to_fit, looking up a key gives the value last associated with it and not erased (insert keeps the old value if the key is present), and size is the number of distinct keys; no collision pattern, wrap-around or rehash changes the result, as long as no probe sequence exceeds the representable distance.", "quantifier": "all histories, all hash functions and key equalities consistent with each other, all table sizes", "why_tests_cant": "Robin-hood displacement and backward-shift deletion interact over the entire history; adversarial hashes cannot be enumerated.", "anchors": ["include/stc/hmap.h: _lookup, _bucket_insert_, _insert_entry_, _erase_entry, _reserve, _get, _contains, _clear"]}
{"id": "C19", "title": "hmap lookups and insertions terminate and stay in bounds", "statement": "Every lookup, insertion and erasure probes finitely many buckets, all inside the table: at least one bucket is always empty because the table is never filled beyond its load limit.", "quantifier": "all histories and hash functions, table sizes up to the representable limit", "why_tests_cant": "Full tables only arise at particular size/threshold roundings.", "anchors": ["include/stc/hmap.h: _insert_entry_, _bucket_lookup_, _reserve, _max_load_factor"]}
{"id": "C20", "title": "hmap iteration visits every entry exactly once", "statement": "Iterating a hmap visits each stored entry exactly once and stops, for every table state.", "quantifier": "all reachable tables", "why_tests_cant": "Unbounded table states.", "anchors": ["include/stc/hmap.h: _begin, _next, _end"]}
{"id": "C21", "title": "hmap erase during iteration never skips an entry", "statement": "c_erase_if/erase_at while iterating removes exactly the entries satisfying the predicate; every entry present at the start is examined at least once.", "quantifier": "all reachable tables and predicates", "why_tests_cant": "Backward shifting moves entries across the iteration point, including around the table end.", "anchors": ["include/stc/hmap.h: _erase_at", "include/stc/sys/utility.h: c_erase_if"]}
{"id": "C22", "title": "hmap works for every hash function", "statement": "The map semantics of hmap do not depend on hash quality: even if all keys collide the map remains correct.", "quantifier": "all hash functions and all numbers of colliding keys", "why_tests_cant": "Needs more than a thousand colliding keys.", "anchors": ["include/stc/hmap.h: struct hmap_meta (dist:10), _bucket_insert_"]}
{"id": "C23", "title": "hmap growth preserves contents", "statement": "reserve, shrink_to_fit and automatic growth re-place every entry so that all keys keep their values and no entry is lost or duplicated; when they are refused (capacity below size) nothing changes.", "quantifier": "all tables, all requested capacities", "why_tests_cant": "All rounding cases of the capacity computation.", "anchors": ["include/stc/hmap.h: _reserve, _shrink_to_fit"]}
{"id": "C24", "title": "smap is an ordered finite map under every history", "statement": "For any history of insert, insert_or_assign, erase, clear the lookup result for each key is the last value associated and not erased, size is the number of distinct keys, and insert of an existing key keeps the stored value.", "quantifier": "all histories, all strict total orders on keys", "why_tests_cant": "AA-tree rebalancing depends on the entire history.", "anchors": ["include/stc/smap.h: _insert_entry_i_, _erase_r_, _find_it, _skew_, _split_"]}
{"id": "C25", "title": "smap iterates in strictly increasing key order", "statement": "Iterating a smap visits every entry exactly once in strictly increasing key order; lower_bound(k) starts the iteration at the first key not less than k; front/back are the least/greatest entries.", "quantifier": "all reachable trees", "why_tests_cant": "Unbounded trees.", "anchors": ["include/stc/smap.h: _begin, _next, _lower_bound, _front, _back"]}
{"id": "C26", "title": "smap stays balanced and its iterator stack never overflows", "statement": "After any history the height of a smap with n entries is at most 2*log2(n+1), and the fixed size stacks used by iteration (36 entries) and insertion (64 entries) are never exceeded for any number of entries addressable by the 32-bit index.", "quantifier": "all histories, all n < 2^31", "why_tests_cant": "Would need huge trees.", "anchors": ["include/stc/smap.h: _insert_entry_i_, _next", "include/stc/types.h: _c_smap_iter _st"]}
{"id": "C27", "title": "smap clone and shrink_to_fit yield independent, fully usable maps", "statement": "A clone holds the same entries as the original and every further operation (including insertion) on it is well defined and does not touch memory outside its own storage; the same holds after shrink_to_fit.", "quantifier": "all reachable maps, all follow-up operations", "why_tests_cant": "Needs erase history before the clone.", "anchors": ["include/stc/smap.h: _clone, _clone_r_, _shrink_to_fit, _new_node_"]}
{"id": "C28", "title": "cstr is a byte string under every history", "statement": "For any history of assign, append, push, insert, erase, replace_at, resize, reserve, shrink_to_fit, pop and clear the content of a cstr is the byte string produced by the same edits; transitions between in-place (<=22 bytes) and heap storage are invisible; size, capacity and the terminating NUL are always right, and no byte outside the buffer is touched.", "quantifier": "all byte strings, all histories, all lengths around the 22/23 byte boundary and beyond", "why_tests_cant": "The small/long switch interacts with every operation.", "anchors": ["include/stc/priv/cstr_prv.c: cstr_reserve, cstr_resize, cstr_assign_n, cstr_append_n, cstr_erase, cstr_shrink_to_fit", "include/stc/priv/cstr_prv.h: cstr_getbuf, _cstr_set_size, cstr_replace_at_sv"]}
{"id": "C29", "title": "cstr operations accept arguments aliasing the string itself", "statement": "Appending a part of a string to itself, and assigning a part of a string to itself, give the same result as doing so through a copy.", "quantifier": "all strings, all subviews", "why_tests_cant": "Depends on offset/length relation and on whether a reallocation happens.", "anchors": ["include/stc/priv/cstr_prv.c: cstr_append_n, cstr_assign_n"]}
{"id": "C30", "title": "Substring search finds the first occurrence", "statement": "cstr_find/csview_find return the smallest position at which the pattern occurs and 'not found' iff it occurs nowhere; only bytes of the two strings are read.", "quantifier": "all texts and patterns, including empty and overlapping ones", "why_tests_cant": "Unbounded.", "anchors": ["include/stc/common.h: c_strnstrn", "include/stc/csview.h: csview_find_sv", "include/stc/priv/cstr_prv.h: cstr_find_sv"]}
{"id": "C31", "title": "cstr replace substitutes leftmost non-overlapping occurrences", "statement": "cstr_replace(s, search, repl, count) returns s in which the first count (all if 0) leftmost, non-overlapping occurrences of a non-empty search are replaced, the rest unchanged.", "quantifier": "all strings/patterns/replacements/counts", "why_tests_cant": "Unbounded.", "anchors": ["include/stc/priv/cstr_prv.c: cstr_from_replace"]}
{"id": "C32", "title": "Splitting and re-joining is the identity", "statement": "Tokenizing a view by a non-empty separator terminates, and joining the tokens with that separator gives back the input; no token contains the separator; the number of tokens is one more than the number of separators found left to right.", "quantifier": "all inputs, all non-empty separators", "why_tests_cant": "Overlapping separators, separators at the ends, empty input.", "anchors": ["include/stc/csview.h: csview_token, c_token", "include/stc/priv/cstr_prv.c: cstr_join_n"]}
{"id": "C33", "title": "Subview and slice stay inside the string", "statement": "csview_subview, slice, subview_pro, tail, and the cstr forms return exactly the requested bytes clamped to the string, never pointing outside of it.", "quantifier": "all strings, all positions and lengths allowed by the documentation (including negative positions for subview_pro)", "why_tests_cant": "All sign/clamp combinations.", "anchors": ["include/stc/csview.h: csview_subview, csview_slice, csview_subview_pro, csview_tail"]}
{"id": "C34", "title": "trim removes exactly surrounding whitespace and control characters", "statement": "csview_trim/trim_start/trim_end remove the longest prefix/suffix of ASCII whitespace and control characters and nothing else (documented: 'trim whitespace and ctrl-chars').", "quantifier": "all byte strings", "why_tests_cant": "Tests use ASCII.", "anchors": ["include/stc/csview.h: csview_trim_start, csview_trim_end"]}
{"id": "C35", "title": "UTF-8 encode/decode round trip", "statement": "For every Unicode scalar value, decoding the bytes written by utf8_encode yields the same value and consumes exactly the number of bytes written.", "quantifier": "all Unicode scalar values", "why_tests_cant": "Over a million values and every surrounding context.", "anchors": ["include/stc/priv/utf8_prv.c: utf8_encode, utf8_decode_codepoint", "include/stc/priv/utf8_prv.h: utf8_decode"]}
{"id": "C36", "title": "UTF-8 validation accepts exactly well-formed UTF-8", "statement": "utf8_valid / utf8_valid_n / cstr_valid_utf8 return true iff the bytes are a concatenation of encodings of Unicode scalar values (shortest form, no surrogates, <= U+10FFFF).", "quantifier": "all byte strings of any length", "why_tests_cant": "Input space is infinite.", "anchors": ["include/stc/priv/utf8_prv.c: utf8_valid, utf8_valid_n", "include/stc/priv/utf8_prv.h: utf8_decode", "include/stc/priv/utf8_tab.c"]}
{"id": "C37", "title": "Decoding an arbitrary byte string makes progress and stays in bounds", "statement": "Iterating utf8_decode_codepoint over any byte string consumes at least one byte per step, never reads at or beyond the end pointer, and yields the scalar sequence for well-formed input and U+FFFD for ill-formed pieces.", "quantifier": "all byte strings", "why_tests_cant": "Truncated and ill-formed sequences at every position.", "anchors": ["include/stc/priv/utf8_prv.c: utf8_decode_codepoint"]}
{"id": "C38", "title": "Code point counting and addressing", "statement": "On well-formed UTF-8, utf8_count gives the number of code points and utf8_at/offset(k) address the start of the k-th code point.", "quantifier": "all well-formed strings and all k", "why_tests_cant": "Unbounded.", "anchors": ["include/stc/utf8.h: utf8_count, utf8_at, utf8_offset", "include/stc/priv/utf8_prv.h"]}
{"id": "C39", "title": "Case conversion never overflows its buffer", "statement": "cstr_tolower/toupper/casefold write inside the buffer they reserve, for every input bytes, and map each code point independently.", "quantifier": "all byte strings", "why_tests_cant": "Only particular expanding or ill-formed inputs matter.", "anchors": ["include/stc/priv/cstr_prv.c: cstr_tocase_sv"]}
{"id": "C40", "title": "Case-insensitive comparison is a consistent order and prefix test", "statement": "utf8_icmp/csview_icmp is antisymmetric and zero iff the case-folded code point sequences are equal; istarts_with(s,p) holds iff the case-folded p is a prefix of the case-folded s.", "quantifier": "all strings", "why_tests_cant": "Pairs of strings of different lengths with non-ASCII letters.", "anchors": ["include/stc/priv/utf8_prv.c: utf8_icompare", "include/stc/csview.h: csview_istarts_with", "include/stc/utf8.h: utf8_icmp"]}
{"id": "C41", "title": "String comparison is the lexicographic byte order", "statement": "csview_cmp/cstr_cmp is a total order: lexicographic on unsigned bytes with a proper prefix smaller; it is zero iff eq holds.", "quantifier": "all pairs/triples of strings", "why_tests_cant": "Transitivity quantifies over all triples.", "anchors": ["include/stc/csview.h: csview_cmp, csview_eq", "include/stc/priv/cstr_prv.h: cstr_cmp"]}
{"id": "C42", "title": "Hashing depends only on the key bytes", "statement": "c_hash_n/c_basehash_n are functions of the byte content and length alone: equal keys in different memory always hash equal, and only bytes of the key are read.", "quantifier": "all byte strings, all memory contents outside the key", "why_tests_cant": "Depends on surrounding memory.", "anchors": ["include/stc/common.h: c_basehash_n, c_hash_n"]}
{"id": "C43", "title": "cbits implements finite bit sets", "statement": "set/reset/flip/set_value/flip_all/set_all change exactly the intended bits; union/intersect/xor are bitwise; at/test reads the bit; count is the number of 1 bits; disjoint is right; independent of unused bits of the last word.", "quantifier": "all sizes, all bit patterns, all histories", "why_tests_cant": "Word boundary effects at every size.", "anchors": ["include/stc/cbits.h: cbits_set, cbits_reset, cbits_flip, cbits_count, cbits_intersect, cbits_union, cbits_xor, cbits_disjoint"]}
{"id": "C44", "title": "cbits resize keeps old bits and initialises new ones", "statement": "resize(n, v) keeps bits below min(old,n), sets every new bit to v, also after earlier shrinking left stale bits.", "quantifier": "all old/new sizes, values and histories", "why_tests_cant": "Stale bits after shrink need history.", "anchors": ["include/stc/cbits.h: cbits_resize"]}
{"id": "C45", "title": "cbits subset_of tests inclusion in the documented direction", "statement": "cbits_subset_of(self, other) is true iff every bit set in self is set in other ('is set a subset of other?').", "quantifier": "all pairs of equal-size bit sets", "why_tests_cant": "Symmetric test data hide the direction.", "anchors": ["include/stc/cbits.h: cbits_subset_of"]}
{"id": "C46", "title": "cspan multi-dimensional indexing is a bijection", "statement": "For a packed span of any rank and shape, in row-major or column-major layout, index tuples in range map one-to-one onto 0..size-1.", "quantifier": "all ranks, shapes and layouts", "why_tests_cant": "All ranks and extents.", "anchors": ["include/stc/cspan.h: cspan_at, cspan_index, _cspan_shape2stride, cspan_size"]}
{"id": "C47", "title": "cspan iteration visits every element once in row-major index order", "statement": "Iterating any (sub)span yields each of its elements exactly once, in lexicographic index order, whatever the strides.", "quantifier": "all ranks, shapes with positive extents, strides", "why_tests_cant": "Carry logic across dimensions.", "anchors": ["include/stc/cspan.h: _cspan_next2, _next"]}
{"id": "C48", "title": "cspan slice, transpose and submd are views of the right elements", "statement": "element (i,j,..) of a slice is element (start+i*step, ...) of the source and lies inside it; transposing reverses index order and is an involution; submd fixes leading indices.", "quantifier": "all ranks, shapes and slice arguments accepted by the run-time checks", "why_tests_cant": "Combinatorial argument space.", "anchors": ["include/stc/cspan.h: _cspan_slice, _cspan_transpose, cspan_submd2, cspan_submd3, cspan_submd4"]}
{"id": "C49", "title": "Uniform integers stay in range and are unbiased", "statement": "Whenever crand64_uniform / crand32_uniform return, the value is in [low,high], for every engine state; the rejection loop ends with the first accepted raw output; and over all 2^64 (2^32) raw outputs each value of the range is produced by exactly the same number of accepted raw outputs.", "quantifier": "all engine outputs, all low<=high with a range below 2^63 (2^31) values", "why_tests_cant": "2^64 outputs per range.", "anchors": ["include/stc/random.h: crand64_uniform_r, crand64_make_uniform"]}
{"id": "C50", "title": "The random engine has period at least 2^64 and does not lose state", "statement": "For each odd stream number the engine's step is a bijection on its state space and no state recurs before 2^64 steps.", "quantifier": "all states, all streams, all step counts", "why_tests_cant": "2^64 steps.", "anchors": ["include/stc/random.h: crand64_uint_r, crand64_from"]}
{"id": "C51", "title": "Shuffle produces a permutation", "statement": "Shuffling an array produces a permutation of its elements for every engine state; unit-interval reals lie in [0,1).", "quantifier": "all arrays, all engine states", "why_tests_cant": "Unbounded.", "anchors": ["include/stc/random.h: c_shuffle, crand64_real_r"]}
{"id": "C52", "title": "arc destroys its object exactly once, after the last owner", "statement": "With atomic counting, for any number of threads performing any interleaving of clone and drop on their own handles, the object is destroyed exactly once, never while a handle exists, and use_count equals the number of live handles.", "quantifier": "all thread counts, all interleavings, all histories", "why_tests_cant": "Schedules cannot be enumerated.", "anchors": ["include/stc/arc.h: _clone, _drop, _make, _from_ptr, _use_count"]}
{"id": "C53", "title": "arc tells separately allocated objects apart", "statement": "Dropping the last owner frees the memory in the way it was obtained: one combined block for make, two blocks for from_ptr, for every possible placement of the blocks by the allocator.", "quantifier": "all allocator placements", "why_tests_cant": "Only fails for adjacent placements.", "anchors": ["include/stc/arc.h: _make, _from_ptr, _drop"]}
{"id": "C54", "title": "box has unique ownership", "statement": "For any history of box operations (make, from_ptr, assign, take, move, release, reset, drop) each object is destroyed at most once and exactly once unless released; no live object is unreachable.", "quantifier": "all histories", "why_tests_cant": "Ownership bugs need particular histories.", "anchors": ["include/stc/box.h: _assign, _take, _move, _release, _reset_to, _drop"]}
{"id": "C55", "title": "coption parsing terminates and never loses arguments", "statement": "Repeatedly calling coption_get terminates for all argument vectors and option specifications, argv is always a permutation of the original, and at the end the non-options are contiguous at the end in their original order.", "quantifier": "all argument vectors and option tables", "why_tests_cant": "Permutation logic over arbitrary interleavings.", "anchors": ["include/stc/coption.h: coption_get, coption_permute_"]}
{"id": "C56", "title": "A coroutine's cleanup section runs exactly once", "statement": "For any schedule of resumptions and stop requests, a coroutine that is driven to completion executes its cco_finally section exactly once, never executes body statements after a stop or after completion, and remains done.", "quantifier": "all coroutine bodies, all schedules of resume/stop", "why_tests_cant": "Schedules and suspension points unbounded.", "anchors": ["include/stc/coroutine.h: cco_routine, cco_finally, cco_return, cco_stop, cco_yield"]}
{"id": "C57", "title": "The fiber scheduler is a fair round robin", "statement": "cco_run_fiber resumes the live fibers cyclically: between two resumptions of a fiber each other live fiber is resumed exactly once; finished fibers are removed and freed exactly once; the loop ends exactly when all fibers are done.", "quantifier": "all numbers of fibers, all behaviours, all spawn points", "why_tests_cant": "Schedules unbounded.", "anchors": ["include/stc/coroutine.h: cco_resume_next, _cco_spawn, _cco_new_fiber, cco_run_fiber"]}
{"id": "C58", "title": "Coroutine semaphores bound the number of holders", "statement": "With cco_await_semaphore/cco_release_semaphore, in any interleaving of cooperating coroutines the count never becomes negative and at most the initial count of coroutines is between acquire and release at any time.", "quantifier": "all numbers of coroutines and all schedules", "why_tests_cant": "Schedules.", "anchors": ["include/stc/coroutine.h: cco_await_semaphore, cco_release_semaphore"]}
{"id": "C59", "title": "Range loops enumerate arithmetic progressions", "statement": "c_range/c_range32 loops and crange iteration visit start, start+step, ... strictly before stop (like Python's range) and zero values if the range is empty.", "quantifier": "all start, stop, nonzero step without overflow", "why_tests_cant": "All sign combinations.", "anchors": ["include/stc/common.h: c_range_3", "include/stc/sys/crange.h: crange_make_3, crange_begin, crange_next"]}
{"id": "C60", "title": "Filter pipelines mean what they say", "statement": "c_filter with any chain of predicates, c_flt_skip(n), c_flt_take(n), c_flt_skipwhile(p), c_flt_takewhile(p), c_flt_map(f) performs its terminal action on exactly the elements given by composing the corresponding list functions, in order.", "quantifier": "all chains (at most 19 counters/flags), all inputs", "why_tests_cant": "All compositions.", "anchors": ["include/stc/sys/filter.h: c_filter, _flt_take, _flt_takewhile, c_flt_skip, c_flt_skipwhile"]}
{"id": "C61", "title": "c_eraseremove_if, c_append_if, c_find_if, c_all_of and c_reverse", "statement": "c_eraseremove_if keeps exactly the elements not satisfying the predicate, in order, dropping each of the others once; c_append_if appends clones of the satisfying ones; c_find_if finds the first; c_reverse reverses.", "quantifier": "all sequences and predicates", "why_tests_cant": "Unbounded.", "anchors": ["include/stc/sys/utility.h: c_eraseremove_if, c_append_if, c_find_if, c_all_of, c_any_of, c_none_of, c_reverse"]}
{"id": "C62", "title": "c_next_pow2 rounds up to a power of two", "statement": "c_next_pow2(n) is the least power of two not less than n.", "quantifier": "all 1 <= n <= 2^62", "why_tests_cant": "2^62 inputs.", "anchors": ["include/stc/common.h: c_next_pow2"]}
{"id": "C63", "title": "Regex matching is sound and complete", "statement": "cregex_match on a compiled pattern without case-flag changes reports a match iff some substring of the input belongs to the pattern's language; the reported span is leftmost and, among those, longest.", "quantifier": "all compiled programs, all inputs, as long as no resource limit is reported", "why_tests_cant": "Languages are infinite.", "anchors": ["include/stc/priv/cregex_prv.c: _regexec1, _renewthread, _renewemptythread, _renewmatch"]}
{"id": "C64", "title": "Regex compilation preserves meaning", "statement": "For every pattern accepted by the compiler, the compiled program accepts exactly the language denoted by the pattern under the usual precedence (closure binds tighter than concatenation, which binds tighter than alternation).", "quantifier": "all patterns of the core syntax", "why_tests_cant": "Pattern space infinite.", "anchors": ["include/stc/priv/cregex_prv.c: _operator, _operand, _evaluntil, _lex, _regcomp1, _optimize"]}
{"id": "C65", "title": "Regex character classes denote the union of their spans", "statement": "The sorted and merged span list of a bracket class matches exactly the code points in the union of the written ranges.", "quantifier": "all span lists", "why_tests_cant": "Overlapping ranges in any order.", "anchors": ["include/stc/priv/cregex_prv.c: _bldcclass"]}
{"id": "C66", "title": "Regex matching respects the given view", "statement": "cregex_match_sv never reports a match outside the given view and the result does not depend on the bytes after it.", "quantifier": "all buffers and views", "why_tests_cant": "Depends on bytes outside of the view.", "anchors": ["include/stc/priv/cregex_prv.c: _regexec1, _regexec", "include/stc/cregex.h: cregex_match_sv, cregex_match_next_sv"]}
{"id": "C67", "title": "Regex replace terminates with the expected text", "statement": "cregex_replace terminates for every pattern and input; every non-overlapping match is replaced by the expansion of the template ($0..$99; and $$), other text is copied unchanged.", "quantifier": "all patterns, inputs, templates", "why_tests_cant": "Empty matches; template edge cases.", "anchors": ["include/stc/priv/cregex_prv.c: cregex_replace_pro, _build_substitution"]}
{"id": "C68", "title": "Reading lines keeps every byte", "statement": "cstr_getline/getdelim stores exactly the bytes up to (excluding) the next delimiter, for every stream content and line length, and reports end of file only when no byte was read.", "quantifier": "all stream contents, all delimiters, all prior buffer states", "why_tests_cant": "Line length vs buffer capacity boundaries.", "anchors": ["include/stc/priv/cstr_prv.c: cstr_getdelim"]}
{"id": "C69", "title": "list erase_range removes exactly the range, on every list", "statement": "erase_range(it1, it2) on any list, including the empty one, removes exactly the elements from it1 up to it2 (all the rest when it2 is the end iterator), keeps the others in order and frees each removed node once.", "quantifier": "all lists, all ranges", "why_tests_cant": "The end iterator is replaced by the first node, which is itself freed when the whole list is erased; the empty list is a separate case.", "anchors": ["include/stc/list.h: _erase_range"]}
{"id": "C70", "title": "Iterators returned by list modifiers are usable", "statement": "The iterator returned by list insert_at, erase_at and erase_range designates the documented element and can be advanced, inserted at or erased at without touching freed memory or a null pointer.", "quantifier": "all lists, all positions including the end", "why_tests_cant": "The iterator caches the previous node and the address of the list; whether they are still right depends on which nodes went away.", "anchors": ["include/stc/list.h: _insert_at, _erase_at, _erase_range, _end, _next"]}
{"id": "C71", "title": "hmap destroys each key and value exactly once", "statement": "Over any history of a hmap ending in drop, every key and mapped value handed to it (or constructed by emplace) is destroyed exactly once: rejected keys of insert, overwritten values of insert_or_assign, erased entries, cleared entries and what is left at drop.", "quantifier": "all histories, all key and value types", "why_tests_cant": "Leaks and double drops appear only on particular mixes of duplicate inserts, assignments, backward-shift erases and rehashes.", "anchors": ["include/stc/hmap.h: _insert, _emplace, _insert_or_assign, _emplace_or_assign, _erase_entry, _wipe_, _clear, _drop"]}
{"id": "C72", "title": "hmap clone is equal and independently usable", "statement": "A clone of any hmap holds the same entries, compares equal to the original, and every further history on it behaves as on a finite map.", "quantifier": "all histories before and after cloning", "why_tests_cant": "Requires every table state reachable by collisions, erasures and rehashes.", "anchors": ["include/stc/hmap.h: _clone, _eq"]}
{"id": "C73", "title": "hmap equality does not depend on table layout", "statement": "_eq of two maps is true exactly when they hold the same entries, whatever the histories, capacities and collision layouts that produced them.", "quantifier": "all pairs of histories", "why_tests_cant": "Layouts depend on insertion order and capacity; tests compare a few.", "anchors": ["include/stc/hmap.h: _eq"]}
{"id": "C74", "title": "smap erasure through iterators removes exactly the named entries", "statement": "erase_at removes the entry the iterator denotes and returns an iterator from which iteration continues with the next entry; erase_range between two lower bounds removes exactly the entries in between; an erase-while-iterating loop (erase_it) examines every entry exactly once and removes those selected.", "quantifier": "all histories, keys, ranges and predicates", "why_tests_cant": "The tree is rebalanced under the iterator; which rotations happen depends on the whole history.", "anchors": ["include/stc/smap.h: _erase_at, _erase_range, _advance"]}
{"id": "C75", "title": "smap drop destroys each entry once; equality looks at keys only", "statement": "drop destroys the key and value of each stored entry exactly once; _eq is true exactly when both maps have the same size and pairwise equal keys in order, whatever the values.", "quantifier": "all histories and pairs of histories", "why_tests_cant": "Trees with the same entries have many shapes.", "anchors": ["include/stc/smap.h: _drop, _eq, _drop_r_"]}
{"id": "C76", "title": "vec iterators denote positions", "statement": "The iterator reached by i steps (or advance) from begin denotes position i; insert_at inserts before it, erase_at/erase_range remove exactly the denoted elements, and the returned iterators denote the place of the change; this for every iterator including end.", "quantifier": "all vec contents, capacities and positions", "why_tests_cant": "Depends on reallocation and on the relation of end pointers for every size.", "anchors": ["include/stc/vec.h: _insert_at, _erase_at, _erase_range, _advance, _end"]}
{"id": "C77", "title": "Normal deviates come in pairs and never run out", "statement": "A sequence of crand64_normal calls returns both values of each accepted sample pair, in order, without dropping or repeating one, for any number of calls.", "quantifier": "all engine states, all call counts", "why_tests_cant": "The call counter overflows only after 2^31 calls.", "anchors": ["include/stc/random.h: crand64_normal_r"]}
{"id": "C79", "title": "Unicode case maps", "statement": "utf8_tolower, utf8_toupper and utf8_casefold map scalar values to scalar values, are idempotent, agree with ASCII case on ASCII, map no other value to 0, and never grow a UTF-8 encoding beyond 3/2 of its bytes.", "quantifier": "all Unicode scalar values", "why_tests_cant": "Over a million values against table-driven searches.", "anchors": ["include/stc/priv/utf8_prv.c: utf8_casefold, utf8_tolower, utf8_toupper", "include/stc/priv/ucd_prv.c"]}
{"id": "C78", "title": "Inserting a part of a string into itself", "statement": "cstr_insert/replace_at with a view into the same string give the result of doing so through a copy.", "quantifier": "all strings, all positions, all subviews", "why_tests_cant": "Depends on the position of the part relative to the gap and on whether the string is reallocated.", "anchors": ["include/stc/priv/cstr_prv.h: cstr_replace_at_sv, cstr_insert_sv", "include/stc/priv/cstr_prv.c: _cstr_internal_move"]}
{"id": "C80", "title": "cspan slice arguments are range checked", "statement": "A slice request that is not inside the source span, or whose number of ranges is not the rank of the result, is stopped by an assertion before memory outside the objects is touched.", "quantifier": "all spans, result ranks and slice arguments", "why_tests_cant": "The argument space is a product over dimensions of three 64-bit numbers.", "anchors": ["include/stc/cspan.h: _cspan_slice, cspan_slice"]}
{"id": "C81", "title": "cspan_print writes the nested bracket layout", "statement": "The printed text is the nested list of the elements in index order: balanced brackets per dimension, separators between the items of each dimension, none after the last, line breaks and indentation by depth.", "quantifier": "all ranks up to 8, all positive shapes, strides and bracket/separator choices", "why_tests_cant": "The bracket counts depend on carries across all dimensions.", "anchors": ["include/stc/cspan.h: cspan_print, _cspan_print_assist"]}
{"id": "C82", "title": "cspan equality, set_all, back and layout tests", "statement": "Two spans are equal iff they have the same shape and pairwise equal elements, whatever their strides; set_all writes every element of the view and nothing else; back is the last element; is_layout tells exactly whether the strides are those of a packed array of that layout.", "quantifier": "all spans inside their memory", "why_tests_cant": "All ranks, shapes and stride combinations, including views that interleave.", "anchors": ["include/stc/cspan.h: _eq, cspan_set_all, cspan_back, cspan_is_layout"]}
{"id": "C83", "title": "Resuming a coroutine continues where it left", "statement": "A coroutine that is resumed, stopped and has its memory changed in between executes the same statements in the same order, returns the same values and leaves the same memory as its function executed without interruption, with every cco_yield, cco_await and cco_await_coroutine being only a pause.", "quantifier": "all coroutine functions obeying the documented rules, all histories of resumptions, stops and memory changes", "why_tests_cant": "Suspension points, loops and histories are unbounded.", "anchors": ["include/stc/coroutine.h: cco_routine, cco_yield_v, cco_await, cco_await_coroutine_2, cco_return, cco_yield_final_v"]}
{"id": "C84", "title": "Compiling a regex stays within the pattern", "statement": "cregex_compile never reads past the terminating NUL of the pattern nor writes outside of the program buffer, whatever the pattern.", "quantifier": "all zero-terminated byte strings", "why_tests_cant": "Only special ends of patterns go wrong; over-reads of one byte go unnoticed.", "anchors": ["include/stc/priv/cregex_prv.c: _nextc, _lex, _bldcclass, _newinst, _regcomp1"]}
{"id": "C85", "title": "A full match matches a whole line", "statement": "With CREG_FULLMATCH cregex_match succeeds exactly if the pattern matches from the start to the end of a line, as with ^ and $ around it.", "quantifier": "all patterns and inputs", "why_tests_cant": "Depends on the order in which threads of the matcher end.", "anchors": ["include/stc/cregex.h: CREG_FULLMATCH", "include/stc/priv/cregex_prv.c: _regexec1"]}
{"id": "C86", "title": "Word boundaries", "statement": "\\b matches exactly between a word character and another character or the end of the text; \\B matches exactly where \\b does not; neither takes a character.", "quantifier": "all inputs and positions", "why_tests_cant": "Ends of the text and the failing case of \\B have to be hit.", "anchors": ["include/stc/priv/cregex_prv.c: _regexec1"]}
{"id": "C87", "title": "The matcher stays within its thread lists", "statement": "For every pattern and input _regexec1 writes only to entries of its thread lists; if a list does not suffice it reports that.", "quantifier": "all patterns and inputs", "why_tests_cant": "The stray write hits a neighbouring array on the stack.", "anchors": ["include/stc/priv/cregex_prv.c: _regexec1, _renewthread, _renewemptythread"]}
{"id": "C88", "title": "fmt format strings mean what is documented", "statement": "fmt_print, fmt_println and fmt_printd accept a format iff it is well formed (characters, {{, }}, %, fields {} and {:mods}) and its fields and '*' modifiers use exactly the arguments passed. For an accepted format of at most 127 characters they print '{', '}' and '%' for {{, }} and %, and print each value with its field's flags and its own type's conversion, and no write leaves the format buffer.", "quantifier": "for all NUL-free format strings, all lists of at most 12 arguments of the supported types", "why_tests_cant": "formats, modifier combinations and argument type lists are unbounded; a write one byte behind a stack buffer usually goes unnoticed", "anchors": ["include/c11/fmt.h:103-155", "include/c11/fmt.h:176-197", "include/c11/fmt.h:237-284"]}
{"id": "C89", "title": "fmt_stream collects what is printed to it", "statement": "After any sequence of fmt_printd to an fmt_stream, data is the zero-terminated concatenation of the texts (in overwrite mode, the last text), len is its length, and all writes stay inside the allocation of cap+1 bytes.", "quantifier": "for all sequences of texts, starting with a zero-initialised stream or any stream in use", "why_tests_cant": "growth happens at sizes that depend on the whole history", "anchors": ["include/c11/fmt.h:81-85", "include/c11/fmt.h:216-235"]}
{"id": "C90", "title": "Character classes and sets by name", "statement": "utf8_isgroup(g, c) holds iff c lies in a range of the group; the groups of general categories are those of Unicode; \\d, \\s, \\w, \\p{name} and [[:name:]] in a pattern match exactly one character, which is in the named set, and \\D, \\S, \\W, \\P{name} and [[:^name:]] exactly one that is not; \\p{Ll} and \\p{Lu} are the lower and upper case letters, \\p{Alpha} and \\w take letters of any script.", "quantifier": "for all code points, all names of the two tables, all texts", "why_tests_cant": "1.1 million code points times 37 names and their complements", "anchors": ["include/stc/priv/ucd_prv.c:46-82", "include/stc/priv/ucd_prv.c:90-480", "include/stc/priv/cregex_prv.c:642-720", "include/stc/priv/cregex_prv.c:938-992"]}
{"id": "C91", "title": "Matching returns", "statement": "cregex_match, cregex_match_next and full matching with a compiled pattern return on every text: no read outside of the text, no write outside of the thread lists, the captures or the program, no endless loop; a pattern without branches never makes the matcher give up, so it finds its first match or there is none.", "quantifier": "for all patterns of the core syntax, all texts of well-formed UTF-8, all starting places", "why_tests_cant": "an overrun of a list on the stack or an endless chain depends on the program and the text; a run shows neither absence", "anchors": ["include/stc/priv/cregex_prv.c:1001-1160", "include/stc/priv/cregex_prv.c:270-330", "include/stc/priv/cregex_prv.c:1165-1235"]}
{"id": "C92", "title": "vec and stack own their elements and their memory", "statement": "For any number of vec (or growing stack) variables and any history of init, with_capacity, with_size (whose fill value owns nothing), from_n, put_n, push, pop, pull, erase_n, resize (likewise), clear, clone, copy, move, take, reserve, shrink_to_fit and drop, each variable behaves as an independent list: no call reads or writes freed, foreign or uninitialised memory, clones and copies are deep, no element is destroyed twice or while still stored, and once every variable is dropped each element made was destroyed exactly once and all memory is returned.", "quantifier": "all histories of any length over any number of variables, all elements, every placement of blocks by the allocator (including in-place realloc and NULL for malloc(0))", "why_tests_cant": "Tests run a few histories with one allocator; double destruction, sharing or leaks after an unusual order of copy, move and take on empty or self-assigned containers stay unseen.", "anchors": ["include/stc/vec.h:80-348", "include/stc/stack.h:49-202"]}
{"id": "C93", "title": "Running out of memory leaves a container as it was", "statement": "When malloc or realloc returns NULL, a vec, stack or pqueue operation reports it (NULL or false), leaves the container and its elements unchanged and usable, and the element offered stays with the caller or is destroyed.", "quantifier": "all containers, all operations that allocate, any failing allocation", "why_tests_cant": "Allocation does not fail in tests.", "anchors": ["include/stc/vec.h:289-348", "include/stc/stack.h:63-202", "include/stc/pqueue.h:55-73,171-181"]}
{"id": "C94", "title": "pqueue reserve, shrink_to_fit and clone keep the queue and its memory valid", "statement": "reserve and shrink_to_fit keep every element and leave the queue with a live buffer of its capacity (or none); clone gives a queue with copies of its own in a buffer of its own, also for an empty queue.", "quantifier": "all queues, all requested capacities, every behaviour of realloc the C standard allows", "why_tests_cant": "An empty queue with a buffer is rarely shrunk, and whether realloc(p, 0) frees the block depends on the C library.", "anchors": ["include/stc/pqueue.h:55-95,152-160"]}
{"id": "C95", "title": "Hashes of short keys never collide, and mixing hashes depends on every part", "statement": "Two keys of one length of at most 8 bytes have equal c_hash_n exactly if their bytes are equal; keys of different lengths get different hashes beyond chance; c_hash_mix depends on each of the words given.", "quantifier": "all keys of up to 8 bytes at any address; all lists of words", "why_tests_cant": "2^64 keys, and collisions by construction are not looked for.", "anchors": ["include/stc/common.h:252-286"]}
{"id": "C96", "title": "Awaiting a task is a procedure call", "statement": "In a fiber, cco_await_task runs the awaited task until it is done or suspends with a value in awaitbits, over any number of resumptions and nested awaits, and then continues the awaiting task right after the await; cco_yield_to passes the place in the call chain on. The instructions executed and the memory are those of an ordinary call stack.", "quantifier": "all task functions obeying the documented rules (loops, nested, dynamic and repeated awaits, resets), awaitbits without the internal CCO_NOOP, any number of resumptions", "why_tests_cant": "Call chains, suspension points and schedules are unbounded.", "anchors": ["include/stc/coroutine.h:218-237,276-303"]}
{"id": "C97", "title": "A thrown error unwinds the call chain", "statement": "cco_throw_error runs the cleanup sections of the throwing task and of all tasks awaiting it, innermost first, each once and in one resumption, until one calls cco_recover_error and continues where it awaited; if none does the program exits with the error code. Recovery goes to the resume point of the current task, and a task asked to stop is cleaned up too.", "quantifier": "all task functions and call chains", "why_tests_cant": "Needs deep chains, and recovery in unusual places.", "anchors": ["include/stc/coroutine.h:98-112,276-303"]}
{"id": "C98", "title": "list variables own their nodes and elements", "statement": "Over any history of calls on any number of list variables (init, from_n, put_n, push at both ends, insert, erase, erase_range, pop_front, remove, reverse, clear, drop, move, take, clone, copy, splice, split_off, splice_range, and unlinking and relinking nodes) each variable holds exactly the sequence the calls describe, no node is reachable from two variables or from a variable and the client, no freed node is touched, every element is destroyed at most once, and when all lists are dropped and the client has released what it unlinked, all nodes are freed and every element was destroyed exactly once.", "quantifier": "for all element types, equality and clone functions, numbers of variables, and finite histories that the sequence specification allows", "why_tests_cant": "Aliasing between lists shows only for particular combinations of splices, splits and moves followed by particular calls on the other list; tests cover a few combinations and short lists.", "anchors": ["include/stc/list.h:117-128", "include/stc/list.h:142-169", "include/stc/list.h:201-206", "include/stc/list.h:226-360"]}
{"id": "C99", "title": "Running out of memory in deque, queue, hash map, sorted map and string", "statement": "When malloc or realloc returns NULL, an operation of deque, queue, hmap, hset, smap, sset or cstr reports it (NULL, false or inserted == false) and leaves the container usable with the elements it had.", "quantifier": "all histories of operations, any pattern of failing allocations", "why_tests_cant": "Allocation does not fail in tests.", "anchors": ["include/stc/priv/queue_prv.h:45-71,178-251", "include/stc/deque.h:100-195", "include/stc/hmap.h:115-156,427-485", "include/stc/smap.h:290-364,420-460,546-577", "include/stc/priv/cstr_prv.c:39-156"]}
{"id": "C100", "title": "Maps and sets keyed through raw values", "statement": "For hmap, hset, smap and sset whose keys (and values) are made from, looked up by and compared through raw values (i_keyraw, i_keytoraw, i_keyfrom, i_valraw), if a key made from a raw value equals that value, then any sequence of insert, emplace, insert_or_assign, emplace_or_assign (put), erase, clear and reserve behaves as a finite map (an ordered one for smap) keyed by raw values: an entry is found by every raw key equal to the raw form of its key, lower_bound starts at the first entry not below the raw key, key and value objects are made from raw values exactly when they are stored, and everything made or handed over is destroyed exactly once by the operations and the final drop.", "quantifier": "all key, value and raw types and conversion functions, all legal histories, all raw keys", "why_tests_cant": "the conversion functions and histories are arbitrary; tests use cstr keys and a few entries", "anchors": ["include/stc/hmap.h:116-231", "include/stc/hmap.h:347-424", "include/stc/hmap.h:451-481", "include/stc/smap.h:218-258", "include/stc/smap.h:340-395", "include/stc/smap.h:420-510", "include/stc/smap.h:569-577"]}
{"id": "C101", "title": "Containers accept arguments that point into themselves", "statement": "Passing a container function an argument that refers to its own contents has the effect of passing a copy: hmap and smap emplace and put with the raw form of a stored value or key (e.g. the const char pointer of a stored string), vec put_n and insert_n with a range of the vec.", "quantifier": "all maps and vecs reachable by legal histories, all keys, positions and ranges", "why_tests_cant": "the outcome depends on capacity, on where entries sit in the table and on whether strings are short; tests pass fresh arguments", "anchors": ["include/stc/hmap.h:116-125", "include/stc/hmap.h:158-168", "include/stc/hmap.h:359-371", "include/stc/smap.h:353-364", "include/stc/smap.h:420-436", "include/stc/smap.h:569-577", "include/stc/vec.h:113-114", "include/stc/vec.h:185-191"]}
{"id": "C102", "title": "Sum types run the arm of the variant they hold", "statement": "For a type declared with c_sumtype, an object made with c_variant(Tag, v) holds Tag and no other variant (c_holds, c_tag_index), tags are 1, 2, ... in order of declaration so a zeroed object holds none, and its payload is readable through its own member only. c_when with c_is/c_or_is/c_otherwise arms runs exactly once the body of the arm that names the object's tag, with x pointing to its payload, else the otherwise body wherever it stands, else nothing; 'if (c_is(p, Tag, x)) A; else B;' runs A or B by the tag and agrees with c_when. A null pointer runs nothing, not even otherwise or else. break, continue and return in a body end the body (and for return the function) and never act on a loop around the statement.", "quantifier": "all numbers of variants, all arm lists and bodies (arbitrary state transformers that may return, break, continue or fail), all objects", "why_tests_cant": "The macros splice user code into for/switch/if fragments with unbalanced parts; bodies with every kind of jump in every arm order are not enumerable.", "anchors": ["include/stc/sys/sumtype.h:94-106", "include/stc/sys/sumtype.h:108-136", "include/stc/sys/sumtype.h:140-157"]}
{"id": "C103", "title": "Variables of queues, deques, hash maps and sorted maps each own their own elements", "statement": "In any program over any number of variables of a queue, deque, hmap/hset or smap/sset type that initialises them, applies operations, and uses X_move, X_take(&x, X_move(&y)), X_clone, X_copy and X_drop, using only variables that own a container and overwriting only those that do not: no freed block or uninitialised variable is read, nothing is freed twice, each variable holds exactly the contents that the same program on plain values gives it (a move empties the source, a clone or copy is independent of its source, self-move, self-take and self-copy keep the value), no two variables share memory, and every object put in or cloned is in one variable, or was destroyed, or was returned to the caller, exactly once. Once all variables are dropped every object has been destroyed or returned and all memory is freed. For sorted maps the source of a clone or copy must not have held more entries before than now (since init or clear).", "quantifier": "all programs of any length over any number of variables; all elements, keys, values, hash functions and comparisons meeting the container's contract", "why_tests_cant": "tests exercise a few sequences of two variables; ownership errors show only for particular interleavings of move, copy and drop of particular shapes (null, emptied, reallocated)", "anchors": ["include/stc/priv/queue_prv.h:66", "include/stc/priv/queue_prv.h:91", "include/stc/priv/queue_prv.h:97", "include/stc/priv/queue_prv.h:238", "include/stc/hmap.h:144", "include/stc/hmap.h:180", "include/stc/hmap.h:186", "include/stc/hmap.h:331", "include/stc/smap.h:147", "include/stc/smap.h:153", "include/stc/smap.h:165", "include/stc/smap.h:589"]}
{"id": "C104", "title": "Variables of fixed-capacity stacks each own their elements", "statement": "In any program over any number of variables of a stack type with i_capacity N that uses X_init, push, pop, pull, put_n, drop, X_move and X_take(&x, X_move(&y)), every element put in is held by exactly one variable, or was destroyed, or is with the caller (pulled, or refused by a push that returned NULL), exactly once; each variable holds what the same program on lists gives it; dropping all variables destroys what is left. As for growing stacks and all other containers, X_move leaves its source empty, and put_n loses nothing.", "quantifier": "all capacities, programs of any length over any number of variables, all elements", "why_tests_cant": "the fixed and the growing stack share names and documentation; a double destroy shows only when a moved-from inplace stack of owning elements is dropped too, a leak only when put_n overfills", "anchors": ["include/stc/stack.h:53", "include/stc/stack.h:82", "include/stc/stack.h:90", "include/stc/stack.h:156", "include/stc/stack.h:164", "include/stc/stack.h:170"]}
{"id": "C105", "title": "String variables each own their buffer", "statement": "In any program over any number of cstr variables that uses cstr_init, cstr_from_n, the edits of C28, cstr_drop, cstr_move, cstr_clone, cstr_copy, and cstr_take of a moved or a new string or of the variable itself, cstr_replace_sv, cstr_lowercase and cstr_uppercase (of well-formed UTF-8), in which a variable is initialised before use and dropped or moved away before it is overwritten: no freed or unallocated buffer is used and none is freed twice; each variable has the text that the same program on byte strings gives it; no two variables share a buffer; when all variables are dropped every buffer has been freed. Copying, moving or taking a string onto itself keeps it.", "quantifier": "programs of any length over any number of variables, all byte strings up to 2^60 bytes, short or long, realloc moving or not", "why_tests_cant": "the short and the long layout overlap; cstr_take compares the pointer of the old string with bytes of the new one, which are characters or never written when that is short; a test meets an equal value only by chance", "anchors": ["include/stc/priv/cstr_prv.h:127", "include/stc/priv/cstr_prv.h:134", "include/stc/priv/cstr_prv.h:140", "include/stc/priv/cstr_prv.h:145", "include/stc/priv/cstr_prv.h:350"]}
{"id": "C106", "title": "Bit set variables each own their buffer", "statement": "In any program over any number of dynamic cbits variables that uses {0}, cbits_with_size, the changes of one set (resize, set, reset, flip, ...) or of one by another (intersect, union, xor), cbits_drop, cbits_move, cbits_clone, cbits_copy, and cbits_take of a moved or new set or of the variable itself, in which a variable is initialised before use and dropped or moved away before it is overwritten: no freed buffer is used and none is freed twice; each variable has the bits that the same program on bit lists gives it; no two variables share a buffer; every buffer that is not freed belongs to a variable, so when all are dropped all are freed. Copying, moving or taking a set onto itself keeps it.", "quantifier": "programs of any length over any number of variables, all sizes, word sizes 2^lg, realloc moving or not", "why_tests_cant": "whether copy writes in place, replaces or does nothing depends on sizes and pointers; leaks and double frees need particular sequences of moves and takes", "anchors": ["include/stc/cbits.h:158", "include/stc/cbits.h:161", "include/stc/cbits.h:169", "include/stc/cbits.h:175", "include/stc/cbits.h:203"]}
