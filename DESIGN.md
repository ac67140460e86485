# Design: a Rocq model of STC (stclib/STC, headers under /repo/include/stc)

This document is written before the proofs and kept current with them.

## 1. Trusted base

* Coq 8.16.1's kernel (and `coqchk`).
* Per theorem: whatever `Print Assumptions` lists. Every property file prints them right below the theorem. The goal
  is "Closed under the global context" everywhere; any exception is listed in section 5.
* The correspondence between the Gallina definitions and the C text. It is by reading: every definition cites the
  file and lines it transcribes and says what it simplifies. Nothing in the sandbox executes the C code.
* No axioms of our own, no `Admitted`, no functors, no disabled checks.

## 2. How C is modelled

* A C function becomes a total Gallina function returning a new state. Undefined behaviour and resource events are
  *distinct outcomes*, not assumed away: `res A := Ok a | Err e`, with `e` one of `OOB` (access outside the buffer),
  `NullDeref`, `Uninit` (read of a slot that holds no live object), `UseAfterFree`, `AssertFail`, `DivZero`, `Fuel`.
* Arrays are lists of slots with Z indices; each read/write is range-checked and yields `Err OOB` outside.
  So "result is `Ok ...`" is a memory-safety statement for the modelled accesses.
* Loops become structural recursion or recursion on explicit fuel; fuel exhaustion is `Err Fuel` and the theorems
  prove it does not happen.
* `isize` is Z without wrap-around except where wrap-around matters (`random.h`, `hmap.h` hashes, `& capmask`,
  `c_next_pow2`, `cbits.h` words); there `mod 2^64` or bit operations are written explicitly.
* Allocation succeeds (the C code asserts/ignores failures in different ways); where behaviour under failed
  allocation is modelled, the comment says so.
* Element types are a Coq type variable `A`; clone is identity on values; destructors are modelled by logging the
  dropped value where the property is about ownership.
* Preprocessor templates (`priv/template.h`) are modelled by Section variables / function arguments (key type,
  `i_less`, `i_eq`, `i_hash`). Macro plumbing, C++ compatibility, allocators and `c11/fmt.h` printing are not modelled.

## 3. File layout (rocq/theories)

`Base.v` shared outcomes/arrays; for each area `X_Model.v` (transcription), `X_Spec.v` where a separate specification
is useful, `X_Proofs.v`, and `X_Props.v` holding only property theorems (`exact lemma.`), a non-vacuity `Example`
beside each and `Print Assumptions`.

## 4. Per property plan

| id | model | proof idea |
|----|-------|-----------|
| C01,C02 | Vec: slot buffer (option A), size, capacity; push/pop/insert_uninit/erase_n/reserve/resize/shrink/clear + drop log | representation relation to `list A`; induction over histories |
| C03 | iterators of each container as pointer pairs; for-each loop with fuel | proved where the code is right; `_refuted` witnesses for emptied vec/stack, empty cstr/csview, empty crange, zero-size cspan |
| C04 | Stack with i_capacity | refinement; append_uninit at exactly full is `_refuted` |
| C05,C06,C08 | Deque: ring buffer with bit mask | refinement relation `ring_repr` to list, arithmetic mod 2^k |
| C07 | same | `_refuted` with witness |
| C09 | Pqueue over arrays | heap invariant, permutation |
| C10,C11 | same | `_refuted` with witness; positive statement for index 0 |
| C12,C13 | List: heap of nodes (address -> value,next), `last` | cycle predicate; refinement |
| C14,C17 | Sort: in-place array algorithms with Z indices | Hoare partition invariants, permutation, sortedness |
| C15,C16 | same, plus a by-reference pivot variant | `_refuted` with witnesses |
| C18-C23 | Hmap: meta array + slot array, hash truncated, dist limited to 10 bits | robin-hood invariant; refinement to a finite map |
| C24-C26 | Smap: AA tree in a node array | tree-level model and node array refinement, AA invariants |
| C27 | same incl. head/free list/disp | `_refuted` for erase;clone;insert, positive part proved |
| C28,C29,C68 | Cstr: SSO union with explicit buffers | refinement to byte lists; self-assign `_refuted` |
| C30-C33 | byte lists with positions | specification by list functions |
| C34 | signed/unsigned char parameter | proved for unsigned or ASCII, `_refuted` for signed char |
| C35-C38 | Utf8: the DFA with its table, encode, decode | finite checks by computation lifted to all inputs by induction |
| C39,C40 | case mapping as bounded oracle + table model | proved for well-formed input, `_refuted` for ill-formed |
| C41,C42 | byte lists | order laws, memory independence |
| C43-C45 | Cbits: list of 64-bit words (N) | bit-level specification by `N.testbit` |
| C46-C48 | Cspan: shapes/strides/positions as lists | mixed radix arithmetic |
| C49-C51 | Random: Z mod 2^64 | Lemire counting argument, additive counter period |
| C52,C53 | Arc: interleaving small-step semantics; address arithmetic | invariant over all executions |
| C54 | Box history model | ownership invariant |
| C55 | Coption: argv permutation | permutation and termination measure; ambiguity loop `_refuted` |
| C56-C58 | Coroutine state machine, fiber ring, semaphore transition system | invariants over all schedules |
| C59-C62 | Range, filter, utility, next_pow2 | list function semantics |
| C63-C67 | Regex: operator-precedence compiler and list-based NFA simulation | NFA simulation soundness/completeness; classes; `_refuted` for view overrun and empty-match replace |
| C68 | Cstr: getdelim and lines | induction over the input, chunk by chunk |
| C69,C70 | List erase_range, iterators | the circular list cut at two nodes; `_refuted` where an iterator names a freed node |
| C71-C73 | Hmap with drop log, clone, eq | multiset of dropped entries; equality through the finite map |
| C74,C75 | Smap iterators, drop, eq | in-order list of the tree |
| C76 | Vec iterators as indices | index arithmetic, NULL at the end |
| C77 | Random: state machine of the polar method | two-state induction |
| C78 | Cstr with pointers into its own buffer | `Self` arguments; `_refuted` where reserve moves the buffer |
| C79 | case tables of utf8_tab.c | finite checks lifted by table lemmas |
| C80-C82 | Cspan slices, print, equality | index calculations per axis |
| C83 | Cco: program counter over instruction lists | splitting a run at its yields |
| C84 | Recomp with every read and write checked | reads stay before the terminator; instruction count per byte |
| C85-C87 | Regex with FULLMATCH, \b, list bounds | thread invariant for END; witnesses for the rest |
| C88,C89 | Fmt: parser with explicit buffer; stream | grammar of formats in both directions, reader for printf formats; `_refuted` for the buffer and for calls without arguments |
| C90 | Ucd: tables of the file; sets by token | sorted tables; equality with the categories of Unicode 14 (from Python's unicodedata) after joining ranges; `_refuted` for ctype and for the limits of the tables |
| C91 | Regex on programs of Recomp | next links of a program are acyclic and its takers are counted by the tokens; list lengths by counting distinct targets |
| C92 | Own: heap of blocks, several containers, elements with identities | abstract machine on lists; simulation by framing (only the block of the container moves); identities by counting occurrences |
| C93 | Own with an allocator that answers NULL | unfolding; `_refuted` for stack, put_n and pqueue |
| C94 | Own: pqueue's reserve and clone | as C92; `_refuted` where realloc(p, 0) frees |
| C95 | View: hash functions of common.h | inverses of the odd multipliers modulo 2^64, xor and shift cancel; witnesses for lengths and for the word ~0 |
| C96,C97 | Task: instruction lists with the fiber, parent pointers, executor | simulation of a call stack; logs of a resumption; `_refuted` for recovery in the throwing task, for a stopped task and for awaitbits with CCO_NOOP |
| C98 | Lown: several lists over the node heap of List, element identities, nodes held by the client | disjoint parts of one heap, one update lemma for all calls (`only` frames from List); permutation of identities; `_refuted` for splicing a list into itself |
| C99 | Oomq, Oomh, Ooms, Oomc: Deque, Hmap, Smap, Cstr with an allocator that may refuse each request | every operation is the old one or a refusal that leaves the state; relational runs (`run_with`); `_refuted` for deque insert_n, put_n, clone, hmap clone, smap insertion and clone, cstr growth |
| C100 | Hraw, Sraw: Hmap, Smap with explicit conversions to and from raw values | a converted key `stands` for the raw key (same hash, same comparisons), so each step equals the step of Hmap/Smap on converted keys; made objects are read off the result; ownership by permutation on the specification |
| C101 | Hali, Sali, Vali: Hraw, Sraw, Vec with arguments that point to a block owned by, or into, a stored object | equation with the operation on a copy; smap: relinking keeps every value in its node; `_refuted` in general for put of a key's own value and vec put_n without room, by witness for displaced hmap values and vec insert_n |
| C102 | Sum: sys/sumtype.h, the macros as the for, switch, case, break and if statements they expand to, over arbitrary bodies | spec: the chosen arm's body run once; jumping to a label is induction over the arms, falling out of a body meets the break of the next arm; `_refuted` for break in `if (c_is())` and c_or_is after a body |
| C103 | Var: `_move`, `_take`, `_copy`, `_clone`, `_drop` of queue, deque, hmap, hset, smap, sset on several variables over a heap of blocks; the container model is a parameter, instantiated in Varc | spec: a list of values, each variable owning one or none; one invariant (owners loadable, no shared block, no lost block, objects counted) proved once for any container that meets step, clone and drop contracts, then instantiated from the C lemmas of each container; `_refuted` for double drop, use after drop, overwriting an owner |
| C104 | Fvar: stack.h with i_capacity on several variables: the elements are in the struct, `_move` copies it, `_drop` is `_clear`, `_put_n` ignores refusals | spec: a list of values, a moved-from variable owns nothing; one step at a time over the C04 lemmas; `_refuted` for move then drop of both, self-take, put_n beyond the capacity |
| C105 | Svar: several cstr variables over a heap of buffers; a short string is in the variable; cstr_take compares the old pointer with the first 8 bytes of the new string (`looks`, any function) | spec: a list of byte strings; invariant with the set of live buffers that no variable owns, changed by detach, attach, allocate, write, free; values over the C28, C29 lemmas; `_refuted` for a short string with the bytes of the address (leak) and for unwritten bytes compared |
| C106 | Bvar: several cbits variables over a heap of buffers, {NULL, 0} after a move; take and copy compare the pointers | spec: a list of bit lists; the invariant and its five moves as for C105; values over the C43, C44 lemmas |

Properties that the code violates are stated as users expect them, refuted by a concrete witness (`..._refuted`), and
the part that does hold is proved under an explicit precondition (`..._partial` if it is less than the full claim).

## 5. Status and assumptions

**Assumptions.** `Print Assumptions` answers "Closed under the global context" for every theorem named in
`MANIFEST.json` (each `*_Props.v` file ends with these commands). No axiom of the standard library is used.
The tables of general categories in `Ucd_Spec.v` are part of a specification and come from Python's unicodedata 14.0.0
(`tools/ucd.py spec`); they are trusted as far as C90 speaks of Unicode.
Computation inside proofs uses `vm_compute` and `reflexivity`, so the kernel's VM is part of the trusted base.

**What the status means.** `proved`: the statement in `properties.jsonl` holds of the model as stated there.
`partial`: something is missing or the code violates the statement; the note in `MANIFEST.json` says which. Theorems
ending in `_refuted` give a concrete run on which the code does not do what the property says; those ending in
`_partial` prove the property under an extra hypothesis.

**Which code is modelled.**

| model | source | not modelled |
|-------|--------|--------------|
| Vec, Stack, Deque, Pqueue, List | vec.h, stack.h, priv/queue_prv.h, queue.h, deque.h, pqueue.h, list.h | `_emplace*` and raw conversions (identity), `_cmp` of list; `_put_n`, `_from_n` of queue, deque; failing allocation except in C93 |
| Own | vec.h, stack.h, pqueue.h: construction, growth, clone, copy, move, take, drop over a shared heap | element order of pqueue (in Pqueue), fixed-capacity stack (in Stack), `_insert_n`/`_emplace_n` (in Vec) |
| Lown | list.h: construction, splicing, splitting, clone, copy, move, take, drop, unlinked nodes over one heap of nodes | `_sort` (in List), failing allocation, reuse of addresses |
| Oomq, Oomh, Ooms, Oomc | the allocation failure paths of queue_prv.h, deque.h, hmap.h, smap.h (insertions, reserve, clone), cstr_prv.c (reserve, append_n, assign_n, resize, shrink_to_fit, from_n) | other callers of cstr_reserve, smap histories with earlier refusals |
| Hraw, Sraw | hmap.h and smap.h with `i_keyraw`, `i_valraw`: lookups, insertions, emplacements, erase, put_n, from_n, lower_bound | get_mut, erase_at and erase_range through raw keys (erase_range of smap compares key objects with memcmp: C25); raw values are plain values here |
| Hali, Sali, Vali | emplace, put, insert_entry of hmap.h and smap.h, put_n and insert_n of vec.h with arguments inside the container | other functions with such arguments; destroyed short strings are taken to keep their characters |
| Sum | sys/sumtype.h: c_sumtype tags, c_variant, c_when, c_is in both forms, c_or_is, c_otherwise, c_tag_index, c_holds | preprocessor expansion (c_LOOP, c_EVAL), goto, types of payloads (one type, with the member last written) |
| Var, Varc | `_move`, `_take`, `_copy`, `_clone`, `_drop`, `_init` of priv/queue_prv.h, hmap.h, smap.h on several variables; all operations of Deque_Model, Hmap_Model, Smap_Model on each | a container's arrays (hmap: table and meta) are one block; whether an operation keeps its block is a parameter; plain struct assignment, and `_take` of anything but a moved variable; failing allocation |
| Fvar | stack.h with i_capacity: init, push, pop, pull, put_n, drop, move, take on several variables | from_n (init and put_n), append_uninit on several variables; raw conversions |
| Svar | priv/cstr_prv.h: cstr_init, from_n, drop, move, clone, copy, take, replace_sv, lowercase, uppercase and the edits of Cstr on several variables; 64 bit | edits with an argument inside another variable are edits with that text |
| Bvar | cbits.h, dynamic size: with_size, drop, move, take, clone, copy, and the changes of Cbits by one or two sets, on several variables | with_pattern and from as the source of a variable (C43); failing allocation; malloc(0) and memcpy of 0 bytes from NULL are taken to work |
| Hmap | hmap.h, hset.h | tables above 2^31 buckets only through the growth arithmetic |
| Smap | smap.h, sset.h | level overflow (excluded by C26) |
| Sort | sort.h, priv/sort_prv.h | nothing known |
| Cstr, View | cstr.h, csview.h, zsview.h, priv/cstr_prv.* | `cstr_printf` formatting (vsnprintf), 32 bit layout, stdio errors |
| Utf8, Utf8_Tab | utf8.h, priv/utf8_prv.*, utf8_tab.c | nothing known |
| Ucd | priv/ucd_prv.c | nothing known; the matcher theorems keep the sets as a parameter, C90 puts `u_set` there |
| Cbits | cbits.h | `cbits_strndup`-like output buffers beyond what is cited |
| Cspan | cspan.h | `cspan_print` formatting of elements (a parameter); isize overflow |
| Random | random.h | floating point rounding (reals are rationals with an explicit rounding function, or are not looked at) |
| Arc, Box | arc.h, box.h | weak memory (arc.h uses sequentially consistent atomics), hashing and comparison forwarding |
| Opt | coption.h | nothing known |
| Cco, Fiber, Sema, Task | coroutine.h | `cco_resume_task`, `cco_cancel_task` called inside a task, freeing of tasks, timers, `cco_each`, `cco_flt_take*` |
| Range, Filter, Util | common.h, sys/crange.h, sys/filter.h, sys/utility.h | macros that only rename |
| Regex, Recomp, Resub | cregex.h, priv/cregex_prv.c | `cregex_drop`, moving the program in `_optimize` |
| Fmt | c11/fmt.h | printf's formatting itself (a reader of its formats only), `fmt_time`, failing allocation |
| - | types.h, template headers | not modelled |

**Findings.** Where the code does not satisfy a property, the `_refuted` theorem is the record. The more serious ones:
`shrink_to_fit` of an empty pqueue leaves a dangling buffer with glibc (C94);
a match can write behind the thread list on the stack (C87); the first `cregex_match_next_sv` ignores the end of its
view and the fast start reads behind a view (C66); an empty match makes `cregex_replace` repeat the template at one
place (C67); deque, pqueue, sort and string operations with aliased or out-of-range arguments (C07, C10, C11, C15,
C16, C29, C78).
