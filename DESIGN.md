# Formal model of ETLCPP/etl in Rocq (Coq 8.16.1) — design

## Trusted base
* Coq's kernel (8.16.1) and the standard library. `Print Assumptions` under every property
  theorem is expected to print `Closed under the global context` (exceptions are listed per theorem below).
* The reading of `/repo/include/etl/*.h` into Gallina. Every definition carries a citation `file: lines`.
  The code is not run here; nothing but that reading ties model to code.
* C++ semantics as encoded in the models: machine integers are `Z`/`N` with explicit `mod 2^w` where a
  property depends on wrap; `nat` otherwise. Undefined behaviour (reading an unconstructed object,
  constructing over / destroying a dead object, out of range index, data race) is a distinct outcome.
* `ETL_ASSERT` is modelled in the exceptions configuration (a failing assert throws, ending the call) unless a model says otherwise.

## Conventions
* `theories/<X>Model.v` : executable model with citations. `<X>Spec.v` (or a section at the top of `<X>Props.v`): the small
  independent specification. `<X>Proofs.v`: proofs. `<X>Props.v`: only the property theorems, their non-vacuity
  `Example`s and `Print Assumptions`.
* Names ending `_partial` prove part of a property; `_refuted` exhibit a state where the (unchanged) code violates
  the English property.

## Plan per property
| id | model | proof technique |
|---|---|---|
| C01-C03 | queue_spsc_atomic as two threads over a view-based release/acquire memory with race detection | invariant over all schedules and stale reads |
| C04-C05 | bip_buffer on the same memory machine; index arithmetic with wrap of the size type | invariant; witness for overflow |
| C06 | ipool over byte-addressed blocks, free list stored in the blocks | invariant + refinement to a set of free blocks |
| C07, C08 | ring of optional slots (constructed or not) | refinement to list |
| C09, C10 | arrays of slots with element moves | refinement to list |
| C11 | string as char array with capacity and truncated flag | equation with firstn of the untruncated result |
| C12, C13 | heap of nodes with next/prev | separation style invariants, refinement to list |
| C14, C15 | AVL tree with the kLeft/kRight/kNeither weights, iterative insert/remove with critical node | refinement to sorted association list, balance invariant |
| C16 | bucket array with first/last markers | refinement to a finite map |
| C17 | sorted vector with lower_bound | refinement |
| C18 | array heap, push_heap/adjust_heap loops | heap invariant, permutation |
| C19 | encoder/decoder state machines over Z bytes | round trip by induction over groups |
| C20 | table driven step and bitwise spec over N | table correctness by complete finite computation lifted by linearity |
| C21, C22 | buffer + bit/byte cursor | round trip by induction over the fields |
| C23 | N/Z functions with explicit width | Z.testbit extensionality or complete sweep where finite |
| C24 | digit loops | induction |
| C25 | timer array + delta list with uint32 wrap | refinement to absolute due times |
| C26, C27 | event log of user callbacks (arbitrary functions) | induction on fuelled loops, exact log |
| C28-C30 | linked subscription lists, vectors, reference counts | refinement to lists / invariant |
| C31, C32 | loops over arrays | sortedness + Permutation, specification lemmas |
| C33-C36 | direct | arithmetic |
| C37 | lock based small-step machine | simulation |
| C38-C42 | direct | refinement |
| C43, C46 | CRC, checksums and hashes as functions on bit vectors / words | linearity over GF(2), injectivity of the steps |
| C44, C47, C55 | string buffer with its bytes beyond the end; searches, comparisons and text utilities as loops | loop invariants against list specifications |
| C45, C52, C57 | direct, with the width of the types | arithmetic; periods by exact powers of the step (matrices over GF(2), orders in Z/p) |
| C48 | transition table and state table, callbacks as an event log | induction on events |
| C49-C51 | nodes and links in an explicit heap, pool of nodes, lifetimes | representation invariant, refinement to lists |
| C53, C54, C58, C60 | direct, as loops over integers | invariants over any number of calls |
| C56 | small steps of a timer call, a tick may interrupt at each | simulation: before or after |
| C59, C61 | records and sequences of the code | invariant over histories, refinement to lists |
| C62, C63 | array / buffer with checked accesses and lifetimes | pointwise description of the move loops; refinement to lists |
| C64 | memory as bytes, both byte orders of the machine | reuse of the bit level theorem on reverse_bytes |
| C65, C66 | flags: the operators as written on unbounded naturals with an explicit mask; memory_block_allocator chain: one free list per block allocator and a successor link | bitwise case analysis; invariant over every history of allocate and release |
| C67 | services at addresses in memory, table entries that are a handler or bound to a service | invariant over every history of all services |
| C68 | one step of the filter on a bounded integer type | induction over the values, against the exact filter in fractions |

This table is refined as the components are modelled; see `Status` at the end (kept current with MANIFEST.json).

## Status (generated from MANIFEST.json and the sources)

### Assumptions

`Print Assumptions` was run on every theorem named in MANIFEST.json: 627 of 627 are `Closed under the global context` — no axioms, of the standard library or otherwise, are used.
(The axioms `Coq.ssr.ssrunder.Under_rel.*` and `mathcomp.*` that a global listing of the loaded libraries shows are fields of module types of ssreflect and mathcomp; none of these theorems depends on one.)

### Properties

| id | status | theorems in | what is modelled and proved, limits, findings |
|---|---|---|---|
| C01 | proved | SpscProps | queue_spsc_atomic is FIFO without loss or duplication: queue_spsc_atomic on a two-thread release/acquire machine; all schedules and stale reads |
| C02 | proved | SpscProps | queue_spsc_atomic never races on an element and respects object lifetimes: race detection and object lifetimes built into the machine |
| C03 | proved | SpscProps | queue_spsc_atomic push/pop failures are truthful:  |
| C04 | proved | ?, BipProps | bip_buffer_spsc_atomic delivers the committed stream in order: Proved on a release/acquire memory model for every schedule, capacity and request as long as the writer wraps around at ascending positions, and without that hypothesis for clients writing blocks that divide the capacity. FINDING: the commit that wraps around (bip_buffer_spsc_atomic.h 281-285) does not store last; a second wrap-around at a lower position leaves the marker stale and the reader is given elements nobody wrote (C05_wrap_lower_refuted: the claim without the hypothesis is false). |
| C05 | proved | ?, BipProps | bip_buffer reservations are in range and exclusive: As C04. FINDING 2: write_reserve_optimal behind a wrap-around adds the maximum of size_type to the write index; when size_type is as wide as int the sum wraps and the span returned has the maximal size (C05_optimal_refuted). |
| C06 | proved | PoolProps | pool hands out disjoint, in-range, unused blocks: byte level memory; double release of a held block is outside the client contract (ETL does not detect it) |
| C07 | proved | CircProps | circular_buffer keeps exactly the most recent N items: refinement of the slot-level code to a list truncated to its last N items; object lifetimes tracked |
| C08 | proved | QueueProps | queue is a bounded FIFO: every history of one queue, and copy between queues of the same type. FINDING: assigning between queues of different capacity through iqueue& reads outside the source contents (refuted with a witness; queue.h clone() wraps the source index at the capacity of the target) |
| C09 | proved | DequeProps | deque behaves as a double-ended bounded sequence: Every history of all member functions (push/pop, insert/emplace single, n, range, erase, resize, assign, fill, clear, at, [], front, back, forward and reverse iteration) agrees with the sequence specification, any capacity and seam position; iterator arithmetic; move assignment. FINDINGS (refuted): erase(end()) passes the range check and is undefined; insert(pos,n,v) capacity check wraps; assign(range) is not checked without ETL_CHECK_PUSH_POP; inserting an own element by reference inserts the wrong value; empty insertions self-move elements. |
| C10 | proved | VecProps | vector behaves as a bounded sequence: vector.h on uninitialised slots with object lifetimes, arbitrary moved-from values, every history of 15 operations. FINDINGS: insert(pos, v[i]) with i > pos inserts v[i-1] (aliasing); empty erase/insert self-move-assigns the tail; size()+n wraps in insert(pos,n,x); move assignment that does not fit leaves partial content; push_back unchecked without ETL_CHECK_PUSH_POP; assign(range) unchecked outside debug builds. Not modelled: uninitialized_resize, pointer specialisation, element constructors that throw. |
| C11 | proved | ?, StrProps | string operations truncate, never overflow, and flag truncation: Every operation, text, capacity, position and count, except the calls excluded by `safe`; for each of these a _refuted theorem. The flag is sticky for append/insert/replace/resize/push_back (StrSpec.flag). FINDINGS: assign(string, subposition, sublength) does not limit sublength to the source and copies stale characters or reads out of bounds; erase(position > size()) is not checked and corrupts the size; counts near the maximum of size_type wrap in insert/append and in insert(position, string, subposition, sublength). Operations of a string on itself are not modelled. |
| C12 | proved | ?, ListProps | list behaves as a sequence with consistent links: list.h at the level of node pointers, for any number of lists over any pools (own or shared), every history of 32 operations (push, pop, insert, erase, resize, assign, splice, merge, sort, unique, reverse, remove_if, move, iteration both ways). FINDINGS: splice(to, list&&) of a whole list reverses the elements; splice of an empty range inside a list loses elements; splice and merge between lists of one pool need free nodes and throw list_full. Not modelled: forward_list; exceptions thrown by element constructors. |
| C13 | proved | IntrProps | intrusive links: link/splice/unlink maintain a well-formed chain: Chains and rings of any length in one heap of nodes, each theorem with its frame (which nodes are left alone). intrusive_forward_list and tree_link are not modelled. FINDINGS: unlink(first, last) clears the last node, so intrusive_list::splice of a range of two or more elements leaves the last one with a null previous link (reverse iteration stops, pop_back destroys the list); splice of an empty range damages both lists; splice(position, list, it) with position == next(it) links the element to itself; assign() leaves the old elements linked so that no list accepts them. |
| C14 | proved | MapProps | map/set behave as ordered finite maps: map.h and set.h at the level of node pointers (the code of the two is the same but for insert): every history of 20 operations from a fresh container over any pool whose nodes hold garbage; every strict weak order. FINDING: map::insert of a present key throws map_full when the map is full (set::insert does not). Not modelled here: multimap and multiset, move assignment. |
| C15 | proved | MapProps | map/set trees stay height balanced: After every history the tree read off the node fields is an AVL tree with exact weights, height bounded by the Fibonacci bound and by 2*log2(n+1)+1, look-up ends after height+1 steps. |
| C16 | proved | UmProps | unordered_map/set behave as finite maps: unordered_map.h and unordered_set.h at the level of nodes, buckets and first/last marks; every hash function respecting the key equality (total collision included), bucket count, capacity and history of 17 operations; iterator and range erase in every reachable state. FINDINGS: insert of a present key returns (end(), false); unordered_map::insert of a present key reports full when full; after erasing one of several elements of the last bucket the last mark is wrong and erase(it, end()) runs off the bucket array; an end iterator reached by ++ cannot be used as the end of a range to erase. Not modelled: unordered_multimap/multiset, move assignment, load_factor. |
| C17 | proved | FlatProps | flat_map/flat_set stay sorted and unique: All four flat containers over the lookup vector and block pool; every history over every strict weak order, capacity and allocation policy. FINDING: flat_set::emplace of a present value returns (end(), false); emplace on a full container asserts even for a present key, insert does not. |
| C18 | proved | PrioProps | priority_queue always yields the greatest element: every history of calls against a multiset; the vector underneath is a list of capacity N |
| C19 | proved | Base64Props | base64 decode inverts encode: against RFC 4648 stated on bits; FINDINGS: callback decoder needs Buffer_Size multiple of 3 (not asserted); encoder restart() keeps the overflow flag; after an overflow exception the next encode() writes out of bounds; a trailing single character is ignored |
| C20 | proved | CrcProps | CRC implementations compute the mathematical CRC: all 48 parameter sets of crc_parameters.h and crc1, all three table sizes, every split into calls; parameters compared with the published catalogue values |
| C21 | proved | BitStreamProps | bit_stream reader inverts writer: bit_stream_writer/reader and the old bit_stream. FINDINGS (refuted with witnesses): writer skip is wrong unless byte aligned and can run past the end; after a skip into a non-zero byte old bits show through; empty() compares bits with bytes; write(v,0) divides by zero; the callback at exact fill reads one byte past the buffer; flush with nothing pending emits a byte; a failed get of a signed type truncates the variable of the caller |
| C22 | proved | ByteStreamProps | byte_stream reader inverts writer: all histories, any machine byte order. FINDING (refuted): write(bool) does not call the callback. Not modelled: write_unchecked called directly past the end, restart beyond the capacity |
| C23 | proved | BinaryProps | bit manipulation functions compute their mathematical definition: every value of every width; the code is wrong at some widths and the exact result is proved there. FINDINGS (code of binary.h without C++20 STL): count_leading_zeros<uint64> gives 32 when 33..35 (so bit_width, bit_ceil, bit_floor of 2^28..2^31-1 are wrong), count_leading_zeros of signed calls count_trailing_ones, count_leading_ones 32/64 and count_trailing_ones 64 saturate, has_single_bit(0), rotate/gray of negative values, reverse_bits_const<int8_t>, signed interleave |
| C24 | proved | ConvProps | to_string and to_arithmetic are inverse on integers: Exact text of every integer / bool / denominated integer (any base >= 2, width, fill, justification, case, prefix) and exact result of to_arithmetic for every text of 8 bit characters and every 8..64 bit type; round trip. Floating point conversions and truncation by a too small string are not modelled. FINDINGS (refuted): the sign of negative values is lost in bases 2/8/16; 64 bit types other than int64_t/uint64_t are cut to 32 bits; wide characters are cut to 8 bits when parsed; rounding of denominated values can overflow; "-0". |
| C25 | proved | TimerProps | callback_timer fires each timer at exactly its due time, in order: all eight timer headers, re-entrant callbacks of any behaviour; FINDINGS: message_timer*.h unregister shifts later timers; the atomic/interrupt/locked variants mishandle stop/start of a timer from its own callback; a repeating period of 0 never terminates |
| C26 | proved | FsmProps | fsm runs exit/enter actions in order and ends in a stable registered state: Every user behaviour (arbitrary state-passing functions) and every history; not modelled: user functions that call the machine again. FINDINGS: start() follows changes asked for by on_enter_state without calling on_exit_state; chained enters may never end; the change asked for by the enter action of a self transition is ignored; with 254 states and 8-bit ids the last id is Self_Transition. |
| C27 | proved | HfsmProps | hfsm transitions exit up to and enter down from the least common ancestor: Every finite forest of states, every behaviour, every history; also process_event dispatch to the parents. FINDINGS: a transition to an ancestor enters it again without exiting it; Self_Transition raises fsm_state_id_exception in hfsm; the C++17 and C++03 dispatchers differ for a top level state that passes an event on. |
| C28 | proved | MsgProps | message_broker / message_bus / message_router deliver to exactly the subscribers: Bus and broker: every history of subscribe/unsubscribe/clear/send over arbitrary routers (virtual interface); broker on real next pointers, any initial garbage. FINDINGS: a message addressed to MESSAGE_BUS is delivered twice below nested buses; an addressed message is not passed to the successor of a plain router. The bus delivers by ascending router id, ties in subscription order. |
| C29 | proved | ObsProps | observable notifies each enabled observer exactly once in order of registration: All histories of add/remove/enable/disable/clear/count/notify. FINDING: removal (or clear) from inside a notification skips the next observer / runs the iterator past the end. |
| C30 | proved | SharedProps | shared_message releases its pool block exactly when the last reference goes: All allowed histories of handle operations (incl. persistent messages, allocation failure) and all interleavings of threads on the atomic counter. FINDING: copying from or assigning to a moved-from handle dereferences null. |
| C31 | proved | SortProps | sort algorithms sort: every strict weak order, every list, three iterator categories; the configuration without the STL (with it etl::sort is std::sort). FINDING: selection_sort of an empty range is undefined |
| C32 | proved | AlgoProps | search and rearrangement algorithms meet their specification: the functions of algorithm.h in the branch that does not call std. FINDINGS (refuted): max_element returns the last, minmax_element the first greatest (std: the other way); is_permutation with two ends ignores the length of the second range, its predicate versions count with ==; rotate(first, first, last) returns first |
| C33 | proved | CyclicProps | cyclic_value stays in range and advances modulo the range: Static and dynamic forms, every history; advance(INT_MIN) (overflowing -n) excluded. Ranges with first > last excluded. |
| C34 | proved | DebounceProps | debounce changes state only after the configured number of consecutive equal samples: All four class templates; every configuration of counts and every sample sequence; reports, is_set/is_held/is_repeating/has_changed. FINDING (refuted): lowering the counts of a dynamic debouncer with set() below the streak already counted loses the change, because the count is compared for equality. |
| C35 | proved | SchedProps | scheduler policies run the right tasks: Arbitrary world state changed by the tasks; task list fixed during a pass; start() up to the iteration that sees exit. FINDING (refuted): a scheduler that was asked to exit can never be started again. |
| C36 | proved | MathProps | compile time and run time integer mathematics is exact: gcd/lcm of any number of values of any width (run time); power/log/sqrt/... are the template recursions with 64 bit wrap around. The depth of instantiation the compiler allows is not modelled. FINDINGS (refuted): gcd with the minimum of a signed type can be negative; power_of_2_round_down halves exact powers of two; power_of_2_round_up<1> is 2; is_power_of_2<1> is false; combinations<23,17> is wrong although the result fits (the intermediate n!/(n-k)! does not). |
| C37 | proved | LockedProps | locked queues (mpmc_mutex, spsc_locked, spsc_isr, lockable) are linearizable bounded FIFOs: Interleaving of every access to a shared variable by any number of threads; interrupts (xxx_from_isr / xxx_from_unlocked) run to completion while the lock is free, as the documentation requires. The C++ memory model is covered by the absence of data races. lock() is assumed to give mutual exclusion. FINDING (refuted): the reference returned by front() is used outside the lock and can dangle before the call even returns. |
| C38 | proved | BloomProps | bloom_filter has no false negatives: One to three hash functions, any width, on the bitset model of C39; C38_exact characterises the false positives and count() exactly. |
| C39 | proved | BitsetProps | bitset operations equal the mathematical bit vector: Single and Multi storage, 8/16/32/64 bit elements, any N, any history over any number of bitsets. FINDINGS (refuted theorems): flip(), ~, << and construction from a number never clear the unused bits of the last element, so for N not a multiple of the element width count/any/none/==/value/>> give wrong results afterwards; shifts by a multiple of a 32/64 bit element width (even 0) shift by the operand width (undefined); find_next with 64 bit elements builds its mask in int; empty text on a one element bitset and the wrapping range check of extract are undefined. The positive theorems name exactly the remaining conditions (clean, find_fine, shl_fine, shr_fine). bitset_ext (external buffer), wchar/char16/char32 texts and bit_reference proxies are not modelled separately. |
| C40 | proved | CrcProps, HashProps | incremental hashes and checksums do not depend on chunking: Every history of add(range) / add(byte) / reset / value: the value is the given function of the bytes since the last reset, and hash_finalised is raised exactly by an add after value() (jenkins, murmur3). murmur3<uint32_t> is proved equal to MurmurHash3_x86_32. CRCs: C20. FINDINGS (refuted): murmur3 fed through signed char iterators gives another hash for bytes above 127; pearson::reset() does not restore the initial state (first stays false). |
| C41 | proved | OptProps, VntProps | optional/expected/variant hold exactly the last assigned alternative: optional (both storages, all comparison operators), variant (any list of types, duplicates allowed) and expected over unbounded histories on any number of variables, constructors throwing included where the specification covers them. FINDINGS proved: assigning an optional/variant a reference to its own content is undefined; a throwing constructor on an engaged optional/any variant leaves the flag/index over a destroyed object; get<I>(variant&&) does not check the index; expected<T,T>(unexpect, e) holds a value. Not modelled: etl::visit (free function), expected<void,E>, monadic operations. |
| C42 | proved | MspanProps, ViewProps | string_view, span and multi_span never step outside the viewed range: Proved for every array, view, position and count inside the documented preconditions. FINDINGS (each a refuted theorem): remove_prefix/remove_suffix with n > size() leave a broken view; find with position > size() leaves the range; the empty text is not found at size(); rfind counts the END of the occurrence against position and returns position instead of npos when position < size() and nothing is found; span first/last/subspan do not check their arguments; a fixed-extent span ignores the end of the range it is made from; multi_span operator[] reads behind the span list for i >= size(); --end() of a multi_span with an empty last span steps outside. |
| C43 | proved | CrcProps | every library CRC detects every burst error up to its width:  |
| C44 | proved | ?, StrProps | a secure string leaves no characters behind: FINDING: uninitialized_resize() to a smaller size leaves the old characters of a secure string in the buffer. |
| C45 | proved | RoundProps | rounding of scaled integers gives the documented integer: Every signed or unsigned type of >= 8 bits, every SCALING >= 2 that fits scale_t, value +- SCALING representable in the common type. FINDINGS (refuted): round_ceiling of a non-negative exact multiple, round_floor of a negative exact multiple and round_infinity of any exact multiple are off by one. |
| C46 | proved | HashProps | hashes and checksums notice every changed byte: For all widths and seeds; parity_checksum, which only notices an odd number of changed bits, is covered by its closed form C40_parity_checksum. |
| C47 | proved | StrFindProps | string searches and comparisons give the answer of the text: Exact results for every overload. FINDINGS (refuted theorems): find with pos + \|text\| beyond size_t searches outside the buffer; find(s,pos,n) tests strlen(s) instead of n; find(c,pos) with pos > size() is undefined; the empty text is not found at size(); rfind counts the end of the occurrence (std: the beginning) and rfind(view) starts at 0 by default, so never finds anything; compare(pos,len,view/text) neither checks nor cuts; starts_with(text longer than the buffer) leaves it and starts_with(view with a terminator inside) matches old characters behind the end. |
| C48 | proved | SchartProps | a state chart takes the first enabled transition and keeps entry and exit paired: All tables, events, guards and callbacks that do not call the chart; termination also for those that do. FINDINGS: run-time tables keep their size in uint_least8_t, so of 256+k transitions only k are seen; process_event from an exit callback is overwritten by the outer call. set_transition_table from inside a callback is not modelled. |
| C49 | proved | FwdProps | forward_list behaves as a sequence and leaks no node: One list with its own pool, or with a pool shared with others (whose nodes stay as they are). FINDINGS (refuted theorems): insert_after(pos,n,v) inserts what fits and reports nothing; erase_after(first,first) returns end(); move_after of an element to just behind itself loses it (and its node); move_after of an empty range loses all elements between the two places; move_after(first,last,last) does nothing. Moving between two lists is not modelled. |
| C50 | proved | UmmProps | unordered_multimap and unordered_multiset keep every element, grouped by key: UmmSpec/UmmModel/UmmProofs/UmmProps; the state of the specification is the list that iteration meets, so order claims are exact (position of a new element free except before older equal ones). FINDINGS: unordered_multimap::erase(key) and unordered_multiset::erase(key) use the key reference after the element it may refer to was destroyed and returned to the pool; range erase up to end() fails as in C16. |
| C51 | proved | MmProps | multimap and multiset behave like a list sorted by key, equal keys in insertion order: MmModel/MmSpec/MmTree/MmIns/MmDel/MmRem*/MmFind/MmProofs/MmProps; one model for multimap.h and multiset.h (same code). FINDING: erase(iterator) on an element that is not the first of its key can break the order: after inserting (1,a) (1,b) (1,c) (0,d), erasing the iterator to (1,b) leaves the iteration (1,a) (0,d) (1,c) (C51_erase_any_iterator_refuted); so C51_history covers erase(iterator)/erase(first,last) when the first iterator is at the first element of its key; erase(key), clear and assign are covered without restriction. The hint argument of insert is ignored by the code and not modelled. |
| C52 | proved | MidProps | midpoint never overflows and gives the middle: Integer, pointer, random access and forward iterator overloads; floating point is not modelled. FINDING (refuted): for signed types narrower than int with a < 0 <= b the result is off by half the range of the type (midpoint<int8_t>(-1, 1) is -128): line 127 lacks the cast to utype that line 123 has. The exact result is proved for every pair. |
| C53 | proved | HistProps | a histogram counts every key once, under its own key: Unsigned count types of any width. flat_map inside sparse_histogram is its sorted list (C17 proves flat_map). FINDINGS (refuted): copying a histogram whose start is given at run time leaves the start of the copy uninitialised, assigning it keeps the old start; sparse_histogram end() and cend() return begin(), so iterating visits nothing; sparse_histogram::count() sums in the count type and wraps. |
| C54 | proved | MrangeProps | a nest of multi_ranges is the nested loops: Any depth, any value type, any steppers and comparisons; every inner loop has at least one value. FINDINGS (refuted): an inner range without values does not make the nest empty: the body is executed and, with the default comparison, the loop never ends; insert does not notice that the inserted range (or the end of its nest) is already in the nest: the links become a cycle and number_of_ranges, start and next never end. |
| C55 | proved | SutilProps | string utilities do what their names say on every text: string_utilities.h. FINDINGS: left_n_view of an empty view dereferences its end; replace_strings with an empty old and an empty new text never ends, with an empty old and a non-empty new text it overwrites the string. |
| C56 | proved | TisrProps | a tick that interrupts a timer call takes effect before or after the call: All eight timer headers. The serial theorem leaves out exactly one point inside stop / unregister_timer / set_period / set_mode (and the unlocked time_to_next of callback_timer.h) for single-shot timers. FINDINGS: at that point - is_active() is looked at before the lock is taken - a tick in which the single-shot timer expires makes the call unlink a timer that is not in the list and write out of bounds, in all eight headers; time_to_next of callback_timer.h reads element 255. Callbacks that call the timer from the interrupting tick are not modelled here (they are in C25). |
| C57 | proved | RndProps | the pseudo random generators keep to the interval and have their full period from every seed: All six generators. The period of random_xorshift is proved by evaluating polynomials over the field of two elements modulo the characteristic polynomial of the step (all prime factors of 2^128-1, proved prime, are tried). FINDINGS: range(0, 0xFFFFFFFF) divides by zero in every generator; random_lsfr shifts before it tests the low bit, so all its numbers are even (range(n, n+1) is always n) and the seeds 0 and 1 give only zeros; random_lcg / random_clcg form a*value in a uint32_t, which overflows: the recurrence is not the multiplicative one, a seed in range leads to zeros for ever and the second half of random_clcg falls into cycles of 52; random_mwc gives only zeros for seed 0 and one frozen half for the four seeds p1, p2, 2*p2, 3*p2. |
| C58 | proved | BresProps | a bresenham line is the line between its two points: For int16_t coordinates and working values and lines of at most 10922 units. C58_passes is what holds of every line whose two distances differ. FINDINGS: a line at exactly 45 degrees never reaches its last point, the loop never ends; a line steeper than 1:2 begins with a wrong point on the first pass (the flag starts false whatever the balance) and is up to a unit behind, while the second loop over the same object gives the correct points, because begin() resets the coordinate only; after an abandoned loop the next one can miss the last point; distances above 16383 overflow the default work type. |
| C59 | proved | BufdProps | buffer_descriptors lends each buffer to one holder at a time: FINDINGS: allocate looks at the next buffer in turn only, so after releases out of order it refuses although all other buffers are free (proved for every number of buffers); a descriptor keeps pointing to its buffer after release(), so a second release takes the buffer from its new holder. Also noted: is_allocated, is_released and release on an invalid descriptor (what a failed allocate returns) dereference null. |
| C60 | proved | CitrProps | a circular_iterator counts modulo the length of its range: Signed overflow, division by zero and leaving the range are None in the model, so the theorems say that none of them happens. FINDINGS: on an empty range += divides by zero and ++ / -- leave it; -= with the smallest ptrdiff_t overflows. |
| C61 | proved | RegProps | the message router registry finds, counts and walks exactly the registered routers: FINDING: contains(router) compares the first router with its id only. With unique ids it is exact (C61_unique); when two routers share an id, the second is reported as not registered and add() accepts it again (C61_same_id_refuted). Also noted: add() of a router that is present raises message_router_registry_full although the comment says the call has no effect. |
| C62 | proved | ArrProps | array insert, erase and assign move exactly the elements behind the position: Accesses outside the array are None in the model. FINDINGS: insert(end(), value) and erase(end()) leave the array (a vector accepts end() in insert); inserting a reference to an element at or behind the position inserts its predecessor; inserting an empty range and erasing an empty range move every element behind the position onto itself, which empties it for types that do not guard against that. |
| C63 | proved | StackProps | stack is a bounded LIFO that respects object lifetimes: FINDINGS: pop_into() on an empty stack reads raw memory before the check of ETL_CHECK_PUSH_POP; assigning from a larger istack that does not fit leaves the first CAPACITY elements and raises stack_full. |
| C64 | proved | UnalProps | unaligned_type holds its value in the declared byte order on every machine: FINDING (noted): unaligned_type.h tests ETL_HAS_CONSTEXPR_ENDIANESS, a misspelling of ETL_HAS_CONSTEXPR_ENDIANNESS; the branch it would select has the comparison inverted (== instead of !=), so defining the misspelt macro would reverse every byte order. The compiled branch is the one modelled. |
| C65 | proved | FlagsProps | flags is a set of the flags of its mask: Every width, MASK and sequence of calls. The template versions of the calls compute the same expressions. |
| C66 | proved | MbaProps | a chain of memory block allocators hands out each block to one holder, from the first allocator that can: The pool inside an allocator is abstracted to its set of free blocks (C06 proves the pool). A release of a block that is not held is a precondition violation (the pool does not detect it); cyclic successor chains are excluded (the code would recurse forever). |
| C67 | proved | DsvProps | delegate_service and callback_service call the handler that was registered last: Offset + Range below 2^64. Handlers are opaque (calling an empty delegate is not modelled). FINDINGS: the table of a copy keeps the default entries of the original: an id in range without a handler goes to the unhandled handler of the original, and after the destruction of the original the call uses a dead object (C67_copy says exactly what a copy does); for ids up to the largest size_t the sum Offset + Range is 0 and no handler is ever called. |
| C68 | proved | PmaProps | pseudo_moving_average stays between its inputs and close to the exact filter: Integral specialisation only (the floating point one is not modelled); the hypotheses say that the products fit into T. FINDING (refuted): with SCALING 1 an average of 0 stays 0 for ever when the input is constantly N or less. |

### Models and the code they read

Each line: model file, its own description (first comment of the file) and the headers of /repo/include/etl it cites.
What a model leaves out or simplifies is said in that first comment and at each definition.

* `AlgoModel.v` — Model of the searching, copying and rearranging functions of algorithm.h. A range is the list of its elements, an iterator an index (as in SortModel.v; lower_bound, upper_bound, equal_range, binary_search, rotate and reverse are there). [None] is an access outside the range or a loop that has not ended when its fuel is used up. Two ranges that the caller must keep apart are two lists; copy, copy_backward, move, move_backward and remove work in one list (the ranges may overlap). Predicates, comparisons and operations have no side effects. Where the code has an #if ETL_USING_STL && ETL_USING_CPP20 branch that calls std, the other branch is modelled. [algorithm.h]
* `ArrModel.v` — array.h: etl::array<T, SIZE>, the operations that move elements. An array is the list of the values of its SIZE elements; a position is an index (begin() + position). Every read and write is checked: None is an access outside the array (undefined behaviour). [after v]: what an object holds after its value v was moved out of it (after v = v where moving is copying, as for the arithmetic types); [self v]: what it holds after x = std::move(x). Simplification: the source of a range is a list of values that are not elements of this array. [algorithm.h, array.h]
* `AvlModel.v` — Model of the balanced tree of etl::map / etl::set at the level of nodes and pointers. include/etl/map.h; the functions modelled here are textually the same in include/etl/set.h (checked by comparing the sources without comments), where the value is the key. A pointer is a number, 0 is the null pointer. [side] is kLeft / kRight; the fields weight and dir hold [Some side] or [None] for kNeither. [al s p] says that the node [p] is currently allocated from the pool; dereferencing any other pointer is undefined ([None]). Using a dir that is kNeither as an index is undefined. Loops carry fuel; running out of it is also [None], so a result [Some] shows termination. Locations ([Node*&] parameters) are [Lroot] or a child field of a node. [map.h, set.h]
* `Base64Model.v` — Model of base64.h, base64_encoder.h, base64_decoder.h. Bytes and characters are numbers 0..255 (char / uint8_t conversions keep the bit pattern). [exc]: ETL_ASSERT throws (exceptions configuration) or does nothing (no ETL_THROW_EXCEPTIONS, no log, no debug). [cb]: a callback was supplied. [max]: Buffer_Size. The output buffer is its filled prefix; the spans given to the callback are collected in [sent]. [base64.h, base64_decoder.h, base64_encoder.h]
* `BinaryModel.v` — Model of binary.h and bit.h (without ETL_USING_STL && C++20, where the functions are the code below and not the ones of <bit>). A value of an unsigned type of w bits is a number 0 <= x < 2^w; arithmetic is done in the (promoted) type and the result converted to the type by [tr w]. A value of a signed type is a number -2^(w-1) <= x < 2^(w-1), [sg w] is the conversion to it; >> on a negative value is arithmetic. [binary.h, bit.h]
* `BipModel.v` — Model of etl::bip_buffer_spsc_atomic (include/etl/bip_buffer_spsc_atomic.h) One thread ([Prod]) reserves, fills and commits spans for writing, the other ([Cons]) reserves, uses and commits spans for reading, on the memory machine of RA.v: every atomic load or store and every access to an element is one step. A client of the buffer is one operation: - [BWrite q d]: write_reserve / write_reserve_optimal gives the span of offset [i] and size [n]; the client constructs the elements [firstn n (d i n)] at its start and commits exactly these (nothing when the list is empty). - [BRead m k]: read_reserve(m) gives (i, n); the client reads and destroys the first [k i n] elements (at most [n]) and commits these. - [BPeek m]: read_reserve(m), the client reads all of the span and commits nothing. clear() (lines 447-460) destroys what it reads before it commits; so do the clients here. [MAX] is the lar [bip_buffer_spsc_atomic.h]
* `BitLib.v` — Bit level reasoning: xor-linear functions, digits in base 2^k. []
* `BitStreamModel.v` — Model of bit_stream.h: bit_stream, bit_stream_writer, bit_stream_reader. [None] is undefined behaviour (an access outside the buffer, a division by zero, a shift by the width of the type or more). A byte is a number 0..255 (char or unsigned char: only bit operations are applied to it). size_t is taken mod 2^64. [binary.h, bit_stream.h]
* `BitsetModel.v` — Model of etl::bitset (private/bitset_new.h). A bitset<N, TElement> with a TElement of W bits (W = 8, 16, 32, 64) owns an array of [nelem W N] elements; an element is a number 0 <= x < 2^W. One element: the "Single" implementation (207-853), more: the "Multi" implementation (870-1836). Reading or writing outside the array and shifting by the width of the promoted operand or more are [Undefined]; a failing ETL_ASSERT is [Overflow] (exceptions configuration). Simplifications: [p >> log2(W)] and [p & (W-1)] are written p / W and p mod W (W is a power of two); positions are nat (size_t never wraps, except in [extract], which has Z). [bitset_new.h]
* `BloomModel.v` — bloom_filter.h, over the model of bitset<WIDTH> (element type unsigned char: W = 8). [bitset_new.h, bloom_filter.h, log.h]
* `BresModel.v` — bresenham_line.h: the points of a line, with coordinates and working values of int16_t (T = int16_t, TWork = int16_t, its default). Every stored value is reduced to int16_t as the C++ assignment does; the sums themselves are computed in int. Simplification: the friend operators of const_iterator compare the pointer to the line only; a loop over one line is modelled, not iterators of different lines. [bresenham_line.h]
* `BufdModel.v` — buffer_descriptors.h: a pool of N_BUFFERS buffers of BUFFER_SIZE elements, handed out through descriptors. The caller's memory is a function from addresses (relative to pbuffers) to values. The callback of notify is a list of the notifications it was called with. Simplification: in_use (volatile TFlag) is a bool; accesses are not interrupted. N_BUFFERS is at most 256 (next is a cyclic_value of uint_least8_t). [algorithm.h, buffer_descriptors.h, cyclic_value.h]
* `ByteStreamModel.v` — Model of byte_stream.h: byte_stream_writer, byte_stream_reader. [None] is an access outside the buffer. Bytes are numbers 0..255. Values of an integral type of n bytes (1, 2, 4 or 8) are numbers; a floating point value is taken as the unsigned number with the same object representation. The byte order of the machine ([platform]) is a parameter. [byte_stream.h]
* `CircModel.v` — Model of etl::circular_buffer / icircular_buffer (include/etl/circular_buffer.h) size_type is size_t and buffer_size = MAX_SIZE + 1 objects exist in memory, so the index sums (current + index, buffer_size + n) are modelled in [nat] without wrap. Not modelled: repair() (1230-1239), move versus copy. [circular_buffer.h]
* `CitrModel.v` — circular_iterator.h over a random access (or, for ++ and --, a bidirectional or forward) iterator. An underlying iterator is its distance from itr_begin (itr_begin is 0, itr_end is [len]); difference_type is ptrdiff_t with 64 bits. None: undefined behaviour (division by zero, signed overflow, an iterator outside [itr_begin, itr_end]). [circular_iterator.h]
* `ConvModel.v` — private/to_string_helper.h (integers, booleans, denominated integers), basic_format_spec.h and to_arithmetic.h (integers). A text is the list of its character codes. The destination string is large enough (no truncation); floating point conversions are not modelled. [absolute.h, basic_format_spec.h, to_arithmetic.h, to_string_helper.h]
* `CrcModel.v` — Model of frame_check_sequence.h and the CRC policies [crc1.h, crc_implementation.h, crc_parameters.h, frame_check_sequence.h]
* `CyclicModel.v` — cyclic_value.h: a value that wraps around between a first and a last value. T is an integer type; the values are Z. [++value] and [--value] are only executed strictly inside the range, so they cannot overflow T: T's limits do not occur in the model. [cyclic_value.h]
* `DebounceModel.v` — debounce.h [debounce.h]
* `DequeModel.v` — Model of etl::ideque / etl::deque (include/etl/deque.h). The elements live in a ring of [R] = BUFFER_SIZE = CAPACITY + 1 slots of uninitialised storage (Slots.v). Iterators are slot indices. [triv] = is_trivially_destructible<T>, [chk] = ETL_CHECK_PUSH_POP defined, [mv x] / [smv x] = the (unspecified) value of an object after it was moved from / move-assigned to itself, [SZ] = modulus of size_t. The debug count is not modelled. Pop of an empty deque without the check is [Bad]. [algorithm.h, deque.h]
* `DsvModel.v` — Model of /repo/include/etl/delegate_service.h (the primary template for run time registration, 99-214) and /repo/include/etl/callback_service.h. The two classes have the same code; a delegate, or a reference to an ifunction, is an opaque handler F. Services are objects in memory, because the default entry of the table is a delegate bound to the service ("*this"). The static table version (delegate_service.h: 49-91) is modelled by [static_call]. [callback_service.h, delegate_service.h]
* `FlagsModel.v` — flags.h: etl::flags<T, MASK>. T is an unsigned type of w bits, its values are 0 <= x < 2^w; [x] & and | as Z.land and Z.lor, ~ is Z.lnot of the promoted value, and the assignment converts to T with [tr]. [flags.h]
* `FlatModel.v` — Model of flat_set.h, flat_map.h, flat_multiset.h, flat_multimap.h and the reference_flat_*.h beneath them. The lookup vector holds addresses of blocks of the storage pool (a list; vector.h is modelled in Vec*.v). A block of the pool is [None] when it is free and [Some e] when it holds the element e. [pick] is which free block pool::allocate hands out (PoolModel.v and C06 are about that); allocation and construction happen together, and so do destruction and release. A search first reads all elements: in the code it reads only some of them, so a dangling pointer is reported more often here than there. The configuration has exceptions and ETL_IS_DEBUG_BUILD; a failed assertion returns [Rfull] or [Rout_of_bounds]. [flat_map.h, flat_multimap.h, flat_multiset.h, flat_set.h, reference_flat_map.h, reference_flat_multimap.h, reference_flat_multiset.h, reference_flat_set.h, vector.h]
* `FsmModel.v` — Model of fsm.h: class fsm. The states are the entries of state_list; set_states has checked that entry i is not null and has the id i, so a pointer to a state is its index. The user's virtual functions are [B] and may do anything except call the machine again. The result lists the calls made. [None]: the do-while loop did not end within [fuel] rounds. The configuration has exceptions: a failed assertion ends the call, the members keep what was stored in them. [fsm.h]
* `FwdModel.v` — Model of forward_list.h at the level of nodes and links. A node is its address, 0 is ETL_NULLPTR; [t] is the address of start_node, [blocks] are the nodes of the pool. [nx] holds the field next of every node, [vl] the value living in it. The free nodes are a list, used and filled at its head (ipool.h: 344-404, PoolModel.v); releasing a node writes the pool's own link over its first word, which is next. [None]: undefined behaviour (a null pointer or a node without a value used) or a loop that does not end. Exceptions configuration, no ETL_IS_DEBUG_BUILD checks; a failed pool allocation throws pool_no_allocation. Simplifications: sizes in sort are unbounded; emplace_* are insertions of the value constructed; two lists at once (move assignment, operator= between lists) are not modelled, but other users of a shared pool are. [forward_list.h, ipool.h]
* `HashModel.v` — checksum.h, fnv_1.h, jenkins.h, murmur3.h, pearson.h: objects that are fed bytes. frame_check_sequence.h is CrcModel.policy. [checksum.h, fnv_1.h, frame_check_sequence.h, jenkins.h, murmur3.h, pearson.h]
* `HfsmModel.v` — Model of hfsm.h and of fsm_state::process_event (fsm.h). The parent and default-child pointers are fixed (add_child_state, set_child_states build them); the active-child pointers are a map. A pointer to a state is its index, null is [None]. Every result is [None] when a loop or recursion did not end within its fuel or a null pointer was dereferenced. The user's functions do not call the machine. Exceptions as in FsmModel.v. [fsm.h, hfsm.h]
* `HistModel.v` — histogram.h. TCount is an unsigned type of [w] bits, so ++ wraps at 2^w. Keys are integers. None: undefined behaviour (an index outside of the array, line 214, or the use of a start index that was never set). Copy and move are the same for an array of integers. [histogram.h]
* `IntrModel.v` — intrusive_links.h (forward and bidirectional links), intrusive_stack.h, intrusive_queue.h and intrusive_list.h. A node is its address; address 0 is ETL_NULLPTR. [links] (Dll.v) holds etl_next and etl_previous of every node. The fields of node 0 are never meant to be used. [intrusive_links.h, intrusive_list.h, intrusive_queue.h, intrusive_stack.h, list.h]
* `ListModel.v` — Model of list.h: ilist with its nodes in a heap of addresses. Lists are numbered; list [i] has its terminal node at address [term i] and takes nodes from pool [pool i], whose blocks are [blocks (pool i)]. The free blocks of a pool are a list, used first in first out of its head and filled at its head (ipool.h: 344-404; PoolModel.v has the detail). [None] is undefined behaviour (a node without a value read or destroyed) or a loop that does not end; the Boolean/result part tells a thrown list_full / list_empty. Simplifications: a moved-from value keeps its value; int sizes in sort do not overflow; ETL_IS_DEBUG_BUILD checks are off. [ipool.h, list.h]
* `LockedModel.v` — queue_mpmc_mutex.h, queue_spsc_locked.h, queue_spsc_isr.h and queue_lockable.h. The four classes have the same code up to names; lines below are those of queue_mpmc_mutex.h unless a file is named. Every access to a shared variable is one step; threads interleave arbitrarily between steps; lock() waits until nobody holds the lock. size_type is not truncated: all values are at most MAX_SIZE (static_assert 679). [queue_lockable.h, queue_mpmc_mutex.h, queue_spsc_isr.h, queue_spsc_locked.h]
* `MapModel.v` — Model of the interface of etl::map and etl::set over the balanced tree of AvlModel.v include/etl/map.h and include/etl/set.h. An iterator is the address of a node, the end is the null pointer. To compare with a specification by positions, an iterator argument is given as the number of increments of begin() that reach it, and an iterator result is reported as the number of increments of begin() after which it is met. The exception configuration is modelled: a failed ETL_ASSERT throws and leaves the state as it is at that point. [fuel] bounds the loops; running out of it is [None]. Not modelled: the overloads for a transparent comparator (same bodies), the rvalue overloads (same bodies), value_comp/key_comp, the reverse iterators (adaptors over the iterators modelled here). [map.h, set.h]
* `MathModel.v` — absolute.h, gcd.h, lcm.h (run time), and the compile time templates of power.h, log.h, sqrt.h, fibonacci.h, factorial.h, permutations.h, combinations.h: size_t and uint64_t are numbers modulo 2^64. [absolute.h, combinations.h, factorial.h, fibonacci.h, gcd.h, lcm.h, log.h, permutations.h, power.h, sqrt.h]
* `MbaModel.v` — imemory_block_allocator.h, successor.h and fixed_sized_memory_block_allocator.h: a chain of allocators, each the successor of the one before it. Simplifications: the generic_pool of an allocator is the list of its free block numbers (C06 is about the pool itself: it hands out a block that is not in use, and takes it back); a pointer is the position of an allocator in the chain and a block number, and any pair that is not a block of the chain stands for a foreign pointer; every allocator of the chain is a fixed_sized_memory_block_allocator and no allocator is its own successor, directly or not. [fixed_sized_memory_block_allocator.h, imemory_block_allocator.h, successor.h]
* `MidModel.v` — numeric.h: midpoint. A value of a [w] bit integer type is the integer it stands for. int has 32 bits: operands of narrower types are promoted to int before arithmetic. None: undefined behaviour (overflow of signed arithmetic, a pointer outside of its array). [numeric.h]
* `MmModel.v` — Model of etl::multimap and etl::multiset at the level of nodes and pointers. include/etl/multimap.h; the functions modelled here are textually the same in include/etl/multiset.h up to casts and their order in the file (checked by comparing the sources without comments), where the value is the key. The nodes are those of AvlModel.v with one more field, the pointer to the parent; it is kept as a separate function [g] beside the state [s]. Pointers, sides, undefined accesses ([None]) and fuel are as in AvlModel.v; the accessors rc, wc, ... and the functions that do not touch the parent (the re-weighing loop, find_limit_node, allocation) are the ones defined there. The exception configuration is modelled: a failed ETL_ASSERT throws and leaves the state as it is at that point. Not modelled: the overloads for a transparent comparator and the rvalue and const overloads (same bodies), the hint a [multimap.h, multiset.h]
* `MrangeModel.v` — multi_range.h. The ranges of a program live in a list; a range is named by its position. V is the type of the loop values. [f] bounds the length of a walk along the inner pointers or the number of iterations: None means that the walk does not end within f steps. [multi_range.h]
* `MsgModel.v` — Model of message_router.h, message_bus.h, message_broker.h and successor.h. A router is its virtual interface (MsgSpec.router), so that buses, brokers and routers nest; the events a call causes are returned as a list. The overloads for shared_message run the same code on shared_msg.get_message() (message_bus.h: 153-156, 238-312; message_broker.h: 191-194, 236-272; message_router.h: 129-141). Simplifications: handlers do not subscribe or unsubscribe while a message is delivered; the network has no cycle. [algorithm.h, message_broker.h, message_bus.h, message_router.h, successor.h]
* `MspanModel.v` — Model of etl::multi_span (multi_span.h). The span list is a list of the contents of the spans; an element pointer is null ([None]) or the pair (span, offset). [UB]: a pointer is moved outside the span it points into, a null pointer is moved or read, a span outside the span list is used. Simplification: the memory of two spans is told apart by the span's number (the code only compares pointers into the current span); const_iterator is the same code as iterator (266-463). [multi_span.h]
* `ObsModel.v` — Model of observer.h: class observable. The etl::vector of observer_item is a list of (observer, enabled) of at most [N] entries. [observer.h]
* `OptModel.v` — Model of etl::optional (optional.h): both storage implementations, in a world of several optional variables, with the construction and destruction of the held objects made explicit. [optional.h]
* `PmaModel.v` — Model of /repo/include/etl/pseudo_moving_average.h, the specialisation for integral types (107-178). The type T is the interval tmin .. tmax. None stands for a product or sum that T does not represent (undefined for the wide signed types, a wrapped value for the others). [pseudo_moving_average.h]
* `PoolModel.v` — Model of etl::ipool / etl::generic_pool / etl::pool (include/etl/ipool.h, generic_pool.h, pool.h) The pool's storage is raw bytes and its free list is kept INSIDE the free blocks, so memory is modelled byte by byte: [mem] maps an address to a byte. A pointer occupies [PS] bytes (sizeof(char-pointer)), little endian (the byte order is irrelevant to the properties). Addresses are [Z]. uint32_t arithmetic wraps ([u32]). Not modelled: create()/destroy() run a constructor/destructor in the block between/before allocate_item/release_item (ipool.h: 202-231); the check sizeof(T) > Item_Size (lines 115-118) which is a property of the type. [generic_pool.h, ipool.h, pool.h]
* `PrioModel.v` — Model of priority_queue.h over a vector of capacity N. The container is the list of its elements (vector.h is modelled in Vec*.v); [None] of the heap functions becomes [UB]. The configuration has exceptions and ETL_IS_DEBUG_BUILD (assign checks its length). [priority_queue.h, vector.h]
* `QueueModel.v` — Model of etl::queue / etl::iqueue (include/etl/queue.h) size_type indices are [nat]: line 621 statically asserts SIZE <= max(size_type), so no index or count can wrap. Not modelled: the CPP03 emplace overloads (358-441, same bodies), move construction as opposed to copy construction. [queue.h]
* `RegModel.v` — message_router_registry.h. The registry is a flat_multimap from router id to router; C17 and C51 are about that container. Here it is its sequence of elements: find, lower_bound, upper_bound, insert and erase are what flat_multimap.h / reference_flat_multimap.h do to that sequence. Simplification: the binary searches of algorithm.h are linear (C32 proves that they give the same position on a sorted sequence). [R]: addresses of routers, [rid]: get_message_router_id() of a router (it never changes). [algorithm.h, flat_multimap.h, message_router_registry.h, reference_flat_multimap.h]
* `RndModel.v` — random.h: the pseudo random number generators. uint32_t / uint64_t values are N below 2^32 / 2^64, every arithmetic result is reduced as C++ does. Not modelled: the default constructors (the seed is the address of the object), random_hash (its values are those of the hash class it is given). [binary.h, random.h]
* `RoundModel.v` — scaled_rounding.h: T has [w] bits and is signed or not; SCALING is [s], 0 < s, and fits in scale_t (int32_t for a signed T, uint32_t for an unsigned one), line 49-51. None: signed arithmetic overflows. [absolute.h, scaled_rounding.h]
* `SchartModel.v` — Model of state_chart.h. The four classes (state_chart_ct, state_chart_ctp, state_chart<TObject, TParameter>, state_chart<TObject, void>) have the same bodies; the first two take the sizes of the tables as template parameters (size_t), the last two store them in uint_least8_t. Identifiers are uint_least8_t; here natural numbers. Callbacks are named by numbers and are arbitrary functions on the configuration: the world AND the chart's own members, so that a callback that calls process_event or start is included. The tables are constant while an event is processed (set_transition_table from inside a callback is not modelled). [state_chart.h]
* `SchedModel.v` — scheduler.h and task.h. A task is a name; the state of the whole program outside the scheduler is an arbitrary type [Wd]: task_request_work (const) reads it, task_process_work changes it. The list of tasks does not change during a pass (a task calling add_task while it runs is not modelled). [scheduler.h, task.h]
* `SharedModel.v` — Model of shared_message.h, reference_counted_message.h, reference_counted_message_pool.h and reference_counted_object.h. [None] is undefined behaviour: a null p_rcmessage dereferenced, a message used after its block went back to the pool, or a block released twice. [reference_counted_message.h, reference_counted_message_pool.h, reference_counted_object.h, shared_message.h]
* `SortModel.v` — Model of the heap, rotate and sort functions of algorithm.h. A range [first, last) is the list of its elements; a position in it is an index. [None] is an access outside the range, or a loop that has not ended after [fuel] turns (the callers pass a fuel; the theorems show that it is enough, so [None] never stands for a loop that would end). Moving an element is modelled as copying it (the moved-from element is never looked at before it is overwritten). [compare] is a function without side effects. [algorithm.h, gcd.h]
* `SpscModel.v` — Model of etl::queue_spsc_atomic (include/etl/queue_spsc_atomic.h) One thread ([Prod]) pushes, one thread ([Cons]) pops. Each atomic load or store and each access to the element buffer is one step of the machine of RA.v. Indices are [nat]: queue_spsc_atomic.h:541 statically asserts Size <= max(size_type) - 1, so Reserved = Size + 1 and every index (<= Reserved) fit the size type and no index computation wraps. Not modelled: the CPP03 emplace overloads (identical bodies, lines 272-392), move versus copy construction of T (a value is a value here; pop moves out and then destroys, lines 424-430, which is [Get] followed by [Destroy]), exceptions thrown by T's constructors, and clear() (lines 483-489) which is literally a client loop [while (pop())] of the modelled pop(). [queue_spsc_atomic.h]
* `StackModel.v` — stack.h: istack<T> / stack<T, SIZE>. A slot of the buffer is Some v while it holds an object and None while it is raw memory; every construction and destruction is checked: the outcome Ub is an access outside the buffer, a read or destruction of raw memory, or a construction over a living object. Simplification: exceptions of the constructors of T are not modelled; moving and copying leave the same value. [algorithm.h, stack.h]
* `StrFindModel.v` — Model of the searching and comparing members of etl::ibasic_string (basic_string.h). A string is its buffer of capacity + 1 characters and its size (StrModel.v models the members that change it); the text looked for lies in an array of its own. [W] is the number of values of size_t; positions and lengths are natural numbers below it, npos as a result is [None]. [UB] as in ViewModel.v: a pointer outside the array is formed, a character outside it is read, or a search is given a range whose end cannot be reached. The overloads for a character in the find_first_of family do what the general ones do for a text of length 1. [basic_string.h, string_view.h]
* `StrModel.v` — Model of etl::ibasic_string (include/etl/basic_string.h) A string is its buffer of [cap + 1] characters, the size and the two flags. A write or read beyond the buffer, and a pointer formed beyond its end, is [Undef]. An ETL_ASSERT that fails throws (exception configuration); the string is then as [Throw] says. Configuration: ETL_HAS_STRING_TRUNCATION_CHECKS and ETL_HAS_STRING_CLEAR_AFTER_USE are 1 and ETL_HAS_ERROR_ON_STRING_TRUNCATION is 0, the defaults of platform.h 180-200. size_type is size_t; [MAX] is its largest value, npos; sums and differences of size_type wrap. The source of an operation is another object: operations on a string and itself are not modelled (assign tests for it, line 665, the others do not). [algorithm.h, basic_string.h, platform.h, string.h]
* `SutilModel.v` — string_utilities.h. A string is its text and its capacity; what its members erase, insert, replace and find do is taken from the theorems C11 and C47 about basic_string.h and written as the operations on the text below. A character is a number, a zero terminated text is the list of its characters (none is zero). A view is an offset into the characters it refers to, and a size. npos is None. None as the result of a function: undefined, or no end. [basic_string.h, string_utilities.h, string_view.h]
* `TimerModel.v` — Model of callback_timer, message_timer and their atomic / interrupt / locked variants (single thread; the lock primitives are no-ops). The eight headers share one algorithm on an intrusive delta list stored in the timer array. They differ in two points, which are parameters here: - [msg]: message timers (message_timer.h: 398, message_timer_atomic.h: 111, message_timer_interrupt.h: 118, message_timer_locked.h: 115) call active_list.remove(id, true) in unregister_timer where callback timers call remove(id, false), and refuse a null router on registration (message_timer.h: 360); - [cb_first]: callback_timer_atomic/interrupt/locked.h and message_timer_atomic/interrupt/locked.h run the callback before re-inserting a repeating timer (callback_timer_locked.h: 176-189), callback_timer.h: 573-599 and message_timer.h: 469-480 after. Simplifications: the cursor [current] of the list is written and  [callback_timer.h, callback_timer_locked.h, locked.h, message_timer.h, message_timer_atomic.h, message_timer_interrupt.h, message_timer_locked.h, timer.h]
* `TisrModel.v` — The timers of TimerModel (C25) with a tick that interrupts the calls of the application: callback_timer.h, callback_timer_atomic.h, callback_timer_interrupt.h, callback_timer_locked.h and the four message_timer headers. Here the lock primitives, which C25 leaves out, are modelled. The application runs a call as a thread of actions; between any two actions the tick handler may be called any number of times, and it runs to its end before the thread goes on (an interrupt, or a task of higher priority). An action is a single access of the shared data, except that a critical section is one action: a handler that is refused changes nothing (C56_refused_tick), so finer steps there would be observed by nobody. Simplifications: callbacks do not call the timer; the fields that a tick does not write are read in one action with the check they are read for. [_interrupt.h, callback_timer.h, callback_timer_atomic.h, callback_timer_interrupt.h, callback_timer_locked.h, message_timer.h]
* `UmModel.v` — Model of etl::unordered_map and etl::unordered_set at the level of nodes and links include/etl/unordered_map.h, include/etl/unordered_set.h (same code but for insert, operator[] and at) and the parts of include/etl/intrusive_forward_list.h they use. A bucket is an intrusive forward list: a start link, a count, and the links of the nodes. All buckets share one terminator link (intrusive_forward_list.h: 259), the address 0 here. A pointer to a bucket is its index; [B] is number_of_buckets, so the index [B] is pbuckets_end. [al] says which nodes are allocated; using the link or value of any other node is undefined ([None]), so is using a bucket that does not exist. Loops carry fuel; running out of it is [None]. The exception configuration is modelled. Not modelled: load_factor, the bucket interface, transparent-key and rvalue overloads (same bodies), move assignment. [intrusive_forward_list.h, intrusive_links.h, unordered_map.h, unordered_set.h]
* `UmmModel.v` — Model of etl::unordered_multimap and etl::unordered_multiset at the level of nodes and links include/etl/unordered_multimap.h, include/etl/unordered_multiset.h (same code; insert of the set also gives [true]). The state and the operations on buckets, nodes, marks and iterators are those of UmModel.v: the private functions and iterators of the two headers are the same text (unordered_multimap.h: 224-246, 332-420, 940-1016, 1087-1113, 1483-1515, 1539-1621; unordered_multiset.h: 991-1067, 1476-1615). Not modelled: load_factor, the bucket interface, transparent-key and rvalue overloads (same bodies), moves. [unordered_multimap.h, unordered_multiset.h]
* `UnalModel.v` — unaligned_type.h and endianness.h. Memory is a list of bytes 0..255 by ascending address. An integral type T has w bits (8, 16, 32 or 64) and is signed or not (bool and the character types are not treated apart); its objects lie in memory in the byte order of the machine, [native]. reverse_bytes is the model of binary.h in BinaryModel. A floating point object is the list of its bytes. [binary.h, endianness.h, unaligned_type.h]
* `VecModel.v` — Model of etl::ivector / etl::vector (include/etl/vector.h). The buffer is [cap] slots of uninitialised storage (Slots.v); the pointer pair (p_buffer, p_end) is the buffer and the index [vn] of p_end. Iterators are indices. [triv] = is_trivially_destructible<T>, [chk] = ETL_CHECK_PUSH_POP defined, [dbg] = ETL_IS_DEBUG_BUILD. [mv x] is the (unspecified) value left in an object after it was moved from, [smv x] the (unspecified) value of an object after it was move-assigned to itself. [SZ] is the modulus of size_t. The debug count is not modelled. [algorithm.h, error_handler.h, memory.h, vector.h]
* `ViewModel.v` — Model of etl::basic_string_view (string_view.h) and etl::span (span.h). A view points into one array object: [m] is the array, a pointer into it is an offset 0 .. length m. Characters are their numeric values (Z); the terminator is 0. [UB]: a pointer outside the array is formed, an element outside the array is read, or an algorithm is given a range whose end cannot be reached. [W] is the number of values of size_t. Positions and counts are natural numbers (npos is one of them: every comparison the code makes is between numbers without arithmetic on npos); npos as a result is [None]. A second view (the text looked for) has its own array. Not modelled: hash, operator<<, reverse iterators as objects. [char_traits.h, span.h, string_view.h]
* `VntModel.v` — Model of etl::variant (private/variant_variadic.h) and etl::expected (expected.h) in a world of several variables, with the construction and destruction of the held objects made explicit. [expected.h, variant_variadic.h]
