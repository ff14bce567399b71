{"id": "C01", "title": "queue_spsc_atomic is FIFO without loss or duplication", "statement": "With one thread calling only push/emplace and one other thread calling only pop/front/empty/size, the sequence of values returned by successful pop(value) calls (counting discarded ones) is at every moment a prefix of the sequence of values for which push returned true.", "quantifier": "every capacity, every value sequence, every interleaving of the individual atomic loads/stores and buffer accesses of the two threads, and every stale value a release/acquire memory model lets a load return", "why_tests_cant": "thread schedules and stale reads cannot be enumerated by tests; x86 test machines hide most reorderings", "anchors": ["include/etl/queue_spsc_atomic.h: iqueue_spsc_atomic::push, pop, front, clear", "include/etl/queue_spsc_atomic.h: queue_spsc_atomic_base::get_next_index"]}
{"id": "C02", "title": "queue_spsc_atomic never races on an element and respects object lifetimes", "statement": "Under the same usage, no element slot is ever accessed by both threads without a happens-before edge; every pop/front reads a live object; every push constructs into a slot with no live object; the number of live objects never exceeds capacity().", "quantifier": "every capacity, operation sequence, interleaving and legal stale read", "why_tests_cant": "data races are undefined behaviour that may never show up in a run; requires reasoning on all schedules", "anchors": ["include/etl/queue_spsc_atomic.h: push, pop, front, empty, full"]}
{"id": "C03", "title": "queue_spsc_atomic push/pop failures are truthful", "statement": "push returns false only if, at some moment during the call or the past seen by the producer, capacity() elements were in the queue, and always returns true if the producer can see fewer; pop returns false only if every value whose push the consumer can see has already been popped. size() never exceeds capacity() when called from the push or pop thread. The lock free queue never blocks: each operation takes a bounded number of steps.", "quantifier": "every capacity, operation sequence, interleaving and legal stale read", "why_tests_cant": "spurious failures are schedule dependent", "anchors": ["include/etl/queue_spsc_atomic.h: push, pop, size, available, capacity"]}
{"id": "C04", "title": "bip_buffer_spsc_atomic delivers the committed stream in order", "statement": "The concatenation of the data in all committed read reservations is always a prefix of the concatenation of the data in all committed write reservations, and once the writer stops the reader can drain everything.", "quantifier": "every capacity, every sequence of reservation sizes and trimmed commits, every interleaving of the two threads atomic accesses", "why_tests_cant": "wrap-around combined with thread interleaving gives unboundedly many states", "anchors": ["include/etl/bip_buffer_spsc_atomic.h: get_write_reserve, apply_write_reserve, get_read_reserve, apply_read_reserve"]}
{"id": "C05", "title": "bip_buffer reservations are in range and exclusive", "statement": "A span returned by write_reserve / write_reserve_optimal lies inside the buffer and contains no committed-but-unread element; a span returned by read_reserve contains only committed unread elements; the two never overlap, until committed.", "quantifier": "every capacity, state, requested size (including the maximum of the size type)", "why_tests_cant": "arithmetic wrap and wrap-around boundary cases depend on exact index positions", "anchors": ["include/etl/bip_buffer_spsc_atomic.h: get_write_reserve, write_reserve, write_reserve_optimal, read_reserve"]}
{"id": "C06", "title": "pool hands out disjoint, in-range, unused blocks", "statement": "allocate() returns a block inside the pool storage on an item boundary that is not currently allocated, as long as size() < max_size(); otherwise it reports pool_no_allocation. release() makes exactly that block available again. size()+available()=max_size() always and size() counts the outstanding blocks. The contents of an allocated block are never modified by the pool.", "quantifier": "every item size, pool size, history of allocate/release/release_all and everything the user writes into allocated blocks", "why_tests_cant": "the free list lives inside the user storage: corruption shows only after specific histories", "anchors": ["include/etl/ipool.h: ipool::allocate_item, release_item, release_all, is_item_in_pool", "include/etl/pool.h", "include/etl/generic_pool.h"]}
{"id": "C07", "title": "circular_buffer keeps exactly the most recent N items", "statement": "After any sequence of push/pop/clear the content seen through begin()..end(), operator[], front() and back() is that of a FIFO of capacity N from which the oldest item is dropped when pushing while full; size/available/empty/full agree; overwritten and popped items are destroyed exactly once.", "quantifier": "every capacity, element sequence and history", "why_tests_cant": "wrap-around position and overwrite combination is unbounded", "anchors": ["include/etl/circular_buffer.h: push, pop, clear, operator[], size, full"]}
{"id": "C08", "title": "queue is a bounded FIFO", "statement": "After any sequence of push/emplace/pop/pop_into/clear within capacity, front() is the oldest and back() the newest item, size() is exact and items leave in arrival order; with ETL_CHECK_PUSH_POP an overfull push reports queue_full and changes nothing.", "quantifier": "every capacity, element sequence and history", "why_tests_cant": "histories unbounded", "anchors": ["include/etl/queue.h: iqueue::push, pop, clear, front, back"]}
{"id": "C09", "title": "deque behaves as a double-ended bounded sequence", "statement": "push/pop at either end, insert and erase at any position, operator[], front/back and iteration agree with a mathematical sequence; full/empty errors are raised exactly at the limits; each element is constructed once and destroyed once.", "quantifier": "every capacity, position, history", "why_tests_cant": "ring offset times position is unbounded", "anchors": ["include/etl/deque.h: ideque::push_back, push_front, pop_back, pop_front, insert, erase, iterator"]}
{"id": "C10", "title": "vector behaves as a bounded sequence", "statement": "push_back/pop_back/insert/erase/resize/assign give the same content as a mathematical sequence; operations that would exceed the capacity report vector_full and leave the vector unchanged; elements beyond size() are not live.", "quantifier": "every capacity, position, count, history", "why_tests_cant": "all sizes and positions", "anchors": ["include/etl/vector.h: ivector::push_back, insert, erase, resize, assign", "include/etl/memory.h"]}
{"id": "C11", "title": "string operations truncate, never overflow, and flag truncation", "statement": "After assign/append/insert/replace/resize/+= the string holds the first max_size() characters of the untruncated result, is null terminated, size() <= max_size(), and is_truncated() is set exactly when characters were lost in this operation (or were already lost in a source appended from).", "quantifier": "every capacity, content, position, count", "why_tests_cant": "boundaries depend on capacity, position and count simultaneously", "anchors": ["include/etl/basic_string.h: ibasic_string::assign, append, insert, erase, replace, resize"]}
{"id": "C12", "title": "list behaves as a sequence with consistent links", "statement": "push/pop/insert/erase/splice/reverse/unique/merge/sort/remove give the content of the sequence specification, forward and backward traversal agree, size() is exact, and nodes are allocated from / returned to the pool exactly.", "quantifier": "every capacity and history", "why_tests_cant": "pointer surgery depends on position", "anchors": ["include/etl/list.h: ilist", "include/etl/forward_list.h"]}
{"id": "C13", "title": "intrusive links: link/splice/unlink maintain a well-formed chain", "statement": "etl::link, link_splice, unlink, link_clear on forward/bidirectional links insert or remove exactly the given nodes, keeping next/previous mutually inverse, and leave all other nodes untouched; intrusive_list/stack/queue built on them behave as sequences.", "quantifier": "every list length and position", "why_tests_cant": "aliasing of positions", "anchors": ["include/etl/intrusive_links.h", "include/etl/intrusive_list.h", "include/etl/intrusive_forward_list.h", "include/etl/intrusive_stack.h", "include/etl/intrusive_queue.h"]}
{"id": "C14", "title": "map/set behave as ordered finite maps", "statement": "insert adds a key iff absent (and capacity remains), erase removes exactly the key, find/count/lower_bound/upper_bound/at agree with the finite map specification, iteration visits keys in strictly ascending order, size() is exact.", "quantifier": "every key type with strict weak order, every history", "why_tests_cant": "tree shapes are unbounded", "anchors": ["include/etl/map.h: imap", "include/etl/set.h: iset", "include/etl/multimap.h", "include/etl/multiset.h"]}
{"id": "C15", "title": "map/set trees stay height balanced", "statement": "After any history, the search tree is an AVL tree whose stored balance flags are exact, so a lookup visits O(log size) nodes.", "quantifier": "every history", "why_tests_cant": "shapes are unbounded; imbalance does not alter results", "anchors": ["include/etl/map.h: insert_node, remove_node, balance_node, rotate_2node, rotate_3node"]}
{"id": "C16", "title": "unordered_map/set behave as finite maps", "statement": "insert/erase/find/count/operator[]/clear/iteration agree with the finite map specification for every hash function, including total collision; iteration visits every element exactly once; full error exactly when capacity elements are stored.", "quantifier": "every hash function, bucket count, capacity, history", "why_tests_cant": "hash collisions patterns and first/last bucket bookkeeping depend on history", "anchors": ["include/etl/unordered_map.h: iunordered_map::insert, erase, find, iterator, adjust_first_last_markers_after_insert/erase", "include/etl/unordered_set.h"]}
{"id": "C17", "title": "flat_map/flat_set stay sorted and unique", "statement": "insert/erase/find/lower_bound/upper_bound/equal_range on flat_set/flat_map agree with the ordered finite map specification; the sequence is strictly ascending after every operation; multi variants keep equal keys in insertion order.", "quantifier": "every comparator that is a strict weak order, every history", "why_tests_cant": "all insertion orders", "anchors": ["include/etl/flat_set.h", "include/etl/flat_map.h", "include/etl/flat_multiset.h", "include/etl/reference_flat_set.h", "include/etl/algorithm.h: lower_bound"]}
{"id": "C18", "title": "priority_queue always yields the greatest element", "statement": "top() is a maximal element of the multiset of pushed and not yet popped items; push/pop keep exactly that multiset; popping everything yields a non-increasing order.", "quantifier": "every strict weak order, every history", "why_tests_cant": "heap shapes are unbounded", "anchors": ["include/etl/priority_queue.h", "include/etl/algorithm.h: push_heap, pop_heap, adjust_heap, make_heap, sort_heap"]}
{"id": "C19", "title": "base64 decode inverts encode", "statement": "For every byte string, encoding (in any chunking, with or without padding, any standard alphabet) then decoding gives back the bytes; the encoded text has the RFC4648 length and only alphabet/padding characters.", "quantifier": "every byte string, every chunking into encode()/decode() calls", "why_tests_cant": "lengths modulo 3 and chunk boundaries interact", "anchors": ["include/etl/base64_encoder.h", "include/etl/base64_decoder.h"]}
{"id": "C20", "title": "CRC implementations compute the mathematical CRC", "statement": "Every table driven CRC (256, 16 and 4 entry tables) equals the bit by bit polynomial definition for the published parameters, for every input and every split of the input into add() calls.", "quantifier": "every CRC parameter set in the library, every byte sequence, every chunking", "why_tests_cant": "table entries and reflected variants only sampled by check values", "anchors": ["include/etl/private/crc_implementation.h", "include/etl/private/crc_parameters.h", "include/etl/frame_check_sequence.h"]}
{"id": "C21", "title": "bit_stream reader inverts writer", "statement": "Any sequence of fields (value, width, signed/unsigned, bool) written with bit_stream_writer and read back with the same widths by bit_stream_reader gives the original values (truncated to the width); a write that does not fit fails and a read past the end fails, without altering other bits.", "quantifier": "every sequence of values/widths, every bit offset, both endianness", "why_tests_cant": "offset/width/chunk combinations", "anchors": ["include/etl/bit_stream.h: bit_stream_writer, bit_stream_reader"]}
{"id": "C22", "title": "byte_stream reader inverts writer", "statement": "Any sequence of integral values written with byte_stream_writer and read by byte_stream_reader with the same types and endianness gives the same values; writes beyond the capacity fail leaving the stream unchanged; reads beyond the end return nothing and leave the position unchanged.", "quantifier": "every sequence of values/types, both endianness", "why_tests_cant": "sequences unbounded", "anchors": ["include/etl/byte_stream.h"]}
{"id": "C23", "title": "bit manipulation functions compute their mathematical definition", "statement": "reverse_bits/reverse_bytes are involutions defined by index reversal; rotate_left/right are mutually inverse cyclic shifts; count_bits counts ones; parity is count mod 2; binary_to_gray/gray_to_binary are mutually inverse and consecutive codes differ in one bit; count_leading/trailing zeros/ones are the obvious counts; fold_bits, sign_extend, interleave etc. per documentation.", "quantifier": "every value of 8/16/32/64 bit types and every distance", "why_tests_cant": "64 bit domain is not enumerable", "anchors": ["include/etl/binary.h", "include/etl/bit.h", "include/etl/endianness.h"]}
{"id": "C24", "title": "to_string and to_arithmetic are inverse on integers", "statement": "Formatting an integer in base 2,8,10,16 and parsing the text in the same base gives the integer back; parsing rejects texts whose value does not fit the type or that contain invalid characters.", "quantifier": "every value of every integral type, every text", "why_tests_cant": "value/width domains are not enumerable", "anchors": ["include/etl/to_arithmetic.h", "include/etl/to_string.h", "include/etl/private/to_string_helper.h"]}
{"id": "C25", "title": "callback_timer fires each timer at exactly its due time, in order", "statement": "With start(id) at time t and period p, the callback is invoked by the tick() calls that advance the time past t+p (repeating: every p after), in due time order, never before, never twice for a period, whatever the splitting of time into tick counts; stop/unregister prevents any later call; other timers are unaffected by start/stop/unregister.", "quantifier": "every number of timers, periods, histories of register/start/stop/unregister/tick(count)", "why_tests_cant": "delta list updates interact across timers", "anchors": ["include/etl/callback_timer.h: list::insert, remove, icallback_timer::tick, start, stop", "include/etl/message_timer.h"]}
{"id": "C26", "title": "fsm runs exit/enter actions in order and ends in a stable registered state", "statement": "receive(msg) calls process_event on the current state only; on a change calls exit of the old then enter of the new state, following chained changes requested by enter, ending in a state whose enter requested no change; on No_State_Change nothing else is called; on Self_Transition exit and enter of the same state; invalid ids raise fsm_state_id_exception.", "quantifier": "every state table and message history", "why_tests_cant": "behaviour of user states is arbitrary", "anchors": ["include/etl/fsm.h: fsm::receive, start, reset"]}
{"id": "C27", "title": "hfsm transitions exit up to and enter down from the least common ancestor", "statement": "On a transition the states exited are exactly those between the current state and the least common ancestor, innermost first, and the entered ones those from below the ancestor to the target and its default children, outermost first.", "quantifier": "every state hierarchy", "why_tests_cant": "hierarchies are unbounded", "anchors": ["include/etl/hfsm.h: common_ancestor, do_enters, do_exits, receive"]}
{"id": "C28", "title": "message_broker / message_bus / message_router deliver to exactly the subscribers", "statement": "A message is delivered once to every subscribed router that accepts/subscribed to its id (and matches the destination id), in subscription order, then passed to the successor; re-subscribing replaces; unsubscribe stops delivery.", "quantifier": "every set of routers, subscriptions, histories", "why_tests_cant": "histories unbounded", "anchors": ["include/etl/message_broker.h", "include/etl/message_bus.h", "include/etl/message_router.h"]}
{"id": "C29", "title": "observable notifies each enabled observer exactly once in order of registration", "statement": "notify_observers calls every currently registered and enabled observer exactly once, in registration order; adding twice has no effect; removing stops notification; exceeding the maximum raises observer_list_full and changes nothing.", "quantifier": "every history", "why_tests_cant": "histories unbounded", "anchors": ["include/etl/observer.h: observable"]}
{"id": "C30", "title": "shared_message releases its pool block exactly when the last reference goes", "statement": "Over any history of copies, assignments, moves and destructions of shared_message handles the reference count equals the number of live handles and the message is returned to its owning pool exactly once, when the last handle disappears.", "quantifier": "every history of handle operations", "why_tests_cant": "histories unbounded; self assignment and aliasing", "anchors": ["include/etl/shared_message.h", "include/etl/reference_counted_message_pool.h", "include/etl/reference_counted_object.h"]}
{"id": "C31", "title": "sort algorithms sort", "statement": "sort, stable_sort, shell_sort, insertion_sort, selection_sort, heap_sort return a sorted permutation of the input; stable_sort and insertion_sort are stable.", "quantifier": "every input, every strict weak order", "why_tests_cant": "permutations not enumerable", "anchors": ["include/etl/algorithm.h: shell_sort, insertion_sort, selection_sort, heap_sort, sort"]}
{"id": "C32", "title": "search and rearrangement algorithms meet their specification", "statement": "lower_bound, upper_bound, equal_range, binary_search return the specified positions on sorted ranges; rotate, reverse, partition, remove, unique, is_sorted_until, minmax_element, is_permutation etc. produce the specified result.", "quantifier": "every range and predicate", "why_tests_cant": "ranges not enumerable", "anchors": ["include/etl/algorithm.h"]}
{"id": "C33", "title": "cyclic_value stays in range and advances modulo the range", "statement": "After any operations the value is in [first,last]; ++ and -- are inverse; advance(n) equals adding n modulo the range size.", "quantifier": "every range, value, n, history", "why_tests_cant": "ranges and histories unbounded", "anchors": ["include/etl/cyclic_value.h"]}
{"id": "C34", "title": "debounce changes state only after the configured number of consecutive equal samples", "statement": "add() reports a change exactly when the last N samples have all been equal and differ from the debounced state (and hold/repeat after their counts).", "quantifier": "every sample history and every count setting up to the limit of the counter", "why_tests_cant": "sample histories unbounded; counter saturates at 65535", "anchors": ["include/etl/debounce.h"]}
{"id": "C35", "title": "scheduler policies run the right tasks", "statement": "Sequential single runs each task with work once per pass in priority order; multiple drains each; highest priority runs the first with work; most work runs one with the greatest request; tasks are ordered by priority on add_task; idle is reported exactly when no task had work.", "quantifier": "every task set and work function", "why_tests_cant": "task behaviours are arbitrary", "anchors": ["include/etl/scheduler.h"]}
{"id": "C36", "title": "compile time and run time integer mathematics is exact", "statement": "gcd divides both and is greatest; lcm*gcd=|a*b|; power, sqrt, log2/log, fibonacci, factorial, combinations, permutations compute the mathematical function when it fits.", "quantifier": "every argument", "why_tests_cant": "domains not enumerable", "anchors": ["include/etl/gcd.h", "include/etl/lcm.h", "include/etl/power.h", "include/etl/sqrt.h", "include/etl/log.h", "include/etl/fibonacci.h", "include/etl/factorial.h", "include/etl/combinations.h", "include/etl/permutations.h"]}
{"id": "C37", "title": "locked queues (mpmc_mutex, spsc_locked, spsc_isr, lockable) are linearizable bounded FIFOs", "statement": "For any number of threads, operations appear to take place one at a time, values come out in the order of the successful pushes, none lost or duplicated, push fails only when full and pop only when empty.", "quantifier": "every number of threads, schedule and history", "why_tests_cant": "schedules not enumerable", "anchors": ["include/etl/queue_mpmc_mutex.h", "include/etl/queue_spsc_locked.h", "include/etl/queue_spsc_isr.h", "include/etl/queue_lockable.h"]}
{"id": "C38", "title": "bloom_filter has no false negatives", "statement": "exists(x) is true for every x previously added since the last clear.", "quantifier": "every hash functions, width and history", "why_tests_cant": "histories unbounded", "anchors": ["include/etl/bloom_filter.h"]}
{"id": "C39", "title": "bitset operations equal the mathematical bit vector", "statement": "set/reset/flip/test/count/find_first/find_next/shift/and/or/xor/from_string/to_string/value agree with the bit vector of N bits and never change bits beyond N.", "quantifier": "every size N (also not multiple of the element width), position, content", "why_tests_cant": "sizes and contents not enumerable", "anchors": ["include/etl/private/bitset_new.h", "include/etl/private/bitset_legacy.h", "include/etl/bitset.h"]}
{"id": "C40", "title": "incremental hashes and checksums do not depend on chunking", "statement": "For fnv_1, fnv_1a, murmur3, jenkins, pearson, checksum, xor_checksum, crc: feeding the data byte by byte, by ranges, or in any split gives the same value.", "quantifier": "every input and every chunking", "why_tests_cant": "chunkings not enumerable", "anchors": ["include/etl/fnv_1.h", "include/etl/murmur3.h", "include/etl/jenkins.h", "include/etl/pearson.h", "include/etl/checksum.h", "include/etl/frame_check_sequence.h"]}
{"id": "C41", "title": "optional/expected/variant hold exactly the last assigned alternative", "statement": "The observers (has_value/index/holds_alternative/value/get) report the alternative last assigned; construction and destruction of the held object are paired over any history; accessing an absent value raises the documented error.", "quantifier": "every history", "why_tests_cant": "histories unbounded", "anchors": ["include/etl/optional.h", "include/etl/expected.h", "include/etl/variant.h", "include/etl/private/variant_variadic.h"]}
{"id": "C42", "title": "string_view, span and multi_span never step outside the viewed range", "statement": "substr/find/compare/remove_prefix/first/last/subspan return the specified sub-sequence, inside the viewed range; multi_span iteration visits the concatenation of the spans.", "quantifier": "every length, position, count", "why_tests_cant": "positions x counts not enumerable", "anchors": ["include/etl/string_view.h", "include/etl/span.h", "include/etl/multi_span.h"]}
{"id": "C43", "title": "every library CRC detects every burst error up to its width", "statement": "Two messages of equal length that differ only inside a window of at most w consecutive bits (in the transmission order of the CRC; w its width) never have the same CRC value, for every CRC class of the library and every table size.", "quantifier": "every pair of messages, every position and content of the burst, every CRC", "why_tests_cant": "2^w error patterns at every position of unbounded messages", "anchors": ["include/etl/private/crc_implementation.h", "include/etl/private/crc_parameters.h"]}
{"id": "C44", "title": "a secure string leaves no characters behind", "statement": "Once a string is secure and its free space is clear, no operation leaves a character of an earlier text between size() and max_size(); clear(), resize() and assignment clear the free space in any case; security is passed on by assignment.", "quantifier": "every secure string, every operation and argument", "why_tests_cant": "texts, positions and counts not enumerable", "anchors": ["include/etl/basic_string.h: cleanup, initialise, erase, resize, set_secure"]}
{"id": "C45", "title": "rounding of scaled integers gives the documented integer", "statement": "round_ceiling/floor/half_up/half_down/zero/infinity/half_even/half_odd (unscaled and scaled) return the least / greatest / nearest multiple the name says, with ties as documented, for signed and unsigned types of every width.", "quantifier": "every value, scaling and integer type", "why_tests_cant": "domains not enumerable", "anchors": ["include/etl/scaled_rounding.h", "include/etl/absolute.h"]}
{"id": "C46", "title": "hashes and checksums notice every changed byte", "statement": "If two messages differ in exactly one byte (at any position, of any length), their checksum (sum, bsd, xor, xor_rotate), fnv_1, fnv_1a, jenkins, murmur3 and pearson values differ.", "quantifier": "every message, position and pair of bytes", "why_tests_cant": "messages unbounded", "anchors": ["include/etl/checksum.h", "include/etl/fnv_1.h", "include/etl/jenkins.h", "include/etl/murmur3.h", "include/etl/pearson.h"]}
{"id": "C47", "title": "string searches and comparisons give the answer of the text", "statement": "find / rfind (string, view, text, text with count, character), contains, compare (whole, substring, with positions), starts_with / ends_with and the find_first/last(_not)_of family of a string answer exactly what the held characters say, independent of what lies behind the end in the buffer, and never touch memory outside it.", "quantifier": "every string, buffer content behind the end, text, position and count", "why_tests_cant": "positions x counts x contents not enumerable", "anchors": ["include/etl/basic_string.h: find, find_impl, rfind, rfind_impl, compare, starts_with, ends_with, find_first_of, find_last_of"]}
{"id": "C48", "title": "a state chart takes the first enabled transition and keeps entry and exit paired", "statement": "process_event takes the first transition in table order that fits event and state and whose guard agrees, calls action, exit, entry in this order (the latter two only when the state changes), does nothing otherwise; over any history every state is exited exactly once between two entries and get_state_id() is the state entered last.", "quantifier": "every table, every history of events, every behaviour of guards and callbacks", "why_tests_cant": "tables and histories unbounded", "anchors": ["include/etl/state_chart.h: start, process_event, find_state, is_transition"]}
{"id": "C49", "title": "forward_list behaves as a sequence and leaks no node", "statement": "Any history of allowed calls on a forward_list (push/pop front, insert/erase after, ranges, resize, assign, remove, unique, reverse, sort, moves, queries) answers as the same history on a plain sequence; full lists are reported; every pool node stays exactly one of free, in this list, in use by another list of the same pool; nothing else is touched", "quantifier": "every history, every capacity, shared and own pools, every value type, every strict weak order", "why_tests_cant": "histories, capacities and links unbounded", "anchors": ["include/etl/forward_list.h: push_front, insert_after, erase_after, move_after, resize, assign, remove_if, unique, reverse, sort"]}
{"id": "C50", "title": "unordered_multimap and unordered_multiset keep every element, grouped by key", "statement": "For every hash function that respects key equality (even a constant one), every number of buckets, every capacity and every history of insert, range insert, assign, erase by key, by iterator and by range, clear and queries: every call is defined; the elements met by iteration are exactly those inserted and not erased, with equal keys met one after the other, the newest first; count, equal_range, find and contains agree with that list; erase by key removes all elements with the key and returns how many, other elements keep their order; insert gives an iterator to the new element and reports full exactly at capacity, changing nothing. Exceptions found: erase(it->first) compares later keys with a key already destroyed; a range erase that ends at end() can run off the buckets.", "quantifier": "all key equalities and hash functions, bucket counts, capacities, operation histories and elements", "why_tests_cant": "histories, collisions and bucket layouts are unbounded; a test uses a few keys and one hash", "anchors": ["include/etl/unordered_multimap.h: insert, erase, count, find, equal_range, clear", "include/etl/unordered_multiset.h: the same members", "include/etl/intrusive_forward_list.h: insert_after, erase_after"]}
{"id": "C51", "title": "multimap and multiset behave like a list sorted by key, equal keys in insertion order", "statement": "For every ordering, capacity, pool and history of insert, range insert, assign, erase by key, erase of the first element of a key by iterator, erase of a range that begins at the first element of a key, clear and queries: every call is defined and ends; its result (iterator positions, counts, bounds, contents) is that of a list sorted by key in which a new element goes behind the elements with an equal key; insert into a full container reports full and changes nothing; iteration forwards and backwards gives the list; the tree stays height balanced (height at most 2 log2(n+1)+1) and every parent pointer names the node above; nodes in use and free nodes add up to the capacity; elements do not move. Erasing by an iterator that is not at the first element of its key can break the order (refuted).", "quantifier": "all strict weak orders, capacities, pools with any garbage in the nodes, operation histories and elements", "why_tests_cant": "tree shapes, rotations and histories are unbounded; a test sees a few shapes and mostly distinct keys", "anchors": ["include/etl/multimap.h: insert_node, remove_node, rotate_2node, rotate_3node, balance_node, detach_node, next_node, prev_node, find_*, count_nodes, insert, erase, iterators", "include/etl/multiset.h: the same members"]}
{"id": "C52", "title": "midpoint never overflows and gives the middle", "statement": "etl::midpoint of two integers of one type is the middle of the two, rounded towards the first argument when it is not an integer, without overflow, for every integer type; of two pointers or iterators it is the element half way.", "quantifier": "all pairs of values of every signed or unsigned integer type of at least 8 bits; all pairs of positions in an array", "why_tests_cant": "the defect depends on integer promotion and on the signs: a test over int never sees it, and all pairs of 32 or 64 bit values cannot be enumerated", "anchors": ["include/etl/numeric.h: etl::midpoint"]}
{"id": "C53", "title": "a histogram counts every key once, under its own key", "statement": "After any sequence of add, clear, copy and assignment, histogram[k] is the number of times k was added since the last clear (modulo the count type), copies read the same as the original, count() is the number of keys, and sparse_histogram holds exactly the keys that were added, in order.", "quantifier": "all histories of add, add(range), clear, copy, assign and reads over any number of histograms, all count widths and ranges", "why_tests_cant": "copies of a histogram whose start is a constructor argument are only wrong for particular later reads; wrap around needs long histories", "anchors": ["include/etl/histogram.h: etl::histogram, etl::sparse_histogram"]}
{"id": "C54", "title": "a nest of multi_ranges is the nested loops", "statement": "Iterating over nested multi_ranges with start / completed / next visits exactly the combinations of values that the nested for loops would visit, in lexicographic order, from whatever state the ranges were in; number_of_iterations() is the product of the counts. append and insert build the nest that was asked for or report a circular reference; detach takes it apart.", "quantifier": "all nests of any depth, all loop bounds, steppers and comparisons with which the loops end, all earlier states", "why_tests_cant": "depth and lengths are unbounded, and the state of every range on the chain interacts at every roll over", "anchors": ["include/etl/multi_range.h: etl::multi_range, etl::imulti_range"]}
{"id": "C55", "title": "string utilities do what their names say on every text", "statement": "trim_from_* remove exactly the leading / trailing characters of the set, trim_* exactly what lies before the first / behind the last delimiter, left_n / right_n keep exactly the first / last n characters, replace_strings replaces exactly the leftmost non-overlapping occurrences pair after pair and ends, pad fills up to min(n, capacity), and repeated get_token yields exactly the pieces between the delimiters (the non-empty ones if asked) and ends; no call reads outside the text.", "quantifier": "all texts, character sets, counts, capacities, replacement pairs and delimiter sets", "why_tests_cant": "texts, sets and the positions of delimiters are unbounded; a test uses a few texts and rarely an empty one", "anchors": ["include/etl/string_utilities.h: trim_from_left, trim_from_right, trim_from, trim_whitespace, trim_left, trim_right, trim, left_n, right_n, their view forms, reverse, replace_characters, replace_strings, find_first_of, find_first_not_of, find_last_of, find_last_not_of, get_token, pad_left, pad_right, pad"]}
{"id": "C56", "title": "a tick that interrupts a timer call takes effect before or after the call", "statement": "When the tick handler is called in the middle of calls of the application (from an interrupt or a task of higher priority), no access goes astray, every call returns, and the whole is indistinguishable from a history without interrupts in which each processed tick comes before or after the call it interrupted: same answers, same expirations in the same order. A tick that meets a held semaphore or mutex returns false and changes nothing; with an interrupt lock no tick is lost.", "quantifier": "every history of calls, any number of ticks at any points inside the calls, every lock kind, both kinds of timers", "why_tests_cant": "the damage needs a tick at one particular instruction of one particular call; a test cannot interrupt itself there, and schedules are unbounded", "anchors": ["include/etl/callback_timer.h: tick, register_timer, unregister_timer, start, stop, set_period, set_mode, clear, has_active_timer, time_to_next, is_active, ETL_DISABLE_TIMER_UPDATES", "include/etl/callback_timer_atomic.h: the same members", "include/etl/callback_timer_interrupt.h: the same members", "include/etl/callback_timer_locked.h: the same members", "include/etl/message_timer.h, message_timer_atomic.h, message_timer_interrupt.h, message_timer_locked.h"]}
{"id": "C57", "title": "the pseudo random generators keep to the interval and have their full period from every seed", "statement": "range(low, high) of every generator returns a value of [low, high] and can return each of them, using up exactly one number. From every seed random_xorshift goes through all 2^128 - 1 states and random_pcg through all 2^64 before a state comes again; random_mwc is periodic from its third number on with period (p1-1)/2 * (p2-1)/2 for every seed that neither modulus divides; no generator gets stuck.", "quantifier": "every seed, any number of calls, every interval", "why_tests_cant": "a period of 2^128 - 1 cannot be observed; the degenerate seeds are a few among 2^32", "anchors": ["include/etl/random.h: random_xorshift, random_lcg, random_clcg, random_lsfr, random_mwc, random_pcg, initialise, operator(), range", "include/etl/binary.h: rotate_right"]}
{"id": "C58", "title": "a bresenham line is the line between its two points", "statement": "The loop over a bresenham_line ends and gives size() points: the first one first, the last one last, one for every unit of the longer axis, neighbours connected, never more than half a unit from the exact line; every further loop over the same line gives the same points.", "quantifier": "every pair of end points, any number of loops over one line", "why_tests_cant": "there are 2^64 pairs of end points; a test draws a few lines and each of them once", "anchors": ["include/etl/bresenham_line.h: bresenham_line, reset, begin, end, size, front, back, const_iterator"]}
{"id": "C59", "title": "buffer_descriptors lends each buffer to one holder at a time", "statement": "After any history of allocate, allocate(fill), release, clear and notify by users who release only what they hold, allocate never hands out a held buffer, hands the buffers out in turn, fails exactly when all are held if they come back in order, fills exactly the elements of the new buffer, and leaves the contents of held buffers alone.", "quantifier": "every number and size of buffers, every history", "why_tests_cant": "histories are unbounded, and the failures need a particular order of releases", "anchors": ["include/etl/buffer_descriptors.h: buffer_descriptors::allocate, clear, notify, descriptor::release, is_allocated, is_released, is_valid, data", "include/etl/cyclic_value.h: operator ++"]}
{"id": "C60", "title": "a circular_iterator counts modulo the length of its range", "statement": "After any sequence of ++, --, += and -= a circular_iterator stands at the element given by its start plus the sum of the moves, modulo the length of the range; it never leaves the range and no arithmetic overflows on the way.", "quantifier": "every range length, every start, every sequence of moves by any difference", "why_tests_cant": "differences range over 2^64 values and the sequences are unbounded", "anchors": ["include/etl/circular_iterator.h: circular_iterator, operator ++, --, +=, -=, +, -"]}
{"id": "C61", "title": "the message router registry finds, counts and walks exactly the registered routers", "statement": "After any sequence of add() and remove(id) calls on a message_router_registry: find(id) is the router registered first under id, or none; count(id), size(), available(), full(), contains(id) agree with the routers added and not removed; a walk visits each of them, by ascending id and per id in order of registration; add() is refused (with an error, changing nothing) exactly when the registry is full or already holds the router; remove(id) takes exactly the routers with that id.", "quantifier": "every history of add and remove calls, every capacity, every assignment of ids to routers", "why_tests_cant": "histories, capacities and id assignments (including equal ids) are unbounded", "anchors": ["include/etl/message_router_registry.h: imessage_router_registry::add, remove, contains, find, count, size, full, available", "include/etl/reference_flat_multimap.h"]}
{"id": "C62", "title": "array insert, erase and assign move exactly the elements behind the position", "statement": "insert and insert_at put the new values at the position, keep the elements in front of it, move the others back and drop what does not fit; erase and erase_range close the gap (and fill the places that become free with the given value); assign copies the source from the start; nothing outside the array is read or written and no inserted or kept place holds a moved-from value.", "quantifier": "every array size, contents, position or range of positions, value and source range; element types with any effect of moving", "why_tests_cant": "sizes, positions and source lengths vary together, and an access one past the end often goes unnoticed", "anchors": ["include/etl/array.h: array::insert, insert_at, erase, erase_at, erase_range, assign, fill", "include/etl/algorithm.h: move, move_backward, copy_s, fill"]}
{"id": "C63", "title": "stack is a bounded LIFO that respects object lifetimes", "statement": "After any sequence of push/emplace, pop, pop_into, clear, reverse and assignments, a stack holds exactly the elements a list would: top and pop_into give the element pushed last, size/empty/full/available agree, push on a full and pop on an empty stack are errors (ETL_CHECK_PUSH_POP) that change nothing; no raw slot is read or destroyed, no living object is overwritten or leaked.", "quantifier": "every history of calls, every capacity, trivially destructible or not, with and without ETL_CHECK_PUSH_POP (within the bounds)", "why_tests_cant": "histories and capacities are unbounded, and lifetime errors often go unnoticed at run time", "anchors": ["include/etl/stack.h: istack::push, emplace, pop, pop_into, top, clear, reverse, operator =, clone; stack_base", "include/etl/algorithm.h: reverse"]}
{"id": "C64", "title": "unaligned_type holds its value in the declared byte order on every machine", "statement": "The bytes of an etl::unaligned_type<T, Endian> (be_... / le_... types) are those of its value in that byte order, whatever the byte order of the machine; any bytes are read as the value they have in that order; copies, assignments and moves between types of different byte order keep the value; hton gives a value whose memory is in network order and ntoh undoes it.", "quantifier": "every integral type of 8 to 64 bits, signed or not, every value, every byte string, both byte orders of the machine and of the type", "why_tests_cant": "2^64 values times the combinations of byte orders, and a test runs on one machine only", "anchors": ["include/etl/unaligned_type.h: unaligned_type, unaligned_type_ext, copy_value_to_store, copy_store_to_value, copy_store_to_store", "include/etl/endianness.h: ntoh, hton", "include/etl/binary.h: reverse_bytes"]}
{"id": "C65", "title": "flags is a set of the flags of its mask", "statement": "After any sequence of set, set(pattern, value), reset, clear, flip, assignments and compound assignments a flags<T, MASK> holds exactly the flags a set of the bits of MASK would; no flag outside MASK is ever set; test, all, all_of, any, any_of, none, none_of and == answer the questions about that set.", "quantifier": "every unsigned type, every MASK, every sequence of calls with every pattern", "why_tests_cant": "types, masks, patterns and sequences are unbounded together", "anchors": ["include/etl/flags.h: flags"]}
{"id": "C66", "title": "a chain of memory block allocators hands out each block to one holder, from the first allocator that can", "statement": "allocate(size, alignment) on a chain of fixed_sized_memory_block_allocators (set_successor) gives a block that is large and aligned enough, is not held by anybody and belongs to the first allocator in the chain that fits and has a block left; it gives null exactly when every allocator that fits is exhausted; release returns whether the chain owns the block and makes it available again; is_owner_of is exact.", "quantifier": "every chain of allocators with any block sizes, alignments and numbers of blocks; every history of allocations and releases", "why_tests_cant": "chains and histories are unbounded", "anchors": ["include/etl/imemory_block_allocator.h: allocate, release, is_owner_of", "include/etl/fixed_sized_memory_block_allocator.h: allocate_block, release_block, is_owner_of_block", "include/etl/successor.h"]}
{"id": "C67", "title": "delegate_service and callback_service call the handler that was registered last", "statement": "After any sequence of register_delegate(id, d) and register_unhandled_delegate(d) on a service for the ids Offset .. Offset + Range - 1 (any number of other services being constructed, copied and destroyed in between), call(id) calls exactly one handler, once, with that id: the last one registered for id; if id is out of range or has none, the last unhandled handler; if there is none either, nothing. Registrations with ids out of range change nothing. The same for callback_service. A static table calls the entry of the id, and the entry behind the table for other ids. A copy of a service behaves like the original (refuted).", "quantifier": "every Range and Offset, every history of registrations on any number of services, every id", "why_tests_cant": "histories, ids and the lifetimes of several services are unbounded", "anchors": ["include/etl/delegate_service.h: register_delegate, register_unhandled_delegate, call", "include/etl/callback_service.h: register_callback, register_unhandled_callback, callback"]}
{"id": "C68", "title": "pseudo_moving_average stays between its inputs and close to the exact filter", "statement": "For integer types whose range holds SAMPLE_SIZE + 1 times the scaled inputs: whatever values are added, and however many, value() lies between the least and the greatest of the initial and added values times SCALING, no step overflows, and value() differs from the exact exponential filter (a * N + S * v) / (N + 1), computed with fractions, by less than N + 1. A constant input that equals the initial value is kept exactly. The average approaches a constant input (refuted: it can stay where it is for ever).", "quantifier": "every sample size, scaling, range of values and every sequence of values", "why_tests_cant": "rounding errors accumulate over sequences of any length", "anchors": ["include/etl/pseudo_moving_average.h: pseudo_moving_average, add, clear, value"]}
