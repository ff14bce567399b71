{
 "claims": [
  {
   "property": "C01",
   "status": "proved",
   "theorems": [
    "C01_spsc_fifo"
   ],
   "note": "queue_spsc_atomic on a two-thread release/acquire machine; all schedules and stale reads"
  },
  {
   "property": "C02",
   "status": "proved",
   "theorems": [
    "C02_spsc_no_undefined_behaviour",
    "C02_spsc_live_objects_bounded",
    "C02_spsc_live_objects_exact"
   ],
   "note": "race detection and object lifetimes built into the machine"
  },
  {
   "property": "C03",
   "status": "proved",
   "theorems": [
    "C03_spsc_claims_truthful",
    "C03_spsc_size_bounded",
    "C03_spsc_wait_free",
    "C03_spsc_never_blocked"
   ],
   "note": ""
  },
  {
   "property": "C04",
   "status": "proved",
   "theorems": [
    "C04_stream",
    "C04_prefix",
    "C04_drain",
    "C04_blocks_stream",
    "C05_wrap_lower_refuted"
   ],
   "note": "Proved on a release/acquire memory model for every schedule, capacity and request as long as the writer wraps around at ascending positions, and without that hypothesis for clients writing blocks that divide the capacity. FINDING: the commit that wraps around (bip_buffer_spsc_atomic.h 281-285) does not store last; a second wrap-around at a lower position leaves the marker stale and the reader is given elements nobody wrote (C05_wrap_lower_refuted: the claim without the hypothesis is false)."
  },
  {
   "property": "C05",
   "status": "proved",
   "theorems": [
    "C05_no_undefined_step",
    "C05_in_range",
    "C05_blocks_safe",
    "C05_wrap_lower_refuted",
    "C05_optimal_refuted"
   ],
   "note": "As C04. FINDING 2: write_reserve_optimal behind a wrap-around adds the maximum of size_type to the write index; when size_type is as wide as int the sum wraps and the span returned has the maximal size (C05_optimal_refuted)."
  },
  {
   "property": "C06",
   "status": "proved",
   "theorems": [
    "C06_pool_allocate",
    "C06_pool_exhausted",
    "C06_pool_held_blocks_disjoint",
    "C06_pool_counts",
    "C06_pool_release",
    "C06_pool_release_foreign",
    "C06_pool_contents_preserved"
   ],
   "note": "byte level memory; double release of a held block is outside the client contract (ETL does not detect it)"
  },
  {
   "property": "C07",
   "status": "proved",
   "theorems": [
    "C07_circular_buffer_most_recent",
    "C07_circular_buffer_assign",
    "C07_circular_buffer_iterators"
   ],
   "note": "refinement of the slot-level code to a list truncated to its last N items; object lifetimes tracked"
  },
  {
   "property": "C08",
   "status": "proved",
   "theorems": [
    "C08_queue_fifo",
    "C08_queue_assign_same_capacity",
    "C08_queue_assign_other_capacity_refuted"
   ],
   "note": "every history of one queue, and copy between queues of the same type. FINDING: assigning between queues of different capacity through iqueue& reads outside the source contents (refuted with a witness; queue.h clone() wraps the source index at the capacity of the target)"
  },
  {
   "property": "C09",
   "status": "proved",
   "theorems": [
    "C09_deque_history",
    "C09_iterators",
    "C09_move_assign",
    "C09_erase_end_refuted",
    "C09_insert_count_wraps_refuted",
    "C09_assign_range_unchecked_refuted",
    "C09_insert_own_element_refuted",
    "C09_empty_insert_refuted"
   ],
   "note": "Every history of all member functions (push/pop, insert/emplace single, n, range, erase, resize, assign, fill, clear, at, [], front, back, forward and reverse iteration) agrees with the sequence specification, any capacity and seam position; iterator arithmetic; move assignment. FINDINGS (refuted): erase(end()) passes the range check and is undefined; insert(pos,n,v) capacity check wraps; assign(range) is not checked without ETL_CHECK_PUSH_POP; inserting an own element by reference inserts the wrong value; empty insertions self-move elements."
  },
  {
   "property": "C10",
   "status": "proved",
   "theorems": [
    "C10_vector_history",
    "C10_vector_operation",
    "C10_copy_assign",
    "C10_move_assign",
    "C10_insert_own_element_before",
    "C10_move_assign_unchanged_refuted",
    "C10_unchecked_push_refuted",
    "C10_assign_range_release_refuted",
    "C10_insert_count_wraps_refuted",
    "C10_insert_own_element_after_refuted",
    "C10_empty_erase_refuted",
    "C10_empty_insert_refuted"
   ],
   "note": "vector.h on uninitialised slots with object lifetimes, arbitrary moved-from values, every history of 15 operations. FINDINGS: insert(pos, v[i]) with i > pos inserts v[i-1] (aliasing); empty erase/insert self-move-assigns the tail; size()+n wraps in insert(pos,n,x); move assignment that does not fit leaves partial content; push_back unchecked without ETL_CHECK_PUSH_POP; assign(range) unchecked outside debug builds. Not modelled: uninitialized_resize, pointer specialisation, element constructors that throw."
  },
  {
   "property": "C11",
   "status": "proved",
   "theorems": [
    "C11_operation",
    "C11_throws",
    "C11_history",
    "C11_insert_result",
    "C11_assign_part_refuted",
    "C11_assign_part_overrun_refuted",
    "C11_erase_position_refuted",
    "C11_count_wrap_refuted",
    "C11_insert_part_wrap_refuted"
   ],
   "note": "Every operation, text, capacity, position and count, except the calls excluded by `safe`; for each of these a _refuted theorem. The flag is sticky for append/insert/replace/resize/push_back (StrSpec.flag). FINDINGS: assign(string, subposition, sublength) does not limit sublength to the source and copies stale characters or reads out of bounds; erase(position > size()) is not checked and corrupts the size; counts near the maximum of size_type wrap in insert/append and in insert(position, string, subposition, sublength). Operations of a string on itself are not modelled."
  },
  {
   "property": "C12",
   "status": "proved",
   "theorems": [
    "C12_history",
    "C12_no_leak",
    "C12_sort_meaning",
    "C12_merge_meaning",
    "C12_splice_rvalue_refuted",
    "C12_splice_empty_range_refuted",
    "C12_splice_shared_pool_refuted"
   ],
   "note": "list.h at the level of node pointers, for any number of lists over any pools (own or shared), every history of 32 operations (push, pop, insert, erase, resize, assign, splice, merge, sort, unique, reverse, remove_if, move, iteration both ways). FINDINGS: splice(to, list&&) of a whole list reverses the elements; splice of an empty range inside a list loses elements; splice and merge between lists of one pool need free nodes and throw list_full. Not modelled: forward_list; exceptions thrown by element constructors."
  },
  {
   "property": "C13",
   "status": "proved",
   "theorems": [
    "C13_link_splice",
    "C13_link_splice_range",
    "C13_link_splice_null",
    "C13_unlink",
    "C13_link",
    "C13_is_linked",
    "C13_link_clear_range",
    "C13_unlink_range_exact",
    "C13_forward_link_splice",
    "C13_forward_link_splice_range",
    "C13_forward_unlink_after",
    "C13_forward_unlink_after_range",
    "C13_stack_push",
    "C13_stack_push_twice",
    "C13_stack_pop",
    "C13_stack_reverse_clear",
    "C13_queue_push",
    "C13_queue_push_twice",
    "C13_queue_pop",
    "C13_queue_clear",
    "C13_stack_queue_pop_empty",
    "C13_list_push",
    "C13_list_push_twice",
    "C13_list_pop",
    "C13_list_clear_reverse",
    "C13_list_assign",
    "C13_list_insert",
    "C13_list_insert_range",
    "C13_list_erase",
    "C13_list_erase_range",
    "C13_list_erase_node",
    "C13_list_remove_if",
    "C13_list_unique",
    "C13_list_sort",
    "C13_list_splice",
    "C13_list_splice_one_other",
    "C13_list_splice_one_same",
    "C13_list_splice_range_exact",
    "C13_list_merge",
    "C13_splice_range_refuted",
    "C13_splice_empty_range_refuted",
    "C13_splice_before_next_refuted",
    "C13_assign_leaves_linked_refuted"
   ],
   "note": "Chains and rings of any length in one heap of nodes, each theorem with its frame (which nodes are left alone). intrusive_forward_list and tree_link are not modelled. FINDINGS: unlink(first, last) clears the last node, so intrusive_list::splice of a range of two or more elements leaves the last one with a null previous link (reverse iteration stops, pop_back destroys the list); splice of an empty range damages both lists; splice(position, list, it) with position == next(it) links the element to itself; assign() leaves the old elements linked so that no list accepts them."
  },
  {
   "property": "C14",
   "status": "proved",
   "theorems": [
    "C14_history",
    "C14_reverse_iteration",
    "C14_elements_do_not_move",
    "C14_insert_present_never_fails_refuted",
    "C14_set_insert_present"
   ],
   "note": "map.h and set.h at the level of node pointers (the code of the two is the same but for insert): every history of 20 operations from a fresh container over any pool whose nodes hold garbage; every strict weak order. FINDING: map::insert of a present key throws map_full when the map is full (set::insert does not). Not modelled here: multimap and multiset, move assignment."
  },
  {
   "property": "C15",
   "status": "proved",
   "theorems": [
    "C15_balanced"
   ],
   "note": "After every history the tree read off the node fields is an AVL tree with exact weights, height bounded by the Fibonacci bound and by 2*log2(n+1)+1, look-up ends after height+1 steps."
  },
  {
   "property": "C16",
   "status": "proved",
   "theorems": [
    "C16_history",
    "C16_erase_iterator",
    "C16_erase_range",
    "C16_erase_to_end_refuted",
    "C16_erase_to_incremented_end_refuted",
    "C16_insert_present_iterator_refuted",
    "C16_insert_present_never_full_refuted"
   ],
   "note": "unordered_map.h and unordered_set.h at the level of nodes, buckets and first/last marks; every hash function respecting the key equality (total collision included), bucket count, capacity and history of 17 operations; iterator and range erase in every reachable state. FINDINGS: insert of a present key returns (end(), false); unordered_map::insert of a present key reports full when full; after erasing one of several elements of the last bucket the last mark is wrong and erase(it, end()) runs off the bucket array; an end iterator reached by ++ cannot be used as the end of a range to erase. Not modelled: unordered_multimap/multiset, move assignment, load_factor."
  },
  {
   "property": "C17",
   "status": "proved",
   "theorems": [
    "C17_history",
    "C17_search_means",
    "C17_insert_means",
    "C17_emplace_like_insert_refuted"
   ],
   "note": "All four flat containers over the lookup vector and block pool; every history over every strict weak order, capacity and allocation policy. FINDING: flat_set::emplace of a present value returns (end(), false); emplace on a full container asserts even for a present key, insert does not."
  },
  {
   "property": "C18",
   "status": "proved",
   "theorems": [
    "C18_priority_queue",
    "C18_drain_is_sorted",
    "C18_pop_empty_undefined"
   ],
   "note": "every history of calls against a multiset; the vector underneath is a list of capacity N"
  },
  {
   "property": "C19",
   "status": "proved",
   "theorems": [
    "C19_alphabets_ok",
    "C19_encode_is_rfc4648",
    "C19_encode_overflow_reported",
    "C19_encode_callback",
    "C19_round_trip",
    "C19_decode_valid",
    "C19_decode_callback",
    "C19_text_length",
    "C19_text_characters",
    "C19_safe_output_size",
    "C19_decode_accepts_only_valid",
    "C19_decoder_restart",
    "C19_decoder_callback_buffer_4_refuted",
    "C19_encoder_restart_refuted",
    "C19_encode_after_exception_refuted",
    "C19_trailing_character_refuted"
   ],
   "note": "against RFC 4648 stated on bits; FINDINGS: callback decoder needs Buffer_Size multiple of 3 (not asserted); encoder restart() keeps the overflow flag; after an overflow exception the next encode() writes out of bounds; a trailing single character is ignored"
  },
  {
   "property": "C20",
   "status": "proved",
   "theorems": [
    "C20_any_split",
    "C20_crc_is_bit_serial",
    "C20_library_parameters_valid",
    "C20_library_crcs",
    "C20_crc1_is_parity"
   ],
   "note": "all 48 parameter sets of crc_parameters.h and crc1, all three table sizes, every split into calls; parameters compared with the published catalogue values"
  },
  {
   "property": "C21",
   "status": "proved",
   "theorems": [
    "C21_writer",
    "C21_reader",
    "C21_round_trip",
    "C21_fitting_values",
    "C21_writer_skip_aligned",
    "C21_callback",
    "C21_flush",
    "C21_bit_stream_put",
    "C21_bit_stream_get",
    "C21_bit_stream_round_trip",
    "C21_float_round_trip",
    "C21_writer_skip_refuted",
    "C21_writer_skip_underflow_refuted",
    "C21_write_after_skip_refuted",
    "C21_writer_empty_refuted",
    "C21_write_zero_bits_refuted",
    "C21_callback_exact_fill_refuted",
    "C21_flush_nothing_refuted",
    "C21_failed_get_changes_value_refuted"
   ],
   "note": "bit_stream_writer/reader and the old bit_stream. FINDINGS (refuted with witnesses): writer skip is wrong unless byte aligned and can run past the end; after a skip into a non-zero byte old bits show through; empty() compares bits with bytes; write(v,0) divides by zero; the callback at exact fill reads one byte past the buffer; flush with nothing pending emits a byte; a failed get of a signed type truncates the variable of the caller"
  },
  {
   "property": "C22",
   "status": "proved",
   "theorems": [
    "C22_writer",
    "C22_reader",
    "C22_failed_read_leaves_position",
    "C22_failed_write_changes_nothing",
    "C22_round_trip",
    "C22_callback_bytes",
    "C22_callback_bool_refuted"
   ],
   "note": "all histories, any machine byte order. FINDING (refuted): write(bool) does not call the callback. Not modelled: write_unchecked called directly past the end, restart beyond the capacity"
  },
  {
   "property": "C23",
   "status": "proved",
   "theorems": [
    "C23_reverse_bits_correct",
    "C23_reverse_bytes_correct",
    "C23_rotate_left_correct",
    "C23_rotate_right_correct",
    "C23_rotate_by_one_correct",
    "C23_signed_distance_rotations_correct",
    "C23_merge_correct",
    "C23_interleave_correct",
    "C23_fill_correct",
    "C23_gray_correct",
    "C23_count_bits_correct",
    "C23_parity_correct",
    "C23_count_trailing_zeros_correct",
    "C23_count_trailing_ones_correct",
    "C23_count_leading_zeros_correct",
    "C23_count_leading_ones_correct",
    "C23_count_trailing_ones_64_exact",
    "C23_count_leading_zeros_64_exact",
    "C23_count_leading_ones_32_exact",
    "C23_count_leading_ones_64_exact",
    "C23_first_bit_positions_correct",
    "C23_fold_bits_correct",
    "C23_sign_extend_correct",
    "C23_sign_extend_shift_correct",
    "C23_byte_search_correct",
    "C23_masks_correct",
    "C23_odd_even_correct",
    "C23_has_single_bit_correct",
    "C23_bit_width_correct",
    "C23_bit_ceil_correct",
    "C23_bit_floor_correct",
    "C23_signed_wrappers_correct",
    "C23_count_trailing_ones_refuted",
    "C23_count_leading_zeros_refuted",
    "C23_count_leading_zeros_signed_refuted",
    "C23_count_leading_ones_refuted",
    "C23_has_single_bit_refuted",
    "C23_bit_width_refuted",
    "C23_bit_ceil_refuted",
    "C23_bit_floor_refuted",
    "C23_rotate_signed_refuted",
    "C23_gray_signed_refuted",
    "C23_reverse_bits_const_int8_refuted",
    "C23_interleave_signed_refuted"
   ],
   "note": "every value of every width; the code is wrong at some widths and the exact result is proved there. FINDINGS (code of binary.h without C++20 STL): count_leading_zeros<uint64> gives 32 when 33..35 (so bit_width, bit_ceil, bit_floor of 2^28..2^31-1 are wrong), count_leading_zeros of signed calls count_trailing_ones, count_leading_ones 32/64 and count_trailing_ones 64 saturate, has_single_bit(0), rotate/gray of negative values, reverse_bits_const<int8_t>, signed interleave"
  },
  {
   "property": "C24",
   "status": "proved",
   "theorems": [
    "C24_to_string_exact",
    "C24_boolean_exact",
    "C24_parse_exact",
    "C24_parse_in_range",
    "C24_round_trip",
    "C24_denominated_exact",
    "C24_negative_hex_refuted",
    "C24_long_long_refuted",
    "C24_wide_character_refuted",
    "C24_denominated_refuted",
    "C24_minus_zero_refuted"
   ],
   "note": "Exact text of every integer / bool / denominated integer (any base >= 2, width, fill, justification, case, prefix) and exact result of to_arithmetic for every text of 8 bit characters and every 8..64 bit type; round trip. Floating point conversions and truncation by a too small string are not modelled. FINDINGS (refuted): the sign of negative values is lost in bases 2/8/16; 64 bit types other than int64_t/uint64_t are cut to 32 bits; wide characters are cut to 8 bits when parsed; rounding of denominated values can overflow; \"-0\"."
  },
  {
   "property": "C25",
   "status": "proved",
   "theorems": [
    "C25_timer_refines_clock",
    "C25_timer_fires_exactly",
    "C25_tick_chunking",
    "C25_tick_terminates",
    "C25_zero_period_diverges_refuted",
    "C25_message_timer_unregister_refuted",
    "C25_callback_timer_unregister",
    "C25_stop_in_own_callback_refuted",
    "C25_stop_in_own_callback",
    "C25_start_in_own_callback_refuted",
    "C25_start_in_own_callback"
   ],
   "note": "all eight timer headers, re-entrant callbacks of any behaviour; FINDINGS: message_timer*.h unregister shifts later timers; the atomic/interrupt/locked variants mishandle stop/start of a timer from its own callback; a repeating period of 0 never terminates"
  },
  {
   "property": "C26",
   "status": "proved",
   "theorems": [
    "C26_history",
    "C26_receive_order",
    "C26_bad_id",
    "C26_set_states",
    "C26_start_exits_refuted",
    "C26_terminates_refuted",
    "C26_self_transition_enter_ignored",
    "C26_last_id_refuted"
   ],
   "note": "Every user behaviour (arbitrary state-passing functions) and every history; not modelled: user functions that call the machine again. FINDINGS: start() follows changes asked for by on_enter_state without calling on_exit_state; chained enters may never end; the change asked for by the enter action of a self transition is ignored; with 254 states and 8-bit ids the last id is Self_Transition."
  },
  {
   "property": "C27",
   "status": "proved",
   "theorems": [
    "C27_history",
    "C27_common_ancestor",
    "C27_transition",
    "C27_nested",
    "C27_dispatch",
    "C27_dispatch_cpp03",
    "C27_dispatch_same_refuted",
    "C27_ancestor_reentered_refuted",
    "C27_self_transition_refuted"
   ],
   "note": "Every finite forest of states, every behaviour, every history; also process_event dispatch to the parents. FINDINGS: a transition to an ancestor enters it again without exiting it; Self_Transition raises fsm_state_id_exception in hfsm; the C++17 and C++03 dispatchers differ for a top level state that passes an event on."
  },
  {
   "property": "C28",
   "status": "proved",
   "theorems": [
    "C28_bus_history",
    "C28_bus_exactly_once",
    "C28_broker_history",
    "C28_router_chain",
    "C28_router_unknown",
    "C28_bus_id_delivers_twice_refuted",
    "C28_destination_in_successor_refuted"
   ],
   "note": "Bus and broker: every history of subscribe/unsubscribe/clear/send over arbitrary routers (virtual interface); broker on real next pointers, any initial garbage. FINDINGS: a message addressed to MESSAGE_BUS is delivered twice below nested buses; an addressed message is not passed to the successor of a plain router. The bus delivers by ascending router id, ties in subscription order."
  },
  {
   "property": "C29",
   "status": "proved",
   "theorems": [
    "C29_history",
    "C29_removal_while_notifying_refuted",
    "C29_clear_while_notifying_refuted"
   ],
   "note": "All histories of add/remove/enable/disable/clear/count/notify. FINDING: removal (or clear) from inside a notification skips the next observer / runs the iterator past the end."
  },
  {
   "property": "C30",
   "status": "proved",
   "theorems": [
    "C30_history",
    "C30_released_once",
    "C30_threads",
    "C30_assign_to_moved_from_refuted"
   ],
   "note": "All allowed histories of handle operations (incl. persistent messages, allocation failure) and all interleavings of threads on the atomic counter. FINDING: copying from or assigning to a moved-from handle dereferences null."
  },
  {
   "property": "C31",
   "status": "proved",
   "theorems": [
    "C31_shell_sort",
    "C31_sort",
    "C31_heap_sort",
    "C31_sort_heap",
    "C31_make_heap",
    "C31_is_heap",
    "C31_insertion_sort_stable",
    "C31_stable_sort",
    "C31_selection_sort",
    "C31_selection_sort_empty_refuted",
    "C31_shell_sort_not_stable"
   ],
   "note": "every strict weak order, every list, three iterator categories; the configuration without the STL (with it etl::sort is std::sort). FINDING: selection_sort of an empty range is undefined"
  },
  {
   "property": "C32",
   "status": "proved",
   "theorems": [
    "C32_lower_bound",
    "C32_upper_bound",
    "C32_equal_range",
    "C32_binary_search",
    "C32_binary_find",
    "C32_find",
    "C32_equal",
    "C32_lexicographical_compare",
    "C32_search",
    "C32_find_end",
    "C32_min_element",
    "C32_max_element",
    "C32_minmax_element",
    "C32_min_max_clamp",
    "C32_is_sorted",
    "C32_is_permutation",
    "C32_copy",
    "C32_copy_backward",
    "C32_remove_if",
    "C32_replace_fill_swap",
    "C32_copies",
    "C32_partition_copy_transform2_accumulate",
    "C32_rotate",
    "C32_max_element_first_refuted",
    "C32_minmax_element_last_refuted",
    "C32_is_permutation_lengths_refuted",
    "C32_is_permutation_predicate_refuted",
    "C32_rotate_result_refuted"
   ],
   "note": "the functions of algorithm.h in the branch that does not call std. FINDINGS (refuted): max_element returns the last, minmax_element the first greatest (std: the other way); is_permutation with two ends ignores the length of the second range, its predicate versions count with ==; rotate(first, first, last) returns first"
  },
  {
   "property": "C33",
   "status": "proved",
   "theorems": [
    "C33_history",
    "C33_initial",
    "C33_inverse",
    "C33_advance_adds"
   ],
   "note": "Static and dynamic forms, every history; advance(INT_MIN) (overflowing -n) excluded. Ranges with first > last excluded."
  },
  {
   "property": "C34",
   "status": "proved",
   "theorems": [
    "C34_history",
    "C34_set_and_clear",
    "C34_set_counts_later_refuted"
   ],
   "note": "All four class templates; every configuration of counts and every sample sequence; reports, is_set/is_held/is_repeating/has_changed. FINDING (refuted): lowering the counts of a dynamic debouncer with set() below the streak already counted loses the change, because the count is compared for equality."
  },
  {
   "property": "C35",
   "status": "proved",
   "theorems": [
    "C35_sequential_single",
    "C35_once_facts",
    "C35_sequential_multiple",
    "C35_highest_priority",
    "C35_most_work",
    "C35_add_tasks",
    "C35_start",
    "C35_restart_refuted"
   ],
   "note": "Arbitrary world state changed by the tasks; task list fixed during a pass; start() up to the iteration that sees exit. FINDING (refuted): a scheduler that was asked to exit can never be started again."
  },
  {
   "property": "C36",
   "status": "proved",
   "theorems": [
    "C36_absolute",
    "C36_gcd_unsigned",
    "C36_gcd_signed",
    "C36_lcm_unsigned",
    "C36_lcm_signed",
    "C36_power",
    "C36_log",
    "C36_sqrt",
    "C36_power_of_2_round_up",
    "C36_power_of_2_round_down_exact",
    "C36_is_power_of_2",
    "C36_fibonacci",
    "C36_factorial",
    "C36_permutations",
    "C36_combinations",
    "C36_gcd_of_minimum_refuted",
    "C36_power_of_2_round_up_one_refuted",
    "C36_power_of_2_round_down_refuted",
    "C36_is_power_of_2_one_refuted",
    "C36_combinations_refuted"
   ],
   "note": "gcd/lcm of any number of values of any width (run time); power/log/sqrt/... are the template recursions with 64 bit wrap around. The depth of instantiation the compiler allows is not modelled. FINDINGS (refuted): gcd with the minimum of a signed type can be negative; power_of_2_round_down halves exact powers of two; power_of_2_round_up<1> is 2; is_power_of_2<1> is false; combinations<23,17> is wrong although the result fits (the intermediate n!/(n-k)! does not)."
  },
  {
   "property": "C37",
   "status": "proved",
   "theorems": [
    "C37_linearizable",
    "C37_fifo",
    "C37_no_data_race",
    "C37_never_stuck",
    "C37_front_refuted"
   ],
   "note": "Interleaving of every access to a shared variable by any number of threads; interrupts (xxx_from_isr / xxx_from_unlocked) run to completion while the lock is free, as the documentation requires. The C++ memory model is covered by the absence of data races. lock() is assumed to give mutual exclusion. FINDING (refuted): the reference returned by front() is used outside the lock and can dangle before the call even returns."
  },
  {
   "property": "C38",
   "status": "proved",
   "theorems": [
    "C38_no_false_negatives",
    "C38_exact",
    "C38_clear"
   ],
   "note": "One to three hash functions, any width, on the bitset model of C39; C38_exact characterises the false positives and count() exactly."
  },
  {
   "property": "C39",
   "status": "proved",
   "theorems": [
    "C39_test_all_text",
    "C39_find",
    "C39_find_first",
    "C39_find_is_least",
    "C39_set_reset_flip",
    "C39_set_all_reset_all_not",
    "C39_and_or_xor",
    "C39_from_string",
    "C39_of_value",
    "C39_shift_left",
    "C39_count_any_none_value_eq",
    "C39_shift_right",
    "C39_extract",
    "C39_history",
    "C39_flip_all_count_refuted",
    "C39_not_equality_refuted",
    "C39_flip_any_value_shift_refuted",
    "C39_value_shift_left_count_refuted",
    "C39_shift_by_element_width_refuted",
    "C39_find_next_64_refuted",
    "C39_empty_text_refuted",
    "C39_extract_check_refuted"
   ],
   "note": "Single and Multi storage, 8/16/32/64 bit elements, any N, any history over any number of bitsets. FINDINGS (refuted theorems): flip(), ~, << and construction from a number never clear the unused bits of the last element, so for N not a multiple of the element width count/any/none/==/value/>> give wrong results afterwards; shifts by a multiple of a 32/64 bit element width (even 0) shift by the operand width (undefined); find_next with 64 bit elements builds its mask in int; empty text on a one element bitset and the wrapping range check of extract are undefined. The positive theorems name exactly the remaining conditions (clean, find_fine, shl_fine, shr_fine). bitset_ext (external buffer), wchar/char16/char32 texts and bit_reference proxies are not modelled separately."
  },
  {
   "property": "C40",
   "status": "proved",
   "theorems": [
    "C40_checksum",
    "C40_xor_checksum",
    "C40_parity_checksum",
    "C40_bsd_checksum",
    "C40_xor_rotate_checksum",
    "C40_fnv",
    "C40_jenkins",
    "C40_murmur3_32",
    "C40_murmur3_64",
    "C40_pearson_exact",
    "C40_murmur3_signed_char_refuted",
    "C40_pearson_reset_refuted",
    "C20_any_split"
   ],
   "note": "Every history of add(range) / add(byte) / reset / value: the value is the given function of the bytes since the last reset, and hash_finalised is raised exactly by an add after value() (jenkins, murmur3). murmur3<uint32_t> is proved equal to MurmurHash3_x86_32. CRCs: C20. FINDINGS (refuted): murmur3 fed through signed char iterators gives another hash for bytes above 127; pearson::reset() does not restore the initial state (first stays false)."
  },
  {
   "property": "C41",
   "status": "proved",
   "theorems": [
    "C41_optional_history",
    "C41_optional_scoped",
    "C41_optional_fundamental",
    "C41_optional_fundamental_scoped",
    "C41_optional_self_value_refuted",
    "C41_optional_throw_refuted",
    "C41_variant_history",
    "C41_variant_self_value_refuted",
    "C41_variant_throw_refuted",
    "C41_variant_get_rvalue_refuted",
    "C41_expected_history",
    "C41_expected_unexpect_refuted"
   ],
   "note": "optional (both storages, all comparison operators), variant (any list of types, duplicates allowed) and expected over unbounded histories on any number of variables, constructors throwing included where the specification covers them. FINDINGS proved: assigning an optional/variant a reference to its own content is undefined; a throwing constructor on an engaged optional/any variant leaves the flag/index over a destroyed object; get<I>(variant&&) does not check the index; expected<T,T>(unexpect, e) holds a value. Not modelled: etl::visit (free function), expected<void,E>, monadic operations."
  },
  {
   "property": "C42",
   "status": "proved",
   "theorems": [
    "C42_string_view_elements",
    "C42_substr",
    "C42_copy",
    "C42_remove_prefix_suffix",
    "C42_remove_prefix_refuted",
    "C42_relational",
    "C42_compare",
    "C42_starts_ends_with",
    "C42_find",
    "C42_contains",
    "C42_find_position_refuted",
    "C42_find_empty_at_end_refuted",
    "C42_rfind_exact",
    "C42_rfind_whole",
    "C42_rfind_refuted",
    "C42_find_of",
    "C42_span_elements",
    "C42_span_sub",
    "C42_span_sub_refuted",
    "C42_span_fixed",
    "C42_span_fixed_from_shorter_refuted",
    "C42_span_equal",
    "C42_multi_span_size_index",
    "C42_multi_span_index_refuted",
    "C42_multi_span_forward",
    "C42_multi_span_backward_exact",
    "C42_multi_span_backward_refuted"
   ],
   "note": "Proved for every array, view, position and count inside the documented preconditions. FINDINGS (each a refuted theorem): remove_prefix/remove_suffix with n > size() leave a broken view; find with position > size() leaves the range; the empty text is not found at size(); rfind counts the END of the occurrence against position and returns position instead of npos when position < size() and nothing is found; span first/last/subspan do not check their arguments; a fixed-extent span ignores the end of the range it is made from; multi_span operator[] reads behind the span list for i >= size(); --end() of a multi_span with an empty last span steps outside."
  },
  {
   "property": "C43",
   "status": "proved",
   "theorems": [
    "C43_crc_detects_bursts",
    "C43_library_polynomials_odd",
    "C43_value_detects_bursts"
   ],
   "note": ""
  },
  {
   "property": "C44",
   "status": "proved",
   "theorems": [
    "C44_stays_clear",
    "C44_clears",
    "C44_inherited",
    "C44_uninitialized_resize_refuted"
   ],
   "note": "FINDING: uninitialized_resize() to a smaller size leaves the old characters of a secure string in the buffer."
  },
  {
   "property": "C45",
   "status": "proved",
   "theorems": [
    "C45_half_up",
    "C45_half_down",
    "C45_half_even",
    "C45_half_odd",
    "C45_zero",
    "C45_ceiling_exact",
    "C45_floor_exact",
    "C45_infinity_exact",
    "C45_ceiling_refuted",
    "C45_floor_refuted",
    "C45_infinity_refuted"
   ],
   "note": "Every signed or unsigned type of >= 8 bits, every SCALING >= 2 that fits scale_t, value +- SCALING representable in the common type. FINDINGS (refuted): round_ceiling of a non-negative exact multiple, round_floor of a negative exact multiple and round_infinity of any exact multiple are off by one."
  },
  {
   "property": "C46",
   "status": "proved",
   "theorems": [
    "C46_checksums_notice_a_byte",
    "C46_fnv_notices_a_byte",
    "C46_jenkins_notices_a_byte",
    "C46_murmur3_notices_a_byte",
    "C46_pearson_notices_a_byte"
   ],
   "note": "For all widths and seeds; parity_checksum, which only notices an odd number of changed bits, is covered by its closed form C40_parity_checksum."
  },
  {
   "property": "C47",
   "status": "proved",
   "theorems": [
    "C47_find",
    "C47_find_wraps_refuted",
    "C47_find_text_n_exact",
    "C47_find_text_n_refuted",
    "C47_find_empty",
    "C47_find_char",
    "C47_rfind",
    "C47_rfind_char",
    "C47_rfind_refuted",
    "C47_compare",
    "C47_compare_substring",
    "C47_compare_inside",
    "C47_compare_view_refuted",
    "C47_ends_with",
    "C47_starts_with",
    "C47_starts_with_refuted",
    "C47_find_first_last_of",
    "C47_contains"
   ],
   "note": "Exact results for every overload. FINDINGS (refuted theorems): find with pos + |text| beyond size_t searches outside the buffer; find(s,pos,n) tests strlen(s) instead of n; find(c,pos) with pos > size() is undefined; the empty text is not found at size(); rfind counts the end of the occurrence (std: the beginning) and rfind(view) starts at 0 by default, so never finds anything; compare(pos,len,view/text) neither checks nor cuts; starts_with(text longer than the buffer) leaves it and starts_with(view with a terminator inside) matches old characters behind the end."
  },
  {
   "property": "C48",
   "status": "proved",
   "theorems": [
    "C48_process_event",
    "C48_deterministic",
    "C48_process_event_runtime",
    "C48_table_size_refuted",
    "C48_start",
    "C48_not_started",
    "C48_life",
    "C48_states",
    "C48_terminates",
    "C48_reentry_refuted"
   ],
   "note": "All tables, events, guards and callbacks that do not call the chart; termination also for those that do. FINDINGS: run-time tables keep their size in uint_least8_t, so of 256+k transitions only k are seen; process_event from an exit callback is overwritten by the outer call. set_transition_table from inside a callback is not modelled."
  },
  {
   "property": "C49",
   "status": "proved",
   "theorems": [
    "C49_start",
    "C49_history",
    "C49_insert_n_refuted",
    "C49_erase_nothing_refuted",
    "C49_move_after_itself_refuted",
    "C49_move_empty_range_refuted",
    "C49_move_to_last_refuted"
   ],
   "note": "One list with its own pool, or with a pool shared with others (whose nodes stay as they are). FINDINGS (refuted theorems): insert_after(pos,n,v) inserts what fits and reports nothing; erase_after(first,first) returns end(); move_after of an element to just behind itself loses it (and its node); move_after of an empty range loses all elements between the two places; move_after(first,last,last) does nothing. Moving between two lists is not modelled."
  },
  {
   "property": "C50",
   "status": "proved",
   "theorems": [
    "C50_history",
    "C50_erase_own_key_refuted",
    "C50_erase_to_end_refuted"
   ],
   "note": "UmmSpec/UmmModel/UmmProofs/UmmProps; the state of the specification is the list that iteration meets, so order claims are exact (position of a new element free except before older equal ones). FINDINGS: unordered_multimap::erase(key) and unordered_multiset::erase(key) use the key reference after the element it may refer to was destroyed and returned to the pool; range erase up to end() fails as in C16."
  },
  {
   "property": "C51",
   "status": "proved",
   "theorems": [
    "C51_history",
    "C51_balanced",
    "C51_elements_do_not_move",
    "C51_erase_any_iterator_refuted"
   ],
   "note": "MmModel/MmSpec/MmTree/MmIns/MmDel/MmRem*/MmFind/MmProofs/MmProps; one model for multimap.h and multiset.h (same code). FINDING: erase(iterator) on an element that is not the first of its key can break the order: after inserting (1,a) (1,b) (1,c) (0,d), erasing the iterator to (1,b) leaves the iteration (1,a) (0,d) (1,c) (C51_erase_any_iterator_refuted); so C51_history covers erase(iterator)/erase(first,last) when the first iterator is at the first element of its key; erase(key), clear and assign are covered without restriction. The hint argument of insert is ignored by the code and not modelled."
  },
  {
   "property": "C52",
   "status": "proved",
   "theorems": [
    "C52_midpoint_unsigned",
    "C52_midpoint_signed_exact",
    "C52_midpoint_signed_refuted",
    "C52_midpoint_pointer",
    "C52_midpoint_iterator"
   ],
   "note": "Integer, pointer, random access and forward iterator overloads; floating point is not modelled. FINDING (refuted): for signed types narrower than int with a < 0 <= b the result is off by half the range of the type (midpoint<int8_t>(-1, 1) is -128): line 127 lacks the cast to utype that line 123 has. The exact result is proved for every pair."
  },
  {
   "property": "C53",
   "status": "proved",
   "theorems": [
    "C53_history",
    "C53_copies",
    "C53_run_time_start_refuted",
    "C53_sparse_history",
    "C53_sparse_sorted",
    "C53_sparse_iteration_refuted"
   ],
   "note": "Unsigned count types of any width. flat_map inside sparse_histogram is its sorted list (C17 proves flat_map). FINDINGS (refuted): copying a histogram whose start is given at run time leaves the start of the copy uninitialised, assigning it keeps the old start; sparse_histogram end() and cend() return begin(), so iterating visits nothing; sparse_histogram::count() sums in the count type and wraps."
  },
  {
   "property": "C54",
   "status": "proved",
   "theorems": [
    "C54_iteration",
    "C54_number_of_iterations",
    "C54_append",
    "C54_insert",
    "C54_count_detach",
    "C54_empty_inner_refuted",
    "C54_insert_circular_refuted"
   ],
   "note": "Any depth, any value type, any steppers and comparisons; every inner loop has at least one value. FINDINGS (refuted): an inner range without values does not make the nest empty: the body is executed and, with the default comparison, the loop never ends; insert does not notice that the inserted range (or the end of its nest) is already in the nest: the links become a cycle and number_of_ranges, start and next never end."
  },
  {
   "property": "C55",
   "status": "proved",
   "theorems": [
    "C55_trim_from",
    "C55_trim_whitespace",
    "C55_trim_to_delimiter",
    "C55_left_right",
    "C55_left_n_view_refuted",
    "C55_reverse_characters",
    "C55_replace_strings",
    "C55_replace_strings_ends",
    "C55_replace_empty_refuted",
    "C55_pad",
    "C55_iterator_find",
    "C55_tokens",
    "C55_pieces_unique"
   ],
   "note": "string_utilities.h. FINDINGS: left_n_view of an empty view dereferences its end; replace_strings with an empty old and an empty new text never ends, with an empty old and a non-empty new text it overwrites the string."
  },
  {
   "property": "C56",
   "status": "proved",
   "theorems": [
    "C56_interrupted_history_is_serial",
    "C56_interrupt_lock_loses_no_tick",
    "C56_refused_tick",
    "C56_stop_race_refuted",
    "C56_time_to_next_race_refuted"
   ],
   "note": "All eight timer headers. The serial theorem leaves out exactly one point inside stop / unregister_timer / set_period / set_mode (and the unlocked time_to_next of callback_timer.h) for single-shot timers. FINDINGS: at that point - is_active() is looked at before the lock is taken - a tick in which the single-shot timer expires makes the call unlink a timer that is not in the list and write out of bounds, in all eight headers; time_to_next of callback_timer.h reads element 255. Callbacks that call the timer from the interrupting tick are not modelled here (they are in C25)."
  },
  {
   "property": "C57",
   "status": "proved",
   "theorems": [
    "C57_range",
    "C57_range_full_refuted",
    "C57_xorshift_period",
    "C57_pcg_period",
    "C57_mwc_period",
    "C57_mwc_seed_refuted",
    "C57_lsfr_even_refuted",
    "C57_lsfr_zero_refuted",
    "C57_lcg_refuted",
    "C57_clcg_refuted"
   ],
   "note": "All six generators. The period of random_xorshift is proved by evaluating polynomials over the field of two elements modulo the characteristic polynomial of the step (all prime factors of 2^128-1, proved prime, are tried). FINDINGS: range(0, 0xFFFFFFFF) divides by zero in every generator; random_lsfr shifts before it tests the low bit, so all its numbers are even (range(n, n+1) is always n) and the seeds 0 and 1 give only zeros; random_lcg / random_clcg form a*value in a uint32_t, which overflows: the recurrence is not the multiplicative one, a seed in range leads to zeros for ever and the second half of random_clcg falls into cycles of 52; random_mwc gives only zeros for seed 0 and one frozen half for the four seeds p1, p2, 2*p2, 3*p2."
  },
  {
   "property": "C58",
   "status": "proved",
   "theorems": [
    "C58_passes",
    "C58_loop_deterministic",
    "C58_first_pass_refuted",
    "C58_diagonal_refuted",
    "C58_long_refuted",
    "C58_abandoned_pass_refuted"
   ],
   "note": "For int16_t coordinates and working values and lines of at most 10922 units. C58_passes is what holds of every line whose two distances differ. FINDINGS: a line at exactly 45 degrees never reaches its last point, the loop never ends; a line steeper than 1:2 begins with a wrong point on the first pass (the flag starts false whatever the balance) and is up to a unit behind, while the second loop over the same object gives the correct points, because begin() resets the coordinate only; after an abandoned loop the next one can miss the last point; distances above 16383 overflow the default work type."
  },
  {
   "property": "C59",
   "status": "proved",
   "theorems": [
    "C59_exclusive",
    "C59_fifo",
    "C59_fill",
    "C59_contents",
    "C59_out_of_order_refuted",
    "C59_stale_refuted"
   ],
   "note": "FINDINGS: allocate looks at the next buffer in turn only, so after releases out of order it refuses although all other buffers are free (proved for every number of buffers); a descriptor keeps pointing to its buffer after release(), so a second release takes the buffer from its new holder. Also noted: is_allocated, is_released and release on an invalid descriptor (what a failed allocate returns) dereference null."
  },
  {
   "property": "C60",
   "status": "proved",
   "theorems": [
    "C60_call",
    "C60_history",
    "C60_inverse",
    "C60_empty_refuted",
    "C60_minimum_refuted"
   ],
   "note": "Signed overflow, division by zero and leaving the range are None in the model, so the theorems say that none of them happens. FINDINGS: on an empty range += divides by zero and ++ / -- leave it; -= with the smallest ptrdiff_t overflows."
  },
  {
   "property": "C61",
   "status": "proved",
   "theorems": [
    "C61_find",
    "C61_contains_id",
    "C61_count",
    "C61_size",
    "C61_walk",
    "C61_contains",
    "C61_contains_pointer",
    "C61_add",
    "C61_add_refused",
    "C61_remove",
    "C61_unique",
    "C61_same_id_refuted"
   ],
   "note": "FINDING: contains(router) compares the first router with its id only. With unique ids it is exact (C61_unique); when two routers share an id, the second is reported as not registered and add() accepts it again (C61_same_id_refuted). Also noted: add() of a router that is present raises message_router_registry_full although the comment says the call has no effect."
  },
  {
   "property": "C62",
   "status": "proved",
   "theorems": [
    "C62_insert",
    "C62_insert_own",
    "C62_insert_own_refuted",
    "C62_insert_end_refuted",
    "C62_insert_range",
    "C62_insert_empty_refuted",
    "C62_erase",
    "C62_erase_end_refuted",
    "C62_erase_range",
    "C62_erase_empty_refuted",
    "C62_erase_value",
    "C62_erase_range_value",
    "C62_assign",
    "C62_assign_value",
    "C62_fill"
   ],
   "note": "Accesses outside the array are None in the model. FINDINGS: insert(end(), value) and erase(end()) leave the array (a vector accepts end() in insert); inserting a reference to an element at or behind the position inserts its predecessor; inserting an empty range and erasing an empty range move every element behind the position onto itself, which empties it for types that do not guard against that."
  },
  {
   "property": "C63",
   "status": "proved",
   "theorems": [
    "C63_call",
    "C63_effect_total",
    "C63_observers",
    "C63_pop_into",
    "C63_no_leak",
    "C63_pop_into_empty_refuted",
    "C63_unchecked",
    "C63_unchecked_full"
   ],
   "note": "FINDINGS: pop_into() on an empty stack reads raw memory before the check of ETL_CHECK_PUSH_POP; assigning from a larger istack that does not fit leaves the first CAPACITY elements and raises stack_full."
  },
  {
   "property": "C64",
   "status": "proved",
   "theorems": [
    "C64_store",
    "C64_read",
    "C64_represents_unique",
    "C64_round_trip",
    "C64_convert",
    "C64_float",
    "C64_buffer",
    "C64_hton"
   ],
   "note": "FINDING (noted): unaligned_type.h tests ETL_HAS_CONSTEXPR_ENDIANESS, a misspelling of ETL_HAS_CONSTEXPR_ENDIANNESS; the branch it would select has the comparison inverted (== instead of !=), so defining the misspelt macro would reverse every byte order. The compiled branch is the one modelled."
  },
  {
   "property": "C65",
   "status": "proved",
   "theorems": [
    "C65_value",
    "C65_in_mask",
    "C65_range",
    "C65_test",
    "C65_any_of",
    "C65_none_of",
    "C65_any_none",
    "C65_all",
    "C65_all_of",
    "C65_equal",
    "C65_ctor_value"
   ],
   "note": "Every width, MASK and sequence of calls. The template versions of the calls compute the same expressions."
  },
  {
   "property": "C66",
   "status": "proved",
   "theorems": [
    "C66_allocate",
    "C66_allocate_fails",
    "C66_held",
    "C66_owner",
    "C66_release",
    "C66_again"
   ],
   "note": "The pool inside an allocator is abstracted to its set of free blocks (C06 proves the pool). A release of a block that is not held is a precondition violation (the pool does not detect it); cyclic successor chains are excluded (the code would recurse forever)."
  },
  {
   "property": "C67",
   "status": "proved",
   "theorems": [
    "C67_call",
    "C67_register_total",
    "C67_copy",
    "C67_static",
    "C67_copy_refuted",
    "C67_top_refuted"
   ],
   "note": "Offset + Range below 2^64. Handlers are opaque (calling an empty delegate is not modelled). FINDINGS: the table of a copy keeps the default entries of the original: an id in range without a handler goes to the unhandled handler of the original, and after the destruction of the original the call uses a dead object (C67_copy says exactly what a copy does); for ids up to the largest size_t the sum Offset + Range is 0 and no handler is ever called."
  },
  {
   "property": "C68",
   "status": "proved",
   "theorems": [
    "C68_average",
    "C68_constant",
    "C68_stuck_refuted"
   ],
   "note": "Integral specialisation only (the floating point one is not modelled); the hypotheses say that the products fit into T. FINDING (refuted): with SCALING 1 an average of 0 stays 0 for ever when the input is constantly N or less."
  }
 ]
}