{
 "claims": [
  {
   "property": "C01",
   "status": "proved",
   "theorems": [
    "C01_fifo"
   ],
   "note": ""
  },
  {
   "property": "C02",
   "status": "proved",
   "theorems": [
    "C02_views_disjoint",
    "C02_fill_preserves_reader"
   ],
   "note": "non-emptiness of views is part of C01_fifo's specification (rules a_acqw, a_acqr)"
  },
  {
   "property": "C03",
   "status": "partial",
   "theorems": [
    "C03_bounded_fifo_partial",
    "C03_empty_reserver_refuted"
   ],
   "note": "Full statement is false: a zero-size reserver does not lock and its destruction unlocks another reserver's bytes (witness). Proved for every run up to that situation and up to a broken Clear (C05)."
  },
  {
   "property": "C04",
   "status": "partial",
   "theorems": [
    "C04_discard_keeps_newest_partial"
   ],
   "note": "proved for every run up to the two situations in CircularSpec.broken"
  },
  {
   "property": "C05",
   "status": "partial",
   "theorems": [
    "C05_clear_refuted",
    "C03_bounded_fifo_partial"
   ],
   "note": "Refuted: Clear on a full or wrapped buffer leaves it looking full. Rule a_clear of CircularSpec (covered by C03_bounded_fifo_partial) proves it whenever the content does not reach the end of the storage."
  },
  {
   "property": "C06",
   "status": "proved",
   "theorems": [
    "C06_size_bounded",
    "C08_eviction_order"
   ],
   "note": "exact accounting is rule qa_size of QueueCacheSpec"
  },
  {
   "property": "C07",
   "status": "proved",
   "theorems": [
    "C07_queue_cache_is_map"
   ],
   "note": "user OnEvicted handlers that re-enter the cache are not modelled"
  },
  {
   "property": "C08",
   "status": "proved",
   "theorems": [
    "C08_eviction_order"
   ],
   "note": ""
  },
  {
   "property": "C09",
   "status": "proved",
   "theorems": [
    "C09_two_queue_cache_is_map",
    "C09_two_queue_cache_bounded"
   ],
   "note": ""
  },
  {
   "property": "C10",
   "status": "proved",
   "theorems": [
    "C09_two_queue_cache_is_map"
   ],
   "note": "same specification: pairs leave only through Remove/Clear/Set or a signalled eviction"
  },
  {
   "property": "C11",
   "status": "proved",
   "theorems": [
    "C11_dictionary_transaction_is_private_copy"
   ],
   "note": ""
  },
  {
   "property": "C12",
   "status": "proved",
   "theorems": [
    "C12_dictionary_commit_and_diff_exact"
   ],
   "note": ""
  },
  {
   "property": "C13",
   "status": "proved",
   "theorems": [
    "C13_set_transaction_is_private_copy",
    "C13_set_commit_and_diff_exact"
   ],
   "note": ""
  },
  {
   "property": "C14",
   "status": "proved",
   "theorems": [
    "C14_list_transaction_is_private_copy"
   ],
   "note": "Apply of an Added entry is specified as coded (replace), see C15"
  },
  {
   "property": "C15",
   "status": "partial",
   "theorems": [
    "C15_apply_refuted",
    "C15_apply_truncation_partial"
   ],
   "note": "False: Apply calls Set for Added entries (TransactionalList.h:327-329). Proved only for diffs that shorten the list."
  },
  {
   "property": "C16",
   "status": "proved",
   "theorems": [
    "C16_dictionary_enumerators_are_snapshots",
    "C16_set_enumerators_are_snapshots",
    "C16_list_enumerators_are_snapshots"
   ],
   "note": ""
  },
  {
   "property": "C17",
   "status": "proved",
   "theorems": [
    "C17_at_most_one_transaction",
    "C17_no_lost_wakeup",
    "C17_waiter_can_proceed"
   ],
   "note": "progress is proved as 'no lost wake-up' plus existence of a completing schedule from every reachable state (no fairness assumption is modelled)"
  },
  {
   "property": "C18",
   "status": "proved",
   "theorems": [
    "C18_handler_called_at_most_once",
    "C18_quiet_after_unregister",
    "C18_handler_ends_before_unregister",
    "C18_true_means_never_called",
    "C18_false_means_completed",
    "C18_one_cancellation",
    "C18_no_lost_wakeup",
    "C18_unregister_can_return"
   ],
   "note": "Any number of agents, all interleavings of Register/TryUnregister/Unregister/Cancel/Sleep, spurious wake-ups; Reset is treated under C31."
  },
  {
   "property": "C19",
   "status": "proved",
   "theorems": [
    "C19_no_start_after_release",
    "C19_nothing_running_after_release",
    "C19_only_releasing_thread_running",
    "C19_tasks_exclusive",
    "C19_dead_token_refuses",
    "C19_dummy_always_runs",
    "C19_release_can_return"
   ],
   "note": "Recursive mutex, nested tasks, Release from inside a task; any number of threads."
  },
  {
   "property": "C20",
   "status": "proved",
   "theorems": [
    "C20_takes_earliest",
    "C20_queue_keys",
    "C20_start",
    "C20_due_times",
    "C20_ids_unique",
    "C20_reset_waits",
    "C20_one_shot",
    "C20_starts_queuings",
    "C20_never_lost",
    "C20_no_oversleep",
    "C20_not_stuck",
    "C20_due_task_runs"
   ],
   "note": "Interleaving model of Timer.cpp: worker loop, client calls, clock; critical sections atomic; TaskLifeToken by its C19 behaviour."
  },
  {
   "property": "C21",
   "status": "proved",
   "theorems": [
    "C21_exit_only_after_all_entered",
    "C21_one_true_per_round",
    "C21_rounds_do_not_overlap",
    "C21_full_round_can_return",
    "C21_no_lost_wakeup",
    "C21_spurious_refuted"
   ],
   "note": "As stated: condition variables without spurious wake-ups. With them the claim is false: C21_spurious_refuted."
  },
  {
   "property": "C22",
   "status": "proved",
   "theorems": [
    "C22_encode_total",
    "C22_roundtrip",
    "C22_completion_exists",
    "C22_any_continuation",
    "C22_message_roundtrip"
   ],
   "note": "u32 arithmetic modelled with wrap-around; scale up to 2^29; _underflowBits unbounded."
  },
  {
   "property": "C23",
   "status": "partial",
   "theorems": [
    "C23_terminates",
    "C23_decodes_partial",
    "C23_ones_partial",
    "C23_underflow_refuted",
    "C23_zero_padding_refuted"
   ],
   "note": "False as stated: EndOfData drops pending underflow bits (C23_underflow_refuted: one symbol [1,2) of 3) and truncated low bits are not covered by zero padding (C23_zero_padding_refuted). Proved: it terminates, and with no pending underflow bits every continuation not below low decodes."
  },
  {
   "property": "C24",
   "status": "partial",
   "theorems": [
    "C24_consumed_prefix",
    "C24_consume_step",
    "C24_consume_progress",
    "C24_endofdata_partial",
    "C24_endofdata_refuted",
    "C24_read_prefix",
    "C24_addbytes_progress"
   ],
   "note": "Order/packing proved for all histories; EndOfData proved unless the write position is inside the last byte of the buffer, where it never terminates (C24_endofdata_refuted, every buffer size)."
  },
  {
   "property": "C25",
   "status": "partial",
   "theorems": [
    "C25_shape",
    "C25_add_exact",
    "C25_subtract_exact",
    "C25_subtract_exact_refuted",
    "C25_multiply_exact",
    "C25_divide_exact",
    "C25_divide_by_empty",
    "C25_divide_by_zero_refuted",
    "C25_bitwise_exact",
    "C25_shift_exact",
    "C25_of_primitive",
    "C25_of_wide",
    "C25_to_unsigned",
    "C25_to_signed_refuted",
    "C25_to_signed_partial"
   ],
   "note": "Exact for every number obtainable through the interface, any block width >= 16 bits, except: BigUnsignedInteger(0) is the non-canonical block list [0] -- () - (0) throws (C25_subtract_exact_refuted), x / (0) returns all ones instead of throwing (C25_divide_by_zero_refuted); ToPrimitive to a signed type returns a negative number for blocks above 2^63 (C25_to_signed_refuted)."
  },
  {
   "property": "C26",
   "status": "partial",
   "theorems": [
    "C26_equal_exact",
    "C26_less_partial",
    "C26_less_refuted",
    "C26_equal_refuted"
   ],
   "note": "False as stated: operator < returns true if ANY block is less (C26_less_refuted: a<b and b<a both hold), and the two representations of zero differ (C26_equal_refuted). Proved: == exact on canonical numbers; numerically less implies operator <; exact when block counts differ or at most one block."
  },
  {
   "property": "C27",
   "status": "partial",
   "theorems": [
    "C27_to_string",
    "C27_load_string",
    "C27_load_prefix",
    "C27_string_round_trip_partial",
    "C27_string_round_trip_refuted",
    "C27_text_round_trip",
    "C27_bytes_round_trip"
   ],
   "note": "Value round trip proved for all numbers and bases 2..36, text round trip for canonical digit strings, byte round trip; the loaded object is identical except for the default-constructed zero (C27_string_round_trip_refuted)."
  },
  {
   "property": "C28",
   "status": "proved",
   "theorems": [
    "C28_get",
    "C28_get_narrow",
    "C28_field_bits",
    "C28_set",
    "C28_set_get",
    "C28_set_frame"
   ],
   "note": "Exact characterisation of Get/Set on the masked and byte-aligned paths for every buffer, offset, size, width; undefined shift for wide fields read into narrow types stated exactly (C28_get_narrow)."
  },
  {
   "property": "C29",
   "status": "partial",
   "theorems": [
    "C29_get",
    "C29_get_bits",
    "C29_set_get_exact",
    "C29_round_trip_partial",
    "C29_round_trip_refuted",
    "C29_narrow_value_refuted"
   ],
   "note": "The property is false for 24/40/48/56-bit fields (C29_round_trip_refuted) and for values narrower than the field (C29_narrow_value_refuted); proved for 8/16/32/64-bit fields, and C29_set_get_exact says what comes back for every whole-byte size."
  },
  {
   "property": "C30",
   "status": "proved",
   "theorems": [
    "C30_read",
    "C30_write",
    "C30_sequence_round_trip",
    "C30_sequence_fits",
    "C30_length_prefixed",
    "C30_length_prefix_refuted",
    "C30_null_terminated",
    "C30_at_end"
   ],
   "note": "Sequences of writes/reads with arbitrary sizes, both byte orders, fixed and growing buffers; length-prefixed strings exactly when the length fits the prefix (C30_length_prefix_refuted otherwise), null-terminated ones exactly when they contain no NUL."
  },
  {
   "property": "C31",
   "status": "partial",
   "theorems": [
    "C18_sleep_false_means_cancelled",
    "C18_sleep_spurious_refuted",
    "C18_with_reset_refuted",
    "C18_with_reset_deadlock_refuted"
   ],
   "note": "Sleep half holds without spurious wake-ups; false with them (C18_sleep_spurious_refuted). Reset half is false: a Reset racing an unregistration makes Unregister return true although the handler ran, or sleep for ever."
  },
  {
   "property": "C32",
   "status": "partial",
   "theorems": [
    "C32_packet_fifo",
    "C32_packet_fifo_no_clear",
    "C32_packets_in_order",
    "C32_empty_buffer_accepts_refuted",
    "C32_empty_buffer_deadlock",
    "C32_clear_in_callback_refuted"
   ],
   "note": "FIFO, integrity and exception freedom proved for every interleaving without Clear inside the consumer callback. Refuted: an empty buffer may refuse a packet of more than half its size for ever (writer/reader deadlock, or drop), and Clear during the callback makes Read pop an empty deque."
  },
  {
   "property": "C33",
   "status": "proved",
   "theorems": [
    "C33_no_use_after_free",
    "C33_alive_while_owned",
    "C33_no_leak",
    "C33_lock",
    "C33_unique_and_count",
    "C33_counter_overflow_refuted"
   ],
   "note": "for fewer than 2^32-1 simultaneous handles; without the bound the 32-bit counters overflow (refuted). Sequentially consistent atomics."
  },
  {
   "property": "C34",
   "status": "partial",
   "theorems": [
    "C34_gets_agree",
    "C34_single_assignment",
    "C34_set_value",
    "C34_no_lost_wakeup",
    "C34_waiter_returns",
    "C34_no_orphans",
    "C34_get_future_once_partial",
    "C34_get_future_once_refuted"
   ],
   "note": "everything proved except 'get_future at most once per shared state', which holds without promise::swap (C34_get_future_once_partial) and is refuted with it: swap does not exchange _futureRetrieved."
  },
  {
   "property": "C35",
   "status": "proved",
   "theorems": [
    "C35_no_slot_call_after_disconnect",
    "C35_slot_runs_in_one_thread",
    "C35_emission_deals_with_exactly_the_connected",
    "C35_calls_and_skips",
    "C35_live_connection_called_exactly_once",
    "C35_populated_connection_sees_every_change_once",
    "C35_disconnect_under_locker_can_deadlock_refuted"
   ],
   "note": "Synchronous connections of one threadsafe signal, any number of threads, re-entrant slots. The extra theorem C35_disconnect_under_locker_can_deadlock_refuted records that destroying a Token while holding a signal_locker may deadlock with its slot. Async connections (posting to an executor) and exceptions other than std::exception are not modelled."
  },
  {
   "property": "C36",
   "status": "proved",
   "theorems": [
    "C36_flat_is_a_map",
    "C36_unique_representation",
    "C36_insert",
    "C36_hint_irrelevant",
    "C36_index",
    "C36_find",
    "C36_bounds",
    "C36_erase",
    "C36_defined",
    "C36_allocator_copy_keeps_order_refuted"
   ],
   "note": "flat_map and flat_set (V=unit). _refuted: flat_map(other, alloc) / flat_set(other, alloc) default-construct the comparator, so with a stateful comparator the copy is unsorted and lookups miss. Not modelled: allocators, reserve, move overloads (same effect), iterator invalidation."
  },
  {
   "property": "C37",
   "status": "partial",
   "theorems": [
    "C37_ordered_is_a_map",
    "C37_insert",
    "C37_lookup",
    "C37_defined",
    "C37_copy_partial",
    "C37_copy_assign_partial",
    "C37_self_assignment_refuted",
    "C37_self_assignment_clears",
    "C37_copy_refuted",
    "C37_erase_count"
   ],
   "note": "Refuted parts: m = m empties the container (clear() before inserting from itself); copy constructors drop the source's comparator, so entries a default comparator does not tell apart are lost. Everything else proved. Not modelled: allocators, swap, reverse iterators."
  },
  {
   "property": "C38",
   "status": "proved",
   "theorems": [
    "C38_search_exact",
    "C38_every_occurrence_once",
    "C38_protocol",
    "C38_built",
    "C38_every_added_index_refuted",
    "C38_empty_pattern_never_reported"
   ],
   "note": "Whole class modelled (trie, BFS failure links with unset links as undefined, search, callbacks). Termination of all loops proved. _refuted: an index returned by Add is reported for every occurrence (false for repeated patterns: only the last index; empty patterns are never reported)."
  },
  {
   "property": "C39",
   "status": "partial",
   "theorems": [
    "C39_read_delivers_the_committed_bytes",
    "C39_uncommitted_bytes_only_with_a_push_in_flight_or_failed",
    "C39_read_never_starts_at_a_popped_byte",
    "C39_push_commits_its_data",
    "C39_failed_push_commits_a_prefix",
    "C39_nothing_is_committed_outside_a_push",
    "C39_pushes_do_not_overlap",
    "C39_storage_size",
    "C39_never_broken",
    "C39_exactly_once",
    "C39_read_waits_only_when_everything_is_delivered",
    "C39_exactly_once_with_concurrent_pop_refuted",
    "C39_pop_during_read_loses_unpopped_bytes_refuted",
    "C39_pop_during_read_breaks_the_buffer_refuted",
    "C39_read_racing_a_push_throws_refuted",
    "C39_only_committed_bytes_are_delivered_refuted",
    "C39_exactly_once_with_cancellation_refuted"
   ],
   "note": "Stream, Push, storage-size and start-position claims are proved for every interleaving; exactly-once delivery and the absence of the internal exception are proved under the stated conditions and refuted (five concrete schedules) without them. IPage is abstract: a page is modelled as its bytes."
  },
  {
   "property": "C40",
   "status": "partial",
   "theorems": [
    "C40_observation_determines_the_sequence",
    "C40_inplace_vector_is_a_sequence",
    "C40_inplace_vector_storage",
    "C40_self_assignment_empties",
    "C40_self_assignment_keeps_the_vector_refuted"
   ],
   "note": "Everything but self-assignment is proved; self-assignment is proved to empty the vector (refuted)."
  },
  {
   "property": "C41",
   "status": "proved",
   "theorems": [
    "C41_list_is_the_sequence",
    "C41_iterators_survive_erase",
    "C41_push_of_a_linked_element_refuted",
    "C41_push_to_a_second_list_refuted"
   ],
   "note": "The precondition of push_back (element in no list) is not checked by the code; two refuted theorems show what happens without it."
  },
  {
   "property": "C42",
   "status": "proved",
   "theorems": [
    "C42_thread_executor_fifo_exactly_once",
    "C42_thread_executor_one_at_a_time",
    "C42_thread_executor_destructor_drains",
    "C42_thread_executor_sleeps_only_when_idle",
    "C42_thread_executor_progress",
    "C42_threadless_fifo_exactly_once",
    "C42_threadless_one_at_a_time",
    "C42_threadless_refuses_only_when_busy",
    "C42_threadless_returns_when_empty"
   ],
   "note": "Exceptions thrown by the exception handler itself are not modelled."
  },
  {
   "property": "C43",
   "status": "partial",
   "theorems": [
    "C43_accepted_task_runs_refuted"
   ],
   "note": "Everything but the last sentence is proved; that an accepted task always runs is refuted by the destructor."
  },
  {
   "property": "C44",
   "status": "partial",
   "theorems": [
    "C44_bounded_fifo",
    "C44_stream",
    "C44_result_announced",
    "C44_no_internal_error",
    "C44_no_lost_wakeup",
    "C44_no_mutual_wait",
    "C44_no_mutual_wait_for_data",
    "C44_exclusion",
    "C44_view_stable",
    "C44_end_after_all_data",
    "C44_mutual_wait_refuted",
    "C44_wait_for_data_refuted",
    "C44_end_after_all_data_racing_refuted",
    "C44_unprocessed_kept_refuted"
   ],
   "note": "Everything but the last sentence is proved; the unconditional variants are refuted."
  },
  {
   "property": "C45",
   "status": "partial",
   "theorems": [
    "C45_linear",
    "C45_drained",
    "C45_sync",
    "C45_destroyed",
    "C45_write_result",
    "C45_length",
    "C45_seek",
    "C45_no_internal_error",
    "C45_bounded",
    "C45_progress",
    "C45_worker_bound",
    "C45_can_finish",
    "C45_dead",
    "C45_destroy_reports_loss_refuted",
    "C45_old_buffers_go"
   ],
   "note": "Everything but the refuted last sentence is proved. One user thread, as the class (unguarded position) requires. The unlocked read of _wasException at the start of a call is merged with the call's locked region. Termination of the destructor assumes the underlying stream accepts something: the destructor cancels the token it passes on."
  },
  {
   "property": "C46",
   "status": "partial",
   "theorems": [
    "C46_transparent",
    "C46_transparent_aligned",
    "C46_aligned_reads",
    "C46_complete",
    "C46_short_only_at_end",
    "C46_cached",
    "C46_aligned_past_end_refuted",
    "C46_aligned_short_read_refuted",
    "C46_initial_position_refuted",
    "C46_write_exception_refuted"
   ],
   "note": "Everything but the refuted last sentence is proved. Sizes are below 2^64 and do not wrap, except the subtraction that does."
  },
  {
   "property": "C47",
   "status": "partial",
   "theorems": [
    "C47_every_day_has_one_date",
    "C47_every_date_has_one_day",
    "C47_gmtime",
    "C47_timegm",
    "C47_timegm_normalises",
    "C47_timegm_negative_month_refuted",
    "C47_timegm_of_gmtime",
    "C47_gmtime_of_timegm",
    "C47_break_down_partial",
    "C47_break_down_before_epoch_refuted",
    "C47_from_broken_down_of_break_down_partial",
    "C47_second_before_epoch_refuted",
    "C47_break_down_of_from_broken_down_partial",
    "C47_max_days_in_month",
    "C47_compare_equal",
    "C47_compare_chronological_refuted"
   ],
   "note": "Everything but the refuted last sentence is proved, in the configuration STINGRAYKIT_32_BIT_TIME_T (otherwise the C library's gmtime_r and timegm are called; they are not modelled). Years are 16 bits wide in BrokenDownTime."
  },
  {
   "property": "C48",
   "status": "partial",
   "theorems": [
    "C48_mjd_partial",
    "C48_mjd_bcd_round_trip_partial",
    "C48_mjd_before_epoch_refuted",
    "C48_mjd_with_local_bcd_refuted",
    "C48_bcd",
    "C48_ntp_of_time",
    "C48_time_of_ntp",
    "C48_ntp_epoch",
    "C48_ntp64_round_trip_partial",
    "C48_ntp64_fraction",
    "C48_ntp64_fraction_refuted",
    "C48_windows_file_time",
    "C48_windows_file_time_refuted",
    "C48_days_to_partial",
    "C48_days_to_before_epoch_refuted",
    "C48_round_to_milliseconds",
    "C48_iso_duration_round_trip_partial",
    "C48_iso_duration_without_base_partial",
    "C48_iso_duration_feb29_refuted",
    "C48_iso_duration_long_refuted",
    "C48_time_cmp_exact",
    "C48_time_cmp_antisymmetric",
    "C48_time_cmp_equal_transitive_refuted"
   ],
   "note": "Everything but the refuted last sentence is proved. The ISO theorem is about the components ToIso8601 prints; their printing and the regex-based parsing are not modelled."
  },
  {
   "property": "C49",
   "status": "partial",
   "theorems": [
    "C49_consume_all",
    "C49_consume_all_returns",
    "C49_array",
    "C49_stream",
    "C49_mediator",
    "C49_pipe",
    "C49_lossless_means",
    "C49_taker",
    "C49_taker_discard",
    "C49_skipper",
    "C49_skipper_only",
    "C49_aligner",
    "C49_reactive",
    "C49_read_to_end",
    "C49_composed",
    "C49_interceptor",
    "C49_byte_data_consumer",
    "C49_packets",
    "C49_taker_returns_refuted",
    "C49_taker_end_refuted",
    "C49_cancelled_loses_refuted",
    "C49_aligner_tail_refuted",
    "C49_pipe_refuted",
    "C49_packeter_short_refuted"
   ],
   "note": "Everything but the refuted last sentence is proved. Consumers are arbitrary state machines; exceptions propagate and end the claim; sizes do not wrap."
  },
  {
   "property": "C50",
   "status": "partial",
   "theorems": [
    "C50_one_writer",
    "C50_one_writer_quiet",
    "C50_readers_woken",
    "C50_writer_woken",
    "C50_rendezvous",
    "C50_packets_whole",
    "C50_writers_woken",
    "C50_two_writers_refuted",
    "C50_cancel_strands_writer_refuted",
    "C50_throw_means_undelivered_refuted",
    "C50_empty_write_refuted"
   ],
   "note": "Everything but the refuted last sentence is proved. Steps are the sections under the mutex."
  },
  {
   "property": "C51",
   "status": "partial",
   "theorems": [
    "C51_memory",
    "C51_chunked",
    "C51_chunked_read_all",
    "C51_offset",
    "C51_window",
    "C51_chunked_write_spans_refuted",
    "C51_chunked_append_refuted",
    "C51_memory_seek_2g_refuted"
   ],
   "note": "Everything but the refuted last sentence is proved. The stream under a window is a file that passes any part of what it is asked; offsets stay within 64 bits."
  },
  {
   "property": "C52",
   "status": "partial",
   "theorems": [
    "C52_read_all",
    "C52_checked_read_all",
    "C52_read_to_end",
    "C52_write_all",
    "C52_write_all_throws",
    "C52_checked_write_all",
    "C52_buffered_pipe",
    "C52_buffered_peek",
    "C52_read_line",
    "C52_read_line_last",
    "C52_read_line_closed",
    "C52_read_line_ends",
    "C52_lines",
    "C52_read_to_end_closing_refuted",
    "C52_lone_cr_refuted",
    "C52_cut_line_refuted",
    "C52_cancelled_line_lost_refuted"
   ],
   "note": "Everything but the refuted last sentence is proved. The stream is any state machine that hands over the front of what is left and whose cancelled token stays cancelled; sizes do not wrap."
  },
  {
   "property": "C53",
   "status": "partial",
   "theorems": [
    "C53_array_access",
    "C53_array_from",
    "C53_array_sub",
    "C53_append",
    "C53_require_size",
    "C53_limited_stable",
    "C53_equal",
    "C53_less",
    "C53_serialize",
    "C53_data_narrow",
    "C53_data_access",
    "C53_data_of_array",
    "C53_data_wrap_refuted",
    "C53_array_escape_refuted",
    "C53_array_unlimited_refuted",
    "C53_array_short_refuted",
    "C53_clear_refuted"
   ],
   "note": "Everything but the refuted last sentence is proved. A vector is a list shorter than 2^64 - 1; ByteData over a vector that is reallocated is not modelled."
  },
  {
   "property": "C54",
   "status": "partial",
   "theorems": [
    "C54_get_next_prev",
    "C54_ends",
    "C54_walk",
    "C54_injective",
    "C54_strlen",
    "C54_validate_iff",
    "C54_next_iff_get",
    "C54_substring_symbols",
    "C54_substring_bytes",
    "C54_to_lower",
    "C54_collate",
    "C54_validate_rfc_refuted",
    "C54_to_lower_all_refuted",
    "C54_next_strong_guarantee_refuted"
   ],
   "note": "Everything but the refuted last sentence is proved. The ICU variants of Unicode.cpp are not modelled."
  },
  {
   "property": "C55",
   "status": "partial",
   "theorems": [
    "C55_from_hex",
    "C55_to_hex",
    "C55_round_trip",
    "C55_signed_round_trip_refuted",
    "C55_bytes_round_trip",
    "C55_bytes_from_hex",
    "C55_hex_dump",
    "C55_hex_dump_zero_width_refuted",
    "C55_short_dump",
    "C55_short_dump_collection_refuted",
    "C55_uuid_from",
    "C55_uuid_round_trip",
    "C55_uuid_order",
    "C55_uuid_version"
   ],
   "note": "Everything but the refuted last sentence is proved. UUID::Generate's randomness is not modelled; HexFormatter is to_hex of the unsigned value."
  },
  {
   "property": "C56",
   "status": "partial",
   "theorems": [
    "C56_reverse_find_refuted",
    "C56_reverse_find_partial",
    "C56_enumerate_in_remove_where_refuted"
   ],
   "note": "All but the refuted last sentence is proved; ReverseFind is proved for every key between the extremes (_partial)."
  },
  {
   "property": "C57",
   "status": "partial",
   "theorems": [
    "C57_dictionary",
    "C57_ordered_dictionary",
    "C57_dictionary_results",
    "C57_key_value",
    "C57_set",
    "C57_set_results",
    "C57_set_entry",
    "C57_list",
    "C57_list_results",
    "C57_multi_dictionary",
    "C57_multi_dictionary_results",
    "C57_multi_set",
    "C57_multi_set_results",
    "C57_reentrant_handler_refuted",
    "C57_multi_set_remove_where_refuted",
    "C57_removed_value_refuted",
    "C57_key_value_comparer_refuted"
   ],
   "note": "All but the refuted last sentence is proved; multimaps for value comparers that are equality, their RemoveWhere for predicates that do not tell equivalent keys apart."
  },
  {
   "property": "C58",
   "status": "partial",
   "theorems": [
    "C58_from_string_sound",
    "C58_from_string_complete",
    "C58_from_string_refusals",
    "C58_to_string_canonical",
    "C58_round_trip",
    "C58_normalises",
    "C58_human_size",
    "C58_human_reads",
    "C58_human_round_trip",
    "C58_human_zero",
    "C58_sign_only_refuted",
    "C58_minus_zero_refuted",
    "C58_bool_round_trip_refuted",
    "C58_char_round_trip_refuted",
    "C58_human_overflow_refuted",
    "C58_human_max_refuted",
    "C58_human_blank_refuted",
    "C58_bool_text"
   ],
   "note": "Everything but the refuted last sentence is proved. The error bound size * allowedErrorFactor is computed in float by the code; in the model it is any number below the size. The regular expression is its meaning. Floating point output is not modelled."
  },
  {
   "property": "C59",
   "status": "partial",
   "theorems": [
    "C59_find",
    "C59_rfind",
    "C59_find_first_of",
    "C59_find_first_not_of_partial",
    "C59_find_last_of_partial",
    "C59_find_last_not_of_partial",
    "C59_substr",
    "C59_remove",
    "C59_at",
    "C59_starts_ends",
    "C59_compare_partial",
    "C59_order_total",
    "C59_equal_length",
    "C59_compare_refuted",
    "C59_not_of_empty_refuted",
    "C59_last_outside_refuted"
   ],
   "note": "Everything but the refuted last sentence is proved (the _partial theorems exclude exactly the refuted cases)."
  },
  {
   "property": "C60",
   "status": "partial",
   "theorems": [
    "C60_replace_all",
    "C60_replace_all_empty_refuted",
    "C60_replace_char",
    "C60_filter_out",
    "C60_remove_char",
    "C60_extract",
    "C60_starts_with",
    "C60_ends_with",
    "C60_contains",
    "C60_remove_prefix",
    "C60_remove_suffix",
    "C60_split_string",
    "C60_split_any",
    "C60_join_split",
    "C60_split_empty_delimiter_refuted",
    "C60_split_first_again_refuted",
    "C60_string_ref_refuted",
    "C60_strip",
    "C60_justify",
    "C60_joiner_partial",
    "C60_joiner_refuted",
    "C60_edit_distance",
    "C60_string_ref_find"
   ],
   "note": "Everything but the refuted last sentence is proved."
  },
  {
   "property": "C61",
   "status": "partial",
   "theorems": [
    "C61_align_up_partial",
    "C61_align_down",
    "C61_align_signed_nonneg",
    "C61_align_up_wraps_refuted",
    "C61_align_signed_refuted",
    "C61_gcd",
    "C61_lcm",
    "C61_lcm_zero_refuted",
    "C61_is_power",
    "C61_fraction_remainder_partial",
    "C61_fraction_nearest_refuted",
    "C61_fraction_large_divisor_refuted",
    "C61_parse_fraction_partial",
    "C61_parse_fraction_refusals",
    "C61_parse_fraction_sign_refuted",
    "C61_parse_fraction_wrap_refuted",
    "C61_contains",
    "C61_intersect",
    "C61_union",
    "C61_clamp",
    "C61_touching_refuted",
    "C61_bits",
    "C61_reverse_bits",
    "C61_builder_partial",
    "C61_builder_signed_field",
    "C61_builder_signed_refuted",
    "C61_builder_empty_field_refuted"
   ],
   "note": "Everything but the refuted last sentence is proved; the _partial theorems exclude exactly the refuted cases."
  },
  {
   "property": "C62",
   "status": "partial",
   "theorems": [
    "C62_range_for",
    "C62_algorithms",
    "C62_index_of",
    "C62_min_max",
    "C62_iterator_range",
    "C62_single",
    "C62_transform",
    "C62_reverse",
    "C62_reverse_random_partial",
    "C62_filter",
    "C62_drop",
    "C62_take",
    "C62_cycle",
    "C62_split_partial",
    "C62_split_exists",
    "C62_flatten",
    "C62_zip",
    "C62_concat",
    "C62_split_last_refuted",
    "C62_reverse_move_refuted",
    "C62_reverse_position_refuted",
    "C62_reverse_next_refuted",
    "C62_filter_prev_refuted",
    "C62_flatten_prev_refuted",
    "C62_flatten_empty_refuted",
    "C62_zip_desync_refuted",
    "C62_cycle_for_refuted"
   ],
   "note": "Everything but the refuted last sentence is proved, compositionally; C62_split_partial and C62_reverse_random_partial exclude exactly the refuted cases. Zip is modelled for two ranges, Concat for ranges of one type."
  },
  {
   "property": "C63",
   "status": "partial",
   "theorems": [
    "C63_statistics",
    "C63_nothing_lost",
    "C63_pop_moves",
    "C63_memory_counters",
    "C63_seen_context",
    "C63_small_counts_exact",
    "C63_every_byte_encodable",
    "C63_roundtrip_partial",
    "C63_end_of_data_partial",
    "C63_injective",
    "C63_wrapped_sum_refuted",
    "C63_wrapped_sum_order1_refuted",
    "C63_empty_dictionary_refuted",
    "C63_unseen_context_refuted",
    "C63_end_of_data_refuted"
   ],
   "note": "C63_roundtrip_partial assumes a completion of the coder's output, C63_end_of_data_partial the cases in which EndOfData gives one; the rest is refuted as stated. Which contexts compaction picks is nondeterministic in the model (it depends on std::sort); the memory thresholds that trigger it are not modelled. The byte/bit buffers are C24."
  },
  {
   "property": "C64",
   "status": "partial",
   "theorems": [
    "C64_roundtrip",
    "C64_injective",
    "C64_property",
    "C64_injection",
    "C64_object_map",
    "C64_set_of_list",
    "C64_map_of_list",
    "C64_map_first",
    "C64_hex",
    "C64_hex_accepted",
    "C64_checked_integer",
    "C64_integer_range_refuted",
    "C64_double_whole",
    "C64_double_near",
    "C64_double_roundtrip_refuted",
    "C64_nested_optional_refuted",
    "C64_optional_pointer_refuted",
    "C64_stale_member_refuted",
    "C64_roundtrip_into_anything",
    "C64_short_pair_refuted",
    "C64_short_pair",
    "C64_long_pair",
    "C64_variant_index_refuted",
    "C64_pair_of_empty_refuted",
    "C64_wrong_kind"
   ],
   "note": "The refuted cases are listed in the statement. The concrete text format is not in the repository (an ObjectOStream is its calls); polymorphic pointers (.class/.pk), string-representable classes and the state after an exception are not modelled; doubles only for whole numbers."
  },
  {
   "property": "C65",
   "status": "partial",
   "theorems": [
    "C65_variant_history",
    "C65_variant_no_leak",
    "C65_variant_self_assignment_refuted",
    "C65_variant_own_item_refuted",
    "C65_variant_foreign_exception_refuted",
    "C65_optional_history",
    "C65_optional_no_leak",
    "C65_optional_emplace_own_refuted",
    "C65_any_history_partial",
    "C65_any_no_leak_partial",
    "C65_any_self_assignment_refuted",
    "C65_any_throwing_assignment_refuted",
    "C65_any_own_value_refuted",
    "C65_any_moved_string_refuted"
   ],
   "note": "Proved for variants and optionals (all proper histories) and for anys when assigned values do not throw. Refuted parts (C65_*_refuted): v = v and v = v.get<T>() use a destroyed item; an exception that is not a std::exception leaves a variant that destroys its item twice; emplacing an optional from its own item; a = a empties an any; an any whose assignment throws is destroyed as what it does not hold; assigning an any from its own contents; a moved string is never destroyed."
  },
  {
   "property": "C66",
   "status": "partial",
   "theorems": [
    "C66_comparison_exact",
    "C66_sum_exact",
    "C66_difference_exact",
    "C66_negation_exact",
    "C66_product_exact",
    "C66_total_order",
    "C66_reading_exact",
    "C66_reading_whole",
    "C66_writing_exact",
    "C66_writing_small_negative_refuted",
    "C66_text_round_trip",
    "C66_double_rounding",
    "C66_large_equal_refuted",
    "C66_large_order_refuted",
    "C66_minus_after_point_refuted",
    "C66_product_exponent_refuted",
    "C66_zero_far_exponent_refuted",
    "C66_fixed_of_int",
    "C66_fixed_to_int_floor",
    "C66_fixed_sum_exact",
    "C66_fixed_product",
    "C66_fixed_quotient",
    "C66_fixed_order",
    "C66_fixed_conversion",
    "C66_fixed_sqrt",
    "C66_fixed_sqrt_large_refuted",
    "C66_fixed_reading",
    "C66_fixed_reading_whole",
    "C66_fixed_reading_negative_refuted",
    "C66_fixed_reading_digits_refuted",
    "C66_fixed_writing",
    "C66_fixed_writing_zeros_refuted",
    "C66_fixed_writing_negative_refuted"
   ],
   "note": "Proved when both mantissas, brought to the common exponent, are at most 2^53 (and, for fixed_point, when the result fits the type). Refuted beyond (C66_*_refuted): 2^53+1 == 2^53; the order of two decimals of different exponents reversed; negative decimals with a zero after the point are written with the minus among the digits; \"1.-5\" is accepted as 0.95; the exponent of a product wraps at 2^16; comparing with an exponent above 308 is a NaN conversion; fixed_point: sqrt saturates at raw 65535, \"-1.5\" is read as -0.5, \"0.65536\" as 0, 1.0625 is written 1.62, -1.5 is written -1.-500."
  },
  {
   "property": "C67",
   "status": "partial",
   "theorems": [
    "C67_format_exact",
    "C67_format_refuses",
    "C67_parse_parts",
    "C67_parse_unpaired",
    "C67_parse_exact",
    "C67_parse_no_throw",
    "C67_parse_leading_text",
    "C67_parse_complete",
    "C67_parse_garbage_refuted",
    "C67_format_parse_back",
    "C67_version_round_trip",
    "C67_version_texts",
    "C67_version_order",
    "C67_version_total_order",
    "C67_version_sign_refuted"
   ],
   "note": "Proved for all formats in which texts and arguments alternate. Refuted parts: StringParse accepts anything in front of a text that begins the format (\"x%1%\" matches \"garbage x5\", C67_parse_garbage_refuted), and a sign without digits counts as a number (\"-.+\" is version 0.0). Formats with two arguments next to each other, %0% or %% are modelled but only covered by the tokenizer model."
  },
  {
   "property": "C68",
   "status": "partial",
   "theorems": [
    "C68_cmp_is_an_order",
    "C68_cmp_looks_through_pointers",
    "C68_cmp_adapters",
    "C68_less_adapters",
    "C68_tuples",
    "C68_collections",
    "C68_member_lists",
    "C68_comparable",
    "C68_optional_order",
    "C68_optional_mixed",
    "C68_optional_cmp_mirrored",
    "C68_optional_cmp_mirrored_refuted",
    "C68_variant",
    "C68_operators_from_less",
    "C68_operators_from_compare",
    "C68_case_insensitive"
   ],
   "note": "All orders proved for every instance; the mirrored OptionalCmp overloads proved for item comparisons that never return INT_MIN and refuted without that. TimeCmp (with jitter, not transitive) is in C48."
  },
  {
   "property": "C69",
   "status": "partial",
   "theorems": [
    "C69_mutual_exclusion",
    "C69_returns_with_mutex",
    "C69_handler_alive",
    "C69_no_stale_handler",
    "C69_no_lost_cancel",
    "C69_no_lost_cancel_joined_partial",
    "C69_results",
    "C69_one_result",
    "C69_cancelled_can_return",
    "C69_joined_cancel_lost_refuted",
    "C69_cancelled_without_cancel_refuted",
    "C69_basic_broadcast",
    "C69_basic_stolen_wakeup_refuted",
    "C69_basic_timeout_surplus_refuted"
   ],
   "note": "Proved for plain tokens and for the members a joined token registered with; the two expectations about joined and expired tokens, and the two about BasicConditionVariable, refuted by reachable states. Not modelled: Reset, an expired TimedCancellationToken nested inside a joined one, pthread errors, a doubly locked mutex."
  },
  {
   "property": "C70",
   "status": "partial",
   "theorems": [
    "C70_map_refines",
    "C70_functors_alternate",
    "C70_erase_iterator",
    "C70_set_as_map",
    "C70_add_throw",
    "C70_erase_throw_refuted",
    "C70_clear_throw_refuted",
    "C70_value",
    "C70_value_stale_refuted",
    "C70_counter",
    "C70_counter_reset_throw_refuted",
    "C70_bimap_half_insert_refuted",
    "C70_bimap_multimap_erase_refuted",
    "C70_counter_answers",
    "C70_value_answers",
    "C70_bimap_empty"
   ],
   "note": "Proved for functors that do not throw (RefCountingValue: also for throwing ones; RefCounter: except in reset) and for bimap over std::map with fresh pairs; the rest refuted by concrete states. Not modelled: functors that call back into the collection."
  },
  {
   "property": "C71",
   "status": "partial",
   "theorems": [
    "C71_safe_history",
    "C71_safe_no_dangling",
    "C71_safe_no_leak",
    "C71_safe_null",
    "C71_safe_hands",
    "C71_safe_no_deadlock",
    "C71_phoenix_history",
    "C71_phoenix_assert",
    "C71_phoenix_one",
    "C71_phoenix_no_leak",
    "C71_phoenix_no_deadlock",
    "C71_phoenix_live_reference_refuted",
    "C71_destruction_order",
    "C71_answers",
    "C71_answers_after_exit",
    "C71_order_after_is_alive_refuted",
    "C71_cycle_hangs_refuted",
    "C71_assert_created",
    "C71_assert_created_refuted",
    "C71_store_is_atomic",
    "C71_store_stops"
   ],
   "note": "SafeSingleton, PhoenixSingleton and the store loop proved for all schedules; Singleton for one thread. Four statements refuted by concrete runs. pthread_once is trusted (exactly one runner, others wait, reset by an exception as in glibc); constructors and destructors of the user's class do not call the same singleton."
  },
  {
   "property": "C72",
   "status": "partial",
   "theorems": [
    "C72_unpack_in_bounds",
    "C72_tables_in_bounds",
    "C72_to_utf8",
    "C72_to_utf8_one_byte",
    "C72_unsupported",
    "C72_utf8_identity",
    "C72_to_utf8_injective",
    "C72_utf32",
    "C72_utf16_partial",
    "C72_utf16_refuted",
    "C72_utf16_malformed",
    "C72_bom",
    "C72_bom_refuted",
    "C72_compare",
    "C72_compare_spelled",
    "C72_less_strict_weak_order",
    "C72_equal",
    "C72_equal_is_compare_refuted",
    "C72_equal_transitive_refuted",
    "C72_to_cp866",
    "C72_to_other_page",
    "C72_from_code_page",
    "C72_cp866_round_trip",
    "C72_cp1251_round_trip_refuted",
    "C72_utf8_strict_refuted",
    "C72_to_utf8_valid_refuted",
    "C72_unassigned_refuted"
   ],
   "note": "UTF-16 proved for the BMP only, because the code drops 0x10000 from supplementary characters (C72_utf16_partial says exactly what it gives). Eight statements refuted by concrete texts. Serialization of LocaleString and the KSX/GB/Big5 encodings (no decoder in the code) are not modelled."
  },
  {
   "property": "C73",
   "status": "partial",
   "theorems": [
    "C73_container_cursor",
    "C73_empty_cursor",
    "C73_one_item_cursor",
    "C73_join_cursor",
    "C73_cast_cursor",
    "C73_of_type_cursor",
    "C73_where_cursor",
    "C73_transform_cursor",
    "C73_skip",
    "C73_take_cursor",
    "C73_flatten_cursor",
    "C73_walk",
    "C73_take_source",
    "C73_func_walk_partial",
    "C73_func_cursor_refuted",
    "C73_aggregate",
    "C73_all_any",
    "C73_count",
    "C73_for_each_calls",
    "C73_index_of",
    "C73_element_at",
    "C73_first_last",
    "C73_single",
    "C73_sequence_equal",
    "C73_sequence_equal_to_itself",
    "C73_sequence_equal_same_refuted",
    "C73_diff",
    "C73_diff_unsorted_refuted",
    "C73_joiner",
    "C73_snapshots",
    "C73_default_if_empty_partial",
    "C73_default_if_empty_refuted",
    "C73_builder_partial",
    "C73_builder_add_after_get_refuted",
    "C73_range",
    "C73_range_ends",
    "C73_range_for",
    "C73_iterator_compare_refuted",
    "C73_for_each_macro",
    "C73_for_each_break"
   ],
   "note": "Five statements refuted by concrete cases. Functors are pure (except that casters may throw); a source is modelled by the items still in front of it; GroupBy, Zip with tuples and MinElement-style helpers built on Aggregate are not separate definitions."
  },
  {
   "property": "C74",
   "status": "partial",
   "theorems": [
    "C74_no_use_after_free",
    "C74_deleted_once",
    "C74_pointed_alive",
    "C74_use_count",
    "C74_not_too_early",
    "C74_operations_end",
    "C74_operations_go_on",
    "C74_prompt",
    "C74_acyclic_no_leak",
    "C74_unique",
    "C74_reset_to_self_refuted",
    "C74_cycle_refuted",
    "C74_use_count_null"
   ],
   "note": "Two statements refuted by concrete runs. The counter is unbounded (the code's s32 is exact below 2^31 pointers to one object); reading a member and its add_ref are one step, as under the program's own lock; self_count_ptr gives no more."
  },
  {
   "property": "C75",
   "status": "partial",
   "theorems": [
    "C75_holder_account",
    "C75_holder_exact",
    "C75_holder_get",
    "C75_shared_holder_account",
    "C75_holder_cleanup_once_refuted",
    "C75_holder_set_takes_refuted",
    "C75_scope_exit",
    "C75_transaction_all_or_nothing",
    "C75_transaction_order",
    "C75_transaction_closed",
    "C75_transaction_rollback_prefix",
    "C75_transaction_rollback_once_refuted",
    "C75_transaction_rollback_all_refuted",
    "C75_token_once",
    "C75_token_order",
    "C75_builder",
    "C75_unique_deleted_once",
    "C75_unique_owner",
    "C75_unique_no_leak",
    "C75_unique_self_move",
    "C75_unique_reentrant_reset_refuted",
    "C75_unique_reset_get_refuted"
   ],
   "note": "Six statements refuted by concrete runs. Callbacks do not re-enter the holder or transaction that calls them (unique_ptr destructors may use other variables); bad_alloc in push_back is not modelled; SharedHolder's sharing is C33's."
  },
  {
   "property": "C76",
   "status": "partial",
   "theorems": [
    "C76_token_account",
    "C76_cleaned_once",
    "C76_cleanup_unlocked",
    "C76_no_deadlock",
    "C76_runs_end",
    "C76_call_takes",
    "C76_release_complete",
    "C76_release_all_gone_refuted"
   ],
   "note": "One statement refuted by a concrete run. Tokens are moved in (the pool is the only owner; shared tokens: C74). Mutexes are modelled as non-recursive. The threadless variants and the pools' destructors are not modelled."
  },
  {
   "property": "C77",
   "status": "partial",
   "theorems": [
    "C77_get_returns_the_last_value_set",
    "C77_told_only_while_connected",
    "C77_observers_know_the_value",
    "C77_observers_know_the_value_by_value",
    "C77_no_repeated_notification",
    "C77_set_tells_every_observer_once",
    "C77_connect_populates_by_the_policy",
    "C77_calls_complete",
    "C77_reentrant_set_by_value_refuted",
    "C77_set_while_populating_refuted"
   ],
   "note": "Two statements refuted by concrete runs; the positive theorems hold for by-reference types if no slot calls Set while it is populated, and for by-value types if no slot calls Set. Calls are atomic because each holds the signal's recursive mutex throughout (the mutex itself is not modelled here). Exceptions not derived from std::exception are not modelled."
  },
  {
   "property": "C78",
   "status": "partial",
   "theorems": [
    "C78_key_diff_exact",
    "C78_key_observers_called_iff_keys_changed",
    "C78_keys_of_a_transactional_dictionary",
    "C78_observable_keys",
    "C78_observable_casters",
    "C78_transactional_casters",
    "C78_caster_reads",
    "C78_dictionary_reads",
    "C78_pointer_casts",
    "C78_null_pointer_refuted",
    "C78_non_injective_set_caster_refuted"
   ],
   "note": "Two statements refuted by concrete cases. The wrapped collections are represented by their items, OnChanged calls and diffs (the transactional dictionary by its own model, C12). Mutexes and signals: C35."
  },
  {
   "property": "C79",
   "status": "partial",
   "theorems": [
    "C79_begin",
    "C79_element",
    "C79_move",
    "C79_step",
    "C79_unique",
    "C79_operators",
    "C79_index",
    "C79_walk",
    "C79_all",
    "C79_size",
    "C79_intervals",
    "C79_backwards_partial",
    "C79_backwards_refuted"
   ],
   "note": "One statement refuted (ApplyToIntervals the wrong way round). Containers are lists; sizes below 2^63; overflow of difference_type is undefined and outside."
  },
  {
   "property": "C80",
   "status": "partial",
   "theorems": [
    "C80_observer_knows_the_entry",
    "C80_called_for_the_key_only",
    "C80_transactional_exact",
    "C80_value_of_a_transactional_dictionary",
    "C80_set_is_get",
    "C80_both_value_types",
    "C80_set_entry",
    "C80_set_entry_set",
    "C80_given_comparer_ignored_refuted",
    "C80_coarser_comparer_refuted",
    "C80_null_looks_like_missing_refuted"
   ],
   "note": "Three statements refuted (the ignored comparer, a coarser comparer, null that looks like a missing key). The wrapped collection is its content and the stream of its calls; everything happens under its mutex."
  },
  {
   "property": "C81",
   "status": "partial",
   "theorems": [
    "C81_value_from_signal",
    "C81_value_from_strict_signal",
    "C81_dummy_connector",
    "C81_values_from_signal",
    "C81_collection_from_signal",
    "C81_async_future",
    "C81_async_result_is_final",
    "C81_async_calls",
    "C81_signal_to_future",
    "C81_signal_values_reach_the_future",
    "C81_ambiguous_value_refuted",
    "C81_other_exception_refuted",
    "C81_null_value_refuted"
   ],
   "note": "Three statements refuted (second value, other exceptions, null values). Critical sections of the shared state are atomic steps (C34 models them); that releasing a connection waits for the slots under way is modelled as the guard of one step (the life token is modelled for itself elsewhere). AddTask does not throw."
  },
  {
   "property": "C82",
   "status": "partial",
   "theorems": [
    "C82_only_overdue",
    "C82_not_too_often",
    "C82_log",
    "C82_sleeps_until_the_first_is_due",
    "C82_overdue_is_reported",
    "C82_stops",
    "C82_throwing_name_silences",
    "C82_overdue_is_reported_refuted",
    "C82_reported_is_running_refuted"
   ],
   "note": "Two statements refuted. A section under the mutex is one atomic step; the mutex and the condition variable themselves are as in POSIX (a broadcast wakes the waiter). The warning in ~Session and the backtrace are not modelled."
  },
  {
   "property": "C83",
   "status": "partial",
   "theorems": [
    "C83_runs_once",
    "C83_nothing_after_destructor",
    "C83_constructed",
    "C83_destructor_returns",
    "C83_aborts_only",
    "C83_lookup_partial",
    "C83_lookup_refuted",
    "C83_self_destruction_refuted",
    "C83_begins_after_constructor_refuted",
    "C83_foreign_signal_refuted",
    "C83_children_time",
    "C83_children_time_refuted"
   ],
   "note": "Five statements refuted. Sections under a mutex and TaskLifeToken's guards (C14) are atomic steps; the caller of a destructor is not itself blocked. Interrupt (pthread_cancel), failing pthread calls, thread attributes and names are not modelled."
  },
  {
   "property": "C84",
   "status": "partial",
   "theorems": [
    "C84_compiles",
    "C84_map",
    "C84_unmap",
    "C84_there_and_back",
    "C84_overlap_refuted",
    "C84_range_refuted"
   ],
   "note": "Two statements refuted; the others are proved. Values are integers. Not modelled: the inheritance check, the texts of exceptions, IdentityMapper."
  },
  {
   "property": "C85",
   "status": "partial",
   "theorems": [
    "C85_intersect",
    "C85_intersects",
    "C85_intersects_refuted",
    "C85_intersects_empty_refuted",
    "C85_rect_order",
    "C85_width",
    "C85_width_refuted",
    "C85_percents",
    "C85_progress_order_refuted",
    "C85_progress_order",
    "C85_aggregate",
    "C85_aggregate_chain",
    "C85_aggregate_accepted_refuted",
    "C85_aggregate_empty_refuted",
    "C85_aggregate_negative_refuted",
    "C85_average",
    "C85_mean_partial",
    "C85_mean_refuted",
    "C85_variance"
   ],
   "note": "Eight statements refuted. Signed arithmetic is over the integers (overflow is undefined behaviour; the theorems for InPercents and the reporter show when there is none), size_t modulo 2^64, floating types are rationals without rounding. ToString and Serialize are not modelled."
  },
  {
   "property": "C86",
   "status": "partial",
   "theorems": [
    "C86_values_partial",
    "C86_values_refuted",
    "C86_values_sum_refuted",
    "C86_names",
    "C86_flags",
    "C86_to_string",
    "C86_roundtrip_partial",
    "C86_zero_refuted",
    "C86_junk_refuted",
    "C86_comma_refuted"
   ],
   "note": "Five statements refuted; the round trip is proved for all ints but 0 without a zero enumerator, the values under the condition on initializers. Strings are lists of character codes; the stream's reading of an unsigned is modelled (white space, digits, overflow fails). The singleton and EnumIterator are not modelled."
  },
  {
   "property": "C87",
   "status": "partial",
   "theorems": [
    "C87_disabled_statements_have_no_effect",
    "C87_sites_are_independent",
    "C87_output_of_counting",
    "C87_new_messages_are_shown_at_once",
    "C87_summaries_do_not_exceed",
    "C87_interval_between_lines",
    "C87_slow_repetitions_are_never_mentioned",
    "C87_every_message_is_accounted_refuted",
    "C87_repeated_message_is_mentioned_again_refuted",
    "C87_settings_of_a_logger",
    "C87_level_set_for_the_name",
    "C87_get_log_level",
    "C87_constructor_level_is_kept_refuted",
    "C87_one_level_per_name_refuted",
    "C87_sinks_present",
    "C87_order_of_the_sinks",
    "C87_every_sink_gets_the_message",
    "C87_interleaved_deliveries",
    "C87_removed_sink_gets_nothing_refuted"
   ],
   "note": "Five statements refuted; the rest proved in full. Texts are abstracted to integers (only their equality is used), so a summary is a pair of message and number. Direct calls of NamedLogger::SetLogLevel, EnableBacktrace and EnableHighlight, the messages these print themselves, backtraces, ActionLogger, Tracer and the end of the singleton are not modelled; interval runs of 2^32 or more repetitions are excluded."
  },
  {
   "property": "C88",
   "status": "partial",
   "theorems": [
    "C88_restricted_operations_are_reported",
    "C88_exclusive_operations_are_checked",
    "C88_foreign_end_is_fatal",
    "C88_ended_areas_do_not_restrict_refuted",
    "C88_collecting_keeps_referenced_objects",
    "C88_repeated_collecting_is_complete",
    "C88_one_collecting_is_complete_refuted",
    "C88_unreferenced_objects_are_collected_refuted",
    "C88_lines_are_read",
    "C88_lines_are_unique",
    "C88_after_the_end",
    "C88_lines_determine_the_text_refuted",
    "C88_sequence_numbers"
   ],
   "note": "Four statements refuted; the rest proved in full. The build is not a production build (fatal errors); the log of reports is their result. Objects outside the pool appear only through their references; destructors that use the pool and changes of references by other threads during a collection are not modelled. Sequence numbers are residues; calls are in the order of their atomic increments."
  },
  {
   "property": "C89",
   "status": "partial",
   "theorems": [
    "C89_written_commands_are_executed",
    "C89_all_nonempty_strings_can_be_passed",
    "C89_executed_texts_begin_with_the_words",
    "C89_all_strings_can_be_passed_refuted",
    "C89_spaces_in_an_empty_vector_refuted",
    "C89_optional_vectors_refuted",
    "C89_completion_of_words",
    "C89_custom_completion",
    "C89_completed_argument_reads_as_candidate_partial",
    "C89_completed_argument_reads_as_candidate_refuted",
    "C89_registered_handlers",
    "C89_first_handler_executes"
   ],
   "note": "Four statements refuted; completed arguments are proved to read back only for candidates without a backslash in the rest. Not modelled: the overload choice among readers, completion of enumerations and booleans, the life token that ends a running execution on release, registration concurrent with execution."
  },
  {
   "property": "C90",
   "status": "partial",
   "theorems": [
    "C90_language_code_lengths",
    "C90_language_code_roundtrip",
    "C90_language_codes_compare",
    "C90_language_code_of_number_partial",
    "C90_language_code_of_number_refuted",
    "C90_any_language_roundtrip_refuted",
    "C90_two_letter_codes",
    "C90_two_letter_roundtrip_refuted",
    "C90_profile_of_checkpoints",
    "C90_checkpoints_of_a_stopped_profiler",
    "C90_profile_times_add_up",
    "C90_bandwidth_reports",
    "C90_bandwidth_overflow_refuted"
   ],
   "note": "Four statements refuted; numbers are proved to give the code of their text for ASCII bytes only (it is false for others). char is signed. Clock readings are parameters; reports less than a millisecond after the last (division by zero) are excluded; AutoCheckpointProfiler's output, the timer and the locks (each operation is one step) are not modelled."
  },
  {
   "property": "C91",
   "status": "partial",
   "theorems": [
    "C91_pipe_is_the_chain_of_its_stages",
    "C91_pipes_compose",
    "C91_output_is_incremental",
    "C91_reset_makes_a_new_pipe"
   ],
   "note": "All theorems proved in full for stages that are functions of their state and input. Not modelled: values returned by the consumer to the stages, exceptions, EndOfData (its Bind passes the consumer where Process takes the input, so stages that make values at the end of data do not compile), GetStage."
  }
 ]
}