{
 "claims": [
  {
   "property": "C01",
   "status": "proved",
   "theorems": [
    "C01_live_blocks_disjoint"
   ],
   "note": ""
  },
  {
   "property": "C02",
   "status": "proved",
   "theorems": [
    "C02_counters_exact"
   ],
   "note": ""
  },
  {
   "property": "C03",
   "status": "proved",
   "theorems": [
    "C03_free_list_coalesced",
    "C03_empty_disk_serves_contiguously"
   ],
   "note": ""
  },
  {
   "property": "C04",
   "status": "proved",
   "theorems": [
    "C04_alloc_delete_identity",
    "C04_alloc_delete_after_growth"
   ],
   "note": ""
  },
  {
   "property": "C05",
   "status": "proved",
   "theorems": [
    "C05_throws_iff_out_of_space"
   ],
   "note": ""
  },
  {
   "property": "C06",
   "status": "proved",
   "theorems": [
    "C06_growth_iff_fragmented",
    "C06_never_grows_refuted"
   ],
   "note": "Exact characterisation of growth, plus a witness that a disk without autogrow can exceed its configured size."
  },
  {
   "property": "C07",
   "status": "proved",
   "theorems": [
    "C07_bad_delete_detected",
    "C07_delete_twice_throws"
   ],
   "note": ""
  },
  {
   "property": "C08",
   "status": "proved",
   "theorems": [
    "C08_serves_every_block",
    "C08_recursion_well_founded",
    "C08_empty_batch_refuted"
   ],
   "note": "Also shows the precondition non-empty batch is needed."
  },
  {
   "property": "C09",
   "status": "proved",
   "theorems": [
    "C09_contiguous_first_fit"
   ],
   "note": ""
  },
  {
   "property": "C10",
   "status": "proved",
   "theorems": [
    "C10_concurrent_allocation_safe",
    "C10_concurrent_allocation_terminates",
    "C10_atomic_failure_refuted"
   ],
   "note": "Includes a witness for the half-way throw that loses a block."
  },
  {
   "property": "C11",
   "status": "proved",
   "theorems": [
    "C11_managed_blocks_disjoint",
    "C11_managed_blocks_inside",
    "C11_no_undefined_behaviour",
    "C11_delete_succeeds",
    "C11_bytes_accounted"
   ],
   "note": ""
  },
  {
   "property": "C12",
   "status": "proved",
   "theorems": [
    "C12_current_allocation_fixed_size",
    "C12_current_allocation_exact",
    "C12_current_allocation_refuted"
   ],
   "note": "Exact value for all histories; equal to the live bytes iff no BID<0> block was deleted. Witness for the drift."
  },
  {
   "property": "C13",
   "status": "proved",
   "theorems": [
    "C13_total_is_bytes_ever",
    "C13_total_never_decreases",
    "C13_maximum_is_high_water_mark",
    "C13_maximum_with_throw_refuted"
   ],
   "note": "Total and maximum for histories without exceptions; witness that the maximum misses blocks after one."
  },
  {
   "property": "C14",
   "status": "proved",
   "theorems": [
    "C14_disk_choice",
    "C14_placement_unique"
   ],
   "note": ""
  },
  {
   "property": "C15",
   "status": "proved",
   "theorems": [
    "C15_throws_iff_no_room",
    "C15_recover_after_throw",
    "C15_one_disk_atomic",
    "C15_throw_keeps_held",
    "C15_atomic_refuted"
   ],
   "note": "Characterises when new_blocks throws and how to recover; witness that it is not atomic."
  },
  {
   "property": "C16",
   "status": "proved",
   "theorems": [
    "C16_delete_invalid_noop",
    "C16_delete_blocks_sequential",
    "C16_delete_everything"
   ],
   "note": ""
  },
  {
   "property": "C17",
   "status": "proved",
   "theorems": [
    "C17_strategies_in_range",
    "C17_interleaved_in_range",
    "C17_offset_in_range",
    "C17_strategies_fit_manager",
    "C17_empty_range_undefined"
   ],
   "note": ""
  },
  {
   "property": "C18",
   "status": "proved",
   "theorems": [
    "C18_even_distribution",
    "C18_full_round_exactly_once",
    "C18_offset_even_distribution",
    "C18_interleaved_even_within_run",
    "C18_wraparound_refuted"
   ],
   "note": "Evenness within any window whose indices do not wrap at 2^64; witness for the wrap."
  },
  {
   "property": "C19",
   "status": "proved",
   "theorems": [
    "C19_life_cycle",
    "C19_handler_at_most_once",
    "C19_handler_before_wait_returns"
   ],
   "note": ""
  },
  {
   "property": "C20",
   "status": "proved",
   "theorems": [
    "C20_served_or_cancelled_not_both",
    "C20_true_means_never_transferred",
    "C20_false_means_taken",
    "C20_taken_means_served",
    "C20_cancel_never_crashes_refuted"
   ],
   "note": "Witness that cancel can dereference a null file pointer."
  },
  {
   "property": "C21",
   "status": "proved",
   "theorems": [
    "C21_accounted_for",
    "C21_semaphore_counts",
    "C21_worker_never_asleep",
    "C21_worker_serves_everything"
   ],
   "note": ""
  },
  {
   "property": "C22",
   "status": "proved",
   "theorems": [
    "C22_fifo_per_direction",
    "C22_one_queue_fifo",
    "C22_read_never_overtakes_write",
    "C22_write_never_overtakes_read_refuted",
    "C22_read_never_overtakes_write_refuted"
   ],
   "note": "FIFO per direction; witnesses that the two-queue version reorders across directions."
  },
  {
   "property": "C23",
   "status": "proved",
   "theorems": [
    "C23_worker_terminates",
    "C23_left_behind",
    "C23_empty_shutdown_leaves_nothing",
    "C23_abandoned_forever",
    "C23_shutdown_serves_everything_refuted"
   ],
   "note": "Exactly which requests are left behind; witness for a request added around shutdown."
  },
  {
   "property": "C24",
   "status": "proved",
   "theorems": [
    "C24_throw_means_failed",
    "C24_return_means_no_failure",
    "C24_waiter_moves",
    "C24_handler_told_success",
    "C24_handler_sees_failure_refuted"
   ],
   "note": "Witness that a completion handler is told success although the transfer failed."
  },
  {
   "property": "C25",
   "status": "proved",
   "theorems": [
    "C25_returns_finished_request",
    "C25_end_only_if_spurious",
    "C25_no_lost_wakeup",
    "C25_woken_means_notified",
    "C25_empty_range_never_woken",
    "C25_registrations_removed",
    "C25_dead_switch_only_after_throw",
    "C25_no_dead_switch_refuted"
   ],
   "note": "No lost wakeup for wait_any; witnesses for the spurious wakeup, the empty range and the dead switch."
  },
  {
   "property": "C26",
   "status": "proved",
   "theorems": [
    "C26_cancel_all_counts",
    "C26_wait_all_waits",
    "C26_wait_all_throws_first"
   ],
   "note": ""
  },
  {
   "property": "C27",
   "status": "proved",
   "theorems": [
    "C27_bounded_work",
    "C27_must_finish",
    "C27_turns_refuted",
    "C27_limit",
    "C27_once",
    "C27_counters_at_rest",
    "C27_accounted",
    "C27_can_always_finish",
    "C27_partial_submit_deadlock_refuted",
    "C27_default_limit"
   ],
   "note": "For runs in which no submitted request is cancelled; witness for the deadlock after a partial io_submit. C27_bounded_work and C27_must_finish bound the steps; C27_turns_refuted: while a client that cancels has not taken back its signal, the posting thread turns without end."
  },
  {
   "property": "C28",
   "status": "proved",
   "theorems": [
    "C28_completed_before",
    "C28_second_call_crashes",
    "C28_cancel_crashes",
    "C28_handler_once",
    "C28_crash_reachable",
    "C28_blocks_with_lock_refuted",
    "C28_limit_refuted"
   ],
   "note": "What happens when submitted requests are cancelled: the crash is reachable."
  },
  {
   "property": "C29",
   "status": "proved",
   "theorems": [
    "C29_reads_last_written",
    "C29_bounds"
   ],
   "note": ""
  },
  {
   "property": "C30",
   "status": "proved",
   "theorems": [
    "C30_write",
    "C30_read",
    "C30_errors",
    "C30_short_transfers_succeed",
    "C30_read_past_end",
    "C30_history"
   ],
   "note": ""
  },
  {
   "property": "C31",
   "status": "proved",
   "theorems": [
    "C31_names_distinct",
    "C31_isolation",
    "C31_reads_own_block",
    "C31_write_then_read",
    "C31_succeeds",
    "C31_short_read_destroys_refuted",
    "C31_trunc_reads_zeros"
   ],
   "note": "Witness that a short read truncates the stored block."
  },
  {
   "property": "C32",
   "status": "proved",
   "theorems": [
    "C32_blocks_conserved",
    "C32_only_busy_blocks_in_transfer",
    "C32_steal_returns_idle",
    "C32_size"
   ],
   "note": ""
  },
  {
   "property": "C33",
   "status": "proved",
   "theorems": [
    "C33_last_write_wins",
    "C33_older_writes_do_not_wait",
    "C33_unordered_writes_refuted"
   ],
   "note": "For I/O systems that keep the order of writes to one block; witness otherwise."
  },
  {
   "property": "C34",
   "status": "proved",
   "theorems": [
    "C34_reads_coherent",
    "C34_read_hint_defined",
    "C34_not_waiting_refuted"
   ],
   "note": "For clients that wait for a read before the next; witness otherwise."
  },
  {
   "property": "C35",
   "status": "proved",
   "theorems": [
    "C35_blocks_free_or_hinted",
    "C35_hint_succeeds_iff",
    "C35_read_consumes_hint",
    "C35_size"
   ],
   "note": ""
  },
  {
   "property": "C36",
   "status": "proved",
   "theorems": [
    "C36_simulation_terminates",
    "C36_schedule_is_permutation",
    "C36_no_buffers_refuted"
   ],
   "note": "Needs at least one buffer; witness for none."
  },
  {
   "property": "C37",
   "status": "proved",
   "theorems": [
    "C37_never_starves",
    "C37_two_fewer_buffers_refuted"
   ],
   "note": "Two fewer buffers than simulated are not enough: witness."
  },
  {
   "property": "C38",
   "status": "proved",
   "theorems": [
    "C38_one_write_per_disk_and_step",
    "C38_written_once_after_entering",
    "C38_buffer_bound"
   ],
   "note": ""
  },
  {
   "property": "C39",
   "status": "proved",
   "theorems": [
    "C39_in_order",
    "C39_complete",
    "C39_held_buffers_untouched",
    "C39_calls_return",
    "C39_computed_schedule",
    "C39_starving_blocks",
    "C39_destroyed",
    "C39_spurious_wakeup_refuted"
   ],
   "note": "Without spurious wakeups; witness otherwise."
  },
  {
   "property": "C40",
   "status": "proved",
   "theorems": [
    "C40_position",
    "C40_fill_completes",
    "C40_written",
    "C40_roundtrip",
    "C40_open_returns",
    "C40_put_returns",
    "C40_close_returns",
    "C40_input_open_returns",
    "C40_get_returns",
    "C40_everything_comes_back"
   ],
   "note": ""
  },
  {
   "property": "C41",
   "status": "proved",
   "theorems": [
    "C41_written_at_most_once",
    "C41_complete_after_flush",
    "C41_handed_out_buffers_idle",
    "C41_disk_content",
    "C41_same_block_twice_refuted"
   ],
   "note": "Witness that the same block twice in one batch may end with the older content."
  },
  {
   "property": "C42",
   "status": "proved",
   "theorems": [
    "C42_calls_return",
    "C42_large_batch_blocks",
    "C42_ostream_safe"
   ],
   "note": "Calls return iff the batch is smaller than the number of buffers."
  },
  {
   "property": "C43",
   "status": "proved",
   "theorems": [
    "C43_flush_frees_all",
    "C43_kept_buffer_handed_out_again",
    "C43_keeping_buffers_refuted"
   ],
   "note": "Witness for a caller that keeps a buffer across flush."
  },
  {
   "property": "C44",
   "status": "proved",
   "theorems": [
    "C44_transparent",
    "C44_defined",
    "C44_uninitialized_clean_refuted"
   ],
   "note": "Excludes releasing as clean what was acquired as uninitialised; witness for that."
  },
  {
   "property": "C45",
   "status": "proved",
   "theorems": [
    "C45_limit",
    "C45_acquired_not_evicted",
    "C45_bytes",
    "C45_bytes_refuted"
   ],
   "note": "In blocks the limit is exact; in bytes it can be exceeded by less than a block (witness)."
  },
  {
   "property": "C46",
   "status": "proved",
   "theorems": [
    "C46_acquire_succeeds_iff",
    "C46_else_no_memory",
    "C46_evicts_only_if_needed"
   ],
   "note": ""
  },
  {
   "property": "C47",
   "status": "proved",
   "theorems": [
    "C47_lru",
    "C47_after_simulation_refuted"
   ],
   "note": "For runs without a switch of algorithm in between; witness that switching reverses the order."
  },
  {
   "property": "C48",
   "status": "proved",
   "theorems": [
    "C48_lfd"
   ],
   "note": "Prediction times below 2^62-1."
  },
  {
   "property": "C49",
   "status": "proved",
   "theorems": [
    "C49_simulation",
    "C49_acquired_at_start_refuted",
    "C49_invalid_external_block_refuted",
    "C49_free_is_not_simulated_refuted"
   ],
   "note": "For simulations started with no block acquired, valid external blocks, and no freeing of initialised blocks; a witness for each of the three."
  },
  {
   "property": "C50",
   "status": "proved",
   "theorems": [
    "C50_roundtrip",
    "C50_arithmetic",
    "C50_from_int"
   ],
   "note": ""
  },
  {
   "property": "C51",
   "status": "proved",
   "theorems": [
    "C51_comparisons",
    "C51_extremes"
   ],
   "note": ""
  },
  {
   "property": "C52",
   "status": "proved",
   "theorems": [
    "C52_aligned_allocation"
   ],
   "note": ""
  },
  {
   "property": "C53",
   "status": "proved",
   "theorems": [
    "C53_fifo_refines_list"
   ],
   "note": ""
  },
  {
   "property": "C54",
   "status": "proved",
   "theorems": [
    "C54_priority_map"
   ],
   "note": ""
  },
  {
   "property": "C55",
   "status": "proved",
   "theorems": [
    "C55_div_ceil",
    "C55_round_up",
    "C55_round_up_overflow"
   ],
   "note": "The overflow case of round_up_to_power_of_two is characterised."
  },
  {
   "property": "C56",
   "status": "proved",
   "theorems": [
    "C56_longhash1_bijective"
   ],
   "note": ""
  },
  {
   "property": "C57",
   "status": "proved",
   "theorems": [
    "C57_layout",
    "C57_has_only_data"
   ],
   "note": ""
  },
  {
   "property": "C58",
   "status": "proved",
   "theorems": [
    "C58_automatic_ids_fresh",
    "C58_explicit_may_coincide_refuted",
    "C58_overflow_refuted",
    "C58_before_initialisation_refuted"
   ],
   "note": "Witnesses for explicit ids, overflow and files created before the initialisation."
  },
  {
   "property": "C59",
   "status": "proved",
   "theorems": [
    "C59_ranges",
    "C59_loads_iff",
    "C59_added_disks_are_flash",
    "C59_file_loaded_before_initialisation_refuted",
    "C59_second_attempt_refuted",
    "C59_add_disk_after_initialisation_refuted",
    "C59_default",
    "C59_total_size"
   ],
   "note": "Witnesses for disks added or files loaded at other times."
  },
  {
   "property": "C60",
   "status": "proved",
   "theorems": [
    "C60_roundtrip_iff",
    "C60_parsed_roundtrip",
    "C60_linuxaio_queue_refuted",
    "C60_flash_rejected",
    "C60_blank_rejected"
   ],
   "note": "Exact condition for the round trip."
  },
  {
   "property": "C61",
   "status": "proved",
   "theorems": [
    "C61_serial_time",
    "C61_getters",
    "C61_wait_time",
    "C61_cancelled_linuxaio_refuted"
   ],
   "note": "Witness for cancelled linuxaio requests."
  },
  {
   "property": "C62",
   "status": "proved",
   "theorems": [
    "C62_parallel_time",
    "C62_unordered_sections_refuted",
    "C62_linuxaio_not_counted"
   ],
   "note": "Needs time stamps in the order of the sections; witness otherwise."
  },
  {
   "property": "C63",
   "status": "proved",
   "theorems": [
    "C63_increasing_ids",
    "C63_right_device_iff",
    "C63_any_order_refuted"
   ],
   "note": "Exact condition for one call; witness for other orders."
  },
  {
   "property": "C64",
   "status": "proved",
   "theorems": [
    "C64_difference",
    "C64_add_back",
    "C64_operations_between",
    "C64_missing_device_refuted"
   ],
   "note": "Witness for a device that only the earlier snapshot has."
  },
  {
   "property": "C65",
   "status": "proved",
   "theorems": [
    "C65_uniform_blocks_never_grow"
   ],
   "note": ""
  },
  {
   "property": "C66",
   "status": "proved",
   "theorems": [
    "C66_destructor_restores_size"
   ],
   "note": ""
  },
  {
   "property": "C67",
   "status": "proved",
   "theorems": [
    "C67_first_candidate",
    "C67_default",
    "C67_complete",
    "C67_added_disks_win"
   ],
   "note": ""
  },
  {
   "property": "C68",
   "status": "proved",
   "theorems": [
    "C68_fields",
    "C68_pid",
    "C68_pid_keeps_rest_refuted",
    "C68_reuse",
    "C68_reuse_refuted"
   ],
   "note": "Witnesses for $$ and for parsing into a used object."
  },
  {
   "property": "C69",
   "status": "proved",
   "theorems": [
    "C69_constructed_once",
    "C69_returned",
    "C69_deleted_once",
    "C69_destroy_by_hand_refuted",
    "C69_calls_return"
   ],
   "note": ""
  },
  {
   "property": "C70",
   "status": "proved",
   "theorems": [
    "C70_reverse_order",
    "C70_library",
    "C70_other_uses_refuted",
    "C70_cycle_never_returns"
   ],
   "note": ""
  },
  {
   "property": "C71",
   "status": "proved",
   "theorems": [
    "C71_one_queue_per_disk",
    "C71_add",
    "C71_lookup",
    "C71_order_irrelevant",
    "C71_failed_construction_refuted"
   ],
   "note": ""
  },
  {
   "property": "C72",
   "status": "proved",
   "theorems": [
    "C72_shared_iff",
    "C72_accepted",
    "C72_default_separate",
    "C72_no_aio_succeeds",
    "C72_default_shared_refuted",
    "C72_minus_two_refuted"
   ],
   "note": ""
  },
  {
   "property": "C73",
   "status": "proved",
   "theorems": [
    "C73_ends",
    "C73_never_fewer",
    "C73_all_or_nothing",
    "C73_half_refuted",
    "C73_linux"
   ],
   "note": "Also shows that halving is never tried."
  },
  {
   "property": "C74",
   "status": "proved",
   "theorems": [
    "C74_outcome",
    "C74_content",
    "C74_same_as_syscall",
    "C74_never_grows",
    "C74_past_end_refuted"
   ],
   "note": ""
  },
  {
   "property": "C75",
   "status": "proved",
   "theorems": [
    "C75_never_killed",
    "C75_content",
    "C75_returns"
   ],
   "note": ""
  },
  {
   "property": "C76",
   "status": "proved",
   "theorems": [
    "C76_flags",
    "C76_direct",
    "C76_alignment",
    "C76_alignment_refuted",
    "C76_create_file"
   ],
   "note": ""
  },
  {
   "property": "C77",
   "status": "proved",
   "theorems": [
    "C77_exclusive",
    "C77_constructor_iff",
    "C77_content",
    "C77_by_name",
    "C77_leak",
    "C77_same_process_refuted",
    "C77_close_refuted",
    "C77_trunc_refuted",
    "C77_close_remove_refuted"
   ],
   "note": "Under the usage stated; a witness for each excluded use."
  },
  {
   "property": "C78",
   "status": "proved",
   "theorems": [
    "C78_exact",
    "C78_monotone",
    "C78_other_use_refuted"
   ],
   "note": ""
  },
  {
   "property": "C79",
   "status": "proved",
   "theorems": [
    "C79_summary",
    "C79_median_wrap_refuted"
   ],
   "note": "Median under a bound on the values; witness otherwise."
  },
  {
   "property": "C80",
   "status": "proved",
   "theorems": [
    "C80_sort_defined_iff",
    "C80_parallel_speeds_defined",
    "C80_file_speeds_refuted",
    "C80_warnings_in_bounds"
   ],
   "note": "Exact condition; witness for file speeds."
  },
  {
   "property": "C81",
   "status": "proved",
   "theorems": [
    "C81_every_block_once",
    "C81_no_use_in_flight",
    "C81_no_error_no_loss",
    "C81_loss_per_call",
    "C81_destructor",
    "C81_no_leak"
   ],
   "note": ""
  },
  {
   "property": "C82",
   "status": "proved",
   "theorems": [
    "C82_steal_throws",
    "C82_throws_only",
    "C82_failure_kept",
    "C82_stale_failure_stays",
    "C82_steal_loses_refuted",
    "C82_silent_failure_refuted"
   ],
   "note": "Witnesses for lost blocks and hidden failures."
  },
  {
   "property": "C83",
   "status": "proved",
   "theorems": [
    "C83_start",
    "C83_transparent",
    "C83_defined",
    "C83_switch_back",
    "C83_extract_refuted",
    "C83_flush_refuted"
   ],
   "note": "For predictions without extract_external_block, without flush and without growing the vector of blocks; witnesses for the first two."
  },
  {
   "property": "C84",
   "status": "proved",
   "theorems": [
    "C84_limit",
    "C84_acquired_not_evicted",
    "C84_acquire_succeeds_iff"
   ],
   "note": "Same hypotheses as C83."
  },
  {
   "property": "C85",
   "status": "proved",
   "theorems": [
    "C85_as_far_as_possible",
    "C85_internal_blocks",
    "C85_prefetched",
    "C85_next_acquire_ready",
    "C85_lru_refuted"
   ],
   "note": "Same hypotheses as C83; witness that the eviction order is not LRU."
  },
  {
   "property": "C86",
   "status": "proved",
   "theorems": [
    "C86_exact",
    "C86_no_value",
    "C86_space",
    "C86_freed_only_by",
    "C86_freed",
    "C86_prefetch_exact",
    "C86_prefetch_freed_only_by"
   ],
   "note": "With the prefetching algorithm: under the restrictions of C83."
  },
  {
   "property": "C87",
   "status": "proved",
   "theorems": [
    "C87_destructor",
    "C87_nothing_leaked",
    "C87_prefetch_destructor",
    "C87_unused_algorithm",
    "C87_acquired_leaks_refuted",
    "C87_unused_keeps_values_refuted"
   ],
   "note": "Witnesses: the external block of an acquired block is leaked; an unused algorithm object destroys the values of evictable blocks."
  },
  {
   "property": "C88",
   "status": "proved",
   "theorems": [
    "C88_return_means_written",
    "C88_failure_is_final",
    "C88_throw_only_after_failure",
    "C88_nothing_forgotten",
    "C88_handed_out_buffers_idle",
    "C88_calls_end",
    "C88_no_recovery",
    "C88_leak_only_by_throwing",
    "C88_destructor_ends_program"
   ],
   "note": "Caller keeps no buffer over flush() (as in C43). The exceptions at lines 148, 173 and 203 are shown impossible."
  },
  {
   "property": "C89",
   "status": "proved",
   "theorems": [
    "C89_in_order",
    "C89_complete",
    "C89_error_reported",
    "C89_throw_only_after_failure",
    "C89_held_buffers_untouched",
    "C89_destructor_never_returns",
    "C89_calls_end",
    "C89_terminate_only_after_failure",
    "C89_extends_C39",
    "C89_contents_refuted"
   ],
   "note": "Condition variables do not wake up spuriously (see C39). Witness: a block whose read failed is returned without an exception."
  },
  {
   "property": "C90",
   "status": "proved",
   "theorems": [
    "C90_reads_minimal",
    "C90_minimum_attained",
    "C90_no_more_than_lru",
    "C90_forecast_simulated",
    "C90_transfers_refuted"
   ],
   "note": "Programs that have one block acquired at a time; the competing strategies are the relation `served` of BeladySpec.v. C90_transfers_refuted: reads and writes together are not minimal."
  },
  {
   "property": "C91",
   "status": "proved",
   "theorems": [
    "C91_run_at_end_identity",
    "C91_one_block_per_step",
    "C91_buffers_never_regained",
    "C91_simulated_steps_refuted",
    "C91_optimal_refuted"
   ],
   "note": "The paper the file cites proves optimality of the algorithm; C91_simulated_steps_refuted and C91_optimal_refuted show that the implementation does not have it."
  },
  {
   "property": "C92",
   "status": "proved",
   "theorems": [
    "C92_reads_last_written",
    "C92_no_undefined_behaviour",
    "C92_requests_succeed",
    "C92_rules_needed_refuted",
    "C92_block_files_apart"
   ],
   "note": "Composition of the manager (C01-C16) and file models (C29-C31) with what connects them: set_size on growth, discard on deletion, pending requests served in any order. Growth of files is assumed to succeed; serving a request is one step. C92_rules_needed_refuted: the rule about pending requests cannot be dropped."
  },
  {
   "property": "C93",
   "status": "proved",
   "theorems": [
    "C93_destructor_returns",
    "C93_what_is_left",
    "C93_nothing_waiting",
    "C93_nothing_in_kernel",
    "C93_all_served",
    "C93_all_served_refuted"
   ],
   "note": "Destruction: no client may be inside of the queue or call it afterwards; cancellations of requests in the kernel (which crash, C28) are left out. C93_destructor_returns is for io_submit accepting everything; with partial acceptance the queue can deadlock (C27) and so can the destructor."
  },
  {
   "property": "C94",
   "status": "proved",
   "theorems": [
    "C94_no_undefined_behaviour",
    "C94_held_disjoint",
    "C94_held_inside",
    "C94_delete_succeeds",
    "C94_bytes_accounted",
    "C94_counter_blind",
    "C94_lost_forever",
    "C94_throw_reason",
    "C94_loss_needs_fragmentation",
    "C94_one_size_nothing_lost",
    "C94_same_without_failure",
    "C94_failure_throws",
    "C94_recover_refuted"
   ],
   "note": "C94_recover_refuted: after a throwing call not all bytes are free or held, even on a disk of fixed size. The constructor of the manager, whose growth may fail too, and the destructor of the allocator (set_size in a destructor) are not part of it."
  },
  {
   "property": "C95",
   "status": "proved",
   "theorems": [
    "C95_no_use_after_free",
    "C95_freed_once",
    "C95_freed_iff_unreferenced",
    "C95_no_leak",
    "C95_aio_leak",
    "C95_lost_stays_lost",
    "C95_deleted_finished",
    "C95_no_null_at_completion",
    "C95_warning",
    "C95_nref",
    "C95_settled_released",
    "C95_file_safe",
    "C95_careful_file_safe",
    "C95_early_destroy_touched",
    "C95_server_progress",
    "C95_poll_refuted",
    "C95_aio_drop_refuted",
    "C95_reject_refuted",
    "C95_cancel_null_refuted"
   ],
   "note": "tlx is external: counting_ptr deletes at 0, dec_reference does not delete. Clients use only requests they have a pointer to; wait and poll are one step; io_cancel fails; transfer errors are left out. _refuted: executions in which a stronger claim fails."
  },
  {
   "property": "C96",
   "status": "proved",
   "theorems": [
    "C96_offsets",
    "C96_mixed_refuted",
    "C96_complaints",
    "C96_buffers",
    "C96_blocks_inside",
    "C96_no_complaint",
    "C96_complaint",
    "C96_one_size_never_grows",
    "C96_capacity"
   ],
   "note": "C96_one_size_never_grows drops the hypothesis of C65 that the configured size is a multiple of the block size."
  },
  {
   "property": "C97",
   "status": "proved",
   "theorems": [
    "C97_one_call",
    "C97_growth",
    "C97_one_disk_exact",
    "C97_one_disk",
    "C97_manager",
    "C97_totals",
    "C97_used",
    "C97_numbers",
    "C97_remainder",
    "C97_out_of_space_refuted",
    "C97_disjoint_refuted",
    "C97_file_size_refuted",
    "C97_bad_delete_refuted"
   ],
   "note": "Transfers the theorems on AllocModel/ManagerModel (unbounded integers) to the 64-bit code for histories below 2^64."
  },
  {
   "property": "C98",
   "status": "proved",
   "theorems": [
    "C98_exclusive",
    "C98_objects",
    "C98_isolated",
    "C98_read_back",
    "C98_read_succeeds",
    "C98_write_succeeds",
    "C98_large",
    "C98_open",
    "C98_creat",
    "C98_invalid_object",
    "C98_no_handle",
    "C98_set_size",
    "C98_set_size_undefined",
    "C98_direct_size",
    "C98_size",
    "C98_close",
    "C98_alignment_refuted",
    "C98_lock_refuted",
    "C98_keeps_handle_refuted"
   ],
   "note": "The functions of Windows are modelled from their documentation."
  },
  {
   "property": "C99",
   "status": "proved",
   "theorems": [
    "C99_write",
    "C99_verdict",
    "C99_check",
    "C99_again",
    "C99_found",
    "C99_short",
    "C99_unread",
    "C99_ends",
    "C99_default_pattern_refuted",
    "C99_odd_block_refuted",
    "C99_error_refuted"
   ],
   "note": "Sizes that are multiples of four bytes; times are not modelled."
  },
  {
   "property": "C100",
   "status": "proved",
   "theorems": [
    "C100_create",
    "C100_create_all_refuted",
    "C100_disks",
    "C100_disks_undefined",
    "C100_random",
    "C100_random_undefined",
    "C100_random_refused",
    "C100_disks_size_refuted"
   ],
   "note": "Runs without failures; times and printing are not modelled."
  },
  {
   "property": "C101",
   "status": "proved",
   "theorems": [
    "C101_closed_means_written",
    "C101_exception_means_failure",
    "C101_failure_not_silent",
    "C101_nothing_lost",
    "C101_put_ends",
    "C101_read_shape",
    "C101_end_means_all_read",
    "C101_known_records_right",
    "C101_input_destructor",
    "C101_get_ends",
    "C101_roundtrip",
    "C101_use_after_exception_refuted",
    "C101_reported_in_time_refuted"
   ],
   "note": "An output stream is not used after an exception; what happens otherwise is C101_use_after_exception_refuted."
  },
  {
   "property": "C102",
   "status": "proved",
   "theorems": [
    "C102_no_deadlock",
    "C102_no_deadlock_exit",
    "C102_no_deadlock_aio",
    "C102_exclusion",
    "C102_handler_unlocked",
    "C102_holder_goes_on",
    "C102_wanting_waits",
    "C102_aio_handler_refuted",
    "C102_join_refuted",
    "C102_constructor_refuted",
    "C102_cancel_refuted"
   ],
   "note": "About mutexes only. Where an event is waited for with a mutex held: C102_join_refuted, C102_constructor_refuted, C102_cancel_refuted; handler under a mutex: C102_aio_handler_refuted. Non-default exit handlers: everything but run_exit_handlers itself."
  },
  {
   "property": "C103",
   "status": "proved",
   "theorems": [
    "C103_bounded_wait",
    "C103_few_overtake",
    "C103_only_for_others",
    "C103_read_starves_refuted",
    "C103_write_starves_refuted"
   ],
   "note": "Steps are those of the worker, so a bound says nothing about time. Requests that do not go first can starve: C103_read_starves_refuted (priority as configured), C103_write_starves_refuted (priority READ, which the code defines but does not use)."
  },
  {
   "property": "C104",
   "status": "proved",
   "theorems": [
    "C104_protected",
    "C104_statistics",
    "C104_writes",
    "C104_allocator",
    "C104_singleton_refuted",
    "C104_file_refuted",
    "C104_error_refuted",
    "C104_memory_size_refuted",
    "C104_snapshot_refuted",
    "C104_stats_refuted",
    "C104_timer_refuted",
    "C104_device_refuted",
    "C104_fileperblock_refuted",
    "C104_allocator_refuted",
    "C104_control_block_refuted",
    "C104_error_after_wait",
    "C104_wait_any_reads_error_refuted",
    "C104_cancel_reads_file_refuted"
   ],
   "note": "Members that only constructors and destructors write are left out; the C++ memory model beyond data races is not modelled. The members with races have C104_..._refuted theorems with an execution each."
  },
  {
   "property": "C105",
   "status": "proved",
   "theorems": [
    "C105_files",
    "C105_counter_refuted",
    "C105_same_path_refuted",
    "C105_failure_files_refuted",
    "C105_start",
    "C105_failure",
    "C105_again",
    "C105_retry",
    "C105_retry_fresh"
   ],
   "note": "The counter for automatic device ids is assumed not to stand at 2^32-1 when a start that will be repeated begins, as it does in every program that opens no file of its own with the id 2^32-2 before (C105_retry_fresh, C105_counter_refuted). A start that fails because of a configuration file is not among the failures after which the retry is compared. File contents and locks of other processes are outcomes of the attempt."
  },
  {
   "property": "C106",
   "status": "proved",
   "theorems": [
    "C106_deleted",
    "C106_sizes",
    "C106_locks",
    "C106_untouched",
    "C106_devices",
    "C106_blocks_refuted",
    "C106_never_started_refuted",
    "C106_memory_refuted",
    "C106_mmap_device_refuted",
    "C106_failed_device_refuted",
    "C106_size_zero_refuted"
   ],
   "note": "A normal end of the program (exit handlers run, C70). A name is a file: links are not modelled."
  },
  {
   "property": "C107",
   "status": "proved",
   "theorems": [
    "C107_rules",
    "C107_stream_is_writer",
    "C107_written",
    "C107_read_back",
    "C107_served",
    "C107_before_close_refuted"
   ],
   "note": "Puts C88/C91/C101 (streams) and C92 (store) together; an input stream is allowed to read a block after the stream that writes it was closed."
  },
  {
   "property": "C108",
   "status": "proved",
   "theorems": [
    "C108_others",
    "C108_export",
    "C108_returns",
    "C108_throws",
    "C108_last_written",
    "C108_block_gone",
    "C108_own_name_refuted",
    "C108_target_kept_refuted",
    "C108_return_means_exported_refuted",
    "C108_blocks_apart_refuted"
   ],
   "note": "Paths are names; only regular files."
  },
  {
   "property": "C109",
   "status": "proved",
   "theorems": [
    "C109_safe",
    "C109_owned",
    "C109_blocks",
    "C109_disjoint",
    "C109_delete",
    "C109_private",
    "C109_write",
    "C109_none_left",
    "C109_max_size",
    "C109_max_size_safe_refuted",
    "C109_too_many_refuted",
    "C109_second_block_refuted",
    "C109_none_left_refuted"
   ],
   "note": "Heap with 64-bit sizes; extends C52 (one call, unbounded numbers)."
  },
  {
   "property": "C110",
   "status": "proved",
   "theorems": [
    "C110_rules",
    "C110_same",
    "C110_transparent",
    "C110_stored",
    "C110_flushed",
    "C110_private",
    "C110_progress",
    "C110_before_flush_refuted"
   ],
   "note": "Joins the scheduler (C44-C49, BsModel.v) with the store (C92, StoreModel.v)."
  },
  {
   "property": "C111",
   "status": "proved",
   "theorems": [
    "C111_order",
    "C111_reads_coherent",
    "C111_last_write_wins",
    "C111_blocks",
    "C111_flushed",
    "C111_read_returns",
    "C111_write_returns",
    "C111_others_return",
    "C111_not_waiting_refuted"
   ],
   "note": "Joins the pools (C32-C35, PoolModel.v) with the queues (C19-C28): the order of writes that C33 and C34 take from the I/O system is proved here."
  },
  {
   "property": "C112",
   "status": "proved",
   "theorems": [
    "C112_operations",
    "C112_counted",
    "C112_idempotent",
    "C112_copy_refuted",
    "C112_print",
    "C112_print_refuted"
   ],
   "note": "Joins the scoped timer classes with the statistics of C61: C61 takes complete operations, C112 shows that the timers produce them."
  },
  {
   "property": "C113",
   "status": "proved",
   "theorems": [
    "C113_dispatch",
    "C113_usage",
    "C113_status_refuted",
    "C113_name",
    "C113_name_refuted",
    "C113_version",
    "C113_integer",
    "C113_integer_refuted"
   ],
   "note": "What the subtools do is a parameter (C65, C99, C100 treat some of them)."
  },
  {
   "property": "C114",
   "status": "proved",
   "theorems": [
    "C114_dump",
    "C114_complaint",
    "C114_swap",
    "C114_swap_refuted",
    "C114_pop"
   ],
   "note": "Uses C01-C03 for the free list."
  },
  {
   "property": "C115",
   "status": "proved",
   "theorems": [
    "C115_sequential",
    "C115_clients",
    "C115_blocks",
    "C115_completes",
    "C115_impolite_refuted"
   ],
   "note": "That accepted requests are served once is C20 and C21; which bytes a file class transfers is C29-C31 and C74."
  },
  {
   "property": "C116",
   "status": "proved",
   "theorems": [
    "C116_refines",
    "C116_waiting",
    "C116_told",
    "C116_unrestricted",
    "C116_posting_order_refuted"
   ],
   "note": "Composes the queue model (C19-C26) with the transfers of C115; C116_unrestricted shows that the composition restricts no queue. Linux AIO queues are left out."
  },
  {
   "property": "C117",
   "status": "proved",
   "theorems": [
    "C117_can_finish",
    "C117_refines",
    "C117_waiting",
    "C117_told",
    "C117_unrestricted",
    "C117_error_refuted"
   ],
   "note": "Composes the kernel AIO queue of C27 with the transfers of C115; C117_unrestricted shows that the composition restricts neither queue nor kernel. Cancellations of requests in the kernel do not succeed here (C28). C117_error_refuted: errors of the kernel are not reported."
  },
  {
   "property": "C118",
   "status": "proved",
   "theorems": [
    "C118_counts",
    "C118_times",
    "C118_between",
    "C118_undisturbed",
    "C118_data",
    "C118_reports",
    "C118_report",
    "C118_constructors",
    "C118_elapsed_refuted",
    "C118_torn_refuted",
    "C118_io_at_least_read_refuted"
   ],
   "note": "The readings are data races in the sense of the C++ standard (C104); here each reads the current value. Refutations: C118_elapsed_refuted (difference shows more parallel time than elapsed), C118_torn_refuted, C118_io_at_least_read_refuted."
  },
  {
   "property": "C119",
   "status": "proved",
   "theorems": [
    "C119_refines",
    "C119_reads_last_written",
    "C119_told",
    "C119_waited_read",
    "C119_round_trip",
    "C119_succeed",
    "C119_unrestricted",
    "C119_rules_needed_refuted"
   ],
   "note": "Composition of StoreModel (C92) with QueueModel (C20 to C26). A request is served in one step (C116 shows for byte ranges that clients that wait cannot tell). C119_rules_needed_refuted: without the rules a read delivers the data before the last write."
  },
  {
   "property": "C120",
   "status": "proved",
   "theorems": [
    "C120_error_refuted",
    "C120_rules_needed_refuted",
    "C120_can_finish",
    "C120_must_finish",
    "C120_refines",
    "C120_reads_last_written",
    "C120_told",
    "C120_waited_read",
    "C120_round_trip",
    "C120_succeed",
    "C120_unrestricted"
   ],
   "note": "Composition of StoreModel (C92) with LioModel (C27 to C30). The kernel transfers a block in one step (C117 has single bytes). C120_error_refuted: an error of the kernel is not noticed by who waits. C120_rules_needed_refuted: without the rules a read delivers the data before the last write. C120_can_finish: at any time the queue and the kernel can finish everything posted without further calls. Cancellations inside the kernel that succeed are left out (C28 shows that they break the queue)."
  },
  {
   "property": "C121",
   "status": "proved",
   "theorems": [
    "C121_representation",
    "C121_little_endian",
    "C121_memcmp_refuted",
    "C121_elements",
    "C121_limits",
    "C121_print"
   ],
   "note": "Little-endian machine. C121_memcmp_refuted: comparing the bytes is not the numeric order. digits10, is_modulo and others are not declared by the code."
  },
  {
   "property": "C122",
   "status": "proved",
   "theorems": [
    "C122_reported",
    "C122_not_lost",
    "C122_tried_again",
    "C122_serve_ends",
    "C122_all_posted",
    "C122_all_moved",
    "C122_end_of_file_refuted",
    "C122_code_shown_refuted",
    "C122_interrupted_refuted"
   ],
   "note": "Calls that succeed, logging and building the message are taken to leave errno alone. C122_end_of_file_refuted, C122_code_shown_refuted and C122_interrupted_refuted: where reports mislead or differ. io_setup, io_post and io_wait may repeat as long as the system asks for it; only the transfer loop is shown to end (C122_serve_ends)."
  }
 ]
}