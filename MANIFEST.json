{
 "claims": [
  {
   "property": "C01",
   "status": "proved",
   "theorems": [
    "C01_heap_is_a_bag",
    "C01_heap_sorts"
   ],
   "note": "Heap refines a bag; heapq modelled on arrays and proved."
  },
  {
   "property": "C02",
   "status": "partial",
   "theorems": [
    "C02_setheap_is_a_set_partial",
    "C02_setheap_duplicates_refuted",
    "C02_setheap_pop_item_refuted",
    "C02_setheap_filter_map_refuted",
    "C02_full_statement_refuted"
   ],
   "note": "The full statement is false of the code (duplicates in the constructor, pop_item and filter_map leave the set stale); proved for sessions without those calls."
  },
  {
   "property": "C03",
   "status": "partial",
   "theorems": [
    "C03_time_heap_is_a_bag_partial",
    "C03_get_timestamp_refuted",
    "C03_copy_refuted",
    "C03_full_statement_refuted"
   ],
   "note": "False of the code for get_timestamp and copy (see the refuted theorems); proved for sessions of the other calls."
  },
  {
   "property": "C04",
   "status": "partial",
   "theorems": [
    "C04_time_set_heap_is_a_map_partial",
    "C04_remove_refuted",
    "C04_copy_refuted",
    "C04_full_statement_refuted"
   ],
   "note": "False of the code for remove and copy (see the refuted theorems); proved for sessions of the other calls."
  },
  {
   "property": "C05",
   "status": "proved",
   "theorems": [
    "C05_sorted_list_is_sorted_and_complete"
   ],
   "note": "All call sequences, any key function."
  },
  {
   "property": "C06",
   "status": "partial",
   "theorems": [
    "C06_ranking_positions_partial",
    "C06_stale_position_refuted",
    "C06_full_statement_refuted"
   ],
   "note": "False of the code: a removed object keeps its last position in calculate_ranking_for. Proved for sessions that only ask about ranked objects."
  },
  {
   "property": "C07",
   "status": "partial",
   "theorems": [
    "C07_capacity_never_exceeded",
    "C07_evicts_least_recently_used_partial",
    "C07_fresh_partial",
    "C07_overwrite_evicts_refuted",
    "C07_feed_is_not_a_use_refuted",
    "C07_full_statement_refuted"
   ],
   "note": "Capacity and termination hold for all sessions. The LRU order is false of the code for feed and for overwriting a key of a full cache; proved for sessions without feed and with the eviction on overwriting written into the policy. C07_fresh_partial adds which answers are served, refreshed, remembered or asked for (under C08's conditions)."
  },
  {
   "property": "C08",
   "status": "partial",
   "theorems": [
    "C08_cache_dict_answers_partial",
    "C08_served_values_are_fresh_partial",
    "C08_feed_after_miss_refuted",
    "C08_invalidate_miss_refuted",
    "C08_has_info_refuted",
    "C08_feed_timestamp_zero_refuted",
    "C08_custom_clock_refuted",
    "C08_full_statement_refuted"
   ],
   "note": "False of the code when a key with a remembered failure is fed, invalidated or asked about, for feed with timestamp 0 and for a time_getter other than time.monotonic. Proved for all other sessions, background refreshes completing in any order."
  },
  {
   "property": "C09",
   "status": "partial",
   "theorems": [
    "C09_expiring_dict_partial",
    "C09_in_raises_refuted",
    "C09_len_raises_refuted",
    "C09_delete_missing_refuted",
    "C09_get_timestamp_refuted",
    "C09_full_statement_refuted"
   ],
   "note": "False of the code: `in` and len() raise on expired entries, deleting a missing key does not raise and get_timestamp is wrong (see the refuted theorems). Proved for sessions without those situations."
  },
  {
   "property": "C10",
   "status": "partial",
   "theorems": [
    "C10_writeback_cache_is_a_dict_partial",
    "C10_reordered_writes_refuted",
    "C10_deleted_key_read_refuted",
    "C10_full_statement_refuted"
   ],
   "note": "False of the code for executors that reorder jobs. Proved for executors that run the jobs in the order of submission."
  },
  {
   "property": "C11",
   "status": "partial",
   "theorems": [
    "C11_two_way_dictionary_partial",
    "C11_views_are_inverse",
    "C11_reassign_refuted",
    "C11_done_raises_refuted",
    "C11_full_statement_refuted"
   ],
   "note": "False of the code in two places: assigning a key the value it already has raises ValueError, and done() (so leaving the with block) raises AttributeError. Proved for all sessions with these two deviations written into the specification; that the two views stay inverse is proved outright."
  },
  {
   "property": "C12",
   "status": "proved",
   "theorems": [
    "C12_dirty_iff_changed"
   ],
   "note": "All sessions."
  },
  {
   "property": "C13",
   "status": "partial",
   "theorems": [
    "C13_dictionary_view_partial",
    "C13_copy_refuted",
    "C13_full_statement_refuted"
   ],
   "note": "False of the code for copies, which forget both options. Proved for sessions without copy."
  },
  {
   "property": "C14",
   "status": "partial",
   "theorems": [
    "C14_sparse_matrix_partial",
    "C14_delete_last_cell_refuted",
    "C14_bool_refuted",
    "C14_delete_absent_row_refuted",
    "C14_before_start_refuted",
    "C14_max_refuted",
    "C14_full_statement_refuted"
   ],
   "note": "False of the code: deleting the last cell raises, bool() is inverted, delete_row of an absent row leaves an empty row, an index before the start is stored, max()/min() need a value in the corner. Proved for every session up to the first such call."
  },
  {
   "property": "C15",
   "status": "partial",
   "theorems": [
    "C15_nothing_is_lost",
    "C15_series_partial",
    "C15_really",
    "C15_archive_refuted",
    "C15_sync_request_raises_refuted",
    "C15_too_many_entries_refuted",
    "C15_wrong_entries_refuted",
    "C15_key_zero_refuted",
    "C15_full_statement_refuted"
   ],
   "note": "Acceptance, order and retention are proved for all sessions (C15_nothing_is_lost; the effects in C15_series_partial hold without restriction). The answers of get_archive and on_sync_request are false of the code in the situations refuted; proved outside of them, and C15_really says what is answered in every situation (unless a restart lost entries)."
  },
  {
   "property": "C16",
   "status": "partial",
   "theorems": [
    "C16_never_twice",
    "C16_from_many_threads",
    "C16_allocator_partial",
    "C16_limit_exceeded_refuted",
    "C16_below_zero_refuted",
    "C16_limit_zero_refuted",
    "C16_full_statement_refuted"
   ],
   "note": "Uniqueness, freeing and >= start_at are proved for every start_at and top_limit. The clauses about top_limit are proved without a limit or with start_at = 0 and top_limit <> 0, and refuted otherwise (top_limit is compared with an offset; 0 means no limit)."
  },
  {
   "property": "C17",
   "status": "proved",
   "theorems": [
    "C17_from_many_threads",
    "C17_strictly_increasing",
    "C17_next_identifier"
   ],
   "note": ""
  },
  {
   "property": "C18",
   "status": "partial",
   "theorems": [
    "C18_dict_deleter",
    "C18_list_forward",
    "C18_list_backward_partial",
    "C18_list_calls_partial",
    "C18_presented_twice_refuted",
    "C18_prev_wraps_refuted",
    "C18_full_statement_refuted"
   ],
   "note": "DictDeleter and the forward ListDeleter are proved in full, and so is what is removed going backward. Going backward the last element is presented twice (index -1), and prev() from the first element wraps around: refuted."
  },
  {
   "property": "C19",
   "status": "proved",
   "theorems": [
    "C19_group_quantity",
    "C19_variants_agree",
    "C19_iterator_is_lazy",
    "C19_not_positive_diverges"
   ],
   "note": "The cut is unique, so both variants give the same groups. For a length that is not positive (outside of the property) the sequence variant does not end."
  },
  {
   "property": "C20",
   "status": "partial",
   "theorems": [
    "C20_is_last_partial",
    "C20_add_next",
    "C20_half_cartesian",
    "C20_half_cartesian_of_iterator",
    "C20_filters",
    "C20_index_of",
    "C20_index_of_max",
    "C20_make_list",
    "C20_infinite_iterator",
    "C20_is_last_empty_refuted",
    "C20_full_statement_refuted"
   ],
   "note": "All helpers proved for all inputs, but is_last of an empty input, which raises RuntimeError instead of yielding nothing (refuted)."
  },
  {
   "property": "C21",
   "status": "partial",
   "theorems": [
    "C21_even",
    "C21_odd",
    "C21_unique",
    "C21_count",
    "C21_enumerate2",
    "C21_smart_enumerate",
    "C21_infinite_counter",
    "C21_append_sequence",
    "C21_to_iterator",
    "C21_length",
    "C21_iter_dict_of_list",
    "C21_is_empty",
    "C21_n_th",
    "C21_take_n_partial",
    "C21_skip_first_partial",
    "C21_stop_after_partial",
    "C21_no_longer_than",
    "C21_shift_partial",
    "C21_shift_too_far",
    "C21_zip_shifted_partial",
    "C21_smart_zip",
    "C21_f_range",
    "C21_f_range_arguments",
    "C21_iterate_callable",
    "C21_skip_first_short_refuted",
    "C21_stop_after_short_refuted",
    "C21_take_n_short_refuted",
    "C21_zip_shifted_none_refuted",
    "C21_full_statement_refuted"
   ],
   "note": "All proved, with how much of the source is read; refuted for sources shorter than asked for: skip_first and stop_after raise RuntimeError, take_n raises StopIteration, shift raises StopIteration, zip_shifted returns None."
  },
  {
   "property": "C51",
   "status": "partial",
   "theorems": [
    "C51_choose_first",
    "C51_choose_one",
    "C51_choose_with_index",
    "C51_exhausts_partial",
    "C51_exhausts_refuted",
    "C51_full_statement_refuted"
   ],
   "note": "All proved but exhaustion of the iterable, which does not happen when choose_one raises for a second match (refuted)."
  },
  {
   "property": "C22",
   "status": "partial",
   "theorems": [
    "C22_merge_list",
    "C22_merge_series_partial",
    "C22_series_ahead_refuted",
    "C22_empty_series_refuted",
    "C22_full_statement_refuted"
   ],
   "note": "merge_list is proved in full (values comparable; heap tuples compare them on ties). merge_series is proved for series none of which has two elements before every other has started; otherwise it may raise ValueError (refuted). An empty series gives an empty result where ValueError is documented (refuted)."
  },
  {
   "property": "C23",
   "status": "proved",
   "theorems": [
    "C23_clip",
    "C23_percentile_interpolates",
    "C23_percentile_single",
    "C23_percentile_bounds",
    "C23_percentile_monotone",
    "C23_interpolate",
    "C23_interpolate_stored",
    "C23_interpolate_between_neighbours",
    "C23_pad",
    "C23_is_subset",
    "C23_indices",
    "C23_words",
    "C23_split_shuffle",
    "C23_unpack",
    "C23_unpack_missing",
    "C23_one_tuple",
    "C23_none_if_false"
   ],
   "note": "Over rationals: float rounding is not modelled. percentile for sorted non-empty lists and percent in [0,1], linear_interpolate for sorted non-empty series (both documented). A KeyError raised by map_through of unpack_dict is taken for a missing key (example in the theorem file)."
  },
  {
   "property": "C24",
   "status": "partial",
   "theorems": [
    "C24_merge_dicts",
    "C24_join_keys",
    "C24_last_leaf_wins",
    "C24_provide_partial",
    "C24_history_partial",
    "C24_no_statics",
    "C24_optional",
    "C24_second_call_refuted",
    "C24_full_statement_refuted"
   ],
   "note": "Proved over a memory of dictionaries and lists for all nestings of sources and configurations: the first call with StaticSources that share no objects, and any history of calls of sources without StaticSource. Refuted for a second call with StaticSources: merge_dicts puts the objects of the first source into the result and then changes them, so lists of a StaticSource grow with every provide(). Not modelled: parsing of formats, files and environment (a source that makes a new object or fails), load_source_from_dict."
  },
  {
   "property": "C25",
   "status": "partial",
   "theorems": [
    "C25_dict_accepts",
    "C25_dict_outcome",
    "C25_union",
    "C25_union_refuses",
    "C25_list_partial",
    "C25_list_error_partial",
    "C25_list_refuses",
    "C25_again_partial",
    "C25_refusals_partial",
    "C25_fuel",
    "C25_full_statement_refuted",
    "C25_list_second_time_refuted",
    "C25_checker_second_time_refuted",
    "C25_list_of_union_refuted",
    "C25_regexp_refuted"
   ],
   "note": "Dict and Union proved in full in terms of what their nested descriptors answer. Descriptors have state: a checker that refuses a value is dropped from its CallableGroup, so List() takes a string the second time it is asked (refuted, also within one List of Unions); proved for histories in which no checker refused before. That the input is not modified is C122_input_kept, in a model with mutable lists and dictionaries."
  },
  {
   "property": "C26",
   "status": "partial",
   "theorems": [
    "C26_backoff_partial",
    "C26_launch",
    "C26_launch_raises",
    "C26_wait_returns",
    "C26_wait_raises",
    "C26_full_statement_refuted",
    "C26_first_wait_above_limit_refuted",
    "C26_available_refuted",
    "C26_wait_timeout_refuted"
   ],
   "note": "Proved for 0 < start <= limit and clocks that do not go back; the next check is due when strictly more than the wait has passed. Refuted: the first wait is not capped by limit; wait_until_available waits past its timeout and then raises although the service can be checked; the documented example of `available` fails."
  },
  {
   "property": "C27",
   "status": "partial",
   "theorems": [
    "C27_stopwatch_partial",
    "C27_forgetful_stopwatch_partial",
    "C27_remaining",
    "C27_decorated",
    "C27_full_statement_refuted",
    "C27_resume_refuted",
    "C27_stopped_refuted"
   ],
   "note": "Proved for all sessions (no assumption on the clock) that do not start a counter which has already measured something: start() after stop() loses what was measured instead of resuming (refuted), and for those too with this written into the specification. `stopped` is wrong with stop_on_stop=False (refuted)."
  },
  {
   "property": "C28",
   "status": "partial",
   "theorems": [
    "C28_number_and_unit_partial",
    "C28_understood_units",
    "C28_plain_number",
    "C28_number",
    "C28_full_statement_refuted",
    "C28_plural_refuted"
   ],
   "note": "For every float(). Proved for units spelled s, sec, second(s), m, min, minute, h, hour, d, day, w, week; refuted for minutes, hours, days, weeks, since the s in them is taken for seconds."
  },
  {
   "property": "C29",
   "status": "partial",
   "theorems": [
    "C29_reads_the_window_partial",
    "C29_offset",
    "C29_nothing_lost",
    "C29_full_statement_refuted",
    "C29_offset_without_length_refuted",
    "C29_length_too_large_refuted",
    "C29_empty_window_refuted"
   ],
   "note": "Proved for all sessions with any number of nested parsers over a window that is not empty and lies within the stream (or all of it), amounts not negative. Refuted: an offset without length and a length past the end of the stream (reads return too few bytes instead of raising), get_parser(0) (a window that exceeds the parent's)."
  },
  {
   "property": "C30",
   "status": "partial",
   "theorems": [
    "C30_session_partial",
    "C30_call_partial",
    "C30_exception_loses_the_rest",
    "C30_no_often_apart",
    "C30_no_often_due",
    "C30_full_statement_refuted",
    "C30_all_cancelled_refuted",
    "C30_has_cancelled_refuted",
    "C30_exception_unregisters_refuted",
    "C30_order_after_reentrant_add_refuted",
    "C30_added_twice_refuted",
    "C30_no_often_first_refuted"
   ],
   "note": "Proved for all histories of add/cancel/call in which exceptions are swallowed or do not happen, functions may cancel but not add, and a group that is called has a live callback or none. Refuted: with all callbacks cancelled the results hold a None each (has_cancelled_callbacks answers the opposite); an exception that is not swallowed unregisters the callback and all after it (proved in general); a function added from a callback comes before that callback; the same function added twice is called twice; CallNoOftenThan never calls within the interval from the clock's zero."
  },
  {
   "property": "C31",
   "status": "partial",
   "theorems": [
    "C31_future_partial",
    "C31_wrapping_partial",
    "C31_completed_once",
    "C31_collection_result",
    "C31_collection_result_raises",
    "C31_collection_exception_none",
    "C31_collection_exception_first",
    "C31_collection_set_partial",
    "C31_collection_cancel_partial",
    "C31_collection_cancel_stops",
    "C31_collection_running_partial",
    "C31_collection_running_stops",
    "C31_full_statement_refuted",
    "C31_recover_refuted",
    "C31_seen_too_early_refuted",
    "C31_set_twice_refuted",
    "C31_cancel_inside_refuted",
    "C31_cancel_calls_no_pre_refuted",
    "C31_success_of_cancelled_refuted",
    "C31_wrapped_cancelled_refuted",
    "C31_wrapping_cancel_refuted",
    "C31_collection_cancel_refuted",
    "C31_collection_running_refuted"
   ],
   "note": "Proved for all histories in which callbacks neither cancel the future nor replace an exception with a result, no other thread touches it while they run, and cancelling meets no pre-done or on_success callbacks; completion at most once after set_result returned holds without these. Refuted: an exception can not be replaced; another thread sees the result before the callbacks changed it, or sets it again unrefused; cancelling from a callback calls done callbacks twice; cancel() calls no pre-done callbacks but does call on_success; a WrappingFuture whose source is cancelled never calls its done callbacks; FutureCollection.cancel/set_running stop at the first refusal/success."
  },
  {
   "property": "C32",
   "status": "partial",
   "theorems": [
    "C32_atomic_partial",
    "C32_additions_add_up",
    "C32_full_statement_refuted",
    "C32_no_remainder_refuted",
    "C32_operand_itself_refuted",
    "C32_two_numbers_refuted"
   ],
   "note": "Proved for all programs, threads and schedules over int operands. Refuted: % is not supported although the number is to be treated like a normal one; an operand that is the number itself deadlocks the thread; a == b against b == a deadlocks two threads."
  },
  {
   "property": "C33",
   "status": "proved",
   "theorems": [
    "C33_admitted_once",
    "C33_serial",
    "C33_can_finish"
   ],
   "note": "For every number of threads, programs, schedule and moment."
  },
  {
   "property": "C54",
   "status": "proved",
   "theorems": [
    "C54_synchronized_methods_are_serial",
    "C54_one_thread_inside",
    "C54_can_finish"
   ],
   "note": "For every protected object and bodies cut into steps in any way."
  },
  {
   "property": "C34",
   "status": "partial",
   "theorems": [
    "C34_fifo",
    "C34_order",
    "C34_gives_up_only_when_empty",
    "C34_timed_calls_can_finish",
    "C34_nobody_sleeps_partial",
    "C34_full_statement_refuted",
    "C34_lost_wakeup_refuted",
    "C34_peek_takes_the_wakeup_refuted",
    "C34_expired_takes_the_wakeup_refuted",
    "C34_resource_locked_refuted"
   ],
   "note": "FIFO order, no loss and no duplication proved for all programs, threads and schedules; waking up proved for gets without timeout when nobody runs between the release of the lock and the wait. Refuted: a put in that window is not noticed and the consumer sleeps for good; peek, or a get whose time is just over, takes the wakeup of another; get(timeout) may raise ResourceLocked."
  },
  {
   "property": "C35",
   "status": "partial",
   "theorems": [
    "C35_one_at_a_time",
    "C35_blocks_are_serial",
    "C35_can_finish",
    "C35_outside_raises_partial",
    "C35_inside_works_partial",
    "C35_full_statement_refuted",
    "C35_inside_works_refuted",
    "C35_fails_with_ResourceLocked_refuted",
    "C35_outside_access_refuted",
    "C35_inside_refuted",
    "C35_would_wait_refuted",
    "C35_arguments_stay_refuted",
    "C35_arguments_mixed_refuted"
   ],
   "note": "Mutual exclusion, seriality of blocks and absence of deadlock for every schedule. Refuted: the flag that accesses check belongs to the object and not to the thread, so an access without the lock succeeds while anybody else is inside; the flag is cleared after the release, so a thread inside can get ResourceNotLocked; a failed acquisition raises WouldWaitMore; the arguments of one with block are used by later ones."
  },
  {
   "property": "C36",
   "status": "partial",
   "theorems": [
    "C36_returns_a_value_of_the_function",
    "C36_evaluated_once",
    "C36_can_finish",
    "C36_full_statement_refuted",
    "C36_runs_twice_refuted"
   ],
   "note": "For every number of threads and schedule a returned value is one of an evaluation on the same positional arguments (for cache_memoize not older than the duration); calls that do not overlap evaluate once per arguments and window. Refuted: keyword arguments are not part of the key (documented for memoize only), and the function runs in several threads at once although memoize's docstring denies it."
  },
  {
   "property": "C37",
   "status": "partial",
   "theorems": [
    "C37_retry_partial",
    "C37_unlimited_partial",
    "C37_unlimited_goes_on_partial",
    "C37_at_most_times",
    "C37_failures_are_calls",
    "C37_full_statement_refuted",
    "C37_zero_times_refuted",
    "C37_success_callback_refuted",
    "C37_between_without_retry_refuted"
   ],
   "note": "Proved for every outcome sequence, every positive or absent times and callbacks that do not raise; the bound on the number of calls also for callbacks that raise. Refuted: times=0 is an UnboundLocalError; a listed exception raised by call_on_success makes the successful function run again; call_between_retries is called after the last failure too."
  },
  {
   "property": "C38",
   "status": "partial",
   "theorems": [
    "C38_raises_exception",
    "C38_catch_exception",
    "C38_reraise_as_block",
    "C38_rethrow_as_block",
    "C38_log_exceptions_block",
    "C38_reraise_as_decorator_partial",
    "C38_log_exceptions_decorator_partial",
    "C38_rethrow_as_decorator_partial",
    "C38_silence_excs_partial",
    "C38_rethrow_as_arguments",
    "C38_full_statement_refuted",
    "C38_recursion_refuted",
    "C38_base_exception_refuted",
    "C38_reraise_as_decorator_refuted"
   ],
   "note": "For every exception type and isinstance relation. Refuted: a recursive function decorated with rethrow_as or silence_excs returns None from the outer call when an inner one was silenced; as decorators reraise_as and log_exceptions ignore listed classes that do not derive from Exception. Generator functions under log_exceptions and the formatting of the message are not modelled."
  },
  {
   "property": "C39",
   "status": "partial",
   "theorems": [
    "C39_accounted",
    "C39_one_place",
    "C39_never_again",
    "C39_recycled",
    "C39_idle_usable",
    "C39_idle_bounded",
    "C39_no_key_error",
    "C39_invalidated",
    "C39_closed",
    "C39_can_finish_partial",
    "C39_full_statement_refuted",
    "C39_invalidate_deadlock_refuted",
    "C39_can_finish_refuted",
    "C39_zero_spins_refuted",
    "C39_release_after_close_refuted",
    "C39_returned_close_refuted",
    "C39_number_refuted"
   ],
   "note": "For every number of threads, program and interleaving: each connection is in exactly one place, is torn down at most once and never handed out afterwards, is handed out at most max_cycle_no times, never after being failed; at most max_number are idle; invalidate and close leave nothing idle at the moment they return. False of the code: invalidate can deadlock the pool; a connection released after close is never torn down; a close that returns while another is starting does not stop acquisitions; max_number does not bound the number of leased connections; max_number<=0 spins forever."
  },
  {
   "property": "C46",
   "status": "partial",
   "theorems": [
    "C46_one_thread",
    "C46_cleanups",
    "C46_not_initialised",
    "C46_at_least_once",
    "C46_at_most_once_partial",
    "C46_full_statement_refuted",
    "C46_twice_refuted",
    "C46_no_runtime_error_refuted"
   ],
   "note": "In one thread exactly the first close() is told to clean up, whatever the sequence; with any number of threads the cleanup has run once any close() has returned, and runs at most once if close() calls do not overlap. Two overlapping calls can both be told to clean up, and the documented RuntimeError for an object not initialised is not raised."
  },
  {
   "property": "C48",
   "status": "partial",
   "theorems": [
    "C48_only_values_given",
    "C48_set_wakes_everybody",
    "C48_one_setter_partial",
    "C48_undisturbed_partial",
    "C48_full_statement_refuted",
    "C48_set_twice_refuted"
   ],
   "note": "For every schedule a returned value is one that was given, and after a set_value nobody waits for ever. Set once and one value for everybody: proved when set_value is called once in all, or when nobody moves between its check and its write; false otherwise (two calls of set_value can both succeed)."
  },
  {
   "property": "C49",
   "status": "partial",
   "theorems": [
    "C49_cleanup_exactly_once",
    "C49_never_twice",
    "C49_no_loop_once_seen",
    "C49_one_more_loop_at_most",
    "C49_ends_soon",
    "C49_how_it_ends",
    "C49_interval_timely",
    "C49_safe_wait",
    "C49_safe_sleep",
    "C49_pieces",
    "C49_forced_refuted",
    "C49_forced_early_refuted",
    "C49_system_exit_refuted",
    "C49_overrun_refuted",
    "C49_zero_timeout_refuted",
    "C49_zero_wake_refuted"
   ],
   "note": "Everything about calls, cleanup and termination is proved for every interleaving; refuted: a thread ended by SystemExit is not marked as terminating although SystemExit is said to be added to terminate_on, terminate_on is not applied to on_overrun(), safe_wait_condition(timeout=0) looks at nothing and wake_up_each=0 never ends; forced termination may skip cleanup (as documented)."
  },
  {
   "property": "C56",
   "status": "partial",
   "theorems": [
    "C56_called_once",
    "C56_future_resolved_partial",
    "C56_full_statement_refuted",
    "C56_never_resolved_refuted"
   ],
   "note": "Proved for functions that return or raise subclasses of Exception; a function that raises SystemExit or the like leaves the future running for ever."
  },
  {
   "property": "C50",
   "status": "partial",
   "theorems": [
    "C50_unchanged_partial",
    "C50_writes_raise",
    "C50_equal_hashes",
    "C50_full_statement_refuted",
    "C50_inherited_refuted"
   ],
   "note": "Equal frozendicts hash equal in any order; __setitem__ and update raise. del, pop, popitem, clear, setdefault and |= are inherited from dict and change it (and its hash)."
  },
  {
   "property": "C57",
   "status": "partial",
   "theorems": [
    "C57_unchanged_partial",
    "C57_full_statement_refuted"
   ],
   "note": "Proved except for an assignment to the attribute that holds the flag, which __setattr__ lets through."
  },
  {
   "property": "C58",
   "status": "proved",
   "theorems": [
    "C58_equivalence",
    "C58_not_equal",
    "C58_equal_hashes",
    "C58_meaning"
   ],
   "note": "For every class hierarchy and every equality of values that is an equivalence."
  },
  {
   "property": "C47",
   "status": "partial",
   "theorems": [
    "C47_list_wrapper_partial",
    "C47_list_answers_partial",
    "C47_full_statement_refuted",
    "C47_from_the_end_refuted",
    "C47_in_moves_refuted",
    "C47_second_iteration_refuted",
    "C47_push_iterable",
    "C47_subqueue_fifo",
    "C47_subqueue",
    "C47_rolling_average",
    "C47_no_window",
    "C47_already_seen_partial",
    "C47_seen_full_statement_refuted",
    "C47_mixture_refuted"
   ],
   "note": "PushIterable, Subqueue (one thread) and RollingArithmeticAverage (n >= 1, whole numbers) are proved in full. ListWrapperIterator answers as the list, taking only what is needed, but not for negative indices and slices without a stop before its end was met (refuted); 'in' moves the iteration and a second iteration yields nothing (refuted). AlreadySeen raises on mixtures of hashable and unhashable elements (refuted)."
  },
  {
   "property": "C44",
   "status": "proved",
   "theorems": [
    "C44_first_free",
    "C44_ends",
    "C44_parts"
   ],
   "note": "On POSIX paths; the name is the first free one, and finitely many existing files make it end."
  },
  {
   "property": "C45",
   "status": "partial",
   "theorems": [
    "C45_content_partial",
    "C45_other_files",
    "C45_full_statement_refuted",
    "C45_unreadable_refuted",
    "C45_content_lost_refuted"
   ],
   "note": "Proved for a file that is absent or readable, writable and decodable; other files are untouched at every crash point. A content that cannot be decoded or read raises instead of being replaced; data that cannot be encoded, and a crash, leave the file truncated."
  },
  {
   "property": "C59",
   "status": "partial",
   "theorems": [
    "C59_relative_partial",
    "C59_round_trip_partial",
    "C59_deterministic",
    "C59_absolute_refuted",
    "C59_full_statement_refuted",
    "C59_double_refuted"
   ],
   "note": "Proved for relative paths (up to repeated slashes); split of an absolute path never ends."
  },
  {
   "property": "C60",
   "status": "partial",
   "theorems": [
    "C60_by_name_partial",
    "C60_no_subdirectories_partial",
    "C60_full_statement_refuted",
    "C60_shallow_full_statement_refuted"
   ],
   "note": "Proved for wildcards applied to names, and for directories without subdirectories; apply_wildcard_to_entire_path is lost in subdirectories, and unscanned subdirectories are yielded as files."
  },
  {
   "property": "C61",
   "status": "partial",
   "theorems": [
    "C61_content",
    "C61_answers",
    "C61_reads_nothing_refuted",
    "C61_reads_full_statement_refuted",
    "C61_modes_refuted"
   ],
   "note": "The content is proved for all histories; reads always yield nothing, modes a+ and ab+ are refused."
  },
  {
   "property": "C40",
   "status": "proved",
   "theorems": [
    "C40_histogram_exports_exactly",
    "C40_one_bucket",
    "C40_buckets_sum",
    "C40_negative_refuted"
   ],
   "note": "For every history, with or without labels, the exported data are exactly: every bucket with the number of observations in it, their count and sum, per set of labels and in total. Integers instead of floats. Findings: negative observations are in no bucket (they are in count and sum); the code exports the upper end as label ge and the lower end as label le, the wrong way round."
  },
  {
   "property": "C41",
   "status": "partial",
   "theorems": [
    "C41_counter_exports_exactly",
    "C41_summary_exports_exactly_partial",
    "C41_summary_handle_succeeds",
    "C41_cps_exports_exactly_partial",
    "C41_linkfail_callbacks_partial",
    "C41_linkfail_exports_partial",
    "C41_summary_zero_refuted",
    "C41_summary_mixed_refuted",
    "C41_cps_full_statement_refuted",
    "C41_cps_mixed_refuted",
    "C41_linkfail_status_full_statement_refuted",
    "C41_linkfail_status_refuted",
    "C41_linkfail_labelled_refuted",
    "C41_linkfail_labelled_callbacks",
    "C41_linkfail_labelled_exports_refuted"
   ],
   "note": "Counter: full. Summary: for last_calls other than 0, where every handle raises IndexError; after a labelled observation the unlabelled ones are in no quantile. CPS: when the clock advanced since the last handle; refuted for equal readings; unlabelled clicks are lost once there are labelled ones. Linkfail: full for unlabelled use apart from .status, which is shared by all addresses; labelled data are never exported and their callbacks get address 0, but each set of labels goes offline and online as documented (C41_linkfail_labelled_callbacks)."
  },
  {
   "property": "C42",
   "status": "partial",
   "theorems": [
    "C42_union_partial",
    "C42_datum_partial",
    "C42_set_value",
    "C42_set_timestamp",
    "C42_prefix",
    "C42_postfix",
    "C42_add_labels",
    "C42_new_labels_win",
    "C42_names",
    "C42_remove_internals",
    "C42_strict_eq",
    "C42_json",
    "C42_from_json",
    "C42_to_json_quiet",
    "C42_stale_hash_refuted",
    "C42_full_statement_refuted",
    "C42_shared_refuted",
    "C42_json_reserved_refuted"
   ],
   "note": "Union, addition of a datum, and every other operation are exact for collections none of whose elements were renamed after they were added; JSON round-trips for labels avoiding the reserved names. False in general: prefix_with/postfix_with leave the elements under their old hashes, so a later addition keeps two data with the same name and labels (proved for every hash function that tells the two names apart), and a + b shares its elements with a, so renaming the sum renames a."
  },
  {
   "property": "C43",
   "status": "partial",
   "theorems": [
    "C43_level",
    "C43_handle",
    "C43_same_metric",
    "C43_wrong_type_changes_nothing",
    "C43_ancestors",
    "C43_children",
    "C43_export",
    "C43_export_complete",
    "C43_export_sound_partial",
    "C43_reset",
    "C43_full_statement_refuted",
    "C43_reset_leaves_a_copy_refuted",
    "C43_below_a_leaf_refuted",
    "C43_root_type_refuted",
    "C43_disabled_exported_refuted",
    "C43_reset_of_empty_part_refuted",
    "C43_string_type_refuted"
   ],
   "note": "For every history of getMetric, level assignments, handle and reset. The refuted expectations go beyond the property: names with empty parts or resets make two metrics appear under one exported name; a DISABLED metric is exported; a metric below a leaf is registered although getMetric raised."
  },
  {
   "property": "C55",
   "status": "partial",
   "theorems": [
    "C55_returns_when_equal",
    "C55_would_wait_when_not",
    "C55_untimed_raises_nothing",
    "C55_no_deadlock",
    "C55_nobody_oversleeps_partial",
    "C55_waiters_return_partial",
    "C55_lost_wakeup_refuted",
    "C55_silent_operator_refuted",
    "C55_full_statement_refuted",
    "C55_raises_early_refuted",
    "C55_resource_locked_refuted"
   ],
   "note": "Proved for every interleaving: returns only when equal, WouldWaitMore only when not equal, no exception without a timeout, no deadlock. The liveness half is false of the code: a notification between the comparison and the wait is lost (the waiter sleeps for ever though the number has its value), operators such as |= do not notify, a timed call raises WouldWaitMore before its time is over when the number changes after it was seen equal, and may raise ResourceLocked. Proved when all changes notify and no store falls between a comparison and the wait after it."
  },
  {
   "property": "C52",
   "status": "partial",
   "theorems": [
    "C52_jsonify_faithful",
    "C52_jsonify_identity",
    "C52_jsonify_serialisable_partial",
    "C52_enum_value_refuted",
    "C52_tuple_key_refuted",
    "C52_full_statement_refuted",
    "C52_keys_collide_refuted",
    "C52_stringify_faithful",
    "C52_stringify_strings",
    "C52_stringify_identity",
    "C52_stringify_flat",
    "C52_elements_refuted"
   ],
   "note": "What is returned stands for the argument, and JSON data comes back as it is, for values of any size. Not every value becomes JSON: the value of an enum is not converted further, a tuple as a key raises TypeError, and two keys that become one lose an entry. Proved for values without these."
  },
  {
   "property": "C53",
   "status": "partial",
   "theorems": [
    "C53_encode_faithful",
    "C53_encode_ends",
    "C53_encode_json_identity",
    "C53_encode_total_partial",
    "C53_enum_key_refuted",
    "C53_enum_key_inside_attribute",
    "C53_tuple_key_refuted",
    "C53_full_statement_refuted",
    "C53_set_contents_lost",
    "C53_unset_slot_refuted",
    "C53_create",
    "C53_to_json",
    "C53_round_trip",
    "C53_equality",
    "C53_hash",
    "C53_classes_refuted",
    "C53_unknown_argument_refuted"
   ],
   "note": "Encoding ends and is faithful for every value; the data-object half is proved in full for objects of one class. 'Encodes everything' is false: dictionaries keyed by enums or tuples raise TypeError, except that enum keys work inside attributes of objects. Equality of data objects of different classes is not symmetric."
  },
  {
   "property": "C62",
   "status": "partial",
   "theorems": [
    "C62_equal_accepted",
    "C62_assert_equal_partial",
    "C62_other_containers_refuted",
    "C62_full_statement_refuted",
    "C62_no_length_refuted",
    "C62_incomparable_refuted",
    "C62_set_reason_refuted"
   ],
   "note": "Equal values are accepted, whatever they are. Refusals match inequality for containers that the function knows and that have the same kind on both sides; refuted beyond those."
  },
  {
   "property": "C63",
   "status": "partial",
   "theorems": [
    "C63_exclusive_partial",
    "C63_exclusive_orderly_partial",
    "C63_acquire_alone",
    "C63_locked_by_the_living",
    "C63_release",
    "C63_no_missing_file_partial",
    "C63_both_clean_up_refuted",
    "C63_half_written_refuted",
    "C63_full_statement_refuted",
    "C63_missing_file_refuted",
    "C63_same_pid_refuted",
    "C63_third_gets_in_refuted"
   ],
   "note": "Mutual exclusion is false under free interleaving: two processes cleaning up after a dead one both get the lock, and so do two when one reads the file that the other has created but not yet written. Proved (1) with crashes and restarts anywhere if no two processes are inside a call at once, (2) under every interleaving if none dies and none reads a half-written file. What acquire() and release() do and what they raise is proved for every state."
  },
  {
   "property": "C64",
   "status": "partial",
   "theorems": [
    "C64_conditions_partial",
    "C64_local_relative_refuted",
    "C64_full_statement_refuted",
    "C64_conditions_total",
    "C64_check",
    "C64_check_documented_partial",
    "C64_check_total",
    "C64_alternation",
    "C64_cancelled_never",
    "C64_level_bound",
    "C64_stopped",
    "C64_registering",
    "C64_raised_partial",
    "C64_dead_forever_refuted",
    "C64_no_maximum_refuted",
    "C64_callbacks_lost_refuted"
   ],
   "note": "Levels, announcements and alternation are proved for every history without exceptions, cancellation for every history. False of the code: LocalRelativeValue(v) fires when more than v per cent are free (proved exactly); an exception in a callback or a condition ends the thread, after which the level never changes. Callbacks that register or cancel others while running are not modelled."
  },
  {
   "property": "C65",
   "status": "partial",
   "theorems": [
    "C65_not_early",
    "C65_once",
    "C65_cancelled",
    "C65_alive_partial",
    "C65_round_partial",
    "C65_all_run_partial",
    "C65_sleeps",
    "C65_sleep_bound",
    "C65_dead_forever",
    "C65_start_raises_refuted",
    "C65_thread_dies_refuted",
    "C65_full_statement_refuted"
   ],
   "note": "Not early, once, not after cancel, sleep bound: for every execution. That start() never raises, the thread survives and every timer runs is proved when no two different timers are due at the same instant, and refuted otherwise: the entries of the heap then compare the Timer objects, which raises TypeError out of start() or kills the background thread so that no timer ever runs again."
  },
  {
   "property": "C66",
   "status": "partial",
   "theorems": [
    "C66_expression_partial",
    "C66_structure_sound_partial",
    "C66_structure_complete_partial",
    "C66_chained_comparison_refuted",
    "C66_keywords_refuted",
    "C66_methods_refuted",
    "C66_structures_refuted",
    "C66_full_statement_refuted"
   ],
   "note": "Proved for every expression written with the operators and methods without arguments, and for structures of lists, tuples and one-entry dicts without strings. Refuted beyond: and/or/not/in and chained comparisons are decided when the expression is made; x.f(5) evaluates x.f at 5; attributes named like a method of predicates; x.inside(c) checks the converse; build_structure keeps the first entry of a dict only, raises UnboundLocalError for an empty dict and RecursionError for any string."
  },
  {
   "property": "C67",
   "status": "partial",
   "theorems": [
    "C67_transparent",
    "C67_for_loop",
    "C67_runs_partial",
    "C67_close_completes",
    "C67_close_twice",
    "C67_close_raises_partial",
    "C67_next_direct",
    "C67_chain_partial",
    "C67_chain_raises_partial",
    "C67_hint",
    "C67_hint_call_partial",
    "C67_runs_again_refuted",
    "C67_type_error_lost_refuted",
    "C67_chain_refuted",
    "C67_hint_call_refuted",
    "C67_full_statement_refuted"
   ],
   "note": "A for loop runs the action exactly once; in general it runs at every next() that reports the end, and not when the end is reported by send(). close() swallows a TypeError of the generator; chain swallows a TypeError and yields the argument itself; a hinted generator function with a length factory raises ValueError when called."
  },
  {
   "property": "C68",
   "status": "partial",
   "theorems": [
    "C68_refines_partial",
    "C68_same_instance_partial",
    "C68_other_instance_partial",
    "C68_init_once_partial",
    "C68_plain_partial",
    "C68_race_refuted",
    "C68_not_constructed_refuted",
    "C68_weak_race_refuted",
    "C68_plain_race_refuted",
    "C68_failed_constructor_refuted",
    "C68_arguments_refuted",
    "C68_full_statement_refuted"
   ],
   "note": "Proved for one thread at a time and constructors that do not raise. Refuted: racing threads get two instances, or one that is not constructed yet; after a failed constructor the next call gets the unconstructed instance; keyword arguments are ignored; delete_singleton_for with all constructor arguments raises KeyError."
  },
  {
   "property": "C69",
   "status": "partial",
   "theorems": [
    "C69_call_rule",
    "C69_get_arguments_partial",
    "C69_missing_is_a_TypeError",
    "C69_only_TypeError",
    "C69_surplus_ignored_partial",
    "C69_call_with_missing",
    "C69_call_with_extra",
    "C69_call_with_partial",
    "C69_round_trip",
    "C69_star_refuted",
    "C69_surplus_refuted",
    "C69_reserved_refuted",
    "C69_call_with_gap_refuted",
    "C69_full_statement_refuted"
   ],
   "note": "The round trip and the error rules are proved for all legal signatures. Refuted: get_arguments(f, a=1) raises for def f(a, *args); surplus positional, unknown and duplicate arguments go unnoticed; keywords called function or special_behaviour are rejected; call_with_arguments with a left-out default passes later values to the wrong parameters."
  },
  {
   "property": "C70",
   "status": "partial",
   "theorems": [
    "C70_called_suits_partial",
    "C70_first_registered_partial",
    "C70_unbindable",
    "C70_unannotated_never_called",
    "C70_register",
    "C70_one_function_per_signature",
    "C70_most_specific_refuted",
    "C70_arity_refuted",
    "C70_unannotated_refuted",
    "C70_full_statement_refuted"
   ],
   "note": "Proved: only suitable functions are called, and the first registered one of them. Refuted: the most specific function is not preferred; functions of different arity cannot be overloaded; unannotated parameters never match."
  },
  {
   "property": "C71",
   "status": "partial",
   "theorems": [
    "C71_for_argument_partial",
    "C71_reserved",
    "C71_transform_arguments_partial",
    "C71_transform_result_partial",
    "C71_transform_result_raises",
    "C71_replace_argument_partial",
    "C71_attach_arguments",
    "C71_precondition_partial",
    "C71_postcondition_partial",
    "C71_passed_by_name_refuted",
    "C71_passed_by_position_refuted",
    "C71_callable_default_refuted",
    "C71_full_statement_refuted",
    "C71_transform_keywords_refuted",
    "C71_predicate_ignored_refuted",
    "C71_falsy_condition_refuted",
    "C71_condition_bypassed_refuted",
    "C71_condition_type_error_refuted",
    "C71_precondition_full_statement_refuted"
   ],
   "note": "Proved for all signatures and calls under the conditions stated. Refuted: for a function without defaults, an operation attached by position fails with AssertionError when the argument is passed by name and one attached by name is skipped when it is passed by position; a callable default is used as an operation; with keyword arguments the transform decorators see argument names instead of values; the predicate of replace_argument_if is never called; a positional condition or a postcondition returning 0 or None passes; a condition attached by name is bypassed by passing by position."
  },
  {
   "property": "C72",
   "status": "partial",
   "theorems": [
    "C72_getattr",
    "C72_does_exist",
    "C72_setattr",
    "C72_delattr",
    "C72_push_up_value",
    "C72_push_up_own",
    "C72_new",
    "C72_enter",
    "C72_get",
    "C72_threads",
    "C72_with_partial",
    "C72_with_fresh",
    "C72_full_statement_refuted",
    "C72_nested_loses_refuted",
    "C72_with_get_refuted",
    "C72_push_up_loses_refuted",
    "C72_push_up_inherited_refuted",
    "C72_push_up_deleted_refuted",
    "C72_name_of_method_refuted"
   ],
   "note": "Resolution, isolation of names and of threads, and entering are proved for all histories. That leaving restores the context is false in full: 'with Context():' looks at the parent of the object given to the with statement, not of the context it entered, so it leaves the thread without a context even when nested; proved for 'with Context(parent=Context.get()):', whatever happens inside. push_up at the top of the stack loses the variable, raises KeyError for an inherited one and pushes the deletion mark of a deleted one; a variable named like a method cannot be read. Warnings and attributes parent, variables, bool being assigned by the user are not modelled."
  },
  {
   "property": "C73",
   "status": "partial",
   "theorems": [
    "C73_done",
    "C73_accounted",
    "C73_only_timed",
    "C73_can_return",
    "C73_stuck_partial",
    "C73_timeout_loses_workers",
    "C73_late_worker_refuted",
    "C73_late_caller_refuted",
    "C73_full_statement_refuted",
    "C73_timeout_refuted",
    "C73_dead_pool_refuted"
   ],
   "note": "Safety is proved for all schedules. Progress is false in full: a worker that goes to sleep after the notification, or a caller that goes to sleep after the last worker counted itself, waits for ever; proved that (without max_wait) these are exactly the stuck states. After a timeout the workers that had started a task sleep for ever, so the pool loses them, all of them in the worst case."
  },
  {
   "property": "C74",
   "status": "partial",
   "theorems": [
    "C74_history",
    "C74_once",
    "C74_cleaners_partial",
    "C74_cleaned_in_the_end_partial",
    "C74_apart_partial",
    "C74_twice_refuted",
    "C74_early_return_refuted",
    "C74_full_statement_refuted"
   ],
   "note": "Proved in full for one thread. With several threads closing the same object the cleanup can run several times (exactly by the threads that check before anybody's mark is made), and close() can return in one thread while another is still cleaning up."
  },
  {
   "property": "C75",
   "status": "partial",
   "theorems": [
    "C75_order",
    "C75_consulted",
    "C75_registered",
    "C75_add_remove",
    "C75_threads",
    "C75_once_partial",
    "C75_former_hook_refuted",
    "C75_callable_twice_refuted",
    "C75_full_statement_refuted"
   ],
   "note": "Order, interception, failures, registration and threads are proved for all histories. 'At most once' fails if the former hook (GlobalExcepthook().old_excepthook) is itself added; proved otherwise. A callable added twice becomes two handlers and runs twice, and cannot be removed by itself."
  },
  {
   "property": "C76",
   "status": "partial",
   "theorems": [
    "C76_calls_partial",
    "C76_reliable",
    "C76_commit_or_rollback_partial",
    "C76_getter_once",
    "C76_commit_fails_refuted",
    "C76_nested_refuted",
    "C76_full_statement_refuted"
   ],
   "note": "Exact log of calls for every body that does not nest the same object, and every failure. The full statement is false: if commit() or rollback() raises, the cursor and the connection are left open (and a failed commit is not rolled back, and a failed rollback hides the exception of the body); if the same object is nested, the outer cursor is never closed and the inner one twice. A getter that is not a plain function (a bound method, a partial) is taken for the connection itself."
  },
  {
   "property": "C77",
   "status": "partial",
   "theorems": [
    "C77_loaded",
    "C77_loaded_iff",
    "C77_asked_once",
    "C77_method",
    "C77_constructor_partial",
    "C77_full_statement_refuted"
   ],
   "note": "Proved for all sequences of calls of one thread. The documented meaning of load_lazy is inverted in the code: it is with False that the constructor asks the database."
  },
  {
   "property": "C78",
   "status": "partial",
   "theorems": [
    "C78_expressions_partial",
    "C78_inplace_partial",
    "C78_compare",
    "C78_shed",
    "C78_wrap_partial",
    "C78_empty",
    "C78_present",
    "C78_empty_tests",
    "C78_optional_equal_partial",
    "C78_full_statement_refuted",
    "C78_mod_refuted",
    "C78_round_refuted",
    "C78_wrap_full_statement_refuted",
    "C78_wrap_and_refuted",
    "C78_wrap_second_refuted",
    "C78_optional_full_statement_refuted",
    "C78_optional_compare_refuted"
   ],
   "note": "For every expression without % and round(x), whatever the operators of the objects do. Refuted: % of a proxy is a TypeError; round(x) is round(x, 0); with wrap_operations & and | are not wrapped, and the proxies that come out have no wrap_operations, so the second of two operations is not; of the comparisons with Optional(None) only == is false (!= is True, < raises TypeError)."
  },
  {
   "property": "C79",
   "status": "partial",
   "theorems": [
    "C79_built_partial",
    "C79_refuses_partial",
    "C79_by_name",
    "C79_full_statement_refuted",
    "C79_too_many_refuted",
    "C79_instance_refuted",
    "C79_callable_refuted",
    "C79_key_error_refuted"
   ],
   "note": "Accepted calls and the tuples they make are characterised exactly for calls with at most as many positional arguments as fields. Refuted: further positional arguments are ignored instead of refused; the result is an instance of the namedtuple below and never of the class called; a constructor that is not a class makes isinstance raise TypeError; a KeyError of a conversion is reported as a missing field."
  },
  {
   "property": "C80",
   "status": "partial",
   "theorems": [
    "C80_add_sub",
    "C80_mul_div",
    "C80_laws",
    "C80_undo_partial",
    "C80_union",
    "C80_len_partial",
    "C80_equal_hashes",
    "C80_hash_stays",
    "C80_not_equal_partial",
    "C80_undo_full_statement_refuted",
    "C80_lengths_refuted",
    "C80_rmul_refuted",
    "C80_len_full_statement_refuted",
    "C80_not_equal_full_statement_refuted"
   ],
   "note": "With exact fractions instead of floats. Refuted: vectors of different lengths lose places silently; 2 * v repeats v; an element of two sets of a SetZip is counted and iterated twice; != of HashableWrappers compares contents, == identities, so two wrappers can be neither equal nor unequal."
  },
  {
   "property": "C81",
   "status": "partial",
   "theorems": [
    "C81_sleep_partial",
    "C81_not_longer",
    "C81_thread_sleep",
    "C81_in_time",
    "C81_overruns",
    "C81_init_partial",
    "C81_sleep_full_statement_refuted",
    "C81_never_ends_refuted",
    "C81_init_full_statement_refuted",
    "C81_time_string_refuted",
    "C81_zero_refuted"
   ],
   "note": "Where and why sleeps end is characterised exactly for check_each > 0 (with 0 it never ends, refuted), the calls of loop() for every list of durations of a thread that is not terminated. Whole milliseconds; loop() does not raise and on_overrun() takes no time. Refuted: a time string for seconds without max_sooner is a TypeError, and max_sooner=0 is taken for the default."
  },
  {
   "property": "C82",
   "status": "partial",
   "theorems": [
    "C82_percentiles_partial",
    "C82_own_usage",
    "C82_memory",
    "C82_since_last",
    "C82_answered",
    "C82_between_partial",
    "C82_used",
    "C82_percentiles_full_statement_refuted",
    "C82_requested_meanwhile_refuted",
    "C82_between_full_statement_refuted",
    "C82_guests_refuted"
   ],
   "note": "For all histories; percentiles when nothing is called during a recalculation, for any percentile function. Refuted: a percentile requested at the wrong moment of a recalculation raises IndexError until the next one; on Linux the time of guests is counted twice, so that the factor can exceed 1."
  },
  {
   "property": "C83",
   "status": "partial",
   "theorems": [
    "C83_construct",
    "C83_construct_waits",
    "C83_execute_waits",
    "C83_construct_ends",
    "C83_execute",
    "C83_execute_ends",
    "C83_launch",
    "C83_execute_all_partial",
    "C83_future_partial",
    "C83_joined",
    "C83_join_bound",
    "C83_no_longer",
    "C83_would_wait_more",
    "C83_join_succeeds",
    "C83_join_fails",
    "C83_start_partial",
    "C83_terminate_partial",
    "C83_collections_apart",
    "C83_added",
    "C83_execute_full_statement_refuted",
    "C83_future_full_statement_refuted",
    "C83_start_full_statement_refuted",
    "C83_terminate_full_statement_refuted"
   ],
   "note": "For every schedule. Refuted: parallel_execute stops at a call that ends with something that is not an Exception; the future of a run_as_future function that calls sys.exit() never gets set; start() stops at a thread that was started (or is in the collection twice), and terminate() at one that raises something else than AttributeError. Opentracing spans are not modelled."
  },
  {
   "property": "C84",
   "status": "partial",
   "theorems": [
    "C84_programs_partial",
    "C84_no_new_failures_partial",
    "C84_after_session",
    "C84_items",
    "C84_iteration",
    "C84_once",
    "C84_argument_partial",
    "C84_sessions",
    "C84_threads",
    "C84_full_statement_refuted",
    "C84_right_operand_refuted",
    "C84_not_equal_refuted",
    "C84_alias_refuted",
    "C84_argument_full_statement_refuted",
    "C84_enabled_full_statement_refuted"
   ],
   "note": "Proved for programs without != that make no second name of a TaintedObject changed in place (or have no in-place operators). Refuted: 7 - x and 7 * x with a tainted x raise TypeError; x != y is not tainted; y = x; y += 1 changes x; taint(list) taints the elements in the caller's list, which stay so after the session; an environment that could not be entered says it is enabled. Not modelled: attributes, calls, __setitem__, str() and the other conversions (not tainted), get_tainted_variables (gc)."
  },
  {
   "property": "C85",
   "status": "partial",
   "theorems": [
    "C85_once_partial",
    "C85_no_needless_wait_partial",
    "C85_all_done_partial",
    "C85_fifo",
    "C85_metrics_partial",
    "C85_lost_refuted",
    "C85_full_statement_refuted"
   ],
   "note": "For every schedule, as long as somebody holds the executor. Refuted otherwise: the workers use the executor they hold a weak reference to, so that when it is collected (as in MetrifiedThreadPoolExecutor(1).submit(f)) they die of an AttributeError and the tasks still in the queue are never run. Initializers, shutdown and handle() raising are not modelled; thread_name_prefix is ignored by the code (not modelled)."
  },
  {
   "property": "C86",
   "status": "partial",
   "theorems": [
    "C86_calls_partial",
    "C86_aborted",
    "C86_calls_full_statement_refuted",
    "C86_seen_partial",
    "C86_seen_full_statement_refuted",
    "C86_with_partial",
    "C86_nested_full_statement_refuted",
    "C86_future_partial",
    "C86_twice_full_statement_refuted"
   ],
   "note": "For all interleavings. Refuted: with include_exceptions=False a call ended by SystemExit, or a generator closed early, is still measured by the decorator; yield from a decorated generator gives None instead of its value; a context manager used within itself or by two threads measures the outer use from the inner beginning; a future measured by two metrics gives both the time since the second measure_future(). handle() and value_getter are assumed not to raise."
  },
  {
   "property": "C87",
   "status": "partial",
   "theorems": [
    "C87_transparent",
    "C87_writeback_transparent",
    "C87_accesses",
    "C87_writeback_accesses",
    "C87_refreshes",
    "C87_hits_partial",
    "C87_evictions_partial",
    "C87_reads_partial",
    "C87_hits_full_statement_refuted",
    "C87_evictions_full_statement_refuted",
    "C87_reads_full_statement_refuted",
    "C87_waiting_full_statement_refuted",
    "C87_waiting_never_refuted"
   ],
   "note": "For all histories. Hits are served reads when failures are not cached, or for expiration_interval. Refuted: a cached failure older than cache_failures_interval counts as a hit though value_getter is waited for; keys that have no entry count as evicted; the 101st operation of a writeback cache may read and count a hit; entries_waiting.callable is set to the number 0, so that the metric never shows anything."
  },
  {
   "property": "C88",
   "status": "partial",
   "theorems": [
    "C88_round_trip_partial",
    "C88_full_statement_refuted",
    "C88_get_partial",
    "C88_get_other",
    "C88_distinct_partial",
    "C88_distinct_full_statement_refuted"
   ],
   "note": "For all collections whose names are allowed by the format and whose label values have no newline. Refuted: a newline in a label value is not escaped and makes the whole text unreadable; metrics a.b and a_b get the same name. Values and label values are given as the texts str() makes; timestamps as int(timestamp * 1000)."
  },
  {
   "property": "C89",
   "status": "partial",
   "theorems": [
    "C89_walk",
    "C89_same_nodes",
    "C89_ends",
    "C89_full_statement_refuted",
    "C89_string_refuted",
    "C89_default_partial",
    "C89_construable",
    "C89_construable_order",
    "C89_construable_empty"
   ],
   "note": "For all child getters and finite structures. Refuted for the default child getter: list() raises TypeError at the first object that cannot be iterated over and never ends at a string; it works for lists of lists only."
  },
  {
   "property": "C90",
   "status": "partial",
   "theorems": [
    "C90_docs_from_parent_partial",
    "C90_parent_full_statement_refuted",
    "C90_copy_full_statement_refuted",
    "C90_copy_partial",
    "C90_copy_nothing",
    "C90_copy_class_doc",
    "C90_no_conflict",
    "C90_needed",
    "C90_wrap_with",
    "C90_property_full_statement_refuted",
    "C90_property_partial"
   ],
   "note": "Refuted: CopyDocsFrom stops after the first docstring it copies; the docstring of object.__init__ (and other methods of object) hides those of further bases in DocsFromParent; wrap_property gives a setter to a read-only property. Method resolution orders are oracles with the laws of Python's inheritance; docstrings that cannot be assigned are not modelled."
  },
  {
   "property": "C91",
   "status": "partial",
   "theorems": [
    "C91_queue_get_order",
    "C91_queue_get_full_statement_refuted",
    "C91_queue_get_partial",
    "C91_queue_get_ends",
    "C91_loop_while_partial",
    "C91_loop_while_full_statement_refuted",
    "C91_repeat_forever",
    "C91_chain_full_statement_refuted",
    "C91_chain_partial",
    "C91_callables_full_statement_refuted",
    "C91_callables_partial",
    "C91_callables_none",
    "C91_callables_first_raises",
    "C91_default_return",
    "C91_expect_full_statement_refuted",
    "C91_expect_partial",
    "C91_wrapped_exits",
    "C91_wrapped_result",
    "C91_empty_manager",
    "C91_queue_iterator",
    "C91_queue_iterator_alone",
    "C91_update_keys",
    "C91_update_key",
    "C91_contains",
    "C91_length"
   ],
   "note": "Refuted: queue_get takes queue.Empty raised by the method itself for an empty queue; loop_while with a predicate without arguments (the default one too) raises TypeError on methods; chain_functions takes any tuple of two for args and kwargs; chain_callables turns a TypeError without a message into an IndexError; expect_exception with a list raises TypeError."
  },
  {
   "property": "C92",
   "status": "partial",
   "theorems": [
    "C92_by",
    "C92_by_fields",
    "C92_integers_by_value",
    "C92_strings_by_value",
    "C92_by_full_statement_refuted",
    "C92_docstring_refuted",
    "C92_integers",
    "C92_int_enums",
    "C92_strings",
    "C92_float_refuted",
    "C92_number_refuted",
    "C92_foreign",
    "C92_full_statement_refuted",
    "C92_enum_partial",
    "C92_enum_full_statement_refuted",
    "C92_dict_full_statement_refuted",
    "C92_dict_partial",
    "C92_dict_ne"
   ],
   "note": "The laws hold among objects with the mix-ins together with integers, strings or (for ComparableIntEnum) floats, and for enumerations of plain values. False of the code for all operands: == with None or a string raises, objects compared by int() are equal to floats next to them, those compared by str() to numbers, ComparableEnum is not symmetric if a value is a member of another enumeration (and its members have no hash), DictionaryEQAble looks only at the left operand's attributes."
  },
  {
   "property": "C93",
   "status": "partial",
   "theorems": [
    "C93_counting",
    "C93_counting_keys",
    "C93_counting_sequence",
    "C93_default",
    "C93_default_stores_nothing",
    "C93_values_partial",
    "C93_len_partial",
    "C93_iter_full_statement_refuted",
    "C93_clear_refuted",
    "C93_in_refuted",
    "C93_mutable_full_statement_refuted",
    "C93_delete_race_refuted",
    "C93_thread_partial",
    "C93_thread_started",
    "C93_thread_refuted"
   ],
   "note": "CountingDict and DefaultDict proved. SelfCleaningDefaultDict: values and length proved when values are not changed in place; false of the code: iteration always gives nothing, clear() clears nothing, every key is in it, a value read and then changed is lost, deletion races with the clean-up. The thread is proved when no cleanup raises; one that raises ends it for good."
  },
  {
   "property": "C94",
   "status": "partial",
   "theorems": [
    "C94_file_first",
    "C94_file_none",
    "C94_file_unreadable",
    "C94_file_dict",
    "C94_formats",
    "C94_file_breaks",
    "C94_file_full_statement_refuted",
    "C94_directory_partial",
    "C94_directory_merges",
    "C94_directory_missing",
    "C94_relative",
    "C94_relative_exact",
    "C94_directory_full_statement_refuted",
    "C94_environment",
    "C94_env_vars",
    "C94_load_partial",
    "C94_load_errors",
    "C94_load_class",
    "C94_load_list",
    "C94_unknown_type",
    "C94_load_full_statement_refuted"
   ],
   "note": "Refuted in full: a DirectorySource with a relative path joins the directory to paths that already start with it, so every file is silently skipped and {} is provided; an error of a parser outside the listed classes comes through FileSource.provide; a dictionary argument whose 'type' is unknown makes load_source_from_dict fail with a NameError (an unassigned variable e in the warning), reported as ConfigurationError. Symbolic links, encodings and the parsers themselves are parameters."
  },
  {
   "property": "C95",
   "status": "partial",
   "theorems": [
    "C95_list_partial",
    "C95_misplacing",
    "C95_rebuilt",
    "C95_sort",
    "C95_each_refuted",
    "C95_full_statement_refuted",
    "C95_eq_partial",
    "C95_eq_exact",
    "C95_eq_full_statement_refuted"
   ],
   "note": "Refuted in full: append, insert, extend, item assignment and deletion, remove and reverse are inherited from UserList and break the order, so the next pop need not return the smallest element; two heaps with the same elements pushed in another order are not equal."
  },
  {
   "property": "C96",
   "status": "partial",
   "theorems": [
    "C96_value",
    "C96_not_pickled",
    "C96_store_total",
    "C96_policy",
    "C96_load_errors_partial",
    "C96_load_errors_full_statement_refuted",
    "C96_frames",
    "C96_total_partial",
    "C96_total_refuted",
    "C96_no_exception_refuted",
    "C96_json_partial",
    "C96_equality",
    "C96_json_loses",
    "C96_json_has_it",
    "C96_json_full_statement_refuted"
   ],
   "note": "Values come back, frames are the chain from where the exception was raised, JSON preserves equality. Refuted: StoredVariableValue.from_json always drops the pickle, so that after JSON load_value raises TypeError (the documentation promises the opposite); load_value lets AttributeError, ImportError and others of pickle.loads through; one variable with a raising __repr__ makes the Traceback unavailable; without an exception in progress the current frame is taken instead of raising ValueError. Pickling whole Traceback objects and printing them are not modelled."
  },
  {
   "property": "C97",
   "status": "partial",
   "theorems": [
    "C97_repr_partial",
    "C97_repr_named_only",
    "C97_repr_full_statement_refuted",
    "C97_str_partial",
    "C97_str_refuted",
    "C97_without_kwargs",
    "C97_attribute_error",
    "C97_specification_exact",
    "C97_ends",
    "C97_needs_code",
    "C97_isinstance_partial",
    "C97_codes",
    "C97_documented_refuted",
    "C97_bare_refuted",
    "C97_other_hierarchy",
    "C97_hierarchy_full_statement_refuted"
   ],
   "note": "Refuted in full: str() of any exception with named arguments raises TypeError; repr() with named arguments only has a stray comma; a plain CodedCustomException with the right code is not an instance of the class with that code, contrary to the documented example; with multiple inheritance a common mix-in joins unrelated hierarchies. Proved exactly for single inheritance."
  },
  {
   "property": "C98",
   "status": "partial",
   "theorems": [
    "C98_restored_partial",
    "C98_programs",
    "C98_created",
    "C98_full_statement_refuted",
    "C98_relative_refuted"
   ],
   "note": "Proved for bodies that do not enter the same object again. Refuted: an object entered again inside its own body leaves the process in the target directory; a relative path is made where the object is constructed and looked up where it is entered."
  },
  {
   "property": "C99",
   "status": "partial",
   "theorems": [
    "C99_null",
    "C99_null_exact",
    "C99_null_read_refuted",
    "C99_lines",
    "C99_lines_exact",
    "C99_sub_partial",
    "C99_sub_full_statement_refuted",
    "C99_sub_lost_refuted",
    "C99_json_partial",
    "C99_json_errors",
    "C99_json_full_statement_refuted",
    "C99_unlink_partial",
    "C99_unlink_link_refuted",
    "C99_unlink_full_statement_refuted"
   ],
   "note": "Refuted in full: read_re_sub_and_write changes \\r\\n line ends even if nothing matches, and empties the file if the result cannot be encoded; write_json_to_file empties the file if the value cannot be encoded; try_unlink does not delete a link to a directory, and returns False after having deleted part of a directory; reading from a DevNullFilelikeObject does not raise UnsupportedOperation."
  },
  {
   "property": "C100",
   "status": "partial",
   "theorems": [
    "C100_exclusive_partial",
    "C100_released_partial",
    "C100_release_frees_partial",
    "C100_transparent_partial",
    "C100_steps_partial",
    "C100_refused",
    "C100_no_deadlock_partial",
    "C100_all_finish_partial",
    "C100_not_reentrant",
    "C100_full_statement_refuted",
    "C100_release_rmonitor_refuted",
    "C100_deadlock_refuted"
   ],
   "note": "Proved for programs that enter a Monitor only when not inside and release only what they hold (ascending order for deadlock freedom). False for all programs: threading.Lock may be released by a thread that is not inside (Monitor.release(foo) elsewhere lets a second thread in), releasing an RMonitor entered twice lets nobody in, and opposite orders deadlock."
  },
  {
   "property": "C101",
   "status": "partial",
   "theorems": [
    "C101_meaning_partial",
    "C101_again_partial",
    "C101_builtin",
    "C101_register",
    "C101_senseless_partial",
    "C101_full_statement_refuted",
    "C101_unknown_name_refuted",
    "C101_unknown_type_refuted",
    "C101_list_of_unknown_refuted",
    "C101_union_of_unknown_refuted",
    "C101_empty_refuted",
    "C101_type_key_refuted"
   ],
   "note": "The full statement is false: lists accept the second time what they refused the first (C25); an unknown name raises AttributeError or KeyError instead of ConfigurationSchemaError, or is silently anything inside a list, or raises TypeError at validation inside a union; a key described by the empty string refuses every configuration; a class as type raises KeyError although the docstring says classes work. Proved: the meaning of every well-written description, except lists of things with both lists and unions; the same over sequences; senseless descriptions are refused."
  },
  {
   "property": "C102",
   "status": "partial",
   "theorems": [
    "C102_equal",
    "C102_hash",
    "C102_file",
    "C102_directory",
    "C102_never_string",
    "C102_full_statement_refuted"
   ],
   "note": "The documented equality with the string of the path is false; the rest is proved. Paths are strings; __eq__ with objects whose own __eq__ interferes is not modelled."
  },
  {
   "property": "C103",
   "status": "partial",
   "theorems": [
    "C103_partial",
    "C103_over",
    "C103_quiet",
    "C103_lost",
    "C103_stuck",
    "C103_full_statement_refuted",
    "C103_wrap_if",
    "C103_wrap_if_once",
    "C103_call_in_future",
    "C103_executor"
   ],
   "note": "Exact verdict for every schedule. Refuted in full: WrappingFuture copies the state of the source after adding its callback, so a source that completes after the callback is added loses its result (None is returned, C103_lost) or makes result() wait forever (C103_stuck), depending on where the callbacks fall."
  },
  {
   "property": "C104",
   "status": "partial",
   "theorems": [
    "C104_partial",
    "C104_lists_partial",
    "C104_full_statement_refuted",
    "C104_shared_refuted"
   ],
   "note": "Proved when no collection is made of a list object. Refuted in full: FutureCollection(list) keeps the caller's list, so both see each other's changes."
  },
  {
   "property": "C105",
   "status": "partial",
   "theorems": [
    "C105_partial",
    "C105_ends",
    "C105_cpython_only",
    "C105_full_statement_refuted"
   ],
   "note": "Proved when no object within is an instance of a class derived from list or another iterable that also has a __dict__: the elements of those are not counted (refuted in full). Attributes in __slots__ are not counted either; the recursion limit of Python is not modelled."
  },
  {
   "property": "C106",
   "status": "partial",
   "theorems": [
    "C106_partial",
    "C106_no_deadlock_partial",
    "C106_bounded",
    "C106_hangs",
    "C106_hangs_timeout",
    "C106_full_statement_refuted",
    "C106_encoding_refuted"
   ],
   "note": "Refuted in full: output larger than the pipe hangs the call for ever (or always times out), since the reading thread reads only after the process has exited; a character split over two pieces of 2048 bytes is not decoded. Proved for output that fits."
  },
  {
   "property": "C107",
   "status": "partial",
   "theorems": [
    "C107_partial",
    "C107_answers",
    "C107_negative",
    "C107_aborted",
    "C107_full_statement_refuted"
   ],
   "note": "Refuted in full: a ValueError if the end falls between the two readings of the clock in one turn."
  },
  {
   "property": "C108",
   "status": "partial",
   "theorems": [
    "C108_partial",
    "C108_waits",
    "C108_sigint",
    "C108_full_statement_refuted",
    "C108_restored_refuted"
   ],
   "note": "Refuted in full: SIGINT, which the documentation names, does not end the waiting; handlers are not restored if SIGTERM is among the extra signals, after a KeyboardInterrupt, or if a signal cannot be caught."
  },
  {
   "property": "C109",
   "status": "partial",
   "theorems": [
    "C109_partial",
    "C109_sound",
    "C109_full_statement_refuted",
    "C109_set_uid_refuted",
    "C109_other_file_refuted"
   ],
   "note": "Refuted in full: directories are taken for executables, some set-user-id executables are missed, an unrelated file that cannot be examined ends the search. POSIX only: extensions of Windows are not modelled."
  },
  {
   "property": "C110",
   "status": "partial",
   "theorems": [
    "C110_shuffle",
    "C110_shorter",
    "C110_full_statement_refuted",
    "C110_word",
    "C110_word_empty"
   ],
   "note": "Proved for sequences of one length. Refuted in full: sequences of other lengths are not refused, the end of a longer one is lost. random_binary is covered only as far as it is random_word over bytes."
  },
  {
   "property": "C111",
   "status": "partial",
   "theorems": [
    "C111_detached",
    "C111_partial",
    "C111_unknown",
    "C111_full_statement_refuted",
    "C111_group_refuted",
    "C111_group_name_refuted",
    "C111_exit_refuted"
   ],
   "note": "Refuted in full: the daemon does not lead its session (the documentation says it does); a group asked for together with a user fails because the right was given up with the user; a group by name always raises AttributeError; an exit_via that returns leaves the original process going on. Windows is not modelled."
  },
  {
   "property": "C112",
   "status": "partial",
   "theorems": [
    "C112_partial",
    "C112_missing",
    "C112_full_statement_refuted",
    "C112_toplevel_refuted",
    "C112_class",
    "C112_class_errors"
   ],
   "note": "Modules are taken as loaded already; side effects of importing are not modelled. Refuted in full: private modules (unlike private packages) are not skipped; a package inside with the name of a top-level package has modules imported into the outer namespace or fails with ImportError, because walk_packages is called without a prefix. Proved exactly otherwise."
  },
  {
   "property": "C113",
   "status": "partial",
   "theorems": [
    "C113_function",
    "C113_function_plain",
    "C113_factory_fails",
    "C113_factory_refuted",
    "C113_future_partial",
    "C113_future_other",
    "C113_future_full_statement_refuted",
    "C113_cancelled_refuted",
    "C113_exception_partial",
    "C113_exception_nothing",
    "C113_exception_full_statement_refuted",
    "C113_no_traceback_refuted"
   ],
   "note": "Refuted in full: the exception of a future is attached only if it is being handled when the future is completed (else none or another one is attached); a cancelled future never finishes its span; a limit of 0 is ignored; an exception without traceback raises AttributeError; a TypeError inside a tag factory makes it be called again in another way. The tracer itself is not modelled."
  },
  {
   "property": "C114",
   "status": "partial",
   "theorems": [
    "C114_simple",
    "C114_partial",
    "C114_full_statement_refuted",
    "C114_refused_refuted",
    "C114_callable",
    "C114_uptime",
    "C114_wrapped"
   ],
   "note": "Refuted in full: a value without labels after one with labels is silently dropped; a refused value with new labels makes a metric with the default value. Timestamps and the internal flag are not modelled."
  },
  {
   "property": "C115",
   "status": "partial",
   "theorems": [
    "C115_partial",
    "C115_operator",
    "C115_iterator",
    "C115_full_statement_refuted"
   ],
   "note": "Refuted in full: the first element of an iterator is consumed to copy the method's name, and nothing is done to it. Proved for sequences, and for operators on anything."
  },
  {
   "property": "C116",
   "status": "partial",
   "theorems": [
    "C116_cached",
    "C116_cached_once",
    "C116_full_statement_refuted",
    "C116_partial",
    "C116_if_none",
    "C116_on_exception",
    "C116_exception_full_statement_refuted",
    "C116_as_list",
    "C116_before",
    "C116_before_refuted",
    "C116_adapt_partial",
    "C116_adapt_forgets",
    "C116_adapt_full_statement_refuted",
    "C116_copy_deep",
    "C116_copy_partial",
    "C116_copy_full_statement_refuted",
    "C116_copy_alias_refuted"
   ],
   "note": "Deep copies protect every object of the caller, on any graph. Refuted: a method returning assume_not_loaded is called at each reading; call_method_on_exception ignores classes not derived from Exception; a single callable custom parameter of execute_before is taken for the decorated function; auto_adapt_to_methods decorates anew at each call (and the assertions of its docstring are false: the result is 8); plain copies leave nested objects shared; an object given twice arrives as two."
  },
  {
   "property": "C117",
   "status": "partial",
   "theorems": [
    "C117_partial",
    "C117_runs",
    "C117_full_statement_refuted",
    "C117_race_refuted",
    "C117_failed_refuted",
    "C117_bogus",
    "C117_join_partial",
    "C117_join_refuted"
   ],
   "note": "Proved for all schedules in which one call has set the flag before another looks. Refuted: the second call returns None, not the object; calls at the same time may both pass and run the thread's function twice, or one raises RuntimeError; after a start that failed no call starts the thread; join() of a bogus thread without timeout raises TypeError while it is alive and never resets started."
  },
  {
   "property": "C118",
   "status": "partial",
   "theorems": [
    "C118_partial",
    "C118_fails",
    "C118_starved_refuted",
    "C118_full_statement_refuted",
    "C118_main_refuted",
    "C118_pickles_refuted",
    "C118_targets",
    "C118_made",
    "C118_raises"
   ],
   "note": "A report is one write; loggers do not fail. Refuted: reports of exceptions uncaught in the main thread are about no exception (no exception is in progress when the interpreter calls sys.excepthook, and Traceback() then takes the handler's own stack); a failing target starves the rest; None or a logger among the pickles fails always."
  },
  {
   "property": "C119",
   "status": "partial",
   "theorems": [
    "C119_partial",
    "C119_full_statement_refuted",
    "C119_first",
    "C119_parallel",
    "C119_submit_fails"
   ],
   "note": "For a driver that completes its future once, in every order of events, the wrapped future gets exactly that outcome and nothing is raised in the driver; refuted for repeated completion (a further page calls the callbacks again and set_result raises InvalidStateError). parallel_for is characterised completely: all executions first, in order, then the results up to the first failure or as far as asked for. The driver is modelled from its documented contract (callbacks registered after completion are called at once)."
  },
  {
   "property": "C120",
   "status": "partial",
   "theorems": [
    "C120_full_statement_refuted",
    "C120_partial",
    "C120_taken",
    "C120_iteration",
    "C120_loop",
    "C120_update_partial",
    "C120_update_value",
    "C120_update_full_statement_refuted"
   ],
   "note": "Refuted in full: elements taken before the first indexing, membership or length question are lost to the list (exactly those: C120_taken). Proved: as long as nothing was taken the answers are the list's; taking elements is never disturbed by such questions; what loops see. update_attr_if_none is characterised for attributes that can be set; a setter that itself raises AttributeError is called twice."
  },
  {
   "property": "C121",
   "status": "partial",
   "theorems": [
    "C121_partial",
    "C121_full_statement_refuted",
    "C121_fails"
   ],
   "note": "Proved for all objects that can be printed (a TypeError while measuring counts as 0). Refuted in full: an object whose repr() raises ends the dump, without a breakdown; C121_fails says exactly what was written by then."
  },
  {
   "property": "C122",
   "status": "partial",
   "theorems": [
    "C122_input_kept",
    "C122_full_statement_refuted",
    "C122_unknown_refuted",
    "C122_default_refuted",
    "C122_partial",
    "C122_new"
   ],
   "note": "Proved in full: nothing that existed is changed, whatever the outcome, and the result's list or dictionary is new. That the result shares nothing is refuted: undescribed elements and unknown keys are the caller's own objects, and a mutable default is one object in all results; proved for descriptors that describe everything."
  },
  {
   "property": "C123",
   "status": "partial",
   "theorems": [
    "C123_values",
    "C123_full_statement_refuted",
    "C123_partial",
    "C123_answers_refuted",
    "C123_answers_partial",
    "C123_default_refuted",
    "C123_alone_get",
    "C123_alone_set",
    "C123_alone_del",
    "C123_alone_invalidate",
    "C123_alone_refresh"
   ],
   "note": "Proved for all schedules: only values of the right key are served; after the key was stored once all reads are fine; calls that run alone refine CacheDict_Model. Refuted: a read while the first value of a key is being stored raises KeyError (even with a default value), and a read of a cached miss gives None if the value is stored meanwhile. LRUCacheDict's own additions are in C127."
  },
  {
   "property": "C124",
   "status": "partial",
   "theorems": [
    "C124_full_statement_refuted",
    "C124_partial",
    "C124_inherited",
    "C124_inherited_missing",
    "C124_popitem",
    "C124_recursive",
    "C124_once",
    "C124_circular"
   ],
   "note": "Proved for d[k], assignment, deletion, length and iteration, and for recursive factories under reading. Refuted in full: the methods inherited from MutableMapping (in, get, pop, setdefault) ask the factory too, so a key is always in the dictionary, defaults are ignored and popitem is first in first out. Factories that store into or delete from the dictionary are not modelled; Diverges stands for RecursionError, which factories are taken not to catch."
  },
  {
   "property": "C125",
   "status": "partial",
   "theorems": [
    "C125_full_statement_refuted",
    "C125_counter_partial",
    "C125_counter_bounds",
    "C125_counter_some",
    "C125_counter_backwards_refuted",
    "C125_one_thread",
    "C125_summary_partial",
    "C125_summary_made_of",
    "C125_window_refuted",
    "C125_summary_raises_refuted",
    "C125_clicks_partial",
    "C125_clicks_never_raise",
    "C125_clicks_made_of",
    "C125_clicks_lost_refuted",
    "C125_export_raises_refuted",
    "C125_labels_partial",
    "C125_labels_any",
    "C125_labels_known",
    "C125_labels_refuted"
   ],
   "note": "Refuted in full, as no metric takes a lock: increments are lost and a counter can go back; after one race a summary's window of last_calls values grows without limit, and handle() can raise IndexError; a click just made is dropped in place of an old one; exporting clicks while another thread clicks raises RuntimeError; two threads that are first to use some labels make two children, of which one is exported. Proved: exactness if calls do not overlap, in particular if one thread feeds the metric; for all schedules, that nothing is counted that was not fed, that a counter shows at least one call, that clicks never raise, and that labels used before keep their one child. Histograms are not modelled here (their buckets are incremented like the counter's value)."
  },
  {
   "property": "C126",
   "status": "partial",
   "theorems": [
    "C126_full_statement_refuted",
    "C126_partial",
    "C126_coherent_partial",
    "C126_apart",
    "C126_made_of",
    "C126_found",
    "C126_ends",
    "C126_key_error_refuted",
    "C126_deleted_refuted"
   ],
   "note": "Refuted in full: a read that overlaps a write can put the old value over the new one in the cache, which then differs from the storage for good; a deleted key comes back the same way; and a reader can get KeyError for a key that is in the storage while another reader is between in_cache.add and cache[item] = value. Proved: per key, for all schedules in which the calls about that key do not overlap (always so if every thread has keys of its own), and three guarantees for all schedules, one of them that no call can be made to hang. The executor does the jobs in order, one at a time; read_method raises nothing but KeyError."
  },
  {
   "property": "C127",
   "status": "partial",
   "theorems": [
    "C127_full_statement_refuted",
    "C127_partial",
    "C127_ends_partial",
    "C127_capacity",
    "C127_made_of",
    "C127_small",
    "C127_over_capacity_refuted",
    "C127_get_raises_refuted",
    "C127_set_raises_refuted",
    "C127_hang_refuted"
   ],
   "note": "Refuted in full: the class takes no lock. Threads that all see room exceed max_size (the bound max_size - 1 + number of threads is proved, and reached); a read of a known key raises KeyError while another thread stores its first value; a write raises KeyError if the key is deleted between the two operations of mark_as_used; and a key evicted between mark_as_used and the store stays in the cache without being evictable, after which make_room of a later write can loop for ever. Proved: calls that do not overlap refine CacheDict_Model and end; for all schedules the capacity bound, where values come from, and no loss when fewer than max_size keys are used. Not in this model: stale values (C123), remembered failures, default_value_factory."
  },
  {
   "property": "C128",
   "status": "partial",
   "theorems": [
    "C128_full_statement_refuted",
    "C128_partial",
    "C128_every_call_answered",
    "C128_attribute_refuted",
    "C128_construct",
    "C128_copy",
    "C128_deepcopy_partial",
    "C128_deepcopy_refuted",
    "C128_apply_partial",
    "C128_apply_refuted",
    "C128_apply_cycle_refuted"
   ],
   "note": "The full statement is false: a name that the class has (items, keys, ...) is not read as an attribute; copy.deepcopy of a DictObject that contains itself does not end; apply_dict_object keeps plain dictionaries that are inside of DictObjects and does not end for a list that contains itself. Proved: every session agrees with the history for all other names, construction, copy, deepcopy where nothing contains itself, apply_dict_object on all trees. is_valid_schema and the early memo entries of copy.deepcopy for lists and plain dictionaries are not modelled."
  },
  {
   "property": "C129",
   "status": "partial",
   "theorems": [
    "C129_full_statement_refuted",
    "C129_partial",
    "C129_made_of",
    "C129_keeps",
    "C129_readable",
    "C129_cleanup_partial",
    "C129_cleaned",
    "C129_len",
    "C129_set",
    "C129_old",
    "C129_in",
    "C129_no_deadlock",
    "C129_overwritten_refuted",
    "C129_lost_refuted",
    "C129_stale_refuted",
    "C129_in_raises_refuted"
   ],
   "note": "The full statement is false: a key that is written again is missing in between; a read that found the old value too old deletes what was written since, after which cleanup() raises KeyError (this ends the cleanup thread); an old value can be read while the key is written; two threads asking for an old key make `in` raise ValueError. Proved for all schedules: the calls fit the order in which they end while nothing gets old and no key asked for is being changed, what is read was written, entries that are not old stay, a cleanup() that returns leaves nothing that was old when it was called, without d[k] nothing but a ValueError of del or `in` is raised, all threads can always end. What `in` answers with True may be late and is not related to the order. The heap is represented by the dictionary item_to_timestamp."
  },
  {
   "property": "C130",
   "status": "partial",
   "theorems": [
    "C130_full_statement_refuted",
    "C130_partial",
    "C130_once",
    "C130_registered",
    "C130_rounds",
    "C130_iterate_refuted",
    "C130_all_hang_refuted",
    "C130_make_inside_refuted",
    "C130_raises_refuted"
   ],
   "note": "The full statement is false: monitors are not re-entrant, so that a loop over a dictionary inside of a with block on it, which is what the documentation asks for, never ends; the cleanup thread then waits for that block while it holds the monitor of the registry, after which nobody can make such a dictionary any more; a dictionary made inside of the block of another can deadlock with the cleanup thread; a cleanup() that raises ends the thread for all dictionaries. Proved for all schedules: the thread is started once, dictionaries stay registered while they are referred to, rounds that end clean all of them and forget the others, and if blocks are nested in one order without making dictionaries inside, all threads can always end. The contents of the dictionaries are not in this model (see C129)."
  },
  {
   "property": "C131",
   "status": "partial",
   "theorems": [
    "C131_full_statement_refuted",
    "C131_partial",
    "C131_no_default",
    "C131_stored",
    "C131_no_del",
    "C131_own",
    "C131_one_at_a_time",
    "C131_no_deadlock",
    "C131_del_raises_refuted",
    "C131_set_raises_refuted",
    "C131_len_refuted",
    "C131_cleanup_refuted"
   ],
   "note": "The full statement is false because __delitem__ takes no monitor and __len__ counts after it let the monitor go: two threads that delete a key make one of them raise KeyError, storing the default raises KeyError if the key is deleted meanwhile, a key deleted meanwhile ends a cleanup() before it is done, and without background maintenance len() counts a default value stored by a read after the cleanup. Proved for all schedules: in every other respect the calls end as if made in the order in which they end (reads are always right), and when KeyError is raised the key has the default value all the same; what is stored is the value of the key; with background maintenance no default is stored; without del nothing raises and cleanup() leaves no default; keys of one thread never raise; all threads can end."
  },
  {
   "property": "C132",
   "status": "partial",
   "theorems": [
    "C132_full_statement_refuted",
    "C132_partial",
    "C132_fifo",
    "C132_known",
    "C132_sole",
    "C132_one_at_a_time",
    "C132_no_deadlock",
    "C132_get_any_raises_refuted",
    "C132_qsize_raises_refuted",
    "C132_empty_refuted",
    "C132_qsize_refuted"
   ],
   "note": "The full statement is false because get_any() and qsize() go through the queues without the monitor: both raise RuntimeError if a name is used for the first time meanwhile, get_any() can raise Empty although there is a message at every moment, and qsize() can give a number that there never were. Proved for all schedules: put() and get() are always right, what was put under a name is what was taken followed by what waits (nothing lost, doubled or reordered), no RuntimeError once every name still to be used has been used, get_any() of the only consumer finds a message that was there when it was called, calls made one at a time are all right, and all threads can end unless one waits for a message. Timeouts of get() are not modelled."
  },
  {
   "property": "C133",
   "status": "partial",
   "theorems": [
    "C133_full_statement_refuted",
    "C133_own_partial",
    "C133_one_at_a_time",
    "C133_no_false_alarm",
    "C133_missed_refuted",
    "C133_stays_offline_refuted",
    "C133_twice_refuted",
    "C133_stale_refuted"
   ],
   "note": "The full statement is false: handle() takes no lock and compares the counters with == after other threads may have changed them. For any limit an alarm can be missed for good, however many failures follow; an alarm can be given twice; the last callback can be the opposite of the status shown. Proved: everything is right for an address that only one thread reports, and for all addresses if calls do not overlap; and no callback is made, and no link shown as offline, without the required number of reports. Labels, embedded submetrics and callbacks that raise are not modelled."
  },
  {
   "property": "C134",
   "status": "partial",
   "theorems": [
    "C134_full_statement_refuted",
    "C134_partial",
    "C134_bounds",
    "C134_some",
    "C134_torn_refuted",
    "C134_backwards_refuted"
   ],
   "note": "The full statement is false: handle() takes no lock, so that updates of the count, the sum and the buckets can be lost independently of each other; a bucket can go back. Proved: all is exact if calls do not overlap; however they overlap, nothing is negative or shows more than the calls that have begun give it, no call raises, and once a value was fed the count and its buckets show one at least. Labels and children are not modelled here (C40 has them for one thread)."
  },
  {
   "property": "C135",
   "status": "proved",
   "theorems": [
    "C135_spells",
    "C135_nothing_else",
    "C135_injective",
    "C135_length"
   ],
   "note": "base64.b64encode is the standard library's: it is modelled after RFC 4648, not after its C source. The specification is by bits and by ranges of the alphabet, the model by div, mod and a table."
  }
 ]
}