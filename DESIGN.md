# Formal model of satella (Rocq / Coq 8.16.1)

Source: `piotrmaslanka/satella`, pinned commit in `/repo` (Python).  The code is
read as text; it is never executed here.  The model is in `rocq/theories/`,
logical name `Verif`.

## Layout and conventions

For each area `X` of the code base there are up to four files:

| file | contents |
|------|----------|
| `X_Model.v` | executable Gallina transcription of the Python functions, branch by branch. Every definition cites file and lines in `/repo`, and says where it simplifies. No proofs. |
| `X_Spec.v`  | the small, independent specification vocabulary used in the theorem statements (multisets as `Permutation`, plain lists, functions, relations). Mentions the model's operation and answer types (the vocabulary of calls) but none of its state or functions. |
| `X_Proofs.v` | lemmas, invariants, simulations. |
| `X_Theorems.v` | the property theorems only, each closed by `exact lemma`, followed by `Print Assumptions`, and `Example`s showing that concrete non-trivial cases meet the hypotheses. |

Exceptions are values: a Python call is a function returning `res A`
(`Ok a | Err e`), together with the state after the call (a raising call may
have changed the object before raising; that is modelled).  Python dictionaries
are insertion-ordered association lists with unique keys (`Prelude.v`), because
iteration order is observable.  Python integers are `Z` (or `nat` where the
value is a length, an index or a counter that only goes up).  Timestamps, which
are floats in the code, are integers `Z`: only comparison, addition and
subtraction are used on them, and float rounding is outside the model.  Python
objects stored in containers are an arbitrary type with a decidable equality
(`==`), and, where the code compares them, an arbitrary boolean `<` satisfying
the laws of a total preorder.  These laws are explicit hypotheses of the
theorems that need them.

Concurrency is modelled by interleaving: a program is a list of atomic steps per
thread, a schedule is any list of thread numbers, and theorems quantify over all
schedules.  The grain of atomicity is one Python-level operation on shared state
(as under the GIL), and mutual exclusion by `threading.Lock`/`RLock` is modelled
explicitly.

If a property is false of the code as written, the false full statement is kept
in the theorem file as `Definition Cxx_full_statement`, with a proof of its
negation (`Cxx_full_statement_refuted`); a theorem with suffix `_refuted` exhibits the
counterexample execution in the model, and the strongest true variant that was
proved has the suffix `_partial` when it covers only part of the property.

## Trusted base

* Coq 8.16.1's kernel (and `vm_compute`, which is part of it) and `coqc`.
* The standard library of Coq, used without axioms: every theorem listed in
  `MANIFEST.json` prints `Closed under the global context` (Print Assumptions
  output is produced at build time by the `*_Theorems.v` files), except where
  the table below says otherwise.
* The reading of the Python code: the theorems are about the Gallina model.  The
  model's fidelity to `/repo` rests on the citation comments.
* Python's own semantics of `dict`, `list`, `deque`, `set`, `heapq`, `queue.Queue`,
  `threading.Lock/RLock/Condition`, `OrderedDict`, `itertools`, as stated in the
  comments where they are modelled. `heapq` is modelled concretely (sift up /
  sift down on the array), not assumed.

`vcheck` lists seven `Coq.ssr.ssrunder.Under_rel.*` constants as library axioms.
They are the fields of a sealed module of Coq's own library, loaded with `lia`. No
theorem here depends on them, as Print Assumptions shows.

No axioms, no functors, no module types, no `Admitted`, no kernel check turned off.
`coqchk -o`, run on all the `X_Theorems` modules, accepts them and lists no axioms.

## Properties: what is modelled and how it is proved

### C01 Heap.pop returns a minimum; nothing is lost or invented

`Heap_Model.v`: heapq's `heapify/heappush/heappop/_siftup/_siftdown` on lists with indices, and `Heap`'s methods on top. Proof: heap-shape invariant (each parent not greater than its children) preserved by sift operations; contents by `Permutation`; refinement of every operation sequence to a multiset.

Status: **proved**. Heap refines a bag; heapq modelled on arrays and proved.

Theorems: `C01_heap_is_a_bag`, `C01_heap_sorts`.

### C02 SetHeap is a heap of distinct elements whose membership test is exact

`Heap_Model.v`, `SetHeap`: heap list plus shadow set. Invariant: list duplicate-free and set = list, for histories of push/push_many/pop from a duplicate-free start. The unrestricted claim is expected to fail (duplicate constructor input, pop_item), to be shown by `_refuted` theorems.

Status: **partial**. The full statement is false of the code (duplicates in the constructor, pop_item and filter_map leave the set stale); proved for sessions without those calls.

Theorems: `C02_setheap_is_a_set_partial`, `C02_setheap_duplicates_refuted`, `C02_setheap_pop_item_refuted`, `C02_setheap_filter_map_refuted`, `C02_full_statement_refuted`.

### C03 TimeBasedHeap.pop_less_than returns exactly the due entries in time order

`TimeHeap_Model.v` on top of the heapq model with (timestamp,item) pairs. Refinement to a multiset of pairs.

Status: **partial**. False of the code for get_timestamp and copy (see the refuted theorems); proved for sessions of the other calls.

Theorems: `C03_time_heap_is_a_bag_partial`, `C03_get_timestamp_refuted`, `C03_copy_refuted`, `C03_full_statement_refuted`.

### C04 TimeBasedSetHeap keeps one, the latest, timestamp per item

`TimeHeap_Model.v`: set heap with `item_to_timestamp`. Invariant tying the heap to the map; `remove` breaks it (refuted).

Status: **partial**. False of the code for remove and copy (see the refuted theorems); proved for sessions of the other calls.

Theorems: `C04_time_set_heap_is_a_map_partial`, `C04_remove_refuted`, `C04_copy_refuted`, `C04_full_statement_refuted`.

### C05 SortedList is always sorted by key and holds exactly what was added and not removed

`SortedList_Model.v`: parallel key/item sequences. Sortedness invariant and Permutation over operation lists.

Status: **proved**. All call sequences, any key function.

Theorems: `C05_sorted_list_is_sorted_and_complete`.

### C06 Ranking positions are consistent with the key order

`SortedList_Model.v`, Ranking with its cached positions, over SortedList.

Status: **partial**. False of the code: a removed object keeps its last position in calculate_ranking_for. Proved for sessions that only ask about ranked objects.

Theorems: `C06_ranking_positions_partial`, `C06_stale_position_refuted`, `C06_full_statement_refuted`.

### C07 LRUCacheDict never exceeds its capacity and evicts the least recently used key

`CacheDict_Model.v`: LRU (ordered dict) and LRUCacheDict. Invariant keys(data) subset of lru order, size bound; refinement to an abstract recency list.

Status: **partial**. Capacity and termination hold for all sessions. The LRU order is false of the code for feed and for overwriting a key of a full cache; proved for sessions without feed and with the eviction on overwriting written into the policy. C07_fresh_partial adds which answers are served, refreshed, remembered or asked for (under C08's conditions).

Theorems: `C07_capacity_never_exceeded`, `C07_evicts_least_recently_used_partial`, `C07_fresh_partial`, `C07_overwrite_evicts_refuted`, `C07_feed_is_not_a_use_refuted`, `C07_full_statement_refuted`.

### C08 CacheDict serves values no older than the expiration interval and caches failures

`CacheDict_Model.v`: CacheDict with explicit clock and getter oracle. Ghost log of getter results; freshness theorem by invariant.

Status: **partial**. False of the code when a key with a remembered failure is fed, invalidated or asked about, for feed with timestamp 0 and for a time_getter other than time.monotonic. Proved for all other sessions, background refreshes completing in any order.

Theorems: `C08_cache_dict_answers_partial`, `C08_served_values_are_fresh_partial`, `C08_feed_after_miss_refuted`, `C08_invalidate_miss_refuted`, `C08_has_info_refuted`, `C08_feed_timestamp_zero_refuted`, `C08_custom_clock_refuted`, `C08_full_statement_refuted`.

### C09 ExpiringEntryDict shows an entry exactly until its expiry

`Expiring_Model.v`: data dict, key->timestamp map, heap. Refinement to a map key -> (value, expiry); refuted for the expired-read path.

Status: **partial**. False of the code: `in` and len() raise on expired entries, deleting a missing key does not raise and get_timestamp is wrong (see the refuted theorems). Proved for sessions without those situations.

Theorems: `C09_expiring_dict_partial`, `C09_in_raises_refuted`, `C09_len_raises_refuted`, `C09_delete_missing_refuted`, `C09_get_timestamp_refuted`, `C09_full_statement_refuted`.

### C10 ExclusiveWritebackCache behaves as a dictionary over its backing store

`Writeback_Model.v`: op sequences interleaved with executor steps; FIFO single worker refinement to a map; refutation for out-of-order executors.

Status: **partial**. False of the code for executors that reorder jobs. Proved for executors that run the jobs in the order of submission.

Theorems: `C10_writeback_cache_is_a_dict_partial`, `C10_reordered_writes_refuted`, `C10_deleted_key_read_refuted`, `C10_full_statement_refuted`.

### C11 TwoWayDictionary is a bijection

`DictObjects_Model.v`: two assoc lists; mutual-inverse invariant over all histories.

Status: **partial**. False of the code in two places: assigning a key the value it already has raises ValueError, and done() (so leaving the with block) raises AttributeError. Proved for all sessions with these two deviations written into the specification; that the two views stay inverse is proved outright.

Theorems: `C11_two_way_dictionary_partial`, `C11_views_are_inverse`, `C11_reassign_refuted`, `C11_done_raises_refuted`, `C11_full_statement_refuted`.

### C12 DirtyDict.dirty is set by every change and only by changes

`DictObjects_Model.v`: dict + flag; exact characterisation of the flag over histories.

Status: **proved**. All sessions.

Theorems: `C12_dirty_iff_changed`.

### C13 DictionaryView reads through the chain and writes by its rules

`DictObjects_Model.v`: list of dicts; chain lookup equations and operation effects.

Status: **partial**. False of the code for copies, which forget both options. Proved for sessions without copy.

Theorems: `C13_dictionary_view_partial`, `C13_copy_refuted`, `C13_full_statement_refuted`.

### C14 SparseMatrix behaves as a finite map of cells with exact dimensions

`SparseMatrix_Model.v`: nested dict + cached counters; refinement to a finite map; refutations for the empty-matrix paths.

Status: **partial**. False of the code: deleting the last cell raises, bool() is inverted, delete_row of an absent row leaves an empty row, an index before the start is stored, max()/min() need a value in the corner. Proved for every session up to the first such call.

Theorems: `C14_sparse_matrix_partial`, `C14_delete_last_cell_refuted`, `C14_bool_refuted`, `C14_delete_absent_row_refuted`, `C14_before_start_refuted`, `C14_max_refuted`, `C14_full_statement_refuted`.

### C15 Syncable/droppable store: no loss below the retention bounds, order kept

`Syncable_Model.v`: memory list + DB list + bounds; invariants over arrival/cleanup histories.

Status: **partial**. Acceptance, order and retention are proved for all sessions (C15_nothing_is_lost; the effects in C15_series_partial hold without restriction). The answers of get_archive and on_sync_request are false of the code in the situations refuted; proved outside of them, and C15_really says what is answered in every situation (unless a restart lost entries).

Theorems: `C15_nothing_is_lost`, `C15_series_partial`, `C15_really`, `C15_archive_refuted`, `C15_sync_request_raises_refuted`, `C15_too_many_entries_refuted`, `C15_wrong_entries_refuted`, `C15_key_zero_refuted`, `C15_full_statement_refuted`.

### C16 IDAllocator never hands out an identifier twice while it is held

`IDAlloc_Model.v`: free/allocated sets and bound; partition invariant.

Status: **partial**. Uniqueness, freeing and >= start_at are proved for every start_at and top_limit. The clauses about top_limit are proved without a limit or with start_at = 0 and top_limit <> 0, and refuted otherwise (top_limit is compared with an offset; 0 means no limit).

Theorems: `C16_never_twice`, `C16_from_many_threads`, `C16_allocator_partial`, `C16_limit_exceeded_refuted`, `C16_below_zero_refuted`, `C16_limit_zero_refuted`, `C16_full_statement_refuted`.

### C17 SequentialIssuer issues strictly increasing identifiers

`IDAlloc_Model.v`: counter; strict monotonicity over call lists.

Status: **proved**. 

Theorems: `C17_from_many_threads`, `C17_strictly_increasing`, `C17_next_identifier`.

### C18 DictDeleter and ListDeleter remove exactly the marked entries

`Deleters_Model.v`: iterator state machines; removal equals filtering by marked positions.

Status: **partial**. DictDeleter and the forward ListDeleter are proved in full, and so is what is removed going backward. Going backward the last element is presented twice (index -1), and prev() from the first element wraps around: refuted.

Theorems: `C18_dict_deleter`, `C18_list_forward`, `C18_list_backward_partial`, `C18_list_calls_partial`, `C18_presented_twice_refuted`, `C18_prev_wraps_refuted`, `C18_full_statement_refuted`.

### C19 group_quantity partitions its input

`Sequences_Model.v`: both branches of group_quantity, as fuel-free recursion over lists / index loop.

Status: **proved**. The cut is unique, so both variants give the same groups. For a length that is not positive (outside of the property) the sequence variant does not end.

Theorems: `C19_group_quantity`, `C19_variants_agree`, `C19_iterator_is_lazy`, `C19_not_positive_diverges`.

### C20 is_last, add_next, half_cartesian, index_of, index_of_max and the filters meet their contracts

`Sequences_Model.v`: direct list functions, specs by nth/positions.

Status: **partial**. All helpers proved for all inputs, but is_last of an empty input, which raises RuntimeError instead of yielding nothing (refuted).

Theorems: `C20_is_last_partial`, `C20_add_next`, `C20_half_cartesian`, `C20_half_cartesian_of_iterator`, `C20_filters`, `C20_index_of`, `C20_index_of_max`, `C20_make_list`, `C20_infinite_iterator`, `C20_is_last_empty_refuted`, `C20_full_statement_refuted`.

### C21 Iterator helpers (skip_first, stop_after, take_n, n_th, shift, zip_shifted, even, odd, unique, count, smart_enumerate, is_empty, length, iter_dict_of_list) meet their list specifications

`Iterators_Model.v`: generators as list functions; specs by firstn/skipn/nth.

Status: **partial**. All proved, with how much of the source is read; refuted for sources shorter than asked for: skip_first and stop_after raise RuntimeError, take_n raises StopIteration, shift raises StopIteration, zip_shifted returns None.

Theorems: `C21_even`, `C21_odd`, `C21_unique`, `C21_count`, `C21_enumerate2`, `C21_smart_enumerate`, `C21_infinite_counter`, `C21_append_sequence`, `C21_to_iterator`, `C21_length`, `C21_iter_dict_of_list`, `C21_is_empty`, `C21_n_th`, `C21_take_n_partial`, `C21_skip_first_partial`, `C21_stop_after_partial`, `C21_no_longer_than`, `C21_shift_partial`, `C21_shift_too_far`, `C21_zip_shifted_partial`, `C21_smart_zip`, `C21_f_range`, `C21_f_range_arguments`, `C21_iterate_callable`, `C21_skip_first_short_refuted`, `C21_stop_after_short_refuted`, `C21_take_n_short_refuted`, `C21_zip_shifted_none_refuted`, `C21_full_statement_refuted`.

### C22 merge_list / merge_series produce ordered, complete merges

`Merge_Model.v`: merge_list over the heapq model with entries (key, value, index); merge_series over the SetHeap model, with its preloaded values. Invariants: every nonempty source has an entry in the heap not above its next key; every series stands at the last timestamp reported and the heap holds the next ones.

Status: **partial**. merge_list is proved in full (values comparable; heap tuples compare them on ties). merge_series is proved for series none of which has two elements before every other has started; otherwise it may raise ValueError (refuted). An empty series gives an empty result where ValueError is documented (refuted).

Theorems: `C22_merge_list`, `C22_merge_series_partial`, `C22_series_ahead_refuted`, `C22_empty_series_refuted`, `C22_full_statement_refuted`.

### C23 clip, percentile, linear_interpolate, list_values_to_indices, pad_to_multiple_of_length, is_subset, unpack_dict, split_shuffle_and_join

`Transforms_Model.v` over exact rationals (`Q`); bisect_left of the library is modelled with fuel. `Transforms_Spec.v` says what nearest point, order, the line through two points and the shortest padding are; percentile and linear_interpolate are proved to be that line on every segment, hence bounded, monotone and exact at stored points. random.shuffle and the iteration order of set are oracles (any permutation, any duplicate-free enumeration).

Status: **proved**. Over rationals: float rounding is not modelled. percentile for sorted non-empty lists and percent in [0,1], linear_interpolate for sorted non-empty series (both documented). A KeyError raised by map_through of unpack_dict is taken for a missing key (example in the theorem file).

Theorems: `C23_clip`, `C23_percentile_interpolates`, `C23_percentile_single`, `C23_percentile_bounds`, `C23_percentile_monotone`, `C23_interpolate`, `C23_interpolate_stored`, `C23_interpolate_between_neighbours`, `C23_pad`, `C23_is_subset`, `C23_indices`, `C23_words`, `C23_split_shuffle`, `C23_unpack`, `C23_unpack_missing`, `C23_one_tuple`, `C23_none_if_false`.

### C24 Merging configuration sources: later sources override, nested dictionaries merge, failures follow the policy

`Sources_Model.v`: dictionaries and lists live in a memory with addresses, because merge_dicts works in place and aliases the objects of its second argument. `Sources_Spec.v`: `join` of written-down trees, `outcome` of a source tree (first success, first stop, all failed), `rep m v t f` (value v is the tree t made of the objects f) with disjoint footprints. Induction over source trees, inside it a separation-style invariant for the merging loop.

Status: **partial**. Proved over a memory of dictionaries and lists for all nestings of sources and configurations: the first call with StaticSources that share no objects, and any history of calls of sources without StaticSource. Refuted for a second call with StaticSources: merge_dicts puts the objects of the first source into the result and then changes them, so lists of a StaticSource grow with every provide(). Not modelled: parsing of formats, files and environment (a source that makes a new object or fails), load_source_from_dict.

Theorems: `C24_merge_dicts`, `C24_join_keys`, `C24_last_leaf_wins`, `C24_provide_partial`, `C24_history_partial`, `C24_no_statics`, `C24_optional`, `C24_second_call_refuted`, `C24_full_statement_refuted`.

### C25 Schema descriptors accept exactly the described values and fill in defaults

Schema_Model.v: descriptors as trees with the contents of their two CallableGroups as state, values as JSON-like trees; BASIC_MAKERs, Caster functions, matches of regular expressions and mappers are parameters. Spec: Dict by what is under each key, Union by its first accepting descriptor, List elementwise; induction on the fuel (depth of the descriptor). Histories: answers do not change while no checker refuses.

Status: **partial**. Dict and Union proved in full in terms of what their nested descriptors answer. Descriptors have state: a checker that refuses a value is dropped from its CallableGroup, so List() takes a string the second time it is asked (refuted, also within one List of Unions); proved for histories in which no checker refused before. That the input is not modified is C122_input_kept, in a model with mutable lists and dictionaries.

Theorems: `C25_dict_accepts`, `C25_dict_outcome`, `C25_union`, `C25_union_refuses`, `C25_list_partial`, `C25_list_error_partial`, `C25_list_refuses`, `C25_again_partial`, `C25_refusals_partial`, `C25_fuel`, `C25_full_statement_refuted`, `C25_list_second_time_refuted`, `C25_checker_second_time_refuted`, `C25_list_of_union_refuted`, `C25_regexp_refuted`.

### C26 ExponentialBackoff: doubling, capped, reset on success

Backoff_Model.v: the state machine with the clock readings as inputs, wait_until_available with the turns of its loop as inputs, launch with the outcomes of the function as inputs. Spec: number of failures since the last success and the time of the last one determine every answer. Invariant by induction over the calls.

Status: **partial**. Proved for 0 < start <= limit and clocks that do not go back; the next check is due when strictly more than the wait has passed. Refuted: the first wait is not capped by limit; wait_until_available waits past its timeout and then raises although the service can be checked; the documented example of `available` fails.

Theorems: `C26_backoff_partial`, `C26_launch`, `C26_launch_raises`, `C26_wait_returns`, `C26_wait_raises`, `C26_full_statement_refuted`, `C26_first_wait_above_limit_refuted`, `C26_available_refuted`, `C26_wait_timeout_refuted`.

### C27 measure reports exactly the time spent running

Measure_Model.v: every method with its clock readings as inputs. Spec: a stopwatch (time measured before, since when it runs); refinement by a relation between the two, induction over the calls.

Status: **partial**. Proved for all sessions (no assumption on the clock) that do not start a counter which has already measured something: start() after stop() loses what was measured instead of resuming (refuted), and for those too with this written into the specification. `stopped` is wrong with stop_on_stop=False (refuted).

Theorems: `C27_stopwatch_partial`, `C27_forgetful_stopwatch_partial`, `C27_remaining`, `C27_decorated`, `C27_full_statement_refuted`, `C27_resume_refuted`, `C27_stopped_refuted`.

### C28 parse_time_string understands number+unit

ParseTime_Model.v over strings with float() as a parameter. Spec: a number without unit letters followed by a word whose first letter is the unit; case analysis on the letters.

Status: **partial**. For every float(). Proved for units spelled s, sec, second(s), m, min, minute, h, hour, d, day, w, week; refuted for minutes, hours, days, weeks, since the s in them is taken for seconds.

Theorems: `C28_number_and_unit_partial`, `C28_understood_units`, `C28_plain_number`, `C28_number`, `C28_full_statement_refuted`, `C28_plural_refuted`.

### C29 BinaryParser reads exactly the window it was given

Parser_Model.v: parsers over one stream, get_parser adding one; Python slices; struct.Struct as size and unpack function. Spec: readers of windows (lists of bytes) with the number of bytes consumed. Refinement by induction over the calls.

Status: **partial**. Proved for all sessions with any number of nested parsers over a window that is not empty and lies within the stream (or all of it), amounts not negative. Refuted: an offset without length and a length past the end of the stream (reads return too few bytes instead of raising), get_parser(0) (a window that exceeds the parent's).

Theorems: `C29_reads_the_window_partial`, `C29_offset`, `C29_nothing_lost`, `C29_full_statement_refuted`, `C29_offset_without_length_refuted`, `C29_length_too_large_refuted`, `C29_empty_window_refuted`.

### C30 CallableGroup calls every live callback, in order, with the arguments given

`CallGroup_Model.v`: callbacks are numbers, functions may cancel and add while they run (given by the call); `CallGroup_Spec.v`: the registry and the turns of a call; refinement by induction on the history, plus the general behaviour on an exception.

Status: **partial**. Proved for all histories of add/cancel/call in which exceptions are swallowed or do not happen, functions may cancel but not add, and a group that is called has a live callback or none. Refuted: with all callbacks cancelled the results hold a None each (has_cancelled_callbacks answers the opposite); an exception that is not swallowed unregisters the callback and all after it (proved in general); a function added from a callback comes before that callback; the same function added twice is called twice; CallNoOftenThan never calls within the interval from the clock's zero.

Theorems: `C30_session_partial`, `C30_call_partial`, `C30_exception_loses_the_rest`, `C30_no_often_apart`, `C30_no_often_due`, `C30_full_statement_refuted`, `C30_all_cancelled_refuted`, `C30_has_cancelled_refuted`, `C30_exception_unregisters_refuted`, `C30_order_after_reentrant_add_refuted`, `C30_added_twice_refuted`, `C30_no_often_first_refuted`.

### C31 Futures run pre-done callbacks before becoming done and deliver one result

`Futures_Model.v`: Future/WrappingFuture state machine, callbacks given as scripts that may contain what other threads do without the lock; log of callback calls with what they see. `Futures_Spec.v`: an abstract promise. Refinement by induction on the history; FutureCollection by induction on its members.

Status: **partial**. Proved for all histories in which callbacks neither cancel the future nor replace an exception with a result, no other thread touches it while they run, and cancelling meets no pre-done or on_success callbacks; completion at most once after set_result returned holds without these. Refuted: an exception can not be replaced; another thread sees the result before the callbacks changed it, or sets it again unrefused; cancelling from a callback calls done callbacks twice; cancel() calls no pre-done callbacks but does call on_success; a WrappingFuture whose source is cancelled never calls its done callbacks; FutureCollection.cancel/set_running stop at the first refusal/success.

Theorems: `C31_future_partial`, `C31_wrapping_partial`, `C31_completed_once`, `C31_collection_result`, `C31_collection_result_raises`, `C31_collection_exception_none`, `C31_collection_exception_first`, `C31_collection_set_partial`, `C31_collection_cancel_partial`, `C31_collection_cancel_stops`, `C31_collection_running_partial`, `C31_collection_running_stops`, `C31_full_statement_refuted`, `C31_recover_refuted`, `C31_seen_too_early_refuted`, `C31_set_twice_refuted`, `C31_cancel_inside_refuted`, `C31_cancel_calls_no_pre_refuted`, `C31_success_of_cancelled_refuted`, `C31_wrapped_cancelled_refuted`, `C31_wrapping_cancel_refuted`, `C31_collection_cancel_refuted`, `C31_collection_running_refuted`.

### C32 AtomicNumber operations are atomic

Instance of the generic monitor machine over Z: each operator is read, compute, write as separate steps. C32_atomic_partial: every execution is explained by a serial log that agrees with time; C32_additions_add_up. % is missing from the class (refuted), and operands that are AtomicNumbers deadlock (refuted on a model of the locks). Floats, / and negative exponents, wait and wait_until_equal are not modelled here.

Status: **partial**. Proved for all programs, threads and schedules over int operands. Refuted: % is not supported although the number is to be treated like a normal one; an operand that is the number itself deadlocks the thread; a == b against b == a deadlocks two threads.

Theorems: `C32_atomic_partial`, `C32_additions_add_up`, `C32_full_statement_refuted`, `C32_no_remainder_refuted`, `C32_operand_itself_refuted`, `C32_two_numbers_refuted`.

### C33 MonitorSet.insert_and_check admits each element exactly once

Instance of the generic monitor machine; the set is a list. C33_admitted_once counts the completed calls over all threads.

Status: **proved**. For every number of threads, programs, schedule and moment.

Theorems: `C33_admitted_once`, `C33_serial`, `C33_can_finish`.

### C34 PeekableQueue delivers every item once in FIFO order

Machine with the queue's lock, the condition's lock and CPython's list of waiters; events are turns and expiries, in any order. FIFO by an invariant with a serial log (C34_fifo, C34_order); giving up (C34_gives_up_only_when_empty) and ending (C34_timed_calls_can_finish) for all schedules; C34_nobody_sleeps_partial counts items against threads on their way. qsize is not modelled.

Status: **partial**. FIFO order, no loss and no duplication proved for all programs, threads and schedules; waking up proved for gets without timeout when nobody runs between the release of the lock and the wait. Refuted: a put in that window is not noticed and the consumer sleeps for good; peek, or a get whose time is just over, takes the wakeup of another; get(timeout) may raise ResourceLocked.

Theorems: `C34_fifo`, `C34_order`, `C34_gives_up_only_when_empty`, `C34_timed_calls_can_finish`, `C34_nobody_sleeps_partial`, `C34_full_statement_refuted`, `C34_lost_wakeup_refuted`, `C34_peek_takes_the_wakeup_refuted`, `C34_expired_takes_the_wakeup_refuted`, `C34_resource_locked_refuted`.

### C35 LockedDataset grants access to one thread at a time

Locked_*: threads with any programs of with-blocks and bare accesses, any schedule of turns and timeouts. Invariant: a thread is inside iff the lock is its own; serial log of blocks; potential for termination. False parts refuted by concrete schedules.

Status: **partial**. Mutual exclusion, seriality of blocks and absence of deadlock for every schedule. Refuted: the flag that accesses check belongs to the object and not to the thread, so an access without the lock succeeds while anybody else is inside; the flag is cleared after the release, so a thread inside can get ResourceNotLocked; a failed acquisition raises WouldWaitMore; the arguments of one with block are used by later ones.

Theorems: `C35_one_at_a_time`, `C35_blocks_are_serial`, `C35_can_finish`, `C35_outside_raises_partial`, `C35_inside_works_partial`, `C35_full_statement_refuted`, `C35_inside_works_refuted`, `C35_fails_with_ResourceLocked_refuted`, `C35_outside_access_refuted`, `C35_inside_refuted`, `C35_would_wait_refuted`, `C35_arguments_stay_refuted`, `C35_arguments_mixed_refuted`.

### C36 memoize / cache_memoize return the stored result and run the function once per key

Memo_*: threads calling the decorated function, any schedule, clock readings and outcomes of the function. Invariant: lock ownership; every stored value and timestamp stands for an evaluation; sequential spacing of evaluations. Keyword arguments refuted.

Status: **partial**. For every number of threads and schedule a returned value is one of an evaluation on the same positional arguments (for cache_memoize not older than the duration); calls that do not overlap evaluate once per arguments and window. Refuted: keyword arguments are not part of the key (documented for memoize only), and the function runs in several threads at once although memoize's docstring denies it.

Theorems: `C36_returns_a_value_of_the_function`, `C36_evaluated_once`, `C36_can_finish`, `C36_full_statement_refuted`, `C36_runs_twice_refuted`.

### C37 retry runs the function until the first success, at most `times` times

Retry_*: loop over attempts with the function and all callbacks as parameters and the calls recorded; induction over leading failures; fuel for times=None.

Status: **partial**. Proved for every outcome sequence, every positive or absent times and callbacks that do not raise; the bound on the number of calls also for callbacks that raise. Refuted: times=0 is an UnboundLocalError; a listed exception raised by call_on_success makes the successful function run again; call_between_retries is called after the last failure too.

Theorems: `C37_retry_partial`, `C37_unlimited_partial`, `C37_unlimited_goes_on_partial`, `C37_at_most_times`, `C37_failures_are_calls`, `C37_full_statement_refuted`, `C37_zero_times_refuted`, `C37_success_callback_refuted`, `C37_between_without_retry_refuted`.

### C38 Exception translators touch exactly the listed exceptions

Recast_*: any exception type with any isinstance relation; rethrow_as with its per-thread flag and functions that call themselves as trees; first matching pair by induction over the mapping.

Status: **partial**. For every exception type and isinstance relation. Refuted: a recursive function decorated with rethrow_as or silence_excs returns None from the outer call when an inner one was silenced; as decorators reraise_as and log_exceptions ignore listed classes that do not derive from Exception. Generator functions under log_exceptions and the formatting of the message are not modelled.

Theorems: `C38_raises_exception`, `C38_catch_exception`, `C38_reraise_as_block`, `C38_rethrow_as_block`, `C38_log_exceptions_block`, `C38_reraise_as_decorator_partial`, `C38_log_exceptions_decorator_partial`, `C38_rethrow_as_decorator_partial`, `C38_silence_excs_partial`, `C38_rethrow_as_arguments`, `C38_full_statement_refuted`, `C38_recursion_refuted`, `C38_base_exception_refuted`, `C38_reraise_as_decorator_refuted`.

### C39 CPManager never hands one connection to two users and tears each down at most once

Model: Pool_Model.v, a machine in which any number of threads run acquire, release, fail, invalidate and close with the monitor's lock, the queue, the counters and the flags as shared state, one turn between two shared operations. Proof: Pool_Proofs.v, an invariant counting each connection over idle, held, moving and torn down, with a per-place fact about its counter; progress by a potential that always lets the lock's holder move. Statements and refutations: Pool_Theorems.v.

Status: **partial**. For every number of threads, program and interleaving: each connection is in exactly one place, is torn down at most once and never handed out afterwards, is handed out at most max_cycle_no times, never after being failed; at most max_number are idle; invalidate and close leave nothing idle at the moment they return. False of the code: invalidate can deadlock the pool; a connection released after close is never torn down; a close that returns while another is starting does not stop acquisitions; max_number does not bound the number of leased connections; max_number<=0 spins forever.

Theorems: `C39_accounted`, `C39_one_place`, `C39_never_again`, `C39_recycled`, `C39_idle_usable`, `C39_idle_bounded`, `C39_no_key_error`, `C39_invalidated`, `C39_closed`, `C39_can_finish_partial`, `C39_full_statement_refuted`, `C39_invalidate_deadlock_refuted`, `C39_can_finish_refuted`, `C39_zero_spins_refuted`, `C39_release_after_close_refuted`, `C39_returned_close_refuted`, `C39_number_refuted`.

### C40 HistogramMetric counts every non-negative observation in exactly one bucket

Metrics_{Model,Spec,Proofs,Theorems}.v. The metric is a fold of _handle over the history of (value, labels); the exported data are characterised as an inductive relation on the history (iff). Grouping of a history by labels is a ghost that the children's states are a map of. Partition of the non-negative numbers by sorted limits by induction.

Status: **proved**. For every history, with or without labels, the exported data are exactly: every bucket with the number of observations in it, their count and sum, per set of labels and in total. Integers instead of floats. Findings: negative observations are in no bucket (they are in count and sum); the code exports the upper end as label ge and the lower end as label le, the wrong way round.

Theorems: `C40_histogram_exports_exactly`, `C40_one_bucket`, `C40_buckets_sum`, `C40_negative_refuted`.

### C41 Counter, Summary, CPS and Linkfail metrics report exactly what was fed

Metrics_{Model,Spec,Proofs,Theorems}.v. Counter, summary, clicks and link failure metrics as folds over the history; exported data characterised exactly (iff) by inductive relations on the history: sums, last_n windows sorted, clicks not older than the period, streaks of outcomes; callbacks as the list of transitions. Clock readings are part of the history.

Status: **partial**. Counter: full. Summary: for last_calls other than 0, where every handle raises IndexError; after a labelled observation the unlabelled ones are in no quantile. CPS: when the clock advanced since the last handle; refuted for equal readings; unlabelled clicks are lost once there are labelled ones. Linkfail: full for unlabelled use apart from .status, which is shared by all addresses; labelled data are never exported and their callbacks get address 0, but each set of labels goes offline and online as documented (C41_linkfail_labelled_callbacks).

Theorems: `C41_counter_exports_exactly`, `C41_summary_exports_exactly_partial`, `C41_summary_handle_succeeds`, `C41_cps_exports_exactly_partial`, `C41_linkfail_callbacks_partial`, `C41_linkfail_exports_partial`, `C41_summary_zero_refuted`, `C41_summary_mixed_refuted`, `C41_cps_full_statement_refuted`, `C41_cps_mixed_refuted`, `C41_linkfail_status_full_statement_refuted`, `C41_linkfail_status_refuted`, `C41_linkfail_labelled_refuted`, `C41_linkfail_labelled_callbacks`, `C41_linkfail_labelled_exports_refuted`.

### C42 MetricDataCollection union keeps the newest datum per (name, labels); JSON round-trips

heap of data objects and a set that stores the hash of each element at insertion (MetricData_*); each operation's exact contents for valid collections by induction over the set, the JSON round trip by dictionary lemmas; the stale hashes and the sharing refuted.

Status: **partial**. Union, addition of a datum, and every other operation are exact for collections none of whose elements were renamed after they were added; JSON round-trips for labels avoiding the reserved names. False in general: prefix_with/postfix_with leave the elements under their old hashes, so a later addition keeps two data with the same name and labels (proved for every hash function that tells the two names apart), and a + b shares its elements with a, so renaming the sum renames a.

Theorems: `C42_union_partial`, `C42_datum_partial`, `C42_set_value`, `C42_set_timestamp`, `C42_prefix`, `C42_postfix`, `C42_add_labels`, `C42_new_labels_win`, `C42_names`, `C42_remove_internals`, `C42_strict_eq`, `C42_json`, `C42_from_json`, `C42_to_json_quiet`, `C42_stale_hash_refuted`, `C42_full_statement_refuted`, `C42_shared_refuted`, `C42_json_reserved_refuted`.

### C43 A metric records data only at its effective level and exports enabled children

heap of metric objects and the registry (MetricTree_*); an invariant over all histories (parents older, links between registered names and parents, children), effective levels as an inductive relation, getMetric by induction over the parts of the name, exports by induction over the tree.

Status: **partial**. For every history of getMetric, level assignments, handle and reset. The refuted expectations go beyond the property: names with empty parts or resets make two metrics appear under one exported name; a DISABLED metric is exported; a metric below a leaf is registered although getMetric raised.

Theorems: `C43_level`, `C43_handle`, `C43_same_metric`, `C43_wrong_type_changes_nothing`, `C43_ancestors`, `C43_children`, `C43_export`, `C43_export_complete`, `C43_export_sound_partial`, `C43_reset`, `C43_full_statement_refuted`, `C43_reset_leaves_a_copy_refuted`, `C43_below_a_leaf_refuted`, `C43_root_type_refuted`, `C43_disabled_exported_refuted`, `C43_reset_of_empty_part_refuted`, `C43_string_type_refuted`.

### C44 make_noncolliding_name returns a free name of the documented form

Files_Model models posixpath.split/join, str.split and the loop with visible fuel; Files_Theorems: the result is the first free candidate, and there is one if finitely many exist (injectivity of the numbering, pigeonhole).

Status: **proved**. On POSIX paths; the name is the first free one, and finitely many existing files make it end.

Theorems: `C44_first_free`, `C44_ends`, `C44_parts`.

### C45 write_out_file_if_different leaves the file with the given content and reports whether it wrote

Files_Model: file system as a function from paths to nodes, the states gone through while writing (crash points) with arbitrary partial writes; Files_Theorems: final content, return value, other files at every state; refutations for undecodable and unreadable files and lost content.

Status: **partial**. Proved for a file that is absent or readable, writable and decodable; other files are untouched at every crash point. A content that cannot be decoded or read raises instead of being replaced; data that cannot be encoded, and a crash, leave the file truncated.

Theorems: `C45_content_partial`, `C45_other_files`, `C45_full_statement_refuted`, `C45_unreadable_refuted`, `C45_content_lost_refuted`.

### C46 Closeable.close runs its cleanup once

Model: Deferred_Model.v (cturn), threads calling close() with the read and the write of the flag as separate turns. Proof: invariants over all turns; one thread by induction on the calls. Deferred_Theorems.v.

Status: **partial**. In one thread exactly the first close() is told to clean up, whatever the sequence; with any number of threads the cleanup has run once any close() has returned, and runs at most once if close() calls do not overlap. Two overlapping calls can both be told to clean up, and the documented RuntimeError for an object not initialised is not raised.

Theorems: `C46_one_thread`, `C46_cleanups`, `C46_not_initialised`, `C46_at_least_once`, `C46_at_most_once_partial`, `C46_full_statement_refuted`, `C46_twice_refuted`, `C46_no_runtime_error_refuted`.

### C47 unique/AlreadySeen/ListWrapperIterator/PushIterable/Subqueue/RollingArithmeticAverage keep their sequence contracts

Wrappers_Model runs operation lists on each object; ListWrapperIterator is refined to a view (how many taken, position, end met) over the wrapped list, PushIterable to the list to come, Subqueue to a function from names to lists plus the order of names and a FIFO history law, RollingArithmeticAverage to the last n of the values since clear, AlreadySeen to membership among the previous. Wrappers_Theorems; negative indices, open slices, 'in' during iteration, second iterations and mixtures of hashables refuted.

Status: **partial**. PushIterable, Subqueue (one thread) and RollingArithmeticAverage (n >= 1, whole numbers) are proved in full. ListWrapperIterator answers as the list, taking only what is needed, but not for negative indices and slices without a stop before its end was met (refuted); 'in' moves the iteration and a second iteration yields nothing (refuted). AlreadySeen raises on mixtures of hashable and unhashable elements (refuted).

Theorems: `C47_list_wrapper_partial`, `C47_list_answers_partial`, `C47_full_statement_refuted`, `C47_from_the_end_refuted`, `C47_in_moves_refuted`, `C47_second_iteration_refuted`, `C47_push_iterable`, `C47_subqueue_fifo`, `C47_subqueue`, `C47_rolling_average`, `C47_no_window`, `C47_already_seen_partial`, `C47_seen_full_statement_refuted`, `C47_mixture_refuted`.

### C48 DeferredValue is set once and every reader gets that value

Model: Deferred_Model.v (dturn, dexpire), threads calling set_value and value with check, write, event and read as separate turns. Proof: invariants over all schedules, progress by a potential. Deferred_Theorems.v.

Status: **partial**. For every schedule a returned value is one that was given, and after a set_value nobody waits for ever. Set once and one value for everybody: proved when set_value is called once in all, or when nobody moves between its check and its write; false otherwise (two calls of set_value can both succeed).

Theorems: `C48_only_values_given`, `C48_set_wakes_everybody`, `C48_one_setter_partial`, `C48_undisturbed_partial`, `C48_full_statement_refuted`, `C48_set_twice_refuted`.

### C49 Terminable threads always clean up exactly once

Thread_Model: the thread's own steps (TerminableThread.run, IntervalTerminableThread.run, safe_sleep), interleaved with terminate(), terminate(force=True) and the ends of the user's methods, in any order; invariants over event lists about the trace of calls, a potential for ending soon.

Status: **partial**. Everything about calls, cleanup and termination is proved for every interleaving; refuted: a thread ended by SystemExit is not marked as terminating although SystemExit is said to be added to terminate_on, terminate_on is not applied to on_overrun(), safe_wait_condition(timeout=0) looks at nothing and wake_up_each=0 never ends; forced termination may skip cleanup (as documented).

Theorems: `C49_cleanup_exactly_once`, `C49_never_twice`, `C49_no_loop_once_seen`, `C49_one_more_loop_at_most`, `C49_ends_soon`, `C49_how_it_ends`, `C49_interval_timely`, `C49_safe_wait`, `C49_safe_sleep`, `C49_pieces`, `C49_forced_refuted`, `C49_forced_early_refuted`, `C49_system_exit_refuted`, `C49_overrun_refuted`, `C49_zero_timeout_refuted`, `C49_zero_wake_refuted`.

### C50 frozendict cannot be changed and hashes by content

Frozen_Model: dict operations, of which frozendict redefines three; hash as a fold of xor shown independent of the order by removing one key at a time.

Status: **partial**. Equal frozendicts hash equal in any order; __setitem__ and update raise. del, pop, popitem, clear, setdefault and |= are inherited from dict and change it (and its hash).

Theorems: `C50_unchanged_partial`, `C50_writes_raise`, `C50_equal_hashes`, `C50_full_statement_refuted`, `C50_inherited_refuted`.

### C51 choose, choose_one and choose_with_index find the element they promise

`Iterators_Model.v`: loops over the iterable with what is left of it; spec by position of the first match and by the filtered list.

Status: **partial**. All proved but exhaustion of the iterable, which does not happen when choose_one raises for a second match (refuted).

Theorems: `C51_choose_first`, `C51_choose_one`, `C51_choose_with_index`, `C51_exhausts_partial`, `C51_exhausts_refuted`, `C51_full_statement_refuted`.

### C54 Methods of a Monitor take effect one at a time

Generic machine in Monitor_Model.v: bodies are sequences of steps, the schedule is any list of thread numbers. Proved by an invariant that keeps the serial log: C54_synchronized_methods_are_serial, C54_one_thread_inside, C54_can_finish. Monitor.release, RMonitor and monitors that call one another are not modelled (but see C32 for two AtomicNumbers).

Status: **proved**. For every protected object and bodies cut into steps in any way.

Theorems: `C54_synchronized_methods_are_serial`, `C54_one_thread_inside`, `C54_can_finish`.

### C56 call_in_separate_thread's future is resolved with what the function did

Thread_Model: the thread's steps interleaved with cancel(); invariant over event lists.

Status: **partial**. Proved for functions that return or raise subclasses of Exception; a function that raises SystemExit or the like leaves the future running for ever.

Theorems: `C56_called_once`, `C56_future_resolved_partial`, `C56_full_statement_refuted`, `C56_never_resolved_refuted`.

### C57 Objects of an Immutable class keep their attributes

Frozen_Model: attributes and the flag as state; induction over operation lists.

Status: **partial**. Proved except for an assignment to the attribute that holds the flag, which __setattr__ lets through.

Theorems: `C57_unchanged_partial`, `C57_full_statement_refuted`.

### C58 OmniHashableMixin's equality is an equivalence and its hash agrees with it

Frozen_Model: _generic_eq under Python's dispatch of == to the subclass first; algebraic laws.

Status: **proved**. For every class hierarchy and every equality of values that is an equivalence.

Theorems: `C58_equivalence`, `C58_not_equal`, `C58_equal_hashes`, `C58_meaning`.

### C59 files.split is an exact reverse of os.path.join

Files_Model models posixpath.split/join and the loop with visible fuel. Proved: relative paths are split in bounded steps and joined back with runs of slashes made one (so exactly, without double slashes). Refuted: absolute paths make the loop run for ever.

Status: **partial**. Proved for relative paths (up to repeated slashes); split of an absolute path never ends.

Theorems: `C59_relative_partial`, `C59_round_trip_partial`, `C59_deterministic`, `C59_absolute_refuted`, `C59_full_statement_refuted`, `C59_double_refuted`.

### C60 find_files yields exactly the matching files of the tree

Files_Model: nested inductive tree; refinement to the list of files with their names, filtered and joined. Refuted: the flags are dropped in subdirectories; directories are yielded when not scanned.

Status: **partial**. Proved for wildcards applied to names, and for directories without subdirectories; apply_wildcard_to_entire_path is lost in subdirectories, and unscanned subdirectories are yielded as files.

Theorems: `C60_by_name_partial`, `C60_no_subdirectories_partial`, `C60_full_statement_refuted`, `C60_shallow_full_statement_refuted`.

### C61 AutoflushFile has every write in the file as soon as write returns

Files_Model: state machine with the disk and the handle; refinement to the content after each operation. Refuted: reads always yield nothing since each opens the file at its end; modes a+ and ab+ raise.

Status: **partial**. The content is proved for all histories; reads always yield nothing, modes a+ and ab+ are refused.

Theorems: `C61_content`, `C61_answers`, `C61_reads_nothing_refuted`, `C61_reads_full_statement_refuted`, `C61_modes_refuted`.

### C55 AtomicNumber.wait_until_equal returns exactly when the number has the value

Await_*: machine with the monitor, the condition's lock and a place per thread; lock ownership invariant gives deadlock freedom; safety by cases; the liveness half is refuted (lost wakeup, silent operators) and proved when no store falls between a comparison and its wait

Status: **partial**. Proved for every interleaving: returns only when equal, WouldWaitMore only when not equal, no exception without a timeout, no deadlock. The liveness half is false of the code: a notification between the comparison and the wait is lost (the waiter sleeps for ever though the number has its value), operators such as |= do not notify, a timed call raises WouldWaitMore before its time is over when the number changes after it was seen equal, and may raise ResourceLocked. Proved when all changes notify and no store falls between a comparison and the wait after it.

Theorems: `C55_returns_when_equal`, `C55_would_wait_when_not`, `C55_untimed_raises_nothing`, `C55_no_deadlock`, `C55_nobody_oversleeps_partial`, `C55_waiters_return_partial`, `C55_lost_wakeup_refuted`, `C55_silent_operator_refuted`, `C55_full_statement_refuted`, `C55_raises_early_refuted`, `C55_resource_locked_refuted`.

### C52 Conversion to plain JSON and text values

Values as trees; jsonify and stringify as recursive functions; an inductive relation stands_for as the specification. Faithfulness, identity on JSON and success for printable values by induction; enum values and colliding keys refuted.

Status: **partial**. What is returned stands for the argument, and JSON data comes back as it is, for values of any size. Not every value becomes JSON: the value of an enum is not converted further, a tuple as a key raises TypeError, and two keys that become one lose an entry. Proved for values without these.

Theorems: `C52_jsonify_faithful`, `C52_jsonify_identity`, `C52_jsonify_serialisable_partial`, `C52_enum_value_refuted`, `C52_tuple_key_refuted`, `C52_full_statement_refuted`, `C52_keys_collide_refuted`, `C52_stringify_faithful`, `C52_stringify_strings`, `C52_stringify_identity`, `C52_stringify_flat`, `C52_elements_refuted`.

### C53 JSON encoding of arbitrary objects and data objects

default and the library's encoder as two mutually used functions with fuel, shown not to matter above the depth of the value; the rendering as an inductive relation. Data objects as dictionaries over a class with annotations and defaults.

Status: **partial**. Encoding ends and is faithful for every value; the data-object half is proved in full for objects of one class. 'Encodes everything' is false: dictionaries keyed by enums or tuples raise TypeError, except that enum keys work inside attributes of objects. Equality of data objects of different classes is not symmetric.

Theorems: `C53_encode_faithful`, `C53_encode_ends`, `C53_encode_json_identity`, `C53_encode_total_partial`, `C53_enum_key_refuted`, `C53_enum_key_inside_attribute`, `C53_tuple_key_refuted`, `C53_full_statement_refuted`, `C53_set_contents_lost`, `C53_unset_slot_refuted`, `C53_create`, `C53_to_json`, `C53_round_trip`, `C53_equality`, `C53_hash`, `C53_classes_refuted`, `C53_unknown_argument_refuted`.

### C62 Deep comparison with a place of difference

Values as trees with Python equality as the specification; assert_equal as a recursive function. Equal values accepted; refusals sound for containers it knows; the rest refuted.

Status: **partial**. Equal values are accepted, whatever they are. Refusals match inequality for containers that the function knows and that have the same kind on both sides; refuted beyond those.

Theorems: `C62_equal_accepted`, `C62_assert_equal_partial`, `C62_other_containers_refuted`, `C62_full_statement_refuted`, `C62_no_length_refuted`, `C62_incomparable_refuted`, `C62_set_reason_refuted`.

### C63 A PID file lock is held by at most one living process

Model: PidLock_Model - each system call of acquire() and release() is one step of one process on one file (with the identity of the file, for processes that write to a removed one); events start, crash and step processes in any order. Proof: invariants over event lists. Mutual exclusion is refuted (two processes clean up after a dead one; a file created but not yet written passes for an abandoned one) and proved with one call at a time and crashes anywhere, and for all interleavings without deaths and without reading a half-written file.

Status: **partial**. Mutual exclusion is false under free interleaving: two processes cleaning up after a dead one both get the lock, and so do two when one reads the file that the other has created but not yet written. Proved (1) with crashes and restarts anywhere if no two processes are inside a call at once, (2) under every interleaving if none dies and none reads a half-written file. What acquire() and release() do and what they raise is proved for every state.

Theorems: `C63_exclusive_partial`, `C63_exclusive_orderly_partial`, `C63_acquire_alone`, `C63_locked_by_the_living`, `C63_release`, `C63_no_missing_file_partial`, `C63_both_clean_up_refuted`, `C63_half_written_refuted`, `C63_full_statement_refuted`, `C63_missing_file_refuted`, `C63_same_pid_refuted`, `C63_third_gets_in_refuted`.

### C64 The memory pressure level follows the conditions, and every change of it is announced once

Model: Pressure_Model - conditions as a tree over one memory reading (exact rationals), the manager with its callback groups, checks as operations with the reading and the raising callbacks. Proof: structural induction over conditions, induction over the steps of an advance and over histories. Refuted: LocalRelativeValue fires when memory is plentiful; a raising callback ends the thread for ever, so that the level no longer follows the memory.

Status: **partial**. Levels, announcements and alternation are proved for every history without exceptions, cancellation for every history. False of the code: LocalRelativeValue(v) fires when more than v per cent are free (proved exactly); an exception in a callback or a condition ends the thread, after which the level never changes. Callbacks that register or cancel others while running are not modelled.

Theorems: `C64_conditions_partial`, `C64_local_relative_refuted`, `C64_full_statement_refuted`, `C64_conditions_total`, `C64_check`, `C64_check_documented_partial`, `C64_check_total`, `C64_alternation`, `C64_cancelled_never`, `C64_level_bound`, `C64_stopped`, `C64_registering`, `C64_raised_partial`, `C64_dead_forever_refuted`, `C64_no_maximum_refuted`, `C64_callbacks_lost_refuted`.

### C65 A timer runs its function once per start, after its interval, unless cancelled

Machine of the background thread with the heap of CPython whose comparisons may raise (HeapqC_Model); accounting of the entries as a permutation, invariants over all event lists; with no two timers due at the same instant the heap agrees with the heap of C01. Refuted for ties: start() raises TypeError, or the background thread dies.

Status: **partial**. Not early, once, not after cancel, sleep bound: for every execution. That start() never raises, the thread survives and every timer runs is proved when no two different timers are due at the same instant, and refuted otherwise: the entries of the heap then compare the Timer objects, which raises TypeError out of start() or kills the background thread so that no timer ever runs again.

Theorems: `C65_not_early`, `C65_once`, `C65_cancelled`, `C65_alive_partial`, `C65_round_partial`, `C65_all_run_partial`, `C65_sleeps`, `C65_sleep_bound`, `C65_dead_forever`, `C65_start_raises_refuted`, `C65_thread_dies_refuted`, `C65_full_statement_refuted`.

### C66 A predicate is the function it reads as

Deep embedding of expressions; build follows Python's dispatch between the left and the reflected method over the class's table; agreement with the direct evaluation by induction on the expression. Structures: inductive replacement relation, soundness and completeness by induction. Refuted for keywords, chained comparison, methods with arguments, inside(), dicts with other than one entry, strings.

Status: **partial**. Proved for every expression written with the operators and methods without arguments, and for structures of lists, tuples and one-entry dicts without strings. Refuted beyond: and/or/not/in and chained comparisons are decided when the expression is made; x.f(5) evaluates x.f at 5; attributes named like a method of predicates; x.inside(c) checks the converse; build_structure keeps the first entry of a dict only, raises UnboundLocalError for an empty dict and RecursionError for any string.

Theorems: `C66_expression_partial`, `C66_structure_sound_partial`, `C66_structure_complete_partial`, `C66_chained_comparison_refuted`, `C66_keywords_refuted`, `C66_methods_refuted`, `C66_structures_refuted`, `C66_full_statement_refuted`.

### C67 Wrapping a generator changes nothing but what it says

A generator is a state machine with an arbitrary resume function; the wrappers are machines on top of it; transparency by induction on the operations, completion by induction on the run of the generator. Refuted: the action runs again at each further next() and not when the end comes in send(); TypeErrors are lost; chain yields the iterable itself after a TypeError; hinted generator functions with a factory cannot be called.

Status: **partial**. A for loop runs the action exactly once; in general it runs at every next() that reports the end, and not when the end is reported by send(). close() swallows a TypeError of the generator; chain swallows a TypeError and yields the argument itself; a hinted generator function with a length factory raises ValueError when called.

Theorems: `C67_transparent`, `C67_for_loop`, `C67_runs_partial`, `C67_close_completes`, `C67_close_twice`, `C67_close_raises_partial`, `C67_next_direct`, `C67_chain_partial`, `C67_chain_raises_partial`, `C67_hint`, `C67_hint_call_partial`, `C67_runs_again_refuted`, `C67_type_error_lost_refuted`, `C67_chain_refuted`, `C67_hint_call_refuted`, `C67_full_statement_refuted`.

### C68 One instance, constructed once, per singleton key

Small-step machine of singleton_new shared by the one-thread semantics and the interleavings; refinement to an abstract table by induction on the operations, then sameness, difference and once-only construction from the table. Refuted for threads, weak references, raising constructors, keyword arguments.

Status: **partial**. Proved for one thread at a time and constructors that do not raise. Refuted: racing threads get two instances, or one that is not constructed yet; after a failed constructor the next call gets the unconstructed instance; keyword arguments are ignored; delete_singleton_for with all constructor arguments raises KeyError.

Theorems: `C68_refines_partial`, `C68_same_instance_partial`, `C68_other_instance_partial`, `C68_init_once_partial`, `C68_plain_partial`, `C68_race_refuted`, `C68_not_constructed_refuted`, `C68_weak_race_refuted`, `C68_plain_race_refuted`, `C68_failed_constructor_refuted`, `C68_arguments_refuted`, `C68_full_statement_refuted`.

### C69 get_arguments and call_with_arguments agree with Python calls

The two loops over the signature are modelled; Python's binding rule is specified declaratively per parameter. Induction on the parameter list, after splitting a legal signature into its five segments. Refuted where a positional parameter before *args is given by name, for surplus arguments, and for dictionaries with a gap.

Status: **partial**. The round trip and the error rules are proved for all legal signatures. Refuted: get_arguments(f, a=1) raises for def f(a, *args); surplus positional, unknown and duplicate arguments go unnoticed; keywords called function or special_behaviour are rejected; call_with_arguments with a left-out default passes later values to the wrong parameters.

Theorems: `C69_call_rule`, `C69_get_arguments_partial`, `C69_missing_is_a_TypeError`, `C69_only_TypeError`, `C69_surplus_ignored_partial`, `C69_call_with_missing`, `C69_call_with_extra`, `C69_call_with_partial`, `C69_round_trip`, `C69_star_refuted`, `C69_surplus_refuted`, `C69_reserved_refuted`, `C69_call_with_gap_refuted`, `C69_full_statement_refuted`.

### C70 Overloads are chosen by argument types

matches is modelled over the binder of C69, the choice over CPython's list.sort with the comparison the code defines. Proved: the first registered suitable function is called, provided the arguments bind to every signature. Refuted: most specific, different arities, unannotated parameters.

Status: **partial**. Proved: only suitable functions are called, and the first registered one of them. Refuted: the most specific function is not preferred; functions of different arity cannot be overloaded; unannotated parameters never match.

Theorems: `C70_called_suits_partial`, `C70_first_registered_partial`, `C70_unbindable`, `C70_unannotated_never_called`, `C70_register`, `C70_one_function_per_signature`, `C70_most_specific_refuted`, `C70_arity_refuted`, `C70_unannotated_refuted`, `C70_full_statement_refuted`.

### C71 Decorators on arguments

Decor_Model.v defines the decorators over the signatures and Python calls of Args_Model.v (both implementations of for_argument); Decor_Spec.v says which operation is attached to which parameter and what it means that all are applied or hold. Proved by reducing each decorator to C69's characterisation of binding. The full statements about for_argument and precondition are refuted.

Status: **partial**. Proved for all signatures and calls under the conditions stated. Refuted: for a function without defaults, an operation attached by position fails with AssertionError when the argument is passed by name and one attached by name is skipped when it is passed by position; a callable default is used as an operation; with keyword arguments the transform decorators see argument names instead of values; the predicate of replace_argument_if is never called; a positional condition or a postcondition returning 0 or None passes; a condition attached by name is bypassed by passing by position.

Theorems: `C71_for_argument_partial`, `C71_reserved`, `C71_transform_arguments_partial`, `C71_transform_result_partial`, `C71_transform_result_raises`, `C71_replace_argument_partial`, `C71_attach_arguments`, `C71_precondition_partial`, `C71_postcondition_partial`, `C71_passed_by_name_refuted`, `C71_passed_by_position_refuted`, `C71_callable_default_refuted`, `C71_full_statement_refuted`, `C71_transform_keywords_refuted`, `C71_predicate_ignored_refuted`, `C71_falsy_condition_refuted`, `C71_condition_bypassed_refuted`, `C71_condition_type_error_refuted`, `C71_precondition_full_statement_refuted`.

### C72 Context variables are resolved up the stack and a with block restores the thread's context

sequential machine of operations by threads; inductive visible/above relations; invariant that parents are older; with-programs by induction

Status: **partial**. Resolution, isolation of names and of threads, and entering are proved for all histories. That leaving restores the context is false in full: 'with Context():' looks at the parent of the object given to the with statement, not of the context it entered, so it leaves the thread without a context even when nested; proved for 'with Context(parent=Context.get()):', whatever happens inside. push_up at the top of the stack loses the variable, raises KeyError for an inherited one and pushes the deletion mark of a deleted one; a variable named like a method cannot be read. Warnings and attributes parent, variables, bool being assigned by the user are not modelled.

Theorems: `C72_getattr`, `C72_does_exist`, `C72_setattr`, `C72_delattr`, `C72_push_up_value`, `C72_push_up_own`, `C72_new`, `C72_enter`, `C72_get`, `C72_threads`, `C72_with_partial`, `C72_with_fresh`, `C72_full_statement_refuted`, `C72_nested_loses_refuted`, `C72_with_get_refuted`, `C72_push_up_loses_refuted`, `C72_push_up_inherited_refuted`, `C72_push_up_deleted_refuted`, `C72_name_of_method_refuted`.

### C73 sync_threadpool returns only when every earlier job is finished, and can always return

event machine of a thread pool and the caller; counting invariants for safety, a decreasing weight for progress, exact characterisation of the stuck states

Status: **partial**. Safety is proved for all schedules. Progress is false in full: a worker that goes to sleep after the notification, or a caller that goes to sleep after the last worker counted itself, waits for ever; proved that (without max_wait) these are exactly the stuck states. After a timeout the workers that had started a task sleep for ever, so the pool loses them, all of them in the worst case.

Theorems: `C73_done`, `C73_accounted`, `C73_only_timed`, `C73_can_return`, `C73_stuck_partial`, `C73_timeout_loses_workers`, `C73_late_worker_refuted`, `C73_late_caller_refuted`, `C73_full_statement_refuted`, `C73_timeout_refuted`, `C73_dead_pool_refuted`.

### C74 A Closeable is cleaned up exactly once

Sequential part: state machine of the slot, compared with a function of the history. Threads: the check, the mark and the cleanup are separate steps; invariant over schedules that names exactly the threads that clean up; the claim for threads is refuted.

Status: **partial**. Proved in full for one thread. With several threads closing the same object the cleanup can run several times (exactly by the threads that check before anybody's mark is made), and close() can return in one thread while another is still cleaning up.

Theorems: `C74_history`, `C74_once`, `C74_cleaners_partial`, `C74_cleaned_in_the_end_partial`, `C74_apart_partial`, `C74_twice_refuted`, `C74_early_return_refuted`, `C74_full_statement_refuted`.

### C75 Uncaught exceptions reach the registered handlers in order of priority, each once

State machine of the registry; except_handle on a stable sort; specification as a relation: an ordering by priority and position, and a chain with one rule per kind of handler and outcome.

Status: **partial**. Order, interception, failures, registration and threads are proved for all histories. 'At most once' fails if the former hook (GlobalExcepthook().old_excepthook) is itself added; proved otherwise. A callable added twice becomes two handlers and runs twice, and cannot be removed by itself.

Theorems: `C75_order`, `C75_consulted`, `C75_registered`, `C75_add_remove`, `C75_threads`, `C75_once_partial`, `C75_former_hook_refuted`, `C75_callable_twice_refuted`, `C75_full_statement_refuted`.

### C76 A transaction is committed or rolled back, never both, and everything opened is closed

Every call of connection and cursor is recorded in a log and may raise according to an arbitrary function of the log; the log is compared with a plan executed up to the first failure; programs with nested with statements by induction on their size.

Status: **partial**. Exact log of calls for every body that does not nest the same object, and every failure. The full statement is false: if commit() or rollback() raises, the cursor and the connection are left open (and a failed commit is not rolled back, and a failed rollback hides the exception of the body); if the same object is nested, the outer cursor is never closed and the inner one twice. A getter that is not a plain function (a bound method, a partial) is taken for the connection itself.

Theorems: `C76_calls_partial`, `C76_reliable`, `C76_commit_or_rollback_partial`, `C76_getter_once`, `C76_commit_fails_refuted`, `C76_nested_refuted`, `C76_full_statement_refuted`.

### C77 A lazily loaded object is loaded before its methods run, and the database is asked once

State machine of the flag and a counter of questions to the database; induction over call sequences.

Status: **partial**. Proved for all sequences of calls of one thread. The documented meaning of load_lazy is inverted in the code: it is with False that the constructor asks the database.

Theorems: `C77_loaded`, `C77_loaded_iff`, `C77_asked_once`, `C77_method`, `C77_constructor_partial`, `C77_full_statement_refuted`.

### C78 A Proxy computes what the object it wraps computes; a chain on Optional(None) does nothing

Values are objects or proxies of values; each special method is modelled with Python's dispatch to reflected methods, for arbitrary operators of the objects. Theorem by induction on expressions and nesting; chains by induction.

Status: **partial**. For every expression without % and round(x), whatever the operators of the objects do. Refuted: % of a proxy is a TypeError; round(x) is round(x, 0); with wrap_operations & and | are not wrapped, and the proxies that come out have no wrap_operations, so the second of two operations is not; of the comparisons with Optional(None) only == is false (!= is True, < raises TypeError).

Theorems: `C78_expressions_partial`, `C78_inplace_partial`, `C78_compare`, `C78_shed`, `C78_wrap_partial`, `C78_empty`, `C78_present`, `C78_empty_tests`, `C78_optional_equal_partial`, `C78_full_statement_refuted`, `C78_mod_refuted`, `C78_round_refuted`, `C78_wrap_full_statement_refuted`, `C78_wrap_and_refuted`, `C78_wrap_second_refuted`, `C78_optional_full_statement_refuted`, `C78_optional_compare_refuted`.

### C79 A typednamedtuple holds the values given, converted to the types of its fields

The constructor is modelled for arbitrary types, isinstance and conversions; shown to accept exactly the calls for which the specification has a tuple, by induction on the fields.

Status: **partial**. Accepted calls and the tuples they make are characterised exactly for calls with at most as many positional arguments as fields. Refuted: further positional arguments are ignored instead of refused; the result is an instance of the namedtuple below and never of the class called; a constructor that is not a class makes isinstance raise TypeError; a KeyError of a conversion is reported as a missing field.

Theorems: `C79_built_partial`, `C79_refuses_partial`, `C79_by_name`, `C79_full_statement_refuted`, `C79_too_many_refuted`, `C79_instance_refuted`, `C79_callable_refuted`, `C79_key_error_refuted`.

### C80 Vector, SetZip and HashableWrapper obey the laws of what they imitate

Vectors over exact fractions, sets as lists without repetitions, objects with identity and content. Laws by induction on lists.

Status: **partial**. With exact fractions instead of floats. Refuted: vectors of different lengths lose places silently; 2 * v repeats v; an element of two sets of a SetZip is counted and iterated twice; != of HashableWrappers compares contents, == identities, so two wrappers can be neither equal nor unequal.

Theorems: `C80_add_sub`, `C80_mul_div`, `C80_laws`, `C80_undo_partial`, `C80_union`, `C80_len_partial`, `C80_equal_hashes`, `C80_hash_stays`, `C80_not_equal_partial`, `C80_undo_full_statement_refuted`, `C80_lengths_refuted`, `C80_rmul_refuted`, `C80_len_full_statement_refuted`, `C80_not_equal_full_statement_refuted`.

### C81 Sleeps that watch the CPU are not longer than asked for and end early only when the load says so

Sleeping moves a clock; the load and the termination flag are arbitrary functions of it. The loops are shown to end and to end where the specification says, by induction on the rest of the time; the calls of loop() by induction on their durations.

Status: **partial**. Where and why sleeps end is characterised exactly for check_each > 0 (with 0 it never ends, refuted), the calls of loop() for every list of durations of a thread that is not terminated. Whole milliseconds; loop() does not raise and on_overrun() takes no time. Refuted: a time string for seconds without max_sooner is a TypeError, and max_sooner=0 is taken for the default.

Theorems: `C81_sleep_partial`, `C81_not_longer`, `C81_thread_sleep`, `C81_in_time`, `C81_overruns`, `C81_init_partial`, `C81_sleep_full_statement_refuted`, `C81_never_ends_refuted`, `C81_init_full_statement_refuted`, `C81_time_string_refuted`, `C81_zero_refuted`.

### C82 The CPU profile answers with what was measured

The thread's attributes with one operation for each method, and the recalculation cut into steps as well; answers shown to be those of a specification over the history by invariants (blocks of measurements made at one time for the usage).

Status: **partial**. For all histories; percentiles when nothing is called during a recalculation, for any percentile function. Refuted: a percentile requested at the wrong moment of a recalculation raises IndexError until the next one; on Linux the time of guests is counted twice, so that the factor can exceed 1.

Theorems: `C82_percentiles_partial`, `C82_own_usage`, `C82_memory`, `C82_since_last`, `C82_answered`, `C82_between_partial`, `C82_used`, `C82_percentiles_full_statement_refuted`, `C82_requested_meanwhile_refuted`, `C82_between_full_statement_refuted`, `C82_guests_refuted`.

### C83 Parallel execution keeps the order; thread collections act on all their threads

Parallel_Model: machines in which calls complete in any order and the consumer goes on when it may; invariants by induction over events relate what was given to the sequential specification; progress under a schedule that serves everything. Threads with an end time, join over the virtual clock, by induction over the collection. Collections by reference.

Status: **partial**. For every schedule. Refuted: parallel_execute stops at a call that ends with something that is not an Exception; the future of a run_as_future function that calls sys.exit() never gets set; start() stops at a thread that was started (or is in the collection twice), and terminate() at one that raises something else than AttributeError. Opentracing spans are not modelled.

Theorems: `C83_construct`, `C83_construct_waits`, `C83_execute_waits`, `C83_construct_ends`, `C83_execute`, `C83_execute_ends`, `C83_launch`, `C83_execute_all_partial`, `C83_future_partial`, `C83_joined`, `C83_join_bound`, `C83_no_longer`, `C83_would_wait_more`, `C83_join_succeeds`, `C83_join_fails`, `C83_start_partial`, `C83_terminate_partial`, `C83_collections_apart`, `C83_added`, `C83_execute_full_statement_refuted`, `C83_future_full_statement_refuted`, `C83_start_full_statement_refuted`, `C83_terminate_full_statement_refuted`.

### C84 Tainting follows the data and changes nothing else

Taint_Model: TaintedObjects are cells of a heap; programs are run with Python's dispatch between the operators of the values and those of TaintedObject. A simulation relation between the store with taints, the plain store and the set of tainted variables, by induction over expressions and programs. Trees for containers; per-thread sessions.

Status: **partial**. Proved for programs without != that make no second name of a TaintedObject changed in place (or have no in-place operators). Refuted: 7 - x and 7 * x with a tainted x raise TypeError; x != y is not tainted; y = x; y += 1 changes x; taint(list) taints the elements in the caller's list, which stay so after the session; an environment that could not be entered says it is enabled. Not modelled: attributes, calls, __setitem__, str() and the other conversions (not tainted), get_tainted_variables (gc).

Theorems: `C84_programs_partial`, `C84_no_new_failures_partial`, `C84_after_session`, `C84_items`, `C84_iteration`, `C84_once`, `C84_argument_partial`, `C84_sessions`, `C84_threads`, `C84_full_statement_refuted`, `C84_right_operand_refuted`, `C84_not_equal_refuted`, `C84_alias_refuted`, `C84_argument_full_statement_refuted`, `C84_enabled_full_statement_refuted`.

### C85 The metrified thread pool runs every task once, and starts threads when they are needed

MetrPool_Model: a machine whose state is the queue, the semaphore and the place of each worker; events are the atomic steps of submit and of the workers, in any order. Invariant relating the semaphore to queue and workers, by induction over the event list; refuted for executors that are garbage collected.

Status: **partial**. For every schedule, as long as somebody holds the executor. Refuted otherwise: the workers use the executor they hold a weak reference to, so that when it is collected (as in MetrifiedThreadPoolExecutor(1).submit(f)) they die of an AttributeError and the tasks still in the queue are never run. Initializers, shutdown and handle() raising are not modelled; thread_name_prefix is ignored by the code (not modelled).

Theorems: `C85_once_partial`, `C85_no_needless_wait_partial`, `C85_all_done_partial`, `C85_fifo`, `C85_metrics_partial`, `C85_lost_refuted`, `C85_full_statement_refuted`.

### C86 Metrics measure each call, with block and future by itself

MetrMeasure_Model: one system in which calls, context managers and futures make events in any order. The log of each is shown to depend only on its own events (projection by induction over the history), then compared with an inductive specification; refuted for nested use, for futures measured twice, for exceptions that are not Exceptions and for generator return values.

Status: **partial**. For all interleavings. Refuted: with include_exceptions=False a call ended by SystemExit, or a generator closed early, is still measured by the decorator; yield from a decorated generator gives None instead of its value; a context manager used within itself or by two threads measures the outer use from the inner beginning; a future measured by two metrics gives both the time since the second measure_future(). handle() and value_getter are assumed not to raise.

Theorems: `C86_calls_partial`, `C86_aborted`, `C86_calls_full_statement_refuted`, `C86_seen_partial`, `C86_seen_full_statement_refuted`, `C86_with_partial`, `C86_nested_full_statement_refuted`, `C86_future_partial`, `C86_twice_full_statement_refuted`.

### C87 Caches with metrics count every read, load and eviction

MetrCache_Model: counters around the models of the caches (C07, C08, C09). Counting theorems by induction over the operations, the hit theorem with the invariant that everything known has a timestamp; refuted for failures cached for another interval, evictions of keys without entries, reads that resynchronise, and entries_waiting.

Status: **partial**. For all histories. Hits are served reads when failures are not cached, or for expiration_interval. Refuted: a cached failure older than cache_failures_interval counts as a hit though value_getter is waited for; keys that have no entry count as evicted; the 101st operation of a writeback cache may read and count a hit; entries_waiting.callable is set to the number 0, so that the metric never shows anything.

Theorems: `C87_transparent`, `C87_writeback_transparent`, `C87_accesses`, `C87_writeback_accesses`, `C87_refreshes`, `C87_hits_partial`, `C87_evictions_partial`, `C87_reads_partial`, `C87_hits_full_statement_refuted`, `C87_evictions_full_statement_refuted`, `C87_reads_full_statement_refuted`, `C87_waiting_full_statement_refuted`, `C87_waiting_never_refuted`.

### C88 Prometheus reads the data that were measured

Prom_Model renders lists of characters; Prom_Spec is a reader of the exposition format, written from the format's documentation. Round trip by induction over the data and over the characters of label values; refuted for newlines and for names that differ in dots.

Status: **partial**. For all collections whose names are allowed by the format and whose label values have no newline. Refuted: a newline in a label value is not escaped and makes the whole text unreadable; metrics a.b and a_b get the same name. Values and label values are given as the texts str() makes; timestamps as int(timestamp * 1000).

Theorems: `C88_round_trip_partial`, `C88_full_statement_refuted`, `C88_get_partial`, `C88_get_other`, `C88_distinct_partial`, `C88_distinct_full_statement_refuted`.

### C89 Walking a nested structure gives each node once, in the promised order

Walk_Model runs the loop with fuel over a queue; Walk_Spec gives trees, pre-order and levels. Proof by induction on the size of the forest in the queue; breadth first through a lemma on queues holding parts of two levels. The default child getter is refuted.

Status: **partial**. For all child getters and finite structures. Refuted for the default child getter: list() raises TypeError at the first object that cannot be iterated over and never ends at a string; it works for lists of lists only.

Theorems: `C89_walk`, `C89_same_nodes`, `C89_ends`, `C89_full_statement_refuted`, `C89_string_refuted`, `C89_default_partial`, `C89_construable`, `C89_construable_order`, `C89_construable_empty`.

### C90 Metaclasses give the documentation and the metaclass they promise

Meta_Model over a world of classes (bases, resolution order, own attributes) and objects with docstrings, using Walk_Model for the walk. Invariant of the memo over runs; a metaclass of greatest resolution order covers the others.

Status: **partial**. Refuted: CopyDocsFrom stops after the first docstring it copies; the docstring of object.__init__ (and other methods of object) hides those of further bases in DocsFromParent; wrap_property gives a setter to a read-only property. Method resolution orders are oracles with the laws of Python's inheritance; docstrings that cannot be assigned are not modelled.

Theorems: `C90_docs_from_parent_partial`, `C90_parent_full_statement_refuted`, `C90_copy_full_statement_refuted`, `C90_copy_partial`, `C90_copy_nothing`, `C90_copy_class_doc`, `C90_no_conflict`, `C90_needed`, `C90_wrap_with`, `C90_property_full_statement_refuted`, `C90_property_partial`.

### C91 Control-flow decorators call what they should, and lose nothing

Flow_Model gives user code as functions on a world; queue histories by induction over operations; loops by a relation of turns; queue_iterator as a machine under any schedule.

Status: **partial**. Refuted: queue_get takes queue.Empty raised by the method itself for an empty queue; loop_while with a predicate without arguments (the default one too) raises TypeError on methods; chain_functions takes any tuple of two for args and kwargs; chain_callables turns a TypeError without a message into an IndexError; expect_exception with a list raises TypeError.

Theorems: `C91_queue_get_order`, `C91_queue_get_full_statement_refuted`, `C91_queue_get_partial`, `C91_queue_get_ends`, `C91_loop_while_partial`, `C91_loop_while_full_statement_refuted`, `C91_repeat_forever`, `C91_chain_full_statement_refuted`, `C91_chain_partial`, `C91_callables_full_statement_refuted`, `C91_callables_partial`, `C91_callables_none`, `C91_callables_first_raises`, `C91_default_return`, `C91_expect_full_statement_refuted`, `C91_expect_partial`, `C91_wrapped_exits`, `C91_wrapped_result`, `C91_empty_manager`, `C91_queue_iterator`, `C91_queue_iterator_alone`, `C91_update_keys`, `C91_update_key`, `C91_contains`, `C91_length`.

### C92 Comparison mix-ins give comparisons and hashes that agree

Model Python's operator dispatch (left method, then reflected right method) over a universe of values; prove the laws by transferring them from a key. Refute the full statements (floats, numbers that look like strings, None, nested enumerations, objects with more attributes).

Status: **partial**. The laws hold among objects with the mix-ins together with integers, strings or (for ComparableIntEnum) floats, and for enumerations of plain values. False of the code for all operands: == with None or a string raises, objects compared by int() are equal to floats next to them, those compared by str() to numbers, ComparableEnum is not symmetric if a value is a member of another enumeration (and its members have no hash), DictionaryEQAble looks only at the left operand's attributes.

Theorems: `C92_by`, `C92_by_fields`, `C92_integers_by_value`, `C92_strings_by_value`, `C92_by_full_statement_refuted`, `C92_docstring_refuted`, `C92_integers`, `C92_int_enums`, `C92_strings`, `C92_float_refuted`, `C92_number_refuted`, `C92_foreign`, `C92_full_statement_refuted`, `C92_enum_partial`, `C92_enum_full_statement_refuted`, `C92_dict_full_statement_refuted`, `C92_dict_partial`, `C92_dict_ne`.

### C93 Counting, defaulting and self-cleaning dictionaries hold what was put into them

Model the dictionaries with values as objects in a store; invariant over all call sequences that the value at each key is the one last stored; the thread as a machine over added, collected and tick events. Refute what the code does not do (iteration, clear, in, mutated values, a raising cleanup).

Status: **partial**. CountingDict and DefaultDict proved. SelfCleaningDefaultDict: values and length proved when values are not changed in place; false of the code: iteration always gives nothing, clear() clears nothing, every key is in it, a value read and then changed is lost, deletion races with the clean-up. The thread is proved when no cleanup raises; one that raises ends it for good.

Theorems: `C93_counting`, `C93_counting_keys`, `C93_counting_sequence`, `C93_default`, `C93_default_stores_nothing`, `C93_values_partial`, `C93_len_partial`, `C93_iter_full_statement_refuted`, `C93_clear_refuted`, `C93_in_refuted`, `C93_mutable_full_statement_refuted`, `C93_delete_race_refuted`, `C93_thread_partial`, `C93_thread_started`, `C93_thread_refuted`.

### C94 Configuration files, directories, environment and descriptions

A file system is a tree, a path is absolute or starts at the working directory; formats are functions with arbitrary outcomes. get_sources_from_directory is proved, by induction on the height, to list what an independent relation (wanted) says, in listing order; provide is connected to the MergingSource of C24. Descriptions: a writer of sources is defined in the specification and loading is proved to be its inverse. Refuted in full: relative directories (the prefix is doubled, everything is silently skipped), errors of parsers other than the listed ones, dictionaries with an unknown type as arguments (NameError).

Status: **partial**. Refuted in full: a DirectorySource with a relative path joins the directory to paths that already start with it, so every file is silently skipped and {} is provided; an error of a parser outside the listed classes comes through FileSource.provide; a dictionary argument whose 'type' is unknown makes load_source_from_dict fail with a NameError (an unassigned variable e in the warning), reported as ConfigurationError. Symbolic links, encodings and the parsers themselves are parameters.

Theorems: `C94_file_first`, `C94_file_none`, `C94_file_unreadable`, `C94_file_dict`, `C94_formats`, `C94_file_breaks`, `C94_file_full_statement_refuted`, `C94_directory_partial`, `C94_directory_merges`, `C94_directory_missing`, `C94_relative`, `C94_relative_exact`, `C94_directory_full_statement_refuted`, `C94_environment`, `C94_env_vars`, `C94_load_partial`, `C94_load_errors`, `C94_load_class`, `C94_load_list`, `C94_unknown_type`, `C94_load_full_statement_refuted`.

### C95 A heap used as a list

list_step extends the model of C01 with the inherited methods; refinement to a bag by the invariant of heapq (sorted lists are heaps). Each misplacing method has a counterexample to pop returning the smallest element; equality of data refuted as equality of contents.

Status: **partial**. Refuted in full: append, insert, extend, item assignment and deletion, remove and reverse are inherited from UserList and break the order, so the next pop need not return the smallest element; two heaps with the same elements pushed in another order are not equal.

Theorems: `C95_list_partial`, `C95_misplacing`, `C95_rebuilt`, `C95_sort`, `C95_each_refuted`, `C95_full_statement_refuted`, `C95_eq_partial`, `C95_eq_exact`, `C95_eq_full_statement_refuted`.

### C96 Kept tracebacks tell where an exception came from and what the variables were

Trace_*: values are numbers with repr, type, pickling and compression as oracles; frames an inductive type linked by f_back; JSON as records. C96_value (round trip), C96_not_pickled, C96_store_total, C96_policy, C96_frames (refinement to the chain of frames), C96_total_partial, C96_json_partial, C96_equality. False as documented: values loaded after JSON (C96_json_loses, C96_json_full_statement_refuted), ValueError as the only exception of load_value, ValueError without exception in progress, robustness against raising reprs (C96_total_refuted).

Status: **partial**. Values come back, frames are the chain from where the exception was raised, JSON preserves equality. Refuted: StoredVariableValue.from_json always drops the pickle, so that after JSON load_value raises TypeError (the documentation promises the opposite); load_value lets AttributeError, ImportError and others of pickle.loads through; one variable with a raising __repr__ makes the Traceback unavailable; without an exception in progress the current frame is taken instead of raising ValueError. Pickling whole Traceback objects and printing them are not modelled.

Theorems: `C96_value`, `C96_not_pickled`, `C96_store_total`, `C96_policy`, `C96_load_errors_partial`, `C96_load_errors_full_statement_refuted`, `C96_frames`, `C96_total_partial`, `C96_total_refuted`, `C96_no_exception_refuted`, `C96_json_partial`, `C96_equality`, `C96_json_loses`, `C96_json_has_it`, `C96_json_full_statement_refuted`.

### C97 Custom exceptions are written faithfully and coded ones recognised by their code

Exceptions_*: classes as finite trees with numbers for identity, repr results as oracles; texts as lists of characters. C97_repr_partial, C97_str_partial against a separate grammar of calls; C97_isinstance_partial (iff) for single inheritance by induction over the lineage; C97_ends, C97_needs_code for any inheritance. Refuted: str() with named arguments, repr with named arguments only, the first example of the documentation (C97_documented_refuted, C97_bare_refuted), hierarchies joined by mix-ins (C97_hierarchy_full_statement_refuted).

Status: **partial**. Refuted in full: str() of any exception with named arguments raises TypeError; repr() with named arguments only has a stray comma; a plain CodedCustomException with the right code is not an instance of the class with that code, contrary to the documented example; with multiple inheritance a common mix-in joins unrelated hierarchies. Proved exactly for single inheritance.

Theorems: `C97_repr_partial`, `C97_repr_named_only`, `C97_repr_full_statement_refuted`, `C97_str_partial`, `C97_str_refuted`, `C97_without_kwargs`, `C97_attribute_error`, `C97_specification_exact`, `C97_ends`, `C97_needs_code`, `C97_isinstance_partial`, `C97_codes`, `C97_documented_refuted`, `C97_bare_refuted`, `C97_other_hierarchy`, `C97_hierarchy_full_statement_refuted`.

### C98 jump_to_directory comes back

FileOps_*: programs as trees of commands over a state of working directory, directories and objects' prev_path. C98_restored_partial (each statement), C98_programs (induction over nested programs), C98_created; refuted for objects entered again inside their own body and for relative paths entered elsewhere.

Status: **partial**. Proved for bodies that do not enter the same object again. Refuted: an object entered again inside its own body leaves the process in the target directory; a relative path is made where the object is constructed and looked up where it is entered.

Theorems: `C98_restored_partial`, `C98_programs`, `C98_created`, `C98_full_statement_refuted`, `C98_relative_refuted`.

### C99 Small file helpers keep what they promise: /dev/null objects, lines, substitution, JSON files, deletion

FileOps_*: C99_null against an automaton; C99_lines against a grammar of lines shown to be unambiguous; C99_sub_partial, C99_json_partial, C99_json_errors with encodings as oracles; C99_unlink_partial by induction over directory trees. Refuted: unmatched \r\n changed, content lost when encoding fails (substitution and JSON), links to directories, partial deletion.

Status: **partial**. Refuted in full: read_re_sub_and_write changes \r\n line ends even if nothing matches, and empties the file if the result cannot be encoded; write_json_to_file empties the file if the value cannot be encoded; try_unlink does not delete a link to a directory, and returns False after having deleted part of a directory; reading from a DevNullFilelikeObject does not raise UnsupportedOperation.

Theorems: `C99_null`, `C99_null_exact`, `C99_null_read_refuted`, `C99_lines`, `C99_lines_exact`, `C99_sub_partial`, `C99_sub_full_statement_refuted`, `C99_sub_lost_refuted`, `C99_json_partial`, `C99_json_errors`, `C99_json_full_statement_refuted`, `C99_unlink_partial`, `C99_unlink_link_refuted`, `C99_unlink_full_statement_refuted`.

### C100 Monitors exclude, let go and do not change what the code does

A machine of threads with stacks of entered blocks; an invariant relating locks, stacks and the log of events; a decreasing measure for termination.

Status: **partial**. Proved for programs that enter a Monitor only when not inside and release only what they hold (ascending order for deadlock freedom). False for all programs: threading.Lock may be released by a thread that is not inside (Monitor.release(foo) elsewhere lets a second thread in), releasing an RMonitor entered twice lets nobody in, and opposite orders deadlock.

Theorems: `C100_exclusive_partial`, `C100_released_partial`, `C100_release_frees_partial`, `C100_transparent_partial`, `C100_steps_partial`, `C100_refused`, `C100_no_deadlock_partial`, `C100_all_finish_partial`, `C100_not_reentrant`, `C100_full_statement_refuted`, `C100_release_rmonitor_refuted`, `C100_deadlock_refuted`.

### C101 A schema loaded from a description means what the description says

Model the loader over the descriptors of C25, write a grammar of types with its own meaning and a relation between types and how they are written; prove by induction on types that the loaded descriptor answers as the meaning says.

Status: **partial**. The full statement is false: lists accept the second time what they refused the first (C25); an unknown name raises AttributeError or KeyError instead of ConfigurationSchemaError, or is silently anything inside a list, or raises TypeError at validation inside a union; a key described by the empty string refuses every configuration; a class as type raises KeyError although the docstring says classes work. Proved: the meaning of every well-written description, except lists of things with both lists and unions; the same over sequences; senseless descriptions are refused.

Theorems: `C101_meaning_partial`, `C101_again_partial`, `C101_builtin`, `C101_register`, `C101_senseless_partial`, `C101_full_statement_refuted`, `C101_unknown_name_refuted`, `C101_unknown_type_refuted`, `C101_list_of_unknown_refuted`, `C101_union_of_unknown_refuted`, `C101_empty_refuted`, `C101_type_key_refuted`.

### C102 File and directory values

Model the comparison method by method with Python's reflected operands; prove by cases.

Status: **partial**. The documented equality with the string of the path is false; the rest is proved. Paths are strings; __eq__ with objects whose own __eq__ interferes is not modelled.

Theorems: `C102_equal`, `C102_hash`, `C102_file`, `C102_directory`, `C102_never_string`, `C102_full_statement_refuted`.

### C103 A wrapped future ends as the future it wraps, and executors submit what they are told

A machine whose steps are the three steps of the constructor and the steps of the wrapped future; the schedule is split at the constructor's steps; a phase invariant before the state is written and five stable classes of states afterwards give an exact verdict for every schedule. The life of the wrapped future alone is the specification.

Status: **partial**. Exact verdict for every schedule. Refuted in full: WrappingFuture copies the state of the source after adding its callback, so a source that completes after the callback is added loses its result (None is returned, C103_lost) or makes result() wait forever (C103_stuck), depending on where the callbacks fall.

Theorems: `C103_partial`, `C103_over`, `C103_quiet`, `C103_lost`, `C103_stuck`, `C103_full_statement_refuted`, `C103_wrap_if`, `C103_wrap_if_once`, `C103_call_in_future`, `C103_executor`.

### C104 A collection of futures holds exactly the futures put into it

Lists as objects in a store, collections as names of lists; refinement to plain values by an invariant (each collection has a list of its own, apart from the user's), by induction over the operations.

Status: **partial**. Proved when no collection is made of a list object. Refuted in full: FutureCollection(list) keeps the caller's list, so both see each other's changes.

Theorems: `C104_partial`, `C104_lists_partial`, `C104_full_statement_refuted`, `C104_shared_refuted`.

### C105 The size of an object is the sum over everything in it, each object once

Objects as a heap of records (size, dictionary, attributes, elements); the depth-first walk with its set of seen objects on fuel; proved to compute the sum over the reachable objects without repetition and to need no more fuel than there are objects.

Status: **partial**. Proved when no object within is an instance of a class derived from list or another iterable that also has a __dict__: the elements of those are not counted (refuted in full). Attributes in __slots__ are not counted either; the recursion limit of Python is not modelled.

Theorems: `C105_partial`, `C105_ends`, `C105_cpython_only`, `C105_full_statement_refuted`.

### C106 Calling a process returns everything it printed

A machine of the process, the pipe, the reader and the caller with moves Write/Exit/Read/Call/Timeout; invariants for the output; a measure for termination; a jam invariant for output larger than the pipe.

Status: **partial**. Refuted in full: output larger than the pipe hangs the call for ever (or always times out), since the reading thread reads only after the process has exited; a character split over two pieces of 2048 bytes is not decoded. Proved for output that fits.

Theorems: `C106_partial`, `C106_no_deadlock_partial`, `C106_bounded`, `C106_hangs`, `C106_hangs_timeout`, `C106_full_statement_refuted`, `C106_encoding_refuted`.

### C107 A sleep lasts as long as asked

The loop over turns of clock readings and interruptions; induction over the turns.

Status: **partial**. Refuted in full: a ValueError if the end falls between the two readings of the clock in one turn.

Theorems: `C107_partial`, `C107_answers`, `C107_negative`, `C107_aborted`, `C107_full_statement_refuted`.

### C108 Waiting for a signal ends when it comes and restores the handlers

Tables of handlers, the module's flag and turns of the waiting loop; induction over the turns and the installed signals.

Status: **partial**. Refuted in full: SIGINT, which the documentation names, does not end the waiting; handlers are not restored if SIGTERM is among the extra signals, after a KeyboardInterrupt, or if a signal cannot be caught.

Theorems: `C108_partial`, `C108_waits`, `C108_sigint`, `C108_full_statement_refuted`, `C108_restored_refuted`.

### C109 whereis finds the executables of a name in PATH

PATH as a string split at colons, directories and modes as oracles, the mode string as the code tests it; compared with the declarative list of executables.

Status: **partial**. Refuted in full: directories are taken for executables, some set-user-id executables are missed, an unrelated file that cannot be examined ends the search. POSIX only: extensions of Windows are not modelled.

Theorems: `C109_partial`, `C109_sound`, `C109_full_statement_refuted`, `C109_set_uid_refuted`, `C109_other_file_refuted`.

### C110 Shuffling together applies one permutation to all sequences

The shuffle and the choices as oracles constrained to be permutations and members.

Status: **partial**. Proved for sequences of one length. Refuted in full: sequences of other lengths are not refused, the end of a longer one is lost. random_binary is covered only as far as it is random_word over bytes.

Theorems: `C110_shuffle`, `C110_shorter`, `C110_full_statement_refuted`, `C110_word`, `C110_word_empty`.

### C111 A process that becomes a daemon is detached

Processes as records with POSIX rules for fork, setsid, seteuid and setegid; the calls in the order of the code.

Status: **partial**. Refuted in full: the daemon does not lead its session (the documentation says it does); a group asked for together with a user fails because the right was given up with the user; a group by name always raises AttributeError; an exit_via that returns leaves the original process going on. Windows is not modelled.

Theorems: `C111_detached`, `C111_partial`, `C111_unknown`, `C111_full_statement_refuted`, `C111_group_refuted`, `C111_group_name_refuted`, `C111_exit_refuted`.

### C112 import_from fills a package with what is inside it

Packages as trees with __all__ and attributes; the recursion of the code over them, with an oracle for the top-level packages that walk_packages goes into; tree induction against a relation between the trees before and after.

Status: **partial**. Modules are taken as loaded already; side effects of importing are not modelled. Refuted in full: private modules (unlike private packages) are not skipped; a package inside with the name of a top-level package has modules imported into the outer namespace or fails with ImportError, because walk_packages is called without a prefix. Proved exactly otherwise.

Theorems: `C112_partial`, `C112_missing`, `C112_full_statement_refuted`, `C112_toplevel_refuted`, `C112_class`, `C112_class_errors`.

### C113 Traced functions, futures and exceptions

Calls as events of the tracer; futures with the exception handled in the completing thread as a parameter; induction over calls and factories.

Status: **partial**. Refuted in full: the exception of a future is attached only if it is being handled when the future is completed (else none or another one is attached); a cancelled future never finishes its span; a limit of 0 is ignored; an exception without traceback raises AttributeError; a TypeError inside a tag factory makes it be called again in another way. The tracer itself is not modelled.

Theorems: `C113_function`, `C113_function_plain`, `C113_factory_fails`, `C113_factory_refuted`, `C113_future_partial`, `C113_future_other`, `C113_future_full_statement_refuted`, `C113_cancelled_refuted`, `C113_exception_partial`, `C113_exception_nothing`, `C113_exception_full_statement_refuted`, `C113_no_traceback_refuted`.

### C114 Value metrics export the last value and wrappers pass everything on

States of a simple metric under histories with an invariant against the last value per labels; wrappers as a tree with induction against the sequence of calls they stand for.

Status: **partial**. Refuted in full: a value without labels after one with labels is silently dropped; a refused value with new labels makes a metric with the default value. Timestamps and the internal flag are not modelled.

Theorems: `C114_simple`, `C114_partial`, `C114_full_statement_refuted`, `C114_refused_refuted`, `C114_callable`, `C114_uptime`, `C114_wrapped`.

### C115 One operation on many objects

A loop over object numbers with a shared state; sequences and one-shot iterators told apart.

Status: **partial**. Refuted in full: the first element of an iterator is consumed to copy the method's name, and nothing is done to it. Proved for sequences, and for operators on anything.

Theorems: `C115_partial`, `C115_operator`, `C115_iterator`, `C115_full_statement_refuted`.

### C116 Decorators for methods and arguments

A heap of cells with shallow copies and the memoizing deep copy, by induction over the recursion with an invariant separating old objects from new ones and a correspondence given by the memo; histories of a cached attribute by induction; the rest by cases. Refuted: single calls when the value equals assume_not_loaded, exceptions not derived from Exception, a single callable parameter of execute_before, decorators with a state under auto_adapt_to_methods, plain copies of nested objects, identity of an object given twice.

Status: **partial**. Deep copies protect every object of the caller, on any graph. Refuted: a method returning assume_not_loaded is called at each reading; call_method_on_exception ignores classes not derived from Exception; a single callable custom parameter of execute_before is taken for the decorated function; auto_adapt_to_methods decorates anew at each call (and the assertions of its docstring are false: the result is 8); plain copies leave nested objects shared; an object given twice arrives as two.

Theorems: `C116_cached`, `C116_cached_once`, `C116_full_statement_refuted`, `C116_partial`, `C116_if_none`, `C116_on_exception`, `C116_exception_full_statement_refuted`, `C116_as_list`, `C116_before`, `C116_before_refuted`, `C116_adapt_partial`, `C116_adapt_forgets`, `C116_adapt_full_statement_refuted`, `C116_copy_deep`, `C116_copy_partial`, `C116_copy_full_statement_refuted`, `C116_copy_alias_refuted`.

### C117 Threads that start once and threads that only pretend

A machine whose moves are the steps of the calls; an invariant once a call has set the flag alone, and a weaker one for every schedule; histories of the bogus thread by induction. Refuted: later calls return None, two calls at once may run the thread twice or raise RuntimeError, a failed start can never be repeated, join() without a timeout raises TypeError, join() never resets started.

Status: **partial**. Proved for all schedules in which one call has set the flag before another looks. Refuted: the second call returns None, not the object; calls at the same time may both pass and run the thread's function twice, or one raises RuntimeError; after a start that failed no call starts the thread; join() of a bogus thread without timeout raises TypeError while it is alive and never resets started.

Theorems: `C117_partial`, `C117_runs`, `C117_full_statement_refuted`, `C117_race_refuted`, `C117_failed_refuted`, `C117_bogus`, `C117_join_partial`, `C117_join_refuted`.

### C118 Dumping uncaught exceptions

A world of files, streams and logs; induction over the targets and over the history. Refuted: in the main thread no exception is in progress when sys.excepthook is called, so the reports are about none; a failing target leaves the following ones without anything; None and loggers among the targets of pickles fail at every exception; a file keeps the last report only.

Status: **partial**. A report is one write; loggers do not fail. Refuted: reports of exceptions uncaught in the main thread are about no exception (no exception is in progress when the interpreter calls sys.excepthook, and Traceback() then takes the handler's own stack); a failing target starves the rest; None or a logger among the pickles fails always.

Theorems: `C118_partial`, `C118_fails`, `C118_starved_refuted`, `C118_full_statement_refuted`, `C118_main_refuted`, `C118_pickles_refuted`, `C118_targets`, `C118_made`, `C118_raises`.

### C119 Cassandra futures become ordinary futures, and queries run in parallel

Machine with the driver's completion and the steps of wrap_future as events (Cass_Model.v), the result by an invariant over schedules; parallel_for as the list of its effects for a consumer of n elements. A second completion (the next page) makes set_result raise inside the driver, which refutes the full statement.

Status: **partial**. For a driver that completes its future once, in every order of events, the wrapped future gets exactly that outcome and nothing is raised in the driver; refuted for repeated completion (a further page calls the callbacks again and set_result raises InvalidStateError). parallel_for is characterised completely: all executions first, in order, then the results up to the first failure or as far as asked for. The driver is modelled from its documented contract (callbacks registered after completion are called at once).

Theorems: `C119_partial`, `C119_full_statement_refuted`, `C119_first`, `C119_parallel`, `C119_submit_fails`.

### C120 An iterator processed as a list, and attributes set when missing

The adapter as a state machine (Adapter_Model.v) run over lists of operations; the exact answers after k elements were taken by induction. Refuted in full: elements already taken are lost to the list; an AttributeError of the setter makes it be called twice.

Status: **partial**. Refuted in full: elements taken before the first indexing, membership or length question are lost to the list (exactly those: C120_taken). Proved: as long as nothing was taken the answers are the list's; taking elements is never disturbed by such questions; what loops see. update_attr_if_none is characterised for attributes that can be set; a setter that itself raises AttributeError is called twice.

Theorems: `C120_full_statement_refuted`, `C120_partial`, `C120_taken`, `C120_iteration`, `C120_loop`, `C120_update_partial`, `C120_update_value`, `C120_update_full_statement_refuted`.

### C121 The breakdown of memory adds up

The lines written as a function of the objects (MemDump_Model.v), an invariant relating the two dictionaries to the objects seen so far, sortedness from the stable sort. Refuted in full: an object that cannot be printed ends the dump without a breakdown.

Status: **partial**. Proved for all objects that can be printed (a TypeError while measuring counts as 0). Refuted in full: an object whose repr() raises ends the dump, without a breakdown; C121_fails says exactly what was written by then.

Theorems: `C121_partial`, `C121_full_statement_refuted`, `C121_fails`.

### C122 Checking a configuration does not change it, and what is shared with the result

Descriptors over a heap of mutable lists and dictionaries (SchemaHeap_Model.v); old cells are kept by induction over the depth; separation of the result by an island argument (a set of new cells closed under references). Sharing is refuted for undescribed parts, unknown keys and defaults.

Status: **partial**. Proved in full: nothing that existed is changed, whatever the outcome, and the result's list or dictionary is new. That the result shares nothing is refuted: undescribed elements and unknown keys are the caller's own objects, and a mutable default is one object in all results; proved for descriptors that describe everything.

Theorems: `C122_input_kept`, `C122_full_statement_refuted`, `C122_unknown_refuted`, `C122_default_refuted`, `C122_partial`, `C122_new`.

### C123 A CacheDict shared by threads serves only values of the key asked for

CacheThr_Model: the state of CacheDict_Model, threads with a program counter at every operation on a dictionary or set, events for calls, background work and turns. C123_values by an invariant on stored values; C123_partial by an invariant on the two dictionaries and all program counters for one key; C123_alone_* by running one thread to the end and comparing with CacheDict_Model. The unrestricted statements are refuted by schedules.

Status: **partial**. Proved for all schedules: only values of the right key are served; after the key was stored once all reads are fine; calls that run alone refine CacheDict_Model. Refuted: a read while the first value of a key is being stored raises KeyError (even with a default value), and a read of a cached miss gives None if the value is stored meanwhile. LRUCacheDict's own additions are in C127.

Theorems: `C123_values`, `C123_full_statement_refuted`, `C123_partial`, `C123_answers_refuted`, `C123_answers_partial`, `C123_default_refuted`, `C123_alone_get`, `C123_alone_set`, `C123_alone_del`, `C123_alone_invalidate`, `C123_alone_refresh`.

### C124 KeyAwareDefaultDict: missing keys are made by the factory, once

KeyAware_Model: the dictionary, the factory as a program that may ask for other keys, the methods inherited from MutableMapping. Specification: worth, the value without remembering, and a defaultdict. C124_partial by comparison of runs; C124_recursive and C124_once by induction on the depth with derivation heights; inherited methods exactly.

Status: **partial**. Proved for d[k], assignment, deletion, length and iteration, and for recursive factories under reading. Refuted in full: the methods inherited from MutableMapping (in, get, pop, setdefault) ask the factory too, so a key is always in the dictionary, defaults are ignored and popitem is first in first out. Factories that store into or delete from the dictionary are not modelled; Diverges stands for RecursionError, which factories are taken not to catch.

Theorems: `C124_full_statement_refuted`, `C124_partial`, `C124_inherited`, `C124_inherited_missing`, `C124_popitem`, `C124_recursive`, `C124_once`, `C124_circular`.

### C125 Metrics fed by several threads lose nothing

MetrThr_*: a machine of threads whose calls consist of steps (reading an attribute, writing it, one method of a deque, list or dict); invariants over all schedules. The property is false in full (no metric takes a lock): refuted with schedules; proved: exactness when calls do not overlap (in particular when one thread does the feeding), bounds for all schedules, and that the window of a summary can grow without limit after one race.

Status: **partial**. Refuted in full, as no metric takes a lock: increments are lost and a counter can go back; after one race a summary's window of last_calls values grows without limit, and handle() can raise IndexError; a click just made is dropped in place of an old one; exporting clicks while another thread clicks raises RuntimeError; two threads that are first to use some labels make two children, of which one is exported. Proved: exactness if calls do not overlap, in particular if one thread feeds the metric; for all schedules, that nothing is counted that was not fed, that a counter shows at least one call, that clicks never raise, and that labels used before keep their one child. Histograms are not modelled here (their buckets are incremented like the counter's value).

Theorems: `C125_full_statement_refuted`, `C125_counter_partial`, `C125_counter_bounds`, `C125_counter_some`, `C125_counter_backwards_refuted`, `C125_one_thread`, `C125_summary_partial`, `C125_summary_made_of`, `C125_window_refuted`, `C125_summary_raises_refuted`, `C125_clicks_partial`, `C125_clicks_never_raise`, `C125_clicks_made_of`, `C125_clicks_lost_refuted`, `C125_export_raises_refuted`, `C125_labels_partial`, `C125_labels_any`, `C125_labels_known`, `C125_labels_refuted`.

### C126 A writeback cache used by several threads agrees with its storage

WbThr_*: every call is a list of steps over the shared state (storage, queue of jobs, answers, in_cache, cache, operations, lock), interleaved by a schedule, with the executor's worker as one more thread. Per key an invariant relates the cache, the set in_cache, the jobs waiting and the place where the one call about the key is to the value the key has; the lock's invariant gives made_of and found for all schedules. Refutations are concrete schedules.

Status: **partial**. Refuted in full: a read that overlaps a write can put the old value over the new one in the cache, which then differs from the storage for good; a deleted key comes back the same way; and a reader can get KeyError for a key that is in the storage while another reader is between in_cache.add and cache[item] = value. Proved: per key, for all schedules in which the calls about that key do not overlap (always so if every thread has keys of its own), and three guarantees for all schedules, one of them that no call can be made to hang. The executor does the jobs in order, one at a time; read_method raises nothing but KeyError.

Theorems: `C126_full_statement_refuted`, `C126_partial`, `C126_coherent_partial`, `C126_apart`, `C126_made_of`, `C126_found`, `C126_ends`, `C126_key_error_refuted`, `C126_deleted_refuted`.

### C127 An LRUCacheDict used by several threads

LruThr_Model: the thread machine of MetrThr_Model over the three containers (data, timestamps, OrderedDict), one step per container operation. Calls one at a time refine CacheDict_Model (invariant: what the rest of the call would do alone is what the whole call does alone), and end (measure on the OrderedDict, C07's non-divergence). For all schedules: the capacity bound max_size - 1 + threads (invariant: a list that covers the keys and the pending keys), where values come from, and no loss when the keys fit (state-dependent invariant stable under the other threads' steps). The full statement is refuted: over capacity, KeyErrors of reads and writes, and a write that loops for ever.

Status: **partial**. Refuted in full: the class takes no lock. Threads that all see room exceed max_size (the bound max_size - 1 + number of threads is proved, and reached); a read of a known key raises KeyError while another thread stores its first value; a write raises KeyError if the key is deleted between the two operations of mark_as_used; and a key evicted between mark_as_used and the store stays in the cache without being evictable, after which make_room of a later write can loop for ever. Proved: calls that do not overlap refine CacheDict_Model and end; for all schedules the capacity bound, where values come from, and no loss when fewer than max_size keys are used. Not in this model: stale values (C123), remembered failures, default_value_factory.

Theorems: `C127_full_statement_refuted`, `C127_partial`, `C127_ends_partial`, `C127_capacity`, `C127_made_of`, `C127_small`, `C127_over_capacity_refuted`, `C127_get_raises_refuted`, `C127_set_raises_refuted`, `C127_hang_refuted`.

### C128 Items of a DictObject are attributes, copies are independent

A dictionary per DictObject and a heap of objects; sessions are compared with a history function, deepcopy with a renaming of the object graph (invariant: the memo maps to finished copies; acyclicity keeps an object from being met while it is copied), apply_dict_object with the tree of contents by induction on it. Refuted: names of the class, a DictObject that contains itself, plain dictionaries inside of DictObjects, a list that contains itself.

Status: **partial**. The full statement is false: a name that the class has (items, keys, ...) is not read as an attribute; copy.deepcopy of a DictObject that contains itself does not end; apply_dict_object keeps plain dictionaries that are inside of DictObjects and does not end for a list that contains itself. Proved: every session agrees with the history for all other names, construction, copy, deepcopy where nothing contains itself, apply_dict_object on all trees. is_valid_schema and the early memo entries of copy.deepcopy for lists and plain dictionaries are not modelled.

Theorems: `C128_full_statement_refuted`, `C128_partial`, `C128_every_call_answered`, `C128_attribute_refuted`, `C128_construct`, `C128_copy`, `C128_deepcopy_partial`, `C128_deepcopy_refuted`, `C128_apply_partial`, `C128_apply_refuted`, `C128_apply_cycle_refuted`.

### C129 An ExpiringEntryDict used by several threads

The thread machine of MetrThr_Model with a clock and the monitor of the dictionary; the steps that other threads can see are steps. Invariants: at most one thread is inside of the monitor; the two dictionaries agree except at the key that thread is at; while nothing is old the contents are those of the log. Every thread can be run to its end by a measure on the steps left. Refuted: a key that is written again is missing in between, reading an old value loses what was written since and makes cleanup raise, an old value can be read during a write, `in` can raise ValueError.

Status: **partial**. The full statement is false: a key that is written again is missing in between; a read that found the old value too old deletes what was written since, after which cleanup() raises KeyError (this ends the cleanup thread); an old value can be read while the key is written; two threads asking for an old key make `in` raise ValueError. Proved for all schedules: the calls fit the order in which they end while nothing gets old and no key asked for is being changed, what is read was written, entries that are not old stay, a cleanup() that returns leaves nothing that was old when it was called, without d[k] nothing but a ValueError of del or `in` is raised, all threads can always end. What `in` answers with True may be late and is not related to the order. The heap is represented by the dictionary item_to_timestamp.

Theorems: `C129_full_statement_refuted`, `C129_partial`, `C129_made_of`, `C129_keeps`, `C129_readable`, `C129_cleanup_partial`, `C129_cleaned`, `C129_len`, `C129_set`, `C129_old`, `C129_in`, `C129_no_deadlock`, `C129_overwritten_refuted`, `C129_lost_refuted`, `C129_stale_refuted`, `C129_in_raises_refuted`.

### C130 The background cleanup of dictionaries

Model: the monitors of the registry and of the dictionaries, add_dict, start and cleanup of the registry as steps of the thread machine of C125, programs with nested with blocks compiled to steps. Proof: invariants about who holds which monitor, deadlock freedom by the order of monitors and a decreasing rank, coverage of the list that cleanup builds.

Status: **partial**. The full statement is false: monitors are not re-entrant, so that a loop over a dictionary inside of a with block on it, which is what the documentation asks for, never ends; the cleanup thread then waits for that block while it holds the monitor of the registry, after which nobody can make such a dictionary any more; a dictionary made inside of the block of another can deadlock with the cleanup thread; a cleanup() that raises ends the thread for all dictionaries. Proved for all schedules: the thread is started once, dictionaries stay registered while they are referred to, rounds that end clean all of them and forget the others, and if blocks are nested in one order without making dictionaries inside, all threads can always end. The contents of the dictionaries are not in this model (see C129).

Theorems: `C130_full_statement_refuted`, `C130_partial`, `C130_once`, `C130_registered`, `C130_rounds`, `C130_iterate_refuted`, `C130_all_hang_refuted`, `C130_make_inside_refuted`, `C130_raises_refuted`.

### C131 Self-cleaning default dictionaries used by several threads

ScdThr_Model: the methods as steps of the threads of MetrThr_Model; __delitem__ and the end of __len__ do not take the monitor. Invariant: the data are the values that the calls ended so far give to the keys, in the order in which they ended; what threads inside of the monitor know lasts. Three ways to slip are proved to be the only ones and shown to happen.

Status: **partial**. The full statement is false because __delitem__ takes no monitor and __len__ counts after it let the monitor go: two threads that delete a key make one of them raise KeyError, storing the default raises KeyError if the key is deleted meanwhile, a key deleted meanwhile ends a cleanup() before it is done, and without background maintenance len() counts a default value stored by a read after the cleanup. Proved for all schedules: in every other respect the calls end as if made in the order in which they end (reads are always right), and when KeyError is raised the key has the default value all the same; what is stored is the value of the key; with background maintenance no default is stored; without del nothing raises and cleanup() leaves no default; keys of one thread never raise; all threads can end.

Theorems: `C131_full_statement_refuted`, `C131_partial`, `C131_no_default`, `C131_stored`, `C131_no_del`, `C131_own`, `C131_one_at_a_time`, `C131_no_deadlock`, `C131_del_raises_refuted`, `C131_set_raises_refuted`, `C131_len_refuted`, `C131_cleanup_refuted`.

### C132 Named queues used by several threads

SubThr_Model: threads as in MetrThr_Model; put/get of a queue.Queue, a lookup and a store are one step each, and an iterator over the dictionary raises RuntimeError when the size has changed. Invariant: the queue of a name holds what the calls that ended leave pending, names have different queues, a thread under the monitor that is about to make a queue knows that there is none. The full statement is refuted (get_any() and qsize() iterate without the monitor); proved: put() and get() are always right, first in first out, no RuntimeError once all names are known, a sole consumer's get_any() finds what was there, everything is right one call at a time, no deadlock.

Status: **partial**. The full statement is false because get_any() and qsize() go through the queues without the monitor: both raise RuntimeError if a name is used for the first time meanwhile, get_any() can raise Empty although there is a message at every moment, and qsize() can give a number that there never were. Proved for all schedules: put() and get() are always right, what was put under a name is what was taken followed by what waits (nothing lost, doubled or reordered), no RuntimeError once every name still to be used has been used, get_any() of the only consumer finds a message that was there when it was called, calls made one at a time are all right, and all threads can end unless one waits for a message. Timeouts of get() are not modelled.

Theorems: `C132_full_statement_refuted`, `C132_partial`, `C132_fifo`, `C132_known`, `C132_sole`, `C132_one_at_a_time`, `C132_no_deadlock`, `C132_get_any_raises_refuted`, `C132_qsize_raises_refuted`, `C132_empty_refuted`, `C132_qsize_refuted`.

### C133 A link-failure metric fed by several threads

LinkThr_*: each read, write, comparison and callback of handle() is a step of the thread machine of MetrThr_Model. An invariant for an address reported by one thread only, a weight argument for the number of reports, an induction on the number of failures for the missed alarm; the full statement is refuted.

Status: **partial**. The full statement is false: handle() takes no lock and compares the counters with == after other threads may have changed them. For any limit an alarm can be missed for good, however many failures follow; an alarm can be given twice; the last callback can be the opposite of the status shown. Proved: everything is right for an address that only one thread reports, and for all addresses if calls do not overlap; and no callback is made, and no link shown as offline, without the required number of reports. Labels, embedded submetrics and callbacks that raise are not modelled.

Theorems: `C133_full_statement_refuted`, `C133_own_partial`, `C133_one_at_a_time`, `C133_no_false_alarm`, `C133_missed_refuted`, `C133_stays_offline_refuted`, `C133_twice_refuted`, `C133_stale_refuted`.

### C134 A histogram fed by several threads

HistThr_*: each read and write of handle() is a step of the thread machine of MetrThr_Model; the buckets are visited one by one. An invariant for calls that do not overlap, the weight argument of MetrThr_Proofs for upper bounds; the full statement is refuted.

Status: **partial**. The full statement is false: handle() takes no lock, so that updates of the count, the sum and the buckets can be lost independently of each other; a bucket can go back. Proved: all is exact if calls do not overlap; however they overlap, nothing is negative or shows more than the calls that have begun give it, no call raises, and once a value was fed the count and its buckets show one at least. Labels and children are not modelled here (C40 has them for one thread).

Theorems: `C134_full_statement_refuted`, `C134_partial`, `C134_bounds`, `C134_some`, `C134_torn_refuted`, `C134_backwards_refuted`.

### C135 Base64 text spells the content

B64_*: the encoder by groups of three bytes with div and mod, against a specification by bits and by the table of RFC 4648. Induction on the content. base64.b64encode itself is the standard library's and is modelled after the RFC.

Status: **proved**. base64.b64encode is the standard library's: it is modelled after RFC 4648, not after its C source. The specification is by bits and by ranges of the alphabet, the model by div, mod and a table.

Theorems: `C135_spells`, `C135_nothing_else`, `C135_injective`, `C135_length`.

## Which code is modelled

For every file of `satella/` the models that cite it (`X` stands for `X_Model.v`) and
the properties proved of these models. A model can cover more files than one, so not every
property of a line speaks about the file. The comment of each definition has the lines.

| source file | models | properties |
|---|---|---|
| `cassandra/future.py` | Cass | C119 |
| `cassandra/parallel.py` | Cass | C119 |
| `coding/algos.py` | Sources | C24 |
| `coding/concurrent/atomic.py` | Await Monitor SyncPool | C16 C17 C32 C33 C54 C55 C73 |
| `coding/concurrent/callablegroup.py` | CallGroup Pressure Schema | C25 C30 C64 C101 C102 |
| `coding/concurrent/functions.py` | Parallel | C83 |
| `coding/concurrent/futures/call_in_future.py` | WrapFut | C103 C104 |
| `coding/concurrent/futures/collection.py` | Futures WrapFut | C31 C103 C104 |
| `coding/concurrent/futures/futures.py` | Futures WrapFut | C31 C103 C104 |
| `coding/concurrent/futures/wrapped_executor.py` | WrapFut | C103 C104 |
| `coding/concurrent/id_allocator.py` | IDAlloc | C16 C17 |
| `coding/concurrent/list_processor.py` | Parallel | C83 |
| `coding/concurrent/locked_dataset.py` | Locked | C35 |
| `coding/concurrent/locked_structure.py` | MonSync | C100 |
| `coding/concurrent/monitor.py` | Await ClnReg MonSync Monitor | C16 C17 C32 C33 C54 C55 C100 C130 |
| `coding/concurrent/queue.py` | Queue | C34 |
| `coding/concurrent/sync.py` | SyncPool | C73 |
| `coding/concurrent/thread.py` | Await CpuSleep Pressure Queue StartThr Thread | C34 C49 C55 C56 C64 C81 C117 |
| `coding/concurrent/thread_collection.py` | Parallel | C83 |
| `coding/concurrent/timer.py` | Timer | C65 |
| `coding/concurrent/value.py` | Deferred | C46 C48 |
| `coding/ctxt_managers.py` | Flow | C91 |
| `coding/decorators/arguments.py` | Decor MethDec | C71 C116 |
| `coding/decorators/decorators.py` | Flow Memo MethDec | C36 C91 C116 |
| `coding/decorators/flow_control.py` | Flow | C91 |
| `coding/decorators/preconditions.py` | Decor | C71 |
| `coding/decorators/retry_dec.py` | Retry | C37 |
| `coding/deep_compare.py` | Values | C52 C62 |
| `coding/deleters.py` | Deleters | C18 |
| `coding/environment.py` | Context Taint | C72 C84 |
| `coding/expect_exception.py` | Flow | C91 |
| `coding/generators.py` | GenWrap | C67 |
| `coding/iterators.py` | GenWrap | C67 |
| `coding/metaclasses.py` | Meta | C90 |
| `coding/misc.py` | Adapter Args Closeable Decor Deferred Flow Pool | C39 C46 C48 C69 C71 C74 C91 C120 |
| `coding/optionals.py` | Proxy | C78 |
| `coding/overloading.py` | Args Overload | C69 C70 |
| `coding/predicates.py` | Predicates | C66 |
| `coding/recast_exceptions.py` | Recast | C38 |
| `coding/resources/cp_manager.py` | Pool | C39 |
| `coding/sequences/average.py` | Wrappers | C47 |
| `coding/sequences/choose.py` | Iterators | C21 C51 |
| `coding/sequences/iterators.py` | Adapter Iterators Walk Wrappers | C21 C47 C51 C89 C120 |
| `coding/sequences/sequences.py` | MetrWrap Sequences | C19 C20 C114 C115 |
| `coding/structures/dictionaries/cache_dict.py` | CacheDict CacheThr LruThr | C07 C08 C123 C127 |
| `coding/structures/dictionaries/counting.py` | Dicts | C93 |
| `coding/structures/dictionaries/default.py` | Dicts | C93 |
| `coding/structures/dictionaries/dict_object.py` | AttrDict | C128 |
| `coding/structures/dictionaries/expiring.py` | ClnReg Dicts ExpThr Expiring ScdThr | C09 C93 C129 C130 C131 |
| `coding/structures/dictionaries/objects.py` | DictObjects KeyAware | C11 C12 C13 C124 |
| `coding/structures/dictionaries/writeback_cache.py` | MetrCache WbThr Writeback | C10 C87 C126 |
| `coding/structures/hashable_objects.py` | Small | C80 |
| `coding/structures/heaps/base.py` | Heap HeapList Heapq HeapqC | C01 C02 C95 |
| `coding/structures/heaps/time.py` | TimeHeap Timer | C03 C04 C65 |
| `coding/structures/immutable.py` | Frozen Mixins | C50 C57 C58 C92 |
| `coding/structures/lru.py` | CacheDict LruThr | C07 C08 C127 |
| `coding/structures/mixins/enums.py` | Mixins | C92 |
| `coding/structures/mixins/eqable.py` | Mixins | C92 |
| `coding/structures/mixins/hashable.py` | Frozen Mixins | C50 C57 C58 C92 |
| `coding/structures/mixins/strings.py` | Mixins | C92 |
| `coding/structures/proxy.py` | Proxy Small | C78 C80 |
| `coding/structures/push_iterable.py` | Wrappers | C47 |
| `coding/structures/queues.py` | SubThr Wrappers | C47 C132 |
| `coding/structures/ranking.py` | SortedList | C05 C06 |
| `coding/structures/singleton.py` | Singleton | C68 |
| `coding/structures/sorted_list.py` | SortedList | C05 C06 |
| `coding/structures/sparse_matrix.py` | SparseMatrix | C14 |
| `coding/structures/syncable_droppable.py` | Syncable | C15 |
| `coding/structures/tuples.py` | Small | C80 |
| `coding/structures/typednamedtuple.py` | Typed | C79 |
| `coding/structures/zip_dict.py` | Small | C80 |
| `coding/transforms/__init__.py` | Transforms Values | C23 C52 C62 |
| `coding/transforms/base64.py` | B64 | C135 |
| `coding/transforms/interpol.py` | Transforms | C23 |
| `coding/transforms/jsonify.py` | Values | C52 C62 |
| `coding/transforms/merge_list.py` | Heapq Merge | C22 |
| `coding/transforms/merger.py` | Merge | C22 |
| `coding/transforms/misc.py` | Transforms | C23 |
| `coding/transforms/percentile.py` | Transforms | C23 |
| `coding/transforms/predicates.py` | Transforms | C23 |
| `coding/transforms/words.py` | Transforms | C23 |
| `configuration/schema/base.py` | Schema SchemaHeap SchemaJson | C25 C101 C102 C122 |
| `configuration/schema/basic.py` | Schema SchemaJson | C25 C101 C102 |
| `configuration/schema/from_json.py` | SchemaJson | C101 C102 |
| `configuration/schema/registry.py` | SchemaJson | C101 C102 |
| `configuration/schema/structs.py` | Schema SchemaHeap SchemaJson | C25 C101 C102 C122 |
| `configuration/sources/base.py` | Sources | C24 |
| `configuration/sources/derivative.py` | Sources | C24 |
| `configuration/sources/envvars.py` | FileSrc | C94 |
| `configuration/sources/file.py` | FileSrc | C94 |
| `configuration/sources/format.py` | FileSrc | C94 |
| `configuration/sources/from_dict.py` | FileSrc | C94 |
| `configuration/sources/object_from.py` | Sources | C24 |
| `dao.py` | Db | C76 C77 |
| `db.py` | Db | C76 C77 |
| `debug/tainting/environment.py` | Taint | C84 |
| `debug/tainting/tainteds.py` | Taint | C84 |
| `exception_handling/dump_to_file.py` | Dump | C118 |
| `exception_handling/exception_handlers.py` | Hooks | C75 |
| `exception_handling/global_eh.py` | Dump Hooks | C75 C118 |
| `exception_handling/memerrhandler.py` | Hooks | C75 |
| `exceptions.py` | Exceptions FileSrc | C94 C97 |
| `files.py` | Dump FileOps Files | C44 C45 C59 C60 C61 C98 C99 C118 |
| `imports.py` | Imports | C112 |
| `instrumentation/cpu_time/collector.py` | CpuProfile CpuSleep | C81 C82 |
| `instrumentation/cpu_time/concurrency.py` | CpuSleep | C81 |
| `instrumentation/memory/conditions.py` | Pressure | C64 |
| `instrumentation/memory/dump_frames_on.py` | MemDump | C121 |
| `instrumentation/memory/get_object_size.py` | Size | C105 |
| `instrumentation/memory/memthread.py` | Pressure | C64 |
| `instrumentation/metrics/__init__.py` | MetricTree | C43 |
| `instrumentation/metrics/aggregate.py` | MetrWrap | C114 C115 |
| `instrumentation/metrics/data.py` | MetrThr MetrWrap MetricData MetricTree Metrics Prom | C40 C41 C42 C43 C88 C114 C115 C125 |
| `instrumentation/metrics/exporters/prometheus.py` | Prom | C88 |
| `instrumentation/metrics/labeled.py` | MetrWrap | C114 C115 |
| `instrumentation/metrics/metric_types/base.py` | MetrThr MetrWrap MetricTree Metrics | C40 C41 C43 C114 C115 C125 |
| `instrumentation/metrics/metric_types/callable.py` | MetrCache MetrWrap | C87 C114 C115 |
| `instrumentation/metrics/metric_types/counter.py` | MetrThr Metrics | C40 C41 C125 |
| `instrumentation/metrics/metric_types/cps.py` | MetrThr Metrics | C40 C41 C125 |
| `instrumentation/metrics/metric_types/empty.py` | MetricTree | C43 |
| `instrumentation/metrics/metric_types/histogram.py` | HistThr Metrics | C40 C41 C134 |
| `instrumentation/metrics/metric_types/linkfail.py` | LinkThr Metrics | C40 C41 C133 |
| `instrumentation/metrics/metric_types/measurable_mixin.py` | MetrMeasure | C86 |
| `instrumentation/metrics/metric_types/registry.py` | MetricTree | C43 |
| `instrumentation/metrics/metric_types/simple.py` | MetrWrap | C114 C115 |
| `instrumentation/metrics/metric_types/summary.py` | MetrThr Metrics | C40 C41 C125 |
| `instrumentation/metrics/metric_types/uptime.py` | MetrWrap | C114 C115 |
| `instrumentation/metrics/structures/cache_dict.py` | MetrCache | C87 |
| `instrumentation/metrics/structures/threadpool.py` | MetrPool | C85 |
| `instrumentation/trace_back/classes.py` | Trace | C96 |
| `instrumentation/trace_back/trace_back.py` | Dump Trace | C96 C118 |
| `json.py` | FileOps Json | C53 C98 C99 |
| `opentracing/exceptions.py` | Tracing | C113 |
| `opentracing/trace.py` | Tracing | C113 |
| `os/daemon.py` | Daemon | C111 |
| `os/misc.py` | Hooks OsMisc | C75 C109 C110 |
| `os/pidlock.py` | PidLock | C63 |
| `os/signals.py` | Sleep | C107 C108 |
| `parsing.py` | Parser | C29 |
| `processes.py` | Procs | C106 |
| `random.py` | OsMisc | C109 C110 |
| `time/backoff.py` | Backoff | C26 |
| `time/measure.py` | Measure | C27 |
| `time/misc.py` | Sleep | C107 C108 |
| `time/parse.py` | ParseTime | C28 |

Not modelled: `cassandra/common.py`, `coding/fun_static.py`, `coding/typing.py`, `instrumentation/dump_frames_on.py`, `instrumentation/memory/default.py`, `posix.py`, `warnings.py`, the package files that only
import. These are aliases, type declarations, a setattr on a function, a deprecation
warning, and printing of frames at a signal. In the files above, `__repr__`, `__str__`
and other texts for people are modelled only where a definition says so. Also outside:
the behaviour of garbage collection and of `__del__` at interpreter exit, float
rounding, the memory model below one Python operation, real network, database and
OpenTracing libraries (they are oracles), and Python's own parsing of source.

## Findings

Reading the code for the model turned up behaviour that differs from what the
documentation or a user's expectation says. Where a property is false, the theorem
file has the counterexample (`_refuted`) and the note of the claim in
`MANIFEST.json` says in one sentence what happens. The ones with the widest reach:

* C34: a put() between the release of the lock and the wait of a get() is not noticed.
* C68: threads that construct a Singleton at the same time get two instances.
* C85: tasks are lost when nobody holds the executor any more.
* C96: from_json() of a stored variable drops the pickled value.
* C106: output larger than a pipe hangs call_and_return_stdout.
* C125: metrics fed by several threads lose increments.
* C126: a stale value can stay in an ExclusiveWritebackCache for good.
* C127: after one race between two writes, a later write to an LRUCacheDict can loop for ever.
* C129: reading an expired key of an ExpiringEntryDict can throw away the value another thread just wrote, and the
  next cleanup() then raises KeyError.
* C130: iterating over an ExpiringEntryDict or SelfCleaningDefaultDict inside of `with Monitor.acquire(d)`, as the
  documentation recommends, deadlocks, and blocks the cleanup thread together with everybody who makes another one.
* C131: SelfCleaningDefaultDict.__delitem__ takes no monitor: `del d[k]` and `d[k] = default` raise KeyError when the key is deleted
  meanwhile, and a concurrent cleanup() stops at that key without cleaning the rest.
* C132: Subqueue.get_any() and qsize() iterate over the dictionary of queues without the monitor: a put() or get() with a new name in
  another thread makes them raise RuntimeError.
* C133: LinkfailMetric compares its counters with == in a step of its own. With two threads a counter can pass the limit before it is
  compared: the link is then never reported offline (or online), whatever follows (C133_missed_refuted, C133_stays_offline_refuted). The
  same alarm can be given twice, and the last callback can contradict the status (C133_twice_refuted, C133_stale_refuted).
* C134: HistogramMetric loses updates when several threads feed it; count, sum and buckets then disagree (C134_torn_refuted).

## Tests against wrong programs

`seeded/LOG.jsonl` has one line per edit of a model definition, made in a scratch
copy. Each line is measured, not declared:

* `proof_steps_failed` lists the proofs that no longer compile. In the scratch copy
  each of them is replaced by `Admitted` (keeping the section variables it used) and
  the build goes on.
* `theorems_failed` lists the theorems whose `Print Assumptions` then shows an
  admitted step. It means "the proof no longer goes through". Lemmas are shared
  between theorems, so a theorem that does not speak about the edited behaviour
  can be in the list together with the one that does.
* `shown_on_edited_model`, where present, is an execution of the edited model,
  checked by `vm_compute`, that shows the claim to be false of it.

An edit that does not type-check in the statements, for instance because it
leaves a section variable unused, is not counted.

