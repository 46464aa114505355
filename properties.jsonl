{"id": "C01", "title": "Heap.pop returns a minimum; nothing is lost or invented", "statement": "For a Heap built from any iterable and driven by any sequence of push/push_many/pop/pop_item/filter_map, the multiset of held elements is exactly the multiset obtained by performing the same insertions and removals; pop returns an element that is <= every element held and removes exactly one occurrence of it, and raises IndexError exactly when the heap is empty; iter_ascending yields a sorted permutation of the contents and iter_descending its reverse, both leaving the heap unchanged.", "quantifier": "all element types with a total preorder, all constructor iterables, all finite operation sequences", "why_tests_cant": "The heap shape depends on the whole insertion history and size; tests see a handful of sizes and orders.", "anchors": ["satella/coding/structures/heaps/base.py:Heap"]}
{"id": "C02", "title": "SetHeap is a heap of distinct elements whose membership test is exact", "statement": "A SetHeap holds every element at most once, pushing an element already present changes nothing, and `x in heap` is True exactly when x would still be popped; pop returns the minimum of the set of pushed-and-not-popped elements.", "quantifier": "all constructor iterables and all operation sequences over push/push_many/pop/pop_item/filter_map", "why_tests_cant": "Divergence between the heap and its shadow set only shows after particular histories.", "anchors": ["satella/coding/structures/heaps/base.py:SetHeap"]}
{"id": "C03", "title": "TimeBasedHeap.pop_less_than returns exactly the due entries in time order", "statement": "Exhausting pop_less_than(t) returns, in non-decreasing timestamp order, exactly the entries whose timestamp is strictly smaller than t, and leaves exactly the others in the heap; put adds one entry; remove(item) removes exactly the entries whose item equals the given one; pop_timestamp removes and returns an item of exactly that timestamp.", "quantifier": "all put histories, all query times", "why_tests_cant": "Boundary (strict vs non-strict) and heap shape interact over unbounded histories.", "anchors": ["satella/coding/structures/heaps/time.py:TimeBasedHeap"]}
{"id": "C04", "title": "TimeBasedSetHeap keeps one, the latest, timestamp per item", "statement": "After any sequence of operations every item is held at most once, with the timestamp of its most recent put; items popped or removed are gone and can be put again; pop_less_than(t) returns exactly the items whose current timestamp is < t.", "quantifier": "all operation sequences of put/remove/pop_less_than/pop_timestamp over all items and times", "why_tests_cant": "Needs agreement of two redundant structures after every history.", "anchors": ["satella/coding/structures/heaps/time.py:TimeBasedSetHeap"]}
{"id": "C05", "title": "SortedList is always sorted by key and holds exactly what was added and not removed", "statement": "At every moment iteration over a SortedList is in non-decreasing key order and is a permutation of the elements added (constructor, add, extend) minus those removed (remove, pop, popleft, ...); add returns the index at which the new element now sits; index/contains/count agree with that sequence.", "quantifier": "all key functions into a total order, all initial contents, all operation sequences", "why_tests_cant": "Sortedness is an inductive invariant over unbounded histories.", "anchors": ["satella/coding/structures/sorted_list.py:SortedList"]}
{"id": "C06", "title": "Ranking positions are consistent with the key order", "statement": "calculate_ranking_for(x) and get_position_of(x) return p only if ranking[p] is x, and report an object not in the ranking as absent; positions are exactly 0..len-1 and follow ascending key order; add/remove keep this.", "quantifier": "all histories of add/remove of distinct objects", "why_tests_cant": "Position maps are recomputed after each mutation; staleness appears only after specific histories.", "anchors": ["satella/coding/structures/ranking.py:Ranking"]}
{"id": "C07", "title": "LRUCacheDict never exceeds its capacity and evicts the least recently used key", "statement": "After any sequence of reads, writes and deletions an LRUCacheDict holds at most max_size keys; when a new key needs room the evicted key is the one whose last use (read or write) is oldest; the eviction loop terminates.", "quantifier": "all capacities >= 1, all operation sequences", "why_tests_cant": "Recency order depends on the whole history.", "anchors": ["satella/coding/structures/dictionaries/cache_dict.py:LRUCacheDict", "satella/coding/structures/lru.py:LRU"]}
{"id": "C08", "title": "CacheDict serves values no older than the expiration interval and caches failures", "statement": "A successful read of a CacheDict at time t returns a value that the value_getter produced (or the user stored) for that key at some time >= t - expiration_interval; within stale_interval of loading the getter is not called again, and between stale_interval and expiration_interval the old value is served while a refresh is scheduled; if so configured, a KeyError from the getter is remembered for that key for cache_failures_interval, and a later store or invalidation of the key takes precedence.", "quantifier": "all getters, all key/time histories with non-decreasing clock", "why_tests_cant": "Quantifies over all timings of reads relative to two thresholds.", "anchors": ["satella/coding/structures/dictionaries/cache_dict.py:CacheDict"]}
{"id": "C09", "title": "ExpiringEntryDict shows an entry exactly until its expiry", "statement": "An entry stored at time t0 with timeout d is visible through [], in, iteration and len at every time t with t <= t0+d (unless overwritten or deleted) and at no later time; no operation other than an access to a missing key raises.", "quantifier": "all operation histories with a non-decreasing clock", "why_tests_cant": "Three redundant structures must agree after every history and timing.", "anchors": ["satella/coding/structures/dictionaries/expiring.py:ExpiringEntryDict"]}
{"id": "C10", "title": "ExclusiveWritebackCache behaves as a dictionary over its backing store", "statement": "Reads through the cache return the last value written through it (or the initially stored value), deletions are visible at once, and after sync() the backing store holds exactly the same mapping.", "quantifier": "all operation sequences; all schedules of the write-back executor", "why_tests_cant": "The write-back executor may run queued writes at any later point.", "anchors": ["satella/coding/structures/dictionaries/writeback_cache.py:ExclusiveWritebackCache"]}
{"id": "C11", "title": "TwoWayDictionary is a bijection", "statement": "After any sequence of operations d[k]==v iff d.reverse[v]==k; assigning a value already held by another key raises ValueError and changes nothing; deleting either side deletes both.", "quantifier": "all operation sequences through both views", "why_tests_cant": "Two dictionaries must stay mutually inverse for every history, including failing operations.", "anchors": ["satella/coding/structures/dictionaries/objects.py:TwoWayDictionary"]}
{"id": "C12", "title": "DirtyDict.dirty is set by every change and only by changes", "statement": "dirty is True iff some operation since construction or the last clear_dirty, swap_and_clear_dirty or copy_and_clear_dirty changed the mapping; re-assigning an equal value does not set it; in every other respect it is a dictionary.", "quantifier": "all operation sequences", "why_tests_cant": "History-dependent flag.", "anchors": ["satella/coding/structures/dictionaries/objects.py:DirtyDict"]}
{"id": "C13", "title": "DictionaryView reads through the chain and writes by its rules", "statement": "view[k] is the value of the first underlying dictionary that contains k, KeyError iff none does; len and iteration count each visible key once; assignment changes only the dictionary selected by assign_to_same_dict; deletion with propagate_deletes removes k from the first dictionary that holds it, otherwise only from the master; a copy behaves like the original.", "quantifier": "all chains of dictionaries and all operation sequences", "why_tests_cant": "Quantifies over overlapping key sets in unboundedly many dictionaries.", "anchors": ["satella/coding/structures/dictionaries/objects.py:DictionaryView"]}
{"id": "C14", "title": "SparseMatrix behaves as a finite map of cells with exact dimensions", "statement": "m[x,y] returns the last value assigned to that cell and not deleted, else None; columns/rows are 1 + the largest occupied column/row index (0 for an empty matrix); deleting or writing one cell affects no other; bool(m) is True iff there is an occupied cell.", "quantifier": "all sequences of cell assignments, deletions and row/column deletions", "why_tests_cant": "Cached dimensions depend on entire histories.", "anchors": ["satella/coding/structures/sparse_matrix.py:SparseMatrix"]}
{"id": "C15", "title": "Syncable/droppable store: no loss below the retention bounds, order kept", "statement": "on_new_data accepts exactly strictly increasing keys; cleanup/sync_to_db never lose an entry that the retention limits say must be kept, and what get_archive returns is in strictly increasing key order and consists only of entries received.", "quantifier": "all arrival histories, cleanup points and retention settings", "why_tests_cant": "Crash and cleanup points may fall anywhere in the history.", "anchors": ["satella/coding/structures/syncable_droppable.py:SyncableDroppable"]}
{"id": "C16", "title": "IDAllocator never hands out an identifier twice while it is held", "statement": "allocate_int never returns an identifier that is currently allocated; mark_as_allocated marks exactly that id or raises AlreadyAllocated; mark_as_free makes it allocatable again and raises ValueError for ids not held; ids are >= start_at, and with a top_limit they are < top_limit, Empty being raised only when all are taken.", "quantifier": "all operation sequences, all start_at/top_limit", "why_tests_cant": "Uniqueness over all histories.", "anchors": ["satella/coding/concurrent/id_allocator.py:IDAllocator"]}
{"id": "C17", "title": "SequentialIssuer issues strictly increasing identifiers", "statement": "Every identifier issued (by issue or no_less_than) is strictly larger than every identifier issued before; no_less_than(n) returns at least n.", "quantifier": "all call sequences", "why_tests_cant": "History quantification.", "anchors": ["satella/coding/concurrent/id_allocator.py:SequentialIssuer"]}
{"id": "C18", "title": "DictDeleter and ListDeleter remove exactly the marked entries", "statement": "Iterating a dictionary (list) with DictDeleter (ListDeleter), marking any subset for deletion, and leaving the context removes exactly the marked entries, keeping the others in order; every element is presented once.", "quantifier": "all containers and all marking patterns, forward and backward iteration", "why_tests_cant": "Index shifting under multiple deletions is order dependent.", "anchors": ["satella/coding/deleters.py:DictDeleter", "satella/coding/deleters.py:ListDeleter"]}
{"id": "C19", "title": "group_quantity partitions its input", "statement": "The concatenation of the yielded groups is the input; every group but the last has exactly `length` elements and the last has between 1 and length; the sequence and the iterator variants agree.", "quantifier": "all sequences, all positive lengths", "why_tests_cant": "Boundary at multiples of the group length for every size.", "anchors": ["satella/coding/sequences/sequences.py:group_quantity"]}
{"id": "C20", "title": "is_last, add_next, half_cartesian, index_of, index_of_max and the filters meet their contracts", "statement": "is_last pairs every element with a flag true only for the last; add_next pairs each element with its successor (None / first for the last); half_cartesian yields exactly the pairs (s[i], s[j]) with i<=j (i<j), each once, in lexicographic index order; index_of returns the smallest satisfying index or raises; index_of_max returns the smallest index of a maximum; the filters keep exactly the satisfying elements in order.", "quantifier": "all finite sequences", "why_tests_cant": "Off-by-one at every length.", "anchors": ["satella/coding/sequences/sequences.py"]}
{"id": "C21", "title": "Iterator helpers (skip_first, stop_after, take_n, n_th, shift, zip_shifted, even, odd, unique, count, smart_enumerate, is_empty, length, iter_dict_of_list) meet their list specifications", "statement": "Each helper yields exactly the sequence given by its documented list description: e.g. stop_after(n) the first n, skip_first(n) all but the first n, shift(n) the rotation of the sequence by n, even/odd the elements of even/odd positions in order, unique the first occurrences.", "quantifier": "all finite inputs and all integer parameters in the documented domain", "why_tests_cant": "Parameter/length interplay is unbounded.", "anchors": ["satella/coding/sequences/iterators.py"]}
{"id": "C22", "title": "merge_list / merge_series produce ordered, complete merges", "statement": "merge_list of timestamp-sorted series yields strictly increasing timestamps; for every timestamp occurring in any input the output value is the merge_func fold of all the values with that timestamp, and nothing else appears. merge_series yields, from the moment every series has started and for every later timestamp at which any series has a value, one row with the most recent value of each series.", "quantifier": "any number of series of any length", "why_tests_cant": "k-way heap merge over all interleavings of timestamps.", "anchors": ["satella/coding/transforms/merge_list.py", "satella/coding/transforms/merger.py"]}
{"id": "C23", "title": "clip, percentile, linear_interpolate, list_values_to_indices, pad_to_multiple_of_length, is_subset, unpack_dict, split_shuffle_and_join", "statement": "clip returns the nearest point of [min,max]; percentile lies between the minimum and maximum and interpolates linearly between order statistics; linear_interpolate returns the stored value at stored abscissae, clips outside, and stays between neighbours; padding gives the shortest extension to a multiple; is_subset holds exactly when every key/value is contained.", "quantifier": "all inputs in the documented domain", "why_tests_cant": "Numeric boundary conditions for all inputs.", "anchors": ["satella/coding/transforms/__init__.py", "satella/coding/transforms/percentile.py", "satella/coding/transforms/interpol.py", "satella/coding/transforms/misc.py"]}
{"id": "C24", "title": "Merging configuration sources: later sources override, nested dictionaries merge, failures follow the policy", "statement": "MergingSource.provide returns a tree in which a leaf path holds the value of the last source defining it; lists are concatenated and nested dictionaries merged key by key; with RAISE the first failing source decides, with SILENT failing sources are skipped and, unless disabled, all failing raises ConfigurationError. AlternativeSource returns the first success; OptionalSource never fails with ConfigurationError.", "quantifier": "all finite source lists with arbitrary outcomes and arbitrary nested values", "why_tests_cant": "Unbounded nesting and source lists.", "anchors": ["satella/configuration/sources/derivative.py", "satella/coding/algos.py:merge_dicts"]}
{"id": "C25", "title": "Schema descriptors accept exactly the described values and fill in defaults", "statement": "A Dict descriptor succeeds iff the value is a dictionary, every non-optional key is present and every present described key is accepted by its descriptor; the result holds exactly the described keys (defaults for absent optional ones) plus unknown keys mapped by the mapper; List maps its element descriptor; Union returns the result of the first accepting descriptor; the input is not modified.", "quantifier": "all schemas (nested arbitrarily) and all values", "why_tests_cant": "Recursive structure of arbitrary depth.", "anchors": ["satella/configuration/schema/base.py", "satella/configuration/schema/structs.py", "satella/configuration/schema/basic.py"]}
{"id": "C26", "title": "ExponentialBackoff: doubling, capped, reset on success", "statement": "After k consecutive failures beyond the grace amount the wait equals start*2^(k-1) capped at limit; success() resets to ready at once; ready_for_next_check becomes true exactly when the wait has elapsed since the last failure.", "quantifier": "all sequences of failed/success and clock values", "why_tests_cant": "History and clock quantification.", "anchors": ["satella/time/backoff.py:ExponentialBackoff"]}
{"id": "C27", "title": "measure reports exactly the time spent running", "statement": "get_time_elapsed equals the total time between start and stop events; time_remaining is never negative; the timeout is signalled iff the elapsed time has reached it; start after stop resumes.", "quantifier": "all start/stop/update histories with a non-decreasing clock", "why_tests_cant": "Clock quantification.", "anchors": ["satella/time/measure.py:measure"]}
{"id": "C28", "title": "parse_time_string understands number+unit", "statement": "A string of a number followed by a documented unit suffix is converted to that many seconds; plain numbers are seconds.", "quantifier": "all numbers and all documented unit spellings", "why_tests_cant": "Unit detection by substring interacts between units.", "anchors": ["satella/time/parse.py:parse_time_string"]}
{"id": "C29", "title": "BinaryParser reads exactly the window it was given", "statement": "For a parser over stream b with offset o and length l, consecutive reads return consecutive slices of b[o:o+l]; reading past the end raises NotEnoughBytes and does not move the pointer; a sub-parser from get_parser(n) sees exactly the next n bytes and the parent continues after them; reset returns to the start; remaining count + bytes consumed = length.", "quantifier": "all streams, windows and operation sequences", "why_tests_cant": "Bounds arithmetic for all offsets and nested windows.", "anchors": ["satella/parsing.py:BinaryParser"]}
{"id": "C30", "title": "CallableGroup calls every live callback, in order, with the arguments given", "statement": "Calling a CallableGroup invokes each registered, not cancelled callback exactly once in registration order with the given arguments; with gather the list of results is in the same order; callbacks stay registered unless they are one-shot or cancelled, whatever they raise. CallNoOftenThan lets at least its interval pass between calls.", "quantifier": "all registration/cancellation/call histories and all callback outcomes", "why_tests_cant": "History dependent set of callbacks plus failure points.", "anchors": ["satella/coding/concurrent/callablegroup.py:CallableGroup"]}
{"id": "C31", "title": "Futures run pre-done callbacks before becoming done and deliver one result", "statement": "Callbacks added with add_pre_done_callback run exactly once, before any waiter or done callback observes completion; a future is completed at most once; FutureCollection results are in order and cancel/set_running reach every member.", "quantifier": "all callback registration/completion interleavings, all collections", "why_tests_cant": "Ordering over all schedules.", "anchors": ["satella/coding/concurrent/futures/futures.py:Future", "satella/coding/concurrent/futures/collection.py:FutureCollection"]}
{"id": "C32", "title": "AtomicNumber operations are atomic", "statement": "Under any interleaving of any number of threads performing += / -= / other arithmetic on an AtomicNumber, the final value is the result of executing the operations one after the other in some order consistent with each thread, and each operation observes a value of that order.", "quantifier": "all programs, thread counts and schedules", "why_tests_cant": "Exponential number of interleavings.", "anchors": ["satella/coding/concurrent/atomic.py:AtomicNumber", "satella/coding/concurrent/monitor.py:Monitor"]}
{"id": "C33", "title": "MonitorSet.insert_and_check admits each element exactly once", "statement": "If several threads call insert_and_check with the same element, under every interleaving exactly one call returns True (when the element was absent before), and the element is present afterwards.", "quantifier": "all thread counts and schedules", "why_tests_cant": "Interleavings.", "anchors": ["satella/coding/concurrent/monitor.py:MonitorSet"]}
{"id": "C34", "title": "PeekableQueue delivers every item once in FIFO order", "statement": "Under every interleaving of put/put_many/get/peek the items returned by get are, in order, a prefix of the items put; peek does not remove; no item is lost or duplicated; a waiting consumer is eventually woken by a put.", "quantifier": "all schedules", "why_tests_cant": "Interleavings.", "anchors": ["satella/coding/concurrent/queue.py:PeekableQueue"]}
{"id": "C35", "title": "LockedDataset grants access to one thread at a time", "statement": "Inside `with dataset` no other thread is inside; attribute access outside the context raises ResourceNotLocked; a failed acquisition raises ResourceLocked.", "quantifier": "all schedules and all enter/exit orders", "why_tests_cant": "Interleavings.", "anchors": ["satella/coding/concurrent/locked_dataset.py:LockedDataset"]}
{"id": "C36", "title": "memoize / cache_memoize return the stored result and run the function once per key", "statement": "Sequentially, a memoized function is evaluated at most once per distinct argument tuple (cache_memoize: once per cache_duration window) and every call returns the value of an evaluation on the same arguments; under concurrency the returned value is still such a value.", "quantifier": "all call histories, clock values and interleavings", "why_tests_cant": "History/interleaving quantification.", "anchors": ["satella/coding/decorators/decorators.py:memoize", "satella/coding/decorators/decorators.py:cache_memoize"]}
{"id": "C37", "title": "retry runs the function until the first success, at most `times` times", "statement": "The function is called exactly once more than the number of leading failures (bounded by times); the result of the first success is returned and call_on_success receives the number of failures before it; when all attempts fail on_failure receives the last exception and it is swallowed or re-raised as requested; exceptions outside exc_classes propagate at once.", "quantifier": "all outcome sequences and all times", "why_tests_cant": "Unbounded outcome sequences.", "anchors": ["satella/coding/decorators/retry_dec.py:retry"]}
{"id": "C38", "title": "Exception translators touch exactly the listed exceptions", "statement": "reraise_as / rethrow_as / silence_excs / catch_exception / raises_exception / log_exceptions convert, silence, return or log exactly exceptions that are instances of the listed classes; all other outcomes (values and exceptions) pass unchanged; rethrow_as uses the first matching pair.", "quantifier": "all exception hierarchies, all mappings, all function outcomes", "why_tests_cant": "Quantifies over class hierarchies and mapping orders.", "anchors": ["satella/coding/recast_exceptions.py"]}
{"id": "C39", "title": "CPManager never hands one connection to two users and tears each down at most once", "statement": "At any moment a pooled connection is either idle in the pool or leased to exactly one holder; the pool never keeps more than max_number idle; a connection is recycled after max_cycle_no acquisitions or when failed; every connection is torn down at most once and never used afterwards; close() tears down all idle connections.", "quantifier": "all acquire/release/fail/invalidate/close histories by well-behaved users", "why_tests_cant": "History quantification.", "anchors": ["satella/coding/resources/cp_manager.py:CPManager"]}
{"id": "C40", "title": "HistogramMetric counts every non-negative observation in exactly one bucket", "statement": "After any sequence of handle(v) the bucket of [l,u) holds the number of observed v with l <= v < u, the buckets sum to the number of non-negative observations, count is the number of observations and sum their sum.", "quantifier": "all sorted bucket limits, all observation sequences", "why_tests_cant": "Boundary values for any limits.", "anchors": ["satella/instrumentation/metrics/metric_types/histogram.py:HistogramMetric"]}
{"id": "C41", "title": "Counter, Summary, CPS and Linkfail metrics report exactly what was fed", "statement": "Counter value is the sum of deltas and calls the number of calls; Summary quantiles are computed over exactly the last `last_calls` observations; CPS reports for each period the number of clicks within it; Linkfail goes offline exactly at the n-th consecutive failure and online at the m-th consecutive success, invoking each callback once per transition.", "quantifier": "all feeding sequences (and clock values)", "why_tests_cant": "Unbounded histories.", "anchors": ["satella/instrumentation/metrics/metric_types/counter.py", "satella/instrumentation/metrics/metric_types/summary.py", "satella/instrumentation/metrics/metric_types/cps.py", "satella/instrumentation/metrics/metric_types/linkfail.py"]}
{"id": "C42", "title": "MetricDataCollection union keeps the newest datum per (name, labels); JSON round-trips", "statement": "a + b holds for every (name, labels) key of either operand exactly one datum, b taking precedence; from_json(to_json(m)) equals m in every field when labels avoid the reserved names.", "quantifier": "all collections", "why_tests_cant": "Set semantics over all overlaps.", "anchors": ["satella/instrumentation/metrics/data.py"]}
{"id": "C43", "title": "A metric records data only at its effective level and exports enabled children", "statement": "handle(level, ...) reaches the metric iff its effective level (own, or the nearest ancestor not INHERIT) >= level; getMetric returns the same object for the same name and registers every ancestor.", "quantifier": "all metric trees, names and level settings", "why_tests_cant": "Unbounded trees.", "anchors": ["satella/instrumentation/metrics/metric_types/base.py:Metric", "satella/instrumentation/metrics/__init__.py:getMetric"]}
{"id": "C44", "title": "make_noncolliding_name returns a free name of the documented form", "statement": "The result is dir/name[.n].ext with the smallest n (none first) for which exists_checker is False; it never returns an existing path.", "quantifier": "all paths and all finite sets of existing files", "why_tests_cant": "Unbounded counter.", "anchors": ["satella/files.py:make_noncolliding_name"]}
{"id": "C45", "title": "write_out_file_if_different leaves the file with the given content and reports whether it wrote", "statement": "After the call the file holds exactly the data; the return value is True iff the file did not exist or held something else; other files are untouched; a crash in the middle is visible only for that file.", "quantifier": "all file systems contents and data", "why_tests_cant": "All prior states.", "anchors": ["satella/files.py:write_out_file_if_different"]}
{"id": "C46", "title": "Closeable.close runs its cleanup once", "statement": "However many times and from however many contexts close() is called, exactly the first call returns True (so the cleanup body guarded by it runs once).", "quantifier": "all call sequences", "why_tests_cant": "History quantification.", "anchors": ["satella/coding/misc.py:Closeable"]}
{"id": "C47", "title": "unique/AlreadySeen/ListWrapperIterator/PushIterable/Subqueue/RollingArithmeticAverage keep their sequence contracts", "statement": "ListWrapperIterator presents the wrapped iterator as a list, loading lazily in order; PushIterable yields pushed elements before the rest; Subqueue keeps FIFO per subqueue; RollingArithmeticAverage is the mean of the last n values.", "quantifier": "all inputs and operation sequences", "why_tests_cant": "Unbounded histories.", "anchors": ["satella/coding/sequences/iterators.py", "satella/coding/structures/push_iterable.py", "satella/coding/structures/queues.py", "satella/coding/sequences/average.py"]}
{"id": "C48", "title": "DeferredValue is set once and every reader gets that value", "statement": "set_value succeeds at most once over the life of the object, every get_value that returns returns that value, under every interleaving.", "quantifier": "all schedules", "why_tests_cant": "Interleavings.", "anchors": ["satella/coding/concurrent/value.py:DeferredValue"]}
{"id": "C49", "title": "Terminable threads always clean up exactly once", "statement": "For every outcome of prepare/loop/on_overrun/cleanup (normal, SystemExit, exceptions in and outside of terminate_on) and terminate() called at any time from any thread, a thread that ended called prepare once, then loop, then cleanup exactly once, one at a time; loop is never entered once the thread saw that it is to terminate, and at most once after terminate(); after terminate() it ends in a bounded number of its own steps; exceptions of terminate_on and SystemExit are swallowed and mark the thread as terminating, others leave it. terminate(force=True) is documented not to promise cleanup(); it never calls it twice.", "quantifier": "all outcome sequences and termination points", "why_tests_cant": "Termination point may fall between any two steps.", "anchors": ["satella/coding/concurrent/thread.py:TerminableThread"]}
{"id": "C50", "title": "frozendict cannot be changed and hashes by content", "statement": "No operation on a frozendict changes its content, and equal frozendicts have equal hashes irrespective of insertion order.", "quantifier": "all contents and operations", "why_tests_cant": "All operations/orders.", "anchors": ["satella/coding/structures/immutable.py:frozendict"]}
{"id": "C51", "title": "choose, choose_one and choose_with_index find the element they promise", "statement": "choose returns the first matching element and reads no further; choose_one returns the only matching element, raises ValueError when there is none or more than one, and always exhausts the iterable; choose_with_index returns the first match with its index.", "quantifier": "all iterables and predicates", "why_tests_cant": "Every input, and what is left of the iterable afterwards.", "anchors": ["satella/coding/sequences/choose.py"]}
{"id": "C54", "title": "Methods of a Monitor take effect one at a time", "statement": "Methods decorated with Monitor.synchronized of one Monitor object, called by any number of threads, take effect one after the other, in an order that agrees with each thread's program and with time; no two threads are inside such methods at once; and the threads never block each other for good.", "quantifier": "every protected object, method bodies cut into any steps, every number of threads, programs and schedules", "why_tests_cant": "interleavings are unboundedly many and a test sees one", "anchors": ["satella/coding/concurrent/monitor.py: Monitor.synchronized, Monitor.acquire"]}
{"id": "C56", "title": "call_in_separate_thread's future is resolved with what the function did", "statement": "The function is called exactly once unless the future was cancelled before it started, in which case it is never called; the future then holds the value returned or the exception raised.", "quantifier": "all outcomes of the function, cancel() at any time", "why_tests_cant": "cancel() may fall between any two steps of the thread", "anchors": ["satella/coding/concurrent/thread.py:call_in_separate_thread"]}
{"id": "C57", "title": "Objects of an Immutable class keep their attributes", "statement": "After construction every assignment and deletion of an attribute raises TypeError and changes nothing.", "quantifier": "all constructors and operation sequences", "why_tests_cant": "All sequences of assignments.", "anchors": ["satella/coding/structures/immutable.py:Immutable"]}
{"id": "C58", "title": "OmniHashableMixin's equality is an equivalence and its hash agrees with it", "statement": "For complete objects == is reflexive, symmetric and transitive, != is its negation, and equal objects have equal hashes, across class hierarchies.", "quantifier": "all objects, classes and values with an equality of their own", "why_tests_cant": "All triples of objects.", "anchors": ["satella/coding/structures/mixins/hashable.py:OmniHashableMixin"]}
{"id": "C59", "title": "files.split is an exact reverse of os.path.join", "statement": "split(path) returns components that os.path.join joins back into the same path, for every path.", "quantifier": "all paths", "why_tests_cant": "Unbounded depth; absolute paths, repeated and trailing slashes, backslashes.", "anchors": ["satella/files.py:split"]}
{"id": "C60", "title": "find_files yields exactly the matching files of the tree", "statement": "find_files yields, for every directory tree, exactly the paths of the files in it and all of its subdirectories for which the wildcard matches the file name (or, with apply_wildcard_to_entire_path, the whole path), each once, prefixed as asked; without scan_subdirectories, only the files of the directory itself.", "quantifier": "all directory trees, wildcards and flag combinations", "why_tests_cant": "Unbounded nesting; flags have to survive the recursion.", "anchors": ["satella/files.py:find_files"]}
{"id": "C61", "title": "AutoflushFile has every write in the file as soon as write returns", "statement": "After each operation the file is closed and holds the previous content followed by everything written, also when someone else changes it in between; seek and read work on the content; all listed modes are accepted.", "quantifier": "all sequences of operations, modes and interference by other processes", "why_tests_cant": "Unbounded histories and interleavings with other processes.", "anchors": ["satella/files.py:AutoflushFile"]}
{"id": "C55", "title": "AtomicNumber.wait_until_equal returns exactly when the number has the value", "statement": "wait_until_equal(v) returns only at a moment the number equals v; with a timeout it raises WouldWaitMore only when the number does not equal v and its time is over, and without one it raises nothing; operations and waits never deadlock; and once no change is under way nobody is left waiting for the value the number has.", "quantifier": "any number of threads, each any sequence of in-place operators and waits, every interleaving, timeouts at any moment", "why_tests_cant": "lost wakeups need a notification between two particular instructions; tests with sleeps never hit that window", "anchors": ["satella/coding/concurrent/atomic.py: AtomicNumber.wait_until_equal, wait, __iadd__, __iand__", "satella/coding/concurrent/thread.py: Condition.wait, notify_all"]}
{"id": "C52", "title": "Conversion to plain JSON and text values", "statement": "jsonify(value) returns a value that json.dumps accepts and that stands for the argument: lists, tuples and sets become lists of the converted elements in order, dictionaries keep every key, enums become their value, objects their to_json() or their text. A value that is JSON already comes back equal. stringify(value) turns every leaf of a nested list or dictionary into text and keeps its shape.", "quantifier": "every value: nested lists, tuples, sets, dictionaries, enums, bytes, objects with and without to_json, of any depth", "why_tests_cant": "Values nest without bound and the interesting cases are combinations (an enum whose value is an enum, a dictionary keyed by a tuple, two keys that become one), which examples only sample.", "anchors": ["satella/coding/transforms/jsonify.py:jsonify", "satella/coding/transforms/__init__.py:stringify"]}
{"id": "C53", "title": "JSON encoding of arbitrary objects and data objects", "statement": "json_encode(x) always ends, and writes a rendering of x: lists and tuples in order, dictionaries with all their keys, enums by value, objects by to_json(), their attributes, their slots, or a text naming the class. JSON data is written out unchanged. A JSONAbleDataObject is created exactly when every declared field is given or has a default, to_json() lists exactly the declared fields, from_json(to_json()) is equal to the original and hashes alike, and equal objects have equal hashes.", "quantifier": "every value tree of any depth; every class of data objects, every set of arguments and every equality and hash of values", "why_tests_cant": "The encoder calls itself through the standard library on values of any nesting, and the round trip must hold for every class and every combination of given and default fields.", "anchors": ["satella/json.py:JSONEncoder.default", "satella/json.py:json_encode", "satella/json.py:JSONAbleDataObject"]}
{"id": "C62", "title": "Deep comparison with a place of difference", "statement": "assert_equal(a, b) raises exactly when a and b are not equal, and the reason it gives is true of the two objects.", "quantifier": "every pair of nested lists, tuples, sets, dictionaries and leaves, with any equality of leaves", "why_tests_cant": "Where the first difference lies and how deep is unbounded, and the answer must agree with == on every pair.", "anchors": ["satella/coding/deep_compare.py:assert_equal", "satella/coding/deep_compare.py:Inequal"]}
{"id": "C63", "title": "A PID file lock is held by at most one living process", "statement": "At no time do two living processes both have a PID file lock on the same file (acquire() returned and release() not called). acquire() takes the lock if no living process has its PID in the file, also if a dead one left the file behind; otherwise it raises ResourceLocked with the PID of a living process. release() by the holder removes the file, by anyone else it raises RuntimeError and changes nothing.", "quantifier": "every number of processes, every interleaving of their system calls, every point at which they may crash and be restarted", "why_tests_cant": "Tests run one process that acquires, crashes or releases; the windows between looking at the file and removing or creating it need an adversarial schedule.", "anchors": ["satella/os/pidlock.py:PIDFileLock.acquire", "satella/os/pidlock.py:PIDFileLock.release"]}
{"id": "C64", "title": "The memory pressure level follows the conditions, and every change of it is announced once", "statement": "After a check the severity level is the highest whose condition fires, 0 if none does; conditions fire when free memory falls below their value, and Any, All and Not combine them. A check calls, in order, the 'entered' callbacks of every level passed upwards, the 'left' callbacks of every level passed downwards, the 'memory normal' callbacks on reaching 0, the 'remaining' callbacks if the level did not change, and cancelled callbacks never. So 'entered' and 'left' of a level alternate for ever.", "quantifier": "every nesting of conditions, every number of levels and callbacks, every history of memory readings, registrations and cancellations, every callback that raises", "why_tests_cant": "Tests simulate a few readings with one or two levels; the alternation and the announcements must hold for all histories, jumps and registrations.", "anchors": ["satella/instrumentation/memory/memthread.py:MemoryPressureManager", "satella/instrumentation/memory/conditions.py:LocalRelativeValue", "satella/instrumentation/memory/conditions.py:OperationJoin"]}
{"id": "C65", "title": "A timer runs its function once per start, after its interval, unless cancelled", "statement": "For every set of timers and every interleaving of start(), cancel(), the passing of time and the background thread: a timer's function is never called before the interval has passed since a start(), at most once for each start(), and never after cancel(). When the thread wakes it calls the functions of all the timers due, in order of their times; it never sleeps past the closest timer or for more than a second; a started timer that is not cancelled does run. start() does not raise and the thread goes on whatever timers are started.", "quantifier": "all timers and intervals, all interleavings of starts, cancellations, clock steps and turns of the background thread", "why_tests_cant": "Timers race with a background thread, and what goes wrong depends on two timers falling due at the very same instant and on the shape of the heap at that moment: tests do not produce such coincidences.", "anchors": ["satella/coding/concurrent/timer.py: Timer, TimerBackgroundThread", "satella/coding/structures/heaps/time.py: TimeBasedHeap.pop_less_than, peek_closest"]}
{"id": "C66", "title": "A predicate is the function it reads as", "statement": "For every expression written with x, constants and Python's operators, the predicate it makes gives, for every argument, the value the expression has with the argument in place of x, and raises what the expression raises. build_structure returns the given structure with each predicate replaced by its value at the argument and everything else unchanged.", "quantifier": "all expressions (any nesting of operators, constants left and right), all arguments, all semantics of the plain values; all nested structures", "why_tests_cant": "There is one predicate per expression, and expressions nest without bound; each operator has a direct and a reflected form, and tests try a handful of them. build_structure's only dict test has one entry.", "anchors": ["satella/coding/predicates.py: PredicateClass, x, make_operation_two_args, build_structure"]}
{"id": "C67", "title": "Wrapping a generator changes nothing but what it says", "statement": "run_when_generator_completes gives the same items, return and exceptions as the generator under next, send, throw and close, and runs the action exactly once, when the generator completes by itself, and not when it raises or is closed. SelfClosingGenerator gives the same items, and closing it runs the rest of the generator to completion once, letting out what it raises. chain gives the items of its iterable arguments and its other arguments, in order. hint_with_length gives the hint, also for generator functions.", "quantifier": "all generators (arbitrary bodies, infinite ones included), all sequences of operations, all argument lists", "why_tests_cant": "Generators are arbitrary programs resumed by arbitrary callers; what goes wrong needs next() after the end, or completing inside send(), or particular exceptions half way.", "anchors": ["satella/coding/generators.py: RunActionAfterGeneratorCompletes, run_when_generator_completes", "satella/coding/iterators.py: chain, exhaust, SelfClosingGenerator, hint_with_length"]}
{"id": "C68", "title": "One instance, constructed once, per singleton key", "statement": "A class decorated with SingletonWithRegardsTo(n) gives the same instance to all calls with equal first n arguments and different ones otherwise, and runs the constructor of each instance once, before anyone gets it, until delete_singleton_for removes it; a class decorated with Singleton has one instance. This holds from any number of threads and when a constructor raises.", "quantifier": "all sequences of constructions and deletions, all interleavings of threads, all arguments", "why_tests_cant": "The class is a process-wide table written without a lock; two instances appear only in particular interleavings, and half-constructed ones only after a constructor failed.", "anchors": ["satella/coding/structures/singleton.py: Singleton, SingletonWithRegardsTo, get_instances_for_singleton, delete_singleton_for"]}
{"id": "C69", "title": "get_arguments and call_with_arguments agree with Python calls", "statement": "get_arguments(f, *args, **kwargs) returns, for every parameter of f and nothing else, the value Python would give it in f(*args, **kwargs), and raises TypeError when Python would. call_with_arguments(f, d) calls f so that every parameter in d gets its value from d and every other one its default, raises TypeError when a required one is missing and ValueError when d has too much. Taking a call apart and putting it together again binds the same values.", "quantifier": "all signatures, all positional and keyword arguments, all dictionaries", "why_tests_cant": "There are five kinds of parameters, with and without defaults, in any number; which of them are given by position, by name or not at all multiplies to an unbounded number of cases.", "anchors": ["satella/coding/misc.py: get_arguments, _get_arguments, call_with_arguments"]}
{"id": "C70", "title": "Overloads are chosen by argument types", "statement": "Calling an overload object calls a registered function whose annotations the arguments are instances of; if several suit, none of the others is more specific than the one called; if none suits, TypeError is raised. Registering a signature twice raises and changes nothing.", "quantifier": "all tables of overloaded functions, all signatures, all calls", "why_tests_cant": "Which function is called depends on the whole table, its order and the sort of a partial order; tests only see a few pairs of types.", "anchors": ["satella/coding/overloading.py: overload, TypeSignature"]}
{"id": "C71", "title": "Decorators on arguments", "statement": "A function decorated with for_argument runs with every argument (passed by position or by name, or defaulted) replaced by the result of the operation attached to its parameter, and arguments without an operation unchanged; transform_arguments evaluates all its expressions over the original arguments and runs the function with the results; transform_result evaluates its expression with the result as x and the arguments under their names; replace_argument_if replaces the argument exactly when it is an instance of the type or the predicate holds; attach_arguments adds positional arguments at the end and lets its keyword arguments win; with precondition the function runs if all the conditions on its arguments hold, otherwise it does not run and PreconditionError is raised; postcondition returns the result only if the condition on it holds.", "quantifier": "every signature Python allows, every call, every choice of operations, expressions and conditions", "why_tests_cant": "Signatures of five kinds of parameters with or without defaults, and the free choice between passing by position and by name, give combinations that a test suite samples; the failures depend on the way the caller writes the call.", "anchors": ["satella/coding/decorators/arguments.py: transform_result, transform_arguments, replace_argument_if, attach_arguments, for_argument", "satella/coding/decorators/preconditions.py: precondition, postcondition"]}
{"id": "C72", "title": "Context variables are resolved up the stack and a with block restores the thread's context", "statement": "Reading an attribute of a Context gives the value in the nearest context, going from it up through its parents, that mentions the name; a name deleted in a context is absent from it and from the contexts under it although a parent has it; does_exist() says whether reading would succeed. Setting, deleting and push_up change that name only, and only for the context concerned and those under it. Entering a with block gives the thread a fresh context on top of its current one, Context.get() returns the thread's own context, and leaving the block gives the thread back the context it had; no thread's actions change another thread's context.", "quantifier": "all sequences of constructor calls, get, with blocks nested in any manner, attribute reads, assignments, deletions, does_exist and push_up calls by any number of threads", "why_tests_cant": "the depth of the stack, which names are set, deleted or inherited and how blocks of several threads interleave are unbounded", "anchors": ["satella/coding/environment.py:Context"]}
{"id": "C73", "title": "sync_threadpool returns only when every earlier job is finished, and can always return", "statement": "When sync_threadpool(pool) returns, every job submitted to the pool before the call has finished; the pool runs each job exactly once with or without the synchronisation; WouldWaitMore is raised only if max_wait was given; after the call, returned or timed out, the pool's workers are free for other jobs; and as long as nobody else submits jobs the call is never stuck.", "quantifier": "all numbers of workers and jobs, all schedules of the workers and the calling thread, submissions by other threads before and during the call, timeouts at any moment", "why_tests_cant": "the races are between the last worker counting itself, going to sleep, and the caller comparing, sleeping and notifying; they depend on the schedule", "anchors": ["satella/coding/concurrent/sync.py:sync_threadpool", "satella/coding/concurrent/sync.py:_while_sync_threadpool", "satella/coding/concurrent/sync.py:_max_wait_atm_n", "satella/coding/concurrent/atomic.py:AtomicNumber.wait_until_equal", "satella/coding/concurrent/thread.py:Condition"]}
{"id": "C74", "title": "A Closeable is cleaned up exactly once", "statement": "The cleanup of a Closeable runs exactly when the object is closed (close(), leaving a with statement, or the destructor), its constructor was finished and it was not closed since; whatever the cleanup raises it is not run again; closed tells whether there is nothing left to clean up; the exception of a with body is not swallowed; and the same holds when several threads close the object.", "quantifier": "all histories of constructing, closing, using in a with statement and destroying one object, cleanups that raise, all numbers and schedules of closing threads", "why_tests_cant": "the check and the mark are two steps, so what is right depends on the schedule; the histories are unbounded", "anchors": ["satella/coding/misc.py:Closeable"]}
{"id": "C75", "title": "Uncaught exceptions reach the registered handlers in order of priority, each once", "statement": "An exception nobody caught, in the main thread or in another, is given to the registered exception handlers and to the former sys.excepthook in ascending order of priority, those of equal priority in order of registration, up to and including the first that returns true; a handler that raises does not keep the others from running unless ignore_failed_hooks is false; function handlers are not called for SystemExit; a MemoryError kills the process unless the custom hook of a MemoryErrorExceptionHandler returns true; a handler is registered once, from its addition to its removal, and each runs at most once per exception.", "quantifier": "all histories of making, adding, removing and re-prioritising handlers, all handler outcomes, all classes of exceptions", "why_tests_cant": "the order and who is consulted depend on all handlers, their priorities, history and outcomes together", "anchors": ["satella/exception_handling/global_eh.py:GlobalExcepthook", "satella/exception_handling/exception_handlers.py", "satella/exception_handling/memerrhandler.py:MemoryErrorExceptionHandler"]}
{"id": "C76", "title": "A transaction is committed or rolled back, never both, and everything opened is closed", "statement": "with transaction(connection_or_getter) gets the connection (a getter is called at most once in the life of the object) and one cursor, runs the body, commits if the body did not raise and rolls back if it did, never both, then closes the cursor and, if close_the_connection_after is set, the connection, on every way out; the exception of the body propagates and is logged if asked for.", "quantifier": "all bodies, all states of the object (also when it is used again or nested), any of the calls of the connection raising at any moment", "why_tests_cant": "failures of each call combine with each outcome of the body and with reuse of the object", "anchors": ["satella/db.py:transaction"]}
{"id": "C77", "title": "A lazily loaded object is loaded before its methods run, and the database is asked once", "statement": "A method decorated with must_be_loaded never runs on an object that is not loaded: refresh() is called first if needed, its exception is what comes out if it fails, and it is tried again the next time; once loaded the object stays loaded and is not loaded again by methods; load_lazy=True makes the constructor ask the database and False does not, as documented.", "quantifier": "all sequences of method calls and refreshes, refreshes that fail at any time", "why_tests_cant": "unbounded sequences with failures at any point", "anchors": ["satella/dao.py:Loadable", "satella/dao.py:must_be_loaded"]}
{"id": "C78", "title": "A Proxy computes what the object it wraps computes; a chain on Optional(None) does nothing", "statement": "An expression of operators, built-in functions and comparisons in which objects are replaced with proxies of them (or proxies of proxies) has the value the objects give, and raises what they raise; without wrap_operations the result is not a proxy, with it the results of arithmetic and bitwise operations except for divmod are. After x += y and the like on a proxy it is still a proxy, of the new object. A chain of calls, attribute and item accesses of any length starting with Optional(None) has no effects and gives an empty Optional, comparisons with it and membership tests are false; started with another object the chain does what the object does.", "quantifier": "all expressions, all objects and operators, proxies nested to any depth on any side; chains of any length", "why_tests_cant": "Tests try an operator at a time on numbers; the operators combine in unboundedly many expressions, with proxies on either side of each.", "anchors": ["satella/coding/structures/proxy.py:Proxy", "satella/coding/structures/proxy.py:wrap_operation", "satella/coding/optionals.py:Optional"]}
{"id": "C79", "title": "A typednamedtuple holds the values given, converted to the types of its fields", "statement": "Calling the class made by typednamedtuple gives the tuple of exactly the values given for its fields by position or by name, each of them unchanged if it is an instance of the type of its field (or the field has no type) and converted with the type otherwise; exceptions of the conversion propagate. A call that leaves a field out, gives one twice or gives something else raises TypeError. Fields given by name in any order make the same tuple as the same fields given by position. The result is an instance of the class, and constructors may be any callables.", "quantifier": "all lists of fields, types and conversions, all calls", "why_tests_cant": "The calls are unboundedly many: every split of the fields into positional and keyword ones, every order, every conversion.", "anchors": ["satella/coding/structures/typednamedtuple.py:typednamedtuple", "satella/coding/structures/typednamedtuple.py:_adjust"]}
{"id": "C80", "title": "Vector, SetZip and HashableWrapper obey the laws of what they imitate", "statement": "Vectors are added, subtracted, multiplied and divided by numbers place by place, and addition is commutative, associative, undone by subtraction and distributed over by multiplication, from either side. A SetZip contains, iterates over and has the length of the union of its sets, including ones added later. HashableWrappers are equal exactly if they wrap the same object, equal ones hash equal and != is the negation of ==; the hash of a wrapper of something unhashable does not change with its content.", "quantifier": "all vectors of all lengths and fractions, all sets, all objects", "why_tests_cant": "Algebraic laws over all vectors and sets.", "anchors": ["satella/coding/structures/tuples.py:Vector", "satella/coding/structures/zip_dict.py:SetZip", "satella/coding/structures/hashable_objects.py:HashableWrapper"]}
{"id": "C81", "title": "Sleeps that watch the CPU are not longer than asked for and end early only when the load says so", "statement": "sleep_cpu_aware(seconds, of_below, of_above, check_each) looks at the load each check_each seconds and at the end, returns True at the first look that finds it below of_below or above of_above and False after exactly seconds if none does. A CPUTimeAwareIntervalTerminableThread calls loop() again not earlier than max_sooner seconds before `seconds` have passed since the previous call, before that time only when the load is below its percentile, and not later unless loop() itself took longer, in which case on_overrun() is called with how long it took; max_sooner is by default a tenth of seconds, which may be a time string.", "quantifier": "all durations, bounds, check intervals, courses of the load over time, moments of termination and durations of loop()", "why_tests_cant": "The load and the durations of the loops are arbitrary functions of time; tests wait through a few of them.", "anchors": ["satella/instrumentation/cpu_time/collector.py:sleep_cpu_aware", "satella/instrumentation/cpu_time/concurrency.py:CPUTimeAwareIntervalTerminableThread"]}
{"id": "C82", "title": "The CPU profile answers with what was measured", "statement": "CPUTimeManager.percentile gives the percentile of the samples of the last recalculation, requested beforehand or not, also while it is recalculated. get_own_cpu_usage gives the CPU time the process used per second between its last two measurements at different times, and the measurements kept do not grow beyond the window. calculate_occupancy_factor gives the average load since it was called before, between 0 and 1.", "quantifier": "all histories of requests, recalculations, measurements and questions; all interleavings with the recalculating thread; all clocks", "why_tests_cant": "The cached percentiles and the kept measurements depend on the whole history, and the recalculation runs in another thread.", "anchors": ["satella/instrumentation/cpu_time/collector.py:_CPUProfileBuilderThread", "satella/instrumentation/cpu_time/collector.py:CPUTimeManager", "satella/instrumentation/cpu_time/collector.py:get_own_cpu_usage", "satella/instrumentation/cpu_time/collector.py:calculate_occupancy_factor"]}
{"id": "C83", "title": "Parallel execution keeps the order; thread collections act on all their threads", "statement": "parallel_construct returns, whatever the schedule, the non-None values of the function in the order of the iterable, or raises the exception of the first element that failed. parallel_execute calls the callable once for each pair of arguments, before waiting for any, and yields the value or the exception of each call in the order of the arguments. The future of a run_as_future function gets the value or the exception of the function. ThreadCollection: start() starts all threads, terminate() is called on all that have it, join() returns only after all of them ended, takes at most the timeout for each of them, and raises WouldWaitMore only if one is alive after the timeout; + leaves both collections as they were, += and add change only the collection they are used on.", "quantifier": "every list of outcomes of the calls, every schedule of their completion, all collections of threads that end at any time or never, all timeouts", "why_tests_cant": "the order in which calls end is up to the scheduler; tests see a few", "anchors": ["satella/coding/concurrent/functions.py: parallel_execute, run_as_future", "satella/coding/concurrent/list_processor.py: parallel_construct", "satella/coding/concurrent/thread_collection.py: ThreadCollection"]}
{"id": "C84", "title": "Tainting follows the data and changes nothing else", "statement": "Within a tainting session a program computes what it computes without taints; a result is tainted exactly if it depends on something tainted; everything got out of a tainted container by items or iteration is tainted and is the same item; tainting something tainted changes nothing; taint() leaves its argument as it was and access_tainted() gives it back. After the session operations on tainted objects fail. A thread has at most one session; a second one is refused with RuntimeError and leaves the first in place; threads do not affect each other.", "quantifier": "all programs of assignments and augmented assignments over any immutable values and variables, all trees of containers and paths in them, all histories of sessions", "why_tests_cant": "the set of programs and data structures is unbounded; tests check single operators", "anchors": ["satella/debug/tainting/tainteds.py: TaintedObject, taint, access_tainted, might_accept_tainted", "satella/debug/tainting/environment.py: TaintingEnvironment"]}
{"id": "C85", "title": "The metrified thread pool runs every task once, and starts threads when they are needed", "statement": "Every task submitted to a MetrifiedThreadPoolExecutor is run exactly once, in the order of submission as far as taking them goes; there are never more than max_workers threads, and while there are fewer, no task waits for a busy thread; the pool never rests with tasks undone. Every task gives one measurement of its waiting and one of its execution.", "quantifier": "every schedule of the submitting threads and of the workers, every number of tasks, every max_workers; every moment at which the executor may be garbage collected", "why_tests_cant": "the count of idle workers is kept by a semaphore that is changed by submitters and workers concurrently", "anchors": ["satella/instrumentation/metrics/structures/threadpool.py: MetrifiedThreadPoolExecutor, _worker"]}
{"id": "C86", "title": "Metrics measure each call, with block and future by itself", "statement": "The measure() of a metric, as a decorator, reports for every call exactly the difference of the measured value between its end and its beginning, whatever else runs meanwhile (recursion, other threads); calls that raise are reported iff include_exceptions; the caller gets the result or the exception of the function; a generator is measured from its first element to its end. As a context manager it reports each use. measure_future() reports the time from the call to the completion of the future.", "quantifier": "all interleavings of calls, with blocks and futures, all their outcomes and all clock readings", "why_tests_cant": "interleavings and nesting are unbounded, tests measure one call at a time", "anchors": ["satella/instrumentation/metrics/metric_types/measurable_mixin.py: MeasurableMixin"]}
{"id": "C87", "title": "Caches with metrics count every read, load and eviction", "statement": "The metrified caches behave as the caches without metrics. Every read is counted once, as a hit if it is served without waiting for value_getter (read_method), otherwise as a miss; every call of value_getter is counted once as a refresh; every entry dropped for lack of room is counted once as an eviction; entries_waiting shows the number of writes that wait.", "quantifier": "all histories of calls, all configurations, all clock readings and outcomes of the getter", "why_tests_cant": "histories are unbounded; the counters are kept by other code than the cache", "anchors": ["satella/instrumentation/metrics/structures/cache_dict.py: MetrifiedCacheDict, MetrifiedLRUCacheDict, MetrifiedExclusiveWritebackCache", "satella/instrumentation/metrics/metric_types/callable.py: CallableMetric"]}
{"id": "C88", "title": "Prometheus reads the data that were measured", "statement": "The text that metric_data_collection_to_prometheus makes is decoded by a reader of the Prometheus exposition format into exactly the data that are not internal: names with dots turned to underscores, labels with any values, values and timestamps. Over HTTP /metrics gives that text with the extra labels added to every sample, and any other path is not found. Different data stay different.", "quantifier": "all collections of data, all label values, values and timestamps", "why_tests_cant": "label values are arbitrary text; tests render a few", "anchors": ["satella/instrumentation/metrics/exporters/prometheus.py: metric_data_collection_to_prometheus, RendererObject, PrometheusHandler"]}
{"id": "C89", "title": "Walking a nested structure gives each node once, in the promised order", "statement": "walk() gives every node of a finite nested structure but its root, each once: before what is below it when depth first, level after level when breadth first, and only the leaves if so asked; it ends just when the structure is finite. A loop over a ConstruableIterator sees all that it had and all that was added meanwhile, those added immediately next and the others last.", "quantifier": "all finite trees and all child getters, all programs adding to the iterator", "why_tests_cant": "trees of any depth and width", "anchors": ["satella/coding/sequences/iterators.py: walk, ConstruableIterator"]}
{"id": "C90", "title": "Metaclasses give the documentation and the metaclass they promise", "statement": "DocsFromParent gives each undocumented method and class the docstring of the nearest ancestor breadth first and changes nothing else; CopyDocsFrom copies the docstrings of the respective methods; metaclass_maker gives a metaclass that inherits from the metaclasses of all bases, the same one for the same bases; wrap_with wraps each selected member once; wrap_property keeps a property read-only.", "quantifier": "all class hierarchies, all bodies, all histories of class creation", "why_tests_cant": "hierarchies are arbitrary graphs and the map of metaclasses is global state", "anchors": ["satella/coding/metaclasses.py: CopyDocsFrom, DocsFromParent, remove_redundant, get_noconflict_metaclass, metaclass_maker, wrap_with, wrap_property"]}
{"id": "C91", "title": "Control-flow decorators call what they should, and lose nothing", "statement": "A method decorated with queue_get is handed the items of the queue in order, each once, and each call ends as the method does or with None if the queue is empty; loop_while and repeat_forever call the function just while the predicate holds; chain_functions and chain_callables pass results on as documented; expect_exception swallows the expected exceptions only; a callable wrapped in a context manager leaves each manager it enters once; queue_iterator shares a queue with other consumers without losing or repeating an item; the dictionary updaters set only what there is to set.", "quantifier": "all histories of puts and calls, all predicates and functions, all schedules, all dictionaries", "why_tests_cant": "user code is arbitrary, and histories and schedules are unbounded", "anchors": ["satella/coding/decorators/flow_control.py: queue_get, loop_while, repeat_forever", "satella/coding/misc.py: chain_callables, queue_iterator, update_key_if_not_none, update_key_if_true, contains, length", "satella/coding/decorators/decorators.py: chain_functions, default_return", "satella/coding/expect_exception.py: expect_exception", "satella/coding/ctxt_managers.py: wrap_callable_in_context_manager, EmptyContextManager"]}
{"id": "C92", "title": "Comparison mix-ins give comparisons and hashes that agree", "statement": "For classes outfitted with ComparableAndHashableBy, ComparableAndHashableByInt, ComparableAndHashableByStr, StrEqHashableMixin, ComparableIntEnum, ComparableEnum or DictionaryEQAble: == answers for any operands, is reflexive, symmetric and transitive (also across classes and with plain numbers and strings), equal objects have equal hashes, exactly one of a < b, a == b, b < a holds, and <=, >, >= agree with them.", "quantifier": "all objects of such classes, plain values and enumerations, on either side of the operator", "why_tests_cant": "laws of equality and order quantify over all pairs and triples of objects", "anchors": ["coding/structures/mixins/hashable.py: ComparableAndHashableBy, ComparableAndHashableByInt, ComparableAndHashableByStr", "coding/structures/mixins/strings.py: StrEqHashableMixin", "coding/structures/mixins/enums.py: ComparableEnum, ComparableIntEnum", "coding/structures/mixins/eqable.py: DictionaryEQAble"]}
{"id": "C93", "title": "Counting, defaulting and self-cleaning dictionaries hold what was put into them", "statement": "A CountingDict gives for each element the sum of the pieces counted since it was last cleared. Reading a DefaultDict stores nothing. A SelfCleaningDefaultDict read at a key gives the value last stored, or the default; its length, keys and iteration are those of keys whose value is not the default, whenever the background thread cleans up. The background thread, started once, goes on cleaning every dictionary that is alive.", "quantifier": "all sequences of calls, clean-up moments, garbage collections", "why_tests_cant": "clean-up happens at arbitrary moments between arbitrary calls", "anchors": ["coding/structures/dictionaries/counting.py: CountingDict", "coding/structures/dictionaries/default.py: DefaultDict", "coding/structures/dictionaries/expiring.py: SelfCleaningDefaultDict, ExpiringEntryDictThread"]}
{"id": "C94", "title": "Configuration files, directories, environment and descriptions", "statement": "FileSource.provide gives the dictionary of the first format, in order, that understands the file, and raises ConfigurationError if there is no such file or no format understands it. DirectorySource reads exactly the files below the directory that the filter accepts (with every directory on the way), each once and in the order of listing, those in subdirectories only if they are to be scanned, and merges what they give; a directory that cannot be listed is an error unless on_fail is SILENT. EnvironmentSource and EnvVarsSource give the variable's value or ConfigurationError. load_source_from_dict loads back every source written down as a description, with its class, arguments, nested sources and optionality, and otherwise raises ConfigurationError.", "quantifier": "all file trees, working directories, paths, filters, formats with all behaviours of their parsers, all environments, all descriptions and constructors", "why_tests_cant": "Tests read two or three small files from an absolute temporary directory; the claim is about every tree, every path and every outcome of every parser.", "anchors": ["satella/configuration/sources/file.py: FileSource, DirectorySource", "satella/configuration/sources/format.py: FormatSource", "satella/configuration/sources/envvars.py: EnvironmentSource, EnvVarsSource", "satella/configuration/sources/from_dict.py: load_source_from_dict, load_source_from_list"]}
{"id": "C95", "title": "A heap used as a list", "statement": "A Heap is also a UserList. Calls of its own methods mixed with sort, clear, +, *, slices, indexing, count and == are answered as a bag of elements would answer (pop gives the smallest); the methods that put or take elements at chosen places (append, insert, extend, +=, item assignment and deletion, remove, reverse) keep the contents right, and sorting, copying, push_many, filter_map, +, * or a slice make any heap right again. Equal heaps have the same elements.", "quantifier": "all sessions of calls, all elements with a total preorder, all states however they came about", "why_tests_cant": "A test appends to one heap at most; that contents stay right, and order is restored, holds for every history.", "anchors": ["satella/coding/structures/heaps/base.py: Heap (inherits collections.UserList), Heap.__eq__"]}
{"id": "C96", "title": "Kept tracebacks tell where an exception came from and what the variables were", "statement": "A Traceback holds the frames from the one that raised outwards, each with its name, file, line and the repr and type of each local and global variable; a value that was pickled (compressed or not) is given back by load_value(), one that was not raises ValueError; long reprs are cut at the limit; a Traceback that went through JSON compares equal to the original and its values can still be loaded.", "quantifier": "all values, policies, picklers, compressors, chains of frames, tracebacks in progress and starting frames", "why_tests_cant": "the frames, the variables in them and the behaviour of their repr and pickling are whatever the program had when it failed; tests see a handful of them", "anchors": ["satella/instrumentation/trace_back/classes.py:StoredVariableValue", "satella/instrumentation/trace_back/classes.py:StackFrame", "satella/instrumentation/trace_back/classes.py:GenerationPolicy", "satella/instrumentation/trace_back/trace_back.py:Traceback"]}
{"id": "C97", "title": "Custom exceptions are written faithfully and coded ones recognised by their code", "statement": "repr() of a CustomException is the call that makes it, with its positional and named arguments; str() is the same with the short name of the class; isinstance(e, C) for a coded class C is true exactly if e's class is a subclass of C, or e has C's code and belongs to the same hierarchy below CodedCustomException.", "quantifier": "all exception classes, names, positional and named arguments and their reprs; all class hierarchies, codes of classes and instances", "why_tests_cant": "the number of arguments and the shape of class hierarchies are unbounded and up to the user; tests show a few of each", "anchors": ["satella/exceptions.py:CustomException", "satella/exceptions.py:CodedCustomExceptionMetaclass.__instancecheck__", "satella/exceptions.py:CodedCustomException"]}
{"id": "C98", "title": "jump_to_directory comes back", "statement": "In `with jump_to_directory(path):` the body runs in that directory (made when the object is), and after it, however it ends, the working directory is the one from before; exceptions of the body come through; this holds for programs with any nesting.", "quantifier": "all paths, working directories, bodies (including those that raise, change, make or remove directories) and nestings", "why_tests_cant": "bodies and nestings are arbitrary programs", "anchors": ["satella/files.py:jump_to_directory"]}
{"id": "C99", "title": "Small file helpers keep what they promise: /dev/null objects, lines, substitution, JSON files, deletion", "statement": "DevNullFilelikeObject discards what is written, returns its length, complains about the wrong type and raises ValueError once closed; read_lines gives each line stripped, empty ones left out if asked; read_re_sub_and_write leaves the file with the substituted text, or unchanged if it fails; a value written by write_json_to_file is read back by read_json_from_file; try_unlink never raises and returns True exactly if the thing was there and is gone, otherwise nothing was deleted.", "quantifier": "all sequences of calls, texts, encodings, patterns, values and directory trees", "why_tests_cant": "texts, trees and sequences of calls are unbounded; failures in the middle (undecodable, not permitted) are hard to provoke", "anchors": ["satella/files.py:DevNullFilelikeObject", "satella/files.py:read_lines", "satella/files.py:read_re_sub_and_write", "satella/files.py:try_unlink", "satella/json.py:write_json_to_file", "satella/json.py:read_json_from_file"]}
{"id": "C100", "title": "Monitors exclude, let go and do not change what the code does", "statement": "Blocks protected by a Monitor, RMonitor or LockedStructure - with, Monitor.synchronized, synchronize_on, synchronize_on_attribute, Monitor.acquire - are never run by two threads at a time; however a block ends, by an exception too, the monitor is let go; in a Monitor.release block the monitor is free and afterwards it is held again; the steps of a thread and the exceptions that come out are those of the same code without monitors; monitors entered in ascending order never deadlock, and entering a Monitor twice never ends.", "quantifier": "all numbers of threads, monitors of both kinds, programs of nested blocks, exceptions and handlers, and schedules", "why_tests_cant": "a test runs one schedule; exclusion and freedom from deadlock are about all of them", "anchors": ["satella/coding/concurrent/monitor.py: Monitor.__enter__, __exit__, synchronized, synchronize_on, synchronize_on_attribute, acquire, release, RMonitor", "satella/coding/concurrent/locked_structure.py: LockedStructure.__enter__, __exit__"]}
{"id": "C101", "title": "A schema loaded from a description means what the description says", "statement": "descriptor_from_dict applied to a description (keys mapped to the name of a type, a class, a dictionary with a type and its of/default/optional/encoding, or a nested dictionary) returns a schema that, for every configuration, converts each described key as the description of its type says, fills in the defaults of absent optional keys, keeps the other keys, and refuses the configuration with the exception of the first key that does not fit; registering a descriptor under a name gives that name its meaning and changes no other; a description that is not one raises ConfigurationSchemaError.", "quantifier": "every description of any depth and width, every registry of plain descriptors, every configuration value, every sequence of configurations", "why_tests_cant": "descriptions nest without bound and are combined with every possible configuration; tests check one description", "anchors": ["satella/configuration/schema/from_json.py:descriptor_from_dict", "satella/configuration/schema/registry.py:register_custom_descriptor", "satella/configuration/schema/structs.py:create_key"]}
{"id": "C102", "title": "File and directory values", "statement": "File and Directory accept exactly the paths of existing files and directories; what they give is written as the path, two such objects are equal exactly if they are of the same kind and have the same path, and equal ones have equal hashes; the documentation says they are equal to the string of the path.", "quantifier": "every path, every file system, every pair of objects", "why_tests_cant": "all pairs of kinds and paths, and what the file system says of each path, cannot be enumerated", "anchors": ["satella/configuration/schema/basic.py:FileObject", "satella/configuration/schema/basic.py:DirectoryObject", "satella/configuration/schema/basic.py:File", "satella/configuration/schema/basic.py:Directory"]}
{"id": "C103", "title": "A wrapped future ends as the future it wraps, and executors submit what they are told", "statement": "A satella future made of a Python future (by wrapping it, by an ExecutorWrapper or by call_in_future) returns from result() exactly what the wrapped future returns, raises what it raises and is cancelled when it is, however the completion of the wrapped future interleaves with the wrapping; wrapping a satella future gives it back unchanged; each call of a function made by call_in_future submits the fixed function and arguments once.", "quantifier": "every interleaving of the steps of the constructor with those of the threads running, completing, cancelling and notifying the wrapped future; every outcome; every sequence of calls and every executor", "why_tests_cant": "the window between adding the callback and copying the state is a few instructions: no test hits it on purpose, and result() is wrong or waits forever only for some schedules", "anchors": ["satella/coding/concurrent/futures/futures.py: WrappingFuture, wrap_if", "satella/coding/concurrent/futures/call_in_future.py: call_in_future", "satella/coding/concurrent/futures/wrapped_executor.py: ExecutorWrapper"]}
{"id": "C104", "title": "A collection of futures holds exactly the futures put into it", "statement": "len() and indexing of a FutureCollection show the futures it was made of followed by those added with add and +=, in order; + makes a new collection and changes neither operand; what is done to other collections or lists is not seen in it.", "quantifier": "every sequence of constructions, additions, extensions and changes of the lists they were made of, over any number of collections and lists", "why_tests_cant": "sharing of a list shows only in some histories of operations on several objects", "anchors": ["satella/coding/concurrent/futures/collection.py: FutureCollection.__init__, __len__, __getitem__, __add__, __iadd__, add"]}
{"id": "C105", "title": "The size of an object is the sum over everything in it, each object once", "statement": "get_size of an object returns the sum of sys.getsizeof over the object and everything reachable from it through dictionaries, attributes and elements, each object counted once, however they share and refer to each other; it always ends.", "quantifier": "every graph of objects, including cyclic and shared ones", "why_tests_cant": "only some graphs can be tried; cycles and sharing are unbounded", "anchors": ["satella/instrumentation/memory/get_object_size.py: get_size"]}
{"id": "C106", "title": "Calling a process returns everything it printed", "statement": "call_and_return_stdout returns the whole output of the process whatever its size and timing, decoded if asked; with an unexpected exit code it raises instead; after the timeout it raises TimeoutError; without a timeout it returns once the process has finished printing.", "quantifier": "every output, pipe size, schedule of the process, the reading thread and the caller, exit code and encoding", "why_tests_cant": "deadlocks depend on sizes of pipes and on schedules", "anchors": ["satella/processes.py: read_nowait, call_and_return_stdout"]}
{"id": "C107", "title": "A sleep lasts as long as asked", "statement": "sleep(y) returns True no earlier than y after the call, whatever interrupts it; with abort_on_interrupt it returns False when interrupted; a negative time returns False at once.", "quantifier": "every duration, reading of the clock and sequence of interruptions", "why_tests_cant": "interruptions between two readings of a clock cannot be produced at will", "anchors": ["satella/time/misc.py: sleep"]}
{"id": "C108", "title": "Waiting for a signal ends when it comes and restores the handlers", "statement": "hang_until_sig returns after SIGTERM, SIGINT or an extra signal came, not before, and then all signal handlers are what they were.", "quantifier": "every table of handlers, list of extra signals and history of signals", "why_tests_cant": "histories of asynchronous signals are not enumerable", "anchors": ["satella/os/signals.py: __sighandler, hang_until_sig"]}
{"id": "C109", "title": "whereis finds the executables of a name in PATH", "statement": "whereis yields exactly the paths of executable files of that name in the directories of PATH, in the order of PATH, passing over directories that cannot be listed.", "quantifier": "every PATH, contents of directories and modes of files", "why_tests_cant": "file systems and modes are arbitrary", "anchors": ["satella/os/misc.py: whereis, safe_listdir, _whereis"]}
{"id": "C110", "title": "Shuffling together applies one permutation to all sequences", "statement": "shuffle_together returns each of its arguments under the same permutation; random_word returns a word of the length asked for, of the choices given.", "quantifier": "every list of sequences, every shuffle, every choice", "why_tests_cant": "random choices cannot be enumerated", "anchors": ["satella/random.py: random_word, shuffle_together"]}
{"id": "C111", "title": "A process that becomes a daemon is detached", "statement": "daemonize leaves one process going on, a child of init, in a session of its own, masking nothing, at the root directory, without standard streams, as the user and group asked for by number or by name.", "quantifier": "every process, user, group and data base of users, every number given to new processes", "why_tests_cant": "what the system calls allow depends on the identities of the process", "anchors": ["satella/os/daemon.py: daemonize, _parse_ug, _double_fork, _close_descriptors, _redirect_descriptors_to_null"]}
{"id": "C112", "title": "import_from fills a package with what is inside it", "statement": "After import_from every public name that the modules inside offer is in the package's namespace with the value it has there (the last module counts), every public package inside is there under its name and filled likewise, and the names are in __all__ once each after those that were there; private modules and names are skipped; it fails only for a public name in an __all__ that does not exist. import_class returns the attribute of the module, or raises ImportError.", "quantifier": "every tree of packages and modules with any names, options and namespaces", "why_tests_cant": "trees of packages are unbounded; what walk_packages does depends on unrelated top-level packages", "anchors": ["satella/imports.py: import_from, import_class"]}
{"id": "C113", "title": "Traced functions, futures and exceptions", "statement": "A traced function answers as the function does, inside one span with the tags given and those computed from the arguments of that call, finished whatever happens; a traced future finishes its span when it ends, with its exception attached; trace_exception logs the exception with a stack no longer than the limit.", "quantifier": "every sequence of calls, tags, factories, endings of futures, exceptions being handled at that time and limits", "why_tests_cant": "shared state between calls and the exception being handled in another thread are not visible in single tests", "anchors": ["satella/opentracing/trace.py: trace_function, trace_future", "satella/opentracing/exceptions.py: trace_exception"]}
{"id": "C114", "title": "Value metrics export the last value and wrappers pass everything on", "statement": "A simple metric exports the last value handled, one for each set of labels; a refused value changes nothing; callable metrics export what the callables give now, one for each set of labels; uptime never decreases; labelled and aggregate metrics, however nested, call every metric they stand for with the labels of the call and the wrappers.", "quantifier": "every history of values and labels, nesting of wrappers, labels and failures", "why_tests_cant": "histories and nestings are unbounded", "anchors": ["satella/instrumentation/metrics/metric_types/simple.py: SimpleMetric", "satella/instrumentation/metrics/metric_types/callable.py: CallableMetric", "satella/instrumentation/metrics/metric_types/uptime.py: UptimeMetric", "satella/instrumentation/metrics/labeled.py: LabeledMetric", "satella/instrumentation/metrics/aggregate.py: AggregateMetric"]}
{"id": "C115", "title": "One operation on many objects", "statement": "A method called on a Multirun is called on every element in order until one raises, and the elements are returned; so are the in-place operators.", "quantifier": "every sequence or iterator of objects, method and state", "why_tests_cant": "the number of elements and the kinds of iterables are unbounded", "anchors": ["satella/coding/sequences/sequences.py: Multirun"]}
{"id": "C116", "title": "Decorators for methods and arguments", "statement": "A property decorated with cached_property calls its method for an object once: after a reading that gave a loaded value every further reading gives that value without calling, whatever happens to other objects, until the attribute is assigned; execute_if_attribute_none/_not_none run the method exactly under their condition; call_method_on_exception calls the method exactly for the exceptions given; return_as_list gives all that was yielded in order; execute_before calls the callable with the parameters given and then the function; auto_adapt_to_methods gives on methods what the decorator gives on functions; a function decorated with copy_arguments does not change any object of its caller and gets faithful copies.", "quantifier": "every object, value, method with effects elsewhere, history of readings and assignments, generator, decorator with a state of its own, and every heap of objects (shared and cyclic included) with every function changing what it can reach", "why_tests_cant": "tests use single objects, stateless decorators and flat dictionaries; the claims are about all histories and all object graphs, cyclic ones included", "anchors": ["satella/coding/decorators/arguments.py:cached_property", "satella/coding/decorators/arguments.py:copy_arguments", "satella/coding/decorators/arguments.py:auto_adapt_to_methods", "satella/coding/decorators/arguments.py:execute_before", "satella/coding/decorators/decorators.py:call_method_on_exception", "satella/coding/decorators/decorators.py:return_as_list"]}
{"id": "C117", "title": "Threads that start once and threads that only pretend", "statement": "start() of a SingleStartThread may be called any number of times, by many threads: the thread is started once and every call returns the object; a BogusTerminableThread is alive exactly between start() and terminate(), and join() waits for its termination at most as long as it is told.", "quantifier": "every interleaving of the steps of any number of calls, including the failure to make a thread and the moment the new thread begins to run; every history of calls on a bogus thread and every timing of its join", "why_tests_cant": "races between calls of start() depend on the schedule; a test sees one of them", "anchors": ["satella/coding/concurrent/thread.py:SingleStartThread", "satella/coding/concurrent/thread.py:BogusTerminableThread"]}
{"id": "C118", "title": "Dumping uncaught exceptions", "statement": "A DumpToFileHandler writes, for every uncaught exception, a report of its stack trace to every human-readable target and a pickle to every other one, whatever the kinds of targets, and passes the exception on to the other handlers.", "quantifier": "every list of targets (files, directories, streams, loggers, None, prepared streams), every history of exceptions in threads and in the main thread, every failure of files and streams", "why_tests_cant": "tests use one exception in a thread and targets that work; the claim is about all sequences of exceptions and mixtures of targets", "anchors": ["satella/exception_handling/dump_to_file.py:AsStream", "satella/exception_handling/dump_to_file.py:DumpToFileHandler"]}
{"id": "C119", "title": "Cassandra futures become ordinary futures, and queries run in parallel", "statement": "A future made from a Cassandra future is running at once, is finished exactly when the Cassandra future is, and then has its result or its exception, whatever the order in which the wrapping and the driver proceed; nothing goes wrong inside the driver. A parallel query executes every query with its arguments, in order, before it gives the first result, and then gives the results in order up to the first failure; nothing is executed before a result is asked for.", "quantifier": "every interleaving of wrapping and completion, every list of queries and arguments, every outcome of executing them", "why_tests_cant": "Completion happens in the driver's thread at any moment between the two registrations; a test sees one order.", "anchors": ["satella/cassandra/future.py: wrap_future", "satella/cassandra/parallel.py: parallel_for"]}
{"id": "C120", "title": "An iterator processed as a list, and attributes set when missing", "statement": "An iterator wrapped to be processed as a list answers indexing, membership and length as the list of all its elements does, whatever was done to it before, and can still be iterated over, each element coming once, in order. Setting an attribute if it is None sets it at most once, exactly when the attribute reads as None or is missing and that is allowed.", "quantifier": "every list of elements, every sequence of operations; every object, attribute behaviour and combination of the switches", "why_tests_cant": "The state depends on the whole history of operations and on how many elements were taken before the first question of a list.", "anchors": ["satella/coding/sequences/iterators.py: IteratorListAdapter", "satella/coding/misc.py: update_attr_if_none"]}
{"id": "C121", "title": "The breakdown of memory adds up", "statement": "A dump of memory prints every object the collector knows, and then each type exactly once, with the sum of the sizes of its objects and their number, by descending size.", "quantifier": "every list of objects, with any sizes and types, and any failure of printing or measuring one", "why_tests_cant": "The totals must be right for every population of objects, including those whose size cannot be told.", "anchors": ["satella/instrumentation/memory/dump_frames_on.py: dump_memory_on"]}
{"id": "C122", "title": "Checking a configuration does not change it, and what is shared with the result", "statement": "Calling a descriptor changes no list or dictionary that existed before, whether the value is accepted or refused; the result is a new list or dictionary. The result shares nothing with the value checked, nor with other results.", "quantifier": "every tree of descriptors (lists, dictionaries, unions, basic ones), every heap of lists and dictionaries including shared and cyclic ones, every outcome", "why_tests_cant": "Dict descriptors pop keys from a dictionary; that it is never the caller's must hold for every nesting and every failure half-way.", "anchors": ["satella/configuration/schema/structs.py: List, Dict, Union", "satella/configuration/schema/base.py: Descriptor"]}
{"id": "C123", "title": "A CacheDict shared by threads serves only values of the key asked for", "statement": "A CacheDict may be used by many threads at once, with background refreshes running: whatever they do and however they take turns, a value read under a key is one that the value getter answered for that key, one stored under it, or the default value; once a key is in the cache, if nobody removes it and the getter does not say it is missing, every read gives a value (or what else the getter raised); a call during which no other thread runs does what a cache of one thread does.", "quantifier": "all interleavings, at single dictionary operations, of any number of threads reading, storing, deleting, invalidating and refreshing any keys, all answers of the getter, all clocks and configurations", "why_tests_cant": "The class takes no lock ('this is a concurrent data structure and we aren't locking'); the failing interleavings are single windows between two dictionary operations that a test does not hit.", "anchors": ["satella/coding/structures/dictionaries/cache_dict.py:CacheDict"]}
{"id": "C124", "title": "KeyAwareDefaultDict: missing keys are made by the factory, once", "statement": "KeyAwareDefaultDict is a defaultdict whose factory gets the key: d[key] gives the stored value, or stores and gives what the factory makes of the key; nothing else asks the factory. A factory that itself reads the dictionary gets memoised recursion: every answer is what the recursion comes to without remembering, whatever was read before, and no key is made twice.", "quantifier": "all factories (also recursive ones, also raising), all initial contents, all sequences of operations", "why_tests_cant": "The memoised recursion must agree with the unmemoised one for every factory and every order of reads.", "anchors": ["satella/coding/structures/dictionaries/objects.py:KeyAwareDefaultDict"]}
{"id": "C125", "title": "Metrics fed by several threads lose nothing", "statement": "However the calls of several threads to handle() overlap: when all have ended, a counter has the sum of what was fed and the number of calls; a summary's window holds the last values, last_calls of them at most; a clicks-per-time-unit metric has the clicks of the last periods, and can be exported at any time; each set of labels has one child that has been fed everything fed with these labels. No call raises.", "quantifier": "any number of threads, any sequences of calls by each, any schedule of the steps of the calls", "why_tests_cant": "a test runs a handful of the astronomically many interleavings, and usually none of those in which an update is lost", "anchors": ["satella/instrumentation/metrics/metric_types/counter.py:CounterMetric._handle", "satella/instrumentation/metrics/metric_types/summary.py:SummaryMetric._handle", "satella/instrumentation/metrics/metric_types/cps.py:ClicksPerTimeUnitMetric._handle", "satella/instrumentation/metrics/metric_types/base.py:EmbeddedSubmetrics._handle"]}
{"id": "C126", "title": "A writeback cache used by several threads agrees with its storage", "statement": "ExclusiveWritebackCache used by several threads at once, over a storage that behaves like a dictionary and an executor that does the jobs in the order of submission: however the calls overlap, once they have ended and the jobs are done, a read gives what is in the storage. Calls about one key that do not overlap have the results and the effect they would have with a dictionary, whatever the calls about other keys do meanwhile, and then the storage has what was last written. Whatever the threads do, a read gives only what was stored or written under that key, a key that was written and that nobody deletes is found by every later read, and no call hangs as long as a worker does the jobs.", "quantifier": "all key and value types with decidable key equality, all storages, all programs of any number of threads, all interleavings of the steps of the calls, store_key_errors on and off, with and without a delete_method", "why_tests_cant": "the races need one particular interleaving of the steps of two calls and the executor, out of unboundedly many; a test shows one of them, if it is lucky", "anchors": ["satella/coding/structures/dictionaries/writeback_cache.py: ExclusiveWritebackCache.__getitem__, __setitem__, __delitem__, _operate"]}
{"id": "C127", "title": "An LRUCacheDict used by several threads", "statement": "However the calls of several threads to one LRUCacheDict overlap: once they have ended the cache holds no more than max_size elements; reading a key value_getter knows, writing and feeding never raise; a read returns what value_getter says of that key or what somebody wrote under it; and a call that nobody disturbs ends. Calls that do not overlap answer and leave the cache as they would one after the other in one thread. If fewer than max_size keys are used and nothing is deleted, nothing is lost: once a call for a key has succeeded, every later read of it succeeds.", "quantifier": "all key and value types with a decidable equality, maximum sizes of at least one, value getters, numbers of threads, programs of reads, writes, feeds, deletions and invalidations, and interleavings of the steps of the calls", "why_tests_cant": "The class takes no lock, and its documentation says nothing about threads; a test runs one interleaving out of very many, and the one after which a later write never returns needs a thread switch between two particular statements.", "anchors": ["satella/coding/structures/dictionaries/cache_dict.py LRUCacheDict, CacheDict", "satella/coding/structures/lru.py LRU"]}
{"id": "C128", "title": "Items of a DictObject are attributes, copies are independent", "statement": "Whatever is stored in a DictObject, as an item or as an attribute, is read back as an item and as an attribute under the same name until it is overwritten or deleted; what is not there is a KeyError as an item and an AttributeError as an attribute. DictObject(d) of a DictObject is d itself, any other dictionary gives a new DictObject with its items and the keyword arguments over them. copy.copy gives another object with the same items. copy.deepcopy gives new objects only, one for each object that was there, sharing kept. apply_dict_object gives a value with the same contents in which every dictionary is a DictObject. None of these changes what was there.", "quantifier": "every sequence of item and attribute accesses, every set of names the class has, every graph of dictionaries, DictObjects and lists, every nesting", "why_tests_cant": "Tests try a few names and a few nestings; names that the class uses itself, sharing, cycles and DictObjects holding plain dictionaries need the whole range of histories and graphs.", "anchors": ["satella/coding/structures/dictionaries/dict_object.py:DictObject", "satella/coding/structures/dictionaries/dict_object.py:apply_dict_object"]}
{"id": "C129", "title": "An ExpiringEntryDict used by several threads", "statement": "An ExpiringEntryDict may be used by several threads, one of which may be the background cleanup thread. What is read was written under that key. As long as nothing gets old, every call ends as if the calls were made in the order in which they end. An entry that is not old stays until its time whoever cleans up and whatever is done with other keys; only reads and deletions raise; no thread waits for ever.", "quantifier": "every number of threads, every program of reads, writes, deletions, membership tests, cleanups and len(), every passing of time between them, every schedule of their steps", "why_tests_cant": "The races need one thread to stop between the look at the time and the access to the value; tests do not get there reliably, and nothing but a proof covers all schedules.", "anchors": ["satella/coding/structures/dictionaries/expiring.py:ExpiringEntryDict", "satella/coding/structures/heaps/time.py:TimeBasedSetHeap"]}
{"id": "C130", "title": "The background cleanup of dictionaries", "statement": "Dictionaries made with background cleanup share one thread, which is started once. A dictionary stays registered as long as somebody refers to it; every round of the thread cleans all registered dictionaries that are still referred to and forgets the others. Whatever the threads do with such dictionaries, including the with blocks that the documentation asks for, all calls can end, and the cleanup thread goes on.", "quantifier": "every number of threads, program of making, using, iterating over, blocking and dropping dictionaries, and order of their steps", "why_tests_cant": "deadlocks and lost registrations depend on the order of steps of several threads; the thread wakes up every five seconds only", "anchors": ["satella/coding/structures/dictionaries/expiring.py:ExpiringEntryDictThread", "satella/coding/structures/dictionaries/expiring.py:ExpiringEntryDict", "satella/coding/structures/dictionaries/expiring.py:SelfCleaningDefaultDict", "satella/coding/concurrent/monitor.py:Monitor"]}
{"id": "C131", "title": "Self-cleaning default dictionaries used by several threads", "statement": "When several threads, one of which may be the cleanup thread, read, store, delete, clean up and count the items of a SelfCleaningDefaultDict, every call ends as if the calls were made one at a time in the order in which they end: a read gives the value stored last or the default, len() is the number of keys whose value is not the default, nothing raises, a cleanup leaves no default value behind, and all threads can get to their ends.", "quantifier": "every number of threads, program of reads, writes, deletes, cleanups and counts, default value, equality of values, and order of their steps, with and without background maintenance", "why_tests_cant": "what goes wrong takes two threads that meet between a test and the deletion after it", "anchors": ["satella/coding/structures/dictionaries/expiring.py:SelfCleaningDefaultDict", "satella/coding/concurrent/monitor.py:Monitor.synchronized"]}
{"id": "C132", "title": "Named queues used by several threads", "statement": "When several threads put, get, get_any and qsize the messages of a Subqueue, every call ends as if the calls were made one at a time in the order in which they end: get() and get_any() give the message that has waited longest under its name, no message is lost or given out twice, Empty is raised only when there is no message, qsize() is the number of messages that wait, nothing else is raised, and unless somebody waits for a message all threads can get to their ends.", "quantifier": "every number of threads, program of puts, gets, get_anys and counts, names and messages, and order of their steps", "why_tests_cant": "two threads must use a name for the first time at once, or a name must be added while another thread goes through the queues", "anchors": ["satella/coding/structures/queues.py:Subqueue", "satella/coding/concurrent/monitor.py:Monitor"]}
{"id": "C133", "title": "A link-failure metric fed by several threads", "statement": "When several threads report successes and failures to one LinkfailMetric, then once no call is in progress the consecutive failures, consecutive successes and status of every address, and the online/offline callbacks made about it, are those that the calls would give if made one at a time in the order in which they ended.", "quantifier": "all limits, addresses, numbers of threads, programs of calls and schedules of their steps", "why_tests_cant": "a lost update or a comparison that comes too late needs a particular interleaving of single reads and writes; tests do not choose interleavings", "anchors": ["satella/instrumentation/metrics/metric_types/linkfail.py: LinkfailMetric._handle"]}
{"id": "C134", "title": "A histogram fed by several threads", "statement": "When several threads feed one HistogramMetric, then once no call is in progress its count, sum and every bucket are those of the values of the calls that have ended.", "quantifier": "all bucket limits, values, numbers of threads, programs of calls and schedules of their steps", "why_tests_cant": "whether an update is lost depends on the interleaving of single reads and writes; tests do not choose interleavings", "anchors": ["satella/instrumentation/metrics/metric_types/histogram.py: HistogramMetric._handle"]}
{"id": "C135", "title": "Base64 text spells the content", "statement": "For every byte string, b64encode() gives a str of four characters per started group of three bytes, whose characters (other than at most two = at the end) stand for exactly the bits of the content filled up with zero bits; it spells no other byte string, so different contents give different texts.", "quantifier": "all byte strings of any length", "why_tests_cant": "byte strings are unbounded, and the three lengths modulo three and all bit patterns matter; tests try a few", "anchors": ["satella/coding/transforms/base64.py: b64encode"]}
