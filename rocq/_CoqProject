-Q theories Verif
theories/Adapter_Model.v
theories/Adapter_Proofs.v
theories/Adapter_Spec.v
theories/Adapter_Theorems.v
theories/Args_Model.v
theories/Args_Proofs.v
theories/Args_Spec.v
theories/Args_Theorems.v
theories/AttrDict_Model.v
theories/AttrDict_Proofs.v
theories/AttrDict_Spec.v
theories/AttrDict_Theorems.v
theories/Await_Model.v
theories/Await_Proofs.v
theories/Await_Spec.v
theories/Await_Theorems.v
theories/B64_Model.v
theories/B64_Proofs.v
theories/B64_Spec.v
theories/B64_Theorems.v
theories/Backoff_Model.v
theories/Backoff_Proofs.v
theories/Backoff_Spec.v
theories/Backoff_Theorems.v
theories/CacheDict_Model.v
theories/CacheDict_Proofs.v
theories/CacheDict_Spec.v
theories/CacheDict_Theorems.v
theories/CacheLRUFresh_Proofs.v
theories/CacheLRU_Proofs.v
theories/CacheThr_Model.v
theories/CacheThr_Proofs.v
theories/CacheThr_Spec.v
theories/CacheThr_Theorems.v
theories/CallGroup_Model.v
theories/CallGroup_Proofs.v
theories/CallGroup_Spec.v
theories/CallGroup_Theorems.v
theories/Cass_Model.v
theories/Cass_Proofs.v
theories/Cass_Spec.v
theories/Cass_Theorems.v
theories/ClnReg_Model.v
theories/ClnReg_Proofs.v
theories/ClnReg_Spec.v
theories/ClnReg_Theorems.v
theories/Closeable_Model.v
theories/Closeable_Proofs.v
theories/Closeable_Spec.v
theories/Closeable_Theorems.v
theories/Context_Model.v
theories/Context_Proofs.v
theories/Context_Spec.v
theories/Context_Theorems.v
theories/CpuProfile_Model.v
theories/CpuProfile_Proofs.v
theories/CpuProfile_Spec.v
theories/CpuProfile_Theorems.v
theories/CpuSleep_Model.v
theories/CpuSleep_Proofs.v
theories/CpuSleep_Spec.v
theories/CpuSleep_Theorems.v
theories/Daemon_Model.v
theories/Daemon_Proofs.v
theories/Daemon_Spec.v
theories/Daemon_Theorems.v
theories/Db_Model.v
theories/Db_Proofs.v
theories/Db_Spec.v
theories/Db_Theorems.v
theories/Decor_Model.v
theories/Decor_Proofs.v
theories/Decor_Spec.v
theories/Decor_Theorems.v
theories/Deferred_Model.v
theories/Deferred_Proofs.v
theories/Deferred_Spec.v
theories/Deferred_Theorems.v
theories/Deleters_Model.v
theories/Deleters_Proofs.v
theories/Deleters_Spec.v
theories/Deleters_Theorems.v
theories/DictObjects_Model.v
theories/DictObjects_Proofs.v
theories/DictObjects_Spec.v
theories/DictObjects_Theorems.v
theories/Dicts_Model.v
theories/Dicts_Proofs.v
theories/Dicts_Spec.v
theories/Dicts_Theorems.v
theories/Dump_Model.v
theories/Dump_Proofs.v
theories/Dump_Spec.v
theories/Dump_Theorems.v
theories/Exceptions_Model.v
theories/Exceptions_Proofs.v
theories/Exceptions_Spec.v
theories/Exceptions_Theorems.v
theories/ExpThr_Model.v
theories/ExpThr_Proofs.v
theories/ExpThr_Spec.v
theories/ExpThr_Theorems.v
theories/Expiring_Model.v
theories/Expiring_Proofs.v
theories/Expiring_Spec.v
theories/Expiring_Theorems.v
theories/FileOps_Model.v
theories/FileOps_Proofs.v
theories/FileOps_Spec.v
theories/FileOps_Theorems.v
theories/FileSrc_Model.v
theories/FileSrc_Proofs.v
theories/FileSrc_Spec.v
theories/FileSrc_Theorems.v
theories/Files_Model.v
theories/Files_Proofs.v
theories/Files_Spec.v
theories/Files_Theorems.v
theories/Flow_Model.v
theories/Flow_Proofs.v
theories/Flow_Spec.v
theories/Flow_Theorems.v
theories/Frozen_Model.v
theories/Frozen_Proofs.v
theories/Frozen_Spec.v
theories/Frozen_Theorems.v
theories/Futures_Model.v
theories/Futures_Proofs.v
theories/Futures_Spec.v
theories/Futures_Theorems.v
theories/GenWrap_Model.v
theories/GenWrap_Proofs.v
theories/GenWrap_Spec.v
theories/GenWrap_Theorems.v
theories/HeapList_Model.v
theories/HeapList_Proofs.v
theories/HeapList_Spec.v
theories/HeapList_Theorems.v
theories/Heap_Model.v
theories/Heap_Proofs.v
theories/Heap_Spec.v
theories/Heap_Theorems.v
theories/HeapqC_Model.v
theories/HeapqC_Proofs.v
theories/Heapq_Model.v
theories/Heapq_Proofs.v
theories/HistThr_Model.v
theories/HistThr_Proofs.v
theories/HistThr_Spec.v
theories/HistThr_Theorems.v
theories/Hooks_Model.v
theories/Hooks_Proofs.v
theories/Hooks_Spec.v
theories/Hooks_Theorems.v
theories/IDAlloc_Model.v
theories/IDAlloc_Proofs.v
theories/IDAlloc_Spec.v
theories/IDAlloc_Theorems.v
theories/Imports_Model.v
theories/Imports_Proofs.v
theories/Imports_Spec.v
theories/Imports_Theorems.v
theories/Iterators_Model.v
theories/Iterators_Proofs.v
theories/Iterators_Spec.v
theories/Iterators_Theorems.v
theories/Json_Model.v
theories/Json_Proofs.v
theories/Json_Spec.v
theories/Json_Theorems.v
theories/KeyAware_Model.v
theories/KeyAware_Proofs.v
theories/KeyAware_Spec.v
theories/KeyAware_Theorems.v
theories/LinkLab_Proofs.v
theories/LinkLab_Spec.v
theories/LinkLab_Theorems.v
theories/LinkThr_Model.v
theories/LinkThr_Proofs.v
theories/LinkThr_Spec.v
theories/LinkThr_Theorems.v
theories/Locked_Model.v
theories/Locked_Proofs.v
theories/Locked_Spec.v
theories/Locked_Theorems.v
theories/LruThrMore_Proofs.v
theories/LruThr_Model.v
theories/LruThr_Proofs.v
theories/LruThr_Spec.v
theories/LruThr_Theorems.v
theories/Measure_Model.v
theories/Measure_Proofs.v
theories/Measure_Spec.v
theories/Measure_Theorems.v
theories/MemDump_Model.v
theories/MemDump_Proofs.v
theories/MemDump_Spec.v
theories/MemDump_Theorems.v
theories/Memo_Model.v
theories/Memo_Proofs.v
theories/Memo_Spec.v
theories/Memo_Theorems.v
theories/Merge_Model.v
theories/Merge_Proofs.v
theories/Merge_Spec.v
theories/Merge_Theorems.v
theories/Meta_Model.v
theories/Meta_Proofs.v
theories/Meta_Spec.v
theories/Meta_Theorems.v
theories/MethDec_Model.v
theories/MethDec_Proofs.v
theories/MethDec_Spec.v
theories/MethDec_Theorems.v
theories/MetrCache_Model.v
theories/MetrCache_Proofs.v
theories/MetrCache_Spec.v
theories/MetrCache_Theorems.v
theories/MetrMeasure_Model.v
theories/MetrMeasure_Proofs.v
theories/MetrMeasure_Spec.v
theories/MetrMeasure_Theorems.v
theories/MetrPool_Model.v
theories/MetrPool_Proofs.v
theories/MetrPool_Spec.v
theories/MetrPool_Theorems.v
theories/MetrThr_Model.v
theories/MetrThr_Proofs.v
theories/MetrThr_Spec.v
theories/MetrThr_Theorems.v
theories/MetrWrap_Model.v
theories/MetrWrap_Proofs.v
theories/MetrWrap_Spec.v
theories/MetrWrap_Theorems.v
theories/MetricData_Model.v
theories/MetricData_Proofs.v
theories/MetricData_Spec.v
theories/MetricData_Theorems.v
theories/MetricTree_Model.v
theories/MetricTree_Proofs.v
theories/MetricTree_Spec.v
theories/MetricTree_Theorems.v
theories/Metrics_Model.v
theories/Metrics_Proofs.v
theories/Metrics_Spec.v
theories/Metrics_Theorems.v
theories/Mixins_Model.v
theories/Mixins_Proofs.v
theories/Mixins_Spec.v
theories/Mixins_Theorems.v
theories/MonSync_Model.v
theories/MonSync_Proofs.v
theories/MonSync_Spec.v
theories/MonSync_Theorems.v
theories/Monitor_Model.v
theories/Monitor_Proofs.v
theories/Monitor_Spec.v
theories/Monitor_Theorems.v
theories/MoreFacts.v
theories/Order_Spec.v
theories/OsMisc_Model.v
theories/OsMisc_Proofs.v
theories/OsMisc_Spec.v
theories/OsMisc_Theorems.v
theories/Overload_Model.v
theories/Overload_Proofs.v
theories/Overload_Spec.v
theories/Overload_Theorems.v
theories/Parallel_Model.v
theories/Parallel_Proofs.v
theories/Parallel_Spec.v
theories/Parallel_Theorems.v
theories/ParseTime_Model.v
theories/ParseTime_Proofs.v
theories/ParseTime_Spec.v
theories/ParseTime_Theorems.v
theories/Parser_Model.v
theories/Parser_Proofs.v
theories/Parser_Spec.v
theories/Parser_Theorems.v
theories/PidLock_Model.v
theories/PidLock_Proofs.v
theories/PidLock_Spec.v
theories/PidLock_Theorems.v
theories/Pool_Model.v
theories/Pool_Proofs.v
theories/Pool_Spec.v
theories/Pool_Theorems.v
theories/Predicates_Model.v
theories/Predicates_Proofs.v
theories/Predicates_Spec.v
theories/Predicates_Theorems.v
theories/Prelude.v
theories/PreludeFacts.v
theories/Pressure_Model.v
theories/Pressure_Proofs.v
theories/Pressure_Spec.v
theories/Pressure_Theorems.v
theories/Procs_Model.v
theories/Procs_Proofs.v
theories/Procs_Spec.v
theories/Procs_Theorems.v
theories/Prom_Model.v
theories/Prom_Proofs.v
theories/Prom_Spec.v
theories/Prom_Theorems.v
theories/Proxy_Model.v
theories/Proxy_Proofs.v
theories/Proxy_Spec.v
theories/Proxy_Theorems.v
theories/PyGen_Model.v
theories/PySeq_Model.v
theories/Queue_Model.v
theories/Queue_Proofs.v
theories/Queue_Spec.v
theories/Queue_Theorems.v
theories/Recast_Model.v
theories/Recast_Proofs.v
theories/Recast_Spec.v
theories/Recast_Theorems.v
theories/Retry_Model.v
theories/Retry_Proofs.v
theories/Retry_Spec.v
theories/Retry_Theorems.v
theories/ScdThr_Model.v
theories/ScdThr_Proofs.v
theories/ScdThr_Spec.v
theories/ScdThr_Theorems.v
theories/SchemaHeap_Model.v
theories/SchemaHeap_Proofs.v
theories/SchemaHeap_Spec.v
theories/SchemaHeap_Theorems.v
theories/SchemaJson_Model.v
theories/SchemaJson_Proofs.v
theories/SchemaJson_Spec.v
theories/SchemaJson_Theorems.v
theories/Schema_Model.v
theories/Schema_Proofs.v
theories/Schema_Spec.v
theories/Schema_Theorems.v
theories/Sequences_Model.v
theories/Sequences_Proofs.v
theories/Sequences_Spec.v
theories/Sequences_Theorems.v
theories/Singleton_Model.v
theories/Singleton_Proofs.v
theories/Singleton_Spec.v
theories/Singleton_Theorems.v
theories/Size_Model.v
theories/Size_Proofs.v
theories/Size_Spec.v
theories/Size_Theorems.v
theories/Sleep_Model.v
theories/Sleep_Proofs.v
theories/Sleep_Spec.v
theories/Sleep_Theorems.v
theories/Small_Model.v
theories/Small_Proofs.v
theories/Small_Spec.v
theories/Small_Theorems.v
theories/SortedList_Model.v
theories/SortedList_Proofs.v
theories/SortedList_Spec.v
theories/SortedList_Theorems.v
theories/Sources_Model.v
theories/Sources_Proofs.v
theories/Sources_Spec.v
theories/Sources_Theorems.v
theories/SparseMatrix_Model.v
theories/SparseMatrix_Proofs.v
theories/SparseMatrix_Spec.v
theories/SparseMatrix_Theorems.v
theories/StartThr_Model.v
theories/StartThr_Proofs.v
theories/StartThr_Spec.v
theories/StartThr_Theorems.v
theories/SubThr_Model.v
theories/SubThr_Proofs.v
theories/SubThr_Spec.v
theories/SubThr_Theorems.v
theories/SyncPool_Model.v
theories/SyncPool_Proofs.v
theories/SyncPool_Spec.v
theories/SyncPool_Theorems.v
theories/Syncable_Model.v
theories/Syncable_Proofs.v
theories/Syncable_Spec.v
theories/Syncable_Theorems.v
theories/Taint_Model.v
theories/Taint_Proofs.v
theories/Taint_Spec.v
theories/Taint_Theorems.v
theories/Thread_Model.v
theories/Thread_Proofs.v
theories/Thread_Spec.v
theories/Thread_Theorems.v
theories/TimeHeap_Model.v
theories/TimeHeap_Proofs.v
theories/TimeHeap_Spec.v
theories/TimeHeap_Theorems.v
theories/Timer_Model.v
theories/Timer_Proofs.v
theories/Timer_Spec.v
theories/Timer_Theorems.v
theories/Trace_Model.v
theories/Trace_Proofs.v
theories/Trace_Spec.v
theories/Trace_Theorems.v
theories/Tracing_Model.v
theories/Tracing_Proofs.v
theories/Tracing_Spec.v
theories/Tracing_Theorems.v
theories/Transforms_Model.v
theories/Transforms_Proofs.v
theories/Transforms_Spec.v
theories/Transforms_Theorems.v
theories/Typed_Model.v
theories/Typed_Proofs.v
theories/Typed_Spec.v
theories/Typed_Theorems.v
theories/Values_Model.v
theories/Values_Proofs.v
theories/Values_Spec.v
theories/Values_Theorems.v
theories/Walk_Model.v
theories/Walk_Proofs.v
theories/Walk_Spec.v
theories/Walk_Theorems.v
theories/WbThr_Model.v
theories/WbThr_Proofs.v
theories/WbThr_Spec.v
theories/WbThr_Theorems.v
theories/WrapFut_Model.v
theories/WrapFut_Proofs.v
theories/WrapFut_Spec.v
theories/WrapFut_Theorems.v
theories/Wrappers_Model.v
theories/Wrappers_Proofs.v
theories/Wrappers_Spec.v
theories/Wrappers_Theorems.v
theories/Writeback_Model.v
theories/Writeback_Proofs.v
theories/Writeback_Spec.v
theories/Writeback_Theorems.v
