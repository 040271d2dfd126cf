{"id": "C01", "title": "Live blocks never overlap and stay inside the disk file", "statement": "At every moment, any two distinct blocks handed out by a disk's allocator and not yet deleted occupy disjoint byte ranges, and each lies inside [0, total_bytes()).", "quantifier": "every initial disk size, autogrow setting, and every finite history of batch allocations (any sizes > 0) and deletions of live blocks, including allocations that throw", "why_tests_cant": "Overlap only shows up after particular fragmentation histories; a test exercises finitely many histories while the claim covers all of them.", "anchors": ["foxxll/mng/disk_block_allocator.hpp:new_blocks", "foxxll/mng/disk_block_allocator.hpp:delete_block", "foxxll/mng/disk_block_allocator.cpp:add_free_region"]}
{"id": "C02", "title": "Free, used and total byte counters are exact", "statement": "After every operation free_bytes() + used_bytes() = total_bytes(), used_bytes() is exactly the sum of the sizes of the live blocks, and the bytes the free map describes are exactly free_bytes().", "quantifier": "every history as in C01", "why_tests_cant": "Counter drift accumulates over long histories that no finite suite enumerates.", "anchors": ["foxxll/mng/disk_block_allocator.hpp:free_bytes", "foxxll/mng/disk_block_allocator.hpp:used_bytes", "foxxll/mng/disk_block_allocator.hpp:total_bytes", "foxxll/mng/disk_block_allocator.hpp:new_blocks", "foxxll/mng/disk_block_allocator.cpp:add_free_region"]}
{"id": "C03", "title": "The free list is always fully coalesced", "statement": "The free regions are always non-empty, sorted, disjoint and pairwise non-adjacent; hence once every block has been deleted the free space is one single region that covers the whole file, so any request up to the disk size is again satisfied contiguously.", "quantifier": "every history as in C01, every deletion order", "why_tests_cant": "Deletion orders grow factorially; a missed merge only appears for particular neighbour configurations.", "anchors": ["foxxll/mng/disk_block_allocator.cpp:add_free_region"]}
{"id": "C04", "title": "Deleting what was just allocated restores the allocator exactly", "statement": "If a batch allocation succeeds without growing the file and all its blocks are then deleted in any order, the free map and the counters are exactly what they were before the allocation.", "quantifier": "every reachable allocator state, every batch of block sizes, every permutation of the deletions", "why_tests_cant": "Needs all states and all permutations.", "anchors": ["foxxll/mng/disk_block_allocator.hpp:new_blocks", "foxxll/mng/disk_block_allocator.hpp:delete_blocks", "foxxll/mng/disk_block_allocator.cpp:add_free_region"]}
{"id": "C05", "title": "Out-of-space is reported exactly when it is true and has no effect", "statement": "Used from one thread, a batch allocation throws bad_ext_alloc if and only if the disk is not autogrow and fewer bytes are free than the batch requests, and a throwing call changes nothing; in particular splitting a batch over several regions can never fail half way.", "quantifier": "every reachable allocator state and every non-empty batch of sizes > 0", "why_tests_cant": "The half-way failure would need a particular fragmentation; absence of such a state is a universal claim.", "anchors": ["foxxll/mng/disk_block_allocator.hpp:new_blocks"]}
{"id": "C06", "title": "When a disk that must not grow does grow", "statement": "A disk without autogrow keeps its total_bytes() through an allocation unless some single block of the batch is larger than every free region at the moment its (sub)request is served; in that fragmentation case the code extends the file beyond its configured size, although autogrow is off.", "quantifier": "every reachable allocator state and every batch", "why_tests_cant": "The configured bound is violated only after a specific fragmentation; both the bound (otherwise) and the violation are statements over all histories.", "anchors": ["foxxll/mng/disk_block_allocator.hpp:new_blocks", "foxxll/mng/disk_block_allocator.hpp:grow_file"]}
{"id": "C07", "title": "Double and overlapping deletions are always detected", "statement": "Deleting a byte range of positive size throws bad_ext_alloc if and only if the range intersects free space, and the throwing call changes nothing; in particular deleting the same block twice in a row always throws.", "quantifier": "every reachable allocator state, every offset and size > 0", "why_tests_cant": "Requires all free maps and all ranges; tests can only sample.", "anchors": ["foxxll/mng/disk_block_allocator.cpp:add_free_region", "foxxll/mng/disk_block_allocator.hpp:delete_block"]}
{"id": "C08", "title": "Allocation always terminates and serves every block", "statement": "A batch allocation that does not throw terminates (its recursive splitting is well founded) and assigns an offset to every block of the batch, in the original order and with the sizes unchanged.", "quantifier": "every reachable allocator state and every non-empty batch of sizes > 0", "why_tests_cant": "Termination of the recursion for every fragmentation is not testable.", "anchors": ["foxxll/mng/disk_block_allocator.hpp:new_blocks"]}
{"id": "C09", "title": "Contiguity and first fit", "statement": "If some free region can hold the whole batch and enough bytes are free, the blocks are laid out back to back in request order at the start of the lowest-addressed such region and no other region changes.", "quantifier": "every reachable allocator state and every batch", "why_tests_cant": "Universal over free maps.", "anchors": ["foxxll/mng/disk_block_allocator.hpp:new_blocks"]}
{"id": "C10", "title": "Concurrent allocation is safe although a batch is not one critical section", "statement": "When several threads allocate and delete on the same disk, live blocks of all threads stay pairwise disjoint and the counters stay exact under every interleaving of the critical sections; but unlike the single-threaded case a batch may throw after part of it has been allocated.", "quantifier": "every number of threads, every program of each thread, every interleaving of the mutex-protected sections", "why_tests_cant": "Schedules are unbounded; the lock is dropped between the two halves of a split batch.", "anchors": ["foxxll/mng/disk_block_allocator.hpp:new_blocks"]}
{"id": "C11", "title": "Blocks of the whole block manager never overlap", "statement": "Any two live managed blocks obtained from the block manager are either on different disks or occupy disjoint byte ranges of their disk file, and every block returned by a successful new_blocks has a storage and lies inside that disk's file.", "quantifier": "every set of disks, every allocation strategy functor, every history of new_blocks / delete_block calls, including throwing ones", "why_tests_cant": "Combines unbounded histories with arbitrary strategy functions.", "anchors": ["foxxll/mng/block_manager.hpp:new_blocks", "foxxll/mng/block_manager.hpp:delete_block", "foxxll/mng/block_manager.hpp:delete_blocks"]}
{"id": "C12", "title": "current_allocation() equals the bytes in live blocks", "statement": "For blocks with a compile-time size, current_allocation() always equals the sum of the sizes of the live blocks; for variable-size blocks (BID<0>) the code adds the size on allocation but subtracts 0 on deletion, so the counter drifts upwards by the deleted bytes.", "quantifier": "every history of successful allocations and deletions", "why_tests_cant": "The drift appears only for one template instantiation and after deletions; exactness for the other is an invariant over all histories.", "anchors": ["foxxll/mng/block_manager.hpp:new_blocks", "foxxll/mng/block_manager.hpp:delete_block", "foxxll/mng/block_manager.cpp:current_allocation"]}
{"id": "C13", "title": "maximum_allocation() and total_allocation() are true high-water marks", "statement": "total_allocation() never decreases and equals the number of bytes ever allocated; maximum_allocation() never decreases, is an upper bound of current_allocation() after every non-throwing call and is attained.", "quantifier": "every history without a throwing allocation", "why_tests_cant": "Statement over all prefixes of all histories.", "anchors": ["foxxll/mng/block_manager.hpp:new_blocks"]}
{"id": "C14", "title": "A strategy's disk choice is respected when there is room", "statement": "Each block is placed on the disk the strategy chose if that disk still has room for the batch's earlier blocks plus this one, otherwise on the first following disk (cyclically) that has room, otherwise it stays on the chosen disk; blocks of the batch keep their order on each disk.", "quantifier": "every strategy functor, every disk count, every free-space situation and batch", "why_tests_cant": "Universal over functors and fill levels.", "anchors": ["foxxll/mng/block_manager.hpp:new_blocks"]}
{"id": "C15", "title": "Block manager allocation fails cleanly only on one disk", "statement": "If new_blocks throws out-of-space, then no block already live before the call is affected; it throws exactly if some block found no room on any disk. Blocks of the same call placed on disks with a lower index remain allocated although the caller got an exception; deleting the whole range afterwards restores every disk that did not grow exactly; when only one disk is involved nothing is changed at all.", "quantifier": "every set of disks and every failing batch", "why_tests_cant": "The leak depends on the disk order and fill levels.", "anchors": ["foxxll/mng/block_manager.hpp:new_blocks"]}
{"id": "C16", "title": "Deleting an invalid or unmanaged block is a no-op", "statement": "delete_block on a default-constructed block id or on a block in a file not managed by the block manager changes neither allocators nor statistics; delete_blocks over a range is the same as deleting every element in order.", "quantifier": "every manager state, every block id", "why_tests_cant": "Universal over states.", "anchors": ["foxxll/mng/block_manager.hpp:delete_block", "foxxll/mng/block_manager.hpp:delete_blocks", "foxxll/mng/bid.hpp:is_managed"]}
{"id": "C17", "title": "Every allocation strategy only returns disks of its range", "statement": "Each strategy functor returns a disk index within [begin, end) for every block index and every outcome of the random choices it made.", "quantifier": "every begin < end, every block index, every random seed", "why_tests_cant": "Universal over indices and random outcomes.", "anchors": ["foxxll/mng/block_alloc_strategy.hpp:striping", "foxxll/mng/block_alloc_strategy.hpp:fully_random", "foxxll/mng/block_alloc_strategy.hpp:simple_random", "foxxll/mng/block_alloc_strategy.hpp:random_cyclic", "foxxll/mng/block_alloc_strategy_interleaved.hpp:interleaved_striping"]}
{"id": "C18", "title": "Cyclic strategies balance perfectly", "statement": "For striping, simple random and random cyclic, any (end-begin) consecutive block indices use every disk of the range exactly once, so any n consecutive blocks put between floor(n/D) and ceil(n/D) blocks on each disk; interleaved variants have the same guarantee within each run. Simple random and its variants add an offset below D to the index, so for them the window must end at most at index 2^64 - D; beyond it the sum wraps around and the balance can be lost.", "quantifier": "every window start and length (for simple random: up to index 2^64 - D), every permutation or offset drawn", "why_tests_cant": "Universal over windows and permutations.", "anchors": ["foxxll/mng/block_alloc_strategy.hpp:striping", "foxxll/mng/block_alloc_strategy.hpp:random_cyclic", "foxxll/mng/block_alloc_strategy_interleaved.hpp:interleaved_random_cyclic"]}
{"id": "C19", "title": "The completion handler runs exactly once and before wait() returns", "statement": "For every request, the completion handler is invoked at most once; whenever wait() has returned normally it has been invoked exactly once, after the data transfer and before the return.", "quantifier": "every interleaving of submitters, waiters, cancellers and the queue worker threads, any number of requests", "why_tests_cant": "Depends on thread schedules.", "anchors": ["foxxll/io/request_with_state.cpp:completed", "foxxll/io/request_with_state.cpp:cancel", "foxxll/io/request_with_state.cpp:wait", "foxxll/io/serving_request.cpp:serve"]}
{"id": "C20", "title": "A request is either served or cancelled, never both", "statement": "cancel() returns true only for a request whose transfer has not happened and will never happen; if cancel() returns false the request is (or will be) served; two cancels of one request cannot both succeed.", "quantifier": "every interleaving as in C19", "why_tests_cant": "Race between cancel and the worker.", "anchors": ["foxxll/io/request_with_state.cpp:cancel", "foxxll/io/request_queue_impl_qwqr.cpp:cancel_request", "foxxll/io/request_queue_impl_1q.cpp:cancel_request", "foxxll/io/disk_queues.hpp:cancel_request"]}
{"id": "C21", "title": "Accepted requests are never lost while the queue runs", "statement": "Every request accepted by a queue stays queued until it is either served or cancelled, and while the worker is running and any request is queued the worker is never asleep on the semaphore: the queue semaphore counts exactly the queued requests (plus at most the one token the worker holds).", "quantifier": "every interleaving of add, cancel and worker steps", "why_tests_cant": "A lost wakeup needs one exact schedule.", "anchors": ["foxxll/io/request_queue_impl_qwqr.cpp:add_request", "foxxll/io/request_queue_impl_qwqr.cpp:worker", "foxxll/io/request_queue_impl_qwqr.cpp:cancel_request"]}
{"id": "C22", "title": "Per-direction FIFO service, but reads and writes overtake each other", "statement": "A disk queue serves writes in submission order and reads in submission order (cancelled ones removed). As long as no request is cancelled and the queue is not shutting down, a read never overtakes a write submitted before it; a write can overtake an earlier read, and once some write is cancelled a read can overtake an earlier write too.", "quantifier": "every interleaving and every request sequence", "why_tests_cant": "Overtaking needs a specific phase of the worker; the FIFO part is a trace property over all runs.", "anchors": ["foxxll/io/request_queue_impl_qwqr.cpp:worker", "foxxll/io/request_queue_impl_qwqr.cpp:add_request"]}
{"id": "C23", "title": "Queue shutdown", "statement": "When a queue is destroyed its worker terminates once no request is queued; if requests are still queued when shutdown begins, the worker can consume the last queue token itself, exit, and leave a submitted request unserved forever; if the queue is empty at shutdown, the worker exits and nothing is left.", "quantifier": "every interleaving of the shutdown with the worker", "why_tests_cant": "The failing schedule is a race window of a few instructions.", "anchors": ["foxxll/io/request_queue_impl_worker.cpp:stop_thread", "foxxll/io/request_queue_impl_qwqr.cpp:worker", "foxxll/io/request_queue_impl_1q.cpp:worker"]}
{"id": "C24", "title": "Transfer errors reach every waiter", "statement": "If serving a request fails with an I/O error, every wait() and every poll() that observes the request as finished throws that error; if it does not fail, none of them throws; the completion handler however is told success=true even when the transfer failed.", "quantifier": "every interleaving, every error outcome", "why_tests_cant": "Combines fault injection with schedules.", "anchors": ["foxxll/io/serving_request.cpp:serve", "foxxll/io/request.cpp:check_errors", "foxxll/io/request_with_state.cpp:wait", "foxxll/io/request_with_state.cpp:poll"]}
{"id": "C25", "title": "No lost wakeup in wait_any", "statement": "wait_any over a set of requests blocks only while none of them has completed, and when it returns through a notification the returned position is that of a completed request; the registered switches are all removed again before it returns normally.", "quantifier": "every interleaving of completions with the registration loop; spurious wakeups excluded (with a spurious wakeup the end iterator can be returned)", "why_tests_cant": "Needs the completion to fall between registration and waiting.", "anchors": ["foxxll/io/request_operations.hpp:wait_any", "foxxll/io/request_with_waiters.cpp:add_waiter", "foxxll/io/request_with_waiters.cpp:notify_waiters", "foxxll/common/onoff_switch.hpp:wait_for_on"]}
{"id": "C26", "title": "cancel_all counts exactly the cancelled requests", "statement": "cancel_all returns the number of requests whose cancellation succeeded, and wait_all returns only when all requests have completed, throwing the first error in range order.", "quantifier": "every request range and completion state", "why_tests_cant": "Universal over ranges and states.", "anchors": ["foxxll/io/request_operations.hpp:cancel_all", "foxxll/io/request_operations.hpp:wait_all", "foxxll/io/request_operations.hpp:poll_any"]}
{"id": "C27", "title": "Kernel AIO submission never exceeds the event limit", "statement": "Without cancellations of posted requests the number of requests submitted to the kernel and not yet reaped never exceeds max_events, every submitted request is reaped exactly once, and the three token counters account for every request. If io_submit accepts whole batches, all requests can always be finished; unless a cancellation is under way they are, whatever the order of steps, after at most 20 steps for each request not yet handled and 7 more (during a cancellation the posting thread may turn without work); if it accepts less, the posting and the waiting thread can block each other for ever.", "quantifier": "every interleaving of submitters, the posting thread and the waiting thread, every batch size the kernel returns", "why_tests_cant": "Kernel scheduling and batch sizes are outside test control.", "anchors": ["foxxll/io/linuxaio_queue.cpp:post_requests", "foxxll/io/linuxaio_queue.cpp:wait_requests", "foxxll/io/linuxaio_queue.cpp:handle_events"]}
{"id": "C28", "title": "Cancelling a posted kernel AIO request never succeeds", "statement": "A request that was already posted to the kernel and whose io_cancel succeeds is completed by the event handler, and cancel_request then calls completed() a second time, which dereferences the file pointer that the first call has set to null; its completion handler runs at most once. On the way the free event is released twice, so the event limit can be exceeded, and cancel_request can wait for ever with the lock held if the waiting thread has already taken the token of the request.", "quantifier": "every such request", "why_tests_cant": "io_cancel success is kernel dependent and practically never happens in a test run.", "anchors": ["foxxll/io/linuxaio_queue.cpp:cancel_request", "foxxll/io/linuxaio_request.cpp:cancel_aio", "foxxll/io/linuxaio_queue.cpp:handle_events"]}
{"id": "C29", "title": "Memory file: reads return the last bytes written", "statement": "For a memory file, a read of any range inside the file returns for each byte the value of the last write covering it, writes change no other byte, growing keeps all bytes and shrinking keeps the remaining prefix.", "quantifier": "every sequence of in-range reads, writes and size changes", "why_tests_cant": "Unbounded sequences of overlapping ranges.", "anchors": ["foxxll/io/memory_file.cpp:serve", "foxxll/io/memory_file.cpp:set_size"]}
{"id": "C30", "title": "Syscall file transfers exactly the requested bytes for any split", "statement": "Whatever positive byte counts the operating system transfers per call, a write that returns normally has stored exactly the buffer at the requested offset, and a read that returns normally has filled the whole buffer with the file content followed by zeros past the end of file; if any call fails or transfers nothing, an I/O error is raised; a read starting at or beyond the end of file always raises an error.", "quantifier": "every file content, offset, length and every sequence of partial transfer counts", "why_tests_cant": "Short transfers are decided by the kernel.", "anchors": ["foxxll/io/syscall_file.cpp:serve"]}
{"id": "C31", "title": "File-per-block storage isolates blocks", "statement": "With the file-per-block backend, offsets map to distinct file names; a read of a block returns what was last written at that same offset and length, and writing or discarding one block changes no other block.", "quantifier": "every 64-bit offset pair and every sequence of block accesses", "why_tests_cant": "Universal over offsets and histories.", "anchors": ["foxxll/io/fileperblock_file.cpp:filename_for_block", "foxxll/io/fileperblock_file.cpp:serve", "foxxll/io/fileperblock_file.cpp:discard"]}
{"id": "C32", "title": "Write pool conserves its buffers and never hands out a busy one", "statement": "Buffers handed to a write pool are always either free or under a pending write; steal() returns a buffer only after its write completed or was cancelled by a newer write to the same block; the number of buffers changes only by add, resize and steal.", "quantifier": "every sequence of pool operations and every completion order", "why_tests_cant": "Completion orders are unbounded.", "anchors": ["foxxll/mng/write_pool.hpp:write", "foxxll/mng/write_pool.hpp:steal", "foxxll/mng/write_pool.hpp:check_all_busy", "foxxll/mng/write_pool.hpp:resize"]}
{"id": "C33", "title": "The latest write to a block wins", "statement": "If the same block is written several times through a write pool, once all I/O has finished the disk holds the last data written; the pool never lets an older pending write to that block survive next to a newer one.", "quantifier": "every sequence of writes and every completion order", "why_tests_cant": "Needs particular completion orders.", "anchors": ["foxxll/mng/write_pool.hpp:write"]}
{"id": "C34", "title": "Read/write pool is coherent for a client that waits", "statement": "A client of a read_write_pool that waits for every read it issues always reads the data of its latest write to that block (or the disk's original content), whatever mixture of hints, invalidations, prefetches, pending writes and evictions happened in between; without waiting, a second read can return stale data.", "quantifier": "every sequence of write / read / hint / invalidate operations, every block set, every I/O completion order", "why_tests_cant": "The cache has unboundedly many states; the stale case needs a particular order.", "anchors": ["foxxll/mng/read_write_pool.hpp:write", "foxxll/mng/read_write_pool.hpp:read", "foxxll/mng/read_write_pool.hpp:hint", "foxxll/mng/prefetch_pool.hpp:read", "foxxll/mng/prefetch_pool.hpp:invalidate", "foxxll/mng/write_pool.hpp:steal_request"]}
{"id": "C35", "title": "Prefetch pool conserves its buffers", "statement": "Every buffer of a prefetch pool is either free or attached to exactly one hinted block; hint succeeds exactly when the block is already hinted or a free buffer exists; read swaps buffers so that the pool size changes only by add, steal and resize.", "quantifier": "every sequence of operations", "why_tests_cant": "Unbounded histories.", "anchors": ["foxxll/mng/prefetch_pool.hpp:hint", "foxxll/mng/prefetch_pool.hpp:read", "foxxll/mng/prefetch_pool.hpp:invalidate", "foxxll/mng/prefetch_pool.hpp:resize"]}
{"id": "C36", "title": "The prefetch schedule is a permutation", "statement": "compute_prefetch_schedule terminates and writes each block index 0..n-1 exactly once.", "quantifier": "every block count, every disk assignment with ids up to D, every buffer count >= 1, every tie-breaking of the event queue", "why_tests_cant": "Universal over inputs.", "anchors": ["foxxll/mng/async_schedule.cpp:compute_prefetch_schedule", "foxxll/mng/async_schedule.cpp:simulate_async_write"]}
{"id": "C37", "title": "The prefetch schedule never starves the reader", "statement": "With m buffers, the block consumed k-th (in stream order) is always among the first m+k entries of the computed schedule, so a reader that refills one buffer per consumed block never waits for a block that has not been requested.", "quantifier": "as C36", "why_tests_cant": "A deadlocking input would be a specific disk layout; absence is universal.", "anchors": ["foxxll/mng/async_schedule.cpp:compute_prefetch_schedule", "foxxll/mng/block_prefetcher.hpp:block_consumed", "foxxll/mng/buf_istream.hpp:buf_istream"]}
{"id": "C38", "title": "The simulated writes use every disk at most once per step", "statement": "In the simulated optimal write schedule no disk gets two blocks in the same time step and every block is written exactly once, after it entered the buffer.", "quantifier": "as C36", "why_tests_cant": "Universal over inputs.", "anchors": ["foxxll/mng/async_schedule.cpp:simulate_async_write"]}
{"id": "C39", "title": "The block prefetcher delivers blocks in stream order", "statement": "For any schedule that is a permutation satisfying C37, pulling blocks one after the other yields exactly the content of block 0, 1, 2, ... in order, each after its read completed, and no buffer is refilled before the block it holds has been given back.", "quantifier": "every number of blocks and buffers, every such schedule, every read completion order", "why_tests_cant": "Completion orders are unbounded.", "anchors": ["foxxll/mng/block_prefetcher.hpp:block_prefetcher", "foxxll/mng/block_prefetcher.hpp:pull_block", "foxxll/mng/block_prefetcher.hpp:block_consumed"]}
{"id": "C40", "title": "Writing a stream and reading it back is the identity", "statement": "Writing any sequence of records with buf_ostream and reading the same blocks with buf_istream yields the same sequence, and reading with buf_istream_reverse yields the reversed sequence of the filled blocks.", "quantifier": "every record sequence, every block size >= 1 record, every buffer count and disk layout", "why_tests_cant": "Universal over sequences, layouts and schedules.", "anchors": ["foxxll/mng/buf_ostream.hpp:operator++", "foxxll/mng/buf_ostream.hpp:operator<<", "foxxll/mng/buf_istream.hpp:operator>>", "foxxll/mng/buf_istream.hpp:operator++", "foxxll/mng/buf_istream_reverse.hpp:operator++"]}
{"id": "C41", "title": "Buffered writer writes every block exactly once and never overwrites a buffer in flight", "statement": "Each block passed to write() is submitted exactly once with the content it had, flush() returns only after all submitted writes completed, and a buffer is handed out again only after its write completed.", "quantifier": "every sequence of write calls, every buffer and batch size, every completion order", "why_tests_cant": "Completion orders and batch boundaries are unbounded.", "anchors": ["foxxll/mng/buf_writer.hpp:get_free_block", "foxxll/mng/buf_writer.hpp:write", "foxxll/mng/buf_writer.hpp:flush"]}
{"id": "C42", "title": "Buffered writer liveness needs batch size < buffer count", "statement": "write() always obtains a free buffer once outstanding I/O completes if the batch size is smaller than the number of buffers; otherwise the writer blocks forever as soon as all buffers sit in the unsubmitted batch; buf_ostream always chooses a safe pair.", "quantifier": "every buffer count and batch size, every number of writes", "why_tests_cant": "A deadlock cannot be distinguished from slowness by a test, and the claim is for all parameters.", "anchors": ["foxxll/mng/buf_writer.hpp:buffered_writer", "foxxll/mng/buf_writer.hpp:get_free_block", "foxxll/mng/buf_writer.hpp:write", "foxxll/mng/buf_ostream.hpp:buf_ostream"]}
{"id": "C43", "title": "flush() of a buffered writer revokes the caller's buffer", "statement": "After flush() every buffer is in the free list, including the one the caller still holds from the last get_free_block()/write(), so the next get_free_block() can return the very buffer the caller is filling.", "quantifier": "every writer state", "why_tests_cant": "The aliasing corrupts data silently only for some call orders.", "anchors": ["foxxll/mng/buf_writer.hpp:flush", "foxxll/mng/buf_writer.hpp:get_free_block"]}
{"id": "C44", "title": "Block scheduler is a transparent cache", "statement": "A client that follows the acquire/release protocol sees for every swappable block exactly the data it last released as dirty (or the initial external content), regardless of how blocks are evicted and swapped back in and of the algorithm in use, and no operation of such a client has undefined behaviour. (A block with a value that is acquired as uninitialised has to be released as dirty: otherwise its value is lost.)", "quantifier": "every number of swappable blocks, every memory limit, every protocol-conforming operation sequence, every eviction choice", "why_tests_cant": "Eviction patterns are unbounded.", "anchors": ["foxxll/mng/block_scheduler.hpp:block_scheduler_algorithm_online_lru", "foxxll/mng/block_scheduler.hpp:swappable_block", "foxxll/mng/block_scheduler.hpp:flush"]}
{"id": "C45", "title": "Block scheduler respects its memory limit and never shares buffers", "statement": "The scheduler never allocates more internal blocks than its limit; every internal block belongs to exactly one of: free list, one swappable block; and an acquired block keeps its internal block until the release that ends its acquisition. In bytes the limit may be exceeded by less than a block.", "quantifier": "every operation sequence", "why_tests_cant": "Unbounded histories.", "anchors": ["foxxll/mng/block_scheduler.hpp:get_free_internal_block", "foxxll/mng/block_scheduler.hpp:block_scheduler_algorithm_online_lru", "foxxll/mng/block_scheduler.hpp:block_scheduler_algorithm_offline_lfd"]}
{"id": "C46", "title": "acquire succeeds exactly when memory suffices", "statement": "acquire() of a block finds an internal block if and only if the block is already internal or fewer blocks than the limit are acquired; it evicts another block only if no internal block is free and the limit is reached, and then exactly one that is not acquired.", "quantifier": "every reachable scheduler state", "why_tests_cant": "Universal over states.", "anchors": ["foxxll/mng/block_scheduler.hpp:block_scheduler_algorithm_online_lru"]}
{"id": "C47", "title": "LRU evicts the least recently released block", "statement": "The online algorithm, if it has not been switched, evicts the evictable block whose last release is the oldest. (After a simulation the order is reversed.)", "quantifier": "every operation sequence", "why_tests_cant": "Unbounded histories.", "anchors": ["foxxll/mng/block_scheduler.hpp:block_scheduler_algorithm_online_lru", "foxxll/common/addressable_queues.hpp:addressable_fifo_queue"]}
{"id": "C48", "title": "LFD evicts a block whose predicted next use is farthest", "statement": "The offline algorithm evicts a block such that no other evictable block has a later predicted next acquire; blocks not acquired again come first.", "quantifier": "every prediction sequence and matching execution", "why_tests_cant": "Unbounded sequences.", "anchors": ["foxxll/mng/block_scheduler.hpp:block_scheduler_algorithm_offline_lfd"]}
{"id": "C49", "title": "Simulation mode answers is_initialized like real execution", "statement": "If no block is acquired when simulation starts, is_initialized() answers in simulation mode exactly as the online algorithm would for the same operation sequence, and the recorded sequence is exactly the sequence of operations with non-decreasing timestamps. (It fails for a block acquired at the start, for initialize with an invalid external block, and free_swappable_block is not undone at the end of a simulation.)", "quantifier": "every protocol-conforming operation sequence", "why_tests_cant": "Unbounded sequences.", "anchors": ["foxxll/mng/block_scheduler.hpp:block_scheduler_algorithm_simulation"]}
{"id": "C50", "title": "uint40/uint48 arithmetic is arithmetic modulo 2^40 / 2^48", "statement": "For uint_pair, construction from and conversion to 64-bit integers round-trips for every value in range, and ++, -- and += agree with addition and subtraction modulo 2^digits; conversion from a negative 32-bit integer gives its residue.", "quantifier": "every pair of values, both high types", "why_tests_cant": "2^80 value pairs.", "anchors": ["foxxll/common/uint_types.hpp:uint_pair"]}
{"id": "C51", "title": "uint40/uint48 comparisons are the numeric order", "statement": "All six comparison operators agree with the comparison of the numeric values, and min()/max() are the extremes.", "quantifier": "every pair of values", "why_tests_cant": "2^80 value pairs.", "anchors": ["foxxll/common/uint_types.hpp:uint_pair"]}
{"id": "C52", "title": "Aligned allocation is aligned, in bounds and can be freed", "statement": "For every address malloc may return, the data area returned by aligned_alloc is aligned, lies with its meta info completely inside the allocated buffer, leaves room for the back pointer, and aligned_dealloc frees exactly the buffer malloc returned.", "quantifier": "every alignment >= 1, size, meta size and every buffer address", "why_tests_cant": "Addresses are chosen by the allocator.", "anchors": ["foxxll/common/aligned_alloc.hpp:aligned_alloc", "foxxll/common/aligned_alloc.hpp:aligned_dealloc"]}
{"id": "C53", "title": "The addressable FIFO queue is a FIFO of distinct elements", "statement": "insert moves or appends the element to the back, erase removes it wherever it is, pop returns the element whose latest insertion is oldest, and insert/erase report membership correctly.", "quantifier": "every operation sequence", "why_tests_cant": "Unbounded sequences.", "anchors": ["foxxll/common/addressable_queues.hpp:addressable_fifo_queue"]}
{"id": "C54", "title": "The addressable priority queue is a priority map", "statement": "It behaves as a map from elements to their latest priority; top and pop return an element with minimal priority; re-inserting an element with a new priority replaces the old one.", "quantifier": "every operation sequence and every strict weak order on priorities", "why_tests_cant": "Unbounded sequences.", "anchors": ["foxxll/common/addressable_queues.hpp:addressable_priority_queue"]}
{"id": "C55", "title": "Integer helpers", "statement": "div_ceil(a,b) is the least q with q*b >= a for every b >= 1 and every a; round_up_to_power_of_two(n,p) is the least multiple of 2^p that is at least n whenever that multiple is representable, and 0 otherwise.", "quantifier": "every argument", "why_tests_cant": "64-bit ranges.", "anchors": ["foxxll/common/utils.hpp:div_ceil", "foxxll/common/utils.hpp:round_up_to_power_of_two"]}
{"id": "C56", "title": "longhash1 is collision free", "statement": "longhash1 is a bijection on 64-bit values: two different keys never get the same hash.", "quantifier": "every pair of 64-bit keys", "why_tests_cant": "2^128 pairs.", "anchors": ["foxxll/common/utils.hpp:longhash1"]}
{"id": "C57", "title": "typed_block fills its raw block exactly", "statement": "For every raw size, element size, reference count and meta size for which at least one element fits, the elements, references, meta data and filler occupy exactly the raw size, elements do not overlap and one more element would not fit.", "quantifier": "every parameter combination", "why_tests_cant": "Template parameters range over unboundedly many instantiations.", "anchors": ["foxxll/mng/typed_block.hpp:typed_block"]}
{"id": "C58", "title": "Automatic device ids are fresh", "statement": "An automatically chosen device id is different from every id assigned before it, and max_device_id() is always larger than every assigned id; an explicit id given later may still coincide with an automatic one.", "quantifier": "every sequence of file creations with explicit or automatic ids", "why_tests_cant": "Unbounded sequences.", "anchors": ["foxxll/mng/config.cpp:next_device_id", "foxxll/mng/config.cpp:update_max_device_id", "foxxll/io/create_file.cpp:create_file"]}
{"id": "C59", "title": "Disk ranges partition the disks", "statement": "After loading a configuration file, the regular range followed by the flash range is exactly all disks, the regular range contains exactly the disk= entries and the flash range the flash= entries, each in file order; but disks added with add_disk before initialisation are all reported as flash.", "quantifier": "every configuration file and every add_disk sequence", "why_tests_cant": "Unbounded configurations.", "anchors": ["foxxll/mng/config.cpp:load_config_file", "foxxll/mng/config.cpp:regular_disk_range", "foxxll/mng/config.cpp:flash_range", "foxxll/mng/config.cpp:add_disk", "foxxll/mng/config.cpp:initialize"]}
{"id": "C60", "title": "Disk options print and parse back", "statement": "Parsing the string printed by fileio_string() restores every option of a non-flash disk configuration; for flash disks the printed string is rejected by the parser.", "quantifier": "every option combination and every queue / device number", "why_tests_cant": "Unbounded option values.", "anchors": ["foxxll/mng/config.cpp:fileio_string", "foxxll/mng/config.cpp:parse_fileio"]}
{"id": "C61", "title": "Serial I/O time is the sum of operation durations", "statement": "When all operations have finished, get_read_time() (get_write_time()) equals the sum over all operations of finish time minus start time, no matter how operations overlap and in which order threads enter the critical sections; counts and byte totals are the exact totals of the non-cancelled operations, modulo the width of the counters. The one exception is a posted linuxaio request that is cancelled: it was never counted as started, so the counters underflow.", "quantifier": "every number of operations and every interleaving of starts and finishes", "why_tests_cant": "Overlap patterns are unbounded.", "anchors": ["foxxll/io/iostats.cpp:write_started", "foxxll/io/iostats.cpp:write_finished", "foxxll/io/iostats.cpp:write_canceled", "foxxll/io/iostats.cpp:read_started", "foxxll/io/iostats.cpp:read_finished"]}
{"id": "C62", "title": "Parallel I/O time is the time some operation was active", "statement": "If threads enter the critical sections in the order of their time stamps, the parallel read/write/io/wait time equals the total length of the time during which at least one such operation was active. A monotone clock alone is not enough, because the clock is read before the mutex is taken; and linuxaio requests are not counted at all.", "quantifier": "every number of operations and every overlap pattern", "why_tests_cant": "Overlap patterns are unbounded.", "anchors": ["foxxll/io/iostats.cpp:p_write_started", "foxxll/io/iostats.cpp:p_write_finished", "foxxll/io/iostats.cpp:wait_started", "foxxll/io/iostats.cpp:wait_finished"]}
{"id": "C63", "title": "Per-device statistics are attributed to the right device", "statement": "If files are created with strictly increasing device ids every file gets the statistics object of its own device; in any other order the code can return the statistics object of a different device or create duplicates.", "quantifier": "every sequence of file creations", "why_tests_cant": "Depends on creation order.", "anchors": ["foxxll/io/iostats.cpp:create_file_stats"]}
{"id": "C64", "title": "Statistics snapshots subtract correctly", "statement": "The difference of two snapshots taken from the same counters gives, per device, the operations counted in between, provided every device of the earlier snapshot is present in the later one; adding the earlier snapshot back yields the later one.", "quantifier": "every pair of snapshots", "why_tests_cant": "Universal over snapshots.", "anchors": ["foxxll/io/iostats.cpp:operator-", "foxxll/io/iostats.cpp:operator+"]}
{"id": "C65", "title": "Uniform block sizes never make a fixed-size disk grow", "statement": "If every block has the same size b and the configured disk size is a multiple of b, a disk without autogrow keeps exactly its configured size for ever and every block offset is a multiple of b.", "quantifier": "every block size b, every configured size that is a multiple of b, every history of batch allocations and deletions", "why_tests_cant": "Needs an invariant over arbitrary histories of splits and merges of free regions.", "anchors": ["foxxll/mng/disk_block_allocator.hpp:new_blocks", "foxxll/mng/disk_block_allocator.cpp:add_free_region"]}
{"id": "C66", "title": "Destroying an allocator restores the configured file size", "statement": "From construction to destruction the file is never smaller than the configured size of its disk, and after the destructor it has exactly the configured size however much the disk grew.", "quantifier": "every configured size, autogrow setting and history of allocations and deletions", "why_tests_cant": "Needs the relation between file size and counters in every reachable state.", "anchors": ["foxxll/mng/disk_block_allocator.hpp:~disk_block_allocator"]}
{"id": "C67", "title": "First existing configuration file wins", "statement": "Initialising an empty configuration loads the first existing file of: $STXXLCFG, ./.stxxl.$HOSTNAME, ./.stxxl, $HOME/.stxxl.$HOSTNAME, $HOME/.stxxl (names with unset variables are left out), and the default configuration if none exists; nothing is searched if disks were added before.", "quantifier": "every environment and every set of existing files", "why_tests_cant": "All combinations of set variables and existing files with arbitrary names.", "anchors": ["foxxll/mng/config.cpp:find_config", "foxxll/mng/config.cpp:initialize"]}
{"id": "C68", "title": "Fields of a configuration line", "statement": "A line kind=path,size,fileio sets kind, path, size and the options from its fields independently of the previous content of the object, except that raw_device and queue_length are not reset; the first $$ of the path is replaced by the process id, and the character after it is lost.", "quantifier": "every line and every previous object", "why_tests_cant": "Arbitrary texts and object states.", "anchors": ["foxxll/mng/config.cpp:parse_line"]}
{"id": "C69", "title": "A singleton is constructed once and never handed out dead", "statement": "However many threads call get_instance and create_instance, at most one object is constructed; every call returns that object before its destruction has begun, or size_t(-1) afterwards, never null; if only exit handlers destroy it, it is deleted at most once and exactly as often as its handler ran; pending calls can always finish. A destroy_instance by hand makes the exit handler delete an invalid pointer.", "quantifier": "every number of threads and every interleaving, also with throwing constructors", "why_tests_cant": "Races of the double-checked test are not reproducible by tests.", "anchors": ["foxxll/singleton.hpp:get_instance", "foxxll/singleton.hpp:create_instance", "foxxll/singleton.hpp:destroy_instance"]}
{"id": "C70", "title": "Singletons die in reverse order of construction", "statement": "If destructors only use singletons that their constructors needed (directly or indirectly) and no constructor needs itself, a program ends without crash or deadlock, under both kinds of exit handler; the destructions are exactly the reverse of the constructions, so a singleton dies before everything it needed. Otherwise crash or deadlock are possible, and a cycle never returns.", "quantifier": "every set of classes, every dependency relation, every order of first uses", "why_tests_cant": "Quantifies over dependency graphs and orders of first use.", "anchors": ["foxxll/singleton.hpp:create_instance", "foxxll/common/exithandler.cpp:run_exit_handlers", "foxxll/common/exithandler.cpp:register_exit_handler"]}
{"id": "C71", "title": "One request queue per disk number", "statement": "All adds, cancels and lookups for one disk number reach the same queue and those for different numbers different queues; the first file or request for a number decides the kind and length of its queue for ever; an add is forwarded unless the request is empty (exception), the construction failed (exception), or a request that is not linuxaio meets a linuxaio queue (the program dies). If constructing a queue fails and the compiler evaluates the left side of the assignment first, every later request for this disk crashes.", "quantifier": "every history of make_queue, add, cancel, lookup and priority calls with arbitrary disk numbers and kernel answers", "why_tests_cant": "Arbitrary histories and both evaluation orders allowed by C++14.", "anchors": ["foxxll/io/disk_queues.cpp:make_queue", "foxxll/io/disk_queues.cpp:add_request", "foxxll/io/disk_queues.cpp:cancel_request", "foxxll/io/disk_queues.cpp:get_queue"]}
{"id": "C72", "title": "Assignment of disks to queues", "statement": "After the block manager opened its disks, two disks share a queue iff their queue numbers are equal, where the number is -2 for linuxaio, else the configured one, else the index of the disk; if no other disk was configured with -2, every disk accepts its requests in a queue of its kind and the linuxaio queue has the length asked for by the first linuxaio disk. Default disks can share a queue with explicitly numbered ones.", "quantifier": "every list of disks", "why_tests_cant": "Quantifies over configurations.", "anchors": ["foxxll/mng/block_manager.cpp:block_manager", "foxxll/io/create_file.cpp:create_file", "foxxll/io/disk_queues.cpp:make_queue"]}
{"id": "C73", "title": "Negotiated number of AIO events", "statement": "The negotiation with the kernel ends after at most 32 tries and never settles for fewer events than desired; with a kernel that grants no larger number after a refusal it succeeds iff the first try does, with exactly the desired number (64 for 0). Hence it fails although half as many events would be granted, contrary to its comment.", "quantifier": "every kernel behaviour and every desired length", "why_tests_cant": "Depends on kernel limits that a test cannot vary.", "anchors": ["foxxll/io/linuxaio_queue.cpp:linuxaio_queue"]}
{"id": "C74", "title": "Memory-mapped files", "statement": "serve of mmap_file throws iff the range is empty, the offset is no multiple of the page size, the file is not open in a suitable mode, or mmap fails; otherwise the process is killed iff a page completely after the end of the file is touched. If it returns, every byte inside the file is transferred exactly as by syscall_file, the size never changes (it is always that of the last set_size), and bytes written after the end are lost silently, where syscall_file would grow the file.", "quantifier": "every page size, file content, offset, length, open mode and kernel answer", "why_tests_cant": "Needs all offsets and lengths relative to the file size, including ones that kill the test.", "anchors": ["foxxll/io/mmap_file.cpp:serve"]}
{"id": "C75", "title": "One mapped file per block", "statement": "fileperblock_file on top of mmap never touches a page after the end of a block's file; reads return the stored bytes padded with zeros or cut to the length, writes store exactly the data; if the system calls succeed, every access with a positive length returns, and one of length zero throws.", "quantifier": "every page size, directory, offset, length and kernel answers", "why_tests_cant": "Arbitrary directories and lengths, and failures of the system.", "anchors": ["foxxll/io/fileperblock_file.cpp:serve", "foxxll/io/mmap_file.cpp:serve"]}
{"id": "C76", "title": "Opening files, direct I/O", "statement": "A descriptor opened by the Unix file classes has exactly the access, creation, truncation and synchronous flags asked for. It uses direct I/O iff asked for and accepted by the kernel in the first attempt; there is one second attempt without it, only after EINVAL and if it was not required; a file that requires direct I/O never works without. For files made by create_file, alignment is demanded iff the descriptor is direct; REQUIRE_DIRECT alone, given to a constructor, uses direct I/O without demanding alignment.", "quantifier": "every mode word and every behaviour of the kernel", "why_tests_cant": "All combinations of nine mode bits with kernels that refuse direct I/O.", "anchors": ["foxxll/io/ufs_file_base.cpp:ufs_file_base", "foxxll/io/create_file.cpp:create_file"]}
{"id": "C77", "title": "File locks between processes", "statement": "If no process opens a file twice or switches locking off, two objects of different processes use the same file at the same time only if both are read-only; the constructor throws after open exactly if another process uses the file and one of the two may write; without TRUNC the content changes only by writes of the one user; without removal this holds by name as well. Opening a file twice in a process, TRUNC, and close_remove break it; a constructor that throws leaks its descriptor until the process ends.", "quantifier": "every number of processes and files and every interleaving of their system calls", "why_tests_cant": "Interleavings of system calls of several processes.", "anchors": ["foxxll/io/ufs_file_base.cpp:lock", "foxxll/io/ufs_file_base.cpp:_after_open", "foxxll/io/ufs_file_base.cpp:close", "foxxll/io/ufs_file_base.cpp:close_remove"]}
{"id": "C78", "title": "Stop watch", "statement": "A timer that is started and stopped alternately shows exactly the time during which it was running since the last reset plus the timers added to it, in seconds, milliseconds and microseconds, and never decreases between resets. A second start loses time, a second stop counts an interval twice.", "quantifier": "every sequence of start, stop, reset, += and readings at any times", "why_tests_cant": "Arbitrary sequences and times.", "anchors": ["foxxll/common/timer.hpp:timer"]}
{"id": "C79", "title": "Summaries of statistics", "statement": "For every list of per-file values and every order the sort may choose, the summary's minimum and maximum are the least and greatest value, total is their sum in the value type and agrees with the per-file accumulation, average times the number of files is total, and, if twice every value fits the value type, at most half of the values lie below and at most half above the median. Without that bound the median of two equal values can be 0.", "quantifier": "every non-empty list of values, value width and outcome of the unstable sort", "why_tests_cant": "All lists, and values near the limits of the type.", "anchors": ["foxxll/io/iostats.cpp:summary", "foxxll/io/iostats.cpp:fetch_sum"]}
{"id": "C80", "title": "Printing statistics", "statement": "The comparison used to sort speeds is a strict weak order, as std::sort demands, iff there is no NaN or no two different numbers among them. It always is for the parallel speeds; for speeds per file one unused file beside two used ones makes it undefined. The warnings about slow disks and load balance end and never read outside the lists, for all speeds including NaN and infinity.", "quantifier": "every list of speeds and byte counts, including infinities and NaN", "why_tests_cant": "The sort's undefined behaviour is not observable in a test, and all combinations of NaN, infinity and zero matter.", "anchors": ["foxxll/io/iostats.cpp:to_ostream", "foxxll/io/iostats.cpp:summary"]}
{"id": "C81", "title": "Pools with failing requests: memory", "statement": "For every sequence of calls of the write, prefetch and read/write pools and every pattern of failing requests, each block is at exactly one place (free, busy, the client's, deleted, lost); a block of a request in flight is never free, deleted or given to the client without that request. Without failures nothing throws and after the destructor every block is deleted or the client's. A throwing steal or resize loses at most one block, other calls none; a destructor never throws, deletes the busy blocks before the first failed one and loses the rest.", "quantifier": "every pool size, sequence of calls, order of completion and pattern of failures", "why_tests_cant": "All interleavings of completions and failures with the calls.", "anchors": ["foxxll/mng/write_pool.hpp:steal", "foxxll/mng/write_pool.hpp:~write_pool", "foxxll/mng/prefetch_pool.hpp:~prefetch_pool"]}
{"id": "C82", "title": "Pools with failing requests: errors", "statement": "While the pools live a failed request is never dropped: it stays in a pool or goes to the client with its block. With a failed write among the busy blocks and no free block, steal throws; a failed write that was overwritten later stays for ever, so steal throws whenever no block is free. The destructor hides failures.", "quantifier": "every state, call and pattern of failures", "why_tests_cant": "Needs I/O errors at every possible moment.", "anchors": ["foxxll/mng/write_pool.hpp:steal", "foxxll/mng/write_pool.hpp:check_all_busy", "foxxll/mng/prefetch_pool.hpp:invalidate"]}
{"id": "C83", "title": "Prefetching is transparent", "statement": "If a client that follows the protocol switches to the prefetching algorithm with a prediction sequence of existing blocks without extract operations and then does what was predicted, then, whatever the I/O threads do when, every read and acquire returns the value last written, no assertion fails except the one of acquire for lack of memory, and at any time it can switch back to the online algorithm and goes on with the same contents. With extract_external_block or flush this does not hold.", "quantifier": "every history before, prediction sequence, sequence of operations and schedule of the I/O threads", "why_tests_cant": "Depends on when each asynchronous write, its completion handler and each read take place relative to the client.", "anchors": ["foxxll/mng/block_scheduler.hpp:schedule_read", "foxxll/mng/block_scheduler.hpp:read_after_write", "foxxll/mng/block_scheduler.hpp:try_interrupt_read", "foxxll/mng/block_scheduler.hpp:schedule_next_operations", "foxxll/mng/block_scheduler.hpp:deinit"]}
{"id": "C84", "title": "Memory while prefetching", "statement": "While prefetching, the limit on internal blocks holds and every internal block is in one place (free, attached to or reserved for one block); an acquired block keeps its internal block until its last release; the next acquire succeeds iff the block is acquired or fewer internal blocks than the limit are acquired, and else fails the assertion about memory.", "quantifier": "every history, prediction sequence and schedule of the I/O threads", "why_tests_cant": "Same as for transparency.", "anchors": ["foxxll/mng/block_scheduler.hpp:schedule_next_operations", "foxxll/mng/block_scheduler.hpp:acquire", "foxxll/mng/block_scheduler.hpp:release"]}
{"id": "C85", "title": "Prefetching looks ahead as far as possible", "statement": "At any time a prefix of the predicted operations is scheduled: all of them, or the next one is an acquire that needs an internal block, the limit is reached, none is free and every unacquired one is needed by a scheduled operation. Every block acquired in the prefix has an internal block; a block with a value whose next scheduled operation is an acquire is internal already and holds its value or is being read, so an acquire never starts a read. What is evicted is the unneeded block of least number, not the least recently used one.", "quantifier": "every history, prediction sequence and schedule of the I/O threads", "why_tests_cant": "A maximality claim about internal states at every point of every run.", "anchors": ["foxxll/mng/block_scheduler.hpp:schedule_next_operations", "foxxll/mng/block_scheduler.hpp:shall_keep_internal_block", "foxxll/mng/block_scheduler.hpp:shall_be_read"]}
{"id": "C86", "title": "External blocks of the block scheduler", "statement": "After any run of a client that follows the protocol, the external blocks in use are exactly those the client owns and those of swappable blocks, each of one owner; a block that holds no value and is not acquired has none, so their number is at most the client's plus the number of blocks that hold a value or are acquired. Only deinitialize and free_swappable_block of the block it belongs to, or the client, free an external block, and these two always do. The same holds with the prefetching algorithm.", "quantifier": "every block manager returning unused blocks, memory limit, sequence of operations and algorithm (for prefetching: prediction and schedule of the I/O threads)", "why_tests_cant": "A leak shows only after long runs that mix eviction, extraction, initialisation and switching of algorithms.", "anchors": ["foxxll/mng/block_scheduler.hpp:get_external_block", "foxxll/mng/block_scheduler.hpp:free_external_block", "foxxll/mng/block_scheduler.hpp:deinitialize", "foxxll/mng/block_scheduler.hpp:extract_external_block"]}
{"id": "C87", "title": "Destroying the block scheduler", "statement": "Destroying the scheduler after any run of a client that follows the protocol, with any algorithm and with prefetching requests in flight, fails no assertion, frees all its external blocks except those of blocks still acquired, keeps the client's external blocks and their contents, and reports as many lost internal blocks as blocks are acquired. An algorithm object that is constructed for the scheduler and destroyed without being switched to deinitialises exactly the evictable blocks.", "quantifier": "every run, algorithm and schedule of the I/O threads", "why_tests_cant": "All states in which a destructor may run, including writes and reads in flight.", "anchors": ["foxxll/mng/block_scheduler.hpp:~block_scheduler", "foxxll/mng/block_scheduler.hpp:~block_scheduler_algorithm_online_lru", "foxxll/mng/block_scheduler.hpp:~block_scheduler_algorithm_offline_lru_prefetching"]}
{"id": "C88", "title": "Buffered writer with failing writes", "statement": "If flush or the destructor of the buffered writer returns, no write has failed and everything passed to write is on disk. After a failed write flush never returns again and the destructor ends the program. A call throws only after a write failed. The content of every block passed to write is on disk or in a buffer that is neither free nor the caller's; buffers handed out are idle. Every call ends: it returns, throws or ends the program. If the oldest busy write failed, every later call that needs a buffer throws. Throwing from wait_any leaks the array of requests, and nothing else leaks.", "quantifier": "every number of buffers and batch size, caller that keeps no buffer over a flush, schedule and choice of failing writes", "why_tests_cant": "Faults at every point of every interleaving of the caller with the I/O threads.", "anchors": ["foxxll/mng/buf_writer.hpp:get_free_block", "foxxll/mng/buf_writer.hpp:write", "foxxll/mng/buf_writer.hpp:flush", "foxxll/mng/buf_writer.hpp:~buffered_writer"]}
{"id": "C89", "title": "Prefetcher with failing reads", "statement": "When reads fail the prefetcher still hands out all blocks in order: a block that was read has its content on disk, one whose read failed is handed out without an exception and with unknown content. Giving back the buffer of such a block throws every time, leaves the buffer with the caller and keeps it out of use; nothing else throws. block_consumed returns false only after all blocks were handed out. Buffers in the caller's hands are not changed. Every call ends under the condition of C39. After a failed read the destructor never returns but ends the program, and the program is ended only then. Without failures the behaviour is that of C39.", "quantifier": "every sequence of blocks, permutation as prefetch order, number of buffers, caller, schedule and choice of failing reads", "why_tests_cant": "Faults at every point of every interleaving of the caller with the I/O threads.", "anchors": ["foxxll/mng/block_prefetcher.hpp:pull_block", "foxxll/mng/block_prefetcher.hpp:block_consumed", "foxxll/mng/block_prefetcher.hpp:~block_prefetcher", "foxxll/mng/block_prefetcher.hpp:set_switch_handler"]}
{"id": "C90", "title": "LFD reads as few blocks as possible", "statement": "Let a program use one block at a time, and let the block scheduler run it with the longest-forward-distance algorithm and the prediction a simulation of it records. Then acquire reads no more blocks than any strategy of serving the same sequence of blocks with the same memory, starting with the same blocks in it, has to load, also if it knows the future and loads ahead; in particular no more than the online LRU algorithm. Reads and writes together need not be minimal.", "quantifier": "every program of that kind with fewer than 2^62-1 accesses to blocks that hold values, memory limit, earlier run that left no block acquired, and competing strategy", "why_tests_cant": "Optimality is a claim about all competing strategies and all request sequences; the eviction order is spread over priorities computed at different times and wrapped integer arithmetic.", "anchors": ["foxxll/mng/block_scheduler.hpp:block_scheduler_algorithm_offline_lfd", "foxxll/mng/block_scheduler.hpp:block_scheduler_algorithm_simulation"]}
{"id": "C91", "title": "Prefetch schedule after a run on one disk", "statement": "If the last m+1 blocks of the sequence are on one disk, compute_prefetch_schedule with m buffers returns the blocks in their own order whatever the rest of the sequence is, and its simulation writes one block per time step: it loses a buffer whenever the next block belongs to a disk with a non-empty queue, and buffers once lost are never regained. Hence the schedule is not optimal: with blocks spread evenly over D+1 disks before the run and D+1 buffers reading is possible in n+D+2 steps, while the simulation takes n(D+1)+D+2; and for some sequence every order it may return makes a reader need more steps than another order.", "quantifier": "every sequence of disks with such an end, number of buffers m >= 1, order in which events of equal time are taken", "why_tests_cant": "The tests only check that the schedule is a permutation that can be read; optimality is not observable from a single run.", "anchors": ["foxxll/mng/async_schedule.cpp:simulate_async_write", "foxxll/mng/async_schedule.cpp:compute_prefetch_schedule"]}
{"id": "C92", "title": "Block store keeps the data of live blocks", "statement": "Whatever blocks a client allocates and deletes, on disks of any of the types memory, syscall and fileperblock that grow or not, in whatever order the request threads serve the pending requests and whichever transfers fail: a read that succeeds delivers exactly the bytes last written to its block, provided no write or deletion of a block is issued while a request for it is pending. No access leaves a file, and requests fail only if the system does. Without that rule a pending write destroys another block's data. Files of fileperblock disks with different prefixes in one directory, and their lock files, never coincide.", "quantifier": "every configuration, allocation strategy, history of allocations, deletions, reads and writes, serving order, and choice of failing and short transfers", "why_tests_cant": "Composition over all interleavings of allocation, growth, discarding and pending requests; tests follow a few orders.", "anchors": ["foxxll/mng/block_manager.hpp:new_blocks", "foxxll/mng/block_manager.hpp:delete_block", "foxxll/mng/disk_block_allocator.hpp:grow_file", "foxxll/io/memory_file.cpp:discard", "foxxll/io/fileperblock_file.cpp:serve"]}
{"id": "C93", "title": "Destroying the kernel AIO queue", "statement": "If io_submit takes all it is given, the destructor always returns, whatever the threads are doing when it is called. Afterwards every added request has been handled, or was never given to the kernel, or is in the kernel, and nothing more is ever handled. Requests are left waiting only if the posting thread had read the count 0 before the destructor signalled and had not yet gone on, and left in the kernel only if the waiting thread had; both happen, so not every accepted request is served.", "quantifier": "every number of events, history of the queue before the destruction and interleaving of destructor, both threads and kernel", "why_tests_cant": "The loss needs a preemption between two statements of stop_thread or of a loop; the tests destroy queues only when they are idle.", "anchors": ["foxxll/io/linuxaio_queue.cpp:~linuxaio_queue", "foxxll/io/linuxaio_queue.cpp:post_requests", "foxxll/io/linuxaio_queue.cpp:wait_requests", "foxxll/io/request_queue_impl_worker.cpp:stop_thread"]}
{"id": "C94", "title": "Allocation when a disk file refuses to grow", "statement": "If enlarging a file of the block manager fails, at whatever point, no assertion fails, blocks held by clients never overlap, lie inside of their file in space that is not free, and can be deleted. A call in which no growth fails does what C11 to C15 say; a call in which one fails throws. But blocks already found for the batch on that disk are then lost: their offsets are only in a vector destroyed by the exception, they are neither free nor held for ever, and the allocation counter does not include them. This happens only on one disk per call, also on disks of fixed size, and only if that disk has enough free bytes for the batch; never if all blocks have one size that divides the configured sizes.", "quantifier": "every configuration of disks, history of allocations and deletions, allocation strategy and choice of failing growths", "why_tests_cant": "Fault at every growth of every history; the loss is invisible in the counters the tests read.", "anchors": ["foxxll/mng/disk_block_allocator.hpp:grow_file", "foxxll/mng/disk_block_allocator.hpp:new_blocks", "foxxll/mng/block_manager.hpp:new_blocks"]}
{"id": "C95", "title": "Lifetime of request and file objects", "statement": "Requests are shared by counting pointers of clients, queue, worker threads, completion handlers and, for asynchronous I/O of the kernel, a bare count held by each control block. In every execution a deleted request is never touched again, it is deleted at most once, and with worker queues it is deleted exactly when the last pointer goes away, so nothing is left over when nobody has a pointer. A request that is deleted is finished, except one refused by add_request. The request count of a file is the number of requests made on it less those that let go of it; after wait() or a successful cancel() a request has let go of its file, so a file destroyed after waiting for all its requests is never touched again and its destructor sees count 0, and whenever the destructor sees another count, some request touches the dead file before it is finished. The warning of check_nref appears exactly if the worker has the only pointer. poll() returning true is not enough to destroy the file; the AIO queue never deletes a request whose last reference it gives up itself; a refused request is deleted unfinished and the file keeps counting it; cancel() may use a null file.", "quantifier": "all executions of any number of clients, worker or AIO threads, requests and files, all ways of copying and dropping pointers, handlers that keep a pointer, stopping the queue at any time", "why_tests_cant": "which pointer is the last one depends on the interleaving of client, worker and handler at every step of the completion; an object used after deletion mostly still looks intact in a test", "anchors": ["foxxll/io/request.cpp:22-101", "foxxll/io/request_with_state.cpp:26-90", "foxxll/io/serving_request.cpp:40-63", "foxxll/io/disk_queued_file.cpp:23-51", "foxxll/io/request_queue_impl_1q.cpp:62-147", "foxxll/io/linuxaio_request.cpp:26-106", "foxxll/io/linuxaio_queue.cpp:144-263", "foxxll/io/file.hpp:176-238"]}
{"id": "C96", "title": "Managed blocks are aligned for direct I/O", "statement": "If every size ever asked of the block manager is a multiple of b, then every block it hands out lies at an offset that is a multiple of b: for disks of any configured size, growing or not, and also after calls that threw. Blocks of typed_block arrays made by operator new are aligned to 4096 exactly as far as the block size allows, and lie inside the memory that was allocated. Hence a read or write of such a block never gets a complaint of check_alignment if the block size is a multiple of 4096, and always one otherwise. One block of another size is enough to lose this. With one block size, a disk without autogrow keeps its size even if that is not a multiple, holds at most the whole part of size / b blocks, and refuses a batch exactly if it exceeds that.", "quantifier": "all block sizes, numbers and sizes of disks, allocation strategies, histories of allocations and deletions including failing ones, array lengths, cookies and malloc results", "why_tests_cant": "alignment is a matter of every free region that can ever arise from splitting, merging and growing; with page-sized test disks a wrong rule goes unnoticed, and file systems without direct I/O accept everything", "anchors": ["foxxll/mng/disk_block_allocator.hpp:new_blocks", "foxxll/mng/block_manager.hpp:new_blocks", "foxxll/mng/typed_block.hpp:read", "foxxll/mng/typed_block.hpp:operator new[]", "foxxll/io/request.cpp:check_alignment", "foxxll/io/serving_request.cpp:serving_request", "foxxll/common/aligned_alloc.hpp:aligned_alloc"]}
{"id": "C97", "title": "64-bit arithmetic of the block allocator", "statement": "With all sums and differences taken modulo 2^64, as the code does, allocator and manager behave exactly as with integers (same offsets, counters, errors and file sizes) as long as the configured size of each disk plus the bytes ever requested is below 2^64; for one disk it suffices that each request and the disk stay below 2^64. A batch makes a disk grow by at most its own size. Beyond that bound: only the remainder of a request modulo 2^64 is looked for and taken, so a request of 2^64 bytes succeeds on a small disk; a disk that grows to 2^64 bytes is cut to size 0 and hands out its blocks a second time; and the check for double deallocation can be passed by a size that wraps.", "quantifier": "all numbers and sizes of disks, autogrow or not, allocation strategies, histories of allocations and deletions, including failing ones", "why_tests_cant": "no test disk can be anywhere near 2^64 bytes, and the bytes requested over a long run cannot be summed up in a test", "anchors": ["foxxll/mng/disk_block_allocator.hpp:new_blocks", "foxxll/mng/disk_block_allocator.hpp:grow_file", "foxxll/mng/disk_block_allocator.cpp:add_free_region", "foxxll/mng/block_manager.hpp:new_blocks_int", "foxxll/mng/block_manager.cpp:total_bytes"]}
{"id": "C98", "title": "Windows file classes", "statement": "wfs_file_base and wincall_file, for any number of objects and other programs: a file opened by an object is opened by nobody else, in no process and whether locked or not, so that what others do never changes it; a read that returns gives the bytes that this object wrote last, or those of the file, and never reaches beyond the end; transfers of 2^32 bytes or more always throw. The constructor succeeds exactly if nobody has the file open, the file is not read-only or not to be written, with TRUNC it exists and is to be written, and unbuffered access is available if required; CREAT means nothing. size() is the size of the file; closing frees it, and close_remove removes it unless read-only. Defects: set_size of a writable DIRECT file reads an uninitialised member (a local variable hides it); where it does not, it gives up the handle meanwhile, so that undisturbed the size is set and the bytes kept, but the lock is lost although locked_ stays true, and the object loses its file if another program opens it; need_alignment stays set after the fallback to buffered access; built without direct I/O, REQUIRE_DIRECT with NO_LOCK yields an object without a file.", "quantifier": "all modes, files, numbers of objects and foreign programs, interleavings, answers of the operating system, offsets, sizes and contents", "why_tests_cant": "the project is tested on Linux; exclusion and the window inside set_size depend on what other processes do at that moment", "anchors": ["foxxll/io/wfs_file_base.cpp:open_file_impl", "foxxll/io/wfs_file_base.cpp:wfs_file_base", "foxxll/io/wfs_file_base.cpp:set_size", "foxxll/io/wfs_file_base.cpp:lock", "foxxll/io/wfs_file_base.cpp:close_remove", "foxxll/io/wincall_file.cpp:serve"]}
{"id": "C99", "title": "File benchmark", "statement": "foxxll_tool benchmark_files: in whatever order its requests are served and wherever a request fails, the bytes counted as written hold the pattern and nothing beyond the round that failed is changed; a run without failures covers exactly the whole rounds, and such runs exist. With block sizes that fit sectors of 512 bytes, writing and verifying in one run succeeds exactly as long as no sector number and (by default) no buffer index exceeds 32 bits; verifying alone succeeds exactly if the files hold the pattern as far as they were read, changes nothing and finds every wrong word; what was written with a pattern of its own is accepted with any other block size, batch size and range. Defects: from 2 TiB on, with buffers above 16 GiB, and with block sizes such as 768 the verification always fails; with the default pattern other block sizes fail; a run that could not read returns success; a length below one round does nothing and says all okay; read requests that leave the buffer alone are not noticed.", "quantifier": "all offsets, lengths, block and batch sizes, numbers of files, patterns, file contents, orders of service and failures", "why_tests_cant": "tests run a few sizes on working disks; the 32-bit limits need terabytes, and failing reads are not simulated", "anchors": ["tools/benchmark_files.cpp:benchmark_files"]}
{"id": "C100", "title": "Coverage of the other tools", "statement": "create_files ends and writes every byte of every file exactly once, except the last byte of an odd length, always from the part of the buffer that belongs to the file; for lengths that are multiples of 8 KiB all requests are aligned for direct I/O. benchmark_disks ends, allocates the blocks up to the end of the range, writes and reads each block from the first whole batch on exactly once, no batch exceeds its arrays, and it counts exactly the requested size if and only if the start is a multiple of the batch. benchmark_disks_random uses exactly the first blocks of the shuffled vector, each once, within its arrays; it refuses exactly block sizes above 128 MiB, and divides by zero for block size zero or an empty span without batch size.", "quantifier": "all lengths, numbers of disks, starts, sizes, block sizes, batch sizes and shuffles", "why_tests_cant": "the tools are not tested at all; boundaries need odd or very large sizes", "anchors": ["tools/create_files.cpp:create_files", "tools/benchmark_disks.cpp:benchmark_disks_alloc", "tools/benchmark_disks_random.cpp:run_test"]}
{"id": "C101", "title": "Streams of records when transfers fail", "statement": "If the destructor of an output stream returns, no write failed, no operator threw, its blocks contain exactly the records put, in order, and no other block was changed. An operator throws only after a failed write. After a failed write the destructor never returns, but it does not run for ever: the program is ended. Whatever fails, each complete block of records is on disk or in a buffer of the writer. operator<< always returns or throws. An input stream delivers the right records in order, then, only if the read of the next block failed, unknown ones with an exception per block; it never gets past that block; it ends only if everything was read; records from blocks that were read are never wrong; after a failed read its destructor does not return; operator>> returns or throws. A closed output stream read to its end gives the records, in order or reversed.", "quantifier": "all record types, block sizes, numbers of buffers, schedules, interleavings with the I/O layer and all patterns of failing transfers", "why_tests_cant": "failures of single transfers at chosen moments cannot be produced by the tests", "anchors": ["foxxll/mng/buf_ostream.hpp:buf_ostream", "foxxll/mng/buf_istream.hpp:buf_istream", "foxxll/mng/buf_istream_reverse.hpp:buf_istream_reverse"]}
{"id": "C102", "title": "No deadlock between the mutexes of the library", "statement": "However many threads call the library (block manager, allocator, queues, files, requests, waiters, statistics, timers, singletons), including from completion handlers and including exceptions, and including the end of the process under the default exit handlers, no set of threads ever waits for mutexes held within the set. At most one thread holds a mutex. A completion handler starts, and continues between its own calls of the library, without any mutex of the library. Without cancel, exit and fileperblock disks, a thread waiting for a mutex always finds a thread that holds a mutex and can go on: no wait for an event is behind a wait for a mutex. With cancel of posted linuxaio requests there is no deadlock if handlers do not call the library.", "quantifier": "all numbers of threads, objects, interleavings, branches, loops, exceptions and handlers", "why_tests_cant": "a deadlock needs a particular interleaving of several threads, and absence of one cannot be tested", "anchors": ["foxxll/io/disk_queues.cpp:disk_queues", "foxxll/io/request_queue_impl_qwqr.cpp:request_queue_impl_qwqr", "foxxll/io/linuxaio_queue.cpp:linuxaio_queue", "foxxll/mng/block_manager.hpp:block_manager", "foxxll/singleton.hpp:singleton", "foxxll/io/request_with_waiters.cpp:request_with_waiters"]}
{"id": "C103", "title": "How long a queued request can wait", "statement": "While its queue is running, a request that goes first (any request of a single queue, a write in the read/write queues as configured) is completed or cancelled after a number of steps of the worker that depends only on how many requests were before it in its queue, however many other requests arrive and whatever the other threads do; while it waits the worker takes at most that many requests. Any other request is completed or cancelled after a number of steps that depends only on its place and on how many requests the worker takes meanwhile. With the configured priority a read can wait for ever: for every number there is an execution in which the worker serves that many writes and none of the reads.", "quantifier": "all kinds of request queue, numbers of clients, states and interleavings", "why_tests_cant": "a bound on waiting holds over all schedules and arrivals; starvation needs an unbounded one", "anchors": ["foxxll/io/request_queue_impl_qwqr.cpp:request_queue_impl_qwqr", "foxxll/io/request_queue_impl_qwqr.hpp:request_queue_impl_qwqr", "foxxll/io/request_queue_impl_1q.cpp:request_queue_impl_1q"]}
{"id": "C104", "title": "Which members are free of data races", "statement": "However many threads call the library and however they interleave, with exceptions, completion handlers that call the library, worker threads and exit handlers, two threads are never about to access the same member at once, one of them to write it, for: the states of requests and threads, switches, semaphores, waiter sets, the request queues, the table of queues, the block manager's counters, the free lists of its allocators, file descriptors and their positions, the bytes of a memory file, the list of file statistics, accumulated times and the exit handlers. The counters of the statistics have no data race as long as nobody reads them, and a block allocator used on its own none as long as nobody asks for its sizes. Writes of a singleton's pointer, of the statistics and of the size of a memory file never meet each other. Once a request is seen not to be in operation, its error is never written again. The pointer of a singleton against get_instance, error_ against poll, file_ against cancel, the control block of a linuxaio request against cancel, size() of memory and fileperblock files, snapshots of the statistics, timers, and device numbers do have data races.", "quantifier": "all numbers of threads, calls, objects, interleavings and exceptions", "why_tests_cant": "a data race is a property of all interleavings and shows in a test only by chance", "anchors": ["foxxll/common/shared_state.hpp:shared_state", "foxxll/singleton.hpp:singleton", "foxxll/io/request_with_state.cpp:request_with_state", "foxxll/io/iostats.cpp:stats", "foxxll/mng/block_manager.hpp:block_manager", "foxxll/mng/disk_block_allocator.hpp:disk_block_allocator", "foxxll/io/linuxaio_queue.cpp:linuxaio_queue", "foxxll/io/disk_queues.cpp:disk_queues"]}
{"id": "C105", "title": "Starting the block manager, failures and retries", "statement": "The first get_instance of the block manager succeeds exactly if none of its disks is bad, where a disk is bad if its implementation is unknown, its file cannot be opened, locked, unlinked or sized, it is marked as a device and is none, or its queue cannot be made. Then there are one file and one allocator per disk in the order of the configuration, with the settings of the configuration except for the automatic queue and device numbers and for what a device prescribes; the file of a disk that shares no name has the configured size whatever it had before. Otherwise it fails at the first bad disk, there is no block manager so that the next call tries again, the allocators of the disks before it are lost, and a descriptor if its file was opened but not locked. However often it failed, the next attempt succeeds exactly if it would have done so at once, and gives the same configuration, the same block manager and the same files. A failed start has changed files already, and two disks may share a path.", "quantifier": "all configurations, files, devices and outcomes of the system calls", "why_tests_cant": "which call fails at which disk, and how often, are unbounded combinations; tests do not make the start fail", "anchors": ["foxxll/mng/block_manager.cpp:block_manager", "foxxll/io/create_file.cpp:create_file", "foxxll/mng/disk_block_allocator.hpp:disk_block_allocator", "foxxll/singleton.hpp:create_instance"]}
{"id": "C106", "title": "Which files a program leaves behind", "statement": "Whatever disks a program configures, however often and where the start of the block manager fails, however much the disks grow and whatever blocks are written: after the end of the program the paths of the disks with delete_on_exit do not exist; the file of another disk that was opened, has a size and shares its name with no other has the configured size; a file unlinked on open does not exist; no lock file of a fileperblock disk exists; every other name, including the nodes of devices opened with syscall and linuxaio, is as it was. But fileperblock disks leave the files of their blocks, delete_on_exit removes files that were never opened (disks in memory, programs that never start the block manager) and nodes of devices that mmap uses or whose turn did not come, and a disk without a size leaves the old file.", "quantifier": "all programs, configurations, files, devices and outcomes of the system calls", "why_tests_cant": "needs the state of the file system after the process has ended, for every history including failed starts", "anchors": ["foxxll/mng/config.cpp:~config", "foxxll/mng/block_manager.cpp:~block_manager", "foxxll/mng/disk_block_allocator.hpp:~disk_block_allocator", "foxxll/io/fileperblock_file.cpp:~fileperblock_file", "foxxll/io/create_file.cpp:create_file"]}
{"id": "C107", "title": "Many streams on one block store", "statement": "Let any number of output streams, input streams and other clients use one block store at the same time, in any interleaving, with any transfers failing; the output streams use different blocks and nobody else writes to or deletes these. Then they never violate the rules of the store (no request for a block with a pending write, no write to a block with a pending request), so every pending request can be served without undefined behaviour and succeeds when the system works. When an output stream has been closed (its destructor has returned), the store has its blocks: they contain the records put into it, in order, whatever else happened before and afterwards. An input stream that reads these blocks afterwards, forwards or backwards, delivers exactly these records (reversed if backwards) before it ends, and whatever it delivers of known content is the record at its place, even if reads fail. Before the stream is closed, its blocks need not be in the store.", "quantifier": "all numbers of streams, buffers, records and blocks, all interleavings, all histories of the store before, all outcomes of transfers", "why_tests_cant": "the interleavings of several streams with transfers, failures and other clients are unbounded; a test sees a few of them", "anchors": ["foxxll/mng/buf_ostream.hpp:buf_ostream", "foxxll/mng/buf_istream.hpp:buf_istream", "foxxll/mng/buf_istream_reverse.hpp:buf_istream_reverse", "foxxll/mng/buf_writer.hpp:buffered_writer", "foxxll/mng/block_prefetcher.hpp:block_prefetcher", "foxxll/mng/block_manager.hpp:block_manager"]}
{"id": "C108", "title": "Exporting a block of a fileperblock file", "statement": "export_files touches only the file of the block and the target, which is the given name in the directory of the block's file. When the system refuses nothing, the target has the first length bytes of the block afterwards (zeros beyond its end), in particular of what was last written to the block, the block has no file any more and reads as zeros, and all other blocks are as before. Whenever it returns, the target has exactly length bytes; they are those of the block, or both removing the old target and renaming were impossible. When it throws, the data of the block are still complete in one of the two files, provided that the two differ.", "quantifier": "all prefixes, names, offsets, lengths and contents, all directories, all refusals of system calls, all histories of the file before", "why_tests_cant": "which of the three system calls is refused, and with which files, decides what is left; tests do not make rename or remove fail", "anchors": ["foxxll/io/fileperblock_file.cpp:fileperblock_file::export_files", "foxxll/common/types.hpp:as_signed"]}
{"id": "C109", "title": "Memory of blocks", "statement": "Let a program take memory with typed_block's operators new and new[] and with new_alloc, write into it and delete it, in any order, with malloc failing at any time and realloc keeping, moving or refusing, where each request and the alignment together stay below 2^64 bytes. Then nothing is ever written outside of buffers from malloc and nothing else is freed; every piece of memory the program has lies in a buffer; the first block in it is aligned, and all blocks of an array are if raw_size is a multiple of the alignment; pieces (with the pointer in front of them) do not overlap, and no operation changes the contents of a piece other than writing to it; delete frees exactly the buffer of the piece; as long as realloc does not return the null pointer there are as many buffers as pieces, so none is left when everything was deleted, even if calls have thrown. max_size is the largest number of blocks whose size is below 2^64.", "quantifier": "all alignments, block sizes and requests, all sequences of operations, all addresses malloc may choose, all failures", "why_tests_cant": "addresses and failures of malloc and realloc cannot be chosen in a test, and corruption by a wrong pointer usually stays unnoticed", "anchors": ["foxxll/common/aligned_alloc.hpp:aligned_alloc", "foxxll/common/aligned_alloc.hpp:aligned_dealloc", "foxxll/mng/typed_block.hpp:typed_block::operator new", "foxxll/mng/typed_block.hpp:typed_block::operator delete", "foxxll/common/new_alloc.hpp:new_alloc"]}
{"id": "C110", "title": "The block scheduler on the block store", "statement": "Let a block scheduler work on a block store that other clients use at the same time, without touching the scheduler's blocks, where the scheduler's own allocations and transfers succeed and its client follows the protocol. Each operation asks the store to allocate, delete, write and read blocks; requests are served in any order, interleaved with those of others, until the operation returns, and data come only from the store. Then the scheduler keeps to the store's rules (no write or delete while a request for the block is pending, no read while a write is); all results are those of a scheduler with a disk of its own, so the client sees what it wrote; between operations nothing is pending for the scheduler's blocks and the client's external blocks have their contents in the store; after flush each value of a block that is not acquired is in the store, in a block of its own; blocks of others, their contents and requests are left alone; and every operation, unless it waits for an allocation, comes nearer to its end with each of some next steps, can return, or is an acquire for which there is no memory.", "quantifier": "all sequences of operations of the scheduler's client, all algorithms, all actions of other clients, all orders of serving, all stores of the kind of C92", "why_tests_cant": "the order of requests and the actions of other clients cannot be enumerated, and a test reads only some blocks at some times", "anchors": ["foxxll/mng/block_scheduler.hpp:block_scheduler", "foxxll/mng/block_scheduler.hpp:swappable_block::clean_async", "foxxll/mng/block_scheduler.hpp:swappable_block::read_async", "foxxll/mng/block_manager.hpp:block_manager", "foxxll/mng/bid.hpp:BID"]}
{"id": "C111", "title": "The pools on the request queues", "statement": "Let a read_write_pool work with files whose requests go to queues with one worker each, of either class and with any priority, one queue for any number of files, while other clients post and cancel requests for other blocks in the same queues. Then the queues serve writes to one block in the order of their posting (which the pools rely on), every read returns what was last written to its block, a block with no outstanding write has its last content on disk, no buffer is lost, doubled or handed out during a transfer. The workers can at any time finish everything, after which all blocks have their last contents on disk; and each operation (read, write, hint, invalidate, taking a block from a pool that is not empty) can return, a read with the last content written.", "quantifier": "all sequences of operations of a client that waits for its reads, all classes and numbers of queues, all interleavings with the workers and with other clients", "why_tests_cant": "which request a worker has taken when the next one is posted depends on timing", "anchors": ["foxxll/mng/write_pool.hpp:write_pool::write", "foxxll/mng/prefetch_pool.hpp:prefetch_pool::read", "foxxll/mng/read_write_pool.hpp:read_write_pool", "foxxll/io/request_queue_impl_qwqr.cpp:request_queue_impl_qwqr::worker", "foxxll/io/request_queue_impl_1q.cpp:request_queue_impl_1q::worker"]}
{"id": "C112", "title": "What scoped timers measure", "statement": "Let threads construct, start, stop, and destroy scoped_read_write_timer, scoped_write_timer, scoped_read_timer and scoped_wait_timer objects in any order and nesting, without copying them, and destroy all of them. Then the statistics have recorded exactly the periods from a start to the next stop or destructor, each once with the size given to the start that began it, whatever the interleaving: afterwards no operation counts as active, and the times, counts and bytes of each file and the waiting time are the sums over these periods. Starting a running timer and stopping one that does not run do nothing. A scoped_print_timer reports the rate rounded down, and is undefined only if the time is zero or the rate does not fit 64 bits.", "quantifier": "all sequences of calls of all threads, all interleavings of their critical sections, all sizes and times", "why_tests_cant": "the number of nestings and interleavings of starts and stops in several threads is unbounded", "anchors": ["foxxll/io/iostats.hpp:file_stats::scoped_read_write_timer", "foxxll/io/iostats.hpp:file_stats::scoped_write_timer", "foxxll/io/iostats.hpp:file_stats::scoped_read_timer", "foxxll/io/iostats.hpp:stats::scoped_wait_timer", "foxxll/common/timer.hpp:scoped_print_timer"]}
{"id": "C113", "title": "Choosing a subtool, and library versions", "statement": "foxxll_tool runs a subtool exactly if its first argument is that subtool's name; the subtool gets the remaining arguments unchanged after the name 'program subtool', cut off after 255 bytes, and its result is the result of the program. Otherwise the names of all subtools are listed, each once. check_library_version() is 0 exactly if the versions of headers and library are equal and otherwise the number of the first component that differs; the integer version number orders versions as long as minor and patch are below 100.", "quantifier": "all argument lists, all subtools' results, all versions", "why_tests_cant": "arguments are unbounded strings", "anchors": ["tools/foxxll_tool.cpp:main", "tools/foxxll_tool.cpp:main_usage", "foxxll/version.hpp:check_library_version", "foxxll/common/version.cpp:version_integer"]}
{"id": "C114", "title": "Reports about free space, array helpers", "statement": "The dump of a disk block allocator lists exactly the free regions, coalesced and in order, and its total is the number of free bytes. A deletion that is refused names a free region that the block really meets, in the message that applies (the block begins in it, or it begins in the block). swap_1D_arrays exchanges two arrays that do not overlap and nothing else; the pop helpers return the end they name and leave the rest.", "quantifier": "all histories of allocations and deletions on disks below 2^64 bytes, all deletions, all arrays and containers", "why_tests_cant": "the messages are only printed when a program is already wrong", "anchors": ["foxxll/mng/disk_block_allocator.cpp:disk_block_allocator::dump", "foxxll/mng/disk_block_allocator.cpp:disk_block_allocator::add_free_region", "foxxll/common/utils.hpp:swap_1D_arrays", "foxxll/common/utils.hpp:pop_front"]}
{"id": "C115", "title": "Asynchronous transfers look sequential to clients that wait", "statement": "Let any number of clients post reads and writes, be they served in any order, in parallel, byte by byte and with repetitions, fail or be cancelled. If no client posts a request that conflicts with one under way, changes a buffer in use, or looks into a buffer being read into, then everything the clients see is as if each request were executed as a whole at the moment of its completion (a failed request changes at most its own target, a cancelled one nothing). If each client keeps to memory and blocks of its own, in particular to different blocks of one block manager, then it suffices that each waits for its own requests, and each client sees what it would see alone.", "quantifier": "all clients, requests, orders and interleavings of transfers, for all queue and file classes", "why_tests_cant": "the order in which bytes are transferred depends on the kernel and on timing", "anchors": ["foxxll/io/disk_queued_file.cpp:disk_queued_file::aread", "foxxll/io/disk_queued_file.cpp:disk_queued_file::awrite", "foxxll/io/linuxaio_file.cpp:linuxaio_file::aread", "foxxll/io/serving_request.cpp:serving_request::serve", "foxxll/io/request_with_state.cpp:request_with_state::wait", "foxxll/mng/block_manager.hpp:block_manager::new_blocks"]}
{"id": "C116", "title": "Clients that wait see a sequential machine on top of the queues", "statement": "The request queues of any number of disks, each with its worker thread and of any class, transfer the bytes of the requests while any number of client threads post, wait, cancel and use their memory. If every client keeps to memory and file ranges of its own, and before it posts a request or touches memory has been told the end (by wait_all, wait_any or cancel_all) of each of its requests that this would disturb, then each client sees what a sequential machine shows that executes each request as a whole. A client that was told the end of a request can rely on it: it was transferred, failed, or was cancelled, and it did not fail if the wait returned normally. Without waiting the order of posting does not count: a read posted after a write of the same block may return the old bytes.", "quantifier": "all numbers of disks and clients, all queue classes, all schedules of threads and of copied bytes", "why_tests_cant": "needs particular interleavings of clients, worker threads and transfers", "anchors": ["foxxll/io/disk_queued_file.cpp:disk_queued_file::awrite", "foxxll/io/serving_request.cpp:serving_request::serve", "foxxll/io/request_queue_impl_qwqr.cpp:request_queue_impl_qwqr::worker", "foxxll/io/request_queue_impl_1q.cpp:request_queue_impl_1q::worker", "foxxll/io/request_operations.hpp:wait_all"]}
{"id": "C117", "title": "Clients that wait see a sequential machine on top of Linux AIO", "statement": "The kernel AIO queue, with its posting and its waiting thread, hands the requests of any number of clients to the kernel, which copies their bytes in any order and ends them in any order. If every client keeps to memory and file ranges of its own, and before it posts a request or touches memory has been told the end of each of its requests that this would disturb, then each client sees what a sequential machine shows that executes each request as a whole. A client is told the end of a request only after the kernel has ended it or it was removed from the list before the kernel saw it; if the kernel never fails, then all its bytes were copied, or it was removed. If the kernel fails or transfers too little, the client is told the end all the same, without an error: the result of the event is never looked at. If the kernel accepts whole batches, then at any time all posted requests can come to an end without a further call.", "quantifier": "all queue lengths, numbers of requests and clients, all schedules of the threads, the kernel and the copied bytes, with partial submissions and failing transfers", "why_tests_cant": "needs particular interleavings of threads and kernel, and a kernel that fails", "anchors": ["foxxll/io/linuxaio_file.cpp:linuxaio_file::aread", "foxxll/io/linuxaio_queue.cpp:linuxaio_queue::handle_events", "foxxll/io/linuxaio_queue.cpp:linuxaio_queue::post_requests", "foxxll/io/linuxaio_queue.cpp:linuxaio_queue::wait_requests", "foxxll/io/linuxaio_request.cpp:linuxaio_request::fill_control_block"]}
{"id": "C118", "title": "Statistics read while operations run", "statement": "A snapshot of the statistics may be taken while other threads are inside of transfers and waits, its values being read one after the other. Each counter read is the number of operations (or bytes) begun until that moment less those given up; each time read is exactly what a clock would show at the last start or end of an operation of its kind before that moment, provided threads enter the critical sections in the order of their time stamps; the time since then is missing. The difference of two readings of a parallel time is the time during which an operation was active between the two last events before them. Undisturbed, the values form the snapshot of C61 to C64. Hence a difference can show more parallel time than elapsed between its snapshots, a snapshot can show bytes without operations, and more time of reading than of all I/O. scoped_print_iostats reports the difference to its construction at each call, and in its destructor iff final_report was never called; a report with a number of bytes is undefined iff no time has elapsed or the speed exceeds 64 bits.", "quantifier": "all operations, interleavings of critical sections and readings, all moments of the snapshots, all sequences of calls of the reporter", "why_tests_cant": "needs snapshots at particular moments inside of concurrent operations", "anchors": ["foxxll/io/iostats.hpp:stats_data::stats_data", "foxxll/io/iostats.cpp:stats::deepcopy_file_stats_data_list", "foxxll/io/iostats.cpp:scoped_print_iostats::report", "foxxll/io/iostats.hpp:scoped_print_iostats"]}
{"id": "C119", "title": "Block store on top of the request queues", "statement": "Threads allocate, delete, write and read blocks of the block manager; the requests go through the queues of the disks (several disks may share one), whose worker threads serve them in the order of C20 to C26, while clients wait for and cancel them; no one writes or deletes a block before being told (by wait_all, wait_any or cancel_all) that all requests for it are over, or reads it before that of its writes. Then the manager and the files behave as in C92 with the requests served one by one and without those removed from their queues. A read that was waited for and not cancelled delivers what was expected of its block when it was posted; in particular a block written and waited for delivers these data until it is allocated anew or written again by a write that is not cancelled in time. Who is told the end of a request that was not removed from its queue can rely on its having been served, without error if the wait returned normally; if the system calls succeed, all requests do. The worker of a running queue, if scheduled, has served all requests in it after a bounded number of steps. No step of a queue is impossible because of the store, and no allowed call is undefined.", "quantifier": "all numbers of disks, queues of both kinds, shared or not, and clients, all interleavings, all answers of the system, all cancellations", "why_tests_cant": "needs all interleavings of several clients, workers and cancellations with the manager and the files", "anchors": ["foxxll/mng/block_manager.hpp:block_manager::new_blocks", "foxxll/mng/bid.hpp:BID::read", "foxxll/io/disk_queued_file.cpp:disk_queued_file::awrite", "foxxll/io/request_queue_impl_qwqr.cpp:request_queue_impl_qwqr::worker", "foxxll/io/serving_request.cpp:serving_request::serve"]}
{"id": "C120", "title": "Block store on top of the kernel AIO queue", "statement": "Threads allocate, delete, write and read blocks of the block manager whose disks use Linux AIO; the requests go through the list of waiting requests, the posting thread, the kernel, which finishes them in any order, and the waiting thread, while clients wait for and cancel them; no one writes or deletes a block before knowing that all requests for it are over, or reads it before knowing that of its writes. Then the manager and the files behave as in C92 with the requests served one by one and without those removed from the list. Who is told that a request is over and was not canceled can rely on the kernel having finished it; who is told that it was canceled can rely on the kernel never having had it. A read that is over and was not canceled delivers what was expected of its block when it was posted, provided the kernel reported no error for it; in particular a block written and waited for delivers these data until it is allocated anew or written again by a write that is not cancelled in time, provided the kernel reported no error for the two requests. If the system does not fail, no request does. No step of the queue is impossible because of the store, and no allowed call is undefined. At any time everything posted can come to an end without a further call. Unless a cancellation is under way it does so after a bounded number of steps, whatever their order.", "quantifier": "all numbers of disks, requests and clients, all limits of the kernel queue, all interleavings, all orders in which the kernel finishes, all answers of the system, all cancellations of waiting requests", "why_tests_cant": "needs all interleavings of clients, two queue threads and the kernel with the manager and the files", "anchors": ["foxxll/mng/block_manager.hpp:block_manager::new_blocks", "foxxll/mng/bid.hpp:BID::read", "foxxll/io/linuxaio_file.cpp:linuxaio_file::awrite", "foxxll/io/linuxaio_queue.cpp:linuxaio_queue::post_requests", "foxxll/io/linuxaio_queue.cpp:linuxaio_queue::handle_events", "foxxll/io/linuxaio_request.cpp:linuxaio_request::completed"]}
{"id": "C121", "title": "Storage, limits and printing of uint40/uint48", "statement": "A uint_pair takes digits/8 bytes without a gap; storing and loading it gives the same value, every sequence of that many bytes is exactly one value, and the bytes are those of the number with the least significant first. Assigning to an element of an array of such values, as in a typed_block, changes this element and no other byte. What std::numeric_limits says about the type (least and greatest value, radix, digits, no sign, no infinity) is true of its values, and ++ of the greatest gives the least. A value is printed as its decimal number without superfluous zeros, so different values are printed differently.", "quantifier": "all values, all widths of the high part, all memories and indices", "why_tests_cant": "2^48 values times memories", "anchors": ["foxxll/common/uint_types.hpp:uint_pair", "foxxll/common/uint_types.hpp:numeric_limits", "foxxll/mng/typed_block.hpp:element_block"]}
{"id": "C122", "title": "Errors of the system are reported", "statement": "If a function of the file classes or of the kernel AIO queue returns, none of its system calls failed, except with an error after which the call is tried again (open with EINVAL when direct access is wished for but not required, io_setup and io_submit with EAGAIN, io_getevents of the waiting thread with EINTR) or which is only logged (remove, rename). If it throws, the exception is about the last call made, no earlier call failed in another way, and the error shown is the one this call returned; the only exceptions are calls taken for failures although they returned no error, for which an old error is shown, and one lseek, for which none is shown. If the posting thread of the queue returns, the kernel has taken each request once. The transfer loop of syscall_file comes to an end, and if it returns all bytes were transferred or a read has reached the end of the file.", "quantifier": "all answers of the system, all values of errno before, all arguments", "why_tests_cant": "errors of system calls are rare and cannot be provoked at every call", "anchors": ["foxxll/common/error_handling.hpp:FOXXLL_THROW_ERRNO", "foxxll/io/ufs_file_base.cpp:ufs_file_base", "foxxll/io/syscall_file.cpp:serve", "foxxll/io/mmap_file.cpp:serve", "foxxll/io/fileperblock_file.cpp:export_files", "foxxll/io/linuxaio_queue.cpp:post_requests"]}
