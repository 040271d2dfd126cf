# Design of the formal model of foxxll

## What this is

`rocq/theories` contains a Rocq (Coq 8.16.1) model of parts of the foxxll C++
library and theorems about it.  Nothing of the C++ is built or executed; the
model was written by reading the sources in `/repo`, function by function, and
each definition cites the file and lines it models.

One group of files per area:

* `XxxModel.v`  – the model, no proofs; every definition cites `/repo` lines.
* `XxxSpec.v`   – small independent vocabulary used in theorem statements
  (only where the statement needs more than stdlib notions).
* `XxxProofs*.v` (and, for the queues, `Queue*.v`) – lemmas and invariants.
* `XxxProps*.v` – the theorems that `MANIFEST.json` refers to, each with a
  concrete `Example Cnn_case` that meets its hypotheses, and `Print Assumptions`.

Theorem names start with the property id.  A name ending in `_refuted` is a
proof that a plausible stronger claim is *false* of the modelled code: a concrete
execution in which it fails.  These mark the exact border of the positive
theorems, and most of them are defects of the code (see "Findings").

## Trusted base

* The kernel of Coq 8.16.1 (including `vm_compute`, which is used in examples).
* Axioms: **none**.  `Print Assumptions` says `Closed under the global context`
  for every theorem listed in `MANIFEST.json`.  (A whole-context listing also
  shows seven constants `Coq.ssr.ssrunder.Under_rel.*`.  These are parameters of
  a module of the standard library which is loaded with the prelude; no
  theorem here depends on them.)
* Sections with `Variable`/`Hypothesis` are closed: the theorems quantify over
  them.
* That the model says what the C++ says.  This is the main thing to review; the
  lists below say what was and what was not modelled.
* Behaviour of things outside the repository: the C++ standard library
  (containers, `std::sort`, `std::priority_queue`, mutexes, condition
  variables), the operating system as described in the files concerned, and
  tlx.  `extlib/tlx` is empty in this checkout, so `tlx::semaphore`,
  `tlx::counting_ptr`, `tlx::split`, `tlx::simple_vector` and
  `tlx::merge_combine` are modelled from their documentation, and
  `tlx::expand_environment_variables` and `tlx::parse_si_iec_units` are
  arbitrary functions.

## Conventions

* 64-bit quantities are unbounded (`Z` or `nat`) unless the property is about
  wrap-around (uint_pair, utils, strategies, device ids), where arithmetic is
  explicitly modulo 2^w.
* `std::map` / `std::set` / `std::list` are lists, sorted by key for maps.
* Undefined behaviour, failed assertions and exceptions are distinct outcomes,
  or an operation has no transition; nothing is silently totalised.  Where a
  recursion needs fuel, running out of it is a distinct outcome and is proved
  impossible or excluded.
* Concurrency is interleaving; a section protected by a mutex is one step.
  There are no hardware memory effects.  Spurious wakeups of condition variables
  are a parameter or an event where they matter (C25, C39).
* Nondeterminism (choice of a minimal element, answers of the operating system,
  order of completion, random draws, which free block the manager gives) is an
  arbitrary oracle or relation; theorems hold for all of them.

## What is modelled, by area

| claims | files in `/repo/foxxll` | lines | how proved |
|---|---|---|---|
| C01–C09, C65, C66 | mng/disk_block_allocator.hpp, .cpp | 45–260; 65–153 | invariant over operation lists; the recursion is by fuel that is shown sufficient |
| C10 | the same critical sections run by several threads | 111–120, 158–260 | invariant over interleavings |
| C11–C16 | mng/block_manager.hpp, .cpp, bid.hpp | 50–276; 33–140; 37–165 | invariant lifted from the allocator |
| C17, C18 | mng/block_alloc_strategy.hpp, block_alloc_strategy_interleaved.hpp | 43–251; 27–115 | modular arithmetic, counting |
| C19–C26 | io/request_with_state.cpp, request_with_waiters.cpp, serving_request.cpp, request.cpp, request_queue_impl_1q.cpp, request_queue_impl_qwqr.cpp, request_queue_impl_worker.cpp, request_operations.hpp, common/onoff_switch.hpp, shared_state.hpp | see head of `QueueModel.v` | transition system with any number of clients; inductive invariants, progress by measure |
| C27, C28 | io/linuxaio_queue.cpp, linuxaio_request.cpp | 34–308; 26–106 | token accounting invariant; progress by measure |
| C29–C31 | io/memory_file.cpp, syscall_file.cpp, ufs_file_base.cpp, fileperblock_file.cpp | 26–93; 28–118; 211–281; 61–119 | byte maps, induction on the transfer loop |
| C32–C35 | mng/write_pool.hpp, prefetch_pool.hpp, read_write_pool.hpp | all operations | refinement to a map from block to data, adversarial I/O |
| C36–C38 | mng/async_schedule.cpp, .hpp | 63–210; 44–72 | invariant of the event simulation for every tie-breaking |
| C39 | mng/block_prefetcher.hpp | 31–233 | transition system |
| C40 | mng/buf_ostream.hpp, buf_istream.hpp, buf_istream_reverse.hpp | 30–127; 37–150; 41–171 | on top of C39 and C41 |
| C41–C43 | mng/buf_writer.hpp | 36–219 | transition system |
| C44–C49 | mng/block_scheduler.hpp | 51–536, 612–1144 | refinement to a map of contents; order invariants for LRU and LFD; bisimulation for the simulation mode |
| C50–C52, C55–C57 | common/uint_types.hpp, utils.hpp, aligned_alloc.hpp, mng/typed_block.hpp | 52–248; 61–106; 48–131; 43–284 | arithmetic |
| C53, C54 | common/addressable_queues.hpp | 29–200 | refinement |
| C58–C60, C67, C68 | mng/config.cpp, config.hpp, io/create_file.cpp, io/file.hpp | 49–217, 263–598; 33–147; 61–70; 89–92 | induction, round trip |
| C61–C64 | io/iostats.cpp, iostats.hpp | counters, timers, stats_data | telescoping sums, invariants |
| C69, C70 | singleton.hpp, common/exithandler.cpp | 22–101; 33–73 | transition system with any number of threads; invariant on the stack of handlers |
| C71–C73 | io/disk_queues.cpp, mng/block_manager.cpp, io/create_file.cpp, io/linuxaio_queue.cpp | 26–116; 47–77; 74–158; 34–67 | invariant of the table over operation lists; induction on the tries |
| C74, C75 | io/mmap_file.cpp, fileperblock_file.cpp | 26–69; 70–79 | byte maps, on top of C29–C31 |
| C76, C77 | io/ufs_file_base.cpp, create_file.cpp, file.hpp | 33–209, 283–308; 29–60, 74–100; 62–88, 192 | bit arithmetic; invariant over the system calls of any number of processes |
| C78 | common/timer.hpp | 50–158 | induction |
| C79, C80 | io/iostats.cpp | 384–434, 592–647, 761–812 | counting on sorted lists; case analysis on NaN and infinities |
| C81, C82 | mng/write_pool.hpp, prefetch_pool.hpp, read_write_pool.hpp with failing requests | 71–254, 82–379, 50–116 | transition system without contents, inductive invariant by counting |
| C83–C85 | mng/block_scheduler.hpp, the prefetching algorithm | 1149–1891 | invariant under every step of the I/O threads; for switching back, a simulation by a state that keeps the erased metadata |
| C86, C87 | mng/block_scheduler.hpp, external blocks and the destructors | 71–78, 214–225, 385–410, 659–669, 811–822, 1031–1041, 1679–1690 | accounting relation for every function, on top of C44 and C83 |
| C88 | mng/buf_writer.hpp with failing writes | 76–218 | overlay on the state of C41, inductive invariant, well-founded measure |
| C89 | mng/block_prefetcher.hpp with failing reads | 31–233 | overlay on the state of C39, inductive invariant, well-founded measure |
| C90 | mng/block_scheduler.hpp, LFD and simulation, compared with every paging strategy | 759–1144 | potential argument (number of cached blocks requested within t), refinement of the scheduler to it |
| C91 | mng/async_schedule.cpp, how good the schedule is | 72–210 | the run after such an end is deterministic; explicit plan for comparison |
| C92 | mng/block_manager.hpp/.cpp, mng/disk_block_allocator.hpp, mng/bid.hpp with io/memory_file, syscall_file, fileperblock_file together | 33–84, 147–276, 80–152 | invariant over histories of manager calls and requests served in any order; reuses C01–C16 and C29–C31 |
| C93 | io/linuxaio_queue.cpp, request_queue_impl_worker.cpp, stop | 61–74, 151–156, 273–278, 310–340; 32–65 | C27 invariant with termination tokens; measure decreasing at every step of the destruction |
| C94 | mng/disk_block_allocator.hpp, block_manager.hpp, growth that fails | 147–155, 158–260; 164–248 | AllocInv/ManagerProofs invariants with a list of lost blocks |
| C95 | io/request.cpp, request_with_state.cpp, serving_request.cpp, disk_queued_file.cpp, request_queue_impl_1q.cpp, linuxaio_request.cpp, linuxaio_queue.cpp, file.hpp: lifetime | 22–101; 26–90; 40–63; 23–51; 62–147; 26–106; 76–119, 144–263; 176–238 | every step is a sequence of 17 primitive effects on counts, owners and the log; invariants proved for each of them |
| C96 | io/request.cpp, serving_request.cpp, mng/typed_block.hpp: alignment, on top of the models of the manager and of aligned_alloc | 40–55; 25–38; 306–390 | a free region begins at 0 or where a block ends, so divisibility carries over along histories |
| C97 | mng/disk_block_allocator.{hpp,cpp}, block_manager.{hpp,cpp}, with arithmetic modulo 2^64 | as for C01–C12 | equality with the model on integers under its invariant and bounds; a batch grows a disk by at most its size |
| C98 | io/wfs_file_base.cpp, .hpp, wincall_file.cpp | 34–246; 36–58; 32–105 | invariant: a handle with share mode 0 is alone; frame lemma for each kernel operation |
| C99 | tools/benchmark_files.cpp | 190–461 | loop invariant over rounds; pointwise effect of any order of requests |
| C100 | tools/create_files.cpp, benchmark_disks.cpp, benchmark_disks_random.cpp | 88–273, 61–266, 42–227 | induction over rounds |
| C101 | buf_ostream.hpp, buf_istream.hpp, buf_istream_reverse.hpp with failing transfers | 30–127, 37–161, 39–181 | invariants over C88 and C89 |
| C102 | every function of foxxll/ that takes a mutex (io, mng, common, singleton.hpp) | as cited in LockModel.v | lock order, invariant over all interleavings |
| C103 | request_queue_impl_qwqr.cpp, request_queue_impl_1q.cpp (QueueModel.v) | as for C20-C25 | decreasing measure over all interleavings; executions by induction for starvation |
| C104 | the accesses to shared members in common/, singleton.hpp, io/ and mng/ (RaceModel.v); QueueModel.v for the order of error_ and wait | the values, constructors and destructors of the objects themselves; request fields that never change | lockset invariant over all interleavings; explicit executions for the races |
| C105 | mng/block_manager.cpp 33-84, io/create_file.cpp 44-209, mng/disk_block_allocator.hpp 50-57 and 147-155, singleton.hpp 41-84, the parts of ufs_file_base.cpp, fileperblock_file.cpp and memory_file.cpp they call, over ConfigModel.v (BootModel.v) | contents of files, locks of other processes, lack of memory, Windows | the loop over all disks as a function of a list; idempotence of every assignment; per name the classes "kept", "created", "overwritten" |
| C106 | the same, and mng/block_manager.cpp 86-95, mng/config.cpp 53-64, 181-187, disk_block_allocator.hpp 64-69, fileperblock_file.cpp 54-119 (BootModel.v) | ends of the program without exit handlers; links | invariant over all programs, then the destructors |
| C107 | mng/buf_ostream.hpp 30-127, buf_istream.hpp 37-161, buf_istream_reverse.hpp, buf_writer.hpp, block_prefetcher.hpp on top of block_manager.hpp 164-268, bid.hpp and the files (TogetherModel.v over WriterErrModel.v, PrefetchErrModel.v, StoreModel.v) | moments of submission (any between call and transfer) | per block of a stream one of four lives (new, waiting, done, lost) as an invariant of all interleavings; refinement of the oracle disks of the streams by the store |
| C108 | io/fileperblock_file.cpp 121-141, common/types.hpp 37-42 (ExportModel.v over FileModel.v) | log output, Windows | case analysis over the refusals; last slash of a path characterised without find_last_of; composed with runs of C31 |
| C109 | common/aligned_alloc.hpp 28-131, mng/typed_block.hpp 359-409, common/new_alloc.hpp 38-119 (MemModel.v) | FOXXLL_WASTE_MORE_MEMORY variant, valgrind, threads, rebind | invariant: buffers apart, live buffers are a permutation of those of the pieces and the lost ones, pointer in front of each piece intact |
| C110 | mng/block_scheduler.hpp 51-1144 on mng/block_manager.hpp 164-268, mng/bid.hpp 80-92, io (BsStoreModel.v on BsModel.v and StoreModel.v) | failures of the scheduler's own requests, what C44 and C92 leave out | invariant: a shadow scheduler with a disk of its own, whose disk agrees with what the store is to contain, up to the requests of the operation under way |
| C111 | mng/{write,prefetch,read_write}_pool.hpp on io/request_queue_impl_{qwqr,1q}.cpp, io/disk_queues.cpp 39-100 (PoolQModel.v, which takes types and the operations without I/O from PoolModel.v) | semaphores and mutexes of the queues (C19-C24), failures (C81, C82), linuxaio (its queue does not keep the order: `C33_unordered_writes_refuted`) | invariant: lists of the queues and states of the requests agree; refinement of PoolModel.v with ordered writes |
| C112 | io/iostats.hpp 68-182, 370-411 (scoped timers), common/timer.hpp 224-264 (ScopedModel.v, on StatsModel.v) | floating point of the rate, the second reading of the clock | each thread's sections are an interleaving of complete operations; nesting of interleavings; C61 |
| C113 | tools/foxxll_tool.cpp 54-142, version.hpp 27-81, common/version.cpp 20-38 (ToolMainModel.v) | printed text except names, the version strings | case analysis, induction over the table |
| C114 | mng/disk_block_allocator.cpp 26-37, 73-101 (reports), common/utils.hpp 88-93, 108-138 (DumpModel.v) | text around the numbers, deallocation_error (never reached: C07) | C01-C03, induction |
| C115 | io/disk_queued_file.cpp 23-47, io/linuxaio_file.cpp 22-46, io/serving_request.cpp 40-63, io/request_with_state.cpp 34-90 (AsyncModel.v: any queue, any order of bytes) | queues (C19-C28), file classes (C29-C31, C74), sizes of files | simulation by a sequential machine; projection to clients; C11 |
| C116 | the queues of C19-C26 for every disk, with the bytes of C115: io/disk_queued_file.cpp 23-47, io/serving_request.cpp 40-63, io/request_queue_impl_1q.cpp, io/request_queue_impl_qwqr.cpp, io/disk_queues.hpp 36-52 (XferModel.v) | Linux AIO queues, lazy creation of queues, file classes (C29-C31, C74) | refinement of AsyncModel by the queues; C20, C24-C26, C115 |
| C117 | the kernel AIO queue of C27 with the bytes of C115: io/linuxaio_file.cpp 22-46, io/linuxaio_request.cpp 26-77, io/linuxaio_queue.cpp 76-308, io/request_with_state.cpp 34-90 (AioXferModel.v on LioModel.v) | successful cancellations of requests in the kernel (C28), several AIO queues at once | refinement of AsyncModel by the queue and the kernel; counting invariant of C27; C115 |
| C118 | snapshots during operations and scoped_print_iostats: io/iostats.hpp 185-315, 411-465, 486-535, 640-723, io/iostats.cpp 367-373, 589-602, 649-662, 813-832 (SnapModel.v on StatsModel.v) | formatting of the text, files created between the readings of one run, rounding of doubles | invariant of the event list of a mutex at any prefix (from C62), clipping of intervals at the last event |
| C119 | block store over request queues: mng/block_manager.hpp 164-268, mng/bid.hpp 80-92, io/disk_queued_file.cpp 23-51, io/request_queue_impl_1q.cpp 62-168, io/request_queue_impl_qwqr.cpp 61-240, io/serving_request.cpp 40-63, io/disk_queues.hpp 36-152 (StoreQModel.v on StoreModel.v and QueueModel.v) | Linux AIO queues; a request is served in one step; queues made on demand | forward simulation to StoreModel with the removed requests elided (generalised over the set of removed requests), invariant linking the pending requests to the states of C20 |
| C120 | block store over kernel AIO: mng/block_manager.hpp 164-268, mng/bid.hpp 80-92, io/linuxaio_file.cpp 22-46, io/linuxaio_queue.cpp 76-308, io/linuxaio_request.cpp 26-106, io/request_with_state.cpp 34-90 (StoreAModel.v on StoreModel.v and LioModel.v) | successful io_cancel; a request is transferred in one step when the kernel finishes it | forward simulation to StoreModel as in C119, invariant linking the pending requests to the counts of LioProofs |
| C121 | common/uint_types.hpp 49-111, 225-329, mng/typed_block.hpp 88, 97-100 (PackModel.v on UtilModel.v) | byte order (little-endian assumed), stream flags | induction on the bytes; C50 and C51 for the arithmetic |
| C122 | common/error_handling.hpp 39-102, the system calls of io/ufs_file_base.cpp, syscall_file.cpp, mmap_file.cpp, fileperblock_file.cpp, linuxaio_queue.cpp (ErrnoModel.v) | the text of messages; successful calls and logging leave errno alone; Windows, macOS | a predicate on the trace of calls, closed under sequencing; induction on the loops |

The head comment of each `XxxModel.v` lists the simplifications of that area.
The important ones:

* Allocator, manager: byte positions do not wrap (when that is justified, and what
  happens otherwise: C97); `file::discard` has no effect on them
  (its effect on the contents: C92).
* alignment (C96): what the compiler asks of `operator new[]` is n blocks and a cookie
  smaller than a block; the addresses of malloc are arbitrary positive numbers.
* Windows (C98): CreateFileA and the like from their documentation, see the head of
  `WinModel.v`; release builds; modes have an access right.
* file benchmark (C99): whole words only; distinct files; times and printing left out.
* other tools (C100): only which bytes and blocks are transferred, in runs without
  failures.
* streams with failures (C101): only transfers fail; a failed transfer leaves unknown
  contents; an output stream is destroyed after an exception, not used.
* locks (C102): only the order of lock, unlock, wait and handler calls; every branch is a
  free choice, so the model has more behaviours than the code; tlx::semaphore by its
  documented behaviour; `run_exit_handlers` of the non-default exit handlers is left out
  (it locks in the opposite order to `create_instance`, but only for singletons whose
  construction is over, which the model does not track); allocation functors do not call
  the library.
* data races (C104): branches are free choices, so a member is called free of races only
  if it is on every path; a race is shown by an execution whose two accesses the code
  does not order. file_des_ of a linuxaio_file, which the posting thread reads without
  its mutex, is not among the members.
* start and end (C105, C106): a file is its size, a name is a file; what the system calls
  answer for a disk is one of seven outcomes, all arbitrary; a growth that throws
  changes nothing and is no step.
* streams on the store (C107): a write is submitted to the store some time between the
  call and its transfer, with the data that will be transferred; a read is submitted at
  any time after the stream that writes the block was closed.
* export of blocks (C108): a path is a name, two different paths are two different files,
  and there are only regular files.
* memory of blocks (C109): malloc chooses any free address; memory consists of 8-byte cells
  at any address, and writing one destroys those that overlap it; one thread.
* scheduler on the store (C110): the list of requests of an operation is computed when it is
  called, its effect on the scheduler when it returns; its requests may be served at any time
  in between, the code waits for some of them earlier.
* pools on queues (C111): a queue is seen between critical sections, without its semaphore;
  requests of other clients are not told apart.
* scoped timers (C112): a timer is used by one thread; the rate is computed exactly.
* subtools (C113): a subtool is a function from its arguments to its result.
* asynchronous transfers (C115): files and memory are one map of bytes; a step copies one byte.
* queues that transfer bytes (C116): all queues exist from the start; a thread may be in the
  middle of operations on several queues at once (more interleavings than the program has).
* kernel AIO with bytes (C117): the end of a request can be noticed from the call of its handler
  on, a little earlier than in the code; the kernel copies bytes one at a time.
* snapshots during operations (C118): a getter that races with a critical section reads the
  current value; the text of a report is a list of pieces.
* block store over queues (C119): the simplifications of StoreModel and QueueModel; one client
  thread has the same number in all queues; calls of the block manager are atomic (C73).
* block store over AIO (C120): the simplifications of StoreModel and LioModel; the kernel transfers
  when it finishes a request, and a transfer of fewer bytes counts as an error; calls of the block
  manager are atomic (C73).
* lifetime (C95): any number of servers take any waiting request at any time; semaphores,
  limits and priorities are left out; `wait()` and `poll()` are one step; io_cancel fails;
  no transfer errors; an access to a deleted object is recorded and continues as if the
  memory were intact.  tlx: `counting_ptr` deletes at count 0, `dec_reference` only counts.
* failing growth (C94): a `set_size` that throws has no effect; the constructor of the manager
  is taken to succeed; the lost blocks are a ghost list no operation reads.
* linuxaio queue (C27, C93): during the destruction no client is inside of the queue; the
  thread states are set atomically with leaving the loop.
* Block store (C92): growing a file succeeds; a request is served in one step; each
  fileperblock disk has its own directory (justified by `C92_block_files_apart`).
* Queues: the outer mutex of `disk_queues` is left out, which only adds
  interleavings; what a completion handler does is what some client could do.
* linuxaio: start and stop of the threads, errors of `io_submit` other than
  EAGAIN, and errors of `io_getevents` are left out.  `events[e].res` is not looked at by the code.
* Files: regular files; transfers (C29–C31, C74, C75) on files not opened read-only,
  without the alignment rules of direct I/O; `export_files` is left out.
* Locks: POSIX record locks of Linux; a failing open changes nothing.
* Pools: one client thread (the pools have no lock); I/O errors, destructors and
  `swap` are left out.
* Prefetcher, writer, streams: one client thread; I/O errors are left out;
  `buf_ostream::flush` is left out.
* Block scheduler: I/O errors are left out; the requests issued
  by a modelled function are waited for before it returns, so a transfer is
  atomic.  C48 needs prediction times below 2^62-1.
* Prefetching (C83–C85): reads, writes and the steps of completion handlers are
  separate; an oracle decides which of them take place whenever the client
  touches something it shares with the I/O threads; no order between requests is
  assumed.  `write_done_soon` and `shall_read` are plain bools in the code; the
  model lets their accesses take effect in program order.  The vector of
  swappable blocks does not grow while the algorithm is in use (it would
  invalidate an iterator a handler may use).
* Statistics: time stamps are exact integers, no floating-point rounding.
* Singletons: accesses to the volatile pointer are atomic and sequentially
  consistent; the code relies on it although the pointer is not a std::atomic.
* Configuration: Unix variants only; log output left out.

## Not modelled

exceptions.hpp (classes without content), the tools' argument parsing and output, the tests.

## Findings

Each of these follows from a theorem; the name is given.

Allocation
* Requests are summed modulo 2^64: two blocks of 2^63 bytes are handed out on a
  disk of 100 bytes (`C97_out_of_space_refuted`); a disk that grows to 2^64 bytes is
  truncated to 0 and reused (`C97_disjoint_refuted`, `C97_file_size_refuted`).
* `delete_block` on a BID<0> subtracts the wrong amount from the current
  allocation counter: `C12_current_allocation_refuted`.
* `new_blocks` is not atomic: blocks obtained before an exception stay allocated
  and nobody knows them: `C15_atomic_refuted`, `C10_atomic_failure_refuted`; the
  maximum counter then misses them: `C13_maximum_with_throw_refuted`.
* A disk without autogrow can exceed its configured size when the free space is
  fragmented: `C06_never_grows_refuted`; an empty batch is a precondition
  violation: `C08_empty_batch_refuted`.
* Strategies on an empty range divide by zero: `C17_empty_range_undefined`;
  simple_random is not even where index + offset wraps at 2^64:
  `C18_wraparound_refuted`.

Requests and queues
* A request added around shutdown is never served and its waiters wait for ever:
  `C23_shutdown_serves_everything_refuted`, `C23_abandoned_forever`.
* With two queues a later request overtakes an earlier one of the other
  direction on the same block: `C22_*_refuted`.
* The completion handler is told success although the transfer failed:
  `C24_handler_sees_failure_refuted`.
* `wait_any` may return "none" after a spurious wakeup (`C25_end_only_if_spurious`),
  leaves a pointer to a dead switch when poll throws
  (`C25_no_dead_switch_refuted`), and sleeps for ever on an empty range
  (`C25_empty_range_never_woken`).
* `cancel` may dereference a null file pointer: `C20_cancel_never_crashes_refuted`.
* linuxaio: `stop_thread` sets the state before it signals, and a thread that has read the
  count 0 before the signal leaves requests unserved for ever (`C93_all_served_refuted`).
* `disk_block_allocator::new_blocks`: if the second half of a split batch cannot grow the file the
  blocks of the first half are lost for ever, also on disks without autogrow
  (`C94_recover_refuted`, `C94_lost_forever`).
* `linuxaio_queue::handle_events` gives up the reference of the control block by
  `r->dec_reference()`, which does not delete: a request whose pointer the program dropped
  before it was finished is never deleted (`C95_aio_leak`, `C95_aio_drop_refuted`).
* A request refused by `add_request` is deleted in its first state, which the assertion of
  its destructor forbids, and its file counts it for ever (`C95_reject_refuted`).
* After `poll()` returned true the worker still uses the file (`C95_poll_refuted`).
* `cancel()` tests `file_` and reads it again later, when it may be null
  (`C95_cancel_null_refuted`).
* linuxaio: while a client that cancels a waiting request has not yet taken back its signal, the
  posting thread busy-waits (`C27_turns_refuted`).
* linuxaio: a partial `io_submit` can deadlock (`C27_partial_submit_deadlock_refuted`),
  cancelling a submitted request leads to a second `completed()` which crashes
  (`C28_cancel_crashes`, `C28_crash_reachable`), the event limit is then exceeded
  (`C28_limit_refuted`), and `handle_events` may block with the lock held
  (`C28_blocks_with_lock_refuted`).

Files
* memory_file does not check bounds (`C29_bounds`).
* A short read of fileperblock_file truncates the file:
  `C31_short_read_destroys_refuted`.
* syscall_file throws when reading at or after the end: `C30_read_past_end`.
* Deleting a block while a write to it is pending is not noticed and destroys the data
  of the block that gets the place next: `C92_rules_needed_refuted`.

Pools, scheduling, streams
* Two reads of a block that is still being written, the second posted before
  the first was waited for: the second finds the old content
  (`C34_not_waiting_refuted`).  Two writes of the same block are unordered if the
  I/O system reorders them: `C33_unordered_writes_refuted`.
* The prefetch schedule with zero buffers fails an assertion, or copies
  uninitialised entries: `C36_no_buffers_refuted`; how many buffers are needed: C37.
* The simulation behind the prefetch schedule loses a buffer whenever the next block
  belongs to a disk whose queue is not empty (lines 134-140 do not take the block in),
  and never regains it (`C91_buffers_never_regained`); after m+1 blocks on one disk it
  works as with one buffer and the schedule is the identity
  (`C91_run_at_end_identity`).  The optimality of the cited paper is lost:
  `C91_simulated_steps_refuted`, `C91_optimal_refuted`.
* The prefetcher may hand out a block before its data arrived, after a spurious
  wakeup: `C39_spurious_wakeup_refuted`.
* `buffered_writer` blocks for ever if the batch is not smaller than the number
  of buffers: `C42_large_batch_blocks`; the same block twice in one batch may
  be written in the wrong order: `C41_same_block_twice_refuted`; `flush` hands out
  again a buffer the caller still holds: `C43_keeping_buffers_refuted`.

* After a failed write `buffered_writer::flush` never returns again and the
  destructor calls `std::terminate` (`C88_failure_is_final`,
  `C88_destructor_ends_program`); there is no way to recover
  (`C88_no_recovery`), and each `get_free_block` that throws in `wait_any` leaks
  an array of requests (`C88_leak_only_by_throwing`).
* `block_prefetcher` hands out a block whose read failed without an exception
  (`C89_contents_refuted`): the completion handler is told `success` also after an I/O
  error.  The exception comes when the buffer is given back
  (`C89_error_reported`), and destruction then ends the program
  (`C89_destructor_never_returns`).
* LFD minimises the reads, not the transfers: a dirty block that is used last is
  evicted and written although keeping it would save a write
  (`C90_transfers_refuted`).
* When a write of a pool fails, a later `steal` loses a block that was written all
  right and then throws for ever (`C82_steal_loses_refuted`,
  `C82_stale_failure_stays`); the destructor hides the failure
  (`C82_silent_failure_refuted`) and leaks the blocks after it (`C81_destructor`).

Block scheduler
* acquire(uninitialized) followed by release(clean) exposes old memory:
  `C44_uninitialized_clean_refuted`.
* The memory limit in bytes is exceeded by up to a block: `C45_bytes_refuted`.
* The eviction order of LRU is reversed by switching to simulation and back:
  `C47_after_simulation_refuted`.
* The simulation gives wrong answers for blocks acquired at its start, for
  external blocks with an invalid bid, and after freeing an initialised block:
  `C49_*_refuted`.
* With the prefetching algorithm `extract_external_block` fails an assertion if
  the block is still internal (`C83_extract_refuted`), `flush` makes the next
  acquire fail (`C83_flush_refuted`), and the block evicted is not the least
  recently used one (`C85_lru_refuted`).
* The destructor of the scheduler leaks the external blocks of blocks that are
  still acquired (`C87_acquired_leaks_refuted`); destroying an algorithm object
  that was constructed but not switched to destroys the values of all evictable
  blocks (`C87_unused_keeps_values_refuted`).

Configuration, statistics, helpers
* Printing and parsing a disk line do not always round trip (`C60_*`), a line
  with " flash" is rejected (`C60_flash_rejected`), `$$` eats a character
  (`C68_pid_keeps_rest_refuted`), parsing into a used object keeps old fields
  (`C68_reuse_refuted`), device ids can coincide or wrap (`C58_*_refuted`), disks
  added or files loaded at the wrong time are reported in the wrong range, and a
  second attempt after a bad line succeeds with half of the disks
  (`C59_*_refuted`).
* Files not created in order of their device ids share or duplicate statistics
  objects (`C63_any_order_refuted`); a device that only the earlier snapshot knows
  is copied instead of negated in a difference (`C64_missing_device_refuted`); a
  cancelled linuxaio request makes the operation counter wrap
  (`C61_cancelled_linuxaio_refuted`); parallel times are wrong if time stamps are
  taken in a different order than the lock (`C62_unordered_sections_refuted`), and
  do not count linuxaio requests at all (`C62_linuxaio_not_counted`).
* `round_up_to_power_of_two` wraps to 0: `C55_round_up_overflow`.
* `destroy_instance` called by hand makes the exit handler delete an invalid
  pointer (`C69_destroy_by_hand_refuted`); a destructor that uses a singleton its
  constructor did not need can crash, or deadlock in the handler list of foxxll
  (`C70_other_uses_refuted`).
* The loop that negotiates the number of AIO events doubles it instead of halving
  it and so fails where half would do: `C73_half_refuted`.  If it fails, the
  table of queues may keep a null pointer (unspecified order of evaluation in
  C++14) and later requests crash: `C71_failed_construction_refuted`.
* A disk without a configured queue may share the queue of another disk
  (`C72_default_shared_refuted`); queue=-2 for a plain disk beside a linuxaio disk
  kills the program (`C72_minus_two_refuted`).

* mmap_file loses bytes written after the end of the file, or the process is
  killed, where syscall_file grows the file: `C74_past_end_refuted`.
* REQUIRE_DIRECT without DIRECT uses direct I/O but does not demand alignment:
  `C76_alignment_refuted`.
* File locks do not protect a process from itself, e.g. from two disks with the
  same path (`C77_same_process_refuted`); closing or opening a file a second time
  weakens its lock (`C77_close_refuted`); TRUNC empties a file that is locked by
  somebody else (`C77_trunc_refuted`); `close_remove` may remove a file that
  somebody else has just locked (`C77_close_remove_refuted`); a constructor that
  throws leaks its descriptor (`C77_leak`).
* Windows: `set_size` of a writable DIRECT file reads an uninitialised member
  (`C98_set_size_undefined`), or loses the lock (`C98_lock_refuted`) and perhaps the
  file (`C98_keeps_handle_refuted`); CREAT is ignored and TRUNC never creates
  (`C98_creat`); an object without a file may be constructed (`C98_invalid_object`).
* `benchmark_files`: false alarms (`C99_verdict`, `C99_odd_block_refuted`,
  `C99_default_pattern_refuted`), success without having read
  (`C99_error_refuted`, `C99_short`), and reads into the buffer that was just written
  (`C99_unread`).
* `create_files` leaves out the last byte of an odd length (`C100_create_all_refuted`);
  `benchmark_disks` rounds the start up to a batch (`C100_disks_size_refuted`);
  `benchmark_disks_random` with an empty span divides by zero
  (`C100_random_undefined`).
* After an exception of `operator <<` the stream still points to a buffer the writer owns:
  the next record overwrites a block that was accepted
  (`C101_use_after_exception_refuted`). `operator >>` delivers the records of a block that
  could not be read and throws only at its end (`C101_reported_in_time_refuted`).
* Waits for an event with a mutex held: `disk_queues::~disk_queues` joins its workers under
  `mutex_`, so a completion handler that has begun to submit never ends
  (`C102_join_refuted`); the constructor of `block_manager` waits for a write to the lock
  file of a fileperblock disk under the singleton's mutex
  (`C102_constructor_refuted`); `disk_queues::cancel_request` may sleep on a queue's
  semaphore under `mutex_`, which all disks share (`C102_cancel_refuted`).
* `linuxaio_queue::cancel_request` calls completion handlers with `waiting_mtx_` locked: a
  handler that submits to the queue waits for itself (`C102_aio_handler_refuted`).
* With `priority_op_` = WRITE, which is fixed in request_queue_impl_qwqr.hpp line 51
  (`set_priority_op` does nothing), a read is not served as long as there is always a
  write in the queue (`C103_read_starves_refuted`).
* Data races, each with an execution in RaceProps.v: `instance_` in get_instance,
  `error_` in poll and wait_any, `file_` in cancel, `cb_` in cancel of a posted linuxaio
  request, `size()` of memory_file and fileperblock_file, file_stats read by a snapshot,
  the times of stats, `running`/`last_clock` of timer, `max_device_id_` in create_file,
  the sizes of a disk_block_allocator used on its own.
* A start of the block manager that fails has resized files already
  (`C105_failure_files_refuted`), and loses the allocators of the disks before the
  one that failed (`C105_failure`). Two disks with one path get one file, which may
  be smaller than one of them (`C105_same_path_refuted`).
  A failed start and another one give the disks other device ids than one start if
  the counter of ids stands at 2^32-1, which means "none yet" (`C105_counter_refuted`).
* delete_on_exit: a fileperblock disk leaves the files of its blocks
  (`C106_blocks_refuted`); files that were never opened are removed
  (`C106_never_started_refuted`, `C106_memory_refuted`), and so are nodes of devices
  (`C106_mmap_device_refuted`, `C106_failed_device_refuted`).
* Records put into an output stream need not be in the store before its destructor has
  returned (`C107_before_close_refuted`).
* export_files to the name of the block itself destroys the block
  (`C108_own_name_refuted`); to the name of another block it replaces that block
  (`C108_blocks_apart_refuted`); for a block without a file it removes the target and then
  throws (`C108_target_kept_refuted`); and because a failed rename is only logged it may
  return although nothing was exported (`C108_return_means_exported_refuted`).
* new_alloc::allocate of max_size() blocks, or a few less than that, may write outside of
  its buffer because the size of the buffer wraps around (`C109_max_size_safe_refuted`); of
  more blocks it succeeds with less memory (`C109_too_many_refuted`).  Only the first block
  of an array is aligned if raw_size is no multiple of the alignment
  (`C109_second_block_refuted`).  When realloc returns the null pointer the buffer is never
  freed (`C109_none_left_refuted`).
* The contents of a block that was released need not be in the store before flush
  (`C110_before_flush_refuted`).
* With the default queues a client that does not wait for its reads can get old data
  (`C111_not_waiting_refuted`).
* The scoped timers can be copied, and then count the end of an operation twice
  (`C112_copy_refuted`); a scoped_print_timer with bytes and no measurable time converts an
  infinite double to an integer (`C112_print_refuted`).
* foxxll_tool reports success for an unknown subtool (`C113_status_refuted`), and integer
  version numbers are ambiguous for components of three digits (`C113_integer_refuted`).
* Clients that do not wait do not see a sequential machine (`C115_impolite_refuted`), and
  swap_1D_arrays does not exchange arrays that overlap (`C114_swap_refuted`).
* A client that posts a write and then a read of the same block and waits for both may read the
  old bytes (`C116_posting_order_refuted`).
* With Linux AIO an error or a short transfer reported by the kernel is lost: `handle_events`
  never looks at `events[e].res`, and a client that waits is told the end of a transfer that did
  not take place (`C117_error_refuted`).
* A snapshot does not include the time since the last start or end of an operation, so the
  difference of two snapshots can show more parallel I/O time than elapsed between them
  (`C118_elapsed_refuted`); readings are not made together, so a snapshot can show bytes without
  operations (`C118_torn_refuted`); a report of scoped_print_iostats with a number of bytes
  converts an infinite or too large double to an integer if (almost) no time has elapsed
  (`C118_report`).
* A second start or stop makes a timer wrong: `C78_other_use_refuted`.
* The median of a statistics summary is 0 for two values of 2^31:
  `C79_median_wrap_refuted`.  Printing statistics sorts with an undefined order as
  soon as one file was never read (or written) and two others have different
  speeds: `C80_file_speeds_refuted`.
* An exception can show an error that no call of the function returned: read or write of 0 bytes,
  a mapping at address 0 and io_submit that takes nothing are reported with the errno left by an
  earlier call (`C122_end_of_file_refuted`).  A failing lseek in `_set_size` is reported without any
  error (`C122_code_shown_refuted`).  A signal during io_getevents is harmless for the waiting thread
  but an exception for the posting thread, and one during read ends a transfer
  (`C122_interrupted_refuted`).

Seen while reading, without a theorem: a cancel that has passed the check for
RUNNING may wait for ever on the semaphore during shutdown.  If `allocate_block`
enlarges the vector of swappable blocks while the prefetching algorithm has a read
scheduled after a write, the completion handler uses an invalid iterator.

## Seeded wrong programs

`seeded/LOG.jsonl` has one line per attempt.  A copy of `rocq/theories` outside
`/verif` is edited in one model definition, all files that depend on it are
rebuilt, and each proof that no longer checks is replaced by `Admitted` so that
the rest can be rebuilt; a theorem counts as failed if its own proof breaks or
its `Print Assumptions` then mentions an admitted statement.  `theorems_failed`
is therefore an over-approximation: a proof script may break although the
statement is still true.  For every edit the claim it is meant to break was
argued by hand; attempts after which that claim's theorems still held led to the
entries under `theorems_tightened`, or to a remark that the edit did not change
the claim.
