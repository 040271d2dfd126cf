(* Every mutex of the library and every function that takes one.  A
   function is modelled by the order in which it locks, unlocks, waits and
   calls completion handlers; the data it handles is left out, so each branch
   of the code becomes a free choice.  The model therefore has every
   behaviour of the code as far as locks go, and more. *)
From Coq Require Import List Arith.
Import ListNotations.

(* The four singletons.
   foxxll/mng/block_manager.hpp 54, foxxll/mng/config.hpp 114,
   foxxll/io/disk_queues.hpp 39, foxxll/io/iostats.hpp 319. *)
Inductive single : Type := SBm | SCfg | SDq | SStats.

(* The mutexes, by the member that declares them.  All of them are
   std::mutex, so none is recursive.
   - CSing s: singleton<s>::singleton_mutex_      foxxll/singleton.hpp 69
   - CExit: exit_handler_mutex                    foxxll/common/exithandler.cpp 55
   - CDq: disk_queues::mutex_                     foxxll/io/disk_queues.cpp 33-112
   - CBm: block_manager::mutex_                   foxxll/mng/block_manager.hpp 158
   - CAlloc: disk_block_allocator::mutex_         foxxll/mng/disk_block_allocator.hpp 127
   - CRead, CWrite: read_mutex_, write_mutex_     foxxll/io/request_queue_impl_qwqr.cpp 62-231
   - C1q: queue_mutex_                            foxxll/io/request_queue_impl_1q.cpp 61-165
   - CAio: waiting_mtx_                           foxxll/io/linuxaio_queue.cpp 86-190
   - CFd: fd_mutex_, and memory_file::mutex_      foxxll/io/ufs_file_base.cpp 184-233,
                                                  foxxll/io/memory_file.cpp 29-75
   - CWaiters: waiters_mutex_                     foxxll/io/request_with_waiters.cpp 29-58
   - CState: shared_state::mutex_ of a request,
     CThread: the same of a queue's thread        foxxll/common/shared_state.hpp 29
   - CSwitch: onoff_switch::mutex_                foxxll/common/onoff_switch.hpp 28
   - CSem: the mutex inside tlx::semaphore        (used by the queues)
   - CFsR, CFsW: file_stats' two mutexes          foxxll/io/iostats.hpp 62
   - CStR, CStW, CStIo, CStWait, CStList: stats'  foxxll/io/iostats.hpp 330, 358
   - CTimer: timer::mutex_accumulated             foxxll/common/timer.hpp 68 *)
Inductive class : Type :=
| CSing (s : single) | CExit | CDq | CBm | CAlloc
| CRead | CWrite | C1q | CAio | CFd
| CWaiters | CState | CThread | CSwitch | CSem
| CFsR | CFsW | CStR | CStW | CStIo | CStWait | CStList | CTimer.

(* A mutex: its class and the object it is a member of, by number.
   foxxll/singleton.hpp 69 for a static one (object 0); the members listed
   at [class] for the others. *)
Record mtx : Type := Mtx { mclass : class; mobj : nat }.

(* What a function does with locks.
   - [With m p]: a unique_lock on m, from its declaration to the end of its
     scope or to lock.unlock(), around p (foxxll/common/shared_state.hpp 48-50
     for an early unlock(), 56-58 for the scope).
   - [Wait m]: condition_variable::wait on a lock of m (shared_state.hpp 58).
   - [Block]: a call that waits for another thread or for the kernel without
     a mutex of its own: std::thread::join
     (foxxll/io/request_queue_impl_worker.cpp 60), io_getevents
     (foxxll/io/linuxaio_queue.cpp 281).
   - [User]: a completion handler given by the user, which may call the
     library any number of times (foxxll/io/request_with_state.cpp 58, 85).
   - [Seq], [Or], [Star], [Any]: order, branch, loop, choice of an object. *)
Inductive prog : Type :=
| Skip
| With (m : mtx) (p : prog)
| Wait (m : mtx)
| Block
| User
| Seq (p q : prog)
| Or (p q : prog)
| Star (p : prog)
| Any (f : nat -> prog).

(* One statement after another (every function below). *)
Notation "p ;; q" := (Seq p q) (at level 61, right associativity).

(* Taking a lock, touching members, releasing it again.
   foxxll/common/shared_state.hpp 61-65 is the typical case. *)
Definition brief (c : class) (o : nat) : prog := With (Mtx c o) Skip.

(* Waiting on a condition variable in a loop under its mutex.
   foxxll/common/shared_state.hpp 54-59 wait_for,
   foxxll/common/onoff_switch.hpp 64-78 wait_for_on, wait_for_off. *)
Definition sleep (c : class) (o : nat) : prog :=
  With (Mtx c o) (Star (Wait (Mtx c o))).

(* tlx::semaphore: signal and try_acquire take the mutex for a moment, wait
   sleeps on it.  tlx is not in the repository; this is its documented
   behaviour.  Used at foxxll/io/request_queue_impl_qwqr.cpp 108, 130, 161. *)
Definition sem_signal (o : nat) : prog := brief CSem o.

(* The other half of tlx::semaphore (foxxll/io/request_queue_impl_qwqr.cpp 161). *)
Definition sem_wait (o : nat) : prog := sleep CSem o.

(* The semaphores of queue q: the qwqr and 1q queues have one (sem_), the
   aio queue three (num_waiting_requests_, num_free_events_,
   num_posted_requests_).  foxxll/io/linuxaio_queue.cpp 60-302. *)
Definition qsem (q : nat) : nat := 3 * q.
(* num_free_events_: foxxll/io/linuxaio_queue.cpp 60, 131, 193, 245. *)
Definition qfree (q : nat) : nat := 3 * q + 1.
(* num_posted_requests_: foxxll/io/linuxaio_queue.cpp 136, 218, 257, 269. *)
Definition qposted (q : nat) : nat := 3 * q + 2.

Section Build.
(* [nd]: built with FOXXLL_NON_DEFAULT_EXIT_HANDLER (foxxll/common/exithandler.cpp
   30, 48).  [fpb]: some disk is of an implementation fileperblock_*
   (foxxll/io/create_file.cpp 103, 173, 194). *)
Variables nd fpb : bool.

(* register_exit_handler: atexit takes no lock of the library's; the other
   implementation takes exit_handler_mutex.
   foxxll/common/exithandler.cpp 35-38, 58-63. *)
Definition register_exit : prog := if nd then brief CExit 0 else Skip.

(* singleton::create_instance: the mutex is held while the constructor runs
   and while the destructor is registered.  foxxll/singleton.hpp 72-85. *)
Definition create (s : single) (ctor : prog) : prog :=
  With (Mtx (CSing s) 0) (Or Skip (ctor ;; register_exit)).

(* singleton::get_instance, get_ref: no lock if the instance is there.
   foxxll/singleton.hpp 42-56. *)
Definition get (s : single) (ctor : prog) : prog := Or Skip (create s ctor).

(* stats::get_instance(); the constructor takes no lock.
   foxxll/io/iostats.cpp 199-214. *)
Definition get_stats : prog := get SStats Skip.

(* config::get_instance(); the constructor takes no lock, nor does any
   member function.  foxxll/mng/config.hpp 114-140. *)
Definition get_cfg : prog := get SCfg Skip.

(* disk_queues::get_instance(); the constructor makes sure that stats is
   there.  foxxll/io/disk_queues.cpp 26-29. *)
Definition get_dq : prog := get SDq get_stats.

(* file_stats::write_started and write_finished: the file's mutex, then (not
   inside) stats' write_mutex_, then io_mutex_.
   foxxll/io/iostats.cpp 44-60, 73-86, 279-313. *)
Definition fs_write (f : nat) : prog :=
  brief CFsW f ;; get_stats ;; brief CStW 0 ;; brief CStIo 0.

(* file_stats::read_started and read_finished.
   foxxll/io/iostats.cpp 97-113, 126-139, 315-349. *)
Definition fs_read (f : nat) : prog :=
  brief CFsR f ;; get_stats ;; brief CStR 0 ;; brief CStIo 0.

(* file_stats::write_op_finished, read_op_finished, write_canceled,
   read_canceled.  foxxll/io/iostats.cpp 62-71, 88-95, 115-124, 141-148. *)
Definition fs_other (f : nat) : prog :=
  Or (brief CFsW f ;; Or Skip (fs_write f)) (brief CFsR f ;; Or Skip (fs_read f)).

(* stats::create_file_stats, called by file's constructor.
   foxxll/io/iostats.cpp 351-365, foxxll/io/file.hpp 96-100. *)
Definition file_ctor : prog := get_stats ;; brief CStList 0.

(* stats::wait_started or wait_finished, by way of scoped_wait_timer.
   foxxll/io/iostats.cpp 217-275, foxxll/io/iostats.hpp 371-409. *)
Definition stats_wait : prog := Or Skip (get_stats ;; brief CStWait 0).

(* serve of the files with a descriptor, and of memory files: the mutex is
   held over the transfer and over the two calls of file_stats.
   foxxll/io/syscall_file.cpp 28-118, foxxll/io/mmap_file.cpp 26-70,
   foxxll/io/memory_file.cpp 26-43, foxxll/io/wincall_file.cpp 29-117. *)
Definition serve_fd (f : nat) : prog :=
  With (Mtx CFd f) (Or (fs_read f ;; fs_read f) (fs_write f ;; fs_write f)).

(* set_size, size, lock, close, discard of those files: one lock of the
   mutex each (memory_file's size, lock and the ufs files' discard take
   none, a special case of the other branch of [Or]).
   foxxll/io/ufs_file_base.cpp 182-235, foxxll/io/wfs_file_base.cpp 160-225,
   foxxll/io/memory_file.cpp 54-93. *)
Definition fd_op (f : nat) : prog := Or Skip (brief CFd f).

(* fileperblock_file::serve: the file of the one block is constructed
   (with the statistics of the whole, so stats is not asked), resized, used
   and closed again.  foxxll/io/fileperblock_file.cpp 70-79. *)
Definition serve_fpb (f : nat) : prog :=
  Any (fun b => fd_op b ;; fd_op b ;; With (Mtx CFd b)
         (Or (fs_read f ;; fs_read f) (fs_write f ;; fs_write f)) ;; fd_op b).

(* file::serve of any file a worker thread serves.
   foxxll/io/serving_request.cpp 51-58. *)
Definition serve_file (f : nat) : prog := Or (serve_fd f) (serve_fpb f).

(* request_with_state::poll.  foxxll/io/request_with_state.cpp 69-76. *)
Definition poll (r : nat) : prog := brief CState r.

(* request_with_waiters: add_waiter polls while it holds waiters_mutex_;
   notify_waiters turns on any number of switches while it holds it.
   foxxll/io/request_with_waiters.cpp 23-39. *)
Definition add_waiter (r : nat) : prog := With (Mtx CWaiters r) (poll r).

(* delete_waiter and num_waiters.  foxxll/io/request_with_waiters.cpp 41-45, 56-60. *)
Definition delete_waiter (r : nat) : prog := brief CWaiters r.

(* notify_waiters; onoff_switch::on notifies under its own mutex.
   foxxll/io/request_with_waiters.cpp 47-54, foxxll/common/onoff_switch.hpp 48-53. *)
Definition notify_waiters (r : nat) : prog :=
  With (Mtx CWaiters r) (Star (Any (fun s => brief CSwitch s))).

(* request_with_state::completed, and the same steps in cancel: state, user
   handler, waiters, file reference (no lock), state.
   foxxll/io/request_with_state.cpp 53-64, 78-90. *)
Definition completed (r : nat) : prog :=
  brief CState r ;; Or Skip User ;; notify_waiters r ;; brief CState r.

(* serving_request::serve.  foxxll/io/serving_request.cpp 40-63. *)
Definition serve (r f : nat) : prog := serve_file f ;; completed r.

(* request_with_state::wait.  foxxll/io/request_with_state.cpp 34-44. *)
Definition req_wait (r : nat) : prog :=
  stats_wait ;; sleep CState r ;; stats_wait.

(* request_queue_impl_worker::start_thread, the part of the caller; the new
   thread is one more thread of the system.
   foxxll/io/request_queue_impl_worker.cpp 30-37. *)
Definition start_thread (q : nat) : prog := brief CThread q ;; brief CThread q.

(* request_queue_impl_worker::stop_thread, with the join.
   foxxll/io/request_queue_impl_worker.cpp 39-64. *)
Definition stop_thread (q sem : nat) : prog :=
  brief CThread q ;; brief CThread q ;; sem_signal sem ;; Block ;;
  brief CThread q ;; brief CThread q.

(* request_queue_impl_qwqr::add_request: with the check for pending requests
   compiled in, the other queue's mutex is taken and released first.
   foxxll/io/request_queue_impl_qwqr.cpp 60-108. *)
Definition qwqr_add (q : nat) : prog :=
  brief CThread q ;;
  Or (Or Skip (brief CWrite q) ;; brief CRead q)
     (Or Skip (brief CRead q) ;; brief CWrite q) ;;
  sem_signal (qsem q).

(* request_queue_impl_qwqr::cancel_request: unlocks before sem_.wait().
   foxxll/io/request_queue_impl_qwqr.cpp 110-147. *)
Definition qwqr_cancel (q : nat) : prog :=
  brief CThread q ;; Or (brief CRead q) (brief CWrite q) ;;
  Or Skip (sem_wait (qsem q)).

(* request_queue_impl_qwqr::worker: unlocks before it serves the request.
   foxxll/io/request_queue_impl_qwqr.cpp 154-224. *)
Definition qwqr_worker (q : nat) : prog :=
  Star (sem_wait (qsem q) ;;
        Or (brief CWrite q) (brief CRead q) ;;
        Or (Any (fun r => Any (fun f => serve r f))) (sem_signal (qsem q)) ;;
        brief CThread q ;;
        Or Skip (sem_wait (qsem q) ;; Or Skip (sem_signal (qsem q)))) ;;
  brief CThread q.

(* request_queue_impl_1q::add_request: the lock lives to the end of the
   function, so sem_.signal() is inside.
   foxxll/io/request_queue_impl_1q.cpp 61-88. *)
Definition q1_add (q : nat) : prog :=
  brief CThread q ;; With (Mtx C1q q) (sem_signal (qsem q)).

(* request_queue_impl_1q::cancel_request.
   foxxll/io/request_queue_impl_1q.cpp 90-115. *)
Definition q1_cancel (q : nat) : prog :=
  brief CThread q ;; brief C1q q ;; Or Skip (sem_wait (qsem q)).

(* request_queue_impl_1q::worker.
   foxxll/io/request_queue_impl_1q.cpp 122-165. *)
Definition q1_worker (q : nat) : prog :=
  Star (sem_wait (qsem q) ;;
        brief C1q q ;;
        Or (Any (fun r => Any (fun f => serve r f))) (sem_signal (qsem q)) ;;
        brief CThread q ;;
        Or Skip (sem_wait (qsem q) ;; Or Skip (sem_signal (qsem q)))) ;;
  brief CThread q.

(* linuxaio_request::completed.  foxxll/io/linuxaio_request.cpp 25-52. *)
Definition aio_completed (r f : nat) : prog :=
  Or Skip (fs_other f) ;; completed r.

(* linuxaio_queue::handle_events.  foxxll/io/linuxaio_queue.cpp 242-258. *)
Definition aio_events (q : nat) : prog :=
  sem_signal (qfree q) ;;
  Star (Any (fun r => Any (fun f => aio_completed r f))) ;;
  sem_wait (qposted q).

(* linuxaio_queue::add_request.  foxxll/io/linuxaio_queue.cpp 76-90. *)
Definition aio_add (q : nat) : prog :=
  brief CThread q ;; brief CAio q ;; sem_signal (qsem q).

(* linuxaio_queue::cancel_request, the request not yet posted.
   foxxll/io/linuxaio_queue.cpp 92-121. *)
Definition aio_cancel_waiting (q r f : nat) : prog :=
  brief CThread q ;; brief CAio q ;; aio_completed r f ;; sem_wait (qsem q).

(* linuxaio_queue::cancel_request, the request already posted: waiting_mtx_
   is held over cancel_aio, which calls handle_events if the kernel cancels.
   foxxll/io/linuxaio_queue.cpp 122-145, foxxll/io/linuxaio_request.cpp 92-105. *)
Definition aio_cancel_posted (q r f : nat) : prog :=
  brief CThread q ;; brief CAio q ;;
  With (Mtx CAio q) (Or Skip (aio_events q)) ;;
  Or Skip (sem_signal (qfree q) ;; aio_completed r f ;; sem_wait (qposted q)).

(* linuxaio_queue::post_requests, the posting thread: the semaphores are
   tried under waiting_mtx_ but waited for outside; io_getevents with a
   minimum of 0 does not wait.  foxxll/io/linuxaio_queue.cpp 148-240. *)
Definition aio_post (q : nat) : prog :=
  Star (sem_wait (qsem q) ;; brief CThread q ;;
        With (Mtx CAio q) (Star (sem_signal (qfree q) ;; sem_signal (qsem q) ;;
                                 Or Skip (sem_signal (qfree q)))) ;;
        Or (sem_signal (qsem q))
           (sem_wait (qfree q) ;;
            Star (sem_signal (qposted q) ;; Or Skip (aio_events q)))) ;;
  brief CThread q.

(* linuxaio_queue::wait_requests, the waiting thread.
   foxxll/io/linuxaio_queue.cpp 261-302. *)
Definition aio_wait (q : nat) : prog :=
  Star (sem_wait (qposted q) ;; brief CThread q ;;
        Star Block ;; sem_signal (qposted q) ;; aio_events q) ;;
  brief CThread q.

(* A new queue, with its one or two threads.
   foxxll/io/request_queue_impl_qwqr.cpp 48-58, foxxll/io/linuxaio_queue.cpp
   36-66. *)
Definition new_queue (q : nat) : prog :=
  Or (start_thread q) (sem_signal (qfree q) ;; start_thread q ;; start_thread q).

(* ~request_queue_impl_qwqr, ~linuxaio_queue.
   foxxll/io/request_queue_impl_qwqr.cpp 149-152, foxxll/io/linuxaio_queue.cpp
   69-74. *)
Definition delete_queue (q : nat) : prog :=
  Or (stop_thread q (qsem q))
     (stop_thread q (qsem q) ;; stop_thread q (qposted q)).

(* disk_queues::make_queue.  foxxll/io/disk_queues.cpp 39-58. *)
Definition dq_make (q : nat) : prog := With (Mtx CDq 0) (Or Skip (new_queue q)).

(* disk_queues::add_request: mutex_ is held while the queue is made and the
   request added.  foxxll/io/disk_queues.cpp 60-85. *)
Definition dq_add (q : nat) : prog :=
  With (Mtx CDq 0) (Or Skip (new_queue q) ;; Or (qwqr_add q) (aio_add q)).

(* disk_queues::cancel_request: mutex_ is held while the queue cancels.  A
   linuxaio_request does not come this way (see [aio_cancel]).
   foxxll/io/disk_queues.cpp 87-98. *)
Definition dq_cancel (q : nat) : prog :=
  With (Mtx CDq 0) (Or Skip (qwqr_cancel q)).

(* disk_queues::get_queue, set_priority_op.
   foxxll/io/disk_queues.cpp 100-116. *)
Definition dq_other : prog := brief CDq 0.

(* disk_queues::~disk_queues: mutex_ is held while the queues are deleted.
   foxxll/io/disk_queues.cpp 31-37. *)
Definition dq_dtor : prog :=
  With (Mtx CDq 0) (Star (Any (fun q => delete_queue q))).

(* file::aread, awrite of every kind of file.
   foxxll/io/disk_queued_file.cpp 22-47, foxxll/io/linuxaio_file.cpp 20-46. *)
Definition submit (q : nat) : prog := get_dq ;; dq_add q.

(* request_with_state::cancel.  foxxll/io/request_with_state.cpp 46-67. *)
Definition req_cancel (q r : nat) : prog :=
  get_dq ;; dq_cancel q ;; Or Skip (completed r).

(* linuxaio_file::serve, for a caller other than a worker: a request and a
   wait for it.  foxxll/io/linuxaio_file.cpp 48-57. *)
Definition serve_aio (q r : nat) : prog := submit q ;; req_wait r.

(* wait_all.  foxxll/io/request_operations.hpp 32-45. *)
Definition wait_all : prog := Star (Any (fun r => req_wait r)).

(* poll_any.  foxxll/io/request_operations.hpp 73-97. *)
Definition poll_any : prog := Star (Any (fun r => poll r)).

(* wait_any, with the switch sw.  foxxll/io/request_operations.hpp 103-143. *)
Definition wait_any (sw : nat) : prog :=
  stats_wait ;;
  Star (Any (fun r => add_waiter r)) ;;
  Or (Star (Any (fun r => delete_waiter r)))
     (sleep CSwitch sw ;;
      Star (Any (fun r => delete_waiter r ;; Or Skip (poll r)))) ;;
  stats_wait.

(* fileperblock_file::lock: makes the lock file, writes one page to it and
   waits for that.  foxxll/io/fileperblock_file.cpp 81-102. *)
Definition fpb_lock (q r l : nat) : prog :=
  Or Skip (file_ctor ;; fd_op l ;; fd_op l ;; submit q ;; req_wait r) ;; fd_op l.

(* create_file: config for the device number, the file's constructor (with
   its own lock()), lock(), and the size of a raw device.
   foxxll/io/create_file.cpp 44-211, foxxll/io/ufs_file_base.cpp 177-179. *)
Definition create_file : prog :=
  get_cfg ;; file_ctor ;;
  Or (Any (fun f => fd_op f ;; fd_op f ;; fd_op f))
     (if fpb then Any (fun q => Any (fun r => Any (fun l => fpb_lock q r l)))
      else Skip).

(* block_manager's constructor: for every disk the file, the queue and the
   allocator, which sets the size of the file.
   foxxll/mng/block_manager.cpp 33-82, foxxll/mng/disk_block_allocator.hpp 51-58. *)
Definition bm_ctor : prog :=
  get_cfg ;;
  Star (create_file ;; get_dq ;; Any (fun q => dq_make q) ;;
        Any (fun f => fd_op f)).

(* block_manager's destructor: the allocator may shrink the file, the file
   closes its descriptor.
   foxxll/mng/block_manager.cpp 84-93, foxxll/mng/disk_block_allocator.hpp 64-69. *)
Definition bm_dtor : prog := Star (Any (fun f => fd_op f ;; fd_op f)).

(* block_manager::get_instance().  foxxll/singleton.hpp 42-48. *)
Definition get_bm : prog := get SBm bm_ctor.

(* disk_block_allocator::new_blocks: the lock is released before the
   recursive calls, so the recursion is a sequence of locked parts.
   foxxll/mng/disk_block_allocator.hpp 158-260. *)
Definition alloc_new (d : nat) : prog :=
  Star (With (Mtx CAlloc d) (Star (Any (fun f => fd_op f)))).

(* block_manager::new_blocks; the functor of the allocation strategy, called
   under mutex_, is taken not to call the library (no strategy of
   foxxll/mng/block_alloc_strategy.hpp does).
   foxxll/mng/block_manager.hpp 164-246. *)
Definition bm_new : prog := With (Mtx CBm 0) (Star (Any (fun d => alloc_new d))).

(* block_manager::delete_block.  foxxll/mng/block_manager.hpp 250-268,
   foxxll/mng/disk_block_allocator.hpp 111-120. *)
Definition bm_delete : prog :=
  With (Mtx CBm 0)
    (Or Skip (Any (fun d => brief CAlloc d) ;; Any (fun f => fd_op f))).

(* The counters of block_manager.  foxxll/mng/block_manager.cpp 97-137. *)
Definition bm_count : prog := brief CBm 0.

(* timer: stop, reset, the three readings, and += , which reads the other
   timer before it locks its own mutex.
   foxxll/common/timer.hpp 90-151. *)
Definition timer_op (t u : nat) : prog := Or Skip (brief CTimer u) ;; brief CTimer t.

(* singleton::destroy_instance, with the mutex held over the destructor.
   foxxll/singleton.hpp 87-94. *)
Definition destroy (s : single) : prog :=
  With (Mtx (CSing s) 0)
    (match s with SBm => bm_dtor | SDq => dq_dtor | _ => Skip end).

(* Any of the exit handlers that are ever registered.  foxxll/singleton.hpp 81. *)
Definition one_exit : prog :=
  Or (destroy SBm) (Or (destroy SCfg) (Or (destroy SDq) (destroy SStats))).

(* The end of the process: exit() runs the handlers given to atexit one
   after the other; run_exit_handlers of the other implementation holds
   exit_handler_mutex over all of them.
   foxxll/common/exithandler.cpp 35-38, 66-73. *)
Definition run_exit : prog :=
  if nd then With (Mtx CExit 0) (Star one_exit) else Star one_exit.

(* What a thread of the user's, or a thread of the library's, may call from
   outside, all but the three below.
   The functions defined above, for instance block_manager::new_blocks
   (foxxll/mng/block_manager.hpp 164-246) and file::aread
   (foxxll/io/disk_queued_file.cpp 22-33). *)
Inductive usual : prog -> Prop :=
| u_stats : usual (get_stats ;; Or (brief CStList 0) stats_wait)
| u_cfg : usual get_cfg
| u_dq : usual (get_dq ;; dq_other)
| u_bm : usual get_bm
| u_bm_new : usual (get_bm ;; bm_new)
| u_bm_del : usual (get_bm ;; bm_delete)
| u_bm_cnt : usual (get_bm ;; bm_count)
| u_submit q : usual (submit q)
| u_wait r : usual (req_wait r)
| u_poll r : usual (poll r)
| u_wait_all : usual wait_all
| u_wait_any sw : usual (wait_any sw)
| u_poll_any : usual poll_any
| u_waiter r : usual (Or (add_waiter r) (delete_waiter r))
| u_cancel_aio q r f : usual (get_dq ;; dq_other ;; aio_cancel_waiting q r f)
| u_serve r f : usual (serve r f)
| u_serve_aio q r : usual (serve_aio q r)
| u_fd f : usual (fd_op f)
| u_file : usual create_file
| u_timer t u : usual (timer_op t u)
| u_switch s : usual (Or (brief CSwitch s) (sleep CSwitch s))
| u_worker q : usual (qwqr_worker q)
| u_worker1 q : usual (q1_worker q)
| u_add1 q : usual (Or (q1_add q) (q1_cancel q))
| u_post q : usual (aio_post q)
| u_wait_thread q : usual (aio_wait q).

(* As [usual], with cancel of a request (one that is not linuxaio's).
   foxxll/io/request_with_state.cpp 46-67; cancel_all at
   foxxll/io/request_operations.hpp 55-67. *)
Inductive most : prog -> Prop :=
| m_usual p : usual p -> most p
| m_cancel q r : most (req_cancel q r)
| m_cancel_all : most (Star (Any (fun q => Any (fun r => req_cancel q r)))).

(* As [most], with the end of the process.
   foxxll/common/exithandler.cpp 35-38, 66-73. *)
Inductive every : prog -> Prop :=
| e_most p : most p -> every p
| e_exit : every run_exit.

(* As [every], with cancel of a linuxaio request that was posted.
   foxxll/io/linuxaio_request.cpp 79-90. *)
Inductive every_aio : prog -> Prop :=
| ea_every p : every p -> every_aio p
| ea_cancel q r f : every_aio (get_dq ;; dq_other ;; aio_cancel_posted q r f).

End Build.

(* ---- Execution. ---- *)

(* What a thread still has to do: run a program, unlock a mutex at the end of
   its scope (foxxll/common/shared_state.hpp 65), or wake up from a wait on a
   condition variable (shared_state.hpp 58). *)
Inductive item : Type :=
| Do (p : prog)
| Rel (m : mtx)
| Asleep (m : mtx).

(* A thread: its items, the next first ([std::thread],
   foxxll/io/request_queue_impl_worker.cpp 35). *)
Definition thread : Type := list item.

(* The mutexes whose scope the thread is in, innermost first (the
   unique_locks on its stack, foxxll/common/shared_state.hpp 48). *)
Fixpoint scopes (k : thread) : list mtx :=
  match k with
  | [] => []
  | Rel m :: k' => m :: scopes k'
  | _ :: k' => scopes k'
  end.

(* The mutexes the thread has locked: a thread that sleeps on a condition
   variable has given that one mutex back.  foxxll/common/shared_state.hpp 58. *)
Definition held (k : thread) : list mtx :=
  match k with
  | Asleep _ :: k' => tl (scopes k')
  | _ => scopes k
  end.

(* A system: all threads there are.  foxxll/io/request_queue_impl_worker.cpp 35. *)
Definition sys : Type := list thread.

(* No thread has the mutex (std::mutex::lock succeeds).
   foxxll/common/shared_state.hpp 48. *)
Definition free (m : mtx) (st : sys) : Prop :=
  forall k, In k st -> ~ In m (held k).

(* Where an exception may start: anywhere but in a call that locks or waits.
   foxxll/common/error_handling.hpp 40-124 (the FOXXLL_THROW macros, used
   throughout). *)
Definition can_throw (p : prog) : Prop :=
  match p with With _ _ | Wait _ | Block => False | _ => True end.

(* One step of one thread; [fr] says which mutexes are free, [E] what a
   thread that has nothing to do may call, [H] what a completion handler may.
   - [t_throw]: an exception leaves any number of scopes, unlocking on its
     way (a unique_lock's destructor), and is caught somewhere, for instance
     in serving_request::serve (foxxll/io/serving_request.cpp 51-58).
   foxxll/common/shared_state.hpp 46-65 and the definitions above. *)
Inductive tstep (E H : prog -> Prop) (fr : mtx -> Prop) : thread -> thread -> Prop :=
| t_skip k : tstep E H fr (Do Skip :: k) k
| t_lock m p k : fr m -> tstep E H fr (Do (With m p) :: k) (Do p :: Rel m :: k)
| t_unlock m k : tstep E H fr (Rel m :: k) k
| t_sleep m k : tstep E H fr (Do (Wait m) :: k) (Asleep m :: k)
| t_wake m k : fr m -> tstep E H fr (Asleep m :: k) k
| t_block k : tstep E H fr (Do Block :: k) k
| t_call p k : H p -> tstep E H fr (Do User :: k) (Do p :: Do User :: k)
| t_return k : tstep E H fr (Do User :: k) k
| t_seq p q k : tstep E H fr (Do (Seq p q) :: k) (Do p :: Do q :: k)
| t_or_l p q k : tstep E H fr (Do (Or p q) :: k) (Do p :: k)
| t_or_r p q k : tstep E H fr (Do (Or p q) :: k) (Do q :: k)
| t_star_end p k : tstep E H fr (Do (Star p) :: k) k
| t_star_go p k : tstep E H fr (Do (Star p) :: k) (Do p :: Do (Star p) :: k)
| t_any f n k : tstep E H fr (Do (Any f) :: k) (Do (f n) :: k)
| t_throw p pre k :
    can_throw p -> tstep E H fr (Do p :: pre ++ k) (map Rel (scopes pre) ++ k)
| t_start p : E p -> tstep E H fr [] [Do p].

(* One step of the system: of one thread, or a new thread.
   foxxll/io/request_queue_impl_worker.cpp 35. *)
Inductive step (E H : prog -> Prop) (st : sys) : sys -> Prop :=
| s_thread i k k' :
    nth_error st i = Some k -> tstep E H (fun m => free m st) k k' ->
    step E H st (firstn i st ++ k' :: skipn (S i) st)
| s_spawn : step E H st (st ++ [[]]).

(* All executions, from a system without threads.
   foxxll/io/request_queue_impl_worker.cpp 35 and the definitions above. *)
Inductive reach (E H : prog -> Prop) : sys -> Prop :=
| r_init : reach E H []
| r_step st st' : reach E H st -> step E H st st' -> reach E H st'.
