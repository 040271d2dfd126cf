(* Which members of the library's objects its functions read and write, and
   under which mutexes.  As in LockModel.v a function is modelled by the order
   of what it does, each branch of the code becomes a free choice, and the
   values are left out.  Members that only constructors and destructors write
   are left out: nobody else has the object then. *)
From Coq Require Import List Arith.
From Verif Require LockModel.
Import LockModel(mtx, Mtx, class(..), single(..), qsem, qfree, qposted).
Import ListNotations.

(* The members that threads share.
   - MState: state_ of a request's shared_state          common/shared_state.hpp 35
   - MTState: the same of a thread's (object 2q: the thread of queue q or the
     posting thread, 2q+1: the waiting thread)           io/linuxaio_queue.hpp 64
   - MSwitch: on_                                        common/onoff_switch.hpp 34
   - MSem: the counter in tlx::semaphore                 (used by the queues)
   - MWaiters: waiters_                                  io/request_with_waiters.cpp 36
   - MError, MFile: error_, file_ of a request           io/request.hpp 56, 63
   - MCb: cb_ of a linuxaio_request                      io/linuxaio_request.hpp 44
   - MQr, MQw: read_queue_, write_queue_                 io/request_queue_impl_qwqr.hpp 44-45
   - MQ1: queue_                                         io/request_queue_impl_1q.hpp 39
   - MAioQ: waiting_requests_                            io/linuxaio_queue.hpp 55
   - MQueues: queues_                                    io/disk_queues.hpp 49
   - MCount: the three counters of block_manager         mng/block_manager.hpp 146-152
   - MFree: free_space_, free_bytes_, disk_bytes_        mng/disk_block_allocator.hpp 129-131
   - MFdes: file_des_ (not of a linuxaio_file)           io/ufs_file_base.cpp 184-191
   - MPos: the position of the file descriptor           io/syscall_file.cpp 40
   - MMem, MMemSize: ptr_ with the bytes, and size_      io/memory_file.cpp 35-71
   - MFsR, MFsW: file_stats' counters of reads, writes   io/iostats.hpp 51-57
   - MStR, MStW, MStIo, MStWait, MStList: stats' members io/iostats.hpp 330-356
   - MAcc: accumulated; MRun: running, last_clock        common/timer.hpp 53-59
   - MInst s: instance_ of a singleton                   singleton.hpp 66
   - MDev: max_device_id_ of config                      mng/config.hpp 175
   - MFpb: current_size_ of a fileperblock_file          io/fileperblock_file.hpp 35
   - MExit: exit_handlers                                common/exithandler.cpp 56 *)
Inductive member : Type :=
| MState | MTState | MSwitch | MSem | MWaiters | MError | MFile | MCb
| MQr | MQw | MQ1 | MAioQ | MQueues | MCount | MFree
| MFdes | MPos | MMem | MMemSize
| MFsR | MFsW | MStR | MStW | MStIo | MStWait | MStList
| MAcc | MRun | MInst (s : single) | MDev | MFpb | MExit.

(* A member of one object, by number (foxxll/common/shared_state.hpp 35 and
   the others listed at [member]). *)
Record var : Type := Var { vmember : member; vobj : nat }.

(* What a function does.
   - [Acc x w]: reads (w = false) or writes (w = true) a member; an update is
     a write (for instance foxxll/common/shared_state.hpp 49, 57).
   - [With], [Wait], [User], [Seq], [Or], [Star], [Any]: as in LockModel.v;
     unique_lock, condition_variable::wait (shared_state.hpp 48, 58), a
     completion handler (io/request_with_state.cpp 58, 85). *)
Inductive prog : Type :=
| Skip
| With (m : mtx) (p : prog)
| Wait (m : mtx)
| Acc (x : var) (w : bool)
| User
| Seq (p q : prog)
| Or (p q : prog)
| Star (p : prog)
| Any (f : nat -> prog).

(* One statement after another (for instance foxxll/common/shared_state.hpp 48-50). *)
Notation "p ;; q" := (Seq p q) (at level 61, right associativity).

(* A read (foxxll/common/shared_state.hpp 64 is one). *)
Definition rd (x : member) (o : nat) : prog := Acc (Var x o) false.
(* A write or an update (foxxll/common/shared_state.hpp 49 is one). *)
Definition wr (x : member) (o : nat) : prog := Acc (Var x o) true.
(* Under a mutex (foxxll/common/shared_state.hpp 48-50). *)
Definition locked (c : class) (o : nat) (p : prog) : prog := With (Mtx c o) p.

(* ---- common ---- *)

(* shared_state: set_to, operator (), wait_for.  foxxll/common/shared_state.hpp
   46-52, 61-65, 54-59. *)
Definition set_to (c : class) (x : member) (o : nat) : prog := locked c o (wr x o).
(* foxxll/common/shared_state.hpp 61-65. *)
Definition get_state (c : class) (x : member) (o : nat) : prog := locked c o (rd x o).
(* foxxll/common/shared_state.hpp 54-59. *)
Definition wait_for (c : class) (x : member) (o : nat) : prog :=
  locked c o (Star (rd x o ;; Wait (Mtx c o)) ;; rd x o).

(* onoff_switch::on, off.  foxxll/common/onoff_switch.hpp 47-61. *)
Definition switch_set (s : nat) : prog := locked CSwitch s (wr MSwitch s).
(* onoff_switch::wait_for_on, wait_for_off, is_on.
   foxxll/common/onoff_switch.hpp 63-83. *)
Definition switch_wait (s : nat) : prog :=
  locked CSwitch s (rd MSwitch s ;; Or Skip (Wait (Mtx CSwitch s))).

(* tlx::semaphore by its documented behaviour: signal and try_acquire, wait.
   Used at foxxll/io/request_queue_impl_qwqr.cpp 108, 130, 161. *)
Definition sem_signal (o : nat) : prog := locked CSem o (wr MSem o).
(* The other half of tlx::semaphore (foxxll/io/request_queue_impl_qwqr.cpp 161). *)
Definition sem_wait (o : nat) : prog :=
  locked CSem o (Star (rd MSem o ;; Wait (Mtx CSem o)) ;; wr MSem o).

(* timer::start: no lock.  foxxll/common/timer.hpp 82-86. *)
Definition timer_start (t : nat) : prog := wr MRun t.
(* timer::stop: running and last_clock before the lock.
   foxxll/common/timer.hpp 89-96. *)
Definition timer_stop (t : nat) : prog :=
  wr MRun t ;; rd MRun t ;; locked CTimer t (wr MAcc t).
(* timer::reset.  foxxll/common/timer.hpp 99-104. *)
Definition timer_reset (t : nat) : prog := locked CTimer t (wr MAcc t ;; wr MRun t).
(* timer::mseconds, useconds, seconds; the last two read last_clock before
   they lock.  foxxll/common/timer.hpp 107-141. *)
Definition timer_read (t : nat) : prog :=
  Or Skip (rd MRun t) ;; locked CTimer t (rd MRun t ;; rd MAcc t).
(* timer::operator +=.  foxxll/common/timer.hpp 144-151. *)
Definition timer_add (t u : nat) : prog := timer_read u ;; locked CTimer t (wr MAcc t).

(* ---- singletons ---- *)

(* register_exit_handler, of either implementation.
   foxxll/common/exithandler.cpp 35-38, 58-63. *)
Definition register_exit : prog := Or Skip (locked CExit 0 (wr MExit 0)).
(* singleton::create_instance.  foxxll/singleton.hpp 72-85. *)
Definition create (s : single) (ctor : prog) : prog :=
  locked (CSing s) 0
    (rd (MInst s) 0 ;; Or Skip (ctor ;; wr (MInst s) 0 ;; register_exit) ;; rd (MInst s) 0).
(* singleton::get_instance, get_ref: instance_ is read without the lock.
   foxxll/singleton.hpp 41-55. *)
Definition get (s : single) (ctor : prog) : prog :=
  rd (MInst s) 0 ;; Or Skip (create s ctor) ;; rd (MInst s) 0.
(* stats::get_instance().  foxxll/io/iostats.cpp 199-214. *)
Definition get_stats : prog := get SStats Skip.
(* config::get_instance().  foxxll/mng/config.hpp 114-140. *)
Definition get_cfg : prog := get SCfg Skip.
(* disk_queues::get_instance().  foxxll/io/disk_queues.cpp 26-29. *)
Definition get_dq : prog := get SDq get_stats.

(* ---- statistics ---- *)

(* stats::p_write_started, p_write_finished, p_read_started, p_read_finished;
   file_stats' own part of either.  foxxll/io/iostats.cpp 44-60, 73-86,
   97-113, 126-139, 279-349. *)
Definition fs_write (f : nat) : prog :=
  locked CFsW f (wr MFsW f) ;; get_stats ;;
  locked CStW 0 (wr MStW 0) ;; locked CStIo 0 (wr MStIo 0).
(* The same of a read.  foxxll/io/iostats.cpp 97-113, 126-139, 315-349. *)
Definition fs_read (f : nat) : prog :=
  locked CFsR f (wr MFsR f) ;; get_stats ;;
  locked CStR 0 (wr MStR 0) ;; locked CStIo 0 (wr MStIo 0).
(* write_op_finished, read_op_finished, write_canceled, read_canceled.
   foxxll/io/iostats.cpp 62-71, 88-95, 115-124, 141-148. *)
Definition fs_other (f : nat) : prog :=
  Or (locked CFsW f (wr MFsW f) ;; Or Skip (fs_write f))
     (locked CFsR f (wr MFsR f) ;; Or Skip (fs_read f)).
(* stats::create_file_stats.  foxxll/io/iostats.cpp 351-365. *)
Definition file_ctor : prog :=
  get_stats ;; locked CStList 0 (rd MStList 0 ;; Or Skip (wr MStList 0)).
(* stats::wait_started, wait_finished.  foxxll/io/iostats.cpp 217-275. *)
Definition stats_wait : prog :=
  Or Skip (get_stats ;; locked CStWait 0 (wr MStWait 0)).
(* stats::deepcopy_file_stats_data_list with file_stats_data's constructor:
   list_mutex_, but no mutex of the file_stats.
   foxxll/io/iostats.cpp 367-373, foxxll/io/iostats.hpp 268-276. *)
Definition snapshot_files : prog :=
  get_stats ;; locked CStList 0 (rd MStList 0 ;; Star (Any (fun f => rd MFsR f ;; rd MFsW f))).
(* get_read_count and the other readings of one file_stats: no lock.
   foxxll/io/iostats.hpp 191-233. *)
Definition fs_get (f : nat) : prog := Or (rd MFsR f) (rd MFsW f).
(* get_io_wait_time and the other readings of stats: no lock.
   foxxll/io/iostats.hpp 428-465. *)
Definition stats_get : prog :=
  get_stats ;; Or (rd MStWait 0) (Or (rd MStR 0) (Or (rd MStW 0) (rd MStIo 0))).

(* ---- files ---- *)

(* serve of syscall, mmap and wincall files: the position is moved and used
   under the mutex.  foxxll/io/syscall_file.cpp 28-118, foxxll/io/mmap_file.cpp
   26-70, foxxll/io/wincall_file.cpp 29-117. *)
Definition serve_fd (f : nat) : prog :=
  locked CFd f (Or (fs_read f) (fs_write f) ;;
                Star (rd MFdes f ;; Or Skip (wr MPos f ;; rd MPos f ;; wr MPos f)) ;;
                Or (fs_read f) (fs_write f)).
(* serve of a memory file.  foxxll/io/memory_file.cpp 26-43. *)
Definition serve_mem (f : nat) : prog :=
  locked CFd f (Or (fs_read f ;; rd MMem f ;; fs_read f)
                   (fs_write f ;; wr MMem f ;; fs_write f)).
(* fileperblock_file::serve: a file of its own for the time of the transfer.
   foxxll/io/fileperblock_file.cpp 70-79. *)
Definition serve_fpb (f : nat) : prog :=
  Any (fun b => locked CFd b (rd MFdes b ;; wr MPos b) ;;
     locked CFd b (Or (fs_read f) (fs_write f) ;; rd MFdes b ;; wr MPos b ;; Or (fs_read f) (fs_write f)) ;;
     locked CFd b (rd MFdes b ;; wr MFdes b)).
(* file::serve of any file a worker thread serves.
   foxxll/io/serving_request.cpp 51-58. *)
Definition serve_file (f : nat) : prog := Or (serve_fd f) (Or (serve_mem f) (serve_fpb f)).
(* set_size, size, lock and close of ufs and wfs files.
   foxxll/io/ufs_file_base.cpp 182-235, foxxll/io/wfs_file_base.cpp 160-225. *)
Definition fd_op (f : nat) : prog :=
  locked CFd f (rd MFdes f ;; Or (wr MPos f) (Or Skip (wr MFdes f))).
(* memory_file::set_size, discard.  foxxll/io/memory_file.cpp 65-93. *)
Definition mem_op (f : nat) : prog :=
  locked CFd f (wr MMem f ;; Or Skip (wr MMemSize f)).
(* memory_file::size: no lock.  foxxll/io/memory_file.cpp 60-63. *)
Definition mem_size (f : nat) : prog := rd MMemSize f.
(* fileperblock_file::set_size, size: no lock.
   foxxll/io/fileperblock_file.hpp 60-66. *)
Definition fpb_size (f : nat) : prog := Or (wr MFpb f) (rd MFpb f).
(* file::set_size of any file, as the block allocator calls it.
   foxxll/mng/disk_block_allocator.hpp 152. *)
Definition set_size (f : nat) : prog := Or (fd_op f) (Or (mem_op f) (wr MFpb f)).

(* ---- requests ---- *)

(* request::check_errors: error_ without a lock.  foxxll/io/request.hpp 114-118. *)
Definition check_errors (r : nat) : prog := rd MError r.
(* request_with_state::poll: whatever the state is, error_ is read.
   foxxll/io/request_with_state.cpp 69-76. *)
Definition poll (r : nat) : prog := get_state CState MState r ;; check_errors r.
(* request_with_state::wait.  foxxll/io/request_with_state.cpp 34-44. *)
Definition req_wait (r : nat) : prog :=
  stats_wait ;; wait_for CState MState r ;; check_errors r ;; stats_wait.
(* request_with_waiters::add_waiter.  foxxll/io/request_with_waiters.cpp 23-39. *)
Definition add_waiter (r : nat) : prog :=
  locked CWaiters r (poll r ;; Or Skip (wr MWaiters r)).
(* delete_waiter, num_waiters.  foxxll/io/request_with_waiters.cpp 41-45, 56-60. *)
Definition delete_waiter (r : nat) : prog :=
  locked CWaiters r (Or (wr MWaiters r) (rd MWaiters r)).
(* notify_waiters.  foxxll/io/request_with_waiters.cpp 47-54. *)
Definition notify_waiters (r : nat) : prog :=
  locked CWaiters r (Star (rd MWaiters r ;; Any (fun s => switch_set s))).
(* request::release_file_reference.  foxxll/io/request.cpp 95-101. *)
Definition release_file (r : nat) : prog := rd MFile r ;; Or Skip (wr MFile r).
(* request_with_state::completed.  foxxll/io/request_with_state.cpp 78-90. *)
Definition completed (r : nat) : prog :=
  set_to CState MState r ;; Or Skip User ;; notify_waiters r ;;
  release_file r ;; set_to CState MState r.
(* serving_request::serve; error_occured if the transfer throws.
   foxxll/io/serving_request.cpp 40-63, foxxll/io/request.cpp 80-88. *)
Definition serve (r f : nat) : prog :=
  rd MFile r ;; serve_file f ;; Or Skip (wr MError r) ;; completed r.
(* get_file, io_type: no lock.  foxxll/io/request.hpp 95, foxxll/io/request.cpp 90-93. *)
Definition req_file (r : nat) : prog := rd MFile r.

(* ---- queues ---- *)

(* request_queue_impl_worker::start_thread and stop_thread.
   foxxll/io/request_queue_impl_worker.cpp 30-64. *)
Definition start_thread (t : nat) : prog :=
  get_state CThread MTState t ;; set_to CThread MTState t.
(* foxxll/io/request_queue_impl_worker.cpp 39-64. *)
Definition stop_thread (t sem : nat) : prog :=
  get_state CThread MTState t ;; set_to CThread MTState t ;; sem_signal sem ;;
  get_state CThread MTState t ;; set_to CThread MTState t.
(* request_queue_impl_qwqr::add_request.
   foxxll/io/request_queue_impl_qwqr.cpp 61-109. *)
Definition qwqr_add (q : nat) : prog :=
  get_state CThread MTState (2 * q) ;;
  Or (Or Skip (locked CWrite q (rd MQw q)) ;; locked CRead q (wr MQr q))
     (Or Skip (locked CRead q (rd MQr q)) ;; locked CWrite q (wr MQw q)) ;;
  sem_signal (qsem q).
(* request_queue_impl_qwqr::cancel_request.
   foxxll/io/request_queue_impl_qwqr.cpp 111-148. *)
Definition qwqr_cancel (q : nat) : prog :=
  get_state CThread MTState (2 * q) ;;
  Or (locked CRead q (rd MQr q ;; Or Skip (wr MQr q)))
     (locked CWrite q (rd MQw q ;; Or Skip (wr MQw q))) ;;
  Or Skip (sem_wait (qsem q)).
(* The end of a worker's loop.  foxxll/io/request_queue_impl_qwqr.cpp 223-231,
   foxxll/io/request_queue_impl_1q.cpp 150-156. *)
Definition worker_check (q : nat) : prog :=
  get_state CThread MTState (2 * q) ;;
  Or Skip (sem_wait (qsem q) ;; Or Skip (sem_signal (qsem q))).
(* request_queue_impl_qwqr::worker.  foxxll/io/request_queue_impl_qwqr.cpp 155-233. *)
Definition qwqr_worker (q : nat) : prog :=
  Star (sem_wait (qsem q) ;;
        Or (locked CWrite q (rd MQw q ;; Or Skip (wr MQw q)))
           (locked CRead q (rd MQr q ;; Or Skip (wr MQr q))) ;;
        Or (Any (fun r => Any (fun f => serve r f))) (sem_signal (qsem q)) ;;
        worker_check q) ;;
  set_to CThread MTState (2 * q).
(* request_queue_impl_1q::add_request and cancel_request.
   foxxll/io/request_queue_impl_1q.cpp 62-115. *)
Definition q1_add (q : nat) : prog :=
  get_state CThread MTState (2 * q) ;;
  Or (Or Skip (locked C1q q (rd MQ1 q)) ;; locked C1q q (wr MQ1 q ;; sem_signal (qsem q)))
     (locked C1q q (rd MQ1 q ;; Or Skip (wr MQ1 q)) ;; Or Skip (sem_wait (qsem q))).
(* request_queue_impl_1q::worker.  foxxll/io/request_queue_impl_1q.cpp 122-158. *)
Definition q1_worker (q : nat) : prog :=
  Star (sem_wait (qsem q) ;; locked C1q q (rd MQ1 q ;; Or Skip (wr MQ1 q)) ;;
        Or (Any (fun r => Any (fun f => serve r f))) (sem_signal (qsem q)) ;;
        worker_check q) ;;
  set_to CThread MTState (2 * q).
(* linuxaio_request::completed.  foxxll/io/linuxaio_request.cpp 26-52. *)
Definition aio_completed (r f : nat) : prog :=
  rd MFile r ;; Or Skip (fs_other f) ;; completed r.
(* linuxaio_queue::handle_events.  foxxll/io/linuxaio_queue.cpp 248-263. *)
Definition aio_events (q : nat) : prog :=
  sem_signal (qfree q) ;;
  Star (Any (fun r => Any (fun f => aio_completed r f))) ;;
  sem_wait (qposted q).
(* linuxaio_queue::add_request.  foxxll/io/linuxaio_queue.cpp 76-90. *)
Definition aio_add (q : nat) : prog :=
  get_state CThread MTState (2 * q) ;; locked CAio q (wr MAioQ q) ;; sem_signal (qsem q).
(* linuxaio_queue::cancel_request.  foxxll/io/linuxaio_queue.cpp 92-141,
   foxxll/io/linuxaio_request.cpp 92-105. *)
Definition aio_cancel (q r f : nat) : prog :=
  get_state CThread MTState (2 * q) ;;
  Or (locked CAio q (rd MAioQ q ;; wr MAioQ q) ;; aio_completed r f ;; sem_wait (qsem q))
     (locked CAio q (rd MAioQ q) ;;
      locked CAio q (rd MFile r ;; Or Skip (rd MCb r ;; Or Skip (aio_events q))) ;;
      Or Skip (sem_signal (qfree q) ;; aio_completed r f ;; sem_wait (qposted q))).
(* linuxaio_queue::post_requests.  foxxll/io/linuxaio_queue.cpp 144-246,
   foxxll/io/linuxaio_request.cpp 54-74. *)
Definition aio_post (q : nat) : prog :=
  Star (sem_wait (qsem q) ;; get_state CThread MTState (2 * q) ;;
        locked CAio q (rd MAioQ q ;;
          Or Skip (wr MAioQ q ;;
                   Star (rd MAioQ q ;; sem_signal (qfree q) ;; sem_signal (qsem q) ;;
                         Or (sem_signal (qfree q)) (wr MAioQ q)))) ;;
        Or (sem_signal (qsem q))
           (sem_wait (qfree q) ;;
            Star (Any (fun r => rd MFile r ;; wr MCb r)) ;;
            Star (sem_signal (qposted q) ;; Or Skip (aio_events q)))) ;;
  set_to CThread MTState (2 * q).
(* linuxaio_queue::wait_requests.  foxxll/io/linuxaio_queue.cpp 266-308. *)
Definition aio_wait (q : nat) : prog :=
  Star (sem_wait (qposted q) ;; get_state CThread MTState (S (2 * q)) ;;
        sem_signal (qposted q) ;; aio_events q) ;;
  set_to CThread MTState (S (2 * q)).
(* A new queue.  foxxll/io/request_queue_impl_qwqr.cpp 48-53,
   foxxll/io/linuxaio_queue.cpp 36-66. *)
Definition new_queue (q : nat) : prog :=
  Or (start_thread (2 * q))
     (sem_signal (qfree q) ;; start_thread (2 * q) ;; start_thread (S (2 * q))).
(* disk_queues::make_queue, add_request.  foxxll/io/disk_queues.cpp 39-85. *)
Definition dq_add (q : nat) : prog :=
  locked CDq 0 (rd MQueues 0 ;; Or Skip (new_queue q ;; wr MQueues 0) ;;
                Or Skip (Or (qwqr_add q) (aio_add q))).
(* disk_queues::cancel_request; queues_[disk] is the updating operator of
   std::map.  foxxll/io/disk_queues.cpp 87-98. *)
Definition dq_cancel (q : nat) : prog :=
  locked CDq 0 (rd MQueues 0 ;; Or Skip (wr MQueues 0 ;; qwqr_cancel q)).
(* disk_queues::get_queue, set_priority_op.  foxxll/io/disk_queues.cpp 100-116. *)
Definition dq_other : prog := locked CDq 0 (rd MQueues 0 ;; Or Skip (wr MQueues 0)).
(* disk_queues::~disk_queues.  foxxll/io/disk_queues.cpp 31-37. *)
Definition dq_dtor : prog :=
  locked CDq 0 (rd MQueues 0 ;;
    Star (Any (fun q => stop_thread (2 * q) (qsem q) ;; Or Skip (stop_thread (S (2 * q)) (qposted q))))).
(* file::aread, awrite.  foxxll/io/disk_queued_file.cpp 22-47,
   foxxll/io/linuxaio_file.cpp 20-46. *)
Definition submit (q : nat) : prog := get_dq ;; dq_add q.
(* request_with_state::cancel: file_ is read before anything is locked.
   foxxll/io/request_with_state.cpp 46-67. *)
Definition req_cancel (q r : nat) : prog :=
  rd MFile r ;; get_dq ;; rd MFile r ;; dq_cancel q ;;
  Or Skip (set_to CState MState r ;; Or Skip User ;; notify_waiters r ;;
           rd MFile r ;; wr MFile r ;; set_to CState MState r).
(* linuxaio_request::cancel.  foxxll/io/linuxaio_request.cpp 79-90. *)
Definition req_cancel_aio (q r f : nat) : prog :=
  rd MFile r ;; get_dq ;; rd MFile r ;; dq_other ;; aio_cancel q r f.

(* wait_all, cancel_all, poll_any.  foxxll/io/request_operations.hpp 32-97. *)
Definition many : prog :=
  Star (Any (fun r => Or (req_wait r) (Or (poll r) (Any (fun q => req_cancel q r))))).
(* wait_any.  foxxll/io/request_operations.hpp 103-143. *)
Definition wait_any (sw : nat) : prog :=
  stats_wait ;; Star (Any (fun r => add_waiter r)) ;;
  Or Skip (switch_wait sw) ;;
  Star (Any (fun r => delete_waiter r ;; Or Skip (poll r))) ;; stats_wait.

(* ---- blocks ---- *)

(* disk_block_allocator::new_blocks, with grow_file.
   foxxll/mng/disk_block_allocator.hpp 147-260. *)
Definition alloc_new (d : nat) : prog :=
  Star (locked CAlloc d (rd MFree d ;; Star (Any (fun f => set_size f) ;; wr MFree d) ;;
                         rd MFree d ;; Or Skip (wr MFree d))).
(* disk_block_allocator::delete_block.  foxxll/mng/disk_block_allocator.hpp 111-120. *)
Definition alloc_delete (d : nat) : prog := locked CAlloc d (wr MFree d).
(* has_available_space, free_bytes, used_bytes, total_bytes: no lock.
   foxxll/mng/disk_block_allocator.hpp 74-92. *)
Definition alloc_get (d : nat) : prog := rd MFree d.
(* block_manager::new_blocks.  foxxll/mng/block_manager.hpp 164-246. *)
Definition bm_new : prog :=
  locked CBm 0 (Star (Any (fun d => alloc_get d)) ;;
                Star (Any (fun d => alloc_new d) ;; wr MCount 0) ;; wr MCount 0).
(* block_manager::delete_block.  foxxll/mng/block_manager.hpp 250-268. *)
Definition bm_delete : prog :=
  locked CBm 0 (Or Skip (Any (fun d => alloc_delete d) ;; Any (fun f => Or Skip (mem_op f)) ;;
                         wr MCount 0)).
(* The five counters of block_manager.  foxxll/mng/block_manager.cpp 97-137. *)
Definition bm_count : prog :=
  locked CBm 0 (Or (rd MCount 0) (Star (Any (fun d => alloc_get d)))).
(* config::next_device_id, update_max_device_id: no lock.
   foxxll/mng/config.cpp 194-203. *)
Definition next_device : prog := rd MDev 0 ;; Or Skip (wr MDev 0).
(* create_file.  foxxll/io/create_file.cpp 44-211. *)
Definition create_file : prog :=
  get_cfg ;; next_device ;; file_ctor ;; Star (Any (fun f => fd_op f)).
(* block_manager's constructor, apart from its own members.
   foxxll/mng/block_manager.cpp 33-82. *)
Definition bm_ctor : prog :=
  get_cfg ;; Star (create_file ;; get_dq ;; Any (fun q => dq_add q) ;; Any (fun f => set_size f)).
(* block_manager::get_instance().  foxxll/singleton.hpp 41-47. *)
Definition get_bm : prog := get SBm bm_ctor.
(* singleton::destroy_instance: the exit handlers.  The destructor of
   block_manager closes files.  foxxll/singleton.hpp 87-94,
   foxxll/mng/block_manager.cpp 84-93. *)
Definition destroy (s : single) : prog :=
  locked (CSing s) 0
    (rd (MInst s) 0 ;; wr (MInst s) 0 ;;
     match s with
     | SBm => Star (Any (fun f => set_size f))
     | SDq => dq_dtor
     | _ => Skip
     end).
(* run_exit_handlers.  foxxll/common/exithandler.cpp 66-73. *)
Definition run_exit : prog :=
  Or (Any (fun n => Or (destroy SBm) (Or (destroy SCfg) (Or (destroy SDq) (destroy SStats)))))
     (locked CExit 0 (Star (rd MExit 0 ;;
        Or (destroy SBm) (Or (destroy SCfg) (Or (destroy SDq) (destroy SStats))) ;; wr MExit 0))).

(* ---- What threads call. ---- *)

(* Everything but the readings of the statistics; the block allocators are
   used through the block manager.  The functions above, for instance
   block_manager::new_blocks (foxxll/mng/block_manager.hpp 164-246). *)
Inductive usual : prog -> Prop :=
| u_cfg : usual get_cfg
| u_dq : usual (get_dq ;; dq_other)
| u_stats : usual get_stats
| u_bm_new : usual (get_bm ;; bm_new)
| u_bm_delete : usual (get_bm ;; bm_delete)
| u_bm_count : usual (get_bm ;; bm_count)
| u_submit q : usual (submit q)
| u_wait r : usual (req_wait r)
| u_poll r : usual (poll r)
| u_file r : usual (req_file r)
| u_cancel q r : usual (req_cancel q r)
| u_cancel_aio q r f : usual (req_cancel_aio q r f)
| u_many : usual many
| u_wait_any s : usual (wait_any s)
| u_waiter r : usual (Or (add_waiter r) (delete_waiter r))
| u_switch s : usual (Or (switch_set s) (switch_wait s))
| u_serve r f : usual (serve r f)
| u_fd f : usual (fd_op f)
| u_mem f : usual (mem_op f)
| u_mem_size f : usual (mem_size f)
| u_fpb f : usual (fpb_size f)
| u_create_file : usual create_file
| u_timer_start t : usual (timer_start t)
| u_timer_stop t : usual (timer_stop t)
| u_timer_reset t : usual (timer_reset t)
| u_timer_read t : usual (timer_read t)
| u_timer_add t u : usual (timer_add t u)
| u_worker q : usual (qwqr_worker q)
| u_worker1 q : usual (q1_worker q)
| u_add1 q : usual (q1_add q)
| u_post q : usual (aio_post q)
| u_wait_thread q : usual (aio_wait q)
| u_exit : usual run_exit.

(* As [usual], with the readings of the statistics
   (foxxll/io/iostats.hpp 191-233, 417-465). *)
Inductive every : prog -> Prop :=
| e_usual p : usual p -> every p
| e_snapshot : every snapshot_files
| e_fs_get f : every (fs_get f)
| e_stats_get : every stats_get.

(* Block allocators used on their own, without their readings
   (foxxll/mng/disk_block_allocator.hpp 94-120). *)
Inductive alone : prog -> Prop :=
| a_new d : alone (alloc_new d)
| a_delete d : alone (alloc_delete d).

(* As [alone], with the readings (foxxll/mng/disk_block_allocator.hpp 74-92). *)
Inductive alone_get : prog -> Prop :=
| g_alone p : alone p -> alone_get p
| g_get d : alone_get (alloc_get d).

(* ---- Execution, as in LockModel.v. ---- *)

(* What a thread still has to do (foxxll/common/shared_state.hpp 48, 58, 65). *)
Inductive item : Type :=
| Do (p : prog)
| Rel (m : mtx)
| Asleep (m : mtx).

(* A thread ([std::thread], foxxll/io/request_queue_impl_worker.cpp 35). *)
Definition thread : Type := list item.

(* The mutexes whose scope the thread is in (foxxll/common/shared_state.hpp 48). *)
Fixpoint scopes (k : thread) : list mtx :=
  match k with
  | [] => []
  | Rel m :: k' => m :: scopes k'
  | _ :: k' => scopes k'
  end.

(* The mutexes it has locked: one that sleeps on a condition variable has
   given that mutex back (foxxll/common/shared_state.hpp 58). *)
Definition held (k : thread) : list mtx :=
  match k with
  | Asleep _ :: k' => tl (scopes k')
  | _ => scopes k
  end.

(* All threads there are (foxxll/io/request_queue_impl_worker.cpp 35). *)
Definition sys : Type := list thread.

(* No thread has the mutex (foxxll/common/shared_state.hpp 48). *)
Definition free (m : mtx) (st : sys) : Prop :=
  forall k, In k st -> ~ In m (held k).

(* Where an exception may start: anywhere but in a call that locks or waits
   (foxxll/common/error_handling.hpp 40-124). *)
Definition can_throw (p : prog) : Prop :=
  match p with With _ _ | Wait _ => False | _ => True end.

(* One step of one thread; [E]: what a thread, or a completion handler, may
   call.  An exception leaves any number of scopes and unlocks on its way.
   foxxll/common/shared_state.hpp 46-65 and the definitions above. *)
Inductive tstep (E : prog -> Prop) (fr : mtx -> Prop) : thread -> thread -> Prop :=
| t_skip k : tstep E fr (Do Skip :: k) k
| t_lock m p k : fr m -> tstep E fr (Do (With m p) :: k) (Do p :: Rel m :: k)
| t_unlock m k : tstep E fr (Rel m :: k) k
| t_sleep m k : tstep E fr (Do (Wait m) :: k) (Asleep m :: k)
| t_wake m k : fr m -> tstep E fr (Asleep m :: k) k
| t_acc x w k : tstep E fr (Do (Acc x w) :: k) k
| t_call p k : E p -> tstep E fr (Do User :: k) (Do p :: Do User :: k)
| t_return k : tstep E fr (Do User :: k) k
| t_seq p q k : tstep E fr (Do (Seq p q) :: k) (Do p :: Do q :: k)
| t_or_l p q k : tstep E fr (Do (Or p q) :: k) (Do p :: k)
| t_or_r p q k : tstep E fr (Do (Or p q) :: k) (Do q :: k)
| t_star_end p k : tstep E fr (Do (Star p) :: k) k
| t_star_go p k : tstep E fr (Do (Star p) :: k) (Do p :: Do (Star p) :: k)
| t_any f n k : tstep E fr (Do (Any f) :: k) (Do (f n) :: k)
| t_throw p pre k :
    can_throw p -> tstep E fr (Do p :: pre ++ k) (map Rel (scopes pre) ++ k)
| t_start p : E p -> tstep E fr [] [Do p].

(* One step of the system: of one thread, or a new thread.
   foxxll/io/request_queue_impl_worker.cpp 35. *)
Inductive step (E : prog -> Prop) (st : sys) : sys -> Prop :=
| s_thread i k k' :
    nth_error st i = Some k -> tstep E (fun m => free m st) k k' ->
    step E st (firstn i st ++ k' :: skipn (S i) st)
| s_spawn : step E st (st ++ [[]]).

(* All executions, from a system without threads.
   foxxll/io/request_queue_impl_worker.cpp 35 and the definitions above. *)
Inductive reach (E : prog -> Prop) : sys -> Prop :=
| r_init : reach E []
| r_step st st' : reach E st -> step E st st' -> reach E st'.
