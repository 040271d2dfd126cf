(** Model of the destruction of linuxaio_queue: the destructor that stops the
    posting and the waiting thread of LioModel. (The number of events that the
    constructor agrees on with the kernel is in RegistryModel.)

    Sources: /repo/foxxll/io/linuxaio_queue.cpp lines 61-67 (constructor),
    69-74 (destructor), 151-156 and 273-278 (end of the loops), 310-340 (thread
    functions); /repo/foxxll/io/request_queue_impl_worker.cpp lines 32-65
    (start_thread, stop_thread); /repo/foxxll/common/shared_state.hpp lines 46-65.

    Simplifications.
    - As in LioModel; cancellations of requests in the kernel do not succeed.
    - No client is inside of add_request or cancel_request when the destructor
      begins, and none calls them afterwards.
    - A thread that leaves its loop sets its state in the same step; nothing
      looks at the state between. *)

From Coq Require Import List Arith Bool.
From Verif Require Import LioModel.
Import ListNotations.

(** thread_state, request_queue_impl_worker.hpp line 37. *)
Inductive tstate := RUNNING | TERMINATING | TERMINATED | NOT_RUNNING.

(** The destructor: not called; state of the posting thread set (line 45 of
    request_queue_impl_worker.cpp); signalled (46); joined (61-64); the same for
    the waiting thread; context destroyed (line 73). *)
Inductive dpc := D_no | D_pset | D_psig | D_pjoin | D_wset | D_wsig | D_wjoin | D_done.

(** linuxaio_queue.cpp lines 69-74, 151-156, 273-278, and the state of LioModel. *)
Record qst := mkQ {
  inner : st;
  pst : tstate;                       (* post_thread_state_ *)
  wst : tstate;                       (* wait_thread_state_ *)
  pread : option nat;                 (* num_currently_waiting_requests, before
                                         the test of line 154 *)
  wread : option nat;                 (* num_currently_posted_requests, before
                                         the test of line 276 *)
  dtor : dpc;
  (* history: the last wait() of the posting thread (the waiting thread)
     returned before the destructor's signal *)
  p_early : bool;
  w_early : bool
}.

(** request_queue_impl_worker.cpp line 46, for linuxaio_queue.cpp line 71. *)
Definition p_signalled (d : dpc) : bool :=
  match d with D_no => false | D_pset => false | _ => true end.
(** request_queue_impl_worker.cpp line 46, for linuxaio_queue.cpp line 72. *)
Definition w_signalled (d : dpc) : bool :=
  match d with D_wsig => true | D_wjoin => true | D_done => true | _ => false end.

(** Model device: a component of the state changes, linuxaio_queue.cpp lines 144-308. *)
Definition set_inner q s := mkQ s (pst q) (wst q) (pread q) (wread q) (dtor q) (p_early q) (w_early q).
(** Model device: a component of the state changes, linuxaio_queue.cpp lines 71, 315. *)
Definition set_pst q x := mkQ (inner q) x (wst q) (pread q) (wread q) (dtor q) (p_early q) (w_early q).
(** Model device: a component of the state changes, linuxaio_queue.cpp lines 72, 331. *)
Definition set_wst q x := mkQ (inner q) (pst q) x (pread q) (wread q) (dtor q) (p_early q) (w_early q).
(** Model device: a component of the state changes, linuxaio_queue.cpp lines 151-156. *)
Definition set_pread q x := mkQ (inner q) (pst q) (wst q) x (wread q) (dtor q) (p_early q) (w_early q).
(** Model device: a component of the state changes, linuxaio_queue.cpp lines 273-278. *)
Definition set_wread q x := mkQ (inner q) (pst q) (wst q) (pread q) x (dtor q) (p_early q) (w_early q).
(** Model device: a component of the state changes, linuxaio_queue.cpp lines 69-74. *)
Definition set_dtor q x := mkQ (inner q) (pst q) (wst q) (pread q) (wread q) x (p_early q) (w_early q).
(** Model device: a component of the state changes, linuxaio_queue.cpp line 151. *)
Definition set_p_early q x := mkQ (inner q) (pst q) (wst q) (pread q) (wread q) (dtor q) x (w_early q).
(** Model device: a component of the state changes, linuxaio_queue.cpp line 273. *)
Definition set_w_early q x := mkQ (inner q) (pst q) (wst q) (pread q) (wread q) (dtor q) (p_early q) x.

(** linuxaio_queue.cpp lines 61-66: both threads are started. *)
Definition qinit (max : nat) : qst :=
  mkQ (init max) RUNNING RUNNING None None D_no false false.

(** linuxaio_queue.cpp lines 69-74, 144-340; request_queue_impl_worker.cpp lines 42-65. *)
Inductive qstep (max : nat) (ps : bool) : qst -> qst -> Prop :=
(* every step of the running queue except for the two wait() at the beginning
   of the loops; a thread that has returned from wait() looks at the state
   first *)
| Q_inner q s' : step max false ps (inner q) s' ->
    poster s' = poster (inner q) \/ poster (inner q) <> P_idle /\ pread q = None ->
    waiter s' = waiter (inner q) \/ waiter (inner q) <> W_idle /\ wread q = None ->
    dtor q = D_no \/ added s' = added (inner q) /\ cancelers s' = cancelers (inner q) ->
    qstep max ps q (set_inner q s')
(* line 151 *)
| Q_p_wait q n : poster (inner q) = P_idle -> wt (inner q) = S n ->
    qstep max ps q
      (set_p_early (set_pread (set_inner q (set_poster (set_wt (inner q) n) P_got)) (Some n))
                   (negb (p_signalled (dtor q))))
(* lines 154-155 *)
| Q_p_go q v : pread q = Some v -> pst q = RUNNING \/ pst q = TERMINATING /\ v <> 0 ->
    qstep max ps q (set_pread q None)
(* lines 156, 315 *)
| Q_p_end q v : pread q = Some v -> pst q = TERMINATING /\ v = 0 ->
    qstep max ps q (set_pst q TERMINATED)
(* line 273 *)
| Q_w_wait q n : waiter (inner q) = W_idle -> po (inner q) = S n ->
    qstep max ps q
      (set_w_early (set_wread (set_inner q (set_waiter (set_po (inner q) n) W_get)) (Some n))
                   (negb (w_signalled (dtor q))))
(* lines 276-277 *)
| Q_w_go q v : wread q = Some v -> wst q = RUNNING \/ wst q = TERMINATING /\ v <> 0 ->
    qstep max ps q (set_wread q None)
(* lines 278, 331 *)
| Q_w_end q v : wread q = Some v -> wst q = TERMINATING /\ v = 0 ->
    qstep max ps q (set_wst q TERMINATED)
(* line 71 *)
| Q_d_pset q : dtor q = D_no -> adders (inner q) = 0 -> cancelers (inner q) = [] ->
    qstep max ps q (set_dtor (set_pst q TERMINATING) D_pset)
| Q_d_psig q : dtor q = D_pset ->
    qstep max ps q (set_dtor (set_inner q (set_wt (inner q) (S (wt (inner q))))) D_psig)
| Q_d_pjoin q : dtor q = D_psig -> pst q = TERMINATED ->
    qstep max ps q (set_dtor (set_pst q NOT_RUNNING) D_pjoin)
(* line 72 *)
| Q_d_wset q : dtor q = D_pjoin ->
    qstep max ps q (set_dtor (set_wst q TERMINATING) D_wset)
| Q_d_wsig q : dtor q = D_wset ->
    qstep max ps q (set_dtor (set_inner q (set_po (inner q) (S (po (inner q))))) D_wsig)
| Q_d_wjoin q : dtor q = D_wsig -> wst q = TERMINATED ->
    qstep max ps q (set_dtor (set_wst q NOT_RUNNING) D_wjoin)
(* line 73 *)
| Q_d_done q : dtor q = D_wjoin -> qstep max ps q (set_dtor q D_done).

(** linuxaio_queue.cpp lines 34-340. *)
Inductive qreach (max : nat) (ps : bool) : qst -> Prop :=
| QR_init : qreach max ps (qinit max)
| QR_step q q' : qreach max ps q -> qstep max ps q q' -> qreach max ps q'.
