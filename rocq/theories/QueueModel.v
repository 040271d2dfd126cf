(** Model of I/O requests, their waiters and the request queues with a worker
    thread, as a transition system in which any number of client threads and
    the worker thread interleave.

    Sources (in /repo/foxxll):
      io/request_with_state.cpp 34-90      wait, cancel, poll, completed
      io/request_with_waiters.cpp 23-54    add_waiter, delete_waiter, notify_waiters
      io/serving_request.cpp 40-63         serve
      io/request.hpp 114-118, request.cpp 95-101   check_errors, release_file_reference
      io/request_queue_impl_1q.cpp 62-168  add, cancel, destructor, worker
      io/request_queue_impl_qwqr.cpp 61-240
      io/request_queue_impl_worker.cpp 32-65   start_thread, stop_thread
      io/request_operations.hpp 32-143     wait_all, cancel_all, wait_any
      common/onoff_switch.hpp, common/shared_state.hpp

    Granularity: one step is one critical section or one access to shared data
    between two critical sections.  [tlx::semaphore] is external: [wait] blocks
    until the value is positive, decrements it and returns the new value;
    [signal] increments it.

    Simplifications: the mutex of [disk_queues] (disk_queues.cpp), which
    serialises add and cancel, is left out, so the model has more interleavings
    than the program; in the one-queue version the signal of [add_request] is a
    step of its own although the lock is still held; empty or incompatible
    requests, logging and the debug-only [check_nref] are left out; a completion
    handler is an event (whatever it does to the queue is what some client
    thread could do); [poll] is one step (it reads [state_] and [error_]
    separately, without a lock); in the last loop of wait_any, delete_waiter and
    the poll after it are one step; there are no hardware memory effects. *)
From Coq Require Import List Bool PeanoNat.
Import ListNotations.

(** request_interface.hpp line 42. *)
Inductive rw := Read | Write.

(** request_state.hpp / request_with_state.hpp:36. *)
Inductive rstate := OP | DONE | READY2DIE.

(** A request object.  [q_waiters]: switches registered with add_waiter;
    [q_file]: [file_] is not null; [q_handler]: [on_complete_] is set.
     request.hpp lines 55-71, request_with_state.hpp line 36, request_with_waiters.hpp
        lines 31-32. *)
Record req := mk_req {
  q_op : rw; q_handler : bool;
  q_state : rstate; q_err : bool; q_waiters : list nat; q_file : bool
}.

(** request.cpp lines 22-33. *)
Definition new_req (op : rw) (handler : bool) : req :=
  mk_req op handler OP false [] true.

(** An [onoff_switch] on the stack of a wait_any call: off, on, or destroyed.
    onoff_switch.hpp lines 25-80, request_operations.hpp lines 103-143. *)
Inductive switch := SwOff | SwOn | SwDead.

(** request_queue_impl_worker.hpp:37. *)
Inductive tstate := RUNNING | TERMINATING | TERMINATED | NOT_RUNNING.

(** request_queue.hpp priority_op; the constant of both queues is [PWrite].
    request_queue.hpp line 30; request_queue_impl_qwqr.hpp line 51. *)
Inductive prio := PNone | PRead | PWrite.

(** Which queue class: one list for everything, or one list per direction.
    request_queue_impl_1q.hpp lines 32-66, request_queue_impl_qwqr.hpp lines 34-72. *)
Inductive kind := OneQ | QwQr (p : prio).

(** The steps of [request_with_state::completed] (request_with_state.cpp lines 78-90) and of the second half
    of [cancel] (57-63). *)
Inductive stage := SDone | SHandler | SNotify | SRelease | SReady.

(** Program counter of the worker (request_queue_impl_qwqr.cpp:155-240, request_queue_impl_1q.cpp:122-168). *)
Inductive wpc :=
| WWait                       (* sem_.wait() at the loop head *)
| WLock                       (* lock the queue, look at the front *)
| WServe (r : nat)            (* file_->serve *)
| WFin (r : nat) (s : stage)  (* completed(false) *)
| WSignal                     (* queue was empty: sem_.signal() *)
| WCheck                      (* thread_state_() == TERMINATING ? *)
| WTermWait                   (* sem_.wait() == 0 ? *)
| WTermSignal                 (* else sem_.signal() *)
| WTermSet                    (* thread_state_.set_to(TERMINATED) *)
| WStopped.

(** Program counters of a client thread.
     request_queue_impl_1q.cpp lines 62-115, request_queue_impl_qwqr.cpp lines 61-148,
        request_with_state.cpp lines 34-67, request_operations.hpp lines 32-143,
        request_queue_impl_worker.cpp lines 42-65. *)
Inductive cpc :=
| CIdle
| CPush (r : nat)                                    (* add_request: push_back *)
| CSignal (r : nat)                                  (* add_request: sem_.signal() *)
| CCancel (rest all : list nat) (acc : list bool)    (* cancel_all: next request *)
| CDeref (r : nat) (rest all : list nat) (acc : list bool)   (* file_->get_queue_id(), state check *)
| CErase (r : nat) (rest all : list nat) (acc : list bool)   (* lock, find, erase *)
| CTake (r : nat) (rest all : list nat) (acc : list bool)    (* sem_.wait() *)
| CFin (r : nat) (s : stage) (rest all : list nat) (acc : list bool)
| CWait (rest all : list nat)                        (* wait_all: wait for the next *)
| CAnyAdd (done todo : list nat) (sw : nat)          (* wait_any: add_waiter loop *)
| CAnyUndo (del all : list nat) (res sw : nat)       (* wait_any: a request was ready *)
| CAnyWait (all : list nat) (sw : nat)               (* wait_any: sw.wait_for_on() *)
| CAnyScan (todo all : list nat) (res : option nat) (sw : nat) (spurious : bool)
| CStop0 | CStop1 | CStop2                           (* stop_thread *)
| CCrash.                                            (* null pointer dereferenced *)

(** What can be observed.
     Model device: what is recorded of request_queue_impl_1q.cpp lines 62-168,
        request_queue_impl_qwqr.cpp lines 61-240, request_with_state.cpp lines 34-90 and
        request_operations.hpp lines 32-143. *)
Inductive event :=
| ECreate (c r : nat)               (* client c submits the new request r *)
| EPush (r : nat)                   (* r is in the queue *)
| EPop (r : nat)                    (* the worker took r *)
| EErase (c r : nat)                (* client c removed r from the queue *)
| ETook (c r : nat)                 (* ... and its semaphore token *)
| EServe (r : nat) (ok : bool)      (* I/O executed; ok = no io_error *)
| EDone (r : nat)
| EHandler (r : nat) (success : bool)
| ENoHandler (r : nat)
| ENotify (r : nat) (dead : bool)   (* notify_waiters; dead: it touched a destroyed switch *)
| ERelease (r : nat)
| EReady (r : nat)
| EReject (c : nat)                 (* invalid_argument: queue not running *)
| ECancelRet (c : nat) (rs : list nat) (results : list bool) (count : nat)
| EWaitRet (c : nat) (rs : list nat)           (* wait_all returned *)
| EWaitThrow (c : nat) (rs : list nat) (r : nat) (* ... threw the error of r *)
| EAnyRet (c : nat) (rs : list nat) (res : option nat) (spurious : bool)
| EAnyThrow (c : nat) (rs : list nat) (r : nat)
| ETerminate | EStopSignal          (* stop_thread: TERMINATING set, semaphore signalled *)
| EBreak | ETerminated              (* the worker leaves its loop, sets TERMINATED *)
| ENullDeref (c : nat).             (* cancel: file_ became null *)

(** request_queue_impl_qwqr.hpp lines 44-51 or request_queue_impl_1q.hpp lines 38-45;
    the requests, the threads, and what happened. *)
Record state := mk_state {
  st_rq : list nat; st_wq : list nat;     (* read_queue_, write_queue_ *)
  st_sem : nat;
  st_ts : tstate;
  st_wpc : wpc;
  st_phase : bool;                        (* write_phase *)
  st_reqs : list req;
  st_clients : list cpc;
  st_sws : list switch;
  st_log : list event                     (* newest first *)
}.

(** request_queue_impl_1q.cpp lines 49-54, request_queue_impl_qwqr.cpp lines 48-53. *)
Definition init (nclients : nat) : state :=
  mk_state [] [] 0 RUNNING WWait true [] (repeat CIdle nclients) [] [].

(** Model device: a component of the state changes in a step of
    request_queue_impl_qwqr.cpp lines 61-240 or request_queue_impl_1q.cpp lines 62-168.
    *)
Fixpoint upd {A} (i : nat) (x : A) (l : list A) : list A :=
  match l, i with
  | [], _ => []
  | _ :: r, O => x :: r
  | y :: r, S i' => y :: upd i' x r
  end.

(** State changes used by the steps.
     Model device: a component of the state changes in a step of
        request_queue_impl_qwqr.cpp lines 61-240 or request_queue_impl_1q.cpp lines
        62-168. *)
Definition emit (e : event) (s : state) : state :=
  mk_state (st_rq s) (st_wq s) (st_sem s) (st_ts s) (st_wpc s) (st_phase s) (st_reqs s)
           (st_clients s) (st_sws s) (e :: st_log s).
(** Model device: a component of the state changes in a step of
    request_queue_impl_qwqr.cpp lines 61-240 or request_queue_impl_1q.cpp lines 62-168.
    *)
Definition set_wpc (p : wpc) (s : state) : state :=
  mk_state (st_rq s) (st_wq s) (st_sem s) (st_ts s) p (st_phase s) (st_reqs s)
           (st_clients s) (st_sws s) (st_log s).
(** Model device: a component of the state changes in a step of
    request_queue_impl_qwqr.cpp lines 61-240 or request_queue_impl_1q.cpp lines 62-168.
    *)
Definition set_phase (b : bool) (s : state) : state :=
  mk_state (st_rq s) (st_wq s) (st_sem s) (st_ts s) (st_wpc s) b (st_reqs s)
           (st_clients s) (st_sws s) (st_log s).
(** Model device: a component of the state changes in a step of
    request_queue_impl_qwqr.cpp lines 61-240 or request_queue_impl_1q.cpp lines 62-168.
    *)
Definition set_sem (n : nat) (s : state) : state :=
  mk_state (st_rq s) (st_wq s) n (st_ts s) (st_wpc s) (st_phase s) (st_reqs s)
           (st_clients s) (st_sws s) (st_log s).
(** Model device: a component of the state changes in a step of
    request_queue_impl_qwqr.cpp lines 61-240 or request_queue_impl_1q.cpp lines 62-168.
    *)
Definition set_ts (t : tstate) (s : state) : state :=
  mk_state (st_rq s) (st_wq s) (st_sem s) t (st_wpc s) (st_phase s) (st_reqs s)
           (st_clients s) (st_sws s) (st_log s).
(** Model device: a component of the state changes in a step of
    request_queue_impl_qwqr.cpp lines 61-240 or request_queue_impl_1q.cpp lines 62-168.
    *)
Definition set_client (c : nat) (p : cpc) (s : state) : state :=
  mk_state (st_rq s) (st_wq s) (st_sem s) (st_ts s) (st_wpc s) (st_phase s) (st_reqs s)
           (upd c p (st_clients s)) (st_sws s) (st_log s).
(** Model device: a component of the state changes in a step of
    request_queue_impl_qwqr.cpp lines 61-240 or request_queue_impl_1q.cpp lines 62-168.
    *)
Definition set_req (r : nat) (q : req) (s : state) : state :=
  mk_state (st_rq s) (st_wq s) (st_sem s) (st_ts s) (st_wpc s) (st_phase s) (upd r q (st_reqs s))
           (st_clients s) (st_sws s) (st_log s).
(** Model device: a component of the state changes in a step of
    request_queue_impl_qwqr.cpp lines 61-240 or request_queue_impl_1q.cpp lines 62-168.
    *)
Definition add_req (q : req) (s : state) : state :=
  mk_state (st_rq s) (st_wq s) (st_sem s) (st_ts s) (st_wpc s) (st_phase s) (st_reqs s ++ [q])
           (st_clients s) (st_sws s) (st_log s).
(** Model device: a component of the state changes in a step of
    request_queue_impl_qwqr.cpp lines 61-240 or request_queue_impl_1q.cpp lines 62-168.
    *)
Definition set_sws (l : list switch) (s : state) : state :=
  mk_state (st_rq s) (st_wq s) (st_sem s) (st_ts s) (st_wpc s) (st_phase s) (st_reqs s)
           (st_clients s) l (st_log s).
(** Model device: a component of the state changes in a step of
    request_queue_impl_qwqr.cpp lines 61-240 or request_queue_impl_1q.cpp lines 62-168.
    *)
Definition set_queue (w : bool) (l : list nat) (s : state) : state :=
  if w
  then mk_state (st_rq s) l (st_sem s) (st_ts s) (st_wpc s) (st_phase s) (st_reqs s)
           (st_clients s) (st_sws s) (st_log s)
  else mk_state l (st_wq s) (st_sem s) (st_ts s) (st_wpc s) (st_phase s) (st_reqs s)
           (st_clients s) (st_sws s) (st_log s).
(** request_queue_impl_qwqr.hpp lines 44-45. *)
Definition queue (w : bool) (s : state) : list nat := if w then st_wq s else st_rq s.

(** The list a request goes to: add_request,
    request_queue_impl_qwqr.cpp:70, 89; request_queue_impl_1q.cpp:85. *)
Definition which (k : kind) (op : rw) : bool :=
  match k, op with
  | OneQ, _ => true
  | QwQr _, Write => true
  | QwQr _, Read => false
  end.

(** The new value of [write_phase] after looking at a queue,
    request_queue_impl_qwqr.cpp:164-220
    ([served]: the queue was not empty). *)
Definition next_phase (k : kind) (phase served : bool) : bool :=
  match k with
  | OneQ => true
  | QwQr p =>
      if phase then
        let ph := if negb served && match p with PWrite => true | _ => false end
                  then false else true in
        match p with PNone | PRead => false | PWrite => ph end
      else
        let ph := if negb served && match p with PRead => true | _ => false end
                  then true else false in
        match p with PNone | PWrite => true | PRead => ph end
  end.

(** state_.set_to, request_with_state.cpp lines 57, 63, 82, 89. *)
Definition set_state (v : rstate) (q : req) : req :=
  mk_req (q_op q) (q_handler q) v (q_err q) (q_waiters q) (q_file q).
(** serving_request.cpp lines 51-58. *)
Definition set_err (v : bool) (q : req) : req :=
  mk_req (q_op q) (q_handler q) (q_state q) v (q_waiters q) (q_file q).
(** request_with_waiters.cpp lines 36, 44. *)
Definition set_waiters (v : list nat) (q : req) : req :=
  mk_req (q_op q) (q_handler q) (q_state q) (q_err q) v (q_file q).
(** request_with_state.cpp line 62, request.cpp line 99. *)
Definition set_file (v : bool) (q : req) : req :=
  mk_req (q_op q) (q_handler q) (q_state q) (q_err q) (q_waiters q) v.

(** [poll()] of request_with_state.cpp:69-76 without the error check. *)
Definition finished (q : req) : bool :=
  match q_state q with OP => false | _ => true end.

(** [onoff_switch::on] on every registered switch; a destroyed one is undefined
    behaviour (second component).
    onoff_switch.hpp lines 48-53. *)
Definition switch_on (l : list switch) (sw : nat) : list switch * bool :=
  match nth_error l sw with
  | Some SwDead => (l, true)
  | Some _ => (upd sw SwOn l, false)
  | None => (l, false)
  end.
(** request_with_waiters.cpp lines 47-54. *)
Fixpoint notify_all (ws : list nat) (l : list switch) : list switch * bool :=
  match ws with
  | [] => (l, false)
  | sw :: ws' =>
      let '(l1, b1) := switch_on l sw in
      let '(l2, b2) := notify_all ws' l1 in (l2, orb b1 b2)
  end.

(** [waiters_] is a std::set.
    request_with_waiters.cpp line 36. *)
Definition insert_waiter (sw : nat) (ws : list nat) : list nat :=
  if existsb (Nat.eqb sw) ws then ws else sw :: ws.
(** request_with_waiters.cpp line 44. *)
Definition erase_waiter (sw : nat) (ws : list nat) : list nat :=
  filter (fun x => negb (Nat.eqb sw x)) ws.

(** One step of completing request [r] ([success]: argument of the handler):
    request_with_state.cpp:57-63, 82-89. *)
Definition complete_step (r : nat) (q : req) (st : stage) (success : bool) (s : state) : state :=
  match st with
  | SDone => emit (EDone r) (set_req r (set_state DONE q) s)
  | SHandler => if q_handler q then emit (EHandler r success) s else emit (ENoHandler r) s
  | SNotify =>
      let '(l, bad) := notify_all (q_waiters q) (st_sws s) in
      emit (ENotify r bad) (set_sws l s)
  | SRelease => emit (ERelease r) (set_req r (set_file false q) s)
  | SReady => emit (EReady r) (set_req r (set_state READY2DIE q) s)
  end.

(** Order of request_with_state.cpp lines 57-63, 82-89. *)
Definition next_stage (st : stage) : option stage :=
  match st with
  | SDone => Some SHandler | SHandler => Some SNotify | SNotify => Some SRelease
  | SRelease => Some SReady | SReady => None
  end.

(** request_operations.hpp lines 55-67 (cancel_all). *)
Definition count_true (l : list bool) : nat := length (filter (fun b => b) l).

(** Steps of the worker thread.
    request_queue_impl_qwqr.cpp lines 155-240, request_queue_impl_1q.cpp lines 122-168. *)
Inductive wstep (k : kind) : state -> state -> Prop :=
| w_wait : forall s, st_wpc s = WWait -> 0 < st_sem s ->
    wstep k s (set_wpc WLock (set_sem (st_sem s - 1) s))
| w_pop : forall s r rest, st_wpc s = WLock -> queue (st_phase s) s = r :: rest ->
    wstep k s (emit (EPop r) (set_phase (next_phase k (st_phase s) true)
                (set_wpc (WServe r) (set_queue (st_phase s) rest s))))
| w_empty : forall s, st_wpc s = WLock -> queue (st_phase s) s = [] ->
    wstep k s (set_phase (next_phase k (st_phase s) false) (set_wpc WSignal s))
| w_serve : forall s r q ok, st_wpc s = WServe r -> nth_error (st_reqs s) r = Some q ->
    wstep k s (emit (EServe r ok) (set_wpc (WFin r SDone) (set_req r (set_err (negb ok) q) s)))
| w_fin : forall s r q st st', st_wpc s = WFin r st -> nth_error (st_reqs s) r = Some q ->
    next_stage st = Some st' ->
    wstep k s (set_wpc (WFin r st') (complete_step r q st true s))
| w_ready : forall s r q, st_wpc s = WFin r SReady -> nth_error (st_reqs s) r = Some q ->
    wstep k s (set_wpc WCheck (complete_step r q SReady true s))
| w_signal : forall s, st_wpc s = WSignal ->
    wstep k s (set_wpc WCheck (set_sem (S (st_sem s)) s))
| w_check_run : forall s, st_wpc s = WCheck -> st_ts s <> TERMINATING ->
    wstep k s (set_wpc WWait s)
| w_check_term : forall s, st_wpc s = WCheck -> st_ts s = TERMINATING ->
    wstep k s (set_wpc WTermWait s)
| w_term_break : forall s, st_wpc s = WTermWait -> st_sem s = 1 ->
    wstep k s (emit EBreak (set_wpc WTermSet (set_sem 0 s)))
| w_term_more : forall s, st_wpc s = WTermWait -> 1 < st_sem s ->
    wstep k s (set_wpc WTermSignal (set_sem (st_sem s - 1) s))
| w_term_signal : forall s, st_wpc s = WTermSignal ->
    wstep k s (set_wpc WWait (set_sem (S (st_sem s)) s))
| w_term_set : forall s, st_wpc s = WTermSet ->
    wstep k s (emit ETerminated (set_wpc WStopped (set_ts TERMINATED s))).

(** A thread has a request only after its submission: add_request returned it,
    or a completion handler got it.  (Submission: disk_queued_file.cpp.).
    disk_queued_file.cpp lines 23-51. *)
Definition known (s : state) (r : nat) : Prop :=
  r < length (st_reqs s) /\ forall c, nth_error (st_clients s) c <> Some (CPush r).

(** A client thread begins an operation.
     request_queue_impl_1q.cpp lines 62-67, request_queue_impl_qwqr.cpp lines 61-68,
        request_operations.hpp lines 32-143, request_queue_impl_worker.cpp line 45. *)
Inductive start_op (k : kind) : nat -> state -> state -> Prop :=
| s_add : forall s c op handler, nth_error (st_clients s) c = Some CIdle -> st_ts s = RUNNING ->
    start_op k c s (emit (ECreate c (length (st_reqs s)))
                    (set_client c (CPush (length (st_reqs s))) (add_req (new_req op handler) s)))
| s_add_reject : forall s c, nth_error (st_clients s) c = Some CIdle -> st_ts s <> RUNNING ->
    start_op k c s (emit (EReject c) s)
| s_cancel_all : forall s c rs, nth_error (st_clients s) c = Some CIdle ->
    (forall r, In r rs -> known s r) ->
    start_op k c s (set_client c (CCancel rs rs []) s)
| s_wait_all : forall s c rs, nth_error (st_clients s) c = Some CIdle ->
    (forall r, In r rs -> known s r) ->
    start_op k c s (set_client c (CWait rs rs) s)
| s_wait_any : forall s c rs, nth_error (st_clients s) c = Some CIdle ->
    (forall r, In r rs -> known s r) ->
    start_op k c s (set_sws (st_sws s ++ [SwOff])
                    (set_client c (CAnyAdd [] rs (length (st_sws s))) s))
| s_stop : forall s c, nth_error (st_clients s) c = Some CIdle -> st_ts s = RUNNING ->
    start_op k c s (set_client c CStop0 s).

(** A client thread continues its operation.
     request_queue_impl_1q.cpp lines 62-115, request_queue_impl_qwqr.cpp lines 61-148,
        request_with_state.cpp lines 34-67, request_operations.hpp lines 32-143,
        request_queue_impl_worker.cpp lines 42-65. *)
Inductive cstep (k : kind) : nat -> state -> state -> Prop :=
(* add_request *)
| c_push : forall s c r q, nth_error (st_clients s) c = Some (CPush r) ->
    nth_error (st_reqs s) r = Some q ->
    cstep k c s (emit (EPush r) (set_client c (CSignal r)
                  (set_queue (which k (q_op q)) (queue (which k (q_op q)) s ++ [r]) s)))
| c_signal : forall s c r, nth_error (st_clients s) c = Some (CSignal r) ->
    cstep k c s (set_client c CIdle (set_sem (S (st_sem s)) s))
(* cancel_all / cancel *)
| c_cancel_ret : forall s c all acc, nth_error (st_clients s) c = Some (CCancel [] all acc) ->
    cstep k c s (emit (ECancelRet c all acc (count_true acc)) (set_client c CIdle s))
| c_cancel_nofile : forall s c r rest all acc q, nth_error (st_clients s) c = Some (CCancel (r :: rest) all acc) ->
    nth_error (st_reqs s) r = Some q -> q_file q = false ->
    cstep k c s (set_client c (CCancel rest all (acc ++ [false])) s)
| c_cancel_file : forall s c r rest all acc q, nth_error (st_clients s) c = Some (CCancel (r :: rest) all acc) ->
    nth_error (st_reqs s) r = Some q -> q_file q = true ->
    cstep k c s (set_client c (CDeref r rest all acc) s)
| c_deref_null : forall s c r rest all acc q, nth_error (st_clients s) c = Some (CDeref r rest all acc) ->
    nth_error (st_reqs s) r = Some q -> q_file q = false ->
    cstep k c s (emit (ENullDeref c) (set_client c CCrash s))
| c_deref_reject : forall s c r rest all acc q, nth_error (st_clients s) c = Some (CDeref r rest all acc) ->
    nth_error (st_reqs s) r = Some q -> q_file q = true -> st_ts s <> RUNNING ->
    cstep k c s (emit (EReject c) (set_client c CIdle s))
| c_deref_ok : forall s c r rest all acc q, nth_error (st_clients s) c = Some (CDeref r rest all acc) ->
    nth_error (st_reqs s) r = Some q -> q_file q = true -> st_ts s = RUNNING ->
    cstep k c s (set_client c (CErase r rest all acc) s)
| c_erase_found : forall s c r rest all acc q l1 l2,
    nth_error (st_clients s) c = Some (CErase r rest all acc) ->
    nth_error (st_reqs s) r = Some q -> queue (which k (q_op q)) s = l1 ++ r :: l2 -> ~ In r l1 ->
    cstep k c s (emit (EErase c r) (set_client c (CTake r rest all acc)
                  (set_queue (which k (q_op q)) (l1 ++ l2) s)))
| c_erase_missing : forall s c r rest all acc q,
    nth_error (st_clients s) c = Some (CErase r rest all acc) ->
    nth_error (st_reqs s) r = Some q -> ~ In r (queue (which k (q_op q)) s) ->
    cstep k c s (set_client c (CCancel rest all (acc ++ [false])) s)
| c_take : forall s c r rest all acc, nth_error (st_clients s) c = Some (CTake r rest all acc) ->
    0 < st_sem s ->
    cstep k c s (emit (ETook c r) (set_client c (CFin r SDone rest all acc) (set_sem (st_sem s - 1) s)))
| c_fin : forall s c r st st' rest all acc q, nth_error (st_clients s) c = Some (CFin r st rest all acc) ->
    nth_error (st_reqs s) r = Some q -> next_stage st = Some st' ->
    cstep k c s (set_client c (CFin r st' rest all acc) (complete_step r q st false s))
| c_ready : forall s c r rest all acc q, nth_error (st_clients s) c = Some (CFin r SReady rest all acc) ->
    nth_error (st_reqs s) r = Some q ->
    cstep k c s (set_client c (CCancel rest all (acc ++ [true])) (complete_step r q SReady false s))
(* wait_all / wait *)
| c_wait_ret : forall s c all, nth_error (st_clients s) c = Some (CWait [] all) ->
    cstep k c s (emit (EWaitRet c all) (set_client c CIdle s))
| c_wait_ok : forall s c r rest all q, nth_error (st_clients s) c = Some (CWait (r :: rest) all) ->
    nth_error (st_reqs s) r = Some q -> q_state q = READY2DIE -> q_err q = false ->
    cstep k c s (set_client c (CWait rest all) s)
| c_wait_throw : forall s c r rest all q, nth_error (st_clients s) c = Some (CWait (r :: rest) all) ->
    nth_error (st_reqs s) r = Some q -> q_state q = READY2DIE -> q_err q = true ->
    cstep k c s (emit (EWaitThrow c all r) (set_client c CIdle s))
(* wait_any *)
| c_any_add : forall s c done r todo sw q, nth_error (st_clients s) c = Some (CAnyAdd done (r :: todo) sw) ->
    nth_error (st_reqs s) r = Some q -> q_err q = false -> finished q = false ->
    cstep k c s (set_client c (CAnyAdd (done ++ [r]) todo sw)
                  (set_req r (set_waiters (insert_waiter sw (q_waiters q)) q) s))
| c_any_hit : forall s c done r todo sw q, nth_error (st_clients s) c = Some (CAnyAdd done (r :: todo) sw) ->
    nth_error (st_reqs s) r = Some q -> q_err q = false -> finished q = true ->
    cstep k c s (set_client c (CAnyUndo done (done ++ r :: todo) r sw) s)
| c_any_add_throw : forall s c done r todo sw q, nth_error (st_clients s) c = Some (CAnyAdd done (r :: todo) sw) ->
    nth_error (st_reqs s) r = Some q -> q_err q = true ->
    cstep k c s (emit (EAnyThrow c (done ++ r :: todo) r)
                  (set_sws (upd sw SwDead (st_sws s)) (set_client c CIdle s)))
| c_any_undo : forall s c del r all res sw q, nth_error (st_clients s) c = Some (CAnyUndo (del ++ [r]) all res sw) ->
    nth_error (st_reqs s) r = Some q ->
    cstep k c s (set_client c (CAnyUndo del all res sw)
                  (set_req r (set_waiters (erase_waiter sw (q_waiters q)) q) s))
| c_any_undo_ret : forall s c all res sw q, nth_error (st_clients s) c = Some (CAnyUndo [] all res sw) ->
    nth_error (st_reqs s) res = Some q -> q_err q = false ->
    cstep k c s (emit (EAnyRet c all (Some res) false)
                  (set_sws (upd sw SwDead (st_sws s)) (set_client c CIdle s)))
| c_any_undo_throw : forall s c all res sw q, nth_error (st_clients s) c = Some (CAnyUndo [] all res sw) ->
    nth_error (st_reqs s) res = Some q -> q_err q = true ->
    cstep k c s (emit (EAnyThrow c all res)
                  (set_sws (upd sw SwDead (st_sws s)) (set_client c CIdle s)))
| c_any_all_added : forall s c done sw, nth_error (st_clients s) c = Some (CAnyAdd done [] sw) ->
    cstep k c s (set_client c (CAnyWait done sw) s)
| c_any_woken : forall s c all sw, nth_error (st_clients s) c = Some (CAnyWait all sw) ->
    nth_error (st_sws s) sw = Some SwOn ->
    cstep k c s (set_client c (CAnyScan all all None sw false) s)
| c_any_spurious : forall s c all sw, nth_error (st_clients s) c = Some (CAnyWait all sw) ->
    nth_error (st_sws s) sw = Some SwOff ->
    cstep k c s (set_client c (CAnyScan all all None sw true) s)
| c_any_scan_skip : forall s c r todo all res sw sp q,
    nth_error (st_clients s) c = Some (CAnyScan (r :: todo) all (Some res) sw sp) ->
    nth_error (st_reqs s) r = Some q ->
    cstep k c s (set_client c (CAnyScan todo all (Some res) sw sp)
                  (set_req r (set_waiters (erase_waiter sw (q_waiters q)) q) s))
| c_any_scan_poll : forall s c r todo all sw sp q,
    nth_error (st_clients s) c = Some (CAnyScan (r :: todo) all None sw sp) ->
    nth_error (st_reqs s) r = Some q -> q_err q = false ->
    cstep k c s (set_client c (CAnyScan todo all (if finished q then Some r else None) sw sp)
                  (set_req r (set_waiters (erase_waiter sw (q_waiters q)) q) s))
| c_any_scan_throw : forall s c r todo all sw sp q,
    nth_error (st_clients s) c = Some (CAnyScan (r :: todo) all None sw sp) ->
    nth_error (st_reqs s) r = Some q -> q_err q = true ->
    cstep k c s (emit (EAnyThrow c all r) (set_sws (upd sw SwDead (st_sws s)) (set_client c CIdle
                  (set_req r (set_waiters (erase_waiter sw (q_waiters q)) q) s))))
| c_any_scan_ret : forall s c all res sw sp,
    nth_error (st_clients s) c = Some (CAnyScan [] all res sw sp) ->
    cstep k c s (emit (EAnyRet c all res sp) (set_sws (upd sw SwDead (st_sws s)) (set_client c CIdle s)))
(* stop_thread; the assertion s() == RUNNING is checked again at the first step *)
| c_stop0 : forall s c, nth_error (st_clients s) c = Some CStop0 -> st_ts s = RUNNING ->
    cstep k c s (emit ETerminate (set_client c CStop1 (set_ts TERMINATING s)))
| c_stop1 : forall s c, nth_error (st_clients s) c = Some CStop1 ->
    cstep k c s (emit EStopSignal (set_client c CStop2 (set_sem (S (st_sem s)) s)))
| c_stop2 : forall s c, nth_error (st_clients s) c = Some CStop2 -> st_wpc s = WStopped ->
    cstep k c s (set_client c CIdle (set_ts NOT_RUNNING s)).

(** Steps of all threads: request_queue_impl_qwqr.cpp lines 61-240,
    request_queue_impl_1q.cpp lines 62-168. *)
Inductive step (k : kind) : state -> state -> Prop :=
| step_worker : forall s s', wstep k s s' -> step k s s'
| step_start : forall c s s', start_op k c s s' -> step k s s'
| step_client : forall c s s', cstep k c s s' -> step k s s'.

(** request_queue_impl_qwqr.cpp lines 61-240, request_queue_impl_1q.cpp lines 62-168. *)
Inductive steps (k : kind) : state -> state -> Prop :=
| steps_refl : forall s, steps k s s
| steps_trans : forall s1 s2 s3, steps k s1 s2 -> step k s2 s3 -> steps k s1 s3.

(** From the constructor: request_queue_impl_qwqr.cpp lines 48-240,
    request_queue_impl_1q.cpp lines 49-168. *)
Definition qreachable (k : kind) (n : nat) (s : state) : Prop := steps k (init n) s.
