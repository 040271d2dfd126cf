(** Model of the block store on top of the request queues: the block manager and the files of
    StoreModel, with the queues of QueueModel and their worker threads between them and any
    number of client threads.

    Sources: /repo/foxxll/mng/block_manager.hpp 164-268 (new_blocks, delete_block),
    /repo/foxxll/mng/bid.hpp 80-92 (write and read of a block),
    /repo/foxxll/io/disk_queued_file.cpp 23-51 (awrite, aread: make a request, add it to the
    queue of the file), /repo/foxxll/io/request_queue_impl_1q.cpp 62-168 and
    /repo/foxxll/io/request_queue_impl_qwqr.cpp 61-240 (the queues),
    /repo/foxxll/io/serving_request.cpp 40-63 (serve), /repo/foxxll/io/disk_queues.hpp 36-152
    (which queue a file uses).

    Simplifications.
    - Those of StoreModel (a request is served in one step) and of QueueModel.
    - The queues are numbered by all natural numbers and made at the start (C71); several disks
      may share a queue.
    - A client thread is the client of the same number of every queue, as in XferModel; calls of
      the block manager are made by any thread.
    - The queues of Linux AIO are left out (C27, C28, C117). *)

From Coq Require Import ZArith List Bool Arith.
From Verif Require Import AllocModel ManagerModel FileModel StoreModel.
From Verif Require QueueModel.
Import ListNotations.

(** The block manager's state, the files, the requests that are posted and neither served nor
    removed, each with the number of its queue and its number there, and the queues.
    block_manager.hpp lines 133-152, request.hpp lines 55-71, disk_queues.hpp lines 36-49. *)
Record world := MkW {
  b_client : mclient;
  b_disks : list disk;
  b_fly : list (nat * nat * rq);
  b_q : nat -> QueueModel.state
}.

(** What StoreModel knows of it.  Model device (block_manager.hpp lines 133-152). *)
Definition as_store (s : world) : store := mk_store (b_client s) (b_disks s) (map snd (b_fly s)).

(** The program has made the block manager and the queues, for [nc] client threads.
    block_manager.cpp lines 33-84, request_queue_impl_1q.cpp lines 49-54,
    request_queue_impl_qwqr.cpp lines 48-53. *)
Definition begin (nc : nat) (s0 : store) : world :=
  MkW (st_client s0) (st_disks s0) [] (fun _ => QueueModel.init nc).

(** Model device: a queue changes (request_queue_impl_qwqr.cpp lines 61-240). *)
Definition put {A} (d : nat) (x : A) (f : nat -> A) : nat -> A := fun e => if Nat.eqb e d then x else f e.

(** What happens: client [c] posts request [r] of queue [q]; it is served, with these answers of
    the system; client [c] removes it from the queue; a call of the block manager; anything
    else in a queue.
    Model device: what is recorded of bid.hpp lines 80-92, serving_request.cpp lines 40-63,
    block_manager.hpp lines 164-268 and request_with_state.cpp lines 34-90. *)
Inductive happening :=
| HPost (q c r : nat) (e : event)
| HServed (q r : nat) (a : answers) (e : event)
| HErased (q c r : nat)
| HCall (o : sop) (e : event)
| HQueue (q : nat) (e : QueueModel.event).

(** The request made by write or read of a block.  bid.hpp lines 80-92,
    disk_queued_file.cpp lines 29-31, 44-46. *)
Definition request_of (e : event) : option rq :=
  match e with
  | EWrite b d => Some (mk_rq b (Some d))
  | ERead b => Some (mk_rq b None)
  | _ => None
  end.

(** op_ of a request.  request_interface.hpp line 42, disk_queued_file.cpp lines 29-31, 44-46. *)
Definition op_of (x : rq) : QueueModel.rw :=
  match rq_data x with Some _ => QueueModel.Write | None => QueueModel.Read end.

(** serve() has not thrown.  serving_request.cpp lines 51-58. *)
Definition went (e : event) : bool :=
  match e with EWritten _ false | EReadDone _ None => false | _ => true end.

(** Events with a constructor of their own above.  Model device (request_queue_impl_qwqr.cpp
    lines 61-240). *)
Definition plain (e : QueueModel.event) : bool :=
  match e with QueueModel.ECreate _ _ | QueueModel.EServe _ _ | QueueModel.EErase _ _ => false | _ => true end.

(** Calls of the block manager.  block_manager.hpp lines 164-268. *)
Definition is_call (o : sop) : bool := match o with SNew _ _ _ _ | SDelete _ _ => true | _ => false end.

(** One step.  [ks q]: class of queue [q]; [qid d]: number of the queue of disk [d]; [ba]:
    BlockAlignment. *)
Inductive bstep (ks : nat -> QueueModel.kind) (qid : nat -> nat) (ba : nat) : world -> option happening -> world -> Prop :=
(** A step of a queue that records nothing.  request_queue_impl_qwqr.cpp lines 61-240. *)
| BQuiet : forall s q q', QueueModel.step (ks q) (b_q s q) q' ->
    QueueModel.st_log q' = QueueModel.st_log (b_q s q) ->
    bstep ks qid ba s None (MkW (b_client s) (b_disks s) (b_fly s) (put q q' (b_q s)))
(** write and read of a block: bid.hpp lines 80-92, disk_queued_file.cpp lines 23-51. *)
| BPost : forall s q q' c r o s1 e x ob, QueueModel.step (ks q) (b_q s q) q' ->
    QueueModel.st_log q' = QueueModel.ECreate c r :: QueueModel.st_log (b_q s q) ->
    store_step ba (as_store s) o = Some (s1, e) -> request_of e = Some x ->
    qid (disk_of (rq_bid x)) = q ->
    nth_error (QueueModel.st_reqs q') r = Some ob -> QueueModel.q_op ob = op_of x ->
    bstep ks qid ba s (Some (HPost q c r e))
      (MkW (b_client s) (b_disks s) (b_fly s ++ [(q, r, x)]) (put q q' (b_q s)))
(** The worker calls serve: serving_request.cpp lines 40-63. *)
| BServed : forall s q q' r a k x s1 e, QueueModel.step (ks q) (b_q s q) q' ->
    QueueModel.st_log q' = QueueModel.EServe r (went e) :: QueueModel.st_log (b_q s q) ->
    nth_error (b_fly s) k = Some (q, r, x) ->
    store_step ba (as_store s) (SServe a k) = Some (s1, e) ->
    bstep ks qid ba s (Some (HServed q r a e))
      (MkW (st_client s1) (st_disks s1) (remove_nth k (b_fly s)) (put q q' (b_q s)))
(** cancel_request has removed it: request_queue_impl_1q.cpp lines 103-115,
    request_queue_impl_qwqr.cpp lines 110-148. *)
| BErased : forall s q q' r c k x, QueueModel.step (ks q) (b_q s q) q' ->
    QueueModel.st_log q' = QueueModel.EErase c r :: QueueModel.st_log (b_q s q) ->
    nth_error (b_fly s) k = Some (q, r, x) ->
    bstep ks qid ba s (Some (HErased q c r))
      (MkW (b_client s) (b_disks s) (remove_nth k (b_fly s)) (put q q' (b_q s)))
(** new_blocks and delete_block: block_manager.hpp lines 164-268. *)
| BCall : forall s o s1 e, is_call o = true -> store_step ba (as_store s) o = Some (s1, e) ->
    bstep ks qid ba s (Some (HCall o e)) (MkW (st_client s1) (st_disks s1) (b_fly s) (b_q s))
(** Anything else in a queue: request_queue_impl_qwqr.cpp lines 61-240. *)
| BOther : forall s q q' e, QueueModel.step (ks q) (b_q s q) q' ->
    QueueModel.st_log q' = e :: QueueModel.st_log (b_q s q) -> plain e = true ->
    bstep ks qid ba s (Some (HQueue q e)) (MkW (b_client s) (b_disks s) (b_fly s) (put q q' (b_q s))).

(** Executions, the newest happening first.  Model device (request_queue_impl_qwqr.cpp lines
    61-240). *)
Inductive history (ks : nat -> QueueModel.kind) (qid : nat -> nat) (ba : nat) (w0 : world) : list happening -> world -> Prop :=
| HsNil : history ks qid ba w0 [] w0
| HsSilent : forall t s s', history ks qid ba w0 t s -> bstep ks qid ba s None s' -> history ks qid ba w0 t s'
| HsSome : forall t s h s', history ks qid ba w0 t s -> bstep ks qid ba s (Some h) s' -> history ks qid ba w0 (h :: t) s'.
