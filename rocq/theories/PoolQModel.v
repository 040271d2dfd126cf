(** Model of the buffer pools on top of the request queues.

    Sources: /repo/foxxll/mng/write_pool.hpp, prefetch_pool.hpp, read_write_pool.hpp,
    /repo/foxxll/io/request_queue_impl_qwqr.cpp 61-240, request_queue_impl_1q.cpp 62-168,
    disk_queues.cpp 39-100.

    PoolModel.v has the pools on top of an I/O system that may serve requests in any order
    with one restriction.  Here the I/O system consists of the queues of QueueModel.v with one
    worker each; the restriction is a consequence.

    Simplifications.
    - Those of PoolModel.v for the pools.
    - A queue is seen between critical sections: a request is pushed when it is posted, and
      is transferred when its worker completes it.  The semaphore is left out, so a worker
      may look at an empty queue at any time.
    - Other clients use the same queues for other blocks; their requests have no effect on
      the blocks and buffers of the pools, and are not told apart.
    - Requests do not fail. *)

From Coq Require Import ZArith List Bool Permutation.
From Verif Require QueueModel.
From Verif Require Import PoolModel.
Import ListNotations.

(** Requests in a queue: one of the pools, by its number, or one of others.
    request_queue_impl_qwqr.hpp lines 44-45. *)
Definition entry := option nat.

(** A queue with its worker: both lists, the request being served, write_phase.
    request_queue_impl_qwqr.hpp lines 44-51, request_queue_impl_qwqr.cpp line 159. *)
Record dq := MkDq { d_w : list entry; d_r : list entry; d_cur : option entry; d_phase : bool }.

(** request_queue_impl_qwqr.cpp lines 48-53, 159: a new queue. *)
Definition q_new : dq := MkDq [] [] None true.

(** request_queue_impl_qwqr.hpp lines 44-45: one of the lists. *)
Definition lst (w : bool) (q : dq) : list entry := if w then d_w q else d_r q.
(** Model device: the list changes (request_queue_impl_qwqr.hpp lines 44-45). *)
Definition set_lst (w : bool) (l : list entry) (q : dq) : dq :=
  if w then MkDq l (d_r q) (d_cur q) (d_phase q) else MkDq (d_w q) l (d_cur q) (d_phase q).
(** Model device: the worker goes on (request_queue_impl_qwqr.cpp lines 155-240). *)
Definition set_worker (c : option entry) (ph : bool) (q : dq) : dq := MkDq (d_w q) (d_r q) c ph.

(** The I/O system of PoolModel.v and the queues (disk_queues.hpp line 49). *)
Record qio := MkQ { q_io : io; q_qs : nat -> dq }.

(** Model device: contents of buffers and blocks, requests (request.hpp lines 49-135). *)
Definition qmem (x : qio) : nat -> Z := io_mem (q_io x).
(** Model device: as above (request.hpp lines 49-135). *)
Definition qreqs (x : qio) : list req := io_reqs (q_io x).
(** Model device: the client fills a buffer (typed_block.hpp lines 307-333). *)
Definition qset (x : qio) (b : nat) (v : Z) : qio :=
  MkQ (MkIO (set_mem (io_mem (q_io x)) b v) (io_disk (q_io x)) (io_reqs (q_io x))) (q_qs x).
(** Model device: a queue changes (disk_queues.hpp line 49). *)
Definition set_q (f : nat -> dq) (n : nat) (q : dq) : nat -> dq := fun m => if Nat.eqb m n then q else f m.

(** request_interface.hpp line 42. *)
Definition op_of (w : bool) : QueueModel.rw := if w then QueueModel.Write else QueueModel.Read.

(** Whether an entry is request [i]: request_queue_impl_qwqr.cpp lines 120-122, 133-135. *)
Definition is_req (i : nat) (e : entry) : bool := match e with Some j => Nat.eqb i j | None => false end.

Section Queues.

(** Class of a queue and queue of a file: disk_queues.cpp lines 39-87, disk_queued_file.hpp
    lines 32-34, 44-47. *)
Variable kinds : nat -> QueueModel.kind.
Variable qid : nat -> nat.

(** request_queue_impl_qwqr.cpp lines 61-105, request_queue_impl_1q.cpp lines 62-90: a request is
    posted. *)
Definition qpost (x : qio) (w : bool) (b : nat) (d : bid) : qio :=
  let n := qid (b_storage d) in
  let q := q_qs x n in
  let wh := QueueModel.which (kinds n) (op_of w) in
  MkQ (post (q_io x) w b d) (set_q (q_qs x) n (set_lst wh (lst wh q ++ [Some (length (qreqs x))]) q)).

(** request_queue_impl_qwqr.cpp lines 107-148, request_queue_impl_1q.cpp lines 92-115,
    request_with_state.cpp lines 46-67: a request is cancelled if it is still in its queue. *)
Definition qcancel (x : qio) (i : nat) : qio :=
  match nth_error (qreqs x) i with
  | Some r =>
      let n := qid (b_storage (q_bid r)) in
      let q := q_qs x n in
      let wh := QueueModel.which (kinds n) (op_of (q_write r)) in
      if existsb (is_req i) (lst wh q)
      then MkQ (set_st (q_io x) i r Finished)
               (set_q (q_qs x) n (set_lst wh (filter (fun e => negb (is_req i e)) (lst wh q)) q))
      else x
  | None => x
  end.

(** request::poll(), request_with_state.cpp lines 69-76. *)
Definition qfinished (x : qio) (i : nat) : bool := finished (q_io x) i.

(** The workers, and other clients.  request_queue_impl_qwqr.cpp lines 61-240,
    request_queue_impl_1q.cpp lines 62-168. *)
Inductive qenv1 : qio -> qio -> Prop :=
(* the worker of queue n takes a request, request_queue_impl_qwqr.cpp lines 164-220 *)
| QEPop : forall x n i r rest, d_cur (q_qs x n) = None -> lst (d_phase (q_qs x n)) (q_qs x n) = Some i :: rest ->
    nth_error (qreqs x) i = Some r ->
    qenv1 x (MkQ (set_st (q_io x) i r Running)
              (set_q (q_qs x) n (set_worker (Some (Some i)) (QueueModel.next_phase (kinds n) (d_phase (q_qs x n)) true)
                (set_lst (d_phase (q_qs x n)) rest (q_qs x n)))))
| QEPopOther : forall x n rest, d_cur (q_qs x n) = None -> lst (d_phase (q_qs x n)) (q_qs x n) = None :: rest ->
    qenv1 x (MkQ (q_io x)
              (set_q (q_qs x) n (set_worker (Some None) (QueueModel.next_phase (kinds n) (d_phase (q_qs x n)) true)
                (set_lst (d_phase (q_qs x n)) rest (q_qs x n)))))
(* it finds the list empty *)
| QEEmpty : forall x n, d_cur (q_qs x n) = None -> lst (d_phase (q_qs x n)) (q_qs x n) = [] ->
    qenv1 x (MkQ (q_io x)
              (set_q (q_qs x) n (set_worker None (QueueModel.next_phase (kinds n) (d_phase (q_qs x n)) false) (q_qs x n))))
(* it completes the request, serving_request.cpp lines 40-63 *)
| QEWrite : forall x n i r, d_cur (q_qs x n) = Some (Some i) -> nth_error (qreqs x) i = Some r -> q_write r = true ->
    qenv1 x (MkQ (MkIO (io_mem (q_io x)) (set_disk (io_disk (q_io x)) (q_bid r) (io_mem (q_io x) (q_buf r)))
                       (io_reqs (set_st (q_io x) i r Finished)))
              (set_q (q_qs x) n (set_worker None (d_phase (q_qs x n)) (q_qs x n))))
| QERead : forall x n i r, d_cur (q_qs x n) = Some (Some i) -> nth_error (qreqs x) i = Some r -> q_write r = false ->
    qenv1 x (MkQ (MkIO (set_mem (io_mem (q_io x)) (q_buf r) (io_disk (q_io x) (q_bid r))) (io_disk (q_io x))
                       (io_reqs (set_st (q_io x) i r Finished)))
              (set_q (q_qs x) n (set_worker None (d_phase (q_qs x n)) (q_qs x n))))
| QEDoneOther : forall x n, d_cur (q_qs x n) = Some None ->
    qenv1 x (MkQ (q_io x) (set_q (q_qs x) n (set_worker None (d_phase (q_qs x n)) (q_qs x n))))
(* others post and cancel *)
| QEPostOther : forall x n w,
    qenv1 x (MkQ (q_io x) (set_q (q_qs x) n (set_lst w (lst w (q_qs x n) ++ [None]) (q_qs x n))))
| QECancelOther : forall x n w l1 l2, lst w (q_qs x n) = l1 ++ None :: l2 ->
    qenv1 x (MkQ (q_io x) (set_q (q_qs x) n (set_lst w (l1 ++ l2) (q_qs x n)))).

(** Model device: any number of such steps (request_queue_impl_qwqr.cpp lines 155-240). *)
Inductive qenv : qio -> qio -> Prop :=
| QEnvRefl : forall s, qenv s s
| QEnvStep : forall s s1 s2, qenv1 s s1 -> qenv s1 s2 -> qenv s s2.

(** write_pool.hpp:134-145: cancel the obsolete requests for this block and
    mark their entries with storage = 0. *)
Inductive qw_mark (d : bid) (buf : nat)
  : list wentry -> qio -> list wentry -> qio -> Prop :=
| QMarkNil : forall s, qw_mark d buf [] s [] s
| QMarkSkip : forall e l s l' s',
    bid_eqb (e_bid e) d = false ->
    qw_mark d buf l s l' s' ->
    qw_mark d buf (e :: l) s (e :: l') s'
| QMarkHit : forall e l s s1 l' s',
    bid_eqb (e_bid e) d = true ->
    e_buf e <> buf ->
    qenv s s1 ->
    qw_mark d buf l (qcancel s1 (e_req e)) l' s' ->
    qw_mark d buf (e :: l) s
      (MkW (e_buf e) (e_req e) (MkBid 0 (b_offset (e_bid e))) :: l') s'.

(** write_pool.hpp:131-150, write(); [r] is the posted request. *)
Inductive qw_write (w : wpool) (s : qio) (buf : nat) (d : bid)
  : wpool -> qio -> nat -> Prop :=
| QWWrite : forall l s1,
    qw_mark d buf (w_busy w) s l s1 ->
    qw_write w s buf d
      (MkWP (w_free w) (l ++ [MkW buf (length (qreqs s1)) d]))
      (qpost s1 true buf d) (length (qreqs s1)).

(** write_pool.hpp:235-254, check_all_busy(): entries found finished go to the
    free list in order. *)
Inductive qw_check
  : list wentry -> qio -> list nat -> list wentry -> qio -> Prop :=
| QChkNil : forall s, qw_check [] s [] [] s
| QChkMove : forall e l s s1 mv rest s',
    qenv s s1 -> qfinished s1 (e_req e) = true ->
    qw_check l s1 mv rest s' ->
    qw_check (e :: l) s (e_buf e :: mv) rest s'
| QChkKeep : forall e l s s1 mv rest s',
    qenv s s1 -> qfinished s1 (e_req e) = false ->
    qw_check l s1 mv rest s' ->
    qw_check (e :: l) s mv (e :: rest) s'.

(** write_pool.hpp:154-173, steal(): the last free block, else wait_any over
    the busy entries (it returns one that is finished, see C25). *)
Inductive qw_steal (w : wpool) (s : qio)
  : wpool -> qio -> nat -> Prop :=
| QWStealFree : forall l b,
    w_free w = l ++ [b] ->
    qw_steal w s (MkWP l (w_busy w)) s b
| QWStealWait : forall l1 e l2 s1 mv rest s2,
    w_free w = [] ->
    qenv s s1 ->
    w_busy w = l1 ++ e :: l2 ->
    qfinished s1 (e_req e) = true ->
    qw_check (l1 ++ l2) s1 mv rest s2 ->
    qw_steal w s (MkWP (w_free w ++ mv) rest) s2 (e_buf e).

(** write_pool.hpp:191-192: steal and delete [k] blocks; the list of deleted
    blocks is kept for reference. *)
Inductive qw_steals : nat -> wpool -> qio -> wpool -> qio -> list nat -> Prop :=
| QStealsO : forall w s, qw_steals O w s w s []
| QStealsS : forall k w s w1 s1 b w2 s2 bs,
    qw_steal w s w1 s1 b ->
    qw_steals k w1 s1 w2 s2 bs ->
    qw_steals (S k) w s w2 s2 (b :: bs).

(** write_pool.hpp:177-193, resize(); [next] is the first unused buffer number
    ([new block_type]). *)
Inductive qw_resize (w : wpool) (s : qio) (next n : nat)
  : wpool -> qio -> nat -> list nat -> Prop :=
| QWGrow :
    (w_size w < n)%nat ->
    qw_resize w s next n
      (MkWP (w_free w ++ seq next (n - w_size w)) (w_busy w)) s
      (next + (n - w_size w)) []
| QWShrink : forall w' s' bs,
    (n <= w_size w)%nat ->
    qw_steals (w_size w - n) w s w' s' bs ->
    qw_resize w s next n w' s' next bs.

(** prefetch_pool.hpp:174-194, hint(bid) without a write pool. *)
Inductive qp_hint0 (p : ppool) (s : qio) (d : bid) : ppool -> qio -> bool -> Prop :=
| QHint0Already : forall e,
    p_find d (p_busy p) = Some e -> qp_hint0 p s d p s true
| QHint0Read : forall l b,
    p_find d (p_busy p) = None -> p_fsize p <> O -> p_free p = l ++ [b] ->
    qp_hint0 p s d
      (MkPP l (p_fsize p - 1) (p_set (MkP d b (length (qreqs s))) (p_busy p)))
      (qpost s false b d) true
| QHint0None :
    p_find d (p_busy p) = None -> p_fsize p = O -> qp_hint0 p s d p s false.

(** prefetch_pool.hpp:212-241, hint(bid, w_pool). *)
Inductive qp_hint (p : ppool) (w : wpool) (s : qio) (d : bid)
  : ppool -> wpool -> qio -> bool -> Prop :=
| QHintAlready : forall e,
    p_find d (p_busy p) = Some e -> qp_hint p w s d p w s true
| QHintWrite : forall l b buf r w1,
    p_find d (p_busy p) = None -> p_fsize p <> O -> p_free p = l ++ [b] ->
    has_request w d = true ->
    steal_request w d = Some (buf, r, w1) ->
    qp_hint p w s d
      (MkPP l (p_fsize p - 1) (p_set (MkP d buf r) (p_busy p)))
      (w_add w1 b) s true
| QHintRead : forall l b,
    p_find d (p_busy p) = None -> p_fsize p <> O -> p_free p = l ++ [b] ->
    has_request w d = false ->
    qp_hint p w s d
      (MkPP l (p_fsize p - 1) (p_set (MkP d b (length (qreqs s))) (p_busy p)))
      w (qpost s false b d) true
| QHintNone :
    p_find d (p_busy p) = None -> p_fsize p = O -> qp_hint p w s d p w s false.

(** prefetch_pool.hpp line 252: op() == READ. *)
Definition qis_read (s : qio) (r : nat) : bool :=
  match nth_error (qreqs s) r with
  | Some q => negb (q_write q)
  | None => false
  end.

(** prefetch_pool.hpp:244-260, invalidate(). *)
Inductive qp_invalidate (p : ppool) (s : qio) (d : bid)
  : ppool -> qio -> bool -> Prop :=
| QInvNone : p_find d (p_busy p) = None -> qp_invalidate p s d p s false
| QInvSome : forall e s1 s2,
    p_find d (p_busy p) = Some e ->
    qenv s s1 ->
    qenv (if qis_read s1 (p_req e) then qcancel s1 (p_req e) else s1) s2 ->
    qfinished s2 (p_req e) = true ->
    qp_invalidate p s d
      (MkPP (p_free p ++ [p_buf e]) (S (p_fsize p)) (p_erase d (p_busy p))) s2 true.

(** prefetch_pool.hpp:301-319, read(block, bid) without a write pool: the
    caller's block, its request. *)
Inductive qp_read0 (p : ppool) (s : qio) (b : nat) (d : bid)
  : ppool -> qio -> nat -> nat -> Prop :=
| QRead0Disk :
    p_find d (p_busy p) = None ->
    qp_read0 p s b d p (qpost s false b d) b (length (qreqs s))
| QRead0Cached : forall e,
    p_find d (p_busy p) = Some e ->
    qp_read0 p s b d
      (MkPP (p_free p ++ [b]) (S (p_fsize p)) (p_erase d (p_busy p))) s
      (p_buf e) (p_req e).

(** prefetch_pool.hpp:321-351, read(block, bid, w_pool). *)
Inductive qp_read (p : ppool) (w : wpool) (s : qio) (b : nat) (d : bid)
  : ppool -> wpool -> qio -> nat -> nat -> Prop :=
| QReadCached : forall e,
    p_find d (p_busy p) = Some e ->
    qp_read p w s b d
      (MkPP (p_free p ++ [b]) (S (p_fsize p)) (p_erase d (p_busy p))) w s
      (p_buf e) (p_req e)
| QReadWrite : forall buf r w1,
    p_find d (p_busy p) = None ->
    has_request w d = true ->
    steal_request w d = Some (buf, r, w1) ->
    qp_read p w s b d p (w_add w1 b) s buf r
| QReadDisk :
    p_find d (p_busy p) = None ->
    has_request w d = false ->
    qp_read p w s b d p w (qpost s false b d) b (length (qreqs s)).

(** read_write_pool.hpp:106-116, write(). *)
Inductive qrw_write (p : ppool) (w : wpool) (s : qio) (b : nat) (d : bid)
  : ppool -> wpool -> qio -> Prop :=
| QRWPlain : forall w1 s1 r p1 s2,
    qw_write w s b d w1 s1 r ->
    qp_invalidate p s1 d p1 s2 false ->
    qrw_write p w s b d p1 w1 s2
| QRWRehint : forall w1 s1 r p1 s2 p2 w2 s3 h,
    qw_write w s b d w1 s1 r ->
    qp_invalidate p s1 d p1 s2 true ->
    qp_hint p1 w1 s2 d p2 w2 s3 h ->
    qrw_write p w s b d p2 w2 s3.

(** The pools, the I/O system, the blocks the client owns, and the first
    unused buffer number.
    read_write_pool.hpp lines 42-44. *)
Record qst := QMkSt {
  qs_p : ppool; qs_w : wpool; qs_io : qio; qs_own : list nat; qs_next : nat }.

(** read_write_pool.hpp lines 50-166 with the functions above. *)
Inductive qstep : qst -> act -> qst -> Prop :=
| QSIdle : forall p w s own nx s',
    qenv s s' ->
    qstep (QMkSt p w s own nx) AIdle (QMkSt p w s' own nx)
| QSSet : forall p w s own nx b v,
    In b own ->
    qstep (QMkSt p w s own nx) (ASet b v)
      (QMkSt p w (qset s b v) own nx)
| QSNew : forall p w s own nx,
    qstep (QMkSt p w s own nx) (ANew nx) (QMkSt p w s (nx :: own) (S nx))
| QSWrite : forall p w s own nx b d own' p' w' s',
    Permutation own (b :: own') -> b_storage d <> O ->
    qrw_write p w s b d p' w' s' ->
    qstep (QMkSt p w s own nx) (AWrite b d (qmem s b)) (QMkSt p' w' s' own' nx)
| QSRead : forall p w s own nx b d own' p' w' s1 b' r s',
    Permutation own (b :: own') -> b_storage d <> O ->
    qp_read p w s b d p' w' s1 b' r ->
    qenv s1 s' -> qfinished s' r = true ->
    qstep (QMkSt p w s own nx) (ARead d b' (qmem s' b'))
      (QMkSt p' w' s' (b' :: own') nx)
| QSHint : forall p w s own nx d p' w' s' r,
    b_storage d <> O ->
    qp_hint p w s d p' w' s' r ->
    qstep (QMkSt p w s own nx) (AHint d r) (QMkSt p' w' s' own nx)
| QSInvalidate : forall p w s own nx d p' s' r,
    qp_invalidate p s d p' s' r ->
    qstep (QMkSt p w s own nx) (AInvalidate d r) (QMkSt p' w s' own nx)
| QSSteal : forall p w s own nx w' s' b,
    qw_steal w s w' s' b ->
    qstep (QMkSt p w s own nx) (ASteal b) (QMkSt p w' s' (b :: own) nx)
| QSAdd : forall p w s own nx b own',
    Permutation own (b :: own') ->
    qstep (QMkSt p w s own nx) (AAdd b) (QMkSt p (w_add w b) s own' nx)
| QSAddP : forall p w s own nx b own',
    Permutation own (b :: own') ->
    qstep (QMkSt p w s own nx) (AAddP b) (QMkSt (p_add p b) w s own' nx)
| QSStealP : forall p w s own nx p' b,
    p_steal p p' b ->
    qstep (QMkSt p w s own nx) (AStealP b) (QMkSt p' w s (b :: own) nx)
| QSResizeW : forall p w s own nx n w' s' nx' del,
    qw_resize w s nx n w' s' nx' del ->
    qstep (QMkSt p w s own nx) (AResizeW n) (QMkSt p w' s' own nx')
| QSResizeP : forall p w s own nx n p' nx' del,
    p_resize p nx n p' nx' del ->
    qstep (QMkSt p w s own nx) (AResizeP n) (QMkSt p' w s own nx')
| QSStealReq : forall p w s own nx d b r w' s',
    b_storage d <> O ->
    steal_request w d = Some (b, r, w') ->
    qenv s s' -> qfinished s' r = true ->
    qstep (QMkSt p w s own nx) (AStealReq d b) (QMkSt p w' s' (b :: own) nx)
| QSHint0 : forall p w s own nx d p' s' r,
    b_storage d <> O ->
    qp_hint0 p s d p' s' r ->
    qstep (QMkSt p w s own nx) (AHint0 d r) (QMkSt p' w s' own nx)
| QSRead0 : forall p w s own nx b d own' p' s1 b' r s',
    Permutation own (b :: own') -> b_storage d <> O ->
    qp_read0 p s b d p' s1 b' r ->
    qenv s1 s' -> qfinished s' r = true ->
    qstep (QMkSt p w s own nx) (ARead0 d b' (qmem s' b'))
      (QMkSt p' w s' (b' :: own') nx)
| QSReadNoWait : forall p w s own nx b d own' p' w' s' b' r,
    Permutation own (b :: own') -> b_storage d <> O ->
    qp_read p w s b d p' w' s' b' r ->
    qstep (QMkSt p w s own nx) (AReadNoWait d b' r)
      (QMkSt p' w' s' (b' :: own') nx)
| QSWait : forall p w s own nx r b s',
    In b own -> qenv s s' -> qfinished s' r = true ->
    qstep (QMkSt p w s own nx) (AWait r b (qmem s' b)) (QMkSt p w s' own nx).

(** Model device: a sequence of operations (read_write_pool.hpp lines 50-166). *)
Inductive qrun : qst -> list act -> qst -> Prop :=
| QRunNil : forall s, qrun s [] s
| QRunCons : forall s a s1 l s2,
    qstep s a s1 -> qrun s1 l s2 -> qrun s (a :: l) s2.

(** read_write_pool.hpp:50-55 with write_pool.hpp:72-79 and
    prefetch_pool.hpp:81-87: both pools freshly constructed, no I/O going on,
    arbitrary memory and disk contents, no block owned by the client. *)
Definition qinit (np nw : nat) (m : nat -> Z) (disk : bid -> Z) : qst :=
  QMkSt (MkPP (seq 0 np) np []) (MkWP (seq np nw) [])
       (MkQ (MkIO m disk []) (fun _ => q_new)) [] (np + nw).

End Queues.
