(** Model of the request queues of any number of disks that transfer real bytes: the queues of
    QueueModel (one per disk, each with its worker thread), the memory and the files, and the
    clients.

    Sources: /repo/foxxll/io/disk_queued_file.cpp 23-47 (aread, awrite),
    /repo/foxxll/io/serving_request.cpp 40-63 (serve), /repo/foxxll/io/request_queue_impl_1q.cpp
    62-168, /repo/foxxll/io/request_queue_impl_qwqr.cpp 61-240 (the queues),
    /repo/foxxll/io/disk_queues.hpp 36-52 (a queue per disk).

    Simplifications.
    - The disks are numbered by all natural numbers; a disk nobody uses stays as it was made.
    - All queues are made at the start (disk_queues makes a queue when it is first needed: C71).
    - A client thread is the client of the same number of every queue, and may be in the middle
      of operations on several queues at once, or touch its memory meanwhile: the model has more
      interleavings than the program.
    - The files and the memory are one map from locations to bytes, as in AsyncModel; how a file
      class executes a transfer is C29-C31 and C74: here serve() copies single bytes in any
      order, any of them several times, and has copied all when it returns.
    - The queues of Linux AIO are left out here (C27, C28). *)

From Coq Require Import ZArith List Bool.
From Verif Require Import QueueModel.
From Verif Require AsyncModel.
Import ListNotations.

(** The queue of every disk; the client and the members of every request; which bytes of the
    request in service are still to be copied, by disk; all bytes.
    disk_queues.hpp lines 36-49, request.hpp lines 62-73, serving_request.cpp line 53. *)
Record world := MkW {
  g_q : nat -> state;
  g_par : nat -> nat -> option (nat * AsyncModel.req);
  g_todo : nat -> list Z;
  g_val : AsyncModel.loc -> Z
}.

(** The constructors of the queues.  request_queue_impl_1q.cpp lines 49-54,
    request_queue_impl_qwqr.cpp lines 48-53. *)
Definition begin (n : nat) (w : AsyncModel.loc -> Z) : world :=
  MkW (fun _ => init n) (fun _ _ => None) (fun _ => []) w.

(** Model device: the queue of a disk changes (request_queue_impl_qwqr.cpp lines 61-240). *)
Definition put {A} (d : nat) (x : A) (f : nat -> A) : nat -> A := fun e => if Nat.eqb e d then x else f e.

(** What happens: client [c] posts request [r] of disk [d]; the transfer of client [c]'s request
    ends; it is removed from the queue; anything else in a queue; a client changes or looks at
    its memory.
    Model device: what is recorded of disk_queued_file.cpp lines 23-47,
    serving_request.cpp lines 40-63 and request_with_state.cpp lines 34-90. *)
Inductive happening :=
| HPost (d c r : nat) (a : AsyncModel.req)
| HServed (d c r : nat) (ok : bool)
| HErased (d c r : nat)
| HQueue (d : nat) (e : event)
| HPoke (c : nat) (a v : Z)
| HPeek (c : nat) (a v : Z).

(** Events with a constructor of their own above.  Model device (request_queue_impl_qwqr.cpp
    lines 61-240). *)
Definition plain (e : event) : bool :=
  match e with ECreate _ _ | EPop _ | EServe _ _ | EErase _ _ => false | _ => true end.

(** The direction of a request: op_.  request.hpp line 72. *)
Definition op_of (a : AsyncModel.req) : rw := if AsyncModel.r_write a then Write else Read.

(** One step of a queue, of a transfer, or of a client; [ks d] is the class of the queue of disk
    [d]. *)
Inductive xstep (ks : nat -> kind) : world -> option happening -> world -> Prop :=
(** A step of a queue that records nothing.  request_queue_impl_qwqr.cpp lines 61-240. *)
| XQuiet : forall s d q', step (ks d) (g_q s d) q' -> st_log q' = st_log (g_q s d) ->
    xstep ks s None (MkW (put d q' (g_q s)) (g_par s) (g_todo s) (g_val s))
(** aread, awrite: disk_queued_file.cpp lines 23-47. *)
| XPost : forall s d q' c r a o, step (ks d) (g_q s d) q' ->
    st_log q' = ECreate c r :: st_log (g_q s d) ->
    nth_error (st_reqs q') r = Some o -> q_op o = op_of a ->
    xstep ks s (Some (HPost d c r a))
      (MkW (put d q' (g_q s)) (put d (put r (Some (c, a)) (g_par s d)) (g_par s)) (g_todo s) (g_val s))
(** The worker has taken a request: request_queue_impl_qwqr.cpp lines 164-220. *)
| XPop : forall s d q' r c a, step (ks d) (g_q s d) q' ->
    st_log q' = EPop r :: st_log (g_q s d) -> g_par s d r = Some (c, a) ->
    xstep ks s (Some (HQueue d (EPop r)))
      (MkW (put d q' (g_q s)) (g_par s) (put d (AsyncModel.offsets (AsyncModel.r_size a)) (g_todo s)) (g_val s))
(** file_->serve() copies a byte: serving_request.cpp line 53. *)
| XMove : forall s d r c a k, st_wpc (g_q s d) = WServe r -> g_par s d r = Some (c, a) ->
    (0 <= k < AsyncModel.r_size a)%Z ->
    xstep ks s None
      (MkW (g_q s) (g_par s) (put d (filter (fun j => negb (Z.eqb j k)) (g_todo s d)) (g_todo s))
           (AsyncModel.upd (g_val s) (AsyncModel.dst a k) (g_val s (AsyncModel.src a k))))
(** file_->serve() returns or throws: serving_request.cpp lines 51-58. *)
| XServed : forall s d q' r ok c a, step (ks d) (g_q s d) q' ->
    st_log q' = EServe r ok :: st_log (g_q s d) -> g_par s d r = Some (c, a) ->
    (ok = true -> g_todo s d = []) ->
    xstep ks s (Some (HServed d c r ok)) (MkW (put d q' (g_q s)) (g_par s) (g_todo s) (g_val s))
(** cancel_request has removed it: request_queue_impl_1q.cpp lines 103-115,
    request_queue_impl_qwqr.cpp lines 110-148. *)
| XErased : forall s d q' r c' c a, step (ks d) (g_q s d) q' ->
    st_log q' = EErase c' r :: st_log (g_q s d) -> g_par s d r = Some (c, a) ->
    xstep ks s (Some (HErased d c r)) (MkW (put d q' (g_q s)) (g_par s) (g_todo s) (g_val s))
(** Anything else in a queue: request_queue_impl_qwqr.cpp lines 61-240. *)
| XOther : forall s d q' e, step (ks d) (g_q s d) q' ->
    st_log q' = e :: st_log (g_q s d) -> plain e = true ->
    xstep ks s (Some (HQueue d e)) (MkW (put d q' (g_q s)) (g_par s) (g_todo s) (g_val s))
(** A client changes or looks at a byte of its memory (no code of the library). *)
| XPoke : forall s c a v,
    xstep ks s (Some (HPoke c a v))
      (MkW (g_q s) (g_par s) (g_todo s) (AsyncModel.upd (g_val s) (AsyncModel.Mem a) v))
| XPeek : forall s c a, xstep ks s (Some (HPeek c a (g_val s (AsyncModel.Mem a)))) s.

(** Executions, the latest happening last.  Model device (request_queue_impl_qwqr.cpp lines
    61-240). *)
Inductive history (ks : nat -> kind) (s0 : world) : list happening -> world -> Prop :=
| HsNil : history ks s0 [] s0
| HsSilent : forall t s s', history ks s0 t s -> xstep ks s None s' -> history ks s0 t s'
| HsSome : forall t s h s', history ks s0 t s -> xstep ks s (Some h) s' -> history ks s0 (t ++ [h]) s'.
