(** Model of the block store on top of the kernel AIO queue: the block manager and the files of
    StoreModel, with the queue of LioModel, its two threads and the kernel between them and any
    number of client threads.

    Sources: /repo/foxxll/mng/block_manager.hpp 164-268 (new_blocks, delete_block),
    /repo/foxxll/mng/bid.hpp 80-92 (write and read of a block),
    /repo/foxxll/io/linuxaio_file.cpp 22-46 (aread, awrite),
    /repo/foxxll/io/linuxaio_queue.cpp 76-308 (the queue),
    /repo/foxxll/io/linuxaio_request.cpp 26-106 (completed, fill_control_block, cancel),
    /repo/foxxll/io/request_with_state.cpp 34-90 (wait, poll, completed).

    Simplifications.
    - Those of StoreModel and of LioModel; the files may be of any kind StoreModel has, of which
      the real ones are those with system calls.  All disks use this queue, as all linuxaio disks do
      (/repo/foxxll/io/create_file.cpp 124-136, /repo/foxxll/io/file.hpp 90).
    - The kernel transfers the bytes of a request when it finishes it (C117 has single bytes), the
      way StoreModel's files do.  It may fail after having transferred a part; finishing with
      fewer bytes than asked for counts as failing.
    - Cancellations of requests in the kernel do not succeed (what happens if they do is C28).
    - The end of a request can be noticed from the call of its handler on; the real wait()
      returns a little later, when the state is READY2DIE. *)

From Coq Require Import ZArith List Bool Arith.
From Verif Require Import AllocModel ManagerModel FileModel StoreModel.
From Verif Require LioModel AioXferModel StoreQModel.
Import ListNotations.

(** The block manager's state, the files, the requests that are posted and neither finished by the
    kernel nor removed, each with its number, and the queue.
    block_manager.hpp lines 133-152, request.hpp lines 55-71, linuxaio_queue.hpp lines 55-64. *)
Record world := MkA {
  a_client : mclient;
  a_disks : list disk;
  a_fly : list (nat * rq);
  a_q : LioModel.st
}.

(** What StoreModel knows of it.  Model device (block_manager.hpp lines 133-152). *)
Definition as_store (s : world) : store := mk_store (a_client s) (a_disks s) (map snd (a_fly s)).

(** The program has made the block manager and the queue, for [max] requests in the kernel.
    block_manager.cpp lines 33-84, linuxaio_queue.cpp lines 34-67. *)
Definition begin (max : nat) (s0 : store) : world := MkA (st_client s0) (st_disks s0) [] (LioModel.init max).

(** What happens: client [c] posts request [i]; the kernel finishes it, with these answers of the
    system; it is removed from the list of waiting requests; client [c] learns that it is finished, and
    whether it was canceled; a call of the block manager.
    Model device: what is recorded of bid.hpp lines 80-92, linuxaio_queue.cpp lines 92-308,
    block_manager.hpp lines 164-268 and request_with_state.cpp lines 34-90. *)
Inductive happening :=
| KPost (c i : nat) (e : event)
| KEnd (i : nat) (a : answers) (e : event)
| KErased (i : nat)
| KTold (c i : nat) (canceled : bool)
| KCall (o : sop) (e : event).

(** One step.  [max], [ps] as in LioModel; [ba]: BlockAlignment. *)
Inductive astep (max : nat) (ps : bool) (ba : nat) : world -> option happening -> world -> Prop :=
(** Any other step of the threads: linuxaio_queue.cpp lines 76-308. *)
| AQuiet : forall s q', LioModel.step max false ps (a_q s) q' -> AioXferModel.quiet (a_q s) q' ->
    astep max ps ba s None (MkA (a_client s) (a_disks s) (a_fly s) q')
(** write and read of a block: bid.hpp lines 80-92, linuxaio_file.cpp lines 22-46,
    linuxaio_queue.cpp lines 76-90. *)
| APost : forall s q' c (i : nat) o s1 e x, LioModel.step max false ps (a_q s) q' ->
    LioModel.added q' = i :: LioModel.added (a_q s) ->
    store_step ba (as_store s) o = Some (s1, e) -> StoreQModel.request_of e = Some x ->
    astep max ps ba s (Some (KPost c i e)) (MkA (a_client s) (a_disks s) (a_fly s ++ [(i, x)]) q')
(** The kernel is finished with a request: the event that io_getevents will return,
    linuxaio_queue.cpp lines 232, 283. *)
| AEnd : forall s q' l1 (i : nat) l2 a k x s1 e, LioModel.step max false ps (a_q s) q' ->
    LioModel.infl (a_q s) = l1 ++ i :: l2 -> LioModel.infl q' = l1 ++ l2 ->
    nth_error (a_fly s) k = Some (i, x) -> store_step ba (as_store s) (SServe a k) = Some (s1, e) ->
    astep max ps ba s (Some (KEnd i a e)) (MkA (st_client s1) (st_disks s1) (remove_nth k (a_fly s)) q')
(** cancel_request has removed it from the list: linuxaio_queue.cpp lines 104-113. *)
| AErased : forall s q' (i k : nat) x, LioModel.step max false ps (a_q s) q' ->
    LioModel.cancelers q' = LioModel.C_compl i :: LioModel.cancelers (a_q s) ->
    nth_error (a_fly s) k = Some (i, x) ->
    astep max ps ba s (Some (KErased i)) (MkA (a_client s) (a_disks s) (remove_nth k (a_fly s)) q')
(** wait() or poll() sees that completed() was called: request_with_state.cpp lines 34-44, 69-76;
    or cancel() returns true: linuxaio_queue.cpp lines 114-119. *)
| ATold : forall s c (i : nat) b, In (i, b) (LioModel.handled (a_q s)) -> astep max ps ba s (Some (KTold c i b)) s
(** new_blocks and delete_block: block_manager.hpp lines 164-268. *)
| ACall : forall s o s1 e, StoreQModel.is_call o = true -> store_step ba (as_store s) o = Some (s1, e) ->
    astep max ps ba s (Some (KCall o e)) (MkA (st_client s1) (st_disks s1) (a_fly s) (a_q s)).

(** Executions, the newest happening first.  Model device (linuxaio_queue.cpp lines 76-308). *)
Inductive history (max : nat) (ps : bool) (ba : nat) (w0 : world) : list happening -> world -> Prop :=
| HaNil : history max ps ba w0 [] w0
| HaSilent : forall t s s', history max ps ba w0 t s -> astep max ps ba s None s' -> history max ps ba w0 t s'
| HaSome : forall t s h s', history max ps ba w0 t s -> astep max ps ba s (Some h) s' -> history max ps ba w0 (h :: t) s'.
