(** Model of the kernel AIO queue that transfers real bytes: the queue of LioModel with its two
    threads and the kernel, the memory and the files, and the clients.

    Sources: /repo/foxxll/io/linuxaio_file.cpp 22-46 (aread, awrite),
    /repo/foxxll/io/linuxaio_request.cpp 26-77 (completed, fill_control_block),
    /repo/foxxll/io/linuxaio_queue.cpp 76-308 (the queue),
    /repo/foxxll/io/request_with_state.cpp 34-90 (wait, poll, completed).

    Simplifications.
    - One queue serves the files of any number of disks (with several AIO queues, a client
      cannot tell: bytes of requests of different queues are moved in any order as well).
    - The kernel copies single bytes of the requests it has accepted, in any order, any of them
      several times; it has copied all when it reports success.  It may report an error or a
      short transfer instead ([kf]).
    - Cancellations of requests in the kernel do not succeed (what happens if they do is C28).
    - The end of a request can be noticed from the call of its handler on; the real wait()
      returns a little later, when the state is READY2DIE.
    - The files and the memory are one map from locations to bytes, as in AsyncModel. *)

From Coq Require Import ZArith List Bool.
From Verif Require Import LioModel.
From Verif Require AsyncModel.
Import ListNotations.

(** The queue; the client and the members of every request; which bytes of a request are still to
    be copied; all bytes.
    linuxaio_queue.hpp lines 55-64, request.hpp lines 62-73, linuxaio_request.cpp lines 62-70. *)
Record world := MkA {
  a_q : st;
  a_par : nat -> option (nat * AsyncModel.req);
  a_todo : nat -> list Z;
  a_val : AsyncModel.loc -> Z
}.

(** The constructor of the queue.  linuxaio_queue.cpp lines 34-67. *)
Definition begin (max : nat) (w : AsyncModel.loc -> Z) : world :=
  MkA (init max) (fun _ => None) (fun _ => []) w.

(** Model device: the entry of a request changes (linuxaio_queue.cpp lines 76-90). *)
Definition put {A} (i : nat) (x : A) (f : nat -> A) : nat -> A := fun j => if Nat.eqb j i then x else f j.

(** What happens: client [c] posts request [i]; the kernel ends it, having copied all bytes or
    not; it is removed from the list; client [c] learns, by wait(), poll() or cancel(), that request
    [i] is finished; a client changes or looks at its memory.
    Model device: what is recorded of linuxaio_file.cpp lines 22-46, linuxaio_queue.cpp lines
    92-308 and request_with_state.cpp lines 34-90. *)
Inductive happening :=
| APost (c i : nat) (a : AsyncModel.req)
| AEnd (c i : nat) (ok : bool)
| AErased (c i : nat)
| ATold (c i : nat)
| APoke (c : nat) (a v : Z)
| APeek (c : nat) (a v : Z).

(** Steps of the queue that post no request, end no request in the kernel, and remove none from
    the list.  Model device (linuxaio_queue.cpp lines 76-308). *)
Definition quiet (q q' : st) : Prop :=
  added q' = added q /\ incl (infl q) (infl q') /\
  (forall i, In (C_compl i) (cancelers q') -> In (C_compl i) (cancelers q)).

(** One step of the queue, of the kernel, or of a client.  [max], [ps] as in LioModel;
    [kf]: transfers may fail. *)
Inductive astep (max : nat) (ps kf : bool) : world -> option happening -> world -> Prop :=
(** Any other step of the threads: linuxaio_queue.cpp lines 76-308. *)
| AX_quiet : forall s q', step max false ps (a_q s) q' -> quiet (a_q s) q' ->
    astep max ps kf s None (MkA q' (a_par s) (a_todo s) (a_val s))
(** aread, awrite: linuxaio_file.cpp lines 22-46, linuxaio_queue.cpp lines 76-90. *)
| AX_post : forall s q' c i a, step max false ps (a_q s) q' -> added q' = i :: added (a_q s) ->
    astep max ps kf s (Some (APost c i a))
      (MkA q' (put i (Some (c, a)) (a_par s)) (put i (AsyncModel.offsets (AsyncModel.r_size a)) (a_todo s)) (a_val s))
(** The kernel copies a byte of a request it has accepted: the fields aio_buf, aio_offset and
    aio_nbytes of the control block, linuxaio_request.cpp lines 62-70. *)
| AX_move : forall s i c a k, In i (infl (a_q s)) -> a_par s i = Some (c, a) ->
    (0 <= k < AsyncModel.r_size a)%Z ->
    astep max ps kf s None
      (MkA (a_q s) (a_par s) (put i (filter (fun j => negb (Z.eqb j k)) (a_todo s i)) (a_todo s))
           (AsyncModel.upd (a_val s) (AsyncModel.dst a k) (a_val s (AsyncModel.src a k))))
(** The kernel is finished with a request: the event that io_getevents will return,
    linuxaio_queue.cpp lines 232, 283. *)
| AX_end : forall s q' l1 i l2 c a (ok : bool), step max false ps (a_q s) q' ->
    infl (a_q s) = l1 ++ i :: l2 -> infl q' = l1 ++ l2 -> a_par s i = Some (c, a) ->
    (if ok then a_todo s i = [] else kf = true) ->
    astep max ps kf s (Some (AEnd c i ok)) (MkA q' (a_par s) (a_todo s) (a_val s))
(** cancel_request has removed it from the list: linuxaio_queue.cpp lines 104-113. *)
| AX_erased : forall s q' i c a, step max false ps (a_q s) q' ->
    cancelers q' = C_compl i :: cancelers (a_q s) -> a_par s i = Some (c, a) ->
    astep max ps kf s (Some (AErased c i)) (MkA q' (a_par s) (a_todo s) (a_val s))
(** wait() or poll() sees that completed() was called: request_with_state.cpp lines 34-44, 69-76;
    or cancel() returns true: linuxaio_queue.cpp lines 114-119. *)
| AX_told : forall s c i b, In (i, b) (handled (a_q s)) -> astep max ps kf s (Some (ATold c i)) s
(** A client changes or looks at a byte of its memory (no code of the library). *)
| AX_poke : forall s c a v,
    astep max ps kf s (Some (APoke c a v))
      (MkA (a_q s) (a_par s) (a_todo s) (AsyncModel.upd (a_val s) (AsyncModel.Mem a) v))
| AX_peek : forall s c a, astep max ps kf s (Some (APeek c a (a_val s (AsyncModel.Mem a)))) s.

(** Executions, the latest happening last.  Model device (linuxaio_queue.cpp lines 76-308). *)
Inductive history (max : nat) (ps kf : bool) (s0 : world) : list happening -> world -> Prop :=
| HaNil : history max ps kf s0 [] s0
| HaSilent : forall t s s', history max ps kf s0 t s -> astep max ps kf s None s' -> history max ps kf s0 t s'
| HaSome : forall t s h s', history max ps kf s0 t s -> astep max ps kf s (Some h) s' -> history max ps kf s0 (t ++ [h]) s'.
