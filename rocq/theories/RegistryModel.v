(** Model of the table of request queues, of the assignment of disks to queues,
    and of the negotiation of the queue length with the kernel.

    Sources: /repo/foxxll/io/disk_queues.cpp lines 26-116,
    /repo/foxxll/io/linuxaio_queue.cpp lines 34-67 and 76-83,
    /repo/foxxll/io/request_queue_impl_qwqr.cpp lines 61-68,
    /repo/foxxll/mng/block_manager.cpp lines 47-77,
    /repo/foxxll/io/create_file.cpp lines 74-158.

    Simplifications: what a queue does with its requests is modelled elsewhere
    (QueueModel.v, LioModel.v); here it is only recorded which queue gets which
    call.  All functions hold mutex_ throughout, so they are atomic.  Queues are
    running.  The macro FOXXLL_HACK_SINGLE_IO_THREAD is not set. *)
From Coq Require Import List ZArith Bool.
Import ListNotations.
Local Open Scope Z_scope.

(** ** Negotiation *)

(** Result of io_setup: success, EAGAIN, or another error.
    linuxaio_queue.cpp lines 49-54. *)
Inductive kres := KOk | KAgain | KErr.

(** Conversion to int, and of int to the unsigned parameter of the system call.
    linuxaio_queue.cpp lines 49, 52. *)
Definition to_int (z : Z) : Z := (z + 2147483648) mod 4294967296 - 2147483648.
(** linuxaio_queue.cpp line 49. *)
Definition to_unsigned (z : Z) : Z := z mod 4294967296.

(** linuxaio_queue.cpp lines 54-61. *)
Inductive nres := NOk (events : Z) | NThrow | NNoFuel.

(** The loop of linuxaio_queue.cpp:49-59, with the values tried. *)
Fixpoint negotiate (fuel : nat) (kernel : Z -> kres) (m : Z) : list Z * nres :=
  match fuel with
  | O => ([], NNoFuel)
  | S fuel =>
      match kernel (to_unsigned m) with
      | KOk => ([m], NOk m)
      | KErr => ([m], NThrow)
      | KAgain =>
          if 1 <? m
          then let (l, r) := negotiate fuel kernel (to_int (Z.shiftl m 1)) in (m :: l, r)
          else ([m], NThrow)
      end
  end.

(** linuxaio_queue.cpp:38-44. *)
Definition start_events (desired : Z) : Z := if desired =? 0 then 64 else desired.

(** The constructor; 33 tries are enough for an int.
    linuxaio_queue.cpp lines 34-67. *)
Definition setup (kernel : Z -> kres) (desired : Z) : list Z * nres :=
  negotiate 33 kernel (start_events desired).

(** ** Table of queues *)

(** disk_queues.cpp lines 53, 57, 74, 79. *)
Inductive qkind := Qwqr | Aio (events : Z).

(** A queue: the number of its construction, and its kind.
    disk_queues.cpp lines 53, 57, 74, 79. *)
Record qobj := MkQ { q_uid : nat; q_kind : qkind }.

(** [std::map<disk_id_type, request_queue*>]; [None] is a null pointer.
    disk_queues.hpp lines 44, 49. *)
Definition qmap := list (Z * option qobj).
(** std::map::find, disk_queues.cpp lines 45, 67, 94, 104. *)
Fixpoint qfind (m : qmap) (d : Z) : option (option qobj) :=
  match m with
  | [] => None
  | (k, v) :: r => if k =? d then Some v else qfind r d
  end.

(** disk_queues.hpp line 49, and the next number of a queue. *)
Record rstate := MkR { r_map : qmap; r_next : nat }.
(** Constructor, disk_queues.cpp lines 26-29. *)
Definition r_init : rstate := MkR [] 0.

(** A file: whether it is a linuxaio_file, its queue, its desired queue length.
    disk_queues.cpp lines 43, 51-53. *)
Record rfile := MkF { f_aio : bool; f_queue : Z; f_len : Z }.

(** A request: its number, whether it is a linuxaio_request, and the desired
    queue length of its file.
    disk_queues.cpp lines 73-75. *)
Record rreq := MkReq { rq_id : nat; rq_aio : bool; rq_len : Z }.

(** Results of disk_queues.cpp lines 39-116; linuxaio_queue.cpp lines 78-83. *)
Inductive rout :=
| RUnit
| RAdded (uid : nat)       (* the queue with this number got the request *)
| RCancel (uid : nat)      (* the queue with this number decides *)
| RFalse
| RQueue (q : option nat)
| RThrow
| RDie                     (* tlx_die: the program is aborted *)
| RCrash.                  (* call through a null pointer *)

(** Operations; [kernel] answers io_setup during the operation.
    disk_queues.cpp lines 39-116. *)
Inductive rop :=
| OMake (f : rfile) (kernel : Z -> kres)
| OAdd (r : option rreq) (d : Z) (kernel : Z -> kres)
| OCancel (r : option rreq) (d : Z)
| OGet (d : Z)
| OPriority.

Section Table.
(** In C++14 it is not specified whether [queues_\[d\]] or [new ...] is evaluated
    first in [queues_\[d\] = new ...]; with [lhs_first] the entry exists, with a
    null pointer, when the constructor throws. *)
Variable lhs_first : bool.

(** [queues_\[d\] = new linuxaio_queue(len)] or [new request_queue_impl_qwqr()],
    disk_queues.cpp:51-57 and 73-79; the boolean says whether it returned. *)
Definition create (aio : bool) (len : Z) (kernel : Z -> kres) (d : Z) (s : rstate) : bool * rstate :=
  let fresh k := (true, MkR ((d, Some (MkQ (r_next s) k)) :: r_map s) (S (r_next s))) in
  if aio then
    match snd (setup kernel len) with
    | NOk n => fresh (Aio n)
    | _ => (false, if lhs_first then MkR ((d, None) :: r_map s) (r_next s) else s)
    end
  else fresh Qwqr.

(** q->add_request(req): linuxaio_queue.cpp:78-83,
    request_queue_impl_qwqr.cpp:63-68. *)
Definition q_add (q : qobj) (r : option rreq) : rout :=
  match r with
  | None => RThrow
  | Some r =>
      match q_kind q with
      | Aio _ => if rq_aio r then RAdded (q_uid q) else RDie
      | Qwqr => RAdded (q_uid q)
      end
  end.

(** q->cancel_request(req): linuxaio_queue.cpp:94-101,
    request_queue_impl_qwqr.cpp:112-117. *)
Definition q_cancel (q : qobj) (r : option rreq) : rout :=
  match r with
  | None => RThrow
  | Some r =>
      match q_kind q with
      | Aio _ => if rq_aio r then RCancel (q_uid q) else RDie
      | Qwqr => RCancel (q_uid q)
      end
  end.

(** disk_queues.cpp:39-58. *)
Definition make_queue (f : rfile) (kernel : Z -> kres) (s : rstate) : rout * rstate :=
  match qfind (r_map s) (f_queue f) with
  | Some _ => (RUnit, s)
  | None =>
      let (ok, s1) := create (f_aio f) (f_len f) kernel (f_queue f) s in
      (if ok then RUnit else RThrow, s1)
  end.

(** disk_queues.cpp line 73. *)
Definition is_aio (r : option rreq) : bool := match r with Some r => rq_aio r | None => false end.
(** disk_queues.cpp line 75. *)
Definition len_of (r : option rreq) : Z := match r with Some r => rq_len r | None => 0 end.

(** disk_queues.cpp:60-85. *)
Definition add_request (r : option rreq) (d : Z) (kernel : Z -> kres) (s : rstate) : rout * rstate :=
  let use s1 :=
    match qfind (r_map s1) d with
    | Some (Some q) => q_add q r
    | _ => RCrash
    end in
  match qfind (r_map s) d with
  | Some _ => (use s, s)
  | None =>
      let (ok, s1) := create (is_aio r) (len_of r) kernel d s in
      (if ok then use s1 else RThrow, s1)
  end.

(** disk_queues.cpp:87-98. *)
Definition cancel_request (r : option rreq) (d : Z) (s : rstate) : rout :=
  match qfind (r_map s) d with
  | Some (Some q) => q_cancel q r
  | Some None => RCrash
  | None => RFalse
  end.

(** disk_queues.cpp:100-108. *)
Definition get_queue (d : Z) (s : rstate) : rout :=
  match qfind (r_map s) d with
  | Some (Some q) => RQueue (Some (q_uid q))
  | _ => RQueue None
  end.

(** disk_queues.cpp:110-116; neither kind of queue does anything with it
    (request_queue_impl_qwqr.cpp:55-59, request_queue.hpp:48). *)
Definition set_priority_op (s : rstate) : rout :=
  if existsb (fun kv => match snd kv with None => true | _ => false end) (r_map s)
  then RCrash else RUnit.

(** A call, disk_queues.cpp lines 39-116. *)
Definition rstep (o : rop) (s : rstate) : rout * rstate :=
  match o with
  | OMake f k => make_queue f k s
  | OAdd r d k => add_request r d k s
  | OCancel r d => (cancel_request r d s, s)
  | OGet d => (get_queue d s, s)
  | OPriority => (set_priority_op s, s)
  end.

(** Results of a list of operations, and the table afterwards.  After an abort
    the later results mean nothing.
    disk_queues.cpp lines 39-116. *)
Fixpoint rrun (ops : list rop) (s : rstate) : list rout * rstate :=
  match ops with
  | [] => ([], s)
  | o :: r => let (x, s1) := rstep o s in let (xs, s2) := rrun r s1 in (x :: xs, s2)
  end.

(** ** Block manager *)

(** What matters of a disk_config.
    create_file.cpp lines 74-158, block_manager.cpp lines 52-53. *)
Record rconf := MkC { c_aio : bool; c_queue : Z; c_len : Z }.
(** file.hpp line 89. *)
Definition DEFAULT_QUEUE : Z := -1.          (* io/file.hpp:89 *)
(** file.hpp line 90. *)
Definition DEFAULT_LINUXAIO_QUEUE : Z := -2. (* io/file.hpp:90 *)

(** block_manager.cpp:52-53, create_file.cpp:74-79 and 126-133. *)
Definition disk_file (c : rconf) (i : nat) : rfile :=
  let q := if c_queue c =? DEFAULT_QUEUE then Z.of_nat i else c_queue c in
  MkF (c_aio c) (if c_aio c then DEFAULT_LINUXAIO_QUEUE else q) (c_len c).

(** block_manager.cpp lines 47-57. *)
Fixpoint disk_files (cs : list rconf) (i : nat) : list rfile :=
  match cs with [] => [] | c :: r => disk_file c i :: disk_files r (S i) end.

(** The loop of block_manager.cpp:47-77; stops at an exception. *)
Fixpoint open_disks (fs : list rfile) (kernel : Z -> kres) (s : rstate) : bool * rstate :=
  match fs with
  | [] => (true, s)
  | f :: r =>
      match make_queue f kernel s with
      | (RUnit, s1) => open_disks r kernel s1
      | (_, s1) => (false, s1)
      end
  end.
(** block_manager.cpp lines 47-77. *)
Definition block_manager (cs : list rconf) (kernel : Z -> kres) (s : rstate) : bool * rstate :=
  open_disks (disk_files cs 0) kernel s.

(** A request of a file: linuxaio_file.cpp:26-30, disk_queued_file.cpp:27-31. *)
Definition submit (f : rfile) (id : nat) (kernel : Z -> kres) (s : rstate) : rout :=
  fst (add_request (Some (MkReq id (f_aio f) (f_len f))) (f_queue f) kernel s).
End Table.
