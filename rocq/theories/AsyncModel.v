(** Model of asynchronous transfers, byte by byte, of any number of clients.

    Sources: /repo/foxxll/io/disk_queued_file.cpp 23-47, /repo/foxxll/io/linuxaio_file.cpp 22-46
    (aread, awrite), /repo/foxxll/io/serving_request.cpp 40-63 (serve),
    /repo/foxxll/io/request_with_state.cpp 34-90 (wait, cancel, completed).

    A request is posted, later its bytes are copied between buffer and file, then it is
    completed.  Which requests are under way together, in which order they and their bytes are
    transferred, and how often a byte is copied (a transfer that was interrupted may be repeated)
    is left open: all queue classes and file classes are covered.

    Simplifications.
    - The files and the memory are one map from locations to bytes; the size of a file is
      left out (C29-C31, C74 treat the file classes).
    - That a queue serves every accepted request once is C20 and C21. *)

From Coq Require Import ZArith List Bool.
Import ListNotations.
Local Open Scope Z_scope.

(** A byte of the memory or of a file.  file.hpp lines 119-136 (the parameters of a request). *)
Inductive loc := Mem (a : Z) | Disk (f : nat) (o : Z).

(** Equality of locations.  Model device (file.hpp lines 119-136). *)
Definition loc_eqb (l m : loc) : bool :=
  match l, m with
  | Mem a, Mem b => a =? b
  | Disk f o, Disk g p => Nat.eqb f g && (o =? p)
  | _, _ => false
  end.

(** The members of a request: op_, file_, offset_, buffer_, bytes_.
    request.hpp lines 62-71. *)
Record req := MkR { r_write : bool; r_file : nat; r_off : Z; r_buf : Z; r_size : Z }.

(** Where the [k]-th byte comes from and goes to: file::serve(buffer, offset, bytes, op).
    serving_request.cpp line 53. *)
Definition src (r : req) (k : Z) : loc :=
  if r_write r then Mem (r_buf r + k) else Disk (r_file r) (r_off r + k).
(** serving_request.cpp line 53. *)
Definition dst (r : req) (k : Z) : loc :=
  if r_write r then Disk (r_file r) (r_off r + k) else Mem (r_buf r + k).

(** What clients do and see: a request is posted, a byte of memory is changed or looked at, a
    request of theirs is completed, has failed, was cancelled.
    disk_queued_file.cpp lines 23-47, request_with_state.cpp lines 34-90. *)
Inductive label :=
| Post (c i : nat) (r : req)
| Poke (c : nat) (a v : Z)
| Peek (c : nat) (a v : Z)
| Done (c i : nat)
| Fail (c i : nat)
| Cancel (c i : nat).

(** A request that is not completed: its client and number, the bytes still to be copied, and
    whether it has left its queue.  request_queue_impl_worker and linuxaio_queue keep it;
    serving_request.cpp lines 40-63. *)
Record entry := MkE { e_client : nat; e_id : nat; e_req : req; e_todo : list Z; e_started : bool }.

(** All bytes, and the requests under way.  serving_request.cpp lines 40-63. *)
Record state := MkS { s_val : loc -> Z; s_fly : list entry }.

(** Model device: a byte changes (serving_request.cpp line 53). *)
Definition upd (f : loc -> Z) (l : loc) (v : Z) : loc -> Z := fun m => if loc_eqb m l then v else f m.

(** Numbers 0, ..., n-1.  Model device: the bytes of a request (serving_request.cpp line 53). *)
Definition offsets (n : Z) : list Z := map Z.of_nat (seq 0 (Z.to_nat n)).

(** One step; [None] is a step no client sees. *)
Inductive step : state -> option label -> state -> Prop :=
(** aread, awrite.  disk_queued_file.cpp lines 23-47, linuxaio_file.cpp lines 22-46. *)
| SPost : forall s c i r, (forall e, In e (s_fly s) -> e_id e <> i) ->
    step s (Some (Post c i r)) (MkS (s_val s) (s_fly s ++ [MkE c i r (offsets (r_size r)) false]))
(** A client writes to or reads from its memory (no code of the library). *)
| SPoke : forall s c a v, step s (Some (Poke c a v)) (MkS (upd (s_val s) (Mem a) v) (s_fly s))
| SPeek : forall s c a, step s (Some (Peek c a (s_val s (Mem a)))) s
(** file_->serve() copies a byte, serving_request.cpp line 53; or the kernel does. *)
| SMove : forall s l1 e l2 k, s_fly s = l1 ++ e :: l2 -> 0 <= k < r_size (e_req e) ->
    step s None (MkS (upd (s_val s) (dst (e_req e) k) (s_val s (src (e_req e) k)))
      (l1 ++ MkE (e_client e) (e_id e) (e_req e) (filter (fun j => negb (j =? k)) (e_todo e)) true :: l2))
(** serve() has returned: serving_request.cpp line 62; linuxaio_request::completed. *)
| SDone : forall s l1 e l2, s_fly s = l1 ++ e :: l2 -> e_todo e = [] ->
    step s (Some (Done (e_client e) (e_id e))) (MkS (s_val s) (l1 ++ l2))
(** serve() has thrown: serving_request.cpp lines 55-62. *)
| SFail : forall s l1 e l2, s_fly s = l1 ++ e :: l2 ->
    step s (Some (Fail (e_client e) (e_id e))) (MkS (s_val s) (l1 ++ l2))
(** cancel() has removed it from the queue: request_with_state.cpp lines 46-67. *)
| SCancel : forall s l1 e l2, s_fly s = l1 ++ e :: l2 -> e_started e = false ->
    step s (Some (Cancel (e_client e) (e_id e))) (MkS (s_val s) (l1 ++ l2)).

(** An execution and what the clients see of it.  Model device (serving_request.cpp lines 40-63). *)
Inductive run : state -> list label -> state -> Prop :=
| RNil : forall s, run s [] s
| RSilent : forall s1 s2 tr s3, step s1 None s2 -> run s2 tr s3 -> run s1 tr s3
| RLabel : forall s1 l s2 tr s3, step s1 (Some l) s2 -> run s2 tr s3 -> run s1 (l :: tr) s3.
