(** Model of the lifetime of request and file objects: intrusive reference counts
    of requests, the count of requests kept in a file, and who touches a request
    or a file when.

    Sources (in /repo/foxxll/io):
      request.hpp 25-45, request.cpp 22-38, 56-68, 95-101
                                      request, check_nref, release_file_reference
      request_with_state.cpp 26-31    destructor (the assertion)
      request_with_state.cpp 33-90    wait, cancel, poll, completed
      serving_request.cpp 40-63       serve
      disk_queued_file.cpp 23-51      aread, awrite
      request_queue_impl_1q.cpp 62-112, 122-147;
      request_queue_impl_qwqr.cpp     add_request, cancel_request, worker
      linuxaio_request.cpp 26-106     completed, fill_control_block, cancel
      linuxaio_queue.cpp 76-119, 144-263   add, cancel, posting, handle_events
      file.hpp 176-183, 219-238       ~file, request_ref_

    tlx is external.  tlx::counting_ptr increments the count of the object when
    it is copied and, when it is destroyed or reset, decrements it and deletes
    the object if the count is then 0.  tlx::reference_counter::dec_reference
    only decrements and returns whether the count is 0: it does not delete.

    Simplifications.
    - Semaphores, limits on events, priorities and the order of the queue are left
      out: any number of server threads take any waiting request (kind [Serving])
      or any first part of the queue (kind [Aio]) at any time, and an AIO thread
      both posts and reaps.  So there are more executions than in the program.
    - io_cancel always fails (what happens otherwise is C28); io_submit does not
      fail for good; transfer errors are left out, they only change error_.
    - wait() and poll() are one step; a waiting client is one that has not taken
      the step yet.
    - An object is looked at through its pointer in every step that touches it;
      touching a deleted object, or a destroyed file, is recorded in the log and
      the step goes on as if the memory were still intact.
    - A handler does nothing, or makes a counting pointer of the request it gets
      and gives it to some client.
    - Clients use only requests they have a counting pointer to; files are plain
      pointers which they may use even after destruction. *)
From Coq Require Import List Bool PeanoNat.
Import ListNotations.

(** Serving: request_queue_impl_1q / _qwqr with serving_request; Aio:
    linuxaio_queue with linuxaio_request.
     request_queue_impl_1q.cpp lines 62-168, request_queue_impl_qwqr.cpp lines 61-240,
        linuxaio_queue.cpp lines 76-308. *)
Inductive kind := Serving | Aio.

(** request_with_state.hpp:36. *)
Inductive rstate := OP | DONE | READY2DIE.

(** A request object: file_, the file it was made for, state_, the reference
    count; [o_freed]: it was deleted.
     request.hpp line 63, request_with_state.hpp line 36, tlx::reference_counter
        (request.hpp line 49). *)
Record obj := mk_obj {
  o_file : option nat; o_fid : nat; o_state : rstate; o_cnt : nat; o_freed : bool
}.

(** A file object: request_ref_ (file.hpp:219), and whether it still exists. *)
Record fobj := mk_fobj { f_nref : nat; f_alive : bool }.

(** Steps of completed(): linuxaio_request.cpp:31 (statistics of the file, only
    Aio); request_with_state.cpp:82, 84-85, 86, 88, 89; and the end of the last
    set_to(), after waiting threads can see READY2DIE (shared_state.hpp). *)
Inductive stage := StStats | StDone | StHandler | StNotify | StRelease | StReady | StTail.

(** A server thread.  [SvFin r st rest]: completing r, [rest] are the events that
    follow (handle_events); [SvDrop]: completed, before its reference is given up.
    [SvFill todo done]: posting thread, linuxaio_queue.cpp:198-202, [SvClear]:
    203, reqs.clear(). *)
Inductive spc :=
| SvIdle
| SvServe (r : nat)
| SvFin (r : nat) (st : stage) (rest : list nat)
| SvDrop (r : nat) (rest : list nat)
| SvFill (todo done : list nat)
| SvClear (todo : list nat).

(** [sv_cbs]: control blocks filled but not accepted by the kernel yet.
    linuxaio_queue.cpp line 196 (cbs). *)
Record server := mk_server { sv_cbs : list nat; sv_pc : spc }.

(** A client thread.  [CNew r]: in aread/awrite, before add_request.  cancel():
    [CCan1] before the counting pointer [rp] is made, [CCan2] before
    file_->get_queue_id(), [CCan3] before the queue is locked, [CCanFin] the
    completion, [CCanEnd] before [rp] is destroyed.
    disk_queued_file.cpp lines 23-51, request_with_state.cpp lines 46-67. *)
Inductive cpc :=
| CIdle
| CNew (r : nat)
| CCan1 (r : nat)
| CCan2 (r : nat)
| CCan3 (r : nat)
| CCanFin (r : nat) (st : stage)
| CCanEnd (r : nat) (res : option bool)
| CCrash.

(** [cl_hold]: its counting pointers.
    request.hpp line 43: request_ptr. *)
Record client := mk_client { cl_hold : list nat; cl_pc : cpc }.

(** Model device: what is recorded of the steps of request.cpp, request_with_state.cpp
    and linuxaio_queue.cpp lines 76-263. *)
Inductive event :=
| ENewReq (c r f : nat)             (* constructor of request *)
| EReject (c r f : nat)             (* add_request threw *)
| EServe (r f : nat) (warn : bool)  (* file_->serve; warn: check_nref complained *)
| EHandler (r : nat)
| ERelease (r f : nat)              (* delete_request_ref *)
| EFree (r : nat) (st : rstate)     (* deleted, with this state_ *)
| ELast (r : nat)                   (* the count became 0 by a bare dec_reference *)
| EPoll (c r : nat) (b : bool)
| EWaited (c r : nat)
| ECancelled (c r : nat) (res : option bool)   (* None: threw *)
| EDestroy (f n : nat)              (* ~file, which saw n as request count *)
| EBadReq (r : nat)                 (* a deleted request was touched *)
| EBadFile (f : nat)                (* a destroyed file was touched *)
| ENull (r : nat)                   (* cancel: file_ became null after the test *)
| ENullFin (r : nat).               (* completion: file_ is null *)

(** Model device: objects, files, queue, threads; request_queue_impl_1q.hpp line 41,
    linuxaio_queue.cpp lines 144-263. *)
Record state := mk_state {
  st_objs : list obj;
  st_files : list fobj;
  st_queue : list nat;
  st_kern : list nat;             (* accepted by the kernel *)
  st_servers : list server;
  st_clients : list client;
  st_running : bool;
  st_log : list event             (* newest first *)
}.

(** Model device: the queue after its constructor, request_queue_impl_1q.cpp lines
    49-54, linuxaio_queue.cpp lines 34-67. *)
Definition init (ns nc : nat) : state :=
  mk_state [] [] [] [] (repeat (mk_server [] SvIdle) ns) (repeat (mk_client [] CIdle) nc) true [].

(** Model device: state update or lookup used in the steps of request_with_state.cpp
    lines 46-90 and linuxaio_queue.cpp lines 76-263. *)
Fixpoint upd {A} (i : nat) (x : A) (l : list A) : list A :=
  match l, i with
  | [], _ => []
  | _ :: r, O => x :: r
  | y :: r, S i' => y :: upd i' x r
  end.

(** Model device: state update or lookup used in the steps of request_with_state.cpp
    lines 46-90 and linuxaio_queue.cpp lines 76-263. *)
Definition emit (e : event) (s : state) : state :=
  mk_state (st_objs s) (st_files s) (st_queue s) (st_kern s) (st_servers s) (st_clients s)
           (st_running s) (e :: st_log s).
(** Model device: state update or lookup used in the steps of request_with_state.cpp
    lines 46-90 and linuxaio_queue.cpp lines 76-263. *)
Definition set_objs (v : list obj) (s : state) : state :=
  mk_state v (st_files s) (st_queue s) (st_kern s) (st_servers s) (st_clients s)
           (st_running s) (st_log s).
(** Model device: state update or lookup used in the steps of request_with_state.cpp
    lines 46-90 and linuxaio_queue.cpp lines 76-263. *)
Definition set_files (v : list fobj) (s : state) : state :=
  mk_state (st_objs s) v (st_queue s) (st_kern s) (st_servers s) (st_clients s)
           (st_running s) (st_log s).
(** request_queue_impl_1q.cpp lines 85, 107, 135; linuxaio_queue.cpp lines 86, 112, 172,
    186. *)
Definition set_queue (v : list nat) (s : state) : state :=
  mk_state (st_objs s) (st_files s) v (st_kern s) (st_servers s) (st_clients s)
           (st_running s) (st_log s).
(** Model device: state update or lookup used in the steps of request_with_state.cpp
    lines 46-90 and linuxaio_queue.cpp lines 76-263. *)
Definition set_kern (v : list nat) (s : state) : state :=
  mk_state (st_objs s) (st_files s) (st_queue s) v (st_servers s) (st_clients s)
           (st_running s) (st_log s).
(** Model device: state update or lookup used in the steps of request_with_state.cpp
    lines 46-90 and linuxaio_queue.cpp lines 76-263. *)
Definition set_server (i : nat) (v : server) (s : state) : state :=
  mk_state (st_objs s) (st_files s) (st_queue s) (st_kern s) (upd i v (st_servers s)) (st_clients s)
           (st_running s) (st_log s).
(** Model device: state update or lookup used in the steps of request_with_state.cpp
    lines 46-90 and linuxaio_queue.cpp lines 76-263. *)
Definition set_client (c : nat) (v : client) (s : state) : state :=
  mk_state (st_objs s) (st_files s) (st_queue s) (st_kern s) (st_servers s) (upd c v (st_clients s))
           (st_running s) (st_log s).
(** thread_state_, request_queue_impl_worker.cpp lines 32-65. *)
Definition set_running (v : bool) (s : state) : state :=
  mk_state (st_objs s) (st_files s) (st_queue s) (st_kern s) (st_servers s) (st_clients s)
           v (st_log s).

(** Assignment to file_, request.cpp line 99, request_with_state.cpp line 62. *)
Definition with_file (v : option nat) (o : obj) := mk_obj v (o_fid o) (o_state o) (o_cnt o) (o_freed o).
(** state_.set_to, request_with_state.cpp lines 57, 63, 82, 89. *)
Definition with_state (v : rstate) (o : obj) := mk_obj (o_file o) (o_fid o) v (o_cnt o) (o_freed o).
(** The count of tlx::reference_counter, request.hpp line 49. *)
Definition with_cnt (v : nat) (o : obj) := mk_obj (o_file o) (o_fid o) (o_state o) v (o_freed o).
(** delete by the last counting pointer, request.hpp line 43. *)
Definition with_freed (o : obj) := mk_obj (o_file o) (o_fid o) (o_state o) (o_cnt o) true.

(** The object behind a pointer, touched.
    Model device: any access through a request_ptr (request.hpp line 43). *)
Definition touch (r : nat) (s : state) : option (obj * state) :=
  match nth_error (st_objs s) r with
  | Some o => Some (o, if o_freed o then emit (EBadReq r) s else s)
  | None => None
  end.

(** The file behind a pointer, touched.
    Model device: any access through file_ (request.hpp line 63). *)
Definition touch_file (f : nat) (s : state) : option (fobj * state) :=
  match nth_error (st_files s) f with
  | Some x => Some (x, if f_alive x then s else emit (EBadFile f) s)
  | None => None
  end.

(** inc_reference, and the copy of a counting pointer.
    tlx::counting_ptr of request.hpp line 43. *)
Definition inc (r : nat) (s : state) : option state :=
  match touch r s with
  | Some (o, s1) => Some (set_objs (upd r (with_cnt (S (o_cnt o)) o) (st_objs s1)) s1)
  | None => None
  end.

(** A counting pointer is destroyed or reset.
    tlx::counting_ptr of request.hpp line 43. *)
Definition dec (r : nat) (s : state) : option state :=
  match touch r s with
  | Some (o, s1) =>
      let o1 := with_cnt (o_cnt o - 1) o in
      if Nat.eqb (o_cnt o1) 0
      then Some (emit (EFree r (o_state o)) (set_objs (upd r (with_freed o1) (st_objs s1)) s1))
      else Some (set_objs (upd r o1 (st_objs s1)) s1)
  | None => None
  end.

(** linuxaio_queue.cpp:259: [r->dec_reference();], the result is not used. *)
Definition dec_bare (r : nat) (s : state) : option state :=
  match touch r s with
  | Some (o, s1) =>
      let o1 := with_cnt (o_cnt o - 1) o in
      let s2 := set_objs (upd r o1 (st_objs s1)) s1 in
      if Nat.eqb (o_cnt o1) 0 then Some (emit (ELast r) s2) else Some s2
  | None => None
  end.

(** file_->delete_request_ref(); file_ = nullptr: request.cpp:95-101, and
    request_with_state.cpp:61-62, which does not test file_ ([tested] = false). *)
Definition release (tested : bool) (r : nat) (o : obj) (s : state) : option state :=
  match o_file o with
  | Some f =>
      match touch_file f s with
      | Some (x, s1) =>
          Some (emit (ERelease r f)
                 (set_objs (upd r (with_file None o) (st_objs s1))
                    (set_files (upd f (mk_fobj (f_nref x - 1) (f_alive x)) (st_files s1)) s1)))
      | None => None
      end
  | None => if tested then Some s else Some (emit (ENullFin r) s)
  end.

(** A use of the file by the thread that serves or completes [r].
    serving_request.cpp lines 40-63, linuxaio_request.cpp line 31. *)
Definition use_file (r : nat) (o : obj) (s : state) : option state :=
  match o_file o with
  | Some f => match touch_file f s with Some (_, s1) => Some s1 | None => None end
  | None => Some (emit (ENullFin r) s)
  end.

(** Order of request_with_state.cpp lines 82-89, after linuxaio_request.cpp line 31. *)
Definition next_stage (st : stage) : option stage :=
  match st with
  | StStats => Some StDone | StDone => Some StHandler | StHandler => Some StNotify
  | StNotify => Some StRelease | StRelease => Some StReady | StReady => Some StTail
  | StTail => None
  end.

(** First step of completed() of the two kinds of requests.
    request_with_state.cpp line 82, linuxaio_request.cpp line 31. *)
Definition first_stage (k : kind) : stage := match k with Serving => StDone | Aio => StStats end.

(** Client [h] gets a counting pointer from a handler.
    on_complete_, request_with_state.cpp lines 58-59, 84-85. *)
Definition give (r h : nat) (s : state) : option state :=
  match nth_error (st_clients s) h, inc r s with
  | Some cl, Some s1 => Some (set_client h (mk_client (r :: cl_hold cl) (cl_pc cl)) s1)
  | _, _ => None
  end.

(** One step of completing [r]: request_with_state.cpp:57-63, 82-89.  [h]: the
    handler gives a pointer to this client. *)
Definition complete (tested : bool) (r : nat) (st : stage) (h : option nat) (s : state) : option state :=
  match touch r s with
  | None => None
  | Some (o, s1) =>
      match st with
      | StStats => use_file r o s1
      | StDone => Some (set_objs (upd r (with_state DONE o) (st_objs s1)) s1)
      | StHandler =>
          match h with
          | None => Some (emit (EHandler r) s1)
          | Some c => give r c (emit (EHandler r) s1)
          end
      | StNotify => Some s1
      | StRelease => release tested r o s1
      | StReady => Some (set_objs (upd r (with_state READY2DIE o) (st_objs s1)) s1)
      | StTail => Some s1
      end
  end.

(** Model device: state update or lookup used in the steps of request_with_state.cpp
    lines 46-90 and linuxaio_queue.cpp lines 76-263. *)
Fixpoint remove_one (r : nat) (l : list nat) : option (list nat) :=
  match l with
  | [] => None
  | x :: l' => if Nat.eqb x r then Some l'
               else match remove_one r l' with Some m => Some (x :: m) | None => None end
  end.
(** Model device: state update or lookup used in the steps of request_with_state.cpp
    lines 46-90 and linuxaio_queue.cpp lines 76-263. *)
Fixpoint remove_each (rs l : list nat) : option (list nat) :=
  match rs with
  | [] => Some l
  | r :: rs' => match remove_one r l with Some m => remove_each rs' m | None => None end
  end.

(** Everything that can happen.
     disk_queued_file.cpp lines 23-51, request_with_state.cpp lines 34-76,
        request_queue_impl_1q.cpp lines 62-147, linuxaio_queue.cpp lines 76-263,
        file.hpp lines 176-183. *)
Inductive action :=
| ANewFile                          (* a client makes a file *)
| ADestroy (f : nat)                (* ... and destroys it *)
| ANew (c f : nat)                  (* aread / awrite on file f: the request is made *)
| ACopy (c r d : nat)               (* c gives d a copy of its pointer *)
| ADrop (c r : nat)                 (* c destroys a pointer *)
| APoll (c r : nat)
| AWait (c r : nat)                 (* wait() returns *)
| ACancel (c r : nat)               (* cancel() is called *)
| AClient (c : nat) (h : option nat)   (* client c goes on in aread or cancel *)
| AStop                             (* the queue is told to stop *)
| APop (i r : nat)                  (* Serving: a worker takes r *)
| ATake (i n : nat)                 (* Aio: the first n waiting requests *)
| ASubmit (i n : nat)               (* io_submit accepts n control blocks *)
| AReap (i : nat) (evs : list nat)  (* io_getevents returns these *)
| AServer (i : nat) (h : option nat).  (* server i goes on *)

(** Model device: state update or lookup used in the steps of request_with_state.cpp
    lines 46-90 and linuxaio_queue.cpp lines 76-263. *)
Definition holds (cl : client) (r : nat) : bool := existsb (Nat.eqb r) (cl_hold cl).

(** A client continues (disk_queued_file.cpp:23-36; add_request;
    request_with_state.cpp:46-67; cancel_request). *)
Definition client_step (k : kind) (c : nat) (h : option nat) (s : state) : option state :=
  match nth_error (st_clients s) c with
  | None => None
  | Some cl =>
      match cl_pc cl with
      | CIdle | CCrash => None
      | CNew r =>
          if st_running s then
            (* queue_.push_back(req); return req *)
            match inc r s with
            | Some s1 => Some (set_client c (mk_client (r :: cl_hold cl) CIdle)
                                (set_queue (st_queue s1 ++ [r]) s1))
            | None => None
            end
          else
            match k with
            | Aio => None                 (* tlx_die *)
            | Serving =>
                match nth_error (st_objs s) r with
                | Some o =>
                    match dec r s with
                    | Some s1 => Some (emit (EReject c r (o_fid o))
                                        (set_client c (mk_client (cl_hold cl) CIdle) s1))
                    | None => None
                    end
                | None => None
                end
            end
      | CCan1 r =>
          match inc r s with
          | Some s1 => Some (set_client c (mk_client (cl_hold cl) (CCan2 r)) s1)
          | None => None
          end
      | CCan2 r =>
          match touch r s with
          | Some (o, s1) =>
              match o_file o with
              | Some f =>
                  match touch_file f s1 with
                  | Some (_, s2) => Some (set_client c (mk_client (cl_hold cl) (CCan3 r)) s2)
                  | None => None
                  end
              | None => Some (emit (ENull r) (set_client c (mk_client (r :: cl_hold cl) CCrash) s1))
              end
          | None => None
          end
      | CCan3 r =>
          if st_running s then
            match remove_one r (st_queue s) with
            | Some q =>
                match dec r (set_queue q s) with
                | Some s1 => Some (set_client c (mk_client (cl_hold cl) (CCanFin r (first_stage k))) s1)
                | None => None
                end
            | None => Some (set_client c (mk_client (cl_hold cl) (CCanEnd r (Some false))) s)
            end
          else
            match k with
            | Aio => None                 (* tlx_die *)
            | Serving => Some (set_client c (mk_client (cl_hold cl) (CCanEnd r None)) s)
            end
      | CCanFin r st =>
          match complete (match k with Serving => false | Aio => true end) r st h s with
          | Some s1 =>
              match nth_error (st_clients s1) c with   (* the handler may have given us a pointer *)
              | Some cl1 =>
                  Some (set_client c (mk_client (cl_hold cl1)
                          (match next_stage st with
                           | Some st' => CCanFin r st'
                           | None => CCanEnd r (Some true)
                           end)) s1)
              | None => None
              end
          | None => None
          end
      | CCanEnd r res =>
          match dec r s with
          | Some s1 => Some (emit (ECancelled c r res) (set_client c (mk_client (cl_hold cl) CIdle) s1))
          | None => None
          end
      end
  end.

(** A server continues (request_queue_impl_1q.cpp:128-140, serving_request.cpp:40-63;
    linuxaio_queue.cpp:198-203, 248-263). *)
Definition server_step (k : kind) (i : nat) (h : option nat) (s : state) : option state :=
  match nth_error (st_servers s) i with
  | None => None
  | Some v =>
      match sv_pc v with
      | SvIdle => None
      | SvServe r =>
          match touch r s with
          | Some (o, s1) =>
              match o_file o with
              | Some f =>
                  match touch_file f s1 with
                  | Some (_, s2) =>
                      Some (emit (EServe r f (Nat.ltb (o_cnt o) 2))
                              (set_server i (mk_server (sv_cbs v) (SvFin r (first_stage k) [])) s2))
                  | None => None
                  end
              | None => Some (emit (ENullFin r) s1)
              end
          | None => None
          end
      | SvFin r st rest =>
          match complete true r st h s with
          | Some s1 =>
              Some (set_server i (mk_server (sv_cbs v)
                      (match next_stage st with
                       | Some st' => SvFin r st' rest
                       | None => SvDrop r rest
                       end)) s1)
          | None => None
          end
      | SvDrop r rest =>
          match (match k with Serving => dec r s | Aio => dec_bare r s end) with
          | Some s1 =>
              Some (set_server i (mk_server (sv_cbs v)
                      (match rest with
                       | [] => SvIdle
                       | r' :: rest' => SvFin r' (first_stage k) rest'
                       end)) s1)
          | None => None
          end
      | SvFill [] done => Some (set_server i (mk_server (sv_cbs v ++ done) (SvClear done)) s)   (* sv_cbs is empty *)
      | SvFill (r :: todo) done =>
          (* fill_control_block: reads the file descriptor of file_, inc_reference *)
          match touch r s with
          | Some (o, s1) =>
              match use_file r o s1 with
              | Some s2 =>
                  match inc r s2 with
                  | Some s3 => Some (set_server i (mk_server (sv_cbs v) (SvFill todo (done ++ [r]))) s3)
                  | None => None
                  end
              | None => None
              end
          | None => None
          end
      | SvClear [] => Some (set_server i (mk_server (sv_cbs v) SvIdle) s)
      | SvClear (r :: todo) =>
          match dec r s with
          | Some s1 => Some (set_server i (mk_server (sv_cbs v) (SvClear todo)) s1)
          | None => None
          end
      end
  end.

(** One action: file.hpp lines 176-183, request.cpp lines 22-33, request_with_state.cpp
    lines 34-76, linuxaio_queue.cpp lines 144-263. *)
Definition exec (k : kind) (a : action) (s : state) : option state :=
  match a with
  | ANewFile => Some (set_files (st_files s ++ [mk_fobj 0 true]) s)
  | ADestroy f =>
      (* ~file, file.hpp:176-183 *)
      match nth_error (st_files s) f with
      | Some x => if f_alive x
                  then Some (emit (EDestroy f (f_nref x))
                              (set_files (upd f (mk_fobj (f_nref x) false) (st_files s)) s))
                  else None
      | None => None
      end
  | ANew c f =>
      (* make_counting: constructor of request, request.cpp:22-33 *)
      match nth_error (st_clients s) c with
      | Some cl =>
          match cl_pc cl, touch_file f s with
          | CIdle, Some (x, s1) =>
              Some (emit (ENewReq c (length (st_objs s1)) f)
                (set_client c (mk_client (cl_hold cl) (CNew (length (st_objs s1))))
                  (set_objs (st_objs s1 ++ [mk_obj (Some f) f OP 1 false])
                    (set_files (upd f (mk_fobj (S (f_nref x)) (f_alive x)) (st_files s1)) s1))))
          | _, _ => None
          end
      | None => None
      end
  | ACopy c r d =>
      match nth_error (st_clients s) c with
      | Some cl => match cl_pc cl with
                   | CIdle => if holds cl r then give r d s else None
                   | _ => None
                   end
      | None => None
      end
  | ADrop c r =>
      match nth_error (st_clients s) c with
      | Some cl =>
          match cl_pc cl, remove_one r (cl_hold cl) with
          | CIdle, Some l =>
              match dec r s with
              | Some s1 => Some (set_client c (mk_client l CIdle) s1)
              | None => None
              end
          | _, _ => None
          end
      | None => None
      end
  | APoll c r =>
      match nth_error (st_clients s) c with
      | Some cl =>
          match cl_pc cl, touch r s with
          | CIdle, Some (o, s1) =>
              if holds cl r
              then Some (emit (EPoll c r (match o_state o with OP => false | _ => true end)) s1)
              else None
          | _, _ => None
          end
      | None => None
      end
  | AWait c r =>
      match nth_error (st_clients s) c with
      | Some cl =>
          match cl_pc cl, touch r s with
          | CIdle, Some (o, s1) =>
              match o_state o with
              | READY2DIE => if holds cl r then Some (emit (EWaited c r) s1) else None
              | _ => None
              end
          | _, _ => None
          end
      | None => None
      end
  | ACancel c r =>
      (* if (!file_) return false; *)
      match nth_error (st_clients s) c with
      | Some cl =>
          match cl_pc cl, touch r s with
          | CIdle, Some (o, s1) =>
              if holds cl r then
                match o_file o with
                | Some _ => Some (set_client c (mk_client (cl_hold cl) (CCan1 r)) s1)
                | None => Some (emit (ECancelled c r (Some false)) s1)
                end
              else None
          | _, _ => None
          end
      | None => None
      end
  | AClient c h => client_step k c h s
  | AStop => Some (set_running false s)
  | APop i r =>
      (* request_ptr req = queue_.front(); queue_.pop_front(); *)
      match k, nth_error (st_servers s) i, remove_one r (st_queue s) with
      | Serving, Some v, Some q =>
          match sv_pc v, inc r s with
          | SvIdle, Some s1 =>
              match dec r (set_queue q s1) with
              | Some s2 => Some (set_server i (mk_server (sv_cbs v) (SvServe r)) s2)
              | None => None
              end
          | _, _ => None
          end
      | _, _, _ => None
      end
  | ATake i n =>
      (* linuxaio_queue.cpp:169-188; the pointers are moved on *)
      match k, nth_error (st_servers s) i with
      | Aio, Some v =>
          match sv_pc v, sv_cbs v with
          | SvIdle, [] =>
              Some (set_server i (mk_server [] (SvFill (firstn n (st_queue s)) []))
                      (set_queue (skipn n (st_queue s)) s))
          | _, _ => None
          end
      | _, _ => None
      end
  | ASubmit i n =>
      match nth_error (st_servers s) i with
      | Some v =>
          match sv_pc v with
          | SvIdle =>
              Some (set_server i (mk_server (skipn n (sv_cbs v)) SvIdle)
                      (set_kern (st_kern s ++ firstn n (sv_cbs v)) s))
          | _ => None
          end
      | None => None
      end
  | AReap i evs =>
      match nth_error (st_servers s) i, remove_each evs (st_kern s), evs with
      | Some v, Some kern, r :: rest =>
          match sv_pc v with
          | SvIdle => Some (set_server i (mk_server (sv_cbs v) (SvFin r (first_stage k) rest))
                              (set_kern kern s))
          | _ => None
          end
      | _, _, _ => None
      end
  | AServer i h => server_step k i h s
  end.

(** Actions in sequence, as in [exec]: request_with_state.cpp lines 34-90. *)
Fixpoint run (k : kind) (acts : list action) (s : state) : option state :=
  match acts with
  | [] => Some s
  | a :: acts' => match exec k a s with Some s1 => run k acts' s1 | None => None end
  end.
