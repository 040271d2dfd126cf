(** Model of the buffered block writer when writes may fail.

    Source: /repo/foxxll/mng/buf_writer.hpp lines 36-219, with
    /repo/foxxll/io/request_with_state.cpp lines 34-44 (wait) and 69-76 (poll),
    /repo/foxxll/io/request.hpp lines 114-118 (check_errors),
    /repo/foxxll/io/request_operations.hpp lines 104-143 (wait_any) and
    /repo/foxxll/io/serving_request.cpp lines 40-63 (serve).

    The state is that of WriterModel.v together with the requests that failed.
    A request that failed stays in phase Posted there: nothing that needs a
    ready request is possible for it, and the steps below say what happens
    instead.

    Simplifications.
    - Those of WriterModel.v, except that I/O errors are modelled.
    - A failed write may have written a part of its block: the content of its
      target is not known until another write to it succeeds.
    - wait_any throws if it finds a failed request and returns if it finds one
      that is ready; which one it finds is left open.
    - Posting a request, new and push_back do not throw.
    - An exception that leaves the destructor ends the program
      (std::terminate: destructors are noexcept). *)

From Coq Require Import List Arith Bool ZArith.
From Verif Require Import WriterModel.
Import ListNotations.

Section WriterErr.
Context {A : Type}.

(** buf_writer.hpp lines 44-69, with the requests that failed. *)
Record xst := MkX {
  x_w    : wst A;
  x_bad  : list nat;        (* requests that failed, as indices into w_reqs *)
  x_torn : bid -> bool;     (* targets with unknown content *)
  x_kept : list nat;        (* what the caller held when it called flush() *)
  x_leak : nat;             (* arrays of requests that nobody can delete, lines 114-121 *)
  x_term : bool             (* std::terminate was called *)
}.

(** What can be observed of buf_writer.hpp lines 76-218. *)
Inductive xlabel :=
| XOk (l : wlabel A)        (* as in WriterModel.v *)
| XFail (d : bid)           (* a write to d failed *)
| XThrow                    (* the call in progress threw io_error *)
| XTerminate.

(** buf_writer.hpp lines 76-89: constructor. *)
Definition x_init (buf_size batch_size : nat) (mem : nat -> A) (bids : nat -> bid)
           (disk : bid -> A) : xst :=
  MkX (w_init buf_size batch_size mem bids disk) [] (fun _ => false) [] 0 false.

(** What is on disk, as far as it is known.
    Model device: known contents of a block (buf_writer.hpp lines 150-152). *)
Definition x_disk (x : xst) (d : bid) : option A :=
  if x_torn x d then None else Some (w_disk (x_w x) d).

(** The last request of buffer b failed: poll() and wait() throw.
    request.hpp lines 114-118. *)
Definition failed (x : xst) (b : nat) : bool :=
  match w_wreqs (x_w x) b with
  | Some i => existsb (Nat.eqb i) (x_bad x)
  | None => false
  end.

(** poll() in buf_writer.hpp line 103 returns: the request it looks at has not failed. *)
Definition poll_returns (x : xst) : Prop :=
  forall k b, w_pc (x_w x) = GPoll k -> nth_error (w_busy (x_w x)) k = Some b ->
    failed x b = false.

(** The I/O layer does not touch a request that failed.
    Model device: a request is served once, serving_request.cpp lines 40-63. *)
Definition bad_stay (x : xst) (s' : wst A) : Prop :=
  forall i, In i (x_bad x) -> nth_error (w_reqs s') i = nth_error (w_reqs (x_w x)) i.

(** A step of WriterModel.v.
    Model device: the part of WriterModel.v is replaced (buf_writer.hpp lines 44-69). *)
Definition x_ok (x : xst) (l : wlabel A) (s' : wst A) : xst :=
  MkX s' (x_bad x)
      (match l with LServe d _ => updb (x_torn x) d false | _ => x_torn x end)
      (match l with LFlush _ => w_held (x_w x) | _ => x_kept x end)
      (x_leak x) (x_term x).

(** The call in progress throws; [s'] is the state it leaves.
    request.hpp lines 114-118. *)
Definition x_throw (x : xst) (s' : wst A) (leak : nat) : xst :=
  MkX (set_pc s' Idle) (x_bad x) (x_torn x) (x_kept x) (leak + x_leak x) (x_term x).

(** buf_writer.hpp lines 194-218: an exception leaves the destructor. *)
Definition x_terminate (x : xst) : xst :=
  MkX (x_w x) (x_bad x) (x_torn x) (x_kept x) (x_leak x) true.

(** buf_writer.hpp lines 144-148, 169-173, 199-203: the entry is out of the batch when the
    wait for the buffer's previous request throws. *)
Definition set_batch (s : wst A) (rest : list (Z * nat)) : wst A :=
  MkW (w_n s) (w_bs s) (w_mem s) (w_bids s) (w_wreqs s) (w_free s) (w_busy s)
      rest (w_reqs s) (w_disk s) (w_pc s) (w_held s).

(** buf_writer.hpp lines 76-218, request_with_state.cpp lines 34-44 and 69-76,
    serving_request.cpp
    lines 40-63. *)
Inductive xstep (x : xst) : xlabel -> xst -> Prop :=
| XCaller : forall l s', x_term x = false -> cstep (x_w x) l s' -> xstep x (XOk l) (x_ok x l s')
| XCode : forall l s', x_term x = false -> istep (x_w x) l s' -> poll_returns x ->
    xstep x (XOk l) (x_ok x l s')
| XIo : forall l s', x_term x = false -> estep (x_w x) l s' -> bad_stay x s' ->
    xstep x (XOk l) (x_ok x l s')
(* serving_request.cpp lines 51-58 *)
| XFails : forall i r, x_term x = false -> nth_error (w_reqs (x_w x)) i = Some r ->
    r_ph r = Posted -> ~ In i (x_bad x) ->
    xstep x (XFail (r_bid r))
      (MkX (x_w x) (i :: x_bad x) (updb (x_torn x) (r_bid r) true) (x_kept x) (x_leak x) (x_term x))
(* get_free_block, line 103 *)
| XPoll : forall k b, x_term x = false -> w_pc (x_w x) = GPoll k ->
    nth_error (w_busy (x_w x)) k = Some b -> failed x b = true ->
    xstep x XThrow (x_throw x (x_w x) 0)
(* get_free_block, line 120: delete[] in line 122 is not reached *)
| XAny : forall b, x_term x = false -> w_pc (x_w x) = GTake -> w_free (x_w x) = [] ->
    In b (w_busy (x_w x)) -> failed x b = true ->
    xstep x XThrow (x_throw x (x_w x) 1)
(* write, line 148 *)
| XReuse : forall b d z y rest, x_term x = false -> w_pc (x_w x) = WFlush b d ->
    top_of (w_batch (x_w x)) z y rest -> failed x y = true ->
    xstep x XThrow (x_throw x (set_batch (x_w x) rest) 0)
(* flush, lines 173 and 182: the caller has the buffers it had *)
| XFReuse : forall z y rest, x_term x = false -> w_pc (x_w x) = FFlush ->
    top_of (w_batch (x_w x)) z y rest -> failed x y = true ->
    xstep x XThrow (x_throw x (set_held (set_batch (x_w x) rest) (x_kept x)) 0)
| XFWait : forall b l, x_term x = false -> w_pc (x_w x) = FWait (b :: l) -> failed x b = true ->
    xstep x XThrow (x_throw x (set_held (x_w x) (x_kept x)) 0)
(* destructor, lines 203 and 212 *)
| XDReuse : forall z y rest, x_term x = false -> w_pc (x_w x) = DFlush ->
    top_of (w_batch (x_w x)) z y rest -> failed x y = true ->
    xstep x XTerminate (x_terminate x)
| XDWait : forall b l, x_term x = false -> w_pc (x_w x) = DWait (b :: l) -> failed x b = true ->
    xstep x XTerminate (x_terminate x).

(** Model device: any number of steps (buf_writer.hpp lines 76-218). *)
Inductive xrun : xst -> list xlabel -> xst -> Prop :=
| XNil : forall x, xrun x [] x
| XCons : forall x1 tr x2 l x3, xrun x1 tr x2 -> xstep x2 l x3 -> xrun x1 (tr ++ [l]) x3.

End WriterErr.

Arguments xst : clear implicits.
Arguments xlabel : clear implicits.
