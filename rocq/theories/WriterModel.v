(** Model of the buffered block writer.

    Source: /repo/foxxll/mng/buf_writer.hpp lines 36-219 (class
    buffered_writer: constructor 76-89, get_free_block 98-131, write 137-162,
    flush 164-191, destructor 194-218).

    The writer and its caller run in one thread; the I/O layer runs beside it.
    Every loop iteration, poll() and wait() of the code is a separate step, and
    steps of the I/O layer may happen between any two of them.

    Simplifications.
    - size_t is [nat], file offsets are [Z].
    - The content of a block is a value of an arbitrary type [A]; writing a
      block transfers the content the buffer has at that moment.
    - A request goes through the phases Posted (nothing transferred), Served
      (data are on disk), Ready (poll() is true, wait() returns).  I/O errors
      (wait() and poll() may throw io_error) are left to WriterErrModel.v.
    - std::priority_queue is a multiset from which an entry with a minimal
      offset is taken; which one of several is left open (batch_entry_cmp,
      lines 60-66, compares offsets only).
    - A request_ptr is an index into the list of all requests ever posted.
    - Pointers to blocks of write_buffers are the indices of the blocks.
    - wait_any (request_operations.hpp lines 104-153) returns the index of
      some request that is ready and does not return before one is; its
      behaviour is the subject of C25.
    - disk_queues::set_priority_op (line 88) is not modelled. *)

From Coq Require Import List Arith Bool ZArith.
Import ListNotations.

(** BID: storage and offset (/repo/foxxll/mng/bid.hpp lines 38-105). *)
Record bid := MkBid { b_storage : nat; b_offset : Z }.

(** How far a write is: serving_request.cpp lines 40-63, request_with_state.cpp lines 78-90. *)
Inductive phase := Posted | Served | Ready.

(** A write request: buffer, target, phase.
    buf_writer.hpp lines 45-47. *)
Record wreq := MkReq { r_buf : nat; r_bid : bid; r_ph : phase }.

(** Where the writer's thread is.
    buf_writer.hpp lines 98-218. *)
Inductive wpc :=
| Idle                          (* in the caller's code *)
| WFlush (b : nat) (d : bid)    (* write(b, d): loop of lines 142-153 *)
| WPush (b : nat) (d : bid)     (* write(b, d): lines 157-159 *)
| GPoll (k : nat)               (* get_free_block: loop of lines 101-110, k-th entry *)
| GTake                         (* get_free_block: lines 111-130 *)
| FFlush                        (* flush(): loop of lines 167-178 *)
| FWait (l : list nat)          (* flush(): loop of lines 179-183, [l] still to do *)
| DFlush                        (* destructor: loop of lines 197-208 *)
| DWait (l : list nat)          (* destructor: loop of lines 209-213 *)
| Dead.                         (* destroyed *)

Section Writer.
Context {A : Type}.

(** Members of buffered_writer, buf_writer.hpp lines 44-69; the requests, the disk, the
    program counter and the buffers the caller holds. *)
Record wst := MkW {
  w_n     : nat;                  (* nwriteblocks *)
  w_bs    : nat;                  (* writebatchsize *)
  w_mem   : nat -> A;             (* write_buffers[i] *)
  w_bids  : nat -> bid;           (* write_bids[i] *)
  w_wreqs : nat -> option nat;    (* write_reqs[i], None: not valid() *)
  w_free  : list nat;             (* free_write_blocks *)
  w_busy  : list nat;             (* busy_write_blocks *)
  w_batch : list (Z * nat);       (* batch_write_blocks *)
  w_reqs  : list wreq;            (* all requests posted so far *)
  w_disk  : bid -> A;
  w_pc    : wpc;
  w_held  : list nat              (* buffers in the hands of the caller *)
}.

(** What can be observed.
    buf_writer.hpp lines 98-218. *)
Inductive wlabel :=
| LGet                            (* get_free_block() called *)
| LWrite (b : nat) (d : bid) (a : A)  (* write(b, d) called, b contains a *)
| LRet (b : nat)                  (* get_free_block() or write() returned b *)
| LFill (b : nat) (a : A)         (* the caller changed the content of b *)
| LFlush (keep : bool)            (* flush() called; keep: the caller goes on
                                     using the buffers it holds *)
| LFlushed                        (* flush() returned *)
| LDestroy                        (* destructor entered *)
| LDestroyed                      (* destructor returned *)
| LServe (d : bid) (a : A)        (* the I/O layer wrote a to d *)
| LTau.                           (* anything else *)

(** Model device: assignment to an array element (buf_writer.hpp lines 44-51). *)
Definition updn {B} (f : nat -> B) (k : nat) (v : B) : nat -> B :=
  fun x => if x =? k then v else f x.

(** Equality of block identifiers, bid.hpp lines 94-97. *)
Definition bid_eqb (a b : bid) : bool :=
  (b_storage a =? b_storage b) && (b_offset a =? b_offset b)%Z.

(** Model device: assignment to a block on disk (buf_writer.hpp lines 150-152). *)
Definition updb {B} (f : bid -> B) (k : bid) (v : B) : bid -> B :=
  fun x => if bid_eqb x k then v else f x.

(** Model device: update of a request (buf_writer.hpp lines 45-47). *)
Fixpoint set_nth {B} (k : nat) (v : B) (l : list B) : list B :=
  match l, k with
  | [], _ => []
  | _ :: l', O => v :: l'
  | x :: l', S k' => x :: set_nth k' v l'
  end.

(** Constructor, buf_writer.hpp lines 76-89. The contents of the buffers and the array of
    bids are not initialised. *)
Definition w_init (buf_size batch_size : nat) (mem : nat -> A) (bids : nat -> bid)
           (disk : bid -> A) : wst :=
  let n := if 2 <? buf_size then buf_size else 2 in
  let bs := match batch_size with O => 1 | _ => batch_size end in
  MkW n bs mem bids (fun _ => None) (seq 0 n) [] [] [] disk Idle [].

(** Model device: the writer moves on (buf_writer.hpp lines 98-218). *)
Definition set_pc (s : wst) (pc : wpc) : wst :=
  MkW (w_n s) (w_bs s) (w_mem s) (w_bids s) (w_wreqs s) (w_free s) (w_busy s)
      (w_batch s) (w_reqs s) (w_disk s) pc (w_held s).

(** request->poll() is true / request->wait() returns.
    request_with_state.cpp lines 34-44 and 69-76. *)
Definition ready (s : wst) (i : nat) : bool :=
  match nth_error (w_reqs s) i with
  | Some r => match r_ph r with Ready => true | _ => false end
  | None => false
  end.

(** if (write_reqs[b].valid()) write_reqs[b]->wait(); buf_writer.hpp lines 147-148, 172-173,
    202-203: true if this returns. *)
Definition may_reuse (s : wst) (b : nat) : bool :=
  match w_wreqs s b with
  | None => true
  | Some i => ready s i
  end.

(** write_reqs[b]->poll() in buf_writer.hpp line 103, write_reqs[b]->wait() in lines 182 and
    212; [None] would be a null dereference. *)
Definition is_ready (s : wst) (b : nat) : option bool :=
  match w_wreqs s b with
  | None => None
  | Some i => Some (ready s i)
  end.

(** buf_writer.hpp lines 144-152 (also 169-177 and 199-207): the entry for buffer b has been
    taken out of the batch ([rest] remains), the write is posted. *)
Definition post (s : wst) (b : nat) (rest : list (Z * nat)) : wst :=
  MkW (w_n s) (w_bs s) (w_mem s) (w_bids s)
      (updn (w_wreqs s) b (Some (length (w_reqs s)))) (w_free s)
      (w_busy s ++ [b]) rest
      (w_reqs s ++ [MkReq b (w_bids s b) Posted]) (w_disk s) (w_pc s) (w_held s).

(** [top_of batch z b rest]: (z, b) is an entry with a minimal offset.
    buf_writer.hpp lines 60-69. *)
Definition top_of (batch : list (Z * nat)) (z : Z) (b : nat) (rest : list (Z * nat)) : Prop :=
  exists l1 l2, batch = l1 ++ (z, b) :: l2 /\ rest = l1 ++ l2 /\
    forall z' b', In (z', b') rest -> (z <= z')%Z.

(** buf_writer.hpp lines 139-140: is the batch flushed first? *)
Definition enter_write (s : wst) (b : nat) (d : bid) : wpc :=
  if w_bs s <=? length (w_batch s) then WFlush b d else WPush b d.

(** buf_writer.hpp lines 157-159. *)
Definition push_batch (s : wst) (b : nat) (d : bid) : wst :=
  MkW (w_n s) (w_bs s) (w_mem s) (updn (w_bids s) b d) (w_wreqs s) (w_free s)
      (w_busy s) ((b_offset d, b) :: w_batch s) (w_reqs s) (w_disk s) (GPoll 0) (w_held s).

(** buf_writer.hpp lines 105-106. *)
Definition poll_hit (s : wst) (k b : nat) : wst :=
  MkW (w_n s) (w_bs s) (w_mem s) (w_bids s) (w_wreqs s) (w_free s ++ [b])
      (firstn k (w_busy s) ++ skipn (S k) (w_busy s)) (w_batch s) (w_reqs s)
      (w_disk s) GTake (w_held s).

(** Return of a buffer to the caller: buf_writer.hpp lines 127-130 with the new free list,
    lines 123-125 with the new busy list. *)
Definition return_buf (s : wst) (free busy : list nat) (b : nat) : wst :=
  MkW (w_n s) (w_bs s) (w_mem s) (w_bids s) (w_wreqs s) free busy
      (w_batch s) (w_reqs s) (w_disk s) Idle (b :: w_held s).

(** buf_writer.hpp lines 186-190. *)
Definition flush_end (s : wst) : wst :=
  MkW (w_n s) (w_bs s) (w_mem s) (w_bids s) (w_wreqs s) (seq 0 (w_n s)) []
      (w_batch s) (w_reqs s) (w_disk s) Idle (w_held s).

(** Model device: the buffers in the hands of the caller (buf_writer.hpp lines 98-162). *)
Definition set_held (s : wst) (h : list nat) : wst :=
  MkW (w_n s) (w_bs s) (w_mem s) (w_bids s) (w_wreqs s) (w_free s) (w_busy s)
      (w_batch s) (w_reqs s) (w_disk s) (w_pc s) h.

(** The caller: may ask for a buffer, change a buffer it holds, write a buffer
    it holds (and thereby give it back), flush or destroy the writer.
    buf_writer.hpp lines 98, 137, 164, 194. *)
Inductive cstep (s : wst) : wlabel -> wst -> Prop :=
| CGet : w_pc s = Idle -> cstep s LGet (set_pc s (GPoll 0))
| CFill : forall b a, w_pc s = Idle -> In b (w_held s) ->
    cstep s (LFill b a)
      (MkW (w_n s) (w_bs s) (updn (w_mem s) b a) (w_bids s) (w_wreqs s) (w_free s) (w_busy s)
           (w_batch s) (w_reqs s) (w_disk s) Idle (w_held s))
| CWrite : forall h1 b h2 d, w_pc s = Idle -> w_held s = h1 ++ b :: h2 ->
    cstep s (LWrite b d (w_mem s b))
      (set_held (set_pc s (enter_write s b d)) (h1 ++ h2))
| CFlush : forall keep : bool, w_pc s = Idle ->
    cstep s (LFlush keep) (set_held (set_pc s FFlush) (if keep then w_held s else []))
| CDestroy : w_pc s = Idle ->
    cstep s LDestroy (set_held (set_pc s DFlush) []).

(** The code of the writer.
    buf_writer.hpp lines 98-218. *)
Inductive istep (s : wst) : wlabel -> wst -> Prop :=
(* write(), lines 142-153 *)
| IWFlush : forall b d z x rest, w_pc s = WFlush b d ->
    top_of (w_batch s) z x rest -> may_reuse s x = true ->
    istep s LTau (post s x rest)
| IWFlushEnd : forall b d, w_pc s = WFlush b d -> w_batch s = [] ->
    istep s LTau (set_pc s (WPush b d))
(* write(), lines 157-161 *)
| IWPush : forall b d, w_pc s = WPush b d -> istep s LTau (push_batch s b d)
(* get_free_block(), lines 101-110 *)
| IPollHit : forall k b, w_pc s = GPoll k -> nth_error (w_busy s) k = Some b ->
    is_ready s b = Some true -> istep s LTau (poll_hit s k b)
| IPollMiss : forall k b, w_pc s = GPoll k -> nth_error (w_busy s) k = Some b ->
    is_ready s b = Some false -> istep s LTau (set_pc s (GPoll (S k)))
| IPollEnd : forall k, w_pc s = GPoll k -> length (w_busy s) <= k ->
    istep s LTau (set_pc s GTake)
(* get_free_block(), lines 127-130 *)
| ITakeFree : forall l b, w_pc s = GTake -> w_free s = l ++ [b] ->
    istep s (LRet b) (return_buf s l (w_busy s) b)
(* get_free_block(), lines 113-125: wait_any *)
| ITakeAny : forall k b, w_pc s = GTake -> w_free s = [] ->
    nth_error (w_busy s) k = Some b -> is_ready s b = Some true ->
    istep s (LRet b) (return_buf s [] (firstn k (w_busy s) ++ skipn (S k) (w_busy s)) b)
(* flush(), lines 167-190 *)
| IFFlush : forall z x rest, w_pc s = FFlush ->
    top_of (w_batch s) z x rest -> may_reuse s x = true ->
    istep s LTau (post s x rest)
| IFFlushEnd : w_pc s = FFlush -> w_batch s = [] ->
    istep s LTau (set_pc s (FWait (w_busy s)))
| IFWait : forall b l, w_pc s = FWait (b :: l) -> is_ready s b = Some true ->
    istep s LTau (set_pc s (FWait l))
| IFWaitEnd : w_pc s = FWait [] -> istep s LFlushed (flush_end s)
(* destructor, lines 197-217 *)
| IDFlush : forall z x rest, w_pc s = DFlush ->
    top_of (w_batch s) z x rest -> may_reuse s x = true ->
    istep s LTau (post s x rest)
| IDFlushEnd : w_pc s = DFlush -> w_batch s = [] ->
    istep s LTau (set_pc s (DWait (w_busy s)))
| IDWait : forall b l, w_pc s = DWait (b :: l) -> is_ready s b = Some true ->
    istep s LTau (set_pc s (DWait l))
| IDWaitEnd : w_pc s = DWait [] -> istep s LDestroyed (set_pc s Dead).

(** The I/O layer: transfers the buffer of a posted request, then marks the
    request as ready.
    request_with_state.cpp lines 78-90. *)
Inductive estep (s : wst) : wlabel -> wst -> Prop :=
| EServe : forall i r, nth_error (w_reqs s) i = Some r -> r_ph r = Posted ->
    estep s (LServe (r_bid r) (w_mem s (r_buf r)))
      (MkW (w_n s) (w_bs s) (w_mem s) (w_bids s) (w_wreqs s) (w_free s) (w_busy s)
           (w_batch s) (set_nth i (MkReq (r_buf r) (r_bid r) Served) (w_reqs s))
           (updb (w_disk s) (r_bid r) (w_mem s (r_buf r))) (w_pc s) (w_held s))
| EReady : forall i r, nth_error (w_reqs s) i = Some r -> r_ph r = Served ->
    estep s LTau
      (MkW (w_n s) (w_bs s) (w_mem s) (w_bids s) (w_wreqs s) (w_free s) (w_busy s)
           (w_batch s) (set_nth i (MkReq (r_buf r) (r_bid r) Ready) (w_reqs s))
           (w_disk s) (w_pc s) (w_held s)).

(** A step of the writer's code or of the I/O layer, i.e. not of the caller.
    Model device over buf_writer.hpp lines 98-218. *)
Definition sstep (s : wst) (l : wlabel) (s' : wst) : Prop := istep s l s' \/ estep s l s'.
(** Model device: a step of the caller, of buf_writer.hpp lines 98-218 or of the I/O layer. *)
Definition wstep (s : wst) (l : wlabel) (s' : wst) : Prop := cstep s l s' \/ sstep s l s'.

(** Model device: any number of steps (buf_writer.hpp lines 98-218). *)
Inductive wrun : wst -> list wlabel -> wst -> Prop :=
| WNil : forall s, wrun s [] s
| WCons : forall s1 tr s2 l s3, wrun s1 tr s2 -> wstep s2 l s3 -> wrun s1 (tr ++ [l]) s3.

End Writer.

Arguments wst : clear implicits.
Arguments wlabel : clear implicits.
