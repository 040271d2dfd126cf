(** Model of the block prefetcher.

    Source: /repo/foxxll/mng/block_prefetcher.hpp lines 31-49
    (set_switch_handler) and 55-233 (block_prefetcher: wait 87-101,
    constructor 110-153, pull_block 162-166, block_consumed 172-205, destructor
    221-232).

    The prefetcher and its caller run in one thread, the I/O layer runs beside
    it; steps of the I/O layer may happen between any two steps of the code.

    Simplifications.
    - size_t is [nat]; the value -1 of pref_buffer is [None].
    - The content of a block is a value of an arbitrary type [A]; [None] is
      undefined content: a buffer has undefined content from the moment a read
      into it is posted until the data have arrived.
    - The blocks of the sequence are not written while the prefetcher exists.
    - A read request goes through the phases Posted, Arrived (data are in the
      buffer), Switched (completion handler has run: state DONE), Finished
      (state READY2DIE, wait() returns), see
      /repo/foxxll/io/request_with_state.cpp lines 78-90.  I/O errors are left
      to PrefetchErrModel.v, do_after_fetch does nothing.
    - A failing assertion, and an access to pref_buffer[iblock] that does not
      yield a buffer, lead to the program counter [PFail].
    - onoff_switch::wait_for_on (/repo/foxxll/common/onoff_switch.hpp lines
      64-69) waits once on a condition variable and does not test the flag
      again; whether spurious wakeups happen is the parameter [spur].
    - The caller calls pull_block() only while empty() is false (otherwise
      completed[] is accessed out of bounds). *)

From Coq Require Import List Arith Bool.
From Verif Require Import WriterModel.
Import ListNotations.

(** How far a read is: serving_request.cpp lines 40-63, request_with_state.cpp lines 78-90. *)
Inductive rphase := RPosted | RArrived | RSwitched | RFinished.

(** A read request: buffer, index of the block in the sequence, phase.
    block_prefetcher.hpp lines 79-80. *)
Record rreq := MkRd { q_buf : nat; q_blk : nat; q_ph : rphase }.

(** Where the consumer is in block_prefetcher.hpp lines 87-232. *)
Inductive ppc :=
| PCtor (i : nat)       (* constructor: loop of lines 139-152 *)
| PIdle                 (* in the caller's code *)
| PGiven (b : nat)      (* block_consumed(b): lines 176-178 *)
| PWait (k : nat)       (* wait(k): line 93 *)
| PDtor (i : nat)       (* destructor: loop of lines 223-225 *)
| PDead
| PFail.

Section Prefetch.
Context {A : Type}.

(** Members of block_prefetcher, block_prefetcher.hpp lines 66-83; requests, disk,
    program counter
    and buffers in the hands of the caller. *)
Record pst := MkP {
  p_bids  : list bid;            (* consume_seq_begin .. consume_seq_end *)
  p_seq   : list nat;            (* prefetch_seq *)
  p_disk  : bid -> A;
  p_n     : nat;                 (* nreadblocks *)
  p_nread : nat;                 (* nextread *)
  p_ncons : nat;                 (* nextconsume *)
  p_mem   : nat -> option A;     (* read_buffers *)
  p_rreq  : nat -> option nat;   (* read_reqs: index into p_reqs *)
  p_on    : nat -> bool;         (* completed[i].on_ *)
  p_pref  : nat -> option nat;   (* pref_buffer *)
  p_reqs  : list rreq;           (* all requests posted so far *)
  p_pc    : ppc;
  p_held  : list nat
}.

(** What can be observed of block_prefetcher.hpp lines 87-232. *)
Inductive plabel :=
| FPull                          (* pull_block() called *)
| FGive (b : nat)                (* block_consumed(b) called *)
| FRet (b : nat) (a : option A)  (* a call returned buffer b containing a *)
| FNone                          (* block_consumed() returned false *)
| FFill (b : nat) (a : A)        (* the caller changed the content of b *)
| FDestroy
| FDestroyed
| FTau.

(** block_prefetcher.hpp line 118 (seq_length). *)
Definition p_len (s : pst) : nat := length (p_bids s).

(** Constructor, block_prefetcher.hpp lines 116-137; [None]: an assertion fails. *)
Definition p_init (bids : list bid) (seq : list nat) (bufs : nat) (disk : bid -> A)
           (mem : nat -> option A) : option pst :=
  match length bids, bufs with
  | S _, S _ =>
      let n := min bufs (length bids) in
      Some (MkP bids seq disk n n 0 mem (fun _ => None) (fun _ => false) (fun _ => None) []
                (PCtor 0) [])
  | _, _ => None
  end.

(** Model device: the consumer moves on (block_prefetcher.hpp lines 87-232). *)
Definition set_ppc (s : pst) (pc : ppc) : pst :=
  MkP (p_bids s) (p_seq s) (p_disk s) (p_n s) (p_nread s) (p_ncons s) (p_mem s) (p_rreq s)
      (p_on s) (p_pref s) (p_reqs s) pc (p_held s).

(** block_prefetcher.hpp lines 139-151 and 190-197: post a read of block k into buffer b. *)
Definition post_read (s : pst) (b k : nat) : pst :=
  MkP (p_bids s) (p_seq s) (p_disk s) (p_n s) (p_nread s) (p_ncons s)
      (updn (p_mem s) b None) (updn (p_rreq s) b (Some (length (p_reqs s))))
      (p_on s) (updn (p_pref s) k (Some b)) (p_reqs s ++ [MkRd b k RPosted]) (p_pc s) (p_held s).

(** Body of the loop of block_prefetcher.hpp lines 139-152. *)
Definition ctor_body (s : pst) (i : nat) : pst :=
  match nth_error (p_seq s) i with
  | Some k =>
      if k <? p_len s then set_ppc (post_read s i k) (PCtor (S i))
      else set_ppc s PFail
  | None => set_ppc s PFail
  end.

(** read_reqs[b] is null or wait() returns: block_prefetcher.hpp lines 176-177 and 224-225. *)
Definition rwait (s : pst) (b : nat) : bool :=
  match p_rreq s b with
  | None => true
  | Some i =>
      match nth_error (p_reqs s) i with
      | Some r => match q_ph r with RFinished => true | _ => false end
      | None => false
      end
  end.

(** block_prefetcher.hpp line 179. *)
Definition clear_req (s : pst) (b : nat) : pst :=
  MkP (p_bids s) (p_seq s) (p_disk s) (p_n s) (p_nread s) (p_ncons s) (p_mem s)
      (updn (p_rreq s) b None) (p_on s) (p_pref s) (p_reqs s) (p_pc s) (p_held s).

(** block_prefetcher.hpp line 184 (nextread++). *)
Definition bump_read (s : pst) : pst :=
  MkP (p_bids s) (p_seq s) (p_disk s) (p_n s) (S (p_nread s)) (p_ncons s) (p_mem s) (p_rreq s)
      (p_on s) (p_pref s) (p_reqs s) (p_pc s) (p_held s).

(** block_prefetcher.hpp lines 181-198: the next block of the schedule is requested. *)
Definition refill (s : pst) (b : nat) : pst :=
  if p_nread s <? p_len s then
    if b <? p_n s then
      match nth_error (p_seq s) (p_nread s) with
      | Some k =>
          if (k <? p_len s) && negb (p_on s k) then post_read (bump_read s) b k
          else set_ppc s PFail
      | None => set_ppc s PFail
      end
    else set_ppc s PFail
  else s.

(** nextconsume++ and the call of wait(): block_prefetcher.hpp lines 165 and 203. *)
Definition start_wait (s : pst) : pst :=
  MkP (p_bids s) (p_seq s) (p_disk s) (p_n s) (p_nread s) (S (p_ncons s)) (p_mem s) (p_rreq s)
      (p_on s) (p_pref s) (p_reqs s) (PWait (p_ncons s)) (p_held s).

(** Model device: the buffers in the hands of the consumer (block_prefetcher.hpp lines
    162-205). *)
Definition set_pheld (s : pst) (h : list nat) : pst :=
  MkP (p_bids s) (p_seq s) (p_disk s) (p_n s) (p_nread s) (p_ncons s) (p_mem s) (p_rreq s)
      (p_on s) (p_pref s) (p_reqs s) (p_pc s) h.

(** block_prefetcher.hpp lines 179-198 of block_consumed. *)
Definition consumed (s : pst) (b : nat) : pst := refill (clear_req s b) b.

(** The caller.
    block_prefetcher.hpp lines 162-205, 221: its calls. *)
Inductive pcstep (s : pst) : plabel -> pst -> Prop :=
| QPull : p_pc s = PIdle -> p_ncons s < p_len s -> pcstep s FPull (start_wait s)
| QGive : forall h1 b h2, p_pc s = PIdle -> p_held s = h1 ++ b :: h2 ->
    pcstep s (FGive b) (set_pheld (set_ppc s (PGiven b)) (h1 ++ h2))
| QFill : forall b a, p_pc s = PIdle -> In b (p_held s) ->
    pcstep s (FFill b a)
      (MkP (p_bids s) (p_seq s) (p_disk s) (p_n s) (p_nread s) (p_ncons s)
           (updn (p_mem s) b (Some a)) (p_rreq s) (p_on s) (p_pref s) (p_reqs s) PIdle (p_held s))
| QDestroy : p_pc s = PIdle -> pcstep s FDestroy (set_pheld (set_ppc s (PDtor 0)) []).

(** The code of the prefetcher.
    block_prefetcher.hpp lines 87-232. *)
Inductive pistep (spur : bool) (s : pst) : plabel -> pst -> Prop :=
(* constructor *)
| JCtor : forall i, p_pc s = PCtor i -> i < p_n s -> pistep spur s FTau (ctor_body s i)
| JCtorEnd : forall i, p_pc s = PCtor i -> p_n s <= i -> pistep spur s FTau (set_ppc s PIdle)
(* block_consumed, lines 176-205 *)
| JFail : forall b, p_pc s = PGiven b -> rwait s b = true -> p_pc (consumed s b) = PFail ->
    pistep spur s FTau (consumed s b)
| JNone : forall b, p_pc s = PGiven b -> rwait s b = true -> p_pc (consumed s b) <> PFail ->
    p_len s <= p_ncons s -> pistep spur s FNone (set_ppc (consumed s b) PIdle)
| JNext : forall b, p_pc s = PGiven b -> rwait s b = true -> p_pc (consumed s b) <> PFail ->
    p_ncons s < p_len s -> pistep spur s FTau (start_wait (consumed s b))
(* wait, lines 93-99 *)
| JRet : forall k b, p_pc s = PWait k -> p_on s k = true \/ spur = true ->
    p_pref s k = Some b -> b < p_n s ->
    pistep spur s (FRet b (p_mem s b)) (set_pheld (set_ppc s PIdle) (b :: p_held s))
| JRetFail : forall k, p_pc s = PWait k -> p_on s k = true \/ spur = true ->
    (forall b, p_pref s k = Some b -> p_n s <= b) -> pistep spur s FTau (set_ppc s PFail)
(* destructor, lines 223-231 *)
| JDtor : forall i, p_pc s = PDtor i -> i < p_n s -> rwait s i = true ->
    pistep spur s FTau (set_ppc s (PDtor (S i)))
| JDtorEnd : forall i, p_pc s = PDtor i -> p_n s <= i ->
    pistep spur s FDestroyed (set_ppc s PDead).

(** Model device: update of a request (block_prefetcher.hpp line 79). *)
Definition set_req (s : pst) (i : nat) (r : rreq) (mem : nat -> option A) (on : nat -> bool) : pst :=
  MkP (p_bids s) (p_seq s) (p_disk s) (p_n s) (p_nread s) (p_ncons s) mem (p_rreq s)
      on (p_pref s) (set_nth i r (p_reqs s)) (p_pc s) (p_held s).

(** The I/O layer.
    block_prefetcher.hpp lines 41-48, request_with_state.cpp lines 78-90. *)
Inductive pestep (s : pst) : plabel -> pst -> Prop :=
| RArrive : forall i r d, nth_error (p_reqs s) i = Some r -> q_ph r = RPosted ->
    nth_error (p_bids s) (q_blk r) = Some d ->
    pestep s FTau (set_req s i (MkRd (q_buf r) (q_blk r) RArrived)
                           (updn (p_mem s) (q_buf r) (Some (p_disk s d))) (p_on s))
(* set_switch_handler, lines 41-48 *)
| RSwitch : forall i r, nth_error (p_reqs s) i = Some r -> q_ph r = RArrived ->
    pestep s FTau (set_req s i (MkRd (q_buf r) (q_blk r) RSwitched) (p_mem s)
                           (updn (p_on s) (q_blk r) true))
| RFinish : forall i r, nth_error (p_reqs s) i = Some r -> q_ph r = RSwitched ->
    pestep s FTau (set_req s i (MkRd (q_buf r) (q_blk r) RFinished) (p_mem s) (p_on s)).

(** Model device: a step of block_prefetcher.hpp lines 87-232 or of the I/O layer. *)
Definition psstep spur (s : pst) l s' : Prop := pistep spur s l s' \/ pestep s l s'.
(** Model device: a step of the consumer, of block_prefetcher.hpp lines 87-232 or of the
    I/O layer. *)
Definition pstep spur (s : pst) l s' : Prop := pcstep s l s' \/ psstep spur s l s'.

(** Model device: any number of steps (block_prefetcher.hpp lines 87-232). *)
Inductive prun spur : pst -> list plabel -> pst -> Prop :=
| PNil : forall s, prun spur s [] s
| PCons : forall s1 tr s2 l s3, prun spur s1 tr s2 -> pstep spur s2 l s3 ->
    prun spur s1 (tr ++ [l]) s3.

End Prefetch.

Arguments pst : clear implicits.
Arguments plabel : clear implicits.
