(** Model of the block prefetcher when reads may fail.

    Source: /repo/foxxll/mng/block_prefetcher.hpp lines 31-49
    (set_switch_handler) and 55-233 (block_prefetcher), with
    /repo/foxxll/io/serving_request.cpp lines 40-63 (serve: the completion
    handler is also called after an error), /repo/foxxll/io/request_with_state.cpp
    lines 34-44 (wait) and 78-90 (completed), /repo/foxxll/io/request.hpp lines
    114-118 (check_errors).

    The state is that of PrefetchModel.v together with the requests that failed
    and the buffers whose content is unknown because a read into them failed.
    A failed read goes through the same phases as any other: the switch of its
    block is turned on.  The member p_mem of PrefetchModel.v is not used for a
    buffer with unknown content.

    Simplifications.
    - Those of PrefetchModel.v, except that I/O errors are modelled; condition
      variables do not wake up spuriously.
    - Posting a request does not throw.
    - An exception that leaves the destructor ends the program. *)

From Coq Require Import List Arith Bool.
From Verif Require Import WriterModel PrefetchModel.
Import ListNotations.

Section PrefetchErr.
Context {A : Type}.

(** block_prefetcher.hpp lines 66-85, with the requests that failed. *)
Record yst := MkY {
  y_p     : pst A;
  y_bad   : list nat;       (* requests that failed, as indices into p_reqs *)
  y_undef : nat -> bool;    (* buffers with unknown content *)
  y_term  : bool            (* std::terminate was called *)
}.

(** What can be observed of block_prefetcher.hpp lines 87-232. *)
Inductive ylabel :=
| YOk (l : plabel A)        (* as in PrefetchModel.v *)
| YFail (k : nat)           (* the read of block k failed *)
| YThrow                    (* block_consumed() threw io_error *)
| YTerminate.

(** block_prefetcher.hpp lines 116-137: constructor. *)
Definition y_init (bids : list bid) (seq : list nat) (bufs : nat) (disk : bid -> A)
           (mem : nat -> option A) : option yst :=
  match p_init bids seq bufs disk mem with
  | Some s => Some (MkY s [] (fun _ => false) false)
  | None => None
  end.

(** What a buffer contains, as far as it is known.
    block_prefetcher.hpp line 78 (read_buffers). *)
Definition y_mem (y : yst) (b : nat) : option A :=
  if y_undef y b then None else p_mem (y_p y) b.

(** read_reqs[b] is a request that failed: wait() throws.
    block_prefetcher.hpp lines 177, 225, and request.hpp lines 114-118. *)
Definition y_failed (y : yst) (b : nat) : bool :=
  match p_rreq (y_p y) b with
  | Some i => existsb (Nat.eqb i) (y_bad y)
  | None => false
  end.

(** What can be observed of a step of PrefetchModel.v.
    block_prefetcher.hpp lines 87-100. *)
Definition y_see (y : yst) (l : plabel A) : plabel A :=
  match l with FRet b _ => FRet b (y_mem y b) | _ => l end.

(** wait() in block_prefetcher.hpp line 177 or 225 does not throw. *)
Definition wait_ok (y : yst) : Prop :=
  forall b, p_pc (y_p y) = PGiven b \/ (p_pc (y_p y) = PDtor b /\ b < p_n (y_p y)) ->
    y_failed y b = false.

(** Model device: the part of PrefetchModel.v is replaced (block_prefetcher.hpp lines
    66-85). *)
Definition y_set (y : yst) (s : pst A) : yst := MkY s (y_bad y) (y_undef y) (y_term y).

(** block_prefetcher.hpp lines 87-232, serving_request.cpp lines 40-63,
    request_with_state.cpp lines
    34-44 and 78-90. *)
Inductive ystep (y : yst) : ylabel -> yst -> Prop :=
| YCaller : forall l s', y_term y = false -> pcstep (y_p y) l s' ->
    ystep y (YOk l)
      (MkY s' (y_bad y) (match l with FFill b _ => updn (y_undef y) b false | _ => y_undef y end) (y_term y))
| YCode : forall l s', y_term y = false -> pistep false (y_p y) l s' -> wait_ok y ->
    ystep y (YOk (y_see y l)) (y_set y s')
(* the data have arrived *)
| YArrive : forall i r d, y_term y = false -> nth_error (p_reqs (y_p y)) i = Some r -> q_ph r = RPosted ->
    nth_error (p_bids (y_p y)) (q_blk r) = Some d ->
    ystep y (YOk FTau)
      (MkY (set_req (y_p y) i (MkRd (q_buf r) (q_blk r) RArrived)
                    (updn (p_mem (y_p y)) (q_buf r) (Some (p_disk (y_p y) d))) (p_on (y_p y)))
           (y_bad y) (updn (y_undef y) (q_buf r) false) (y_term y))
(* the read failed: serving_request.cpp lines 51-58 *)
| YFails : forall i r d, y_term y = false -> nth_error (p_reqs (y_p y)) i = Some r -> q_ph r = RPosted ->
    nth_error (p_bids (y_p y)) (q_blk r) = Some d ->
    ystep y (YFail (q_blk r))
      (MkY (set_req (y_p y) i (MkRd (q_buf r) (q_blk r) RArrived)
                    (updn (p_mem (y_p y)) (q_buf r) (Some (p_disk (y_p y) d))) (p_on (y_p y)))
           (i :: y_bad y) (updn (y_undef y) (q_buf r) true) (y_term y))
(* set_switch_handler, lines 41-48; the state READY2DIE *)
| YSwitch : forall i r, y_term y = false -> nth_error (p_reqs (y_p y)) i = Some r -> q_ph r = RArrived ->
    ystep y (YOk FTau)
      (y_set y (set_req (y_p y) i (MkRd (q_buf r) (q_blk r) RSwitched) (p_mem (y_p y))
                        (updn (p_on (y_p y)) (q_blk r) true)))
| YFinish : forall i r, y_term y = false -> nth_error (p_reqs (y_p y)) i = Some r -> q_ph r = RSwitched ->
    ystep y (YOk FTau)
      (y_set y (set_req (y_p y) i (MkRd (q_buf r) (q_blk r) RFinished) (p_mem (y_p y)) (p_on (y_p y))))
(* block_consumed, line 177: read_reqs[b] is kept, the caller has the buffer *)
| YThrows : forall b, y_term y = false -> p_pc (y_p y) = PGiven b -> rwait (y_p y) b = true ->
    y_failed y b = true ->
    ystep y YThrow (y_set y (set_pheld (set_ppc (y_p y) PIdle) (b :: p_held (y_p y))))
(* destructor, line 225 *)
| YDies : forall i, y_term y = false -> p_pc (y_p y) = PDtor i -> i < p_n (y_p y) -> rwait (y_p y) i = true ->
    y_failed y i = true ->
    ystep y YTerminate (MkY (y_p y) (y_bad y) (y_undef y) true).

(** Model device: any number of steps (block_prefetcher.hpp lines 87-232). *)
Inductive yrun : yst -> list ylabel -> yst -> Prop :=
| YNil : forall y, yrun y [] y
| YCons : forall y1 tr y2 l y3, yrun y1 tr y2 -> ystep y2 l y3 -> yrun y1 (tr ++ [l]) y3.

End PrefetchErr.

Arguments yst : clear implicits.
Arguments ylabel : clear implicits.
