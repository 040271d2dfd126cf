(** Model of many streams that use one block store at the same time.

    Source: /repo/foxxll/mng/buf_ostream.hpp, buf_istream.hpp, buf_istream_reverse.hpp,
    buf_writer.hpp, block_prefetcher.hpp on top of /repo/foxxll/mng/block_manager.hpp,
    bid.hpp and the files and queues of /repo/foxxll/io.

    The writers of output streams are those of WriterErrModel.v, the prefetchers of input
    streams those of PrefetchErrModel.v, the store is that of StoreModel.v; here they are
    put together: what the I/O layer does for a stream is what the store does, and between
    any two steps other streams and other clients of the store go on.

    Simplifications.
    - Those of WriterErrModel.v, PrefetchErrModel.v and StoreModel.v.
    - A write is submitted to the store some time between the call of write() and its
      transfer, at most once per call; the real writer submits it at one of these moments.
    - In the store the data of a write are known when it is submitted, in the writer the
      buffer is read when it is transferred: the data submitted are those that will be
      transferred.
    - A read is submitted at any time after the stream that writes the block was closed;
      when the prefetcher hands out a buffer with known content, the content is that of
      some read of its block that the store has finished. *)

From Coq Require Import List Arith Bool ZArith.
From Verif Require StoreModel StoreSpec ManagerModel.
From Verif Require Import WriterModel WriterSpec WriterErrModel WriterErrSpec
  PrefetchModel PrefetchErrModel PrefetchErrSpec.
Import ListNotations.

(** bid.hpp lines 38-105: the block of [size] bytes at a place; disk [n] of the
    configuration is storage [n]. *)
Definition place (size : Z) (d : bid) : ManagerModel.bid :=
  ManagerModel.mk_bid (ManagerModel.Managed (b_storage d)) (b_offset d) size size.

(** How often a block was submitted for writing: calls of bid.hpp lines 80-85. *)
Fixpoint submits (evs : list StoreModel.event) (b : ManagerModel.bid) : nat :=
  match evs with
  | [] => 0
  | StoreModel.EWrite b' _ :: r => (if StoreSpec.bid_eqb b b' then 1 else 0) + submits r b
  | _ :: r => submits r b
  end.

Section Together.
Context {R : Type}.
(** typed_block.hpp lines 264-302: records per block, the bytes of a block and back. *)
Variables (B : nat) (size : Z) (enc : list R -> list Z) (dec : list (option Z) -> list R).
(** The blocks of the output streams (buf_ostream.hpp lines 36-40), the blocks that the
    input streams read (buf_istream.hpp lines 64-76). *)
Variables (outs : nat -> nat -> bid) (ins : nat -> list bid).

Local Notation block := (list R).

(** buf_ostream.hpp lines 36-40: the block belongs to an output stream. *)
Definition owned (b : ManagerModel.bid) : Prop := exists i k, b = place size (outs i k).

(** buf_ostream.hpp lines 65-74: how often the stream has passed the block to write(). *)
Definition asked (tr : list (xlabel block)) (d : bid) : nat :=
  length (filter (fun p => bid_eqb d (fst p)) (calls (normal tr))).

(** buf_ostream.hpp lines 123-126: the destructor of the stream has returned. *)
Definition closed (tr : list (xlabel block)) : Prop := In (XOk LDestroyed) tr.

(** Model device: events of the writers that are also events of the store, serving_request.cpp
    lines 40-63. *)
Definition transfers (l : xlabel block) : bool :=
  match l with XOk (LServe _ _) | XFail _ => true | _ => false end.

(** block_prefetcher.hpp lines 87-100: a buffer whose content is known is handed out. *)
Definition hands_out (l : ylabel block) : bool :=
  match l with YOk (FRet _ (Some _)) => true | _ => false end.

(** A step of another client of the store (block_manager.hpp lines 164-268, bid.hpp lines
    80-92): it does not touch the blocks of the output streams.  Reads of any block may be
    served. *)
Definition elsewhere (s : StoreModel.store) (o : StoreModel.sop) : Prop :=
  match o with
  | StoreModel.SNew _ _ _ _ => True
  | StoreModel.SDelete _ h | StoreModel.SWrite h _ | StoreModel.SRead h =>
      forall b, nth_error (ManagerModel.mc_held (StoreModel.st_client s)) h = Some b -> ~ owned b
  | StoreModel.SServe _ k =>
      forall r, nth_error (StoreModel.st_pending s) k = Some r -> StoreModel.rq_data r <> None ->
        ~ owned (StoreModel.rq_bid r)
  end.

(** buf_ostream.hpp lines 30-127, buf_istream.hpp lines 37-161, block_manager.hpp lines
    164-268, serving_request.cpp lines 40-63: what can happen from store [s0] on; the events of
    the store, the newest one first, and those of each output stream and of each input
    stream. *)
Inductive together (n ba : nat) (s0 : StoreModel.store) :
  list StoreModel.event -> (nat -> list (xlabel block)) -> (nat -> list (ylabel block)) ->
  StoreModel.store -> Prop :=
| TStart : together n ba s0 [] (fun _ => []) (fun _ => []) s0
(* an output stream or its writer goes on, buf_writer.hpp lines 98-218 *)
| TOut : forall evs trs rts s i l, together n ba s0 evs trs rts s -> transfers l = false ->
    together n ba s0 evs (updn trs i (trs i ++ [l])) rts s
(* buf_writer.hpp lines 150-152 *)
| TSubmit : forall evs trs rts s i k v h s' e, together n ba s0 evs trs rts s ->
    submits evs (place size (outs i k)) < asked (trs i) (outs i k) -> length v = B ->
    nth_error (ManagerModel.mc_held (StoreModel.st_client s)) h = Some (place size (outs i k)) ->
    StoreModel.store_step ba s (StoreModel.SWrite h (enc v)) = Some (s', e) ->
    together n ba s0 (e :: evs) trs rts s'
(* serving_request.cpp lines 40-63 *)
| TServed : forall evs trs rts s i k v a q s', together n ba s0 evs trs rts s -> length v = B ->
    nth_error (StoreModel.st_pending s) q = Some (StoreModel.mk_rq (place size (outs i k)) (Some (enc v))) ->
    StoreModel.store_step ba s (StoreModel.SServe a q) =
      Some (s', StoreModel.EWritten (place size (outs i k)) true) ->
    together n ba s0 (StoreModel.EWritten (place size (outs i k)) true :: evs)
             (updn trs i (trs i ++ [XOk (LServe (outs i k) v)])) rts s'
| TFailed : forall evs trs rts s i k a q s' , together n ba s0 evs trs rts s ->
    StoreModel.store_step ba s (StoreModel.SServe a q) =
      Some (s', StoreModel.EWritten (place size (outs i k)) false) ->
    together n ba s0 (StoreModel.EWritten (place size (outs i k)) false :: evs)
             (updn trs i (trs i ++ [XFail (outs i k)])) rts s'
(* block_prefetcher.hpp lines 139-151 and 190-197 *)
| TRead : forall evs trs rts s i k h s' e, together n ba s0 evs trs rts s ->
    closed (trs i) -> 0 < asked (trs i) (outs i k) ->
    nth_error (ManagerModel.mc_held (StoreModel.st_client s)) h = Some (place size (outs i k)) ->
    StoreModel.store_step ba s (StoreModel.SRead h) = Some (s', e) ->
    together n ba s0 (e :: evs) trs rts s'
(* an input stream or its prefetcher goes on, block_prefetcher.hpp lines 87-232 *)
| TIn : forall evs trs rts s j l, together n ba s0 evs trs rts s -> hands_out l = false ->
    together n ba s0 evs trs (updn rts j (rts j ++ [l])) s
(* block_prefetcher.hpp lines 93-99: the next block of the stream *)
| THand : forall evs trs rts s j b d x, together n ba s0 evs trs rts s ->
    nth_error (ins j) (length (y_delivered (rts j))) = Some d ->
    In (StoreModel.EReadDone (place size d) (Some x)) evs ->
    together n ba s0 evs trs (updn rts j (rts j ++ [YOk (FRet b (Some (dec x)))])) s
(* other clients, block_manager.hpp lines 164-268 *)
| TOther : forall evs trs rts s o s' e, together n ba s0 evs trs rts s ->
    StoreSpec.allowed n s o -> elsewhere s o ->
    StoreModel.store_step ba s o = Some (s', e) ->
    together n ba s0 (e :: evs) trs rts s'.

End Together.
