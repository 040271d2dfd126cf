(** Model of the buffered streams when transfers may fail.

    Source: /repo/foxxll/mng/buf_ostream.hpp lines 30-127,
    /repo/foxxll/mng/buf_istream.hpp lines 37-161,
    /repo/foxxll/mng/buf_istream_reverse.hpp lines 39-181.

    As in StreamModel.v, the output stream is the client of a buffered writer and
    the input stream the client of a prefetcher; here they are those of
    WriterErrModel.v and PrefetchErrModel.v, and an exception that leaves the
    writer or the prefetcher leaves the operator of the stream.

    Simplifications.
    - Those of StreamModel.v, WriterErrModel.v and PrefetchErrModel.v.
    - After an exception an output stream is only destroyed; what happens if it is
      used all the same is [stale_put].
    - An input stream may be used after an exception. *)

From Coq Require Import List Arith Bool ZArith.
From Verif Require Import WriterModel WriterErrModel PrefetchModel PrefetchErrModel StreamModel.
Import ListNotations.

Section StreamErr.
Context {R : Type}.
Variable B : nat.

Local Notation block := (list R).

(** ** buf_ostream *)

(** Model device: an event that the caller of the writer causes, buf_writer.hpp lines 98,
    137, 164, 194. *)
Definition w_called (l : xlabel block) : bool :=
  match l with
  | XOk LGet | XOk (LWrite _ _ _) | XOk (LFill _ _) | XOk (LFlush _) | XOk LDestroy => true
  | _ => false
  end.

(** The writer's code and the I/O layer run, without the caller: buf_writer.hpp lines
    98-218. *)
Inductive xsys : xst block -> list (xlabel block) -> xst block -> Prop :=
| XSNil : forall x, xsys x [] x
| XSCons : forall x1 l x2 t x3, w_called l = false -> xstep x1 l x2 -> xsys x2 t x3 ->
    xsys x1 (l :: t) x3.

(** buf_ostream.hpp lines 36-40: the members, and whether an exception has left the
    stream. *)
Record est := MkE { e_x : xst block; e_cur : nat; e_elem : nat; e_bid : nat; e_thrown : bool }.

(** buf_ostream.hpp lines 50-74: from the fresh writer [x0] the stream was constructed and
    the records [recs] were put into it, the last one possibly with an exception. *)
Inductive erun (x0 : xst block) (bids : nat -> bid) : list R -> list (xlabel block) -> est -> Prop :=
(* constructor, lines 50-55 *)
| ENew : forall x1 t x2 b x3, xstep x0 (XOk LGet) x1 -> xsys x1 t x2 -> xstep x2 (XOk (LRet b)) x3 ->
    erun x0 bids [] (XOk LGet :: t ++ [XOk (LRet b)]) (MkE x3 b 0 0 false)
(* between the operations *)
| EIo : forall recs tr e l x', erun x0 bids recs tr e -> w_called l = false -> xstep (e_x e) l x' ->
    erun x0 bids recs (tr ++ [l]) (MkE x' (e_cur e) (e_elem e) (e_bid e) (e_thrown e))
(* operator <<, line 67, and line 68 with condition false *)
| EPut : forall recs tr e r x1,
    erun x0 bids recs tr e -> e_thrown e = false ->
    xstep (e_x e) (XOk (LFill (e_cur e) (set_nth (e_elem e) r (w_mem (x_w (e_x e)) (e_cur e))))) x1 ->
    S (e_elem e) < B ->
    erun x0 bids (recs ++ [r])
         (tr ++ [XOk (LFill (e_cur e) (set_nth (e_elem e) r (w_mem (x_w (e_x e)) (e_cur e))))])
         (MkE x1 (e_cur e) (S (e_elem e)) (e_bid e) false)
(* operator <<, lines 67-72 *)
| EPutWrite : forall recs tr e r x1 a x2 t x3 b x4,
    erun x0 bids recs tr e -> e_thrown e = false ->
    xstep (e_x e) (XOk (LFill (e_cur e) (set_nth (e_elem e) r (w_mem (x_w (e_x e)) (e_cur e))))) x1 ->
    B <= S (e_elem e) ->
    xstep x1 (XOk (LWrite (e_cur e) (bids (e_bid e)) a)) x2 ->
    xsys x2 t x3 -> xstep x3 (XOk (LRet b)) x4 ->
    erun x0 bids (recs ++ [r])
         (tr ++ XOk (LFill (e_cur e) (set_nth (e_elem e) r (w_mem (x_w (e_x e)) (e_cur e))))
             :: XOk (LWrite (e_cur e) (bids (e_bid e)) a) :: t ++ [XOk (LRet b)])
         (MkE x4 b 0 (S (e_bid e)) false)
(* the same; line 71 throws: current_elem and current_bid have been changed, current_blk
   has not *)
| EPutThrow : forall recs tr e r x1 a x2 t x3 x4,
    erun x0 bids recs tr e -> e_thrown e = false ->
    xstep (e_x e) (XOk (LFill (e_cur e) (set_nth (e_elem e) r (w_mem (x_w (e_x e)) (e_cur e))))) x1 ->
    B <= S (e_elem e) ->
    xstep x1 (XOk (LWrite (e_cur e) (bids (e_bid e)) a)) x2 ->
    xsys x2 t x3 -> xstep x3 XThrow x4 ->
    erun x0 bids (recs ++ [r])
         (tr ++ XOk (LFill (e_cur e) (set_nth (e_elem e) r (w_mem (x_w (e_x e)) (e_cur e))))
             :: XOk (LWrite (e_cur e) (bids (e_bid e)) a) :: t ++ [XThrow])
         (MkE x4 (e_cur e) 0 (S (e_bid e)) true).

(** buf_ostream.hpp lines 123-126, followed by the destructor of the member writer
    (buf_writer.hpp lines 194-218), as far as it gets. *)
Inductive edtor (e : est) : list (xlabel block) -> xst block -> Prop :=
| EDtor : forall x1 t x2, e_elem e = 0 -> xstep (e_x e) (XOk LDestroy) x1 -> xsys x1 t x2 ->
    edtor e (XOk LDestroy :: t) x2.

(** buf_ostream.hpp line 67 after an exception: the record is put into the buffer that
    current_blk still points to, although the writer has it. *)
Definition stale_put (e : est) (r : R) : xst block :=
  let x := e_x e in let s := x_w x in
  MkX (MkW (w_n s) (w_bs s) (updn (w_mem s) (e_cur e) (set_nth (e_elem e) r (w_mem s (e_cur e))))
           (w_bids s) (w_wreqs s) (w_free s) (w_busy s) (w_batch s) (w_reqs s) (w_disk s) (w_pc s) (w_held s))
      (x_bad x) (x_torn x) (x_kept x) (x_leak x) (x_term x).

(** ** buf_istream and buf_istream_reverse *)

(** Model device: an event that the consumer causes, block_prefetcher.hpp lines 162, 172,
    221. *)
Definition p_called (l : ylabel block) : bool :=
  match l with
  | YOk FPull | YOk (FGive _) | YOk (FFill _ _) | YOk FDestroy => true
  | _ => false
  end.

(** The prefetcher and the I/O layer run, without the consumer: block_prefetcher.hpp lines
    87-232. *)
Inductive ysys : yst block -> list (ylabel block) -> yst block -> Prop :=
| YSNil : forall y, ysys y [] y
| YSCons : forall y1 l y2 t y3, p_called l = false -> ystep y1 l y2 -> ysys y2 t y3 ->
    ysys y1 (l :: t) y3.

(** buf_istream.hpp lines 48-54, buf_istream_reverse.hpp lines 54-61: the prefetcher,
    current_blk, current_elem, not_finished. *)
Record jst := MkJ { j_y : yst block; j_cur : nat; j_elem : nat; j_more : bool }.

(** buf_istream.hpp line 106, buf_istream_reverse.hpp line 117: the record at position [e]
    of buffer [b]; [None]: it is not known, because the read failed. *)
Definition record_at (y : yst block) (b e : nat) : option R :=
  match y_mem y b with Some blk => nth_error blk e | None => None end.

(** buf_istream.hpp lines 64-119, buf_istream_reverse.hpp lines 71-134: the stream was
    constructed on the fresh prefetcher [y0] and the records [out] were read from it, some
    operations possibly throwing. *)
Inductive jrun (fwd : bool) (y0 : yst block) : list (option R) -> list (ylabel block) -> jst -> Prop :=
(* constructor *)
| JNew : forall t1 y1 y2 t2 y3 b a y4,
    ysys y0 t1 y1 -> ystep y1 (YOk FPull) y2 -> ysys y2 t2 y3 -> ystep y3 (YOk (FRet b a)) y4 ->
    jrun fwd y0 [] (t1 ++ YOk FPull :: t2 ++ [YOk (FRet b a)]) (MkJ y4 b (first_elem B fwd) true)
(* between the operations *)
| JIo : forall out tr j l y', jrun fwd y0 out tr j -> p_called l = false -> ystep (j_y j) l y' ->
    jrun fwd y0 out (tr ++ [l]) (MkJ y' (j_cur j) (j_elem j) (j_more j))
(* operator >>; the block does not end *)
| JGet : forall out tr j, jrun fwd y0 out tr j -> j_more j = true ->
    block_done B fwd (j_elem j) = false ->
    jrun fwd y0 (out ++ [record_at (j_y j) (j_cur j) (j_elem j)]) tr
         (MkJ (j_y j) (j_cur j) (next_elem fwd (j_elem j)) true)
(* operator >>; block_consumed returns true *)
| JGetNext : forall out tr j y1 t y2 b a y3, jrun fwd y0 out tr j -> j_more j = true ->
    block_done B fwd (j_elem j) = true ->
    ystep (j_y j) (YOk (FGive (j_cur j))) y1 -> ysys y1 t y2 -> ystep y2 (YOk (FRet b a)) y3 ->
    jrun fwd y0 (out ++ [record_at (j_y j) (j_cur j) (j_elem j)])
         (tr ++ YOk (FGive (j_cur j)) :: t ++ [YOk (FRet b a)]) (MkJ y3 b (first_elem B fwd) true)
(* operator >>; block_consumed returns false *)
| JGetLast : forall out tr j y1 t y2 y3, jrun fwd y0 out tr j -> j_more j = true ->
    block_done B fwd (j_elem j) = true ->
    ystep (j_y j) (YOk (FGive (j_cur j))) y1 -> ysys y1 t y2 -> ystep y2 (YOk FNone) y3 ->
    jrun fwd y0 (out ++ [record_at (j_y j) (j_cur j) (j_elem j)])
         (tr ++ YOk (FGive (j_cur j)) :: t ++ [YOk FNone]) (MkJ y3 (j_cur j) (first_elem B fwd) false)
(* operator >>; block_consumed throws: current_elem has been reset, the record has been
   stored *)
| JGetThrow : forall out tr j y1 t y2 y3, jrun fwd y0 out tr j -> j_more j = true ->
    block_done B fwd (j_elem j) = true ->
    ystep (j_y j) (YOk (FGive (j_cur j))) y1 -> ysys y1 t y2 -> ystep y2 YThrow y3 ->
    jrun fwd y0 (out ++ [record_at (j_y j) (j_cur j) (j_elem j)])
         (tr ++ YOk (FGive (j_cur j)) :: t ++ [YThrow]) (MkJ y3 (j_cur j) (first_elem B fwd) true).

End StreamErr.

Arguments est : clear implicits.
Arguments jst : clear implicits.
