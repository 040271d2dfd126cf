(** Model of the buffered streams of records.

    Sources: /repo/foxxll/mng/buf_ostream.hpp lines 30-127 (constructor 50-55,
    operator << 65-74, fill 104-111, destructor 123-126),
    /repo/foxxll/mng/buf_istream.hpp lines 37-150 (constructor 64-89,
    operator >> 100-119) and /repo/foxxll/mng/buf_istream_reverse.hpp lines
    41-171 (constructor 71-101, operator >> 112-136).

    An output stream is the client of a buffered writer (WriterModel), an input
    stream the client of a prefetcher (PrefetchModel); the steps of the writer,
    of the prefetcher and of the I/O layer are those of these models, and steps
    of the I/O layer may happen between any two operations.

    Simplifications.
    - A block is a list of records; [B] is block_type::size.
    - operator << is the only way to write and operator >> the only way to read
      records; *os = r; ++os and r = *is; ++is consist of the same assignments
      (buf_ostream.hpp lines 85-101, buf_istream.hpp lines 122-150).
      buf_ostream::flush() is not modelled.
    - The bid iterators run over [bids 0], [bids 1], ... and over a list. *)

From Coq Require Import List Arith Bool ZArith.
From Verif Require Import WriterModel PrefetchModel.
Import ListNotations.

Section Streams.
Context {R : Type}.
Variable B : nat.

Local Notation block := (list R).

(** The writer's code and the I/O layer run, without the caller.
    buf_writer.hpp lines 98-218. *)
Inductive sys : wst block -> list (wlabel block) -> wst block -> Prop :=
| SysNil : forall s, sys s [] s
| SysCons : forall s1 l s2 tr s3, sstep s1 l s2 -> sys s2 tr s3 -> sys s1 (l :: tr) s3.

(** ** buf_ostream *)

(** Members, buf_ostream.hpp lines 36-40: the writer, current_blk, current_elem and how often
    current_bid has been advanced. *)
Record ost := MkO { o_w : wst block; o_cur : nat; o_elem : nat; o_bid : nat }.

(** [orun w0 bids recs tr o]: from the fresh writer [w0] the stream was
    constructed and the records [recs] were put into it; [tr] is what the
    writer and the I/O layer did meanwhile.
    buf_ostream.hpp lines 50-74. *)
Inductive orun (w0 : wst block) (bids : nat -> bid) : list R -> list (wlabel block) -> ost -> Prop :=
(* constructor, lines 50-55 *)
| ONew : forall s1 t s2 b s3, cstep w0 LGet s1 -> sys s1 t s2 -> sstep s2 (LRet b) s3 ->
    orun w0 bids [] (LGet :: t ++ [LRet b]) (MkO s3 b 0 0)
| OIo : forall recs tr o l s', orun w0 bids recs tr o -> estep (o_w o) l s' ->
    orun w0 bids recs (tr ++ [l]) (MkO s' (o_cur o) (o_elem o) (o_bid o))
(* operator <<, line 67, and line 68 with condition false *)
| OPut : forall recs tr o r s1,
    orun w0 bids recs tr o ->
    cstep (o_w o) (LFill (o_cur o) (set_nth (o_elem o) r (w_mem (o_w o) (o_cur o)))) s1 ->
    S (o_elem o) < B ->
    orun w0 bids (recs ++ [r])
         (tr ++ [LFill (o_cur o) (set_nth (o_elem o) r (w_mem (o_w o) (o_cur o)))])
         (MkO s1 (o_cur o) (S (o_elem o)) (o_bid o))
(* operator <<, lines 67-72 *)
| OPutWrite : forall recs tr o r s1 a s2 t s3 b s4,
    orun w0 bids recs tr o ->
    cstep (o_w o) (LFill (o_cur o) (set_nth (o_elem o) r (w_mem (o_w o) (o_cur o)))) s1 ->
    B <= S (o_elem o) ->
    cstep s1 (LWrite (o_cur o) (bids (o_bid o)) a) s2 ->
    sys s2 t s3 -> sstep s3 (LRet b) s4 ->
    orun w0 bids (recs ++ [r])
         (tr ++ LFill (o_cur o) (set_nth (o_elem o) r (w_mem (o_w o) (o_cur o)))
             :: LWrite (o_cur o) (bids (o_bid o)) a :: t ++ [LRet b])
         (MkO s4 b 0 (S (o_bid o))).

(** Destructor, buf_ostream.hpp lines 123-126, followed by that of the member writer. *)
Inductive oclose (o : ost) : list (wlabel block) -> wst block -> Prop :=
| OClose : forall s1 t s2 s3, o_elem o = 0 -> cstep (o_w o) LDestroy s1 -> sys s1 t s2 ->
    sstep s2 LDestroyed s3 -> oclose o (LDestroy :: t ++ [LDestroyed]) s3.

(** fill(record), buf_ostream.hpp lines 104-111: records put to complete the current block. *)
Definition padding (o : ost) (r : R) : list R :=
  match o_elem o with O => [] | S _ => repeat r (B - o_elem o) end.

(** ** buf_istream and buf_istream_reverse *)

(** The prefetcher and the I/O layer run, without the consumer: block_prefetcher.hpp
    lines
    87-232. *)
Inductive psys : pst block -> list (plabel block) -> pst block -> Prop :=
| PSysNil : forall s, psys s [] s
| PSysCons : forall s1 l s2 tr s3, psstep false s1 l s2 -> psys s2 tr s3 -> psys s1 (l :: tr) s3.

(** Members: the prefetcher, current_blk, current_elem, not_finished.
    buf_istream.hpp lines 48-55, buf_istream_reverse.hpp lines 54-61. *)
Record ist := MkI { i_p : pst block; i_cur : nat; i_elem : nat; i_more : bool }.

(** nbuffers = max(2 * ndisks, nbuffers - 1) in 64 bit arithmetic
    (buf_istream.hpp line 80, buf_istream_reverse.hpp line 88). *)
Definition nbuffers (ndisks nbufs : Z) : nat :=
  Z.to_nat (Z.max (2 * ndisks) ((nbufs - 1) mod 2 ^ 64)).

(** First value of current_elem, the test that ends a block, the next value:
    forward (buf_istream.hpp lines 66, 106-110) or reverse (lines 100, 120-131). *)
Definition first_elem (fwd : bool) : nat := if fwd then 0 else B - 1.
(** buf_istream.hpp line 108, buf_istream_reverse.hpp line 119. *)
Definition block_done (fwd : bool) (e : nat) : bool := if fwd then B <=? S e else e =? 0.
(** buf_istream.hpp line 106, buf_istream_reverse.hpp lines 121, 130. *)
Definition next_elem (fwd : bool) (e : nat) : nat := if fwd then S e else e - 1.

(** [irun fwd p0 out tr i]: the stream was constructed on the fresh prefetcher
    [p0] and the records [out] were read from it.
    buf_istream.hpp lines 64-119, buf_istream_reverse.hpp lines 71-134. *)
Inductive irun (fwd : bool) (p0 : pst block) : list R -> list (plabel block) -> ist -> Prop :=
(* constructor *)
| INew : forall t1 s1 s2 t2 s3 b a s4,
    psys p0 t1 s1 -> pcstep s1 FPull s2 -> psys s2 t2 s3 -> psstep false s3 (FRet b a) s4 ->
    irun fwd p0 [] (t1 ++ FPull :: t2 ++ [FRet b a]) (MkI s4 b (first_elem fwd) true)
| IIo : forall out tr i l s', irun fwd p0 out tr i -> pestep (i_p i) l s' ->
    irun fwd p0 out (tr ++ [l]) (MkI s' (i_cur i) (i_elem i) (i_more i))
(* operator >> *)
| IGet : forall out tr i blk r, irun fwd p0 out tr i -> i_more i = true ->
    p_mem (i_p i) (i_cur i) = Some blk -> nth_error blk (i_elem i) = Some r ->
    block_done fwd (i_elem i) = false ->
    irun fwd p0 (out ++ [r]) tr (MkI (i_p i) (i_cur i) (next_elem fwd (i_elem i)) true)
| IGetNext : forall out tr i blk r s1 t s2 b a s3, irun fwd p0 out tr i -> i_more i = true ->
    p_mem (i_p i) (i_cur i) = Some blk -> nth_error blk (i_elem i) = Some r ->
    block_done fwd (i_elem i) = true ->
    pcstep (i_p i) (FGive (i_cur i)) s1 -> psys s1 t s2 -> psstep false s2 (FRet b a) s3 ->
    irun fwd p0 (out ++ [r]) (tr ++ FGive (i_cur i) :: t ++ [FRet b a])
         (MkI s3 b (first_elem fwd) true)
| IGetLast : forall out tr i blk r s1 t s2 s3, irun fwd p0 out tr i -> i_more i = true ->
    p_mem (i_p i) (i_cur i) = Some blk -> nth_error blk (i_elem i) = Some r ->
    block_done fwd (i_elem i) = true ->
    pcstep (i_p i) (FGive (i_cur i)) s1 -> psys s1 t s2 -> psstep false s2 FNone s3 ->
    irun fwd p0 (out ++ [r]) (tr ++ FGive (i_cur i) :: t ++ [FNone])
         (MkI s3 (i_cur i) (first_elem fwd) false).

(** The blocks in the order in which the stream reads them
    (buf_istream_reverse.hpp line 81). *)
Definition stream_bids (fwd : bool) (bids : list bid) : list bid :=
  if fwd then bids else rev bids.

End Streams.

Arguments ost : clear implicits.
Arguments ist : clear implicits.
