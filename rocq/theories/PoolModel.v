(** Model of the buffer pools: /repo/foxxll/mng/write_pool.hpp,
    prefetch_pool.hpp and read_write_pool.hpp, on top of an adversarial I/O
    system.

    Simplifications.
    - A block is a buffer number with one [Z] as content.
    - I/O errors and exceptions are not modelled, nor are the destructors and
      [swap].  [assert]s and [tlx_die_unless] restrict the transitions (an
      operation whose assertion fails has no transition).
    - The pools are not thread safe (they have no lock), so there is one client
      thread; the I/O system makes progress between any two accesses to a
      request. *)

From Coq Require Import ZArith List Bool Permutation.
Import ListNotations.

(** ** Block identifiers and requests *)

(** mng/bid.hpp: a storage pointer (0 is the null pointer) and an offset. *)
Record bid := MkBid { b_storage : nat; b_offset : Z }.

(** bid.hpp lines 94-97 (operator ==). *)
Definition bid_eqb (a b : bid) : bool :=
  Nat.eqb (b_storage a) (b_storage b) && Z.eqb (b_offset a) (b_offset b).

(** A request waits in a queue, is being served, or is over (served or
    cancelled).  Requests are numbered in the order in which they were
    posted.
    request_with_state.cpp lines 34-90. *)
Inductive rstate := Pending | Running | Finished.

(** Model device: a request with kind, buffer, target and state (request.hpp lines 49-135). *)
Record req := MkReq {
  q_write : bool; q_buf : nat; q_bid : bid; q_st : rstate }.

(** Model device: contents of buffers and blocks, and all requests (request.hpp lines
    49-135). *)
Record io := MkIO { io_mem : nat -> Z; io_disk : bid -> Z; io_reqs : list req }.

(** Model device: assignment to a buffer (typed_block.hpp lines 307-333). *)
Definition set_mem (m : nat -> Z) (b : nat) (v : Z) : nat -> Z :=
  fun x => if Nat.eqb x b then v else m x.
(** Model device: assignment to a block on disk (typed_block.hpp lines 307-333). *)
Definition set_disk (m : bid -> Z) (d : bid) (v : Z) : bid -> Z :=
  fun x => if bid_eqb x d then v else m x.

(** Model device: update of a request (request_with_state.cpp lines 78-90). *)
Fixpoint set_nth (i : nat) (q : req) (l : list req) : list req :=
  match l, i with
  | [], _ => []
  | _ :: l', O => q :: l'
  | x :: l', S i' => x :: set_nth i' q l'
  end.

(** Model device: update of a request (request_with_state.cpp lines 78-90). *)
Definition with_st (q : req) (s : rstate) : req :=
  MkReq (q_write q) (q_buf q) (q_bid q) s.
(** Model device: update of a request (request_with_state.cpp lines 78-90). *)
Definition set_st (s : io) (i : nat) (q : req) (t : rstate) : io :=
  MkIO (io_mem s) (io_disk s) (set_nth i (with_st q t) (io_reqs s)).

(** block->read(bid) / block->write(bid) (mng/typed_block.hpp, through
    file::aread / awrite): posts a request.
    typed_block.hpp lines 307-333. *)
Definition post (s : io) (w : bool) (b : nat) (d : bid) : io :=
  MkIO (io_mem s) (io_disk s) (io_reqs s ++ [MkReq w b d Pending]).

(** request::cancel(): succeeds only while the request still waits (see the
    queue model, C20).
    request_with_state.cpp lines 46-67. *)
Definition cancel (s : io) (i : nat) : io :=
  match nth_error (io_reqs s) i with
  | Some q => match q_st q with
              | Pending => set_st s i q Finished
              | _ => s
              end
  | None => s
  end.

(** request::poll().
    request_with_state.cpp lines 69-76. *)
Definition finished (s : io) (i : nat) : bool :=
  match nth_error (io_reqs s) i with
  | Some q => match q_st q with Finished => true | _ => false end
  | None => false
  end.

(** ** The I/O system

    With [fifo = true] two writes to the same block are served in the order in
    which they were posted, as in request_queue_impl_1q and _qwqr, where one
    thread takes requests of a kind in order (io/request_queue_impl_qwqr.cpp
    worker, see C22).  Everything else may happen in any order; in particular
    reads and writes overtake each other.  With [fifo = false] (linuxaio:
    io_submit gives no order) writes may also be reordered. *)
Inductive env1 (fifo : bool) : io -> io -> Prop :=
| EnvStart : forall s i q,
    nth_error (io_reqs s) i = Some q -> q_st q = Pending ->
    (q_write q = true -> fifo = true ->
     forall j q', (j < i)%nat -> nth_error (io_reqs s) j = Some q' ->
       q_write q' = true -> q_bid q' = q_bid q -> q_st q' = Finished) ->
    env1 fifo s (set_st s i q Running)
| EnvWrite : forall s i q,
    nth_error (io_reqs s) i = Some q -> q_st q = Running -> q_write q = true ->
    env1 fifo s
      (MkIO (io_mem s) (set_disk (io_disk s) (q_bid q) (io_mem s (q_buf q)))
            (io_reqs (set_st s i q Finished)))
| EnvRead : forall s i q,
    nth_error (io_reqs s) i = Some q -> q_st q = Running -> q_write q = false ->
    env1 fifo s
      (MkIO (set_mem (io_mem s) (q_buf q) (io_disk s (q_bid q))) (io_disk s)
            (io_reqs (set_st s i q Finished))).

(** Model device: any number of steps of the I/O system (request_queue_impl_qwqr.cpp
    lines
    172-236). *)
Inductive env (fifo : bool) : io -> io -> Prop :=
| EnvRefl : forall s, env fifo s s
| EnvStep : forall s s1 s2, env1 fifo s s1 -> env fifo s1 s2 -> env fifo s s2.

(** ** write_pool *)

(** write_pool.hpp:47-59. *)
Record wentry := MkW { e_buf : nat; e_req : nat; e_bid : bid }.

(** write_pool.hpp:65-67. *)
Record wpool := MkWP { w_free : list nat; w_busy : list wentry }.

(** write_pool.hpp:123. *)
Definition w_size (w : wpool) : nat := length (w_free w) + length (w_busy w).

(** write_pool.hpp:134-145: cancel the obsolete requests for this block and
    mark their entries with storage = 0. *)
Inductive w_mark (fifo : bool) (d : bid) (buf : nat)
  : list wentry -> io -> list wentry -> io -> Prop :=
| MarkNil : forall s, w_mark fifo d buf [] s [] s
| MarkSkip : forall e l s l' s',
    bid_eqb (e_bid e) d = false ->
    w_mark fifo d buf l s l' s' ->
    w_mark fifo d buf (e :: l) s (e :: l') s'
| MarkHit : forall e l s s1 l' s',
    bid_eqb (e_bid e) d = true ->
    e_buf e <> buf ->
    env fifo s s1 ->
    w_mark fifo d buf l (cancel s1 (e_req e)) l' s' ->
    w_mark fifo d buf (e :: l) s
      (MkW (e_buf e) (e_req e) (MkBid 0 (b_offset (e_bid e))) :: l') s'.

(** write_pool.hpp:131-150, write(); [r] is the posted request. *)
Inductive w_write (fifo : bool) (w : wpool) (s : io) (buf : nat) (d : bid)
  : wpool -> io -> nat -> Prop :=
| WWrite : forall l s1,
    w_mark fifo d buf (w_busy w) s l s1 ->
    w_write fifo w s buf d
      (MkWP (w_free w) (l ++ [MkW buf (length (io_reqs s1)) d]))
      (post s1 true buf d) (length (io_reqs s1)).

(** write_pool.hpp:235-254, check_all_busy(): entries found finished go to the
    free list in order. *)
Inductive w_check (fifo : bool)
  : list wentry -> io -> list nat -> list wentry -> io -> Prop :=
| ChkNil : forall s, w_check fifo [] s [] [] s
| ChkMove : forall e l s s1 mv rest s',
    env fifo s s1 -> finished s1 (e_req e) = true ->
    w_check fifo l s1 mv rest s' ->
    w_check fifo (e :: l) s (e_buf e :: mv) rest s'
| ChkKeep : forall e l s s1 mv rest s',
    env fifo s s1 -> finished s1 (e_req e) = false ->
    w_check fifo l s1 mv rest s' ->
    w_check fifo (e :: l) s mv (e :: rest) s'.

(** write_pool.hpp:154-173, steal(): the last free block, else wait_any over
    the busy entries (it returns one that is finished, see C25). *)
Inductive w_steal (fifo : bool) (w : wpool) (s : io)
  : wpool -> io -> nat -> Prop :=
| WStealFree : forall l b,
    w_free w = l ++ [b] ->
    w_steal fifo w s (MkWP l (w_busy w)) s b
| WStealWait : forall l1 e l2 s1 mv rest s2,
    w_free w = [] ->
    env fifo s s1 ->
    w_busy w = l1 ++ e :: l2 ->
    finished s1 (e_req e) = true ->
    w_check fifo (l1 ++ l2) s1 mv rest s2 ->
    w_steal fifo w s (MkWP (w_free w ++ mv) rest) s2 (e_buf e).

(** write_pool.hpp:191-192: steal and delete [k] blocks; the list of deleted
    blocks is kept for reference. *)
Inductive w_steals (fifo : bool) : nat -> wpool -> io -> wpool -> io -> list nat -> Prop :=
| StealsO : forall w s, w_steals fifo O w s w s []
| StealsS : forall k w s w1 s1 b w2 s2 bs,
    w_steal fifo w s w1 s1 b ->
    w_steals fifo k w1 s1 w2 s2 bs ->
    w_steals fifo (S k) w s w2 s2 (b :: bs).

(** write_pool.hpp:177-193, resize(); [next] is the first unused buffer number
    ([new block_type]). *)
Inductive w_resize (fifo : bool) (w : wpool) (s : io) (next n : nat)
  : wpool -> io -> nat -> list nat -> Prop :=
| WGrow :
    (w_size w < n)%nat ->
    w_resize fifo w s next n
      (MkWP (w_free w ++ seq next (n - w_size w)) (w_busy w)) s
      (next + (n - w_size w)) []
| WShrink : forall w' s' bs,
    (n <= w_size w)%nat ->
    w_steals fifo (w_size w - n) w s w' s' bs ->
    w_resize fifo w s next n w' s' next bs.

(** write_pool.hpp:195-203. *)
Definition has_request (w : wpool) (d : bid) : bool :=
  existsb (fun e => bid_eqb (e_bid e) d) (w_busy w).

(** write_pool.hpp:206-225: the first entry with this bid. *)
Fixpoint steal_entry (d : bid) (l : list wentry) : option (wentry * list wentry) :=
  match l with
  | [] => None
  | e :: l' =>
      if bid_eqb (e_bid e) d then Some (e, l')
      else match steal_entry d l' with
           | Some (x, r) => Some (x, e :: r)
           | None => None
           end
  end.

(** write_pool.hpp lines 206-225. *)
Definition steal_request (w : wpool) (d : bid) : option (nat * nat * wpool) :=
  match steal_entry d (w_busy w) with
  | Some (e, l) => Some (e_buf e, e_req e, MkWP (w_free w) l)
  | None => None
  end.

(** write_pool.hpp:227-232. *)
Definition w_add (w : wpool) (b : nat) : wpool := MkWP (w_free w ++ [b]) (w_busy w).

(** ** prefetch_pool *)

(** prefetch_pool.hpp:64-76: the free list, its counter, and the map from bid
    to (block, request). *)
Record pentry := MkP { p_bid : bid; p_buf : nat; p_req : nat }.
(** prefetch_pool.hpp lines 69-76. *)
Record ppool := MkPP { p_free : list nat; p_fsize : nat; p_busy : list pentry }.

(** prefetch_pool.hpp:124-127. *)
Definition p_size (p : ppool) : nat := p_fsize p + length (p_busy p).

(** prefetch_pool.hpp line 73: busy_blocks.find. *)
Fixpoint p_find (d : bid) (l : list pentry) : option pentry :=
  match l with
  | [] => None
  | e :: l' => if bid_eqb (p_bid e) d then Some e else p_find d l'
  end.
(** prefetch_pool.hpp line 73: busy_blocks.erase. *)
Definition p_erase (d : bid) (l : list pentry) : list pentry :=
  filter (fun e => negb (bid_eqb (p_bid e) d)) l.

(** busy_blocks[bid] = entry.
    prefetch_pool.hpp lines 189, 231, 236. *)
Definition p_set (e : pentry) (l : list pentry) : list pentry :=
  e :: p_erase (p_bid e) l.

(** prefetch_pool.hpp:142-147. *)
Definition p_add (p : ppool) (b : nat) : ppool :=
  MkPP (p_free p ++ [b]) (S (p_fsize p)) (p_busy p).

(** prefetch_pool.hpp:152-160. *)
Inductive p_steal (p : ppool) : ppool -> nat -> Prop :=
| PSteal : forall l b,
    p_free p = l ++ [b] ->
    p_steal p (MkPP l (p_fsize p - 1) (p_busy p)) b.

(** prefetch_pool.hpp:174-194, hint(bid) without a write pool. *)
Inductive p_hint0 (p : ppool) (s : io) (d : bid) : ppool -> io -> bool -> Prop :=
| Hint0Already : forall e,
    p_find d (p_busy p) = Some e -> p_hint0 p s d p s true
| Hint0Read : forall l b,
    p_find d (p_busy p) = None -> p_fsize p <> O -> p_free p = l ++ [b] ->
    p_hint0 p s d
      (MkPP l (p_fsize p - 1) (p_set (MkP d b (length (io_reqs s))) (p_busy p)))
      (post s false b d) true
| Hint0None :
    p_find d (p_busy p) = None -> p_fsize p = O -> p_hint0 p s d p s false.

(** prefetch_pool.hpp:212-241, hint(bid, w_pool). *)
Inductive p_hint (p : ppool) (w : wpool) (s : io) (d : bid)
  : ppool -> wpool -> io -> bool -> Prop :=
| HintAlready : forall e,
    p_find d (p_busy p) = Some e -> p_hint p w s d p w s true
| HintWrite : forall l b buf r w1,
    p_find d (p_busy p) = None -> p_fsize p <> O -> p_free p = l ++ [b] ->
    has_request w d = true ->
    steal_request w d = Some (buf, r, w1) ->
    p_hint p w s d
      (MkPP l (p_fsize p - 1) (p_set (MkP d buf r) (p_busy p)))
      (w_add w1 b) s true
| HintRead : forall l b,
    p_find d (p_busy p) = None -> p_fsize p <> O -> p_free p = l ++ [b] ->
    has_request w d = false ->
    p_hint p w s d
      (MkPP l (p_fsize p - 1) (p_set (MkP d b (length (io_reqs s))) (p_busy p)))
      w (post s false b d) true
| HintNone :
    p_find d (p_busy p) = None -> p_fsize p = O -> p_hint p w s d p w s false.

(** prefetch_pool.hpp line 252: op() == READ. *)
Definition is_read (s : io) (r : nat) : bool :=
  match nth_error (io_reqs s) r with
  | Some q => negb (q_write q)
  | None => false
  end.

(** prefetch_pool.hpp:244-260, invalidate(). *)
Inductive p_invalidate (fifo : bool) (p : ppool) (s : io) (d : bid)
  : ppool -> io -> bool -> Prop :=
| InvNone : p_find d (p_busy p) = None -> p_invalidate fifo p s d p s false
| InvSome : forall e s1 s2,
    p_find d (p_busy p) = Some e ->
    env fifo s s1 ->
    env fifo (if is_read s1 (p_req e) then cancel s1 (p_req e) else s1) s2 ->
    finished s2 (p_req e) = true ->
    p_invalidate fifo p s d
      (MkPP (p_free p ++ [p_buf e]) (S (p_fsize p)) (p_erase d (p_busy p))) s2 true.

(** prefetch_pool.hpp:301-319, read(block, bid) without a write pool: the
    caller's block, its request. *)
Inductive p_read0 (p : ppool) (s : io) (b : nat) (d : bid)
  : ppool -> io -> nat -> nat -> Prop :=
| Read0Disk :
    p_find d (p_busy p) = None ->
    p_read0 p s b d p (post s false b d) b (length (io_reqs s))
| Read0Cached : forall e,
    p_find d (p_busy p) = Some e ->
    p_read0 p s b d
      (MkPP (p_free p ++ [b]) (S (p_fsize p)) (p_erase d (p_busy p))) s
      (p_buf e) (p_req e).

(** prefetch_pool.hpp:321-351, read(block, bid, w_pool). *)
Inductive p_read (p : ppool) (w : wpool) (s : io) (b : nat) (d : bid)
  : ppool -> wpool -> io -> nat -> nat -> Prop :=
| ReadCached : forall e,
    p_find d (p_busy p) = Some e ->
    p_read p w s b d
      (MkPP (p_free p ++ [b]) (S (p_fsize p)) (p_erase d (p_busy p))) w s
      (p_buf e) (p_req e)
| ReadWrite : forall buf r w1,
    p_find d (p_busy p) = None ->
    has_request w d = true ->
    steal_request w d = Some (buf, r, w1) ->
    p_read p w s b d p (w_add w1 b) s buf r
| ReadDisk :
    p_find d (p_busy p) = None ->
    has_request w d = false ->
    p_read p w s b d p w (post s false b d) b (length (io_reqs s)).

(** prefetch_pool.hpp:359-379, resize(); deleted blocks in the last list. *)
Inductive p_resize (p : ppool) (next n : nat) : ppool -> nat -> list nat -> Prop :=
| PGrow :
    (p_size p < n)%nat ->
    p_resize p next n
      (MkPP (p_free p ++ seq next (n - p_size p)) (p_fsize p + (n - p_size p)) (p_busy p))
      (next + (n - p_size p)) []
| PShrink : forall l del,
    (n <= p_size p)%nat ->
    p_free p = l ++ del ->
    length del = Nat.min (p_size p - n) (p_fsize p) ->
    p_resize p next n (MkPP l (p_fsize p - length del) (p_busy p)) next del.

(** ** read_write_pool *)

(** read_write_pool.hpp:106-116, write(). *)
Inductive rw_write (fifo : bool) (p : ppool) (w : wpool) (s : io) (b : nat) (d : bid)
  : ppool -> wpool -> io -> Prop :=
| RWPlain : forall w1 s1 r p1 s2,
    w_write fifo w s b d w1 s1 r ->
    p_invalidate fifo p s1 d p1 s2 false ->
    rw_write fifo p w s b d p1 w1 s2
| RWRehint : forall w1 s1 r p1 s2 p2 w2 s3 h,
    w_write fifo w s b d w1 s1 r ->
    p_invalidate fifo p s1 d p1 s2 true ->
    p_hint p1 w1 s2 d p2 w2 s3 h ->
    rw_write fifo p w s b d p2 w2 s3.

(** ** A client *)

(** The pools, the I/O system, the blocks the client owns, and the first
    unused buffer number.
    read_write_pool.hpp lines 42-44. *)
Record st := MkSt {
  s_p : ppool; s_w : wpool; s_io : io; s_own : list nat; s_next : nat }.

(** What the client does, with what it sees.
    read_write_pool.hpp lines 50-166. *)
Inductive act :=
| AIdle                             (* the I/O system works *)
| ASet (b : nat) (v : Z)            (* fill an owned block *)
| ANew (b : nat)                    (* new block_type *)
| AWrite (b : nat) (d : bid) (v : Z)  (* rw.write of a block containing v *)
| ARead (d : bid) (b : nat) (v : Z) (* rw.read, wait: block b contains v *)
| AHint (d : bid) (r : bool)
| AInvalidate (d : bid) (r : bool)
| ASteal (b : nat)
| AAdd (b : nat)
| AAddP (b : nat)
| AStealP (b : nat)
| AResizeW (n : nat)
| AResizeP (n : nat)
| AStealReq (d : bid) (b : nat)     (* write_pool::steal_request, wait *)
| AHint0 (d : bid) (r : bool)       (* prefetch_pool::hint(bid) *)
| ARead0 (d : bid) (b : nat) (v : Z) (* prefetch_pool::read(block, bid), wait *)
| AReadNoWait (d : bid) (b : nat) (r : nat) (* rw.read without waiting *)
| AWait (r : nat) (b : nat) (v : Z). (* wait for it, look at the block *)

(** read_write_pool.hpp lines 50-166 with the functions above. *)
Inductive step (fifo : bool) : st -> act -> st -> Prop :=
| SIdle : forall p w s own nx s',
    env fifo s s' ->
    step fifo (MkSt p w s own nx) AIdle (MkSt p w s' own nx)
| SSet : forall p w s own nx b v,
    In b own ->
    step fifo (MkSt p w s own nx) (ASet b v)
      (MkSt p w (MkIO (set_mem (io_mem s) b v) (io_disk s) (io_reqs s)) own nx)
| SNew : forall p w s own nx,
    step fifo (MkSt p w s own nx) (ANew nx) (MkSt p w s (nx :: own) (S nx))
| SWrite : forall p w s own nx b d own' p' w' s',
    Permutation own (b :: own') -> b_storage d <> O ->
    rw_write fifo p w s b d p' w' s' ->
    step fifo (MkSt p w s own nx) (AWrite b d (io_mem s b)) (MkSt p' w' s' own' nx)
| SRead : forall p w s own nx b d own' p' w' s1 b' r s',
    Permutation own (b :: own') -> b_storage d <> O ->
    p_read p w s b d p' w' s1 b' r ->
    env fifo s1 s' -> finished s' r = true ->
    step fifo (MkSt p w s own nx) (ARead d b' (io_mem s' b'))
      (MkSt p' w' s' (b' :: own') nx)
| SHint : forall p w s own nx d p' w' s' r,
    b_storage d <> O ->
    p_hint p w s d p' w' s' r ->
    step fifo (MkSt p w s own nx) (AHint d r) (MkSt p' w' s' own nx)
| SInvalidate : forall p w s own nx d p' s' r,
    p_invalidate fifo p s d p' s' r ->
    step fifo (MkSt p w s own nx) (AInvalidate d r) (MkSt p' w s' own nx)
| SSteal : forall p w s own nx w' s' b,
    w_steal fifo w s w' s' b ->
    step fifo (MkSt p w s own nx) (ASteal b) (MkSt p w' s' (b :: own) nx)
| SAdd : forall p w s own nx b own',
    Permutation own (b :: own') ->
    step fifo (MkSt p w s own nx) (AAdd b) (MkSt p (w_add w b) s own' nx)
| SAddP : forall p w s own nx b own',
    Permutation own (b :: own') ->
    step fifo (MkSt p w s own nx) (AAddP b) (MkSt (p_add p b) w s own' nx)
| SStealP : forall p w s own nx p' b,
    p_steal p p' b ->
    step fifo (MkSt p w s own nx) (AStealP b) (MkSt p' w s (b :: own) nx)
| SResizeW : forall p w s own nx n w' s' nx' del,
    w_resize fifo w s nx n w' s' nx' del ->
    step fifo (MkSt p w s own nx) (AResizeW n) (MkSt p w' s' own nx')
| SResizeP : forall p w s own nx n p' nx' del,
    p_resize p nx n p' nx' del ->
    step fifo (MkSt p w s own nx) (AResizeP n) (MkSt p' w s own nx')
| SStealReq : forall p w s own nx d b r w' s',
    b_storage d <> O ->
    steal_request w d = Some (b, r, w') ->
    env fifo s s' -> finished s' r = true ->
    step fifo (MkSt p w s own nx) (AStealReq d b) (MkSt p w' s' (b :: own) nx)
| SHint0 : forall p w s own nx d p' s' r,
    b_storage d <> O ->
    p_hint0 p s d p' s' r ->
    step fifo (MkSt p w s own nx) (AHint0 d r) (MkSt p' w s' own nx)
| SRead0 : forall p w s own nx b d own' p' s1 b' r s',
    Permutation own (b :: own') -> b_storage d <> O ->
    p_read0 p s b d p' s1 b' r ->
    env fifo s1 s' -> finished s' r = true ->
    step fifo (MkSt p w s own nx) (ARead0 d b' (io_mem s' b'))
      (MkSt p' w s' (b' :: own') nx)
| SReadNoWait : forall p w s own nx b d own' p' w' s' b' r,
    Permutation own (b :: own') -> b_storage d <> O ->
    p_read p w s b d p' w' s' b' r ->
    step fifo (MkSt p w s own nx) (AReadNoWait d b' r)
      (MkSt p' w' s' (b' :: own') nx)
| SWait : forall p w s own nx r b s',
    In b own -> env fifo s s' -> finished s' r = true ->
    step fifo (MkSt p w s own nx) (AWait r b (io_mem s' b)) (MkSt p w s' own nx).

(** Model device: a sequence of operations (read_write_pool.hpp lines 50-166). *)
Inductive run (fifo : bool) : st -> list act -> st -> Prop :=
| RunNil : forall s, run fifo s [] s
| RunCons : forall s a s1 l s2,
    step fifo s a s1 -> run fifo s1 l s2 -> run fifo s (a :: l) s2.

(** read_write_pool.hpp:50-55 with write_pool.hpp:72-79 and
    prefetch_pool.hpp:81-87: both pools freshly constructed, no I/O going on,
    arbitrary memory and disk contents, no block owned by the client. *)
Definition init (np nw : nat) (m : nat -> Z) (disk : bid -> Z) : st :=
  MkSt (MkPP (seq 0 np) np []) (MkWP (seq np nw) [])
       (MkIO m disk []) [] (np + nw).
