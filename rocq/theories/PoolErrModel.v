(** Model of the buffer pools when requests may fail: memory and exceptions.

    Sources: /repo/foxxll/mng/write_pool.hpp 72-254, prefetch_pool.hpp 81-379,
    read_write_pool.hpp 50-116, io/request_operations.hpp 102-143 (wait_any),
    io/request_with_state.cpp 34-76 (wait, cancel, poll).

    Other than in PoolModel.v, contents are left out; requests may fail, the
    functions may throw, and every block is followed until it is deleted or lost.

    Simplifications.
    - A block identifier is a number; 0 is one whose storage is null.
    - Posting a request does not throw, nor does [new].
    - cancel() either makes the request finish or does nothing, which is what the
      I/O system may do anyway: it is part of [progress].
    - The pools have one client thread.  It uses a block that comes with a request
      only after the request is over. *)
From Coq Require Import List Bool Arith Permutation.
Import ListNotations.

(** A request: in flight, over without, over with an error.
    request_with_state.cpp lines 34-76. *)
Inductive rs := Flight | Good | Bad.
(** Model device: a request with its buffer, whether it reads, and its state
   
    (request_with_state.cpp lines 34-76). *)
Record rq := MkRq { r_buf : nat; r_read : bool; r_st : rs }.

(** The I/O system may finish any requests at any time.
    request_with_state.cpp lines 78-90 (completed). *)
Definition moves (a b : rq) : Prop :=
  r_buf a = r_buf b /\ r_read a = r_read b /\ (r_st a = Flight \/ r_st a = r_st b).
(** Model device: any number of requests finish (request_with_state.cpp lines 78-90). *)
Definition progress : list rq -> list rq -> Prop := Forall2 moves.

(** request_with_state.cpp lines 69-76 (poll). *)
Definition status (s : list rq) (r : nat) : rs :=
  match nth_error s r with Some q => r_st q | None => Flight end.
(** Model device: block->read(bid) or block->write(bid), typed_block.hpp lines 307-333. *)
Definition post (s : list rq) (b : nat) (rd : bool) : list rq := s ++ [MkRq b rd Flight].

(** Entries of both pools: write_pool.hpp 47-59, prefetch_pool.hpp 64-65. *)
Record entry := MkE { e_bid : nat; e_buf : nat; e_req : nat }.

(** request_operations.hpp: a loop that polls the requests in order (112-131 with
    add_waiter, 135-140); poll throws if the request has failed. *)
Inductive result := RNone | RThrow | RFound (l1 : list entry) (e : entry) (l2 : list entry).
(** Model device: what a loop has found after an entry it passed over
    (request_operations.hpp
    lines 112-131, 135-140). *)
Definition shift (e : entry) (r : result) : result :=
  match r with RFound l1 x l2 => RFound (e :: l1) x l2 | _ => r end.

(** request_operations.hpp lines 112-131 and 135-140. *)
Inductive walk : list entry -> list rq -> list rq -> result -> Prop :=
| WalkEnd : forall s, walk [] s s RNone
| WalkBad : forall e l s s1, progress s s1 -> status s1 (e_req e) = Bad -> walk (e :: l) s s1 RThrow
| WalkGood : forall e l s s1, progress s s1 -> status s1 (e_req e) = Good -> walk (e :: l) s s1 (RFound [] e l)
| WalkSkip : forall e l s s1 s2 r, progress s s1 -> status s1 (e_req e) = Flight ->
    walk l s1 s2 r -> walk (e :: l) s s2 (shift e r).

(** wait_any, request_operations.hpp lines 102-143; [RNone] after a spurious wakeup. *)
Inductive wait_any : list entry -> list rq -> list rq -> result -> Prop :=
| WaFirst : forall l s s1 r, walk l s s1 r -> r <> RNone -> wait_any l s s1 r
| WaSecond : forall l s s1 s2 s3 r, walk l s s1 RNone -> progress s1 s2 -> walk l s2 s3 r -> wait_any l s s3 r.

(** write_pool.hpp 235-254, check_all_busy: moved blocks, remaining entries,
    whether it throws. *)
Inductive check : list entry -> list rq -> list rq -> list nat -> list entry -> bool -> Prop :=
| ChkNil : forall s, check [] s s [] [] false
| ChkBad : forall e l s s1, progress s s1 -> status s1 (e_req e) = Bad -> check (e :: l) s s1 [] (e :: l) true
| ChkGood : forall e l s s1 s2 mv rest t, progress s s1 -> status s1 (e_req e) = Good ->
    check l s1 s2 mv rest t -> check (e :: l) s s2 (e_buf e :: mv) rest t
| ChkKeep : forall e l s s1 s2 mv rest t, progress s s1 -> status s1 (e_req e) = Flight ->
    check l s1 s2 mv rest t -> check (e :: l) s s2 mv (e :: rest) t.

(** write_pool.hpp 154-173, steal: new free and busy lists; the block, or none if
    it throws; blocks that nobody knows any more. *)
Inductive steal (wf : list nat) (wb : list entry) (s : list rq)
  : list nat -> list entry -> list rq -> option nat -> list nat -> Prop :=
| StealFree : forall l b, wf = l ++ [b] -> steal wf wb s l wb s (Some b) []
| StealThrow : forall s1, wf = [] -> wait_any wb s s1 RThrow -> steal wf wb s wf wb s1 None []
| StealRet : forall s1 l1 e l2 s2 mv rest, wf = [] -> wait_any wb s s1 (RFound l1 e l2) ->
    check (l1 ++ l2) s1 s2 mv rest false -> steal wf wb s mv rest s2 (Some (e_buf e)) []
| StealLose : forall s1 l1 e l2 s2 mv rest, wf = [] -> wait_any wb s s1 (RFound l1 e l2) ->
    check (l1 ++ l2) s1 s2 mv rest true -> steal wf wb s mv rest s2 None [e_buf e].

(** write_pool.hpp 191-192: [delete steal()], [k] times; deleted and lost blocks. *)
Inductive shrink : nat -> list nat -> list entry -> list rq ->
                   list nat -> list entry -> list rq -> list nat -> list nat -> bool -> Prop :=
| ShrinkO : forall wf wb s, shrink O wf wb s wf wb s [] [] false
| ShrinkS : forall k wf wb s wf1 wb1 s1 b wf2 wb2 s2 del lo t,
    steal wf wb s wf1 wb1 s1 (Some b) [] -> shrink k wf1 wb1 s1 wf2 wb2 s2 del lo t ->
    shrink (S k) wf wb s wf2 wb2 s2 (b :: del) lo t
| ShrinkThrow : forall k wf wb s wf1 wb1 s1 lo,
    steal wf wb s wf1 wb1 s1 None lo -> shrink (S k) wf wb s wf1 wb1 s1 [] lo true.

(** The loops of both destructors, write_pool.hpp 108-116 and prefetch_pool.hpp
    113-117: wait for and delete the blocks until one request has failed. *)
Inductive drain : list entry -> list rq -> list rq -> list nat -> list nat -> Prop :=
| DrainNil : forall s, drain [] s s [] []
| DrainGood : forall e l s s1 s2 del lo, progress s s1 -> status s1 (e_req e) = Good ->
    drain l s1 s2 del lo -> drain (e :: l) s s2 (e_buf e :: del) lo
| DrainBad : forall e l s s1, progress s s1 -> status s1 (e_req e) = Bad ->
    drain (e :: l) s s1 [] (map e_buf (e :: l)).

(** write_pool.hpp lines 197-202 and prefetch_pool.hpp line 246: busy_blocks.find. *)
Fixpoint find (d : nat) (l : list entry) : option entry :=
  match l with
  | [] => None
  | e :: l' => if Nat.eqb (e_bid e) d then Some e else find d l'
  end.
(** The first entry with this identifier is removed: steal_request, write_pool.hpp
    206-225, and busy_blocks.erase of the prefetch pool. *)
Fixpoint erase (d : nat) (l : list entry) : list entry :=
  match l with
  | [] => []
  | e :: l' => if Nat.eqb (e_bid e) d then l' else e :: erase d l'
  end.

(** write_pool.hpp 134-145: older entries for the block lose their identifier. *)
Definition mark (d : nat) (l : list entry) : list entry :=
  map (fun e => if Nat.eqb (e_bid e) d then MkE 0 (e_buf e) (e_req e) else e) l.

(** Both pools (free and busy), the client's blocks with the request to wait for,
    deleted and lost blocks, the first unused block number, the requests.
    write_pool.hpp lines 65-67, prefetch_pool.hpp lines 70-73. *)
Record st := MkSt {
  wf : list nat; wb : list entry; pf : list nat; pb : list entry;
  own : list (nat * option nat); gone : list nat; lost : list nat;
  next : nat; rqs : list rq; alive : bool }.

(** The client may use the block.
    Model device: the caller has waited for the request that read_write_pool.hpp lines
    163-166 returned. *)
Definition over (s : list rq) (o : option nat) : Prop :=
  match o with None => True | Some r => status s r <> Flight end.

(** read_write_pool.hpp lines 50-166: the member functions; with those of write_pool
    and
    prefetch_pool it is not called through. *)
Inductive op := Idle | New | Delete | WWrite (d : nat) | WSteal | WAdd | WResize (n : nat)
  | WStealReq (d : nat) | Hint (d : nat) | Hint0 (d : nat) | Invalidate (d : nat)
  | ReadOp (d : nat) | Read0 (d : nat) | PAdd | PSteal | PResize (n : nat)
  | RwWrite (d : nat) | Destroy.

(** write_pool.hpp 131-150. *)
Definition wr (d b : nat) (x : st) (s : list rq) : st :=
  MkSt (wf x) (mark d (wb x) ++ [MkE d b (length s)]) (pf x) (pb x) (own x) (gone x) (lost x) (next x)
       (post s b false) (alive x).

(** prefetch_pool.hpp 212-241, hint(bid, w_pool); never throws. *)
Inductive hint (d : nat) (x : st) : st -> Prop :=
| HintHave : forall e, find d (pb x) = Some e -> hint d x x
| HintFull : find d (pb x) = None -> pf x = [] -> hint d x x
| HintWrite : forall l b e, find d (pb x) = None -> pf x = l ++ [b] -> find d (wb x) = Some e ->
    hint d x (MkSt (wf x ++ [b]) (erase d (wb x)) l (MkE d (e_buf e) (e_req e) :: pb x)
                   (own x) (gone x) (lost x) (next x) (rqs x) (alive x))
| HintRead : forall l b, find d (pb x) = None -> pf x = l ++ [b] -> find d (wb x) = None ->
    hint d x (MkSt (wf x) (wb x) l (MkE d b (length (rqs x)) :: pb x)
                   (own x) (gone x) (lost x) (next x) (post (rqs x) b true) (alive x)).

(** prefetch_pool.hpp 244-260, invalidate: the result and whether it throws. *)
Inductive invalidate (d : nat) (x : st) : st -> bool -> bool -> Prop :=
| InvNone : find d (pb x) = None -> invalidate d x x false false
| InvSome : forall e s, find d (pb x) = Some e -> progress (rqs x) s -> status s (e_req e) = Good ->
    invalidate d x (MkSt (wf x) (wb x) (pf x ++ [e_buf e]) (erase d (pb x)) (own x) (gone x) (lost x)
                         (next x) s (alive x)) true false
| InvThrow : forall e s, find d (pb x) = Some e -> progress (rqs x) s -> status s (e_req e) = Bad ->
    invalidate d x (MkSt (wf x) (wb x) (pf x) (pb x) (own x) (gone x) (lost x) (next x) s (alive x)) false true.

(** One operation and whether it throws.
    read_write_pool.hpp lines 50-166, write_pool.hpp lines 72-254, prefetch_pool.hpp lines
    81-379. *)
Inductive step : st -> op -> bool -> st -> Prop :=
| SIdle : forall x s, progress (rqs x) s ->
    step x Idle false (MkSt (wf x) (wb x) (pf x) (pb x) (own x) (gone x) (lost x) (next x) s (alive x))
| SNew : forall x,
    step x New false (MkSt (wf x) (wb x) (pf x) (pb x) ((next x, None) :: own x) (gone x) (lost x) (S (next x)) (rqs x) (alive x))
| SDelete : forall x o1 o2 b r, own x = o1 ++ (b, r) :: o2 -> over (rqs x) r ->
    step x Delete false (MkSt (wf x) (wb x) (pf x) (pb x) (o1 ++ o2) (b :: gone x) (lost x) (next x) (rqs x) (alive x))
(* write_pool.hpp 131-150 *)
| SWrite : forall x s d b r o1 o2, alive x = true -> d <> 0 -> own x = o1 ++ (b, r) :: o2 -> over (rqs x) r ->
    progress (rqs x) s ->
    step x (WWrite d) false
      (wr d b (MkSt (wf x) (wb x) (pf x) (pb x) (o1 ++ o2) (gone x) (lost x) (next x) (rqs x) (alive x)) s)
(* write_pool.hpp 154-173 *)
| SStealRet : forall x wf' wb' s b lo, alive x = true ->
    steal (wf x) (wb x) (rqs x) wf' wb' s (Some b) lo ->
    step x WSteal false (MkSt wf' wb' (pf x) (pb x) ((b, None) :: own x) (gone x) (lo ++ lost x) (next x) s (alive x))
| SStealThrow : forall x wf' wb' s lo, alive x = true ->
    steal (wf x) (wb x) (rqs x) wf' wb' s None lo ->
    step x WSteal true (MkSt wf' wb' (pf x) (pb x) (own x) (gone x) (lo ++ lost x) (next x) s (alive x))
(* write_pool.hpp 227-232 *)
| SAdd : forall x b r o1 o2, alive x = true -> own x = o1 ++ (b, r) :: o2 -> over (rqs x) r ->
    step x WAdd false (MkSt (wf x ++ [b]) (wb x) (pf x) (pb x) (o1 ++ o2) (gone x) (lost x) (next x) (rqs x) (alive x))
(* write_pool.hpp 177-193 *)
| SGrow : forall x n, alive x = true -> length (wf x) + length (wb x) < n ->
    let k := n - (length (wf x) + length (wb x)) in
    step x (WResize n) false
      (MkSt (wf x ++ seq (next x) k) (wb x) (pf x) (pb x) (own x) (gone x) (lost x) (next x + k) (rqs x) (alive x))
| SShrink : forall x n wf' wb' s del lo t, alive x = true -> n <= length (wf x) + length (wb x) ->
    shrink (length (wf x) + length (wb x) - n) (wf x) (wb x) (rqs x) wf' wb' s del lo t ->
    step x (WResize n) t (MkSt wf' wb' (pf x) (pb x) (own x) (del ++ gone x) (lo ++ lost x) (next x) s (alive x))
(* write_pool.hpp 206-225 *)
| SStealReq : forall x d e, alive x = true -> d <> 0 -> find d (wb x) = Some e ->
    step x (WStealReq d) false
      (MkSt (wf x) (erase d (wb x)) (pf x) (pb x) ((e_buf e, Some (e_req e)) :: own x) (gone x) (lost x) (next x) (rqs x) (alive x))
| SHint : forall x d x', alive x = true -> d <> 0 -> hint d x x' -> step x (Hint d) false x'
(* prefetch_pool.hpp 174-194 *)
| SHint0 : forall x d l b, alive x = true -> d <> 0 -> find d (pb x) = None -> pf x = l ++ [b] ->
    step x (Hint0 d) false
      (MkSt (wf x) (wb x) l (MkE d b (length (rqs x)) :: pb x) (own x) (gone x) (lost x) (next x)
            (post (rqs x) b true) (alive x))
| SInvalidate : forall x d x' r t, alive x = true -> invalidate d x x' r t -> step x (Invalidate d) t x'
(* prefetch_pool.hpp 321-351, read(block, bid, w_pool) *)
| SReadCached : forall x d e b r o1 o2, alive x = true -> d <> 0 ->
    own x = o1 ++ (b, r) :: o2 -> over (rqs x) r -> find d (pb x) = Some e ->
    step x (ReadOp d) false
      (MkSt (wf x) (wb x) (pf x ++ [b]) (erase d (pb x)) ((e_buf e, Some (e_req e)) :: o1 ++ o2)
            (gone x) (lost x) (next x) (rqs x) (alive x))
| SReadWrite : forall x d e b r o1 o2, alive x = true -> d <> 0 ->
    own x = o1 ++ (b, r) :: o2 -> over (rqs x) r -> find d (pb x) = None -> find d (wb x) = Some e ->
    step x (ReadOp d) false
      (MkSt (wf x ++ [b]) (erase d (wb x)) (pf x) (pb x) ((e_buf e, Some (e_req e)) :: o1 ++ o2)
            (gone x) (lost x) (next x) (rqs x) (alive x))
| SReadDisk : forall x d b r o1 o2, alive x = true -> d <> 0 ->
    own x = o1 ++ (b, r) :: o2 -> over (rqs x) r -> find d (pb x) = None -> find d (wb x) = None ->
    step x (ReadOp d) false
      (MkSt (wf x) (wb x) (pf x) (pb x) ((b, Some (length (rqs x))) :: o1 ++ o2)
            (gone x) (lost x) (next x) (post (rqs x) b true) (alive x))
(* prefetch_pool.hpp 301-319, read(block, bid); the cached case is as above *)
| SRead0 : forall x d b r o1 o2, alive x = true -> d <> 0 ->
    own x = o1 ++ (b, r) :: o2 -> over (rqs x) r -> find d (pb x) = None ->
    step x (Read0 d) false
      (MkSt (wf x) (wb x) (pf x) (pb x) ((b, Some (length (rqs x))) :: o1 ++ o2)
            (gone x) (lost x) (next x) (post (rqs x) b true) (alive x))
(* prefetch_pool.hpp 142-160 *)
| SPAdd : forall x b r o1 o2, alive x = true -> own x = o1 ++ (b, r) :: o2 -> over (rqs x) r ->
    step x PAdd false (MkSt (wf x) (wb x) (pf x ++ [b]) (pb x) (o1 ++ o2) (gone x) (lost x) (next x) (rqs x) (alive x))
| SPSteal : forall x l b, alive x = true -> pf x = l ++ [b] ->
    step x PSteal false (MkSt (wf x) (wb x) l (pb x) ((b, None) :: own x) (gone x) (lost x) (next x) (rqs x) (alive x))
(* prefetch_pool.hpp 359-379 *)
| SPGrow : forall x n, alive x = true -> length (pf x) + length (pb x) < n ->
    let k := n - (length (pf x) + length (pb x)) in
    step x (PResize n) false
      (MkSt (wf x) (wb x) (pf x ++ seq (next x) k) (pb x) (own x) (gone x) (lost x) (next x + k) (rqs x) (alive x))
| SPShrink : forall x n l del, alive x = true -> n <= length (pf x) + length (pb x) ->
    pf x = l ++ del -> length del = Nat.min (length (pf x) + length (pb x) - n) (length (pf x)) ->
    step x (PResize n) false
      (MkSt (wf x) (wb x) l (pb x) (own x) (del ++ gone x) (lost x) (next x) (rqs x) (alive x))
(* read_write_pool.hpp 106-116 *)
| SRwWrite : forall x s d b r o1 o2 x2 had x3, alive x = true -> d <> 0 ->
    own x = o1 ++ (b, r) :: o2 -> over (rqs x) r -> progress (rqs x) s ->
    invalidate d (wr d b (MkSt (wf x) (wb x) (pf x) (pb x) (o1 ++ o2) (gone x) (lost x) (next x) (rqs x) (alive x)) s)
               x2 had false ->
    (if had then hint d x2 x3 else x3 = x2) ->
    step x (RwWrite d) false x3
| SRwWriteThrow : forall x s d b r o1 o2 x2 had, alive x = true -> d <> 0 ->
    own x = o1 ++ (b, r) :: o2 -> over (rqs x) r -> progress (rqs x) s ->
    invalidate d (wr d b (MkSt (wf x) (wb x) (pf x) (pb x) (o1 ++ o2) (gone x) (lost x) (next x) (rqs x) (alive x)) s)
               x2 had true ->
    step x (RwWrite d) true x2
(* read_write_pool.hpp 70-76, write_pool.hpp 93-120, prefetch_pool.hpp 102-121; the
   map of the prefetch pool has any order *)
| SDestroy : forall x pb' s1 s2 del1 lo1 del2 lo2, alive x = true -> Permutation (pb x) pb' ->
    drain (wb x) (rqs x) s1 del1 lo1 -> drain pb' s1 s2 del2 lo2 ->
    step x Destroy false
      (MkSt [] [] [] [] (own x) (wf x ++ del1 ++ pf x ++ del2 ++ gone x) (lo1 ++ lo2 ++ lost x) (next x) s2 false).

(** read_write_pool.hpp 50-55: fresh pools. *)
Definition init (np nw : nat) : st :=
  MkSt (seq np nw) [] (seq 0 np) [] [] [] [] (np + nw) [] true.

(** Everything that can happen to the pools.
    Model device: any sequence of operations (read_write_pool.hpp lines 50-166). *)
Inductive reach (np nw : nat) : st -> Prop :=
| RInit : reach np nw (init np nw)
| RStep : forall x o t x', reach np nw x -> step x o t x' -> reach np nw x'.
