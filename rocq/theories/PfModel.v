(** Model of the prefetching algorithm of the block scheduler.

    Source: /repo/foxxll/mng/block_scheduler.hpp: class
    block_scheduler_algorithm_offline_lru_prefetching 1149-1891, on top of
    swappable_block and block_scheduler as modelled in BsModel.v.

    Reads and writes are asynchronous.  A write request passes through the
    phases [Queued], [Written] (the data is on disk), [Soon] (the completion
    handler has set write_done_soon), [Go] (it has seen shall_read and will start
    the read) and [Over] (the handler has ended, a wait returns); what is written
    is the contents of the internal block at the time of the transfer.  A read
    request is done or not; its transfer takes place at some time in between.
    Which of these steps take place when is decided by the list [orc]: whenever
    the client reads or has written something it shares with the I/O threads, the
    steps in the first element of [orc] take place (steps that are not possible
    are skipped).  No order between requests is assumed.  A wait takes the
    missing steps of the request it waits for after those of [orc].

    In between the client's program is sequential, as it accesses only its own
    data there: after schedule_write it sets the taker, which the handler reads
    only if shall_read is set.

    A failed assertion or the use of a null pointer or of a singular iterator is
    [Undefined], except the assertions at the begin of acquire about an acquire
    that is not scheduled (lines 1711-1715), which are [NoMemory].

    An iterator into swappable_blocks or scheduled_blocks is named by the block.
    The maps are functions on block numbers; loops over them go through the
    numbers of the blocks.  request_ptr: read_req is the number of the request.

    Not modelled: the log output, give_up (never called), I/O errors, the
    destructor (see PfDtorModel.v) and growing the vector of swappable blocks
    (allocate reuses a free one). *)
From Coq Require Import ZArith List Bool.
From Verif Require Import BsModel.
Import ListNotations.

(** How far a write request is: block_scheduler.hpp lines 1192-1205 (read_after_write)
    divided at its
    accesses to shared members. *)
Inductive phase := Queued | Written | Soon | Go | Over.

(** write_read_request, block_scheduler.hpp lines 1179-1190, with its write request. *)
Record wreq := mkW {
  w_buf : nat; w_ext : nat; w_ph : phase;
  w_shall : bool;                     (* shall_read *)
  w_start : nat;                      (* block_to_start_read *)
  w_taker : option nat                (* taker; None: singular *)
}.

(** A read request.
    block_scheduler.hpp line 1211 (read_req). *)
Record rreq := mkRq { r_buf : nat; r_ext : nat; r_done : bool }.

(** scheduled_block_meta, block_scheduler.hpp lines 1207-1220; [m_ops] from the back of
    the deque,
    i.e. the upcoming operation first. *)
Record meta := mkM {
  m_res : option nat;                 (* reserved_iblock *)
  m_giver : bool * nat;
  m_read : option nat;                (* read_req *)
  m_ops : list pop_kind
}.

(** The steps of the I/O threads: on the write request of a block, or on a read
    request.
    block_scheduler.hpp lines 1192-1205, and the transfers. *)
Inductive act := WT (b : nat) | WS (b : nat) | WC (b : nat) | WO (b : nat) | RT (k : nat).

(** block_scheduler.hpp lines 1223-1231 and prediction_sequence; [uns] is the part of it from
    next_op_to_schedule on. *)
Record pst := mkP {
  base : st;
  fe : list nat;                      (* free_evictable_blocks *)
  se : list nat;                      (* scheduled_evictable_blocks *)
  sched : nat -> option meta;         (* scheduled_blocks *)
  wq : nat -> option wreq;            (* write_scheduled_blocks *)
  rds : nat -> option rreq;           (* the read requests *)
  nrd : nat;
  pseqn : list (pop_kind * nat);      (* prediction_sequence *)
  uns : list (pop_kind * nat);
  orc : list (list act)
}.

(** Model device: sets one member of the state (block_scheduler.hpp lines 1223-1231). *)
Definition set_base p v := mkP v (fe p) (se p) (sched p) (wq p) (rds p) (nrd p) (pseqn p) (uns p) (orc p).
(** Model device: sets one member of the state (block_scheduler.hpp lines 1223-1231). *)
Definition set_fe p v := mkP (base p) v (se p) (sched p) (wq p) (rds p) (nrd p) (pseqn p) (uns p) (orc p).
(** Model device: sets one member of the state (block_scheduler.hpp lines 1223-1231). *)
Definition set_se p v := mkP (base p) (fe p) v (sched p) (wq p) (rds p) (nrd p) (pseqn p) (uns p) (orc p).
(** Model device: sets one member of the state (block_scheduler.hpp lines 1223-1231). *)
Definition set_sched p v := mkP (base p) (fe p) (se p) v (wq p) (rds p) (nrd p) (pseqn p) (uns p) (orc p).
(** Model device: sets one member of the state (block_scheduler.hpp lines 1223-1231). *)
Definition set_wq p v := mkP (base p) (fe p) (se p) (sched p) v (rds p) (nrd p) (pseqn p) (uns p) (orc p).
(** Model device: sets one member of the state (block_scheduler.hpp lines 1223-1231). *)
Definition set_rds p v n := mkP (base p) (fe p) (se p) (sched p) (wq p) v n (pseqn p) (uns p) (orc p).
(** Model device: sets one member of the state (block_scheduler.hpp lines 1223-1231). *)
Definition set_seq p v := mkP (base p) (fe p) (se p) (sched p) (wq p) (rds p) (nrd p) v (uns p) (orc p).
(** Model device: sets one member of the state (block_scheduler.hpp lines 1223-1231). *)
Definition set_uns p v := mkP (base p) (fe p) (se p) (sched p) (wq p) (rds p) (nrd p) (pseqn p) v (orc p).
(** Model device: sets one member of the state (block_scheduler.hpp lines 1223-1231). *)
Definition set_orc p v := mkP (base p) (fe p) (se p) (sched p) (wq p) (rds p) (nrd p) (pseqn p) (uns p) v.

(** block_scheduler.hpp line 328: swappable_blocks[b]. *)
Definition bk (p : pst) (b : nat) : sb := blk (base p) b.
(** block_scheduler.hpp line 1227: entry of scheduled_blocks. *)
Definition put_meta p b m := set_sched p (upd (sched p) b (Some m)).
(** block_scheduler.hpp line 1230: entry of write_scheduled_blocks. *)
Definition put_w p b w := set_wq p (upd (wq p) b (Some w)).
(** block_scheduler.hpp line 1230: the entry is erased. *)
Definition drop_w p b := set_wq p (upd (wq p) b None).

(** block_scheduler.hpp line 1227: scheduled_blocks.find; it is used without a test. *)
Definition with_meta {A} p b (f : meta -> out A) : out A :=
  match sched p b with Some m => f m | None => Undefined end.

(** Model device: sets one member (block_scheduler.hpp lines 1179-1190). *)
Definition set_ph w x := mkW (w_buf w) (w_ext w) x (w_shall w) (w_start w) (w_taker w).
(** Model device: sets one member (block_scheduler.hpp lines 1179-1190). *)
Definition set_shall w x := mkW (w_buf w) (w_ext w) (w_ph w) x (w_start w) (w_taker w).
(** Model device: sets one member (block_scheduler.hpp lines 1179-1190). *)
Definition set_start w b := mkW (w_buf w) (w_ext w) (w_ph w) (w_shall w) b (w_taker w).
(** Model device: sets one member (block_scheduler.hpp lines 1179-1190). *)
Definition set_taker w t := mkW (w_buf w) (w_ext w) (w_ph w) (w_shall w) (w_start w) t.
(** Model device: sets one member (block_scheduler.hpp lines 1207-1220). *)
Definition set_res m x := mkM x (m_giver m) (m_read m) (m_ops m).
(** Model device: sets one member (block_scheduler.hpp lines 1207-1220). *)
Definition set_giver m x := mkM (m_res m) x (m_read m) (m_ops m).
(** Model device: sets one member (block_scheduler.hpp lines 1207-1220). *)
Definition set_read m x := mkM (m_res m) (m_giver m) x (m_ops m).
(** Model device: sets one member (block_scheduler.hpp lines 1207-1220). *)
Definition set_ops m x := mkM (m_res m) (m_giver m) (m_read m) x.

(** ** I/O *)

(** read_async of swappable block [b] (block_scheduler.hpp lines 157-164), the request
    goes to the
    meta data of block [t]. *)
Definition start_read (p : pst) (b t : nat) : out pst :=
  let B := bk p b in
  match int B, ext B with
  | Some i, Some e =>
      with_meta p t (fun m =>
        let p1 := if dirty B then set_base p (set_b (base p) b (mkSb (ext B) (int B) false (rc B))) else p in
        let p2 := set_rds p1 (upd (rds p1) (nrd p1) (Some (mkRq i e false))) (S (nrd p1)) in
        Ok (put_meta p2 t (set_read m (Some (nrd p)))))
  | _, _ => Undefined
  end.

(** The transfer of a write, and the three steps of read_after_write, block_scheduler.hpp lines
    1199-1204: write_done_soon is set, shall_read is tested, the read is started.
    The flags are plain bools in the code; it relies on their accesses taking
    effect in program order. *)
Definition w_transfer (p : pst) (b : nat) (w : wreq) : pst :=
  put_w (set_base p (set_disk (base p) (w_ext w) (mem (base p) (w_buf w)))) b (set_ph w Written).
(** block_scheduler.hpp line 1201. *)
Definition w_soon (p : pst) (b : nat) (w : wreq) : pst := put_w p b (set_ph w Soon).
(** block_scheduler.hpp line 1202. *)
Definition w_check (p : pst) (b : nat) (w : wreq) : pst :=
  put_w p b (set_ph w (if w_shall w then Go else Over)).
(** block_scheduler.hpp line 1203. *)
Definition w_over (p : pst) (b : nat) (w : wreq) : out pst :=
  bind (match w_taker w with Some t => start_read p (w_start w) t | None => Undefined end)
       (fun p1 => Ok (put_w p1 b (set_ph w Over))).

(** The transfer of a read.
    block_scheduler.hpp lines 157-164. *)
Definition r_transfer (p : pst) (k : nat) (r : rreq) : pst :=
  set_rds (set_base p (set_mem (base p) (r_buf r) (disk (base p) (r_ext r))))
          (upd (rds p) k (Some (mkRq (r_buf r) (r_ext r) true))) (nrd p).

(** Model device: a step of an I/O thread (block_scheduler.hpp lines 1192-1205). *)
Definition do_act (p : pst) (a : act) : out pst :=
  match a with
  | WT b => match wq p b with
            | Some w => match w_ph w with Queued => Ok (w_transfer p b w) | _ => Ok p end
            | None => Ok p
            end
  | WS b => match wq p b with
            | Some w => match w_ph w with Written => Ok (w_soon p b w) | _ => Ok p end
            | None => Ok p
            end
  | WC b => match wq p b with
            | Some w => match w_ph w with Soon => Ok (w_check p b w) | _ => Ok p end
            | None => Ok p
            end
  | WO b => match wq p b with
            | Some w => match w_ph w with Go => w_over p b w | _ => Ok p end
            | None => Ok p
            end
  | RT k => match rds p k with
            | Some r => if r_done r then Ok p else Ok (r_transfer p k r)
            | None => Ok p
            end
  end.

(** Model device: steps of the I/O threads (block_scheduler.hpp lines 1192-1205). *)
Fixpoint do_acts (p : pst) (l : list act) : out pst :=
  match l with
  | [] => Ok p
  | a :: r => bind (do_act p a) (fun p1 => do_acts p1 r)
  end.

(** The steps that take place at this point.
    Model device: given by the oracle [orc] (block_scheduler.hpp lines 1192-1205). *)
Definition env (p : pst) : out pst :=
  match orc p with
  | [] => Ok p
  | l :: r => do_acts (set_orc p r) l
  end.

(** request::wait of the write request of block [b], and of read request [k].
    block_scheduler.hpp lines 1399, 1434. *)
Definition await_w (p : pst) (b : nat) : out pst :=
  bind (env p) (fun p1 => do_acts p1 [WT b; WS b; WC b; WO b]).
(** block_scheduler.hpp line 1434. *)
Definition await_r (p : pst) (k : nat) : out pst :=
  bind (env p) (fun p1 => do_act p1 (RT k)).

(** write_done_soon, block_scheduler.hpp lines 1267 and 1373. *)
Definition done_soon (w : wreq) : bool :=
  match w_ph w with Soon | Go | Over => true | _ => false end.

(** ** Waiting *)

(** wait_on_write, block_scheduler.hpp lines 1397-1402: the entry is erased. *)
Definition wait_entry (p : pst) (b : nat) : out pst :=
  bind (await_w p b) (fun p1 => Ok (drop_w p1 b)).
(** block_scheduler.hpp lines 1407-1412. *)
Definition wait_id (p : pst) (b : nat) : out pst :=
  match wq p b with Some _ => wait_entry p b | None => Ok p end.
(** block_scheduler.hpp lines 1417-1424. *)
Definition wait_giver (p : pst) (t : nat) : out pst :=
  with_meta p t (fun m =>
    if fst (m_giver m) then
      bind (wait_id p (snd (m_giver m))) (fun p1 =>
      with_meta p1 t (fun m1 => Ok (put_meta p1 t (set_giver m1 (false, snd (m_giver m1))))))
    else Ok p).
(** wait_on_read, block_scheduler.hpp lines 1429-1437. *)
Definition wait_on_read (p : pst) (t : nat) : out pst :=
  bind (wait_giver p t) (fun p1 =>
  with_meta p1 t (fun m =>
    match m_read m with
    | Some k => bind (await_r p1 k) (fun p2 =>
                with_meta p2 t (fun m2 => Ok (put_meta p2 t (set_read m2 None))))
    | None => Ok p1
    end)).
(** get_ready_block, block_scheduler.hpp lines 1442-1448; [None]: the null pointer. *)
Definition get_ready (p : pst) (t : nat) : out (pst * option nat) :=
  bind (wait_giver p t) (fun p1 =>
  with_meta p1 t (fun m => Ok (put_meta p1 t (set_res m None), m_res m))).

(** ** Swappable blocks *)

(** attach_internal_block, block_scheduler.hpp lines 194-198. *)
Definition attach (p : pst) (b : nat) (i : option nat) : out pst :=
  let B := bk p b in
  if is_internal B then Undefined
  else Ok (set_base p (set_b (base p) b (mkSb (ext B) i (dirty B) (rc B)))).

Section Oracles.
Variable pick : nat -> list nat -> nat.
Variable dflt : option Z.

(** detach_internal_block, block_scheduler.hpp lines 202-209. *)
Definition pdetach (p : pst) (b : nat) : out (pst * nat) :=
  bind (detach pick (base p) b) (fun '(s, i) => Ok (set_base p s, i)).

(** schedule_write, block_scheduler.hpp lines 1238-1256, with clean_async (172-183); whether a
    request was made. *)
Definition schedule_write (p : pst) (b : nat) : out (pst * bool) :=
  let B := bk p b in
  if negb (dirty B) then Ok (p, false)
  else
    let '(s1, e) := match ext B with Some e => (base p, e) | None => new_ext pick (base p) end in
    match int B with
    | None => Undefined
    | Some i =>
        let p1 := set_base p (set_b s1 b (mkSb (Some e) (int B) false (rc B))) in
        match wq p b with
        | Some _ => Undefined
        | None => Ok (put_w p1 b (mkW i e Queued false 0 None), true)
        end
    end.

(** try_interrupt_read, block_scheduler.hpp lines 1262-1280. *)
Definition try_interrupt (p : pst) (b : nat) : out (pst * bool) :=
  match wq p b with
  | None => Undefined
  | Some w =>
      bind (env (put_w p b (set_shall w false))) (fun p1 =>
      match wq p1 b with
      | None => Undefined
      | Some w1 =>
          if negb (done_soon w1) then Ok (p1, true)
          else match w_taker w1 with
               | None => Undefined
               | Some t =>
                   bind (wait_entry p1 b) (fun p2 =>
                   with_meta p2 t (fun m =>
                     Ok (p2, match m_read m with Some _ => false | None => true end)))
               end
      end)
  end.

(** After the swap the new taker of the giver's write is entered (block_scheduler.hpp lines
    1301-1308, 1309-1316, 1334-1341, 1342-1349). *)
Definition fix_taker (p : pst) (t : nat) : out pst :=
  with_meta p t (fun m =>
    if fst (m_giver m) then
      match wq p (snd (m_giver m)) with
      | Some w => Ok (put_w p (snd (m_giver m)) (set_taker w (Some t)))
      | None => Ok (put_meta p t (set_giver m (false, snd (m_giver m))))
      end
    else Ok p).
(** The swap of the givers, block_scheduler.hpp lines 1300-1316 and 1333-1349. *)
Definition swap_givers (p : pst) (o b : nat) : out pst :=
  with_meta p o (fun mo => with_meta p b (fun mb =>
    let p1 := put_meta p o (set_giver mo (m_giver mb)) in
    with_meta p1 b (fun mb1 =>
      let p2 := put_meta p1 b (set_giver mb1 (m_giver mo)) in
      bind (fix_taker p2 o) (fun p3 => fix_taker p3 b)))).

(** schedule_read, block_scheduler.hpp lines 1285-1392; its last part, from line 1362 on. *)
Definition start_or_after (p : pst) (b : nat) : out pst :=
  with_meta p b (fun m =>
    if fst (m_giver m) then
      let g := snd (m_giver m) in
      match wq p g with
      | Some w =>
          bind (env (put_w p g (set_shall (set_taker (set_start w b) (Some b)) true))) (fun p1 =>
          match wq p1 g with
          | None => Undefined
          | Some w1 =>
              if done_soon w1 then
                bind (wait_entry p1 g) (fun p2 =>
                with_meta p2 b (fun m2 =>
                  let p3 := put_meta p2 b (set_giver m2 (false, g)) in
                  match m_read m2 with
                  | Some _ => Ok p3
                  | None => start_read p3 b b
                  end))
              else Ok p1
          end)
      | None => start_read (put_meta p b (set_giver m (false, g))) b b
      end
    else start_read p b b).

(** The recursion of block_scheduler.hpp line 1325 is cut off after [n] levels. *)
Fixpoint schedule_read (n : nat) (p : pst) (b : nat) : out pst :=
  match wq p b with
  | None => start_or_after p b
  | Some w =>
      if w_shall w then
        match w_taker w with
        | None => Undefined
        | Some o =>
            bind (try_interrupt p b) (fun '(p1, intr) =>
            if intr then
              bind (swap_givers p1 o b) (fun p2 =>
              bind (pdetach p2 b) (fun '(p3, i) =>
              bind (pdetach p3 o) (fun '(p4, j) =>
              bind (attach p4 b (Some j)) (fun p5 =>
              bind (attach p5 o (Some i)) (fun p6 =>
              match n with
              | O => Undefined
              | S n => schedule_read n p6 o
              end)))))
            else start_or_after p1 b)
        end
      else
        match w_taker w with
        | None => Undefined
        | Some o =>
            bind (swap_givers p o b) (fun p2 =>
            bind (pdetach p2 b) (fun '(p3, i) =>
            with_meta p3 o (fun mo =>
            bind (attach p3 b (m_res mo)) (fun p4 =>
            with_meta p4 o (fun mo4 =>
            Ok (put_meta p4 o (set_res mo4 (Some i))))))))
        end
  end.

(** ** Scheduling *)

(** block_scheduler.hpp lines 294-295. *)
Definition is_acq (k : pop_kind) : bool :=
  match k with op_acquire | op_acquire_uninitialized => true | _ => false end.

(** shall_keep_internal_block, block_scheduler.hpp lines 1450-1476; [l] the operations
    considered. *)
Fixpoint keep (dirt : bool) (l : list pop_kind) : bool :=
  match l with
  | [] => false
  | k :: r =>
      match k with
      | op_acquire | op_acquire_uninitialized => true
      | op_deinitialize => if dirt then true else keep dirt r
      | _ => keep dirt r
      end
  end.

(** shall_be_cleaned, block_scheduler.hpp lines 1479-1503. *)
Fixpoint to_clean (l : list pop_kind) : bool :=
  match l with
  | [] => false
  | k :: r =>
      match k with
      | op_acquire | op_acquire_uninitialized | op_release => to_clean r
      | op_release_dirty | op_deinitialize | op_initialize => false
      | op_extract_external_block => true
      end
  end.

(** shall_be_read, block_scheduler.hpp lines 1505-1511. *)
Definition to_read (B : sb) (l : list pop_kind) : bool :=
  sb_initialized B && match l with op_acquire :: _ => true | _ => false end.

(** operation_done, block_scheduler.hpp lines 1513-1521. *)
Definition op_done (p : pst) (b : nat) : out pst :=
  with_meta p b (fun m =>
    match m_ops m with
    | [] => Undefined
    | [_] => if fst (m_giver m) then Undefined else Ok (set_sched p (upd (sched p) b None))
    | _ :: r => Ok (put_meta p b (set_ops m r))
    end).

(** std::set::begin and erase; the sets are ordered.
    block_scheduler.hpp lines 1698-1699 (pop_begin). *)
Definition pop_least (l : list nat) : option (nat * list nat) :=
  match l with
  | [] => None
  | x :: r => let m := fold_right Nat.min x r in Some (m, remove Nat.eq_dec m l)
  end.
(** Model device: std::set::count (block_scheduler.hpp lines 1223-1225). *)
Definition has (b : nat) (l : list nat) : bool := existsb (Nat.eqb b) l.
(** Model device: std::set::insert (block_scheduler.hpp lines 1223-1225). *)
Definition ins (b : nat) (l : list nat) : list nat := if has b l then l else b :: l.
(** Model device: std::set::erase (block_scheduler.hpp lines 1223-1225). *)
Definition del (b : nat) (l : list nat) : list nat := remove Nat.eq_dec b l.

(** block_scheduler.hpp lines 1559-1560 and 1613-1614: from the free to the scheduled set. *)
Definition move_se (p : pst) (b : nat) : pst :=
  if has b (fe p) then set_se (set_fe p (del b (fe p))) (ins b (se p)) else p.

(** An internal block for the acquire of [b], block_scheduler.hpp lines 1568-1596;
    [false]: there is
    none. *)
Definition reserve (p : pst) (b : nat) : out (pst * bool) :=
  with_meta p b (fun m =>
    match get_free (base p) with
    | Some (s1, i) => Ok (put_meta (set_base p s1) b (set_res m (Some i)), true)
    | None =>
        match pop_least (fe p) with
        | None => Ok (p, false)
        | Some (g, r) =>
            if match sched p g with Some mg => keep (dirty (bk p g)) (m_ops mg) | None => false end
            then Undefined
            else
              bind (schedule_write (set_fe p r) g) (fun '(p1, wr) =>
              bind (pdetach p1 g) (fun '(p2, i) =>
              with_meta p2 b (fun m2 =>
              let p3 := put_meta p2 b (set_res (set_giver m2 (wr, g)) (Some i)) in
              if wr then
                match wq p3 g with
                | Some w => Ok (put_w p3 g (set_taker w (Some b)), true)
                | None => Undefined
                end
              else Ok (p3, true))))
        end
    end).

(** Attaching the reserved block and scheduling the read, block_scheduler.hpp lines
    1602-1605 and
    1868-1871. *)
Definition prefetch (p : pst) (b : nat) : out pst :=
  with_meta p b (fun m =>
    bind (attach p b (m_res m)) (fun p1 =>
    let p2 := put_meta p1 b (set_res m None) in
    schedule_read 3 (set_se p2 (ins b (se p2))) b)).

(** The body of the loop of schedule_next_operations, block_scheduler.hpp lines
    1541-1617; [false]:
    stop. *)
Definition sched_one (p : pst) (k : pop_kind) (b : nat) : out (pst * bool) :=
  if negb (Nat.ltb b (nblk (base p))) then Undefined else
  let p1 := match sched p b with
            | None => put_meta p b (mkM None (false, 0) None [k])
            | Some m => put_meta p b (set_ops m (m_ops m ++ [k]))
            end in
  let B := bk p b in
  if is_acq k then
    if is_internal B then Ok (move_se p1 b, true)
    else
      with_meta p1 b (fun m =>
        match m_res m with
        | Some _ => Ok (p1, true)
        | None =>
            bind (reserve p1 b) (fun '(p2, ok) =>
            if ok then
              with_meta p2 b (fun m2 =>
                if to_read (bk p2 b) (m_ops m2)
                then bind (prefetch p2 b) (fun p3 => Ok (p3, true))
                else Ok (p2, true))
            else
              Ok (match sched p b with
                  | None => set_sched p2 (upd (sched p2) b None)
                  | Some m0 => put_meta p2 b m0
                  end, false))
        end)
  else
    match k with
    | op_deinitialize => Ok (if dirty B then move_se p1 b else p1, true)
    | _ => Ok (p1, true)
    end.

(** The loop at the end, block_scheduler.hpp lines 1619-1624. *)
Fixpoint write_all (p : pst) (l : list nat) : out pst :=
  match l with
  | [] => Ok p
  | b :: r =>
      match wq p b with
      | Some _ => write_all p r
      | None => bind (schedule_write p b) (fun '(p1, _) => write_all p1 r)
      end
  end.

(** schedule_next_operations, block_scheduler.hpp lines 1537-1625; [l] is [uns p]. *)
Fixpoint sched_loop (l : list (pop_kind * nat)) (p : pst) : out pst :=
  match l with
  | [] => write_all p (fe p)
  | (k, b) :: r =>
      bind (sched_one p k b) (fun '(p1, go) =>
      if go then sched_loop r (set_uns p1 r) else Ok p1)
  end.
(** block_scheduler.hpp lines 1537-1625. *)
Definition sched_next (p : pst) : out pst := sched_loop (uns p) p.

(** init, block_scheduler.hpp lines 1627-1637: the evictable blocks of the old algorithm are
    inserted, then scheduling begins. *)
Definition pf_start (s : st) (ps : list (pop_kind * nat)) (o : list (list act)) : out pst :=
  sched_next (mkP s (fold_left (fun l b => ins b l) (evictables (al s)) []) [] (fun _ => None)
                  (fun _ => None) (fun _ => None) 0 ps ps o).

(** deinit, block_scheduler.hpp lines 1639-1667: the loops over the maps. *)
Fixpoint drain_sched (p : pst) (l : list nat) : out pst :=
  match l with
  | [] => Ok p
  | b :: r =>
      match sched p b with
      | None => drain_sched p r
      | Some _ =>
          bind (wait_on_read p b) (fun p1 =>
          with_meta p1 b (fun m =>
            let p2 := match m_res m with Some i => set_base p1 (return_free (base p1) i) | None => p1 end in
            drain_sched (set_sched p2 (upd (sched p2) b None)) r))
      end
  end.
(** block_scheduler.hpp lines 1639-1667. *)
Fixpoint drain_w (p : pst) (l : list nat) : out pst :=
  match l with
  | [] => Ok p
  | b :: r => bind (wait_id p b) (fun p1 => drain_w p1 r)
  end.
(** block_scheduler.hpp lines 1639-1667. *)
Definition deinit (p : pst) : out pst :=
  let p1 := set_se (set_fe p (fold_left (fun l b => ins b l) (se p) (fe p))) [] in
  bind (drain_sched p1 (seq 0 (nblk (base p1)))) (fun p2 => drain_w p2 (seq 0 (nblk (base p2)))).

(** ** The operations *)

(** block_scheduler.hpp lines 292-301: equality of operations. *)
Definition kind_eqb (x y : pop_kind) : bool :=
  match x, y with
  | op_acquire, op_acquire | op_acquire_uninitialized, op_acquire_uninitialized
  | op_release, op_release | op_release_dirty, op_release_dirty
  | op_deinitialize, op_deinitialize | op_initialize, op_initialize
  | op_extract_external_block, op_extract_external_block => true
  | _, _ => false
  end.

(** The begin of every operation (block_scheduler.hpp lines 1703-1709, 1753-1759, 1814-1817,
    1856-1859, 1878-1881): it has to be the next of the sequence. *)
Definition next_is (p : pst) (k : pop_kind) (b : nat) : out pst :=
  match pseqn p with
  | (k', b') :: r => if kind_eqb k k' && Nat.eqb b b' then Ok (set_seq p r) else Undefined
  | [] => Undefined
  end.
(** It has to be the next one scheduled for the block.
    block_scheduler.hpp lines 1711-1715 and the same in the other operations. *)
Definition scheduled_op (p : pst) (k : pop_kind) (b : nat) : bool :=
  match sched p b with
  | Some m => match m_ops m with k' :: _ => kind_eqb k k' | [] => false end
  | None => false
  end.

(** acquire, block_scheduler.hpp lines 1701-1749; the internal block. *)
Definition pacquire (p0 : pst) (b : nat) (un : bool) : out (pst * nat) :=
  let k := if un then op_acquire_uninitialized else op_acquire in
  bind (next_is p0 k b) (fun p =>
  if negb (scheduled_op p k b) then NoMemory else
  let B := bk p b in
  bind (if is_internal B then
          if negb (is_acquired B) then
            if has b (se p) then wait_on_read (set_se p (del b (se p))) b else Undefined
          else Ok p
        else if negb (un || negb (sb_initialized B)) then Undefined
        else bind (get_ready p b) (fun '(p1, i) => attach p1 b i))
  (fun p1 =>
    let B1 := bk p1 b in
    match int B1 with
    | None => Undefined
    | Some i =>
        let s2 := set_b (base p1) b (mkSb (ext B1) (Some i) (dirty B1) (S (rc B1))) in
        let s3 := if is_internal B || un then s2
                  else match dflt with Some d => set_mem s2 i d | None => s2 end in
        bind (op_done (set_base p1 s3) b) (fun p2 => Ok (p2, i))
    end)).

(** release, block_scheduler.hpp lines 1751-1810. *)
Definition prelease (p0 : pst) (b : nat) (d : bool) : out pst :=
  let k := if d then op_release_dirty else op_release in
  bind (next_is p0 k b) (fun p =>
  if negb (scheduled_op p k b) then Undefined else
  let B := bk p b in
  if negb (is_acquired B) then Undefined else
  let B1 := mkSb (ext B) (int B) (d || dirty B) (rc B - 1) in
  let p1 := set_base p (set_b (base p) b B1) in
  with_meta p1 b (fun m =>
  bind (if is_acquired B1 then Ok p1
        else if dirty B1 || is_external B1 then
          if keep (dirty B1) (tl (m_ops m)) then
            let p2 := set_se p1 (ins b (se p1)) in
            if to_clean (tl (m_ops m)) then bind (schedule_write p2 b) (fun '(p3, _) => Ok p3)
            else Ok p2
          else
            let p2 := set_fe p1 (ins b (fe p1)) in
            match uns p2 with
            | _ :: _ => sched_next p2
            | [] => match wq p2 b with
                    | None => bind (schedule_write p2 b) (fun '(p3, _) => Ok p3)
                    | Some _ => Ok p2
                    end
            end
        else
          bind (pdetach p1 b) (fun '(p2, i) =>
          if keep (dirty B1) (tl (m_ops m)) then
            with_meta p2 b (fun m2 => Ok (put_meta p2 b (set_res m2 (Some i))))
          else
            let p3 := set_base p2 (return_free (base p2) i) in
            match uns p3 with _ :: _ => sched_next p3 | [] => Ok p3 end))
  (fun p2 => op_done p2 b))).

(** deinitialize, block_scheduler.hpp lines 1812-1852. *)
Definition pdeinitialize (p0 : pst) (b : nat) : out pst :=
  bind (next_is p0 op_deinitialize b) (fun p =>
  if negb (scheduled_op p op_deinitialize b) then Undefined else
  let B := bk p b in
  with_meta p b (fun m =>
  bind (if is_evictable B then
          if keep (dirty B) (m_ops m) then
            if has b (se p) then Ok (set_se p (del b (se p)))
            else if has b (fe p) then Ok (set_fe p (del b (fe p))) else Undefined
          else if has b (fe p) then Ok (set_fe p (del b (fe p))) else Undefined
        else Ok p)
  (fun p1 =>
    if is_acquired B then Undefined
    else
      let s2 := match ext B with Some e => del_ext (base p1) e | None => base p1 end in
      let p2 := set_base p1 (set_b s2 b (mkSb None None false (rc B))) in
      bind (match int B with
            | None => Ok p2
            | Some i =>
                if keep false (tl (m_ops m)) then
                  with_meta p2 b (fun m2 => Ok (put_meta p2 b (set_res m2 (Some i))))
                else
                  let p3 := set_base p2 (return_free (base p2) i) in
                  match uns p3 with _ :: _ => sched_next p3 | [] => Ok p3 end
            end)
      (fun p3 => op_done p3 b)))).

(** initialize, block_scheduler.hpp lines 1854-1874. *)
Definition pinitialize (p0 : pst) (b : nat) (e : option nat) : out pst :=
  bind (next_is p0 op_initialize b) (fun p =>
  if negb (scheduled_op p op_initialize b) then Undefined else
  let B := bk p b in
  if sb_initialized B then Undefined
  else
    let p1 := set_base p (set_b (base p) b (mkSb e (int B) (dirty B) (rc B))) in
    with_meta p1 b (fun m =>
    bind (if to_read (bk p1 b) (tl (m_ops m)) then prefetch p1 b else Ok p1)
    (fun p2 => op_done p2 b))).

(** extract_external_block, block_scheduler.hpp lines 1876-1890 and 237-243. *)
Definition pextract (p0 : pst) (b : nat) : out (pst * option nat) :=
  bind (next_is p0 op_extract_external_block b) (fun p =>
  if negb (scheduled_op p op_extract_external_block b) then Undefined else
  bind (wait_id p b) (fun p1 =>
  bind (op_done p1 b) (fun p2 =>
  let B := bk p2 b in
  if is_internal B then Undefined
  else Ok (set_base p2 (set_b (base p2) b (mkSb None (int B) (dirty B) (rc B))), ext B)))).

(** Switching to the online algorithm (block_scheduler.hpp lines 500-506, 643-656): its
    constructor
    asks for the evictable blocks, which begins with deinit (1692-1699), and takes
    them in ascending order. *)
Fixpoint insert_sorted (b : nat) (l : list nat) : list nat :=
  match l with
  | [] => [b]
  | x :: r => if Nat.leb b x then b :: l else x :: insert_sorted b r
  end.
(** block_scheduler.hpp lines 500-506, 643-656, 1692-1699. *)
Definition pf_to_lru (p : pst) : out st :=
  bind (deinit p) (fun p1 => Ok (set_al (base p1) (Lru (fold_right insert_sorted [] (fe p1))))).

(** block_scheduler::flush, block_scheduler.hpp lines 519-535, with this algorithm: the
    evictable
    blocks are asked for. *)
Definition pf_flush (p : pst) : out pst :=
  bind (deinit p) (fun p1 =>
  let s := set_al (base p1) (Lru (fold_right insert_sorted [] (fe p1))) in
  bind (flush pick (length (fe p1)) s) (fun s1 => Ok (set_fe (set_base p1 s1) []))).

(** What a client does, as in BsModel.v; other operations are not modelled here
    and are [Undefined].  Allocating takes a free block.
    block_scheduler.hpp lines 417-535. *)
Definition pdo (p0 : pst) (o : op) : out (pst * res) :=
  bind (env p0) (fun p =>
  match o with
  | Acq b un => bind (pacquire p b un) (fun '(p1, i) => Ok (p1, RData (mem (base p1) i)))
  | Rel b d => bind (prelease p b d) (fun p1 => Ok (p1, RNone))
  | Deinit b => bind (pdeinitialize p b) (fun p1 => Ok (p1, RNone))
  | Init b e => bind (pinitialize p b e) (fun p1 => Ok (p1, RNone))
  | Extract b => bind (pextract p b) (fun '(p1, e) => Ok (p1, RExt e))
  | IsInit b => if negb (Nat.ltb b (nblk (base p))) then Undefined
                else Ok (p, RBool (sb_initialized (bk p b)))
  | Alloc => match free_s (base p) with
             | [] => Undefined
             | _ => let '(s1, b) := allocate (base p) in Ok (set_base p s1, RId b)
             end
  | Free b => bind (pdeinitialize p b) (fun p1 =>
              Ok (set_base p1 (set_free_s (base p1) (b :: free_s (base p1))), RNone))
  | Flush => bind (pf_flush p) (fun p1 => Ok (p1, RNone))
  | Timestep => Ok (p, RNone)
  | Write b d => if negb (is_acquired (bk p b)) then Undefined else
                 match int (bk p b) with
                 | Some i => Ok (set_base p (set_mem (base p) i d), RNone)
                 | None => Undefined
                 end
  | Read b => if negb (is_acquired (bk p b)) then Undefined else
              match int (bk p b) with
              | Some i => Ok (p, RData (mem (base p) i))
              | None => Undefined
              end
  | NewExt d => let '(s1, e) := new_ext pick (base p) in
                Ok (set_base p (set_disk s1 e d), RExt (Some e))
  | WriteExt e d => Ok (set_base p (set_disk (base p) e d), RNone)
  | ReadExt e => Ok (p, RData (disk (base p) e))
  | DelExt e => Ok (set_base p (del_ext (base p) e), RNone)
  | ToLru | ToSim | ToLfd _ => Undefined
  end).

(** Model device: a sequence of operations (block_scheduler.hpp lines 417-535). *)
Fixpoint prun (p : pst) (ops : list op) : out (pst * list res) :=
  match ops with
  | [] => Ok (p, [])
  | o :: r => bind (pdo p o) (fun '(p1, x) =>
              bind (prun p1 r) (fun '(p2, xs) => Ok (p2, x :: xs)))
  end.

End Oracles.
