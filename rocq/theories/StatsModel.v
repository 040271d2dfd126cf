(** Model of the I/O statistics, /repo/foxxll/io/iostats.cpp and iostats.hpp.

    Simplifications.
    - Time stamps are [Z]: doubles are dyadic rationals, so any finite set of
      time stamps is a set of integers after scaling; floating-point rounding
      of the differences and sums is not modelled.
    - [int] counters of active operations ([acc_...]) are unbounded; they
      overflow only with 2^31 concurrent operations.
    - write_started / read_started are given the time stamp they use; the
      default [now == 0.0] that makes them read the clock (iostats.cpp:46-47,
      99-100) only chooses that value.
    - A run is a list of critical sections in the order in which their mutexes
      were taken.  Every section is executed atomically because the code holds
      the mutex for its whole length (iostats.cpp:49-57, 64-69, 77-83, 90-94,
      102-110, 117-122, 130-136, 143-147, 221, 248, 282, 290, ...). *)

From Coq Require Import ZArith List Bool.
Import ListNotations.
Local Open Scope Z_scope.

(** iostats.hpp:45-62, class file_stats (mutexes omitted). *)
Record file_stats := MkFS {
  fs_dev : Z;
  fs_rcount : Z; fs_wcount : Z;
  fs_rbytes : Z; fs_wbytes : Z;
  fs_rtime : Z; fs_wtime : Z;
  fs_rbegin : Z; fs_wbegin : Z;
  fs_racc : Z; fs_wacc : Z }.

(** [unsigned] and [external_size_type] (uint64_t) arithmetic.
    iostats.hpp lines 45-62. *)
Definition u32 (x : Z) : Z := x mod 2 ^ 32.
(** iostats.hpp lines 45-62. *)
Definition u64 (x : Z) : Z := x mod 2 ^ 64.

(** iostats.cpp:34-42, constructor. *)
Definition new_file_stats (dev : Z) : file_stats :=
  MkFS dev 0 0 0 0 0 0 0 0 0 0.

(** iostats.cpp:50-56, the locked part of write_started. *)
Definition sec_write_started (size now : Z) (f : file_stats) : file_stats :=
  let diff := now - fs_wbegin f in
  MkFS (fs_dev f) (fs_rcount f) (u32 (fs_wcount f + 1))
       (fs_rbytes f) (u64 (fs_wbytes f + size))
       (fs_rtime f) (fs_wtime f + fs_wacc f * diff)
       (fs_rbegin f) now (fs_racc f) (fs_wacc f + 1).

(** iostats.cpp:64-69, the locked part of write_canceled. *)
Definition sec_write_canceled (size : Z) (f : file_stats) : file_stats :=
  MkFS (fs_dev f) (fs_rcount f) (u32 (fs_wcount f - 1))
       (fs_rbytes f) (u64 (fs_wbytes f - size))
       (fs_rtime f) (fs_wtime f) (fs_rbegin f) (fs_wbegin f)
       (fs_racc f) (fs_wacc f).

(** iostats.cpp:77-83, the locked part of write_finished. *)
Definition sec_write_finished (now : Z) (f : file_stats) : file_stats :=
  let diff := now - fs_wbegin f in
  MkFS (fs_dev f) (fs_rcount f) (fs_wcount f) (fs_rbytes f) (fs_wbytes f)
       (fs_rtime f) (fs_wtime f + fs_wacc f * diff)
       (fs_rbegin f) now (fs_racc f) (fs_wacc f - 1).

(** iostats.cpp:88-95, write_op_finished. *)
Definition sec_write_op_finished (size duration : Z) (f : file_stats)
  : file_stats :=
  MkFS (fs_dev f) (fs_rcount f) (u32 (fs_wcount f + 1))
       (fs_rbytes f) (u64 (fs_wbytes f + size))
       (fs_rtime f) (fs_wtime f + duration)
       (fs_rbegin f) (fs_wbegin f) (fs_racc f) (fs_wacc f).

(** iostats.cpp:102-110, the locked part of read_started. *)
Definition sec_read_started (size now : Z) (f : file_stats) : file_stats :=
  let diff := now - fs_rbegin f in
  MkFS (fs_dev f) (u32 (fs_rcount f + 1)) (fs_wcount f)
       (u64 (fs_rbytes f + size)) (fs_wbytes f)
       (fs_rtime f + fs_racc f * diff) (fs_wtime f)
       now (fs_wbegin f) (fs_racc f + 1) (fs_wacc f).

(** iostats.cpp:117-122, the locked part of read_canceled. *)
Definition sec_read_canceled (size : Z) (f : file_stats) : file_stats :=
  MkFS (fs_dev f) (u32 (fs_rcount f - 1)) (fs_wcount f)
       (u64 (fs_rbytes f - size)) (fs_wbytes f)
       (fs_rtime f) (fs_wtime f) (fs_rbegin f) (fs_wbegin f)
       (fs_racc f) (fs_wacc f).

(** iostats.cpp:130-136, the locked part of read_finished. *)
Definition sec_read_finished (now : Z) (f : file_stats) : file_stats :=
  let diff := now - fs_rbegin f in
  MkFS (fs_dev f) (fs_rcount f) (fs_wcount f) (fs_rbytes f) (fs_wbytes f)
       (fs_rtime f + fs_racc f * diff) (fs_wtime f)
       now (fs_wbegin f) (fs_racc f - 1) (fs_wacc f).

(** iostats.cpp:141-148, read_op_finished. *)
Definition sec_read_op_finished (size duration : Z) (f : file_stats)
  : file_stats :=
  MkFS (fs_dev f) (u32 (fs_rcount f + 1)) (fs_wcount f)
       (u64 (fs_rbytes f + size)) (fs_wbytes f)
       (fs_rtime f + duration) (fs_wtime f)
       (fs_rbegin f) (fs_wbegin f) (fs_racc f) (fs_wacc f).

(** One group of accumulators of class stats: iostats.hpp:332-356.  [g_t] is
    the serial time (t_waits_ etc., only used by the wait groups), [g_p] the
    parallel time (p_...), [g_b] p_begin_..., [g_a] acc_.... *)
Record grp := MkG { g_t : Z; g_p : Z; g_b : Z; g_a : Z }.

(** Constructor of stats, iostats.cpp lines 196-214. *)
Definition new_grp : grp := MkG 0 0 0 0.

(** iostats.cpp:282-286, 290-292, 317-321, 325-327: entering a group; the
    write, read and io groups all use this text. *)
Definition par_started (now : Z) (g : grp) : grp :=
  let diff := now - g_b g in
  MkG (g_t g) (g_p g + (if g_a g =? 0 then 0 else diff)) now (g_a g + 1).

(** iostats.cpp:300-304, 308-310, 335-339, 343-345: leaving a group. *)
Definition par_finished (now : Z) (g : grp) : grp :=
  let diff := now - g_b g in
  MkG (g_t g) (g_p g + (if g_a g =? 0 then 0 else diff)) now (g_a g - 1).

(** iostats.cpp:223-226, 229-232, 236-239: entering a wait group. *)
Definition wait_up (now : Z) (g : grp) : grp :=
  let diff := now - g_b g in
  MkG (g_t g + g_a g * diff) (g_p g + (if g_a g =? 0 then 0 else diff))
      now (g_a g + 1).

(** iostats.cpp:250-253, 256-259, 262-265: leaving a wait group. *)
Definition wait_down (now : Z) (g : grp) : grp :=
  let diff := now - g_b g in
  MkG (g_t g + g_a g * diff) (g_p g + (if g_a g =? 0 then 0 else diff))
      now (g_a g - 1).

(** iostats.hpp:319-361, class stats; [s_files] is file_stats_list_, addressed
    by position (the list is only grown by create_file_stats, below). *)
Record stats := MkS {
  s_files : list file_stats;
  s_reads : grp; s_writes : grp; s_ios : grp;
  s_waits : grp; s_wread : grp; s_wwrite : grp }.

(** iostats.hpp:364-368, wait_op_type. *)
Inductive wait_op := WaitAny | WaitRead | WaitWrite.

(** The critical sections.
    iostats.cpp lines 44-148, 217-347. *)
Inductive section :=
| SecWStart (file : nat) (size now : Z)
| SecWCancel (file : nat) (size : Z)
| SecWFinish (file : nat) (now : Z)
| SecWOp (file : nat) (size duration : Z)
| SecRStart (file : nat) (size now : Z)
| SecRCancel (file : nat) (size : Z)
| SecRFinish (file : nat) (now : Z)
| SecROp (file : nat) (size duration : Z)
| SecPWriteUp (now : Z) | SecPWriteDown (now : Z)
| SecPReadUp (now : Z) | SecPReadDown (now : Z)
| SecIoUp (now : Z) | SecIoDown (now : Z)
| SecWaitUp (w : wait_op) (now : Z) | SecWaitDown (w : wait_op) (now : Z).

(** Model device: one file_stats object changes, iostats.cpp lines 44-148. *)
Fixpoint upd (i : nat) (h : file_stats -> file_stats) (l : list file_stats)
  : list file_stats :=
  match l, i with
  | [], _ => []
  | f :: l', O => h f :: l'
  | f :: l', S i' => f :: upd i' h l'
  end.

(** A member function of file_stats is called, iostats.cpp lines 44-148. *)
Definition on_file (i : nat) (h : file_stats -> file_stats) (s : stats)
  : stats :=
  MkS (upd i h (s_files s)) (s_reads s) (s_writes s) (s_ios s)
      (s_waits s) (s_wread s) (s_wwrite s).

(** iostats.cpp lines 314-347. *)
Definition on_reads (h : grp -> grp) (s : stats) : stats :=
  MkS (s_files s) (h (s_reads s)) (s_writes s) (s_ios s)
      (s_waits s) (s_wread s) (s_wwrite s).
(** iostats.cpp lines 279-312. *)
Definition on_writes (h : grp -> grp) (s : stats) : stats :=
  MkS (s_files s) (s_reads s) (h (s_writes s)) (s_ios s)
      (s_waits s) (s_wread s) (s_wwrite s).
(** iostats.cpp lines 289-346. *)
Definition on_ios (h : grp -> grp) (s : stats) : stats :=
  MkS (s_files s) (s_reads s) (s_writes s) (h (s_ios s))
      (s_waits s) (s_wread s) (s_wwrite s).

(** iostats.cpp:217-276: the total group, then the read group for
    WAIT_OP_READ and the write group for everything else. *)
Definition on_waits (w : wait_op) (h : grp -> grp) (s : stats) : stats :=
  MkS (s_files s) (s_reads s) (s_writes s) (s_ios s)
      (h (s_waits s))
      (match w with WaitRead => h (s_wread s) | _ => s_wread s end)
      (match w with WaitRead => s_wwrite s | _ => h (s_wwrite s) end).

(** Executing one critical section.
    iostats.cpp lines 44-148, 217-347. *)
Definition sec_step (c : section) (s : stats) : stats :=
  match c with
  | SecWStart i size now => on_file i (sec_write_started size now) s
  | SecWCancel i size => on_file i (sec_write_canceled size) s
  | SecWFinish i now => on_file i (sec_write_finished now) s
  | SecWOp i size d => on_file i (sec_write_op_finished size d) s
  | SecRStart i size now => on_file i (sec_read_started size now) s
  | SecRCancel i size => on_file i (sec_read_canceled size) s
  | SecRFinish i now => on_file i (sec_read_finished now) s
  | SecROp i size d => on_file i (sec_read_op_finished size d) s
  | SecPWriteUp now => on_writes (par_started now) s
  | SecPWriteDown now => on_writes (par_finished now) s
  | SecPReadUp now => on_reads (par_started now) s
  | SecPReadDown now => on_reads (par_finished now) s
  | SecIoUp now => on_ios (par_started now) s
  | SecIoDown now => on_ios (par_finished now) s
  | SecWaitUp w now => on_waits w (wait_up now) s
  | SecWaitDown w now => on_waits w (wait_down now) s
  end.

(** Critical sections in sequence, iostats.cpp lines 44-148, 217-347. *)
Fixpoint sec_run (tr : list section) (s : stats) : stats :=
  match tr with
  | [] => s
  | c :: tr' => sec_run tr' (sec_step c s)
  end.

(** The sections each public function passes through, in program order.
    iostats.cpp:44-60 with p_write_started 279-294. *)
Definition write_started (i : nat) (size now : Z) : list section :=
  [SecWStart i size now; SecPWriteUp now; SecIoUp now].

(** iostats.cpp:73-86 with p_write_finished 297-312. *)
Definition write_finished (i : nat) (now : Z) : list section :=
  [SecWFinish i now; SecPWriteDown now; SecIoDown now].

(** iostats.cpp:62-71. *)
Definition write_canceled (i : nat) (size now : Z) : list section :=
  SecWCancel i size :: write_finished i now.

(** iostats.cpp:97-113 with p_read_started 315-330. *)
Definition read_started (i : nat) (size now : Z) : list section :=
  [SecRStart i size now; SecPReadUp now; SecIoUp now].

(** iostats.cpp:126-139 with p_read_finished 333-348. *)
Definition read_finished (i : nat) (now : Z) : list section :=
  [SecRFinish i now; SecPReadDown now; SecIoDown now].

(** iostats.cpp:115-124. *)
Definition read_canceled (i : nat) (size now : Z) : list section :=
  SecRCancel i size :: read_finished i now.

(** What a thread does for one operation.
    - [OpIO]: a scoped_read_write_timer (iostats.hpp:68-110) around a transfer,
      or the same with _canceled in place of _finished.
    - [OpAio]: linuxaio_request::completed(_, false), linuxaio_request.cpp:34-42.
    - [OpAioCancel]: linuxaio_request::completed(true, true), 43-49.
    - [OpWait]: a scoped_wait_timer (iostats.hpp:370-410). *)
Inductive op :=
| OpIO (write : bool) (file : nat) (size start finish : Z) (cancelled : bool)
| OpAio (write : bool) (file : nat) (size duration : Z)
| OpAioCancel (write : bool) (file : nat) (size now : Z)
| OpWait (w : wait_op) (start finish : Z).

(** iostats.hpp lines 68-110, 370-410; linuxaio_request.cpp lines 34-49. *)
Definition program (o : op) : list section :=
  match o with
  | OpIO true i size st fi false => write_started i size st ++ write_finished i fi
  | OpIO true i size st fi true => write_started i size st ++ write_canceled i size fi
  | OpIO false i size st fi false => read_started i size st ++ read_finished i fi
  | OpIO false i size st fi true => read_started i size st ++ read_canceled i size fi
  | OpAio true i size d => [SecWOp i size d]
  | OpAio false i size d => [SecROp i size d]
  | OpAioCancel true i size now => write_canceled i size now
  | OpAioCancel false i size now => read_canceled i size now
  | OpWait w st fi => [SecWaitUp w st; SecWaitDown w fi]
  end.

(** Any interleaving of the programs of concurrent threads.
    Model device: threads that run iostats.cpp lines 44-148, 217-347. *)
Inductive interleave {A : Type} : list (list A) -> list A -> Prop :=
| IlNil : forall ps, Forall (fun p => p = []) ps -> interleave ps []
| IlStep : forall ps1 a p ps2 tr,
    interleave (ps1 ++ p :: ps2) tr ->
    interleave (ps1 ++ (a :: p) :: ps2) (a :: tr).

(** * create_file_stats, iostats.cpp:351-365 *)

(** file_stats_list_: each element with an identity (its address) and its
    device id.
    iostats.cpp lines 351-365. *)
Record fs_list := MkL { l_elems : list (nat * Z); l_next : nat }.

(** iostats.cpp lines 196-214: nothing is in file_stats_list_. *)
Definition empty_list : fs_list := MkL [] 0.

(** std::lower_bound (iostats.cpp lines 354-359): the elements before and from the first one
    whose device id is not smaller.  The list is sorted, so the binary search
    finds the first such element. *)
Fixpoint lower_bound (d : Z) (l : list (nat * Z))
  : list (nat * Z) * list (nat * Z) :=
  match l with
  | [] => ([], [])
  | e :: l' =>
      if snd e <? d
      then let (a, b) := lower_bound d l' in (e :: a, b)
      else ([], e :: l')
  end.

(** iostats.cpp:351-365.  Line 360 tests that the found device id is not zero;
    line 364 returns the last element, not the inserted one. *)
Definition create_file_stats (d : Z) (l : fs_list) : fs_list * nat :=
  let (a, b) := lower_bound d (l_elems l) in
  let insert :=
    let l' := a ++ (l_next l, d) :: b in
    (MkL l' (S (l_next l)), fst (last l' (l_next l, d))) in
  match b with
  | e :: _ => if negb (snd e =? 0) then (l, fst e) else insert
  | [] => insert
  end.

(** A sequence of file constructions (io/file.hpp:97-99), with the statistics
    object each one got. *)
Fixpoint create_all (ds : list Z) (l : fs_list) : fs_list * list nat :=
  match ds with
  | [] => (l, [])
  | d :: ds' =>
      let (l1, o) := create_file_stats d l in
      let (l2, os) := create_all ds' l1 in
      (l2, o :: os)
  end.

(** * Snapshots, iostats.hpp:248-315 and 486-535 *)

(** class file_stats_data.
    iostats.hpp lines 248-265. *)
Record fdata := MkFD {
  fd_dev : Z; fd_rcount : Z; fd_wcount : Z; fd_rbytes : Z; fd_wbytes : Z;
  fd_rtime : Z; fd_wtime : Z }.

(** iostats.hpp:267-276, construction from a file_stats. *)
Definition to_fdata (f : file_stats) : fdata :=
  MkFD (fs_dev f) (fs_rcount f) (fs_wcount f) (fs_rbytes f) (fs_wbytes f)
       (fs_rtime f) (fs_wtime f).

(** iostats.cpp:153-171; [None] is the runtime_error. *)
Definition fd_add (x a : fdata) : option fdata :=
  if negb (fd_dev x =? fd_dev a) then None
  else Some (MkFD (fd_dev x)
    (u32 (fd_rcount x + fd_rcount a)) (u32 (fd_wcount x + fd_wcount a))
    (u64 (fd_rbytes x + fd_rbytes a)) (u64 (fd_wbytes x + fd_wbytes a))
    (fd_rtime x + fd_rtime a) (fd_wtime x + fd_wtime a)).

(** iostats.cpp:173-191. *)
Definition fd_sub (x a : fdata) : option fdata :=
  if negb (fd_dev x =? fd_dev a) then None
  else Some (MkFD (fd_dev x)
    (u32 (fd_rcount x - fd_rcount a)) (u32 (fd_wcount x - fd_wcount a))
    (u64 (fd_rbytes x - fd_rbytes a)) (u64 (fd_wbytes x - fd_wbytes a))
    (fd_rtime x - fd_rtime a) (fd_wtime x - fd_wtime a)).

(** class stats_data, iostats.hpp:486-498. *)
Record sdata := MkSD {
  sd_preads : Z; sd_pwrites : Z; sd_pios : Z;
  sd_wait : Z; sd_wread : Z; sd_wwrite : Z; sd_elapsed : Z;
  sd_files : list fdata }.

(** iostats.cpp:436-442, FileStatsDataCompare: the difference of the ids as
    [long long], which cannot overflow for two [unsigned]. *)
Definition fd_compare (a b : fdata) : Z := fd_dev a - fd_dev b.

(** tlx::merge_combine (tlx/algorithm/merge_combine.hpp, not on this box; its
    documented behaviour: merge two sorted sequences, combining elements that
    compare equal, copying all others).
    Used in iostats.cpp lines 444-490. *)
Fixpoint merge_combine (comb : fdata -> fdata -> option fdata)
  (l1 l2 : list fdata) {struct l1} : option (list fdata) :=
  let fix inner (l2 : list fdata) : option (list fdata) :=
    match l1, l2 with
    | [], _ => Some l2
    | _, [] => Some l1
    | a :: l1', b :: l2' =>
        let c := fd_compare a b in
        if c <? 0 then
          match merge_combine comb l1' l2 with
          | Some r => Some (a :: r) | None => None end
        else if 0 <? c then
          match inner l2' with
          | Some r => Some (b :: r) | None => None end
        else
          match comb a b, merge_combine comb l1' l2' with
          | Some x, Some r => Some (x :: r) | _, _ => None end
    end in
  inner l2.

(** iostats.cpp:444-466. *)
Definition sd_add (x a : sdata) : option sdata :=
  match merge_combine fd_add (sd_files x) (sd_files a) with
  | None => None
  | Some fl => Some (MkSD
      (sd_preads x + sd_preads a) (sd_pwrites x + sd_pwrites a)
      (sd_pios x + sd_pios a) (sd_wait x + sd_wait a)
      (sd_wread x + sd_wread a) (sd_wwrite x + sd_wwrite a)
      (sd_elapsed x + sd_elapsed a) fl)
  end.

(** iostats.cpp:468-490. *)
Definition sd_sub (x a : sdata) : option sdata :=
  match merge_combine fd_sub (sd_files x) (sd_files a) with
  | None => None
  | Some fl => Some (MkSD
      (sd_preads x - sd_preads a) (sd_pwrites x - sd_pwrites a)
      (sd_pios x - sd_pios a) (sd_wait x - sd_wait a)
      (sd_wread x - sd_wread a) (sd_wwrite x - sd_wwrite a)
      (sd_elapsed x - sd_elapsed a) fl)
  end.

(** iostats.hpp:524-535: stats_data(const stats&); [now] is timestamp(). *)
Definition snapshot (creation now : Z) (s : stats) : sdata :=
  MkSD (g_p (s_reads s)) (g_p (s_writes s)) (g_p (s_ios s))
       (g_t (s_waits s)) (g_t (s_wread s)) (g_t (s_wwrite s))
       (now - creation) (map to_fdata (s_files s)).

(** iostats.cpp:384-390, fetch_sum, used by the getters 497-580. *)
Definition sd_read_count (x : sdata) : Z :=
  fold_left (fun acc f => u32 (acc + fd_rcount f)) (sd_files x) 0.
(** iostats.cpp lines 384-390, 497-587. *)
Definition sd_write_count (x : sdata) : Z :=
  fold_left (fun acc f => u32 (acc + fd_wcount f)) (sd_files x) 0.
(** The same: iostats.cpp lines 384-390, 497-587. *)
Definition sd_read_bytes (x : sdata) : Z :=
  fold_left (fun acc f => u64 (acc + fd_rbytes f)) (sd_files x) 0.
(** The same: iostats.cpp lines 384-390, 497-587. *)
Definition sd_write_bytes (x : sdata) : Z :=
  fold_left (fun acc f => u64 (acc + fd_wbytes f)) (sd_files x) 0.
(** The same: iostats.cpp lines 384-390, 497-587. *)
Definition sd_read_time (x : sdata) : Z :=
  fold_left (fun acc f => acc + fd_rtime f) (sd_files x) 0.
(** The same: iostats.cpp lines 384-390, 497-587. *)
Definition sd_write_time (x : sdata) : Z :=
  fold_left (fun acc f => acc + fd_wtime f) (sd_files x) 0.
