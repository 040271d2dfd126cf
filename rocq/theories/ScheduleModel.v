(** Model of the optimal asynchronous prefetch scheduling.

    Source: /repo/foxxll/mng/async_schedule.cpp (get_disk lines 63-70,
    simulate_async_write lines 72-168, compute_prefetch_schedule lines
    172-210) and the two templates that collect the device ids,
    /repo/foxxll/mng/async_schedule.hpp lines 44-72.

    Simplifications.
    - size_t is [nat].  All values stay below the number of blocks plus one,
      so nothing can wrap.
    - [file::DEFAULT_DEVICE_ID] is the largest size_t; the list of device ids
      is a [list (option nat)] in which [None] is that value.
    - std::priority_queue is a multiset of events from which an event with a
      minimal time stamp is removed; which one of several is left open (the
      comparator sim_event_cmp, lines 46-52, only compares time stamps).
    - tlx::simple_vector<bool> disk_busy(D + 1) is not initialised by the
      constructor; the initial value is a parameter of the model.
    - the array o_time is not initialised either; an entry that was not
      written is [None].
    - std::stable_sort is insertion sort: a stable sort has only one possible
      result. *)

Require Import List Arith.
Import ListNotations.

(** get_disk, async_schedule.cpp lines 63-70.  [None] as a result is the
    failing assertion of line 68 (or an index past the end of [disks]). *)
Definition get_disk (i : nat) (disks : list (option nat)) (D : nat) : option nat :=
  match nth_error disks i with
  | None => None
  | Some None => Some D
  | Some (Some d) => if d <=? D then Some d else None
  end.

(** Local variables of simulate_async_write, async_schedule.cpp lines 83-89;
    [s_out] is the output array o_time (time stamps only: the first component
    of entry i is always i, line 123). An event is (timestamp, iblock). *)
Record sim := mkSim {
  s_queues : nat -> list nat;     (* disk_queues, front of the queue first *)
  s_events : list (nat * nat);    (* event_queue *)
  s_i      : nat;                 (* i *)
  s_old    : nat;                 (* oldtime *)
  s_busy   : nat -> bool;         (* disk_busy *)
  s_out    : nat -> option nat    (* o_time[iblock].second *)
}.

(** Update of one array element.
    async_schedule.cpp lines 117, 123, 130, 147. *)
Definition upd {A} (f : nat -> A) (k : nat) (v : A) : nat -> A :=
  fun x => if x =? k then v else f x.

(** The loop of async_schedule.cpp lines 91-97: while (m && i > 0) { i--; m--; push i }.
    [None]: get_disk's assertion fails. *)
Fixpoint fill (disks : list (option nat)) (D m i : nat)
         (q : nat -> list nat) : option (nat * (nat -> list nat)) :=
  match m, i with
  | O, _ => Some (i, q)
  | _, O => Some (i, q)
  | S m', S i' =>
      match get_disk i' disks D with
      | None => None
      | Some d => fill disks D m' i' (upd q d (q d ++ [i']))
      end
  end.

(** The loop of async_schedule.cpp lines 99-106 over ii = [from] .. [from + n - 1]: the front
    of each non-empty disk queue is scheduled for time 1. *)
Fixpoint first_events (from n : nat) (q : nat -> list nat)
         (ev : list (nat * nat)) : (nat -> list nat) * list (nat * nat) :=
  match n with
  | O => (q, ev)
  | S n' =>
      match q from with
      | [] => first_events (S from) n' q ev
      | j :: rest => first_events (S from) n' (upd q from rest) ((1, j) :: ev)
      end
  end.

(** State before the event loop, async_schedule.cpp lines 79-106. [busy0] is the unspecified
    initial content of disk_busy. The assertion L >= D is line 81. *)
Definition sim_init (disks : list (option nat)) (m D : nat)
           (busy0 : nat -> bool) : option sim :=
  let L := length disks in
  if L <? D then None
  else
    match fill disks D m L (fun _ => []) with
    | None => None
    | Some (i, q) =>
        let (q', ev) := first_events 0 (S D) q [] in
        Some (mkSim q' ev i 0 busy0 (fun _ => None))
    end.

(** async_schedule.cpp lines 112-119: a new time step clears disk_busy. *)
Definition new_time (t : nat) (s : sim) : sim :=
  if s_old s =? t then s
  else mkSim (s_queues s) (s_events s) (s_i s) t (fun _ => false) (s_out s).

(** async_schedule.cpp line 123: o_time[cur.iblock] = (cur.iblock, cur.timestamp). *)
Definition put_out (t b : nat) (s : sim) : sim :=
  mkSim (s_queues s) (s_events s) (s_i s) (s_old s) (s_busy s)
        (upd (s_out s) b (Some t)).

(** async_schedule.cpp lines 125-149: a buffer became free, bring in the next block or
    serve the
    disk of that block. *)
Definition next_block (disks : list (option nat)) (D t : nat) (s : sim) : option sim :=
  match s_i s with
  | O => Some s
  | S i' =>
      match get_disk i' disks D with
      | None => None
      | Some d =>
          if s_busy s d then
            (* lines 128-131 *)
            Some (mkSim (upd (s_queues s) d (s_queues s d ++ [i'])) (s_events s)
                        i' (s_old s) (s_busy s) (s_out s))
          else
            match s_queues s d with
            | j :: rest =>
                (* lines 134-140 and 147; i is not changed *)
                Some (mkSim (upd (s_queues s) d rest) ((t + 1, j) :: s_events s)
                            (s_i s) (s_old s) (upd (s_busy s) d true) (s_out s))
            | [] =>
                (* lines 141-147 *)
                Some (mkSim (s_queues s) ((t + 1, i') :: s_events s)
                            i' (s_old s) (upd (s_busy s) d true) (s_out s))
            end
      end
  end.

(** async_schedule.cpp lines 151-160: schedule the next block of the disk that just
    finished. *)
Definition next_of_disk (disks : list (option nat)) (D t b : nat) (s : sim) : option sim :=
  match get_disk b disks D with
  | None => None
  | Some d =>
      if s_busy s d then Some s
      else
        match s_queues s d with
        | [] => Some s
        | j :: rest =>
            Some (mkSim (upd (s_queues s) d rest) ((t + 1, j) :: s_events s)
                        (s_i s) (s_old s) (upd (s_busy s) d true) (s_out s))
        end
  end.

(** Body of the event loop after the event (t, b) was taken out, async_schedule.cpp lines
    112-160. *)
Definition handle (disks : list (option nat)) (D t b : nat) (s : sim) : option sim :=
  match next_block disks D t (put_out t b (new_time t s)) with
  | None => None
  | Some s' => next_of_disk disks D t b s'
  end.

(** One iteration of the event loop, async_schedule.cpp lines 108-161: some event with a
    minimal
    time stamp is removed and handled. *)
Inductive sim_step (disks : list (option nat)) (D : nat) : sim -> sim -> Prop :=
| SimStep : forall s s' e1 t b e2,
    s_events s = e1 ++ (t, b) :: e2 ->
    (forall t' b', In (t', b') (e1 ++ e2) -> t <= t') ->
    handle disks D t b
      (mkSim (s_queues s) (e1 ++ e2) (s_i s) (s_old s) (s_busy s) (s_out s)) = Some s' ->
    sim_step disks D s s'.

(** [n] iterations of the event loop.
    async_schedule.cpp lines 108-161. *)
Inductive sim_steps (disks : list (option nat)) (D : nat) : nat -> sim -> sim -> Prop :=
| SimStepsNil : forall s, sim_steps disks D 0 s s
| SimStepsCons : forall n s1 s2 s3,
    sim_steps disks D n s1 s2 -> sim_step disks D s2 s3 ->
    sim_steps disks D (S n) s1 s3.

(** Assertions after the loop, async_schedule.cpp lines 163-165
    (assert(i == 0), all disk queues empty). *)
Definition sim_end_ok (D : nat) (s : sim) : Prop :=
  s_events s = [] /\ s_i s = 0 /\ (forall d, d <= D -> s_queues s d = []).

(** The array write_order after the simulation, async_schedule.cpp lines 190-192: entry
    i is the
    pair (i, time stamp), or [None] if an entry was never written. *)
Fixpoint write_order (out : nat -> option nat) (i n : nat) : option (list (nat * nat)) :=
  match n with
  | O => Some []
  | S n' =>
      match out i, write_order out (S i) n' with
      | Some t, Some l => Some ((i, t) :: l)
      | _, _ => None
      end
  end.

(** std::stable_sort with write_time_cmp (async_schedule.cpp lines 55-61, a.second > b.second),
    line 199: insertion sort that inserts an element in front of the elements
    that do not compare before it. *)
Fixpoint insert_time (x : nat * nat) (l : list (nat * nat)) : list (nat * nat) :=
  match l with
  | [] => [x]
  | y :: l' => if snd x <? snd y then y :: insert_time x l' else x :: y :: l'
  end.

(** async_schedule.cpp line 199. *)
Fixpoint sort_time (l : list (nat * nat)) : list (nat * nat) :=
  match l with
  | [] => []
  | x :: l' => insert_time x (sort_time l')
  end.

(** compute_prefetch_schedule, async_schedule.cpp lines 172-210: [schedule disks m D out] holds
    when the function can return with [out] in the output array. *)
Inductive schedule (disks : list (option nat)) (m D : nat) : list nat -> Prop :=
| SchedIdentity :
    length disks <= D ->
    schedule disks m D (seq 0 (length disks))
| SchedSimulate : forall busy0 s0 n s order,
    D < length disks ->
    sim_init disks m D busy0 = Some s0 ->
    sim_steps disks D n s0 s ->
    sim_end_ok D s ->
    write_order (s_out s) 0 (length disks) = Some order ->
    schedule disks m D (map fst (sort_time order)).
