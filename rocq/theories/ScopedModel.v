(** Model of the scoped timers of the I/O statistics, and of scoped_print_timer.

    Sources: /repo/foxxll/io/iostats.hpp 68-182, 370-411, /repo/foxxll/common/timer.hpp 224-264.

    A thread has timers of its own and calls their constructors, start, stop and destructors in
    any order; each call passes through critical sections of StatsModel.v.

    Simplifications.
    - Those of StatsModel.v; a call gets the time it reads from the clock as an argument.
    - Objects are numbered in the order of their construction, by thread; a timer is not used
      by two threads. *)

From Coq Require Import ZArith List Bool.
From Verif Require Import StatsModel.
Import ListNotations.
Local Open Scope Z_scope.

(** What a timer measures: scoped_read_write_timer (iostats.hpp lines 68-110; the flag is
    is_write_), scoped_write_timer (112-146), scoped_read_timer (148-182), scoped_wait_timer
    (370-411). *)
Inductive what := WIo (write : bool) (file : nat) | WWait (w : wait_op).

(** iostats.hpp lines 70-74, 114-117, 150-153, 372-375. *)
Record tmr := MkT { t_what : what; t_run : bool }.

(** file_stats::write_started, read_started, stats::wait_started.
    iostats.hpp lines 93-96, 135, 171, 397. *)
Definition begins (k : what) (size now : Z) : list section :=
  match k with
  | WIo true f => write_started f size now
  | WIo false f => read_started f size now
  | WWait w => [SecWaitUp w now]
  end.

(** file_stats::write_finished, read_finished, stats::wait_finished.
    iostats.hpp lines 103-106, 142, 178, 406. *)
Definition ends (k : what) (now : Z) : list section :=
  match k with
  | WIo true f => write_finished f now
  | WIo false f => read_finished f now
  | WWait w => [SecWaitDown w now]
  end.

(** start(), iostats.hpp lines 89-98, 131-137, 167-173, 392-400. *)
Definition t_start (size now : Z) (t : tmr) : tmr * list section :=
  if negb (t_run t) then (MkT (t_what t) true, begins (t_what t) size now) else (t, []).

(** stop(), iostats.hpp lines 100-109, 139-145, 175-181, 402-410. *)
Definition t_stop (now : Z) (t : tmr) : tmr * list section :=
  if t_run t then (MkT (t_what t) false, ends (t_what t) now) else (t, []).

(** The calls of a thread.  The constructors of all classes (iostats.hpp lines 77-82, 120-124, 156-160,
    378-385; [CNewOff]: measure_time is false), start, stop, the destructors (84-87, 126-129,
    162-165, 387-390), and the copy constructors, which the classes have implicitly. *)
Inductive call :=
| CNew (k : what) (size now : Z)
| CNewOff (w : wait_op)
| CStart (i : nat) (size now : Z)
| CStop (i : nat) (now : Z)
| CDel (i : nat) (now : Z)
| CCopy (i : nat).

(** Model device: an object changes (iostats.hpp lines 68-182). *)
Fixpoint put (i : nat) (o : option tmr) (l : list (option tmr)) : list (option tmr) :=
  match l, i with
  | [], _ => []
  | _ :: l', O => o :: l'
  | a :: l', S i' => a :: put i' o l'
  end.

(** One call.  iostats.hpp lines 68-182, 370-411.  [None]: the object does not exist. *)
Definition call_step (l : list (option tmr)) (c : call) : option (list (option tmr) * list section) :=
  match c with
  | CNew k size now =>
      let (t, secs) := t_start size now (MkT k false) in Some (l ++ [Some t], secs)
  | CNewOff w => Some (l ++ [Some (MkT (WWait w) false)], [])
  | CStart i size now =>
      match nth_error l i with
      | Some (Some t) => let (t', secs) := t_start size now t in Some (put i (Some t') l, secs)
      | _ => None
      end
  | CStop i now =>
      match nth_error l i with
      | Some (Some t) => let (t', secs) := t_stop now t in Some (put i (Some t') l, secs)
      | _ => None
      end
  | CDel i now =>
      match nth_error l i with
      | Some (Some t) => let (_, secs) := t_stop now t in Some (put i None l, secs)
      | _ => None
      end
  | CCopy i =>
      match nth_error l i with
      | Some (Some t) => Some (l ++ [Some t], [])
      | _ => None
      end
  end.

(** A thread.  Model device (iostats.hpp lines 68-182, 370-411). *)
Fixpoint thread_run (l : list (option tmr)) (cs : list call) : option (list (option tmr) * list section) :=
  match cs with
  | [] => Some (l, [])
  | c :: cs' =>
      match call_step l c with
      | Some (l1, s1) =>
          match thread_run l1 cs' with
          | Some (l2, s2) => Some (l2, s1 ++ s2)
          | None => None
          end
      | None => None
      end
  end.

(** What the destructor of scoped_print_timer reports: the time alone, or the time and the
    bytes per second; [PUndefined] where the conversion of a double to uint64_t is undefined.
    timer.hpp lines 246-264. *)
Inductive print := PTime (us : Z) | PRate (us bps : Z) | PUndefined.

(** ~scoped_print_timer(), timer.hpp lines 247-264.  The time is in microseconds and read once
    (simplified: the code reads it for the rate and again for the message), and the division is
    exact before it is cut off (simplified: no rounding of doubles). *)
Definition print_end (bytes us : Z) : print :=
  if bytes =? 0 then PTime us
  else if us =? 0 then PUndefined
  else let bps := bytes * 1000000 / us in
       if bps <? 2 ^ 64 then PRate us bps else PUndefined.
