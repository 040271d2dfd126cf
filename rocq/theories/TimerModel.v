(** Model of the stop watch.

    Source: /repo/foxxll/common/timer.hpp lines 50-158.

    Simplifications.
    - Times are exact integers (microseconds of the steady clock) instead of
      doubles in seconds.
    - One thread; the reads of the clock are arguments. *)
From Coq Require Import List ZArith Bool.
Import ListNotations.
Local Open Scope Z_scope.

(** timer.hpp lines 53-59. *)
Record timer := mktimer { running : bool; accumulated : Z; last_clock : Z }.

(** start, timer.hpp lines 82-86. *)
Definition start (now : Z) (t : timer) : timer := mktimer true (accumulated t) now.

(** Constructor, timer.hpp lines 75-79. *)
Definition new_timer (now : Z) (start_immediately : bool) : timer :=
  let t := mktimer false 0 0 in
  if start_immediately then start now t else t.

(** stop, timer.hpp lines 89-96. *)
Definition stop (now : Z) (t : timer) : timer :=
  mktimer false (accumulated t + (now - last_clock t)) (last_clock t).

(** reset, timer.hpp lines 99-104. *)
Definition reset (now : Z) (t : timer) : timer := mktimer (running t) 0 now.

(** seconds (in microseconds), timer.hpp lines 131-141; also lines 107-128 up to the unit. *)
Definition seconds (now : Z) (t : timer) : Z :=
  if running t then accumulated t + (now - last_clock t) else accumulated t.
(** timer.hpp lines 107-115. *)
Definition mseconds (now : Z) (t : timer) : Z :=
  if running t then (accumulated t + now - last_clock t) * 1000 else accumulated t * 1000.
(** timer.hpp lines 118-128. *)
Definition useconds (now : Z) (t : timer) : Z :=
  if running t then (accumulated t + (now - last_clock t)) * 1000000 else accumulated t * 1000000.

(** operator +=, timer.hpp lines 144-151. *)
Definition add_timer (now : Z) (t other : timer) : timer :=
  mktimer (running t) (accumulated t + seconds now other) (last_clock t).

(** Calls on a timer, timer.hpp lines 82-104, 144-151. *)
Inductive top := TStart | TStop | TReset | TAdd (other : timer).

(** A call at a given time, timer.hpp lines 82-104, 144-151. *)
Definition tstep (t : timer) (e : Z * top) : timer :=
  match snd e with
  | TStart => start (fst e) t
  | TStop => stop (fst e) t
  | TReset => reset (fst e) t
  | TAdd o => add_timer (fst e) t o
  end.

(** Calls in sequence, timer.hpp lines 82-104, 144-151. *)
Definition trun (t : timer) (l : list (Z * top)) : timer := fold_left tstep l t.
