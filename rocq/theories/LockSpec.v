(* What deadlock and mutual exclusion mean, by what the threads hold and want. *)
From Coq Require Import List Arith.
From Verif Require Import LockModel.
Import ListNotations.

(* Thread i of the system holds the mutex. *)
Definition holds (st : sys) (i : nat) (m : mtx) : Prop :=
  exists k, nth_error st i = Some k /\ In m (held k).

(* Thread i can only go on once it has locked the mutex. *)
Definition wants (st : sys) (i : nat) (m : mtx) : Prop :=
  exists k, (nth_error st i = Some (Asleep m :: k)) \/
            (exists p, nth_error st i = Some (Do (With m p) :: k)).

(* A set of threads each of which wants a mutex that one of them holds. *)
Definition deadlock (st : sys) (D : list nat) : Prop :=
  D <> [] /\
  forall i, In i D -> exists m j, wants st i m /\ In j D /\ holds st j m.

(* Thread i waits for another thread or for the kernel: on a condition
   variable, in join, in io_getevents. *)
Definition idle (st : sys) (i : nat) : Prop :=
  exists k, (exists m, nth_error st i = Some (Asleep m :: k)) \/
            nth_error st i = Some (Do Block :: k).

(* Thread i is at the call of a completion handler, or at the point in one
   from which it may call the library next. *)
Definition at_handler (st : sys) (i : nat) : Prop :=
  exists k, nth_error st i = Some (Do User :: k).

(* Thread i can take a step now: it does not want a mutex that is held,
   is not idle, and has something to do. *)
Definition running (st : sys) (i : nat) : Prop :=
  ~ idle st i /\
  (exists x k, nth_error st i = Some (x :: k)) /\
  (forall m, wants st i m -> forall j, ~ holds st j m).
