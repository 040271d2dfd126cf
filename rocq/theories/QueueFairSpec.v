(** What C103 says: how long a request that is in a queue can have to wait. *)
From Coq Require Import List Bool PeanoNat.
From Verif Require Import QueueModel QueueSpec.
Import ListNotations.

(** Executions of all threads, with the number of steps of the worker. *)
Inductive runs (k : kind) : nat -> state -> state -> Prop :=
| runs_0 : forall s, runs k 0 s s
| runs_w : forall n s1 s2 s3, runs k n s1 s2 -> wstep k s2 s3 -> runs k (S n) s1 s3
| runs_o : forall n s1 s2 s3 c, runs k n s1 s2 -> start_op k c s2 s3 \/ cstep k c s2 s3 -> runs k n s1 s3.

(** Requests that stand before [r] in the list. *)
Fixpoint ahead (r : nat) (l : list nat) : nat :=
  match l with [] => 0 | x :: l' => if Nat.eqb x r then 0 else S (ahead r l') end.

(** The requests the worker has taken so far. *)
Definition taken_so_far (s : state) : nat :=
  length (filter (fun x => match x with EPop _ => true | _ => false end) (trace s)).

(** The requests that are served next unless their queue is empty: every request of
    a single queue, every request if reads and writes take turns, the writes if writes
    go first, the reads if reads go first ([w]: the queue of the writes). *)
Definition first_class (k : kind) (w : bool) : Prop :=
  match k with
  | OneQ => True
  | QwQr PNone => True
  | QwQr PWrite => w = true
  | QwQr PRead => w = false
  end.

(** How often the worker looks into a queue until it takes a request with [p] requests
    before it; [turn]: the worker looks into the queue of the request next. *)
Definition visits (k : kind) (turn : bool) (p : nat) : nat :=
  match k with
  | OneQ => p + 1
  | QwQr PNone => if turn then 2 * p + 1 else 2 * p + 2
  | QwQr _ => if turn then p + 1 else p + 2
  end.

(** The same for any kind of queue, not counting the times it finds a request. *)
Definition visits_in_vain (turn : bool) (p : nat) : nat := if turn then 2 * p + 1 else 2 * p + 2.

(** The worker looks into the queue [w] next. *)
Definition turn (w : bool) (s : state) : bool := Bool.eqb (st_phase s) w.
