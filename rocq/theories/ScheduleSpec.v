(** What is expected of a prefetch schedule.  Nothing here refers to the
    simulation: a schedule is a list of block indices. *)

Require Import List Arith Permutation.
Import ListNotations.

(** Every block 0 .. n-1 exactly once. *)
Definition all_blocks_once (n : nat) (out : list nat) : Prop :=
  Permutation out (seq 0 n).

(** A reader owns [m] buffers, fills them with the first [m] blocks of the
    schedule and reads one more block after each block it has consumed; blocks
    are consumed in the order 0, 1, 2, ...  Before it needs block [k] it has
    consumed [k] blocks and requested the first [m + k] entries. *)
Definition requested (m k : nat) (out : list nat) : list nat := firstn (m + k) out.

Definition never_starves (m n : nat) (out : list nat) : Prop :=
  forall k, k < n -> In k (requested m k out).

(** [time] assigns time steps to blocks: no two blocks of one disk share a
    time step. *)
Definition one_per_disk_and_step {A} (n : nat) (disk : nat -> A) (time : nat -> option nat) : Prop :=
  forall b1 b2 t, b1 < n -> b2 < n ->
    time b1 = Some t -> time b2 = Some t -> disk b1 = disk b2 -> b1 = b2.

(** Device ids do not exceed [D]; [None] is the default device id. *)
Definition ids_up_to (D : nat) (disks : list (option nat)) : Prop :=
  forall d, In (Some d) disks -> d <= D.
