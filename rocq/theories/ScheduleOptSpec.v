(** How good a prefetch order is. *)
From Coq Require Import List Arith Bool.
Import ListNotations.

(** A reader with [m] buffers and one queue for each disk, in steps: it requests
    blocks in the given order as long as it has a buffer, every disk serves the
    first block in its queue, and then the blocks that are there are consumed in
    the order 0, 1, 2, ...; a consumed block frees its buffer. *)
Record reader := mkReader {
  r_rest : list nat;              (* not requested yet *)
  r_wait : list nat;              (* requested, not read *)
  r_have : list nat;              (* read, not consumed *)
  r_next : nat                    (* the next block to consume *)
}.

Fixpoint request (n : nat) (r : reader) : reader :=
  match n, r_rest r with
  | S n', b :: rest => request n' (mkReader rest (r_wait r ++ [b]) (r_have r) (r_next r))
  | _, _ => r
  end.

(** The first block of each disk; [seen]: the disks that have served one. *)
Fixpoint serve (disk : nat -> nat) (seen wait : list nat) : list nat * list nat :=
  match wait with
  | [] => ([], [])
  | b :: w =>
      if existsb (Nat.eqb (disk b)) seen
      then let (done, left) := serve disk seen w in (done, b :: left)
      else let (done, left) := serve disk (disk b :: seen) w in (b :: done, left)
  end.

Fixpoint consume (n : nat) (r : reader) : reader :=
  match n with
  | O => r
  | S n' => if existsb (Nat.eqb (r_next r)) (r_have r)
            then consume n' (mkReader (r_rest r) (r_wait r) (remove Nat.eq_dec (r_next r) (r_have r)) (S (r_next r)))
            else r
  end.

Definition read_step (disk : nat -> nat) (m : nat) (r : reader) : reader :=
  let r1 := request (m - length (r_wait r) - length (r_have r)) r in
  let (done, left) := serve disk [] (r_wait r1) in
  consume (length (r_have r1) + length done) (mkReader (r_rest r1) left (r_have r1 ++ done) (r_next r1)).

Fixpoint read_steps (disk : nat -> nat) (m t : nat) (r : reader) : reader :=
  match t with O => r | S t' => read_steps disk m t' (read_step disk m r) end.

(** All [n] blocks are consumed after [t] steps. *)
Definition read_in (disk : nat -> nat) (m n : nat) (order : list nat) (t : nat) : Prop :=
  r_next (read_steps disk m t (mkReader order [] [] 0)) = n.

(** A plan for reading with [m] buffers: block [b] is read in step [plan b], no
    disk reads two blocks in a step, and when block [b] is read, at most the [b]
    blocks before it have been consumed, so that at most [m + b] have been read. *)
Definition feasible {A} (m n : nat) (disk : nat -> A) (plan : nat -> nat) : Prop :=
  (forall b c, b < n -> c < n -> plan b = plan c -> disk b = disk c -> b = c) /\
  (forall b, b < n -> length (filter (fun c => plan c <=? plan b) (seq 0 n)) <= m + b).
