(** Model of the destructors of the block scheduler and of its algorithms.

    block_scheduler.hpp: swappable_block::deinitialize (lines 214-225), the
    destructors of the online algorithm (659-669), of the simulation (811-822),
    of the LFD algorithm (1034-1044) and of the scheduler (385-411).  The
    destructor of the prefetching algorithm (1679-1690) is in PfDtorModel.v.

    Simplifications: the messages are left out, except that the number of lost
    internal blocks of lines 402-405 is a result; the arrays of internal blocks
    are deleted by the destructor (406-410), which is not modelled. *)
From Coq Require Import ZArith List Bool Arith.
From Verif Require Import BsModel.
Import ListNotations.

(** swappable_block::deinitialize, block_scheduler.hpp lines 214-225 (an assertion in
    line 216), and
    free_external_block, 74-78; the internal block it had. *)
Definition sb_deinit (s : st) (b : nat) : out (st * option nat) :=
  let X := blk s b in
  if is_acquired X then Undefined
  else
    let s1 := match ext X with Some e => del_ext s e | None => s end in
    Ok (set_b s1 b (mkSb None None false (rc X)), int X).

(** The loop of block_scheduler.hpp lines 663-668, 815-821, 1038-1043 and 1684-1689; [l]
    are the
    blocks in the order in which they are popped. *)
Fixpoint drop_evictables (l : list nat) (s : st) : out st :=
  match l with
  | [] => Ok s
  | b :: r =>
      bind (sb_deinit s b) (fun '(s1, i) =>
      drop_evictables r (match i with Some i => return_free s1 i | None => s1 end))
  end.

(** What is left of an algorithm whose evictable blocks were popped.
     block_scheduler.hpp lines 663-668, 815-821, 1038-1043, 1684-1689: the queues after
        the loops. *)
Definition no_evictables (a : alg) : alg :=
  match a with Lru _ => Lru [] | Sim _ m => Sim [] m | Lfd _ nu => Lfd [] nu end.

(** The destructor of the algorithm.
    block_scheduler.hpp lines 659-669, 811-822, 1034-1044, 1679-1690; called at line 387. *)
Definition alg_dtor (s : st) : out st :=
  bind (drop_evictables (evictables (al s)) s) (fun s1 =>
  Ok (set_al s1 (no_evictables (al s1)))).

(** The loop of block_scheduler.hpp lines 394-400; [n] is num_freed_internal_blocks. *)
Fixpoint drop_rest (l : list nat) (n : nat) (s : st) : out (st * nat) :=
  match l with
  | [] => Ok (s, n)
  | b :: r =>
      if is_acquired (blk s b) then drop_rest r n s
      else bind (sb_deinit s b) (fun '(s1, i) =>
           drop_rest r (match i with Some _ => S n | None => n end) s1)
  end.

(** block_scheduler.hpp lines 388-405 after the destructor of the algorithm; the second
    result is
    nlost. *)
Definition rest_dtor (max : nat) (s : st) : out (st * Z) :=
  bind (if Nat.eqb (length (free_s s)) (nblk s) then Ok (s, 0)
        else drop_rest (seq 0 (nblk s)) 0 s)
    (fun '(s1, n) =>
     Ok (s1, (Z.of_nat (max - remaining s1) - Z.of_nat (length (free_i s1) + n))%Z)).

(** ~block_scheduler, block_scheduler.hpp lines 385-411. *)
Definition bs_dtor (max : nat) (s : st) : out (st * Z) := bind (alg_dtor s) (rest_dtor max).

(** An algorithm object is constructed for the scheduler and destroyed without
    switch_algorithm_to: its constructor takes the evictable blocks of the current
    algorithm (block_scheduler.hpp lines 645-647, 789-791, 1013-1021), and its destructor
    deinitialises them. *)
Definition unused_algorithm (s : st) : out st := alg_dtor s.
