(** Model of the destructor of the prefetching algorithm of the block scheduler:
    block_scheduler.hpp lines 1679-1690.  After deinit the evictable blocks are
    those of free_evictable_blocks (a std::set, popped in ascending order); they
    are deinitialised by the same loop as in the other destructors
    (BsDtorModel.v). *)
From Coq Require Import ZArith List Bool Arith.
From Verif Require Import BsModel BsDtorModel PfModel.
Import ListNotations.

(** block_scheduler.hpp lines 1679-1690. *)
Definition pf_alg_dtor (p : pst) : out st :=
  bind (deinit p) (fun p1 =>
  alg_dtor (set_al (base p1) (Lru (fold_right insert_sorted [] (fe p1))))).

(** ~block_scheduler, block_scheduler.hpp lines 385-411, while the prefetching algorithm
    is used. *)
Definition pf_dtor (max : nat) (p : pst) : out (st * Z) := bind (pf_alg_dtor p) (rest_dtor max).
