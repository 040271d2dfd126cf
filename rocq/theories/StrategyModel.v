(** Model of the block allocation strategies.

    Sources: /repo/foxxll/mng/block_alloc_strategy.hpp (43-251),
             /repo/foxxll/mng/block_alloc_strategy_interleaved.hpp (27-115).

    [size_t] arithmetic wraps modulo 2^64.  A modulo by zero is undefined
    behaviour: [None].  Random choices are arguments: the engine's outputs are a
    function from draw number to number. *)
From Coq Require Import ZArith List Bool.
Import ListNotations.
Local Open Scope Z_scope.

(** size_t in block_alloc_strategy.hpp lines 43-65. *)
Definition u64 (x : Z) : Z := x mod 2 ^ 64.

(** [x % d] on size_t.
    block_alloc_strategy.hpp lines 58, 81, 100, 116, 154. *)
Definition umod (x d : Z) : option Z := if d =? 0 then None else Some (x mod d).

(** [begin_ + x], block_alloc_strategy.hpp lines 58, 81, 116, 154. *)
Definition add_begin (begin : Z) (r : option Z) : option Z :=
  match r with Some x => Some (u64 (begin + x)) | None => None end.

(** striping, block_alloc_strategy.hpp:43-65: [diff_ = end - begin]. *)
Record range := mk_range { r_begin : Z; r_diff : Z }.
(** Constructor, block_alloc_strategy.hpp lines 48-49. *)
Definition make_range (begin end_ : Z) : range := mk_range begin (u64 (end_ - begin)).

(** block_alloc_strategy.hpp lines 56-59. *)
Definition striping (r : range) (i : Z) : option Z :=
  add_begin (r_begin r) (umod i (r_diff r)).

(** fully_random, block_alloc_strategy.hpp lines 69-88: [draw] is what [rng_()] returned
    for this call. *)
Definition fully_random (r : range) (draw : Z) (i : Z) : option Z :=
  add_begin (r_begin r) (umod draw (r_diff r)).

(** simple_random, block_alloc_strategy.hpp lines 92-123: [offset = rng() % diff_] in
    [init]. *)
Definition simple_random (r : range) (draw : Z) (i : Z) : option Z :=
  match umod draw (r_diff r) with
  | None => None
  | Some offset => add_begin (r_begin r) (umod (u64 (i + offset)) (r_diff r))
  end.

(** [std::random_shuffle] as the standard library implements it: for
    i = 1 .. n-1 swap element i with element (draw i) mod (i+1).
    block_alloc_strategy.hpp line 137. *)
Fixpoint put {A} (i : nat) (x : A) (l : list A) : list A :=
  match l, i with
  | [], _ => []
  | _ :: r, O => x :: r
  | y :: r, S i' => y :: put i' x r
  end.

(** Part of std::random_shuffle, block_alloc_strategy.hpp line 137. *)
Definition swap {A} (i j : nat) (l : list A) : list A :=
  match nth_error l i, nth_error l j with
  | Some x, Some y => put j x (put i y l)
  | _, _ => l
  end.

(** block_alloc_strategy.hpp line 137, block_alloc_strategy_interleaved.hpp line 95. *)
Definition random_shuffle {A} (draws : nat -> nat) (l : list A) : list A :=
  fold_left (fun l i => swap i (Nat.modulo (draws i) (S i)) l) (seq 1 (length l - 1)) l.

(** [perm_[i] = i] for all i, block_alloc_strategy.hpp lines 134-135 and
    block_alloc_strategy_interleaved.hpp lines 92-93. *)
Definition identity_perm (n : nat) : list Z := map Z.of_nat (seq 0 n).
(** init, block_alloc_strategy.hpp lines 132-138, and
    block_alloc_strategy_interleaved.hpp lines 90-96. *)
Definition make_perm (diff : Z) (draws : nat -> nat) : list Z :=
  random_shuffle draws (identity_perm (Z.to_nat diff)).

(** random_cyclic, block_alloc_strategy.hpp lines 127-161; random_cyclic_disk and _flash
    (163-192) only choose
    the range. *)
Definition random_cyclic (r : range) (perm : list Z) (i : Z) : option Z :=
  match umod i (r_diff r) with
  | None => None
  | Some k =>
      match nth_error perm (Z.to_nat k) with
      | Some p => Some (u64 (r_begin r + p))
      | None => None
      end
  end.

(** single_disk, block_alloc_strategy.hpp lines 196-211. *)
Definition single_disk (disk : Z) (i : Z) : option Z := Some disk.

(** offset_allocator, block_alloc_strategy.hpp lines 216-251: the int [offset_] is
    converted to size_t. *)
Definition offset_allocator (base : Z -> option Z) (offset : Z) (i : Z) : option Z :=
  base (u64 (offset + i)).

(** [x / nruns] on size_t.
    block_alloc_strategy_interleaved.hpp lines 46, 78, 101. *)
Definition udiv (x d : Z) : option Z := if d =? 0 then None else Some (x / d).

(** interleaved_striping, block_alloc_strategy_interleaved.hpp:27-48. *)
Definition interleaved_striping (r : range) (nruns : Z) (i : Z) : option Z :=
  match udiv i nruns with Some q => striping r q | None => None end.

(** interleaved_fully_random, block_alloc_strategy_interleaved.hpp lines 50-62. *)
Definition interleaved_fully_random (r : range) (nruns draw : Z) (i : Z) : option Z :=
  fully_random r draw i.

(** interleaved_simple_random, block_alloc_strategy_interleaved.hpp lines 64-80:
    [offsets_[k] = rng() % diff_]. *)
Definition interleaved_simple_random (r : range) (nruns : Z) (draws : Z -> Z) (i : Z) : option Z :=
  match udiv i nruns, umod i nruns with
  | Some q, Some k =>
      match umod (draws k) (r_diff r) with
      | Some offset => add_begin (r_begin r) (umod (u64 (q + offset)) (r_diff r))
      | None => None
      end
  | _, _ => None
  end.

(** interleaved_random_cyclic, block_alloc_strategy_interleaved.hpp lines 82-103: one
    permutation per run. *)
Definition interleaved_random_cyclic (r : range) (nruns : Z) (perms : Z -> list Z) (i : Z) : option Z :=
  match udiv i nruns, umod i nruns with
  | Some q, Some k => random_cyclic r (perms k) q
  | _, _ => None
  end.

(** first_disk_only, block_alloc_strategy_interleaved.hpp lines 105-115. *)
Definition first_disk_only (disk : Z) (i : Z) : option Z := Some disk.
