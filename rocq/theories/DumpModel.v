(** Model of what the block allocator reports about its free space, and of two helpers.

    Sources: /repo/foxxll/mng/disk_block_allocator.cpp 26-37, 39-63, 75-101 (dump,
    deallocation_error, the messages of the exceptions), /repo/foxxll/common/utils.hpp 88-93,
    108-138 (swap_1D_arrays, pop helpers).

    Simplification: a report is the numbers printed, in order; the text around them is left out. *)

From Coq Require Import ZArith List Bool.
From Verif Require Import AllocModel.
Import ListNotations.
Local Open Scope Z_scope.

(** dump(), disk_block_allocator.cpp lines 26-37: the regions printed and the total, which is
    a uint64_t. *)
Fixpoint dump_loop (total : Z) (m : space_map) : list (Z * Z) * Z :=
  match m with
  | [] => ([], total)
  | (p, s) :: m' => let (l, t) := dump_loop ((total + s) mod 2 ^ 64) m' in ((p, s) :: l, t)
  end.
(** disk_block_allocator.cpp lines 26-37. *)
Definition dump (a : allocator) : list (Z * Z) * Z := dump_loop 0 (free_space a).

(** The messages of the exceptions, disk_block_allocator.cpp lines 85-87 and 96-98: which of the
    two, the region to be freed, the free region it meets. *)
Inductive complaint := InEmpty (region free : Z * Z) | Overlaps (region free : Z * Z).

(** disk_block_allocator.cpp lines 73-101. *)
Definition complain (a : allocator) (pos size : Z) : option complaint :=
  let m := free_space a in
  let succ := upper_bound pos m in
  let pred := match entry_before pos m with Some e => Some e | None => succ end in
  let second :=
    match succ with
    | Some (sp, ss) => if (pos <=? sp) && (sp <? pos + size) then Some (Overlaps (pos, size) (sp, ss)) else None
    | None => None
    end in
  match pred with
  | Some (pp, ps) => if (pp <=? pos) && (pos <? pp + ps) then Some (InEmpty (pos, size) (pp, ps)) else second
  | None => second
  end.

(** swap_1D_arrays(), utils.hpp lines 88-93: memory cells, the arrays begin at [a] and [b]. *)
Definition set_cell {V} (f : Z -> V) (x : Z) (v : V) : Z -> V := fun y => if y =? x then v else f y.
(** std::swap of two cells, utils.hpp line 92. *)
Definition swap_cells {V} (f : Z -> V) (x y : Z) : Z -> V := set_cell (set_cell f x (f y)) y (f x).
(** The loop, utils.hpp lines 91-92. *)
Fixpoint swap_loop {V} (f : Z -> V) (a b : Z) (i : Z) (n : nat) : Z -> V :=
  match n with
  | O => f
  | S n' => swap_loop (swap_cells f (a + i) (b + i)) a b (i + 1) n'
  end.
(** utils.hpp lines 88-93. *)
Definition swap_1D_arrays {V} (f : Z -> V) (a b : Z) (size : nat) : Z -> V := swap_loop f a b 0 size.

(** pop_front() of a sequence, utils.hpp lines 116-122 (pop, 108-114, and pop_begin, 132-138,
    are the same function of the sequence in the order of top() or begin()); [None] is the
    undefined access to an empty container. *)
Definition pop_front {V} (c : list V) : option (V * list V) :=
  match c with [] => None | x :: c' => Some (x, c') end.
(** pop_back(), utils.hpp lines 124-130. *)
Definition pop_back {V} (c : list V) : option (V * list V) :=
  match rev c with [] => None | x :: c' => Some (x, rev c') end.
