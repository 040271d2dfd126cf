(** Model of the per-disk block allocator.

    Sources: /repo/foxxll/mng/disk_block_allocator.hpp (class, lines 45-260),
             /repo/foxxll/mng/disk_block_allocator.cpp (add_free_region, 65-153).

    Simplifications: byte positions and sizes are unbounded integers (the C++
    uses uint64_t); [std::map<uint64_t,uint64_t>] is a list of (position, size)
    pairs in increasing position; logging ([dump], [TLX_LOG]) is dropped. *)
From Coq Require Import ZArith List Bool.
Import ListNotations.
Local Open Scope Z_scope.

(** disk_block_allocator.hpp:125 [space_map_type]. *)
Definition space_map := list (Z * Z).

(** disk_block_allocator.hpp:127-134, the data members.  [mutex_] is not a
    member here: one call of a function below is one critical section.
    [storage_size] is the size last given to [storage_->set_size]. *)
Record allocator := mk_allocator {
  free_space   : space_map;
  free_bytes   : Z;
  disk_bytes   : Z;
  cfg_bytes    : Z;
  storage_size : Z;
  autogrow     : bool
}.

(** [std::map::upper_bound(p)]: first entry with key > p
    (disk_block_allocator.cpp:75). *)
Fixpoint upper_bound (p : Z) (m : space_map) : option (Z * Z) :=
  match m with
  | [] => None
  | (k, v) :: m' => if p <? k then Some (k, v) else upper_bound p m'
  end.

(** The entry before [upper_bound p] ([pred--], disk_block_allocator.cpp:76-79),
    if [upper_bound] is not [begin()]. *)
Fixpoint entry_before (p : Z) (m : space_map) : option (Z * Z) :=
  match m with
  | [] => None
  | (k, v) :: m' =>
      if p <? k then None
      else match entry_before p m' with
           | Some e => Some e
           | None => Some (k, v)
           end
  end.

(** [std::map::erase] of the entry with key k.
     Used by disk_block_allocator.cpp lines 112, 123, 137, 145 and
        disk_block_allocator.hpp line 231. *)
Fixpoint map_erase (k : Z) (m : space_map) : space_map :=
  match m with
  | [] => []
  | (k', v) :: m' => if k =? k' then m' else (k', v) :: map_erase k m'
  end.

(** [free_space_[k] = v] (disk_block_allocator.cpp:151, disk_block_allocator.hpp:234). *)
Fixpoint map_set (k v : Z) (m : space_map) : space_map :=
  match m with
  | [] => [(k, v)]
  | (k', v') :: m' =>
      if k <? k' then (k, v) :: m
      else if k =? k' then (k, v) :: m'
      else (k', v') :: map_set k v m'
  end.

(** Outcome of [add_free_region] and of everything that calls it:
    normal return, the exception [bad_ext_alloc], or a failed [assert]
    (undefined behaviour in release builds).
    disk_block_allocator.cpp lines 83-88 and 94-99 throw, lines 106 and 131 assert. *)
Inductive outcome (A : Type) : Type :=
| Ret   (a : A)
| Throw
| AssertFail.
Arguments Ret {A} a.
Arguments Throw {A}.
Arguments AssertFail {A}.

(** disk_block_allocator.cpp:65-153.  The case [free_space_.empty()] is the
    first branch; the two throws are lines 81-90 and 92-101; the merge logic is
    lines 103-148, in the same case order as the source ([pred] equals [succ]
    when the upper bound is the first entry). *)
Definition add_free_region (a : allocator) (block_pos block_size : Z)
  : outcome allocator :=
  let finish (m : space_map) (pos size : Z) :=
    Ret {| free_space := map_set pos size m;
           free_bytes := free_bytes a + block_size;
           disk_bytes := disk_bytes a;
           cfg_bytes := cfg_bytes a;
           storage_size := storage_size a;
           autogrow := autogrow a |} in
  let m := free_space a in
  match m with
  | [] => finish m block_pos block_size
  | _ :: _ =>
      let succ := upper_bound block_pos m in
      let before := entry_before block_pos m in
      let pred := match before with Some e => Some e | None => succ end in
      let succ_is_not_the_first :=
        match before with Some _ => true | None => false end in
      let bad_pred :=
        match pred with
        | Some (pp, ps) => (pp <=? block_pos) && (block_pos <? pp + ps)
        | None => false
        end in
      let bad_succ :=
        match succ with
        | Some (sp, ss) => (block_pos <=? sp) && (sp <? block_pos + block_size)
        | None => false
        end in
      if bad_pred then Throw
      else if bad_succ then Throw
      else
        match succ with
        | None =>
            match pred with
            | None => AssertFail
            | Some (pp, ps) =>
                if pp + ps =? block_pos
                then finish (map_erase pp m) pp (block_size + ps)
                else finish m block_pos block_size
            end
        | Some (sp, ss) =>
            if (1 <? Z.of_nat (length m)) then
              let '(size1, m1) :=
                if sp =? block_pos + block_size
                then (block_size + ss, map_erase sp m)
                else (block_size, m) in
              if succ_is_not_the_first then
                match pred with
                | None => AssertFail
                | Some (pp, ps) =>
                    if pp + ps =? block_pos
                    then finish (map_erase pp m1) pp (size1 + ps)
                    else finish m1 block_pos size1
                end
              else finish m1 block_pos size1
            else
              if sp =? block_pos + block_size
              then finish (map_erase sp m) block_pos (block_size + ss)
              else finish m block_pos block_size
        end
  end.

(** disk_block_allocator.hpp:147-155. *)
Definition grow_file (a : allocator) (extend : Z) : outcome allocator :=
  if extend =? 0 then Ret a
  else
    let a1 := {| free_space := free_space a; free_bytes := free_bytes a;
                 disk_bytes := disk_bytes a; cfg_bytes := cfg_bytes a;
                 storage_size := disk_bytes a + extend;
                 autogrow := autogrow a |} in
    match add_free_region a1 (disk_bytes a) extend with
    | Ret a2 =>
        Ret {| free_space := free_space a2; free_bytes := free_bytes a2;
               disk_bytes := disk_bytes a2 + extend; cfg_bytes := cfg_bytes a2;
               storage_size := storage_size a2; autogrow := autogrow a2 |}
    | Throw => Throw
    | AssertFail => AssertFail
    end.

(** Constructor, disk_block_allocator.hpp:50-57. *)
Definition new_allocator (cfg_size : Z) (grow : bool) : outcome allocator :=
  grow_file {| free_space := []; free_bytes := 0; disk_bytes := 0;
               cfg_bytes := cfg_size; storage_size := 0; autogrow := grow |}
            cfg_size.

(** Destructor, disk_block_allocator.hpp:64-69: resulting size of the file. *)
Definition delete_allocator (a : allocator) : Z :=
  if cfg_bytes a <? disk_bytes a then cfg_bytes a else storage_size a.

(** disk_block_allocator.hpp:74-77. *)
Definition has_available_space (a : allocator) (bytes : Z) : bool :=
  autogrow a || (bytes <=? free_bytes a).

(** disk_block_allocator.hpp:84-87. *)
Definition used_bytes (a : allocator) : Z := disk_bytes a - free_bytes a.

(** disk_block_allocator.hpp:111-120. *)
Definition delete_block (a : allocator) (offset size : Z) : outcome allocator :=
  add_free_region a offset size.

(** [std::find_if(free_space_, size >= requested)], disk_block_allocator.hpp:198-204. *)
Fixpoint find_region (requested : Z) (m : space_map) : option (Z * Z) :=
  match m with
  | [] => None
  | (p, s) :: m' => if requested <=? s then Some (p, s) else find_region requested m'
  end.

(** disk_block_allocator.hpp:161-167. *)
Fixpoint sum_sizes (sizes : list Z) : Z :=
  match sizes with [] => 0 | s :: r => s + sum_sizes r end.

(** disk_block_allocator.hpp:236-240. *)
Fixpoint assign_offsets (pos : Z) (sizes : list Z) : list Z :=
  match sizes with [] => [] | s :: r => pos :: assign_offsets (pos + s) r end.

(** Result of the critical section of [new_blocks].
     disk_block_allocator.hpp lines 169-255: return (246), throw (180), failed assertion
        (242, 253), split (255). *)
Inductive section_result :=
| SecDone (a : allocator) (offsets : list Z)   (* return at line 246 *)
| SecSplit (a : allocator)                     (* reaches line 255: unlock, recurse *)
| SecThrow                                     (* throw at line 180 *)
| SecAssert.                                   (* a failed assertion *)

(** The part of [new_blocks] executed under the lock,
    disk_block_allocator.hpp:161-253. *)
Definition new_blocks_section (a : allocator) (sizes : list Z) : section_result :=
  let requested := sum_sizes sizes in
  let grown :=
    if free_bytes a <? requested
    then (if autogrow a then grow_file a requested else Throw)
    else Ret a in
  match grown with
  | Throw => SecThrow
  | AssertFail => SecAssert
  | Ret a1 =>
      let space := find_region requested (free_space a1) in
      let retry :=
        match space, sizes with
        | None, [s] =>
            match grow_file a1 s with
            | Ret a2 => Ret (a2, find_region requested (free_space a2))
            | Throw => Throw
            | AssertFail => AssertFail
            end
        | _, _ => Ret (a1, space)
        end in
      match retry with
      | Throw => SecThrow
      | AssertFail => SecAssert
      | Ret (a2, Some (region_pos, region_size)) =>
          let m1 := map_erase region_pos (free_space a2) in
          let m2 := if requested <? region_size
                    then map_set (region_pos + requested) (region_size - requested) m1
                    else m1 in
          if free_bytes a2 <? requested then SecAssert       (* line 242 *)
          else
            SecDone {| free_space := m2; free_bytes := free_bytes a2 - requested;
                       disk_bytes := disk_bytes a2; cfg_bytes := cfg_bytes a2;
                       storage_size := storage_size a2; autogrow := autogrow a2 |}
                    (assign_offsets region_pos sizes)
      | Ret (a2, None) =>
          if 1 <? Z.of_nat (length sizes) then SecSplit a2 else SecAssert  (* line 253 *)
      end
  end.

(** Outcome of the complete (single threaded) [new_blocks].  [AllocThrow]
    carries the allocator because a recursive call may throw after other
    recursive calls have already allocated.
    disk_block_allocator.hpp lines 158-260. *)
Inductive alloc_result :=
| AllocOk (a : allocator) (offsets : list Z)
| AllocThrow (a : allocator)
| AllocAssert
| AllocFuel.

(** disk_block_allocator.hpp:158-260; recursion at lines 257-259.  [fuel]
    bounds the recursion depth; running out of it is the distinct outcome
    [AllocFuel]. *)
Fixpoint new_blocks_fuel (fuel : nat) (a : allocator) (sizes : list Z) : alloc_result :=
  match fuel with
  | O => AllocFuel
  | S f =>
      match new_blocks_section a sizes with
      | SecDone a' offs => AllocOk a' offs
      | SecThrow => AllocThrow a
      | SecAssert => AllocAssert
      | SecSplit a' =>
          let half := Nat.div2 (length sizes) in
          match new_blocks_fuel f a' (firstn half sizes) with
          | AllocOk a1 o1 =>
              match new_blocks_fuel f a1 (skipn half sizes) with
              | AllocOk a2 o2 => AllocOk a2 (o1 ++ o2)
              | r => r
              end
          | r => r
          end
      end
  end.

(** disk_block_allocator.hpp lines 94-98 and 158-260, with enough fuel: every split
    halves the batch. *)
Definition new_blocks (a : allocator) (sizes : list Z) : alloc_result :=
  new_blocks_fuel (S (length sizes)) a sizes.

(** A single-threaded client history: allocate a batch, or delete the i-th
    block that is currently live.  [client] pairs the allocator with the list
    of live blocks (offset, size) the client has been given; the list is the
    client's own record, not a data structure of the library.
    The calls are disk_block_allocator.hpp lines 94-101 and 103-120. *)
Inductive aop := OpNew (sizes : list Z) | OpDelete (i : nat).

(** Model device, see [aop] (disk_block_allocator.hpp lines 94-120). *)
Record client := mk_client { cl_alloc : allocator; cl_live : list (Z * Z) }.

(** Model device: the client forgets a deleted block (disk_block_allocator.hpp lines
    110-120). *)
Fixpoint remove_nth {A} (i : nat) (l : list A) : list A :=
  match l, i with
  | [], _ => []
  | _ :: r, O => r
  | x :: r, S i' => x :: remove_nth i' r
  end.

(** One call of disk_block_allocator.hpp lines 94-101 or 110-120. *)
Definition client_step (c : client) (o : aop) : client :=
  match o with
  | OpNew sizes =>
      match new_blocks (cl_alloc c) sizes with
      | AllocOk a offs => mk_client a (cl_live c ++ combine offs sizes)
      | AllocThrow a => mk_client a (cl_live c)
      | _ => c
      end
  | OpDelete i =>
      match nth_error (cl_live c) i with
      | Some (o, s) =>
          match delete_block (cl_alloc c) o s with
          | Ret a => mk_client a (remove_nth i (cl_live c))
          | _ => c
          end
      | None => c
      end
  end.

(** A sequence of calls of disk_block_allocator.hpp lines 94-120. *)
Definition client_run (c : client) (ops : list aop) : client :=
  fold_left client_step ops c.
