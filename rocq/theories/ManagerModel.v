(** Model of the block manager: several disks, one allocator each.

    Sources: /repo/foxxll/mng/block_manager.hpp (class 50-162, new_blocks 164-248,
             delete_block 250-268, delete_blocks 270-276),
             /repo/foxxll/mng/block_manager.cpp (constructor 33-84, counters 97-137),
             /repo/foxxll/mng/bid.hpp (BID 38-163).

    Every public function takes [mutex_] for its whole duration, so a history of
    calls is a sequence.  Simplifications: disk files are represented by their
    index; [file::discard] has no effect on the allocators and is left out;
    counters are unbounded integers. *)
From Coq Require Import ZArith List Bool.
From Verif Require Import AllocModel.
Import ListNotations.
Local Open Scope Z_scope.

(** bid.hpp lines 48, 116 [file* storage]: null, a file owned by the block manager
    ([get_allocator_id()] is the disk number), or any other file
    ([file::NO_ALLOCATOR]). *)
Inductive storage := NoStorage | Managed (disk : nat) | Unmanaged.

(** bid.hpp lines 38-163.  [b_tsize] is the template argument; for [b_tsize] > 0 the
    size is that constant, for [BID<0>] the size is a field. *)
Record bid := mk_bid {
  b_storage : storage; b_offset : Z; b_size : Z; b_tsize : Z
}.

(** bid.hpp lines 70-73 and 130-133. *)
Definition valid (b : bid) : bool :=
  match b_storage b with NoStorage => false | _ => true end.

(** Default constructed BID; for BID<0> the caller fills in the size.
    bid.hpp lines 52, 125. *)
Definition fresh_bid (tsize size : Z) : bid := mk_bid NoStorage 0 size tsize.

(** block_manager.hpp:133-152, the data members. *)
Record manager := mk_manager {
  m_allocs  : list allocator;
  m_total   : Z;
  m_current : Z;
  m_maximum : Z
}.

(** Constructor, block_manager.cpp:33-84: one allocator per configured disk
    (size, autogrow). *)
Fixpoint new_allocators (cfgs : list (Z * bool)) : outcome (list allocator) :=
  match cfgs with
  | [] => Ret []
  | (size, grow) :: r =>
      match new_allocator size grow, new_allocators r with
      | Ret a, Ret l => Ret (a :: l)
      | Throw, _ | _, Throw => Throw
      | _, _ => AssertFail
      end
  end.

(** Constructor, block_manager.cpp lines 33-84; the counters start at 0
    (block_manager.hpp lines 145-152). *)
Definition new_manager (cfgs : list (Z * bool)) : outcome manager :=
  match new_allocators cfgs with
  | Ret l => Ret (mk_manager l 0 0 0)
  | Throw => Throw
  | AssertFail => AssertFail
  end.

(** Model device for changing block_allocators_[d], block_manager.hpp line 143. *)
Fixpoint set_nth {A} (i : nat) (x : A) (l : list A) : list A :=
  match l, i with
  | [], _ => []
  | _ :: r, O => x :: r
  | y :: r, S i' => y :: set_nth i' x r
  end.

(** Model device: default element for lookups in block_allocators_, block_manager.hpp
    line 143. *)
Definition no_alloc : allocator := mk_allocator [] 0 0 0 0 false.

(** [block_allocators_[d]->has_available_space(disk_bytes[d] + bid->size)],
    block_manager.hpp:190-192 and 199-201. *)
Definition room (allocs : list allocator) (bytes : list Z) (d : nat) (size : Z) : bool :=
  has_available_space (nth d allocs no_alloc) (nth d bytes 0 + size).

(** The loop over [adv], block_manager.hpp:196-206: [adv] runs over
    [adv0 .. adv0+count-1]. *)
Fixpoint search_disk (allocs : list allocator) (bytes : list Z) (size : Z)
                     (disk adv count : nat) : nat :=
  match count with
  | O => disk
  | S c =>
      let t := Nat.modulo (disk + adv) (length allocs) in
      if room allocs bytes t size then t
      else search_disk allocs bytes size disk (S adv) c
  end.

(** Disk of one block, block_manager.hpp:188-209. *)
Definition choose_disk (allocs : list allocator) (bytes : list Z) (size : Z) (disk : nat) : nat :=
  if room allocs bytes disk size then disk
  else search_disk allocs bytes size disk 1 (length allocs - 1).

(** The first loop, block_manager.hpp:185-215: the disk of every block.  [i] is
    [alloc_offset + index].  A functor result outside the disks indexes the
    vectors out of range: [None]. *)
Fixpoint choose_disks (f : nat -> nat) (allocs : list allocator) (bytes : list Z)
                      (i : nat) (sizes : list Z) : option (list nat) :=
  match sizes with
  | [] => Some []
  | s :: r =>
      if Nat.ltb (f i) (length allocs) then
        let d := choose_disk allocs bytes s (f i) in
        match choose_disks f allocs (set_nth d (nth d bytes 0 + s) bytes) (S i) r with
        | Some ds => Some (d :: ds)
        | None => None
        end
      else None
  end.

(** [disk_out[d]], block_manager.hpp:178, 214: positions placed on disk d. *)
Definition indices_on (d : nat) (disks : list nat) : list nat :=
  filter (fun i => Nat.eqb (nth i disks (S d)) d) (seq 0 (length disks)).

(** block_manager.hpp:236-241: write offsets and storage back to the caller's
    range. *)
Fixpoint scatter (d : nat) (idxs : list nat) (offs : list Z) (bids : list bid) : list bid :=
  match idxs, offs with
  | i :: idxs', o :: offs' =>
      let b := nth i bids (fresh_bid 0 0) in
      scatter d idxs' offs' (set_nth i (mk_bid (Managed d) o (b_size b) (b_tsize b)) bids)
  | _, _ => bids
  end.

(** Outcome of [new_blocks]; a throw keeps the manager state and the contents of
    the caller's range at that moment.
    block_manager.hpp lines 164-248. *)
Inductive mresult :=
| MOk (m : manager) (bids : list bid)
| MThrow (m : manager) (bids : list bid)
| MBad.      (* failed assertion or out-of-range access *)

(** The second loop, block_manager.hpp:221-245. *)
Fixpoint alloc_on_disks (ds disks : list nat) (m : manager) (bids : list bid) : mresult :=
  match ds with
  | [] => MOk m bids
  | d :: ds' =>
      let idxs := indices_on d disks in
      match idxs with
      | [] => alloc_on_disks ds' disks m bids
      | _ :: _ =>
          match nth_error (m_allocs m) d with
          | None => MBad
          | Some a =>
              let sizes := map (fun i => b_size (nth i bids (fresh_bid 0 0))) idxs in
              match new_blocks a sizes with
              | AllocOk a' offs =>
                  alloc_on_disks ds' disks
                    (mk_manager (set_nth d a' (m_allocs m))
                                (m_total m + sum_sizes sizes)
                                (m_current m + sum_sizes sizes) (m_maximum m))
                    (scatter d idxs offs bids)
              | AllocThrow a' =>
                  MThrow (mk_manager (set_nth d a' (m_allocs m)) (m_total m) (m_current m)
                                     (m_maximum m)) bids
              | _ => MBad
              end
          end
      end
  end.

(** block_manager.hpp:164-248; the maximum is updated at line 247. *)
Definition manager_new_blocks (m : manager) (f : nat -> nat) (alloc_offset : nat)
                              (bids : list bid) : mresult :=
  let n := length (m_allocs m) in
  match choose_disks f (m_allocs m) (repeat 0 n) alloc_offset (map b_size bids) with
  | None => MBad
  | Some disks =>
      match alloc_on_disks (seq 0 n) disks m bids with
      | MOk m' bids' =>
          MOk (mk_manager (m_allocs m') (m_total m') (m_current m')
                          (Z.max (m_maximum m') (m_current m'))) bids'
      | r => r
      end
  end.

(** block_manager.hpp:250-268.  Line 267 subtracts the template argument. *)
Definition manager_delete_block (m : manager) (b : bid) : outcome manager :=
  match b_storage b with
  | NoStorage => Ret m
  | Unmanaged => Ret m
  | Managed d =>
      match nth_error (m_allocs m) d with
      | None => AssertFail
      | Some a =>
          match delete_block a (b_offset b) (b_size b) with
          | Ret a' => Ret (mk_manager (set_nth d a' (m_allocs m)) (m_total m)
                                      (m_current m - b_tsize b) (m_maximum m))
          | Throw => Throw
          | AssertFail => AssertFail
          end
      end
  end.

(** block_manager.hpp:270-276. *)
Fixpoint manager_delete_blocks (m : manager) (bids : list bid) : outcome manager :=
  match bids with
  | [] => Ret m
  | b :: r =>
      match manager_delete_block m b with
      | Ret m' => manager_delete_blocks m' r
      | Throw => Throw
      | AssertFail => AssertFail
      end
  end.

(** block_manager.cpp lines 97-107. *)
Definition manager_total_bytes (m : manager) : Z :=
  fold_right Z.add 0 (map disk_bytes (m_allocs m)).
(** block_manager.cpp lines 109-119. *)
Definition manager_free_bytes (m : manager) : Z :=
  fold_right Z.add 0 (map free_bytes (m_allocs m)).

(** A client of the manager.  [mc_held]: the valid block ids it has got and not
    deleted (a throwing call may have filled in some ids of the caller's range:
    they are included).  [mc_ever]: bytes allocated so far.  [mc_deleted0]:
    bytes of deleted variable-size blocks.
    Model device; the calls are block_manager.hpp lines 164-276. *)
Record mclient := mk_mclient {
  mc_m : manager; mc_held : list bid; mc_ever : Z; mc_deleted0 : Z
}.

(** [MNew tsize f alloc_offset sizes]: allocate default-constructed ids of type
    BID<tsize>; [MDelete i]: delete the i-th held block.
    block_manager.hpp lines 164-248 and 250-268. *)
Inductive mop :=
| MNew (tsize : Z) (f : nat -> nat) (alloc_offset : nat) (sizes : list Z)
| MDelete (i : nat).

(** Model device: bytes of a list of blocks, block_manager.hpp lines 242-243. *)
Definition sum_bids (l : list bid) : Z := fold_right Z.add 0 (map b_size l).

(** Outcome of one client operation: done, threw, or undefined behaviour.
    block_manager.hpp lines 164-276. *)
Inductive mstep := StepOk (c : mclient) | StepThrow (c : mclient) | StepBad.

(** A call of block_manager.hpp lines 164-248 or 250-268, and what the client keeps. *)
Definition mclient_step (c : mclient) (o : mop) : mstep :=
  match o with
  | MNew tsize f off sizes =>
      match manager_new_blocks (mc_m c) f off (map (fresh_bid tsize) sizes) with
      | MOk m bids =>
          let got := filter valid bids in
          StepOk (mk_mclient m (mc_held c ++ got) (mc_ever c + sum_bids got) (mc_deleted0 c))
      | MThrow m bids =>
          let got := filter valid bids in
          StepThrow (mk_mclient m (mc_held c ++ got) (mc_ever c + sum_bids got) (mc_deleted0 c))
      | MBad => StepBad
      end
  | MDelete i =>
      match nth_error (mc_held c) i with
      | None => StepOk c
      | Some b =>
          match manager_delete_block (mc_m c) b with
          | Ret m => StepOk (mk_mclient m (remove_nth i (mc_held c)) (mc_ever c)
                               (mc_deleted0 c + (b_size b - b_tsize b)))
          | Throw => StepThrow c
          | AssertFail => StepBad
          end
      end
  end.
