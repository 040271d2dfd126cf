(** Allocation of blocks when enlarging a disk file fails.

    Sources: /repo/foxxll/mng/disk_block_allocator.hpp (grow_file 147-155,
             new_blocks 158-260), /repo/foxxll/mng/block_manager.hpp
             (new_blocks 164-248, delete_block 250-268).

    AllocModel and ManagerModel take [storage_->set_size] to succeed.  Here
    every call of [set_size] made by [grow_file] succeeds or throws [io_error]
    as an oracle says: [ok n] is the outcome of the n-th such call since the
    block manager was made.

    Simplifications: a call of [set_size] that throws has no effect; the
    constructor of the manager is the one of ManagerModel (its [set_size] calls
    succeed); everything else as in AllocModel and ManagerModel, whose
    functions that do not grow a file are used as they are. *)
From Coq Require Import ZArith List Bool.
From Verif Require Import AllocModel ManagerModel.
Import ListNotations.
Local Open Scope Z_scope.

Section Oracle.
Variable ok : nat -> bool.

(** disk_block_allocator.hpp:147-155.  The exception of line 152 leaves before
    [add_free_region] and before [disk_bytes_] changes.  The second component
    counts the calls of [set_size]. *)
Definition grow_file_f (n : nat) (a : allocator) (extend : Z) : outcome allocator * nat :=
  if extend =? 0 then (Ret a, n)
  else if ok n then (grow_file a extend, S n) else (Throw, S n).

(** Result of the critical section; a throw keeps the allocator.
    disk_block_allocator.hpp lines 169-255, with set_size (line 152) that may throw. *)
Inductive fsec :=
| FDone (a : allocator) (offsets : list Z)
| FSplit (a : allocator)
| FThrow (a : allocator)
| FAssert.

(** The part of [new_blocks] executed under the lock,
    disk_block_allocator.hpp:161-253. *)
Definition section_f (n : nat) (a : allocator) (sizes : list Z) : fsec * nat :=
  let requested := sum_sizes sizes in
  let '(grown, n1) :=
    if free_bytes a <? requested
    then (if autogrow a then grow_file_f n a requested else (Throw, n))
    else (Ret a, n) in
  match grown with
  | Throw => (FThrow a, n1)
  | AssertFail => (FAssert, n1)
  | Ret a1 =>
      let space := find_region requested (free_space a1) in
      let '(retry, n2) :=
        match space, sizes with
        | None, [s] =>
            let '(g, n2) := grow_file_f n1 a1 s in
            (match g with
             | Ret a2 => Ret (a2, find_region requested (free_space a2))
             | Throw => Throw
             | AssertFail => AssertFail
             end, n2)
        | _, _ => (Ret (a1, space), n1)
        end in
      (match retry with
       | Throw => FThrow a1
       | AssertFail => FAssert
       | Ret (a2, Some (region_pos, region_size)) =>
           let m1 := map_erase region_pos (free_space a2) in
           let m2 := if requested <? region_size
                     then map_set (region_pos + requested) (region_size - requested) m1
                     else m1 in
           if free_bytes a2 <? requested then FAssert
           else
             FDone {| free_space := m2; free_bytes := free_bytes a2 - requested;
                      disk_bytes := disk_bytes a2; cfg_bytes := cfg_bytes a2;
                      storage_size := storage_size a2; autogrow := autogrow a2 |}
                   (assign_offsets region_pos sizes)
       | Ret (a2, None) =>
           if 1 <? Z.of_nat (length sizes) then FSplit a2 else FAssert
       end, n2)
  end.

(** Outcome of [new_blocks].  A throw keeps the allocator and the offsets the
    recursive calls that returned have written to the caller's range, which are
    those of a prefix of the range.
    disk_block_allocator.hpp lines 158-260. *)
Inductive fresult :=
| FOk (a : allocator) (offsets : list Z)
| FFail (a : allocator) (written : list Z)
| FBad
| FFuel.

(** disk_block_allocator.hpp:158-260; the recursion is lines 257-259. *)
Fixpoint new_blocks_f (fuel n : nat) (a : allocator) (sizes : list Z) : fresult * nat :=
  match fuel with
  | O => (FFuel, n)
  | S f =>
      match section_f n a sizes with
      | (FDone a' offs, n1) => (FOk a' offs, n1)
      | (FThrow a', n1) => (FFail a' [], n1)
      | (FAssert, n1) => (FBad, n1)
      | (FSplit a', n1) =>
          let half := Nat.div2 (length sizes) in
          match new_blocks_f f n1 a' (firstn half sizes) with
          | (FOk a1 o1, n2) =>
              match new_blocks_f f n2 a1 (skipn half sizes) with
              | (FOk a2 o2, n3) => (FOk a2 (o1 ++ o2), n3)
              | (FFail a2 w, n3) => (FFail a2 (o1 ++ w), n3)
              | r => r
              end
          | r => r
          end
      end
  end.

(** Outcome of [block_manager::new_blocks].  A throw keeps the manager, the
    caller's range, and what the local vector [bids] (block_manager.hpp:219)
    held when it was destroyed: the blocks that had been given an offset. *)
Inductive fmresult :=
| FMOk (m : manager) (bids : list bid)
| FMThrow (m : manager) (bids dropped : list bid)
| FMBad.

(** block_manager.hpp:221-245. *)
Fixpoint alloc_on_disks_f (n : nat) (ds disks : list nat) (m : manager) (bids : list bid)
  : fmresult * nat :=
  match ds with
  | [] => (FMOk m bids, n)
  | d :: ds' =>
      let idxs := indices_on d disks in
      match idxs with
      | [] => alloc_on_disks_f n ds' disks m bids
      | _ :: _ =>
          match nth_error (m_allocs m) d with
          | None => (FMBad, n)
          | Some a =>
              let local := map (fun i => nth i bids (fresh_bid 0 0)) idxs in
              let sizes := map b_size local in
              match new_blocks_f (S (length sizes)) n a sizes with
              | (FOk a' offs, n1) =>
                  alloc_on_disks_f n1 ds' disks
                    (mk_manager (set_nth d a' (m_allocs m))
                                (m_total m + sum_sizes sizes)
                                (m_current m + sum_sizes sizes) (m_maximum m))
                    (scatter d idxs offs bids)
              | (FFail a' w, n1) =>
                  (FMThrow (mk_manager (set_nth d a' (m_allocs m)) (m_total m) (m_current m)
                                       (m_maximum m)) bids
                     (map (fun ob => mk_bid (Managed d) (fst ob) (b_size (snd ob)) (b_tsize (snd ob)))
                          (combine w local)), n1)
              | (_, n1) => (FMBad, n1)
              end
          end
      end
  end.

(** block_manager.hpp:164-248. *)
Definition manager_new_f (n : nat) (m : manager) (f : nat -> nat) (alloc_offset : nat)
                         (bids : list bid) : fmresult * nat :=
  let nd := length (m_allocs m) in
  match choose_disks f (m_allocs m) (repeat 0 nd) alloc_offset (map b_size bids) with
  | None => (FMBad, n)
  | Some disks =>
      match alloc_on_disks_f n (seq 0 nd) disks m bids with
      | (FMOk m' bids', n1) =>
          (FMOk (mk_manager (m_allocs m') (m_total m') (m_current m')
                            (Z.max (m_maximum m') (m_current m'))) bids', n1)
      | r => r
      end
  end.

(** A client of the manager.  [gc_held]: the valid ids it has and has not
    deleted, those a throwing call left in its range included.  [gc_lost]: the
    blocks that were in a local vector destroyed by an exception.  Nobody knows
    their offsets: no operation below uses this list, it is kept to speak about
    them.
    Model device; the calls are block_manager.hpp lines 164-248 and 250-276. *)
Record gclient := mk_gclient {
  gc_m : manager; gc_held : list bid; gc_lost : list bid; gc_calls : nat
}.

(** Outcome of a call of the manager: return, throw, failed assertion (block_manager.hpp
    lines 164-268). *)
Inductive gstep := GOk (c : gclient) | GThrow (c : gclient) | GBad.

(** The operations of ManagerModel's client, [mop].
    Calls of block_manager.hpp lines 164-248 and 250-268. *)
Definition gclient_step (c : gclient) (o : mop) : gstep :=
  match o with
  | MNew tsize f off sizes =>
      match manager_new_f (gc_calls c) (gc_m c) f off (map (fresh_bid tsize) sizes) with
      | (FMOk m bids, n) => GOk (mk_gclient m (gc_held c ++ filter valid bids) (gc_lost c) n)
      | (FMThrow m bids dropped, n) =>
          GThrow (mk_gclient m (gc_held c ++ filter valid bids) (gc_lost c ++ dropped) n)
      | (FMBad, _) => GBad
      end
  | MDelete i =>
      match nth_error (gc_held c) i with
      | None => GOk c
      | Some b =>
          match manager_delete_block (gc_m c) b with
          | Ret m => GOk (mk_gclient m (remove_nth i (gc_held c)) (gc_lost c) (gc_calls c))
          | Throw => GThrow c
          | AssertFail => GBad
          end
      end
  end.

End Oracle.
