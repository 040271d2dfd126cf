(** The block allocator and the block manager with the 64-bit arithmetic of the
    C++ code.  AllocModel.v and ManagerModel.v model the same functions with
    unbounded integers.

    Sources (in /repo/foxxll/mng):
      disk_block_allocator.hpp 50-120, 147-260, disk_block_allocator.cpp 65-153
      block_manager.hpp 164-276, block_manager.cpp 97-121

    All positions, sizes and counters are uint64_t (external_size_type,
    common/types.hpp:27); additions and subtractions wrap around.  The rest is as
    in the two models; [storage_size] is the argument of the last set_size. *)
From Coq Require Import ZArith List Bool.
From Verif Require Import AllocModel ManagerModel.
Import ListNotations.
Local Open Scope Z_scope.

(** Values of uint64_t (external_size_type), types.hpp line 27. *)
Definition W : Z := 2 ^ 64.
(** Reduction after each operation on uint64_t, types.hpp line 27. *)
Definition w (x : Z) : Z := x mod W.

(** disk_block_allocator.cpp:65-153. *)
Definition add_free_region64 (a : allocator) (block_pos block_size : Z) : outcome allocator :=
  let finish (m : space_map) (pos size : Z) :=
    Ret {| free_space := map_set pos size m;
           free_bytes := w (free_bytes a + block_size);
           disk_bytes := disk_bytes a;
           cfg_bytes := cfg_bytes a;
           storage_size := storage_size a;
           autogrow := autogrow a |} in
  let m := free_space a in
  match m with
  | [] => finish m block_pos block_size
  | _ :: _ =>
      let succ := upper_bound block_pos m in
      let before := entry_before block_pos m in
      let pred := match before with Some e => Some e | None => succ end in
      let succ_is_not_the_first :=
        match before with Some _ => true | None => false end in
      let bad_pred :=
        match pred with
        | Some (pp, ps) => (pp <=? block_pos) && (block_pos <? w (pp + ps))
        | None => false
        end in
      let bad_succ :=
        match succ with
        | Some (sp, ss) => (block_pos <=? sp) && (sp <? w (block_pos + block_size))
        | None => false
        end in
      if bad_pred then Throw
      else if bad_succ then Throw
      else
        match succ with
        | None =>
            match pred with
            | None => AssertFail
            | Some (pp, ps) =>
                if w (pp + ps) =? block_pos
                then finish (map_erase pp m) pp (w (block_size + ps))
                else finish m block_pos block_size
            end
        | Some (sp, ss) =>
            if (1 <? Z.of_nat (length m)) then
              let '(size1, m1) :=
                if sp =? w (block_pos + block_size)
                then (w (block_size + ss), map_erase sp m)
                else (block_size, m) in
              if succ_is_not_the_first then
                match pred with
                | None => AssertFail
                | Some (pp, ps) =>
                    if w (pp + ps) =? block_pos
                    then finish (map_erase pp m1) pp (w (size1 + ps))
                    else finish m1 block_pos size1
                end
              else finish m1 block_pos size1
            else
              if sp =? w (block_pos + block_size)
              then finish (map_erase sp m) block_pos (w (block_size + ss))
              else finish m block_pos block_size
        end
  end.

(** disk_block_allocator.hpp:147-155. *)
Definition grow_file64 (a : allocator) (extend : Z) : outcome allocator :=
  if extend =? 0 then Ret a
  else
    let a1 := {| free_space := free_space a; free_bytes := free_bytes a;
                 disk_bytes := disk_bytes a; cfg_bytes := cfg_bytes a;
                 storage_size := w (disk_bytes a + extend);
                 autogrow := autogrow a |} in
    match add_free_region64 a1 (disk_bytes a) extend with
    | Ret a2 =>
        Ret {| free_space := free_space a2; free_bytes := free_bytes a2;
               disk_bytes := w (disk_bytes a2 + extend); cfg_bytes := cfg_bytes a2;
               storage_size := storage_size a2; autogrow := autogrow a2 |}
    | Throw => Throw
    | AssertFail => AssertFail
    end.

(** disk_block_allocator.hpp:50-57. *)
Definition new_allocator64 (cfg_size : Z) (grow : bool) : outcome allocator :=
  grow_file64 {| free_space := []; free_bytes := 0; disk_bytes := 0;
                 cfg_bytes := cfg_size; storage_size := 0; autogrow := grow |}
              cfg_size.

(** disk_block_allocator.hpp:84-87. *)
Definition used_bytes64 (a : allocator) : Z := w (disk_bytes a - free_bytes a).

(** disk_block_allocator.hpp:111-120. *)
Definition delete_block64 (a : allocator) (offset size : Z) : outcome allocator :=
  add_free_region64 a offset size.

(** disk_block_allocator.hpp:161-167. *)
Definition sum_sizes64 (sizes : list Z) : Z :=
  fold_left (fun t s => w (t + s)) sizes 0.

(** disk_block_allocator.hpp:236-240. *)
Fixpoint assign_offsets64 (pos : Z) (sizes : list Z) : list Z :=
  match sizes with [] => [] | s :: r => pos :: assign_offsets64 (w (pos + s)) r end.

(** disk_block_allocator.hpp:161-253. *)
Definition new_blocks_section64 (a : allocator) (sizes : list Z) : section_result :=
  let requested := sum_sizes64 sizes in
  let grown :=
    if free_bytes a <? requested
    then (if autogrow a then grow_file64 a requested else Throw)
    else Ret a in
  match grown with
  | Throw => SecThrow
  | AssertFail => SecAssert
  | Ret a1 =>
      let space := find_region requested (free_space a1) in
      let retry :=
        match space, sizes with
        | None, [s] =>
            match grow_file64 a1 s with
            | Ret a2 => Ret (a2, find_region requested (free_space a2))
            | Throw => Throw
            | AssertFail => AssertFail
            end
        | _, _ => Ret (a1, space)
        end in
      match retry with
      | Throw => SecThrow
      | AssertFail => SecAssert
      | Ret (a2, Some (region_pos, region_size)) =>
          let m1 := map_erase region_pos (free_space a2) in
          let m2 := if requested <? region_size
                    then map_set (w (region_pos + requested)) (w (region_size - requested)) m1
                    else m1 in
          if free_bytes a2 <? requested then SecAssert
          else
            SecDone {| free_space := m2; free_bytes := w (free_bytes a2 - requested);
                       disk_bytes := disk_bytes a2; cfg_bytes := cfg_bytes a2;
                       storage_size := storage_size a2; autogrow := autogrow a2 |}
                    (assign_offsets64 region_pos sizes)
      | Ret (a2, None) =>
          if 1 <? Z.of_nat (length sizes) then SecSplit a2 else SecAssert
      end
  end.

(** disk_block_allocator.hpp:158-260. *)
Fixpoint new_blocks_fuel64 (fuel : nat) (a : allocator) (sizes : list Z) : alloc_result :=
  match fuel with
  | O => AllocFuel
  | S f =>
      match new_blocks_section64 a sizes with
      | SecDone a' offs => AllocOk a' offs
      | SecThrow => AllocThrow a
      | SecAssert => AllocAssert
      | SecSplit a' =>
          let half := Nat.div2 (length sizes) in
          match new_blocks_fuel64 f a' (firstn half sizes) with
          | AllocOk a1 o1 =>
              match new_blocks_fuel64 f a1 (skipn half sizes) with
              | AllocOk a2 o2 => AllocOk a2 (o1 ++ o2)
              | r => r
              end
          | r => r
          end
      end
  end.

(** disk_block_allocator.hpp lines 94-98 and 158-260, with enough fuel. *)
Definition new_blocks64 (a : allocator) (sizes : list Z) : alloc_result :=
  new_blocks_fuel64 (S (length sizes)) a sizes.

(** The client of AllocModel.v.
    disk_block_allocator.hpp lines 94-120. *)
Definition client_step64 (c : client) (o : aop) : client :=
  match o with
  | OpNew sizes =>
      match new_blocks64 (cl_alloc c) sizes with
      | AllocOk a offs => mk_client a (cl_live c ++ combine offs sizes)
      | AllocThrow a => mk_client a (cl_live c)
      | _ => c
      end
  | OpDelete i =>
      match nth_error (cl_live c) i with
      | Some (o, s) =>
          match delete_block64 (cl_alloc c) o s with
          | Ret a => mk_client a (remove_nth i (cl_live c))
          | _ => c
          end
      | None => c
      end
  end.

(** A sequence of calls of disk_block_allocator.hpp lines 94-120. *)
Definition client_run64 (c : client) (ops : list aop) : client :=
  fold_left client_step64 ops c.

(** * The manager *)

(** block_manager.cpp:33-84, as in ManagerModel.v. *)
Fixpoint new_allocators64 (cfgs : list (Z * bool)) : outcome (list allocator) :=
  match cfgs with
  | [] => Ret []
  | (size, grow) :: r =>
      match new_allocator64 size grow with
      | Ret a =>
          match new_allocators64 r with
          | Ret l => Ret (a :: l)
          | Throw => Throw
          | AssertFail => AssertFail
          end
      | Throw => Throw
      | AssertFail => AssertFail
      end
  end.

(** Constructor, block_manager.cpp lines 33-84. *)
Definition new_manager64 (cfgs : list (Z * bool)) : outcome manager :=
  match new_allocators64 cfgs with
  | Ret l => Ret (mk_manager l 0 0 0)
  | Throw => Throw
  | AssertFail => AssertFail
  end.

(** block_manager.hpp:190-192 and 199-201. *)
Definition room64 (allocs : list allocator) (bytes : list Z) (d : nat) (size : Z) : bool :=
  has_available_space (nth d allocs no_alloc) (w (nth d bytes 0 + size)).

(** block_manager.hpp:196-206. *)
Fixpoint search_disk64 (allocs : list allocator) (bytes : list Z) (size : Z)
                       (disk adv count : nat) : nat :=
  match count with
  | O => disk
  | S c =>
      let t := Nat.modulo (disk + adv) (length allocs) in
      if room64 allocs bytes t size then t
      else search_disk64 allocs bytes size disk (S adv) c
  end.

(** block_manager.hpp:188-209. *)
Definition choose_disk64 (allocs : list allocator) (bytes : list Z) (size : Z) (disk : nat) : nat :=
  if room64 allocs bytes disk size then disk
  else search_disk64 allocs bytes size disk 1 (length allocs - 1).

(** block_manager.hpp:185-215. *)
Fixpoint choose_disks64 (f : nat -> nat) (allocs : list allocator) (bytes : list Z)
                        (i : nat) (sizes : list Z) : option (list nat) :=
  match sizes with
  | [] => Some []
  | s :: r =>
      if Nat.ltb (f i) (length allocs) then
        let d := choose_disk64 allocs bytes s (f i) in
        match choose_disks64 f allocs (set_nth d (w (nth d bytes 0 + s)) bytes) (S i) r with
        | Some ds => Some (d :: ds)
        | None => None
        end
      else None
  end.

(** block_manager.hpp:221-245; the counters are increased block by block. *)
Fixpoint alloc_on_disks64 (ds disks : list nat) (m : manager) (bids : list bid) : mresult :=
  match ds with
  | [] => MOk m bids
  | d :: ds' =>
      let idxs := indices_on d disks in
      match idxs with
      | [] => alloc_on_disks64 ds' disks m bids
      | _ :: _ =>
          match nth_error (m_allocs m) d with
          | None => MBad
          | Some a =>
              let sizes := map (fun i => b_size (nth i bids (fresh_bid 0 0))) idxs in
              match new_blocks64 a sizes with
              | AllocOk a' offs =>
                  alloc_on_disks64 ds' disks
                    (mk_manager (set_nth d a' (m_allocs m))
                                (fold_left (fun t s => w (t + s)) sizes (m_total m))
                                (fold_left (fun t s => w (t + s)) sizes (m_current m)) (m_maximum m))
                    (scatter d idxs offs bids)
              | AllocThrow a' =>
                  MThrow (mk_manager (set_nth d a' (m_allocs m)) (m_total m) (m_current m)
                                     (m_maximum m)) bids
              | _ => MBad
              end
          end
      end
  end.

(** block_manager.hpp:164-248. *)
Definition manager_new_blocks64 (m : manager) (f : nat -> nat) (alloc_offset : nat)
                                (bids : list bid) : mresult :=
  let n := length (m_allocs m) in
  match choose_disks64 f (m_allocs m) (repeat 0 n) alloc_offset (map b_size bids) with
  | None => MBad
  | Some disks =>
      match alloc_on_disks64 (seq 0 n) disks m bids with
      | MOk m' bids' =>
          MOk (mk_manager (m_allocs m') (m_total m') (m_current m')
                          (Z.max (m_maximum m') (m_current m'))) bids'
      | r => r
      end
  end.

(** block_manager.hpp:250-268. *)
Definition manager_delete_block64 (m : manager) (b : bid) : outcome manager :=
  match b_storage b with
  | NoStorage => Ret m
  | Unmanaged => Ret m
  | Managed d =>
      match nth_error (m_allocs m) d with
      | None => AssertFail
      | Some a =>
          match delete_block64 a (b_offset b) (b_size b) with
          | Ret a' => Ret (mk_manager (set_nth d a' (m_allocs m)) (m_total m)
                                      (w (m_current m - b_tsize b)) (m_maximum m))
          | Throw => Throw
          | AssertFail => AssertFail
          end
      end
  end.

(** block_manager.cpp:97-121. *)
Definition manager_total_bytes64 (m : manager) : Z :=
  fold_left (fun t a => w (t + disk_bytes a)) (m_allocs m) 0.
(** block_manager.cpp lines 109-119. *)
Definition manager_free_bytes64 (m : manager) : Z :=
  fold_left (fun t a => w (t + free_bytes a)) (m_allocs m) 0.

(** The client of ManagerModel.v.
    block_manager.hpp lines 164-276. *)
Definition mclient_step64 (c : mclient) (o : mop) : mstep :=
  match o with
  | MNew tsize f off sizes =>
      match manager_new_blocks64 (mc_m c) f off (map (fresh_bid tsize) sizes) with
      | MOk m bids =>
          let got := filter valid bids in
          StepOk (mk_mclient m (mc_held c ++ got) (mc_ever c + sum_bids got) (mc_deleted0 c))
      | MThrow m bids =>
          let got := filter valid bids in
          StepThrow (mk_mclient m (mc_held c ++ got) (mc_ever c + sum_bids got) (mc_deleted0 c))
      | MBad => StepBad
      end
  | MDelete i =>
      match nth_error (mc_held c) i with
      | None => StepOk c
      | Some b =>
          match manager_delete_block64 (mc_m c) b with
          | Ret m => StepOk (mk_mclient m (remove_nth i (mc_held c)) (mc_ever c)
                               (mc_deleted0 c + (b_size b - b_tsize b)))
          | Throw => StepThrow c
          | AssertFail => StepBad
          end
      end
  end.
