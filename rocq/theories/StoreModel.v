(** Model of the whole block store: block manager, allocators, files and their
    contents, and requests under way.

    Sources: /repo/foxxll/mng/block_manager.cpp (constructor 33-84),
             /repo/foxxll/mng/block_manager.hpp (new_blocks 164-248,
             delete_block 250-268),
             /repo/foxxll/mng/disk_block_allocator.hpp (grow_file 147-155),
             /repo/foxxll/mng/bid.hpp (write and read of a BID 80-92, 140-152),
             /repo/foxxll/io/memory_file.cpp, syscall_file.cpp,
             fileperblock_file.cpp (serve, set_size, discard).

    The manager and its allocators are those of ManagerModel, the files those of
    FileModel.  New here: what is called on the files by the manager (set_size
    when an allocator grows, discard when a block is deleted), and requests that
    are submitted, stay pending and are served later, in any order.

    Simplifications: a request is served in one step (the files' mutexes, and
    one thread per queue); growing a file succeeds; several set_size calls of
    one allocation (each larger than the one before) are one call with the last
    size; every disk of type fileperblock has a directory of its own;
    [memory_file] is compiled with the clearing of freed memory. *)

From Coq Require Import String Ascii.
From Coq Require Import ZArith List Bool Arith.
From Verif Require Import AllocModel ManagerModel FileModel.
Import ListNotations.
Local Open Scope Z_scope.

(** What is behind a disk of the configuration: create_file.cpp.
    create_file.cpp lines 30-207; of the types modelled in FileModel.v. *)
Inductive disk :=
| DMem (f : mfile)
| DSys (f : list byte)
| DPer (prefix : string) (d : dir).

(** [storage_->set_size(n)], disk_block_allocator.hpp:152: memory_file.cpp:64-71,
    ufs_file_base.cpp:237-281, fileperblock_file.hpp:60. *)
Definition disk_set_size (k : disk) (n : nat) : disk :=
  match k with
  | DMem f => DMem (m_set_size f n)
  | DSys f => DSys (os_truncate f n)
  | DPer p d => DPer p d
  end.

(** Answers of the operating system while a request is served: to opening,
    resizing and transferring.
    syscall_file.cpp lines 40, 63, 97; ufs_file_base.cpp lines 34-128 (open), 267-279. *)
Record answers := mk_answers {
  an_open : nat -> answer; an_size : nat -> answer; an_xfer : nat -> answer
}.

(** How serving a request ends; [TBad]: access outside of a memory block.
    serving_request.cpp lines 40-63. *)
Inductive transfer := TOk (data : list (option byte)) | TError | TBad.

(** serve for READ: memory_file.cpp:26-41, syscall_file.cpp:28-118,
    fileperblock_file.cpp:70-79; the files are opened with CREAT | RDWR
    (block_manager.cpp line 57). *)
Definition disk_read (a : answers) (k : disk) (off n : nat) : transfer * disk :=
  match k with
  | DMem f => (match m_read f off n with Some b => TOk b | None => TBad end, k)
  | DSys f =>
      (match fst (serve_read (an_xfer a) f off n) with
       | Done b => TOk (map Some b) | _ => TError end, k)
  | DPer p d =>
      match p_read true false p (an_open a) (an_size a) (an_xfer a) d off n with
      | (Done b, d') => (TOk (map Some b), DPer p d')
      | (_, d') => (TError, DPer p d')
      end
  end.

(** serve for WRITE.
     memory_file.cpp lines 26-41, syscall_file.cpp lines 28-118, fileperblock_file.cpp
        lines 70-79. *)
Definition disk_write (a : answers) (k : disk) (off : nat) (data : list byte) : transfer * disk :=
  match k with
  | DMem f =>
      match m_write f off (map Some data) with
      | Some f' => (TOk [], DMem f')
      | None => (TBad, k)
      end
  | DSys f =>
      match fst (serve_write (an_xfer a) f off data) with
      | Done f' => (TOk [], DSys f')
      | IoError f' => (TError, DSys f')
      | Stuck => (TBad, k)
      end
  | DPer p d =>
      match p_write true false p (an_open a) (an_size a) (an_xfer a) d off data with
      | (Done _, d') => (TOk [], DPer p d')
      | (_, d') => (TError, DPer p d')
      end
  end.

(** discard, block_manager.hpp:265: memory_file.cpp:73-92 ([ba] is
    BlockAlignment), fileperblock_file.cpp:104-119, nothing for the others
    (file.hpp:159-163). *)
Definition disk_discard (ba : nat) (o : nat -> answer) (k : disk) (off n : nat) : option disk :=
  match k with
  | DMem f => option_map DMem (m_discard (S n) ba f off n)
  | DSys f => Some (DSys f)
  | DPer p d => Some (DPer p (p_discard p o d off))
  end.

(** Name of the lock file of a fileperblock_file, fileperblock_file.cpp:87-89. *)
Definition lock_name (prefix : string) : list ascii :=
  list_ascii_of_string prefix ++ list_ascii_of_string "_fpb_lock".

(** A request: request.hpp lines 62-71; the data of a write. *)
Record rq := mk_rq { rq_bid : bid; rq_data : option (list byte) }.

(** Model device: block_manager.hpp lines 133-152, the files and the requests submitted
    (request_queue_impl_qwqr.hpp lines 44-45). *)
Record store := mk_store {
  st_client : mclient; st_disks : list disk; st_pending : list rq
}.

(** The files follow the allocators: set_size was called for those that have
    grown, disk_block_allocator.hpp:152. *)
Fixpoint resize_all (old new : list allocator) (disks : list disk) : list disk :=
  match old, new, disks with
  | a :: old', a' :: new', k :: disks' =>
      (if storage_size a =? storage_size a' then k
       else disk_set_size k (Z.to_nat (storage_size a'))) :: resize_all old' new' disks'
  | _, _, _ => disks
  end.

(** The files as created by create_file, block_manager.cpp line 57: a memory file is
    empty, the others may contain something already. *)
Definition new_disk (k : disk) : Prop := match k with DMem f => f = m_init | _ => True end.

(** Constructor, block_manager.cpp lines 45-77: the allocators grow the files from 0
    to the configured sizes. *)
Definition open_store (cfgs : list (Z * bool)) (disks : list disk) : option store :=
  match new_manager cfgs with
  | Ret m =>
      Some (mk_store (mk_mclient m [] 0 0)
                     (resize_all (map (fun _ => no_alloc) (m_allocs m)) (m_allocs m) disks) [])
  | _ => None
  end.

(** What happens: calls of the client ([SServe]: a thread of the request queues
    takes the k-th pending request and serves it).
     block_manager.hpp lines 164-268, bid.hpp lines 80-92, request_queue_impl_qwqr.cpp
    lines 155-229. *)
Inductive sop :=
| SNew (tsize : Z) (f : nat -> nat) (alloc_offset : nat) (sizes : list Z)
| SDelete (o : nat -> answer) (i : nat)
| SWrite (i : nat) (data : list byte)
| SRead (i : nat)
| SServe (a : answers) (k : nat).

(** What can be seen of it.
     Model device: results of the calls of [sop] (block_manager.hpp lines 164-268,
        bid.hpp lines 80-92). *)
Inductive event :=
| EAlloc (bids : list bid)
| EDelete (b : bid)
| EWrite (b : bid) (data : list byte)
| ERead (b : bid)
| EWritten (b : bid) (ok : bool)
| EReadDone (b : bid) (data : option (list (option byte))).

(** bid.hpp line 48: storage. *)
Definition disk_of (b : bid) : nat := match b_storage b with Managed d => d | _ => 0%nat end.
(** bid.hpp line 50: offset. *)
Definition off_of (b : bid) : nat := Z.to_nat (b_offset b).
(** bid.hpp lines 43, 120: size. *)
Definition len_of (b : bid) : nat := Z.to_nat (b_size b).

(** One step; [None]: undefined behaviour.
    block_manager.hpp lines 164-268, bid.hpp lines 80-92, serving_request.cpp lines 40-63. *)
Definition store_step (ba : nat) (s : store) (o : sop) : option (store * event) :=
  let c := st_client s in
  match o with
  | SNew tsize f off sizes =>
      match mclient_step c (MNew tsize f off sizes) with
      | StepOk c' | StepThrow c' =>
          Some (mk_store c' (resize_all (m_allocs (mc_m c)) (m_allocs (mc_m c')) (st_disks s))
                         (st_pending s),
                EAlloc (skipn (length (mc_held c)) (mc_held c')))
      | StepBad => None
      end
  | SDelete os i =>
      match nth_error (mc_held c) i, mclient_step c (MDelete i) with
      | Some b, StepOk c' =>
          match nth_error (st_disks s) (disk_of b) with
          | Some k =>
              match disk_discard ba os k (off_of b) (len_of b) with
              | Some k' => Some (mk_store c' (set_nth (disk_of b) k' (st_disks s)) (st_pending s),
                                 EDelete b)
              | None => None
              end
          | None => None
          end
      | _, _ => None
      end
  | SWrite i data =>
      match nth_error (mc_held c) i with
      | Some b => Some (mk_store c (st_disks s) (st_pending s ++ [mk_rq b (Some data)]), EWrite b data)
      | None => None
      end
  | SRead i =>
      match nth_error (mc_held c) i with
      | Some b => Some (mk_store c (st_disks s) (st_pending s ++ [mk_rq b None]), ERead b)
      | None => None
      end
  | SServe a k =>
      match nth_error (st_pending s) k with
      | None => None
      | Some r =>
          let b := rq_bid r in
          let done disks := mk_store c disks (remove_nth k (st_pending s)) in
          match nth_error (st_disks s) (disk_of b), rq_data r with
          | None, _ => None
          | Some dk, Some data =>
              match disk_write a dk (off_of b) data with
              | (TOk _, dk') => Some (done (set_nth (disk_of b) dk' (st_disks s)), EWritten b true)
              | (TError, dk') => Some (done (set_nth (disk_of b) dk' (st_disks s)), EWritten b false)
              | (TBad, _) => None
              end
          | Some dk, None =>
              match disk_read a dk (off_of b) (len_of b) with
              | (TOk x, dk') => Some (done (set_nth (disk_of b) dk' (st_disks s)), EReadDone b (Some x))
              | (TError, dk') => Some (done (set_nth (disk_of b) dk' (st_disks s)), EReadDone b None)
              | (TBad, _) => None
              end
          end
      end
  end.
