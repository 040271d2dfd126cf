(* Starting the block manager (its constructor, with the files it opens), using
   it, and the end of the program, with everything that can fail on the way.

   Sources: foxxll/mng/block_manager.cpp 33-96, foxxll/io/create_file.cpp 44-209,
   foxxll/mng/config.cpp 53-64, 181-187, foxxll/mng/disk_block_allocator.hpp
   50-69, 147-155, foxxll/singleton.hpp 41-93.

   Simplifications: a file is its size; a name is a file (no links); the Unix
   classes; the contents are left out (C92), and so are the locks of other
   processes (C77), lack of permissions or of space: they are outcomes of an
   [attempt], which are arbitrary; memory does not run out; sizes are unbounded. *)
From Coq Require Import String Ascii List Arith Bool ZArith.
From Verif Require Import ConfigModel.
Import ListNotations.
Local Open Scope list_scope.

(* The I/O implementations that create_file tells apart
   (foxxll/io/create_file.cpp 74, 104, 113, 124, 161, 174, 205). *)
Inductive impl := KSyscall | KAio | KMmap | KPerBlock | KMemory | KUnknown.

(* foxxll/io/create_file.cpp 74, 104, 113, 124, 161, 174. *)
Definition impl_of (d : disk) : impl :=
  if seq (io_impl d) (L "syscall") then KSyscall
  else if seq (io_impl d) (L "fileperblock_syscall") then KPerBlock
  else if seq (io_impl d) (L "memory") then KMemory
  else if seq (io_impl d) (L "linuxaio") then KAio
  else if seq (io_impl d) (L "mmap") then KMmap
  else if seq (io_impl d) (L "fileperblock_mmap") then KPerBlock
  else KUnknown.

(* The lock file of a fileperblock_file (foxxll/io/fileperblock_file.cpp 87). *)
Definition lock_name (p : str) : str := p ++ L "_fpb_lock".
(* The file of a block (foxxll/io/fileperblock_file.cpp 61-68; the number is
   padded to 20 digits there, which C31 models). *)
Definition block_name (p : str) (off : N) : str := p ++ L "_fpb_" ++ print_int (Z.of_N off).

(* The files by name: their sizes (foxxll/io/ufs_file_base.cpp 100, 211-223).
   A device node is a name as well; its size here does not matter. *)
Definition files := str -> option Z.

(* One name changes: open with O_CREAT, ftruncate, remove, unlink
   (foxxll/io/ufs_file_base.cpp 100, 268, 293, 306). *)
Definition put (f : files) (p : str) (v : option Z) : files :=
  fun q => if seq p q then v else f q.
(* open with O_CREAT: a file that exists is kept
   (foxxll/io/ufs_file_base.cpp 53-56, 100; foxxll/mng/block_manager.cpp 57). *)
Definition touch (f : files) (p : str) : files :=
  match f p with Some _ => f | None => put f p (Some 0%Z) end.

(* What happens to one disk when the block manager starts: what may throw in
   create_file, make_queue and the block allocator.
   - [AOpen made]: the constructor of the file; [made]: open succeeded, and what
     follows failed (foxxll/io/ufs_file_base.cpp 100-128, 135-180);
   - [ALock]: what follows in lock() (create_file.cpp 80, 110, 135, 167, 180,
     fileperblock_file.cpp 91-101);
   - [ASize]: size() of a device (create_file.cpp 95, 150);
   - [AUnlink]: unlink (create_file.cpp 100, 155, 170);
   - [AQueue]: the queue (foxxll/mng/block_manager.cpp 74);
   - [AGrow]: set_size (disk_block_allocator.hpp 152);
   - [AFine]: nothing throws. *)
Inductive attempt := AOpen (made : bool) | ALock | ASize | AUnlink | AQueue | AGrow | AFine.

(* A file that is open: what disk it was opened for, the name it still has, if
   it has one, and disk_bytes_ of its allocator
   (foxxll/mng/block_manager.hpp 139-143, disk_block_allocator.hpp 131-133). *)
Record opened := Opened {
  o_disk : disk;
  o_name : option str;
  o_bytes : Z
}.

(* create_file.cpp 94-96, 149-151: it is a device of the given size. *)
Definition as_device (d : disk) (n : Z) : disk :=
  mkDisk (path d) n (io_impl d) false false (direct d) (flash d) (queue d) (device_id d)
         true false (queue_length d).

(* The result of create_file for one disk: None if it throws, the disk's
   configuration, the configuration, the files, and whether a descriptor stays
   open with nobody to close it (foxxll/io/create_file.cpp 44-209). *)
Record created := Created {
  r_file : option (option str);
  r_disk : disk;
  r_config : config;
  r_files : files;
  r_lost : bool
}.

Section Boot.
(* The environment of ConfigModel.v (foxxll/mng/config.cpp 66-131, 321-556). *)
Variable expand : str -> str.
Variable parse_size : str -> option Z.
Variable pid : Z.
Variable getenv : str -> option str.
Variable conf_files : str -> option str.
(* Which names are block devices, and their sizes (foxxll/io/ufs_file_base.cpp 151). *)
Variable device : str -> option Z.

(* open of the disk's file: a device exists already (ufs_file_base.cpp 100). *)
Definition open_name (f : files) (p : str) : files :=
  match device p with Some _ => f | None => touch f p end.

(* create_file of a ufs file: syscall, linuxaio (which check for devices)
   and mmap (which does not).  foxxll/io/create_file.cpp 74-103, 124-172.  If
   the constructor throws after open, there is no destructor to close the
   descriptor (C77_leak). *)
Definition create_ufs (checks : bool) (a : attempt) (d : disk) (c : config) (f : files) : created :=
  match a with
  | AOpen made => Created None d c (if made then open_name f (path d) else f) made
  | ALock => Created None d c (open_name f (path d)) false
  | _ =>
      let f1 := open_name f (path d) in
      let dev := device (path d) in
      if checks && raw_device d && match dev with Some _ => false | None => true end
      then Created None d c f1 false
      else
        match (if checks then dev else None) with
        | Some n =>
            match a with
            | ASize => Created None (set_raw d true) c f1 false
            | _ => Created (Some (Some (path d))) (as_device d n) c f1 false
            end
        | None =>
            if unlink_on_open d then
              match dev with
              | Some _ => Created (Some (Some (path d))) d c f1 false
              | None =>
                  match a with
                  | AUnlink => Created None d c f1 false
                  | _ => Created (Some None) d c (put f1 (path d) None) false
                  end
              end
            else Created (Some (Some (path d))) d c f1 false
        end
  end.

(* foxxll/io/create_file.cpp 44-209.  A fileperblock_file that cannot be locked
   dies and removes the lock file, if it got as far as to open it
   (fileperblock_file.cpp 54-59, 81-102). *)
Definition create_file (a : attempt) (d0 : disk) (c0 : config) (f : files) : created :=
  let '(dev, c) := assign_device_id c0 (device_id d0) in
  let d := set_device d0 dev in
  match impl_of d with
  | KSyscall => create_ufs true a d c f
  | KAio => create_ufs true a (set_queue d DEFAULT_LINUXAIO_QUEUE) c f
  | KMmap => create_ufs false a d c f
  | KPerBlock =>
      match a with
      | AOpen made => Created None d c (if made then touch f (lock_name (path d)) else f) made
      | ALock => Created None d c (put f (lock_name (path d)) None) false
      | _ => Created (Some (Some (lock_name (path d)))) d c
                     (put f (lock_name (path d)) (Some 4096%Z)) false
      end
  | KMemory => Created (Some None) d c f false
  | KUnknown => Created None d c f false
  end.

(* file::set_size of the file of a disk: only ufs files that are no devices
   change (ufs_file_base.cpp 237-281, fileperblock_file.hpp 60, memory_file.cpp 64-71). *)
Definition set_size (d : disk) (name : option str) (n : Z) (f : files) : files :=
  match impl_of d, name with
  | (KSyscall | KAio | KMmap), Some p =>
      match device p with Some _ => f | None => put f p (Some n) end
  | _, _ => f
  end.

(* The end of a file object: close; the lock file of a fileperblock_file is
   removed (ufs_file_base.cpp 130-133, 283-296, fileperblock_file.cpp 54-59). *)
Definition close_file (o : opened) (f : files) : files :=
  match impl_of (o_disk o) with
  | KPerBlock => put f (lock_name (path (o_disk o))) None
  | _ => f
  end.

(* When the constructor of the block manager throws, its members are destroyed:
   the files are closed; the allocators are not deleted, as they are behind
   plain pointers (block_manager.hpp 139-143). *)
Fixpoint close_all (l : list opened) (f : files) : files :=
  match l with
  | [] => f
  | o :: l => close_all l (close_file o f)
  end.

(* The queue number of disk i, block_manager.cpp 52-53. *)
Definition own_queue (i : nat) (d : disk) : disk :=
  if (queue d =? DEFAULT_QUEUE)%Z then set_queue d (Z.of_nat i) else d.

(* The disks of the configuration with the i-th one changed: [cfg] in the
   constructor is a reference (block_manager.cpp 49). *)
Fixpoint upd (i : nat) (d : disk) (l : list disk) : list disk :=
  match l, i with
  | [], _ => []
  | _ :: l, O => d :: l
  | x :: l, S i => x :: upd i d l
  end.

(* A configuration with other disks (config.hpp 119-128, 175; block_manager.cpp 49). *)
Definition with_disks (c : config) (l : list disk) : config :=
  mkConfig l (first_flash c) (is_initialized c) (max_dev c).

(* How the constructor ends: with an exception after that many disks were
   ready, with a descriptor lost or not, or with all disks ready
   (block_manager.cpp 47-77). *)
Inductive outcome := Failed (ready : nat) (lost : bool) | Ready (l : list opened).

(* The loop of the constructor, from disk i on; [todo]: how many disks remain,
   [l]: the files and allocators so far (block_manager.cpp 47-77;
   disk_block_allocator.hpp 50-57, 147-155). *)
Fixpoint open_disks (todo i : nat) (e : nat -> attempt) (l : list opened) (c : config) (f : files)
  : outcome * config * files :=
  match todo with
  | O => (Ready l, c, f)
  | S todo =>
      match nth_error (disks c) i with
      | None => (Ready l, c, f)
      | Some d0 =>
          let r := create_file (e i) (own_queue i d0) c f in
          let c1 := with_disks (r_config r) (upd i (r_disk r) (disks (r_config r))) in
          match r_file r with
          | None => (Failed i (r_lost r), c1, close_all l (r_files r))
          | Some name =>
              let o := Opened (r_disk r) name (size (r_disk r)) in
              match e i with
              | AQueue => (Failed i false, c1, close_all (l ++ [o]) (r_files r))
              | a =>
                  if (size (r_disk r) =? 0)%Z
                  then open_disks todo (S i) e (l ++ [o]) c1 (r_files r)
                  else
                    match a with
                    | AGrow => (Failed i false, c1, close_all (l ++ [o]) (r_files r))
                    | _ => open_disks todo (S i) e (l ++ [o]) c1
                             (set_size (r_disk r) name (size (r_disk r)) (r_files r))
                    end
              end
          end
      end
  end.

(* The process: the configuration, the files, the block manager if its
   singleton has one, and how many block allocators and descriptors exist that
   nobody can reach any more (singleton.hpp 66, block_manager.hpp 136-143). *)
Record state := State {
  s_config : config;
  s_files : files;
  s_manager : option (list opened);
  s_allocators : nat;
  s_descriptors : nat
}.

(* block_manager::get_instance(): constructs if there is none; if the
   constructor throws, the pointer stays null (singleton.hpp 41-47, 72-84,
   block_manager.cpp 33-84).  The flag: it returns normally. *)
Definition start (e : nat -> attempt) (s : state) : bool * state :=
  match s_manager s with
  | Some _ => (true, s)
  | None =>
      let '(ok, c) := check_initialized expand parse_size pid getenv conf_files (s_config s) in
      if ok then
        match open_disks (length (disks c)) 0 e [] c (s_files s) with
        | (Ready l, c1, f1) => (true, State c1 f1 (Some l) (s_allocators s) (s_descriptors s))
        | (Failed n lost, c1, f1) =>
            (false, State c1 f1 None (s_allocators s + n)
                          (if lost then S (s_descriptors s) else s_descriptors s))
        end
      else (false, State c (s_files s) None (s_allocators s) (s_descriptors s))
  end.

(* disk_block_allocator::grow_file of disk i by n bytes
   (disk_block_allocator.hpp 147-155); a call that throws changes nothing. *)
Definition grow (i : nat) (n : N) (s : state) : state :=
  match s_manager s with
  | None => s
  | Some l =>
      match nth_error l i with
      | None => s
      | Some o =>
          if (n =? 0)%N then s
          else
            let b := (o_bytes o + Z.of_N n)%Z in
            State (s_config s) (set_size (o_disk o) (o_name o) b (s_files s))
                  (Some (firstn i l ++ Opened (o_disk o) (o_name o) b :: skipn (S i) l))
                  (s_allocators s) (s_descriptors s)
      end
  end.

(* A block of disk i is read or written: a fileperblock_file makes a file for it
   (fileperblock_file.cpp 70-79); other files keep their size (C92). *)
Definition serve (i : nat) (off n : N) (s : state) : state :=
  match s_manager s with
  | None => s
  | Some l =>
      match nth_error l i with
      | None => s
      | Some o =>
          match impl_of (o_disk o) with
          | KPerBlock =>
              State (s_config s)
                    (put (s_files s) (block_name (path (o_disk o)) off) (Some (Z.of_N n)))
                    (s_manager s) (s_allocators s) (s_descriptors s)
          | _ => s
          end
      end
  end.

(* A block of disk i is deleted: a fileperblock_file removes its file
   (fileperblock_file.cpp 104-119). *)
Definition discard (i : nat) (off : N) (s : state) : state :=
  match s_manager s with
  | None => s
  | Some l =>
      match nth_error l i with
      | None => s
      | Some o =>
          match impl_of (o_disk o) with
          | KPerBlock =>
              State (s_config s) (put (s_files s) (block_name (path (o_disk o)) off) None)
                    (s_manager s) (s_allocators s) (s_descriptors s)
          | _ => s
          end
      end
  end.

(* The destructor of the block allocator of an open file, then of the file
   (disk_block_allocator.hpp 64-69; block_manager.cpp 92-93).  cfg_bytes_ is
   the size of the disk when it was opened (disk_block_allocator.hpp 51). *)
Definition end_disk (o : opened) (f : files) : files :=
  close_file o (if (size (o_disk o) <? o_bytes o)%Z
                then set_size (o_disk o) (o_name o) (size (o_disk o)) f else f).

(* block_manager::~block_manager, from the last disk to the first
   (block_manager.cpp 86-95).  The list is the reversed one. *)
Fixpoint end_disks (l : list opened) (f : files) : files :=
  match l with
  | [] => f
  | o :: l => end_disks l (end_disk o f)
  end.

(* config::~config (config.cpp 53-64); unlink of a name that does not exist
   fails without effect. *)
Fixpoint remove_disks (l : list disk) (f : files) : files :=
  match l with
  | [] => f
  | d :: l => remove_disks l (if delete_on_exit d then put f (path d) None else f)
  end.

(* The files after the end of the program: the block manager was constructed
   after the configuration and dies before it (singleton.hpp 72-93; C70;
   block_manager.cpp 86-95, config.cpp 53-64). *)
Definition finish (s : state) : files :=
  remove_disks (disks (s_config s))
    (match s_manager s with Some l => end_disks (rev l) (s_files s) | None => s_files s end).

(* What a program does: config.cpp 181-187, singleton.hpp 41-47,
   disk_block_allocator.hpp 147-155, fileperblock_file.cpp 70-79, 104-119. *)
Inductive op :=
| OAdd (d : disk)
| OStart (e : nat -> attempt)
| OGrow (i : nat) (n : N)
| OServe (i : nat) (off n : N)
| ODiscard (i : nat) (off : N).

(* config.cpp 181-187, singleton.hpp 41-47, disk_block_allocator.hpp 147-155,
   fileperblock_file.cpp 70-79, 104-119. *)
Definition do (o : op) (s : state) : state :=
  match o with
  | OAdd d => State (add_disk (s_config s) d) (s_files s) (s_manager s) (s_allocators s)
                    (s_descriptors s)
  | OStart e => snd (start e s)
  | OGrow i n => grow i n s
  | OServe i off n => serve i off n s
  | ODiscard i off => discard i off s
  end.

(* A program: these calls in any order.  config.cpp 181-187, singleton.hpp
   41-47, disk_block_allocator.hpp 147-155, fileperblock_file.cpp 70-79, 104-119. *)
Fixpoint run (l : list op) (s : state) : state :=
  match l with [] => s | o :: l => run l (do o s) end.
End Boot.
