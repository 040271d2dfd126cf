(* What starting the block manager and the end of the program are compared with
   (C105, C106). *)
From Coq Require Import String Ascii List Arith Bool ZArith.
From Verif Require Import ConfigModel BootModel.
Import ListNotations.
Local Open Scope list_scope.

(* The kinds of disks, by their I/O implementation. *)
Definition checked (d : disk) : Prop := io_impl d = L "syscall" \/ io_impl d = L "linuxaio".
Definition on_file (d : disk) : Prop := checked d \/ io_impl d = L "mmap".
Definition per_block (d : disk) : Prop :=
  io_impl d = L "fileperblock_syscall" \/ io_impl d = L "fileperblock_mmap".
Definition in_memory (d : disk) : Prop := io_impl d = L "memory".

Section Spec.
Variable device : str -> option Z.

(* The disk is a device, and create_file looks whether it is one. *)
Definition on_device (d : disk) : Prop := checked d /\ device (path d) <> None.

(* The disk cannot be made ready, given what happens to it. *)
Definition bad (a : attempt) (d : disk) : Prop :=
  ~ (on_file d \/ per_block d \/ in_memory d)
  \/ ((on_file d \/ per_block d) /\ (a = ALock \/ exists made, a = AOpen made))
  \/ (checked d /\ raw_device d = true /\ device (path d) = None)
  \/ (on_device d /\ a = ASize)
  \/ (on_file d /\ unlink_on_open d = true /\ device (path d) = None /\ a = AUnlink)
  \/ a = AQueue
  \/ (a = AGrow /\ (on_device d -> device (path d) <> Some 0%Z)
                /\ (~ on_device d -> size d <> 0%Z)).

(* A descriptor is lost: open succeeded and the constructor of the file threw. *)
Definition loses (a : attempt) (d : disk) : Prop :=
  (on_file d \/ per_block d) /\ a = AOpen true.

(* What the settings [d] of disk number i are when it is ready, if they were [d0]. *)
Record ready_disk (i : nat) (d0 d : disk) : Prop := {
  rd_path : path d = path d0;
  rd_impl : io_impl d = io_impl d0;
  rd_direct : direct d = direct d0;
  rd_flash : flash d = flash d0;
  rd_queue_length : queue_length d = queue_length d0;
  rd_queue : queue d = if seq (io_impl d0) (L "linuxaio") then DEFAULT_LINUXAIO_QUEUE
                       else if (queue d0 =? DEFAULT_QUEUE)%Z then Z.of_nat i else queue d0;
  rd_device_id : device_id d0 <> DEFAULT_DEVICE_ID -> device_id d = device_id d0;
  rd_device : on_device d0 -> device (path d0) = Some (size d) /\ raw_device d = true
              /\ autogrow d = false /\ delete_on_exit d = false /\ unlink_on_open d = false;
  rd_file : ~ on_device d0 -> size d = size d0 /\ raw_device d = raw_device d0
            /\ autogrow d = autogrow d0 /\ delete_on_exit d = delete_on_exit d0
            /\ unlink_on_open d = unlink_on_open d0
}.

(* The name of the file of a disk that is ready. *)
Definition file_of (d : disk) (name : option str) : Prop :=
  (on_file d /\ (unlink_on_open d = false \/ device (path d) <> None) /\ name = Some (path d))
  \/ (on_file d /\ unlink_on_open d = true /\ device (path d) = None /\ name = None)
  \/ (per_block d /\ name = Some (lock_name (path d)))
  \/ (in_memory d /\ name = None).

(* Device ids are unsigned 32-bit numbers, and the counter for automatic ones does
   not stand at the number that means "automatic". *)
Definition ids_fit (c : config) : Prop :=
  (0 <= max_dev c < DEFAULT_DEVICE_ID)%Z
  /\ forall d, In d (disks c) -> (0 <= device_id d <= DEFAULT_DEVICE_ID)%Z.

(* The names that a disk may change while the program runs, and at its end. *)
Definition works_on (d : disk) (p : str) : Prop :=
  (on_file d /\ device p = None /\ p = path d)
  \/ (per_block d /\ (p = lock_name (path d) \/ exists off, p = block_name (path d) off)).
Definition concerns (d : disk) (p : str) : Prop :=
  works_on d p \/ (delete_on_exit d = true /\ p = path d).

(* Nothing but disk number i has to do with the name. *)
Definition alone (ds : list disk) (i : nat) (p : str) : Prop :=
  forall j d, j <> i -> nth_error ds j = Some d -> ~ concerns d p.
End Spec.
