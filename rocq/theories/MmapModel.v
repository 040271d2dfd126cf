(** Model of mmap_file, and of fileperblock_file on top of it.

    Sources: /repo/foxxll/io/mmap_file.cpp lines 26-69,
    /repo/foxxll/io/fileperblock_file.cpp lines 70-79; open, set_size: FileModel.v.

    Simplifications.
    - As in FileModel.v: regular files, unbounded offsets, one operation after
      the other, nobody else changes the file.
    - The part of the last page after the end of the file has unknown content
      when it is read ([tail]); what is written to it does not reach the file
      (POSIX).  Accessing a page that lies completely after the end raises SIGBUS.
    - munmap of a mapping that mmap returned does not fail. *)
From Coq Require Import String Ascii List Arith Bool ZArith.
From Verif Require Import FileModel.
Import ListNotations.
Local Open Scope list_scope.
Local Open Scope nat_scope.

(** What serve does: return, throw io_error, or the process is killed by
    SIGBUS.
    mmap_file.cpp lines 41, 52, 58, 62. *)
Inductive mm_out (X : Type) := MmDone (x : X) | MmThrow | MmKilled.
Arguments MmDone {X} x.
Arguments MmThrow {X}.
Arguments MmKilled {X}.

(** Access mode of the descriptor.
    ufs_file_base.cpp lines 38-51. *)
Inductive access := RdOnly | WrOnly | RdWr.

Section Mmap.
(** The page size. *)
Variable page : nat.

(** The size rounded up to pages.
    What is accessible after mmap, mmap_file.cpp line 37. *)
Definition mapped (size : nat) : nat := (size + (page - 1)) / page * page.

(** mmap, mmap_file.cpp line 37: it fails for an empty range and for offsets that are no
    multiple of the page size (EINVAL), for reading a write-only file and for
    writing to a shared mapping of a file that is not open for both (EACCES), and
    for other reasons ([os = Fail]). *)
Definition mmap_ok (os : answer) (a : access) (write : bool) (off n : nat) : bool :=
  match os with
  | Fail => false
  | Xfer _ =>
      (0 <? n) && (off mod page =? 0) &&
      match a, write with
      | RdOnly, false | RdWr, _ => true
      | _, _ => false
      end
  end.

(** serve, READ: mmap_file.cpp lines 36-69; [tail] is the rest of the last page. *)
Definition mm_read (os : answer) (a : access) (tail : nat -> Z) (f : list Z) (off n : nat)
  : mm_out (list Z) :=
  if mmap_ok os a false off n then
    if off + n <=? mapped (length f)
    then MmDone (get (f ++ map tail (seq 0 (mapped (length f) - length f))) off n)
    else MmKilled
  else MmThrow.

(** serve, WRITE.
    mmap_file.cpp lines 36-69. *)
Definition mm_write (os : answer) (a : access) (f : list Z) (off : nat) (d : list Z)
  : mm_out (list Z) :=
  if mmap_ok os a true off (length d) then
    if off + length d <=? mapped (length f)
    then MmDone (firstn (length f) (put (f ++ repeat 0%Z (mapped (length f) - length f)) off d))
    else MmKilled
  else MmThrow.

(** Operations on a file that is open for both.
    mmap_file.cpp lines 26-69, ufs_file_base.cpp lines 231-281. *)
Inductive mmop :=
| MmWrite (os : answer) (off : nat) (d : list Z)
| MmResize (o : nat -> answer) (n : nat).

(** A call of mmap_file.cpp lines 26-69 or ufs_file_base.cpp lines 231-281. *)
Definition mm_step (f : list Z) (op : mmop) : mm_out (list Z) :=
  match op with
  | MmWrite os off d => mm_write os RdWr f off d
  | MmResize o n => match set_size o f n with Done f' => MmDone f' | _ => MmThrow end
  end.

(** All operations return.
    mmap_file.cpp lines 26-69, ufs_file_base.cpp lines 231-281. *)
Fixpoint mm_run (f : list Z) (ops : list mmop) : option (list Z) :=
  match ops with
  | [] => Some f
  | op :: r => match mm_step f op with MmDone f' => mm_run f' r | _ => None end
  end.

(** fileperblock_file<mmap_file>::serve: open, set_size(bytes), serve at 0.
    fileperblock_file.cpp lines 70-79, mmap_file.cpp lines 26-69. *)
Definition pm_read (creat trunc : bool) (prefix : string) (oo os : nat -> answer) (ox : answer)
           (tail : nat -> Z) (d : dir) (off n : nat) : mm_out (list Z) * dir :=
  let name := file_name prefix off in
  match oo 0, open_file creat trunc d name with
  | Xfer _, Some c =>
      match set_size os c n with
      | Done c' => (mm_read ox RdWr tail c' 0 n, upd_dir d name (Some c'))
      | IoError c' => (MmThrow, upd_dir d name (Some c'))
      | Stuck => (MmThrow, d)
      end
  | _, _ => (MmThrow, d)
  end.

(** The same for WRITE: fileperblock_file.cpp lines 70-79, mmap_file.cpp lines 26-69. *)
Definition pm_write (creat trunc : bool) (prefix : string) (oo os : nat -> answer) (ox : answer)
           (d : dir) (off : nat) (data : list Z) : mm_out unit * dir :=
  let name := file_name prefix off in
  match oo 0, open_file creat trunc d name with
  | Xfer _, Some c =>
      match set_size os c (length data) with
      | Done c' =>
          match mm_write ox RdWr c' 0 data with
          | MmDone c'' => (MmDone tt, upd_dir d name (Some c''))
          | MmThrow => (MmThrow, upd_dir d name (Some c'))
          | MmKilled => (MmKilled, upd_dir d name (Some c'))
          end
      | IoError c' => (MmThrow, upd_dir d name (Some c'))
      | Stuck => (MmThrow, d)
      end
  | _, _ => (MmThrow, d)
  end.
End Mmap.
