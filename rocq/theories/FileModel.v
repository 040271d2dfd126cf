(** Model of the file implementations memory_file, syscall_file (with the parts
    of ufs_file_base it uses) and fileperblock_file.

    Sources: /repo/foxxll/io/memory_file.cpp lines 26-93,
    /repo/foxxll/io/syscall_file.cpp lines 28-118,
    /repo/foxxll/io/ufs_file_base.cpp lines 211-281 (_size, _set_size),
    /repo/foxxll/io/fileperblock_file.cpp lines 61-119.

    Simplifications.
    - Bytes are integers; offsets and sizes are unbounded natural numbers.
    - Each of these functions holds the mutex of its file, so that they are
      executed one after the other; nobody else changes the files.
    - Memory that was never written is [None]: its value is not known.
      realloc does not fail.
    - The operating system may fail in every call and may transfer fewer bytes
      than requested; this is decided by an arbitrary oracle. Apart from that
      the system keeps files as POSIX says: writing after the end and growing
      with ftruncate fill with zeros.
    - Files are regular files that are not opened read-only; direct I/O,
      statistics and locks are not modelled. *)

From Coq Require Import String Ascii List Arith Bool ZArith NArith DecimalN.
Import ListNotations.
Local Open Scope list_scope.
Local Open Scope nat_scope.

Notation byte := Z (only parsing).

(** [put l off d]: the bytes [d] replace those of [l] from position [off] on.
     memcpy to a part of a buffer, memory_file.cpp lines 39, 81, 87; also a write to a
        file, syscall_file.cpp line 97. *)
Definition put {X} (l : list X) (off : nat) (d : list X) : list X :=
  firstn off l ++ d ++ skipn (off + length d) l.

(** [get l off n]: n elements from position off.
     memcpy from a part of a buffer, memory_file.cpp line 34; also a read,
        syscall_file.cpp line 63. *)
Definition get {X} (l : list X) (off n : nat) : list X := firstn n (skipn off l).

(** ** memory_file *)

(** The memory block ptr_ of size_ bytes.
    memory_file.hpp lines 31-38; a byte is None while it has not been initialised. *)
Definition mfile := list (option byte).

(** Member initialisers of memory_file.hpp: null pointer, size 0. *)
Definition m_init : mfile := [].

(** serve, READ, memory_file.cpp line 34. [None]: memcpy reads outside of the memory block. *)
Definition m_read (f : mfile) (off n : nat) : option (list (option byte)) :=
  if off + n <=? length f then Some (get f off n) else None.

(** serve, WRITE, memory_file.cpp line 39. *)
Definition m_write (f : mfile) (off : nat) (d : list (option byte)) : option mfile :=
  if off + length d <=? length f then Some (put f off d) else None.

(** set_size, memory_file.cpp lines 64-71. *)
Definition m_set_size (f : mfile) (n : nat) : mfile :=
  firstn n f ++ repeat None (n - length f).

(** discard, memory_file.cpp lines 80-87: the loop with memcpy from an uninitialised buffer of
    [ba] = BlockAlignment bytes. *)
Fixpoint m_discard (fuel ba : nat) (f : mfile) (off size : nat) : option mfile :=
  match fuel with
  | O => None
  | S fuel' =>
      if ba <=? size then
        match m_write f off (repeat None ba) with
        | Some f' => m_discard fuel' ba f' (off + ba) (size - ba)
        | None => None
        end
      else if 0 <? size then m_write f off (repeat None size)
      else Some f
  end.

(** What the users of a memory file do.
    memory_file.cpp lines 26-41, 64-71, 73-93. *)
Inductive mop :=
| MWrite (off : nat) (d : list (option byte))
| MResize (n : nat)
| MDiscard (off n : nat).

(** A call of memory_file.cpp lines 26-41, 64-71 or 73-93. *)
Definition m_step (ba : nat) (f : mfile) (o : mop) : option mfile :=
  match o with
  | MWrite off d => m_write f off d
  | MResize n => Some (m_set_size f n)
  | MDiscard off n => m_discard (S n) ba f off n
  end.

(** Calls in sequence, memory_file.cpp lines 26-93 (all take the mutex). *)
Fixpoint m_run (ba : nat) (f : mfile) (ops : list mop) : option mfile :=
  match ops with
  | [] => Some f
  | o :: ops' => match m_step ba f o with Some f' => m_run ba f' ops' | None => None end
  end.

(** ** syscall_file *)

(** Answer of the operating system to a call: failure, or success and how much
    it is willing to transfer.
    syscall_file.cpp lines 40, 63, 97; ufs_file_base.cpp lines 217, 268, 277. *)
Inductive answer := Fail | Xfer (k : nat).

(** What a function of the file class does: return, throw io_error; [Stuck]:
    the fuel of the model was not sufficient.
    syscall_file.cpp lines 43, 66, 100; ufs_file_base.cpp lines 267, 276. *)
Inductive outcome (X : Type) := Done (x : X) | IoError (x : X) | Stuck.
Arguments Done {X} x.
Arguments IoError {X} x.
Arguments Stuck {X}.

(** A write of the operating system.
    syscall_file.cpp line 97. *)
Definition os_write (f : list byte) (off : nat) (d : list byte) : list byte :=
  put (f ++ repeat 0%Z (off - length f)) off d.

(** serve, READ: the loop of syscall_file.cpp lines 38-90. [o] answers the calls, [p] counts
    them; [acc] is the part of the buffer that has been filled.  The result is
    the content of the buffer and the number of calls. *)
Fixpoint s_read (fuel : nat) (o : nat -> answer) (p : nat) (f : list byte) (off n : nat)
         (acc : list byte) : outcome (list byte) * nat :=
  match fuel with
  | O => (Stuck, p)
  | S fuel' =>
      if n =? 0 then (Done acc, p) else
      match o p with                                              (* lseek *)
      | Fail => (IoError acc, S p)
      | Xfer _ =>
          match o (S p) with                                      (* read *)
          | Fail => (IoError acc, S (S p))
          | Xfer k =>
              let rc := min k (min n (length f - off)) in
              if rc =? 0 then (IoError acc, S (S p)) else
              let acc' := acc ++ get f off rc in
              if 0 <? n - rc then
                match o (S (S p)) with                            (* _size *)
                | Fail => (IoError acc', S (S (S p)))
                | Xfer _ =>
                    if off + rc =? length f
                    then (Done (acc' ++ repeat 0%Z (n - rc)), S (S (S p)))
                    else s_read fuel' o (S (S (S p))) f (off + rc) (n - rc) acc'
                end
              else s_read fuel' o (S (S p)) f (off + rc) (n - rc) acc'
          end
      end
  end.

(** serve, WRITE: syscall_file.cpp lines 92-117. The result is the new file and the number of
    calls. *)
Fixpoint s_write (fuel : nat) (o : nat -> answer) (p : nat) (f : list byte) (off : nat)
         (d : list byte) : outcome (list byte) * nat :=
  match fuel with
  | O => (Stuck, p)
  | S fuel' =>
      if length d =? 0 then (Done f, p) else
      match o p with                                              (* lseek *)
      | Fail => (IoError f, S p)
      | Xfer _ =>
          match o (S p) with                                      (* write *)
          | Fail => (IoError f, S (S p))
          | Xfer k =>
              let rc := min k (length d) in
              if rc =? 0 then (IoError f, S (S p)) else
              s_write fuel' o (S (S p)) (os_write f off (firstn rc d)) (off + rc) (skipn rc d)
          end
      end
  end.

(** The two cases of serve; one more iteration than bytes is enough.
    syscall_file.cpp lines 28-118. *)
Definition serve_read (o : nat -> answer) (f : list byte) (off n : nat) : outcome (list byte) * nat :=
  s_read (S n) o 0 f off n [].
(** syscall_file.cpp lines 28-118, WRITE, with enough fuel. *)
Definition serve_write (o : nat -> answer) (f : list byte) (off : nat) (d : list byte)
  : outcome (list byte) * nat :=
  s_write (S (length d)) o 0 f off d.

(** _set_size (ufs_file_base.cpp lines 237-281): ftruncate. *)
Definition os_truncate (f : list byte) (n : nat) : list byte :=
  firstn n f ++ repeat 0%Z (n - length f).

(** ufs_file_base.cpp lines 231-281. *)
Definition set_size (o : nat -> answer) (f : list byte) (n : nat) : outcome (list byte) :=
  match o 0 with                                                  (* _size *)
  | Fail => IoError f
  | Xfer _ =>
      match o 1 with                                              (* ftruncate *)
      | Fail => IoError f
      | Xfer _ =>
          if length f <? n then
            match o 2 with                                        (* lseek *)
            | Fail => IoError (os_truncate f n)
            | Xfer _ => Done (os_truncate f n)
            end
          else Done (os_truncate f n)
      end
  end.

(** What the users of a syscall file do, with the answers of the system.
    syscall_file.cpp lines 28-118, ufs_file_base.cpp lines 231-281. *)
Inductive sop :=
| SWrite (o : nat -> answer) (off : nat) (d : list byte)
| SResize (o : nat -> answer) (n : nat).

(** A call of syscall_file.cpp lines 28-118 or ufs_file_base.cpp lines 231-281. *)
Definition s_step (f : list byte) (op : sop) : outcome (list byte) :=
  match op with
  | SWrite o off d => fst (serve_write o f off d)
  | SResize o n => set_size o f n
  end.

(** All operations succeed.
    syscall_file.cpp lines 28-118, ufs_file_base.cpp lines 231-281. *)
Fixpoint s_run (f : list byte) (ops : list sop) : option (list byte) :=
  match ops with
  | [] => Some f
  | op :: ops' => match s_step f op with Done f' => s_run f' ops' | _ => None end
  end.

(** ** fileperblock_file *)

(** Decimal digits, as std::ostream prints an unsigned number.
    fileperblock_file.cpp line 66. *)
Fixpoint digits (u : Decimal.uint) : list ascii :=
  match u with
  | Decimal.Nil => []
  | Decimal.D0 u => "0"%char :: digits u
  | Decimal.D1 u => "1"%char :: digits u
  | Decimal.D2 u => "2"%char :: digits u
  | Decimal.D3 u => "3"%char :: digits u
  | Decimal.D4 u => "4"%char :: digits u
  | Decimal.D5 u => "5"%char :: digits u
  | Decimal.D6 u => "6"%char :: digits u
  | Decimal.D7 u => "7"%char :: digits u
  | Decimal.D8 u => "8"%char :: digits u
  | Decimal.D9 u => "9"%char :: digits u
  end.

(** Decimal representation of an offset, fileperblock_file.cpp line 66. *)
Definition decimal (n : nat) : list ascii := digits (N.to_uint (N.of_nat n)).

(** filename_for_block, fileperblock_file.cpp lines 61-68. *)
Definition file_name (prefix : string) (off : nat) : list ascii :=
  list_ascii_of_string prefix ++ list_ascii_of_string "_fpb_" ++
  repeat "0"%char (20 - length (decimal off)) ++ decimal off.

(** The directory: content of the files that exist.
    Named by fileperblock_file.cpp lines 61-68. *)
Definition dir := list ascii -> option (list byte).

(** Model device: one file of the directory changes (fileperblock_file.cpp lines 75-78,
    113). *)
Definition upd_dir (d : dir) (n : list ascii) (c : option (list byte)) : dir :=
  fun m => if list_eq_dec ascii_dec m n then c else d m.

(** The base file is opened, ufs_file_base.cpp lines 33-128, with the flags
    CREAT and TRUNC; [None]: open fails. *)
Definition open_file (creat trunc : bool) (d : dir) (n : list ascii) : option (list byte) :=
  match d n with
  | Some c => Some (if trunc then [] else c)
  | None => if creat then Some [] else None
  end.

(** serve, fileperblock_file.cpp lines 70-79, for READ: the bytes read and the new
    directory.  The
    calls for opening, resizing and transferring are answered by [oo], [os],
    [ox]. *)
Definition p_read (creat trunc : bool) (prefix : string) (oo os ox : nat -> answer)
           (d : dir) (off n : nat) : outcome (list byte) * dir :=
  let name := file_name prefix off in
  match oo 0, open_file creat trunc d name with
  | Xfer _, Some c =>
      match set_size os c n with
      | Done c' => (fst (serve_read ox c' 0 n), upd_dir d name (Some c'))
      | IoError c' => (IoError [], upd_dir d name (Some c'))
      | Stuck => (Stuck, d)
      end
  | _, _ => (IoError [], d)
  end.

(** serve for WRITE.
    fileperblock_file.cpp lines 70-79. *)
Definition p_write (creat trunc : bool) (prefix : string) (oo os ox : nat -> answer)
           (d : dir) (off : nat) (data : list byte) : outcome unit * dir :=
  let name := file_name prefix off in
  match oo 0, open_file creat trunc d name with
  | Xfer _, Some c =>
      match set_size os c (length data) with
      | Done c' =>
          match fst (serve_write ox c' 0 data) with
          | Done c'' => (Done tt, upd_dir d name (Some c''))
          | IoError c'' => (IoError tt, upd_dir d name (Some c''))
          | Stuck => (Stuck, d)
          end
      | IoError c' => (IoError tt, upd_dir d name (Some c'))
      | Stuck => (Stuck, d)
      end
  | _, _ => (IoError tt, d)
  end.

(** discard, fileperblock_file.cpp lines 104-119: ::remove; a failure is only reported
    in the log. *)
Definition p_discard (prefix : string) (o : nat -> answer) (d : dir) (off : nat) : dir :=
  match o 0 with
  | Fail => d
  | Xfer _ => upd_dir d (file_name prefix off) None
  end.

(** Operations on a fileperblock_file, fileperblock_file.cpp lines 70-79 and 104-119. *)
Inductive pop :=
| PWrite (oo os ox : nat -> answer) (off : nat) (data : list byte)
| PRead (oo os ox : nat -> answer) (off n : nat)
| PDiscard (o : nat -> answer) (off : nat).

(** New directory and whether the operation succeeded.
    fileperblock_file.cpp lines 70-79 and 104-119. *)
Definition p_step (creat trunc : bool) (prefix : string) (d : dir) (op : pop) : bool * dir :=
  match op with
  | PWrite oo os ox off data =>
      match p_write creat trunc prefix oo os ox d off data with
      | (Done _, d') => (true, d')
      | (_, d') => (false, d')
      end
  | PRead oo os ox off n =>
      match p_read creat trunc prefix oo os ox d off n with
      | (Done _, d') => (true, d')
      | (_, d') => (false, d')
      end
  | PDiscard o off =>
      (match o 0 with Fail => false | Xfer _ => true end, p_discard prefix o d off)
  end.

(** All operations succeed.
    fileperblock_file.cpp lines 70-79 and 104-119. *)
Fixpoint p_run (creat trunc : bool) (prefix : string) (d : dir) (ops : list pop) : option dir :=
  match ops with
  | [] => Some d
  | op :: ops' =>
      match p_step creat trunc prefix d op with
      | (true, d') => p_run creat trunc prefix d' ops'
      | (false, _) => None
      end
  end.
