(** Model of opening, locking, closing and removing files by several processes.

    Sources: /repo/foxxll/io/ufs_file_base.cpp lines 33-209, 283-308,
    /repo/foxxll/io/create_file.cpp lines 29-60 and 74-100,
    /repo/foxxll/io/file.hpp lines 64-87, 192.

    Simplifications.
    - Linux, O_DIRECT available; the numbers of the flags are those of Linux on
      x86.  Regular files only; permissions and errors of open are an arbitrary
      answer of the kernel.
    - Each system call is atomic; between any two of them other processes may run.
      Two threads of one process are two sequences of actions of that process.
    - Locks are the POSIX record locks of fcntl on all bytes: they belong to the
      process, a new lock replaces the old one of the same process, and closing any
      descriptor of the file releases them.
    - A failing open changes nothing; close and remove do not fail.
    - Paths are numbers; no links; no fork. *)
From Coq Require Import List Arith NArith ZArith Bool.
Import ListNotations.
Local Open Scope list_scope.
Local Open Scope nat_scope.

(** file::open_mode, file.hpp lines 64-87. *)
Definition RDONLY : N := 1.
(** file.hpp line 69. *)
Definition WRONLY : N := 2.
(** file.hpp line 71. *)
Definition RDWR : N := 4.
(** file.hpp line 74. *)
Definition CREAT : N := 8.
(** file.hpp line 78. *)
Definition DIRECT : N := 16.
(** file.hpp line 80. *)
Definition TRUNC : N := 32.
(** file.hpp line 82. *)
Definition SYNC : N := 64.
(** file.hpp line 84. *)
Definition NO_LOCK : N := 128.
(** file.hpp line 86. *)
Definition REQUIRE_DIRECT : N := 256.

(** Linux flags of open; O_RDONLY is 0.
    ufs_file_base.cpp line 45. *)
Definition O_WRONLY : N := 1.
(** Value on Linux; ufs_file_base.cpp line 50. *)
Definition O_RDWR : N := 2.
(** Value on Linux; ufs_file_base.cpp line 55. *)
Definition O_CREAT : N := 64.
(** Value on Linux; ufs_file_base.cpp line 60. *)
Definition O_TRUNC : N := 512.
(** Value on Linux; ufs_file_base.cpp line 68. *)
Definition O_DIRECT : N := 16384.
(** Value on Linux; ufs_file_base.cpp line 86. *)
Definition O_DSYNC : N := 4096.
(** Value on Linux; ufs_file_base.cpp line 85, 87. *)
Definition O_SYNC : N := 1052672.

(** [mode & b] as a condition.
    ufs_file_base.cpp lines 38-83. *)
Definition has (mode b : N) : bool := negb (N.land mode b =? 0)%N.

(** [if (mode & m) flags |= f;].
    ufs_file_base.cpp lines 38-88. *)
Definition set_if (c : bool) (f flags : N) : N := if c then N.lor flags f else flags.

(** Constructor, ufs_file_base.cpp lines 36-88.  O_RSYNC is O_SYNC on Linux. *)
Definition open_flags (mode : N) : N :=
  let fl := 0%N in
  let fl := set_if (has mode RDONLY) 0 fl in
  let fl := set_if (has mode WRONLY) O_WRONLY fl in
  let fl := set_if (has mode RDWR) O_RDWR fl in
  let fl := set_if (has mode CREAT) O_CREAT fl in
  let fl := set_if (has mode TRUNC) O_TRUNC fl in
  let fl := set_if (has mode DIRECT || has mode REQUIRE_DIRECT) O_DIRECT fl in
  set_if (has mode SYNC) (N.lor O_SYNC (N.lor O_DSYNC O_SYNC)) fl.

(** The kernel answers an open with a descriptor or an error, which may be
    EINVAL.
    ufs_file_base.cpp lines 100, 108, 116. *)
Inductive kopen := KFd | KErr (einval : bool).

(** What the constructor has after its calls of open (ufs_file_base.cpp lines 100-127):
    the flags of
    the descriptor and need_alignment_; or it throws. *)
Inductive opened := Opened (flags : N) (aligned : bool) | OpenThrow.

(** [k i flags]: the answer to the i-th call.
    ufs_file_base.cpp lines 100-127. *)
Definition ctor_open (k : nat -> N -> kopen) (mode : N) : opened :=
  let fl := open_flags mode in
  match k 0 fl with
  | KFd => Opened fl (has mode DIRECT)
  | KErr einval =>
      if has mode DIRECT && negb (has mode REQUIRE_DIRECT) && einval then
        let fl := N.ldiff fl O_DIRECT in
        match k 1 fl with
        | KFd => Opened fl false
        | KErr _ => OpenThrow
        end
      else OpenThrow
  end.

(** disk_config::direct, and the mode computed by create_file, create_file.cpp lines 44-59. *)
Inductive direct_cfg := DIRECT_OFF | DIRECT_TRY | DIRECT_ON.

(** create_file.cpp lines 48-59. *)
Definition create_mode (c : direct_cfg) (mode : N) : N :=
  let mode := N.ldiff mode (N.lor DIRECT REQUIRE_DIRECT) in
  match c with
  | DIRECT_OFF => mode
  | DIRECT_TRY => N.lor mode DIRECT
  | DIRECT_ON => N.lor mode (N.lor DIRECT REQUIRE_DIRECT)
  end.

(** create_file with options instead of a configuration, create_file.cpp lines 29-42. *)
Definition options_cfg (options : N) : direct_cfg :=
  if has options REQUIRE_DIRECT then DIRECT_ON
  else if has options DIRECT then DIRECT_TRY else DIRECT_OFF.

(** What a descriptor allows: O_ACCMODE is 3; the value 3 allows neither.
    The flags of ufs_file_base.cpp lines 38-51. *)
Definition can_read (flags : N) : bool :=
  (N.land flags 3 =? 0)%N || (N.land flags 3 =? 2)%N.
(** The same for writing, ufs_file_base.cpp lines 38-51. *)
Definition can_write (flags : N) : bool :=
  (N.land flags 3 =? 1)%N || (N.land flags 3 =? 2)%N.

(** A file object: [Fresh] between open and the end of the constructor; [Leaked]
    if the constructor threw after open: the destructor does not run and the
    descriptor stays open.
    ufs_file_base.cpp lines 100-104, 116-119, 130-133, 182-193. *)
Inductive stage := Fresh | Ready | Leaked | Shut.

(** ufs_file_base.cpp line 34, ufs_file_base.hpp lines 32-42; with process, name and
    file (inode). *)
Record obj := mkobj {
  ob_pid : nat;
  ob_name : nat;
  ob_ino : nat;
  ob_mode : N;
  ob_flags : N;
  ob_st : stage
}.

(** ufs_file_base.cpp line 202: F_RDLCK, F_WRLCK. *)
Inductive lkind := LRead | LWrite.
(** Model device: a lock of a process on a file, set by ufs_file_base.cpp line 206. *)
Record lk := mklk { lk_pid : nat; lk_ino : nat; lk_kind : lkind }.

(** Model device: names, contents, file objects and locks on which ufs_file_base.cpp
    lines 33-308 work. *)
Record sys := mksys {
  names : nat -> option nat;
  content : nat -> list Z;
  nexti : nat;
  objs : list obj;
  lks : list lk
}.

(** Model device: nothing exists yet (before ufs_file_base.cpp line 33). *)
Definition sys0 : sys := mksys (fun _ => None) (fun _ => []) 0 [] [].

(** Model device: change of a name or content (ufs_file_base.cpp lines 100, 293, 306). *)
Definition setf {X} (f : nat -> X) (k : nat) (x : X) : nat -> X :=
  fun j => if j =? k then x else f j.

(** Model device: change of a file object (ufs_file_base.cpp lines 100-104, 192). *)
Fixpoint upd {X} (l : list X) (i : nat) (f : X -> X) : list X :=
  match l, i with
  | [], _ => []
  | x :: r, 0 => f x :: r
  | x :: r, S j => x :: upd r j f
  end.

(** Model device: progress of a file object (ufs_file_base.cpp lines 100-104, 192). *)
Definition stage_to (st : stage) (o : obj) : obj :=
  mkobj (ob_pid o) (ob_name o) (ob_ino o) (ob_mode o) (ob_flags o) st.

(** lock, ufs_file_base.cpp line 202: F_RDLCK | F_WRLCK is F_WRLCK on Linux. *)
Definition lock_kind (mode : N) : lkind := if has mode RDONLY then LRead else LWrite.

(** F_WRLCK of ufs_file_base.cpp line 202. *)
Definition is_write (k : lkind) : bool := match k with LWrite => true | LRead => false end.

(** fcntl(F_SETLK): a read lock needs a readable, a write lock a writable
    descriptor (EBADF); it fails if another process has a conflicting lock.
    ufs_file_base.cpp line 206. *)
Definition lockable (s : sys) (o : obj) : bool :=
  (match lock_kind (ob_mode o) with LRead => can_read (ob_flags o) | LWrite => can_write (ob_flags o) end) &&
  forallb (fun l => negb ((lk_ino l =? ob_ino o) && negb (lk_pid l =? ob_pid o) &&
                          (is_write (lk_kind l) || is_write (lock_kind (ob_mode o))))) (lks s).

(** The locks without those of a process on a file.
    Closing any descriptor of the file does that, ufs_file_base.cpp line 189. *)
Definition drop (pid ino : nat) (l : list lk) : list lk :=
  filter (fun x => negb ((lk_pid x =? pid) && (lk_ino x =? ino))) l.

(** fcntl(F_SETLK) replaces the lock of the process, ufs_file_base.cpp line 206. *)
Definition set_lock (o : obj) (l : list lk) : list lk :=
  mklk (ob_pid o) (ob_ino o) (lock_kind (ob_mode o)) :: drop (ob_pid o) (ob_ino o) l.

(** System calls of the processes.
    ufs_file_base.cpp lines 33-308. *)
Inductive action :=
| AOpen (pid name : nat) (mode : N) (k : nat -> N -> kopen)
    (** the calls of open in the constructor, lines 100-121 *)
| AAfter (i : nat) (fstat_ok : bool)
    (** _after_open, lines 135-180, of the i-th object *)
| ALock (i : nat)            (** lock, lines 195-209, also create_file line 80 *)
| AClose (i : nat)           (** close, lines 182-193 *)
| ARemove (i : nat)          (** remove of close_remove, line 293, and unlink, line 306 *)
| AWrite (i : nat) (d : list Z)
| AExit (pid : nat).         (** the process ends *)

(** A successful open, ufs_file_base.cpp lines 100, 116: O_CREAT and O_TRUNC. *)
Definition open_in (s : sys) (pid name : nat) (mode flags : N) : option sys :=
  let add names content nexti ino :=
    Some (mksys names content nexti (objs s ++ [mkobj pid name ino mode flags Fresh]) (lks s)) in
  match names s name with
  | Some ino =>
      add (names s) (if has flags O_TRUNC then setf (content s) ino [] else content s) (nexti s) ino
  | None =>
      if has flags O_CREAT
      then add (setf (names s) name (Some (nexti s))) (setf (content s) (nexti s) []) (S (nexti s)) (nexti s)
      else None
  end.

(** [None]: the action is not possible in this state.
    ufs_file_base.cpp lines 33-308. *)
Definition act (s : sys) (a : action) : option sys :=
  let with_objs f l := mksys (names s) (content s) (nexti s) f l in
  match a with
  | AOpen pid name mode k =>
      match ctor_open k mode with
      | Opened flags _ => open_in s pid name mode flags
      | OpenThrow => Some s
      end
  | AAfter i fstat_ok =>
      match nth_error (objs s) i with
      | Some o =>
          match ob_st o with
          | Fresh =>
              if fstat_ok then
                if has (ob_mode o) NO_LOCK then Some (with_objs (upd (objs s) i (stage_to Ready)) (lks s))
                else if lockable s o then Some (with_objs (upd (objs s) i (stage_to Ready)) (set_lock o (lks s)))
                else Some (with_objs (upd (objs s) i (stage_to Leaked)) (lks s))
              else Some (with_objs (upd (objs s) i (stage_to Leaked)) (lks s))
          | _ => None
          end
      | None => None
      end
  | ALock i =>
      match nth_error (objs s) i with
      | Some o =>
          match ob_st o with
          | Ready => Some (with_objs (objs s) (if lockable s o then set_lock o (lks s) else lks s))
          | _ => None
          end
      | None => None
      end
  | AClose i =>
      match nth_error (objs s) i with
      | Some o =>
          match ob_st o with
          | Ready => Some (with_objs (upd (objs s) i (stage_to Shut)) (drop (ob_pid o) (ob_ino o) (lks s)))
          | _ => None
          end
      | None => None
      end
  | ARemove i =>
      match nth_error (objs s) i with
      | Some o =>
          match ob_st o with
          | Ready | Shut => Some (mksys (setf (names s) (ob_name o) None) (content s) (nexti s) (objs s) (lks s))
          | _ => None
          end
      | None => None
      end
  | AWrite i d =>
      match nth_error (objs s) i with
      | Some o =>
          match ob_st o with
          | Ready =>
              if can_write (ob_flags o)
              then Some (mksys (names s) (setf (content s) (ob_ino o) d) (nexti s) (objs s) (lks s))
              else None
          | _ => None
          end
      | None => None
      end
  | AExit pid =>
      Some (with_objs (map (fun o => if ob_pid o =? pid then stage_to Shut o else o) (objs s))
                      (filter (fun l => negb (lk_pid l =? pid)) (lks s)))
  end.

(** System calls in sequence, ufs_file_base.cpp lines 33-308. *)
Fixpoint run (s : sys) (l : list action) : option sys :=
  match l with
  | [] => Some s
  | a :: r => match act s a with Some s' => run s' r | None => None end
  end.
