(** Model of the errors of system calls and of the exceptions thrown because of them.

    Sources (in /repo/foxxll):
      common/error_handling.hpp 39-102   the macros that throw
      io/ufs_file_base.cpp 101-168, 182-314
      io/syscall_file.cpp 28-118
      io/mmap_file.cpp 26-70
      io/fileperblock_file.cpp 122-142
      io/linuxaio_queue.cpp 46-61, 205-245, 281-302

    A function is a program that makes system calls and looks at errno.  Simplifications: a call
    that succeeds leaves errno alone; so do building the message and logging, which happen between
    the failing call and the use of errno (error_handling.hpp lines 41-43, 58).  Of the message only
    the call it is about and the error it shows are kept.  The variants for Windows and macOS are
    left out. *)
From Coq Require Import ZArith List Bool.
Import ListNotations.
Local Open Scope Z_scope.

(** The system calls: ufs_file_base.cpp lines 101, 146, 189, 206, 217, 267, 277, 292, 306;
    syscall_file.cpp lines 40, 64, 98; mmap_file.cpp lines 37, 65; fileperblock_file.cpp lines 127,
    131, 137; linuxaio_queue.cpp lines 49, 208, 232, 283. *)
Inductive sys := SOpen | SFstat | SClose | SFcntl | SLseek | SFtruncate | SRemove | SUnlink | SRead | SWrite
  | SMmap | SMunmap | SRename | STruncate | SSetup | SSubmit | SGetevents.

(** What the system does: it returns a value, or -1 and sets errno (the system's part of the calls,
    e.g. ufs_file_base.cpp line 217). *)
Inductive answer := Ret (rc : Z) | Err (e : Z).
(** The returned value, e.g. ufs_file_base.cpp line 217. *)
Definition rc_of (a : answer) : Z := match a with Ret rc => rc | Err _ => -1 end.
(** errno afterwards; see the simplification above (error_handling.hpp line 64). *)
Definition errno_of (a : answer) (en : Z) : Z := match a with Ret _ => en | Err e => e end.

(** EINVAL, EAGAIN and EINTR on Linux: ufs_file_base.cpp line 109, linuxaio_queue.cpp lines 50,
    214, 289. *)
Definition EINVAL : Z := 22.
(** linuxaio_queue.cpp lines 50, 214. *)
Definition EAGAIN : Z := 11.
(** linuxaio_queue.cpp line 289. *)
Definition EINTR : Z := 4.

(** Programs.  [Throw true nm]: FOXXLL_THROW_ERRNO about call [nm], error_handling.hpp lines 55-64;
    [Throw false nm]: FOXXLL_THROW, lines 47-52, 85-90; [Look]: errno is read; [Fuel]: model device,
    the bound of a loop is reached. *)
Inductive prog (A : Type) :=
| Done (x : A)
| Throw (shows : bool) (nm : sys)
| Call (nm : sys) (k : Z -> prog A)
| Look (k : Z -> prog A)
| Fuel.
Arguments Done {A}. Arguments Throw {A}. Arguments Call {A}. Arguments Look {A}. Arguments Fuel {A}.

(** Model device: one program after the other (e.g. ufs_file_base.cpp lines 239-241). *)
Fixpoint bind {A B} (m : prog A) (f : A -> prog B) : prog B :=
  match m with
  | Done x => f x
  | Throw sh nm => Throw sh nm
  | Call nm k => Call nm (fun rc => bind (k rc) f)
  | Look k => Look (fun e => bind (k e) f)
  | Fuel => Fuel
  end.

(** Model device: how a program ends; an exception is about a call and shows an error or none
    (error_handling.hpp lines 39-64). *)
Inductive outcome (A : Type) := ODone (x : A) | OThrow (nm : sys) (code : option Z) | OFuel.
Arguments ODone {A}. Arguments OThrow {A}. Arguments OFuel {A}.

(** Execution: [en] is errno, the [p]-th call is answered by [o p]; the calls made are recorded.
    errno is shown as it is when the message is built: error_handling.hpp lines 55-64. *)
Fixpoint run {A} (m : prog A) (en : Z) (o : nat -> answer) (p : nat) : outcome A * list (sys * answer) :=
  match m with
  | Done x => (ODone x, [])
  | Throw sh nm => (OThrow nm (if sh then Some en else None), [])
  | Call nm k => let r := run (k (rc_of (o p))) (errno_of (o p) en) o (S p) in (fst r, (nm, o p) :: snd r)
  | Look k => run (k en) en o p
  | Fuel => (OFuel, [])
  end.

(** FOXXLL_THROW_ERRNO_NE_0: error_handling.hpp lines 93-102. *)
Definition throw_ne_0 (nm : sys) : prog unit := Call nm (fun rc => if rc =? 0 then Done tt else Throw true nm).
(** if (call < 0) FOXXLL_THROW_ERRNO: ufs_file_base.cpp lines 189-190, 206-207. *)
Definition throw_lt_0 (nm : sys) : prog unit := Call nm (fun rc => if rc <? 0 then Throw true nm else Done tt).

(** _after_open: ufs_file_base.cpp lines 136-168 (the call that can fail is in lines 145-149). *)
Definition after_open : prog unit := throw_ne_0 SFstat.
(** The constructor: ufs_file_base.cpp lines 101-127; [direct], [require]: the modes DIRECT and
    REQUIRE_DIRECT. *)
Definition open_file (direct require : bool) : prog unit :=
  Call SOpen (fun fd => if 0 <=? fd then after_open else
    Look (fun e => if direct && negb require && (e =? EINVAL)
      then Call SOpen (fun fd => if 0 <=? fd then after_open else Throw true SOpen)
      else Throw true SOpen)).
(** close: ufs_file_base.cpp lines 182-193; [isopen]: file_des_ is not -1. *)
Definition close_file (isopen : bool) : prog unit := if isopen then throw_lt_0 SClose else Done tt.
(** lock: ufs_file_base.cpp lines 195-209. *)
Definition lock_file : prog unit := throw_lt_0 SFcntl.
(** _size: ufs_file_base.cpp lines 211-223. *)
Definition file_size : prog Z := Call SLseek (fun rc => if rc <? 0 then Throw true SLseek else Done rc).
(** _set_size: ufs_file_base.cpp lines 237-281; [keep]: read-only or a device (line 241). *)
Definition set_file_size (keep : bool) (newsize : Z) : prog unit :=
  bind file_size (fun cur => bind (if keep then Done tt else throw_ne_0 SFtruncate) (fun _ =>
    if cur <? newsize then Call SLseek (fun rc => if rc <? 0 then Throw false SLseek else Done tt) else Done tt)).
(** close_remove: ufs_file_base.cpp lines 283-296. *)
Definition close_remove (isopen device : bool) : prog unit :=
  bind (close_file isopen) (fun _ => if device then Done tt else Call SRemove (fun _ => Done tt)).
(** unlink: ufs_file_base.cpp lines 298-308. *)
Definition unlink_file (device : bool) : prog unit := if device then Done tt else throw_ne_0 SUnlink.

(** serve of syscall_file: syscall_file.cpp lines 28-118. *)
Fixpoint serve (fuel : nat) (rd : bool) (offset bytes : Z) : prog unit :=
  if bytes <=? 0 then Done tt else
  match fuel with
  | O => Fuel
  | S fuel =>
    Call SLseek (fun rc => if rc <? 0 then Throw true SLseek else
    Call (if rd then SRead else SWrite) (fun rc => if rc <=? 0 then Throw true (if rd then SRead else SWrite) else
      if rd && (0 <? bytes - rc)
      then bind file_size (fun sz => if offset + rc =? sz then Done tt else serve fuel rd (offset + rc) (bytes - rc))
      else serve fuel rd (offset + rc) (bytes - rc)))
  end.

(** serve of mmap_file: mmap_file.cpp lines 36-69; MAP_FAILED is -1. *)
Definition mmap_serve : prog unit :=
  Call SMmap (fun mem => if mem =? -1 then Throw true SMmap else if mem =? 0 then Throw true SMmap else throw_ne_0 SMunmap).

(** export_files: fileperblock_file.cpp lines 122-142; errors of remove and rename are logged. *)
Definition export_files : prog unit := Call SRemove (fun _ => Call SRename (fun _ => throw_ne_0 STruncate)).
(** discard: fileperblock_file.cpp lines 104-119, without FOXXLL_FILEPERBLOCK_NO_DELETE; the error is
    logged. *)
Definition discard_file : prog unit := Call SRemove (fun _ => Done tt).

(** io_setup in the constructor of the queue: linuxaio_queue.cpp lines 48-59.  Simplification: the
    number is unbounded here, RegistryModel has its overflow (C73). *)
Fixpoint io_setup (fuel : nat) (max_events : Z) : prog Z :=
  match fuel with
  | O => Fuel
  | S fuel =>
    Call SSetup (fun r => Look (fun e => if (r =? -1) && (e =? EAGAIN) && (1 <? max_events) then io_setup fuel (2 * max_events)
      else if r =? 0 then Done max_events else Throw true SSetup))
  end.

(** The loop of post_requests with [n] requests left to be submitted, cbs.size() - cb_done:
    linuxaio_queue.cpp lines 206-244; [n] below 0 stands for cb_done > cbs.size(). *)
Fixpoint io_post (fuel : nat) (n : Z) : prog unit :=
  if n <=? 0 then Done tt else
  match fuel with
  | O => Fuel
  | S fuel =>
    Call SSubmit (fun r => Look (fun e => if (r <=? 0) && negb (e =? EAGAIN) then Throw true SSubmit
      else if (0 <? r) && (n - r =? 0) then Done tt
      else Call SGetevents (fun g => if g <? 0 then Throw true SGetevents else io_post fuel (if 0 <? r then n - r else n))))
  end.

(** io_getevents in wait_requests: linuxaio_queue.cpp lines 280-300. *)
Fixpoint io_wait (fuel : nat) : prog Z :=
  match fuel with
  | O => Fuel
  | S fuel => Call SGetevents (fun g => if g <? 0 then Look (fun e => if e =? EINTR then io_wait fuel else Throw true SGetevents) else Done g)
  end.
