(** Model of fileperblock_file::export_files.

    Source: /repo/foxxll/io/fileperblock_file.cpp lines 121-141, on the directory of
    FileModel.v; /repo/foxxll/common/types.hpp lines 37-42.

    Simplifications.
    - Those of FileModel.v.  Paths are names: two different paths are two different files,
      and the only files are regular ones.
    - Each of the three system calls may be refused for any reason (oracles); apart from
      that they do what POSIX says.
    - The log output of failed calls is not modelled.  Windows does not truncate; this is
      not modelled. *)

From Coq Require Import String Ascii List Arith Bool ZArith.
From Verif Require Import FileModel.
Import ListNotations.
Local Open Scope list_scope.
Local Open Scope nat_scope.

(** fileperblock_file.cpp line 125: find_last_of("/"); [None] is npos. *)
Fixpoint find_last (c : ascii) (l : list ascii) : option nat :=
  match l with
  | [] => None
  | x :: r => match find_last c r with
              | Some i => Some (S i)
              | None => if Ascii.eqb x c then Some 0 else None
              end
  end.

(** fileperblock_file.cpp line 125: substr(0, find_last_of("/") + 1); npos + 1 is 0. *)
Definition dir_part (l : list ascii) : list ascii :=
  firstn (match find_last "/"%char l with Some i => S i | None => 0 end) l.

(** types.hpp lines 37-42: as_signed of a 64-bit number. *)
Definition as_signed (n : Z) : Z := if (n <? 2 ^ 63)%Z then n else (n - 2 ^ 64)%Z.

(** fileperblock_file.cpp line 126: ::remove of one path; nothing happens if it is refused
    or there is no such file. *)
Definition sys_remove (o : nat -> answer) (d : dir) (p : list ascii) : dir :=
  match o 0 with
  | Fail => d
  | Xfer _ => upd_dir d p None
  end.

(** fileperblock_file.cpp line 130: ::rename; the old target, if any, is replaced. *)
Definition sys_rename (o : nat -> answer) (d : dir) (p q : list ascii) : dir :=
  match o 0, d p with
  | Xfer _, Some c => upd_dir (upd_dir d p None) q (Some c)
  | _, _ => d
  end.

(** fileperblock_file.cpp line 136: ::truncate by path; [None]: it fails. *)
Definition sys_truncate (o : nat -> answer) (d : dir) (p : list ascii) (n : Z) : option dir :=
  match o 0, d p with
  | Xfer _, Some c => if (n <? 0)%Z then None else Some (upd_dir d p (Some (os_truncate c (Z.to_nat n))))
  | _, _ => None
  end.

(** export_files, fileperblock_file.cpp lines 121-141: whether it returned or threw, and
    the directory afterwards. *)
Definition p_export (prefix : string) (om orn ot : nat -> answer) (d : dir) (off : nat) (len : Z)
           (name : list ascii) : outcome unit * dir :=
  let original := file_name prefix off in
  let target := dir_part original ++ name in
  let d1 := sys_remove om d target in
  let d2 := sys_rename orn d1 original target in
  match sys_truncate ot d2 target (as_signed len) with
  | Some d3 => (Done tt, d3)
  | None => (IoError tt, d2)
  end.
