(** Vocabulary for C76 and C77. *)
From Coq Require Import List Arith NArith ZArith Bool.
From Verif Require Import OpenModel.
Import ListNotations.

(** The descriptor of the object is open. *)
Definition open_fd (o : obj) : Prop := ob_st o <> Shut.

(** The i-th object is constructed and not closed. *)
Definition usable (s : sys) (i : nat) (o : obj) : Prop :=
  nth_error (objs s) i = Some o /\ ob_st o = Ready.

(** No process has opened the same file twice. *)
Definition single (s : sys) : Prop :=
  forall i j o o', nth_error (objs s) i = Some o -> nth_error (objs s) j = Some o' ->
    open_fd o -> open_fd o' -> ob_pid o = ob_pid o' -> ob_ino o = ob_ino o' -> i = j.

(** Exactly one access mode. *)
Definition proper (mode : N) : Prop :=
  (N.testbit mode 0 = true /\ N.testbit mode 1 = false /\ N.testbit mode 2 = false) \/
  (N.testbit mode 0 = false /\ N.testbit mode 1 = true /\ N.testbit mode 2 = false) \/
  (N.testbit mode 0 = false /\ N.testbit mode 1 = false /\ N.testbit mode 2 = true).

(** A well-behaved program: proper modes, with locking. *)
Definition locking (a : action) : Prop :=
  match a with AOpen _ _ mode _ => proper mode /\ N.testbit mode 7 = false | _ => True end.
Definition no_trunc (a : action) : Prop :=
  match a with AOpen _ _ mode _ => N.testbit mode 5 = false | _ => True end.
Definition no_remove (a : action) : Prop :=
  match a with ARemove _ => False | _ => True end.

(** States reached by actions that satisfy [P], never with a file opened twice by a
    process. *)
Inductive reach (P : action -> Prop) : sys -> Prop :=
| reach0 : reach P sys0
| reachS : forall s a s', reach P s -> P a -> act s a = Some s' -> single s' -> reach P s'.
