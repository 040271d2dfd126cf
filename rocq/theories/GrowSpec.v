(** Vocabulary for statements about allocation when a disk file may refuse to
    grow. *)
From Coq Require Import ZArith List Bool.
From Verif Require Import AllocModel AllocSpec ManagerModel ManagerSpec GrowModel.
Import ListNotations.
Local Open Scope Z_scope.

(** Histories of operations on [n] disks.  [ok] says which calls of [set_size]
    succeed. *)
Inductive ghistory (ok : nat -> bool) (n : nat) : gclient -> list mop -> gclient -> Prop :=
| gh_nil : forall c, ghistory ok n c [] c
| gh_ok : forall c o c1 ops c2, valid_mop n o -> gclient_step ok c o = GOk c1 ->
    ghistory ok n c1 ops c2 -> ghistory ok n c (o :: ops) c2
| gh_throw : forall c o c1 ops c2, valid_mop n o -> gclient_step ok c o = GThrow c1 ->
    ghistory ok n c1 ops c2 -> ghistory ok n c (o :: ops) c2.

Definition gstart (m : manager) : gclient := mk_gclient m [] [] 0.

Definition sane (cfgs : list (Z * bool)) : Prop := forall s g, In (s, g) cfgs -> 0 <= s.

Definition greachable (ok : nat -> bool) (cfgs : list (Z * bool)) (c : gclient) : Prop :=
  sane cfgs /\
  exists m ops, new_manager cfgs = Ret m /\ ghistory ok (length cfgs) (gstart m) ops c.

(** Some call of [set_size] numbered [n] or above and below [n'] fails. *)
Definition growth_fails (ok : nat -> bool) (n n' : nat) : Prop :=
  exists k, (n <= k < n')%nat /\ ok k = false.

(** Every block ever requested has size [b]. *)
Definition uniform_op (b : Z) (o : mop) : Prop :=
  match o with MNew _ _ _ sizes => forall s, In s sizes -> s = b | MDelete _ => True end.
