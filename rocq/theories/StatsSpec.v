(** Vocabulary for the statistics properties; independent of the counters. *)

From Coq Require Import ZArith List Bool.
From Verif Require Import StatsModel.
Import ListNotations.
Local Open Scope Z_scope.

Definition sumZ {A} (f : A -> Z) (l : list A) : Z :=
  fold_right (fun a s => f a + s) 0 l.

(** Is this operation a transfer in the given direction on file [i]? *)
Definition on_dir (write : bool) (i : nat) (o : op) : bool :=
  match o with
  | OpIO w j _ _ _ _ => eqb w write && Nat.eqb j i
  | OpAio w j _ _ => eqb w write && Nat.eqb j i
  | OpAioCancel w j _ _ => eqb w write && Nat.eqb j i
  | OpWait _ _ _ => false
  end.

(** How long it took. *)
Definition duration (o : op) : Z :=
  match o with
  | OpIO _ _ _ st fi _ => fi - st
  | OpAio _ _ _ d => d
  | OpAioCancel _ _ _ _ => 0
  | OpWait _ st fi => fi - st
  end.

(** Did it move data, and how much? *)
Definition moved (o : op) : bool :=
  match o with
  | OpIO _ _ _ _ _ c => negb c
  | OpAio _ _ _ _ => true
  | _ => false
  end.
Definition size_of (o : op) : Z :=
  match o with
  | OpIO _ _ sz _ _ _ => sz
  | OpAio _ _ sz _ => sz
  | _ => 0
  end.

Definition total_time (write : bool) (i : nat) (ops : list op) : Z :=
  sumZ duration (filter (on_dir write i) ops).
Definition total_count (write : bool) (i : nat) (ops : list op) : Z :=
  Z.of_nat (length (filter moved (filter (on_dir write i) ops))).
Definition total_bytes (write : bool) (i : nat) (ops : list op) : Z :=
  sumZ size_of (filter moved (filter (on_dir write i) ops)).

(** Not a cancelled, already posted linuxaio request. *)
Definition ordinary (o : op) : Prop :=
  match o with OpAioCancel _ _ _ _ => False | _ => True end.

(** Kinds of waits. *)
Definition is_wait (o : op) : bool :=
  match o with OpWait _ _ _ => true | _ => false end.
Definition is_wait_read (o : op) : bool :=
  match o with OpWait WaitRead _ _ => true | _ => false end.
Definition is_wait_other (o : op) : bool :=
  match o with OpWait WaitRead _ _ => false | OpWait _ _ _ => true | _ => false end.

(** Timed transfers (those that run inside start ... finish). *)
Definition is_timed (write : bool) (o : op) : bool :=
  match o with OpIO w _ _ _ _ _ => eqb w write | _ => false end.
Definition is_timed_any (o : op) : bool :=
  match o with OpIO _ _ _ _ _ _ => true | _ => false end.

Definition op_start (o : op) : Z :=
  match o with OpIO _ _ _ st _ _ => st | OpWait _ st _ => st | _ => 0 end.
Definition op_finish (o : op) : Z :=
  match o with OpIO _ _ _ _ fi _ => fi | OpWait _ _ fi => fi | _ => 0 end.

(** At tick [x] (the time from [x] to [x+1]) some operation of kind [k] is
    active. *)
Definition busy_at (k : op -> bool) (ops : list op) (x : Z) : bool :=
  existsb (fun o => k o && (op_start o <=? x) && (x <? op_finish o)) ops.

(** Number of ticks in [lo, lo+n) at which some operation of kind [k] is
    active: the length of the union of their intervals. *)
Definition busy_time (k : op -> bool) (ops : list op) (lo : Z) (n : nat) : Z :=
  Z.of_nat (length (filter (busy_at k ops)
                      (map (fun j => lo + Z.of_nat j) (seq 0 n)))).

(** All operations of kind [k] lie within [lo, hi] and do not finish before
    they start. *)
Definition within (k : op -> bool) (ops : list op) (lo hi : Z) : Prop :=
  forall o, In o ops -> k o = true ->
    lo <= op_start o /\ op_start o <= op_finish o /\ op_finish o <= hi.

(** The time stamps of the sections of one mutex. *)
Definition write_stamp (c : section) : list Z :=
  match c with SecPWriteUp t => [t] | SecPWriteDown t => [t] | _ => [] end.
Definition read_stamp (c : section) : list Z :=
  match c with SecPReadUp t => [t] | SecPReadDown t => [t] | _ => [] end.
Definition io_stamp (c : section) : list Z :=
  match c with SecIoUp t => [t] | SecIoDown t => [t] | _ => [] end.
Definition wait_stamp (c : section) : list Z :=
  match c with SecWaitUp _ t => [t] | SecWaitDown _ t => [t] | _ => [] end.

(** Sections were entered in the order of their time stamps. *)
Fixpoint ordered (l : list Z) : Prop :=
  match l with
  | [] => True
  | t :: l' => (forall u, In u l' -> t <= u) /\ ordered l'
  end.

(** No operation is under way. *)
Definition quiet_file (f : file_stats) : Prop := fs_racc f = 0 /\ fs_wacc f = 0.
Definition quiet (s : stats) : Prop :=
  Forall quiet_file (s_files s) /\
  g_a (s_reads s) = 0 /\ g_a (s_writes s) = 0 /\ g_a (s_ios s) = 0 /\
  g_a (s_waits s) = 0 /\ g_a (s_wread s) = 0 /\ g_a (s_wwrite s) = 0.

Definition fresh (files : list Z) : stats :=
  MkS (map new_file_stats files) new_grp new_grp new_grp new_grp new_grp new_grp.

(** Device ids of a statistics list, and the device of an object. *)
Definition ids (l : fs_list) : list Z := map snd (l_elems l).
Definition device_of (l : fs_list) (o : nat) (d : Z) : Prop := In (o, d) (l_elems l).

Fixpoint increasing (l : list Z) : Prop :=
  match l with
  | [] => True
  | d :: l' => (forall e, In e l' -> d < e) /\ increasing l'
  end.

(** Entry of a device in a snapshot. *)
Definition entry (x : sdata) (d : Z) : option fdata :=
  find (fun f => fd_dev f =? d) (sd_files x).

(** A transfer in the given direction on any file, and its file. *)
Definition in_dir (write : bool) (o : op) : bool :=
  match o with
  | OpIO w _ _ _ _ _ => eqb w write
  | OpAio w _ _ _ => eqb w write
  | OpAioCancel w _ _ _ => eqb w write
  | OpWait _ _ _ => false
  end.
Definition file_of (o : op) : nat :=
  match o with
  | OpIO _ i _ _ _ _ => i | OpAio _ i _ _ => i | OpAioCancel _ i _ _ => i
  | OpWait _ _ _ => O
  end.
