(** Vocabulary for snapshots taken while operations run (C118): what a clock
    beside the operations would say. *)

From Coq Require Import ZArith List Bool.
From Verif Require Import StatsModel StatsSpec SnapModel.
Import ListNotations.
Local Open Scope Z_scope.

(** The critical sections of a run, and those before its [j]-th read. *)
Definition sections (tr : list event) : list section :=
  flat_map (fun e => match e with ESec c => [c] | EGet _ => [] end) tr.
Fixpoint before (j : nat) (tr : list event) : list section :=
  match tr with
  | [] => []
  | ESec c :: tr' => c :: before j tr'
  | EGet _ :: tr' => match j with O => [] | S j' => before j' tr' end
  end.

(** The members asked for, in order. *)
Definition gets (tr : list event) : list member :=
  flat_map (fun e => match e with ESec _ => [] | EGet m => [m] end) tr.

(** Operations counted until some moment: those begun less those given up. *)
Definition counted (w : bool) (i : nat) (c : section) : Z :=
  match c with
  | SecWStart j _ _ | SecWOp j _ _ => if w && Nat.eqb j i then 1 else 0
  | SecWCancel j _ => if w && Nat.eqb j i then -1 else 0
  | SecRStart j _ _ | SecROp j _ _ => if negb w && Nat.eqb j i then 1 else 0
  | SecRCancel j _ => if negb w && Nat.eqb j i then -1 else 0
  | _ => 0
  end.
Definition counted_bytes (w : bool) (i : nat) (c : section) : Z :=
  match c with
  | SecWStart j z _ | SecWOp j z _ => if w && Nat.eqb j i then z else 0
  | SecWCancel j z => if w && Nat.eqb j i then - z else 0
  | SecRStart j z _ | SecROp j z _ => if negb w && Nat.eqb j i then z else 0
  | SecRCancel j z => if negb w && Nat.eqb j i then - z else 0
  | _ => 0
  end.

(** Time stamps of the operations of one direction on one file. *)
Definition file_stamp (w : bool) (i : nat) (c : section) : list Z :=
  match c with
  | SecWStart j _ t => if w && Nat.eqb j i then [t] else []
  | SecWFinish j t => if w && Nat.eqb j i then [t] else []
  | SecRStart j _ t => if negb w && Nat.eqb j i then [t] else []
  | SecRFinish j t => if negb w && Nat.eqb j i then [t] else []
  | _ => []
  end.
Definition wait_read_stamp (c : section) : list Z :=
  match c with SecWaitUp WaitRead t => [t] | SecWaitDown WaitRead t => [t] | _ => [] end.
Definition wait_other_stamp (c : section) : list Z :=
  match c with
  | SecWaitUp WaitRead _ | SecWaitDown WaitRead _ => []
  | SecWaitUp _ t => [t] | SecWaitDown _ t => [t]
  | _ => []
  end.

(** The last time stamp among some sections ([lo] if there is none). *)
Definition latest (stamp : section -> list Z) (lo : Z) (pre : list section) : Z :=
  last (flat_map stamp pre) lo.

(** Durations of the operations of kind [k], as far as they lie before [t]. *)
Definition time_until (k : op -> bool) (ops : list op) (t : Z) : Z :=
  sumZ (fun o => if k o then Z.min (op_finish o) t - Z.min (op_start o) t else 0) ops.

(** Transfers timed on one file, and the durations reported by the kernel's
    asynchronous I/O, which come all at once. *)
Definition timed_on (w : bool) (i : nat) (o : op) : bool :=
  is_timed w o && Nat.eqb (file_of o) i.
Definition kernel_time (w : bool) (i : nat) (c : section) : Z :=
  match c with
  | SecWOp j _ d => if w && Nat.eqb j i then d else 0
  | SecROp j _ d => if negb w && Nat.eqb j i then d else 0
  | _ => 0
  end.

(** Ticks in [a, b) at which some operation of kind [k] is active. *)
Definition busy_between (k : op -> bool) (ops : list op) (a b : Z) : Z :=
  busy_time k ops a (Z.to_nat (b - a)).

(** Operations of kind [k] begin after [lo] and do not end before they begin. *)
Definition begin_after (k : op -> bool) (ops : list op) (lo : Z) : Prop :=
  forall o, In o ops -> k o = true -> lo <= op_start o /\ op_start o <= op_finish o.

(** Threads enter all critical sections in the order of their time stamps. *)
Definition in_order (l : list section) : Prop :=
  ordered (flat_map read_stamp l) /\ ordered (flat_map write_stamp l) /\
  ordered (flat_map io_stamp l) /\ ordered (flat_map wait_stamp l) /\
  forall w i, ordered (flat_map (file_stamp w i) l).
