(** Vocabulary for statements about 64-bit arithmetic. *)
From Coq Require Import ZArith List Bool.
From Verif Require Import AllocModel AllocSpec ManagerModel ManagerSpec WrapModel.
Import ListNotations.
Local Open Scope Z_scope.

Definition sum (sizes : list Z) : Z := fold_right Z.add 0 sizes.

(** Along a history (with unbounded numbers) the sizes of requests and of the
    disk stay below 2^64. *)
Fixpoint fits (c : client) (ops : list aop) : Prop :=
  disk_bytes (cl_alloc c) < 2 ^ 64 /\
  match ops with
  | [] => True
  | o :: r => (forall sizes, o = OpNew sizes -> sum sizes < 2 ^ 64) /\ fits (client_step c o) r
  end.

(** Bytes requested by a history. *)
Fixpoint requested (ops : list aop) : Z :=
  match ops with
  | [] => 0
  | OpNew sizes :: r => sum sizes + requested r
  | OpDelete _ :: r => requested r
  end.

Definition cost (o : mop) : Z := match o with MNew _ _ _ sizes => sum sizes | MDelete _ => 0 end.
Definition mrequested (ops : list mop) : Z := fold_right Z.add 0 (map cost ops).

(** Histories of the 64-bit manager, as in ManagerSpec.v. *)
Inductive mhistory64 (n : nat) (may_throw : bool) : mclient -> list mop -> mclient -> Prop :=
| mh64_nil : forall c, mhistory64 n may_throw c [] c
| mh64_ok : forall c o c1 ops c2, valid_mop n o -> mclient_step64 c o = StepOk c1 ->
    mhistory64 n may_throw c1 ops c2 -> mhistory64 n may_throw c (o :: ops) c2
| mh64_throw : forall c o c1 ops c2, may_throw = true -> valid_mop n o ->
    mclient_step64 c o = StepThrow c1 ->
    mhistory64 n may_throw c1 ops c2 -> mhistory64 n may_throw c (o :: ops) c2.

(** A 64-bit number; an allocator all of whose numbers are such. *)
Definition u64 (x : Z) : Prop := 0 <= x < 2 ^ 64.
Definition allocator_u64 (a : allocator) : Prop :=
  u64 (free_bytes a) /\ u64 (disk_bytes a) /\ u64 (cfg_bytes a) /\ u64 (storage_size a) /\
  forall p s, In (p, s) (free_space a) -> u64 p /\ u64 s.

(** Clients that live on the 64-bit allocator; sizes are positive 64-bit numbers. *)
Definition history_u64 (ops : list aop) : Prop :=
  forall sizes, In (OpNew sizes) ops -> good_batch sizes /\ forall s, In s sizes -> s < 2 ^ 64.
Definition reachable64 (cfg : Z) (grow : bool) (c : client) : Prop :=
  u64 cfg /\ exists a0 ops, new_allocator64 cfg grow = Ret a0 /\ history_u64 ops /\
    c = client_run64 (mk_client a0 []) ops.
