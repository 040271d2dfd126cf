(** Vocabulary for statements about the block manager. *)
From Coq Require Import ZArith List Bool.
From Verif Require Import AllocModel AllocSpec ManagerModel.
Import ListNotations.
Local Open Scope Z_scope.

(** Operations a client may issue on [n] disks: the strategy returns existing
    disks, sizes are positive, and ids of fixed-size type have that size. *)
Definition valid_mop (n : nat) (o : mop) : Prop :=
  match o with
  | MNew tsize f off sizes =>
      (forall i, (f i < n)%nat) /\
      (forall s, In s sizes -> 0 < s /\ (tsize = s \/ tsize = 0))
  | MDelete _ => True
  end.

(** Histories: [mrun] lists the outcomes; [may_throw] says whether throwing
    operations are allowed to occur in the history. *)
Inductive mhistory (n : nat) (may_throw : bool) : mclient -> list mop -> mclient -> Prop :=
| mh_nil : forall c, mhistory n may_throw c [] c
| mh_ok : forall c o c1 ops c2, valid_mop n o -> mclient_step c o = StepOk c1 ->
    mhistory n may_throw c1 ops c2 -> mhistory n may_throw c (o :: ops) c2
| mh_throw : forall c o c1 ops c2, may_throw = true -> valid_mop n o ->
    mclient_step c o = StepThrow c1 ->
    mhistory n may_throw c1 ops c2 -> mhistory n may_throw c (o :: ops) c2.

Definition start (m : manager) : mclient := mk_mclient m [] 0 0.

Definition mreachable (cfgs : list (Z * bool)) (may_throw : bool) (c : mclient) : Prop :=
  (forall s g, In (s, g) cfgs -> 0 <= s) /\
  exists m ops, new_manager cfgs = Ret m /\ mhistory (length cfgs) may_throw (start m) ops c.

(** The byte range of a block in its file. *)
Definition range_of (b : bid) : Z * Z := (b_offset b, b_size b).

(** Bytes of the first [k] blocks that were placed on disk [d]. *)
Fixpoint bytes_before (k : nat) (d : nat) (disks : list nat) (sizes : list Z) : Z :=
  match k, disks, sizes with
  | S k', x :: ds, s :: ss => (if Nat.eqb x d then s else 0) + bytes_before k' d ds ss
  | _, _, _ => 0
  end.

(** Disk [d] has room for the k-th block (size s) of the batch after the
    batch's earlier blocks. *)
Definition has_room (m : manager) (disks : list nat) (sizes : list Z) (k d : nat) (s : Z) : Prop :=
  match nth_error (m_allocs m) d with
  | Some a => autogrow a = true \/ bytes_before k d disks sizes + s <= free_bytes a
  | None => False
  end.

(** The disk for the k-th block when the strategy proposes [fk]: the first disk
    with room in the cyclic order fk, fk+1, ...; if no disk has room, fk. *)
Definition spec_choice (m : manager) (disks : list nat) (sizes : list Z) (k : nat) (s : Z) (fk d : nat) : Prop :=
  (exists adv, (adv < length (m_allocs m))%nat /\
     d = Nat.modulo (fk + adv) (length (m_allocs m)) /\
     has_room m disks sizes k d s /\
     forall adv', (adv' < adv)%nat ->
       ~ has_room m disks sizes k (Nat.modulo (fk + adv') (length (m_allocs m))) s) \/
  (d = fk /\ forall d', ~ has_room m disks sizes k d' s).

(** [disks] is the list of disks for a batch. *)
Definition placement (m : manager) (f : nat -> nat) (off : nat) (sizes : list Z) (disks : list nat) : Prop :=
  length disks = length sizes /\
  forall k s, nth_error sizes k = Some s -> exists d, nth_error disks k = Some d /\
    (d < length (m_allocs m))%nat /\ spec_choice m disks sizes k s (f (off + k)%nat) d.

(** Some block of the batch found no room on any disk. *)
Definition nowhere (m : manager) (disks : list nat) (sizes : list Z) : Prop :=
  exists k s, nth_error sizes k = Some s /\ forall d, ~ has_room m disks sizes k d s.

(** The entries of [xs] whose disk is [d], in order. *)
Fixpoint select {A} (d : nat) (disks : list nat) (xs : list A) : list A :=
  match disks, xs with
  | x :: ds, y :: ys => if Nat.eqb x d then y :: select d ds ys else select d ds ys
  | _, _ => []
  end.

(** All ids in the history are of fixed-size type. *)
Definition fixed_size_op (o : mop) : Prop :=
  match o with MNew tsize _ _ _ => tsize <> 0 | MDelete _ => True end.
