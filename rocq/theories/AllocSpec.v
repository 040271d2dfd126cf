(** Vocabulary for statements about the disk allocator.  A byte range is a pair
    (offset, size) that stands for the bytes offset <= x < offset + size. *)
From Coq Require Import ZArith List.
From Verif Require Import AllocModel.
Import ListNotations.
Local Open Scope Z_scope.

Definition in_range (x : Z) (r : Z * Z) : Prop := fst r <= x < fst r + snd r.

Definition covered (m : list (Z * Z)) (x : Z) : Prop :=
  exists r, In r m /\ in_range x r.

Definition disjoint (r1 r2 : Z * Z) : Prop :=
  forall x, ~ (in_range x r1 /\ in_range x r2).

(** Different positions of the list hold disjoint ranges. *)
Definition pairwise_disjoint (l : list (Z * Z)) : Prop :=
  forall i j r1 r2, i <> j -> nth_error l i = Some r1 -> nth_error l j = Some r2 ->
    disjoint r1 r2.

Definition inside (total : Z) (r : Z * Z) : Prop :=
  0 <= fst r /\ fst r + snd r <= total.

Fixpoint total_size (l : list (Z * Z)) : Z :=
  match l with [] => 0 | r :: l' => snd r + total_size l' end.

(** Every size of a batch is positive and the batch is not empty. *)
Definition good_batch (sizes : list Z) : Prop :=
  sizes <> [] /\ Forall (fun s => 0 < s) sizes.

(** The strongest reading of "fully coalesced": regions are non-empty, in
    increasing order, and separated by at least one non-free byte. *)
Fixpoint coalesced_from (lo : Z) (m : list (Z * Z)) : Prop :=
  match m with
  | [] => True
  | (p, s) :: m' => lo < p /\ 0 < s /\ coalesced_from (p + s) m'
  end.

(** The given block cannot be placed in a file of [total] bytes without
    touching one of the [live] blocks. *)
Definition no_hole (live : list (Z * Z)) (total s : Z) : Prop :=
  forall o, inside total (o, s) -> exists r, In r live /\ ~ disjoint r (o, s).

(** Some byte of the range (pos, size) is free according to [m]. *)
Definition overlaps (m : list (Z * Z)) (pos size : Z) : Prop :=
  exists x, covered m x /\ in_range x (pos, size).

(** The offsets place blocks of the given sizes back to back from [pos]. *)
Definition back_to_back (pos : Z) (sizes offs : list Z) : Prop :=
  length offs = length sizes /\
  forall k, (k < length sizes)%nat ->
    nth k offs 0 = pos + fold_right Z.add 0 (firstn k sizes).

(** States a client can reach: an allocator is constructed over a disk of
    [cfg] >= 0 configured bytes, then any list of batch allocations of positive
    sizes and deletions of live blocks is executed.  Allocations that throw are
    part of the history. *)
Definition valid_history (ops : list aop) : Prop :=
  forall sizes, In (OpNew sizes) ops -> good_batch sizes.

Definition reachable (cfg : Z) (grow : bool) (c : client) : Prop :=
  0 <= cfg /\
  exists a0 ops, new_allocator cfg grow = Ret a0 /\ valid_history ops /\
                 c = client_run (mk_client a0 []) ops.

(** Delete the given blocks one after the other. *)
Fixpoint delete_all (a : allocator) (blocks : list (Z * Z)) : outcome allocator :=
  match blocks with
  | [] => Ret a
  | (o, s) :: r => match delete_block a o s with
                   | Ret a' => delete_all a' r
                   | Throw => Throw
                   | AssertFail => AssertFail
                   end
  end.
