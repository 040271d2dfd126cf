(** Vocabulary for streams that share a block store. *)

From Coq Require Import List Arith ZArith.
From Verif Require StoreModel.
From Verif Require Import WriterModel WriterSpec WriterErrModel WriterErrSpec TogetherModel.
Import ListNotations.

Section Spec.
Context {R : Type}.

(** The events of a writer whose caller does not flush it while keeping a buffer, and writes
    each of the blocks [blocks] at most once and no others. *)
Definition writer_events (blocks : nat -> bid) (tr : list (xlabel (list R))) : Prop :=
  exists nb bs mem bids disk x, xrun (x_init nb bs mem bids disk) tr x /\ x_disciplined tr /\
    NoDup (map fst (calls (normal tr))) /\
    forall d, In d (map fst (calls (normal tr))) -> exists k, d = blocks k.

(** The output streams use different blocks. *)
Definition apart (outs : nat -> nat -> bid) : Prop :=
  forall i k i' k', outs i k = outs i' k' -> i = i' /\ k = k'.

(** Blocks of [B] records are stored in [size] bytes, from which they can be had back. *)
Definition stores_blocks (B : nat) (size : Z) (enc : list R -> list Z) (dec : list (option Z) -> list R) : Prop :=
  forall v, length v = B -> Z.of_nat (length (enc v)) = size /\ dec (map Some (enc v)) = v.

(** No request for a block of the streams is pending. *)
Definition fresh (size : Z) (outs : nat -> nat -> bid) (s : StoreModel.store) : Prop :=
  forall r i k, In r (StoreModel.st_pending s) -> StoreModel.rq_bid r <> place size (outs i k).

End Spec.
