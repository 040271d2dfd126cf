(** Vocabulary for a block scheduler on the block store. *)

From Coq Require Import ZArith List.
From Verif Require ManagerModel StoreModel.
From Verif Require Import BsModel BsSpec BsStoreModel.
Import ListNotations.

(** Different external blocks are in different places and have the same size, and contents are
    stored in so many bytes, from which they can be had back. *)
Definition stores (size : Z) (enc : Z -> list Z) (dec : list (option Z) -> Z) (pl : nat -> ManagerModel.bid) : Prop :=
  (forall e e', pl e = pl e' -> e = e') /\ (forall e, ManagerModel.b_size (pl e) = size) /\
  forall v, Z.of_nat (length (enc v)) = size /\ dec (map Some (enc v)) = v.

(** The client of the scheduler follows the protocol. *)
Definition proper (k : conf) : Prop :=
  legal_run c0 (k_tr k) /\
  match k_op k with Some o => legal (after_all c0 (k_tr k)) o | None => True end.

(** The view of the client after the operations that have returned. *)
Definition client_of (k : conf) : client := after_all c0 (k_tr k).

(** No request for a block is pending. *)
Definition settled (t : StoreModel.store) (b : ManagerModel.bid) : Prop :=
  forall r, In r (StoreModel.st_pending t) -> StoreModel.rq_bid r <> b.

(** What is left to do of the operation under way. *)
Definition left (k : conf) : nat := 2 * length (k_todo k) + length (k_w k) + length (k_rd k).

(** A step of the scheduler that concerns the store. *)
Definition own_step (k k' : conf) : Prop :=
  k_evs k' <> k_evs k /\ (k_todo k' <> k_todo k \/ k_w k' <> k_w k \/ k_rd k' <> k_rd k).
