(** Vocabulary for the block store on top of the kernel AIO queue: the rules the clients follow,
    and which events count. *)

From Coq Require Import ZArith List Bool Arith.
From Verif Require Import AllocModel ManagerModel ManagerSpec FileModel StoreModel StoreSpec StoreAModel.
From Verif Require StoreQModel.
Import ListNotations.

(** A request [x] was posted, and no client knows that it is finished. *)
Definition unfinished (t : list happening) (x : rq) : Prop :=
  exists c i e, In (KPost c i e) t /\ StoreQModel.request_of e = Some x /\ forall c' b, ~ In (KTold c' i b) t.

(** The rules, in terms of what the clients know: no one deletes a block or writes to it before
    the end of all requests for it is known, or reads it before the end of all writes to it is
    known; the data fill the block. *)
Definition minds (n : nat) (t : list happening) (h : happening) : Prop :=
  match h with
  | KPost _ _ (EWrite b d) => Z.of_nat (length d) = b_size b /\ forall x, unfinished t x -> rq_bid x <> b
  | KPost _ _ (ERead b) => forall x, unfinished t x -> rq_data x <> None -> rq_bid x <> b
  | KCall (SNew tsize f off sizes) _ => valid_mop n (MNew tsize f off sizes)
  | KCall _ (EDelete b) => forall x, unfinished t x -> rq_bid x <> b
  | _ => True
  end.
Definition follows (n : nat) (t : list happening) : Prop :=
  forall newer h older, t = newer ++ h :: older -> minds n older h.

(** The events of the store, the newest first, without the requests that were removed from the
    list: those of [gone] and those removed here. *)
Definition and_also (gone : nat -> bool) (i : nat) : nat -> bool := fun j => Nat.eqb j i || gone j.
Fixpoint effective (gone : nat -> bool) (t : list happening) : list event :=
  match t with
  | [] => []
  | KPost _ i e :: older => if gone i then effective gone older else e :: effective gone older
  | KEnd _ _ e :: older => e :: effective gone older
  | KErased i :: older => effective (and_also gone i) older
  | KCall _ e :: older => e :: effective gone older
  | KTold _ _ _ :: older => effective gone older
  end.
Definition events (t : list happening) : list event := effective (fun _ => false) t.
