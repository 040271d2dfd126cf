(** Vocabulary for the block store on top of the queues: what the clients are told, the rules
    they follow, and which events count. *)

From Coq Require Import ZArith List Bool Arith.
From Verif Require Import AllocModel ManagerModel ManagerSpec FileModel StoreModel StoreSpec StoreQModel.
From Verif Require QueueModel.
Import ListNotations.

(** Client [c] has been told that request [r] of queue [q] is finished: wait_all returned or
    threw its error, wait_any returned it, cancel_all reported it. *)
Definition told (c : nat) (t : list happening) (q r : nat) : Prop :=
  (exists rs, In (HQueue q (QueueModel.EWaitRet c rs)) t /\ In r rs) \/
  (exists rs, In (HQueue q (QueueModel.EWaitThrow c rs r)) t) \/
  (exists rs sp, In (HQueue q (QueueModel.EAnyRet c rs (Some r) sp)) t) \/
  (exists rs bs m i, In (HQueue q (QueueModel.ECancelRet c rs bs m)) t /\ nth_error rs i = Some r /\ nth_error bs i = Some true).

(** A request [x] was posted, and no client knows that it is finished. *)
Definition unfinished (t : list happening) (x : rq) : Prop :=
  exists q c r e, In (HPost q c r e) t /\ request_of e = Some x /\ forall c', ~ told c' t q r.

(** The rules, in terms of what the clients know: no one deletes a block or writes to it before
    the end of all requests for it is known, or reads it before the end of all writes to it is
    known; the data fill the block. *)
Definition minds (n : nat) (t : list happening) (h : happening) : Prop :=
  match h with
  | HPost _ _ _ (EWrite b d) => Z.of_nat (length d) = b_size b /\ forall x, unfinished t x -> rq_bid x <> b
  | HPost _ _ _ (ERead b) => forall x, unfinished t x -> rq_data x <> None -> rq_bid x <> b
  | HCall (SNew tsize f off sizes) _ => valid_mop n (MNew tsize f off sizes)
  | HCall _ (EDelete b) => forall x, unfinished t x -> rq_bid x <> b
  | _ => True
  end.
Definition follows (n : nat) (t : list happening) : Prop :=
  forall newer h older, t = newer ++ h :: older -> minds n older h.

(** The events of the store, the newest first, without the requests that were removed from their
    queues: those of [gone] and those removed here. *)
Definition and_also (gone : nat -> nat -> bool) (q r : nat) : nat -> nat -> bool :=
  fun q' r' => (Nat.eqb q' q && Nat.eqb r' r) || gone q' r'.
Fixpoint effective (gone : nat -> nat -> bool) (t : list happening) : list event :=
  match t with
  | [] => []
  | HPost q _ r e :: older => if gone q r then effective gone older else e :: effective gone older
  | HServed _ _ _ e :: older => e :: effective gone older
  | HErased q _ r :: older => effective (and_also gone q r) older
  | HCall _ e :: older => e :: effective gone older
  | HQueue _ _ :: older => effective gone older
  end.
Definition events (t : list happening) : list event := effective (fun _ _ => false) t.
