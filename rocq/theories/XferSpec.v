(** Vocabulary for queues that transfer bytes. *)

From Coq Require Import ZArith List Bool.
From Coq Require Cantor.
From Verif Require Import QueueModel XferModel.
From Verif Require AsyncModel AsyncSpec.
Import ListNotations.

(** A number for request [r] of disk [d]. *)
Definition number (d r : nat) : nat := Cantor.to_nat (d, r).

(** What the clients of AsyncModel see. *)
Definition view (h : happening) : list AsyncModel.label :=
  match h with
  | HPost d c r a => [AsyncModel.Post c (number d r) a]
  | HServed d c r true => [AsyncModel.Done c (number d r)]
  | HServed d c r false => [AsyncModel.Fail c (number d r)]
  | HErased d c r => [AsyncModel.Cancel c (number d r)]
  | HPoke c a v => [AsyncModel.Poke c a v]
  | HPeek c a v => [AsyncModel.Peek c a v]
  | HQueue _ _ => []
  end.
Definition views (t : list happening) : list AsyncModel.label := flat_map view t.

(** Client [c] has been told that request [r] of disk [d] is finished: wait_all returned or
    threw its error, wait_any returned it, cancel_all reported it. *)
Definition told (c : nat) (t : list happening) (d r : nat) : Prop :=
  (exists rs, In (HQueue d (EWaitRet c rs)) t /\ In r rs) \/
  (exists rs, In (HQueue d (EWaitThrow c rs r)) t) \/
  (exists rs sp, In (HQueue d (EAnyRet c rs (Some r) sp)) t) \/
  (exists rs bs m i, In (HQueue d (ECancelRet c rs bs m)) t /\ nth_error rs i = Some r /\ nth_error bs i = Some true).

(** Client [c] waits: when it posts a request or touches memory, it has been told the end of
    all its requests that this would disturb. *)
Definition waits (c : nat) (t : list happening) : Prop :=
  forall t1 h t2, t = t1 ++ h :: t2 -> forall d r a, In (HPost d c r a) t1 -> ~ told c t1 d r ->
  match h with
  | HPost _ c' _ b => c' = c -> ~ AsyncSpec.conflict b a
  | HPoke c' m _ => c' = c -> ~ AsyncSpec.uses a (AsyncModel.Mem m)
  | HPeek c' m _ => c' = c -> ~ AsyncSpec.changes a (AsyncModel.Mem m)
  | _ => True
  end.

(** Clients use only locations of their own. *)
Definition stays (own : nat -> AsyncModel.loc -> Prop) (h : happening) : Prop :=
  match h with
  | HPost _ c _ a => forall m, AsyncSpec.uses a m -> own c m
  | HPoke c a _ | HPeek c a _ => own c (AsyncModel.Mem a)
  | _ => True
  end.
