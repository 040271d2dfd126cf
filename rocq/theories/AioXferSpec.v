(** Vocabulary for the kernel AIO queue that transfers bytes. *)

From Coq Require Import ZArith List Bool.
From Verif Require Import AioXferModel.
From Verif Require AsyncModel AsyncSpec.
Import ListNotations.

(** What the clients of AsyncModel see. *)
Definition view (h : happening) : list AsyncModel.label :=
  match h with
  | APost c i a => [AsyncModel.Post c i a]
  | AEnd c i true => [AsyncModel.Done c i]
  | AEnd c i false => [AsyncModel.Fail c i]
  | AErased c i => [AsyncModel.Cancel c i]
  | APoke c a v => [AsyncModel.Poke c a v]
  | APeek c a v => [AsyncModel.Peek c a v]
  | ATold _ _ => []
  end.
Definition views (t : list happening) : list AsyncModel.label := flat_map view t.

(** Client [c] waits: when it posts a request or touches memory, it has been told the end of
    all its requests that this would disturb. *)
Definition waits (c : nat) (t : list happening) : Prop :=
  forall t1 h t2, t = t1 ++ h :: t2 -> forall i a, In (APost c i a) t1 -> ~ In (ATold c i) t1 ->
  match h with
  | APost c' _ b => c' = c -> ~ AsyncSpec.conflict b a
  | APoke c' m _ => c' = c -> ~ AsyncSpec.uses a (AsyncModel.Mem m)
  | APeek c' m _ => c' = c -> ~ AsyncSpec.changes a (AsyncModel.Mem m)
  | _ => True
  end.

(** Clients use only locations of their own. *)
Definition stays (own : nat -> AsyncModel.loc -> Prop) (h : happening) : Prop :=
  match h with
  | APost c _ a => forall m, AsyncSpec.uses a m -> own c m
  | APoke c a _ | APeek c a _ => own c (AsyncModel.Mem a)
  | _ => True
  end.
