(* What a data race is, and which members have a mutex of their own. *)
From Coq Require Import List Arith.
From Verif Require LockModel.
From Verif Require Import RaceModel.
Import LockModel(mtx, Mtx, class(..), single(..)).
Import ListNotations.

(* Thread i is about to read or write the member, not having to wait for anything. *)
Definition about_to (st : sys) (i : nat) (x : var) (w : bool) : Prop :=
  exists k, nth_error st i = Some (Do (Acc x w) :: k).

(* Two threads are about to access the same member, one of them to write it. *)
Definition race (st : sys) (x : var) : Prop :=
  exists i j w, i <> j /\ about_to st i x true /\ about_to st j x w.

(* Two threads are about to write it. *)
Definition write_race (st : sys) (x : var) : Prop :=
  exists i j, i <> j /\ about_to st i x true /\ about_to st j x true.

(* The members the library protects by a mutex wherever they are used. *)
Definition protected (x : member) : Prop :=
  match x with
  | MState | MTState | MSwitch | MSem | MWaiters | MQr | MQw | MQ1 | MAioQ | MQueues
  | MCount | MFree | MFdes | MPos | MMem | MStList | MAcc | MExit => True
  | _ => False
  end.

(* The members of the statistics. *)
Definition statistic (x : member) : Prop :=
  match x with MFsR | MFsW | MStR | MStW | MStIo | MStWait => True | _ => False end.

(* Only written under a mutex, but read without. *)
Definition write_protected (x : member) : Prop :=
  protected x \/ statistic x \/ x = MMemSize \/ exists s, x = MInst s.
