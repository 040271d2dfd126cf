(** Vocabulary for the buffered writer: everything is said about the list of
    observable events. *)

From Coq Require Import List Arith ZArith.
From Verif Require Import WriterModel.
Import ListNotations.

Section Spec.
Context {A : Type}.

(** Blocks passed to write(), with the content they had. *)
Fixpoint calls (tr : list (wlabel A)) : list (bid * A) :=
  match tr with
  | [] => []
  | LWrite _ d a :: tr' => (d, a) :: calls tr'
  | _ :: tr' => calls tr'
  end.

(** What the I/O layer wrote. *)
Fixpoint served (tr : list (wlabel A)) : list (bid * A) :=
  match tr with
  | [] => []
  | LServe d a :: tr' => (d, a) :: served tr'
  | _ :: tr' => served tr'
  end.

(** The caller does not use buffers it got before a flush() after it. *)
Definition disciplined (tr : list (wlabel A)) : Prop := ~ In (LFlush true) tr.

(** Buffer [b] takes part in a transfer that is not over. *)
Definition in_flight (s : wst A) (b : nat) : Prop :=
  exists r, In r (w_reqs s) /\ r_buf r = b /\ r_ph r <> Ready.

Definition last_event (tr : list (wlabel A)) (l : wlabel A) : Prop :=
  exists tr', tr = tr' ++ [l].

(** Whatever the I/O layer does, the call in progress returns after finitely
    many steps. *)
Inductive returns (s : wst A) : Prop :=
| Returned : w_pc s = Idle \/ w_pc s = Dead -> returns s
| StillRunning : (exists l s', sstep s l s') ->
    (forall l s', sstep s l s' -> returns s') -> returns s.

(** Neither flush() nor the destructor has been called. *)
Definition no_flush (tr : list (wlabel A)) : Prop :=
  (forall keep, ~ In (LFlush keep) tr) /\ ~ In LDestroy tr.

End Spec.
