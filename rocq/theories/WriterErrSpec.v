(** Vocabulary for the buffered writer with failing writes: events. *)

From Coq Require Import List Arith ZArith.
From Verif Require Import WriterModel WriterSpec WriterErrModel.
Import ListNotations.

Section Spec.
Context {A : Type}.

(** The events that also exist without failures. *)
Fixpoint normal (tr : list (xlabel A)) : list (wlabel A) :=
  match tr with
  | [] => []
  | XOk l :: tr' => l :: normal tr'
  | _ :: tr' => normal tr'
  end.

(** The targets of the writes that failed. *)
Fixpoint fails (tr : list (xlabel A)) : list bid :=
  match tr with
  | [] => []
  | XFail d :: tr' => d :: fails tr'
  | _ :: tr' => fails tr'
  end.

Fixpoint throws (tr : list (xlabel A)) : nat :=
  match tr with
  | [] => 0
  | XThrow :: tr' => S (throws tr')
  | _ :: tr' => throws tr'
  end.

(** The caller does not use buffers it got before a flush() after it. *)
Definition x_disciplined (tr : list (xlabel A)) : Prop := disciplined (normal tr).

(** A step of the writer's code or of the I/O layer. *)
Definition x_sys (l : xlabel A) (x x' : xst A) : Prop :=
  xstep x l x' /\ match l with
                  | XOk LGet | XOk (LWrite _ _ _) | XOk (LFill _ _) | XOk (LFlush _) | XOk LDestroy => False
                  | _ => True
                  end.

(** Whatever the I/O layer does, the call in progress is over after finitely
    many steps: it returned or threw, or the program was ended. *)
Inductive ends (x : xst A) : Prop :=
| Ended : w_pc (x_w x) = Idle \/ w_pc (x_w x) = Dead \/ x_term x = true -> ends x
| Running : (exists l x', x_sys l x x') -> (forall l x', x_sys l x x' -> ends x') -> ends x.

End Spec.
