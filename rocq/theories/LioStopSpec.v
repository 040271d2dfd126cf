(** Vocabulary for the destruction of the kernel AIO queue. *)

From Coq Require Import List Arith Bool.
From Verif Require Import LioModel LioSpec LioStopModel.
Import ListNotations.

(** The destructor has returned. *)
Definition destroyed (q : qst) : Prop := dtor q = D_done.

(** Handled requests, requests nobody has given to the kernel, and requests in
    the kernel. *)
Definition is_handled (q : qst) (i : id) : Prop := was_handled (inner q) i.
Definition is_waiting (q : qst) (i : id) : Prop := In i (waiting (inner q)).
Definition is_in_kernel (q : qst) (i : id) : Prop := In i (in_kernel (inner q)).

(** Whatever happens, a state with [P] is reached: no run goes on for ever or
    stops without one. *)
Inductive inevitable {X} (R : X -> X -> Prop) (P : X -> Prop) : X -> Prop :=
| inev_now x : P x -> inevitable R P x
| inev_later x : (exists y, R x y) -> (forall y, R x y -> inevitable R P y) -> inevitable R P x.
