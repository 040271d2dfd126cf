(** Vocabulary for the prefetcher. *)

From Coq Require Import List Arith.
From Verif Require Import WriterModel PrefetchModel.
Import ListNotations.

Section Spec.
Context {A : Type}.

(** Contents of the blocks handed out, in order. *)
Fixpoint delivered (tr : list (plabel A)) : list (option A) :=
  match tr with
  | [] => []
  | FRet _ a :: tr' => a :: delivered tr'
  | _ :: tr' => delivered tr'
  end.

(** What the sequence of blocks contains. *)
Definition stream (disk : bid -> A) (bids : list bid) : list (option A) :=
  map (fun d => Some (disk d)) bids.

Definition reading_into (s : pst A) (b : nat) : Prop :=
  exists r, In r (p_reqs s) /\ q_buf r = b /\ q_ph r <> RFinished.

Definition p_last (tr : list (plabel A)) (l : plabel A) : Prop :=
  exists tr', tr = tr' ++ [l].

(** Whatever the I/O layer does, the call in progress returns after finitely
    many steps. *)
Inductive p_returns (s : pst A) : Prop :=
| PReturned : p_pc s = PIdle \/ p_pc s = PDead -> p_returns s
| PRunning : (exists l s', psstep false s l s') ->
    (forall l s', psstep false s l s' -> p_returns s') -> p_returns s.

End Spec.
