(** Vocabulary for the prefetcher with failing reads: events. *)

From Coq Require Import List Arith.
From Verif Require Import WriterModel PrefetchModel PrefetchSpec PrefetchErrModel.
Import ListNotations.

Section Spec.
Context {A : Type}.

(** The events that also exist without failures. *)
Fixpoint y_normal (tr : list (ylabel A)) : list (plabel A) :=
  match tr with
  | [] => []
  | YOk l :: tr' => l :: y_normal tr'
  | _ :: tr' => y_normal tr'
  end.

(** Contents of the blocks handed out, in order; [None] is unknown content. *)
Definition y_delivered (tr : list (ylabel A)) : list (option A) := delivered (y_normal tr).

(** The buffers handed out, in order. *)
Definition y_handed (tr : list (ylabel A)) : list nat :=
  flat_map (fun l => match l with YOk (FRet b _) => [b] | _ => [] end) tr.

(** The blocks whose read failed. *)
Fixpoint y_fails (tr : list (ylabel A)) : list nat :=
  match tr with
  | [] => []
  | YFail k :: tr' => k :: y_fails tr'
  | _ :: tr' => y_fails tr'
  end.

(** The sequence of blocks, as far as the reads succeeded. *)
Definition readable (disk : bid -> A) (bids : list bid) (bad : list nat) : list (option A) :=
  map (fun k => if in_dec Nat.eq_dec k bad then None else option_map disk (nth_error bids k))
      (seq 0 (length bids)).

(** A step that is not the caller's. *)
Definition y_sys (l : ylabel A) (y y' : yst A) : Prop :=
  ystep y l y' /\ match l with
                  | YOk FPull | YOk (FGive _) | YOk (FFill _ _) | YOk FDestroy => False
                  | _ => True
                  end.

(** Whatever the I/O layer does, the call in progress is over after finitely
    many steps: it returned or threw, or the program was ended. *)
Inductive y_ends (y : yst A) : Prop :=
| YEnded : p_pc (y_p y) = PIdle \/ p_pc (y_p y) = PDead \/ y_term y = true -> y_ends y
| YRunning : (exists l y', y_sys l y y') -> (forall l y', y_sys l y y' -> y_ends y') -> y_ends y.

End Spec.
