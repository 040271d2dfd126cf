(** Vocabulary for the streams with failing I/O. *)

From Coq Require Import List Arith.
From Verif Require Import WriterModel PrefetchModel PrefetchErrModel.
Import ListNotations.

Section Spec.
Context {R : Type}.

(** The records of the blocks [ds], in the order in which a stream delivers them. *)
Definition records (fwd : bool) (disk : bid -> list R) (ds : list bid) : list R :=
  concat (map (fun d => if fwd then disk d else rev (disk d)) ds).

(** How often the prefetcher threw. *)
Fixpoint y_throws {A} (tr : list (ylabel A)) : nat :=
  match tr with
  | [] => 0
  | YThrow :: tr' => S (y_throws tr')
  | _ :: tr' => y_throws tr'
  end.

End Spec.
