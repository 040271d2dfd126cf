(** Vocabulary for the properties of the kernel AIO queue. *)

From Coq Require Import List Arith Bool.
From Verif Require Import LioModel.
Import ListNotations.

(** Requests that were submitted to the kernel and whose event has not been
    received. *)
Definition in_kernel (s : st) : list id := infl s ++ dn s.

(** Both threads are at the beginning of their loops, no client is inside of a
    function. *)
Definition at_rest (s : st) : Prop :=
  poster s = P_idle /\ waiter s = W_idle /\ adders s = 0 /\ cancelers s = [].

(** The handler of the request has been called. *)
Definition was_handled (s : st) (i : id) : Prop := exists c, In (i, c) (handled s).

(** Everything that was added has been handled. *)
Definition all_handled (s : st) : Prop := forall i, In i (added s) -> was_handled s i.

(** A step that neither adds a request nor begins to cancel one: a step of the
    threads of the queue, of the kernel, or of a client that is inside of a
    function. *)
Definition inner_step (max : nat) (pc ps : bool) (s s' : st) : Prop :=
  step max pc ps s s' /\ added s' = added s /\ length (cancelers s') <= length (cancelers s).

(** Sequences of steps. *)
Inductive star {X} (R : X -> X -> Prop) : X -> X -> Prop :=
| star_refl x : star R x x
| star_step x y z : R x y -> star R y z -> star R x z.

(** Events that handle_events still has to complete. *)
Definition h_rem h := match h with H_free e => e | H_comp r _ => r | H_wait _ => [] end.

(** Requests that the posting thread has taken from the list and not yet
    submitted, and those whose event it has received and not yet completed. *)
Definition p_reqs p := match p with
  | P_coll r => r | P_coll2 r => r | P_free r => r | P_sub c => c | P_sig _ c => c
  | P_reap c => c | P_han _ c => c | _ => [] end.
Definition p_rem p := match p with P_han h _ => h_rem h | _ => [] end.

(** Requests whose event the waiting thread has received and not yet completed. *)
Definition w_rem w := match w with W_comp e => e | W_han h => h_rem h | _ => [] end.
