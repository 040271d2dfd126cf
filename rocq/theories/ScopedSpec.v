(** Vocabulary for the scoped timers. *)

From Coq Require Import ZArith List Bool.
From Verif Require Import StatsModel ScopedModel.
Import ListNotations.
Local Open Scope Z_scope.

(** The calls on one timer. *)
Inductive ev := EOn (size now : Z) | EOff (now : Z).

(** Those on timer [i], where [n] timers exist. *)
Fixpoint events (i n : nat) (cs : list call) : list ev :=
  match cs with
  | [] => []
  | CNew _ s t :: cs' => (if Nat.eqb i n then [EOn s t] else []) ++ events i (S n) cs'
  | CNewOff _ :: cs' | CCopy _ :: cs' => events i (S n) cs'
  | CStart j s t :: cs' => (if Nat.eqb i j then [EOn s t] else []) ++ events i n cs'
  | CStop j t :: cs' | CDel j t :: cs' => (if Nat.eqb i j then [EOff t] else []) ++ events i n cs'
  end.

(** The periods from a start to the next stop, with the size given to that start. *)
Fixpoint spans (on : option (Z * Z)) (l : list ev) : list (Z * Z * Z) :=
  match l with
  | [] => []
  | EOn s t :: l' => match on with None => spans (Some (s, t)) l' | Some _ => spans on l' end
  | EOff t :: l' => match on with Some (s, t0) => (s, t0, t) :: spans None l' | None => spans None l' end
  end.

(** What the timers are for, in order of construction. *)
Fixpoint kinds (cs : list call) : list what :=
  match cs with
  | [] => []
  | CNew k _ _ :: cs' => k :: kinds cs'
  | CNewOff w :: cs' => WWait w :: kinds cs'
  | _ :: cs' => kinds cs'
  end.

Definition op_for (k : what) (p : Z * Z * Z) : op :=
  match p with (s, t0, t) => match k with WIo w f => OpIO w f s t0 t false | WWait w => OpWait w t0 t end end.

(** The operations a thread has measured. *)
Fixpoint ops_from (i : nat) (ks : list what) (cs : list call) : list op :=
  match ks with
  | [] => []
  | k :: ks' => map (op_for k) (spans None (events i 0 cs)) ++ ops_from (S i) ks' cs
  end.
Definition measured (cs : list call) : list op := ops_from 0 (kinds cs) cs.

Definition no_copy (cs : list call) : Prop := forall i, ~ In (CCopy i) cs.

(** All timers of the thread are destroyed, [secs] are its critical sections. *)
Definition complete (cs : list call) (secs : list section) : Prop :=
  exists l, thread_run [] cs = Some (l, secs) /\ forall o, In o l -> o = None.
