(** Vocabulary for the claims about singletons. *)
From Coq Require Import List.
From Verif Require Import SingletonModel.
Import ListNotations.

(** [x] happens before [y] in a list of events (oldest first). *)
Definition occurs_before {A} (x y : A) (l : list A) : Prop :=
  exists l1 l2 l3, l = l1 ++ x :: l2 ++ y :: l3.

(** The constructor of [a] uses [u], directly or through other constructors. *)
Inductive needs (uses : nat -> list nat) : nat -> nat -> Prop :=
| NeedsDirect a u : In u (uses a) -> needs uses a u
| NeedsTrans a b u : In b (uses a) -> needs uses b u -> needs uses a u.

(** No constructor uses itself: the classes can be ranked. *)
Definition ranked (uses : nat -> list nat) (rank : nat -> nat) : Prop :=
  forall a u, In u (uses a) -> rank u < rank a.

(** Events of the first model. *)
Definition constructions (l : list sevent) : list nat :=
  flat_map (fun e => match e with EConstructed n => [n] | _ => [] end) l.
Definition deletions (l : list sevent) : list nat :=
  flat_map (fun e => match e with EDeleted n => [n] | _ => [] end) l.
Definition history (s : sstate) : list sevent := rev (s_trace s).
Definition life (s : lstate) : list levent := rev (l_trace s).
