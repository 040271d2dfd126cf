(** What the addressable queues should do. *)
From Coq Require Import ZArith List Bool.
From Verif Require Import AqModel.
Import ListNotations.
Local Open Scope Z_scope.

Inductive fop := FInsert (e : Z) | FErase (e : Z) | FPop.

(** The FIFO queue as a list without repetitions, oldest insertion first. *)
Definition without (e : Z) (l : list Z) : list Z := filter (fun x => negb (x =? e)) l.
Definition mem (e : Z) (l : list Z) : bool := existsb (Z.eqb e) l.

(** New content and observed result; [None]: the operation is not allowed. *)
Definition fifo_spec (l : list Z) (o : fop) : option (list Z * Z) :=
  match o with
  | FInsert e => Some (without e l ++ [e], if mem e l then 0 else 1)
  | FErase e => Some (without e l, if mem e l then 1 else 0)
  | FPop => match l with [] => None | e :: r => Some (r, e) end
  end.
Fixpoint fifo_spec_run (l : list Z) (ops : list fop) : option (list Z * list Z) :=
  match ops with
  | [] => Some (l, [])
  | o :: r => match fifo_spec l o with
              | None => None
              | Some (l', x) => match fifo_spec_run l' r with
                                | None => None
                                | Some (l'', xs) => Some (l'', x :: xs)
                                end
              end
  end.

(** The same operations on the model. *)
Definition b2z (b : bool) : Z := if b then 1 else 0.
Definition fifo_do (q : fifo) (o : fop) : option (fifo * Z) :=
  match o with
  | FInsert e => match fifo_insert q e with Some (q', b) => Some (q', b2z b) | None => None end
  | FErase e => match fifo_erase q e with Some (q', b) => Some (q', b2z b) | None => None end
  | FPop => fifo_pop q
  end.
Fixpoint fifo_run (q : fifo) (ops : list fop) : option (fifo * list Z) :=
  match ops with
  | [] => Some (q, [])
  | o :: r => match fifo_do q o with
              | None => None
              | Some (q', x) => match fifo_run q' r with
                                | None => None
                                | Some (q'', xs) => Some (q'', x :: xs)
                                end
              end
  end.

(** ** Priority queue *)

(** Requirements of the standard on a comparison class. *)
Record strict_weak {P} (c : P -> P -> bool) : Prop := mk_strict_weak {
  sw_irrefl : forall x, c x x = false;
  sw_trans : forall x y z, c x y = true -> c y z = true -> c x z = true;
  sw_equiv : forall x y z, c x y = false -> c y x = false -> c y z = false -> c z y = false ->
                           c x z = false /\ c z x = false
}.

Inductive pop_op (P : Type) := PInsert (e : Z) (p : P) | PErase (e : Z) | PPop.
Arguments PInsert {P}. Arguments PErase {P}. Arguments PPop {P}.

(** The queue as a map from keys to their priority: newest binding first. *)
Definition prios (P : Type) := Z -> option P.
Definition no_prios {P} : prios P := fun _ => None.
Definition set_prio {P} (m : prios P) (e : Z) (p : option P) : prios P :=
  fun x => if x =? e then p else m x.

(** [e] may be popped: no key has a smaller priority, and none with an
    equivalent priority is smaller. *)
Definition is_first {P} (c : P -> P -> bool) (m : prios P) (e : Z) : Prop :=
  exists p, m e = Some p /\
    forall e' p', m e' = Some p' -> c p' p = false /\ (c p p' = false -> e <= e').

(** Two maps with the same keys and equivalent priorities. *)
Definition same_prios {P} (c : P -> P -> bool) (m m' : prios P) : Prop :=
  forall e, match m e, m' e with
            | None, None => True
            | Some p, Some p' => c p p' = false /\ c p' p = false
            | _, _ => False
            end.

Definition pq_do {P} (c : P -> P -> bool) (q : pqueue P) (o : pop_op P) : option (pqueue P * Z) :=
  match o with
  | PInsert e p => match pq_insert c q e p with Some (q', b) => Some (q', b2z b) | None => None end
  | PErase e => match pq_erase c q e with Some (q', b) => Some (q', b2z b) | None => None end
  | PPop => pq_pop q
  end.

(** One operation on the map and its result. *)
Definition is_some {A} (x : option A) : bool := match x with Some _ => true | None => false end.
Inductive pq_spec {P} (c : P -> P -> bool) : prios P -> pop_op P -> prios P -> Z -> Prop :=
| spec_insert : forall m e p,
    pq_spec c m (PInsert e p) (set_prio m e (Some p)) (b2z (negb (is_some (m e))))
| spec_erase : forall m e, pq_spec c m (PErase e) (set_prio m e None) (b2z (is_some (m e)))
| spec_pop : forall m e, is_first c m e -> pq_spec c m PPop (set_prio m e None) e.

Inductive pq_spec_run {P} (c : P -> P -> bool) : prios P -> list (pop_op P) -> prios P -> list Z -> Prop :=
| run_nil : forall m, pq_spec_run c m [] m []
| run_cons : forall m o m1 x ops m2 xs, pq_spec c m o m1 x -> pq_spec_run c m1 ops m2 xs ->
    pq_spec_run c m (o :: ops) m2 (x :: xs).

Fixpoint pq_run {P} (c : P -> P -> bool) (q : pqueue P) (ops : list (pop_op P)) : option (pqueue P * list Z) :=
  match ops with
  | [] => Some (q, [])
  | o :: r => match pq_do c q o with
              | None => None
              | Some (q', x) => match pq_run c q' r with
                                | None => None
                                | Some (q'', xs) => Some (q'', x :: xs)
                                end
              end
  end.

(** Popping an empty queue is not allowed; anything else is. *)
Definition allowed {P} (q : pqueue P) (o : pop_op P) : Prop :=
  o = PPop -> pq_empty q = false.
