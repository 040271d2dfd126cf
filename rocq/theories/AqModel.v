(** Model of the addressable queues.

    Source: /repo/foxxll/common/addressable_queues.hpp (29-106 FIFO queue,
    113-200 priority queue).

    Keys are numbers ordered by <.  An iterator into the std::list is the
    identity of a node; node identities are never reused ([next]).  A std::set
    is a list sorted by its comparison, and an iterator into it is the element
    it points to.  A std::map from keys is an association list in which a key
    occurs at most once.  Using an iterator that points nowhere is undefined
    behaviour: [None].  The erase by handle (85-89, 179-183) is the second half of the
    erase by key and is not modelled separately. *)
From Coq Require Import ZArith List Bool.
Import ListNotations.
Local Open Scope Z_scope.

(** std::map<KeyType, iterator>.
    addressable_queues.hpp lines 33 and 128; find: lines 75 and 169. *)
Fixpoint map_find {V} (k : Z) (m : list (Z * V)) : option V :=
  match m with
  | [] => None
  | (k', v) :: r => if k =? k' then Some v else map_find k r
  end.
(** std::map::erase, addressable_queues.hpp lines 79, 88, 102, 173, 182, 196. *)
Fixpoint map_erase {V} (k : Z) (m : list (Z * V)) : list (Z * V) :=
  match m with
  | [] => []
  | (k', v) :: r => if k =? k' then r else (k', v) :: map_erase k r
  end.
(** Assignment through an iterator or insertion, addressable_queues.hpp lines 60, 65,
    154, 159. *)
Fixpoint map_set {V} (k : Z) (v : V) (m : list (Z * V)) : list (Z * V) :=
  match m with
  | [] => []
  | (k', v') :: r => if k =? k' then (k, v) :: r else (k', v') :: map_set k v r
  end.

(** * addressable_fifo_queue *)

(** addressable_fifo_queue, addressable_queues.hpp lines 36-37; list nodes have numbers,
    the iterators. *)
Record fifo := mk_fifo { vals : list (nat * Z); meta : list (Z * nat); next : nat }.

(** Constructor, addressable_queues.hpp line 44. *)
Definition fifo_new : fifo := mk_fifo [] [] 0.

(** Erase the node with the given identity.
    std::list::erase, addressable_queues.hpp lines 64, 78, 87. *)
Fixpoint node_erase (i : nat) (l : list (nat * Z)) : option (list (nat * Z)) :=
  match l with
  | [] => None
  | (j, e) :: r => if Nat.eqb i j then Some r
                   else match node_erase i r with Some r' => Some ((j, e) :: r') | None => None end
  end.

(** addressable_queues.hpp lines 49-50: empty. *)
Definition fifo_empty (q : fifo) : bool := match vals q with [] => true | _ => false end.

(** addressable_queues.hpp lines 57-68: insert; result flag = newly inserted. *)
Definition fifo_insert (q : fifo) (e : Z) : option (fifo * bool) :=
  let ei := next q in
  let vals1 := vals q ++ [(ei, e)] in
  match map_find e (meta q) with
  | None => Some (mk_fifo vals1 ((e, ei) :: meta q) (S (next q)), true)
  | Some old =>
      match node_erase old vals1 with
      | Some vals2 => Some (mk_fifo vals2 (map_set e ei (meta q)) (S (next q)), false)
      | None => None
      end
  end.

(** addressable_queues.hpp lines 73-81: erase. *)
Definition fifo_erase (q : fifo) (e : Z) : option (fifo * bool) :=
  match map_find e (meta q) with
  | None => Some (q, false)
  | Some i =>
      match node_erase i (vals q) with
      | Some v => Some (mk_fifo v (map_erase e (meta q)) (next q), true)
      | None => None
      end
  end.

(** addressable_queues.hpp lines 93-94: top.  On an empty queue: undefined. *)
Definition fifo_top (q : fifo) : option Z :=
  match vals q with (_, e) :: _ => Some e | [] => None end.
(** addressable_queues.hpp lines 98-105: pop.  On an empty queue: undefined. *)
Definition fifo_pop (q : fifo) : option (fifo * Z) :=
  match vals q with
  | (_, e) :: r => Some (mk_fifo r (map_erase e (meta q)) (next q), e)
  | [] => None
  end.

(** * addressable_priority_queue

    [P] is PriorityType and [c] the comparison class [Cmp]. *)

(** addressable_queues.hpp lines 115-124: the comparison of pairs. *)
Definition pair_lt {P} (c : P -> P -> bool) (l r : P * Z) : bool :=
  c (fst l) (fst r) || (negb (c (fst r) (fst l)) && (snd l <? snd r)).

(** addressable_priority_queue, addressable_queues.hpp lines 131-132; an iterator is its
    element. *)
Record pqueue (P : Type) := mk_pqueue { pvals : list (P * Z); pmeta : list (Z * (P * Z)) }.
Arguments mk_pqueue {P}. Arguments pvals {P}. Arguments pmeta {P}.

(** Constructor, addressable_queues.hpp line 139. *)
Definition pq_new (P : Type) : pqueue P := mk_pqueue [] [].

(** std::set::insert: the new set, the element the iterator points to, and
    whether it was inserted.
    addressable_queues.hpp line 153. *)
Fixpoint set_insert {P} (c : P -> P -> bool) (x : P * Z) (l : list (P * Z)) :
    list (P * Z) * (P * Z) * bool :=
  match l with
  | [] => ([x], x, true)
  | y :: r => if pair_lt c x y then (x :: y :: r, x, true)
              else if pair_lt c y x then
                     let '(r', it, b) := set_insert c x r in (y :: r', it, b)
                   else (y :: r, y, false)
  end.

(** std::set::erase of the element an iterator points to.
    addressable_queues.hpp lines 158, 172, 181, 197. *)
Fixpoint set_erase {P} (c : P -> P -> bool) (x : P * Z) (l : list (P * Z)) : option (list (P * Z)) :=
  match l with
  | [] => None
  | y :: r => if negb (pair_lt c x y) && negb (pair_lt c y x) then Some r
              else match set_erase c x r with Some r' => Some (y :: r') | None => None end
  end.

(** addressable_queues.hpp lines 144-145: empty. *)
Definition pq_empty {P} (q : pqueue P) : bool := match pvals q with [] => true | _ => false end.

(** addressable_queues.hpp lines 151-162: insert; the flag is [r.second], newly inserted. *)
Definition pq_insert {P} (c : P -> P -> bool) (q : pqueue P) (e : Z) (o : P) : option (pqueue P * bool) :=
  let '(vals1, it, fresh) := set_insert c (o, e) (pvals q) in
  match map_find e (pmeta q) with
  | None => Some (mk_pqueue vals1 ((e, it) :: pmeta q), true)
  | Some old =>
      if fresh then
        match set_erase c old vals1 with
        | Some vals2 => Some (mk_pqueue vals2 (map_set e it (pmeta q)), false)
        | None => None
        end
      else Some (mk_pqueue vals1 (pmeta q), false)
  end.

(** addressable_queues.hpp lines 167-175: erase. *)
Definition pq_erase {P} (c : P -> P -> bool) (q : pqueue P) (e : Z) : option (pqueue P * bool) :=
  match map_find e (pmeta q) with
  | None => Some (q, false)
  | Some it =>
      match set_erase c it (pvals q) with
      | Some v => Some (mk_pqueue v (map_erase e (pmeta q)), true)
      | None => None
      end
  end.

(** addressable_queues.hpp lines 187-188: top. *)
Definition pq_top {P} (q : pqueue P) : option Z :=
  match pvals q with (_, e) :: _ => Some e | [] => None end.
(** addressable_queues.hpp lines 192-199: pop. *)
Definition pq_pop {P} (q : pqueue P) : option (pqueue P * Z) :=
  match pvals q with
  | (_, e) :: r => Some (mk_pqueue r (map_erase e (pmeta q)), e)
  | [] => None
  end.
