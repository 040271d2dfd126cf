(** Vocabulary for the request queue properties: what an execution looks like
    from outside, as the list of its events in time order. *)
From Coq Require Import List Bool PeanoNat.
From Verif Require Import QueueModel.
Import ListNotations.

(** Events of the execution that led to [s], oldest first. *)
Definition trace (s : state) : list event := rev (st_log s).

(** [a] happens somewhere before [b]. *)
Definition before (a b : event) (l : list event) : Prop :=
  exists l1 l2 l3, l = l1 ++ a :: l2 ++ b :: l3.

(** Does the event belong to the life of request [r]? *)
Definition about (r : nat) (e : event) : bool :=
  match e with
  | ECreate _ r' | EPush r' | EPop r' | EErase _ r' | ETook _ r' | EServe r' _ | EDone r'
  | EHandler r' _ | ENoHandler r' | ENotify r' _ | ERelease r' | EReady r' => Nat.eqb r r'
  | _ => false
  end.

Definition is_handler (r : nat) (e : event) : bool :=
  match e with EHandler r' _ => Nat.eqb r r' | _ => false end.
Definition handler_calls (r : nat) (l : list event) : nat := length (filter (is_handler r) l).

Definition is_transfer (r : nat) (e : event) : bool :=
  match e with EServe r' _ => Nat.eqb r r' | _ => false end.
Definition transfers (r : nat) (l : list event) : nat := length (filter (is_transfer r) l).

Definition transferred (r : nat) (l : list event) : Prop := exists ok, In (EServe r ok) l.
Definition failed (r : nat) (l : list event) : Prop := In (EServe r false) l.
Definition cancelled (r : nat) (l : list event) : Prop := exists c, In (EErase c r) l.
Definition completed (r : nat) (l : list event) : Prop := In (EReady r) l.

(** The call of the completion handler, if there is one. *)
Definition handler_event (h : bool) (r : nat) (success : bool) : event :=
  if h then EHandler r success else ENoHandler r.

(** The two lives of a request, [h]: it has a completion handler. *)
Definition served_life (h : bool) (c r : nat) (ok dead : bool) : list event :=
  [ECreate c r; EPush r; EPop r; EServe r ok; EDone r; handler_event h r true;
   ENotify r dead; ERelease r; EReady r].
Definition cancelled_life (h : bool) (c c' r : nat) (dead : bool) : list event :=
  [ECreate c r; EPush r; EErase c' r; ETook c' r; EDone r; handler_event h r false;
   ENotify r dead; ERelease r; EReady r].

Definition prefix {A} (l1 l2 : list A) : Prop := exists l3, l2 = l1 ++ l3.

(** How often the results of the returned cancel_all calls report that [r] was
    cancelled. *)
Fixpoint hits (r : nat) (rs : list nat) (bs : list bool) : nat :=
  match rs, bs with
  | r' :: rs', b :: bs' => (if Nat.eqb r r' && b then 1 else 0) + hits r rs' bs'
  | _, _ => 0
  end.
Fixpoint cancel_successes (r : nat) (l : list event) : nat :=
  match l with
  | [] => 0
  | ECancelRet _ rs bs _ :: l' => hits r rs bs + cancel_successes r l'
  | _ :: l' => cancel_successes r l'
  end.

(** Program counters that matter for counting tokens. *)
Definition pushing (p : cpc) : bool := match p with CPush _ => true | _ => false end.
Definition signalling (p : cpc) : bool := match p with CSignal _ => true | _ => false end.
Definition taking (p : cpc) : bool := match p with CTake _ _ _ _ => true | _ => false end.
Definition in_wait_any (p : cpc) : bool :=
  match p with CAnyAdd _ _ _ | CAnyUndo _ _ _ _ | CAnyWait _ _ | CAnyScan _ _ _ _ _ => true | _ => false end.
Definition clients_at (f : cpc -> bool) (s : state) : nat := length (filter f (st_clients s)).
Definition queued (s : state) : nat := length (st_rq s) + length (st_wq s).

(** No client is in the middle of a submission or a cancellation. *)
Definition busy (p : cpc) : bool :=
  match p with CPush _ | CSignal _ | CErase _ _ _ _ | CTake _ _ _ _ => true | _ => false end.

Definition quiet (s : state) : Prop := forall c pc, nth_error (st_clients s) c = Some pc -> busy pc = false.

(** Executions in which only the worker moves. *)
Inductive wsteps (k : kind) : nat -> state -> state -> Prop :=
| wsteps_0 : forall s, wsteps k 0 s s
| wsteps_S : forall n s1 s2 s3, wstep k s1 s2 -> wsteps k n s2 s3 -> wsteps k (S n) s1 s3.

(** Requests in the order of their submission and of their service. *)
Definition pushes (l : list event) : list nat :=
  flat_map (fun e => match e with EPush r => [r] | _ => [] end) l.
Definition pops (l : list event) : list nat :=
  flat_map (fun e => match e with EPop r => [r] | _ => [] end) l.
Definition erased (r : nat) (l : list event) : bool :=
  existsb (fun e => match e with EErase _ r' => Nat.eqb r r' | _ => false end) l.

(** [d r] is the direction that [s] records for request [r]. *)
Definition is_direction (d : nat -> rw) (s : state) : Prop :=
  forall r q, nth_error (st_reqs s) r = Some q -> d r = q_op q.

(** The requests of [l] that go to list [w]. *)
Definition going (k : kind) (d : nat -> rw) (w : bool) (l : list nat) : list nat :=
  filter (fun r => Bool.eqb (which k (d r)) w) l.
