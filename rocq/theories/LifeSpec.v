(** What the lifetime properties are stated with: where counting pointers to
    requests are, and what a log of events says. *)
From Coq Require Import List Bool PeanoNat.
From Verif Require Import LifeModel.
Import ListNotations.

(** An execution of [ns] server threads and [nc] clients. *)
Definition reachable (k : kind) (ns nc : nat) (s : state) : Prop :=
  exists acts, run k acts (init ns nc) = Some s.

(** References to requests that a server has: its local pointer or the vector of
    pointers, and one per control block that was filled and not yet handled. *)
Definition spc_refs (p : spc) : list nat :=
  match p with
  | SvIdle => []
  | SvServe r => [r]
  | SvFin r _ rest => r :: rest
  | SvDrop r rest => r :: rest
  | SvFill todo done => done ++ done ++ todo
  | SvClear todo => todo
  end.
Definition server_refs (v : server) : list nat := sv_cbs v ++ spc_refs (sv_pc v).

Definition cpc_refs (p : cpc) : list nat :=
  match p with
  | CIdle | CCan1 _ | CCrash => []
  | CNew r | CCan2 r | CCan3 r | CCanFin r _ | CCanEnd r _ => [r]
  end.
Definition client_refs (c : client) : list nat := cl_hold c ++ cpc_refs (cl_pc c).

(** All references to requests, one entry per reference. *)
Definition refs (s : state) : list nat :=
  st_queue s ++ st_kern s ++ flat_map server_refs (st_servers s) ++ flat_map client_refs (st_clients s).

Definition refs_to (s : state) (r : nat) : nat := count_occ Nat.eq_dec (refs s) r.

(** What the log says. *)
Definition created (s : state) (r : nat) : Prop := exists c f, In (ENewReq c r f) (st_log s).
Definition created_on (s : state) (r f : nat) : Prop := exists c, In (ENewReq c r f) (st_log s).
Definition freed (s : state) (r : nat) : Prop := exists st, In (EFree r st) (st_log s).
Definition rejected (s : state) (r : nat) : Prop := exists c f, In (EReject c r f) (st_log s).
Definition is_free (r : nat) (e : event) : bool :=
  match e with EFree x _ => Nat.eqb x r | _ => false end.
Definition is_new_on (f : nat) (e : event) : bool :=
  match e with ENewReq _ _ g => Nat.eqb g f | _ => false end.
Definition is_release_of (f : nat) (e : event) : bool :=
  match e with ERelease _ g => Nat.eqb g f | _ => false end.
Definition times (p : event -> bool) (l : list event) : nat := length (filter p l).

(** A request was made on [f] after [f] was destroyed. *)
Definition used_after_destroy (l : list event) (f : nat) : Prop :=
  exists l1 l2 c r n, l = l1 ++ ENewReq c r f :: l2 /\ In (EDestroy f n) l2.

(** [f] was destroyed while it had requests, or got new ones later. *)
Definition misused (l : list event) (f : nat) : Prop :=
  (exists n, 0 < n /\ In (EDestroy f n) l) \/ used_after_destroy l f.

(** wait() returned for it, or cancel() returned true. *)
Definition settled_in (l : list event) (r : nat) : Prop :=
  exists c, In (EWaited c r) l \/ In (ECancelled c r (Some true)) l.
