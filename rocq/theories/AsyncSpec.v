(** Vocabulary for asynchronous transfers. *)

From Coq Require Import ZArith List Bool.
From Verif Require Import AsyncModel.
Import ListNotations.
Local Open Scope Z_scope.

(** The locations a request changes or uses. *)
Definition changes (r : req) (l : loc) : Prop := exists k, 0 <= k < r_size r /\ l = dst r k.
Definition uses (r : req) (l : loc) : Prop := exists k, 0 <= k < r_size r /\ (l = src r k \/ l = dst r k).

Definition conflict (r q : req) : Prop := exists l, (changes r l /\ uses q l) \/ (uses r l /\ changes q l).

(** The requests posted and not finished after a trace: client, number and request. *)
Definition posted := (nat * nat * req)%type.
Definition is_posted (c i : nat) (x : posted) : bool := Nat.eqb (fst (fst x)) c && Nat.eqb (snd (fst x)) i.
Definition after (p : list posted) (l : label) : list posted :=
  match l with
  | Post c i r => p ++ [(c, i, r)]
  | Done c i | Fail c i | Cancel c i => filter (fun x => negb (is_posted c i x)) p
  | _ => p
  end.
Definition pending (p : list posted) (tr : list label) : list posted := fold_left after tr p.

(** A client waits: it posts no request that conflicts with one under way, leaves buffers of
    requests under way alone, and does not look into a buffer that is being read into. *)
Definition polite_label (p : list posted) (l : label) : Prop :=
  match l with
  | Post _ _ r => forall d i q, In (d, i, q) p -> ~ conflict r q
  | Poke _ a _ => forall d i q, In (d, i, q) p -> ~ uses q (Mem a)
  | Peek _ a _ => forall d i q, In (d, i, q) p -> ~ changes q (Mem a)
  | _ => True
  end.
Definition polite (tr : list label) : Prop :=
  forall t1 l t2, tr = t1 ++ l :: t2 -> polite_label (pending [] t1) l.

(** The sequential machine: a request is executed as a whole when it is completed. *)
Definition seq_step (p : list posted) (w : loc -> Z) (l : label) (w' : loc -> Z) : Prop :=
  match l with
  | Poke _ a v => w' (Mem a) = v /\ forall m, m <> Mem a -> w' m = w m
  | Peek _ a v => v = w (Mem a) /\ forall m, w' m = w m
  | Done c i => exists r, In (c, i, r) p /\ (forall k, 0 <= k < r_size r -> w' (dst r k) = w (src r k)) /\
      forall m, ~ changes r m -> w' m = w m
  | Fail c i => exists r, In (c, i, r) p /\ forall m, ~ changes r m -> w' m = w m
  | Post _ _ _ | Cancel _ _ => forall m, w' m = w m
  end.
Inductive seq_run : list posted -> (loc -> Z) -> list label -> (loc -> Z) -> Prop :=
| QNil : forall p w w', (forall m, w' m = w m) -> seq_run p w [] w'
| QCons : forall p w l w1 tr w2, seq_step p w l w1 -> seq_run (after p l) w1 tr w2 -> seq_run p w (l :: tr) w2.

(** The client of a label, and the locations it mentions. *)
Definition client_of (l : label) : nat :=
  match l with Post c _ _ | Poke c _ _ | Peek c _ _ | Done c _ | Fail c _ | Cancel c _ => c end.
Definition keeps_to (own : nat -> loc -> Prop) (l : label) : Prop :=
  match l with
  | Post c _ r => forall m, uses r m -> own c m
  | Poke c a _ | Peek c a _ => own c (Mem a)
  | _ => True
  end.
Definition part (c : nat) (tr : list label) : list label := filter (fun l => Nat.eqb (client_of l) c) tr.
