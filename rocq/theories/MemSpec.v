(** Vocabulary for the memory of blocks: what the program has and may do. *)

From Coq Require Import ZArith List Bool.
From Verif Require Import MemModel.
Import ListNotations.
Local Open Scope Z_scope.

(** What the program has: pointers with the number of bytes it asked for. *)
Definition has := list (Z * Z).

(** The bytes an operation asks for. *)
Definition wants (raw : Z) (o : mop) : Z :=
  match o with ONew bytes _ _ _ => bytes | OAlloc num _ _ _ => num * raw | _ => 0 end.

(** A program that deletes only what it has, writes only into it, and asks for less than
    about 2^64 bytes. *)
Definition legal (A raw : Z) (own : has) (o : mop) : Prop :=
  match o with
  | ONew bytes _ _ _ => 0 <= bytes /\ A + 8 + bytes < 2 ^ 64
  | OAlloc num _ _ _ => 0 <= num /\ A + 8 + num * raw < 2 ^ 64
  | ODelete p => p = 0 \/ exists bytes, In (p, bytes) own
  | OPoke p off _ => exists bytes, In (p, bytes) own /\ 0 <= off /\ off + 8 <= bytes
  end.

(** What it has afterwards. *)
Definition after (raw : Z) (own : has) (o : mop) (res : option Z) : has :=
  match o, res with
  | (ONew _ _ _ _ | OAlloc _ _ _ _), Some p => (p, wants raw o) :: own
  | ODelete p, _ => filter (fun x => negb (fst x =? p)) own
  | _, _ => own
  end.

(** realloc did not give the null pointer. *)
Definition realloc_works (o : mop) : Prop :=
  match o with ONew _ _ r _ | OAlloc _ _ r _ => r <> RNull | _ => True end.

(** Runs of such a program; a call that throws leaves it with what it had.  The operations,
    the newest one first. *)
Inductive uses (A raw : Z) : list mop -> heap -> has -> Prop :=
| UStart : uses A raw [] heap0 []
| UStep : forall l h own o h' res, uses A raw l h own -> legal A raw own o ->
    mstep A raw h o = Ok (h', res) -> uses A raw (o :: l) h' (after raw own o res)
| UThrow : forall l h own o h', uses A raw l h own -> legal A raw own o ->
    mstep A raw h o = BadAlloc h' -> uses A raw (o :: l) h' own.

(** Two pieces of memory do not overlap. *)
Definition disjoint (a n b m : Z) : Prop := a + n <= b \/ b + m <= a.
