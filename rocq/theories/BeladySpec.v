(** What it means that a strategy of replacing blocks is optimal, and programs
    that use one block at a time. *)
From Coq Require Import ZArith List Bool Arith.
From Verif Require Import BsModel BsSpec.
Import ListNotations.

(** ** Paging *)

Definition mem_nat (x : nat) (l : list nat) : bool := existsb (Nat.eqb x) l.

(** The elements of [D'] that are not in [D]. *)
Definition loaded (D D' : list nat) : nat := length (filter (fun x => negb (mem_nat x D)) D').

(** A memory with room for [m] blocks and the blocks [D] in it serves the
    requests [sg] with [n] loads: at every request it goes over to any set of at
    most [m] blocks with the one requested, and has to load those it did not
    have.  The strategy may know the future, load blocks that are not requested
    yet and drop any. *)
Inductive served (m : nat) : list nat -> list nat -> nat -> Prop :=
| served_nil D : served m D [] 0
| served_cons D D' b sg n : NoDup D' -> length D' <= m -> In b D' -> served m D' sg n ->
    served m D (b :: sg) (loaded D D' + n).

(** ** Programs that have one block acquired at a time *)

(** A visit of a block: it is acquired, read ([None]) and written ([Some]), and
    released, as dirty or not. *)
Record visit := mkVisit { v_blk : nat; v_acc : list (option Z); v_dirty : bool }.

Definition access_op (b : nat) (a : option Z) : op :=
  match a with Some z => Write b z | None => Read b end.
Definition visit_ops (v : visit) : list op :=
  Acq (v_blk v) false :: map (access_op (v_blk v)) (v_acc v) ++ [Rel (v_blk v) (v_dirty v)].
Definition program (l : list visit) : list op := flat_map visit_ops l.
Definition requests (l : list visit) : list nat := map v_blk l.

(** The prediction for such a program: visit number k is at time k. *)
Fixpoint forecast (t : nat) (l : list visit) : list pse :=
  match l with
  | [] => []
  | v :: r => mkPse op_acquire (v_blk v) t ::
              mkPse (if v_dirty v then op_release_dirty else op_release) (v_blk v) (S t) ::
              forecast (S t) r
  end.

(** The operations of the program a simulation is given. *)
Definition sim_program (l : list visit) : list op :=
  flat_map (fun v => [Acq (v_blk v) false; Rel (v_blk v) (v_dirty v)]) l.

(** ** The reads of a run *)

(** acquire reads the external block of a block that has no internal block. *)
Definition reads_disk (s : st) (o : op) : nat :=
  match o with
  | Acq b false => if is_internal (blk s b) then 0 else if is_external (blk s b) then 1 else 0
  | _ => 0
  end.

(** acquire and flush write the dirty blocks they evict. *)
Definition writes_disk (s : st) (o : op) (s1 : st) : nat :=
  match o with
  | Acq _ _ | Flush => length (filter (fun c => dirty (blk s c) && negb (dirty (blk s1 c))) (seq 0 (nblk s)))
  | _ => 0
  end.

Section Oracles.
Variable pick : nat -> list nat -> nat.
Variable dflt : option Z.
Fixpoint reads (s : st) (ops : list op) : nat :=
  match ops with
  | [] => 0
  | o :: r => match do pick dflt s o with
              | Ok (s1, _) => reads_disk s o + reads s1 r
              | _ => 0
              end
  end.
Fixpoint writes (s : st) (ops : list op) : nat :=
  match ops with
  | [] => 0
  | o :: r => match do pick dflt s o with
              | Ok (s1, _) => writes_disk s o s1 + writes s1 r
              | _ => 0
              end
  end.
End Oracles.
