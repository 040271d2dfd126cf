(** Vocabulary for statements about allocation strategies. *)
From Coq Require Import ZArith List Bool.
From Verif Require Import StrategyModel.
Import ListNotations.
Local Open Scope Z_scope.

(** A disk range the library can have: begin < end, both 64-bit. *)
Definition good_range (begin end_ : Z) : Prop := 0 <= begin < end_ /\ end_ < 2 ^ 64.

Definition in_disks (begin end_ : Z) (o : option Z) : Prop :=
  exists d, o = Some d /\ begin <= d < end_.

(** How many of the block indices start, start+step, ..., start+(n-1)*step are
    put on disk d. *)
Fixpoint uses (f : Z -> option Z) (start step : Z) (n : nat) (d : Z) : Z :=
  match n with
  | O => 0
  | S n' => (match f start with Some x => if x =? d then 1 else 0 | None => 0 end)
            + uses f (start + step) step n' d
  end.

(** n consecutive blocks are spread evenly over D disks. *)
Definition even_share (n D c : Z) : Prop := n / D <= c <= (n + D - 1) / D.
