(** Vocabulary for the claims about the table of queues. *)
From Coq Require Import List ZArith Bool.
From Verif Require Import RegistryModel.
Import ListNotations.
Local Open Scope Z_scope.

(** A kernel that grants no more after it refused: if it grants [m] events it
    also grants fewer. *)
Definition monotone (kernel : Z -> kres) : Prop :=
  forall n m, 0 < n <= m -> kernel m = KOk -> kernel n = KOk.

(** The kernel of Linux with [limit] events left: EINVAL for absurd numbers,
    EAGAIN above the limit. *)
Definition linux (limit : Z) (n : Z) : kres :=
  if 8388608 <? n then KErr else if (n =? 0) || (limit <? n) then KAgain else KOk.

(** The queue length that "try with half as many events" would find. *)
Fixpoint halving (fuel : nat) (kernel : Z -> kres) (m : Z) : option Z :=
  match fuel with
  | O => None
  | S fuel => match kernel m with
              | KOk => Some m
              | KErr => None
              | KAgain => if 1 <? m then halving fuel kernel (m / 2) else None
              end
  end.

(** The kind of queue that an operation asks for, for queue [d]; [None] if it is
    about another queue, never constructs one, or the construction fails. *)
Definition asks (d : Z) (o : rop) : option qkind :=
  let want (aio : bool) len kernel :=
    if aio then match snd (setup kernel len) with NOk n => Some (Aio n) | _ => None end
    else Some Qwqr in
  match o with
  | OMake f k => if f_queue f =? d then want (f_aio f) (f_len f) k else None
  | OAdd (Some r) d' k => if d' =? d then want (rq_aio r) (rq_len r) k else None
  | OAdd None d' k => if d' =? d then Some Qwqr else None
  | _ => None
  end.

(** The first operation of a history that asks for queue [d] decides. *)
Fixpoint decided (d : Z) (ops : list rop) : option qkind :=
  match ops with
  | [] => None
  | o :: r => match asks d o with Some k => Some k | None => decided d r end
  end.

(** The queue that a result names. *)
Definition served_by (x : rout) : option nat :=
  match x with RAdded u | RCancel u | RQueue (Some u) => Some u | _ => None end.
(** The disk that an operation is about. *)
Definition about (o : rop) : option Z :=
  match o with OAdd _ d _ | OCancel _ d | OGet d => Some d | _ => None end.

Definition aborted (x : rout) : bool := match x with RDie | RCrash => true | _ => false end.
