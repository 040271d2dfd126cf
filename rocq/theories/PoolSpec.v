(** Vocabulary for the pool properties. *)

From Coq Require Import ZArith List Bool.
From Verif Require Import PoolModel.
Import ListNotations.

(** Content a client expects in block [d] after a history: the value of the
    last write to it, else the original content of the disk. *)
Fixpoint expected (disk : bid -> Z) (h : list act) (d : bid) : Z :=
  match h with
  | [] => disk d
  | AWrite _ d' v :: h' =>
      expected (fun x => if bid_eqb x d' then v else disk x) h' d
  | _ :: h' => expected disk h' d
  end.

(** Every read returned the expected content. *)
Definition coherent (disk : bid -> Z) (h : list act) : Prop :=
  forall h1 d b v h2, h = h1 ++ ARead d b v :: h2 -> v = expected disk h1 d.

(** Client behaviours. *)
(* a client of read_write_pool that waits for its reads *)
Definition rw_client (a : act) : Prop :=
  match a with
  | AHint0 _ _ => False
  | ARead0 _ _ _ => False
  | AReadNoWait _ _ _ => False
  | AWait _ _ _ => False
  | _ => True
  end.
(* any client of any of the three pools that waits for what it takes out *)
Definition waiting (a : act) : Prop :=
  match a with
  | AReadNoWait _ _ _ => False
  | AWait _ _ _ => False
  | _ => True
  end.

(** A transfer into or out of buffer [b] is not over. *)
Definition busy_buffer (s : io) (b : nat) : Prop :=
  exists i q, nth_error (io_reqs s) i = Some q /\ q_buf q = b /\ q_st q <> Finished.

(** A write to block [d] is not over. *)
Definition unwritten (s : io) (d : bid) : Prop :=
  exists i q, nth_error (io_reqs s) i = Some q /\ q_write q = true /\
    q_bid q = d /\ q_st q <> Finished.

(** All buffers of the write pool, of the prefetch pool, and altogether. *)
Definition w_bufs (w : wpool) : list nat := w_free w ++ map e_buf (w_busy w).
Definition p_bufs (p : ppool) : list nat := p_free p ++ map p_buf (p_busy p).
Definition all_bufs (x : st) : list nat :=
  w_bufs (s_w x) ++ p_bufs (s_p x) ++ s_own x.
