(** What a client of the block scheduler may rely on with the prefetching
    algorithm.  The views and the protocol are those of BsSpec.v. *)
From Coq Require Import ZArith List Bool.
From Verif Require Import BsModel BsSpec PfModel.
Import ListNotations.

(** A prediction sequence names only existing blocks and does not extract
    external blocks. *)
Definition predictable (s : st) (ps : list (pop_kind * nat)) : Prop :=
  (forall k b, In (k, b) ps -> b < nblk s) /\ (forall b, ~ In (op_extract_external_block, b) ps).

(** Operations that are possible while the algorithm is in use, with [n]
    swappable blocks: no flush, no extract and no switching; a block is allocated
    only if one is free. *)
Definition supported (n : nat) (c : client) (o : op) : Prop :=
  match o with
  | Extract _ | Flush | ToLru | ToSim | ToLfd _ => False
  | Alloc => exists b, b < n /\ live c b = false
  | _ => True
  end.
Fixpoint supported_run (n : nat) (c : client) (tr : list (op * res)) : Prop :=
  match tr with
  | [] => True
  | (o, r) :: t => supported n c o /\ supported_run n (after c o r) t
  end.

(** A client that follows the protocol runs [ops] from the construction of the
    scheduler, switches to the prefetching algorithm with a prediction sequence,
    and runs [ops1], which begins what is predicted; [rest] is still to come.
    [o] is what the I/O threads do. *)
Record prefetch_run (pick : nat -> list nat -> nat) (dflt : option Z) (max : nat) (m d : nat -> Z)
  (ops : list op) (rs : list res) (s : st) (c : client)
  (ps : list (pop_kind * nat)) (o : list (list act)) (ops1 : list op) (rs1 : list res)
  (rest : list (pop_kind * nat)) (p : pst) (c1 : client) : Prop := mkPrefetchRun {
  pr_before : protocol_run pick dflt max m d ops rs s c;
  pr_nosim : simu c = false;
  pr_predictable : predictable s ps;
  pr_predicted : ps = flat_map predicts ops1 ++ rest;
  pr_run : bind (pf_start pick s ps o) (fun p0 => prun pick dflt p0 ops1) = Ok (p, rs1);
  pr_legal : legal_run c (combine ops1 rs1);
  pr_supported : supported_run (nblk s) c (combine ops1 rs1);
  pr_after : c1 = after_all c (combine ops1 rs1)
}.

(** The internal block a swappable block has, or that is reserved for it. *)
Definition buffer_of (p : pst) (b : nat) : option nat :=
  match int (bk p b) with
  | Some i => Some i
  | None => match sched p b with Some m => m_res m | None => None end
  end.
Definition all_buffers (p : pst) : list nat :=
  flat_map (fun b => match buffer_of p b with Some i => [i] | None => [] end) (seq 0 (nblk (base p))).

(** A read into the internal block of [b] has been started and is not over, or a
    write's handler will start it. *)
Definition being_read (p : pst) (b : nat) : Prop :=
  (exists m k r, sched p b = Some m /\ m_read m = Some k /\ rds p k = Some r /\ r_done r = false) \/
  (exists g w, wq p g = Some w /\ w_shall w = true /\ w_taker w = Some b /\ w_ph w <> Over).

Definition acquires (x : pop_kind * nat) : bool :=
  match fst x with op_acquire | op_acquire_uninitialized => true | _ => false end.
