(** What is expected of the block store: the rules a client has to follow, and
    the content of a block according to the events. *)

From Coq Require Import ZArith List Bool Arith.
From Verif Require Import AllocModel ManagerModel ManagerSpec FileModel StoreModel.
Import ListNotations.
Local Open Scope Z_scope.

(** Sameness of block ids. *)
Definition storage_eqb (x y : storage) : bool :=
  match x, y with
  | NoStorage, NoStorage | Unmanaged, Unmanaged => true
  | Managed d, Managed e => Nat.eqb d e
  | _, _ => false
  end.
Definition bid_eqb (x y : bid) : bool :=
  storage_eqb (b_storage x) (b_storage y) && (b_offset x =? b_offset y) &&
  (b_size x =? b_size y) && (b_tsize x =? b_tsize y).

(** The content of a block according to the events, the newest one first: what
    was last given to write, if that did not fail and the block was not
    allocated anew since. *)
Fixpoint expected (tr : list event) (b : bid) : option (list byte) :=
  match tr with
  | [] => None
  | EAlloc bs :: older => if existsb (bid_eqb b) bs then None else expected older b
  | EWrite b' d :: older => if bid_eqb b b' then Some d else expected older b
  | EWritten b' false :: older => if bid_eqb b b' then None else expected older b
  | _ :: older => expected older b
  end.

(** The rules: a client deletes, reads and writes only blocks it holds; it does
    not delete a block or write to it while a request for it is pending, nor
    read it while a write is pending; the data fill the block. *)
Definition allowed (n : nat) (s : store) (o : sop) : Prop :=
  match o with
  | SNew tsize f off sizes => valid_mop n (MNew tsize f off sizes)
  | SDelete _ i => exists b, nth_error (mc_held (st_client s)) i = Some b /\
      forall r, In r (st_pending s) -> rq_bid r <> b
  | SWrite i d => exists b, nth_error (mc_held (st_client s)) i = Some b /\
      Z.of_nat (length d) = b_size b /\
      forall r, In r (st_pending s) -> rq_bid r <> b
  | SRead i => exists b, nth_error (mc_held (st_client s)) i = Some b /\
      forall r, In r (st_pending s) -> rq_data r <> None -> rq_bid r <> b
  | SServe _ k => (k < length (st_pending s))%nat
  end.

(** Histories of [n] disks; the events, the newest one first.  With [rules] the
    client follows the rules, else it does as it likes. *)
Inductive shistory (rules : bool) (n ba : nat) (s0 : store) : list event -> store -> Prop :=
| sh_start : shistory rules n ba s0 [] s0
| sh_step : forall tr s o s' e, shistory rules n ba s0 tr s ->
    (rules = true -> allowed n s o) -> store_step ba s o = Some (s', e) ->
    shistory rules n ba s0 (e :: tr) s'.

(** The answers of a system without failures (transfers may be short). *)
Definition working (a : answers) : Prop :=
  forall i, (exists k, an_open a i = Xfer (S k)) /\ (exists k, an_size a i = Xfer (S k)) /\
            (exists k, an_xfer a i = Xfer (S k)).
