(** What a client of the block scheduler may rely on. *)
From Coq Require Import ZArith List Bool.
From Verif Require Import BsModel.
Import ListNotations.

(** What the client knows about a swappable block: the value it holds ([None]:
    uninitialised), the references it has, and while it is acquired the present
    contents, whether it has been released as dirty since it was acquired, and
    whether the contents may differ from the value. *)
Record view := mkV { val : option Z; refs : nat; work : Z; drt : bool; mdf : bool }.
Definition v0 : view := mkV None 0 0 false false.

(** The blocks that are allocated, the views, the external blocks the client
    has with their contents, and whether a simulation is running. *)
Record client := mkC { live : nat -> bool; vw : nat -> view; own : nat -> option Z; simu : bool }.
Definition c0 : client := mkC (fun _ => false) (fun _ => v0) (fun _ => None) false.

Definition set_vw p b v := mkC (live p) (upd (vw p) b v) (own p) (simu p).
Definition set_own p e x := mkC (live p) (vw p) (upd (own p) e x) (simu p).
Definition set_live p b x := mkC (upd (live p) b x) (upd (vw p) b v0) (own p) (simu p).
Definition set_simu p x := mkC (live p) (vw p) (own p) x.

(** The protocol.  A block that holds a value and whose contents were changed,
    or that was acquired as uninitialised, has to be released as dirty at least
    once.  During a simulation nothing is read or written, and only blocks that
    hold no value may be freed. *)
Definition legal (p : client) (o : op) : Prop :=
  match o with
  | Acq b un => live p b = true
  | Rel b d => live p b = true /\
      (simu p = true \/
       let v := vw p b in
       1 <= refs v /\ (refs v = 1 -> d = true \/ drt v = true \/ mdf v = false \/ val v = None))
  | Deinit b => live p b = true /\ (simu p = true \/ refs (vw p b) = 0)
  | Init b e => live p b = true /\
      (simu p = true \/
       refs (vw p b) = 0 /\ val (vw p b) = None /\
       match e with Some e => own p e <> None | None => True end)
  | Extract b => live p b = true /\ (simu p = true \/ refs (vw p b) = 0)
  | IsInit b => live p b = true
  | Free b => live p b = true /\ refs (vw p b) = 0 /\ (simu p = true -> val (vw p b) = None)
  | Write b _ => live p b = true /\ simu p = false /\ 1 <= refs (vw p b)
  | Read b => live p b = true /\ simu p = false /\ 1 <= refs (vw p b)
  | WriteExt e _ => own p e <> None
  | ReadExt e => own p e <> None
  | DelExt e => own p e <> None
  | Alloc | Flush | Timestep | ToLru | ToSim | ToLfd _ | NewExt _ => True
  end.

(** The client's view after an operation with its result. *)
Definition after (p : client) (o : op) (r : res) : client :=
  match o with
  | Acq b un =>
      if simu p then p else
      let v := vw p b in
      match r with
      | RData d => set_vw p b (if Nat.eqb (refs v) 0 then mkV (val v) 1 d false un
                               else mkV (val v) (S (refs v)) (work v) (drt v) (mdf v))
      | _ => p
      end
  | Rel b d =>
      if simu p then p else
      let v := vw p b in
      let dr := d || drt v in
      set_vw p b (if Nat.eqb (refs v) 1
                  then mkV (if dr then Some (work v) else val v) 0 (work v) false false
                  else mkV (val v) (refs v - 1) (work v) dr (mdf v))
  | Deinit b => if simu p then p else set_vw p b v0
  | Init b (Some e) =>
      if simu p then p else
      set_own (set_vw p b (mkV (own p e) 0 0 false false)) e None
  | Init b None => p
  | Extract b =>
      if simu p then p else
      match r with
      | RExt (Some e) => set_own (set_vw p b v0) e (val (vw p b))
      | _ => p
      end
  | Alloc => match r with RId b => set_live p b true | _ => p end
  | Free b => set_live p b false
  | ToLru => set_simu p false
  | ToLfd _ => set_simu p false
  | ToSim => set_simu p true
  | Write b d => let v := vw p b in set_vw p b (mkV (val v) (refs v) d (drt v) true)
  | NewExt d => match r with RExt (Some e) => set_own p e (Some d) | _ => p end
  | WriteExt e d => set_own p e (Some d)
  | DelExt e => set_own p e None
  | IsInit _ | Flush | Timestep | Read _ | ReadExt _ => p
  end.

(** Results the client may see; [dflt] is what fill_default writes. *)
Definition allowed (dflt : option Z) (p : client) (o : op) (r : res) : Prop :=
  match o with
  | Acq b un =>
      simu p = true \/
      exists d, r = RData d /\
        let v := vw p b in
        (1 <= refs v -> d = work v) /\
        (refs v = 0 -> un = false ->
         match val v with
         | Some x => d = x
         | None => match dflt with Some x => d = x | None => True end
         end)
  | Extract b =>
      simu p = true \/
      match val (vw p b) with
      | Some _ => exists e, r = RExt (Some e) /\ own p e = None
      | None => r = RExt None
      end
  | IsInit b =>
      simu p = true \/
      exists x, r = RBool x /\ (x = true <-> 1 <= refs (vw p b) \/ val (vw p b) <> None)
  | Alloc => exists b, r = RId b /\ live p b = false
  | Read b => r = RData (work (vw p b))
  | NewExt _ => exists e, r = RExt (Some e) /\ own p e = None
  | ReadExt e => exists d, own p e = Some d /\ r = RData d
  | _ => r = RNone
  end.

(** A sequence of operations with their results follows the protocol, and agrees
    with the views. *)
Fixpoint legal_run (p : client) (tr : list (op * res)) : Prop :=
  match tr with
  | [] => True
  | (o, r) :: t => legal p o /\ legal_run (after p o r) t
  end.
Fixpoint agrees (dflt : option Z) (p : client) (tr : list (op * res)) : Prop :=
  match tr with
  | [] => True
  | (o, r) :: t => allowed dflt p o r /\ agrees dflt (after p o r) t
  end.
Fixpoint after_all (p : client) (tr : list (op * res)) : client :=
  match tr with
  | [] => p
  | (o, r) :: t => after_all (after p o r) t
  end.

(** block_manager::new_block returns a block that is not in use. *)
Definition fresh_blocks (pick : nat -> list nat -> nat) : Prop :=
  forall n l, ~ In (pick n l) l.

(** The blocks among the first [n] with a property. *)
Definition those (n : nat) (f : nat -> bool) : list nat := filter f (seq 0 n).

(** The blocks that are acquired, and that can be evicted. *)
Definition acquired_blocks (s : st) : list nat := those (nblk s) (fun b => is_acquired (blk s b)).
Definition evictable_blocks (s : st) : list nat := those (nblk s) (fun b => is_evictable (blk s b)).
Definition internal_blocks (s : st) : list nat := those (nblk s) (fun b => is_internal (blk s b)).

(** The internal blocks held by swappable blocks. *)
Definition buffers_of (s : st) : list nat :=
  flat_map (fun b => match int (blk s b) with Some i => [i] | None => [] end) (seq 0 (nblk s)).

(** Block [c] loses its internal block. *)
Definition evicts (s s1 : st) (c : nat) : Prop :=
  is_internal (blk s c) = true /\ is_internal (blk s1 c) = false.

(** The position of the last release of a block, 0 if there is none. *)
Fixpoint last_release_from (k : nat) (ops : list op) (b : nat) (acc : nat) : nat :=
  match ops with
  | [] => acc
  | o :: r => last_release_from (S k) r b
                (match o with Rel c _ => if Nat.eqb c b then S k else acc | _ => acc end)
  end.
Definition last_release (ops : list op) (b : nat) : nat := last_release_from 0 ops b 0.

(** Operations that do not switch the algorithm. *)
Definition no_switch (o : op) : bool :=
  match o with ToLru | ToSim | ToLfd _ => false | _ => true end.

(** What an operation adds to the prediction sequence. *)
Definition predicts (o : op) : list (pop_kind * nat) :=
  match o with
  | Acq b un => [(if un then op_acquire_uninitialized else op_acquire, b)]
  | Rel b d => [(if d then op_release_dirty else op_release, b)]
  | Deinit b => [(op_deinitialize, b)]
  | Init b _ => [(op_initialize, b)]
  | Extract b => [(op_extract_external_block, b)]
  | Free b => [(op_deinitialize, b)]
  | _ => []
  end.
Definition entries (ps : list pse) : list (pop_kind * nat) := map (fun x => (pop x, pid x)) ps.

(** The time of the next acquire of a block in a prediction sequence; [None] if
    the block is deinitialised, initialised or extracted before, or not used any
    more. *)
Fixpoint next_acquire (ps : list pse) (b : nat) : option nat :=
  match ps with
  | [] => None
  | x :: r =>
      if Nat.eqb (pid x) b then
        match pop x with
        | op_acquire | op_acquire_uninitialized => Some (ptime x)
        | op_release | op_release_dirty => next_acquire r b
        | _ => None
        end
      else next_acquire r b
  end.

(** [t] is not later than [u]. *)
Definition not_later (t u : option nat) : Prop :=
  match t, u with
  | _, None => True
  | Some t, Some u => t <= u
  | None, Some _ => False
  end.

(** Operations that do not access the contents of a block. *)
Definition no_access (o : op) : bool :=
  match o with Read _ | Write _ _ => false | _ => true end.

(** The answers of is_initialized and allocate_swappable_block. *)
Definition answers (tr : list (op * res)) : list res :=
  flat_map (fun x => match fst x with IsInit _ | Alloc => [snd x] | _ => [] end) tr.

(** Operations of a simulated program: no switching, and only valid external
    blocks are given to initialize. *)
Definition simulated (o : op) : bool :=
  no_switch o && match o with Init _ None => false | _ => true end.

(** A run of the scheduler from its construction by a client that follows the
    protocol, with the final state and the final view of the client. *)
Definition protocol_run (pick : nat -> list nat -> nat) (dflt : option Z) (max : nat)
  (m d : nat -> Z) (ops : list op) (rs : list res) (s : st) (p : client) : Prop :=
  run pick dflt (start max m d) ops = Ok (s, rs) /\
  legal_run c0 (combine ops rs) /\ p = after_all c0 (combine ops rs).

Definition results {A} (x : out (A * list res)) : option (list res) :=
  match x with Ok (_, rs) => Some rs | _ => None end.
