(** Model of the block scheduler on top of the block store.

    Source: /repo/foxxll/mng/block_scheduler.hpp lines 51-1144 on top of
    /repo/foxxll/mng/block_manager.hpp, bid.hpp and the files and queues of /repo/foxxll/io.

    The scheduler is that of BsModel.v, the store that of StoreModel.v.  In BsModel.v the
    scheduler has a disk of its own.  Here that disk is not used: what the scheduler
    allocates, deletes, writes and reads is done by the store, in steps between which other
    clients of the store go on, and the data it reads are those that the store delivers.

    Simplifications.
    - Those of BsModel.v and StoreModel.v.
    - External block [e] of the scheduler is block [pl e] of the store.  The oracle [pick] of
      BsModel.v gives the names of the blocks that the store allocates; it depends on the
      number of the call, so it can name any sequence of blocks.
    - The scheduler's own allocations and transfers succeed; those of others may fail.
    - A request of the scheduler may be served at any time until the operation returns; the
      code waits for some of them earlier. *)

From Coq Require Import ZArith List Bool.
From Verif Require StoreModel StoreSpec ManagerModel.
From Verif Require Import BsModel.
Import ListNotations.

(** What the scheduler asks of the block manager and of blocks: block_scheduler.hpp lines
    71-77 (new_block, delete_block), 157-164 (read), 172-183 (write). *)
Inductive act := ANew (e : nat) | ADel (e : nat) | AWrite (e : nat) (v : Z) | ARead (e : nat).

(** Model device: the scheduler with another disk (BsModel.v models block_scheduler.hpp lines
    321-333 with a disk). *)
Definition with_disk (s : st) (d : nat -> Z) : st :=
  mkSt (remaining s) (nalloc s) (free_i s) (nblk s) (blk s) (free_s s) (al s) (mem s) d (used s) (ncall s).

Section Acts.
Variable pick : nat -> list nat -> nat.
Variable dflt : option Z.

(** clean_async, block_scheduler.hpp lines 172-183. *)
Definition clean_acts (s : st) (b : nat) : list act :=
  let B := blk s b in
  if negb (dirty B) then []
  else match int B with
       | Some i => match ext B with
                   | Some e => [AWrite e (mem s i)]
                   | None => let e := pick (ncall s) (used s) in [ANew e; AWrite e (mem s i)]
                   end
       | None => []
       end.

(** get_free_internal_block of the algorithms, block_scheduler.hpp lines 630-638 and 968-976:
    the victim is cleaned by detach_internal_block, lines 202-209. *)
Definition get_block_acts (s : st) : list act :=
  match get_free s with
  | Some _ => []
  | None => match pop_evictable (al s) with
            | Some (v, a) => clean_acts (set_al s a) v
            | None => []
            end
  end.

(** acquire, block_scheduler.hpp lines 677-713 and 1052-1088; 834-847 for the simulation. *)
Definition acquire_acts (s : st) (b : nat) (un : bool) : list act :=
  match al s with
  | Sim _ _ => []
  | _ => match int (blk s b) with
         | Some _ => []
         | None => get_block_acts s ++
             match get_block pick s with
             | Ok (s1, _) =>
                 if sb_initialized (blk s1 b) && negb un
                 then match ext (blk s1 b) with Some e => [ARead e] | None => [] end
                 else []
             | _ => []
             end
         end
  end.

(** release, block_scheduler.hpp lines 715-729, 1090-1118; 849-862 for the simulation: a block
    that is detached here is cleaned, which does nothing because it is not dirty. *)
Definition release_acts (s : st) (b : nat) (d : bool) : list act :=
  match al s with
  | Sim _ _ => []
  | _ => let B := blk s b in
         let B1 := mkSb (ext B) (int B) (d || dirty B) (rc B - 1) in
         if is_acquired B1 || (dirty B1 || is_external B1) then [] else clean_acts (set_b s b B1) b
  end.

(** deinitialize, block_scheduler.hpp lines 731-738, 1120-1127, 214-225; 864-870 for the
    simulation. *)
Definition deinit_acts (s : st) (b : nat) : list act :=
  match al s with
  | Sim _ _ => []
  | _ => match ext (blk s b) with Some e => [ADel e] | None => [] end
  end.

(** extract_external_block, block_scheduler.hpp lines 746-754, 1135-1143; 880-887 for the
    simulation. *)
Definition extract_acts (s : st) (b : nat) : list act :=
  match al s with
  | Sim _ _ => []
  | _ => if is_internal (blk s b) then clean_acts s b else []
  end.

(** flush, block_scheduler.hpp lines 519-535. *)
Fixpoint flush_acts (n : nat) (s : st) : list act :=
  match pop_evictable (al s), n with
  | Some (b, a), S n =>
      clean_acts (set_al s a) b ++
      match bind (clean pick (set_al s a) b) (fun s1 => detach pick s1 b) with
      | Ok (s2, i) => flush_acts n (return_free s2 i)
      | _ => []
      end
  | _, _ => []
  end.

(** block_scheduler.hpp lines 417-535: the member functions of block_scheduler; the last four
    are what the client does with blocks of its own (block_manager.hpp lines 164-268, bid.hpp
    lines 80-92). *)
Definition acts (s : st) (o : op) : list act :=
  match o with
  | Acq b un => acquire_acts s b un
  | Rel b d => release_acts s b d
  | Deinit b | Free b => deinit_acts s b
  | Extract b => extract_acts s b
  | Flush => flush_acts (length (evictables (al s))) s
  | NewExt d => let e := pick (ncall s) (used s) in [ANew e; AWrite e d]
  | WriteExt e d => [AWrite e d]
  | ReadExt e => [ARead e]
  | DelExt e => [ADel e]
  | _ => []
  end.

(** Bytes of a block and back: typed_block.hpp lines 264-302; places of the external blocks:
    bid.hpp lines 38-105; their size. *)
Variables (enc : Z -> list Z) (dec : list (option Z) -> Z) (pl : nat -> ManagerModel.bid).

(** Model device: the scheduler (block_scheduler.hpp lines 321-333) with the operation under
    way, the external blocks it has, what is to be asked for yet, the blocks with a write and
    those with a read under way, what was read, and the store with its events, the newest one
    first. *)
Record conf := mkConf {
  k_tr : list (op * res); k_s : st; k_op : option op; k_us : list nat; k_todo : list act;
  k_w : list nat; k_rd : list nat; k_got : list (nat * list (option Z));
  k_evs : list StoreModel.event; k_t : StoreModel.store
}.

(** block_scheduler.hpp lines 371-378: after the constructor, with a store [t]. *)
Definition begins (max : nat) (m d : nat -> Z) (t : StoreModel.store) : conf :=
  mkConf [] (start max m d) None [] [] [] [] [] [] t.

(** A step of another client of the store (block_manager.hpp lines 164-268, bid.hpp lines
    80-92): it does not touch the blocks the scheduler has. *)
Definition elsewhere (us : list nat) (t : StoreModel.store) (o : StoreModel.sop) : Prop :=
  match o with
  | StoreModel.SNew _ _ _ _ => True
  | StoreModel.SDelete _ h | StoreModel.SWrite h _ | StoreModel.SRead h =>
      forall b, nth_error (ManagerModel.mc_held (StoreModel.st_client t)) h = Some b ->
        forall e, In e us -> b <> pl e
  | StoreModel.SServe _ k =>
      forall r, nth_error (StoreModel.st_pending t) k = Some r -> forall e, In e us -> StoreModel.rq_bid r <> pl e
  end.

(** block_scheduler.hpp lines 417-535, block_manager.hpp lines 164-268, bid.hpp lines 80-92,
    serving_request.cpp lines 40-63: one step. *)
Inductive jstep (n ba : nat) : conf -> conf -> Prop :=
(* a member function is called *)
| JCall : forall tr s us evs t o,
    jstep n ba (mkConf tr s None us [] [] [] [] evs t)
               (mkConf tr s (Some o) us (acts s o) [] [] [] evs t)
(* other clients, block_manager.hpp lines 164-268 *)
| JOther : forall tr s c us todo w rd got evs t o t' e,
    StoreSpec.allowed n t o -> elsewhere us t o -> StoreModel.store_step ba t o = Some (t', e) ->
    jstep n ba (mkConf tr s c us todo w rd got evs t) (mkConf tr s c us todo w rd got (e :: evs) t')
(* new_block, block_scheduler.hpp lines 71-72 *)
| JNew : forall tr s c us todo w rd got evs t x o t',
    (exists tsize f off sizes, o = StoreModel.SNew tsize f off sizes) -> StoreSpec.allowed n t o ->
    StoreModel.store_step ba t o = Some (t', StoreModel.EAlloc [pl x]) ->
    jstep n ba (mkConf tr s c us (ANew x :: todo) w rd got evs t)
               (mkConf tr s c (x :: us) todo w rd got (StoreModel.EAlloc [pl x] :: evs) t')
(* delete_block, block_scheduler.hpp lines 73-77 *)
| JDel : forall tr s c us todo w rd got evs t x os h t' e,
    nth_error (ManagerModel.mc_held (StoreModel.st_client t)) h = Some (pl x) ->
    StoreModel.store_step ba t (StoreModel.SDelete os h) = Some (t', e) ->
    jstep n ba (mkConf tr s c us (ADel x :: todo) w rd got evs t)
               (mkConf tr s c (remove Nat.eq_dec x us) todo w rd got (e :: evs) t')
(* write, block_scheduler.hpp line 182 *)
| JWrite : forall tr s c us todo w rd got evs t x v h t' e,
    nth_error (ManagerModel.mc_held (StoreModel.st_client t)) h = Some (pl x) ->
    StoreModel.store_step ba t (StoreModel.SWrite h (enc v)) = Some (t', e) ->
    jstep n ba (mkConf tr s c us (AWrite x v :: todo) w rd got evs t)
               (mkConf tr s c us todo (x :: w) rd got (e :: evs) t')
(* serving_request.cpp lines 40-63 *)
| JWritten : forall tr s c us todo w rd got evs t x a k t',
    In x w -> StoreModel.store_step ba t (StoreModel.SServe a k) = Some (t', StoreModel.EWritten (pl x) true) ->
    jstep n ba (mkConf tr s c us todo w rd got evs t)
               (mkConf tr s c us todo (remove Nat.eq_dec x w) rd got (StoreModel.EWritten (pl x) true :: evs) t')
(* read, block_scheduler.hpp line 163 *)
| JRead : forall tr s c us todo w rd got evs t x h t' e,
    nth_error (ManagerModel.mc_held (StoreModel.st_client t)) h = Some (pl x) ->
    StoreModel.store_step ba t (StoreModel.SRead h) = Some (t', e) ->
    jstep n ba (mkConf tr s c us (ARead x :: todo) w rd got evs t)
               (mkConf tr s c us todo w (x :: rd) got (e :: evs) t')
(* serving_request.cpp lines 40-63 *)
| JReadDone : forall tr s c us todo w rd got evs t x a k t' data,
    In x rd ->
    StoreModel.store_step ba t (StoreModel.SServe a k) = Some (t', StoreModel.EReadDone (pl x) (Some data)) ->
    jstep n ba (mkConf tr s c us todo w rd got evs t)
               (mkConf tr s c us todo w (remove Nat.eq_dec x rd) ((x, data) :: got)
                       (StoreModel.EReadDone (pl x) (Some data) :: evs) t')
(* the member function returns; of its disk it knows only what was read *)
| JReturn : forall tr s o us got evs t d s' r,
    (forall x data, In (x, data) got -> d x = dec data) ->
    do pick dflt (with_disk s d) o = Ok (s', r) ->
    jstep n ba (mkConf tr s (Some o) us [] [] [] got evs t)
               (mkConf (tr ++ [(o, r)]) s' None us [] [] [] [] evs t).

(** Model device: any number of steps (block_scheduler.hpp lines 417-535). *)
Inductive jrun (n ba : nat) (k0 : conf) : conf -> Prop :=
| JStart : jrun n ba k0 k0
| JMore : forall k k', jrun n ba k0 k -> jstep n ba k k' -> jrun n ba k0 k'.

End Acts.
