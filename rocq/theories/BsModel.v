(** Model of the block scheduler.

    Source: /repo/foxxll/mng/block_scheduler.hpp: swappable_block 51-244,
    block_scheduler 265-536, and its algorithms online LRU 612-755, simulation
    759-904 and offline LFD 908-1144.

    Swappable blocks are named by their index in the vector.  Internal blocks
    are named by the order in which they are allocated, external blocks by
    numbers.  [mem] and [disk] are the contents of internal and external
    blocks; a content is a number.  Reads and writes have taken effect when the
    function returns: everywhere in the modelled functions the requests are
    waited for (read_sync, clean_sync; flush waits before it returns, lines
    530-534).  block_manager::new_block returns some external block that is not
    in use, given by the oracle [pick] (number of the call, blocks in use).
    fill_default does nothing (line 153) unless a subclass overwrites it:
    [dflt] is what it writes, if anything.

    The queues of evictable blocks are the abstract queues that
    addressable_queues.hpp implements (properties C53 and C54): for LRU a list
    without repetitions, for LFD a list of (priority, block) ordered as in the
    std::set.  A failed assertion is [Undefined], except the one of
    get_free_internal_block (lines 636, 974), which is [NoMemory].

    Not modelled here: offline LRU prefetching (1149-1891, see PfModel.v), the
    destructors (see BsDtorModel.v), I/O errors, the log output; an algorithm
    object is constructed and switched to at once. *)
From Coq Require Import ZArith List Bool.
Import ListNotations.

(** Model device: results. [NoMemory] is a failing assert in block_scheduler.hpp line
    636 or 974,
    [Undefined] every other undefined behaviour. *)
Inductive out (A : Type) := Ok (a : A) | NoMemory | Undefined.
Arguments Ok {A}. Arguments NoMemory {A}. Arguments Undefined {A}.

(** Model device: the next statement, unless there is no result (block_scheduler.hpp
    lines 51-1144). *)
Definition bind {A B} (x : out A) (f : A -> out B) : out B :=
  match x with Ok a => f a | NoMemory => NoMemory | Undefined => Undefined end.

(** Model device: assignment to an element of swappable_blocks, block_scheduler.hpp line
    328,
    or to a block. *)
Definition upd {A} (f : nat -> A) (k : nat) (v : A) : nat -> A :=
  fun x => if Nat.eqb x k then v else f x.

(** swappable_block, block_scheduler.hpp lines 64-67. *)
Record sb := mkSb {
  ext : option nat;                   (* external_data; None: not valid *)
  int : option nat;                   (* internal_data *)
  dirty : bool;
  rc : nat                            (* reference_count *)
}.

(** block_scheduler.hpp lines 81-82. *)
Definition sb_new : sb := mkSb None None false 0.

(** block_scheduler.hpp lines 87-112. *)
Definition is_internal (b : sb) : bool := match int b with Some _ => true | None => false end.
(** block_scheduler.hpp lines 95-97. *)
Definition has_external (b : sb) : bool := match ext b with Some _ => true | None => false end.
(** block_scheduler.hpp lines 99-101. *)
Definition is_external (b : sb) : bool := has_external b && negb (dirty b).
(** block_scheduler.hpp lines 103-105. *)
Definition is_acquired (b : sb) : bool := Nat.ltb 0 (rc b).
(** block_scheduler.hpp lines 107-109. *)
Definition is_evictable (b : sb) : bool := negb (is_acquired b) && is_internal b.
(** block_scheduler.hpp lines 111-113. *)
Definition sb_initialized (b : sb) : bool := is_internal b || is_external b.

(** The prediction sequence, block_scheduler.hpp lines 292-314. *)
Inductive pop_kind := op_acquire | op_acquire_uninitialized | op_release | op_release_dirty
  | op_deinitialize | op_initialize | op_extract_external_block.
(** block_scheduler.hpp lines 303-312. *)
Record pse := mkPse { pop : pop_kind; pid : nat; ptime : nat }.

(** The simulation, block_scheduler.hpp lines 778-782 (the stack of evictable blocks is
    kept apart);
    size_t arithmetic for the reference counts. *)
Record simst := mkSim { rcs : nat -> Z; time : nat; last_rel : bool; pseq : list pse }.

(** Arithmetic of size_t: reference_counts, block_scheduler.hpp line 781, and
    priority::p, line 927. *)
Definition wrap (z : Z) : Z := (z mod 2 ^ 64)%Z.

(** The algorithms with their evictable_blocks: block_scheduler.hpp lines 628, 778-782,
    957-966. *)
Inductive alg :=
| Lru (q : list nat)
| Sim (stk : list nat) (m : simst)
| Lfd (pq : list (Z * nat)) (next_use : list (bool * nat)).

(** block_scheduler.hpp lines 321-333: the members of block_scheduler, with the contents
    of the internal
    and external blocks and the external blocks in use.
    internal_blocks_blocks (line 324) is
    only the number of blocks allocated. *)
Record st := mkSt {
  remaining : nat;                    (* remaining_internal_blocks *)
  nalloc : nat;                       (* internal blocks allocated so far *)
  free_i : list nat;                  (* free_internal_blocks, top first *)
  nblk : nat;                         (* swappable_blocks.size() *)
  blk : nat -> sb;                    (* swappable_blocks *)
  free_s : list nat;                  (* free_swappable_blocks *)
  al : alg;
  mem : nat -> Z;
  disk : nat -> Z;
  used : list nat;                    (* external blocks in use *)
  ncall : nat                         (* calls of new_block *)
}.

(** Model device: sets one member of the state (block_scheduler.hpp lines 321-333). *)
Definition set_free_i s v := mkSt (remaining s) (nalloc s) v (nblk s) (blk s) (free_s s) (al s) (mem s) (disk s) (used s) (ncall s).
(** Model device: sets one member of the state (block_scheduler.hpp lines 321-333). *)
Definition set_b s b v := mkSt (remaining s) (nalloc s) (free_i s) (nblk s) (upd (blk s) b v) (free_s s) (al s) (mem s) (disk s) (used s) (ncall s).
(** Model device: sets one member of the state (block_scheduler.hpp lines 321-333). *)
Definition set_free_s s v := mkSt (remaining s) (nalloc s) (free_i s) (nblk s) (blk s) v (al s) (mem s) (disk s) (used s) (ncall s).
(** Model device: sets one member of the state (block_scheduler.hpp lines 321-333). *)
Definition set_al s v := mkSt (remaining s) (nalloc s) (free_i s) (nblk s) (blk s) (free_s s) v (mem s) (disk s) (used s) (ncall s).
(** Model device: sets one member of the state (block_scheduler.hpp lines 321-333). *)
Definition set_mem s i v := mkSt (remaining s) (nalloc s) (free_i s) (nblk s) (blk s) (free_s s) (al s) (upd (mem s) i v) (disk s) (used s) (ncall s).
(** Model device: sets one member of the state (block_scheduler.hpp lines 321-333). *)
Definition set_disk s e v := mkSt (remaining s) (nalloc s) (free_i s) (nblk s) (blk s) (free_s s) (al s) (mem s) (upd (disk s) e v) (used s) (ncall s).
(** Model device: sets one member of the state (block_scheduler.hpp lines 321-333). *)
Definition set_used s v := mkSt (remaining s) (nalloc s) (free_i s) (nblk s) (blk s) (free_s s) (al s) (mem s) (disk s) v (ncall s).

(** Constructor, block_scheduler.hpp lines 371-378; [max_blocks] is max_internal_blocks. *)
Definition max_blocks (max_internal_memory block_size : nat) : nat :=
  (max_internal_memory + block_size - 1) / block_size.
(** block_scheduler.hpp lines 371-378: constructor; the algorithm is the online one. *)
Definition start (max : nat) (mem0 disk0 : nat -> Z) : st :=
  mkSt max 0 [] 0 (fun _ => sb_new) [] (Lru []) mem0 disk0 [] 0.

(** get_free_internal_block, block_scheduler.hpp lines 337-362; at most 128 blocks at
    once (538-539).
    The first of the new blocks is returned, the others are pushed in
    descending order. *)
Definition alloc_at_once : nat := 128.
(** block_scheduler.hpp lines 337-362: get_free_internal_block. *)
Definition get_free s : option (st * nat) :=
  match free_i s with
  | i :: r => Some (set_free_i s r, i)
  | [] =>
      if Nat.ltb 0 (remaining s) then
        let num := Nat.min alloc_at_once (remaining s) in
        Some (mkSt (remaining s - num) (nalloc s + num) (seq (nalloc s + 1) (num - 1)) (nblk s)
                (blk s) (free_s s) (al s) (mem s) (disk s) (used s) (ncall s), nalloc s)
      else None
  end.

(** return_free_internal_block, block_scheduler.hpp lines 365-366. *)
Definition return_free s i : st := set_free_i s (i :: free_i s).

Section Oracles.
Variable pick : nat -> list nat -> nat.
Variable dflt : option Z.

(** get_external_block, block_scheduler.hpp lines 71-72: block_manager::new_block. *)
Definition new_ext s : st * nat :=
  let e := pick (ncall s) (used s) in
  (mkSt (remaining s) (nalloc s) (free_i s) (nblk s) (blk s) (free_s s) (al s) (mem s) (disk s)
        (e :: used s) (S (ncall s)), e).

(** block_manager::delete_block.
    block_scheduler.hpp lines 73-77. *)
Definition del_ext s e : st := set_used s (remove Nat.eq_dec e (used s)).

(** clean_async and the wait for its request, block_scheduler.hpp lines 172-191. 
    Dereferencing the
    null pointer is undefined. *)
Definition clean s b : out st :=
  let B := blk s b in
  if negb (dirty B) then Ok s
  else
    let '(s1, e) := match ext B with Some e => (s, e) | None => new_ext s end in
    match int B with
    | Some i => Ok (set_disk (set_b s1 b (mkSb (Some e) (int B) false (rc B))) e (mem s1 i))
    | None => Undefined
    end.

(** detach_internal_block, block_scheduler.hpp lines 202-209. *)
Definition detach s b : out (st * nat) :=
  if negb (is_evictable (blk s b)) then Undefined
  else bind (clean s b) (fun s1 =>
    let B := blk s1 b in
    match int B with
    | Some i => Ok (set_b s1 b (mkSb (ext B) None (dirty B) (rc B)), i)
    | None => Undefined
    end).

(** The priority queue: the elements in the order of cmp
    (addressable_queues.hpp lines 115-124) with priority::operator < (952-953):
    a larger number comes first, then the smaller block. *)
Definition before (x y : Z * nat) : bool :=
  (fst y <? fst x)%Z || (negb (fst x <? fst y)%Z && Nat.ltb (snd x) (snd y)).
(** addressable_queues.hpp lines 126, 131, 151-162: vals is a set ordered by cmp. *)
Fixpoint pq_put (x : Z * nat) (l : list (Z * nat)) : list (Z * nat) :=
  match l with
  | [] => [x]
  | y :: r => if before x y then x :: y :: r else y :: pq_put x r
  end.
(** addressable_queues.hpp lines 167-175: erase. *)
Definition pq_erase (l : list (Z * nat)) (b : nat) : list (Z * nat) :=
  filter (fun x => negb (Nat.eqb (snd x) b)) l.
(** addressable_queues.hpp lines 151-162: insert; a block that is already in gets the
    new priority. *)
Definition pq_insert (l : list (Z * nat)) (b : nat) (p : Z) : list (Z * nat) :=
  pq_put (p, b) (pq_erase l b).

(** priority, block_scheduler.hpp lines 925-949; size_t arithmetic. *)
Definition priority (B : sb) (t : bool * nat) : Z :=
  if fst t then
    (wrap (Z.of_nat (snd t) * 4) + Z.b2z (negb (dirty B)) * 2 + Z.b2z (has_external B))%Z
  else (wrap ((2 ^ 64 - 1) * 4) + Z.of_nat (snd t))%Z.

(** evictable_blocks_empty and evictable_blocks_pop of the algorithms,
    block_scheduler.hpp lines
    671-675, 824-832, 1046-1050. *)
Definition pop_evictable (a : alg) : option (nat * alg) :=
  match a with
  | Lru (b :: q) => Some (b, Lru q)
  | Sim (b :: k) m => Some (b, Sim k m)
  | Lfd ((_, b) :: q) nu => Some (b, Lfd q nu)
  | _ => None
  end.

(** evictable_blocks.erase.
    block_scheduler.hpp lines 628, 957: for the queues of the online and LFD algorithm. *)
Definition erase_evictable (a : alg) (b : nat) : alg :=
  match a with
  | Lru q => Lru (remove Nat.eq_dec b q)
  | Sim k m => Sim k m
  | Lfd q nu => Lfd (pq_erase q b) nu
  end.

(** get_free_internal_block of the algorithms, block_scheduler.hpp lines 630-638 and
    968-976. *)
Definition get_block s : out (st * nat) :=
  match get_free s with
  | Some r => Ok r
  | None =>
      match pop_evictable (al s) with
      | Some (v, a) => detach (set_al s a) v
      | None => NoMemory
      end
  end.

(** The simulation: acquire block_scheduler.hpp lines 834-847, release 849-862,
    deinitialize 864-870,
    initialize 872-878, extract_external_block 880-887. *)
Definition sim_record (m : simst) (k : pop_kind) (b : nat) : simst :=
  mkSim (rcs m) (time m) (last_rel m) (pseq m ++ [mkPse k b (time m)]).
(** block_scheduler.hpp line 781: assignment to reference_counts[b]. *)
Definition sim_set (m : simst) (b : nat) (v : Z) : simst :=
  mkSim (upd (rcs m) b v) (time m) (last_rel m) (pseq m).
(** block_scheduler.hpp lines 834-847. *)
Definition sim_acquire (m : simst) (b : nat) (un : bool) : simst :=
  sim_record (mkSim (upd (rcs m) b (wrap (rcs m b + 1))) (time m) false (pseq m))
    (if un then op_acquire_uninitialized else op_acquire) b.
(** block_scheduler.hpp lines 849-862. *)
Definition sim_release (m : simst) (b : nat) (d : bool) : simst :=
  sim_record (mkSim (upd (rcs m) b (wrap (rcs m b - 1 + Z.b2z d)))
                    (if last_rel m then time m else S (time m)) true (pseq m))
    (if d then op_release_dirty else op_release) b.
(** block_scheduler.hpp lines 864-870. *)
Definition sim_deinitialize (m : simst) (b : nat) : simst :=
  sim_record (sim_set m b 0%Z) op_deinitialize b.
(** block_scheduler.hpp lines 872-878. *)
Definition sim_initialize (m : simst) (b : nat) : simst :=
  sim_record (sim_set m b 1%Z) op_initialize b.
(** block_scheduler.hpp lines 880-887. *)
Definition sim_extract (m : simst) (b : nat) : simst :=
  sim_record (sim_set m b 0%Z) op_extract_external_block b.

(** acquire, block_scheduler.hpp lines 677-713 and 1052-1088; [None]: the dummy block of the
    simulation.  read_async is lines 157-164, attach 194-198, swappable_block::acquire
    124-129. *)
Definition acquire s (b : nat) (un : bool) : out (st * option nat) :=
  if negb (Nat.ltb b (nblk s)) then Undefined else
  match al s with
  | Sim k m => Ok (set_al s (Sim k (sim_acquire m b un)), None)
  | _ =>
      let B := blk s b in
      match int B with
      | Some i =>
          let s1 := if negb (is_acquired B) then set_al s (erase_evictable (al s) b) else s in
          Ok (set_b s1 b (mkSb (ext B) (Some i) (dirty B) (S (rc B))), Some i)
      | None =>
          bind (get_block s) (fun '(s1, i) =>
            let B := blk s1 b in
            if sb_initialized B then
              if un then Ok (set_b s1 b (mkSb (ext B) (Some i) (dirty B) (S (rc B))), Some i)
              else match ext B with
                   | Some e => Ok (set_mem (set_b s1 b (mkSb (ext B) (Some i) false (S (rc B))))
                                           i (disk s1 e), Some i)
                   | None => Undefined
                   end
            else
              let s2 := set_b s1 b (mkSb (ext B) (Some i) (dirty B) (S (rc B))) in
              Ok (match dflt with
                  | Some d => if un then s2 else set_mem s2 i d
                  | None => s2
                  end, Some i))
      end
  end.

(** The end of release, block_scheduler.hpp lines 715-729: [ins] puts the block into the
    queue. *)
Definition release_with s (b : nat) (d : bool) (ins : st -> alg) : out st :=
  let B := blk s b in
  if negb (is_acquired B) then Undefined
  else
    let B1 := mkSb (ext B) (int B) (d || dirty B) (rc B - 1) in
    let s1 := set_b s b B1 in
    if is_acquired B1 then Ok s1
    else if dirty B1 || is_external B1 then Ok (set_al s1 (ins s1))
    else bind (detach s1 b) (fun '(s2, i) => Ok (return_free s2 i)).

(** addressable_queues.hpp lines 57-68: insert of addressable_fifo_queue; a block that
    is
    already in moves to the end. *)
Definition lru_insert (q : list nat) (b : nat) : list nat := remove Nat.eq_dec b q ++ [b].

(** The queue of a new online algorithm: init, block_scheduler.hpp lines 643-648. *)
Definition evictables (a : alg) : list nat :=
  match a with Lru q => q | Sim k _ => k | Lfd q _ => map snd q end.

(** release: online block_scheduler.hpp lines 715-729; LFD 1090-1118, which switches to
    the online
    algorithm when the prediction sequence has ended; simulation 849-862. *)
Definition release s (b : nat) (d : bool) : out st :=
  if negb (Nat.ltb b (nblk s)) then Undefined else
  match al s with
  | Sim k m => Ok (set_al s (Sim k (sim_release m b d)))
  | Lru q => release_with s b d (fun _ => Lru (lru_insert q b))
  | Lfd q [] => release_with (set_al s (Lru (map snd q))) b d
                             (fun _ => Lru (lru_insert (map snd q) b))
  | Lfd q (t :: nu) =>
      bind (release_with s b d (fun s1 => Lfd (pq_insert q b (priority (blk s1 b) t)) (t :: nu)))
           (fun s1 => match al s1 with
                      | Lfd q1 (_ :: nu1) => Ok (set_al s1 (Lfd q1 nu1))
                      | _ => Undefined
                      end)
  end.

(** deinitialize, block_scheduler.hpp lines 731-738, 1120-1127, and 214-225. *)
Definition deinitialize s (b : nat) : out st :=
  if negb (Nat.ltb b (nblk s)) then Undefined else
  match al s with
  | Sim k m => Ok (set_al s (Sim k (sim_deinitialize m b)))
  | _ =>
      let B := blk s b in
      let s1 := if is_evictable B then set_al s (erase_evictable (al s) b) else s in
      if is_acquired B then Undefined
      else
        let s2 := match ext B with Some e => del_ext s1 e | None => s1 end in
        let s3 := set_b s2 b (mkSb None None false (rc B)) in
        Ok (match int B with Some i => return_free s3 i | None => s3 end)
  end.

(** initialize, block_scheduler.hpp lines 740-744, 1129-1133, and 229-233. *)
Definition initialize s (b : nat) (e : option nat) : out st :=
  if negb (Nat.ltb b (nblk s)) then Undefined else
  match al s with
  | Sim k m => Ok (set_al s (Sim k (sim_initialize m b)))
  | _ =>
      let B := blk s b in
      if sb_initialized B then Undefined
      else Ok (set_b s b (mkSb e (int B) (dirty B) (rc B)))
  end.

(** extract_external_block, block_scheduler.hpp lines 746-754, 1135-1143, and 237-243. *)
Definition extract s (b : nat) : out (st * option nat) :=
  if negb (Nat.ltb b (nblk s)) then Undefined else
  match al s with
  | Sim k m => Ok (set_al s (Sim k (sim_extract m b)), None)
  | _ =>
      let B := blk s b in
      let s1 := if is_evictable B then set_al s (erase_evictable (al s) b) else s in
      bind (if is_internal B then bind (detach s1 b) (fun '(s2, i) => Ok (return_free s2 i))
            else Ok s1)
        (fun s2 => let B2 := blk s2 b in
                   Ok (set_b s2 b (mkSb None (int B2) (dirty B2) (rc B2)), ext B2))
  end.

(** is_initialized, block_scheduler.hpp lines 600-601 and 894-897. *)
Definition is_initialized s (b : nat) : out bool :=
  if negb (Nat.ltb b (nblk s)) then Undefined else
  match al s with
  | Sim _ m => Ok (0 <? rcs m b)%Z
  | _ => Ok (sb_initialized (blk s b))
  end.

(** allocate_swappable_block, block_scheduler.hpp lines 465-482; swappable_blocks_resize
    889-892. *)
Definition allocate s : st * nat :=
  match free_s s with
  | [] =>
      let b := nblk s in
      (mkSt (remaining s) (nalloc s) (free_i s) (S b) (upd (blk s) b sb_new) []
            (match al s with Sim k m => Sim k (sim_set m b 0%Z) | a => a end)
            (mem s) (disk s) (used s) (ncall s), b)
  | x :: r =>
      let b := fold_right Nat.min x r in
      (set_free_s s (let fix rm l := match l with
                        | [] => []
                        | y :: l => if Nat.eqb y b then l else y :: rm l end in rm (free_s s)), b)
  end.

(** free_swappable_block, block_scheduler.hpp lines 486-490. *)
Definition free_block s (b : nat) : out st :=
  bind (deinitialize s b) (fun s1 => Ok (set_free_s s1 (b :: free_s s1))).

(** flush, block_scheduler.hpp lines 519-535; [n] bounds the number of evictable blocks. *)
Fixpoint flush (n : nat) s : out st :=
  match pop_evictable (al s), n with
  | Some (b, a), S n =>
      bind (clean (set_al s a) b) (fun s1 =>
      bind (detach s1 b) (fun '(s2, i) => flush n (return_free s2 i)))
  | None, _ => Ok s
  | Some _, O => Undefined
  end.

(** Switching to a new online algorithm: block_scheduler.hpp lines 643-656, 500-506. *)
Definition to_lru s : st := set_al s (Lru (evictables (al s))).

(** Switching to a new simulation: block_scheduler.hpp lines 787-809. *)
Definition to_sim s : st :=
  set_al s (Sim (rev (evictables (al s)))
             (mkSim (fun b => if Nat.ltb b (nblk s) then Z.b2z (sb_initialized (blk s b)) else 0%Z)
                    0 false [])).

(** The loop of block_scheduler.hpp lines 989-1011 over the prediction sequence, from
    its end: the
    next use of every block and the queue next_use. *)
Fixpoint lfd_scan (ps : list pse) : (nat -> bool * nat) * list (bool * nat) :=
  match ps with
  | [] => (fun _ => (false, 1), [])
  | p :: r =>
      let '(f, nu) := lfd_scan r in
      match pop p with
      | op_acquire | op_acquire_uninitialized => (upd f (pid p) (true, ptime p), nu)
      | op_release | op_release_dirty => (f, f (pid p) :: nu)
      | op_deinitialize => (upd f (pid p) (false, 0), nu)
      | op_initialize => (upd f (pid p) (false, 3), nu)
      | op_extract_external_block => (upd f (pid p) (false, 2), nu)
      end
  end.

(** Switching to a new LFD algorithm with the given sequence: block_scheduler.hpp lines
    981-1032. *)
Definition to_lfd s (ps : list pse) : st :=
  let '(f, nu) := lfd_scan ps in
  set_al s (Lfd (fold_left (fun q b => pq_insert q b (priority (blk s b) (f b)))
                           (evictables (al s)) []) nu).

(** What a client does.  [Write] and [Read] access an acquired block through the
     reference (get_internal_block, block_scheduler.hpp lines 460-461 and 146-150); the
        last four
    concern external blocks of the client: it allocates one and writes to it,
    writes, reads and deletes it. *)
Inductive op :=
| Acq (b : nat) (un : bool) | Rel (b : nat) (d : bool) | Deinit (b : nat)
| Init (b : nat) (e : option nat) | Extract (b : nat) | IsInit (b : nat)
| Alloc | Free (b : nat) | Flush | Timestep
| ToLru | ToSim | ToLfd (ps : list pse)
| Write (b : nat) (d : Z) | Read (b : nat)
| NewExt (d : Z) | WriteExt (e : nat) (d : Z) | ReadExt (e : nat) | DelExt (e : nat).

(** Results; for acquire the contents of the block at that moment.
    block_scheduler.hpp lines 417-451. *)
Inductive res := RNone | RData (d : Z) | RBool (b : bool) | RId (b : nat) | RExt (e : option nat).

(** block_scheduler.hpp lines 460-461 and 139-150: get_internal_block. *)
Definition access s (b : nat) : out nat :=
  if negb (Nat.ltb b (nblk s)) then Undefined else
  match al s with
  | Sim _ _ => Undefined
  | _ => if negb (is_acquired (blk s b)) then Undefined
         else match int (blk s b) with Some i => Ok i | None => Undefined end
  end.

(** block_scheduler.hpp lines 417-535: the member functions of block_scheduler. *)
Definition do (s : st) (o : op) : out (st * res) :=
  match o with
  | Acq b un => bind (acquire s b un) (fun '(s1, i) =>
                  Ok (s1, match i with Some i => RData (mem s1 i) | None => RNone end))
  | Rel b d => bind (release s b d) (fun s1 => Ok (s1, RNone))
  | Deinit b => bind (deinitialize s b) (fun s1 => Ok (s1, RNone))
  | Init b e => bind (initialize s b e) (fun s1 => Ok (s1, RNone))
  | Extract b => bind (extract s b) (fun '(s1, e) => Ok (s1, RExt e))
  | IsInit b => bind (is_initialized s b) (fun r => Ok (s, RBool r))
  | Alloc => let '(s1, b) := allocate s in Ok (s1, RId b)
  | Free b => bind (free_block s b) (fun s1 => Ok (s1, RNone))
  | Flush => bind (flush (length (evictables (al s))) s) (fun s1 => Ok (s1, RNone))
  | Timestep => Ok (match al s with
                    | Sim k m => set_al s (Sim k (mkSim (rcs m) (S (time m)) (last_rel m) (pseq m)))
                    | _ => s
                    end, RNone)                                       (* 603, 899-900 *)
  | ToLru => Ok (to_lru s, RNone)
  | ToSim => Ok (to_sim s, RNone)
  | ToLfd ps => Ok (to_lfd s ps, RNone)
  | Write b d => bind (access s b) (fun i => Ok (set_mem s i d, RNone))
  | Read b => bind (access s b) (fun i => Ok (s, RData (mem s i)))
  | NewExt d => let '(s1, e) := new_ext s in Ok (set_disk s1 e d, RExt (Some e))
  | WriteExt e d => Ok (set_disk s e d, RNone)
  | ReadExt e => Ok (s, RData (disk s e))
  | DelExt e => Ok (del_ext s e, RNone)
  end.

(** Model device: a sequence of operations (block_scheduler.hpp lines 417-535). *)
Fixpoint run (s : st) (ops : list op) : out (st * list res) :=
  match ops with
  | [] => Ok (s, [])
  | o :: r => bind (do s o) (fun '(s1, x) =>
              bind (run s1 r) (fun '(s2, xs) => Ok (s2, x :: xs)))
  end.

End Oracles.
