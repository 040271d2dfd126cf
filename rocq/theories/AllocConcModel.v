(** Several threads using one disk allocator.

    Sources: /repo/foxxll/mng/disk_block_allocator.hpp:158-260 ([new_blocks]) and
    111-120 ([delete_block]).  The mutex is taken at line 169 and released at
    line 255, before the two recursive calls (lines 257-259); each recursive call
    takes it again.  So one call of [new_blocks] is a sequence of critical
    sections, and other threads may run between them. *)
From Coq Require Import ZArith List Bool.
From Verif Require Import AllocModel.
Import ListNotations.
Local Open Scope Z_scope.

(** What a thread does: allocate a batch, or delete the i-th block of the
    blocks that are currently owned by the program (any thread may delete any
    block, but nobody deletes a block twice).
    The calls are disk_block_allocator.hpp lines 158-260 and 111-120. *)
Inductive top := TNew (sizes : list Z) | TDelete (i : nat).

(** A thread.  [th_pending]: the batches of the recursive calls of the running
    [new_blocks] that have not been served yet, next one first (the C++ call
    stack); [th_cur]: the blocks that finished recursive calls of the running
    [new_blocks] have already been assigned.
    Model device for the recursion of disk_block_allocator.hpp lines 257-259. *)
Record thread := mk_thread {
  th_prog    : list top;
  th_pending : list (list Z);
  th_cur     : list (Z * Z)
}.

(** [sys_held]: blocks returned by completed calls and not yet deleted.
    [sys_lost]: blocks that were allocated by a call which then threw; the
    caller has no record of them.  [sys_bad]: an assertion failed.
     Model device: the object of disk_block_allocator.hpp lines 45-156 and the programs
        that share it. *)
Record system := mk_system {
  sys_alloc   : allocator;
  sys_threads : list thread;
  sys_held    : list (Z * Z);
  sys_lost    : list (Z * Z);
  sys_bad     : bool
}.

(** Model device for one thread taking a step (disk_block_allocator.hpp lines 158-260);
    no code. *)
Fixpoint set_nth {A} (i : nat) (x : A) (l : list A) : list A :=
  match l, i with
  | [], _ => []
  | _ :: r, O => x :: r
  | y :: r, S i' => y :: set_nth i' x r
  end.

(** One critical section of thread [t] (disk_block_allocator.hpp:158-260 for
    the allocation cases, 111-120 for deletion); starting a call is a step of
    its own.  A thread that has nothing to do leaves the system unchanged. *)
Definition sys_step (s : system) (t : nat) : system :=
  match nth_error (sys_threads s) t with
  | None => s
  | Some th =>
      match th_pending th with
      | [] =>
          match th_prog th with
          | [] => s
          | TNew sizes :: p =>
              mk_system (sys_alloc s)
                        (set_nth t (mk_thread p [sizes] []) (sys_threads s))
                        (sys_held s) (sys_lost s) (sys_bad s)
          | TDelete i :: p =>
              let ths := set_nth t (mk_thread p [] []) (sys_threads s) in
              match nth_error (sys_held s) i with
              | None => mk_system (sys_alloc s) ths (sys_held s) (sys_lost s) (sys_bad s)
              | Some (o, z) =>
                  match delete_block (sys_alloc s) o z with
                  | Ret a => mk_system a ths (remove_nth i (sys_held s)) (sys_lost s) (sys_bad s)
                  | _ => mk_system (sys_alloc s) ths (sys_held s) (sys_lost s) true
                  end
              end
          end
      | b :: rest =>
          match new_blocks_section (sys_alloc s) b with
          | SecDone a offs =>
              let cur := th_cur th ++ combine offs b in
              match rest with
              | [] => mk_system a (set_nth t (mk_thread (th_prog th) [] []) (sys_threads s))
                                (sys_held s ++ cur) (sys_lost s) (sys_bad s)
              | _ => mk_system a (set_nth t (mk_thread (th_prog th) rest cur) (sys_threads s))
                               (sys_held s) (sys_lost s) (sys_bad s)
              end
          | SecSplit a =>
              let half := Nat.div2 (length b) in
              mk_system a (set_nth t (mk_thread (th_prog th)
                                        (firstn half b :: skipn half b :: rest) (th_cur th))
                                   (sys_threads s))
                        (sys_held s) (sys_lost s) (sys_bad s)
          | SecThrow =>
              mk_system (sys_alloc s) (set_nth t (mk_thread (th_prog th) [] []) (sys_threads s))
                        (sys_held s) (sys_lost s ++ th_cur th) (sys_bad s)
          | SecAssert =>
              mk_system (sys_alloc s) (sys_threads s) (sys_held s) (sys_lost s) true
          end
      end
  end.

(** A schedule is the list of thread numbers in the order they are run.
     Model device: threads interleave at the mutex, disk_block_allocator.hpp lines 113,
        169, 255. *)
Definition sys_run (s : system) (schedule : list nat) : system :=
  fold_left sys_step schedule s.

(** Model device: threads that have not called anything, disk_block_allocator.hpp lines
    45-156. *)
Definition sys_init (a : allocator) (progs : list (list top)) : system :=
  mk_system a (map (fun p => mk_thread p [] []) progs) [] [] false.

(** All blocks allocated at this moment: owned, in the middle of a call, or lost.
    Model device, for blocks handed out by disk_block_allocator.hpp lines 236-240. *)
Definition sys_blocks (s : system) : list (Z * Z) :=
  sys_held s ++ sys_lost s ++ concat (map th_cur (sys_threads s)).

(** Critical sections and call starts a thread still has to execute at most:
    a batch of n blocks needs at most 2n-1 sections.
     Model device: at most so many critical sections of disk_block_allocator.hpp lines
        158-260. *)
Definition batch_work (b : list Z) : nat := 2 * length b - 1.
(** Model device: the same for a call of disk_block_allocator.hpp lines 158-260 or 111-120. *)
Definition op_work (o : top) : nat :=
  match o with TNew b => S (batch_work b) | TDelete _ => 1 end.
(** Model device: the same for a thread (disk_block_allocator.hpp lines 158-260, 111-120). *)
Definition thread_work (th : thread) : nat :=
  list_sum (map op_work (th_prog th)) + list_sum (map batch_work (th_pending th)).
(** Model device: the same for all threads (disk_block_allocator.hpp lines 158-260,
    111-120). *)
Definition sys_work (s : system) : nat := list_sum (map thread_work (sys_threads s)).

(** Model device: no call of disk_block_allocator.hpp lines 158-260 or 111-120 is left. *)
Definition thread_done (th : thread) : Prop := th_prog th = [] /\ th_pending th = [].
