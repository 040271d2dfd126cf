(** Model of the singletons and of the exit handlers.

    Sources: /repo/foxxll/singleton.hpp lines 22-101,
    /repo/foxxll/common/exithandler.cpp lines 33-73.

    Two models.  [sstep] is one singleton used by any number of threads; its
    steps are the single accesses to [instance_] and the mutex operations.
    [get]/[run_handlers] are several singletons used by one thread, where
    constructors and destructors use other singletons.

    Simplifications: an object is a number (the number of the construction);
    accesses to the volatile pointer are atomic and there are no memory effects
    (the code relies on that; the pointer is not a std::atomic). *)
From Coq Require Import List Arith Bool.
Import ListNotations.

(** The values of [instance_]: null, an object, or size_t(-1)
    (singleton.hpp:91). *)
Inductive ptr := Null | Obj (n : nat) | Bomb.

(** ** One singleton, many threads *)

(** What a thread does next.
    singleton.hpp lines 41-47, 77-83, 89-92. *)
Inductive pc :=
| Idle
| GTest            (* get_instance, line 43: if (!instance_) *)
| GRead            (* line 46: return instance_ *)
| CLock            (* create_instance, line 77 *)
| CTest            (* line 78 *)
| CNew             (* line 79: new SubInstanceType() *)
| CReg             (* lines 80-81 *)
| CRead            (* line 83, and the release of the lock *)
| DLock            (* destroy_instance, line 89 *)
| DTake            (* lines 90-91 *)
| DDelete (p : ptr) (* line 92, and the release of the lock *).

(** Model device: what happened, singleton.hpp lines 46, 79-83, 91-92. *)
Inductive sevent :=
| EConstructed (n : nat)   (* constructor finished *)
| EThrew                   (* constructor threw; the call returns with the exception *)
| ERegistered              (* register_exit_handler(destroy_instance) *)
| EReturned (p : ptr)      (* get_instance or create_instance returned p *)
| EBombed                  (* instance_ was set to size_t(-1) *)
| EDeleted (n : nat)       (* delete old_instance *)
| EBadDelete.              (* delete of size_t(-1): undefined *)

(** singleton.hpp lines 66-69, the threads and what happened. *)
Record sstate := MkS {
  s_inst : ptr;              (* instance_, line 97 *)
  s_lock : option nat;       (* owner of singleton_mutex_ *)
  s_handlers : nat;          (* exit handlers not yet started *)
  s_made : nat;              (* objects constructed so far: names of objects *)
  s_pcs : list pc;
  s_trace : list sevent      (* latest first *)
}.

(** singleton.hpp lines 97, 100. *)
Definition s_init (n : nat) : sstate := MkS Null None 0 0 (repeat Idle n) [].

(** Model device: one thread moves on (threads running singleton.hpp lines 41-93). *)
Definition set_nth {A} (l : list A) (i : nat) (x : A) : list A :=
  firstn i l ++ match skipn i l with [] => [] | _ :: r => x :: r end.

(** Model device: one thread moves on (singleton.hpp lines 41-93). *)
Definition move (s : sstate) (t : nat) (p : pc) : sstate :=
  MkS (s_inst s) (s_lock s) (s_handlers s) (s_made s) (set_nth (s_pcs s) t p) (s_trace s).
(** Model device: records an event (singleton.hpp lines 79-92). *)
Definition say (s : sstate) (e : sevent) : sstate :=
  MkS (s_inst s) (s_lock s) (s_handlers s) (s_made s) (s_pcs s) (e :: s_trace s).
(** Locking and releasing singleton_mutex_, singleton.hpp lines 77, 89. *)
Definition with_lock (s : sstate) (o : option nat) : sstate :=
  MkS (s_inst s) o (s_handlers s) (s_made s) (s_pcs s) (s_trace s).
(** Assignment to instance_, singleton.hpp lines 79, 91. *)
Definition with_inst (s : sstate) (p : ptr) : sstate :=
  MkS p (s_lock s) (s_handlers s) (s_made s) (s_pcs s) (s_trace s).
(** register_exit_handler, singleton.hpp line 81. *)
Definition with_handlers (s : sstate) (h : nat) : sstate :=
  MkS (s_inst s) (s_lock s) h (s_made s) (s_pcs s) (s_trace s).
(** new, singleton.hpp line 79. *)
Definition with_made (s : sstate) (m : nat) : sstate :=
  MkS (s_inst s) (s_lock s) (s_handlers s) m (s_pcs s) (s_trace s).

(** [by_hand] says whether the program may call destroy_instance itself (it is
    public, line 62); otherwise only the exit handlers call it.
    singleton.hpp lines 41-47, 73-93. *)
Inductive sstep (by_hand : bool) : sstate -> sstate -> Prop :=
| SGet s t : nth_error (s_pcs s) t = Some Idle ->
    sstep by_hand s (move s t GTest)
| SCreate s t : nth_error (s_pcs s) t = Some Idle ->
    sstep by_hand s (move s t CLock)
| SGTest s t : nth_error (s_pcs s) t = Some GTest ->
    sstep by_hand s (move s t (match s_inst s with Null => CLock | _ => GRead end))
| SGRead s t : nth_error (s_pcs s) t = Some GRead ->
    sstep by_hand s (say (move s t Idle) (EReturned (s_inst s)))
| SCLock s t : nth_error (s_pcs s) t = Some CLock -> s_lock s = None ->
    sstep by_hand s (with_lock (move s t CTest) (Some t))
| SCTest s t : nth_error (s_pcs s) t = Some CTest ->
    sstep by_hand s (move s t (match s_inst s with Null => CNew | _ => CRead end))
| SCNew s t : nth_error (s_pcs s) t = Some CNew ->
    sstep by_hand s (say (with_made (with_inst (move s t CReg) (Obj (s_made s))) (S (s_made s)))
                       (EConstructed (s_made s)))
| SCThrow s t : nth_error (s_pcs s) t = Some CNew ->
    sstep by_hand s (say (with_lock (move s t Idle) None) EThrew)
| SCReg s t : nth_error (s_pcs s) t = Some CReg ->
    sstep by_hand s (say (with_handlers (move s t CRead) (S (s_handlers s))) ERegistered)
| SCRead s t : nth_error (s_pcs s) t = Some CRead ->
    sstep by_hand s (say (with_lock (move s t Idle) None) (EReturned (s_inst s)))
| SHandler s t h : nth_error (s_pcs s) t = Some Idle -> s_handlers s = S h ->
    sstep by_hand s (with_handlers (move s t DLock) h)
| SDestroy s t : by_hand = true -> nth_error (s_pcs s) t = Some Idle ->
    sstep by_hand s (move s t DLock)
| SDLock s t : nth_error (s_pcs s) t = Some DLock -> s_lock s = None ->
    sstep by_hand s (with_lock (move s t DTake) (Some t))
| SDTake s t : nth_error (s_pcs s) t = Some DTake ->
    sstep by_hand s (say (with_inst (move s t (DDelete (s_inst s))) Bomb) EBombed)
| SDDelete s t p : nth_error (s_pcs s) t = Some (DDelete p) ->
    sstep by_hand s
      (let s1 := with_lock (move s t Idle) None in
       match p with Null => s1 | Obj n => say s1 (EDeleted n) | Bomb => say s1 EBadDelete end).

(** Reachable states, from singleton.hpp lines 97, 100 by steps of lines 41-93. *)
Inductive sreach (by_hand : bool) (n : nat) : sstate -> Prop :=
| SR0 : sreach by_hand n (s_init n)
| SRS s s' : sreach by_hand n s -> sstep by_hand s s' -> sreach by_hand n s'.

(** ** Several singletons, one thread *)

(** What happened to the singletons, latest first.
    singleton.hpp lines 79, 92. *)
Inductive levent := Created (a : nat) | Destroyed (a : nat).

(** singleton.hpp line 66 for each class; exithandler.cpp lines 55-63. *)
Record lstate := MkL {
  l_inst : nat -> ptr;       (* instance_ of each class *)
  l_stack : list nat;        (* registered exit handlers, latest first *)
  l_trace : list levent
}.

(** Model device: how singleton.hpp lines 41-93 end. *)
Inductive lout := LDone (s : lstate) | LDeadlock | LCrash | LNoFuel.

(** Model device: sequence (singleton.hpp lines 41-93). *)
Definition lbind (o : lout) (f : lstate -> lout) : lout :=
  match o with LDone s => f s | x => x end.

(** Model device: the uses of a constructor in sequence (singleton.hpp line 79). *)
Fixpoint lfold (f : nat -> lstate -> lout) (l : list nat) (s : lstate) : lout :=
  match l with [] => LDone s | a :: r => lbind (f a s) (lfold f r) end.

Section Life.
(** The singletons that the constructor and the destructor of a class use. *)
Variable uses d_uses : nat -> list nat.

(** get_instance of class [a], singleton.hpp:41-47 and 73-84; [locked] are the
    mutexes held by the thread: the mutex is not recursive.  [reg_locked] says
    that the thread holds exit_handler_mutex (exithandler.cpp:60, 68).  A
    pointer that is size_t(-1) is returned and used: crash. *)
Fixpoint get (fuel : nat) (reg_locked : bool) (locked : list nat) (a : nat) (s : lstate) : lout :=
  match fuel with
  | O => LNoFuel
  | S fuel =>
      match l_inst s a with
      | Bomb => LCrash
      | Obj _ => LDone s
      | Null =>
          if existsb (Nat.eqb a) locked then LDeadlock
          else lbind (lfold (get fuel reg_locked (a :: locked)) (uses a) s)
                 (fun s1 => if reg_locked then LDeadlock
                            else LDone (MkL (fun x => if x =? a then Obj 0 else l_inst s1 x)
                                            (a :: l_stack s1) (Created a :: l_trace s1)))
      end
  end.

(** destroy_instance of class [a], singleton.hpp lines 86-93: the pointer is replaced first,
    then the destructor runs, with the mutex of [a] held. *)
Definition destroy (fuel : nat) (reg_locked : bool) (a : nat) (s : lstate) : lout :=
  let s1 := MkL (fun x => if x =? a then Bomb else l_inst s x) (l_stack s) (l_trace s) in
  lbind (lfold (get fuel reg_locked [a]) (d_uses a) s1)
    (fun s2 => LDone (MkL (l_inst s2) (l_stack s2) (Destroyed a :: l_trace s2))).

(** The handlers at the end of the program.  [default]: the handlers of
    atexit(), called latest first; a handler is removed before it is called and
    may register others, which are called next (C standard).  Otherwise
    exithandler.cpp:66-73: the mutex is held for the whole loop, and a handler is
    removed after it was called. *)
Fixpoint run_handlers (fuel : nat) (default : bool) (s : lstate) : lout :=
  match fuel with
  | O => LNoFuel
  | S fuel =>
      match l_stack s with
      | [] => LDone s
      | a :: r =>
          if default
          then lbind (destroy fuel false a (MkL (l_inst s) r (l_trace s))) (run_handlers fuel default)
          else lbind (destroy fuel true a s)
                 (fun s1 => run_handlers fuel default (MkL (l_inst s1) (tl (l_stack s1)) (l_trace s1)))
      end
  end.

(** singleton.hpp line 97. *)
Definition l_init : lstate := MkL (fun _ => Null) [] [].

(** A program that gets the singletons of a list, and then exits.
    singleton.hpp lines 41-47, exithandler.cpp lines 33-73. *)
Definition program (fuel : nat) (default : bool) (gets : list nat) : lout :=
  lbind (lfold (get fuel false []) gets l_init) (run_handlers fuel default).
End Life.

(** The singletons of foxxll: 0 stats, 1 disk_queues, 2 config, 3 block_manager.
    Constructors: disk_queues.cpp:28, block_manager.cpp:35 (config), the files
    create their statistics (io/file.hpp:99), block_manager.cpp:74.  Destructors:
    deleting the queues serves the remaining requests, which are counted
    (disk_queues.cpp:31-37, iostats.cpp:59, 85, 112, 138). *)
Definition foxxll_uses (a : nat) : list nat :=
  match a with 1 => [0] | 3 => [2; 0; 1] | _ => [] end.
(** Destructors: disk_queues.cpp lines 31-37, iostats.cpp lines 59, 85, 112, 138. *)
Definition foxxll_d_uses (a : nat) : list nat :=
  match a with 1 => [0] | _ => [] end.
