(** Model of linuxaio_queue: submission of requests to the kernel AIO interface,
    with a posting thread, a waiting thread, and clients that add and cancel
    requests.

    Sources: /repo/foxxll/io/linuxaio_queue.cpp lines 34-67 (constructor),
    76-90 (add_request), 92-141 (cancel_request), 144-246 (post_requests),
    248-263 (handle_events), 266-308 (wait_requests);
    /repo/foxxll/io/linuxaio_request.cpp lines 26-52 (completed), 93-106
    (cancel_aio); /repo/foxxll/io/request_with_state.cpp lines 78-90;
    /repo/foxxll/io/request.cpp lines 95-101.

    Simplifications.
    - The queue is running; start and stop of the threads are not modelled.
    - The program steps are the accesses to the list of waiting requests, the
      semaphore operations, the system calls and the calls of completed().
      Semaphores are those of tlx: wait(d) blocks until the value is at least d
      and subtracts d; try_acquire(d, slack) fails unless the value is at least
      d + slack; signal(d) adds d.
    - The kernel finishes submitted requests in any order. io_submit accepts
      any non-empty prefix of the requests, or none with EAGAIN; other errors
      (which throw) are left out, as are errors of io_getevents. io_getevents
      returns any finished requests, at least the minimum number given and at
      most max_events. io_cancel either fails without effect, or takes a request
      that is not finished out of the kernel and returns its event.
    - Every request is added once. The result events[e].res is not looked at by
      the code and does not occur.
    - The queue is the only user of its AIO context. *)

From Coq Require Import List Arith Bool.
Import ListNotations.

(** Model device: a request, the [request_ptr] of linuxaio_queue.cpp lines 76-141. *)
Definition id := nat.

(** handle_events, linuxaio_queue.cpp lines 248-263: before signalling the free events;
    requests
    still to be completed, out of [k]; before num_posted_requests_.wait(k). *)
Inductive hpc :=
| H_free (evs : list id)
| H_comp (rem : list id) (k : nat)
| H_wait (k : nat).

(** The posting thread, linuxaio_queue.cpp lines 148-245. *)
Inductive ppc :=
| P_idle                              (* 151: num_waiting_requests_.wait() *)
| P_got                               (* 158: before locking *)
| P_comp                              (* 164: before signal() *)
| P_coll (reqs : list id)             (* 176: head of the while loop, locked *)
| P_coll2 (reqs : list id)            (* 180: before try_acquire, locked *)
| P_free (reqs : list id)             (* 193: num_free_events_.wait() *)
| P_sub (cbs : list id)               (* 208: io_submit of the remaining ones *)
| P_sig (n : nat) (cbs : list id)     (* 221: n were accepted, before signal(n) *)
| P_reap (cbs : list id)              (* 232: io_getevents *)
| P_han (h : hpc) (cbs : list id).    (* 243 *)

(** The waiting thread, linuxaio_queue.cpp lines 270-307. *)
Inductive wpc :=
| W_idle                              (* 273: num_posted_requests_.wait() *)
| W_get                               (* 283: io_getevents *)
| W_comp (evs : list id)              (* 304: before signal() *)
| W_han (h : hpc).                    (* 306 *)

(** A client in cancel_request.
    linuxaio_queue.cpp lines 92-141. *)
Inductive cpc :=
| C_compl (i : id)                    (* 116: erased from the list *)
| C_wait (i : id)                     (* 118 *)
| K_han (i : id) (h : hpc)            (* in cancel_aio, locked *)
| K_free (i : id)                     (* 131 *)
| K_compl (i : id)                    (* 134 *)
| K_wait (i : id).                    (* 136 *)

(** Members: linuxaio_queue.hpp lines 55-64; the threads and the kernel; what happened.
    linuxaio_queue.cpp lines 76-308. *)
Record st := mkSt {
  waiting : list id;                  (* waiting_requests_ *)
  wt : nat;                           (* num_waiting_requests_ *)
  fr : nat;                           (* num_free_events_ *)
  po : nat;                           (* num_posted_requests_ *)
  lock : bool;                        (* waiting_mtx_ is held across steps *)
  infl : list id;                     (* in the kernel, not finished *)
  dn : list id;                       (* in the kernel, finished *)
  poster : ppc;
  waiter : wpc;
  adders : nat;                       (* clients between lines 88 and 89 *)
  cancelers : list cpc;
  handled : list (id * bool);         (* completion handler calls (request, canceled) *)
  crashed : bool;                     (* a null pointer was dereferenced *)
  (* history *)
  added : list id;
  submitted : list id;                (* accepted by io_submit *)
  reaped : list id;                   (* events received from the kernel *)
  ccalls : list id                    (* calls of completed() *)
}.

(** Model device: a component of the state changes, linuxaio_queue.cpp lines 148-245. *)
Definition set_poster s p := mkSt (waiting s) (wt s) (fr s) (po s) (lock s) (infl s) (dn s) p
  (waiter s) (adders s) (cancelers s) (handled s) (crashed s) (added s) (submitted s) (reaped s) (ccalls s).
(** Model device: a component of the state changes, linuxaio_queue.cpp lines 270-307. *)
Definition set_waiter s w := mkSt (waiting s) (wt s) (fr s) (po s) (lock s) (infl s) (dn s) (poster s)
  w (adders s) (cancelers s) (handled s) (crashed s) (added s) (submitted s) (reaped s) (ccalls s).
(** Model device: a component of the state changes, linuxaio_queue.cpp lines 92-141. *)
Definition set_cancelers s c := mkSt (waiting s) (wt s) (fr s) (po s) (lock s) (infl s) (dn s) (poster s)
  (waiter s) (adders s) c (handled s) (crashed s) (added s) (submitted s) (reaped s) (ccalls s).
(** Model device: a component of the state changes, linuxaio_queue.cpp lines 86, 112,
    172, 186. *)
Definition set_waiting s v := mkSt v (wt s) (fr s) (po s) (lock s) (infl s) (dn s) (poster s)
  (waiter s) (adders s) (cancelers s) (handled s) (crashed s) (added s) (submitted s) (reaped s) (ccalls s).
(** Model device: a component of the state changes, linuxaio_queue.cpp lines 89, 118,
    151, 164, 180. *)
Definition set_wt s v := mkSt (waiting s) v (fr s) (po s) (lock s) (infl s) (dn s) (poster s)
  (waiter s) (adders s) (cancelers s) (handled s) (crashed s) (added s) (submitted s) (reaped s) (ccalls s).
(** Model device: a component of the state changes, linuxaio_queue.cpp lines 131,
    178-193, 251. *)
Definition set_fr s v := mkSt (waiting s) (wt s) v (po s) (lock s) (infl s) (dn s) (poster s)
  (waiter s) (adders s) (cancelers s) (handled s) (crashed s) (added s) (submitted s) (reaped s) (ccalls s).
(** Model device: a component of the state changes, linuxaio_queue.cpp lines 136, 221,
    262, 273, 304. *)
Definition set_po s v := mkSt (waiting s) (wt s) (fr s) v (lock s) (infl s) (dn s) (poster s)
  (waiter s) (adders s) (cancelers s) (handled s) (crashed s) (added s) (submitted s) (reaped s) (ccalls s).
(** Model device: a component of the state changes, linuxaio_queue.cpp lines 85, 105,
    123, 158. *)
Definition set_lock s v := mkSt (waiting s) (wt s) (fr s) (po s) v (infl s) (dn s) (poster s)
  (waiter s) (adders s) (cancelers s) (handled s) (crashed s) (added s) (submitted s) (reaped s) (ccalls s).
(** Model device: a component of the state changes, linuxaio_queue.cpp lines 208, 232, 283. *)
Definition set_kernel s i d := mkSt (waiting s) (wt s) (fr s) (po s) (lock s) i d (poster s)
  (waiter s) (adders s) (cancelers s) (handled s) (crashed s) (added s) (submitted s) (reaped s) (ccalls s).
(** Model device: a component of the state changes, linuxaio_queue.cpp lines 85-89. *)
Definition set_adders s v := mkSt (waiting s) (wt s) (fr s) (po s) (lock s) (infl s) (dn s) (poster s)
  (waiter s) v (cancelers s) (handled s) (crashed s) (added s) (submitted s) (reaped s) (ccalls s).
(** Model device: a component of the state changes, linuxaio_queue.cpp line 86. *)
Definition log_added s i := mkSt (waiting s) (wt s) (fr s) (po s) (lock s) (infl s) (dn s) (poster s)
  (waiter s) (adders s) (cancelers s) (handled s) (crashed s) (i :: added s) (submitted s) (reaped s) (ccalls s).
(** Model device: a component of the state changes, linuxaio_queue.cpp line 208. *)
Definition log_submitted s l := mkSt (waiting s) (wt s) (fr s) (po s) (lock s) (infl s) (dn s) (poster s)
  (waiter s) (adders s) (cancelers s) (handled s) (crashed s) (added s) (l ++ submitted s) (reaped s) (ccalls s).
(** Model device: a component of the state changes, linuxaio_queue.cpp lines 232, 283. *)
Definition log_reaped s l := mkSt (waiting s) (wt s) (fr s) (po s) (lock s) (infl s) (dn s) (poster s)
  (waiter s) (adders s) (cancelers s) (handled s) (crashed s) (added s) (submitted s) (l ++ reaped s) (ccalls s).

(** completed(): linuxaio_request.cpp line 31 dereferences file_, which the
    first call sets to null (request.cpp lines 97-100); then the handler is
    called, request_with_state.cpp lines 84-85. *)
Definition complete s (i : id) (canceled : bool) :=
  if existsb (Nat.eqb i) (ccalls s)
  then mkSt (waiting s) (wt s) (fr s) (po s) (lock s) (infl s) (dn s) (poster s) (waiter s)
         (adders s) (cancelers s) (handled s) true (added s) (submitted s) (reaped s)
         (i :: ccalls s)
  else mkSt (waiting s) (wt s) (fr s) (po s) (lock s) (infl s) (dn s) (poster s) (waiter s)
         (adders s) (cancelers s) ((i, canceled) :: handled s) (crashed s) (added s)
         (submitted s) (reaped s) (i :: ccalls s).

(** One step of handle_events: the state and where it continues; [None]: it
    returns. [canceled] is the argument.
    linuxaio_queue.cpp lines 248-263. *)
Inductive hstep (canceled : bool) : st -> hpc -> st -> option hpc -> Prop :=
| HS_free s evs :                                                     (* 251 *)
    hstep canceled s (H_free evs) (set_fr s (fr s + length evs)) (Some (H_comp evs (length evs)))
| HS_comp s i rem k :                                                 (* 257 *)
    hstep canceled s (H_comp (i :: rem) k) (complete s i canceled) (Some (H_comp rem k))
| HS_end s k :
    hstep canceled s (H_comp [] k) s (Some (H_wait k))
| HS_wait s k : k <= po s ->                                          (* 262 *)
    hstep canceled s (H_wait k) (set_po s (po s - k)) None.

(** linuxaio_queue.cpp lines 38-44: the queue length. *)
Definition queue_limit (desired : nat) : nat := if desired =? 0 then 64 else desired.

(** The constructor: linuxaio_queue.cpp lines 46-61; io_setup succeeds at once. *)
Definition init (max : nat) : st :=
  mkSt [] 0 max 0 false [] [] P_idle W_idle 0 [] [] false [] [] [] [].

(** [take l a b]: [l] is split into the elements [a] and [b], keeping the order.
    Model device: which events io_getevents returns, linuxaio_queue.cpp lines 232, 283. *)
Inductive take {X} : list X -> list X -> list X -> Prop :=
| take_nil : take [] [] []
| take_left x l a b : take l a b -> take (x :: l) (x :: a) b
| take_right x l a b : take l a b -> take (x :: l) a (x :: b).

(** Steps. [max] is max_events_; [pc]: cancellations of requests in the kernel
    may succeed; [ps]: io_submit may accept fewer requests than given.
    linuxaio_queue.cpp lines 76-308, linuxaio_request.cpp lines 93-106. *)
Inductive step (max : nat) (pc ps : bool) : st -> st -> Prop :=
(* add_request, lines 85-89 *)
| S_add s i : crashed s = false -> lock s = false -> ~ In i (added s) ->
    step max pc ps s
      (set_adders (log_added (set_waiting s (waiting s ++ [i])) i) (S (adders s)))
| S_add_signal s n : crashed s = false -> adders s = S n ->
    step max pc ps s (set_adders (set_wt s (S (wt s))) n)
(* post_requests *)
| S_p_wait s n : crashed s = false -> poster s = P_idle -> wt s = S n ->
    step max pc ps s (set_poster (set_wt s n) P_got)
| S_p_empty s : crashed s = false -> poster s = P_got -> lock s = false -> waiting s = [] ->
    step max pc ps s (set_poster s P_comp)
| S_p_compensate s : crashed s = false -> poster s = P_comp ->
    step max pc ps s (set_poster (set_wt s (S (wt s))) P_idle)
| S_p_first s i w : crashed s = false -> poster s = P_got -> lock s = false ->
    waiting s = i :: w ->
    step max pc ps s (set_lock (set_poster (set_waiting s w) (P_coll [i])) true)
| S_p_stop s r : crashed s = false -> poster s = P_coll r ->
    waiting s = [] \/ fr s < 1 + 1 ->
    step max pc ps s (set_lock (set_poster s (P_free r)) false)
| S_p_acquire s r : crashed s = false -> poster s = P_coll r ->
    waiting s <> [] -> 1 + 1 <= fr s ->
    step max pc ps s (set_poster (set_fr s (fr s - 1)) (P_coll2 r))
| S_p_giveback s r : crashed s = false -> poster s = P_coll2 r -> wt s = 0 ->
    step max pc ps s (set_lock (set_poster (set_fr s (S (fr s))) (P_free r)) false)
| S_p_more s r i w n : crashed s = false -> poster s = P_coll2 r -> wt s = S n ->
    waiting s = i :: w ->
    step max pc ps s (set_poster (set_waiting (set_wt s n) w) (P_coll (r ++ [i])))
| S_p_last s r n : crashed s = false -> poster s = P_free r -> fr s = S n ->
    step max pc ps s (set_poster (set_fr s n) (P_sub r))
| S_p_submit s a b : crashed s = false -> poster s = P_sub (a ++ b) -> a <> [] ->
    (ps = true \/ b = []) ->
    step max pc ps s
      (set_poster (log_submitted (set_kernel s (infl s ++ a) (dn s)) a) (P_sig (length a) b))
| S_p_again s c : crashed s = false -> poster s = P_sub c -> ps = true ->
    step max pc ps s (set_poster s (P_reap c))
| S_p_signal s n c : crashed s = false -> poster s = P_sig n c ->
    step max pc ps s
      (set_poster (set_po s (po s + n)) (match c with [] => P_idle | _ => P_reap c end))
| S_p_reap s c e d : crashed s = false -> poster s = P_reap c -> take (dn s) e d ->
    length e <= max ->
    step max pc ps s
      (set_poster (log_reaped (set_kernel s (infl s) d) e)
         (match e with [] => P_sub c | _ => P_han (H_free e) c end))
| S_p_handle s h c s' h' : crashed s = false -> poster s = P_han h c ->
    hstep false s h s' h' ->
    step max pc ps s (set_poster s' (match h' with Some h' => P_han h' c | None => P_sub c end))
(* wait_requests *)
| S_w_wait s n : crashed s = false -> waiter s = W_idle -> po s = S n ->
    step max pc ps s (set_waiter (set_po s n) W_get)
| S_w_get s e d : crashed s = false -> waiter s = W_get -> take (dn s) e d ->
    1 <= length e -> length e <= max ->
    step max pc ps s (set_waiter (log_reaped (set_kernel s (infl s) d) e) (W_comp e))
| S_w_compensate s e : crashed s = false -> waiter s = W_comp e ->
    step max pc ps s (set_waiter (set_po s (S (po s))) (W_han (H_free e)))
| S_w_handle s h s' h' : crashed s = false -> waiter s = W_han h -> hstep false s h s' h' ->
    step max pc ps s (set_waiter s' (match h' with Some h' => W_han h' | None => W_idle end))
(* the kernel *)
| S_kernel s a i b : crashed s = false -> infl s = a ++ i :: b ->
    step max pc ps s (set_kernel s (a ++ b) (dn s ++ [i]))
(* cancel_request of a waiting request, lines 104-120 *)
| S_c_erase s a i b : crashed s = false -> lock s = false -> waiting s = a ++ i :: b ->
    step max pc ps s (set_cancelers (set_waiting s (a ++ b)) (C_compl i :: cancelers s))
| S_c_complete s x i y : crashed s = false -> cancelers s = x ++ C_compl i :: y ->
    step max pc ps s (set_cancelers (complete s i true) (x ++ C_wait i :: y))
| S_c_wait s x i y n : crashed s = false -> cancelers s = x ++ C_wait i :: y -> wt s = S n ->
    step max pc ps s (set_cancelers (set_wt s n) (x ++ y))
(* cancel_request of a posted request, lines 123-138, and cancel_aio *)
| S_k_cancel s a i b : crashed s = false -> pc = true -> lock s = false ->
    infl s = a ++ i :: b ->
    step max pc ps s
      (set_lock (set_cancelers (log_reaped (set_kernel s (a ++ b) (dn s)) [i])
                               (K_han i (H_free [i]) :: cancelers s)) true)
| S_k_handle s x i h y s' h' : crashed s = false -> cancelers s = x ++ K_han i h :: y ->
    hstep true s h s' (Some h') ->
    step max pc ps s (set_cancelers s' (x ++ K_han i h' :: y))
| S_k_handled s x i h y s' : crashed s = false -> cancelers s = x ++ K_han i h :: y ->
    hstep true s h s' None ->
    step max pc ps s (set_lock (set_cancelers s' (x ++ K_free i :: y)) false)
| S_k_free s x i y : crashed s = false -> cancelers s = x ++ K_free i :: y ->
    step max pc ps s (set_cancelers (set_fr s (S (fr s))) (x ++ K_compl i :: y))
| S_k_complete s x i y : crashed s = false -> cancelers s = x ++ K_compl i :: y ->
    step max pc ps s (set_cancelers (complete s i true) (x ++ K_wait i :: y))
| S_k_wait s x i y n : crashed s = false -> cancelers s = x ++ K_wait i :: y -> po s = S n ->
    step max pc ps s (set_cancelers (set_po s n) (x ++ y)).

(** States that can be reached.
    linuxaio_queue.cpp lines 34-308. *)
Inductive reach (max : nat) (pc ps : bool) : st -> Prop :=
| R_init : reach max pc ps (init max)
| R_step s s' : reach max pc ps s -> step max pc ps s s' -> reach max pc ps s'.
