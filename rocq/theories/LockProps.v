(* C102: the mutexes of the library cannot deadlock. *)
From Coq Require Import List Arith Lia Bool.
From Verif Require Import LockModel LockSpec LockProofs.
Import ListNotations.

Ltac belowt :=
  intros ? Hin; cbn in Hin;
  repeat (destruct Hin as [Hin|Hin]; [subst; cbv; lia|]); destruct Hin.

Ltac okt :=
  repeat first
    [ exact I
    | lazymatch goal with
      | |- below _ _ => belowt
      | |- _ /\ _ => split
      | |- exists t, _ = _ => eexists; reflexivity
      | |- _ = _ -> _ => let E := fresh in intros E; first [reflexivity | discriminate E]
      | |- forall _, _ => intro
      | |- _ = _ => reflexivity
      end ].

Lemma usual_ok nd fpb p : usual nd fpb p -> ok true (negb fpb) [] p.
Proof. intros Hu. destruct nd, fpb; destruct Hu; cbn; okt. Qed.

Lemma ok_weaken l p h : ok h true l p -> ok h false l p.
Proof.
  revert l. induction p; cbn; intros l Hp; auto; try discriminate;
    destruct Hp; split; auto; discriminate.
Qed.

Lemma ok_nohandler l p qt : ok true qt l p -> ok false qt l p.
Proof.
  revert l. induction p; cbn; intros l Hp; auto; try discriminate;
    destruct Hp; split; auto; discriminate.
Qed.

Lemma most_ok nd fpb p : most nd fpb p -> ok true false [] p.
Proof.
  intros Hu. destruct Hu as [p Hu|q r|].
  - apply usual_ok in Hu. destruct fpb; [exact Hu|now apply ok_weaken].
  - destruct nd; cbn; okt.
  - destruct nd; cbn; okt.
Qed.

Lemma every_ok fpb p : every false fpb p -> ok true false [] p.
Proof.
  intros Hu. destruct Hu as [p Hu|].
  - now apply most_ok in Hu.
  - cbn; okt.
Qed.

Lemma every_aio_ok fpb p : every_aio false fpb p -> ok false false [] p.
Proof.
  intros Hu. destruct Hu as [p Hu|q r f].
  - apply every_ok in Hu. now apply ok_nohandler.
  - cbn; okt.
Qed.

(* No set of threads, of whatever number, can wait for each other's mutexes;
   completion handlers may call the library as they like. *)
Theorem C102_no_deadlock nd fpb st D :
  reach (most nd fpb) (most nd fpb) st -> ~ deadlock st D.
Proof.
  intros Hr. apply (no_deadlock true false). eapply reach_inv; [| |exact Hr].
  - apply most_ok.
  - intros p Hp. split; auto. eapply most_ok; eauto.
Qed.
Print Assumptions C102_no_deadlock.

(* The same with the end of the process, under the default exit handlers. *)
Theorem C102_no_deadlock_exit fpb st D :
  reach (every false fpb) (every false fpb) st -> ~ deadlock st D.
Proof.
  intros Hr. apply (no_deadlock true false). eapply reach_inv; [| |exact Hr].
  - apply every_ok.
  - intros p Hp. split; auto. eapply every_ok; eauto.
Qed.
Print Assumptions C102_no_deadlock_exit.

(* With cancel of posted linuxaio requests, handlers must not call the library. *)
Theorem C102_no_deadlock_aio fpb st D :
  reach (every_aio false fpb) (fun _ => False) st -> ~ deadlock st D.
Proof.
  intros Hr. apply (no_deadlock false false). eapply reach_inv; [| |exact Hr].
  - apply every_aio_ok.
  - intros p [].
Qed.
Print Assumptions C102_no_deadlock_aio.

(* At most one thread has a mutex at a time. *)
Theorem C102_exclusion nd fpb st i j m :
  reach (most nd fpb) (most nd fpb) st -> holds st i m -> holds st j m -> i = j.
Proof.
  intros Hr. eapply (reach_inv _ _ true false) in Hr.
  - destruct Hr as [_ Hx]. apply Hx.
  - apply most_ok.
  - intros p Hp. split; auto. eapply most_ok; eauto.
Qed.
Print Assumptions C102_exclusion.

(* A completion handler starts, and goes on between its own calls of the
   library, without any mutex of the library. *)
Theorem C102_handler_unlocked fpb st i m :
  reach (every false fpb) (every false fpb) st -> at_handler st i -> ~ holds st i m.
Proof.
  intros Hr Ha. eapply (reach_inv _ _ true false) in Hr.
  - eapply handler_free; eauto.
  - apply every_ok.
  - intros p Hp. split; auto. eapply every_ok; eauto.
Qed.
Print Assumptions C102_handler_unlocked.

(* Without cancel, exit and files per block: a thread that waits for a mutex
   always finds some holder of a mutex that can go on, so no wait for an
   event (a request, a join, the kernel) is ever behind a wait for a mutex. *)
Theorem C102_holder_goes_on nd st i m j :
  reach (usual nd false) (usual nd false) st ->
  wants st i m -> holds st j m ->
  exists r m' k k', holds st r m' /\ nth_error st r = Some k /\
    tstep (usual nd false) (usual nd false) (fun m => free m st) k k' /\
    running st r /\ r <> i.
Proof.
  intros Hr Hw Hh. eapply (reach_inv _ _ true true) in Hr.
  - destruct (runner _ _ _ j m eq_refl Hr Hh) as (r & m' & Hrm & Hrun).
    destruct (running_steps (usual nd false) (usual nd false) st r Hrun)
      as (k & k' & Hk & Hs).
    exists r, m', k, k'. split; auto. split; auto. split; auto. split; auto.
    intros ->. destruct Hrun as (_ & _ & Hf). apply (Hf m Hw j Hh).
  - intros p Hp. apply (usual_ok nd false). exact Hp.
  - intros p Hp. split; auto. apply (usual_ok nd false). exact Hp.
Qed.
Print Assumptions C102_holder_goes_on.

(* What "wants" means: such a thread takes no step while the mutex is held. *)
Theorem C102_wanting_waits E H st i m j k k' :
  wants st i m -> holds st j m -> nth_error st i = Some k ->
  ~ tstep E H (fun m => free m st) k k'.
Proof. apply wanting_stuck. Qed.
Print Assumptions C102_wanting_waits.

(* ---- Concrete executions. ---- *)

Inductive choice : Type :=
| D | L | R | O (n : nat) | T (n : nat) | Call (p : prog).

Definition freeb (m : mtx) (st : sys) : bool :=
  forallb (fun k => if in_dec mtx_eq_dec m (held k) then false else true) st.

Definition exec (st : sys) (k : thread) (c : choice) : option thread :=
  match k, c with
  | [], Call p => Some [Do p]
  | Do User :: k, Call p => Some (Do p :: Do User :: k)
  | Do User :: k, L => Some k
  | Do Skip :: k, D => Some k
  | Do (With m p) :: k, D => if freeb m st then Some (Do p :: Rel m :: k) else None
  | Rel m :: k, D => Some k
  | Do (Wait m) :: k, D => Some (Asleep m :: k)
  | Asleep m :: k, D => if freeb m st then Some k else None
  | Do Block :: k, D => Some k
  | Do (Seq p q) :: k, D => Some (Do p :: Do q :: k)
  | Do (Or p q) :: k, L => Some (Do p :: k)
  | Do (Or p q) :: k, R => Some (Do q :: k)
  | Do (Star p) :: k, L => Some k
  | Do (Star p) :: k, R => Some (Do p :: Do (Star p) :: k)
  | Do (Any f) :: k, O n => Some (Do (f n) :: k)
  | Do (Or p q) :: k, T n => Some (map Rel (scopes (firstn n k)) ++ skipn n k)
  | _, _ => None
  end.

Fixpoint run (st : sys) (cs : list (nat * choice)) : option sys :=
  match cs with
  | [] => Some st
  | (i, c) :: cs =>
      match nth_error st i with
      | Some k =>
          match exec st k c with
          | Some k' => run (firstn i st ++ k' :: skipn (S i) st) cs
          | None => None
          end
      | None => None
      end
  end.

Lemma freeb_free m st : freeb m st = true -> free m st.
Proof.
  unfold freeb. rewrite forallb_forall. intros Hf k Hk Hm. specialize (Hf k Hk).
  destruct (in_dec mtx_eq_dec m (held k)); [discriminate|contradiction].
Qed.

Lemma exec_step E H st k c k' :
  (forall p, c = Call p -> E p /\ H p) -> exec st k c = Some k' ->
  tstep E H (fun m => free m st) k k'.
Proof.
  intros HC Hx.
  destruct k as [|[p|m|m] k]; [|destruct p| |]; destruct c; cbn in Hx; try discriminate;
    try (destruct (freeb _ _) eqn:Hf; [apply freeb_free in Hf|discriminate]);
    injection Hx as <-; try (constructor; auto; fail).
  - constructor. now apply HC.
  - constructor. now apply HC.
  - rewrite <- (firstn_skipn n k) at 1. now apply t_throw.
Qed.

Lemma run_reach E H cs : forall st st',
  (forall i p, In (i, Call p) cs -> E p /\ H p) ->
  reach E H st -> run st cs = Some st' -> reach E H st'.
Proof.
  induction cs as [|[i c] cs IH]; cbn; intros st st' HC Hr Hx.
  - now injection Hx as <-.
  - destruct (nth_error st i) as [k|] eqn:Hk; [|discriminate].
    destruct (exec st k c) as [k'|] eqn:He; [|discriminate].
    eapply IH; [|eapply r_step; [exact Hr|]|exact Hx].
    + intros j p Hp. apply (HC j). auto.
    + eapply s_thread; [exact Hk|]. eapply exec_step; [|exact He].
      intros p ->. apply (HC i). auto.
Qed.

Lemma spawned E H n : reach E H (repeat [] n).
Proof.
  induction n as [|n IH]; [constructor|].
  replace (repeat [] (S n)) with (repeat (@nil item) n ++ [[]]).
  - eapply r_step; [exact IH|constructor].
  - symmetry. change (S n) with (1 + n). rewrite Nat.add_comm. now rewrite repeat_app.
Qed.

(* n steps without choice. *)
Definition d (i n : nat) : list (nat * choice) := repeat (i, D) n.

Ltac calls := cbn; intros ? ? Hin;
  repeat (destruct Hin as [Hin|Hin];
          [first [discriminate Hin | injection Hin as <- <-; split; repeat constructor]|]);
  destruct Hin.

Ltac runit cs n :=
  let r := eval vm_compute in (run (repeat [] n) cs) in
  match r with Some ?st => exists st end;
  split;
  [ eapply (run_reach _ _ cs (repeat [] n)); [calls|apply spawned|vm_compute; reflexivity]
  | ].

(* Thread 0 is in disk_queues::add_request; thread 1 wants to submit, too. *)
Example C102_case :
  exists st, reach (usual false false) (usual false false) st /\
    holds st 0 (Mtx CDq 0) /\ wants st 0 (Mtx CThread 5) /\
    wants st 1 (Mtx CDq 0) /\ ~ deadlock st [0; 1].
Proof.
  runit ([(0, Call (submit false 5)); (1, Call (submit false 6))] ++
         d 0 1 ++ [(0, L)] ++ d 0 3 ++ [(0, L)] ++ d 0 1 ++ [(0, L)] ++ d 0 1 ++
         d 1 1 ++ [(1, L)] ++ d 1 1)%list 2.
  assert (HR : forall st, reach (usual false false) (usual false false) st ->
                 reach (most false false) (most false false) st).
  { intros st. induction 1 as [|st st' _ IH Hs]; [constructor|].
    eapply r_step; [exact IH|]. destruct Hs as [i k k' Hk Ht|]; [|constructor].
    eapply s_thread; [exact Hk|]. destruct Ht; constructor; auto; now apply m_usual. }
  split; [eexists; split; [reflexivity|cbn; auto]|].
  split; [eexists; right; eexists; reflexivity|].
  split; [eexists; right; eexists; reflexivity|].
  intros [_ HD]. destruct (HD 0) as (m & j & Hw & Hj & Hh); [now left|].
  assert (m = Mtx CThread 5) as ->.
  { destruct Hw as (k & [A|[p A]]); cbn in A; congruence. }
  destruct Hh as (k & Hk & Hm).
  destruct Hj as [<-|[<-|[]]]; cbn in Hk; injection Hk as <-; cbn in Hm;
    repeat (destruct Hm as [Hm|Hm]; [discriminate|]); exact Hm.
Qed.

(* A worker thread up to the point where it is in the completion handler of
   a request whose transfer failed. *)
Definition to_handler (i q : nat) : list (nat * choice) :=
  ([(i, Call (qwqr_worker false q))] ++ d i 1 ++ [(i, R)] ++ d i 2 ++ [(i, L)] ++
   d i 2 ++ [(i, L)] ++ d i 4 ++ [(i, L); (i, O 0); (i, O 0)] ++ d i 1 ++ [(i, T 0)] ++
   d i 5 ++ [(i, R)])%list.

(* "Handlers may call the library": not from cancel of a posted linuxaio
   request, which calls the handler with waiting_mtx_ locked; a handler that
   submits to the same queue waits for itself. *)
Theorem C102_aio_handler_refuted :
  exists st, reach (every_aio false false) (every_aio false false) st /\
             deadlock st [0].
Proof.
  runit ([(0, Call (get_dq false ;; dq_other ;; aio_cancel_posted false 0 0 0))] ++
         d 0 1 ++ [(0, L)] ++ d 0 5 ++ d 0 9 ++ d 0 1 ++ [(0, R)] ++ d 0 5 ++
         [(0, R); (0, O 0); (0, O 0)] ++ d 0 1 ++ [(0, L)] ++ d 0 2 ++ d 0 4 ++ [(0, R)] ++
         [(0, Call (submit false 0))] ++ d 0 1 ++ [(0, L)] ++ d 0 3 ++ [(0, L)] ++ d 0 1 ++
         [(0, R)] ++ d 0 5)%list 1.
  split; [discriminate|]. intros i [<-|[]].
  exists (Mtx CAio 0), 0. split; [eexists; right; eexists; reflexivity|].
  split; [now left|]. eexists; split; [reflexivity|cbn; auto].
Qed.
Print Assumptions C102_aio_handler_refuted.

Lemma stuck2 st m :
  idle st 0 -> holds st 0 m -> wants st 1 m -> length st = 2 ->
  idle st 0 /\ holds st 0 m /\ wants st 1 m /\ length st = 2 /\ forall i, ~ running st i.
Proof.
  intros HI HH HW HL. split; auto. split; auto. split; auto. split; auto.
  intros [|[|i]] (Hi & (x & k & Hk) & Hf).
  - exact (Hi HI).
  - exact (Hf _ HW 0 HH).
  - assert (S (S i) < length st) by (apply nth_error_Some; congruence). lia.
Qed.

(* "A thread that wants a mutex waits for a thread that goes on": not at the
   end of the process.  disk_queues' destructor joins the worker with mutex_
   locked; a completion handler on the worker that has begun to submit waits
   for mutex_ for ever. *)
Theorem C102_join_refuted :
  exists st, reach (every false false) (every false false) st /\
    idle st 0 /\ holds st 0 (Mtx CDq 0) /\ wants st 1 (Mtx CDq 0) /\
    length st = 2 /\ forall i, ~ running st i.
Proof.
  runit (to_handler 1 0 ++ [(1, Call (submit false 0))] ++ d 1 1 ++ [(1, L)] ++ d 1 1 ++
         [(0, Call (run_exit false)); (0, R); (0, R); (0, R); (0, L)] ++ d 0 2 ++
         [(0, R); (0, O 0); (0, L)] ++ d 0 13)%list 2.
  apply stuck2.
  - eexists; right; reflexivity.
  - eexists; split; [reflexivity|cbn; auto].
  - eexists; right; eexists; reflexivity.
  - reflexivity.
Qed.
Print Assumptions C102_join_refuted.

(* ... nor while block_manager is constructed for a disk that keeps a file
   per block: the constructor, with the singleton's mutex locked, waits for a
   write to the lock file.  If the worker that should serve it is in a
   completion handler that asks for the block_manager, neither goes on. *)
Theorem C102_constructor_refuted :
  exists st, reach (usual false true) (usual false true) st /\
    idle st 0 /\ holds st 0 (Mtx (CSing SBm) 0) /\ wants st 1 (Mtx (CSing SBm) 0) /\
    length st = 2 /\ forall i, ~ running st i.
Proof.
  runit (to_handler 1 0 ++ [(1, Call (get_bm false true)); (1, R)] ++
         [(0, Call (get_bm false true)); (0, R)] ++ d 0 1 ++ [(0, R)] ++ d 0 2 ++
         [(0, L)] ++ d 0 1 ++ [(0, R)] ++ d 0 2 ++ [(0, L)] ++ d 0 3 ++ [(0, L)] ++
         d 0 4 ++ [(0, R); (0, O 0); (0, O 0); (0, O 1)] ++ d 0 1 ++ [(0, R)] ++ d 0 2 ++
         [(0, L)] ++ d 0 5 ++ [(0, L)] ++ d 0 2 ++ [(0, L)] ++ d 0 3 ++ [(0, L)] ++
         d 0 3 ++ [(0, L)] ++ d 0 1 ++ [(0, L)] ++ d 0 5 ++ [(0, L)] ++ d 0 1 ++
         [(0, L)] ++ d 0 8 ++ d 0 1 ++ [(0, L)] ++ d 0 3 ++ [(0, R)] ++ d 0 1)%list 2.
  apply stuck2.
  - eexists; left; eexists; reflexivity.
  - eexists; split; [reflexivity|cbn; auto].
  - eexists; right; eexists; reflexivity.
  - reflexivity.
Qed.
Print Assumptions C102_constructor_refuted.

(* ... nor during cancel: the queue takes back its token, and may have to
   wait for it, while disk_queues' mutex_ is locked, so that requests to all
   other disks wait, too. *)
Theorem C102_cancel_refuted :
  exists st, reach (most false false) (most false false) st /\
    idle st 0 /\ holds st 0 (Mtx CDq 0) /\ wants st 1 (Mtx CDq 0) /\
    exists k, nth_error st 1 = Some (Do (dq_add 7) :: k).
Proof.
  runit ([(0, Call (req_cancel false 0 0)); (1, Call (submit false 7))] ++
         d 1 1 ++ [(1, L)] ++ d 1 1 ++
         d 0 1 ++ [(0, L)] ++ d 0 3 ++ [(0, R)] ++ d 0 5 ++ [(0, L)] ++ d 0 3 ++
         [(0, R)] ++ d 0 1 ++ [(0, R)] ++ d 0 1)%list 2.
  split; [eexists; left; eexists; reflexivity|].
  split; [eexists; split; [reflexivity|cbn; auto]|].
  split; [eexists; right; eexists; reflexivity|].
  eexists. reflexivity.
Qed.
Print Assumptions C102_cancel_refuted.
