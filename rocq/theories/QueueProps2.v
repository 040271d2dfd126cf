(** Properties C21, C22, C23 and C25 of requests and request queues. *)
From Coq Require Import List Bool PeanoNat Lia.
From Verif Require Import QueueModel QueueSpec QueueProofs QueueLife QueueTrace QueueClients QueueMain QueueRun QueueTokens QueueProgress QueueFifo QueueAny.
Import ListNotations.

(** ** C21 *)
Lemma words_in : forall k n s r, qreachable k n s ->
  exists w, word r (loc r (st_log s)) w /\ forall e, In e w -> In e (trace s).
Proof.
  intros k n s r R. exists (filter (about r) (trace s)). split.
  - eapply reach_word. eapply linv_reachable; eauto.
  - intros e X. apply filter_In in X. tauto.
Qed.

Theorem C21_accounted_for : forall k n s r, qreachable k n s -> In (EPush r) (trace s) ->
  In r (st_rq s ++ st_wq s) \/ In (EPop r) (trace s) \/ cancelled r (trace s).
Proof.
  intros k n s r R P. pose proof (linv_reachable _ _ _ R) as L. rewrite in_trace in P.
  pose proof (push_loc _ _ _ L P) as B. destruct (words_in _ _ _ r R) as (w & W & G). unfold cancelled.
  destruct (loc r (st_log s)) as [|c0| | |c0|o st|o|] eqn:LO; cbn in B; try tauto.
  - left. destruct (own_queued _ _ _ L LO) as (v & q & A & _). apply in_app_iff. destruct v; cbn in A; auto.
  - right; left. words W. apply G; cbn; auto.
  - right; right. words W. eexists; apply G; cbn; auto.
  - right. destruct o as [c'|]; destruct st; words W; [right|right|right|right|right|left|left|left|left|left];
      try eexists; apply G; cbn; auto.
  - right. destruct o as [c'|]; words W; unfold served_life, cancelled_life in G; [right; eexists|left]; apply G; cbn; auto.
Qed.
Print Assumptions C21_accounted_for.

(** While the queue runs: semaphore value, plus the token in the hand of the
    worker, plus the submissions that have not signalled yet, is the number of
    queued requests plus the cancelled ones whose token is still to be taken. *)
Theorem C21_semaphore_counts : forall k n s, qreachable k n s -> st_ts s = RUNNING ->
  st_sem s + match st_wpc s with WLock | WSignal => 1 | _ => 0 end + clients_at signalling s =
  queued s + clients_at taking s.
Proof.
  intros k n s R RUN. destruct (tinv_reachable _ _ _ R) as [TE TS TT]. rewrite RUN in *. cbn in TS.
  destruct (st_wpc s); cbn in *; try tauto; lia.
Qed.
Print Assumptions C21_semaphore_counts.

Theorem C21_worker_never_asleep : forall k n s, qreachable k n s -> st_ts s = RUNNING ->
  clients_at signalling s = 0 -> 0 < queued s -> exists s', wstep k s s'.
Proof.
  intros k n s R RUN SG Q. pose proof (C21_semaphore_counts _ _ _ R RUN) as E.
  pose proof (linv_reachable _ _ _ R) as L. destruct (tinv_reachable _ _ _ R) as [_ _ TT]. rewrite RUN in TT.
  assert (D : (exists s', wstep k s s') \/ (forall s', ~ wstep k s s')).
  { assert (RQ : forall r p, own s r p -> exists q, nth_error (st_reqs s) r = Some q).
    { intros r p O. destruct (nth_error (st_reqs s) r) eqn:X; eauto. apply (l_dom k s L) in X.
      rewrite (l_own k s L _ _ O) in X. subst. exfalso. remember PNone as p0 eqn:Ep. destruct O as [p A | c pc p A B | w A].
      - destruct (st_wpc s); cbn in A; congruence.
      - destruct pc; cbn in B; congruence.
      - discriminate. }
    destruct (st_wpc s) eqn:W; try tauto.
    - destruct (st_sem s) eqn:S0; [right|left].
      + intros s' T. destruct T; try congruence. lia.
      + eexists. apply w_wait; auto. lia.
    - left. destruct (queue (st_phase s) s) eqn:QQ; eexists; [apply w_empty | eapply w_pop]; eauto.
    - left. destruct (RQ r PServe) as (q & HQ); [apply own_w; rewrite W; reflexivity|].
      eexists. apply w_serve with (ok := true); eauto.
    - left. destruct (RQ r (PFin None s0)) as (q & HQ); [apply own_w; rewrite W; reflexivity|].
      destruct (next_stage s0) eqn:NS; [eexists; eapply w_fin; eauto|].
      destruct s0; try discriminate. eexists. eapply w_ready; eauto.
    - left. eexists. apply w_signal; auto.
    - left. eexists. apply w_check_run; auto. congruence. }
  destruct D as [D|N]; auto. exfalso.
  destruct (worker_stuck _ _ L N) as [(W & S0)|[(W & S0)|W]]; rewrite W in *; try tauto.
  rewrite S0, SG in E. lia.
Qed.
Print Assumptions C21_worker_never_asleep.

Lemma wstep_no_erase : forall k s s' c r, wstep k s s' -> In (EErase c r) (st_log s') -> In (EErase c r) (st_log s).
Proof.
  intros k s s' c r T I. destruct T; cbn in I; auto; try (destruct I as [I|I]; [discriminate|auto]; fail).
  - destruct (st_phase s); cbn in I; destruct I as [I|I]; auto; discriminate.
  - rewrite complete_log in I. destruct I as [I|I]; auto. exfalso.
    destruct st; cbn in I; try discriminate. destruct (q_handler q); discriminate.
Qed.

(** If only the worker moves it runs for a bounded number of steps, and when it
    cannot move any more it has transferred and completed everything that was
    queued. *)
Theorem C21_worker_serves_everything : forall k n s m s', qreachable k n s -> st_ts s = RUNNING ->
  clients_at signalling s = 0 -> clients_at taking s = 0 -> wsteps k m s s' ->
  m <= 40 * queued s + 35 /\
  ((forall s'', ~ wstep k s' s'') ->
   queued s' = 0 /\
   forall r, In r (st_rq s ++ st_wq s) -> transferred r (trace s') /\ completed r (trace s')).
Proof.
  intros k n s m s' R RUN SG TK T. pose proof (linv_reachable _ _ _ R) as L. pose proof (tinv_reachable _ _ _ R) as TI.
  destruct (running_bound _ _ _ _ L TI RUN TK SG T) as (B & RUN' & TI' & L'). split.
  - assert (mu_run s <= 40 * queued s + 35); [|lia].
    unfold mu_run. assert (rank_run (st_wpc s) <= 15) by (destruct (st_wpc s) as [| |r|r st| | | | | |]; cbn; try lia; destruct st; lia).
    destruct (is_nil _); lia.
  - intros N. assert (R' : qreachable k n s') by (eapply steps_app; [exact R | eapply wsteps_steps; eauto]).
    pose proof (wsteps_clients _ _ _ _ T) as CL.
    assert (W : st_wpc s' = WWait /\ st_sem s' = 0).
    { pose proof (t_ts _ TI') as X. rewrite RUN' in X.
      destruct (worker_stuck _ _ L' N) as [W|[(W & _)|W]]; auto; rewrite W in X; destruct X. }
    destruct W as (W & S0).
    assert (Q0 : queued s' = 0).
    { pose proof (C21_semaphore_counts _ _ _ R' RUN') as E. rewrite W, S0 in E. unfold clients_at in *. rewrite CL, SG, TK in E. lia. }
    split; auto. intros r I.
    assert (LQ : loc r (st_log s) = PQueued).
    { apply in_app_iff in I. destruct I as [I|I]; [apply (queue_loc k s r false)|apply (queue_loc k s r true)]; auto. }
    assert (NE : forall c, ~ In (EErase c r) (st_log s')).
    { intros c X. assert (Y : In (EErase c r) (st_log s)).
      { clear - T X. induction T; auto. eapply wstep_no_erase; eauto. }
      assert (E : taken (loc r (st_log s))) by (eapply erased_loc; eauto; apply erased_in; eauto). rewrite LQ in E. destruct E. }
    assert (P : In (EPush r) (st_log s')).
    { assert (P : In (EPush r) (st_log s)) by (eapply (word_in k s r); eauto; intros w X; words X; cbn; auto).
      clear - P T. induction T; auto. apply IHT.
      destruct (one_event _ _ _ (step_worker _ _ _ H)) as [E|(e & E)]; rewrite E; [auto|right; auto]. }
    pose proof (push_loc _ _ _ L' P) as B'.
    assert (E : loc r (st_log s') = PEnd None).
    { assert (NA : ~ active (loc r (st_log s'))).
      { intros A. apply (l_act k s' L') in A. remember (loc r (st_log s')) as p eqn:Ep. destruct A as [p A | c pc p A C | w A].
        - rewrite W in A. discriminate.
        - rewrite CL in A. assert (own s r p) by (eapply own_c; eauto). apply (l_own k s L) in H. rewrite LQ in H. clear Ep.
          destruct pc; cbn in C; congruence.
        - unfold queued in Q0. destruct w; cbn in A; [destruct (st_wq s')|destruct (st_rq s')]; cbn in *; try lia; auto. }
      destruct (loc r (st_log s')) as [|c0| | |c0|o st|o|] eqn:LO; cbn in B', NA; try tauto.
      destruct o as [c|]; auto. exfalso. apply (NE c). eapply (word_in k s' r); eauto. intros w X. words X. unfold cancelled_life; cbn; auto. }
    destruct (words_in _ _ _ r R') as (w & X & G). rewrite E in X. words X. unfold served_life in G. split.
    + eexists. apply G. cbn. auto 10.
    + apply G. cbn. auto 12.
Qed.
Print Assumptions C21_worker_serves_everything.

Definition run21 : list move := submit 0 Read true ++ submit 1 Write false ++ submit 0 Read false.
Example C21_case :
  possible (QwQr PWrite) 2 run21 = true /\
  queued (after (QwQr PWrite) 2 run21) = 3 /\ st_sem (after (QwQr PWrite) 2 run21) = 3 /\
  clients_at signalling (after (QwQr PWrite) 2 run21) = 0 /\ clients_at taking (after (QwQr PWrite) 2 run21) = 0 /\
  possible (QwQr PWrite) 2 (run21 ++ Ws 35) = true /\
  st_wpc (after (QwQr PWrite) 2 (run21 ++ Ws 35)) = WWait /\ st_sem (after (QwQr PWrite) 2 (run21 ++ Ws 35)) = 0 /\
  pops (trace (after (QwQr PWrite) 2 (run21 ++ Ws 35))) = [1; 0; 2].
Proof. vm_compute. auto 20. Qed.

(** ** C22 *)
(** Requests of the same direction are taken in submission order, cancelled
    ones left out. *)
Theorem C22_fifo_per_direction : forall k n s a b qa qb, qreachable k n s ->
  before (EPush a) (EPush b) (trace s) ->
  nth_error (st_reqs s) a = Some qa -> nth_error (st_reqs s) b = Some qb -> q_op qa = q_op qb ->
  In (EPop b) (trace s) ->
  before (EPop a) (EPop b) (trace s) \/ exists c, before (EErase c a) (EPop b) (trace s).
Proof. intros k n s a b qa qb R B QA QB E P. eapply served_in_order; eauto. rewrite E. reflexivity. Qed.
Print Assumptions C22_fifo_per_direction.

(** The one-list queue keeps the order of all requests. *)
Theorem C22_one_queue_fifo : forall n s a b, qreachable OneQ n s ->
  before (EPush a) (EPush b) (trace s) -> In (EPop b) (trace s) ->
  before (EPop a) (EPop b) (trace s) \/ exists c, before (EErase c a) (EPop b) (trace s).
Proof.
  intros n s a b R B P. pose proof (linv_reachable _ _ _ R) as L.
  assert (X : forall r, In (EPush r) (trace s) -> exists q, nth_error (st_reqs s) r = Some q).
  { intros r I. rewrite in_trace in I. apply (push_loc _ _ _ L) in I.
    destruct (nth_error (st_reqs s) r) eqn:E; eauto. apply (l_dom _ s L) in E. rewrite E in I. destruct I. }
  destruct (before_in _ _ _ B) as (IA & IB). destruct (X _ IA) as (qa & QA), (X _ IB) as (qb & QB).
  eapply served_in_order; eauto.
Qed.
Print Assumptions C22_one_queue_fifo.

(** In the disk queues (two lists, writes first), as long as nothing is
    cancelled and the queue is not being shut down, a read is never taken
    before a write that was submitted earlier. *)
Theorem C22_read_never_overtakes_write : forall n s a b qa qb, qreachable (QwQr PWrite) n s ->
  (forall c r, ~ In (EErase c r) (trace s)) -> ~ In ETerminate (trace s) ->
  before (EPush a) (EPush b) (trace s) ->
  nth_error (st_reqs s) a = Some qa -> nth_error (st_reqs s) b = Some qb ->
  q_op qa = Write -> q_op qb = Read ->
  In (EPop b) (trace s) -> before (EPop a) (EPop b) (trace s).
Proof. intros. eapply writes_first; eauto. split; auto. Qed.
Print Assumptions C22_read_never_overtakes_write.

(** A case of the three theorems: submissions R W W R R, taken W W R R R. *)
Definition run22 : list move :=
  submit 0 Read true ++ submit 0 Write true ++ submit 1 Write true ++ submit 0 Read true ++ submit 1 Read false.
Example C22_case :
  possible (QwQr PWrite) 2 (run22 ++ Ws 55) = true /\
  pushes (trace (after (QwQr PWrite) 2 (run22 ++ Ws 55))) = [0; 1; 2; 3; 4] /\
  pops (trace (after (QwQr PWrite) 2 (run22 ++ Ws 55))) = [1; 2; 0; 3; 4] /\
  pops (trace (after OneQ 2 (run22 ++ Ws 45))) = [0; 1; 2; 3; 4].
Proof. vm_compute. auto. Qed.

(** A later write overtakes an earlier read. *)
Theorem C22_write_never_overtakes_read_refuted :
  exists s qa qb, qreachable (QwQr PWrite) 1 s /\ before (EPush 0) (EPush 1) (trace s) /\
    nth_error (st_reqs s) 0 = Some qa /\ nth_error (st_reqs s) 1 = Some qb /\
    q_op qa = Read /\ q_op qb = Write /\ In (EPop 1) (trace s) /\ ~ In (EPop 0) (trace s).
Proof.
  exists (after (QwQr PWrite) 1 (submit 0 Read false ++ submit 0 Write false ++ Ws 2)).
  exists (new_req Read false), (new_req Write false).
  split; [apply after_reachable|]. split.
  - exists [ECreate 0 0], [ECreate 0 1], [EPop 1]. vm_compute. reflexivity.
  - vm_compute. intuition discriminate.
Qed.
Print Assumptions C22_write_never_overtakes_read_refuted.

(** With a cancellation a later read overtakes an earlier write: request 0 is a
    read that is cancelled while the worker is in the read phase, 1 is a write,
    2 a read submitted after it. *)
Theorem C22_read_never_overtakes_write_refuted :
  exists s qa qb, qreachable (QwQr PWrite) 1 s /\ before (EPush 1) (EPush 2) (trace s) /\
    nth_error (st_reqs s) 1 = Some qa /\ nth_error (st_reqs s) 2 = Some qb /\
    q_op qa = Write /\ q_op qb = Read /\ In (EPop 2) (trace s) /\
    ~ In (EPop 1) (trace s) /\ ~ In ETerminate (trace s).
Proof.
  exists (after (QwQr PWrite) 1 (submit 0 Read false ++ Ws 3 ++ Cancel 0 [0] :: Cs 0 10 ++
                                 submit 0 Write false ++ submit 0 Read false ++ Ws 3)).
  exists (new_req Write false), (new_req Read false).
  split; [apply after_reachable|]. split.
  - exists (firstn 11 (trace (after (QwQr PWrite) 1 (submit 0 Read false ++ Ws 3 ++ Cancel 0 [0] :: Cs 0 10 ++
                                 submit 0 Write false ++ submit 0 Read false ++ Ws 3)))), [ECreate 0 2], [EPop 2].
    vm_compute. reflexivity.
  - vm_compute. intuition discriminate.
Qed.
Print Assumptions C22_read_never_overtakes_write_refuted.

(** ** C23 *)
(** [quiet s]: no client is in the middle of a submission or a cancellation. *)

(** After the stop signal the worker, moving alone, terminates: its runs are
    bounded and it only stops when it has left its loop. *)
Theorem C23_worker_terminates : forall k n s m s', qreachable k n s -> st_ts s = TERMINATING ->
  In EStopSignal (trace s) -> quiet s -> wsteps k m s s' ->
  m <= 40 * queued s + 39 /\
  ((forall s'', ~ wstep k s' s'') -> st_wpc s' = WStopped).
Proof.
  intros k n s m s' R TS SS Q T. pose proof (linv_reachable _ _ _ R) as L. pose proof (tinv_reachable _ _ _ R) as TI.
  destruct (quiet_zero _ Q) as (TK & SG).
  assert (ST : stops s = 1).
  { pose proof (t_stop _ TI) as X. rewrite TS in X. cbn in X. rewrite in_trace in SS.
    assert (0 < stops s); [|lia]. unfold stops.
    assert (J : In EStopSignal (filter is_stop (st_log s))) by (apply filter_In; auto).
    destruct (filter is_stop (st_log s)); [destruct J | cbn; lia]. }
  destruct (term_bound _ _ _ _ L TI (or_introl TS) ST TK SG T) as (B & TS' & TI' & L' & ST'). split.
  - assert (mu_term s <= 40 * queued s + 39); [|lia].
    unfold mu_term. assert (rank_term (queued s =? 0) (st_wpc s) <= 19).
    { destruct (st_wpc s) as [| |r|r st| | | | | |]; cbn; try lia; try (destruct st; lia); destruct (queued s =? 0); lia. }
    destruct (is_nil _); lia.
  - intros N. pose proof (t_eq _ TI') as E. pose proof (wsteps_clients _ _ _ _ T) as CL. unfold clients_at in *. rewrite CL in E.
    destruct (worker_stuck _ _ L' N) as [(W & S0)|[(W & S0)|W]]; auto; rewrite W, S0 in E; cbn in E; lia.
Qed.
Print Assumptions C23_worker_terminates.

(** When the worker leaves its loop and no client is in the middle of a
    submission or cancellation, at most one request is left in the queue, and
    none is left exactly if the stop signal came first. *)
Theorem C23_left_behind : forall k n s s', qreachable k n s -> step k s s' ->
  trace s' = trace s ++ [EBreak] -> quiet s ->
  queued s' <= 1 /\ (queued s' = 0 <-> In EStopSignal (trace s)).
Proof.
  intros k n s s' R T E Q. pose proof (tinv_reachable _ _ _ R) as TI. destruct (quiet_zero _ Q) as (TK & SG).
  assert (EL : st_log s' = EBreak :: st_log s).
  { unfold trace in E. apply (f_equal (@rev event)) in E. rewrite rev_involutive, rev_app_distr, rev_involutive in E. exact E. }
  destruct (ev_break _ _ _ T EL) as (W & S0 & ->). pose proof (t_eq _ TI) as X. rewrite W, S0, TK, SG in X. cbn in X.
  change (queued (emit EBreak (set_wpc WTermSet (set_sem 0 s)))) with (queued s).
  split; [lia|]. rewrite in_trace. unfold stops in X. split.
  - intros Z. destruct (filter is_stop (st_log s)) as [|e l] eqn:F; [cbn in X; lia|].
    assert (J : In e (filter is_stop (st_log s))) by (rewrite F; left; auto). apply filter_In in J. destruct J as (J & K).
    destruct e; try discriminate. auto.
  - intros J. assert (J' : In EStopSignal (filter is_stop (st_log s))) by (apply filter_In; auto).
    destruct (filter is_stop (st_log s)); [destruct J' | cbn in X; lia].
Qed.
Print Assumptions C23_left_behind.

(** If the queue is empty and quiet when the shutdown begins, it stays empty:
    every submitted request has been taken by the worker or cancelled. *)
Theorem C23_empty_shutdown_leaves_nothing : forall k n s s', qreachable k n s -> st_ts s <> RUNNING ->
  quiet s -> queued s = 0 -> steps k s s' ->
  queued s' = 0 /\ forall r, In (EPush r) (trace s') -> In (EPop r) (trace s') \/ cancelled r (trace s').
Proof.
  intros k n s s' R N Q E T. destruct (quiet_steps _ _ _ T N Q) as (_ & _ & SUB).
  assert (Z : forall w, queue w s' = []).
  { intros w. destruct (queue w s') as [|r l] eqn:F; auto. exfalso.
    assert (I : In r (queue w s)) by (apply SUB; rewrite F; left; auto).
    unfold queued in E. destruct w; cbn in I; [destruct (st_wq s)|destruct (st_rq s)]; cbn in *; try lia; auto. }
  pose proof (Z true) as Z1. pose proof (Z false) as Z2. cbn in Z1, Z2. split.
  - unfold queued. rewrite Z1, Z2. reflexivity.
  - intros r P. assert (R' : qreachable k n s') by (eapply steps_app; eauto).
    destruct (C21_accounted_for _ _ _ _ R' P) as [I|I]; auto. rewrite Z1, Z2 in I. destruct I.
Qed.
Print Assumptions C23_empty_shutdown_leaves_nothing.

(** A request that is still queued when the worker has stopped is never
    completed. *)
Theorem C23_abandoned_forever : forall k n s s' r, qreachable k n s -> st_wpc s = WStopped -> quiet s ->
  In r (st_rq s ++ st_wq s) -> steps k s s' -> ~ transferred r (trace s') /\ ~ completed r (trace s').
Proof.
  intros k n s s' r R W Q I T. pose proof (tinv_reachable _ _ _ R) as TI.
  assert (N : st_ts s <> RUNNING) by (intros X; pose proof (t_ts _ TI) as Y; rewrite X, W in Y; exact Y).
  destruct (abandoned _ _ _ T N Q W) as (_ & E1 & E2).
  assert (R' : qreachable k n s') by (eapply steps_app; eauto). pose proof (linv_reachable _ _ _ R') as L'.
  assert (LQ : loc r (st_log s') = PQueued).
  { rewrite <- E1, <- E2 in I. apply in_app_iff in I. destruct I as [I|I];
      [apply (queue_loc k s' r false)|apply (queue_loc k s' r true)]; auto. }
  pose proof (reach_word k s' r L') as X. rewrite LQ in X. words X. unfold transferred, completed.
  assert (G : forall e, about r e = true -> In e (trace s') -> In e [ECreate x r; EPush r]).
  { intros e A B. rewrite <- H. apply filter_In. auto. }
  split.
  - intros (ok & B). apply G in B; [|cbn; apply Nat.eqb_refl]. cbn in B. intuition discriminate.
  - intros B. apply G in B; [|cbn; apply Nat.eqb_refl]. cbn in B. intuition discriminate.
Qed.
Print Assumptions C23_abandoned_forever.

(** That happens: request 1 is submitted while the worker finishes request 0;
    the worker sees TERMINATING before the stop signal and takes the token of
    request 1 for it.  stop_thread returns normally. *)
Definition run23 : list move :=
  submit 0 Write true ++ Ws 8 ++ submit 0 Write true ++ Stop 1 :: Cs 1 1 ++ Ws 3 ++ Cs 1 2.
Theorem C23_shutdown_serves_everything_refuted : exists s, qreachable (QwQr PWrite) 2 s /\
  In (EPush 1) (trace s) /\ st_ts s = NOT_RUNNING /\ st_clients s = [CIdle; CIdle] /\
  forall s', steps (QwQr PWrite) s s' -> ~ transferred 1 (trace s') /\ ~ completed 1 (trace s').
Proof.
  assert (R : qreachable (QwQr PWrite) 2 (after (QwQr PWrite) 2 run23)) by apply after_reachable.
  assert (C : st_clients (after (QwQr PWrite) 2 run23) = [CIdle; CIdle]) by (vm_compute; reflexivity).
  exists (after (QwQr PWrite) 2 run23). split; [exact R|].
  split; [vm_compute; auto 20|]. split; [vm_compute; auto|]. split; [exact C|].
  intros s' T. apply (C23_abandoned_forever _ _ _ _ 1 R); auto.
  - intros [|[|c]] pc X; rewrite C in X; cbn in X; try (injection X as <-; reflexivity). destruct c; discriminate.
  - vm_compute. auto.
Qed.
Print Assumptions C23_shutdown_serves_everything_refuted.

(** Cases: stop signal first, with two requests queued: both are served. *)
Definition run23b : list move :=
  submit 0 Write true ++ submit 0 Read true ++ Stop 1 :: Cs 1 2.
Example C23_case :
  possible (QwQr PWrite) 2 run23 = true /\
  possible (QwQr PWrite) 2 (run23b ++ Ws 28) = true /\
  st_ts (after (QwQr PWrite) 2 run23b) = TERMINATING /\ In EStopSignal (trace (after (QwQr PWrite) 2 run23b)) /\
  st_clients (after (QwQr PWrite) 2 run23b) = [CIdle; CStop2] /\ queued (after (QwQr PWrite) 2 run23b) = 2 /\
  st_wpc (after (QwQr PWrite) 2 (run23b ++ Ws 28)) = WStopped /\
  queued (after (QwQr PWrite) 2 (run23b ++ Ws 28)) = 0 /\
  pops (trace (after (QwQr PWrite) 2 (run23b ++ Ws 28))) = [0; 1].
Proof. vm_compute. auto 20. Qed.

(** ** C25 *)
(** A request that wait_any returns is one of the range, has finished and did
    not fail. *)
Theorem C25_returns_finished_request : forall k n s c rs r sp l1 l2, qreachable k n s ->
  trace s = l1 ++ EAnyRet c rs (Some r) sp :: l2 ->
  In r rs /\ In (EDone r) l1 /\ ~ failed r l1.
Proof.
  intros k n s c rs r sp l1 l2 R E.
  destruct (trace_split _ _ _ _ _ _ R E) as (s1 & s2 & R1 & T & EL & E1 & T2).
  destruct (inv_reachable _ _ _ R1) as (L1 & ER1 & CI1).
  assert (G : In r rs /\ good_fin (st_log s1) r).
  { destruct (ev_any_ret _ _ _ _ _ _ _ T EL) as [(sw & r' & q & HC & X & _)|(sw & HC)]; apply CI1 in HC; cbn in HC.
    - injection X as ->. tauto.
    - tauto. }
  destruct G as (I & F & NF). subst l1. split; auto. unfold failed. rewrite !in_trace. split; auto.
  destruct (loc r (st_log s1)) as [|c0| | |c0|o st|o|] eqn:LO; cbn in F; try tauto.
  - eapply (word_in k s1 r); eauto. intros w W. destruct o, st; try tauto; words W; cbn; auto 10.
  - eapply (word_in k s1 r); eauto. intros w W. destruct o; words W; unfold served_life, cancelled_life; cbn; auto 10.
Qed.
Print Assumptions C25_returns_finished_request.

(** Only a spurious wakeup makes wait_any return the end of the range. *)
Theorem C25_end_only_if_spurious : forall k n s c rs sp l1 l2, qreachable k n s ->
  trace s = l1 ++ EAnyRet c rs None sp :: l2 -> sp = true.
Proof.
  intros k n s c rs sp l1 l2 R E.
  destruct (trace_split _ _ _ _ _ _ R E) as (s1 & s2 & R1 & T & EL & E1 & T2).
  pose proof (ainv_reachable _ _ _ R1) as AI.
  destruct (ev_any_ret _ _ _ _ _ _ _ T EL) as [(sw & r' & q & HC & X & _)|(sw & HC)]; [discriminate|].
  destruct sp; auto. exfalso. pose proof (a_scan s1 AI c _ (eq_trans (av_at _ _ _ HC) eq_refl)) as X. cbn in X.
  destruct X as (r & [] & _).
Qed.
Print Assumptions C25_end_only_if_spurious.

(** No lost wakeup: a client in wait_any that has registered its switch with
    all requests is blocked (its switch is off) only if none of them has
    notified its waiters; and if one has, the client can move. *)
Theorem C25_no_lost_wakeup : forall k n s c rs sw r, qreachable k n s ->
  nth_error (st_clients s) c = Some (CAnyWait rs sw) -> In r rs ->
  (exists d, In (ENotify r d) (trace s)) ->
  nth_error (st_sws s) sw = Some SwOn /\ exists s', cstep k c s s'.
Proof.
  intros k n s c rs sw r R HC I (d & N). pose proof (ainv_reachable _ _ _ R) as AI.
  destruct (a_hold s AI c _ sw rs r (eq_trans (av_at _ _ _ HC) eq_refl) eq_refl eq_refl I) as (_ & H).
  assert (ON : nth_error (st_sws s) sw = Some SwOn) by (apply H; exists d; rewrite <- in_trace; auto).
  split; auto. eexists. eapply c_any_woken; eauto.
Qed.
Print Assumptions C25_no_lost_wakeup.

(** ... and the switch is on only if one of them has. *)
Theorem C25_woken_means_notified : forall k n s c rs sw, qreachable k n s ->
  nth_error (st_clients s) c = Some (CAnyWait rs sw) -> nth_error (st_sws s) sw = Some SwOn ->
  exists r d, In r rs /\ In (ENotify r d) (trace s).
Proof.
  intros k n s c rs sw R HC ON. pose proof (ainv_reachable _ _ _ R) as AI.
  destruct (a_on s AI c _ sw rs (eq_trans (av_at _ _ _ HC) eq_refl) eq_refl eq_refl ON) as (r & I & (d & N)).
  exists r, d. rewrite in_trace. auto.
Qed.
Print Assumptions C25_woken_means_notified.

(** wait_any on an empty range is never woken. *)
Theorem C25_empty_range_never_woken : forall k n s c sw, qreachable k n s ->
  nth_error (st_clients s) c = Some (CAnyWait [] sw) -> nth_error (st_sws s) sw = Some SwOff.
Proof.
  intros k n s c sw R HC. pose proof (ainv_reachable _ _ _ R) as AI.
  destruct (a_alive s AI c _ sw [] (eq_trans (av_at _ _ _ HC) eq_refl) eq_refl) as [X|X]; auto.
  destruct (C25_woken_means_notified _ _ _ _ _ _ R HC X) as (r & d & [] & _).
Qed.
Print Assumptions C25_empty_range_never_woken.

(** Registrations are removed: if no wait_any is running and none has thrown,
    no request has a waiter. *)
Theorem C25_registrations_removed : forall k n s r q, qreachable k n s ->
  (forall c p, nth_error (st_clients s) c = Some p -> in_wait_any p = false) ->
  (forall c rs r, ~ In (EAnyThrow c rs r) (trace s)) ->
  nth_error (st_reqs s) r = Some q -> q_waiters q = [].
Proof.
  intros k n s r q R NC NT HQ. pose proof (ainv_reachable _ _ _ R) as AI.
  destruct (q_waiters q) as [|sw ws] eqn:E; auto. exfalso.
  assert (I : In sw (wt s r)) by (unfold wt; rewrite HQ, E; left; auto).
  destruct (a_reg s AI r sw I) as [(c & p & rs & A & B & C)|(_ & c & rs & r' & A)].
  - unfold av in A. destruct (nth_error (st_clients s) c) as [p'|] eqn:H; [|discriminate].
    apply NC in H. destruct p'; discriminate.
  - apply (NT c rs r'). rewrite in_trace. exact A.
Qed.
Print Assumptions C25_registrations_removed.

(** A destroyed switch is switched on only if some wait_any threw before. *)
Theorem C25_dead_switch_only_after_throw : forall k n s r l1 l2, qreachable k n s ->
  trace s = l1 ++ ENotify r true :: l2 -> exists c rs r', In (EAnyThrow c rs r') l1.
Proof.
  intros k n s r l1 l2 R E.
  destruct (trace_split _ _ _ _ _ _ R E) as (s1 & s2 & R1 & T & EL & E1 & T2).
  destruct (ev_notify_dead _ _ _ _ (linv_reachable _ _ _ R1) (ainv_reachable _ _ _ R1) T EL) as (c & rs & r' & X).
  exists c, rs, r'. rewrite <- E1, in_trace. exact X.
Qed.
Print Assumptions C25_dead_switch_only_after_throw.

(** It does happen then: request 0 fails, request 1 is pending; wait_any over
    [1; 0] throws and leaves its switch registered with request 1. *)
Theorem C25_no_dead_switch_refuted : exists s, qreachable (QwQr PWrite) 1 s /\ In (ENotify 1 true) (trace s).
Proof.
  exists (after (QwQr PWrite) 1 (submit 0 Write false ++ submit 0 Write false ++ Ws 2 ++ W false :: Ws 5 ++
            WaitAny 0 [1; 0] :: Cs 0 2 ++ Ws 7)).
  split; [apply after_reachable|]. vm_compute. auto 30.
Qed.
Print Assumptions C25_no_dead_switch_refuted.

(** A completion between registration and waiting, a completion found while
    registering, and a spurious wakeup. *)
Definition run25 : list move :=
  submit 0 Write false ++ submit 0 Read true ++ WaitAny 1 [1; 0] :: Cs 1 2 ++ Ws 6 ++ Cs 1 5 ++
  WaitAny 1 [1; 0] :: Cs 1 4 ++ WaitAny 1 [1] :: Cs 1 2 ++ [C 1 true] ++ Cs 1 2.
Example C25_case :
  possible (QwQr PWrite) 2 run25 = true /\
  In (EAnyRet 1 [1; 0] (Some 0) false) (trace (after (QwQr PWrite) 2 run25)) /\
  In (EAnyRet 1 [1] None true) (trace (after (QwQr PWrite) 2 run25)).
Proof. vm_compute. auto 30. Qed.
