(** Progress of the worker and shutdown. *)
From Coq Require Import List Bool PeanoNat Lia.
From Verif Require Import QueueModel QueueSpec QueueProofs QueueLife QueueTrace QueueClients QueueMain QueueTokens.
Import ListNotations.

(** When the worker cannot move. *)
Lemma worker_stuck : forall k s, linv k s -> (forall s', ~ wstep k s s') ->
  (st_wpc s = WWait /\ st_sem s = 0) \/ (st_wpc s = WTermWait /\ st_sem s = 0) \/ st_wpc s = WStopped.
Proof.
  intros k s L N.
  assert (RQ : forall r p, own s r p -> exists q, nth_error (st_reqs s) r = Some q).
  { intros r p O. destruct (nth_error (st_reqs s) r) as [q|] eqn:E; eauto.
    apply (l_dom k s L) in E. rewrite (l_own k s L _ _ O) in E. subst.
    exfalso. remember PNone as p0 eqn:Ep. destruct O as [p A | c pc p A B | w A].
    - destruct (st_wpc s); cbn in A; congruence.
    - destruct pc; cbn in B; congruence.
    - discriminate. }
  destruct (st_wpc s) eqn:W; auto.
  - destruct (st_sem s) eqn:S; auto. exfalso. eapply N. apply w_wait; auto. lia.
  - exfalso. destruct (queue (st_phase s) s) eqn:Q; eapply N; [apply w_empty | eapply w_pop]; eauto.
  - exfalso. destruct (RQ r PServe) as (q & Q); [apply own_w; rewrite W; reflexivity|].
    eapply N. apply w_serve with (ok := true); eauto.
  - exfalso. destruct (RQ r (PFin None s0)) as (q & Q); [apply own_w; rewrite W; reflexivity|].
    destruct (next_stage s0) eqn:NS.
    + eapply N. eapply w_fin; eauto.
    + destruct s0; try discriminate. eapply N. eapply w_ready; eauto.
  - exfalso. eapply N. apply w_signal; auto.
  - exfalso. destruct (st_ts s) eqn:T; eapply N;
      try (apply w_check_run; auto; congruence); apply w_check_term; auto.
  - right; left. destruct (st_sem s) as [|[|m]] eqn:S; auto; exfalso; eapply N;
      [apply w_term_break | apply w_term_more]; auto; lia.
  - exfalso. eapply N. apply w_term_signal; auto.
  - exfalso. eapply N. apply w_term_set; auto.
Qed.

Lemma wsteps_steps : forall k m s s', wsteps k m s s' -> steps k s s'.
Proof.
  intros k m s s' T. induction T; [apply steps_refl|].
  eapply step_steps; [apply step_worker; eauto | auto].
Qed.

Lemma wstep_clients : forall k s s', wstep k s s' -> st_clients s' = st_clients s.
Proof.
  intros k s s' T. destruct T; cbn; auto;
    rewrite ?(proj1 (proj2 (proj2 (proj2 (complete_frame _ _ _ _ _))))); auto;
    destruct (st_phase s); reflexivity.
Qed.

Lemma wsteps_clients : forall k m s s', wsteps k m s s' -> st_clients s' = st_clients s.
Proof. intros k m s s' T. induction T; auto. rewrite IHT. eapply wstep_clients; eauto. Qed.

Lemma wstep_stops : forall k s s', wstep k s s' -> stops s' = stops s.
Proof.
  intros k s s' T. unfold stops. destruct T; cbn; auto.
  - destruct (st_phase s); reflexivity.
  - rewrite complete_log. cbn. rewrite stage_not_stop. auto.
Qed.

(** The running worker: a bound on its steps. *)
Definition is_nil {A} (l : list A) : bool := match l with [] => true | _ => false end.

Definition rank_run (p : wpc) : nat :=
  match p with
  | WServe _ => 15
  | WFin _ SDone => 14 | WFin _ SHandler => 13 | WFin _ SNotify => 12 | WFin _ SRelease => 11 | WFin _ SReady => 10
  | WSignal => 7 | WCheck => 6 | WWait => 5 | WLock => 4
  | _ => 0
  end.

Definition mu_run (s : state) : nat :=
  40 * queued s + (if is_nil (queue (st_phase s) s) then 20 else 0) + rank_run (st_wpc s).

Lemma queued_phase : forall s b, queued s = length (queue b s) + length (queue (negb b) s).
Proof. unfold queued. intros s []; cbn; lia. Qed.

Lemma next_phase_flip : forall k s, linv k s -> queue (st_phase s) s = [] -> 0 < queued s ->
  next_phase k (st_phase s) false = negb (st_phase s).
Proof.
  intros k s L Q P. destruct k as [|p].
  - destruct (l_one _ s L eq_refl) as (A & B). rewrite B in Q. cbn in Q.
    unfold queued in P. rewrite A, Q in P. cbn in P. lia.
  - destruct p, (st_phase s); reflexivity.
Qed.

Lemma mu_run_dec : forall k s s', linv k s -> tinv s -> st_ts s = RUNNING ->
  clients_at taking s = 0 -> clients_at signalling s = 0 ->
  wstep k s s' -> mu_run s' < mu_run s.
Proof.
  intros k s s' L [TE TS TT] R T0 S0 T. rewrite R in TS, TT. cbn in TS. rewrite T0, S0 in TE.
  assert (ST : stops s = 0) by lia. rewrite ST in TE.
  destruct T; rewrite H in *; cbn in TE, TT; try tauto; unfold mu_run.
  - cbn. rewrite H. unfold queued; cbn. destruct (st_phase s); cbn; lia.
  - rewrite H. cbn [rank_run].
    pose proof (queued_set (st_phase s) rest s) as Q. rewrite H0 in Q. cbn in Q.
    assert (Q' : queued (emit (EPop r) (set_phase (next_phase k (st_phase s) true)
        (set_wpc (WServe r) (set_queue (st_phase s) rest s)))) = queued (set_queue (st_phase s) rest s))
      by (destruct (st_phase s); reflexivity).
    rewrite Q'. cbn [st_wpc emit set_phase set_wpc rank_run].
    destruct (is_nil _), (is_nil (queue (st_phase s) s)); lia.
  - (* empty *) rewrite H, H0. cbn [is_nil].
    assert (P : 0 < queued s) by lia.
    pose proof (next_phase_flip k s L H0 P) as F.
    rewrite (queued_phase s (st_phase s)) in P. rewrite H0 in P. cbn in P.
    destruct (queue (negb (st_phase s)) s) eqn:O; [cbn in P; lia|].
    assert (E : queue (st_phase (set_phase (next_phase k (st_phase s) false) (set_wpc WSignal s)))
                  (set_phase (next_phase k (st_phase s) false) (set_wpc WSignal s)) = n :: l).
    { rewrite <- O. cbn. rewrite F. destruct (st_phase s); reflexivity. }
    rewrite E. unfold queued; cbn. lia.
  - cbn. rewrite H. unfold queued; cbn. destruct (st_phase s); cbn; lia.
  - destruct (complete_frame r q st true s) as (F1 & F2 & F3 & F4 & F5 & F6 & F7).
    cbn. rewrite F5, H. unfold queued; cbn. rewrite F1, F2.
    destruct (st_phase s); cbn; rewrite ?F1, ?F2; destruct st; try discriminate; injection H1 as <-; cbn; lia.
  - cbn. rewrite H. unfold queued; cbn. destruct (st_phase s); cbn; lia.
  - cbn. rewrite H. unfold queued; cbn. destruct (st_phase s); cbn; lia.
  - cbn. rewrite H. unfold queued; cbn. destruct (st_phase s); cbn; lia.
  - congruence.
Qed.

Lemma wstep_ts : forall k s s', wstep k s s' -> st_wpc s <> WTermSet -> st_ts s' = st_ts s.
Proof.
  intros k s s' T N. destruct T; cbn; auto; try congruence.
  - destruct (st_phase s); reflexivity.
  - destruct (complete_frame r q st true s) as (F1 & F2 & F3 & F4 & F5 & F6 & F7). auto.
Qed.

Lemma running_bound : forall k m s s', linv k s -> tinv s -> st_ts s = RUNNING ->
  clients_at taking s = 0 -> clients_at signalling s = 0 ->
  wsteps k m s s' -> m + mu_run s' <= mu_run s /\ st_ts s' = RUNNING /\ tinv s' /\ linv k s'.
Proof.
  intros k m s s' L I R T0 S0 T. induction T as [s|m s1 s2 s3 A T IH].
  - auto.
  - pose proof (mu_run_dec _ _ _ L I R T0 S0 A).
    assert (W : st_wpc s1 <> WTermSet) by (intros W; pose proof (t_ts _ I) as X; rewrite R, W in X; auto).
    destruct IH as (B & C & D & E).
    + eapply linv_wstep; eauto.
    + eapply tinv_step; [eauto | apply step_worker; eauto].
    + rewrite (wstep_ts _ _ _ A W). auto.
    + unfold clients_at in *. rewrite (wstep_clients _ _ _ A). auto.
    + unfold clients_at in *. rewrite (wstep_clients _ _ _ A). auto.
    + split; [lia | split; [exact C | split; [exact D | exact E]]].
Qed.

(** Shutdown: the terminating worker. *)
Definition rank_term (e : bool) (p : wpc) : nat :=
  match p with
  | WServe _ => 19
  | WFin _ SDone => 18 | WFin _ SHandler => 17 | WFin _ SNotify => 16 | WFin _ SRelease => 15 | WFin _ SReady => 14
  | WTermSignal => if e then 13 else 7
  | WWait => if e then 12 else 6
  | WLock => if e then 11 else 5
  | WSignal => 10 | WCheck => 9 | WTermWait => 8
  | WTermSet => 1
  | WStopped => 0
  end.

Definition mu_term (s : state) : nat :=
  40 * queued s + (if is_nil (queue (st_phase s) s) then 20 else 0) + rank_term (Nat.eqb (queued s) 0) (st_wpc s).

Ltac dq := try match goal with |- context [?a =? ?b] => destruct (a =? b) end.

Lemma mu_term_dec : forall k s s', linv k s -> tinv s -> st_ts s = TERMINATING ->
  stops s = 1 -> clients_at taking s = 0 -> clients_at signalling s = 0 ->
  wstep k s s' -> mu_term s' < mu_term s.
Proof.
  intros k s s' L [TE TS TT] R ST T0 S0 T. rewrite T0, S0, ST in TE.
  destruct T; rewrite H in *; cbn in TE, TT; try tauto; unfold mu_term.
  - cbn. rewrite H. unfold queued; cbn. destruct (st_phase s); dq; cbn; lia.
  - rewrite H.
    pose proof (queued_set (st_phase s) rest s) as Q. rewrite H0 in Q. cbn in Q.
    assert (Q' : queued (emit (EPop r) (set_phase (next_phase k (st_phase s) true)
        (set_wpc (WServe r) (set_queue (st_phase s) rest s)))) = queued (set_queue (st_phase s) rest s))
      by (destruct (st_phase s); reflexivity).
    rewrite Q'. cbn [st_wpc emit set_phase set_wpc rank_term].
    destruct (is_nil _), (is_nil (queue (st_phase s) s)), (queued s =? 0); lia.
  - (* empty *) rewrite H, H0. cbn [is_nil].
    assert (QQ : queued (set_phase (next_phase k (st_phase s) false) (set_wpc WSignal s)) = queued s)
      by (unfold queued; reflexivity).
    rewrite QQ. cbn [st_wpc set_phase set_wpc].
    destruct (Nat.eqb_spec (queued s) 0) as [Z|Z].
    + cbn [rank_term]. destruct (is_nil _); lia.
    + assert (P : 0 < queued s) by lia. pose proof (next_phase_flip k s L H0 P) as F.
      rewrite (queued_phase s (st_phase s)) in P. rewrite H0 in P. cbn in P.
      destruct (queue (negb (st_phase s)) s) eqn:O; [cbn in P; lia|].
      assert (E : queue (st_phase (set_phase (next_phase k (st_phase s) false) (set_wpc WSignal s)))
                  (set_phase (next_phase k (st_phase s) false) (set_wpc WSignal s)) = n :: l).
      { rewrite <- O. cbn. rewrite F. destruct (st_phase s); reflexivity. }
      cbn [st_phase set_phase set_wpc] in E. cbn [st_phase set_phase set_wpc]. rewrite E. cbn [is_nil rank_term]. lia.
  - cbn. rewrite H. unfold queued; cbn. destruct (st_phase s); dq; cbn; lia.
  - destruct (complete_frame r q st true s) as (F1 & F2 & F3 & F4 & F5 & F6 & F7).
    cbn. rewrite F5, H. unfold queued; cbn. rewrite F1, F2.
    destruct (st_phase s); cbn; rewrite ?F1, ?F2; destruct st; try discriminate; injection H1 as <-;
      dq; cbn; lia.
  - cbn. rewrite H. unfold queued; cbn. destruct (st_phase s); dq; cbn; lia.
  - cbn. rewrite H. unfold queued; cbn. destruct (st_phase s); dq; cbn; lia.
  - cbn. rewrite H. unfold queued; cbn. destruct (st_phase s); dq; cbn; lia.
  - cbn. rewrite H. unfold queued; cbn. destruct (st_phase s); dq; cbn; lia.
  - (* more *) cbn. rewrite H.
    assert (N : (length (st_rq s) + length (st_wq s) =? 0) = false) by (apply Nat.eqb_neq; unfold queued in *; lia).
    unfold queued; cbn. rewrite N. destruct (st_phase s); cbn; lia.
  - cbn. rewrite H. unfold queued; cbn. destruct (st_phase s); dq; cbn; lia.
  - cbn. rewrite H. unfold queued; cbn. destruct (st_phase s); dq; cbn; lia.
Qed.

Lemma stopped_no_wstep : forall k s s', st_wpc s = WStopped -> ~ wstep k s s'.
Proof. intros k s s' W T. destruct T; congruence. Qed.

Lemma term_bound : forall k m s s', linv k s -> tinv s ->
  (st_ts s = TERMINATING \/ st_wpc s = WStopped) -> stops s = 1 ->
  clients_at taking s = 0 -> clients_at signalling s = 0 ->
  wsteps k m s s' -> m + mu_term s' <= mu_term s /\ (st_ts s' = TERMINATING \/ st_wpc s' = WStopped) /\
    tinv s' /\ linv k s' /\ stops s' = 1.
Proof.
  intros k m s s' L I R ST T0 S0 T. induction T as [s|m s1 s2 s3 A T IH].
  - auto.
  - destruct R as [R|R]; [|exfalso; eapply stopped_no_wstep; eauto].
    pose proof (mu_term_dec _ _ _ L I R ST T0 S0 A).
    destruct IH as (B & C & D & E & F).
    + eapply linv_wstep; eauto.
    + eapply tinv_step; [eauto | apply step_worker; eauto].
    + destruct (st_wpc s1) eqn:W;
        try (left; rewrite (wstep_ts _ _ _ A) by congruence; auto; fail).
      right. destruct A; try congruence. reflexivity.
    + rewrite (wstep_stops _ _ _ A); auto.
    + unfold clients_at in *. rewrite (wstep_clients _ _ _ A). auto.
    + unfold clients_at in *. rewrite (wstep_clients _ _ _ A). auto.
    + split; [lia | split; [exact C | split; [exact D | split; [exact E | exact F]]]].
Qed.

(** Once the queue is shutting down and no thread is in the middle of a
    submission or cancellation, no thread ever is. *)
Lemma ts_mono : forall k s s', step k s s' -> st_ts s <> RUNNING -> st_ts s' <> RUNNING.
Proof.
  intros k s s' T N. destruct T as [s s' T | c s s' T | c s s' T]; destruct T; cbn;
    rewrite ?(proj2 (proj2 (proj2 (proj2 (proj2 (proj2 (complete_frame _ _ _ _ _))))))); auto;
    try (destruct (st_phase s); cbn; auto; fail); try (destruct (which k _); cbn; auto; fail); discriminate.
Qed.

Lemma quiet_upd : forall s c p0 p1 l, quiet s -> nth_error (st_clients s) c = Some p0 ->
  l = upd c p1 (st_clients s) -> busy p1 = false ->
  forall c' pc, nth_error l c' = Some pc -> busy pc = false.
Proof.
  intros s c p0 p1 l Q H -> B c' pc X. rewrite (nth_upd _ _ _ _ _ _ H) in X.
  destruct (Nat.eqb_spec c c'); [congruence|eauto].
Qed.

Lemma quiet_step : forall k s s', step k s s' -> st_ts s <> RUNNING -> quiet s ->
  quiet s' /\ (forall r w, In r (queue w s') -> In r (queue w s)).
Proof.
  intros k s s' T N Q.
  destruct T as [s s' T | c s s' T | c s s' T].
  - split.
    + intros c pc H. rewrite (wstep_clients _ _ _ T) in H. eauto.
    + intros r w. destruct T; cbn; auto;
        try (destruct w; cbn; auto; fail).
      * destruct (st_phase s) eqn:P, w; cbn in *; auto; rewrite H0; cbn; auto.
      * destruct (complete_frame r0 q st true s) as (F1 & F2 & _). destruct w; cbn; rewrite ?F1, ?F2; auto.
  - destruct T; try congruence.
    + split; auto.
    + split; [|intros r w; destruct w; auto]. unfold quiet. cbn. eapply quiet_upd; eauto; reflexivity.
    + split; [|intros r w; destruct w; auto]. unfold quiet. cbn. eapply quiet_upd; eauto; reflexivity.
    + split; [|intros r w; destruct w; auto]. unfold quiet. cbn. eapply quiet_upd; eauto; reflexivity.
  - assert (NB : forall pc, nth_error (st_clients s) c = Some pc -> busy pc = true -> False)
      by (intros pc X Y; apply Q in X; congruence).
    destruct T; try (exfalso; eapply NB; [eassumption|reflexivity]); try congruence;
      try (split; [unfold quiet; cbn; eapply quiet_upd; eauto; reflexivity | intros r' w; destruct w; auto]; fail).
    + destruct (complete_frame r q st false s) as (F1 & F2 & F3 & F4 & _).
      split; [|intros r' w; destruct w; cbn; rewrite ?F1, ?F2; auto].
      unfold quiet. cbn. rewrite F4. eapply quiet_upd; eauto; reflexivity.
Qed.

Lemma quiet_steps : forall k s s', steps k s s' -> st_ts s <> RUNNING -> quiet s ->
  st_ts s' <> RUNNING /\ quiet s' /\ (forall r w, In r (queue w s') -> In r (queue w s)).
Proof.
  intros k s s' T N Q. induction T; auto.
  destruct (IHT N Q) as (A & B & C). destruct (quiet_step _ _ _ H A B) as (D & E).
  split; [eapply ts_mono; eauto|]. split; auto.
Qed.

Lemma quiet_zero : forall s, quiet s -> clients_at taking s = 0 /\ clients_at signalling s = 0.
Proof.
  intros s Q. unfold clients_at, quiet in *. 
  assert (Z : forall f l, (forall p, In p l -> f p = false) -> length (@filter cpc f l) = 0).
  { intros f l. induction l as [|x l IH]; cbn; intros H; auto. rewrite (H x) by auto. apply IH. auto. }
  assert (B : forall p, In p (st_clients s) -> busy p = false).
  { intros p I. apply In_nth_error in I. destruct I as (c & I). eauto. }
  split; apply Z; intros p I; apply B in I; destruct p; cbn in *; auto; discriminate.
Qed.

(** A stopped worker and a quiet queue: what is queued stays queued. *)
Lemma abandoned : forall k s s', steps k s s' -> st_ts s <> RUNNING -> quiet s -> st_wpc s = WStopped ->
  st_wpc s' = WStopped /\ st_rq s' = st_rq s /\ st_wq s' = st_wq s.
Proof.
  intros k s s' T N Q W. induction T; auto.
  destruct (IHT N Q W) as (A & B & D). destruct (quiet_steps _ _ _ T N Q) as (N2 & Q2 & _). clear IHT.
  destruct H as [s2 s3 H | c s2 s3 H | c s2 s3 H].
  - exfalso. eapply stopped_no_wstep; eauto.
  - destruct H; cbn; auto.
  - assert (NB : forall pc, nth_error (st_clients s2) c = Some pc -> busy pc = true -> False)
      by (intros pc X Y; apply Q2 in X; congruence).
    destruct H; try (exfalso; eapply NB; [eassumption|reflexivity]); try congruence; cbn; auto.
    match goal with |- context [complete_step ?r ?q ?st ?b ?x] =>
      destruct (complete_frame r q st b x) as (F1 & F2 & F3 & F4 & F5 & _) end.
    rewrite F1, F2, F3. auto.
Qed.

(** The state of affairs when the worker leaves its loop. *)
Lemma ev_break : forall k s s', step k s s' -> st_log s' = EBreak :: st_log s ->
  st_wpc s = WTermWait /\ st_sem s = 1 /\ s' = emit EBreak (set_wpc WTermSet (set_sem 0 s)).
Proof.
  intros k s s' T E. evstep T E; auto; try (destruct st; cbn in *; try discriminate; destruct (q_handler q); discriminate).
Qed.
