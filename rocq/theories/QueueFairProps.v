(** Property C103 of request queues. *)
From Coq Require Import List Bool PeanoNat Lia.
From Verif Require Import QueueModel QueueSpec QueueProofs QueueLife QueueTrace QueueClients QueueMain QueueRun QueueTokens QueueProgress QueueFifo QueueFairSpec QueueFair.
Import ListNotations.

Lemma taken_npops : forall s, taken_so_far s = npops s.
Proof.
  intros s. unfold taken_so_far, npops, trace. induction (st_log s) as [|x l IH]; auto.
  rewrite pops_cons. cbn [rev]. rewrite filter_app, app_length, IH. destruct x; cbn; lia.
Qed.

Lemma over_done : forall r s, over r s -> completed r (trace s) \/ cancelled r (trace s).
Proof.
  intros r s [O|[c O]]; [left|right; exists c]; apply in_trace; auto.
Qed.

Lemma one_true : forall k n s r w, qreachable k n s -> In r (queue w s) -> k = OneQ -> w = true.
Proof.
  intros k n s r [] R Q E; auto. cbn in Q.
  destruct (l_one _ _ (linv_reachable _ _ _ R) E) as (Z & _). rewrite Z in Q. destruct Q.
Qed.

Definition Lf (k : kind) (w b : bool) (p : nat) : nat := visits k (Bool.eqb b w) p.
Definition Lg (w b : bool) (p : nat) : nat := visits_in_vain (Bool.eqb b w) p.

Ltac cases k w := destruct k as [|[]]; destruct w; cbn in *; intros; try discriminate; try lia.

(** A request that goes first is served or cancelled after a number of steps of the
    worker that depends only on its place in the queue, whatever the other threads do. *)
Theorem C103_bounded_wait : forall k n w r m s s', qreachable k n s -> first_class k w ->
  In r (queue w s) -> runs k m s s' -> st_ts s' = RUNNING ->
  10 * visits k (turn w s) (ahead r (queue w s)) + 28 < m ->
  completed r (trace s') \/ cancelled r (trace s').
Proof.
  intros k n w r m s s' R F Q T RUN M. pose proof (one_true _ _ _ _ _ R Q) as ONE.
  destruct k as [|p].
  - specialize (ONE eq_refl). subst w.
    destruct (l_one _ _ (linv_reachable _ _ _ R) eq_refl) as (_ & PH).
    apply over_done. eapply (done_in_time OneQ true r 0 (fun b p => if b then p + 1 else p + 2)); eauto;
      try (cbn; intros; lia).
    + intros [] ? ? ?; lia.
    + unfold looks, turn in *. rewrite PH in *. cbn in *. lia.
  - apply over_done. eapply (done_in_time (QwQr p) w r 0 (Lf (QwQr p) w)); eauto.
    + unfold Lf. destruct p, w; cbn in *; intros; try discriminate; lia.
    + unfold Lf. destruct p, w; cbn in *; intros; try discriminate; lia.
    + unfold Lf. destruct p, w; cbn in *; intros; try discriminate; lia.
    + unfold Lf. intros b a a' LE. destruct p, b, w; cbn; lia.
    + unfold looks, Lf, turn in *. rewrite Nat.mul_0_r, Nat.mul_0_l. lia.
Qed.
Print Assumptions C103_bounded_wait.

(** While it waits, the worker takes few other requests. *)
Theorem C103_few_overtake : forall k n w r m s s', qreachable k n s -> first_class k w ->
  In r (queue w s) -> runs k m s s' -> st_ts s' = RUNNING -> In r (queue w s') ->
  taken_so_far s' + visits k (turn w s') (ahead r (queue w s')) <=
  taken_so_far s + visits k (turn w s) (ahead r (queue w s)).
Proof.
  intros k n w r m s s' R F Q T RUN Q'. pose proof (one_true _ _ _ _ _ R Q) as ONE.
  rewrite !taken_npops.
  destruct k as [|p].
  - specialize (ONE eq_refl). subst w.
    destruct (l_one _ _ (linv_reachable _ _ _ R) eq_refl) as (_ & PH).
    assert (R' : qreachable OneQ n s') by (eapply steps_app; [exact R|eapply runs_steps; eauto]).
    destruct (l_one _ _ (linv_reachable _ _ _ R') eq_refl) as (_ & PH').
    pose proof (few_pops OneQ true r 0 (fun b p => if b then p + 1 else p + 2)) as X.
    unfold looks, turn in *. cbn.
    specialize (X ltac:(cbn; intros; lia) ltac:(cbn; intros; lia) ltac:(cbn; intros; lia)
      ltac:(intros [] ? ? ?; lia) n m s s' eq_refl R Q T RUN Q').
    rewrite PH, PH' in X. exact X.
  - pose proof (few_pops (QwQr p) w r 0 (Lf (QwQr p) w)) as X.
    unfold looks, Lf, turn in *. apply X with (n := n) (m := m); auto.
    + destruct p, w; cbn in *; intros; try discriminate; lia.
    + destruct p, w; cbn in *; intros; try discriminate; lia.
    + destruct p, w; cbn in *; intros; try discriminate; lia.
    + intros b a a' LE. destruct p, b, w; cbn; lia.
Qed.
Print Assumptions C103_few_overtake.

(** Any request waits only while the worker takes others: it is served or cancelled
    after a number of steps that depends on its place in the queue and on the number of
    requests taken since. *)
Theorem C103_only_for_others : forall k n w r m s s', qreachable k n s ->
  In r (queue w s) -> runs k m s s' -> st_ts s' = RUNNING ->
  10 * (visits_in_vain (turn w s) (ahead r (queue w s)) + (taken_so_far s' - taken_so_far s)) + 28 < m ->
  completed r (trace s') \/ cancelled r (trace s').
Proof.
  intros k n w r m s s' R Q T RUN M. pose proof (one_true _ _ _ _ _ R Q) as ONE.
  rewrite !taken_npops in M. apply over_done. eapply (done_in_time k w r 1 (Lg w)); eauto.
  - unfold Lg. destruct k as [|[]], w; cbn in *; intros; try lia; now specialize (ONE eq_refl).
  - unfold Lg. destruct k as [|[]], w; cbn in *; intros; try lia.
  - unfold Lg. destruct k as [|[]], w; cbn in *; intros; try lia; now specialize (ONE eq_refl).
  - unfold Lg. intros b a a' LE. destruct b, w; cbn; lia.
  - unfold looks, Lg, turn in *. lia.
Qed.
Print Assumptions C103_only_for_others.

(** ** Starvation *)
Definition is_w (x : move) : bool := match x with W _ => true | _ => false end.

Lemma runs_more : forall k m1 s1 s2, runs k m1 s1 s2 -> forall m2 s3, runs k m2 s2 s3 -> runs k (m2 + m1) s1 s3.
Proof. intros k m1 s1 s2 A m2 s3 B. induction B; cbn; [auto|eapply runs_w|eapply runs_o]; eauto. Qed.

Lemma exec_run1 : forall k x s s', exec k x s = Some s' -> runs k (if is_w x then 1 else 0) s s'.
Proof.
  intros k x s s' E. destruct x; cbn in E |- *.
  - eapply runs_w; [constructor|]. eapply exec_w_ok; eauto.
  - eapply runs_o; [constructor|]. right. eapply exec_c_ok; eauto.
  - destruct (idle s c) eqn:I; [|discriminate]. destruct (is_run (st_ts s)) eqn:RR.
    + injection E as <-. eapply runs_o; [constructor|]. left. apply s_add; auto using idle_ok, is_run_ok.
    + injection E as <-. eapply runs_o; [constructor|]. left. apply s_add_reject; auto using idle_ok, not_run_ok.
  - destruct (idle s c) eqn:I; [|discriminate]. destruct (forallb (knownb s) rs) eqn:K; [|discriminate].
    injection E as <-. eapply runs_o; [constructor|]. left. apply s_cancel_all; eauto using idle_ok, known_ok.
  - destruct (idle s c) eqn:I; [|discriminate]. destruct (forallb (knownb s) rs) eqn:K; [|discriminate].
    injection E as <-. eapply runs_o; [constructor|]. left. apply s_wait_all; eauto using idle_ok, known_ok.
  - destruct (idle s c) eqn:I; [|discriminate]. destruct (forallb (knownb s) rs) eqn:K; [|discriminate].
    injection E as <-. eapply runs_o; [constructor|]. left. apply s_wait_any; eauto using idle_ok, known_ok.
  - destruct (idle s c) eqn:I; [|discriminate]. destruct (is_run (st_ts s)) eqn:RR; [|discriminate].
    injection E as <-. eapply runs_o; [constructor|]. left. apply s_stop; auto using idle_ok, is_run_ok.
Qed.

Fixpoint count_w (l : list move) : nat :=
  match l with [] => 0 | x :: l' => count_w l' + (if is_w x then 1 else 0) end.

Lemma run_runs : forall k l s s', run k l s = Some s' -> runs k (count_w l) s s'.
Proof.
  induction l as [|x l IH]; cbn; intros s s' E.
  - injection E as <-. constructor.
  - destruct (exec k x s) as [s1|] eqn:X; [|discriminate].
    eapply runs_more; [eapply exec_run1; eauto|eauto].
Qed.

Lemma nth_last : forall A (l : list A) x, nth_error (l ++ [x]) (length l) = Some x.
Proof. intros. rewrite nth_error_app2, Nat.sub_diag; auto. Qed.
Lemma upd_last : forall A (l : list A) x y, upd (length l) y (l ++ [x]) = l ++ [y].
Proof. induction l; cbn; intros; auto. now rewrite IHl. Qed.

Definition round (op : rw) : list move :=
  [Add 0 op false; C 0 false; C 0 false; W true; W true; W true; W true; W true; W true; W true; W true; W true].

Lemma run_cons : forall k x l s s1 s2, exec k x s = Some s1 -> run k l s1 = Some s2 -> run k (x :: l) s = Some s2.
Proof. intros. cbn. now rewrite H. Qed.

Ltac nm := cbv [exec exec_w exec_c with_req idle is_run complete_step emit set_client add_req set_wpc set_req set_sem
  set_phase set_sws set_queue queue set_err set_state set_file new_req which next_phase next_stage set_ts
  st_rq st_wq st_sem st_ts st_wpc st_phase st_reqs st_clients st_sws st_log
  q_op q_handler q_state q_err q_waiters q_file negb andb]; cbn.
Ltac go := eapply run_cons; [nm; rewrite ?nth_last; nm; rewrite ?upd_last; nm; reflexivity|].

(** Reads while writes go first: the state between two writes. *)
Lemma write_round : forall reqs log, exists reqs' log',
  run (QwQr PWrite) (round Write) (mk_state [0] [] 1 RUNNING WWait true reqs [CIdle] [] log) =
    Some (mk_state [0] [] 1 RUNNING WWait true reqs' [CIdle] [] log') /\
  length (pops log') = S (length (pops log)).
Proof.
  intros reqs log. unfold round. eexists. eexists. split.
  - do 12 go. reflexivity.
  - reflexivity.
Qed.

(** Writes if reads go first, the worker having looked for a write before. *)
Lemma read_round : forall reqs log, exists reqs' log',
  run (QwQr PRead) (round Read) (mk_state [] [1] 1 RUNNING WWait false reqs [CIdle] [] log) =
    Some (mk_state [] [1] 1 RUNNING WWait false reqs' [CIdle] [] log') /\
  length (pops log') = S (length (pops log)).
Proof.
  intros reqs log. unfold round. eexists. eexists. split.
  - do 12 go. reflexivity.
  - reflexivity.
Qed.

Lemma many_rounds : forall k op rq wq ph,
  (forall reqs log, exists reqs' log',
     run k (round op) (mk_state rq wq 1 RUNNING WWait ph reqs [CIdle] [] log) =
       Some (mk_state rq wq 1 RUNNING WWait ph reqs' [CIdle] [] log') /\
     length (pops log') = S (length (pops log))) ->
  forall n reqs log, exists reqs' log',
    runs k (n * 9) (mk_state rq wq 1 RUNNING WWait ph reqs [CIdle] [] log)
                   (mk_state rq wq 1 RUNNING WWait ph reqs' [CIdle] [] log') /\
    length (pops log') = n + length (pops log).
Proof.
  intros k op rq wq ph H. induction n; intros reqs log.
  - exists reqs, log. split; [constructor|auto].
  - destruct (H reqs log) as (reqs1 & log1 & A & B).
    destruct (IHn reqs1 log1) as (reqs2 & log2 & C & D).
    exists reqs2, log2. split; [|lia]. apply run_runs in A.
    replace (S n * 9) with (n * 9 + count_w (round op)) by (cbn; lia).
    eapply runs_more; eauto.
Qed.

Lemma run_reach : forall k n l s, run k l (init n) = Some s -> qreachable k n s.
Proof. intros. eapply runs_steps. eapply run_runs. eauto. Qed.

(** The others can starve.  With the priority the code has, a read is never served
    while there is always another write: for every number there is an execution in
    which the worker serves that many writes and the read is still in its queue. *)
Theorem C103_read_starves_refuted : exists s,
  qreachable (QwQr PWrite) 1 s /\ In 0 (queue false s) /\ st_ts s = RUNNING /\
  forall n, exists m s', runs (QwQr PWrite) m s s' /\ n <= m /\ st_ts s' = RUNNING /\
    In 0 (queue false s') /\ taken_so_far s' = n + taken_so_far s.
Proof.
  eexists. split.
  - apply run_reach with (l := [Add 0 Read false; C 0 false; C 0 false]). vm_compute. reflexivity.
  - split; [left; reflexivity|]. split; [reflexivity|]. intros n.
    match goal with |- exists m s', runs _ m ?s0 s' /\ _ =>
      destruct (many_rounds (QwQr PWrite) Write [0] [] true write_round n (st_reqs s0) (st_log s0)) as (reqs' & log' & A & B)
    end.
    exists (n * 9). eexists. split; [exact A|]. split; [lia|]. split; [reflexivity|].
    split; [left; reflexivity|]. rewrite !taken_npops. exact B.
Qed.
Print Assumptions C103_read_starves_refuted.

(** Likewise a write if reads went first. *)
Theorem C103_write_starves_refuted : exists s,
  qreachable (QwQr PRead) 1 s /\ In 1 (queue true s) /\ st_ts s = RUNNING /\
  forall n, exists m s', runs (QwQr PRead) m s s' /\ n <= m /\ st_ts s' = RUNNING /\
    In 1 (queue true s') /\ taken_so_far s' = n + taken_so_far s.
Proof.
  eexists. split.
  - apply run_reach with (l := round Write ++ [Add 0 Write false; C 0 false; C 0 false]). vm_compute. reflexivity.
  - split; [left; reflexivity|]. split; [reflexivity|]. intros n.
    match goal with |- exists m s', runs _ m ?s0 s' /\ _ =>
      destruct (many_rounds (QwQr PRead) Read [] [1] false read_round n (st_reqs s0) (st_log s0)) as (reqs' & log' & A & B)
    end.
    exists (n * 9). eexists. split; [exact A|]. split; [lia|]. split; [reflexivity|].
    split; [left; reflexivity|]. rewrite !taken_npops. exact B.
Qed.
Print Assumptions C103_write_starves_refuted.

(** A case: a read and three writes are queued, of which the write 3 is the last; a
    client submits seven more writes while the worker serves seven requests.  The hypotheses of
    [C103_bounded_wait] hold with 63 steps of the worker, the bound is 58. *)
Definition case103_before : list move :=
  [Add 0 Read false; C 0 false; C 0 false; Add 1 Write false; C 1 false; C 1 false;
   Add 2 Write false; C 2 false; C 2 false; Add 0 Write false; C 0 false; C 0 false].
Definition case103_after : list move := concat (repeat (round Write) 7).

Definition facts103 : option (list nat * nat * nat * bool * list nat * list nat * bool * nat) :=
  match run (QwQr PWrite) case103_before (init 3) with
  | Some s =>
    match run (QwQr PWrite) case103_after s with
    | Some s' => Some (queue true s, ahead 3 (queue true s), visits (QwQr PWrite) (turn true s) (ahead 3 (queue true s)),
                       is_run (st_ts s'), queue true s', queue false s',
                       existsb (fun x => match x with EReady 3 => true | _ => false end) (trace s'), taken_so_far s')
    | None => None
    end
  | None => None
  end.

Example C103_case : first_class (QwQr PWrite) true /\ count_w case103_after = 63 /\
  facts103 = Some ([1; 2; 3], 2, 3, true, [8; 9; 10], [0], true, 7) /\
  exists s s', qreachable (QwQr PWrite) 3 s /\ In 3 (queue true s) /\
    runs (QwQr PWrite) 63 s s' /\ st_ts s' = RUNNING /\
    10 * visits (QwQr PWrite) (turn true s) (ahead 3 (queue true s)) + 28 = 58 /\
    completed 3 (trace s').
Proof.
  split; [reflexivity|]. split; [reflexivity|]. split; [vm_compute; reflexivity|].
  destruct (run (QwQr PWrite) case103_before (init 3)) as [s|] eqn:E; [|discriminate (eq_trans (eq_sym E) ltac:(vm_compute; reflexivity))].
  destruct (run (QwQr PWrite) case103_after s) as [s'|] eqn:E'.
  2: { vm_compute in E. injection E as <-. vm_compute in E'. discriminate. }
  exists s, s'. split; [eapply run_reach; eauto|].
  pose proof (run_runs _ _ _ _ E') as RR.
  vm_compute in E. injection E as <-. vm_compute in E'. injection E' as <-.
  split; [right; right; left; reflexivity|]. split; [exact RR|].
  split; [reflexivity|]. split; [vm_compute; reflexivity|].
  apply in_trace. cbn. tauto.
Qed.
Print Assumptions C103_case.
