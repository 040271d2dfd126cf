(** How long a queued request can wait while the other threads do what they like. *)
From Coq Require Import List Bool PeanoNat Lia.
From Verif Require Import QueueModel QueueSpec QueueProofs QueueLife QueueTrace QueueClients QueueMain QueueTokens QueueProgress QueueFifo QueueFairSpec.
Import ListNotations.

Lemma runs_steps : forall k m s s', runs k m s s' -> steps k s s'.
Proof.
  induction 1.
  - constructor.
  - eapply steps_trans; eauto. now apply step_worker.
  - eapply steps_trans; eauto. destruct H0; [eapply step_start|eapply step_client]; eauto.
Qed.

Lemma ahead_snoc : forall r l x, In r l -> ahead r (l ++ [x]) = ahead r l.
Proof.
  intros r l x. induction l as [|y l IH]; cbn; [tauto|]. intros [E|I].
  - subst. now rewrite Nat.eqb_refl.
  - destruct (Nat.eqb y r); auto.
Qed.

Lemma ahead_remove : forall r l1 x l2, r <> x -> ahead r (l1 ++ l2) <= ahead r (l1 ++ x :: l2).
Proof.
  intros r l1 x l2 N. induction l1 as [|y l IH]; cbn.
  - destruct (Nat.eqb_spec x r); [congruence|lia].
  - destruct (Nat.eqb y r); lia.
Qed.

Lemma ahead_first : forall r l1 l2, ~ In r l1 -> ahead r (l1 ++ r :: l2) = length l1.
Proof.
  intros r l1 l2. induction l1 as [|y l IH]; cbn; intros N.
  - now rewrite Nat.eqb_refl.
  - destruct (Nat.eqb_spec y r) as [->|]; [tauto|]. rewrite IH; tauto.
Qed.

(** A step of a client leaves the worker alone, and changes a list by one
    request appended or removed. *)
Lemma client_frame : forall k s s' c w, start_op k c s s' \/ cstep k c s s' ->
  st_wpc s' = st_wpc s /\ st_phase s' = st_phase s /\
  (st_log s' = st_log s \/ exists e, st_log s' = e :: st_log s /\ forall r, e <> EPop r) /\
  (queue w s' = queue w s \/ (exists x, queue w s' = queue w s ++ [x]) \/
   exists c' x l1 l2, queue w s = l1 ++ x :: l2 /\ queue w s' = l1 ++ l2 /\ In (EErase c' x) (st_log s')).
Proof.
  intros k s s' c w [T|T]; destruct T;
    try solve [cbn; destruct w; (split; [reflexivity|]); (split; [reflexivity|]);
      (split; [solve [left; reflexivity | right; eexists; split; [reflexivity|intros; discriminate]]|left; reflexivity])].
  - (* push *) destruct (which k (q_op q)); cbn; (split; [reflexivity|split; [reflexivity|]]);
      (split; [right; eexists; split; [reflexivity|intros; discriminate]|]);
      destruct w; cbn; eauto.
  - (* erase *) destruct (which k (q_op q)) eqn:E; cbn; (split; [reflexivity|split; [reflexivity|]]);
      (split; [right; eexists; split; [reflexivity|intros; discriminate]|]);
      destruct w; cbn; auto; right; right; exists c, r, l1, l2; rewrite <- H1; cbn; auto.
  - destruct (complete_frame r q st false s) as (F1 & F2 & F3 & F4 & F5 & F6 & F7).
    cbn. rewrite F3, F5, complete_log. split; auto. split; auto. split.
    + right. eexists. split; [reflexivity|]. intros x. destruct st; cbn; try discriminate.
      destruct (q_handler q); discriminate.
    + left. destruct w; cbn; auto.
Qed.

Definition wrank (p : wpc) : nat :=
  match p with
  | WLock => 0 | WWait => 1 | WCheck => 2 | WSignal => 3
  | WFin _ SReady => 3 | WFin _ SRelease => 4 | WFin _ SNotify => 5
  | WFin _ SHandler => 6 | WFin _ SDone => 7 | WServe _ => 8
  | _ => 0
  end.

Lemma pops_cons : forall x l, pops (x :: l) = match x with EPop r => r :: pops l | _ => pops l end.
Proof. intros [] l; reflexivity. Qed.

Local Arguments pops : simpl never.
Local Ltac np := cbn in *; rewrite ?pops_cons.

Definition npops (s : state) : nat := length (pops (st_log s)).

Lemma ts_runs : forall k m s s', runs k m s s' -> st_ts s' = RUNNING -> st_ts s = RUNNING.
Proof.
  intros k m s s' T. induction T; intros R; auto; apply IHT.
  - destruct (st_ts s2) eqn:E; auto; exfalso; eapply (ts_mono k s2 s3); eauto using step_worker; congruence.
  - assert (ST : step k s2 s3) by (destruct H; [eapply step_start|eapply step_client]; eauto).
    destruct (st_ts s2) eqn:E; auto; exfalso; eapply (ts_mono k s2 s3); eauto; congruence.
Qed.

Section Measure.
Variables (k : kind) (w : bool) (r : nat) (e : nat).
Variable L : bool -> nat -> nat.
Hypothesis L_own : forall p, L (next_phase k w true) p < L w (S p).
Hypothesis L_pop : forall p, L (next_phase k (negb w) true) p < L (negb w) p + e.
Hypothesis L_emp : forall p, L (next_phase k (negb w) false) p < L (negb w) p.
Hypothesis L_mono : forall b p p', p <= p' -> L b p <= L b p'.

Definition looks (s : state) : nat := L (st_phase s) (ahead r (queue w s)).
Definition mu (s : state) : nat := 10 * looks s + wrank (st_wpc s) + 20.

Definition at_r (s : state) : Prop := st_wpc s = WServe r \/ exists st, st_wpc s = WFin r st.
Definition over (s : state) : Prop := In (EReady r) (st_log s) \/ exists c, In (EErase c r) (st_log s).

Definition finv (m : nat) (s s' : state) : Prop :=
  over s' \/
  (at_r s' /\ m + wrank (st_wpc s') + 10 * e * npops s <= mu s + 10 * e * npops s') \/
  (In r (queue w s') /\ m + mu s' + 10 * e * npops s <= mu s + 10 * e * npops s' /\
   (e = 0 -> npops s' + looks s' <= npops s + looks s)).

Lemma bool_cases (b : bool) : b = w \/ b = negb w.
Proof. destruct b, w; auto. Qed.

Lemma over_mono : forall s s', over s -> incl (st_log s) (st_log s') -> over s'.
Proof. intros s s' [O|[c O]] I; [left|right; exists c]; auto. Qed.

Lemma step_incl : forall s s', step k s s' -> incl (st_log s) (st_log s').
Proof.
  intros s s' T. destruct (one_event _ _ _ T) as [E|(x & E)]; rewrite E; intros y Y; [auto|now right].
Qed.

Lemma queue_log_wpc : forall s p b q t, queue w (set_wpc p s) = queue w s /\ queue w (set_phase b s) = queue w s /\
  queue w (emit q s) = queue w s /\ queue w (set_sem t s) = queue w s.
Proof. intros. destruct w; cbn; auto. Qed.

Lemma finv_w : forall m s s1 s2, linv k s1 -> tinv s1 -> st_ts s1 = RUNNING -> finv m s s1 -> wstep k s1 s2 ->
  finv (S m) s s2.
Proof.
  intros m s s1 s2 HL HT HR F T. unfold finv in *.
  remember (10 * e) as ee eqn:Hee.
  destruct F as [O|[(A & B)|(Q & B & C)]].
  { left. eapply over_mono; eauto. eapply step_incl. now apply step_worker. }
  - (* at r *) unfold at_r in A. destruct T; try (destruct A as [A|[? A]]; congruence).
    + (* serve *) destruct A as [A|[st A]]; rewrite A in H; [|discriminate]. injection H as <-.
      right; left. split; [right; eexists; reflexivity|]. cbn in *. rewrite A in B. cbn in B.
      unfold npops in *. np. lia.
    + (* fin *) destruct A as [A|[st0 A]]; rewrite A in H; [discriminate|]. injection H as <- ->.
      right; left. split; [right; eexists; reflexivity|]. cbn. unfold npops in *. cbn. rewrite complete_log.
      replace (length (pops (stage_event q r st true s0 :: st_log s0))) with (length (pops (st_log s0)))
        by (rewrite pops_cons; destruct st; cbn; auto; destruct (q_handler q); auto).
      rewrite A in B. destruct st; cbn in *; try discriminate; injection H1 as <-; cbn; lia.
    + (* ready *) destruct A as [A|[st0 A]]; rewrite A in H; [discriminate|]. injection H as <- ->.
      left. left. cbn. auto.
  - (* queued *) unfold mu, looks in *. destruct T.
    + right; right. cbn. replace (queue w _) with (queue w s0) by (destruct w; reflexivity).
      rewrite H in B; cbn in B. unfold npops in *; np. split; auto. split; auto. lia.
    + (* pop *) rewrite H in B. cbn [wrank] in B.
      destruct (bool_cases (st_phase s0)) as [E|E].
      * rewrite E in *. destruct (Nat.eq_dec r0 r) as [->|N].
        { right; left. split; [left; destruct w; reflexivity|].
          replace (st_wpc _) with (WServe r) by (destruct w; reflexivity). cbn [wrank].
          unfold npops in *. replace (pops (st_log (emit _ _))) with (r :: pops (st_log s0)) by (destruct w; reflexivity).
          cbn [length]. lia. }
        { right; right.
          replace (queue w (emit _ _)) with rest by (destruct w; reflexivity).
          replace (st_wpc _) with (WServe r0) by (destruct w; reflexivity).
          replace (st_phase (emit _ _)) with (next_phase k w true) by (destruct w; reflexivity).
          unfold npops in *. replace (pops (st_log (emit _ _))) with (r0 :: pops (st_log s0)) by (destruct w; reflexivity).
          rewrite H0 in *. cbn [ahead] in *. destruct (Nat.eqb_spec r0 r); [congruence|].
          pose proof (L_own (ahead r rest)). cbn [wrank length].
          split; [destruct Q as [Q|Q]; congruence|]. split; lia. }
      * assert (W : queue w (emit (EPop r0) (set_phase (next_phase k (st_phase s0) true)
                      (set_wpc (WServe r0) (set_queue (st_phase s0) rest s0)))) = queue w s0)
          by (rewrite E; destruct w; reflexivity).
        right; right. rewrite W.
        replace (st_wpc _) with (WServe r0) by (rewrite E; destruct w; reflexivity).
        replace (st_phase (emit _ _)) with (next_phase k (negb w) true) by (rewrite E; destruct w; reflexivity).
        unfold npops in *.
        replace (pops (st_log (emit _ _))) with (r0 :: pops (st_log s0)) by (rewrite E; destruct w; reflexivity).
        rewrite E in *. pose proof (L_pop (ahead r (queue w s0))). cbn [wrank length].
        split; auto. split; [nia|]. intros Z. specialize (C Z). lia.
    + (* empty *) rewrite H in B. cbn [wrank] in B.
      destruct (bool_cases (st_phase s0)) as [E|E].
      * rewrite E in H0. rewrite H0 in Q. destruct Q.
      * right; right. replace (queue w (set_phase _ _)) with (queue w s0) by (destruct w; reflexivity).
        cbn. rewrite E in *. pose proof (L_emp (ahead r (queue w s0))). unfold npops in *; np.
        split; auto. split; [lia|]. intros Z. specialize (C Z). lia.
    + right; right. replace (queue w (emit _ _)) with (queue w s0) by (destruct w; reflexivity).
      rewrite H in B; cbn in B. unfold npops in *; np. split; auto. split; auto. lia.
    + destruct (complete_frame r0 q st true s0) as (F1 & F2 & F3 & F4 & F5 & F6 & F7).
      right; right. replace (queue w (set_wpc _ _)) with (queue w s0)
        by (destruct w; cbn; auto).
      cbn. unfold npops in *. cbn. rewrite F5, complete_log.
      replace (length (pops (stage_event q r0 st true s0 :: st_log s0))) with (length (pops (st_log s0)))
        by (rewrite pops_cons; destruct st; cbn; auto; destruct (q_handler q); auto).
      split; auto. rewrite H in B. split; auto.
      destruct st; cbn in *; try discriminate; injection H1 as <-; cbn; lia.
    + right; right. replace (queue w (set_wpc _ _)) with (queue w s0) by (destruct w; reflexivity).
      rewrite H in B; cbn in B. unfold npops in *; np. split; auto. split; auto. lia.
    + right; right. replace (queue w (set_wpc _ _)) with (queue w s0) by (destruct w; reflexivity).
      rewrite H in B; cbn in B. unfold npops in *; np. split; auto. split; auto. lia.
    + right; right. replace (queue w (set_wpc _ _)) with (queue w s0) by (destruct w; reflexivity).
      rewrite H in B; cbn in B. unfold npops in *; np. split; auto. split; auto. lia.
    + congruence.
    + destruct HT as [_ _ TT]. rewrite HR, H in TT. destruct TT.
    + destruct HT as [_ _ TT]. rewrite HR, H in TT. destruct TT.
    + destruct HT as [_ _ TT]. rewrite HR, H in TT. destruct TT.
    + destruct HT as [_ _ TT]. rewrite HR, H in TT. destruct TT.
Qed.

Lemma finv_o : forall m s s1 s2 c, finv m s s1 -> start_op k c s1 s2 \/ cstep k c s1 s2 -> finv m s s2.
Proof.
  intros m s s1 s2 c F T. unfold finv in *.
  assert (ST : step k s1 s2) by (destruct T; [eapply step_start|eapply step_client]; eauto).
  pose proof (step_incl _ _ ST) as I.
  destruct (client_frame _ _ _ _ w T) as (W & P & LG & QU).
  assert (NP : npops s2 = npops s1).
  { unfold npops. destruct LG as [E|(x & E & X)]; rewrite E; auto. cbn.
    destruct x; auto. now elim (X r0). }
  destruct F as [O|[(A & B)|(Q & B & C)]].
  - left. eapply over_mono; eauto.
  - right; left. unfold at_r in *. rewrite W, NP. auto.
  - unfold mu, looks in *. destruct QU as [E|[(x & E)|(c' & x & l1 & l2 & E1 & E2 & X)]].
    + right; right. rewrite W, P, NP, E. auto.
    + right; right. rewrite W, P, NP, E, ahead_snoc by auto. split; auto. apply in_app_iff; auto.
    + destruct (Nat.eq_dec x r) as [->|N]; [left; right; eauto|].
      right; right. rewrite W, P, NP, E2. rewrite E1 in Q, B, C.
      pose proof (L_mono (st_phase s1) _ _ (ahead_remove r l1 x l2 (not_eq_sym N))).
      split; [apply in_app_iff in Q; apply in_app_iff; cbn in Q; intuition congruence|].
      split; [lia|]. intros Z. specialize (C Z). lia.
Qed.

Lemma finv_runs : forall n m s s', qreachable k n s -> In r (queue w s) -> runs k m s s' -> st_ts s' = RUNNING ->
  finv m s s'.
Proof.
  intros n m s s' R Q T. induction T; intros RUN.
  - right; right. split; auto.
  - assert (R2 : qreachable k n s2) by (eapply steps_app; [exact R|eapply runs_steps; eauto]).
    assert (RUN2 : st_ts s2 = RUNNING).
    { destruct (st_ts s2) eqn:E; auto; exfalso; eapply (ts_mono k s2 s3); eauto using step_worker; congruence. }
    eapply finv_w; eauto using linv_reachable, tinv_reachable.
  - assert (RUN2 : st_ts s2 = RUNNING).
    { assert (ST : step k s2 s3) by (destruct H; [eapply step_start|eapply step_client]; eauto).
      destruct (st_ts s2) eqn:E; auto; exfalso; eapply (ts_mono k s2 s3); eauto; congruence. }
    eapply finv_o; eauto.
Qed.

(** Not queued any more once over. *)
Lemma over_not_queued : forall s, linv k s -> over s -> ~ In r (queue w s).
Proof.
  intros s HL O Q. pose proof (queue_loc _ _ _ _ HL Q) as E.
  destruct O as [O|[c O]].
  - assert (N : about r (EReady r) = true) by (cbn; apply Nat.eqb_refl).
    destruct (in_split _ _ O) as (a & b & S0).
    assert (X : In (EReady r) (trace s)) by (apply in_trace; auto).
    pose proof (reach_word _ _ r HL) as W. rewrite E in W.
    assert (Y : In (EReady r) (filter (about r) (trace s))) by (apply filter_In; auto).
    inversion W; subst; match goal with H : _ = filter _ _ |- _ => rewrite <- H in Y end;
      cbn in Y; intuition discriminate.
  - assert (X : taken (loc r (st_log s))) by (eapply erased_loc; eauto; apply erased_in; eauto).
    rewrite E in X. destruct X.
Qed.

Lemma at_not_queued : forall s, linv k s -> at_r s -> ~ In r (queue w s).
Proof.
  intros s HL A Q. pose proof (queue_loc _ _ _ _ HL Q) as E.
  destruct A as [A|[st A]].
  - assert (O : own s r PServe) by (apply own_w; rewrite A; reflexivity).
    rewrite (l_own _ _ HL _ _ O) in E. discriminate.
  - assert (O : own s r (PFin None st)) by (apply own_w; rewrite A; reflexivity).
    rewrite (l_own _ _ HL _ _ O) in E. discriminate.
Qed.

Lemma wrank_bound : forall p, wrank p <= 8.
Proof. intros []; cbn; try lia. destruct s; lia. Qed.

Lemma done_in_time : forall n m s s', qreachable k n s -> In r (queue w s) -> runs k m s s' -> st_ts s' = RUNNING ->
  10 * looks s + 28 + 10 * e * (npops s' - npops s) < m ->
  over s'.
Proof.
  intros n m s s' R Q T RUN M. pose proof (finv_runs _ _ _ _ R Q T RUN) as F.
  pose proof (wrank_bound (st_wpc s)). unfold mu in F.
  assert (E : 10 * e * npops s' <= 10 * e * npops s + 10 * e * (npops s' - npops s)) by nia.
  destruct F as [O|[(A & B)|(A & B & _)]]; auto; unfold mu in B; lia.
Qed.

Lemma few_pops : forall n m s s', e = 0 -> qreachable k n s -> In r (queue w s) -> runs k m s s' ->
  st_ts s' = RUNNING -> In r (queue w s') -> npops s' + looks s' <= npops s + looks s.
Proof.
  intros n m s s' E0 R Q T RUN Q'. pose proof (finv_runs _ _ _ _ R Q T RUN) as F.
  assert (HL : linv k s').
  { eapply linv_reachable. eapply steps_app; [exact R|eapply runs_steps; eauto]. }
  destruct F as [O|[(A & B)|(A & B & C)]]; auto.
  - exfalso. eapply over_not_queued; eauto.
  - exfalso. eapply at_not_queued; eauto.
Qed.
End Measure.
