(** Properties C19, C20, C24 and C26 of requests and request queues. *)
From Coq Require Import List Bool PeanoNat Lia.
From Verif Require Import QueueModel QueueSpec QueueProofs QueueLife QueueTrace QueueClients QueueMain QueueRun QueueTokens QueueProgress QueueFifo.
Import ListNotations.

(** ** C19 *)

Lemma life_flag : forall k n s r q h b, qreachable k n s -> nth_error (st_reqs s) r = Some q ->
  In (handler_event h r b) (filter (about r) (trace s)) -> h = q_handler q.
Proof.
  intros k n s r q h b R H I. apply filter_In in I. symmetry. eapply handler_flag; [|exact H|apply I].
  eapply err_reachable; eauto.
Qed.

(** The events of every request follow one of the two lives, so everything
    happens at most once and in that order. *)
Theorem C19_life_cycle : forall k n s r q, qreachable k n s -> nth_error (st_reqs s) r = Some q ->
  (exists c ok dead, prefix (filter (about r) (trace s)) (served_life (q_handler q) c r ok dead)) \/
  (exists c c' dead, prefix (filter (about r) (trace s)) (cancelled_life (q_handler q) c c' r dead)).
Proof.
  intros k n s r q R H. pose proof (linv_reachable _ _ _ R) as L.
  pose proof (reach_word k s r L) as W. pose proof (l_fld k s L r q H) as FL.
  pose proof (fun h b => life_flag k n s r q h b R H) as HF.
  apply word_served in W. unfold served_life, cancelled_life, prefix in *.
  destruct (loc r (st_log s)) as [|c0| | |c0|o st|o|]; cbn in FL; try tauto; try (destruct o); try (destruct st);
    repeat match goal with X : exists _, _ |- _ => destruct X end;
    match goal with X : filter _ _ = _ |- _ => rewrite X in HF |- * end;
    try match type of HF with context [handler_event ?h r ?b] =>
          assert (HQ : h = q_handler q) by (apply (HF h b); cbn; auto 10); subst h end;
    try (left; do 3 eexists; eexists; cbn; reflexivity);
    try (right; do 3 eexists; eexists; cbn; reflexivity).
  Unshelve. all: exact 0 || exact true.
Qed.
Print Assumptions C19_life_cycle.

Theorem C19_handler_at_most_once : forall k n s r, qreachable k n s ->
  handler_calls r (trace s) <= 1.
Proof.
  intros k n s r R. rewrite handler_calls_about.
  pose proof (reach_word k s r (linv_reachable _ _ _ R)) as W. apply word_served in W.
  unfold served_life, cancelled_life in W.
  destruct (loc r (st_log s)) as [|c0| | |c0|o st|o|]; try (destruct o); try (destruct st);
    repeat match goal with X : exists _, _ |- _ => destruct X end; try tauto;
    match goal with X : filter _ _ = _ |- _ => rewrite X end;
    repeat match goal with h : bool |- _ => destruct h end; cbn; rewrite ?Nat.eqb_refl; cbn; lia.
Qed.
Print Assumptions C19_handler_at_most_once.

(** When wait (or wait_all) has returned, the handler of each request has run
    exactly once: after a successful transfer, with [true], or after a
    cancellation, with [false]. *)
Theorem C19_handler_before_wait_returns : forall k n s c rs l1 l2 r q, qreachable k n s ->
  trace s = l1 ++ EWaitRet c rs :: l2 -> In r rs ->
  nth_error (st_reqs s) r = Some q -> q_handler q = true ->
  handler_calls r l1 = 1 /\
  (before (EServe r true) (EHandler r true) l1 \/
   exists c', before (ETook c' r) (EHandler r false) l1).
Proof.
  intros k n s c rs l1 l2 r q R E I HQ HH.
  destruct (trace_split _ _ _ _ _ _ R E) as (s1 & s2 & R1 & T & EL & E1 & T2).
  destruct (inv_reachable _ _ _ R1) as (L1 & ER1 & CI1).
  pose proof (ev_wait_ret _ _ _ _ _ T EL) as HC. apply CI1 in HC. cbn in HC.
  destruct HC as (_ & done & EQ & HD). rewrite app_nil_r in EQ. subst done.
  destruct (HD r I) as (EN & NF). pose proof (ended_full k s1 r L1 EN) as F.
  assert (Q1 : exists q1, nth_error (st_reqs s1) r = Some q1).
  { destruct (nth_error (st_reqs s1) r) eqn:X; eauto. apply (l_dom k s1 L1) in X. rewrite X in EN. destruct EN. }
  destruct Q1 as (q1 & Q1).
  destruct (reqs_grow_steps _ _ _ _ _ (step_steps _ _ _ _ T T2) Q1) as (q' & A1 & A2 & _).
  assert (H1 : q_handler q1 = true) by congruence.
  subst l1. rewrite handler_calls_about.
  destruct F as [(h & c0 & ok & dead & F)|(h & c0 & c' & dead & F)].
  - assert (h = true).
    { rewrite <- H1. eapply life_flag; eauto. rewrite F. unfold served_life. cbn. auto 10. }
    subst h. unfold served_life in F. rewrite F. cbn. rewrite Nat.eqb_refl. split; auto. left.
    assert (OK : ok = true).
    { destruct ok; auto. exfalso. apply NF. rewrite <- in_trace.
      assert (X : In (EServe r false) (filter (about r) (trace s1))) by (rewrite F; cbn; auto 10).
      apply filter_In in X. tauto. }
    subst ok.
    destruct (filter_split _ _ _ (EServe r true) [ECreate c0 r; EPush r; EPop r] _ F) as (m1 & m2 & X1 & _ & X2).
    destruct (filter_split _ _ _ (EHandler r true) [EDone r] _ X2) as (m3 & m4 & X3 & _ & _).
    exists m1, m3, m4. rewrite X1, X3. reflexivity.
  - assert (h = true).
    { rewrite <- H1. eapply life_flag; eauto. rewrite F. unfold cancelled_life. cbn. auto 10. }
    subst h. unfold cancelled_life in F. rewrite F. cbn. rewrite Nat.eqb_refl. split; auto. right. exists c'.
    destruct (filter_split _ _ _ (ETook c' r) [ECreate c0 r; EPush r; EErase c' r] _ F) as (m1 & m2 & X1 & _ & X2).
    destruct (filter_split _ _ _ (EHandler r false) [EDone r] _ X2) as (m3 & m4 & X3 & _ & _).
    exists m1, m3, m4. rewrite X1, X3. reflexivity.
Qed.
Print Assumptions C19_handler_before_wait_returns.

(** A run in which client 1 waits for two requests, one served and one cancelled
    by client 0. *)
Definition run19 : list move :=
  submit 0 Write true ++ submit 0 Read true ++ Cancel 0 [1] :: Cs 0 10 ++
  WaitAll 1 [0; 1] :: Ws 8 ++ Cs 1 3.
Example C19_case :
  possible (QwQr PWrite) 2 run19 = true /\
  In (EWaitRet 1 [0; 1]) (trace (after (QwQr PWrite) 2 run19)) /\
  handler_calls 0 (trace (after (QwQr PWrite) 2 run19)) = 1 /\
  handler_calls 1 (trace (after (QwQr PWrite) 2 run19)) = 1 /\
  In (EHandler 0 true) (trace (after (QwQr PWrite) 2 run19)) /\
  In (EHandler 1 false) (trace (after (QwQr PWrite) 2 run19)).
Proof. vm_compute. intuition. Qed.

(** ** C20 *)
Theorem C20_served_or_cancelled_not_both : forall k n s r, qreachable k n s ->
  transfers r (trace s) + cancel_successes r (trace s) <= 1.
Proof.
  intros k n s r R. destruct (jinv_reachable _ _ _ R r) as (J1 & J2).
  unfold trace at 2. rewrite succ_rev. rewrite transfers_about.
  pose proof (reach_word k s r (linv_reachable _ _ _ R)) as W. apply word_served in W.
  unfold served_life, cancelled_life in W.
  assert (Z : (forall c, loc r (st_log s) <> PEnd (Some c)) -> cancel_successes r (st_log s) = 0).
  { intros N. destruct (cancel_successes r (st_log s)) eqn:X; auto. exfalso. destruct J2 as ((c & J2) & _); [lia|]. exact (N c J2). }
  destruct (loc r (st_log s)) as [|c0| | |c0|o st|o|] eqn:LO; try (destruct o); try (destruct st);
    try (rewrite Z by (intros; discriminate));
    repeat match goal with X : exists _, _ |- _ => destruct X end; try tauto;
    match goal with X : filter _ _ = _ |- _ => rewrite X end;
    repeat match goal with h : bool |- _ => destruct h end; cbn; rewrite ?Nat.eqb_refl; cbn; try lia.
Qed.
Print Assumptions C20_served_or_cancelled_not_both.

(** What a reported result means. *)
Lemma result_at : forall k n s c rs bs m l1 l2 i r b, qreachable k n s ->
  trace s = l1 ++ ECancelRet c rs bs m :: l2 -> nth_error rs i = Some r -> nth_error bs i = Some b ->
  exists s1, qreachable k n s1 /\ trace s1 = l1 /\ steps k s1 s /\
    if b then loc r (st_log s1) = PEnd (Some c) else taken (loc r (st_log s1)).
Proof.
  intros k n s c rs bs m l1 l2 i r b R E HR HB.
  destruct (trace_split _ _ _ _ _ _ R E) as (s1 & s2 & R1 & T & EL & E1 & T2).
  destruct (inv_reachable _ _ _ R1) as (L1 & ER1 & CI1).
  destruct (ev_cancel_ret _ _ _ _ _ _ _ T EL) as (HC & _). apply CI1 in HC. cbn in HC.
  destruct HC as (_ & done & EQ & (RS & _)). rewrite app_nil_r in EQ. subst done.
  exists s1. split; auto. split; auto. split; [eapply step_steps; eauto|].
  clear - RS HR HB. revert i HR HB. induction RS as [|x y xs ys A RS IH]; intros [|i] HR HB; cbn in *; try discriminate.
  - injection HR as ->. injection HB as ->. auto.
  - exact (IH _ HR HB).
Qed.

(** cancel said true: the request was removed by this call, is complete, and is
    not transferred, before or later. *)
Theorem C20_true_means_never_transferred : forall k n s c rs bs m l1 l2 i r, qreachable k n s ->
  trace s = l1 ++ ECancelRet c rs bs m :: l2 ->
  nth_error rs i = Some r -> nth_error bs i = Some true ->
  In (EErase c r) l1 /\ completed r l1 /\
  forall s', steps k s s' -> transfers r (trace s') = 0.
Proof.
  intros k n s c rs bs m l1 l2 i r R E HR HB.
  destruct (result_at _ _ _ _ _ _ _ _ _ _ _ _ R E HR HB) as (s1 & R1 & <- & T1 & LO).
  pose proof (linv_reachable _ _ _ R1) as L1.
  split; [|split].
  - rewrite in_trace. eapply (word_in k s1 r); eauto. intros w W. words W. unfold cancelled_life; cbn; auto.
  - unfold completed. rewrite in_trace. eapply (word_in k s1 r); eauto. intros w W. words W. unfold cancelled_life; cbn; auto 10.
  - intros s' T'. assert (T2 : steps k s1 s') by (eapply steps_app; eauto).
    pose proof (end_steps _ _ _ _ _ L1 T2 LO) as LO'.
    assert (L' : linv k s') by (eapply linv_reachable; eapply steps_app; [exact R1|exact T2]).
    pose proof (reach_word k s' r L') as W. rewrite LO' in W. rewrite transfers_about. words W.
    match goal with X : filter _ _ = _ |- _ => rewrite X end. unfold cancelled_life.
    repeat match goal with h : bool |- _ => destruct h end; reflexivity.
Qed.
Print Assumptions C20_true_means_never_transferred.

(** cancel said false: the worker had taken the request, or another canceller
    had. *)
Theorem C20_false_means_taken : forall k n s c rs bs m l1 l2 i r, qreachable k n s ->
  trace s = l1 ++ ECancelRet c rs bs m :: l2 ->
  nth_error rs i = Some r -> nth_error bs i = Some false ->
  In (EPop r) l1 \/ cancelled r l1.
Proof.
  intros k n s c rs bs m l1 l2 i r R E HR HB.
  destruct (result_at _ _ _ _ _ _ _ _ _ _ _ _ R E HR HB) as (s1 & R1 & <- & T1 & LO).
  pose proof (linv_reachable _ _ _ R1) as L1. unfold cancelled.
  assert (G : (exists w, word r (loc r (st_log s1)) w /\ (forall e, In e w -> In e (trace s1)))).
  { exists (filter (about r) (trace s1)). split; [eapply reach_word; eauto|]. intros e X. apply filter_In in X. tauto. }
  destruct G as (w & W & G).
  destruct (loc r (st_log s1)) as [|c0| | |c0|o st|o|]; cbn in LO; try tauto; try (destruct o); try (destruct st);
    words W; unfold served_life, cancelled_life in G;
    try (left; apply G; cbn; auto; fail); right; eexists; apply G; cbn; auto.
Qed.
Print Assumptions C20_false_means_taken.

(** A request the worker took has been transferred, or the worker is at it. *)
Theorem C20_taken_means_served : forall k n s r, qreachable k n s -> In (EPop r) (trace s) ->
  transferred r (trace s) \/ st_wpc s = WServe r.
Proof.
  intros k n s r R P. pose proof (linv_reachable _ _ _ R) as L. rewrite in_trace in P.
  pose proof (pop_worker _ _ _ L P) as B. unfold transferred.
  assert (G : (exists w, word r (loc r (st_log s)) w /\ (forall e, In e w -> In e (trace s)))).
  { exists (filter (about r) (trace s)). split; [eapply reach_word; eauto|]. intros e X. apply filter_In in X. tauto. }
  destruct G as (w & W & G).
  destruct (loc r (st_log s)) as [|c0| | |c0|o st|o|] eqn:LO; cbn in B; try tauto; try (destruct o); try tauto.
  - right. assert (A : active (loc r (st_log s))) by (rewrite LO; exact I).
    apply (l_act k s L) in A. rewrite LO in A. remember PServe as p eqn:Ep. destruct A as [p A | c pc p A C | w' A].
    + destruct (st_wpc s); cbn in A; try discriminate; injection A; intros; subst; try discriminate; auto.
    + destruct pc; cbn in C; try discriminate; injection C; intros; subst; discriminate.
    + discriminate.
  - left. destruct st; words W; eexists; apply G; cbn; auto.
  - left. words W. eexists; apply G; unfold served_life; cbn; auto.
Qed.
Print Assumptions C20_taken_means_served.

(** cancel tests [file_] and then uses it; the completing thread resets it in
    between. *)
Theorem C20_cancel_never_crashes_refuted : exists s, qreachable (QwQr PWrite) 2 s /\ In (ENullDeref 1) (trace s).
Proof.
  exists (after (QwQr PWrite) 2 (submit 0 Write false ++ Ws 6 ++ Cancel 1 [0] :: Cs 1 1 ++ Ws 1 ++ Cs 1 1)).
  split; [apply after_reachable|]. vm_compute. auto 20.
Qed.
Print Assumptions C20_cancel_never_crashes_refuted.

(** Two clients cancel two requests; the worker has already taken request 0. *)
Definition run20 : list move :=
  submit 0 Write true ++ submit 0 Read true ++ Ws 2 ++
  Cancel 0 [0; 1] :: Cancel 1 [1] :: Cs 0 13 ++ Cs 1 2 ++ Ws 6.
Example C20_case :
  possible (QwQr PWrite) 2 run20 = true /\
  In (ECancelRet 0 [0; 1] [false; true] 1) (trace (after (QwQr PWrite) 2 run20)) /\
  In (ECancelRet 1 [1] [false] 0) (trace (after (QwQr PWrite) 2 run20)) /\
  transfers 0 (trace (after (QwQr PWrite) 2 run20)) = 1 /\
  cancel_successes 1 (trace (after (QwQr PWrite) 2 run20)) = 1.
Proof. vm_compute. intuition. Qed.

(** ** C24 *)
(** A throwing wait or wait_any reports a request whose transfer failed; a
    normal return means that no transfer of the requests concerned failed. *)
Theorem C24_throw_means_failed : forall k n s c rs r l1 l2, qreachable k n s ->
  trace s = l1 ++ EWaitThrow c rs r :: l2 \/ trace s = l1 ++ EAnyThrow c rs r :: l2 ->
  In r rs /\ failed r l1.
Proof.
  intros k n s c rs r l1 l2 R [E|E];
    destruct (trace_split _ _ _ _ _ _ R E) as (s1 & s2 & R1 & T & EL & E1 & T2);
    destruct (inv_reachable _ _ _ R1) as (L1 & ER1 & CI1).
  - destruct (ev_wait_throw _ _ _ _ _ _ T EL) as (rest & q & HC & HQ & _ & HE). apply CI1 in HC. cbn in HC.
    destruct HC as (_ & done & -> & _). split; [apply in_elt|].
    unfold failed. rewrite <- E1, in_trace. eapply err_true; eauto.
  - destruct (ev_any_throw _ _ _ _ _ _ T EL) as ((q & HQ & HE) & HC). split.
    + destruct HC as [(done & todo & sw & _ & ->)|[(sw & HC)|(todo & sw & sp & HC)]]; [apply in_elt| |];
        apply CI1 in HC; cbn in HC.
      * apply HC.
      * destruct HC as (_ & (done & ->) & _). apply in_elt.
    + unfold failed. rewrite <- E1, in_trace. eapply err_true; eauto.
Qed.
Print Assumptions C24_throw_means_failed.

Theorem C24_return_means_no_failure : forall k n s c rs r l1 l2, qreachable k n s ->
  (trace s = l1 ++ EWaitRet c rs :: l2 /\ In r rs) \/
  (exists sp, trace s = l1 ++ EAnyRet c rs (Some r) sp :: l2) ->
  forall s', steps k s s' -> ~ failed r (trace s').
Proof.
  intros k n s c rs r l1 l2 R H s' T'.
  assert (G : exists s1, qreachable k n s1 /\ steps k s1 s /\ good_fin (st_log s1) r).
  { destruct H as [(E & I)|(sp & E)];
    destruct (trace_split _ _ _ _ _ _ R E) as (s1 & s2 & R1 & T & EL & E1 & T2);
    destruct (inv_reachable _ _ _ R1) as (L1 & ER1 & CI1); exists s1; (split; [auto|]; split; [eapply step_steps; eauto|]).
    - pose proof (ev_wait_ret _ _ _ _ _ T EL) as HC. apply CI1 in HC. cbn in HC.
      destruct HC as (_ & done & EQ & HD). rewrite app_nil_r in EQ. subst done.
      destruct (HD r I) as (EN & NF). split; auto. destruct (loc r (st_log s1)); cbn in *; tauto.
    - destruct (ev_any_ret _ _ _ _ _ _ _ T EL) as [(sw & r' & q & HC & X & _)|(sw & HC)]; apply CI1 in HC; cbn in HC.
      + injection X as ->. apply HC.
      + apply HC. }
  destruct G as (s1 & R1 & T1 & G). pose proof (linv_reachable _ _ _ R1) as L1.
  assert (T2 : steps k s1 s') by (eapply steps_app; eauto).
  destruct (good_steps _ _ _ _ L1 T2 G) as (_ & N). unfold failed. rewrite in_trace. exact N.
Qed.
Print Assumptions C24_return_means_no_failure.

(** A client that waits for a completed request is not blocked: it throws if
    the transfer failed and goes on otherwise. *)
Theorem C24_waiter_moves : forall k n s c r rest all, qreachable k n s ->
  nth_error (st_clients s) c = Some (CWait (r :: rest) all) -> completed r (trace s) ->
  (exists s', cstep k c s s') /\
  forall s', cstep k c s s' ->
    if existsb (fun e => match e with EServe r' false => Nat.eqb r r' | _ => false end) (trace s)
    then trace s' = trace s ++ [EWaitThrow c all r] else trace s' = trace s.
Proof.
  intros k n s c r rest all R HC CO. destruct (inv_reachable _ _ _ R) as (L & ER & CI).
  unfold completed in CO. rewrite in_trace in CO.
  assert (EN : ended (loc r (st_log s))).
  { destruct (in_word k s r (EReady r) _ L eq_refl) as (l & W & X); auto; [cbn; apply Nat.eqb_refl|].
    destruct (loc r (st_log s)) as [|c0| | |c0|o st|o|]; cbn; auto; try (destruct o); try (destruct st);
      words W; repeat match goal with h : bool |- _ => destruct h end; cbn in X;
      repeat (destruct X as [X|X]; [discriminate X|]); try tauto. }
  destruct (nth_error (st_reqs s) r) as [q|] eqn:HQ; [|apply (l_dom k s L) in HQ; rewrite HQ in EN; destruct EN].
  assert (ST : q_state q = READY2DIE).
  { pose proof (l_fld k s L _ _ HQ) as F. destruct (loc r (st_log s)); cbn in *; tauto. }
  assert (EB : existsb (fun e => match e with EServe r' false => Nat.eqb r r' | _ => false end) (trace s) = q_err q).
  { apply Bool.eq_iff_eq_true. rewrite (proj1 (ER _ _ HQ)), existsb_exists. split.
    - intros (e & A & B). destruct e; try discriminate. destruct ok; try discriminate. apply Nat.eqb_eq in B. subst.
      rewrite in_trace in A. auto.
    - intros A. exists (EServe r false). rewrite in_trace. split; auto. apply Nat.eqb_refl. }
  rewrite EB. split.
  - destruct (q_err q) eqn:QE; eexists; [eapply c_wait_throw | eapply c_wait_ok]; eauto.
  - intros s' T. destruct T; rewrite HC in H; try discriminate; injection H; intros; subst;
      rewrite HQ in H0; injection H0; intros; subst; rewrite H2; reflexivity.
Qed.
Print Assumptions C24_waiter_moves.

(** The completion handler is told success whether or not the transfer failed. *)
Theorem C24_handler_told_success : forall k n s r ok b, qreachable k n s ->
  In (EServe r ok) (trace s) -> In (EHandler r b) (trace s) -> b = true.
Proof.
  intros k n s r ok b R A B. pose proof (linv_reachable _ _ _ R) as L. rewrite in_trace in A, B.
  destruct (in_word k s r (EServe r ok) _ L eq_refl) as (l & W & I); auto; [cbn; apply Nat.eqb_refl|].
  destruct (in_word k s r (EHandler r b) _ L eq_refl) as (l' & W' & I'); auto; [cbn; apply Nat.eqb_refl|].
  destruct b; auto. exfalso.
  destruct (loc r (st_log s)) as [|c0| | |c0|o st|o|]; try (destruct o as [c0|]); try (destruct st);
    words W; words W'; unfold served_life, cancelled_life in *; cbn in I, I';
    try (repeat (destruct I as [I|I]; [first [discriminate I | match goal with h : bool |- _ => destruct h; discriminate I end]|]); tauto);
    repeat (destruct I' as [I'|I']; [first [discriminate I' | match goal with h : bool |- _ => destruct h; discriminate I' end]|]); tauto.
Qed.
Print Assumptions C24_handler_told_success.

Theorem C24_handler_sees_failure_refuted :
  exists s, qreachable (QwQr PWrite) 1 s /\ failed 0 (trace s) /\ In (EHandler 0 true) (trace s).
Proof.
  exists (after (QwQr PWrite) 1 (submit 0 Read true ++ Ws 6 ++ W false :: Ws 5)). split; [apply after_reachable|].
  unfold failed. vm_compute. auto 20.
Qed.
Print Assumptions C24_handler_sees_failure_refuted.

(** One request fails, one succeeds; waiting for both throws, waiting for the
    good one returns, and wait_any on the failed one throws. *)
Definition run24 : list move :=
  submit 0 Write true ++ submit 0 Write false ++ Ws 2 ++ W false :: Ws 14 ++
  WaitAll 0 [1; 0] :: Cs 0 2 ++ WaitAll 0 [1] :: Cs 0 2 ++ WaitAny 0 [0; 1] :: Cs 0 1.
Example C24_case :
  possible (QwQr PWrite) 1 run24 = true /\
  trace (after (QwQr PWrite) 1 run24) =
    firstn 17 (trace (after (QwQr PWrite) 1 run24)) ++
    [EReady 1; EWaitThrow 0 [1; 0] 0; EWaitRet 0 [1]; EAnyThrow 0 [0; 1] 0].
Proof. vm_compute. auto. Qed.

(** ** C26 *)
Theorem C26_cancel_all_counts : forall k n s c rs bs m l1 l2, qreachable k n s ->
  trace s = l1 ++ ECancelRet c rs bs m :: l2 ->
  length bs = length rs /\ m = length (filter (fun b => b) bs) /\
  forall i r b, nth_error rs i = Some r -> nth_error bs i = Some b ->
    if b then In (EErase c r) l1 /\ completed r l1 else In (EPop r) l1 \/ cancelled r l1.
Proof.
  intros k n s c rs bs m l1 l2 R E.
  destruct (trace_split _ _ _ _ _ _ R E) as (s1 & s2 & R1 & T & EL & E1 & T2).
  destruct (inv_reachable _ _ _ R1) as (L1 & ER1 & CI1).
  destruct (ev_cancel_ret _ _ _ _ _ _ _ T EL) as (HC & HM). apply CI1 in HC. cbn in HC.
  destruct HC as (_ & done & EQ & (RS & _)). rewrite app_nil_r in EQ. subst done.
  split; [eapply Forall2_len; eauto|]. split; [exact HM|].
  intros i r [] HR HB.
  - destruct (C20_true_means_never_transferred _ _ _ _ _ _ _ _ _ _ _ R E HR HB) as (A & B & _). auto.
  - exact (C20_false_means_taken _ _ _ _ _ _ _ _ _ _ _ R E HR HB).
Qed.
Print Assumptions C26_cancel_all_counts.

Theorem C26_wait_all_waits : forall k n s c rs l1 l2 r, qreachable k n s ->
  trace s = l1 ++ EWaitRet c rs :: l2 -> In r rs -> completed r l1.
Proof.
  intros k n s c rs l1 l2 r R E I.
  destruct (trace_split _ _ _ _ _ _ R E) as (s1 & s2 & R1 & T & EL & E1 & T2).
  destruct (inv_reachable _ _ _ R1) as (L1 & ER1 & CI1).
  pose proof (ev_wait_ret _ _ _ _ _ T EL) as HC. apply CI1 in HC. cbn in HC.
  destruct HC as (_ & done & EQ & HD). rewrite app_nil_r in EQ. subst done.
  destruct (HD r I) as (EN & _). unfold completed. rewrite <- E1, in_trace.
  destruct (loc r (st_log s1)) as [| | | | | |o|] eqn:LO; cbn in EN; try tauto.
  eapply (word_in k s1 r); eauto. intros w W. destruct o; words W; unfold served_life, cancelled_life; cbn; auto 12.
Qed.
Print Assumptions C26_wait_all_waits.

(** The error thrown is that of the first failed request of the range, and
    everything before it has completed. *)
Theorem C26_wait_all_throws_first : forall k n s c rs l1 l2 r, qreachable k n s ->
  trace s = l1 ++ EWaitThrow c rs r :: l2 ->
  completed r l1 /\ failed r l1 /\
  exists pre post, rs = pre ++ r :: post /\ forall r', In r' pre -> completed r' l1 /\ ~ failed r' l1.
Proof.
  intros k n s c rs l1 l2 r R E.
  destruct (trace_split _ _ _ _ _ _ R E) as (s1 & s2 & R1 & T & EL & E1 & T2).
  destruct (inv_reachable _ _ _ R1) as (L1 & ER1 & CI1).
  assert (CO : forall r', ended (loc r' (st_log s1)) -> completed r' (trace s1)).
  { intros r' EN. unfold completed. rewrite in_trace.
    destruct (loc r' (st_log s1)) as [| | | | | |o|] eqn:LO; cbn in EN; try tauto.
    eapply (word_in k s1 r'); eauto. intros w W. destruct o; words W; unfold served_life, cancelled_life; cbn; auto 12. }
  destruct (ev_wait_throw _ _ _ _ _ _ T EL) as (rest & q & HC & HQ & ST & HE). apply CI1 in HC. cbn in HC.
  destruct HC as (_ & done & -> & HD). subst l1. split; [|split].
  - apply CO. eapply ready_ended; eauto.
  - unfold failed. rewrite in_trace. eapply err_true; eauto.
  - exists done, rest. split; auto. intros r' I. destruct (HD r' I) as (A & B). split; auto.
    unfold failed. rewrite in_trace. exact B.
Qed.
Print Assumptions C26_wait_all_throws_first.

Example C26_case :
  trace (after (QwQr PWrite) 2 run20) =
    firstn 11 (trace (after (QwQr PWrite) 2 run20)) ++
    [EReady 1; ECancelRet 0 [0; 1] [false; true] 1; ECancelRet 1 [1] [false] 0] ++
    skipn 14 (trace (after (QwQr PWrite) 2 run20)).
Proof. vm_compute. auto. Qed.
