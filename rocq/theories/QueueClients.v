(** What a client thread knows about the requests it handles. *)
From Coq Require Import List Bool PeanoNat Lia.
From Verif Require Import QueueModel QueueSpec QueueProofs QueueLife QueueTrace.
Import ListNotations.

Definition pushed (p : ph) : Prop := match p with PNone | PPush _ | PBad => False | _ => True end.
Definition taken (p : ph) : Prop := match p with PServe | PTake _ | PFin _ _ | PEnd _ => True | _ => False end.
Definition fin (p : ph) : Prop :=
  match p with PFin _ SDone => False | PFin _ _ | PEnd _ => True | _ => False end.
Definition ended (p : ph) : Prop := match p with PEnd _ => True | _ => False end.

(** Finished without an error. *)
Definition good_fin (log : list event) (r : nat) : Prop :=
  fin (loc r log) /\ ~ In (EServe r false) log.

Definition results (log : list event) (c : nat) (done : list nat) (acc : list bool) : Prop :=
  Forall2 (fun r (b : bool) => if b then loc r log = PEnd (Some c) else taken (loc r log)) done acc /\
  forall r, hits r done acc <= 1.

Definition cinv (log : list event) (c : nat) (p : cpc) : Prop :=
  match p with
  | CCancel rest all acc =>
      (forall r, In r all -> pushed (loc r log)) /\
      exists done, all = done ++ rest /\ results log c done acc
  | CDeref r rest all acc | CErase r rest all acc | CTake r rest all acc | CFin r _ rest all acc =>
      (forall r, In r all -> pushed (loc r log)) /\
      exists done, all = done ++ r :: rest /\ results log c done acc
  | CWait rest all =>
      (forall r, In r all -> pushed (loc r log)) /\
      exists done, all = done ++ rest /\ forall r, In r done -> ended (loc r log) /\ ~ In (EServe r false) log
  | CAnyAdd done todo sw => forall r, In r (done ++ todo) -> pushed (loc r log)
  | CAnyUndo del all res sw =>
      (forall r, In r all -> pushed (loc r log)) /\ In res all /\ good_fin log res
  | CAnyWait all sw => forall r, In r all -> pushed (loc r log)
  | CAnyScan todo all res sw sp =>
      (forall r, In r all -> pushed (loc r log)) /\ (exists done, all = done ++ todo) /\
      match res with Some r => In r all /\ good_fin log r | None => True end
  | _ => True
  end.

Definition cinvs (s : state) : Prop :=
  forall c pc, nth_error (st_clients s) c = Some pc -> cinv (st_log s) c pc.

(** The facts above are stable. *)
Section Stable.
  Variables (k : kind) (s s' : state).
  Hypothesis L : linv k s.
  Hypothesis L' : linv k s'.
  Hypothesis T : step k s s'.

  Lemma loc_next : forall r, loc r (st_log s') = loc r (st_log s) \/
    exists e, about r e = true /\ st_log s' = e :: st_log s /\ loc r (st_log s') = adv e (loc r (st_log s)).
  Proof using T.
    intros r. destruct (one_event _ _ _ T) as [->|(e & E)]; auto.
    rewrite E. cbn. destruct (about r e) eqn:A; eauto.
  Qed.

  Lemma loc_next_ok : forall r, loc r (st_log s') <> PBad.
  Proof using L'. intros. eapply loc_good; eauto. Qed.

  Ltac stab r := destruct (loc_next r) as [->|(e & A & Elog & E)]; auto;
    pose proof (loc_next_ok r) as NB; rewrite E in *;
    destruct (loc r (st_log s)) as [|c0| | |c0|o st|o|]; cbn in *; try tauto; try congruence;
    destruct e; cbn in *; try tauto; try congruence;
    try (destruct st; cbn in *; try tauto; try congruence);
    repeat match goal with |- context [if ?b then _ else _] => destruct b end;
    cbn in *; try tauto; try congruence.

  Lemma pushed_stable : forall r, pushed (loc r (st_log s)) -> pushed (loc r (st_log s')).
  Proof using T L'. intros r H. stab r. Qed.
  Lemma taken_stable : forall r, taken (loc r (st_log s)) -> taken (loc r (st_log s')).
  Proof using T L'. intros r H. stab r. Qed.
  Lemma fin_stable : forall r, fin (loc r (st_log s)) -> fin (loc r (st_log s')).
  Proof using T L'. intros r H. stab r. Qed.
  Lemma end_stable : forall r o, loc r (st_log s) = PEnd o -> loc r (st_log s') = PEnd o.
  Proof using T L'.
    intros r o H. destruct (loc_next r) as [->|(e & A & Elog & E)]; auto.
    pose proof (loc_next_ok r) as NB. rewrite E, H in *. destruct e; cbn in *; congruence.
  Qed.
  Lemma ended_stable : forall r, ended (loc r (st_log s)) -> ended (loc r (st_log s')).
  Proof using T L'.
    intros r H. destruct (loc r (st_log s)) eqn:E; cbn in H; try tauto.
    rewrite (end_stable _ _ E). exact H.
  Qed.
  Lemma noerr_stable : forall r, fin (loc r (st_log s)) -> ~ In (EServe r false) (st_log s) ->
    ~ In (EServe r false) (st_log s').
  Proof using T L'.
    intros r F N X. destruct (one_event _ _ _ T) as [E|(e & E)]; rewrite E in X; auto.
    destruct X as [->|X]; auto.
    pose proof (loc_next_ok r) as NB. rewrite E in NB. cbn in NB. rewrite Nat.eqb_refl in NB.
    destruct (loc r (st_log s)) as [|c0| | |c0|o st|o|]; cbn in *; try tauto.
    destruct st; cbn in *; tauto.
  Qed.
  Lemma ended_fin : forall p, ended p -> fin p.
  Proof using. intros []; cbn; tauto. Qed.

  Lemma results_stable : forall c done acc, results (st_log s) c done acc -> results (st_log s') c done acc.
  Proof using T L'.
    intros c done acc (A & B). split; auto. clear B. induction A as [|r b done acc X A IH]; constructor; auto.
    destruct b; [apply end_stable | apply taken_stable]; auto.
  Qed.

  Lemma good_stable : forall r, good_fin (st_log s) r -> good_fin (st_log s') r.
  Proof using T L'. intros r (A & B). split; [apply fin_stable | apply noerr_stable]; auto. Qed.

  Lemma cinv_stable : forall c pc, cinv (st_log s) c pc -> cinv (st_log s') c pc.
  Proof using T L'.
    intros c pc H. destruct pc; cbn in *; auto;
      try (destruct H as (A & done0 & B & C); split; [intros; apply pushed_stable; auto |
             exists done0; split; auto; apply results_stable; auto]).
    - destruct H as (A & done0 & B & C). split; [intros; apply pushed_stable; auto|].
      exists done0. split; auto. intros r I. destruct (C _ I) as (X & Y).
      split; [apply ended_stable; auto|]. apply noerr_stable; auto. apply ended_fin; auto.
    - intros; apply pushed_stable; auto.
    - destruct H as (A & B & C). split; [intros; apply pushed_stable; auto|]. split; auto.
      apply good_stable; auto.
    - intros; apply pushed_stable; auto.
    - destruct H as (A & B & C). split; [intros; apply pushed_stable; auto|]. split; auto.
      destruct res; auto. destruct C as (C & D). split; auto. apply good_stable; auto.
  Qed.

  Lemma cinvs_same : cinvs s -> st_clients s' = st_clients s -> cinvs s'.
  Proof using T L'. intros I E c pc H. rewrite E in H. apply cinv_stable. auto. Qed.

  (** Client [c] moves; it is enough that the new facts hold before the step. *)
  Lemma cinvs_move : forall c pc0 pc1, cinvs s -> nth_error (st_clients s) c = Some pc0 ->
    st_clients s' = upd c pc1 (st_clients s) ->
    cinv (st_log s') c pc1 -> cinvs s'.
  Proof using T L'.
    intros c pc0 pc1 I H E X c' pc Y. rewrite E, (nth_upd _ _ _ _ _ _ H) in Y.
    destruct (Nat.eqb_spec c c').
    - injection Y as <-. subst; auto.
    - apply cinv_stable. auto.
  Qed.
End Stable.

Lemma err_false : forall s r q, err_inv s -> nth_error (st_reqs s) r = Some q -> q_err q = false ->
  ~ In (EServe r false) (st_log s).
Proof. intros s r q I H E X. apply (proj1 (I _ _ H)) in X. congruence. Qed.

Lemma err_true : forall s r q, err_inv s -> nth_error (st_reqs s) r = Some q -> q_err q = true ->
  In (EServe r false) (st_log s).
Proof. intros s r q I H E. apply (proj1 (I _ _ H)). auto. Qed.

Lemma finished_fin : forall k s r q, linv k s -> nth_error (st_reqs s) r = Some q ->
  finished q = true -> fin (loc r (st_log s)).
Proof.
  intros k s r q L H F. pose proof (l_fld k s L _ _ H) as X. unfold finished in F.
  destruct (loc r (st_log s)) as [|c0| | |c0|o st|o|]; cbn in *; try tauto; try (destruct st; cbn in *; auto);
    destruct X as (X & _); rewrite X in F; congruence.
Qed.

Lemma fin_finished : forall k s r q, linv k s -> nth_error (st_reqs s) r = Some q ->
  fin (loc r (st_log s)) -> finished q = true.
Proof.
  intros k s r q L H F. pose proof (l_fld k s L _ _ H) as X. unfold finished.
  destruct (loc r (st_log s)) as [|c0| | |c0|o st|o|]; cbn in *; try tauto;
    try (destruct st; cbn in *; try tauto); destruct X as (X & _); rewrite X; reflexivity.
Qed.

Lemma ready_ended : forall k s r q, linv k s -> nth_error (st_reqs s) r = Some q ->
  q_state q = READY2DIE -> ended (loc r (st_log s)).
Proof.
  intros k s r q L H F. pose proof (l_fld k s L _ _ H) as X.
  destruct (loc r (st_log s)) as [|c0| | |c0|o st|o|]; cbn in *; try tauto;
    try (destruct st; cbn in *); destruct X as (X & _); congruence.
Qed.

Lemma nofile_taken : forall k s r q, linv k s -> nth_error (st_reqs s) r = Some q ->
  q_file q = false -> taken (loc r (st_log s)).
Proof.
  intros k s r q L H F. pose proof (l_fld k s L _ _ H) as X.
  destruct (loc r (st_log s)) as [|c0| | |c0|o st|o|]; cbn in *; try tauto;
    destruct X as (_ & X); congruence.
Qed.

Lemma own_queued : forall k s r, linv k s -> loc r (st_log s) = PQueued ->
  exists w q, In r (queue w s) /\ nth_error (st_reqs s) r = Some q /\ which k (q_op q) = w.
Proof.
  intros k s r L E. assert (A : active (loc r (st_log s))) by (rewrite E; exact I).
  apply (l_act k s L) in A. rewrite E in A. remember PQueued as p eqn:Ep.
  destruct A as [p A | c pc p A B | w A].
  - destruct (st_wpc s); cbn in A; congruence.
  - destruct pc; cbn in B; congruence.
  - destruct (l_dir k s L _ _ A) as (q & B & C). eauto.
Qed.

Lemma missing_taken : forall k s r q, linv k s -> nth_error (st_reqs s) r = Some q ->
  pushed (loc r (st_log s)) -> ~ In r (queue (which k (q_op q)) s) -> taken (loc r (st_log s)).
Proof.
  intros k s r q L H P N. destruct (loc r (st_log s)) eqn:E; cbn in *; try tauto.
  destruct (own_queued _ _ _ L E) as (w & q' & A & B & C). congruence.
Qed.

Lemma results_snoc_false : forall log c done acc r, results log c done acc -> taken (loc r log) ->
  results log c (done ++ [r]) (acc ++ [false]).
Proof.
  intros log c done acc r (A & B) H. split.
  - apply Forall2_app; auto.
  - intros r'. specialize (B r'). revert B. clear -A. induction A as [|x b done acc X A IH]; cbn; intros.
    + destruct (Nat.eqb r' r); cbn; lia.
    + assert (hits r' done acc <= 1) by lia.
      enough (hits r' (done ++ [r]) (acc ++ [false]) = hits r' done acc) by lia.
      clear -A. induction A; cbn; [destruct (Nat.eqb r' r); reflexivity|lia].
Qed.

Lemma results_snoc_true : forall log c done acc r, results log c done acc ->
  loc r log = PEnd (Some c) -> hits r done acc = 0 ->
  results log c (done ++ [r]) (acc ++ [true]).
Proof.
  intros log c done acc r (A & B) H Z. split.
  - apply Forall2_app; auto.
  - intros r'. specialize (B r').
    assert (E : hits r' (done ++ [r]) (acc ++ [true]) = hits r' done acc + if Nat.eqb r' r then 1 else 0).
    { clear -A. induction A; cbn; [destruct (Nat.eqb r' r); reflexivity|lia]. }
    rewrite E. destruct (Nat.eqb_spec r' r); subst; lia.
Qed.

Lemma hits_pos : forall log c done acc r, results log c done acc -> hits r done acc <> 0 -> loc r log = PEnd (Some c).
Proof.
  intros log c done acc r (A & _) H. induction A as [|x b done acc X A IH]; cbn in H; [congruence|].
  destruct (Nat.eqb_spec r x); cbn in H; subst; auto. destruct b; cbn in H; auto.
Qed.

Lemma known_pushed : forall k s r, linv k s -> known s r -> pushed (loc r (st_log s)).
Proof.
  intros k s r L (K1 & K2). pose proof (loc_good k s r L) as G.
  destruct (loc r (st_log s)) eqn:E; cbn; auto.
  - apply nth_error_Some in K1. destruct (nth_error (st_reqs s) r) eqn:N; [|congruence].
    apply (l_fld k s L) in N. rewrite E in N. destruct N.
  - assert (A : active (loc r (st_log s))) by (rewrite E; exact I).
    apply (l_act k s L) in A. rewrite E in A. remember (PPush c) as p eqn:Ep.
    destruct A as [p A | c' pc p A B | w A].
    + destruct (st_wpc s); cbn in A; congruence.
    + destruct pc; cbn in B; congruence.
    + discriminate.
Qed.

Lemma app_cons_assoc : forall A (l : list A) x r, l ++ x :: r = (l ++ [x]) ++ r.
Proof. intros. rewrite <- app_assoc. reflexivity. Qed.

Lemma cinvs_step : forall k s s', linv k s -> err_inv s -> cinvs s -> step k s s' -> cinvs s'.
Proof.
  intros k s s' L ER CI T0. pose proof (linv_step _ _ _ L T0) as L'.
  assert (ST : forall c pc, cinv (st_log s) c pc -> cinv (st_log s') c pc)
    by (intros; eapply cinv_stable; eauto).
  pose proof (cinvs_same k s s' L' T0 CI) as SAME.
  pose proof (fun c pc0 pc1 => cinvs_move k s s' L' T0 c pc0 pc1 CI) as MOVE.
  destruct T0 as [s s' T | c s s' T | c s s' T]; destruct T;
    try (apply SAME; cbn; try (destruct (st_phase s)); rewrite ?(proj1 (proj2 (proj2 (proj2 (complete_frame _ _ _ _ _))))); reflexivity);
    try (pose proof (CI _ _ H) as X; cbn in X);
    try match goal with |- cinvs (?f) => idtac end.
  - (* create *) eapply MOVE; [eassumption|reflexivity|exact I].
  - (* cancel_all *) eapply MOVE; [eassumption|reflexivity|]. apply ST. cbn. split.
    + intros; eapply known_pushed; eauto.
    + exists []. split; auto. split; [constructor|intros; cbn; lia].
  - (* wait_all *) eapply MOVE; [eassumption|reflexivity|]. apply ST. cbn. split.
    + intros; eapply known_pushed; eauto.
    + exists []. split; auto. cbn. tauto.
  - (* wait_any *) eapply MOVE; [eassumption|reflexivity|]. apply ST. cbn. intros; eapply known_pushed; eauto.
  - (* stop *) eapply MOVE; [eassumption|reflexivity|exact I].
  - (* push *) eapply MOVE; [eassumption|destruct (which k (q_op q)); reflexivity|exact I].
  - eapply MOVE; [eassumption|reflexivity|exact I].
  - eapply MOVE; [eassumption|reflexivity|exact I].
  - (* nofile *) eapply MOVE; [eassumption|reflexivity|]. apply ST. destruct X as (A & done & B & C). split; auto.
    exists (done ++ [r]). rewrite <- app_cons_assoc. split; auto. apply results_snoc_false; auto.
    eapply nofile_taken; eauto.
  - eapply MOVE; [eassumption|reflexivity|]. apply ST. exact X.
  - eapply MOVE; [eassumption|reflexivity|exact I].
  - eapply MOVE; [eassumption|reflexivity|exact I].
  - eapply MOVE; [eassumption|reflexivity|]. apply ST. exact X.
  - (* erase *) eapply MOVE; [eassumption|destruct (which k (q_op q)); reflexivity|]. apply ST. exact X.
  - (* missing *) eapply MOVE; [eassumption|reflexivity|]. apply ST. destruct X as (A & done & B & C). split; auto.
    exists (done ++ [r]). rewrite <- app_cons_assoc. split; auto. apply results_snoc_false; auto.
    eapply missing_taken; eauto. apply A. rewrite B. apply in_elt.
  - (* take *) eapply MOVE; [eassumption|reflexivity|]. apply ST. exact X.
  - (* fin *) eapply MOVE; [eassumption| |]. 
    + cbn. rewrite (proj1 (proj2 (proj2 (proj2 (complete_frame _ _ _ _ _))))). reflexivity.
    + apply ST. exact X.
  - (* ready *) eapply MOVE; [eassumption|reflexivity|].
    assert (E : loc r (st_log s) = PFin (Some c) SReady) by (eapply own_client_fin; eauto).
    clear X. pose proof (ST _ _ (CI _ _ H)) as X. cbn in X. destruct X as (A & done & B & C). split; auto.
    exists (done ++ [r]). rewrite <- app_cons_assoc. split; auto. apply results_snoc_true; auto.
    + cbn. rewrite Nat.eqb_refl, E. reflexivity.
    + pose proof (CI _ _ H) as X. cbn in X. destruct X as (A' & done' & B' & C').
      assert (done' = done).
      { rewrite B in B'. apply app_inv_tail in B'. auto. }
      subst done'. destruct (hits r done acc) eqn:Z; auto. exfalso.
      assert (loc r (st_log s) = PEnd (Some c)) by (eapply hits_pos; eauto; lia). congruence.
  - eapply MOVE; [eassumption|reflexivity|exact I].
  - (* wait_ok *) eapply MOVE; [eassumption|reflexivity|]. apply ST. destruct X as (A & done & B & C). split; auto.
    exists (done ++ [r]). rewrite <- app_cons_assoc. split; auto.
    intros r0 J. apply in_app_or in J. destruct J as [J|[<-|[]]]; auto.
    split; [eapply ready_ended; eauto | eapply err_false; eauto].
  - eapply MOVE; [eassumption|reflexivity|exact I].
  - (* any_add *) eapply MOVE; [eassumption|reflexivity|]. apply ST. cbn. rewrite <- app_cons_assoc. exact X.
  - (* hit *) eapply MOVE; [eassumption|reflexivity|]. apply ST. cbn. split; auto. split; [apply in_elt|].
    split; [eapply finished_fin; eauto | eapply err_false; eauto].
  - eapply MOVE; [eassumption|reflexivity|exact I].
  - eapply MOVE; [eassumption|reflexivity|]. apply ST. exact X.
  - eapply MOVE; [eassumption|reflexivity|exact I].
  - eapply MOVE; [eassumption|reflexivity|exact I].
  - eapply MOVE; [eassumption|reflexivity|]. apply ST. cbn. rewrite app_nil_r in X. exact X.
  - eapply MOVE; [eassumption|reflexivity|]. apply ST. cbn. split; auto. split; auto. exists []; auto.
  - eapply MOVE; [eassumption|reflexivity|]. apply ST. cbn. split; auto. split; auto. exists []; auto.
  - eapply MOVE; [eassumption|reflexivity|]. apply ST. cbn. destruct X as (A & (done & B) & C).
    split; auto. split; auto. exists (done ++ [r]). rewrite <- app_cons_assoc. auto.
  - (* poll *) eapply MOVE; [eassumption|reflexivity|]. apply ST. cbn. destruct X as (A & (done & B) & _).
    split; auto. split; [exists (done ++ [r]); rewrite <- app_cons_assoc; auto|].
    destruct (finished q) eqn:F; auto. split; [rewrite B; apply in_elt|].
    split; [eapply finished_fin; eauto | eapply err_false; eauto].
  - eapply MOVE; [eassumption|reflexivity|exact I].
  - eapply MOVE; [eassumption|reflexivity|exact I].
  - eapply MOVE; [eassumption|reflexivity|exact I].
  - eapply MOVE; [eassumption|reflexivity|exact I].
  - eapply MOVE; [eassumption|reflexivity|exact I].
Qed.

Lemma cinvs_init : forall n, cinvs (init n).
Proof. intros n c pc H. cbn in H. apply nth_error_In in H. apply repeat_spec in H. subst. exact I. Qed.

Lemma inv_reachable : forall k n s, qreachable k n s -> linv k s /\ err_inv s /\ cinvs s.
Proof.
  intros k n s R.
  eapply (steps_ind_inv k (fun s => linv k s /\ err_inv s /\ cinvs s)); [| |exact R].
  - intros a b (A & B & C) T. split; [|split]; [eapply linv_step | eapply err_step | eapply cinvs_step]; eauto.
  - split; [apply linv_init|split; [|apply cinvs_init]]. intros r q H. destruct r; discriminate.
Qed.
