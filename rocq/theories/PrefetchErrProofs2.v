(** Prefetcher with failing reads: every call ends. *)

From Coq Require Import List Arith Bool Lia Permutation.
From Verif Require Import WriterModel WriterProofs PrefetchModel PrefetchSpec ScheduleSpec PrefetchProofs
  PrefetchProofs2 PrefetchProofs3 PrefetchErrModel PrefetchErrSpec PrefetchErrProofs.
Import ListNotations.

Section YEnds.
Context {A : Type}.
Variables (bids : list bid) (sq : list nat) (disk : bid -> A) (n : nat).
Let len := length bids.
Hypothesis Hperm : all_blocks_once len sq.
Hypothesis Hn : 0 < n <= len.

Notation YI := (YI bids sq disk n).

(** A step that is not the caller's is one of the prefetcher without failures,
    or ends the call. *)
Lemma y_sys_base : forall l (y y' : yst A), y_sys l y y' ->
  (exists l0, psstep false (y_p y) l0 (y_p y') /\ y_term y' = y_term y) \/
  (l = YThrow /\ p_pc (y_p y') = PIdle) \/ (l = YTerminate /\ y_term y' = true).
Proof.
  intros l y y' (St & N). destruct St as [l s' T St|l s' T St W|i r d T Hr Hp Hd|i r d T Hr Hp Hd
    |i r T Hr Hp|i r T Hr Hp|b T Hpc Hw Hf|i T Hpc Hi Hw Hf]; yproj; auto.
  - inversion St; subst; destruct N.
  - left. exists l. split; auto. left; auto.
  - left. exists FTau. split; auto. right. eapply RArrive; eauto.
  - left. exists FTau. split; auto. right. eapply RArrive; eauto.
  - left. exists FTau. split; auto. right. eapply RSwitch; eauto.
  - left. exists FTau. split; auto. right. eapply RFinish; eauto.
Qed.

Lemma code_sys : forall (y : yst A) l s', y_term y = false -> pistep false (y_p y) l s' -> wait_ok y ->
  y_sys (YOk (y_see y l)) y (y_set y s').
Proof.
  intros y l s' T St W. split; [apply YCode; auto|]. inversion St; subst; exact I.
Qed.

Lemma y_progress : forall (y : yst A) l s', y_term y = false -> psstep false (y_p y) l s' ->
  exists l' y', y_sys l' y y'.
Proof.
  intros y l s' T [St|St].
  - destruct (p_pc (y_p y)) as [i| |b|k|i| | ] eqn:E.
    + eexists; eexists; apply code_sys; eauto. intros b [Q|(Q & _)]; congruence.
    + eexists; eexists; apply code_sys; eauto. intros b [Q|(Q & _)]; congruence.
    + destruct (y_failed y b) eqn:F.
      * assert (rwait (y_p y) b = true) by (inversion St; congruence).
        eexists; eexists; split; [eapply YThrows; eauto|exact I].
      * eexists; eexists; apply code_sys; eauto. intros b' [Q|(Q & _)]; congruence.
    + eexists; eexists; apply code_sys; eauto. intros b [Q|(Q & _)]; congruence.
    + destruct (Nat.lt_ge_cases i (p_n (y_p y))) as [L|L]; [destruct (y_failed y i) eqn:F|].
      * assert (rwait (y_p y) i = true) by (inversion St; try congruence; assert (i0 = i) by congruence; subst; auto; lia).
        eexists; eexists; split; [eapply YDies; eauto|exact I].
      * eexists; eexists; apply code_sys; eauto. intros b' [Q|(Q & _)]; congruence.
      * eexists; eexists; apply code_sys; eauto. intros b' [Q|(Q & Q')]; [congruence|].
        assert (b' = i) by congruence. subst. lia.
    + eexists; eexists; apply code_sys; eauto. intros b [Q|(Q & _)]; congruence.
    + eexists; eexists; apply code_sys; eauto. intros b [Q|(Q & _)]; congruence.
  - inversion St; subst.
    + eexists; eexists; split; [eapply YArrive; eauto|exact I].
    + eexists; eexists; split; [eapply YSwitch; eauto|exact I].
    + eexists; eexists; split; [eapply YFinish; eauto|exact I].
Qed.

Lemma y_ends_wf : forall m tr (y : yst A), pmu (y_p y) <= m -> YI tr y ->
  never_starves (n - length (p_held (y_p y))) len sq -> y_ends y.
Proof.
  assert (Starve : forall tr (y : yst A) k, YI tr y ->
    never_starves (n - length (p_held (y_p y))) len sq -> p_pc (y_p y) = PWait k ->
    In k (firstn (p_nread (y_p y)) sq)).
  { intros tr y k V NS E. destruct (yi_p _ _ _ _ _ _ V) as (btr & back & hs & [C P _]).
    unfold Pc in P. rewrite E in P.
    destruct P as ((P1 & P1') & P2 & P3 & P4 & P5). fold len in P1', P4. subst k hs.
    specialize (NS _ P4). unfold requested in NS.
    pose proof (held_bound _ _ _ _ Hn _ _ _ _ C). pose proof (k_count _ _ _ _ _ _ _ _ C) as K.
    rewrite P1'. unfold len. rewrite (firstn_min _ _ Hperm).
    replace (n + length back) with (n - length (p_held (y_p y)) + length (y_delivered tr)) by lia. auto. }
  induction m as [|m IHm]; intros tr y Hm V NS;
  (destruct (y_term y) eqn:T; [apply YEnded; auto|]);
  destruct (yi_p _ _ _ _ _ _ V) as (btr & back & hs & V0);
  (destruct (pprogress _ _ _ _ Hperm Hn _ _ _ _ _ V0) as [P|[P|[P|(k & P & P')]]];
   [apply YEnded; auto|apply YEnded; auto| |exfalso; eauto]);
  destruct P as (l & s' & P).
  - apply (pmu_decreases bids n Hn) in P. lia.
  - apply YRunning; [eapply y_progress; eauto|].
    intros l' y' St. pose proof (ystep_inv _ _ _ _ Hperm Hn _ _ _ _ V (proj1 St)) as V'.
    destruct (y_sys_base _ _ _ St) as [(l0 & B & _)|[(_ & E)|(_ & E)]]; [|apply YEnded; auto|apply YEnded; auto].
    pose proof (pmu_decreases bids n Hn _ _ _ B).
    destruct (psstep_held _ _ _ B) as [E|E]; [|apply YEnded; auto].
    eapply IHm; eauto; [lia|]. rewrite E; auto.
Qed.

End YEnds.
