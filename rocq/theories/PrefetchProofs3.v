(** Prefetcher: progress, starvation, buffers of the caller. *)

From Coq Require Import List Arith Bool Lia Permutation.
From Verif Require Import WriterModel WriterProofs PrefetchModel PrefetchSpec ScheduleSpec
  PrefetchProofs PrefetchProofs2.
Import ListNotations.

Definition rw (r : rreq) : nat :=
  match q_ph r with RPosted => 3 | RArrived => 2 | RSwitched => 1 | RFinished => 0 end.
Fixpoint rweight (l : list rreq) : nat :=
  match l with [] => 0 | r :: l' => rw r + rweight l' end.

Definition prank (n : nat) (pc : ppc) : nat :=
  match pc with
  | PCtor i => 4 * (n - i) + 1
  | PIdle => 0 | PDead => 0 | PFail => 0
  | PGiven _ => 6
  | PWait _ => 1
  | PDtor i => S (n - i)
  end.

Definition pmu {A} (s : pst A) : nat := rweight (p_reqs s) + prank (p_n s) (p_pc s).

Lemma rweight_set : forall l i r r', nth_error l i = Some r ->
  rweight (set_nth i r' l) + rw r = rweight l + rw r'.
Proof.
  induction l; destruct i; intros r r' H; cbn in *; try discriminate.
  - inversion H; subst. lia.
  - specialize (IHl i r r' H). lia.
Qed.

Lemma rweight_app : forall l1 l2, rweight (l1 ++ l2) = rweight l1 + rweight l2.
Proof. induction l1; cbn; intros; auto. rewrite IHl1. lia. Qed.

Section Progress.
Context {A : Type}.
Variables (bids : list bid) (sq : list nat) (disk : bid -> A) (n : nat).
Let len := length bids.
Hypothesis Hperm : all_blocks_once len sq.
Hypothesis Hn : 0 < n <= len.
Implicit Types s : pst A.

Notation Core := (Core bids sq disk n).
Notation PInv := (PInv bids sq disk n).

Lemma consumed_weight : forall s b, p_pc s = PGiven b ->
  rweight (p_reqs (consumed s b)) <= rweight (p_reqs s) + 3 /\ p_n (consumed s b) = p_n s.
Proof.
  intros s b E. unfold consumed, refill. pproj.
  destruct (p_nread s <? p_len (clear_req s b)); pproj; [|lia].
  destruct (b <? p_n s); pproj; [|lia].
  destruct (nth_error (p_seq s) (p_nread s)) as [k|]; pproj; [|lia].
  destruct ((k <? p_len (clear_req s b)) && negb (p_on s k)); pproj; [|lia].
  rewrite rweight_app. cbn. lia.
Qed.

Lemma pmu_decreases : forall s l s', psstep false s l s' -> pmu s' < pmu s.
Proof.
  intros s l s' [H|H].
  - inversion H; subst; unfold pmu; rewrite ?H0; cbn [prank].
    + unfold ctor_body. destruct (nth_error (p_seq s) i) as [k|]; pproj; cbn [prank]; [|lia].
      destruct (k <? p_len s); pproj; cbn [prank]; [|lia].
      rewrite rweight_app. cbn [rweight rw q_ph]. lia.
    + pproj. cbn [prank]. lia.
    + destruct (consumed_weight _ _ H0) as (W1 & W2). rewrite H2. cbn [prank]. lia.
    + destruct (consumed_weight _ _ H0) as (W1 & W2). pproj. cbn [prank]. lia.
    + destruct (consumed_weight _ _ H0) as (W1 & W2). cbn [start_wait p_reqs p_pc prank]. lia.
    + pproj. cbn [prank]. lia.
    + pproj. cbn [prank]. lia.
    + pproj. cbn [prank]. lia.
    + pproj. cbn [prank]. lia.
  - inversion H; subst; unfold pmu; pproj;
    pose proof (rweight_set _ _ _ (MkRd (q_buf r) (q_blk r) RArrived) H0) as W1;
    pose proof (rweight_set _ _ _ (MkRd (q_buf r) (q_blk r) RSwitched) H0) as W2;
    pose proof (rweight_set _ _ _ (MkRd (q_buf r) (q_blk r) RFinished) H0) as W3;
    unfold rw in W1, W2, W3; cbn [q_ph] in W1, W2, W3; rewrite H1 in W1, W2, W3; lia.
Qed.

Lemma rphase_dec : forall l : list rreq,
  (forall j r, nth_error l j = Some r -> q_ph r = RFinished) \/
  exists j r, nth_error l j = Some r /\ q_ph r <> RFinished.
Proof.
  induction l as [|r l IH]; [left; intros [|j] ? H; discriminate|].
  destruct IH as [IH|(i & r' & H & P)]; [|right; exists (S i), r'; auto].
  destruct (q_ph r) eqn:E.
  - right; exists 0, r; cbn; split; auto; congruence.
  - right; exists 0, r; cbn; split; auto; congruence.
  - right; exists 0, r; cbn; split; auto; congruence.
  - left; intros [|j] r' H; cbn in H; [congruence|eauto].
Qed.

(** Something can happen unless the call is over or waits for a block that
    has not been requested. *)
Lemma pprogress : forall tr s back ret hs, PInv tr s back ret hs ->
  p_pc s = PIdle \/ p_pc s = PDead \/ (exists l s', psstep false s l s') \/
  exists k, p_pc s = PWait k /\ ~ In k (firstn (p_nread s) sq).
Proof.
  intros tr s back ret hs V. destruct V as [C P _].
  destruct (rphase_dec (p_reqs s)) as [AR|(i & r & H & Ph)].
  2:{ right; right; left. destruct (q_ph r) eqn:E; [| | |congruence].
      - destruct (nth_error (p_bids s) (q_blk r)) as [d|] eqn:Ed.
        + eexists; eexists; right; eapply RArrive; eauto.
        + exfalso. apply nth_error_None in Ed.
          destruct (k_const _ _ _ _ _ _ _ _ C) as (E1 & _). rewrite E1 in Ed.
          pose proof (blk_lt _ _ _ _ Hperm Hn _ _ _ _ _ _ C H). lia.
      - eexists; eexists; right; eapply RSwitch; eauto.
      - eexists; eexists; right; eapply RFinish; eauto. }
  assert (Rw : forall b, rwait s b = true).
  { intros b. unfold rwait. destruct (p_rreq s b) as [j|] eqn:E; auto.
    destruct (k_own _ _ _ _ _ _ _ _ C _ _ E) as (r & H & _). rewrite H, (AR _ _ H). auto. }
  unfold Pc in P. destruct (p_pc s) as [i| |b|k|i| | ] eqn:E; auto; try tauto.
  - right; right; left. destruct (Nat.lt_ge_cases i (p_n s)).
    + eexists; eexists; left; eapply JCtor; eauto.
    + eexists; eexists; left; eapply JCtorEnd; eauto.
  - destruct P as (P1 & P2 & P3). subst hs. right; right; left.
    destruct (consumed_inv _ _ _ _ Hperm Hn _ _ _ _ _ C (Rw b) P1) as (k & _ & _ & Ep & _).
    destruct (Nat.lt_ge_cases (p_ncons s) (p_len s)).
    + eexists; eexists; left; eapply JNext; eauto. congruence.
    + eexists; eexists; left; eapply JNone; eauto. congruence.
  - destruct P as ((P1 & P1') & P2 & P3 & P4 & P5). fold len in P4.
    destruct (in_dec Nat.eq_dec k (firstn (p_nread s) sq)) as [I|I]; [|right; right; right; eauto].
    right; right; left.
    rewrite <- P1, <- (k_blk _ _ _ _ _ _ _ _ C) in I. apply in_map_iff in I.
    destruct I as (r & Er & I). apply In_nth_error in I. destruct I as (j & I).
    assert (On : p_on s k = true).
    { apply (k_on _ _ _ _ _ _ _ _ C). exists j, r. csplit; eauto. }
    pose proof (k_pref _ _ _ _ _ _ _ _ C _ _ I) as Pf. rewrite Er in Pf.
    pose proof (k_bufn _ _ _ _ _ _ _ _ C _ _ I) as Bn.
    destruct (k_const _ _ _ _ _ _ _ _ C) as (_ & _ & _ & E4).
    eexists; eexists; left; apply (JRet false s k (q_buf r)); auto. lia.
  - right; right; left. destruct (Nat.lt_ge_cases i (p_n s)).
    + eexists; eexists; left; eapply JDtor; eauto.
    + eexists; eexists; left; eapply JDtorEnd; eauto.
Qed.

Lemma held_bound : forall s back ret hs, Core s back ret hs -> length hs <= n.
Proof.
  intros s back ret hs C. rewrite <- (seq_length n 0).
  apply NoDup_incl_length; [apply (k_nd _ _ _ _ _ _ _ _ C)|].
  intros b Hb. apply (k_hs _ _ _ _ _ _ _ _ C) in Hb. destruct Hb as (j & r & H & E & _).
  apply in_seq. pose proof (k_bufn _ _ _ _ _ _ _ _ C _ _ H). lia.
Qed.

Lemma firstn_min : forall x, firstn (min len x) sq = firstn x sq.
Proof.
  intros x. destruct (Nat.le_ge_cases x len).
  - rewrite Nat.min_r by auto. auto.
  - rewrite Nat.min_l by auto. rewrite !firstn_all2; auto; rewrite (sq_length _ _ Hperm); auto.
Qed.

Lemma psstep_held : forall s l s', psstep false s l s' ->
  p_held s' = p_held s \/ p_pc s' = PIdle.
Proof.
  intros s l s' [H|H]; inversion H; subst; pproj; auto; left.
  - unfold ctor_body. destruct (nth_error (p_seq s) i); auto. destruct (n0 <? p_len s); auto.
  - unfold consumed, refill. pproj. destruct (p_nread s <? p_len (clear_req s b)); auto.
    destruct (b <? p_n s); auto. destruct (nth_error (p_seq s) (p_nread s)); auto.
    destruct ((n0 <? p_len (clear_req s b)) && negb (p_on s n0)); auto.
  - unfold consumed, refill. pproj. destruct (p_nread s <? p_len (clear_req s b)); auto.
    destruct (b <? p_n s); auto. destruct (nth_error (p_seq s) (p_nread s)); auto.
    destruct ((n0 <? p_len (clear_req s b)) && negb (p_on s n0)); auto.
Qed.

Lemma p_returns_wf : forall m s tr back ret hs, pmu s <= m -> PInv tr s back ret hs ->
  never_starves (n - length (p_held s)) len sq -> p_returns s.
Proof.
  assert (Starve : forall s tr back ret hs k, PInv tr s back ret hs ->
    never_starves (n - length (p_held s)) len sq -> p_pc s = PWait k ->
    In k (firstn (p_nread s) sq)).
  { intros s tr back ret hs k V NS E. destruct V as [C P _]. unfold Pc in P. rewrite E in P.
    destruct P as ((P1 & P1') & P2 & P3 & P4 & P5). fold len in P1', P4. subst k hs.
    specialize (NS ret P4). unfold requested in NS.
    pose proof (held_bound _ _ _ _ C). pose proof (k_count _ _ _ _ _ _ _ _ C).
    rewrite P1', firstn_min. replace (n + length back) with (n - length (p_held s) + ret) by lia. auto. }
  induction m; intros s tr back ret hs Hm V NS;
  (destruct (pprogress _ _ _ _ _ V) as [P|[P|[P|(k & P & P')]]];
   [apply PReturned; auto|apply PReturned; auto| |exfalso; eauto]).
  - destruct P as (l & s' & P). apply pmu_decreases in P. lia.
  - apply PRunning; auto. intros l s' St.
    assert (V' : exists back' ret' hs', PInv (tr ++ [l]) s' back' ret' hs').
    { eapply pstep_inv; eauto. right. exact St. }
    destruct V' as (back' & ret' & hs' & V').
    pose proof (pmu_decreases _ _ _ St).
    destruct (psstep_held _ _ _ St) as [E|E].
    + eapply IHm; eauto; [lia|]. rewrite E; auto.
    + apply PReturned; auto.
Qed.

(** Waiting for a block that has not been requested never ends. *)
Lemma starved_run : forall s tr back ret hs k tr' s', PInv tr s back ret hs ->
  p_pc s = PWait k -> ~ In k (firstn (p_nread s) sq) -> prun false s tr' s' ->
  (exists back' ret' hs', PInv (tr ++ tr') s' back' ret' hs') /\
  p_pc s' = PWait k /\ p_nread s' = p_nread s /\ forall b a, ~ In (FRet b a) tr'.
Proof.
  intros s tr back ret hs k tr' s' V E N R. induction R.
  - rewrite app_nil_r. csplit; eauto.
  - destruct (IHR V E N) as ((back' & ret' & hs' & V') & E' & N' & L').
    assert (Off : p_on s2 k = false).
    { destruct (p_on s2 k) eqn:On; auto. exfalso. apply N. destruct V' as [C P _].
      apply (k_on _ _ _ _ _ _ _ _ C) in On. destruct On as (j & r & Hj & Ek & _).
      unfold Pc in P. rewrite E' in P. destruct P as ((P1 & _) & _).
      rewrite <- N', <- P1, <- (k_blk _ _ _ _ _ _ _ _ C). rewrite <- Ek. apply in_map.
      eapply nth_error_In; eauto. }
    assert (X : p_pc s3 = PWait k /\ p_nread s3 = p_nread s2 /\ forall b a, l <> FRet b a).
    { destruct H as [H|[H|H]]; inversion H; subst; try congruence.
      - exfalso. destruct H1; [|discriminate]. assert (k0 = k) by congruence. subst. congruence.
      - exfalso. destruct H1; [|discriminate]. assert (k0 = k) by congruence. subst. congruence.
      - csplit; auto. discriminate.
      - csplit; auto. discriminate.
      - csplit; auto. discriminate. }
    destruct X as (X1 & X2 & X3). csplit; auto; try congruence.
    + rewrite app_assoc. eapply pstep_inv; eauto.
    + intros b a Q. apply in_app_or in Q. destruct Q as [Q|[Q|[]]]; [eapply L'; eauto|].
      eapply X3; eauto.
Qed.

Lemma held_untouched : forall tr s back ret hs l s' b, PInv tr s back ret hs ->
  psstep false s l s' -> In b (p_held s) -> p_mem s' b = p_mem s b.
Proof.
  intros tr s back ret hs l s' b V St Hb. destruct V as [C P _].
  destruct St as [St|St]; inversion St; subst; pproj; auto;
    unfold Pc in P; try rewrite H in P.
  - destruct P as (_ & _ & _ & _ & _ & _ & P7 & _). rewrite P7 in Hb. destruct Hb.
  - destruct P as (_ & _ & P3). subst hs. pose proof (k_nd _ _ _ _ _ _ _ _ C) as ND.
    inversion ND; subst. assert (b <> b0) by congruence.
    unfold consumed, refill. pproj. destruct (p_nread s <? p_len (clear_req s b0)); auto.
    destruct (b0 <? p_n s); auto. destruct (nth_error (p_seq s) (p_nread s)); auto.
    destruct ((n0 <? p_len (clear_req s b0)) && negb (p_on s n0)); auto. pproj. apply updn_other; auto.
  - destruct P as (_ & _ & P3). subst hs. pose proof (k_nd _ _ _ _ _ _ _ _ C) as ND.
    inversion ND; subst. assert (b <> b0) by congruence.
    unfold consumed, refill. pproj. destruct (p_nread s <? p_len (clear_req s b0)); auto.
    destruct (b0 <? p_n s); auto. destruct (nth_error (p_seq s) (p_nread s)); auto.
    destruct ((n0 <? p_len (clear_req s b0)) && negb (p_on s n0)); auto. pproj. apply updn_other; auto.
  - destruct P as (_ & _ & P3). subst hs. pose proof (k_nd _ _ _ _ _ _ _ _ C) as ND.
    inversion ND; subst. assert (b <> b0) by congruence.
    cbn [start_wait p_mem].
    unfold consumed, refill. pproj. destruct (p_nread s <? p_len (clear_req s b0)); auto.
    destruct (b0 <? p_n s); auto. destruct (nth_error (p_seq s) (p_nread s)); auto.
    destruct ((n0 <? p_len (clear_req s b0)) && negb (p_on s n0)); auto. pproj. apply updn_other; auto.
  - apply updn_other. intros Q.
    assert (Hs : In b hs).
    { destruct (p_pc s); try tauto.
      - destruct P as (_ & _ & _ & _ & _ & _ & P7 & _). rewrite P7 in Hb. destruct Hb.
      - destruct P as (_ & _ & ->). auto.
      - destruct P as (_ & _ & ->). cbn; auto.
      - destruct P as (_ & _ & _ & _ & ->). auto.
      - destruct P as (P & _). rewrite P in Hb. destruct Hb.
      - destruct P as (P & _). rewrite P in Hb. destruct Hb. }
    apply (k_hs _ _ _ _ _ _ _ _ C) in Hs. destruct Hs as (j & r' & I1 & I2 & I3 & I4).
    assert (j = i).
    { eapply (k_live _ _ _ _ _ _ _ _ C); eauto; [|congruence].
      apply (k_fin _ _ _ _ _ _ _ _ C i r); congruence. }
    subst j. assert (r' = r) by congruence. subst r'.
    destruct (returned_phase _ _ _ _ Hperm Hn _ _ _ _ _ _ C H I3); congruence.
Qed.

End Progress.

Lemma prun_snoc_inv : forall {A} sp (s s' : pst A) tr, prun sp s tr s' -> forall t l, tr = t ++ [l] ->
  exists s1, prun sp s t s1 /\ pstep sp s1 l s'.
Proof.
  intros A sp s s' tr R. destruct R; intros t l0 E; [destruct t; discriminate|].
  apply app_inj_tail in E. destruct E; subst. eauto.
Qed.
