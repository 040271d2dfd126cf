(** Pools: overwriting a block, and coherence of whole executions. *)

From Coq Require Import ZArith List Bool Lia Permutation.
From Verif Require Import PoolModel PoolSpec PoolProofs PoolProofs2 PoolProofs3 PoolProofs4
  PoolProofs5.
Import ListNotations.

(** ** Overwriting *)

(** [s1] differs from [s0] at most in that waiting writes to [d] were
    cancelled. *)
Definition dropped (d : bid) (s0 s1 : io) : Prop :=
  io_mem s1 = io_mem s0 /\ io_disk s1 = io_disk s0 /\
  length (io_reqs s1) = length (io_reqs s0) /\
  forall i q1, nth_error (io_reqs s1) i = Some q1 ->
    nth_error (io_reqs s0) i = Some q1 \/
    (exists q, nth_error (io_reqs s0) i = Some q /\ q1 = with_st q Finished /\
       q_write q = true /\ q_bid q = d).

Lemma dropped_unf : forall d s0 s1 d' j, dropped d s0 s1 -> unf s1 d' j -> unf s0 d' j.
Proof.
  intros d s0 s1 d' j (_ & _ & _ & D) (q & N & A & B & C).
  destruct (D j q N) as [N0|(q0 & N0 & -> & _)]; [exists q; auto|cbn in C; congruence].
Qed.

Lemma dropped_unf_other : forall d s0 s1 d' j, dropped d s0 s1 -> d' <> d ->
  unf s0 d' j -> unf s1 d' j.
Proof.
  intros d s0 s1 d' j (_ & _ & LN & D) NE (q & N & A & B & C).
  destruct (nth_error (io_reqs s1) j) as [q1|] eqn:E.
  - destruct (D j q1 E) as [N0|(q0 & N0 & -> & W & BD)].
    + exists q1. rewrite N in N0; inversion N0; subst. auto.
    + congruence.
  - apply nth_error_None in E. apply nth_lt in N. lia.
Qed.

Definition upd (L : bid -> Z) (d : bid) (v : Z) : bid -> Z :=
  fun x => if bid_eqb x d then v else L x.

Lemma upd_same : forall L d v, upd L d v d = v.
Proof. intros; unfold upd; rewrite bid_eqb_refl; auto. Qed.
Lemma upd_other : forall L d v d', d' <> d -> upd L d v d' = L d'.
Proof. intros; unfold upd. apply bid_eqb_neq in H. rewrite H; auto. Qed.

Lemma CI_overwrite : forall L p w s0 own al d b wb' s1,
  SI p w s0 own al -> CI L None (p_busy p) (w_busy w) s0 -> b_storage d <> O ->
  dropped d s0 s1 ->
  (forall e, In e (p_busy p) -> nth_error (io_reqs s1) (p_req e) = nth_error (io_reqs s0) (p_req e)) ->
  (forall x, In x wb' -> (In x (w_busy w) /\ e_bid x <> d) \/ b_storage (e_bid x) = O) ->
  (forall x, In x (w_busy w) -> e_bid x <> d -> In x wb') ->
  NoDup (map e_bid (filter act_b wb')) ->
  CI (upd L d (io_mem s1 b)) (Some d) (p_busy p)
     (wb' ++ [MkW b (length (io_reqs s1)) d]) (post s1 true b d).
Proof.
  intros L p w s0 own al d b wb' s1 I0 C SD DR PE W1 W2 ND.
  pose proof DR as (DM & DD & DL & DQ).
  set (n := length (io_reqs s1)). set (s3 := post s1 true b d).
  assert (UN : unf s3 d n).
  { exists (MkReq true b d Pending). split; [apply post_new|]. cbn; csplit; auto; discriminate. }
  assert (U : forall d' j, d' <> d -> (unf s3 d' j <-> unf s0 d' j)).
  { intros d' j NE; split; intros X.
    - apply unf_post in X. destruct X as [X|(_ & _ & X)]; [|congruence].
      eapply dropped_unf; eauto.
    - apply unf_post_old. eapply dropped_unf_other; eauto. }
  assert (UD : forall d' j, unf s3 d' j -> unf s0 d' j \/ j = n).
  { intros d' j X. apply unf_post in X. destruct X as [X|(X & _)]; auto.
    left. eapply dropped_unf; eauto. }
  assert (OLD : forall i q, nth_error (io_reqs s0) i = Some q -> (i < n)%nat).
  { intros i q N. apply nth_lt in N. unfold n; lia. }
  assert (UL : forall d' j, unf s3 d' j -> (j <= n)%nat).
  { intros d' j X. destruct (UD d' j X) as [(q & N & _)| ->]; [apply OLD in N; lia|auto]. }
  assert (PQ : forall e q, In e (p_busy p) -> nth_error (io_reqs s3) (p_req e) = Some q ->
     nth_error (io_reqs s0) (p_req e) = Some q).
  { intros e q E N. destruct (post_inv _ _ _ _ _ _ N) as [N'|(X & _)].
    - rewrite <- PE; auto.
    - exfalso. destruct (si_p _ _ _ _ _ I0 e E) as (q' & N' & _). apply OLD in N'.
      unfold n in N'; lia. }
  assert (PW : forall e, In e (p_busy p) -> (is_write s3 (p_req e) <-> is_write s0 (p_req e))).
  { intros e E; split; intros (q & N & W).
    - exists q; split; auto.
    - exists q; split; auto. apply post_old. rewrite PE; auto. }
  constructor.
  - intros i q N. destruct (post_inv _ _ _ _ _ _ N) as [N'|(-> & ->)]; auto.
    destruct (DQ i q N') as [N0|(q0 & N0 & -> & _)]; cbn; eapply c0; eauto.
  - intros d' H. destruct (bid_eqb d' d) eqn:E.
    + apply bid_eqb_eq in E; subst d'. exfalso. apply (H n); auto.
    + apply bid_eqb_neq in E. rewrite upd_other by auto. cbn. rewrite DD.
      apply (c1 _ _ _ _ _ C). intros i X. apply (H i). apply U; auto.
  - intros i q N W F M. destruct (post_inv _ _ _ _ _ _ N) as [N'|(-> & ->)]; cbn.
    + destruct (bid_eqb (q_bid q) d) eqn:E.
      * apply bid_eqb_eq in E. rewrite E in M. specialize (M n UN).
        apply nth_lt in N'. unfold n in M; lia.
      * apply bid_eqb_neq in E. rewrite upd_other by auto. rewrite DM.
        destruct (DQ i q N') as [N0|(q0 & N0 & -> & _)]; [|cbn in F; congruence].
        apply (c2 _ _ _ _ _ C i q); auto. intros j X. apply M. apply U; auto.
    + rewrite upd_same; auto.
  - intros e E A. apply in_app_iff in E. destruct E as [E|[<-|[]]].
    + destruct (W1 e E) as [(E0 & NE)|X]; [|congruence].
      destruct (c3 _ _ _ _ _ C e E0 A) as (P1 & P2 & P3). csplit.
      * cbn. rewrite upd_other by auto. rewrite DM; auto.
      * intros j X. apply P2. apply U; auto.
      * intros (q & N & NP) j J X. apply U in X; auto.
        destruct (si_w _ _ _ _ _ I0 e E0) as (q0 & N0 & Wq & _ & B).
        assert (B' : e_bid e = q_bid q0) by (destruct B; congruence).
        destruct (post_inv _ _ _ _ _ _ N) as [N'|(Y & _)];
          [|apply OLD in N0; unfold n in N0; lia].
        destruct (DQ _ _ N') as [N''|(q' & N'' & _ & _ & Y)]; [|congruence].
        apply (P3 (ex_intro _ q (conj N'' NP)) j J X).
    + cbn [e_buf e_bid e_req]. csplit.
      * rewrite upd_same; auto.
      * intros j X. eapply UL; eauto.
      * intros (q & N & NP). unfold s3, n in N; rewrite post_new in N. inversion N; subst. cbn in NP; congruence.
  - intros e E We NPE j J X.
    destruct (si_p _ _ _ _ _ I0 e E) as (q0 & N0 & _).
    destruct (UD _ _ X) as [X0| ->]; [|apply OLD in N0; lia].
    apply PW in We; auto. destruct NPE as (q & N & NP). apply PQ in N; auto.
    apply (c4 _ _ _ _ _ C e E We (ex_intro _ q (conj N NP)) j J X0).
  - intros e E SK. assert (NE : p_bid e <> d) by congruence.
    destruct (c4' _ _ _ _ _ C e E ltac:(discriminate)) as (X & Y & Z).
    destruct (si_p _ _ _ _ _ I0 e E) as (q0 & N0 & B0 & B1 & B2). csplit.
    + intros x XI. apply in_app_iff in XI. destruct XI as [XI|[<-|[]]].
      * destruct (W1 x XI) as [(XI0 & _)|XS]; [apply X; auto|congruence].
      * cbn; auto.
    + intros We. apply PW in We; auto. destruct (Y We) as (Y1 & Y2). split.
      * cbn. rewrite upd_other by auto. rewrite DM; auto.
      * intros j UJ. apply Y2. apply U; auto.
    + intros We. assert (We' : ~ is_write s0 (p_req e)) by (intro; apply We; apply PW; auto).
      destruct (Z We') as (Z1 & Z2). split.
      * intros j UJ. apply U in UJ; auto. apply (Z1 j UJ).
      * intros F. cbn. rewrite upd_other by auto. rewrite DM. apply Z2.
        apply finished_spec in F. destruct F as (q & N & F). apply PQ in N; auto.
        apply finished_spec; eauto.
  - intros d' i X. destruct (bid_eqb d' d) eqn:E.
    + apply bid_eqb_eq in E; subst d'. left.
      exists (MkW b n d). csplit; auto; [apply in_app_iff; right; left; auto|].
      cbn. eapply UL; eauto.
    + apply bid_eqb_neq in E. apply U in X; auto.
      destruct (c5 _ _ _ _ _ C d' i X) as [(e & E1 & E2 & E3)|(e & E1 & E2 & E3 & E4)].
      * left. exists e; csplit; auto. apply in_app_iff; left. apply W2; auto; congruence.
      * right. exists e; csplit; auto. apply PW; auto.
  - intros i q N W R j J X.
    destruct (post_inv _ _ _ _ _ _ N) as [N'|(-> & ->)]; [|discriminate].
    destruct (DQ _ _ N') as [N0|(q' & _ & -> & _)]; [|discriminate].
    destruct (UD _ _ X) as [X0| ->]; [|apply OLD in N0; lia].
    apply (c7 _ _ _ _ _ C i q N0 W R j J X0).
  - rewrite filter_app, map_app. cbn.
    assert (AE : act_b (MkW b n d) = true) by (unfold act_b; cbn; rewrite negb_true_iff, Nat.eqb_neq; auto).
    fold n. rewrite AE. cbn.
    apply (Permutation_NoDup (Permutation_cons_append _ _)). constructor; auto.
    intro X. apply in_map_iff in X. destruct X as (x & X1 & X2). apply filter_In in X2.
    destruct X2 as (X2 & X3). destruct (W1 x X2) as [(_ & Y)|Y]; congruence.
Qed.

(** The marking loop: at most one live entry is hit. *)
Lemma mark_inv : forall fifo d buf l s l' s',
  w_mark fifo d buf l s l' s' -> b_storage d <> O -> NoDup (map e_bid (filter act_b l)) ->
  (l' = l /\ s' = s /\ forall x, In x l -> e_bid x <> d) \/
  (exists l1 e l2 s0, l = l1 ++ e :: l2 /\ e_bid e = d /\ env fifo s s0 /\
     l' = l1 ++ MkW (e_buf e) (e_req e) (MkBid 0 (b_offset d)) :: l2 /\
     s' = cancel s0 (e_req e) /\ forall x, In x (l1 ++ l2) -> e_bid x <> d).
Proof.
  intros fifo d buf l s l' s' H SD; induction H; intros ND.
  - left; csplit; auto.
  - assert (ND' : NoDup (map e_bid (filter act_b l))).
    { cbn in ND. destruct (act_b e); auto. inversion ND; auto. }
    apply bid_eqb_neq in H.
    destruct (IHw_mark ND') as [(-> & -> & X)|(l1 & e0 & l2 & s0 & -> & A & B & -> & -> & X)].
    + left; csplit; auto. intros x [<-|Y]; auto.
    + right. exists (e :: l1), e0, l2, s0. csplit; auto.
      intros x [<-|Y]; auto.
  - apply bid_eqb_eq in H.
    assert (NH : forall x, In x l -> e_bid x <> d).
    { intros x X. rewrite <- H. apply (act_unique [] e l); auto. congruence. }
    assert (ND' : NoDup (map e_bid (filter act_b l))).
    { cbn in ND. destruct (act_b e); auto. inversion ND; auto. }
    destruct (IHw_mark ND') as [(-> & -> & X)|(l1 & e0 & l2 & s0 & -> & A & B & -> & -> & X)].
    + right. exists [], e, l, s1. cbn. rewrite H. csplit; auto.
    + exfalso. apply (NH e0); auto. apply in_mid; auto.
Qed.

Lemma cancel_dropped : forall s i q d, nth_error (io_reqs s) i = Some q ->
  q_write q = true -> q_bid q = d -> dropped d s (cancel s i).
Proof.
  intros s i q d N W B. unfold cancel. rewrite N.
  destruct (q_st q) eqn:E; try (unfold dropped; csplit; auto; fail).
  unfold dropped; csplit; auto; [apply set_nth_length|].
  intros j q1 N1. destruct (nth_set _ _ _ _ _ _ N N1) as [(-> & ->)|(_ & X)]; auto.
  right; exists q; auto.
Qed.

Lemma cancel_other : forall s i j, j <> i ->
  nth_error (io_reqs (cancel s i)) j = nth_error (io_reqs s) j.
Proof.
  intros. unfold cancel. destruct (nth_error (io_reqs s) i) as [q|]; auto.
  destruct (q_st q); auto. apply nth_set_other; auto.
Qed.

Lemma CI_write : forall L p w s own al b d w' s' r,
  w_write true w s b d w' s' r ->
  SI p w s (b :: own) al -> CI L None (p_busy p) (w_busy w) s -> b_storage d <> O ->
  CI (upd L d (io_mem s b)) (Some d) (p_busy p) (w_busy w') s'.
Proof.
  intros L p w s own al b d w' s' r H I0 C SD. destruct H. cbn [w_busy].
  destruct (mark_inv _ _ _ _ _ _ _ H SD (c8 _ _ _ _ _ C))
    as [(-> & -> & X)|(l1 & e & l2 & s0 & EQ & A & B & -> & -> & X)].
  - eapply CI_overwrite; eauto.
    + unfold dropped; csplit; auto.
    + exact (c8 _ _ _ _ _ C).
  - pose proof (SI_evol _ _ _ _ _ _ I0 (env_evol _ _ _ B)) as I1.
    pose proof (CI_env _ _ _ _ _ _ _ _ B I0 C) as C1.
    assert (EI : In e (w_busy w)) by (rewrite EQ; apply in_mid; auto).
    destruct (si_w _ _ _ _ _ I1 e EI) as (q & N & W & _ & D).
    assert (D' : q_bid q = d) by (destruct D; congruence).
    pose proof (cancel_dropped _ _ _ _ N W D') as DR.
    assert (MB : io_mem s b = io_mem (cancel s0 (e_req e)) b).
    { destruct DR as (-> & _). symmetry. eapply env_mem; eauto.
      apply in_app_iff; right; apply in_app_iff; right; left; auto. }
    rewrite MB. eapply CI_overwrite; eauto.
    + intros x E. apply cancel_other. intro Y. symmetry in Y.
      eapply wp_entry_disj; [exact I1|exact EI|exact E|auto].
    + intros x Y. apply in_mid in Y. destruct Y as [->|Y]; [right; auto|left].
      split; auto. rewrite EQ; apply in_mid; auto.
    + intros x Y NE. rewrite EQ in Y. apply in_mid in Y. destruct Y as [->|Y]; [congruence|].
      apply in_mid; auto.
    + pose proof (c8 _ _ _ _ _ C) as ND. rewrite EQ in ND. apply NoDup_act_remove in ND.
      rewrite filter_mid; cbn. rewrite filter_app in ND. auto.
Qed.
