(** Pools: the operations keep the coherence invariant. *)

From Coq Require Import ZArith List Bool Lia Permutation.
From Verif Require Import PoolModel PoolSpec PoolProofs PoolProofs2 PoolProofs3 PoolProofs4.
Import ListNotations.

Lemma CI_weaken : forall L d pb wb s, CI L None pb wb s -> CI L (Some d) pb wb s.
Proof.
  intros L d pb wb s [A0 A1 A2 A3 A4 A4' A5 A7 A8]. constructor; auto.
  intros e E _. apply A4'; auto; discriminate.
Qed.

Lemma CI_none : forall L d pb wb s,
  CI L (Some d) pb wb s -> p_find d pb = None -> CI L None pb wb s.
Proof.
  intros L d pb wb s [A0 A1 A2 A3 A4 A4' A5 A7 A8] F. constructor; auto.
  intros e E _. apply A4'; auto. apply p_find_none in F. intros H; inversion H; subst.
  apply F. apply in_map; auto.
Qed.

Lemma finished_not_unf : forall s d i, finished s i = true -> ~ unf s d i.
Proof.
  intros s d i F (q & N & _ & _ & U). apply finished_spec in F.
  destruct F as (q' & N' & F). congruence.
Qed.

Lemma finished_notpend : forall s i, finished s i = true -> notpend s i.
Proof.
  intros s i F. apply finished_spec in F. destruct F as (q & N & F).
  exists q; split; auto; congruence.
Qed.

Lemma CI_remove_p : forall L skip d pb wb s e,
  CI L skip pb wb s -> (skip = None \/ skip = Some d) ->
  NoDup (map p_bid pb) ->
  p_find d pb = Some e -> finished s (p_req e) = true ->
  CI L None (p_erase d pb) wb s.
Proof.
  intros L skip d pb wb s e [A0 A1 A2 A3 A4 A4' A5 A7 A8] SK ND PF F.
  constructor; auto.
  - intros x X. apply p_erase_in in X. apply A4; tauto.
  - intros x X _. apply p_erase_in in X. destruct X as (X & D). apply A4'; auto.
    destruct SK as [->| ->]; congruence.
  - intros d' i U. destruct (A5 d' i U) as [X|(x & X1 & X2 & X3 & X4)]; auto.
    destruct (bid_eqb (p_bid x) d) eqn:E.
    + apply bid_eqb_eq in E. exfalso.
      destruct (p_find_in _ _ _ PF) as (E1 & E2).
      assert (x = e) by (eapply NoDup_map_inj; eauto; congruence). subst x.
      destruct (Nat.eq_dec i (p_req e)) as [->|NE].
      * eapply finished_not_unf; eauto.
      * apply (A4 e E1 X3 (finished_notpend _ _ F) i); [lia|]. rewrite X2; auto.
    + apply bid_eqb_neq in E. right; exists x; csplit; auto. apply p_erase_in; auto.
Qed.

Lemma filter_mid : forall {A} (f : A -> bool) l1 x l2,
  filter f (l1 ++ x :: l2) = filter f l1 ++ (if f x then [x] else []) ++ filter f l2.
Proof. intros; rewrite filter_app; cbn. destruct (f x); auto. Qed.

Lemma NoDup_act_remove : forall l1 e l2,
  NoDup (map e_bid (filter act_b (l1 ++ e :: l2))) ->
  NoDup (map e_bid (filter act_b (l1 ++ l2))).
Proof.
  intros l1 e l2 N. rewrite filter_mid in N. rewrite filter_app.
  destruct (act_b e); auto. rewrite !map_app in *; cbn in N. apply NoDup_remove_1 in N. auto.
Qed.

Lemma act_unique : forall l1 e l2 x,
  NoDup (map e_bid (filter act_b (l1 ++ e :: l2))) -> b_storage (e_bid e) <> O ->
  In x (l1 ++ l2) -> e_bid x <> e_bid e.
Proof.
  intros l1 e l2 x N A X E. rewrite filter_mid in N.
  assert (AE : act_b e = true) by (unfold act_b; rewrite negb_true_iff, Nat.eqb_neq; auto).
  assert (AX : act_b x = true) by (unfold act_b in *; rewrite E; auto).
  rewrite AE, !map_app in N; cbn in N. apply NoDup_remove_2 in N. apply N.
  rewrite <- map_app, <- filter_app, <- E. apply in_map. apply filter_In; auto.
Qed.

Lemma CI_remove_w : forall L skip pb l1 e l2 s,
  CI L skip pb (l1 ++ e :: l2) s -> finished s (e_req e) = true ->
  CI L skip pb (l1 ++ l2) s.
Proof.
  intros L skip pb l1 e l2 s [A0 A1 A2 A3 A4 A4' A5 A7 A8] F.
  constructor; auto.
  - intros x X. apply A3. apply in_mid; auto.
  - intros x X SK. destruct (A4' x X SK) as (P1 & P2 & P3). csplit; auto.
    intros y Y. apply P1. apply in_mid; auto.
  - intros d i U. destruct (A5 d i U) as [(x & X1 & X2 & X3)|X]; auto.
    apply in_mid in X1. destruct X1 as [->|X1]; [|left; eauto].
    exfalso. destruct (Nat.eq_dec (b_storage (e_bid e)) 0) as [Z|NZ].
    + destruct U as (q & N & _ & B & _). apply A0 in N. congruence.
    + destruct (A3 e) as (_ & _ & P3); [apply in_mid; auto|auto|].
      destruct (Nat.eq_dec i (e_req e)) as [->|NE].
      * eapply finished_not_unf; eauto.
      * apply (P3 (finished_notpend _ _ F) i); [lia|]. rewrite X2; auto.
  - eapply NoDup_act_remove; eauto.
Qed.

(** ** Posting *)

Lemma unf_post : forall s wr b d d' j, unf (post s wr b d) d' j ->
  unf s d' j \/ (j = length (io_reqs s) /\ wr = true /\ d' = d).
Proof.
  intros s wr b d d' j (q & N & A & B & C).
  destruct (post_inv _ _ _ _ _ _ N) as [N'|(-> & ->)]; cbn in *.
  - left; exists q; auto.
  - right; auto.
Qed.

Lemma unf_post_old : forall s wr b d d' j, unf s d' j -> unf (post s wr b d) d' j.
Proof.
  intros s wr b d d' j (q & N & A & B & C). exists q; csplit; auto. apply post_old; auto.
Qed.

Lemma post_back : forall s wr b d i q, nth_error (io_reqs s) i = Some q ->
  forall q', nth_error (io_reqs (post s wr b d)) i = Some q' -> q' = q.
Proof. intros. rewrite (post_old _ _ _ _ _ _ H) in H0. congruence. Qed.

Lemma nth_lt : forall s i q, nth_error (io_reqs s) i = Some q -> (i < length (io_reqs s))%nat.
Proof. intros. apply nth_error_Some. congruence. Qed.

Lemma CI_post_read : forall L p w s own al b d,
  SI p w s own al -> CI L None (p_busy p) (w_busy w) s ->
  p_find d (p_busy p) = None -> has_request w d = false -> b_storage d <> O ->
  CI L None (p_set (MkP d b (length (io_reqs s))) (p_busy p)) (w_busy w) (post s false b d).
Proof.
  intros L p w s own al b d I0 C PF HR SD.
  pose proof (proj1 (p_find_none _ _) PF) as NI.
  assert (NU : forall i, ~ unf s d i).
  { intros i U. destruct (c5 _ _ _ _ _ C d i U) as [(e & E1 & E2 & _)|(e & E1 & E2 & _)].
    - assert (H : has_request w d = true) by (apply has_request_spec; eauto). congruence.
    - apply NI. rewrite <- E2. apply in_map; auto. }
  assert (U : forall d' j, unf (post s false b d) d' j <-> unf s d' j).
  { intros d' j; split; [|apply unf_post_old]. intros X.
    destruct (unf_post _ _ _ _ _ _ X) as [Y|(_ & Y & _)]; auto; discriminate. }
  unfold p_set; cbn [p_bid]. rewrite (p_erase_none _ _ NI).
  constructor.
  - intros i q N. destruct (post_inv _ _ _ _ _ _ N) as [N'|(-> & ->)]; auto.
    eapply c0; eauto.
  - intros d' H. cbn. apply (c1 _ _ _ _ _ C). intros i X. apply (H i). apply U; auto.
  - intros i q N W F M. destruct (post_inv _ _ _ _ _ _ N) as [N'|(-> & ->)]; [|discriminate].
    cbn. apply (c2 _ _ _ _ _ C i q); auto. intros; apply M; apply U; auto.
  - intros e E A. destruct (c3 _ _ _ _ _ C e E A) as (X & Y & Z).
    destruct (si_w _ _ _ _ _ I0 e E) as (q & N & _). csplit; auto.
    + intros; apply Y; apply U; auto.
    + intros (q' & N' & NP) j J UJ. apply U in UJ.
      rewrite (post_back _ _ _ _ _ _ N _ N') in NP. apply (Z (ex_intro _ q (conj N NP)) j J UJ).
  - intros e [<-|E] W NPE j J UJ.
    + cbn in W. destruct W as (q & N & W). rewrite post_new in N. inversion N; subst. discriminate.
    + apply U in UJ. destruct (si_p _ _ _ _ _ I0 e E) as (q & N & _).
      destruct W as (q1 & N1 & W). rewrite (post_back _ _ _ _ _ _ N _ N1) in W.
      destruct NPE as (q2 & N2 & NP). rewrite (post_back _ _ _ _ _ _ N _ N2) in NP.
      apply (c4 _ _ _ _ _ C e E (ex_intro _ q (conj N W)) (ex_intro _ q (conj N NP)) j J UJ).
  - intros e [<-|E] SK; cbn [p_bid p_buf p_req].
    + csplit.
      * intros x X EQ. assert (H : has_request w d = true) by (apply has_request_spec; eauto).
        congruence.
      * intros (q & N & W). rewrite post_new in N. inversion N; subst. discriminate.
      * intros _. split; [intros j X; apply U in X; apply (NU j X)|].
        intros F. apply finished_spec in F. destruct F as (q & N & F).
        rewrite post_new in N. inversion N; subst. discriminate.
    + destruct (c4' _ _ _ _ _ C e E SK) as (X & Y & Z).
      destruct (si_p _ _ _ _ _ I0 e E) as (q & N & _). csplit; auto.
      * intros (q1 & N1 & W). rewrite (post_back _ _ _ _ _ _ N _ N1) in W.
        destruct (Y (ex_intro _ q (conj N W))) as (Y1 & Y2). split; auto.
        intros; apply Y2; apply U; auto.
      * intros W. assert (W' : ~ is_write s (p_req e)).
        { intros (q1 & N1 & W1). apply W. exists q1; split; auto. apply post_old; auto. }
        destruct (Z W') as (Z1 & Z2). split; [intros j X1; apply U in X1; apply (Z1 j X1)|].
        intros F. apply Z2. apply finished_spec in F. destruct F as (q1 & N1 & F).
        rewrite (post_back _ _ _ _ _ _ N _ N1) in F. apply finished_spec; eauto.
  - intros d' i UI. apply U in UI. destruct (c5 _ _ _ _ _ C d' i UI) as [X|(e & E1 & E2 & E3 & E4)]; auto.
    right. exists e; csplit; auto; [right; auto|].
    destruct E3 as (q & N & W). exists q; split; auto. apply post_old; auto.
  - intros i q N W R j J UJ. apply U in UJ.
    destruct (post_inv _ _ _ _ _ _ N) as [N'|(-> & ->)]; [|discriminate].
    apply (c7 _ _ _ _ _ C i q N' W R j J UJ).
  - apply (c8 _ _ _ _ _ C).
Qed.

Lemma CI_transfer : forall L p w s own al d l1 e l2,
  SI p w s own al -> CI L None (p_busy p) (w_busy w) s ->
  p_find d (p_busy p) = None -> b_storage d <> O ->
  w_busy w = l1 ++ e :: l2 -> e_bid e = d ->
  CI L None (p_set (MkP d (e_buf e) (e_req e)) (p_busy p)) (l1 ++ l2) s.
Proof.
  intros L p w s own al d l1 e l2 I0 C PF SD EQ EB.
  pose proof (proj1 (p_find_none _ _) PF) as NI.
  unfold p_set; cbn [p_bid]. rewrite (p_erase_none _ _ NI).
  assert (E : In e (w_busy w)) by (rewrite EQ; apply in_mid; auto).
  rewrite <- EB in SD.
  destruct (c3 _ _ _ _ _ C e E SD) as (P1 & P2 & P3). rewrite EB in P1, P2, P3.
  destruct (si_w _ _ _ _ _ I0 e E) as (q & N & W & _).
  pose proof (c8 _ _ _ _ _ C) as ND. rewrite EQ in ND.
  constructor.
  - exact (c0 _ _ _ _ _ C).
  - exact (c1 _ _ _ _ _ C).
  - exact (c2 _ _ _ _ _ C).
  - intros x X. apply (c3 _ _ _ _ _ C). rewrite EQ; apply in_mid; auto.
  - intros x [<-|X]; [|apply (c4 _ _ _ _ _ C); auto]. cbn. intros _ NP. auto.
  - intros x [<-|X] SK; cbn [p_bid p_buf p_req].
    + csplit.
      * intros y Y. rewrite <- EB. eapply act_unique; eauto.
      * auto.
      * intros NW. exfalso. apply NW. exists q; auto.
    + destruct (c4' _ _ _ _ _ C x X SK) as (Y1 & Y2 & Y3). csplit; auto.
      intros y Y. apply Y1. rewrite EQ; apply in_mid; auto.
  - intros d' i U. destruct (c5 _ _ _ _ _ C d' i U) as [(x & X1 & X2 & X3)|(x & X1 & X2 & X3 & X4)].
    + rewrite EQ in X1. apply in_mid in X1. destruct X1 as [->|X1]; [|left; eauto].
      right. exists (MkP d (e_buf e) (e_req e)). cbn. csplit; auto; [congruence|].
      exists q; auto.
    + right. exists x; csplit; auto. right; auto.
  - exact (c7 _ _ _ _ _ C).
  - eapply NoDup_act_remove; eauto.
Qed.
