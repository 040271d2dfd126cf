(** What happens to a block of an output stream while others use the store, too. *)

From Coq Require Import List Arith Bool ZArith Lia Permutation.
From Verif Require ManagerModel.
From Verif Require Import StoreModel StoreSpec StoreProofs2 TogetherStore.
From Verif Require Import WriterModel WriterSpec WriterProofs WriterErrModel WriterErrSpec WriterErrProofs WriterErrProps
  PrefetchModel PrefetchSpec PrefetchProofs PrefetchErrModel PrefetchErrSpec PrefetchErrProofs
  TogetherModel TogetherSpec.
Import ListNotations.

Local Notation sbid := ManagerModel.bid.
Local Notation sbid_eqb := StoreSpec.bid_eqb.

Lemma place_inj : forall size d d', place size d = place size d' -> d = d'.
Proof. intros size [a b] [a' b'] E. unfold place in E. cbn in E. inversion E. auto. Qed.

Section Traces.
Context {R : Type}.
Local Notation block := (list R).

(** ** Events of a writer *)

Lemma events_prefix : forall blocks (t1 t2 : list (xlabel block)), writer_events blocks (t1 ++ t2) ->
  writer_events blocks t1.
Proof.
  intros blocks t1 t2 (nb & bs & mem & bids & disk & x & Rn & D & N & H).
  destruct (xrun_split _ _ _ Rn _ _ eq_refl) as (x1 & R1 & _).
  rewrite normal_app, calls_app, map_app in N, H.
  exists nb, bs, mem, bids, disk, x1. csplit; auto.
  - eapply WriterErrProps.disc_app; eauto.
  - clear - N. induction (map fst (calls (normal t1))) as [|a l IH]; cbn in *; [constructor|].
    inversion N; subst. constructor; auto. intros Q. apply H1. apply in_or_app; auto.
  - intros d Q. apply H. apply in_or_app; auto.
Qed.

Lemma dead_stays : forall (x x' : xst block) tr, xrun x tr x' -> w_pc (x_w x) = Dead ->
  w_pc (x_w x') = Dead /\ calls (normal tr) = [].
Proof.
  intros x x' tr H. induction H as [|x1 tr x2 l x3 H IH St]; intros P; [auto|].
  destruct (IH P) as (P2 & C). rewrite normal_app, calls_app, C. cbn [app].
  inversion St; subst; xproj; try congruence; auto.
  - match goal with K : cstep _ _ _ |- _ => inversion K; subst; xproj; congruence end.
  - match goal with K : istep _ _ _ |- _ => inversion K; subst; xproj; try congruence; auto end.
  - match goal with K : estep _ _ _ |- _ => inversion K; subst; xproj; auto end.
Qed.

Lemma closed_served : forall blocks (tr : list (xlabel block)), writer_events blocks tr -> closed tr ->
  forall d v, In (d, v) (calls (normal tr)) -> In (d, v) (served (normal tr)).
Proof.
  intros blocks tr (nb & bs & mem & bids & disk & x & Rn & D & N & H) C.
  apply in_split in C. destruct C as (u1 & u2 & ->).
  replace (u1 ++ XOk LDestroyed :: u2) with ((u1 ++ [XOk LDestroyed]) ++ u2) in * by (rewrite <- app_assoc; auto).
  destruct (xrun_split _ _ _ Rn _ _ eq_refl) as (x1 & R1 & R2).
  pose proof (WriterErrProps.disc_app _ _ D) as D1.
  destruct (C88_return_means_written _ _ _ _ _ _ _ _ R1 (WriterErrProps.disc_app _ _ D1) (or_intror eq_refl)) as (_ & P & _).
  destruct (xrun_last _ _ _ _ R1) as (x2 & _ & St).
  assert (Pd : w_pc (x_w x1) = Dead).
  { inversion St; subst; xproj.
    - match goal with K : cstep _ _ _ |- _ => inversion K end.
    - match goal with K : istep _ _ _ |- _ => inversion K; subst; auto end.
    - match goal with K : estep _ _ _ |- _ => inversion K end. }
  destruct (dead_stays _ _ _ R2 Pd) as (_ & C2).
  intros d v Q. rewrite normal_app, calls_app, C2, app_nil_r in Q.
  rewrite normal_app, calls_app in Q. cbn in Q. rewrite app_nil_r in Q.
  rewrite normal_app, served_app. apply in_or_app. left.
  rewrite normal_app, served_app. apply in_or_app. left. apply (Permutation_in _ P Q).
Qed.

Lemma asked_once : forall blocks (tr : list (xlabel block)) d, writer_events blocks tr -> asked tr d <= 1.
Proof.
  intros blocks tr d (nb & bs & mem & bids & disk & x & _ & _ & N & _). unfold asked.
  induction (calls (normal tr)) as [|[d' v] l IH]; cbn in *; auto. inversion N; subst.
  destruct (bid_eqb d d') eqn:E; cbn; [|auto]. apply WriterProofs.bid_eqb_eq in E. subst d'.
  replace (filter (fun p => bid_eqb d (fst p)) l) with (@nil (bid * block)); auto.
  symmetry. clear - H1. induction l as [|[d' v] l IH]; cbn in *; auto.
  destruct (bid_eqb d d') eqn:E; [|apply IH; auto]. apply WriterProofs.bid_eqb_eq in E. subst. exfalso; auto.
Qed.

Lemma asked_in : forall (tr : list (xlabel block)) d, 0 < asked tr d -> exists v, In (d, v) (calls (normal tr)).
Proof.
  intros tr d. unfold asked. induction (calls (normal tr)) as [|[d' v] l IH]; cbn; [lia|].
  destruct (bid_eqb d d') eqn:E; [|intros H; destruct (IH H) as (w & Hw); eauto].
  apply WriterProofs.bid_eqb_eq in E. subst. eauto.
Qed.

Lemma in_asked : forall (tr : list (xlabel block)) d v, In (d, v) (calls (normal tr)) -> 0 < asked tr d.
Proof.
  intros tr d v. unfold asked. induction (calls (normal tr)) as [|[d' v'] l IH]; cbn; [tauto|].
  intros [H|H].
  - inversion H; subst. rewrite (proj2 (WriterProofs.bid_eqb_eq d d) eq_refl). cbn. lia.
  - specialize (IH H). destruct (bid_eqb d d'); cbn; lia.
Qed.

End Traces.

Section Life.
Context {R : Type}.
Variables (B : nat) (size : Z) (enc : list R -> list Z) (dec : list (option Z) -> list R).
Variables (outs : nat -> nat -> bid) (ins : nat -> list bid).
Local Notation block := (list R).
Hypothesis Hap : apart outs.
Hypothesis Hst : stores_blocks B size enc dec.

Inductive life (older evs : list event) (s : store) (tr : list (xlabel block)) (d : bid) : Prop :=
| LNew : submits evs (place size d) = 0 -> (forall r, In r (st_pending s) -> rq_bid r <> place size d) ->
    (forall v, ~ In (d, v) (served (normal tr))) -> ~ In d (fails tr) ->
    (forall x, ~ In (EReadDone (place size d) (Some x)) evs) -> life older evs s tr d
| LWait : forall v, submits evs (place size d) = 1 -> In (place size d) (hold s) ->
    (forall r, In r (st_pending s) -> rq_bid r = place size d -> rq_data r = Some (enc v)) ->
    expected (evs ++ older) (place size d) = Some (enc v) ->
    (forall v, ~ In (d, v) (served (normal tr))) -> ~ In d (fails tr) ->
    (forall x, ~ In (EReadDone (place size d) (Some x)) evs) -> life older evs s tr d
| LDone : forall v, submits evs (place size d) = 1 -> In (place size d) (hold s) -> length v = B ->
    (forall r, In r (st_pending s) -> rq_bid r = place size d -> rq_data r = None) ->
    expected (evs ++ older) (place size d) = Some (enc v) ->
    In (d, v) (served (normal tr)) -> (forall v', In (d, v') (served (normal tr)) -> v' = v) ->
    ~ In d (fails tr) ->
    (forall x, In (EReadDone (place size d) (Some x)) evs -> x = map Some (enc v)) -> life older evs s tr d
| LLost : submits evs (place size d) = 1 -> (forall r, In r (st_pending s) -> rq_bid r <> place size d) ->
    (forall v, ~ In (d, v) (served (normal tr))) -> In d (fails tr) ->
    (forall x, ~ In (EReadDone (place size d) (Some x)) evs) -> life older evs s tr d.

Lemma life_keep : forall older evs s tr d evs' s' tr',
  submits evs' (place size d) = submits evs (place size d) ->
  (forall r, rq_bid r = place size d -> (In r (st_pending s') <-> In r (st_pending s))) ->
  (In (place size d) (hold s) -> In (place size d) (hold s') /\
     expected (evs' ++ older) (place size d) = expected (evs ++ older) (place size d)) ->
  (forall v, In (d, v) (served (normal tr')) <-> In (d, v) (served (normal tr))) ->
  (In d (fails tr') <-> In d (fails tr)) ->
  (forall x, In (EReadDone (place size d) (Some x)) evs' -> In (EReadDone (place size d) (Some x)) evs) ->
  life older evs s tr d -> life older evs' s' tr' d.
Proof.
  intros older evs s tr d evs' s' tr' Hs Hp Hh Hv Hf Hr L.
  destruct L as [A1 A2 A3 A4 A5|v A1 A2 A3 A4 A5 A6 A7|v A1 A2 A0 A3 A4 A5 A6 A7 A8|A1 A2 A3 A4 A5].
  - apply LNew; try congruence.
    + intros r Q E. apply (A2 r); auto. apply (Hp r E); auto.
    + intros v Q. apply (A3 v). apply Hv; auto.
    + intros Q. apply A4, Hf; auto.
    + intros x Q. eapply A5; eauto.
  - destruct (Hh A2) as (H1 & H2). apply (LWait _ _ _ _ _ v); auto; try congruence.
    + intros r Q E. apply A3; auto. apply (Hp r E); auto.
    + intros w Q. apply (A5 w). apply Hv; auto.
    + intros Q. apply A6, Hf; auto.
    + intros x Q. eapply A7; eauto.
  - destruct (Hh A2) as (H1 & H2). apply (LDone _ _ _ _ _ v); auto; try congruence.
    + intros r Q E. apply A3; auto. apply (Hp r E); auto.
    + apply Hv; auto.
    + intros w Q. apply A6, Hv; auto.
    + intros Q. apply A7, Hf; auto.
  - apply LLost; try congruence.
    + intros r Q E. apply (A2 r); auto. apply (Hp r E); auto.
    + intros v Q. apply (A3 v). apply Hv; auto.
    + apply Hf; auto.
    + intros x Q. eapply A5; eauto.
Qed.

Lemma updn_eq : forall {X} (f : nat -> X) i v, updn f i v i = v.
Proof. intros. unfold updn. rewrite Nat.eqb_refl. auto. Qed.
Lemma updn_ne : forall {X} (f : nat -> X) i v j, j <> i -> updn f i v j = f j.
Proof. intros X f i v j N. unfold updn. destruct (Nat.eqb_spec j i); congruence. Qed.

Lemma quiet_label : forall (tr : list (xlabel block)) l d, transfers l = false ->
  (forall v, In (d, v) (served (normal (tr ++ [l]))) <-> In (d, v) (served (normal tr))) /\
  (In d (fails (tr ++ [l])) <-> In d (fails tr)).
Proof.
  intros tr l d T. rewrite normal_app, served_app, fails_app.
  assert (E1 : served (normal [l]) = []) by (destruct l as [[]| | |]; cbn in *; auto; discriminate).
  assert (E2 : fails [l] = []) by (destruct l as [| | |]; cbn in *; auto; discriminate).
  rewrite E1, E2, !app_nil_r. split; tauto.
Qed.

Lemma other_label : forall (tr : list (xlabel block)) l d d', d <> d' ->
  (l = XFail d' \/ exists v, l = XOk (LServe d' v)) ->
  (forall v, In (d, v) (served (normal (tr ++ [l]))) <-> In (d, v) (served (normal tr))) /\
  (In d (fails (tr ++ [l])) <-> In d (fails tr)).
Proof.
  intros tr l d d' N Q. rewrite normal_app, served_app, fails_app.
  destruct Q as [->|(w & ->)]; cbn [normal served fails app].
  - rewrite app_nil_r. split; [tauto|]. rewrite in_app_iff. cbn. intuition congruence.
  - rewrite app_nil_r. split; [|tauto]. intros v. rewrite in_app_iff. cbn. intuition congruence.
Qed.

(** An event of another block. *)
Definition off (e : event) (b : sbid) : Prop :=
  match e with
  | EAlloc l => True
  | EDelete b' => b' <> b
  | EWrite b' _ | ERead b' | EWritten b' _ | EReadDone b' _ => b' <> b
  end.

Lemma off_keeps : forall e evs older b, off e b -> (forall l, e = EAlloc l -> ~ In b l) ->
  expected ((e :: evs) ++ older) b = expected (evs ++ older) b.
Proof.
  intros e evs older b O N. cbn [app]. destruct e as [l|b'|b' d|b'|b' []|b' x]; cbn [expected off] in *; auto.
  - apply expected_alloc_old. eauto.
  - rewrite bid_eqb_ne; auto.
  - rewrite bid_eqb_ne; auto.
Qed.

Lemma off_submits : forall e evs b, off e b -> submits (e :: evs) b = submits evs b.
Proof.
  intros e evs b O. destruct e; cbn [submits off] in *; auto. rewrite bid_eqb_ne; auto.
Qed.

Lemma off_read : forall e evs b x, off e b -> In (EReadDone b (Some x)) (e :: evs) -> In (EReadDone b (Some x)) evs.
Proof. intros e evs b x O [->|Q]; auto. cbn in O. congruence. Qed.

(** A step that leaves the block alone. *)
Lemma life_off : forall older evs s tr d e s' tr', off e (place size d) ->
  (forall l, e = EAlloc l -> In (place size d) (hold s) -> ~ In (place size d) l) ->
  (forall r, rq_bid r = place size d -> (In r (st_pending s') <-> In r (st_pending s))) ->
  (In (place size d) (hold s) -> In (place size d) (hold s')) ->
  (forall v, In (d, v) (served (normal tr')) <-> In (d, v) (served (normal tr))) ->
  (In d (fails tr') <-> In d (fails tr)) ->
  life older evs s tr d -> life older (e :: evs) s' tr' d.
Proof.
  intros older evs s tr d e s' tr' O N Hp Hh Hv Hf L. eapply life_keep; try exact L; auto.
  - apply off_submits; auto.
  - intros Q. split; auto. apply off_keeps; auto.
  - intros x. apply off_read; auto.
Qed.

Variables (cfgs : list (Z * bool)) (ba : nat) (s00 s0 : store) (older : list event).
Let n := length cfgs.
Hypothesis Hba : 1 <= ba.
Hypothesis Hopen : sinv cfgs [] s00.
Hypothesis Hold : shistory true n ba s00 older s0.
Hypothesis Hfresh : fresh size outs s0.

Lemma same_or : forall i k i' k', (i = i' /\ k = k') \/ place size (outs i k) <> place size (outs i' k').
Proof.
  intros i k i' k'. destruct (Nat.eq_dec i i') as [->|N]; [destruct (Nat.eq_dec k k') as [->|N]|]; auto;
    right; intros E; apply place_inj in E; apply Hap in E; tauto.
Qed.

Theorem main : forall evs trs rts s, together B size enc dec outs ins n ba s0 evs trs rts s ->
  (forall i, writer_events (outs i) (trs i)) ->
  shistory true n ba s00 (evs ++ older) s /\ forall i k, life older evs s (trs i) (outs i k).
Proof.
  intros evs trs rts s H. induction H as
    [|evs trs rts s i l H IH T
     |evs trs rts s i k v h s' e H IH Ha Hl Hh St
     |evs trs rts s i k v a q s' H IH Hl Hq St
     |evs trs rts s i k a q s' H IH St
     |evs trs rts s i k h s' e H IH Hc Ha Hh St
     |evs trs rts s j l H IH T
     |evs trs rts s j b d x H IH Hn Hx
     |evs trs rts s o s' e H IH Al El St]; intros W.
  - split; [exact Hold|]. intros i k. apply LNew; cbn; auto.
  - destruct IH as (I1 & I2).
    { intros i'. destruct (Nat.eq_dec i' i) as [->|N].
      - specialize (W i). rewrite updn_eq in W. eapply events_prefix; eauto.
      - specialize (W i'). rewrite updn_ne in W; auto. }
    split; auto. intros i' k. destruct (Nat.eq_dec i' i) as [->|N].
    + rewrite updn_eq. destruct (quiet_label (trs i) l (outs i k) T) as (Q1 & Q2).
      eapply life_keep; try exact (I2 i k); auto; tauto.
    + rewrite updn_ne; auto.
  - destruct (IH W) as (I1 & I2). clear IH.
    pose proof (history_sinv _ _ _ _ _ Hba Hopen I1) as V.
    destruct (write_facts _ _ _ _ _ _ St) as (b & Eb & -> & Eh & Ep).
    unfold hold in Eb. rewrite Hh in Eb. inversion Eb; subst b. clear Eb.
    pose proof (asked_once _ _ (outs i k) (W i)) as A1.
    assert (L : submits evs (place size (outs i k)) = 0) by lia.
    assert (Np : forall r, In r (st_pending s) -> rq_bid r <> place size (outs i k)).
    { destruct (I2 i k); auto; lia. }
    split.
    + cbn [app]. eapply sh_step; [exact I1| |exact St]. intros _. cbn [allowed].
      exists (place size (outs i k)). split; auto. split; auto. apply Hst; auto.
    + intros i' k'. destruct (same_or i k i' k') as [(<- & <-)|N].
      * assert (G : (forall w, ~ In (outs i k, w) (served (normal (trs i)))) /\ ~ In (outs i k) (fails (trs i)) /\
          forall x, ~ In (EReadDone (place size (outs i k)) (Some x)) evs) by (destruct (I2 i k); auto; lia).
        destruct G as (G1 & G2 & G3). apply (LWait _ _ _ _ _ v); auto.
        -- cbn [submits]. rewrite bid_eqb_refl. lia.
        -- rewrite Eh. apply nth_error_In in Hh. auto.
        -- intros r Q E. rewrite Ep in Q. apply in_app_or in Q. destruct Q as [Q|[<-|[]]]; auto.
           exfalso. eapply Np; eauto.
        -- cbn [app expected]. rewrite bid_eqb_refl. auto.
        -- intros x [Q|Q]; [discriminate|]. eapply G3; eauto.
      * eapply life_off; try exact (I2 i' k'); try exact N; try discriminate; try (rewrite Eh; auto; fail); try exact I; try exact Q1; try exact Q2; try tauto.
        -- intros r E. rewrite Ep. apply in_snoc. cbn [rq_bid]. congruence.
  - destruct IH as (I1 & I2).
    { intros i'. destruct (Nat.eq_dec i' i) as [->|N].
      - specialize (W i). rewrite updn_eq in W. eapply events_prefix; eauto.
      - specialize (W i'). rewrite updn_ne in W; auto. }
    pose proof (history_sinv _ _ _ _ _ Hba Hopen I1) as V.
    destruct (serve_facts _ _ _ _ _ _ St) as (r & Er & Eh & Ep & _). rewrite Hq in Er. inversion Er; subst r. clear Er.
    split.
    + cbn [app]. eapply sh_step; [exact I1| |exact St]. intros _. cbn [allowed]. apply nth_error_Some. congruence.
    + intros i' k'. destruct (same_or i k i' k') as [(<- & <-)|N].
      * rewrite updn_eq. destruct (I2 i k) as [A1 A2 A3 A4 A5|w A1 A2 A3 A4 A5 A6 A7|w A1 A2 A0 A3 A4 A5 A6 A7 A8|A1 A2 A3 A4 A5].
        -- exfalso. eapply A2; [eapply nth_error_In; eauto|reflexivity].
        -- apply (LDone _ _ _ _ _ v); auto.
           ++ rewrite Eh. auto.
           ++ intros r Q E. exfalso. rewrite Ep in Q.
              eapply (only_one _ _ _ (si_excl _ _ _ V) Hq); [cbn; discriminate|exact Q|exact E].
           ++ cbn [app expected]. specialize (A3 _ (nth_error_In _ _ Hq) eq_refl). cbn [rq_data] in A3. congruence.
           ++ rewrite normal_app, served_app. apply in_or_app. right. cbn. auto.
           ++ intros v' Q. rewrite normal_app, served_app in Q. apply in_app_or in Q.
              destruct Q as [Q|Q]; [exfalso; eapply A5; eauto|]. cbn in Q. destruct Q as [Q|[]]. congruence.
           ++ rewrite fails_app. cbn [fails]. rewrite app_nil_r. auto.
           ++ intros x [Q|Q]; [discriminate|]. exfalso. eapply A7; eauto.
        -- exfalso. specialize (A3 _ (nth_error_In _ _ Hq) eq_refl). discriminate.
        -- exfalso. eapply A2; [eapply nth_error_In; eauto|reflexivity].
      * assert (Q : (forall w, In (outs i' k', w) (served (normal (updn trs i (trs i ++ [XOk (LServe (outs i k) v)]) i'))) <->
            In (outs i' k', w) (served (normal (trs i')))) /\
          (In (outs i' k') (fails (updn trs i (trs i ++ [XOk (LServe (outs i k) v)]) i')) <-> In (outs i' k') (fails (trs i')))).
        { destruct (Nat.eq_dec i' i) as [->|Ni]; [rewrite updn_eq|rewrite updn_ne by auto; tauto].
          apply (other_label _ _ _ (outs i k)); [congruence|eauto]. }
        destruct Q as (Q1 & Q2). eapply life_off; try exact (I2 i' k'); try exact N; try discriminate; try (rewrite Eh; auto; fail); try exact I; try exact Q1; try exact Q2; try tauto.
        -- intros r E. rewrite Ep. eapply in_remove; eauto. cbn [rq_bid]. congruence.
  - destruct IH as (I1 & I2).
    { intros i'. destruct (Nat.eq_dec i' i) as [->|N].
      - specialize (W i). rewrite updn_eq in W. eapply events_prefix; eauto.
      - specialize (W i'). rewrite updn_ne in W; auto. }
    pose proof (history_sinv _ _ _ _ _ Hba Hopen I1) as V.
    destruct (serve_facts _ _ _ _ _ _ St) as (r & Er & Eh & Ep & Ed).
    assert (F : rq_bid r = place size (outs i k) /\ rq_data r <> None).
    { destruct (rq_data r); destruct Ed as (y & Ed); inversion Ed; split; auto; discriminate. }
    destruct F as (F1 & F2). clear Ed. split.
    + cbn [app]. eapply sh_step; [exact I1| |exact St]. intros _. cbn [allowed]. apply nth_error_Some. congruence.
    + intros i' k'. destruct (same_or i k i' k') as [(<- & <-)|N].
      * rewrite updn_eq. destruct (I2 i k) as [A1 A2 A3 A4 A5|w A1 A2 A3 A4 A5 A6 A7|w A1 A2 A0 A3 A4 A5 A6 A7 A8|A1 A2 A3 A4 A5].
        -- exfalso. eapply A2; [eapply nth_error_In; eauto|auto].
        -- apply LLost; auto.
           ++ intros r' Q E. rewrite Ep in Q.
              eapply (only_one _ _ _ (si_excl _ _ _ V) Er); [auto|exact Q|congruence].
           ++ intros v. rewrite normal_app, served_app. cbn. rewrite app_nil_r. auto.
           ++ rewrite fails_app. apply in_or_app. right. cbn. auto.
           ++ intros x [Q|Q]; [discriminate|]. eapply A7; eauto.
        -- exfalso. apply F2. apply A3; auto. eapply nth_error_In; eauto.
        -- exfalso. eapply A2; [eapply nth_error_In; eauto|auto].
      * assert (Q : (forall w, In (outs i' k', w) (served (normal (updn trs i (trs i ++ [XFail (outs i k)]) i'))) <->
            In (outs i' k', w) (served (normal (trs i')))) /\
          (In (outs i' k') (fails (updn trs i (trs i ++ [XFail (outs i k)]) i')) <-> In (outs i' k') (fails (trs i')))).
        { destruct (Nat.eq_dec i' i) as [->|Ni]; [rewrite updn_eq|rewrite updn_ne by auto; tauto].
          apply (other_label _ _ _ (outs i k)); [congruence|eauto]. }
        destruct Q as (Q1 & Q2). eapply life_off; try exact (I2 i' k'); try exact N; try discriminate; try (rewrite Eh; auto; fail); try exact I; try exact Q1; try exact Q2; try tauto.
        -- intros r' E. rewrite Ep. eapply in_remove; eauto. congruence.
  - destruct (IH W) as (I1 & I2). clear IH.
    pose proof (history_sinv _ _ _ _ _ Hba Hopen I1) as V.
    destruct (read_facts _ _ _ _ _ St) as (b & Eb & -> & Eh & Ep).
    unfold hold in Eb. rewrite Hh in Eb. inversion Eb; subst b. clear Eb.
    destruct (asked_in _ _ Ha) as (v & Hv). apply (closed_served _ _ (W i) Hc) in Hv.
    assert (G : forall r, In r (st_pending s) -> rq_bid r = place size (outs i k) -> rq_data r = None).
    { destruct (I2 i k) as [A1 A2 A3|w A1 A2 A3 A4 A5|w A1 A2 A0 A3|A1 A2 A3]; auto; exfalso; first [eapply A3; exact Hv|eapply A5; exact Hv]. }
    split.
    + cbn [app]. eapply sh_step; [exact I1| |exact St]. intros _. cbn [allowed].
      exists (place size (outs i k)). split; auto.
    + intros i' k'. destruct (same_or i k i' k') as [(<- & <-)|N].
      * destruct (I2 i k) as [A1 A2 A3|w A1 A2 A3 A4 A5|w A1 A2 A0 A3 A4 A5 A6 A7 A8|A1 A2 A3]; try (exfalso; first [eapply A3; exact Hv|eapply A5; exact Hv]; fail).
        apply (LDone _ _ _ _ _ w); auto.
        -- rewrite Eh. auto.
        -- intros r Q E. rewrite Ep in Q. apply in_app_or in Q. destruct Q as [Q|[<-|[]]]; auto.
        -- intros x [Q|Q]; [discriminate|auto].
      * eapply life_off; try exact (I2 i' k'); try exact N; try discriminate; try (rewrite Eh; auto; fail); try exact I; try exact Q1; try exact Q2; try tauto.
        -- intros r E. rewrite Ep. apply in_snoc. cbn [rq_bid]. congruence.
  - apply IH; auto.
  - apply IH; auto.
  - destruct (IH W) as (I1 & I2). clear IH.
    pose proof (history_sinv _ _ _ _ _ Hba Hopen I1) as V.
    split; [cbn [app]; eapply sh_step; [exact I1| |exact St]; auto|].
    intros i k. assert (Ow : owned size outs (place size (outs i k))) by (unfold owned; eauto).
    destruct o as [tsize f off sizes|os h|h data|h|a q]; cbn [elsewhere] in El.
    + destruct (new_facts _ _ _ _ _ _ _ _ _ _ V Al St) as (Ep & got & -> & Eh & Ng).
      eapply life_off; try exact (I2 i k); try exact N; try discriminate; try (rewrite Eh; auto; fail); try exact I; try exact Q1; try exact Q2; try tauto.
      * intros l E Q. inversion E; subst. auto.
      * intros r E. rewrite Ep. tauto.
      * rewrite Eh. intros Q. apply in_or_app; auto.
    + destruct (delete_facts _ _ _ _ _ _ _ _ V St) as (Ep & b & Eb & -> & Eh).
      assert (N : b <> place size (outs i k)) by (intros ->; apply (El _ Eb); auto).
      eapply life_off; try exact (I2 i k); try exact N; try discriminate; try (rewrite Eh; auto; fail); try exact I; try exact Q1; try exact Q2; try tauto.
      * intros r E. rewrite Ep. tauto.
      * intros Q. apply Eh; auto.
    + destruct (write_facts _ _ _ _ _ _ St) as (b & Eb & -> & Eh & Ep).
      assert (N : b <> place size (outs i k)) by (intros ->; apply (El _ Eb); auto).
      eapply life_off; try exact (I2 i k); try exact N; try discriminate; try (rewrite Eh; auto; fail); try exact I; try exact Q1; try exact Q2; try tauto.
      * intros r E. rewrite Ep. apply in_snoc. cbn [rq_bid]. congruence.
    + destruct (read_facts _ _ _ _ _ St) as (b & Eb & -> & Eh & Ep).
      assert (N : b <> place size (outs i k)) by (intros ->; apply (El _ Eb); auto).
      eapply life_off; try exact (I2 i k); try exact N; try discriminate; try (rewrite Eh; auto; fail); try exact I; try exact Q1; try exact Q2; try tauto.
      * intros r E. rewrite Ep. apply in_snoc. cbn [rq_bid]. congruence.
    + destruct (serve_facts _ _ _ _ _ _ St) as (r & Er & Eh & Ep & Ed).
      destruct (step_any ba cfgs _ s (SServe a q) Hba V Al) as (s2 & e2 & St2 & _ & Rd).
      rewrite St in St2. inversion St2; subst s2 e2. clear St2.
      destruct (rq_data r) as [data|] eqn:Dr.
      * destruct Ed as (ok & ->).
        assert (N : rq_bid r <> place size (outs i k)).
        { intros E. apply (El r Er); [congruence|]. rewrite E. auto. }
        eapply life_off; try exact (I2 i k); try exact N; try discriminate; try (rewrite Eh; auto; fail); try exact I; try exact Q1; try exact Q2; try tauto.
        -- intros r' E. rewrite Ep. eapply in_remove; eauto. congruence.
      * destruct Ed as (x & ->).
        assert (Dec : rq_bid r = place size (outs i k) \/ rq_bid r <> place size (outs i k)).
        { destruct (sbid_eqb (rq_bid r) (place size (outs i k))) eqn:E; [left; apply bid_eqb_spec; auto|right].
          intros Q. apply bid_eqb_spec in Q. congruence. }
        destruct Dec as [E|N].
        -- pose proof (nth_error_In _ _ Er) as Hr.
           destruct (I2 i k) as [A1 A2 A3|w A1 A2 A3 A4 A5|w A1 A2 A0 A3 A4 A5 A6 A7 A8|A1 A2 A3].
           ++ exfalso. eapply A2; eauto.
           ++ exfalso. rewrite (A3 _ Hr E) in Dr. discriminate.
           ++ apply (LDone _ _ _ _ _ w); auto.
              ** rewrite Eh. auto.
              ** intros r' Q E'. rewrite Ep in Q. apply A3; auto. eapply in_removed; eauto.
              ** intros y [Q|Q]; auto. inversion Q; subst. eapply Rd; [reflexivity|]. rewrite E. exact A4.
           ++ exfalso. eapply A2; eauto.
        -- eapply life_off; try exact (I2 i k); try exact N; try discriminate; try (rewrite Eh; auto; fail); try exact I; try exact Q1; try exact Q2; try tauto.
           ++ intros r' E. rewrite Ep. eapply in_remove; eauto. congruence.
Qed.

(** ** What the input streams hand out *)

Lemma handed : forall evs trs rts s, together B size enc dec outs ins n ba s0 evs trs rts s ->
  forall j c v, nth_error (y_delivered (rts j)) c = Some (Some v) ->
  exists d x, nth_error (ins j) c = Some d /\ In (EReadDone (place size d) (Some x)) evs /\ v = dec x.
Proof.
  intros evs trs rts s H. induction H as
    [|evs trs rts s i l H IH T
     |evs trs rts s i k v h s' e H IH Ha Hl Hh St
     |evs trs rts s i k v a q s' H IH Hl Hq St
     |evs trs rts s i k a q s' H IH St
     |evs trs rts s i k h s' e H IH Hc Ha Hh St
     |evs trs rts s j l H IH T
     |evs trs rts s j b d x H IH Hn Hx
     |evs trs rts s o s' e H IH Al El St]; intros j' c w Q; auto;
    try (destruct (IH _ _ _ Q) as (d' & x' & X1 & X2 & X3); exists d', x'; csplit; auto; right; auto; fail).
  - destruct c; discriminate.
  - destruct (Nat.eq_dec j' j) as [->|N]; [rewrite updn_eq in Q|rewrite updn_ne in Q; auto].
    rewrite y_delivered_app in Q.
    destruct (Nat.lt_ge_cases c (length (y_delivered (rts j)))) as [L|L].
    + rewrite nth_error_app1 in Q by auto. auto.
    + rewrite nth_error_app2 in Q by auto. exfalso.
      destruct l as [[| | b [a|] | | | | | ]| | |]; cbn in Q, T; try discriminate;
        destruct (c - length (y_delivered (rts j))) as [|[|?]]; discriminate.
  - destruct (Nat.eq_dec j' j) as [->|N]; [rewrite updn_eq in Q|rewrite updn_ne in Q; auto].
    rewrite y_delivered_app in Q.
    destruct (Nat.lt_ge_cases c (length (y_delivered (rts j)))) as [L|L].
    + rewrite nth_error_app1 in Q by auto. auto.
    + rewrite nth_error_app2 in Q by auto. cbn in Q.
      destruct (c - length (y_delivered (rts j))) as [|m] eqn:E; cbn in Q; [|destruct m; discriminate].
      inversion Q; subst. replace c with (length (y_delivered (rts j))) by lia. exists d, x. auto.
Qed.

End Life.
