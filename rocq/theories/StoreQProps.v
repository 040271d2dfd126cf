(** C119: the block store on top of the request queues. *)

From Coq Require Import ZArith List Bool Arith Lia.
From Verif Require Import WriterProofs.
From Verif Require Import AllocModel ManagerModel ManagerSpec FileModel StoreModel StoreSpec StoreProofs2 StoreProps StoreQModel StoreQSpec StoreQProofs StoreQProofs2.
From Verif Require ManagerMain QueueModel QueueSpec QueueProofs QueueLife QueueTrace QueueProps QueueProps2 QueueRun XferModel XferProofs XferProps.
Import ListNotations.

Lemma open_empty : forall cfgs disks s0, setup cfgs disks s0 -> st_pending s0 = [].
Proof.
  intros cfgs disks s0 (_ & _ & _ & H). unfold open_store in H. destruct (new_manager cfgs); inversion H; subst. auto.
Qed.

Lemma prefix_sinv : forall ks qid ba nc cfgs disks s0 t s, (1 <= ba)%nat -> setup cfgs disks s0 ->
  history ks qid ba (begin nc s0) t s -> follows (length cfgs) t -> sinv cfgs (events t) (as_store s).
Proof.
  intros ks qid ba nc cfgs disks s0 t s Hb Su H F.
  eapply history_sinv; eauto.
  - destruct Su as (A & B & C & D). eapply open_inv; eauto.
  - unfold as_store. rewrite <- remain_all. eapply sim_history; eauto. eapply open_empty; eauto. discriminate.
Qed.

(** Whatever the threads of the queues and the clients do, and whichever requests are cancelled:
    the manager and the files change as StoreModel says, with the requests served in some order
    and without those that were removed from their queues; a client that waits for the end of
    its requests follows the rules of C92. *)
Theorem C119_refines : forall ks qid ba nc cfgs disks s0 t s, setup cfgs disks s0 ->
  history ks qid ba (begin nc s0) t s -> follows (length cfgs) t ->
  shistory true (length cfgs) ba s0 (events t) (as_store s).
Proof.
  intros ks qid ba nc cfgs disks s0 t s Su H F. unfold as_store. rewrite <- remain_all.
  eapply sim_history; eauto; [eapply open_empty; eauto|discriminate].
Qed.
Print Assumptions C119_refines.

(** A read that is served without an error delivers what was last written to its block. *)
Theorem C119_reads_last_written : forall ks qid ba nc cfgs disks s0 newer q r a b x older s d, (1 <= ba)%nat -> setup cfgs disks s0 ->
  history ks qid ba (begin nc s0) (newer ++ HServed q r a (EReadDone b (Some x)) :: older) s ->
  follows (length cfgs) (newer ++ HServed q r a (EReadDone b (Some x)) :: older) ->
  expected (events older) b = Some d -> x = map Some d.
Proof.
  intros ks qid ba nc cfgs disks s0 newer q r a b x older s d Hb Su H F E.
  destruct (history_prefix _ _ _ _ _ _ H newer _ eq_refl) as (s1 & H1). apply follows_prefix in F.
  pose proof (C119_refines _ _ _ _ _ _ _ _ _ Su H1 F) as Sh. cbn [events effective] in Sh.
  eapply (C92_reads_last_written ba cfgs disks s0 [] b x); eauto.
Qed.
Print Assumptions C119_reads_last_written.

(** Who is told the end of a request can rely on it: it was served, as posted, or was removed
    from its queue; if the wait returned normally, serving it has not failed. *)
Theorem C119_told : forall ks qid ba nc s0 t s c0 q r e c, history ks qid ba (begin nc s0) t s ->
  In (HPost q c0 r e) t -> told c t q r -> (forall c', ~ In (HErased q c' r) t) ->
  exists a e' x, In (HServed q r a e') t /\ request_of e = Some x /\ reply x e' /\ q = qid (disk_of (rq_bid x)) /\
    ((exists rs, In (HQueue q (QueueModel.EWaitRet c rs)) t /\ In r rs) \/
     (exists rs sp, In (HQueue q (QueueModel.EAnyRet c rs (Some r) sp)) t) -> went e' = true).
Proof.
  intros ks qid ba nc s0 t s c0 q r e c H P T Ne. pose proof (inv_history _ _ _ _ _ _ _ H) as V.
  pose proof (told_landed _ _ _ _ _ _ _ _ V T) as L.
  destruct (i_end _ _ _ _ _ V _ _ _ _ P) as [(x & A)|[(a & e' & A)|(c' & A)]].
  - exfalso. apply L. apply (i_fly _ _ _ _ _ V _ _ _ A).
  - destruct (i_served _ _ _ _ _ V _ _ _ _ A) as (B & c1 & e0 & x & C1 & C2 & C3).
    destruct (i_once _ _ _ _ _ V _ _ _ _ _ _ P C1) as (_ & <-).
    destruct (i_qid _ _ _ _ _ V _ _ _ _ P) as (x' & X1 & X2). rewrite C2 in X1. inversion X1; subst x'.
    exists a, e', x. csplit; auto. intros K. destruct (went e') eqn:W; auto. exfalso.
    pose proof (i_reach _ _ _ _ _ V q) as R.
    assert (Sp : forall ev, In (HQueue q ev) t -> exists l1 l2, QueueSpec.trace (b_q s q) = l1 ++ ev :: l2).
    { intros ev J. apply (i_log _ _ _ _ _ V) in J. rewrite <- QueueTrace.in_trace in J. apply in_split in J. exact J. }
    assert (G : ~ QueueSpec.failed r (QueueSpec.trace (b_q s q))).
    { destruct K as [(rs & K & J)|(rs & sp & K)]; destruct (Sp _ K) as (l1 & l2 & E).
      - refine (QueueProps.C24_return_means_no_failure _ _ _ c rs r l1 l2 R _ _ (QueueModel.steps_refl _ _)). auto.
      - refine (QueueProps.C24_return_means_no_failure _ _ _ c rs r l1 l2 R _ _ (QueueModel.steps_refl _ _)). eauto. }
    apply G. unfold QueueSpec.failed. rewrite QueueTrace.in_trace. exact B.
  - exfalso. eapply Ne; eauto.
Qed.
Print Assumptions C119_told.

(** ** From writing to reading *)


Definition shaped (h : happening) : Prop :=
  match h with
  | HPost _ _ _ e => request_of e <> None
  | HServed _ _ _ e => (exists b ok, e = EWritten b ok) \/ (exists b x, e = EReadDone b x)
  | HCall _ e => (exists bs, e = EAlloc bs) \/ (exists b, e = EDelete b)
  | _ => True
  end.

Lemma history_shaped : forall ks qid ba w0 t s, history ks qid ba w0 t s -> Forall shaped t.
Proof.
  intros ks qid ba w0 t s H. induction H as [|t s s' H IH St|t s h s' H IH St]; auto. constructor; auto.
  remember (Some h) as ho eqn:Eh. destruct St as [s q q' T E|s q q' c r o s1 e x ob T E So Rx Qd Ob Op|s q q' r a k x s1 e T E Ek So|s q q' r c k x T E Ek|s o s1 e Ic So|s q q' e T E Pl];
    inversion Eh; subst h; cbn; auto.
  - congruence.
  - assert (Ex : nth_error (map snd (b_fly s)) k = Some x) by (rewrite (map_nth_error snd _ _ Ek); auto).
    destruct (serve_step _ _ _ _ _ _ _ _ _ Ex So) as (Rp & _). unfold reply in Rp. destruct (rq_data x); destruct Rp as (y & ->); eauto.
  - unfold as_store in So. destruct o as [tsize f off sizes|os i|i data|i|a k]; cbn in Ic; try discriminate.
    + cbn [store_step st_client] in So. destruct (mclient_step _ _); inversion So; subst; eauto.
    + destruct (call_step ba _ _ _ (SDelete os i) _ _ eq_refl So) as (_ & _ & b & -> & _). eauto.
Qed.

Lemma same_expected : forall b t g g', Forall shaped t ->
  (forall q c r d, In (HPost q c r (EWrite b d)) t -> g q r = g' q r) ->
  expected (effective g t) b = expected (effective g' t) b.
Proof.
  intros b. induction t as [|h t IH]; intros g g' Sh H; auto. inversion Sh as [|? ? Sh1 Sh2]; subst.
  assert (H' : forall q c r d, In (HPost q c r (EWrite b d)) t -> g q r = g' q r) by (intros; eapply H; right; eauto).
  assert (K : forall e, expected (e :: effective g t) b = expected (e :: effective g' t) b).
  { intros e. specialize (IH g g' Sh2 H'). destruct e as [bs|b'|b' d|b'|b' [|]|b' d]; cbn; rewrite ?IH; auto. }
  destruct h as [q c r e|q r a e|q c r|o e|q e]; cbn [effective]; auto.
  - cbn in Sh1. pose proof (IH g g' Sh2 H') as IH1.
    assert (W : g q r <> g' q r -> expected (e :: effective g t) b = expected (effective g t) b /\
      expected (e :: effective g' t) b = expected (effective g' t) b).
    { intros N. destruct e as [bs|b'|b' d|b'|b' ok|b' d]; cbn in Sh1; try congruence; auto. cbn.
      destruct (bid_eqb b b') eqn:Q; auto. apply bid_eqb_spec in Q. subst b'. exfalso. apply N.
      eapply H. left; eauto. }
    destruct (g q r); destruct (g' q r); auto.
    + destruct W as (_ & ->); [discriminate|]. auto.
    + destruct W as (-> & _); [discriminate|]. auto.
  - apply IH; auto. intros q' c' r' d' I. unfold and_also. rewrite (H' _ _ _ _ I). auto.
Qed.

Lemma history_at : forall ks qid ba w0 t s, history ks qid ba w0 t s -> forall newer h older, t = newer ++ h :: older ->
  exists s1 s2, history ks qid ba w0 older s1 /\ bstep ks qid ba s1 (Some h) s2.
Proof.
  intros ks qid ba w0 t s H. induction H as [|t s s' H IH St|t s h s' H IH St]; intros newer h0 older E.
  - destruct newer; discriminate.
  - eauto.
  - destruct newer as [|y newer]; cbn in E; inversion E; subst; eauto.
Qed.

Lemma fly_step : forall ks qid ba s ho s', bstep ks qid ba s ho s' -> forall q r x, In (q, r, x) (b_fly s') ->
  In (q, r, x) (b_fly s) \/ exists c e, ho = Some (HPost q c r e).
Proof.
  intros ks qid ba s ho s' St q0 r0 x0 I.
  destruct St as [s q q' T E|s q q' c r o s1 e x ob T E So Rx Qd Ob Op|s q q' r a k x s1 e T E Ek So|s q q' r c k x T E Ek|s o s1 e Ic So|s q q' e T E Pl];
    cbn [b_fly] in I; auto.
  - apply in_app_iff in I. destruct I as [I|[I|[]]]; auto. inversion I; subst. right. eauto.
  - destruct (remove_split _ _ _ Ek) as (l1 & l2 & El & Er & _). rewrite Er in I. left. rewrite El. apply in_app_iff.
    apply in_app_iff in I. cbn. tauto.
  - destruct (remove_split _ _ _ Ek) as (l1 & l2 & El & Er & _). rewrite Er in I. left. rewrite El. apply in_app_iff.
    apply in_app_iff in I. cbn. tauto.
Qed.

Lemma still_fly : forall ks qid ba w0 t s, history ks qid ba w0 t s -> forall newer older, t = newer ++ older ->
  exists s1, history ks qid ba w0 older s1 /\ forall q r x, In (q, r, x) (b_fly s) ->
    (exists c e, In (HPost q c r e) newer) \/ In (q, r, x) (b_fly s1).
Proof.
  intros ks qid ba w0 t s H. induction H as [|t s s' H IH St|t s h s' H IH St]; intros newer older E.
  - apply eq_sym, app_eq_nil in E. destruct E as (-> & ->). exists w0. split; [constructor|auto].
  - destruct (IH newer older E) as (s1 & A & B). exists s1. split; auto. intros q r x I.
    destruct (fly_step _ _ _ _ _ _ St _ _ _ I) as [J|(c & e & J)]; [auto|discriminate].
  - destruct newer as [|y newer]; cbn in E.
    + subst older. exists s'. split; [eapply HsSome; eauto|auto].
    + inversion E; subst. destruct (IH newer older eq_refl) as (s1 & A & B). exists s1. split; auto. intros q r x I.
      destruct (fly_step _ _ _ _ _ _ St _ _ _ I) as [J|(c & e & J)].
      * destruct (B _ _ _ J) as [(c & e & K)|K]; auto. left. exists c, e. right; auto.
      * inversion J; subst. left. exists c, e. left; auto.
Qed.

Lemma post_new : forall ks qid ba nc t s q c r e s', inv ks qid nc t s -> bstep ks qid ba s (Some (HPost q c r e)) s' ->
  loc r (log (b_q s q)) = QueueProofs.PNone.
Proof.
  intros ks qid ba nc t s q c r e s' V St. remember (Some (HPost q c r e)) as ho eqn:Eh.
  destruct St as [s q1 q' T E|s q1 q' c1 r1 o s1 e1 x ob T E So Rx Qd Ob Op|s q1 q' r1 a k x s1 e1 T E Ek So|s q1 q' r1 c1 k x T E Ek|s o s1 e1 Ic So|s q1 q' e1 T E Pl];
    try discriminate Eh. clear Qd. inversion Eh; subst q1 c1 r1 e1.
  pose proof (XferProofs.good_reach _ _ _ r (reach_put _ _ _ _ q' (i_reach _ _ _ _ _ V) T q)) as G.
  rewrite put_same in G. rewrite E, XferProofs.loc_cons in G.
  cbn [QueueSpec.about] in G. rewrite Nat.eqb_refl in G.
  destruct (loc r (log (b_q s q))) as [|c0| | |c0|o0 st|o0|]; cbn in G; try congruence. destruct st; congruence.
Qed.

Lemma post_first : forall ks qid ba nc s0 t s newer q c r e older, history ks qid ba (begin nc s0) t s ->
  t = newer ++ HPost q c r e :: older -> forall c' e', ~ In (HPost q c' r e') older.
Proof.
  intros ks qid ba nc s0 t s newer q c r e older H Et c' e' I.
  destruct (history_at _ _ _ _ _ _ H _ _ _ Et) as (s1 & s2 & H1 & St). pose proof (inv_history _ _ _ _ _ _ _ H1) as V.
  apply (i_posted _ _ _ _ _ V) in I. apply I. eapply post_new; eauto.
Qed.

Lemma split_once : forall A (P : A) t1 t2 v w, t2 ++ P :: t1 = w ++ P :: v -> ~ In P t1 -> ~ In P v -> t1 = v /\ t2 = w.
Proof.
  intros A P t1. induction t2 as [|y t2 IH]; intros v w E N1 N2; destruct w as [|z w]; cbn in E; inversion E; subst; auto.
  - exfalso. apply N1. apply in_app_iff. right. left. auto.
  - exfalso. apply N2. apply in_app_iff. right. left. auto.
  - destruct (IH v w H1 N1 N2). subst. auto.
Qed.

(** While a read of a block is under way, what is expected of the block does not change. *)
Lemma step_keeps : forall ks qid ba nc cfgs disks s0 t s h s' q r b, (1 <= ba)%nat -> setup cfgs disks s0 ->
  history ks qid ba (begin nc s0) t s -> follows (length cfgs) (h :: t) -> bstep ks qid ba s (Some h) s' ->
  In (q, r, mk_rq b None) (b_fly s) -> expected (events (h :: t)) b = expected (events t) b.
Proof.
  intros ks qid ba nc cfgs disks s0 t s h s' q r b Hb Su H F St I.
  destruct (follows_older _ _ _ F) as (F1 & M). pose proof (inv_history _ _ _ _ _ _ _ H) as V.
  pose proof (prefix_sinv _ _ _ _ _ _ _ _ _ Hb Su H F1) as Si.
  assert (Un : unfinished t (mk_rq b None)) by (eapply fly_unfinished; eauto).
  assert (Ex : forall q1 r1 x1, In (q1, r1, x1) (b_fly s) -> rq_bid x1 = b -> rq_data x1 = None).
  { intros q1 r1 x1 I1 B1. apply In_nth_error in I. destruct I as (k & Ek). apply In_nth_error in I1. destruct I1 as (k1 & Ek1).
    destruct (Nat.eq_dec k1 k) as [Q|D]; [subst; rewrite Ek in Ek1; inversion Ek1; auto|].
    apply (si_excl _ _ _ Si k1 k x1 (mk_rq b None) D); cbn [as_store st_pending]; auto.
    - rewrite (map_nth_error snd _ _ Ek1). auto.
    - rewrite (map_nth_error snd _ _ Ek). auto. }
  remember (Some h) as ho eqn:Eh.
  destruct St as [s q1 q' T E|s q1 q' c1 r1 o s1 e1 x ob T E So Rx Qd Ob Op|s q1 q' r1 a k x s1 e1 T E Ek So|s q1 q' r1 c1 k x T E Ek|s o s1 e1 Ic So|s q1 q' e1 T E Pl];
    inversion Eh; subst h; unfold events; cbn [effective].
  - destruct e1 as [bs|b'|b' d|b'|b' ok|b' d]; cbn in Rx; try discriminate; cbn; auto.
    destruct (bid_eqb b b') eqn:Q; auto. apply bid_eqb_spec in Q. subst b'. exfalso. cbn in M. destruct M as (_ & M). eapply M; eauto.
  - assert (Exx : nth_error (map snd (b_fly s)) k = Some x) by (rewrite (map_nth_error snd _ _ Ek); auto).
    destruct (serve_step _ _ _ _ _ _ _ _ _ Exx So) as (Rp & _). unfold reply in Rp.
    destruct (rq_data x) as [dd|] eqn:Ed; destruct Rp as (y & ->); cbn; auto. destruct y; auto.
    destruct (bid_eqb b (rq_bid x)) eqn:Q; auto. apply bid_eqb_spec in Q. subst b. exfalso.
    apply nth_error_In in Ek. rewrite (Ex _ _ _ Ek eq_refl) in Ed. discriminate.
  - apply same_expected; [eapply history_shaped; eauto|]. intros q2 c2 r2 d2 I2. unfold and_also.
    destruct (Nat.eqb_spec q2 q1) as [Q1|Q1]; destruct (Nat.eqb_spec r2 r1) as [Q2|Q2]; auto. subst. exfalso.
    apply nth_error_In in Ek. destruct (i_fly _ _ _ _ _ V _ _ _ Ek) as (_ & (c3 & e3 & B1 & B2) & _).
    destruct (i_once _ _ _ _ _ V _ _ _ _ _ _ I2 B1) as (_ & <-). cbn in B2. inversion B2; subst x.
    specialize (Ex _ _ _ Ek eq_refl). discriminate.
  - unfold as_store in So. destruct o as [tsize f off sizes|os i|i data|i|a k]; cbn in Ic; try discriminate.
    + cbn [minds] in M.
      assert (Hb2 : In b (mc_held (b_client s))).
      { assert (J : In (mk_rq b None) (st_pending (as_store s))). { cbn. change (mk_rq b None) with (snd (q, r, mk_rq b None)). apply in_map. auto. }
        apply (proj1 (si_pend _ _ _ Si _ J)). }
      pose proof (si_reach _ _ _ Si) as R. cbn [as_store st_client] in R.
      cbn [store_step st_client] in So.
      assert (G : forall c', mclient_step (b_client s) (MNew tsize f off sizes) = StepOk c' \/ mclient_step (b_client s) (MNew tsize f off sizes) = StepThrow c' ->
        expected (EAlloc (skipn (length (mc_held (b_client s))) (mc_held c')) :: effective (fun _ _ => false) t) b = expected (effective (fun _ _ => false) t) b).
      { intros c' Sc. pose proof (reach_step _ _ _ _ R M Sc) as R'.
        destruct (new_grows _ _ _ _ _ _ _ (ManagerMain.mreachable_inv _ _ _ R) M Sc) as ((got & Hg) & _). rewrite Hg, skipn_app_exact.
        pose proof (held_nodup _ _ R') as ND. rewrite Hg in ND. apply expected_alloc_old. eapply nodup_app_disjoint; eauto. }
      destruct (mclient_step (b_client s) (MNew tsize f off sizes)) as [c'|c'|]; inversion So; subst; apply G; auto.
    + destruct (call_step ba _ _ _ (SDelete os i) _ _ eq_refl So) as (_ & _ & b' & -> & _). reflexivity.
  - reflexivity.
Qed.

Lemma read_keeps : forall ks qid ba nc cfgs disks s0 t s, (1 <= ba)%nat -> setup cfgs disks s0 ->
  history ks qid ba (begin nc s0) t s -> follows (length cfgs) t -> forall t2 q c r b t1, t = t2 ++ HPost q c r (ERead b) :: t1 ->
  In (q, r, mk_rq b None) (b_fly s) -> expected (events t) b = expected (events t1) b.
Proof.
  intros ks qid ba nc cfgs disks s0 t s Hb Su H. induction H as [|t s s' H IH St|t s h s' H IH St]; intros F t2 q c r b t1 E I.
  - destruct t2; discriminate.
  - destruct (fly_step _ _ _ _ _ _ St _ _ _ I) as [J|(c2 & e2 & J)]; [|discriminate]. eauto.
  - destruct t2 as [|y t2]; cbn in E; inversion E; subst.
    + reflexivity.
    + destruct (follows_older _ _ _ F) as (F1 & M).
      assert (J : In (q, r, mk_rq b None) (b_fly s)).
      { destruct (fly_step _ _ _ _ _ _ St _ _ _ I) as [J|(c2 & e2 & J)]; auto. exfalso. inversion J; subst.
        assert (H2 : history ks qid ba (begin nc s0) (HPost q c2 r e2 :: t2 ++ HPost q c r (ERead b) :: t1) s') by (eapply HsSome; eauto).
        eapply (post_first _ _ _ _ _ _ _ [] _ _ _ _ _ H2 eq_refl c (ERead b)). apply in_app_iff. right. left. auto. }
      rewrite (step_keeps _ _ _ _ _ _ _ _ _ _ _ _ _ _ Hb Su H F St J). eauto.
Qed.

(** A client that reads a block and waits gets what was expected of the block when it asked. *)
Theorem C119_waited_read : forall ks qid ba nc cfgs disks s0 t2 q c0 r b t1 s d c rs, (1 <= ba)%nat -> setup cfgs disks s0 ->
  let t := t2 ++ HPost q c0 r (ERead b) :: t1 in
  history ks qid ba (begin nc s0) t s -> follows (length cfgs) t ->
  expected (events t1) b = Some d ->
  (In (HQueue q (QueueModel.EWaitRet c rs)) t /\ In r rs) \/ (exists sp, In (HQueue q (QueueModel.EAnyRet c rs (Some r) sp)) t) ->
  (forall c', ~ In (HErased q c' r) t) ->
  exists a, In (HServed q r a (EReadDone b (Some (map Some d)))) t.
Proof.
  intros ks qid ba nc cfgs disks s0 t2 q c0 r b t1 s d c rs Hb Su t H F E W Ne.
  assert (P : In (HPost q c0 r (ERead b)) t) by (apply in_app_iff; right; left; auto).
  assert (T : told c t q r).
  { destruct W as [(W1 & W2)|(sp & W)]; [left; eauto|right; right; left; eauto]. }
  destruct (C119_told _ _ _ _ _ _ _ _ _ _ _ _ H P T Ne) as (a & e' & x & A1 & A2 & A3 & _ & A5).
  cbn in A2. inversion A2; subst x. unfold reply in A3. cbn in A3. destruct A3 as (y & ->).
  assert (Wt : went (EReadDone b y) = true).
  { apply A5. destruct W as [(W1 & W2)|(sp & W)]; eauto. }
  destruct y as [y|]; [|discriminate]. exists a. apply in_split in A1. destruct A1 as (newer & older & Et).
  assert (Y : y = map Some d); [|subst y; rewrite Et; apply in_app_iff; right; left; auto].
  destruct (history_at _ _ _ _ _ _ H _ _ _ Et) as (s1 & s2 & H1 & St).
  assert (Fl : exists z, In (q, r, z) (b_fly s1)).
  { remember (Some (HServed q r a (EReadDone b (Some y)))) as ho eqn:Eh.
    destruct St as [s1 q1 q' T1 E1|s1 q1 q' c1 r1 o s3 e1 x ob T1 E1 So Rx Qd Ob Op|s1 q1 q' r1 a1 k x s3 e1 T1 E1 Ek So|s1 q1 q' r1 c1 k x T1 E1 Ek|s1 o s3 e1 Ic So|s1 q1 q' e1 T1 E1 Pl];
      inversion Eh; subst. exists x. eapply nth_error_In; eauto. }
  destruct Fl as (z & Fl). destruct (i_fly _ _ _ _ _ (inv_history _ _ _ _ _ _ _ H1) _ _ _ Fl) as (_ & (c1 & e1 & B1 & B2) & _).
  pose proof (inv_history _ _ _ _ _ _ _ H) as V.
  assert (B1' : In (HPost q c1 r e1) t) by (rewrite Et; apply in_app_iff; right; right; auto).
  destruct (i_once _ _ _ _ _ V _ _ _ _ _ _ P B1') as (<- & <-). cbn in B2. inversion B2; subst z.
  apply in_split in B1. destruct B1 as (u & v & Eo).
  assert (Q : v = t1).
  { pose proof (post_first _ _ _ _ _ _ _ t2 _ _ _ _ _ H eq_refl c0 (ERead b)) as N1.
    assert (Et2 : t = (newer ++ HServed q r a (EReadDone b (Some y)) :: u) ++ HPost q c0 r (ERead b) :: v).
    { rewrite Et, Eo, <- app_assoc. reflexivity. }
    pose proof (post_first _ _ _ _ _ _ _ _ _ _ _ _ _ H Et2 c0 (ERead b)) as N2.
    symmetry. exact (proj1 (split_once _ _ _ _ _ _ Et2 N1 N2)). }
  subst v. rewrite Et in F. pose proof F as F0. apply follows_prefix in F0. apply follows_older in F0. destruct F0 as (F0 & _).
  pose proof (read_keeps _ _ _ _ _ _ _ _ _ Hb Su H1 F0 _ _ _ _ _ _ Eo Fl) as K. rewrite E in K.
  eapply C119_reads_last_written; eauto. rewrite <- Et. exact H.
Qed.
Print Assumptions C119_waited_read.

(** ** What is written stays *)

Lemma down_kept : forall e p, ~ flying p -> p <> QueueProofs.PNone ->
  ~ flying (QueueProofs.adv e p) /\ QueueProofs.adv e p <> QueueProofs.PNone.
Proof.
  intros e p F N. destruct p as [|c0| | |c0|o st|o|]; cbn in F; try congruence; try tauto;
    destruct e; try (destruct st); cbn; repeat match goal with |- context [if ?c then _ else _] => destruct c end; split; auto; discriminate.
Qed.

Lemma queue_step : forall ks qid ba s ho s', bstep ks qid ba s ho s' ->
  forall q, b_q s' q = b_q s q \/ QueueModel.step (ks q) (b_q s q) (b_q s' q).
Proof.
  assert (P : forall (ks : nat -> QueueModel.kind) (f : nat -> QueueModel.state) q1 q' q, QueueModel.step (ks q1) (f q1) q' ->
    put q1 q' f q = f q \/ QueueModel.step (ks q) (f q) (put q1 q' f q)).
  { intros ks f q1 q' q T. unfold put. destruct (Nat.eqb_spec q q1) as [Q|D]; subst; auto. }
  intros ks qid ba s ho s' St q. destruct St; cbn [b_q]; auto.
Qed.

(** A request that was removed from its queue stays so. *)
Lemma erased_down : forall ks qid ba nc s0 t s, history ks qid ba (begin nc s0) t s -> forall q c r, In (HErased q c r) t ->
  ~ flying (loc r (log (b_q s q))) /\ loc r (log (b_q s q)) <> QueueProofs.PNone.
Proof.
  intros ks qid ba nc s0 t s H.
  assert (K : forall s ho s', bstep ks qid ba s ho s' -> forall q r,
    ~ flying (loc r (log (b_q s q))) /\ loc r (log (b_q s q)) <> QueueProofs.PNone ->
    ~ flying (loc r (log (b_q s' q))) /\ loc r (log (b_q s' q)) <> QueueProofs.PNone).
  { intros s1 ho s2 St q r L. destruct (queue_step _ _ _ _ _ _ St q) as [->|T]; auto.
    destruct (QueueTrace.one_event _ _ _ T) as [->|(e & ->)]; auto. rewrite XferProofs.loc_cons.
    destruct (QueueSpec.about r e); auto. apply down_kept; tauto. }
  induction H as [|t s s' H IH St|t s h s' H IH St]; intros q c r I.
  - destruct I.
  - eapply K; eauto.
  - destruct I as [->|I]; [|eapply K; eauto]. pose proof (inv_history _ _ _ _ _ _ _ H) as V.
    remember (Some (HErased q c r)) as ho eqn:Eh.
    destruct St as [s q1 q' T E|s q1 q' c1 r1 o s1 e1 x ob T E So Rx Qd Ob Op|s q1 q' r1 a k x s1 e1 T E Ek So|s q1 q' r1 c1 k x T E Ek|s o s1 e1 Ic So|s q1 q' e1 T E Pl];
      inversion Eh; subst q1 c1 r1. cbn [b_q]. rewrite put_same, E, XferProofs.loc_cons. cbn [QueueSpec.about]. rewrite Nat.eqb_refl.
    apply nth_error_In in Ek. destruct (i_fly _ _ _ _ _ V _ _ _ Ek) as (Fl & _).
    destruct (loc r (log (b_q s q))) as [|c0| | |c0|o st|o|]; cbn in Fl; try tauto; cbn; split; auto; discriminate.
Qed.

Lemma erased_unserved : forall ks qid ba nc s0 t s q c r a e, history ks qid ba (begin nc s0) t s ->
  In (HErased q c r) t -> ~ In (HServed q r a e) t.
Proof.
  intros ks qid ba nc s0 t s q c r a e H I J. induction H as [|t s s' H IH St|t s h s' H IH St]; auto.
  pose proof (inv_history _ _ _ _ _ _ _ H) as V.
  destruct I as [->|I]; destruct J as [J|J]; [discriminate| | |auto].
  - remember (Some (HErased q c r)) as ho eqn:Eh.
    destruct St as [s q1 q' T E|s q1 q' c1 r1 o s1 e1 x ob T E So Rx Qd Ob Op|s q1 q' r1 a1 k x s1 e1 T E Ek So|s q1 q' r1 c1 k x T E Ek|s o s1 e1 Ic So|s q1 q' e1 T E Pl];
      inversion Eh; subst q1 c1 r1. apply nth_error_In in Ek. destruct (i_fly _ _ _ _ _ V _ _ _ Ek) as (_ & _ & N). eapply N; eauto.
  - subst h. destruct (erased_down _ _ _ _ _ _ _ H _ _ _ I) as (N & _). remember (Some (HServed q r a e)) as ho eqn:Eh.
    destruct St as [s q1 q' T E|s q1 q' c1 r1 o s1 e1 x ob T E So Rx Qd Ob Op|s q1 q' r1 a1 k x s1 e1 T E Ek So|s q1 q' r1 c1 k x T E Ek|s o s1 e1 Ic So|s q1 q' e1 T E Pl];
      inversion Eh; subst q1 r1. apply nth_error_In in Ek. destruct (i_fly _ _ _ _ _ V _ _ _ Ek) as (Fl & _). exact (N Fl).
Qed.

Lemma written_list : forall q c r b d t1 t2 g, Forall shaped t2 -> g q r = false ->
  (forall c', ~ In (HErased q c' r) t2) ->
  (forall u q' c' r' d' v, t2 = u ++ HPost q' c' r' (EWrite b d') :: v -> g q' r' = true \/ exists c'', In (HErased q' c'' r') u) ->
  (forall o bs, In (HCall o (EAlloc bs)) t2 -> ~ In b bs) -> (forall q' r' a, ~ In (HServed q' r' a (EWritten b false)) t2) ->
  expected (effective g (t2 ++ HPost q c r (EWrite b d) :: t1)) b = Some d.
Proof.
  intros q c r b d t1. induction t2 as [|h t2 IH]; intros g Sh G A1 A2 A3 A4.
  - cbn [app effective]. rewrite G. cbn. rewrite bid_eqb_refl. auto.
  - inversion Sh as [|? ? S1 S2]; subst.
    assert (IH' : forall g', g' q r = false -> (forall q' r', g q' r' = true -> g' q' r' = true) ->
      (forall q' c' r', h = HErased q' c' r' -> g' q' r' = true) ->
      expected (effective g' (t2 ++ HPost q c r (EWrite b d) :: t1)) b = Some d).
    { intros g' G' Gm Ge. apply IH; auto.
      - intros c' I. eapply A1; right; eauto.
      - intros u q' c' r' d' v E. destruct (A2 (h :: u) q' c' r' d' v) as [B|(c'' & [B|B])]; eauto. rewrite E. auto.
      - intros o bs I. eapply A3; right; eauto.
      - intros q' r' a I. eapply A4; right; eauto. }
    cbn [app]. destruct h as [q1 c1 r1 e|q1 r1 a e|q1 c1 r1|o e|q1 e]; cbn [effective].
    + destruct (g q1 r1) eqn:Eg; [apply IH'; auto; discriminate|]. cbn in S1.
      assert (K : expected (effective g (t2 ++ HPost q c r (EWrite b d) :: t1)) b = Some d) by (apply IH'; auto; discriminate).
      destruct e as [bs|b'|b' d'|b'|b' ok|b' d']; cbn in S1; try congruence; cbn; auto.
      destruct (bid_eqb b b') eqn:Q; auto. apply bid_eqb_spec in Q. subst. exfalso.
      destruct (A2 [] q1 c1 r1 d' t2 eq_refl) as [B|(c'' & [])]. congruence.
    + assert (K : expected (effective g (t2 ++ HPost q c r (EWrite b d) :: t1)) b = Some d) by (apply IH'; auto; discriminate).
      cbn in S1. destruct S1 as [(b' & ok & ->)|(b' & y & ->)]; cbn; auto. destruct ok; auto.
      destruct (bid_eqb b b') eqn:Q; auto. apply bid_eqb_spec in Q. subst. exfalso. eapply A4. left; eauto.
    + apply IH'; unfold and_also.
      * destruct (Nat.eqb_spec q q1) as [Q1|Q1]; destruct (Nat.eqb_spec r r1) as [Q2|Q2]; auto.
        subst. exfalso. eapply A1. left; eauto.
      * intros q' r' B. rewrite B. apply orb_true_r.
      * intros q' c' r' B. inversion B; subst. rewrite !Nat.eqb_refl. auto.
    + assert (K : expected (effective g (t2 ++ HPost q c r (EWrite b d) :: t1)) b = Some d) by (apply IH'; auto; discriminate).
      cbn in S1. destruct S1 as [(bs & ->)|(b' & ->)].
      * rewrite expected_alloc_old; auto. eapply A3. left; eauto.
      * cbn. auto.
    + apply IH'; auto; discriminate.
Qed.

(** A client writes a block and waits; later, unless the block was given back or written again
    (writes that were cancelled in time do not count), someone reads the block and waits: they
    get the data. *)
Theorem C119_round_trip : forall ks qid ba nc cfgs disks s0 t3 q2 c2 r2 t2 q1 c1 r1 t1 b d s c c' rs rs', (1 <= ba)%nat -> setup cfgs disks s0 ->
  let t := t3 ++ HPost q2 c2 r2 (ERead b) :: t2 ++ HPost q1 c1 r1 (EWrite b d) :: t1 in
  history ks qid ba (begin nc s0) t s -> follows (length cfgs) t ->
  (forall q c r d', In (HPost q c r (EWrite b d')) t2 -> exists c', In (HErased q c' r) t2) -> (forall o bs, In (HCall o (EAlloc bs)) t2 -> ~ In b bs) ->
  In (HQueue q1 (QueueModel.EWaitRet c rs)) t -> In r1 rs ->
  In (HQueue q2 (QueueModel.EWaitRet c' rs')) t -> In r2 rs' ->
  (forall c, ~ In (HErased q1 c r1) t) -> (forall c, ~ In (HErased q2 c r2) t) ->
  exists a, In (HServed q2 r2 a (EReadDone b (Some (map Some d)))) t.
Proof.
  intros ks qid ba nc cfgs disks s0 t3 q2 c2 r2 t2 q1 c1 r1 t1 b d s c c' rs rs' Hb Su t H F A2 A3 W1 J1 W2 J2 N1 N2.
  assert (In2 : forall z, In z t2 -> In z t).
  { intros z I. apply in_app_iff. right. right. apply in_app_iff. auto. }
  assert (P : In (HPost q1 c1 r1 (EWrite b d)) t).
  { apply in_app_iff. right. right. apply in_app_iff. right. left. auto. }
  pose proof (inv_history _ _ _ _ _ _ _ H) as V.
  eapply (C119_waited_read ks qid ba nc cfgs disks s0 t3 q2 c2 r2 b (t2 ++ HPost q1 c1 r1 (EWrite b d) :: t1)); eauto.
  unfold events. apply written_list; auto.
  - pose proof (history_shaped _ _ _ _ _ _ H) as Sh. rewrite Forall_forall in *. auto.
  - intros c3 I. eapply N1; eauto.
  - intros u q' c3 r' d' v E. right. destruct (A2 q' c3 r' d') as (c4 & I); [rewrite E; apply in_app_iff; right; left; auto|].
    exists c4. rewrite E in I. apply in_app_iff in I. destruct I as [I|[I|I]]; [auto|discriminate|]. exfalso.
    assert (Et : t = (t3 ++ HPost q2 c2 r2 (ERead b) :: u) ++ HPost q' c3 r' (EWrite b d') :: v ++ HPost q1 c1 r1 (EWrite b d) :: t1).
    { unfold t. rewrite E. repeat (rewrite <- app_assoc; cbn [app]). reflexivity. }
    destruct (history_at _ _ _ _ _ _ H _ _ _ Et) as (s1 & s2 & H1 & St).
    assert (I' : In (HErased q' c4 r') (v ++ HPost q1 c1 r1 (EWrite b d) :: t1)) by (apply in_app_iff; auto).
    destruct (erased_down _ _ _ _ _ _ _ H1 _ _ _ I') as (_ & N). apply N.
    eapply post_new; [exact (inv_history _ _ _ _ _ _ _ H1)|eauto].
  - intros q' r' a I.
    assert (K : q' = q1 /\ r' = r1).
    { apply in_split in I. destruct I as (u & v & Eu).
      assert (Et : t = (t3 ++ HPost q2 c2 r2 (ERead b) :: u) ++ HServed q' r' a (EWritten b false) :: (v ++ [HPost q1 c1 r1 (EWrite b d)]) ++ t1).
      { unfold t. rewrite Eu. repeat (rewrite <- app_assoc; cbn [app]). reflexivity. }
      destruct (history_at _ _ _ _ _ _ H _ _ _ Et) as (s1 & s2 & H1 & St).
      assert (Fl : exists z, In (q', r', z) (b_fly s1) /\ reply z (EWritten b false)).
      { remember (Some (HServed q' r' a (EWritten b false))) as ho eqn:Eh.
        destruct St as [s1 q3 q'' T1 E1|s1 q3 q'' c3 r3 o s3 e1 x ob T1 E1 So Rx Qd Ob Op|s1 q3 q'' r3 a1 k x s3 e1 T1 E1 Ek So|s1 q3 q'' r3 c3 k x T1 E1 Ek|s1 o s3 e1 Ic So|s1 q3 q'' e1 T1 E1 Pl];
          inversion Eh; subst. exists x. split; [eapply nth_error_In; eauto|].
        assert (Exx : nth_error (map snd (b_fly s1)) k = Some x) by (rewrite (map_nth_error snd _ _ Ek); auto).
        apply (serve_step _ _ _ _ _ _ _ _ _ Exx So). }
      destruct Fl as (z & Fl & Rp). unfold reply in Rp.
      assert (Bz : rq_bid z = b /\ exists dd, rq_data z = Some dd).
      { destruct (rq_data z); destruct Rp as (y & Q); inversion Q; subst; eauto. }
      destruct Bz as (Bz & dd & Dz).
      destruct (still_fly _ _ _ _ _ _ H1 (v ++ [HPost q1 c1 r1 (EWrite b d)]) t1 eq_refl) as (s4 & H4 & Fb).
      destruct (Fb _ _ _ Fl) as [(c3 & e3 & I)|I].
      - apply in_app_iff in I. destruct I as [I|[I|[]]]; [|inversion I; auto]. exfalso.
        destruct (i_fly _ _ _ _ _ (inv_history _ _ _ _ _ _ _ H1) _ _ _ Fl) as (_ & (c4 & e4 & B1 & B2) & _).
        assert (I' : In (HPost q' c3 r' e3) ((v ++ [HPost q1 c1 r1 (EWrite b d)]) ++ t1)) by (apply in_app_iff; left; apply in_app_iff; auto).
        destruct (i_once _ _ _ _ _ (inv_history _ _ _ _ _ _ _ H1) _ _ _ _ _ _ I' B1) as (_ & <-).
        destruct e3 as [bs|b'|b' d'|b'|b' ok|b' d']; cbn in B2; inversion B2; subst z; cbn in Bz, Dz; [|discriminate]. subst b'.
        destruct (A2 q' c3 r' d') as (c5 & I5); [rewrite Eu; apply in_app_iff; right; right; auto|].
        eapply (erased_unserved _ _ _ _ _ _ _ q' c5 r' a (EWritten b false) H); [apply In2; auto|].
        apply In2. rewrite Eu. apply in_app_iff. right. left. auto.
      - exfalso. pose proof (fly_unfinished _ _ _ _ _ _ _ _ (inv_history _ _ _ _ _ _ _ H4) I) as Un.
        assert (M : minds (length cfgs) t1 (HPost q1 c1 r1 (EWrite b d))).
        { apply (F (t3 ++ HPost q2 c2 r2 (ERead b) :: t2) _ t1). unfold t. rewrite <- app_assoc. reflexivity. }
        cbn in M. destruct M as (_ & M). exact (M _ Un Bz). }
    destruct K as (-> & ->).
    assert (T : told c t q1 r1) by (left; eauto).
    destruct (C119_told _ _ _ _ _ _ _ _ _ _ _ _ H P T N1) as (a1 & e1 & x & B1 & _).
    pose proof (i_served _ _ _ _ _ V _ _ _ _ (In2 _ I)) as (B & _). cbn [went] in B.
    pose proof (i_reach _ _ _ _ _ V q1) as R. pose proof (i_log _ _ _ _ _ V _ _ W1) as Lg.
    rewrite <- QueueTrace.in_trace in Lg. apply in_split in Lg. destruct Lg as (l1 & l2 & El).
    refine (QueueProps.C24_return_means_no_failure _ _ _ c rs r1 l1 l2 R _ _ (QueueModel.steps_refl _ _) _); auto.
    unfold QueueSpec.failed. rewrite QueueTrace.in_trace. exact B.
Qed.
Print Assumptions C119_round_trip.

(** If the system does not fail, no request does. *)
Theorem C119_succeed : forall ks qid ba nc cfgs disks s0 t s q r a e, (1 <= ba)%nat -> setup cfgs disks s0 ->
  history ks qid ba (begin nc s0) t s -> follows (length cfgs) t ->
  In (HServed q r a e) t -> working a -> went e = true.
Proof.
  intros ks qid ba nc cfgs disks s0 t s q r a e Hb Su H F I Wk. apply in_split in I. destruct I as (newer & older & Et).
  destruct (history_at _ _ _ _ _ _ H _ _ _ Et) as (s1 & s2 & H1 & St). rewrite Et in F. apply follows_prefix, follows_older in F.
  destruct F as (F & _). pose proof (prefix_sinv _ _ _ _ _ _ _ _ _ Hb Su H1 F) as Si.
  remember (Some (HServed q r a e)) as ho eqn:Eh.
  destruct St as [s1 q3 q'' T1 E1|s1 q3 q'' c3 r3 o s3 e1 x ob T1 E1 So Rx Qd Ob Op|s1 q3 q'' r3 a1 k x s3 e1 T1 E1 Ek So|s1 q3 q'' r3 c3 k x T1 E1 Ek|s1 o s3 e1 Ic So|s1 q3 q'' e1 T1 E1 Pl];
    inversion Eh; subst.
  assert (Exx : nth_error (map snd (b_fly s1)) k = Some x) by (rewrite (map_nth_error snd _ _ Ek); auto).
  assert (Al : allowed (length cfgs) (as_store s1) (SServe a k)).
  { cbn. apply nth_error_Some. congruence. }
  destruct (step_serve ba cfgs _ _ a k Si Al) as (s' & e' & E2 & _ & _ & N). rewrite So in E2. inversion E2; subst s' e'.
  specialize (N Wk). destruct e as [bs|b'|b' d'|b'|b' [|]|b' [d'|]]; auto; exfalso; destruct (N b'); auto.
Qed.
Print Assumptions C119_succeed.

(** The composition restricts nothing: every step of a queue is one of the whole; the worker can
    serve the request it has taken, whatever the system answers; an idle client can post a
    request for a block that is held; nothing goes wrong in new_blocks and delete_block. *)
Theorem C119_unrestricted : forall ks qid ba nc cfgs disks s0 t s, (1 <= ba)%nat -> setup cfgs disks s0 ->
  history ks qid ba (begin nc s0) t s -> follows (length cfgs) t ->
  (forall q q', QueueModel.step (ks q) (b_q s q) q' ->
    (exists r ok, log q' = QueueModel.EServe r ok :: log (b_q s q) /\ QueueModel.st_wpc (b_q s q) = QueueModel.WServe r) \/
    (exists c r, log q' = QueueModel.ECreate c r :: log (b_q s q)) \/
    exists ho s', bstep ks qid ba s ho s' /\ b_q s' = put q q' (b_q s)) /\
  (forall q r a, QueueModel.st_wpc (b_q s q) = QueueModel.WServe r -> exists e s', bstep ks qid ba s (Some (HServed q r a e)) s') /\
  (forall i b c e, nth_error (mc_held (b_client s)) i = Some b -> e = ERead b \/ (exists d, e = EWrite b d) ->
    nth_error (QueueModel.st_clients (b_q s (qid (disk_of b)))) c = Some QueueModel.CIdle ->
    QueueModel.st_ts (b_q s (qid (disk_of b))) = QueueModel.RUNNING ->
    exists r s', bstep ks qid ba s (Some (HPost (qid (disk_of b)) c r e)) s') /\
  (forall o, is_call o = true -> allowed (length cfgs) (as_store s) o -> exists e s', bstep ks qid ba s (Some (HCall o e)) s').
Proof.
  intros ks qid ba nc cfgs disks s0 t s Hb Su H F. pose proof (inv_history _ _ _ _ _ _ _ H) as V.
  pose proof (prefix_sinv _ _ _ _ _ _ _ _ _ Hb Su H F) as Si.
  assert (Fly : forall q r, flying (loc r (log (b_q s q))) -> exists k x, nth_error (b_fly s) k = Some (q, r, x)).
  { intros q r Fl. destruct (i_has _ _ _ _ _ V _ _ Fl) as (x & I). apply In_nth_error in I. destruct I as (k & E). eauto. }
  csplit.
  - intros q q' T. pose proof (i_reach _ _ _ _ _ V q) as R. pose proof (reach_put _ _ _ _ q' (i_reach _ _ _ _ _ V) T q) as R'. rewrite put_same in R'.
    destruct (QueueTrace.one_event _ _ _ T) as [E|(e & E)]; [right; right; eexists; eexists; split; [eapply BQuiet; eauto|reflexivity]|].
    destruct (plain e) eqn:Pl; [right; right; eexists; eexists; split; [eapply BOther; eauto|reflexivity]|].
    assert (Gr : forall r, QueueSpec.about r e = true -> QueueProofs.adv e (loc r (log (b_q s q))) <> QueueProofs.PBad).
    { intros r A. pose proof (XferProofs.good_reach _ _ _ r R') as G. rewrite E, XferProofs.loc_cons, A in G. exact G. }
    destruct e as [c r|r|r|c r|c r|r ok| | | | | | | | | | | | | | | | |]; cbn in Pl; try discriminate;
      pose proof (Gr r (Nat.eqb_refl r)) as Gq.
    + right. left. eauto.
    + right. right. destruct (Fly q r) as (k & x & Ek).
      { destruct (loc r (log (b_q s q))) as [|c0| | |c0|o0 st|o0|]; cbn in *; try congruence; try tauto. destruct st; congruence. }
      eexists; eexists; split; [eapply BErased; eauto|reflexivity].
    + left. exists r, ok. split; auto. apply (XferProofs.serving _ _ _ _ R).
      destruct (loc r (log (b_q s q))) as [|c0| | |c0|o0 st|o0|]; cbn in *; try congruence. destruct st; congruence.
  - intros q r a W. pose proof (i_reach _ _ _ _ _ V q) as R. pose proof (proj2 (XferProofs.serving _ _ _ _ R) W) as L.
    destruct (Fly q r) as (k & x & Ek); [rewrite L; exact Logic.I|].
    assert (Exx : nth_error (map snd (b_fly s)) k = Some x) by (rewrite (map_nth_error snd _ _ Ek); auto).
    assert (Al : allowed (length cfgs) (as_store s) (SServe a k)) by (cbn; apply nth_error_Some; congruence).
    destruct (step_serve ba cfgs _ _ a k Si Al) as (s1 & e & E & _).
    assert (Ob : exists ob, nth_error (QueueModel.st_reqs (b_q s q)) r = Some ob).
    { destruct (nth_error (QueueModel.st_reqs (b_q s q)) r) as [ob|] eqn:Eo; eauto. exfalso.
      apply (QueueProofs.l_dom _ _ (QueueLife.linv_reachable _ _ _ R)) in Eo. congruence. }
    destruct Ob as (ob & Ob). exists e. eexists. eapply BServed; eauto.
    + apply QueueModel.step_worker. eapply QueueModel.w_serve; eauto.
    + reflexivity.
  - intros i b c e Ei He Cl Rn.
    assert (So : exists o s1, store_step ba (as_store s) o = Some (s1, e)).
    { destruct He as [->|(d & ->)]; [exists (SRead i)|exists (SWrite i d)]; eexists; cbn; rewrite Ei; reflexivity. }
    destruct So as (o & s1 & So).
    assert (Rx : exists x, request_of e = Some x /\ rq_bid x = b).
    { destruct He as [->|(d & ->)]; cbn; eauto. }
    destruct Rx as (x & Rx & Bx). rewrite <- Bx in *.
    exists (length (QueueModel.st_reqs (b_q s (qid (disk_of (rq_bid x)))))). eexists. eapply BPost; eauto.
    + eapply QueueModel.step_start. apply (QueueModel.s_add (ks (qid (disk_of (rq_bid x)))) (b_q s (qid (disk_of (rq_bid x)))) c (op_of x) false Cl Rn).
    + reflexivity.
    + cbn. rewrite nth_error_app2, Nat.sub_diag by lia. reflexivity.
    + reflexivity.
  - intros o Ic Al. destruct (step_any ba cfgs _ _ o Hb Si Al) as (s1 & e & E & _). exists e. eexists. eapply BCall; eauto.
Qed.
Print Assumptions C119_unrestricted.

(** ** Concrete schedules *)

(** A move of a queue; a post; serving; a call. *)
Inductive bmove :=
| BQ (q : nat) (m : QueueRun.move)
| BP (c : nat) (o : sop)
| BS (q : nat) (a : answers)
| BC (o : sop).

Fixpoint find_fly (q r : nat) (l : list (nat * nat * rq)) : option (nat * rq) :=
  match l with
  | [] => None
  | (q', r', x) :: l' =>
      if Nat.eqb q' q && Nat.eqb r' r then Some (0%nat, x) else option_map (fun p => (S (fst p), snd p)) (find_fly q r l')
  end.
Lemma find_fly_ok : forall q r l k x, find_fly q r l = Some (k, x) -> nth_error l k = Some (q, r, x).
Proof.
  intros q r. induction l as [|[[q' r'] y] l IH]; intros k x H; cbn in H; [discriminate|].
  destruct (Nat.eqb q' q && Nat.eqb r' r)%bool eqn:E.
  - apply andb_true_iff in E. destruct E as (E1 & E2). apply Nat.eqb_eq in E1, E2. inversion H; subst. reflexivity.
  - destruct (find_fly q r l) as [[k' x']|]; inversion H; subst. cbn. auto.
Qed.

Definition bexec (ks : nat -> QueueModel.kind) (qid : nat -> nat) (ba : nat) (m : bmove) (s : world) : option (list happening * world) :=
  match m with
  | BQ q m =>
      match QueueRun.exec (ks q) m (b_q s q) with
      | None => None
      | Some q' =>
          let w := MkW (b_client s) (b_disks s) (b_fly s) (put q q' (b_q s)) in
          if Nat.eqb (length (log q')) (length (log (b_q s q))) then Some ([], w)
          else match log q' with
          | QueueModel.EErase c r :: _ =>
              match find_fly q r (b_fly s) with
              | Some (k, _) => Some ([HErased q c r], MkW (b_client s) (b_disks s) (remove_nth k (b_fly s)) (put q q' (b_q s)))
              | None => None
              end
          | e :: _ => if plain e then Some ([HQueue q e], w) else None
          | [] => None
          end
      end
  | BP c o =>
      match store_step ba (as_store s) o with
      | Some (_, e) =>
          match request_of e with
          | Some x =>
              let q := qid (disk_of (rq_bid x)) in
              let r := length (QueueModel.st_reqs (b_q s q)) in
              match nth_error (QueueModel.st_clients (b_q s q)) c with
              | Some QueueModel.CIdle =>
                  if QueueRun.is_run (QueueModel.st_ts (b_q s q)) then
                    match QueueRun.exec (ks q) (QueueRun.Add c (op_of x) false) (b_q s q) with
                    | Some q' => Some ([HPost q c r e], MkW (b_client s) (b_disks s) (b_fly s ++ [(q, r, x)]) (put q q' (b_q s)))
                    | None => None
                    end
                  else None
              | _ => None
              end
          | None => None
          end
      | None => None
      end
  | BS q a =>
      match QueueModel.st_wpc (b_q s q) with
      | QueueModel.WServe r =>
          match find_fly q r (b_fly s) with
          | Some (k, x) =>
              match store_step ba (as_store s) (SServe a k) with
              | Some (s1, e) =>
                  match nth_error (QueueModel.st_reqs (b_q s q)) r, QueueRun.exec (ks q) (QueueRun.W (went e)) (b_q s q) with
                  | Some _, Some q' => Some ([HServed q r a e], MkW (st_client s1) (st_disks s1) (remove_nth k (b_fly s)) (put q q' (b_q s)))
                  | _, _ => None
                  end
              | None => None
              end
          | None => None
          end
      | _ => None
      end
  | BC o =>
      if is_call o then
        match store_step ba (as_store s) o with
        | Some (s1, e) => Some ([HCall o e], MkW (st_client s1) (st_disks s1) (b_fly s) (b_q s))
        | None => None
        end
      else None
  end.

Lemma bexec_ok : forall ks qid ba m s h s', bexec ks qid ba m s = Some (h, s') ->
  (h = [] /\ bstep ks qid ba s None s') \/ exists x, h = [x] /\ bstep ks qid ba s (Some x) s'.
Proof.
  intros ks qid ba m s h s' H. destruct m as [q m|c o|q a|o]; cbn [bexec] in H.
  - destruct (QueueRun.exec (ks q) m (b_q s q)) as [q'|] eqn:X; [|discriminate]. apply QueueRun.exec_ok in X.
    destruct (Nat.eqb_spec (length (log q')) (length (log (b_q s q)))) as [Q|D].
    + inversion H; subst. left. split; auto. apply BQuiet; auto.
      destruct (QueueTrace.one_event _ _ _ X) as [E|(e & E)]; auto. rewrite E in Q. cbn in Q. lia.
    + destruct (QueueTrace.one_event _ _ _ X) as [E|(e & E)]; [congruence|]. rewrite E in H. right.
      destruct e; cbn [plain] in H; try discriminate; try (inversion H; subst; eexists; split; [reflexivity|]; eapply BOther; eauto; fail).
      destruct (find_fly q r (b_fly s)) as [[k x]|] eqn:Fk; [|discriminate]. inversion H; subst. eexists; split; [reflexivity|].
      eapply BErased; eauto. eapply find_fly_ok; eauto.
  - destruct (store_step ba (as_store s) o) as [[s1 e]|] eqn:So; [|discriminate]. destruct (request_of e) as [x|] eqn:Rx; [|discriminate].
    cbv zeta in H. remember (qid (disk_of (rq_bid x))) as q eqn:Eq. destruct (nth_error (QueueModel.st_clients (b_q s q)) c) as [pc|] eqn:Cl; [|discriminate].
    destruct pc; try discriminate. destruct (QueueRun.is_run (QueueModel.st_ts (b_q s q))) eqn:Rn; [|discriminate].
    destruct (QueueRun.exec (ks q) (QueueRun.Add c (op_of x) false) (b_q s q)) as [q'|] eqn:X; [|discriminate]. inversion H; subst h s'.
    right. eexists; split; [reflexivity|]. pose proof X as X0. apply QueueRun.exec_ok in X0.
    cbn [QueueRun.exec] in X. unfold QueueRun.idle in X. rewrite Cl, Rn in X. inversion X; subst q'.
    eapply BPost; eauto.
    + cbn. rewrite nth_error_app2, Nat.sub_diag by lia. reflexivity.
    + reflexivity.
  - destruct (QueueModel.st_wpc (b_q s q)) eqn:Wp; try discriminate. destruct (find_fly q r (b_fly s)) as [[k x]|] eqn:Fk; [|discriminate].
    destruct (store_step ba (as_store s) (SServe a k)) as [[s1 e]|] eqn:So; [|discriminate].
    destruct (nth_error (QueueModel.st_reqs (b_q s q)) r) as [ob|] eqn:Ob; [|discriminate].
    destruct (QueueRun.exec (ks q) (QueueRun.W (went e)) (b_q s q)) as [q'|] eqn:X; [|discriminate]. inversion H; subst h s'.
    right. eexists; split; [reflexivity|]. pose proof X as X0. apply QueueRun.exec_ok in X0.
    cbn [QueueRun.exec] in X. unfold QueueRun.exec_w in X. rewrite Wp, Ob in X. inversion X; subst q'.
    eapply BServed; eauto. eapply find_fly_ok; eauto.
  - destruct (is_call o) eqn:Ic; [|discriminate]. destruct (store_step ba (as_store s) o) as [[s1 e]|] eqn:So; [|discriminate].
    inversion H; subst. right. eexists; split; [reflexivity|]. eapply BCall; eauto.
Qed.

Fixpoint brun (ks : nat -> QueueModel.kind) (qid : nat -> nat) (ba : nat) (ms : list bmove) (t : list happening) (s : world) : option (list happening * world) :=
  match ms with
  | [] => Some (t, s)
  | m :: ms' => match bexec ks qid ba m s with Some (h, s') => brun ks qid ba ms' (h ++ t) s' | None => None end
  end.
Definition sane (n : nat) (h : happening) : Prop :=
  match h with HCall (SNew tsize f off sizes) _ => valid_mop n (MNew tsize f off sizes) | _ => True end.
Lemma brun_ok : forall ks qid ba w0 n ms t s t' s', history ks qid ba w0 t s -> brun ks qid ba ms t s = Some (t', s') ->
  Forall (sane n) t -> Forall (fun m => match m with BC (SNew tsize f off sizes) => valid_mop n (MNew tsize f off sizes) | _ => True end) ms ->
  history ks qid ba w0 t' s' /\ Forall (sane n) t'.
Proof.
  intros ks qid ba w0 n. induction ms as [|m ms IH]; intros t s t' s' H E Sa Sm; cbn in E; [inversion E; subst; auto|].
  inversion Sm as [|? ? S1 S2]; subst.
  destruct (bexec ks qid ba m s) as [[h s1]|] eqn:X; [|discriminate].
  assert (Sh : Forall (sane n) h).
  { destruct m as [q m|c o|q a|o]; cbn [bexec] in X.
    - repeat match type of X with match ?e with _ => _ end = _ => destruct e; try discriminate X end;
        inversion X; subst; repeat (apply Forall_cons || apply Forall_nil); exact Logic.I.
    - repeat match type of X with match ?e with _ => _ end = _ => destruct e; try discriminate X end;
        inversion X; subst; repeat (apply Forall_cons || apply Forall_nil); exact Logic.I.
    - repeat match type of X with match ?e with _ => _ end = _ => destruct e; try discriminate X end;
        inversion X; subst; repeat (apply Forall_cons || apply Forall_nil); exact Logic.I.
    - destruct (is_call o); [|discriminate]. destruct (store_step ba (as_store s) o) as [[s2 e]|]; inversion X; subst.
      repeat (apply Forall_cons || apply Forall_nil). destruct o; cbn; auto. }
  assert (Sa' : Forall (sane n) (h ++ t)) by (apply Forall_app; auto).
  destruct (bexec_ok _ _ _ _ _ _ _ X) as [(-> & St)|(y & -> & St)].
  - eapply IH; [|exact E|auto|auto]. eapply HsSilent; eauto.
  - eapply IH; [|exact E|auto|auto]. eapply HsSome; eauto.
Qed.

(** The rules, computed. *)
Definition knows (t : list happening) : list (nat * nat) :=
  flat_map (fun h => match h with
    | HQueue q (QueueModel.EWaitRet _ rs) => map (pair q) rs
    | HQueue q (QueueModel.EWaitThrow _ _ r) => [(q, r)]
    | HQueue q (QueueModel.EAnyRet _ _ (Some r) _) => [(q, r)]
    | _ => []
    end) t.
Lemma knows_told : forall t q r, In (q, r) (knows t) -> exists c, told c t q r.
Proof.
  intros t q r H. unfold knows in H. apply in_flat_map in H. destruct H as (h & I & H).
  destruct h as [q1 c1 r1 e|q1 r1 a e|q1 c1 r1|o e|q1 e]; try (destruct H; fail). destruct e; try (destruct H; fail).
  - apply in_map_iff in H. destruct H as (r' & E & J). inversion E; subst. exists c. left. eauto.
  - destruct H as [E|[]]. inversion E; subst. exists c. right. left. eauto.
  - destruct res as [r1|]; [|destruct H]. destruct H as [E|[]]. inversion E; subst. exists c. right. right. left. eauto.
Qed.
Definition still_open (t : list happening) : list rq :=
  flat_map (fun h => match h with
    | HPost q c r e => match request_of e with
        | Some x => if existsb (fun p => Nat.eqb (fst p) q && Nat.eqb (snd p) r) (knows t) then [] else [x]
        | None => []
        end
    | _ => []
    end) t.
Lemma unfinished_open : forall t x, unfinished t x -> In x (still_open t).
Proof.
  intros t x (q & c & r & e & I & Rx & N). unfold still_open. apply in_flat_map. eexists. split; [exact I|]. cbn. rewrite Rx.
  destruct (existsb (fun p => Nat.eqb (fst p) q && Nat.eqb (snd p) r)%bool (knows t)) eqn:E; [|left; auto]. exfalso.
  apply existsb_exists in E. destruct E as ([q' r'] & J & E). cbn in E. apply andb_true_iff in E. destruct E as (E1 & E2).
  apply Nat.eqb_eq in E1, E2. subst. destruct (knows_told _ _ _ J) as (c' & T). exact (N _ T).
Qed.
Definition mindsb (t : list happening) (h : happening) : bool :=
  match h with
  | HPost _ _ _ (EWrite b d) => Z.eqb (Z.of_nat (length d)) (b_size b) && forallb (fun x => negb (bid_eqb (rq_bid x) b)) (still_open t)
  | HPost _ _ _ (ERead b) => forallb (fun x => match rq_data x with Some _ => negb (bid_eqb (rq_bid x) b) | None => true end) (still_open t)
  | HCall _ (EDelete b) => forallb (fun x => negb (bid_eqb (rq_bid x) b)) (still_open t)
  | _ => true
  end.
Fixpoint followsb (t : list happening) : bool := match t with [] => true | h :: t' => mindsb t' h && followsb t' end.
Lemma bid_neqb : forall x y, negb (bid_eqb x y) = true -> x <> y.
Proof. intros x y H E. subst. rewrite bid_eqb_refl in H. discriminate. Qed.
Lemma followsb_ok : forall n t, followsb t = true -> Forall shaped t -> Forall (sane n) t -> follows n t.
Proof.
  intros n. induction t as [|h t IH]; intros H Sh Sa newer h' older E; [destruct newer; discriminate|].
  cbn in H. apply andb_true_iff in H. destruct H as (H1 & H2). inversion Sh as [|? ? Sh1 Sh2]; inversion Sa as [|? ? Sa1 Sa2]; subst.
  destruct newer as [|y newer]; cbn in E; inversion E; subst; [|eapply IH; eauto].
  assert (All : forall b x, forallb (fun x => negb (bid_eqb (rq_bid x) b)) (still_open older) = true -> unfinished older x -> rq_bid x <> b).
  { intros b x A U. rewrite forallb_forall in A. apply bid_neqb, A, unfinished_open. auto. }
  destruct h' as [q c r e|q r a e|q c r|o e|q e]; cbn; auto.
  - destruct e as [bs|b|b d|b|b ok|b d]; auto; cbn in H1.
    + apply andb_true_iff in H1. destruct H1 as (A & B). apply Z.eqb_eq in A. split; auto.
    + intros x U D. rewrite forallb_forall in H1. specialize (H1 _ (unfinished_open _ _ U)). destruct (rq_data x); [|congruence].
      apply bid_neqb; auto.
  - destruct o; auto; destruct e; auto; cbn in H1; intros x U; apply All; auto.
Qed.

(** Disks 0 and 1 share a queue, disk 2 has its own.  Client 0 writes block 1, waits, and reads it
    back; client 1 writes block 2, waits, writes again and cancels that, and reads. *)
Definition qid119 (d : nat) : nat := match d with 2%nat => 1%nat | _ => 0%nat end.
Definition ks119 (q : nat) : QueueModel.kind := match q with O => QueueModel.OneQ | _ => QueueModel.QwQr QueueModel.PWrite end.
Definition qs (q : nat) (l : list QueueRun.move) : list bmove := map (BQ q) l.
Definition moves119 : list bmove :=
  [BC (SNew 4 stripe92 0 [4; 4; 4]%Z)] ++
  [BP 0 (SWrite 1 [1; 2; 3; 4]%Z)] ++ qs 0 (QueueRun.Cs 0 2 ++ QueueRun.Ws 2) ++
  [BP 1 (SWrite 2 [5; 6; 7; 8]%Z)] ++ qs 1 (QueueRun.Cs 1 2 ++ QueueRun.Ws 2) ++ [BS 1 ok92] ++
  qs 1 (QueueRun.Ws 6 ++ QueueRun.WaitAll 1 [0%nat] :: QueueRun.Cs 1 2) ++
  [BP 1 (SWrite 2 [9; 9; 9; 9]%Z)] ++ qs 1 (QueueRun.Cs 1 2) ++ [BS 0 ok92] ++
  qs 1 (QueueRun.Cancel 1 [1%nat] :: QueueRun.Cs 1 10 ++ QueueRun.WaitAll 1 [1%nat] :: QueueRun.Cs 1 2) ++
  qs 0 (QueueRun.Ws 6 ++ QueueRun.WaitAll 0 [0%nat] :: QueueRun.Cs 0 2) ++
  [BP 1 (SRead 2)] ++ qs 1 (QueueRun.Cs 1 2) ++
  [BP 0 (SRead 1)] ++ qs 0 (QueueRun.Cs 0 2 ++ QueueRun.Ws 2) ++ [BS 0 ok92] ++
  qs 0 (QueueRun.Ws 6 ++ QueueRun.WaitAll 0 [1%nat] :: QueueRun.Cs 0 2) ++
  qs 1 (QueueRun.Ws 6) ++ [BS 1 ok92] ++ qs 1 (QueueRun.Ws 6 ++ QueueRun.WaitAll 1 [2%nat] :: QueueRun.Cs 1 2).
Definition t119 : list happening := match brun ks119 qid119 4 moves119 [] (begin 2 start92) with Some (t, _) => t | None => [] end.
Definition b119 (d : nat) : bid := mk_bid (Managed d) 0 4 4.

Lemma valid119 : Forall (fun m => match m with BC (SNew tsize f off sizes) => valid_mop (length cfgs92) (MNew tsize f off sizes) | _ => True end) moves119.
Proof.
  unfold moves119. apply Forall_cons.
  - split; [exact stripe92_lt|]. intros z Hz. cbn in Hz. destruct Hz as [<-|[<-|[<-|[]]]]; lia.
  - repeat (apply Forall_app; split); repeat (apply Forall_cons || apply Forall_nil); cbn; auto.
Qed.

Definition is_write_of (b : bid) (h : happening) : bool := match h with HPost _ _ _ (EWrite b' _) => bid_eqb b' b | _ => false end.
Definition is_alloc (h : happening) : bool := match h with HCall _ (EAlloc _) => true | _ => false end.
Definition erases (q r : nat) (h : happening) : bool := match h with HErased q' _ r' => Nat.eqb q' q && Nat.eqb r' r | _ => false end.

Example C119_case : setup cfgs92 disks92 start92 /\ working ok92 /\
  (exists s, history ks119 qid119 4 (begin 2 start92) t119 s) /\ follows (length cfgs92) t119 /\
  let t3 := firstn 19 t119 in let t2 := firstn 27 (skipn 20 t119) in let t1 := skipn 48 t119 in
  t119 = t3 ++ HPost 1 1 2 (ERead (b119 2)) :: t2 ++ HPost 1 1 0 (EWrite (b119 2) [5; 6; 7; 8]%Z) :: t1 /\
  filter (is_write_of (b119 2)) t2 = [HPost 1 1 1 (EWrite (b119 2) [9; 9; 9; 9]%Z)] /\ In (HErased 1 1 1) t2 /\ existsb is_alloc t2 = false /\
  In (HQueue 1 (QueueModel.EWaitRet 1 [0%nat])) t119 /\ In (HQueue 1 (QueueModel.EWaitRet 1 [2%nat])) t119 /\
  existsb (erases 1 0) t119 = false /\ existsb (erases 1 2) t119 = false /\
  In (HServed 1 2 ok92 (EReadDone (b119 2) (Some (map Some [5; 6; 7; 8]%Z)))) t119 /\
  In (HServed 0 1 ok92 (EReadDone (b119 1) (Some (map Some [1; 2; 3; 4]%Z)))) t119.
Proof.
  assert (HH : exists s, history ks119 qid119 4 (begin 2 start92) t119 s /\ Forall (sane (length cfgs92)) t119).
  { unfold t119. destruct (brun ks119 qid119 4 moves119 [] (begin 2 start92)) as [[t s]|] eqn:X; [|exfalso; vm_compute in X; discriminate].
    exists s. eapply brun_ok; [constructor|exact X|constructor|exact valid119]. }
  destruct HH as (s & H & Sa).
  split; [exact setup92|]. split; [intros i; split; [|split]; exists 2%nat; reflexivity|].
  split; [eauto|]. split; [apply followsb_ok; [vm_compute; reflexivity|eapply history_shaped; eauto|auto]|].
  csplit; try (vm_compute; reflexivity); vm_compute; auto 60.
Qed.

(** Without the rules, what is read is not what was last written: block 0 is written, read, and
    written again without waiting for the read, which delivers the first data. *)
Definition rude119 : list bmove :=
  [BC (SNew 4 stripe92 0 [4]%Z); BP 0 (SWrite 0 [1; 1; 1; 1]%Z)] ++ qs 0 (QueueRun.Cs 0 2 ++ QueueRun.Ws 2) ++ [BS 0 ok92] ++
  qs 0 (QueueRun.Ws 6 ++ QueueRun.WaitAll 0 [0%nat] :: QueueRun.Cs 0 2) ++
  [BP 0 (SRead 0)] ++ qs 0 (QueueRun.Cs 0 2) ++ [BP 0 (SWrite 0 [2; 2; 2; 2]%Z)] ++ qs 0 (QueueRun.Cs 0 2 ++ QueueRun.Ws 2) ++ [BS 0 ok92].

Theorem C119_rules_needed_refuted : ~ (forall ks qid ba nc cfgs disks s0 newer q r a b x older s d, (1 <= ba)%nat -> setup cfgs disks s0 ->
  history ks qid ba (begin nc s0) (newer ++ HServed q r a (EReadDone b (Some x)) :: older) s ->
  expected (events older) b = Some d -> x = map Some d).
Proof.
  intros H. destruct (brun ks119 qid119 4 rude119 [] (begin 2 start92)) as [[t s]|] eqn:X; [|vm_compute in X; discriminate].
  assert (Hh : history ks119 qid119 4 (begin 2 start92) t s).
  { apply (brun_ok ks119 qid119 4 (begin 2 start92) (length cfgs92) rude119 [] _ _ _ (HsNil _ _ _ _) X); [constructor|].
    unfold rude119. apply Forall_cons.
    - split; [exact stripe92_lt|]. intros z Hz. cbn in Hz. destruct Hz as [<-|[]]; lia.
    - repeat (apply Forall_app; split); repeat (apply Forall_cons || apply Forall_nil); cbn; auto. }
  vm_compute in X. injection X as Et _. subst t.
  refine (_ (H ks119 qid119 4%nat 2%nat cfgs92 disks92 start92 [] _ _ _ _ _ _ s [2; 2; 2; 2]%Z _ setup92 Hh _)); [discriminate|lia|reflexivity].
Qed.
Print Assumptions C119_rules_needed_refuted.
