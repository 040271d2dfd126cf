(** The invariant of the block store on top of the queues. *)

From Coq Require Import ZArith List Bool Arith Lia Permutation.
From Verif Require Import WriterProofs.
From Verif Require Import AllocModel ManagerModel ManagerSpec FileModel StoreModel StoreSpec StoreProofs2 StoreProps StoreQModel StoreQSpec StoreQProofs.
From Verif Require QueueModel QueueSpec QueueProofs QueueLife QueueTrace QueueProps QueueProps2 XferModel XferProofs XferProps.
Import ListNotations.

Section Inv.
Variables (ks : nat -> QueueModel.kind) (qid : nat -> nat) (ba nc : nat).

Record inv (t : list happening) (s : world) : Prop := {
  i_reach : forall q, qreachable (ks q) nc (b_q s q);
  i_log : forall q e, In (HQueue q e) t -> In e (log (b_q s q));
  i_fly : forall q r x, In (q, r, x) (b_fly s) -> flying (loc r (log (b_q s q))) /\
    (exists c e, In (HPost q c r e) t /\ request_of e = Some x) /\ (forall a e, ~ In (HServed q r a e) t);
  i_has : forall q r, flying (loc r (log (b_q s q))) -> exists x, In (q, r, x) (b_fly s);
  i_keys : NoDup (map fst (b_fly s));
  i_posted : forall q c r e, In (HPost q c r e) t -> loc r (log (b_q s q)) <> QueueProofs.PNone;
  i_served : forall q r a e, In (HServed q r a e) t -> In (QueueModel.EServe r (went e)) (log (b_q s q)) /\
    exists c e0 x, In (HPost q c r e0) t /\ request_of e0 = Some x /\ reply x e;
  i_once : forall q c r e c' e', In (HPost q c r e) t -> In (HPost q c' r e') t -> c = c' /\ e = e';
  i_end : forall q c r e, In (HPost q c r e) t -> (exists x, In (q, r, x) (b_fly s)) \/
    (exists a e', In (HServed q r a e') t) \/ (exists c', In (HErased q c' r) t);
  i_qid : forall q c r e, In (HPost q c r e) t -> exists x, request_of e = Some x /\ qid (disk_of (rq_bid x)) = q
}.

Lemma inv_begin : forall s0, inv [] (begin nc s0).
Proof.
  intros s0. constructor; cbn [begin b_q b_fly]; try (intros; cbn in *; tauto).
  - intros q. apply QueueModel.steps_refl.
  - constructor.
Qed.

Lemma reach_put : forall (f : nat -> QueueModel.state) q q', (forall q, qreachable (ks q) nc (f q)) -> QueueModel.step (ks q) (f q) q' ->
  forall p, qreachable (ks p) nc (put q q' f p).
Proof.
  intros f q q' R T p. unfold put. destruct (Nat.eqb_spec p q) as [Q|D]; auto. subst p. eapply QueueModel.steps_trans; eauto. apply R.
Qed.

Lemma log_put : forall (f : nat -> QueueModel.state) q q' l, log q' = l ++ log (f q) ->
  forall p e, In e (log (f p)) -> In e (log (put q q' f p)).
Proof.
  intros f q q' l E p e I. unfold put. destruct (Nat.eqb_spec p q) as [Q|D]; auto. subst p. rewrite E. apply in_app_iff. auto.
Qed.

Lemma none_put : forall (f : nat -> QueueModel.state) q q' l, log q' = l ++ log (f q) ->
  forall p r, loc r (log (f p)) <> QueueProofs.PNone -> loc r (log (put q q' f p)) <> QueueProofs.PNone.
Proof.
  intros f q q' l E p r I. unfold put. destruct (Nat.eqb_spec p q) as [Q|D]; auto. subst p. rewrite E. apply none_kept. auto.
Qed.

(** A step of a queue that neither adds a request nor ends one. *)
Lemma inv_same : forall t s q q' l h, inv t s -> QueueModel.step (ks q) (b_q s q) q' -> log q' = l ++ log (b_q s q) ->
  (forall r, flying (loc r (log q')) <-> flying (loc r (log (b_q s q)))) ->
  (h = [] \/ exists e, h = [HQueue q e] /\ In e (log q')) ->
  inv (h ++ t) (MkW (b_client s) (b_disks s) (b_fly s) (put q q' (b_q s))).
Proof.
  intros t s q q' l h V T E F H. destruct V as [V1 V2 V3 V4 V5 V6 V7 V8 V9 V10].
  assert (In1 : forall z, In z t -> In z (h ++ t)) by (intros; apply in_app_iff; auto).
  assert (In2 : forall z, In z (h ++ t) -> (forall p e, z <> HQueue p e) -> In z t).
  { intros z I N. apply in_app_iff in I. destruct I as [I|I]; auto. exfalso. destruct H as [->|(e & -> & _)]; [destruct I|].
    destruct I as [I|[]]. eapply N; eauto. }
  constructor; cbn [b_q b_fly b_client b_disks]; auto.
  - apply reach_put; auto.
  - intros p e I. apply in_app_iff in I. destruct I as [I|I]; [|eapply log_put; eauto].
    destruct H as [->|(e' & -> & H)]; [destruct I|]. destruct I as [I|[]]. inversion I; subst. rewrite put_same. auto.
  - intros p r x I. destruct (V3 p r x I) as (A & (c & e & B1 & B2) & C). csplit.
    + unfold put. destruct (Nat.eqb_spec p q) as [Q|D]; auto. subst p. apply F. auto.
    + exists c, e. auto.
    + intros a e' J. apply In2 in J; [|discriminate]. eapply C; eauto.
  - intros p r A. apply V4. unfold put in A. destruct (Nat.eqb_spec p q) as [Q|D]; auto. subst p. apply F. auto.
  - intros p c r e I. apply In2 in I; [|discriminate]. eapply none_put; eauto.
  - intros p r a e I. apply In2 in I; [|discriminate]. destruct (V7 _ _ _ _ I) as (A & c & e0 & x & B1 & B2 & B3).
    split; [eapply log_put; eauto|]. exists c, e0, x. auto.
  - intros p c r e c' e' I J. apply In2 in I; [|discriminate]. apply In2 in J; [|discriminate]. eauto.
  - intros p c r e I. apply In2 in I; [|discriminate]. destruct (V9 _ _ _ _ I) as [A|[(a & e' & A)|(c' & A)]]; eauto.
    right. left. eauto.
  - intros p c r e I. apply In2 in I; [|discriminate]. eauto.
Qed.

(** A request is served or removed. *)
Lemma inv_leave : forall t s q q' ev r k x h c1 d1, inv t s -> QueueModel.step (ks q) (b_q s q) q' -> log q' = ev :: log (b_q s q) ->
  (forall r', r' <> r -> QueueSpec.about r' ev = false) -> ~ flying (loc r (log q')) ->
  nth_error (b_fly s) k = Some (q, r, x) ->
  (exists c, h = HErased q c r) \/ (exists a e, h = HServed q r a e /\ ev = QueueModel.EServe r (went e) /\ reply x e) ->
  inv (h :: t) (MkW c1 d1 (remove_nth k (b_fly s)) (put q q' (b_q s))).
Proof.
  intros t s q q' ev r k x h c1 d1 V T E Ab Nf Ek H. destruct V as [V1 V2 V3 V4 V5 V6 V7 V8 V9 V10].
  destruct (remove_split _ _ _ Ek) as (l1 & l2 & El & Er & _). rewrite Er.
  assert (Hin : forall z, In z (h :: t) -> (forall q r a e, z <> HServed q r a e) -> (forall q c r, z <> HErased q c r) -> In z t).
  { intros z [<-|I] N1 N2; auto. exfalso. destruct H as [(c & ->)|(a & e & -> & _)]; [eapply N2|eapply N1]; eauto. }
  assert (Lo : forall r', r' <> r -> loc r' (log q') = loc r' (log (b_q s q))).
  { intros r' N. rewrite E, XferProofs.loc_cons, Ab by auto. auto. }
  assert (In0 : In (q, r, x) (b_fly s)) by (eapply nth_error_In; eauto).
  assert (In1 : forall z, In z (l1 ++ l2) -> In z (b_fly s)).
  { intros z I. rewrite El. apply in_app_iff. apply in_app_iff in I. cbn. tauto. }
  rewrite El, map_app in V5. cbn [map fst] in V5. apply NoDup_remove in V5. destruct V5 as (V5 & V5'). rewrite <- map_app in V5, V5'.
  constructor; cbn [b_q b_fly b_client b_disks]; auto.
  - apply reach_put; auto.
  - intros p e I. apply Hin in I; try discriminate. eapply (log_put _ q q' [ev]); eauto.
  - intros p r' y I. destruct (V3 p r' y (In1 _ I)) as (A & (c & e & B1 & B2) & C).
    assert (N : (p, r') <> (q, r)). { intros Q. apply V5'. rewrite <- Q. change (p, r') with (fst (p, r', y)). apply in_map. auto. }
    csplit.
    + unfold put. destruct (Nat.eqb_spec p q) as [Q|D]; auto. subst p. rewrite Lo by congruence. auto.
    + exists c, e. split; auto. right; auto.
    + intros a e' [J|J]; [|eapply C; eauto]. subst h. destruct H as [(c' & H)|(a2 & e2 & H & _)]; [discriminate|].
      inversion H; subst. apply N; auto.
  - intros p r' A.
    assert (B : flying (loc r' (log (b_q s p))) /\ (p, r') <> (q, r)).
    { unfold put in A. destruct (Nat.eqb_spec p q) as [Q|D].
      - subst p. destruct (Nat.eq_dec r' r) as [Q|D]; [subst r'; tauto|]. rewrite Lo in A by auto. split; auto. congruence.
      - split; auto. congruence. }
    destruct B as (B & N). destruct (V4 p r' B) as (y & I). exists y. rewrite El in I. apply in_app_iff in I. apply in_app_iff.
    destruct I as [I|[I|I]]; auto. inversion I; subst. exfalso. apply N; auto.
  - intros p c r' e I. apply Hin in I; try discriminate. eapply (none_put _ q q' [ev]); eauto.
  - intros p r' a e [I|I].
    + subst h. destruct H as [(c' & H)|(a2 & e2 & H & H2 & H3)]; [discriminate|]. inversion H; subst. rewrite put_same, E.
      split; [left; auto|]. destruct (V3 _ _ _ In0) as (_ & (c & e0 & B1 & B2) & _). exists c, e0, x. csplit; auto. right; auto.
    + destruct (V7 _ _ _ _ I) as (A & c & e0 & y & B1 & B2 & B3). split; [eapply (log_put _ q q' [ev]); eauto|].
      exists c, e0, y. csplit; auto. right; auto.
  - intros p c r' e c' e' I J. apply Hin in I; try discriminate. apply Hin in J; try discriminate. eauto.
  - intros p c r' e I. apply Hin in I; try discriminate.
    destruct (V9 _ _ _ _ I) as [(y & A)|[(a & e' & A)|(c' & A)]].
    + rewrite El in A. apply in_app_iff in A. destruct A as [A|[A|A]].
      * left. exists y. apply in_app_iff. auto.
      * inversion A; subst. right. destruct H as [(c' & ->)|(a & e2 & -> & _)]; [right; exists c'; left; auto|].
        left. exists a, e2. left; auto.
      * left. exists y. apply in_app_iff. auto.
    + right. left. exists a, e'. right; auto.
    + right. right. exists c'. right; auto.
  - intros p c r' e I. apply Hin in I; try discriminate. eauto.
Qed.

Lemma inv_step : forall t s ho s', inv t s -> bstep ks qid ba s ho s' ->
  inv (match ho with Some h => h :: t | None => t end) s'.
Proof.
  intros t s ho s' V St.
  destruct St as [s q q' T E|s q q' c r o s1 e x ob T E So Rx Qd Ob Op|s q q' r a k x s1 e T E Ek So|s q q' r c k x T E Ek|s o s1 e Ic So|s q q' e T E Pl].
  - apply (inv_same t s q q' [] []); auto. intros r. rewrite E. tauto.
  - (* post *)
    destruct V as [V1 V2 V3 V4 V5 V6 V7 V8 V9 V10].
    pose proof (XferProofs.good_reach _ _ _ r (reach_put _ q q' V1 T q)) as G. rewrite put_same, E, XferProofs.loc_cons in G.
    cbn [QueueSpec.about] in G. rewrite Nat.eqb_refl in G.
    assert (L0 : loc r (log (b_q s q)) = QueueProofs.PNone).
    { destruct (loc r (log (b_q s q))) as [|c0| | |c0|o0 st|o0|]; cbn in G; try congruence. destruct st; congruence. }
    assert (L1 : loc r (log q') = QueueProofs.PPush c).
    { rewrite E, XferProofs.loc_cons. cbn [QueueSpec.about]. rewrite Nat.eqb_refl, L0. reflexivity. }
    assert (Lo : forall r', r' <> r -> loc r' (log q') = loc r' (log (b_q s q))).
    { intros r' N. rewrite E, XferProofs.loc_cons. cbn [QueueSpec.about]. apply Nat.eqb_neq in N. rewrite N. auto. }
    assert (Old : forall p r' y, In (p, r', y) (b_fly s) -> (p, r') <> (q, r)).
    { intros p r' y I Q. inversion Q; subst p r'. destruct (V3 _ _ _ I) as (A & _). rewrite L0 in A. destruct A. }
    assert (NoP : forall c' e', ~ In (HPost q c' r e') t).
    { intros c' e' I. apply V6 in I. congruence. }
    assert (NoS : forall a' e', ~ In (HServed q r a' e') t).
    { intros a' e' I. apply V7 in I. destruct I as (_ & c' & e0 & y & I & _). eapply NoP; eauto. }
    assert (G1 : forall q' r' c' e', In (HPost q' c' r' e') (HPost q c r e :: t) -> (q' = q /\ r' = r /\ c' = c /\ e' = e) \/ ((q', r') <> (q, r) /\ In (HPost q' c' r' e') t)).
    { intros q2 r2 c2 e2 [I|I]; [inversion I; auto|]. right. split; auto. intros Q. inversion Q; subst. eapply NoP; eauto. }
    constructor; cbn [b_q b_fly b_client b_disks]; auto.
    + apply reach_put; auto.
    + intros p e' [I|I]; [discriminate|]. eapply (log_put _ q q' [_]); eauto.
    + intros p r' y I. apply in_app_iff in I. destruct I as [I|[I|[]]].
      * destruct (V3 _ _ _ I) as (A & (c' & e' & B1 & B2) & C). pose proof (Old _ _ _ I) as N. csplit.
        -- unfold put. destruct (Nat.eqb_spec p q) as [Q|D]; auto. subst p. rewrite Lo by congruence. auto.
        -- exists c', e'. split; auto. right; auto.
        -- intros a' e2 [J|J]; [discriminate|]. eapply C; eauto.
      * inversion I; subst p r' y. csplit.
        -- rewrite put_same, L1. exact Logic.I.
        -- exists c, e. split; auto. left; auto.
        -- intros a' e2 [J|J]; [discriminate|]. eapply NoS; eauto.
    + intros p r' A. unfold put in A. destruct (Nat.eqb_spec p q) as [Q|D].
      * subst p. destruct (Nat.eq_dec r' r) as [Q|D]; [subst r'; exists x; apply in_app_iff; cbn; auto|].
        rewrite Lo in A by auto. destruct (V4 _ _ A) as (y & I). exists y. apply in_app_iff. auto.
      * destruct (V4 _ _ A) as (y & I). exists y. apply in_app_iff. auto.
    + rewrite map_app. cbn. apply AsyncProofs.NoDup_snoc; auto. intros I. apply in_map_iff in I. destruct I as (((p & r') & y) & A & B).
      cbn in A. apply (Old _ _ _ B). auto.
    + intros p c' r' e' I. apply G1 in I. destruct I as [(-> & -> & -> & ->)|(N & I)].
      * rewrite put_same, L1. discriminate.
      * eapply (none_put _ q q' [_]); eauto.
    + intros p r' a' e' [I|I]; [discriminate|]. destruct (V7 _ _ _ _ I) as (A & c' & e0 & y & B1 & B2 & B3).
      split; [eapply (log_put _ q q' [_]); eauto|]. exists c', e0, y. csplit; auto. right; auto.
    + intros p c' r' e' c2 e2 I J. apply G1 in I. apply G1 in J.
      destruct I as [(I1 & I2 & I3 & I4)|(N & I)]; destruct J as [(J1 & J2 & J3 & J4)|(M & J)].
      * split; congruence.
      * exfalso. apply M. congruence.
      * exfalso. apply N. congruence.
      * eauto.
    + intros p c' r' e' I. apply G1 in I. destruct I as [(-> & -> & -> & ->)|(N & I)].
      * left. exists x. apply in_app_iff. cbn. auto.
      * destruct (V9 _ _ _ _ I) as [(y & A)|[(a' & e2 & A)|(c2 & A)]].
        -- left. exists y. apply in_app_iff. auto.
        -- right. left. exists a', e2. right; auto.
        -- right. right. exists c2. right; auto.
    + intros p c' r' e' I. apply G1 in I. destruct I as [(-> & -> & -> & ->)|(N & I)]; eauto.
  - (* served *)
    pose proof (i_reach _ _ V) as V1.
    pose proof (reach_put _ q q' V1 T q) as R'. rewrite put_same in R'.
    pose proof (XferProofs.good_reach _ _ _ r R') as G. rewrite E, XferProofs.loc_cons in G.
    cbn [QueueSpec.about] in G. rewrite Nat.eqb_refl in G.
    unfold as_store in So.
    assert (Ex : nth_error (map snd (b_fly s)) k = Some x) by (rewrite (map_nth_error snd _ _ Ek); auto).
    destruct (serve_step _ _ _ _ _ _ _ _ _ Ex So) as (Rp & Cl & _).
    eapply inv_leave; eauto.
    + intros r' N. cbn. apply Nat.eqb_neq. auto.
    + rewrite E, XferProofs.loc_cons. cbn [QueueSpec.about]. rewrite Nat.eqb_refl.
      destruct (loc r (log (b_q s q))) as [|c0| | |c0|o0 st|o0|]; cbn in *; try congruence; try tauto. destruct st; congruence.
    + right. exists a, e. auto.
  - (* removed *)
    pose proof (i_reach _ _ V) as V1.
    pose proof (reach_put _ q q' V1 T q) as R'. rewrite put_same in R'.
    pose proof (XferProofs.good_reach _ _ _ r R') as G. rewrite E, XferProofs.loc_cons in G.
    cbn [QueueSpec.about] in G. rewrite Nat.eqb_refl in G.
    eapply inv_leave; eauto.
    + intros r' N. cbn. apply Nat.eqb_neq. auto.
    + rewrite E, XferProofs.loc_cons. cbn [QueueSpec.about]. rewrite Nat.eqb_refl.
      destruct (loc r (log (b_q s q))) as [|c0| | |c0|o0 st|o0|]; cbn in *; try congruence; try tauto. destruct st; congruence.
  - (* a call *)
    destruct V as [V1 V2 V3 V4 V5 V6 V7 V8 V9 V10].
    constructor; cbn [b_q b_fly b_client b_disks]; auto.
    + intros q e' [I|I]; [discriminate|auto].
    + intros q r x I. destruct (V3 _ _ _ I) as (A & (c & e' & B1 & B2) & C). csplit; auto.
      * exists c, e'. split; auto. right; auto.
      * intros a e2 [J|J]; [discriminate|]. eapply C; eauto.
    + intros q c r e' [I|I]; [discriminate|eauto].
    + intros q r a e' [I|I]; [discriminate|]. destruct (V7 _ _ _ _ I) as (A & c & e0 & x & B1 & B2 & B3). split; auto.
      exists c, e0, x. csplit; auto. right; auto.
    + intros q c r e' c2 e2 [I|I]; [discriminate|]. intros [J|J]; [discriminate|]. eauto.
    + intros q c r e' [I|I]; [discriminate|]. destruct (V9 _ _ _ _ I) as [A|[(a & e2 & A)|(c2 & A)]]; auto.
      * right. left. exists a, e2. right; auto.
      * right. right. exists c2. right; auto.
    + intros q c r e' [I|I]; [discriminate|eauto].
  - (* anything else *)
    pose proof (i_reach _ _ V) as V1.
    pose proof (reach_put _ q q' V1 T q) as R'. rewrite put_same in R'.
    apply (inv_same t s q q' [e] [HQueue q e]); auto.
    + intros r. rewrite E, XferProofs.loc_cons. destruct (QueueSpec.about r e) eqn:A; [|tauto].
      apply plain_flying; auto. pose proof (XferProofs.good_reach _ _ _ r R') as G. rewrite E, XferProofs.loc_cons, A in G. exact G.
    + right. exists e. split; auto. rewrite E. left; auto.
Qed.

Lemma inv_history : forall s0 t s, history ks qid ba (begin nc s0) t s -> inv t s.
Proof.
  intros s0 t s H. induction H as [|t s s' H IH St|t s h s' H IH St].
  - apply inv_begin.
  - exact (inv_step _ _ _ _ IH St).
  - exact (inv_step _ _ _ _ IH St).
Qed.

(** Who is told the end of a request can rely on it. *)
Lemma told_landed : forall t s c q r, inv t s -> told c t q r -> ~ flying (loc r (log (b_q s q))).
Proof.
  intros t s c q r V H. pose proof (i_reach _ _ V q) as R.
  assert (Sp : forall e, In (HQueue q e) t -> exists l1 l2, QueueSpec.trace (b_q s q) = l1 ++ e :: l2).
  { intros e I. apply (i_log _ _ V) in I. rewrite <- QueueTrace.in_trace in I. apply in_split in I. exact I. }
  assert (Tr : forall e l1 e' l2, QueueSpec.trace (b_q s q) = l1 ++ e' :: l2 -> In e l1 -> In e (log (b_q s q))).
  { intros e l1 e' l2 E I. rewrite <- QueueTrace.in_trace, E. apply in_app_iff. auto. }
  destruct H as [(rs & I & J)|[(rs & I)|[(rs & sp & I)|(rs & bs & m & i & I & J1 & J2)]]]; destruct (Sp _ I) as (l1 & l2 & E).
  - apply (XferProps.landed _ _ _ r _ R (Tr _ _ _ _ E (QueueProps.C26_wait_all_waits _ _ _ _ _ _ _ r R E J))). auto.
  - destruct (QueueProps.C26_wait_all_throws_first _ _ _ _ _ _ _ _ R E) as (Co & _). apply (XferProps.landed _ _ _ r _ R (Tr _ _ _ _ E Co)). auto.
  - destruct (QueueProps2.C25_returns_finished_request _ _ _ _ _ _ _ _ _ R E) as (_ & Co & _). apply (XferProps.landed _ _ _ r _ R (Tr _ _ _ _ E Co)). auto.
  - destruct (QueueProps.C20_true_means_never_transferred _ _ _ _ _ _ _ _ _ _ _ R E J1 J2) as (_ & Co & _).
    apply (XferProps.landed _ _ _ r _ R (Tr _ _ _ _ E Co)). auto.
Qed.

Lemma fly_unfinished : forall t s q r x, inv t s -> In (q, r, x) (b_fly s) -> unfinished t x.
Proof.
  intros t s q r x V I. destruct (i_fly _ _ V _ _ _ I) as (A & (c & e & B1 & B2) & _). exists q, c, r, e. csplit; auto.
  intros c' H. exact (told_landed _ _ _ _ _ V H A).
Qed.

(** ** The store underneath *)

Lemma sim_step : forall n s0 t s ho s', inv t s -> bstep ks qid ba s ho s' ->
  (forall h, ho = Some h -> minds n t h) ->
  (forall g, (forall q r a e, g q r = true -> ~ In (HServed q r a e) t) ->
     shistory true n ba s0 (effective g t) (mk_store (b_client s) (b_disks s) (remain g (b_fly s)))) ->
  forall g, (forall q r a e, g q r = true -> ~ In (HServed q r a e) (match ho with Some h => h :: t | None => t end)) ->
     shistory true n ba s0 (effective g (match ho with Some h => h :: t | None => t end))
       (mk_store (b_client s') (b_disks s') (remain g (b_fly s'))).
Proof.
  intros n s0 t s ho s' V St M IH g Hg.
  assert (Un : forall g x, In x (remain g (b_fly s)) -> unfinished t x).
  { intros g' x I. apply remain_in in I. destruct I as (q & r & I). eapply fly_unfinished; eauto. }
  destruct St as [s q q' T E|s q q' c r o s1 e x ob T E So Rx Qd Ob Op|s q q' r a k x s1 e T E Ek So|s q q' r c k x T E Ek|s o s1 e Ic So|s q q' e T E Pl];
    cbn [b_client b_disks b_fly effective].
  - apply IH. auto.
  - assert (Hg' : forall q r a e, g q r = true -> ~ In (HServed q r a e) t).
    { intros q0 r0 a e0 G I. eapply Hg; eauto. right; eauto. }
    specialize (IH g Hg'). rewrite remain_app. specialize (M _ eq_refl). cbn [minds] in M.
    unfold as_store in So. destruct (post_step _ _ _ _ _ _ _ _ So Rx) as (_ & S2 & _ & Al).
    unfold remain at 2. cbn [filter map keep]. unfold keep. cbn [fst snd].
    destruct (g q r) eqn:Gq; cbn [negb].
    + cbn. rewrite app_nil_r. exact IH.
    + eapply sh_step; [exact IH| |apply S2]. intros _. apply Al. destruct e as [bs|b|b d|b|b ok|b d]; cbn in Rx; try discriminate.
      * destruct o as [tsize f off sizes|os i|i data|i|a k]; cbn [store_step st_client] in So.
        -- destruct (mclient_step _ _); discriminate.
        -- destruct (nth_error _ i); [|discriminate]. destruct (mclient_step _ _); try discriminate. destruct (nth_error _ _); [|discriminate].
           destruct (disk_discard _ _ _ _ _); discriminate.
        -- destruct (nth_error (mc_held (b_client s)) i) as [b'|] eqn:Eb; inversion So; subst. exists i. csplit; auto; [apply M|].
           intros z I. apply M. eapply Un; eauto.
        -- destruct (nth_error _ i); discriminate.
        -- cbn [st_pending st_disks] in So. destruct (nth_error _ k); [|discriminate]. destruct (nth_error _ _); [|discriminate]. destruct (rq_data _);
             [destruct (disk_write _ _ _ _) as ([y| |] & dk')|destruct (disk_read _ _ _ _) as ([y| |] & dk')]; discriminate.
      * destruct o as [tsize f off sizes|os i|i data|i|a k]; cbn [store_step st_client] in So.
        -- destruct (mclient_step _ _); discriminate.
        -- destruct (nth_error _ i); [|discriminate]. destruct (mclient_step _ _); try discriminate. destruct (nth_error _ _); [|discriminate].
           destruct (disk_discard _ _ _ _ _); discriminate.
        -- destruct (nth_error _ i); discriminate.
        -- destruct (nth_error (mc_held (b_client s)) i) as [b'|] eqn:Eb; inversion So; subst. exists i. csplit; auto.
           intros z I Nd. apply M; auto. eapply Un; eauto.
        -- cbn [st_pending st_disks] in So. destruct (nth_error _ k); [|discriminate]. destruct (nth_error _ _); [|discriminate]. destruct (rq_data _);
             [destruct (disk_write _ _ _ _) as ([y| |] & dk')|destruct (disk_read _ _ _ _) as ([y| |] & dk')]; discriminate.
  - assert (Gq : g q r = false).
    { destruct (g q r) eqn:Gq; auto. exfalso. eapply Hg; eauto. left; eauto. }
    assert (Hg' : forall q r a e, g q r = true -> ~ In (HServed q r a e) t).
    { intros q0 r0 a0 e0 G I. eapply Hg; eauto. right; eauto. }
    specialize (IH g Hg'). destruct (remove_split _ _ _ Ek) as (l1 & l2 & El & Er & _). rewrite Er.
    assert (Ex : nth_error (map snd (b_fly s)) k = Some x) by (rewrite (map_nth_error snd _ _ Ek); auto).
    unfold as_store in So. destruct (serve_step _ _ _ _ _ _ _ _ _ Ex So) as (_ & Cl & S2).
    assert (El2 : remain g (b_fly s) = remain g l1 ++ x :: remain g l2).
    { rewrite El, remain_app. f_equal. unfold remain. cbn [filter map]. unfold keep at 1. cbn [fst snd]. rewrite Gq. reflexivity. }
    rewrite El2 in IH.
    assert (Ex' : nth_error (remain g l1 ++ x :: remain g l2) (length (remain g l1)) = Some x).
    { rewrite nth_error_app2, Nat.sub_diag by lia. auto. }
    pose proof (S2 _ _ Ex') as S3.
    assert (Rm : remove_nth (length (remain g l1)) (remain g l1 ++ x :: remain g l2) = remain g (l1 ++ l2)).
    { rewrite remain_app. clear. induction (remain g l1); cbn; auto. f_equal; auto. }
    rewrite Rm in S3. eapply sh_step; [exact IH| |exact S3]. intros _. cbn. rewrite app_length. cbn. lia.
  - assert (Hin : In (q, r, x) (b_fly s)) by (eapply nth_error_In; eauto).
    destruct (i_fly _ _ V _ _ _ Hin) as (_ & _ & NS).
    destruct (remove_split _ _ _ Ek) as (l1 & l2 & El & Er & _). rewrite Er.
    pose proof (i_keys _ _ V) as Nd. rewrite El in Nd. rewrite <- (remain_also g q r x l1 l2 Nd), <- El. apply IH.
    intros q0 r0 a0 e0 G I. unfold and_also in G. apply orb_true_iff in G. destruct G as [G|G].
    + apply andb_true_iff in G. destruct G as (G1 & G2). apply Nat.eqb_eq in G1, G2. subst. eapply NS; eauto.
    + eapply Hg; eauto. right; eauto.
  - assert (Hg' : forall q r a e, g q r = true -> ~ In (HServed q r a e) t).
    { intros q0 r0 a0 e0 G I. eapply Hg; eauto. right; eauto. }
    specialize (IH g Hg'). specialize (M _ eq_refl). unfold as_store in So. destruct (call_step _ _ _ _ _ _ _ Ic So) as (_ & S2 & Al).
    eapply sh_step; [exact IH| |apply S2]. intros _.
    destruct o as [tsize f off sizes|os i|i data|i|a k]; cbn in Ic; try discriminate.
    + apply Al. exact M.
    + destruct Al as (b & -> & Al). apply Al. intros z I. cbn in M. apply M. eapply Un; eauto.
  - apply IH. intros q0 r0 a0 e0 G I. eapply Hg; eauto. right; eauto.
Qed.

Lemma follows_older : forall n h t, follows n (h :: t) -> follows n t /\ minds n t h.
Proof.
  intros n h t F. split.
  - intros newer h' older E. apply (F (h :: newer) h' older). rewrite E. auto.
  - apply (F [] h t). auto.
Qed.

Lemma sim_history : forall n s0 t s, st_pending s0 = [] -> history ks qid ba (begin nc s0) t s -> follows n t ->
  forall g, (forall q r a e, g q r = true -> ~ In (HServed q r a e) t) ->
    shistory true n ba s0 (effective g t) (mk_store (b_client s) (b_disks s) (remain g (b_fly s))).
Proof.
  intros n s0 t s P0 H. induction H as [|t s s' H IH St|t s h s' H IH St]; intros F g Hg.
  - cbn. destruct s0 as [c d p]; cbn in *. subst p. constructor.
  - apply (sim_step n s0 t s None s'); auto.
    + eapply inv_history; eauto.
    + discriminate.
  - destruct (follows_older _ _ _ F) as (F1 & F2). apply (sim_step n s0 t s (Some h) s'); auto.
    + eapply inv_history; eauto.
    + intros h' Q. inversion Q; subst. auto.
Qed.

Lemma remain_all : forall l, remain (fun _ _ => false) l = map snd l.
Proof. intros l. unfold remain, keep. cbn. f_equal. induction l; cbn; auto. f_equal; auto. Qed.

Lemma history_prefix : forall w0 t s, history ks qid ba w0 t s -> forall newer older, t = newer ++ older ->
  exists s1, history ks qid ba w0 older s1.
Proof.
  intros w0 t s H. induction H as [|t s s' H IH St|t s h s' H IH St]; intros newer older E.
  - apply eq_sym, app_eq_nil in E. destruct E as (_ & ->). exists w0. constructor.
  - eauto.
  - destruct newer as [|y newer]; cbn in E.
    + subst older. exists s'. eapply HsSome; eauto.
    + inversion E; subst. eauto.
Qed.

Lemma follows_prefix : forall n newer older, follows n (newer ++ older) -> follows n older.
Proof. intros n newer older F u h v E. apply (F (newer ++ u) h v). rewrite E, app_assoc. auto. Qed.

End Inv.
