(** C120: the block store on top of the kernel AIO queue. *)

From Coq Require Import ZArith List Bool Arith Lia.
From Verif Require Import WriterProofs.
From Verif Require Import AllocModel ManagerModel ManagerSpec FileModel StoreModel StoreSpec StoreProofs2 StoreProps StoreAModel StoreASpec StoreAProofs.
From Verif Require ManagerMain LioModel LioSpec LioProofs AioXferModel AioXferProofs StoreQModel StoreQProofs StoreQProps.
Import ListNotations.

Notation went := StoreQModel.went.

Lemma prefix_sinv : forall max ps ba cfgs disks s0 t s, (1 <= ba)%nat -> setup cfgs disks s0 ->
  history max ps ba (begin max s0) t s -> follows (length cfgs) t -> sinv cfgs (events t) (as_store s).
Proof.
  intros max ps ba cfgs disks s0 t s Hb Su H F.
  eapply history_sinv; eauto.
  - destruct Su as (A & B & C & D). eapply open_inv; eauto.
  - unfold as_store. rewrite <- remain_all. eapply sim_history; eauto. eapply StoreQProps.open_empty; eauto. discriminate.
Qed.

(** Whatever the threads of the queue, the kernel and the clients do, and whichever requests are
    cancelled: the manager and the files change as StoreModel says, with the requests served in
    some order and without those that were removed from the list; a client that waits for the end
    of its requests follows the rules of C92. *)
Theorem C120_refines : forall max ps ba cfgs disks s0 t s, setup cfgs disks s0 ->
  history max ps ba (begin max s0) t s -> follows (length cfgs) t ->
  shistory true (length cfgs) ba s0 (events t) (as_store s).
Proof.
  intros max ps ba cfgs disks s0 t s Su H F. unfold as_store. rewrite <- remain_all.
  eapply sim_history; eauto; [eapply StoreQProps.open_empty; eauto|discriminate].
Qed.
Print Assumptions C120_refines.

(** What the kernel reads from a block is what was last written to it. *)
Theorem C120_reads_last_written : forall max ps ba cfgs disks s0 newer i a b x older s d, (1 <= ba)%nat -> setup cfgs disks s0 ->
  history max ps ba (begin max s0) (newer ++ KEnd i a (EReadDone b (Some x)) :: older) s ->
  follows (length cfgs) (newer ++ KEnd i a (EReadDone b (Some x)) :: older) ->
  expected (events older) b = Some d -> x = map Some d.
Proof.
  intros max ps ba cfgs disks s0 newer i a b x older s d Hb Su H F E.
  destruct (history_prefix _ _ _ _ _ _ H newer _ eq_refl) as (s1 & H1). apply follows_prefix in F.
  pose proof (C120_refines _ _ _ _ _ _ _ _ Su H1 F) as Sh. cbn [events effective] in Sh.
  eapply (C92_reads_last_written ba cfgs disks s0 [] b x); eauto.
Qed.
Print Assumptions C120_reads_last_written.

Lemma false_le : forall i (l : list (LioModel.id * bool)),
  (LioProofs.cnt i (map fst (filter (fun x => negb (snd x)) l)) + LioProofs.cnt i (map fst (filter (fun x => snd x) l)) = LioProofs.cnt i (map fst l))%nat.
Proof. intros i. induction l as [|(j & b) l IH]; cbn; auto. destruct b; cbn; destruct (Nat.eqb i j); lia. Qed.

Lemma handled_false : forall max q i, LioProofs.Inv max q -> In (i, false) (handled q) -> In i (submitted q).
Proof.
  intros max q i L H. apply LioProofs.cnt_In. rewrite (LioProofs.I_sub _ _ L), (LioProofs.I_reap _ _ L).
  assert (X : In i (map fst (filter (fun x => negb (snd x)) (handled q)))).
  { change i with (fst (i, false)). apply in_map. apply filter_In. auto. }
  apply LioProofs.cnt_In in X. lia.
Qed.
Lemma handled_true : forall max q i, LioProofs.Inv max q -> In (i, true) (handled q) -> ~ In i (submitted q).
Proof.
  intros max q i L H. rewrite LioProofs.cnt_In. rewrite (LioProofs.I_sub _ _ L), (LioProofs.I_reap _ _ L).
  assert (X : In i (map fst (filter (fun x => snd x) (handled q)))).
  { change i with (fst (i, true)). apply in_map. apply filter_In. auto. }
  apply LioProofs.cnt_In in X. pose proof (false_le i (handled q)) as E. pose proof (LioProofs.I_hand _ _ L) as Hd. rewrite Hd in E.
  pose proof (LioProofs.I_all _ _ L i). pose proof (LioProofs.I_once _ _ L i). lia.
Qed.

(** Who is told the end of a request can rely on it: if it was not canceled, the kernel has
    finished it, as posted; if it was, the kernel has never had it. *)
Theorem C120_told : forall max ps ba s0 t s c0 i e c b, history max ps ba (begin max s0) t s ->
  In (KPost c0 i e) t -> In (KTold c i b) t ->
  if b then In (KErased i) t /\ forall a e', ~ In (KEnd i a e') t
  else ~ In (KErased i) t /\ exists a e' x, In (KEnd i a e') t /\ request_of e = Some x /\ reply x e'.
Proof.
  intros max ps ba s0 t s c0 i e c b H P T. pose proof (inv_history _ _ _ _ _ _ H) as V.
  pose proof (told_landed _ _ _ _ _ _ _ V T) as L. pose proof (i_told _ _ _ _ V _ _ _ T) as Ht.
  pose proof (LioProofs.inv_reach _ _ _ (i_reach _ _ _ _ V)) as L1.
  destruct b.
  - pose proof (handled_true _ _ _ L1 Ht) as N.
    assert (Ne : forall a e', ~ In (KEnd i a e') t). { intros a e' I. apply (i_ended _ _ _ _ V) in I. tauto. }
    split; auto. destruct (i_end _ _ _ _ V _ _ _ P) as [(x & A)|[(a & e' & A)|A]]; auto.
    + exfalso. apply L. apply (i_fly _ _ _ _ V _ _ A).
    + exfalso. eapply Ne; eauto.
  - pose proof (handled_false _ _ _ L1 Ht) as N.
    assert (Ne : ~ In (KErased i) t). { intros I. apply (i_erased _ _ _ _ V) in I. tauto. }
    split; auto. destruct (i_end _ _ _ _ V _ _ _ P) as [(x & A)|[(a & e' & A)|A]]; [| |contradiction].
    + exfalso. apply L. apply (i_fly _ _ _ _ V _ _ A).
    + destruct (i_ended _ _ _ _ V _ _ _ A) as (B & c1 & e0 & x & C1 & C2 & C3).
      destruct (i_once _ _ _ _ V _ _ _ _ _ P C1) as (_ & <-). exists a, e', x. auto.
Qed.
Print Assumptions C120_told.

(** ** From writing to reading *)

Definition shaped (h : happening) : Prop :=
  match h with
  | KPost _ _ e => request_of e <> None
  | KEnd _ _ e => (exists b ok, e = EWritten b ok) \/ (exists b x, e = EReadDone b x)
  | KCall _ e => (exists bs, e = EAlloc bs) \/ (exists b, e = EDelete b)
  | _ => True
  end.

Lemma history_shaped : forall max ps ba w0 t s, history max ps ba w0 t s -> Forall shaped t.
Proof.
  intros max ps ba w0 t s H. induction H as [|t s s' H IH St|t s h s' H IH St]; auto. constructor; auto.
  remember (Some h) as ho eqn:Eh. destruct St as [s q' T Q|s q' c i o s1 e x T E So Rx|s q' l1 i l2 a k x s1 e T E E' Ek So|s q' i k x T E Ek|s c i b I|s o s1 e Ic So];
    inversion Eh; subst h; cbn; auto.
  - congruence.
  - assert (Ex : nth_error (map snd (a_fly s)) k = Some x) by (rewrite (map_nth_error snd _ _ Ek); auto).
    destruct (StoreQProofs.serve_step _ _ _ _ _ _ _ _ _ Ex So) as (Rp & _). unfold reply in Rp. destruct (rq_data x); destruct Rp as (y & ->); eauto.
  - unfold as_store in So. destruct o as [tsize f off sizes|os i|i data|i|a k]; cbn in Ic; try discriminate.
    + cbn [store_step st_client] in So. destruct (mclient_step _ _); inversion So; subst; eauto.
    + destruct (StoreQProofs.call_step ba _ _ _ (SDelete os i) _ _ eq_refl So) as (_ & _ & b & -> & _). eauto.
Qed.

Lemma same_expected : forall b t g g', Forall shaped t ->
  (forall c i d, In (KPost c i (EWrite b d)) t -> g i = g' i) ->
  expected (effective g t) b = expected (effective g' t) b.
Proof.
  intros b. induction t as [|h t IH]; intros g g' Sh H; auto. inversion Sh as [|? ? Sh1 Sh2]; subst.
  assert (H' : forall c i d, In (KPost c i (EWrite b d)) t -> g i = g' i) by (intros; eapply H; right; eauto).
  assert (K : forall e, expected (e :: effective g t) b = expected (e :: effective g' t) b).
  { intros e. specialize (IH g g' Sh2 H'). destruct e as [bs|b'|b' d|b'|b' [|]|b' d]; cbn; rewrite ?IH; auto. }
  destruct h as [c i e|i a e|i|c i b0|o e]; cbn [effective]; auto.
  - cbn in Sh1. pose proof (IH g g' Sh2 H') as IH1.
    assert (W : g i <> g' i -> expected (e :: effective g t) b = expected (effective g t) b /\
      expected (e :: effective g' t) b = expected (effective g' t) b).
    { intros N. destruct e as [bs|b'|b' d|b'|b' ok|b' d]; cbn in Sh1; try congruence; auto. cbn.
      destruct (bid_eqb b b') eqn:Q; auto. apply bid_eqb_spec in Q. subst b'. exfalso. apply N.
      eapply H. left; eauto. }
    destruct (g i); destruct (g' i); auto.
    + destruct W as (_ & ->); [discriminate|]. auto.
    + destruct W as (-> & _); [discriminate|]. auto.
  - apply IH; auto. intros c' i' d' I. unfold and_also. rewrite (H' _ _ _ I). auto.
Qed.

Lemma history_at : forall max ps ba w0 t s, history max ps ba w0 t s -> forall newer h older, t = newer ++ h :: older ->
  exists s1 s2, history max ps ba w0 older s1 /\ astep max ps ba s1 (Some h) s2.
Proof.
  intros max ps ba w0 t s H. induction H as [|t s s' H IH St|t s h s' H IH St]; intros newer h0 older E.
  - destruct newer; discriminate.
  - eauto.
  - destruct newer as [|y newer]; cbn in E; inversion E; subst; eauto.
Qed.

Lemma fly_step : forall max ps ba s ho s', astep max ps ba s ho s' -> forall i x, In (i, x) (a_fly s') ->
  In (i, x) (a_fly s) \/ exists c e, ho = Some (KPost c i e).
Proof.
  intros max ps ba s ho s' St i0 x0 I0.
  destruct St as [s q' T Q|s q' c i o s1 e x T E So Rx|s q' l1 i l2 a k x s1 e T E E' Ek So|s q' i k x T E Ek|s c i b I|s o s1 e Ic So];
    cbn [a_fly] in I0; auto.
  - apply in_app_iff in I0. destruct I0 as [I|[I|[]]]; auto. inversion I; subst. right. eauto.
  - destruct (StoreQProofs.remove_split _ _ _ Ek) as (m1 & m2 & El & Er & _). rewrite Er in I0. left. rewrite El. apply in_app_iff.
    apply in_app_iff in I0. cbn. tauto.
  - destruct (StoreQProofs.remove_split _ _ _ Ek) as (m1 & m2 & El & Er & _). rewrite Er in I0. left. rewrite El. apply in_app_iff.
    apply in_app_iff in I0. cbn. tauto.
Qed.

Lemma still_fly : forall max ps ba w0 t s, history max ps ba w0 t s -> forall newer older, t = newer ++ older ->
  exists s1, history max ps ba w0 older s1 /\ forall i x, In (i, x) (a_fly s) ->
    (exists c e, In (KPost c i e) newer) \/ In (i, x) (a_fly s1).
Proof.
  intros max ps ba w0 t s H. induction H as [|t s s' H IH St|t s h s' H IH St]; intros newer older E.
  - apply eq_sym, app_eq_nil in E. destruct E as (-> & ->). exists w0. split; [constructor|auto].
  - destruct (IH newer older E) as (s1 & A & B). exists s1. split; auto. intros i x I.
    destruct (fly_step _ _ _ _ _ _ St _ _ I) as [J|(c & e & J)]; [auto|discriminate].
  - destruct newer as [|y newer]; cbn in E.
    + subst older. exists s'. split; [eapply HaSome; eauto|auto].
    + inversion E; subst. destruct (IH newer older eq_refl) as (s1 & A & B). exists s1. split; auto. intros i x I.
      destruct (fly_step _ _ _ _ _ _ St _ _ I) as [J|(c & e & J)].
      * destruct (B _ _ J) as [(c & e & K)|K]; auto. left. exists c, e. right; auto.
      * inversion J; subst. left. exists c, e. left; auto.
Qed.

Lemma post_new : forall max ps ba t s c i e s', inv max ps t s -> astep max ps ba s (Some (KPost c i e)) s' -> ~ In i (added (a_q s)).
Proof.
  intros max ps ba t s c i e s' V St. remember (Some (KPost c i e)) as ho eqn:Eh.
  destruct St as [s q' T Q|s q' c1 i1 o s1 e1 x T E So Rx|s q' l1 i1 l2 a k x s1 e1 T E E' Ek So|s q' i1 k x T E Ek|s c1 i1 b I|s o s1 e1 Ic So];
    try discriminate Eh. inversion Eh; subst c1 i1 e1.
  pose proof (LioProofs.inv_reach _ _ _ (i_reach _ _ _ _ V)) as L1.
  apply (AioXferProofs.kind_post _ _ i (AioXferProofs.step_kind _ _ _ _ L1 T) E).
Qed.

Lemma post_first : forall max ps ba s0 t s newer c i e older, history max ps ba (begin max s0) t s ->
  t = newer ++ KPost c i e :: older -> forall c' e', ~ In (KPost c' i e') older.
Proof.
  intros max ps ba s0 t s newer c i e older H Et c' e' I.
  destruct (history_at _ _ _ _ _ _ H _ _ _ Et) as (s1 & s2 & H1 & St). pose proof (inv_history _ _ _ _ _ _ H1) as V.
  apply (i_posted _ _ _ _ V) in I. eapply post_new; eauto.
Qed.

(** While a read of a block is under way, what is expected of the block does not change. *)
Lemma step_keeps : forall max ps ba cfgs disks s0 t s h s' r b, (1 <= ba)%nat -> setup cfgs disks s0 ->
  history max ps ba (begin max s0) t s -> follows (length cfgs) (h :: t) -> astep max ps ba s (Some h) s' ->
  In (r, mk_rq b None) (a_fly s) -> expected (events (h :: t)) b = expected (events t) b.
Proof.
  intros max ps ba cfgs disks s0 t s h s' r b Hb Su H F St I.
  destruct (follows_older _ _ _ F) as (F1 & M). pose proof (inv_history _ _ _ _ _ _ H) as V.
  pose proof (prefix_sinv _ _ _ _ _ _ _ _ Hb Su H F1) as Si.
  assert (Un : unfinished t (mk_rq b None)) by (eapply fly_unfinished; eauto).
  assert (Ex : forall r1 x1, In (r1, x1) (a_fly s) -> rq_bid x1 = b -> rq_data x1 = None).
  { intros r1 x1 I1 B1. apply In_nth_error in I. destruct I as (k & Ek). apply In_nth_error in I1. destruct I1 as (k1 & Ek1).
    destruct (Nat.eq_dec k1 k) as [Q|D]; [subst; rewrite Ek in Ek1; inversion Ek1; auto|].
    apply (si_excl _ _ _ Si k1 k x1 (mk_rq b None) D); cbn [as_store st_pending]; auto.
    - rewrite (map_nth_error snd _ _ Ek1). auto.
    - rewrite (map_nth_error snd _ _ Ek). auto. }
  remember (Some h) as ho eqn:Eh.
  destruct St as [s q' T Q|s q' c1 r1 o s1 e1 x T E So Rx|s q' l1 r1 l2 a k x s1 e1 T E E' Ek So|s q' r1 k x T E Ek|s c1 r1 b1 I1|s o s1 e1 Ic So];
    inversion Eh; subst h; unfold events; cbn [effective].
  - destruct e1 as [bs|b'|b' d|b'|b' ok|b' d]; cbn in Rx; try discriminate; cbn; auto.
    destruct (bid_eqb b b') eqn:Q; auto. apply bid_eqb_spec in Q. subst b'. exfalso. cbn in M. destruct M as (_ & M). eapply M; eauto.
  - assert (Exx : nth_error (map snd (a_fly s)) k = Some x) by (rewrite (map_nth_error snd _ _ Ek); auto).
    destruct (StoreQProofs.serve_step _ _ _ _ _ _ _ _ _ Exx So) as (Rp & _). unfold reply in Rp.
    destruct (rq_data x) as [dd|] eqn:Ed; destruct Rp as (y & ->); cbn; auto. destruct y; auto.
    destruct (bid_eqb b (rq_bid x)) eqn:Q; auto. apply bid_eqb_spec in Q. subst b. exfalso.
    apply nth_error_In in Ek. rewrite (Ex _ _ Ek eq_refl) in Ed. discriminate.
  - apply same_expected; [eapply history_shaped; eauto|]. intros c2 r2 d2 I2. unfold and_also.
    destruct (Nat.eqb_spec r2 r1) as [Q2|Q2]; auto. subst. exfalso.
    apply nth_error_In in Ek. destruct (i_fly _ _ _ _ V _ _ Ek) as (_ & (c3 & e3 & B1 & B2) & _).
    destruct (i_once _ _ _ _ V _ _ _ _ _ I2 B1) as (_ & <-). cbn in B2. inversion B2; subst x.
    specialize (Ex _ _ Ek eq_refl). discriminate.
  - reflexivity.
  - unfold as_store in So. destruct o as [tsize f off sizes|os i|i data|i|a k]; cbn in Ic; try discriminate.
    + cbn [minds] in M.
      assert (Hb2 : In b (mc_held (a_client s))).
      { assert (J : In (mk_rq b None) (st_pending (as_store s))). { cbn. change (mk_rq b None) with (snd (r, mk_rq b None)). apply in_map. auto. }
        apply (proj1 (si_pend _ _ _ Si _ J)). }
      pose proof (si_reach _ _ _ Si) as R. cbn [as_store st_client] in R.
      cbn [store_step st_client] in So.
      assert (G : forall c', mclient_step (a_client s) (MNew tsize f off sizes) = StepOk c' \/ mclient_step (a_client s) (MNew tsize f off sizes) = StepThrow c' ->
        expected (EAlloc (skipn (length (mc_held (a_client s))) (mc_held c')) :: effective (fun _ => false) t) b = expected (effective (fun _ => false) t) b).
      { intros c' Sc. pose proof (reach_step _ _ _ _ R M Sc) as R'.
        destruct (new_grows _ _ _ _ _ _ _ (ManagerMain.mreachable_inv _ _ _ R) M Sc) as ((got & Hg) & _). rewrite Hg, skipn_app_exact.
        pose proof (held_nodup _ _ R') as ND. rewrite Hg in ND. apply expected_alloc_old. eapply nodup_app_disjoint; eauto. }
      destruct (mclient_step (a_client s) (MNew tsize f off sizes)) as [c'|c'|]; inversion So; subst; apply G; auto.
    + destruct (StoreQProofs.call_step ba _ _ _ (SDelete os i) _ _ eq_refl So) as (_ & _ & b' & -> & _). reflexivity.
Qed.

Lemma read_keeps : forall max ps ba cfgs disks s0 t s, (1 <= ba)%nat -> setup cfgs disks s0 ->
  history max ps ba (begin max s0) t s -> follows (length cfgs) t -> forall t2 c r b t1, t = t2 ++ KPost c r (ERead b) :: t1 ->
  In (r, mk_rq b None) (a_fly s) -> expected (events t) b = expected (events t1) b.
Proof.
  intros max ps ba cfgs disks s0 t s Hb Su H. induction H as [|t s s' H IH St|t s h s' H IH St]; intros F t2 c r b t1 E I.
  - destruct t2; discriminate.
  - destruct (fly_step _ _ _ _ _ _ St _ _ I) as [J|(c2 & e2 & J)]; [|discriminate]. eauto.
  - destruct t2 as [|y t2]; cbn in E; inversion E; subst.
    + reflexivity.
    + destruct (follows_older _ _ _ F) as (F1 & M).
      assert (J : In (r, mk_rq b None) (a_fly s)).
      { destruct (fly_step _ _ _ _ _ _ St _ _ I) as [J|(c2 & e2 & J)]; auto. exfalso. inversion J; subst.
        assert (H2 : history max ps ba (begin max s0) (KPost c2 r e2 :: t2 ++ KPost c r (ERead b) :: t1) s') by (eapply HaSome; eauto).
        eapply (post_first _ _ _ _ _ _ [] _ _ _ _ H2 eq_refl c (ERead b)). apply in_app_iff. right. left. auto. }
      rewrite (step_keeps _ _ _ _ _ _ _ _ _ _ _ _ Hb Su H F St J). eauto.
Qed.

(** A client reads a block and waits.  If it was not canceled and the kernel saw no error, it gets
    what was expected of the block when it asked. *)
Theorem C120_waited_read : forall max ps ba cfgs disks s0 t2 c0 r b t1 s d c, (1 <= ba)%nat -> setup cfgs disks s0 ->
  let t := t2 ++ KPost c0 r (ERead b) :: t1 in
  history max ps ba (begin max s0) t s -> follows (length cfgs) t ->
  expected (events t1) b = Some d ->
  In (KTold c r false) t -> (forall a e', In (KEnd r a e') t -> went e' = true) ->
  exists a, In (KEnd r a (EReadDone b (Some (map Some d)))) t.
Proof.
  intros max ps ba cfgs disks s0 t2 c0 r b t1 s d c Hb Su t H F E T Wt.
  assert (P : In (KPost c0 r (ERead b)) t) by (apply in_app_iff; right; left; auto).
  destruct (C120_told _ _ _ _ _ _ _ _ _ _ _ H P T) as (_ & a & e' & x & A1 & A2 & A3).
  cbn in A2. inversion A2; subst x. unfold reply in A3. cbn in A3. destruct A3 as (y & ->).
  specialize (Wt _ _ A1). destruct y as [y|]; [|discriminate]. exists a. apply in_split in A1. destruct A1 as (newer & older & Et).
  assert (Y : y = map Some d); [|subst y; rewrite Et; apply in_app_iff; right; left; auto].
  destruct (history_at _ _ _ _ _ _ H _ _ _ Et) as (s1 & s2 & H1 & St).
  assert (Fl : exists z, In (r, z) (a_fly s1)).
  { remember (Some (KEnd r a (EReadDone b (Some y)))) as ho eqn:Eh.
    destruct St as [s1 q' T1 Q|s1 q' c1 r1 o s3 e1 x T1 E1 So Rx|s1 q' l1 r1 l2 a1 k x s3 e1 T1 E1 E' Ek So|s1 q' r1 k x T1 E1 Ek|s1 c1 r1 b1 I1|s1 o s3 e1 Ic So];
      inversion Eh; subst. exists x. eapply nth_error_In; eauto. }
  destruct Fl as (z & Fl). destruct (i_fly _ _ _ _ (inv_history _ _ _ _ _ _ H1) _ _ Fl) as (_ & (c1 & e1 & B1 & B2) & _).
  pose proof (inv_history _ _ _ _ _ _ H) as V.
  assert (B1' : In (KPost c1 r e1) t) by (rewrite Et; apply in_app_iff; right; right; auto).
  destruct (i_once _ _ _ _ V _ _ _ _ _ P B1') as (<- & <-). cbn in B2. inversion B2; subst z.
  apply in_split in B1. destruct B1 as (u & v & Eo).
  assert (Q : v = t1).
  { pose proof (post_first _ _ _ _ _ _ t2 _ _ _ _ H eq_refl c0 (ERead b)) as N1.
    assert (Et2 : t = (newer ++ KEnd r a (EReadDone b (Some y)) :: u) ++ KPost c0 r (ERead b) :: v).
    { rewrite Et, Eo, <- app_assoc. reflexivity. }
    pose proof (post_first _ _ _ _ _ _ _ _ _ _ _ H Et2 c0 (ERead b)) as N2.
    symmetry. exact (proj1 (StoreQProps.split_once _ _ _ _ _ _ Et2 N1 N2)). }
  subst v. rewrite Et in F. pose proof F as F0. apply follows_prefix in F0. apply follows_older in F0. destruct F0 as (F0 & _).
  pose proof (read_keeps _ _ _ _ _ _ _ _ Hb Su H1 F0 _ _ _ _ _ Eo Fl) as K. rewrite E in K.
  eapply C120_reads_last_written; eauto. rewrite <- Et. exact H.
Qed.
Print Assumptions C120_waited_read.

(** ** What is written stays *)

Lemma written_list : forall c r b d t1 t2 g, Forall shaped t2 -> g r = false -> ~ In (KErased r) t2 ->
  (forall u c' r' d' v, t2 = u ++ KPost c' r' (EWrite b d') :: v -> g r' = true \/ In (KErased r') u) ->
  (forall o bs, In (KCall o (EAlloc bs)) t2 -> ~ In b bs) -> (forall r' a, ~ In (KEnd r' a (EWritten b false)) t2) ->
  expected (effective g (t2 ++ KPost c r (EWrite b d) :: t1)) b = Some d.
Proof.
  intros c r b d t1. induction t2 as [|h t2 IH]; intros g Sh G A1 A2 A3 A4.
  - cbn [app effective]. rewrite G. cbn. rewrite bid_eqb_refl. auto.
  - inversion Sh as [|? ? S1 S2]; subst.
    assert (IH' : forall g', g' r = false -> (forall r', g r' = true -> g' r' = true) ->
      (forall r', h = KErased r' -> g' r' = true) ->
      expected (effective g' (t2 ++ KPost c r (EWrite b d) :: t1)) b = Some d).
    { intros g' G' Gm Ge. apply IH; auto.
      - intros I. eapply A1; right; eauto.
      - intros u c' r' d' v E. destruct (A2 (h :: u) c' r' d' v) as [B|[B|B]]; eauto. rewrite E. auto.
      - intros o bs I. eapply A3; right; eauto.
      - intros r' a I. eapply A4; right; eauto. }
    cbn [app]. destruct h as [c1 r1 e|r1 a e|r1|c1 r1 b1|o e]; cbn [effective].
    + destruct (g r1) eqn:Eg; [apply IH'; auto; discriminate|]. cbn in S1.
      assert (K : expected (effective g (t2 ++ KPost c r (EWrite b d) :: t1)) b = Some d) by (apply IH'; auto; discriminate).
      destruct e as [bs|b'|b' d'|b'|b' ok|b' d']; cbn in S1; try congruence; cbn; auto.
      destruct (bid_eqb b b') eqn:Q; auto. apply bid_eqb_spec in Q. subst. exfalso.
      destruct (A2 [] c1 r1 d' t2 eq_refl) as [B|[]]. congruence.
    + assert (K : expected (effective g (t2 ++ KPost c r (EWrite b d) :: t1)) b = Some d) by (apply IH'; auto; discriminate).
      cbn in S1. destruct S1 as [(b' & ok & ->)|(b' & y & ->)]; cbn; auto. destruct ok; auto.
      destruct (bid_eqb b b') eqn:Q; auto. apply bid_eqb_spec in Q. subst. exfalso. eapply A4. left; eauto.
    + apply IH'; unfold and_also.
      * destruct (Nat.eqb_spec r r1) as [Q2|Q2]; auto. subst. exfalso. apply A1. left; auto.
      * intros r' B. rewrite B. apply orb_true_r.
      * intros r' B. inversion B; subst. rewrite !Nat.eqb_refl. auto.
    + apply IH'; auto; discriminate.
    + assert (K : expected (effective g (t2 ++ KPost c r (EWrite b d) :: t1)) b = Some d) by (apply IH'; auto; discriminate).
      cbn in S1. destruct S1 as [(bs & ->)|(b' & ->)].
      * rewrite expected_alloc_old; auto. eapply A3. left; eauto.
      * cbn. auto.
Qed.

(** A client writes a block and waits; later, unless the block was given back or written again
    (writes that were cancelled in time do not count), someone reads the block and waits: they
    get the data, if neither request was canceled and the kernel saw no error. *)
Theorem C120_round_trip : forall max ps ba cfgs disks s0 t3 c2 r2 t2 c1 r1 t1 b d s c c', (1 <= ba)%nat -> setup cfgs disks s0 ->
  let t := t3 ++ KPost c2 r2 (ERead b) :: t2 ++ KPost c1 r1 (EWrite b d) :: t1 in
  history max ps ba (begin max s0) t s -> follows (length cfgs) t ->
  (forall c r d', In (KPost c r (EWrite b d')) t2 -> In (KErased r) t2) -> (forall o bs, In (KCall o (EAlloc bs)) t2 -> ~ In b bs) ->
  In (KTold c r1 false) t -> In (KTold c' r2 false) t ->
  (forall r a e', In (KEnd r a e') t -> r = r1 \/ r = r2 -> went e' = true) ->
  exists a, In (KEnd r2 a (EReadDone b (Some (map Some d)))) t.
Proof.
  intros max ps ba cfgs disks s0 t3 c2 r2 t2 c1 r1 t1 b d s c c' Hb Su t H F A2 A3 W1 W2 Wt.
  assert (In2 : forall z, In z t2 -> In z t).
  { intros z I. apply in_app_iff. right. right. apply in_app_iff. auto. }
  assert (P : In (KPost c1 r1 (EWrite b d)) t).
  { apply in_app_iff. right. right. apply in_app_iff. right. left. auto. }
  pose proof (inv_history _ _ _ _ _ _ H) as V.
  destruct (C120_told _ _ _ _ _ _ _ _ _ _ _ H P W1) as (N1 & _).
  eapply (C120_waited_read max ps ba cfgs disks s0 t3 c2 r2 b (t2 ++ KPost c1 r1 (EWrite b d) :: t1)); eauto.
  unfold events. apply written_list; auto.
  - pose proof (history_shaped _ _ _ _ _ _ H) as Sh. rewrite Forall_forall in *. auto.
  - intros u c3 r' d' v E. right. assert (I : In (KErased r') t2) by (apply (A2 c3 r' d'); rewrite E; apply in_app_iff; right; left; auto).
    rewrite E in I. apply in_app_iff in I. destruct I as [I|[I|I]]; [auto|discriminate|]. exfalso.
    assert (Et : t = (t3 ++ KPost c2 r2 (ERead b) :: u) ++ KPost c3 r' (EWrite b d') :: v ++ KPost c1 r1 (EWrite b d) :: t1).
    { unfold t. rewrite E. repeat (rewrite <- app_assoc; cbn [app]). reflexivity. }
    destruct (history_at _ _ _ _ _ _ H _ _ _ Et) as (s1 & s2 & H1 & St).
    assert (I' : In (KErased r') (v ++ KPost c1 r1 (EWrite b d) :: t1)) by (apply in_app_iff; auto).
    pose proof (inv_history _ _ _ _ _ _ H1) as V1. destruct (i_erased _ _ _ _ V1 _ I') as (N & _).
    eapply post_new; eauto.
  - intros r' a I.
    assert (K : r' = r1).
    { apply in_split in I. destruct I as (u & v & Eu).
      assert (Et : t = (t3 ++ KPost c2 r2 (ERead b) :: u) ++ KEnd r' a (EWritten b false) :: (v ++ [KPost c1 r1 (EWrite b d)]) ++ t1).
      { unfold t. rewrite Eu. repeat (rewrite <- app_assoc; cbn [app]). reflexivity. }
      destruct (history_at _ _ _ _ _ _ H _ _ _ Et) as (s1 & s2 & H1 & St).
      assert (Fl : exists z, In (r', z) (a_fly s1) /\ reply z (EWritten b false)).
      { remember (Some (KEnd r' a (EWritten b false))) as ho eqn:Eh.
        destruct St as [s1 q' T1 Q|s1 q' c3 r3 o s3 e1 x T1 E1 So Rx|s1 q' l1 r3 l2 a1 k x s3 e1 T1 E1 E' Ek So|s1 q' r3 k x T1 E1 Ek|s1 c3 r3 b1 I1|s1 o s3 e1 Ic So];
          inversion Eh; subst. exists x. split; [eapply nth_error_In; eauto|].
        assert (Exx : nth_error (map snd (a_fly s1)) k = Some x) by (rewrite (map_nth_error snd _ _ Ek); auto).
        apply (StoreQProofs.serve_step _ _ _ _ _ _ _ _ _ Exx So). }
      destruct Fl as (z & Fl & Rp). unfold reply in Rp.
      assert (Bz : rq_bid z = b /\ exists dd, rq_data z = Some dd).
      { destruct (rq_data z); destruct Rp as (y & Q); inversion Q; subst; eauto. }
      destruct Bz as (Bz & dd & Dz).
      destruct (still_fly _ _ _ _ _ _ H1 (v ++ [KPost c1 r1 (EWrite b d)]) t1 eq_refl) as (s4 & H4 & Fb).
      destruct (Fb _ _ Fl) as [(c3 & e3 & I)|I].
      - apply in_app_iff in I. destruct I as [I|[I|[]]]; [|inversion I; auto]. exfalso.
        destruct (i_fly _ _ _ _ (inv_history _ _ _ _ _ _ H1) _ _ Fl) as (_ & (c4 & e4 & B1 & B2) & _).
        assert (I' : In (KPost c3 r' e3) ((v ++ [KPost c1 r1 (EWrite b d)]) ++ t1)) by (apply in_app_iff; left; apply in_app_iff; auto).
        destruct (i_once _ _ _ _ (inv_history _ _ _ _ _ _ H1) _ _ _ _ _ I' B1) as (_ & <-).
        destruct e3 as [bs|b'|b' d'|b'|b' ok|b' d']; cbn in B2; inversion B2; subst z; cbn in Bz, Dz; [|discriminate]. subst b'.
        assert (I5 : In (KErased r') t2) by (apply (A2 c3 r' d'); rewrite Eu; apply in_app_iff; right; right; auto).
        assert (I6 : In (KEnd r' a (EWritten b false)) t) by (apply In2; rewrite Eu; apply in_app_iff; right; left; auto).
        apply In2 in I5. destruct (i_erased _ _ _ _ V _ I5) as (_ & _ & X). destruct (i_ended _ _ _ _ V _ _ _ I6) as (Y & _). auto.
      - exfalso. pose proof (fly_unfinished _ _ _ _ _ _ (inv_history _ _ _ _ _ _ H4) I) as Un.
        assert (M : minds (length cfgs) t1 (KPost c1 r1 (EWrite b d))).
        { apply (F (t3 ++ KPost c2 r2 (ERead b) :: t2) _ t1). unfold t. rewrite <- app_assoc. reflexivity. }
        cbn in M. destruct M as (_ & M). exact (M _ Un Bz). }
    subst r'. specialize (Wt _ _ _ (In2 _ I) (or_introl eq_refl)). discriminate.
Qed.
Print Assumptions C120_round_trip.

(** If the system does not fail, no request does. *)
Theorem C120_succeed : forall max ps ba cfgs disks s0 t s r a e, (1 <= ba)%nat -> setup cfgs disks s0 ->
  history max ps ba (begin max s0) t s -> follows (length cfgs) t ->
  In (KEnd r a e) t -> working a -> went e = true.
Proof.
  intros max ps ba cfgs disks s0 t s r a e Hb Su H F I Wk. apply in_split in I. destruct I as (newer & older & Et).
  destruct (history_at _ _ _ _ _ _ H _ _ _ Et) as (s1 & s2 & H1 & St). rewrite Et in F. apply follows_prefix, follows_older in F.
  destruct F as (F & _). pose proof (prefix_sinv _ _ _ _ _ _ _ _ Hb Su H1 F) as Si.
  remember (Some (KEnd r a e)) as ho eqn:Eh.
  destruct St as [s1 q' T1 Q|s1 q' c3 r3 o s3 e1 x T1 E1 So Rx|s1 q' l1 r3 l2 a1 k x s3 e1 T1 E1 E' Ek So|s1 q' r3 k x T1 E1 Ek|s1 c3 r3 b1 I1|s1 o s3 e1 Ic So];
    inversion Eh; subst.
  assert (Exx : nth_error (map snd (a_fly s1)) k = Some x) by (rewrite (map_nth_error snd _ _ Ek); auto).
  assert (Al : allowed (length cfgs) (as_store s1) (SServe a k)).
  { cbn. apply nth_error_Some. congruence. }
  destruct (step_serve ba cfgs _ _ a k Si Al) as (s' & e' & E2 & _ & _ & N). rewrite So in E2. inversion E2; subst s' e'.
  specialize (N Wk). destruct e as [bs|b'|b' d'|b'|b' [|]|b' [d'|]]; auto; exfalso; destruct (N b'); auto.
Qed.
Print Assumptions C120_succeed.

(** The composition restricts nothing: every step of the queue is one of the whole; the kernel can
    finish any request it has, whatever the system answers; a request for a block that is held
    can be posted whenever the list is not locked; nothing goes wrong in new_blocks and
    delete_block. *)
Theorem C120_unrestricted : forall max ps ba cfgs disks s0 t s, (1 <= ba)%nat -> setup cfgs disks s0 ->
  history max ps ba (begin max s0) t s -> follows (length cfgs) t ->
  (forall q', LioModel.step max false ps (a_q s) q' ->
    (exists i, added q' = i :: added (a_q s)) \/
    (exists l1 i l2, LioModel.infl (a_q s) = l1 ++ i :: l2 /\ LioModel.infl q' = l1 ++ l2) \/
    exists ho s', astep max ps ba s ho s' /\ a_q s' = q') /\
  (forall i a, In i (LioModel.infl (a_q s)) -> exists e s', astep max ps ba s (Some (KEnd i a e)) s') /\
  (forall j b c i e, nth_error (mc_held (a_client s)) j = Some b -> e = ERead b \/ (exists d, e = EWrite b d) ->
    LioModel.lock (a_q s) = false -> ~ In i (added (a_q s)) -> exists s', astep max ps ba s (Some (KPost c i e)) s') /\
  (forall o, StoreQModel.is_call o = true -> allowed (length cfgs) (as_store s) o -> exists e s', astep max ps ba s (Some (KCall o e)) s').
Proof.
  intros max ps ba cfgs disks s0 t s Hb Su H F. pose proof (inv_history _ _ _ _ _ _ H) as V.
  pose proof (prefix_sinv _ _ _ _ _ _ _ _ Hb Su H F) as Si.
  pose proof (LioProofs.inv_reach _ _ _ (i_reach _ _ _ _ V)) as L1.
  assert (Fly : forall i, flying (a_q s) i -> exists k x, nth_error (a_fly s) k = Some (i, x)).
  { intros i Fl. destruct (i_has _ _ _ _ V _ Fl) as (x & I). apply In_nth_error in I. destruct I as (k & E). eauto. }
  csplit.
  - intros q' T. destruct (AioXferProofs.step_kind _ _ _ _ L1 T) as [K _ _|i K1 K2 K3 K4 K5|l1 i l2 K1 K2 K3 K4 K5|i K1 K2 K3 K4 K5].
    + right. right. eexists. eexists. split; [eapply AQuiet; eauto|reflexivity].
    + left. eauto.
    + right. left. eauto.
    + right. right. destruct (Fly i) as (k & x & Ek); [left; auto|]. eexists. eexists. split; [eapply AErased; eauto|reflexivity].
  - intros i a I. destruct (Fly i) as (k & x & Ek); [right; right; auto|].
    assert (Exx : nth_error (map snd (a_fly s)) k = Some x) by (rewrite (map_nth_error snd _ _ Ek); auto).
    assert (Al : allowed (length cfgs) (as_store s) (SServe a k)) by (cbn; apply nth_error_Some; congruence).
    destruct (step_serve ba cfgs _ _ a k Si Al) as (s1 & e & E & _). apply in_split in I. destruct I as (l1 & l2 & El).
    exists e. eexists. eapply AEnd; eauto.
    + apply (LioModel.S_kernel max false ps (a_q s) l1 i l2); auto. apply (LioProofs.I_crash _ _ L1).
    + reflexivity.
  - intros j b c i e Ei He Lk Ni.
    assert (So : exists o s1, store_step ba (as_store s) o = Some (s1, e)).
    { destruct He as [->|(d & ->)]; [exists (SRead j)|exists (SWrite j d)]; eexists; cbn; rewrite Ei; reflexivity. }
    destruct So as (o & s1 & So).
    assert (Rx : exists x, request_of e = Some x) by (destruct He as [->|(d & ->)]; cbn; eauto).
    destruct Rx as (x & Rx). eexists. eapply APost; eauto.
    + apply (LioModel.S_add max false ps (a_q s) i); auto. apply (LioProofs.I_crash _ _ L1).
    + reflexivity.
  - intros o Ic Al. destruct (step_any ba cfgs _ _ o Hb Si Al) as (s1 & e & E & _). exists e. eexists. eapply ACall; eauto.
Qed.
Print Assumptions C120_unrestricted.
