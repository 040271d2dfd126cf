(** C116: clients that wait see a sequential machine on top of the request queues. *)

From Coq Require Import ZArith List Bool Lia.
From Verif Require Import WriterProofs QueueModel QueueSpec QueueProofs QueueLife QueueTrace QueueProps QueueProps2 QueueRun.
From Verif Require Import XferModel XferSpec XferProofs.
From Verif Require AsyncModel AsyncSpec AsyncProofs AsyncProps.
Import ListNotations.

(** The queues of all disks together, with any scheduling, transfer bytes as AsyncModel says. *)
Theorem C116_refines : forall ks n w t s, history ks (begin n w) t s ->
  exists x, AsyncModel.run (AsyncModel.MkS w []) (views t) x /\ forall l, AsyncModel.s_val x l = g_val s l.
Proof.
  intros ks n w t s H. destruct (inv_history ks n w t s H) as (x & V). exists x. split.
  - apply (v_run _ _ _ _ _ _ V).
  - rewrite (v_val _ _ _ _ _ _ V). auto.
Qed.
Print Assumptions C116_refines.

Lemma landed : forall k n q r e, qreachable k n q -> In e (st_log q) -> (e = EReady r \/ e = EDone r) -> ~ flying (loc r (st_log q)).
Proof.
  intros k n q r e R I H F. pose proof (linv_reachable _ _ _ R) as L.
  assert (A : about r e = true) by (destruct H as [->| ->]; cbn; apply Nat.eqb_refl).
  destruct (in_word k q r e _ L eq_refl A I) as (l & W & J).
  destruct (loc r (st_log q)); cbn in F; try tauto; words W; cbn in J; destruct H as [->| ->]; intuition discriminate.
Qed.

Lemma told_landed : forall ks n w t s x c d r, inv ks n w t s x -> told c t d r -> ~ flying (loc r (st_log (g_q s d))).
Proof.
  intros ks n w t s x c d r V H. pose proof (v_reach _ _ _ _ _ _ V d) as R.
  assert (Sp : forall e, In (HQueue d e) t -> exists l1 l2, trace (g_q s d) = l1 ++ e :: l2).
  { intros e I. apply (v_log _ _ _ _ _ _ V) in I. rewrite <- in_trace in I. apply in_split in I. exact I. }
  assert (Tr : forall e l1 e' l2, trace (g_q s d) = l1 ++ e' :: l2 -> In e l1 -> In e (st_log (g_q s d))).
  { intros e l1 e' l2 E I. rewrite <- in_trace, E. apply in_app_iff. auto. }
  destruct H as [(rs & I & J)|[(rs & I)|[(rs & sp & I)|(rs & bs & m & i & I & J1 & J2)]]]; destruct (Sp _ I) as (l1 & l2 & E).
  - apply (landed _ _ _ r _ R (Tr _ _ _ _ E (C26_wait_all_waits _ _ _ _ _ _ _ r R E J))). auto.
  - destruct (C26_wait_all_throws_first _ _ _ _ _ _ _ _ R E) as (Co & _). apply (landed _ _ _ r _ R (Tr _ _ _ _ E Co)). auto.
  - destruct (C25_returns_finished_request _ _ _ _ _ _ _ _ _ R E) as (_ & Co & _). apply (landed _ _ _ r _ R (Tr _ _ _ _ E Co)). auto.
  - destruct (C20_true_means_never_transferred _ _ _ _ _ _ _ _ _ _ _ R E J1 J2) as (_ & Co & _).
    apply (landed _ _ _ r _ R (Tr _ _ _ _ E Co)). auto.
Qed.

(** Requests under way are posted, and nobody was told their end. *)
Lemma under_way : forall ks n w t s x c i q, inv ks n w t s x -> In (c, i, q) (AsyncSpec.pending [] (views t)) ->
  exists d r, i = number d r /\ In (HPost d c r q) t /\ forall c', ~ told c' t d r.
Proof.
  intros ks n w t s x c i q V I. rewrite <- (v_pend _ _ _ _ _ _ V) in I. unfold AsyncProofs.pend in I. apply in_map_iff in I.
  destruct I as (e & E & Ie). unfold AsyncProofs.tag in E. inversion E; subst. destruct (v_fits _ _ _ _ _ _ V e Ie) as (d & r & X1 & X2 & X3 & _).
  exists d, r. csplit; auto; [apply (v_par _ _ _ _ _ _ V); auto|]. intros c' H. exact (told_landed _ _ _ _ _ _ _ _ _ V H X3).
Qed.

Lemma mine_pending : forall c i q tr, In (c, i, q) (AsyncSpec.pending [] (AsyncSpec.part c tr)) -> In (c, i, q) (AsyncSpec.pending [] tr).
Proof.
  intros c i q tr H. change (@nil AsyncSpec.posted) with (filter (AsyncProofs.mine c) []) in H at 1.
  rewrite AsyncProofs.pending_part in H. apply filter_In in H. apply H.
Qed.

Lemma history_prefix : forall ks s0 t s, history ks s0 t s -> forall u v, t = u ++ v -> exists s1, history ks s0 u s1.
Proof.
  intros ks s0 t s H. induction H as [|t s s' H IH St|t s h s' H IH St]; intros u v E.
  - destruct u; [|discriminate]. exists s0. constructor.
  - eauto.
  - destruct v as [|y v] using rev_ind.
    + rewrite app_nil_r in E. subst u. exists s'. eapply HsSome; eauto.
    + clear IHv. rewrite app_assoc in E. apply app_inj_tail in E. destruct E as (E & _). eauto.
Qed.

Lemma split_part : forall c t t1 l t2, AsyncSpec.part c (views t) = t1 ++ l :: t2 ->
  exists u h v, t = u ++ h :: v /\ view h = [l] /\ AsyncSpec.part c (views u) = t1 /\ AsyncSpec.client_of l = c.
Proof.
  intros c. induction t as [|h t IH]; intros t1 l t2 E; [destruct t1; discriminate|].
  cbn [views flat_map] in E. fold (views t) in E. rewrite AsyncProofs.part_app in E.
  assert (V : (view h = [] \/ exists m, view h = [m])) by (destruct h as [| d0 c0 r0 []| | | |]; cbn; eauto).
  assert (St : forall p, AsyncSpec.part c (view h) = p -> AsyncSpec.part c (views t) = skipn (length p) (t1 ++ l :: t2) ->
    (exists p', t1 = p ++ p') ->
    exists u h0 v, h :: t = u ++ h0 :: v /\ view h0 = [l] /\ AsyncSpec.part c (views u) = t1 /\ AsyncSpec.client_of l = c).
  { intros p Ep Et (p' & ->). rewrite <- app_assoc, skipn_app, skipn_all, Nat.sub_diag in Et. cbn in Et.
    destruct (IH _ _ _ Et) as (u & h0 & v & A & B & C & D). exists (h :: u), h0, v. subst t. csplit; auto.
    cbn [views flat_map]. fold (views u). rewrite AsyncProofs.part_app, C, Ep. auto. }
  destruct V as [V|(m & V)]; rewrite V in E; cbn [AsyncSpec.part filter] in E.
  - apply (St []); cbn; auto; [rewrite V; reflexivity|]. exists t1. auto.
  - destruct (Nat.eqb_spec (AsyncSpec.client_of m) c) as [Q|D].
    + destruct t1 as [|y t1]; cbn in E; inversion E; subst.
      * exists [], h, t. csplit; auto.
      * apply (St [y]); cbn; auto; [rewrite V; cbn; rewrite Nat.eqb_refl; reflexivity|]. exists t1. auto.
    + apply (St []); cbn; auto; [|exists t1; auto]. rewrite V. cbn. apply Nat.eqb_neq in D. rewrite D. reflexivity.
Qed.

(** A client that waits is polite. *)
Lemma waits_polite : forall ks n w t s c, history ks (begin n w) t s -> waits c t -> AsyncSpec.polite (AsyncSpec.part c (views t)).
Proof.
  intros ks n w t s c H Wt t1 l t2 E. destruct (split_part _ _ _ _ _ E) as (u & h & v & Et & Eh & E1 & Ec).
  destruct (history_prefix _ _ _ _ H u (h :: v) Et) as (s1 & H1). destruct (inv_history _ _ _ _ _ H1) as (x & V).
  assert (K : forall d' i q, In (d', i, q) (AsyncSpec.pending [] t1) -> exists d r, In (HPost d c r q) u /\ ~ told c u d r).
  { intros d' i q I.
    assert (Hc : d' = c).
    { rewrite <- E1 in I. change (@nil AsyncSpec.posted) with (filter (AsyncProofs.mine c) []) in I at 1.
      rewrite AsyncProofs.pending_part in I. apply filter_In in I. destruct I as (_ & I). unfold AsyncProofs.mine in I.
      cbn in I. apply Nat.eqb_eq in I. auto. }
    subst d'. rewrite <- E1 in I. apply mine_pending in I. destruct (under_way _ _ _ _ _ _ _ _ _ V I) as (d & r & _ & A & B).
    exists d, r. split; auto. }
  specialize (Wt u h v Et).
  destruct h as [d c' r a|d c' r []|d c' r|d e|c' a v'|c' a v']; cbn in Eh; inversion Eh; subst l; cbn in *; auto; subst c';
    intros d' i q I; destruct (K d' i q I) as (d0 & r0 & K1 & K2); exact (Wt d0 r0 q K1 K2 eq_refl).
Qed.

(** Clients that wait for their own requests, on locations of their own, see a sequential
    machine, however the queues of the disks and the transfers are scheduled. *)
Theorem C116_waiting : forall (own : nat -> AsyncModel.loc -> Prop) ks n w t s,
  (forall c d m, own c m -> own d m -> c = d) ->
  history ks (begin n w) t s -> Forall (stays own) t -> (forall c, waits c t) ->
  forall c, exists w', AsyncSpec.seq_run [] w (AsyncSpec.part c (views t)) w' /\
    forall l, own c l -> (forall d r a, In (HPost d c r a) t -> told c t d r \/ ~ AsyncSpec.changes a l) -> g_val s l = w' l.
Proof.
  intros own ks n w t s D H F Wt c. destruct (inv_history _ _ _ _ _ H) as (x & V).
  assert (Fk : Forall (AsyncSpec.keeps_to own) (views t)).
  { unfold views. rewrite Forall_forall in *. intros l I. apply in_flat_map in I. destruct I as (h & I & J).
    specialize (F h I). destruct h as [d c' r a|d c' r []|d c' r|d e|c' a v'|c' a v']; cbn in *; try tauto; (destruct J as [J|J]; [|tauto]); subst l; cbn; auto. }
  destruct (AsyncProps.C115_clients own w (views t) x D (v_run _ _ _ _ _ _ V) Fk (fun c => waits_polite _ _ _ _ _ c H (Wt c)) c) as (w' & Q & A).
  exists w'. split; auto. intros l Ol Hl. rewrite <- (v_val _ _ _ _ _ _ V). apply A; auto.
  intros i q I Ch. apply mine_pending in I. destruct (under_way _ _ _ _ _ _ _ _ _ V I) as (d & r & _ & B & C).
  destruct (Hl d r q B) as [X|X]; [exact (C c X)|exact (X Ch)].
Qed.
Print Assumptions C116_waiting.

(** Who is told the end of a request can rely on it: it was transferred, has failed, or was
    cancelled; if the wait returned normally, it has not failed. *)
Lemma still_pending : forall c i q tr p, In (c, i, q) p ->
  ~ In (AsyncModel.Done c i) tr -> ~ In (AsyncModel.Fail c i) tr -> ~ In (AsyncModel.Cancel c i) tr -> In (c, i, q) (AsyncSpec.pending p tr).
Proof.
  intros c i q. induction tr as [|l tr IH]; intros p I A B C; auto. cbn [In] in *. cbn [AsyncSpec.pending fold_left].
  apply (IH (AsyncSpec.after p l)); try tauto.
  assert (K : forall c' i', (c', i') <> (c, i) -> In (c, i, q) (filter (fun x => negb (AsyncSpec.is_posted c' i' x)) p)).
  { intros c' i' N. apply filter_In. split; auto. unfold AsyncSpec.is_posted. cbn.
    destruct (Nat.eqb_spec c c') as [Q1|Q1]; destruct (Nat.eqb_spec i i') as [Q2|Q2]; auto; exfalso; congruence. }
  destruct l as [c' i' q'|c' a v|c' a v|c' i'|c' i'|c' i']; cbn [AsyncSpec.after]; auto.
  - apply in_app_iff. auto.
  - apply K. intros X. inversion X; subst. tauto.
  - apply K. intros X. inversion X; subst. tauto.
  - apply K. intros X. inversion X; subst. tauto.
Qed.

Lemma in_views : forall l t, In l (views t) <-> exists h, In h t /\ In l (view h).
Proof. intros. unfold views. apply in_flat_map. Qed.

Lemma failed_logged : forall ks s0 t s, history ks s0 t s -> forall d c r ok, In (HServed d c r ok) t -> In (EServe r ok) (st_log (g_q s d)).
Proof.
  intros ks s0 t s H. induction H as [|t s s' H IH St|t s h s' H IH St]; intros d c r ok I; [destruct I| |].
  - apply IH in I. inversion St; subst; cbn [g_q]; auto. eapply (log_put s d0 q' []); eauto.
  - apply in_snoc in I. destruct I as [I|I].
    + apply IH in I. inversion St; subst; cbn [g_q]; auto; eapply (log_put s _ q' [_]); eauto.
    + subst h. inversion St; subst. cbn [g_q]. rewrite put_same.
      match goal with E : st_log _ = _ |- _ => rewrite E end. left; auto.
Qed.

Theorem C116_told : forall ks n w t s c d r c0 a, history ks (begin n w) t s ->
  In (HPost d c0 r a) t -> told c t d r ->
  (In (HServed d c0 r true) t \/ In (HServed d c0 r false) t \/ In (HErased d c0 r) t) /\
  ((exists rs, In (HQueue d (EWaitRet c rs)) t /\ In r rs) \/ (exists rs sp, In (HQueue d (EAnyRet c rs (Some r) sp)) t) ->
   forall c', ~ In (HServed d c' r false) t).
Proof.
  intros ks n w t s c d r c0 a H P T. destruct (inv_history _ _ _ _ _ H) as (x & V). split.
  - assert (Pv : exists u v, views t = u ++ AsyncModel.Post c0 (number d r) a :: v).
    { apply in_split. apply in_views. exists (HPost d c0 r a). cbn. auto. }
    destruct Pv as (u & v & Ev).
    assert (Dn : forall l, In l v -> (l = AsyncModel.Done c0 (number d r) \/ l = AsyncModel.Fail c0 (number d r) \/ l = AsyncModel.Cancel c0 (number d r)) ->
      In (HServed d c0 r true) t \/ In (HServed d c0 r false) t \/ In (HErased d c0 r) t).
    { intros l I E. assert (I' : In l (views t)) by (rewrite Ev; apply in_app_iff; right; right; auto).
      apply in_views in I'. destruct I' as (h & Ih & Il).
      destruct h as [d' c' r' a'|d' c' r' []|d' c' r'|d' e|c' a' v'|c' a' v']; cbn in Il; try tauto; (destruct Il as [Il|[]]); subst l;
        destruct E as [E|[E|E]]; try discriminate; inversion E as [[E1 E2]]; apply number_inj in E2; destruct E2 as (-> & ->); subst c'; auto. }
    assert (Dec : forall l (tr : list AsyncModel.label), {In l tr} + {~ In l tr}).
    { assert (Rd : forall q q' : AsyncModel.req, {q = q'} + {q <> q'}) by (decide equality; try apply Z.eq_dec; try apply Nat.eq_dec; apply bool_dec).
      intros. apply in_dec. decide equality; try apply Nat.eq_dec; apply Z.eq_dec. }
    destruct (Dec (AsyncModel.Done c0 (number d r)) v) as [X|X1]; [eapply Dn; eauto|].
    destruct (Dec (AsyncModel.Fail c0 (number d r)) v) as [X|X2]; [eapply Dn; eauto|].
    destruct (Dec (AsyncModel.Cancel c0 (number d r)) v) as [X|X3]; [eapply Dn; eauto|].
    exfalso.
    assert (I : In (c0, number d r, a) (AsyncSpec.pending [] (views t))).
    { rewrite Ev. unfold AsyncSpec.pending. rewrite fold_left_app. cbn [fold_left]. apply still_pending; auto.
      cbn [AsyncSpec.after]. apply in_app_iff. right. left. auto. }
    destruct (under_way _ _ _ _ _ _ _ _ _ V I) as (d' & r' & E & _ & N). apply number_inj in E. destruct E as (<- & <-).
    exact (N c T).
  - intros K c' I. apply (failed_logged _ _ _ _ H) in I.
    assert (R : qreachable (ks d) n (g_q s d)) by apply (v_reach _ _ _ _ _ _ V).
    assert (Sp : forall e, In (HQueue d e) t -> exists l1 l2, trace (g_q s d) = l1 ++ e :: l2).
    { intros e J. apply (v_log _ _ _ _ _ _ V) in J. rewrite <- in_trace in J. apply in_split in J. exact J. }
    assert (G : ~ failed r (trace (g_q s d))).
    { destruct K as [(rs & K & J)|(rs & sp & K)]; destruct (Sp _ K) as (l1 & l2 & E).
      - refine (C24_return_means_no_failure _ _ _ c rs r l1 l2 R _ _ (steps_refl _ _)). auto.
      - refine (C24_return_means_no_failure _ _ _ c rs r l1 l2 R _ _ (steps_refl _ _)). eauto. }
    apply G. unfold failed. rewrite in_trace. exact I.
Qed.
Print Assumptions C116_told.

(** The model restricts no queue: whatever step a queue could make, it makes, after finitely
    many bytes have been copied. *)
Lemma todo_range : forall s0 t s1, AsyncModel.run s0 t s1 ->
  (forall e k, In e (AsyncModel.s_fly s0) -> In k (AsyncModel.e_todo e) -> (0 <= k < AsyncModel.r_size (AsyncModel.e_req e))%Z) ->
  forall e k, In e (AsyncModel.s_fly s1) -> In k (AsyncModel.e_todo e) -> (0 <= k < AsyncModel.r_size (AsyncModel.e_req e))%Z.
Proof.
  assert (T : forall s0 l s1, AsyncModel.step s0 l s1 ->
    (forall e k, In e (AsyncModel.s_fly s0) -> In k (AsyncModel.e_todo e) -> (0 <= k < AsyncModel.r_size (AsyncModel.e_req e))%Z) ->
    forall e k, In e (AsyncModel.s_fly s1) -> In k (AsyncModel.e_todo e) -> (0 <= k < AsyncModel.r_size (AsyncModel.e_req e))%Z).
  { intros s0 l s1 St K e0 k I J.
    destruct St as [s0 c i r Fr|s0 c a v|s0 c a|s0 l1 e1 l2 j F Hj|s0 l1 e1 l2 F T|s0 l1 e1 l2 F|s0 l1 e1 l2 F T]; cbn [AsyncModel.s_fly] in *; eauto;
      try (eapply K; eauto; rewrite F; apply in_app_iff in I; apply in_app_iff; cbn; tauto).
    - apply in_app_iff in I. destruct I as [I|[<-|[]]]; eauto. apply AsyncProofs.in_offsets; auto.
    - apply in_app_iff in I. destruct I as [I|[<-|I]].
      + eapply K; eauto. rewrite F. apply in_app_iff. auto.
      + cbn [AsyncModel.e_todo AsyncModel.e_req] in *. apply filter_In in J. eapply K; [|apply J]. rewrite F. apply in_app_iff. cbn. auto.
      + eapply K; eauto. rewrite F. apply in_app_iff. cbn. auto. }
  intros s0 t s1 R0. induction R0; intros K; auto; apply IHR0; eapply T; eauto.
Qed.

Lemma copy_all : forall ks s0 t d r c a m s, history ks s0 t s -> st_wpc (g_q s d) = WServe r -> g_par s d r = Some (c, a) ->
  (length (g_todo s d) <= m)%nat -> (forall k, In k (g_todo s d) -> (0 <= k < AsyncModel.r_size a)%Z) ->
  exists s', history ks s0 t s' /\ g_q s' = g_q s /\ g_par s' = g_par s /\ g_todo s' d = [].
Proof.
  intros ks s0 t d r c a. induction m as [|m IH]; intros s H Wp P Le Rg.
  - exists s. csplit; auto. destruct (g_todo s d); auto. cbn in Le. lia.
  - destruct (g_todo s d) as [|k l] eqn:E; [exists s; auto|].
    pose proof (XMove ks s d r c a k Wp P (Rg k (or_introl eq_refl))) as St.
    pose proof (HsSilent _ _ _ _ _ H St) as H'.
    match type of H' with history _ _ _ ?y => destruct (IH y H') as (s' & A & B & C & D) end; auto.
    + cbn [g_todo]. rewrite put_same, E. cbn [filter]. rewrite Z.eqb_refl. cbn [negb].
      assert (X : forall (g : Z -> bool) l, (length (filter g l) <= length l)%nat).
      { intros g. induction l0 as [|y l0 IHl]; cbn; auto. destruct (g y); cbn; lia. }
      specialize (X (fun j => negb (Z.eqb j k)) l). cbn in Le. lia.
    + cbn [g_todo]. rewrite put_same. intros j J. apply filter_In in J. rewrite E in J. apply Rg. apply J.
    + exists s'. csplit; auto.
Qed.

Theorem C116_unrestricted : forall ks n w t s d q', history ks (begin n w) t s -> step (ks d) (g_q s d) q' ->
  exists t' s', history ks (begin n w) (t ++ t') s' /\ g_q s' d = q' /\ (forall e, e <> d -> g_q s' e = g_q s e) /\
    (length t' = 1%nat \/ t' = [] /\ st_log q' = st_log (g_q s d)).
Proof.
  intros ks n w t s d q' H T. destruct (inv_history _ _ _ _ _ H) as (x & V).
  pose proof (v_reach _ _ _ _ _ _ V d) as R.
  assert (R' : qreachable (ks d) n q') by (eapply steps_trans; eauto; apply R).
  assert (Par : forall r, loc r (st_log (g_q s d)) <> PNone -> exists c a, g_par s d r = Some (c, a)).
  { intros r N. destruct (g_par s d r) as [[c a]|] eqn:E; eauto. exfalso. apply N. apply (v_none _ _ _ _ _ _ V). auto. }
  assert (Fin : forall h s', xstep ks s (Some h) s' -> g_q s' = put d q' (g_q s) ->
    exists t' s', history ks (begin n w) (t ++ t') s' /\ g_q s' d = q' /\ (forall e, e <> d -> g_q s' e = g_q s e) /\
      (length t' = 1%nat \/ t' = [] /\ st_log q' = st_log (g_q s d))).
  { intros h s' St E. exists [h], s'. csplit; auto.
    - eapply HsSome; eauto.
    - rewrite E. apply put_same.
    - intros e N. rewrite E. apply put_other; auto. }
  destruct (one_event _ _ _ T) as [E|(e & E)].
  - pose proof (XQuiet ks s d q' T E) as St. exists []. rewrite app_nil_r. eexists. csplit; [eapply HsSilent; eauto| | |].
    + apply put_same.
    + intros e N. apply put_other; auto.
    + auto.
  - pose proof (fun r => good_reach _ _ _ r R') as G.
    assert (Gr : forall r, about r e = true -> adv e (loc r (st_log (g_q s d))) <> PBad).
    { intros r A. specialize (G r). rewrite E, loc_cons, A in G. exact G. }
    destruct (plain e) eqn:Pl; [eapply Fin; [eapply XOther; eauto|reflexivity]|].
    destruct e as [c r|r|r|c r|c r|r ok| | | | | | | | | | | | | | | | |]; cbn in Pl; try discriminate;
      pose proof (Gr r (Nat.eqb_refl r)) as Gq.
    + destruct (nth_error (st_reqs q') r) as [o|] eqn:Eo.
      * eapply Fin; [eapply (XPost ks s d q' c r (AsyncModel.MkR (match q_op o with Write => true | Read => false end) 0 0 0 0) o); eauto;
          unfold op_of; cbn; destruct (q_op o); reflexivity|reflexivity].
      * exfalso. apply (l_dom _ _ (linv_reachable _ _ _ R')) in Eo. rewrite E, loc_cons in Eo. cbn [about] in Eo.
        rewrite Nat.eqb_refl in Eo. destruct (loc r (st_log (g_q s d))) as [|c0| | |c0|o0 st|o0|]; cbn in *; try congruence. destruct st; congruence.
    + destruct (Par r) as (c & a & P); [intros N; rewrite N in Gq; cbn in Gq; congruence|].
      eapply Fin; [eapply XPop; eauto|reflexivity].
    + destruct (Par r) as (c' & a & P); [intros N; rewrite N in Gq; cbn in Gq; congruence|].
      eapply Fin; [eapply XErased; eauto|reflexivity].
    + destruct (Par r) as (c & a & P); [intros N; rewrite N in Gq; cbn in Gq; congruence|].
      assert (L0 : loc r (st_log (g_q s d)) = PServe).
      { destruct (loc r (st_log (g_q s d))) as [|c0| | |c0|o0 st|o0|]; cbn in Gq; try congruence. destruct st; congruence. }
      pose proof (proj1 (serving _ _ _ _ R) L0) as Wp.
      assert (Rg : forall k, In k (g_todo s d) -> (0 <= k < AsyncModel.r_size a)%Z).
      { intros k I. destruct (v_has _ _ _ _ _ _ V d r) as (e & Ie & Eid); [rewrite L0; exact Logic.I|].
        destruct (v_fits _ _ _ _ _ _ V e Ie) as (d' & r' & X1 & X2 & X3 & X4). rewrite Eid in X1. apply number_inj in X1.
        destruct X1 as (<- & <-). rewrite P in X2. inversion X2; subst c a. rewrite L0 in X4. rewrite <- X4 in I.
        eapply (todo_range _ _ _ (v_run _ _ _ _ _ _ V)); eauto. cbn. intros ? ? []. }
      destruct (copy_all ks _ t d r c a _ s H Wp P (le_n _) Rg) as (s1 & H1 & A1 & A2 & A3).
      rewrite <- A1 in T, E. rewrite <- A2 in P.
      pose proof (XServed ks s1 d q' r ok c a T E P (fun _ => A3)) as St.
      exists [HServed d c r ok]. eexists. csplit; [eapply HsSome; eauto| | |auto].
      * apply put_same.
      * intros e N. cbn [g_q]. rewrite put_other by auto. rewrite A1. auto.
Qed.
Print Assumptions C116_unrestricted.

(** A concrete schedule: moves of the queues, copied bytes, and accesses to memory. *)
Inductive xmove :=
| MQ (d : nat) (m : move) (a : AsyncModel.req)
| MB (d : nat) (k : Z)
| MPoke (c : nat) (a v : Z)
| MPeek (c : nat) (a : Z).

Definition zrange (k n : Z) : bool := ((0 <=? k) && (k <? n))%Z.
Definition same_op (o p : rw) : bool := match o, p with Read, Read | Write, Write => true | _, _ => false end.

Definition xexec (ks : nat -> kind) (m : xmove) (s : world) : option (list happening * world) :=
  match m with
  | MQ d m a =>
      match exec (ks d) m (g_q s d) with
      | None => None
      | Some q' =>
          if Nat.eqb (length (st_log q')) (length (st_log (g_q s d)))
          then Some ([], MkW (put d q' (g_q s)) (g_par s) (g_todo s) (g_val s))
          else match st_log q' with
          | [] => None
          | ECreate c r :: _ =>
              match nth_error (st_reqs q') r with
              | Some o => if same_op (q_op o) (op_of a) then
                  Some ([HPost d c r a], MkW (put d q' (g_q s)) (put d (put r (Some (c, a)) (g_par s d)) (g_par s)) (g_todo s) (g_val s))
                  else None
              | None => None
              end
          | EPop r :: _ =>
              match g_par s d r with
              | Some (c, a) => Some ([HQueue d (EPop r)],
                  MkW (put d q' (g_q s)) (g_par s) (put d (AsyncModel.offsets (AsyncModel.r_size a)) (g_todo s)) (g_val s))
              | None => None
              end
          | EServe r ok :: _ =>
              match g_par s d r with
              | Some (c, a) => if negb ok || match g_todo s d with [] => true | _ => false end
                  then Some ([HServed d c r ok], MkW (put d q' (g_q s)) (g_par s) (g_todo s) (g_val s)) else None
              | None => None
              end
          | EErase c' r :: _ =>
              match g_par s d r with
              | Some (c, a) => Some ([HErased d c r], MkW (put d q' (g_q s)) (g_par s) (g_todo s) (g_val s))
              | None => None
              end
          | e :: _ => Some ([HQueue d e], MkW (put d q' (g_q s)) (g_par s) (g_todo s) (g_val s))
          end
      end
  | MB d k =>
      match st_wpc (g_q s d) with
      | WServe r =>
          match g_par s d r with
          | Some (c, a) => if zrange k (AsyncModel.r_size a) then
              Some ([], MkW (g_q s) (g_par s) (put d (filter (fun j => negb (Z.eqb j k)) (g_todo s d)) (g_todo s))
                (AsyncModel.upd (g_val s) (AsyncModel.dst a k) (g_val s (AsyncModel.src a k)))) else None
          | None => None
          end
      | _ => None
      end
  | MPoke c a v => Some ([HPoke c a v], MkW (g_q s) (g_par s) (g_todo s) (AsyncModel.upd (g_val s) (AsyncModel.Mem a) v))
  | MPeek c a => Some ([HPeek c a (g_val s (AsyncModel.Mem a))], s)
  end.

Lemma xexec_ok : forall ks m s h s', xexec ks m s = Some (h, s') ->
  (h = [] /\ xstep ks s None s') \/ exists x, h = [x] /\ xstep ks s (Some x) s'.
Proof.
  intros ks m s h s' H. destruct m as [d m a|d k|c a v|c a]; cbn [xexec] in H.
  - destruct (exec (ks d) m (g_q s d)) as [q'|] eqn:X; [|discriminate]. apply exec_ok in X.
    destruct (Nat.eqb_spec (length (st_log q')) (length (st_log (g_q s d)))) as [Q|D].
    + inversion H; subst. left. split; auto. apply XQuiet; auto.
      destruct (one_event _ _ _ X) as [E|(e & E)]; auto. rewrite E in Q. cbn in Q. lia.
    + destruct (one_event _ _ _ X) as [E|(e & E)]; [congruence|]. rewrite E in H. right.
      destruct e; try (inversion H; subst; eexists; split; [reflexivity|]; eapply XOther; eauto; fail).
      * destruct (nth_error (st_reqs q') r) as [o|] eqn:Eo; [|discriminate].
        destruct (same_op (q_op o) (op_of a)) eqn:So; [|discriminate]. inversion H; subst. eexists; split; [reflexivity|].
        eapply XPost; eauto. destruct (q_op o), (op_of a); cbn in So; congruence.
      * destruct (g_par s d r) as [[c a']|] eqn:P; [|discriminate]. inversion H; subst. eexists; split; [reflexivity|]. eapply XPop; eauto.
      * destruct (g_par s d r) as [[c' a']|] eqn:P; [|discriminate]. inversion H; subst. eexists; split; [reflexivity|]. eapply XErased; eauto.
      * destruct (g_par s d r) as [[c a']|] eqn:P; [|discriminate].
        destruct (negb ok || match g_todo s d with [] => true | _ => false end)%bool eqn:B; [|discriminate].
        inversion H; subst. eexists; split; [reflexivity|]. eapply XServed; eauto. intros ->. cbn in B.
        destruct (g_todo s d); auto. discriminate.
  - destruct (st_wpc (g_q s d)) eqn:Wp; try discriminate. destruct (g_par s d r) as [[c a']|] eqn:P; [|discriminate].
    destruct (zrange k (AsyncModel.r_size a')) eqn:Z; [|discriminate]. inversion H; subst. left. split; auto. eapply XMove; eauto.
    unfold zrange in Z. apply andb_true_iff in Z. destruct Z as (Z1 & Z2). apply Z.leb_le in Z1. apply Z.ltb_lt in Z2. lia.
  - inversion H; subst. right. eexists; split; [reflexivity|]. apply XPoke.
  - inversion H; subst. right. eexists; split; [reflexivity|]. apply XPeek.
Qed.

Fixpoint xrun (ks : nat -> kind) (ms : list xmove) (t : list happening) (s : world) : option (list happening * world) :=
  match ms with
  | [] => Some (t, s)
  | m :: ms' => match xexec ks m s with Some (h, s') => xrun ks ms' (t ++ h) s' | None => None end
  end.
Lemma xrun_ok : forall ks s0 ms t s t' s', history ks s0 t s -> xrun ks ms t s = Some (t', s') -> history ks s0 t' s'.
Proof.
  intros ks s0. induction ms as [|m ms IH]; intros t s t' s' H E; cbn in E; [inversion E; subst; auto|].
  destruct (xexec ks m s) as [[h s1]|] eqn:X; [|discriminate]. destruct (xexec_ok _ _ _ _ _ X) as [(-> & St)|(y & -> & St)].
  - rewrite app_nil_r in E. eapply IH; [|exact E]. eapply HsSilent; eauto.
  - eapply IH; [|exact E]. eapply HsSome; eauto.
Qed.

(** Client 0 writes two bytes to disk 0, waits, changes the buffer and reads them back; client 1
    reads from disk 1 meanwhile and cancels a second request. *)
Definition wr0 := AsyncModel.MkR true 0 0 100 2.
Definition rd0 := AsyncModel.MkR false 0 0 200 2.
Definition rd1 := AsyncModel.MkR false 1 8 300 1.
Definition wr1 := AsyncModel.MkR true 1 20 400 1.
Definition q0 (l : list move) : list xmove := map (fun m => MQ 0 m wr0) l.
Definition q0r (l : list move) : list xmove := map (fun m => MQ 0 m rd0) l.
Definition q1 (l : list move) : list xmove := map (fun m => MQ 1 m rd1) l.
Definition q1w (l : list move) : list xmove := map (fun m => MQ 1 m wr1) l.
Definition ex_moves : list xmove :=
  [MPoke 0 100 7; MPoke 0 101 8] ++ q0 (submit 0 Write false) ++ q1 (submit 1 Read true) ++ q1 (Ws 6) ++
  q1w (submit 1 Write false) ++ q0 (Ws 2) ++ [MB 0 1; MB 1 0; MB 0 1; MB 0 0] ++ q0 (WaitAll 0 [0] :: Ws 6) ++
  q1 (QueueRun.Cancel 1 [1] :: Cs 1 10) ++ q1 (Ws 6) ++ q0 (Cs 0 2) ++ [MPoke 0 100 1] ++
  q0r (submit 0 Read false) ++ q1 (WaitAny 1 [0] :: Cs 1 2) ++ [MPeek 1 300] ++ q0 (Ws 3) ++ [MB 0 0; MB 0 1] ++
  q0 (WaitAll 0 [1] :: Ws 6 ++ Cs 0 2) ++ [MPeek 0 200; MPeek 0 201].
Definition ex_w0 (l : AsyncModel.loc) : Z := match l with AsyncModel.Disk 1 8 => 9%Z | _ => 0%Z end.
Definition ex_ks (d : nat) : kind := match d with O => OneQ | _ => QwQr PWrite end.
Definition ex_t : list happening :=
  [HPoke 0 100 7; HPoke 0 101 8; HPost 0 0 0 wr0; HQueue 0 (EPush 0); HPost 1 1 0 rd1; HQueue 1 (EPush 0);
   HQueue 1 (EPop 0); HPost 1 1 1 wr1; HQueue 1 (EPush 1); HQueue 0 (EPop 0); HServed 0 0 0 true; HQueue 0 (EDone 0);
   HQueue 0 (ENoHandler 0); HQueue 0 (ENotify 0 false); HQueue 0 (ERelease 0); HQueue 0 (EReady 0);
   HErased 1 1 1; HQueue 1 (ETook 1 1); HQueue 1 (EDone 1); HQueue 1 (ENoHandler 1); HQueue 1 (ENotify 1 false);
   HQueue 1 (ERelease 1); HQueue 1 (EReady 1); HQueue 1 (ECancelRet 1 [1] [true] 1); HServed 1 1 0 true;
   HQueue 1 (EDone 0); HQueue 1 (EHandler 0 true); HQueue 1 (ENotify 0 false); HQueue 1 (ERelease 0);
   HQueue 1 (EReady 0); HQueue 0 (EWaitRet 0 [0]); HPoke 0 100 1; HPost 0 0 1 rd0; HQueue 0 (EPush 1);
   HQueue 1 (EAnyRet 1 [0] (Some 0) false); HPeek 1 300 9; HQueue 0 (EPop 1); HServed 0 0 1 true;
   HQueue 0 (EDone 1); HQueue 0 (ENoHandler 1); HQueue 0 (ENotify 1 false); HQueue 0 (ERelease 1);
   HQueue 0 (EReady 1); HQueue 0 (EWaitRet 0 [1]); HPeek 0 200 7; HPeek 0 201 8].
Definition ex_own (c : nat) (l : AsyncModel.loc) : Prop :=
  match l with AsyncModel.Mem a => if (a <? 300)%Z then c = 0%nat else c = 1%nat | AsyncModel.Disk f _ => c = f end.

Definition minds (c : nat) (t1 : list happening) (h : happening) : Prop :=
  forall d r a, In (HPost d c r a) t1 -> ~ told c t1 d r ->
  match h with
  | HPost _ c' _ b => c' = c -> ~ AsyncSpec.conflict b a
  | HPoke c' m _ => c' = c -> ~ AsyncSpec.uses a (AsyncModel.Mem m)
  | HPeek c' m _ => c' = c -> ~ AsyncSpec.changes a (AsyncModel.Mem m)
  | _ => True
  end.
Fixpoint waits_from (c : nat) (t1 t : list happening) : Prop :=
  match t with [] => True | h :: t' => minds c t1 h /\ waits_from c (t1 ++ [h]) t' end.
Lemma waits_from_ok : forall c t t1, waits_from c t1 t -> forall u h v, t = u ++ h :: v -> minds c (t1 ++ u) h.
Proof.
  intros c. induction t as [|x t IH]; intros t1 H u h v E; [destruct u; discriminate|]. destruct H as (H & H2).
  destruct u as [|y u]; inversion E; subst; [rewrite app_nil_r; auto|].
  specialize (IH _ H2 u h v eq_refl). rewrite <- app_assoc in IH. exact IH.
Qed.

Ltac apart := unfold AsyncSpec.conflict, AsyncSpec.uses, AsyncSpec.changes; intros X;
  unfold AsyncModel.src, AsyncModel.dst, wr0, rd0, rd1, wr1 in X;
  cbn [AsyncModel.r_size AsyncModel.r_write AsyncModel.r_file AsyncModel.r_off AsyncModel.r_buf] in X;
  repeat match goal with H : exists _, _ |- _ => destruct H | H : _ /\ _ |- _ => destruct H | H : _ \/ _ |- _ => destruct H end; subst;
  try discriminate; repeat match goal with H : @eq AsyncModel.loc _ _ |- _ => first [apply AsyncProps.mem_inj in H|apply AsyncProps.disk_inj in H; destruct H] end; try lia.

Example C116_case : (exists s, history ex_ks (begin 2 ex_w0) ex_t s) /\
  (forall c d m, ex_own c m -> ex_own d m -> c = d) /\ Forall (stays ex_own) ex_t /\ (forall c, waits c ex_t) /\
  told 0 ex_t 0 1 /\ told 1 ex_t 1 1 /\ told 1 ex_t 1 0.
Proof.
  split.
  { assert (E : match xrun ex_ks ex_moves [] (begin 2 ex_w0) with Some (t, _) => t = ex_t | None => False end) by (vm_compute; reflexivity).
    destruct (xrun ex_ks ex_moves [] (begin 2 ex_w0)) as [[t s]|] eqn:X; [|destruct E]. exists s. rewrite <- E.
    eapply xrun_ok; [|exact X]. constructor. }
  split.
  { intros c d [a|f o] A B; cbn in *; [destruct (a <? 300)%Z|]; congruence. }
  split.
  { assert (M : forall c a, (if (a <? 300)%Z then c = 0%nat else c = 1%nat) -> ex_own c (AsyncModel.Mem a)) by auto.
    unfold ex_t. repeat (apply Forall_cons || apply Forall_nil); cbn [stays]; auto; try reflexivity;
    intros m (k & Hk & [-> | ->]); unfold AsyncModel.src, AsyncModel.dst, wr0, rd0, rd1, wr1 in *;
      cbn [AsyncModel.r_size AsyncModel.r_write AsyncModel.r_file AsyncModel.r_off AsyncModel.r_buf ex_own] in *; auto;
      match goal with |- context [(?x <? 300)%Z] => destruct (Z.ltb_spec x 300); lia end. }
  split.
  { intros c u h v E. apply (waits_from_ok c ex_t []) with (v := v); auto.
    assert (P : forall d r a t1, In (HPost d c r a) t1 -> True) by auto.
    unfold ex_t. cbn [waits_from app].
    repeat (split; [unfold minds; auto|]); auto; intros d r a I N E'; try (subst c); cbn in I; 
      repeat (destruct I as [I|I]; [try discriminate I; inversion I; subst|]); try destruct I; try (apart; fail);
      exfalso; apply N; unfold told;
      first [left; eexists; split; [cbn; auto 50; fail|left; reflexivity]
            |right; right; left; eexists; eexists; cbn; auto 60; fail
            |right; right; right; eexists; eexists; eexists; exists 0%nat; split; [cbn; auto 60; fail|split; reflexivity]]. }
  unfold told. csplit.
  - left. exists [1]. split; [cbn; auto 60|left; auto].
  - right; right; right. exists [1], [true], 1%nat, 0%nat. split; [cbn; auto 60|split; reflexivity].
  - right; right; left. exists [0], false. cbn. auto 60.
Qed.

(** Without waiting, the order of posting does not count: a client writes a byte, then reads it
    back, waits for both, and sees the old value. *)
Definition late_wr := AsyncModel.MkR true 0 0 100 1.
Definition late_rd := AsyncModel.MkR false 0 0 200 1.
Definition late_moves : list xmove :=
  [MPoke 0 100 7] ++ q1 (submit 0 Read false) ++ q1 (Ws 5) ++ q1 (QueueRun.Cancel 1 [0] :: Cs 1 3) ++
  map (fun m => MQ 1 m late_wr) (submit 0 Write false) ++ map (fun m => MQ 1 m late_rd) (submit 0 Read false) ++
  q1 (Cs 1 7) ++ q1 (Ws 1) ++ [MB 1 0] ++ q1 (Ws 9) ++ [MB 1 0] ++ q1 (Ws 6) ++ q1 (WaitAll 0 [1; 2] :: Cs 0 3) ++ [MPeek 0 200].

Theorem C116_posting_order_refuted : exists t s t2 t3 t4, history ex_ks (begin 2 (fun _ => 0%Z)) t s /\
  t = HPoke 0 100 7 :: t2 ++ HPost 1 0 1 late_wr :: t3 ++ HPost 1 0 2 late_rd :: t4 ++ HQueue 1 (EWaitRet 0 [1; 2]) :: [HPeek 0 200 0] /\
  (forall d c r b, In (HPost d c r b) t -> r <> 0%nat -> b = late_wr \/ b = late_rd) /\
  (forall c a v, In (HPoke c a v) t -> a = 100%Z /\ v = 7%Z) /\ In (HErased 1 0 0) t /\
  In (HServed 1 0 1 true) t /\ In (HServed 1 0 2 true) t.
Proof.
  assert (E : exists t, match xrun ex_ks late_moves [] (begin 2 (fun _ => 0%Z)) with Some (t', _) => t' = t | None => False end /\
    exists t2 t3 t4, t = HPoke 0 100 7 :: t2 ++ HPost 1 0 1 late_wr :: t3 ++ HPost 1 0 2 late_rd :: t4 ++ HQueue 1 (EWaitRet 0 [1; 2]) :: [HPeek 0 200 0] /\
      (forall d c r b, In (HPost d c r b) t -> r <> 0%nat -> b = late_wr \/ b = late_rd) /\
      (forall c a v, In (HPoke c a v) t -> a = 100%Z /\ v = 7%Z) /\ In (HErased 1 0 0) t /\
      In (HServed 1 0 1 true) t /\ In (HServed 1 0 2 true) t).
  { eexists. split; [vm_compute; reflexivity|].
    eexists [_; _; _]. eexists [_]. eexists (_ :: _ :: _ :: _ :: _ :: _ :: _ :: _ :: _ :: _ :: _ :: _ :: _ :: _ :: _ :: _ :: _ :: _ :: _ :: _ :: _ :: _ :: []).
    split; [vm_compute; reflexivity|]. split.
    { intros d c r b H N. cbn in H. repeat (destruct H as [H|H]; [try discriminate H; inversion H; subst; auto; tauto|]). destruct H. }
    split.
    { intros c a v H. cbn in H. repeat (destruct H as [H|H]; [try discriminate H; inversion H; subst; auto|]). destruct H. }
    cbn. csplit; auto 60. }
  destruct E as (t & E & t2 & t3 & t4 & H).
  destruct (xrun ex_ks late_moves [] (begin 2 (fun _ => 0%Z))) as [[t' s]|] eqn:X; [|destruct E]. subst t'.
  exists t, s, t2, t3, t4. split; auto. eapply xrun_ok; [|exact X]. constructor.
Qed.
Print Assumptions C116_posting_order_refuted.
