(** Buffered writer: every step preserves the invariant. *)

From Coq Require Import List Arith Bool ZArith Lia Permutation.
From Verif Require Import WriterModel WriterSpec WriterProofs.
Import ListNotations.

Section Steps.
Context {A : Type}.
Variables (n bs : nat) (disk0 : bid -> A).
Implicit Types s : wst A.
Implicit Types tr : list (wlabel A).

Ltac proj := cbn [w_n w_bs w_mem w_bids w_wreqs w_free w_busy w_batch w_reqs w_disk w_pc w_held
                  set_pc set_held post push_batch poll_hit return_buf flush_end] in *.

Lemma inv_tr : forall tr tr' s limbo, calls tr' = calls tr -> served tr' = served tr ->
  Inv n bs disk0 tr s limbo -> Inv n bs disk0 tr' s limbo.
Proof.
  intros * C S V. destruct V. constructor; auto.
  - rewrite C, S; auto.
  - rewrite S; auto.
Qed.

Lemma calls_snoc : forall tr l, calls (tr ++ [l]) = calls tr ++ calls [l].
Proof. intros; apply calls_app. Qed.
Lemma served_snoc : forall tr l, served (tr ++ [l]) = served tr ++ served [l].
Proof. intros; apply served_app. Qed.

(** Changing only the program counter. *)
Lemma inv_pc : forall tr s limbo pc,
  Inv n bs disk0 tr s limbo ->
  pcb pc = pcb (w_pc s) -> pcd (set_pc s pc) = pcd s ->
  (closing pc <-> closing (w_pc s)) ->
  (forall l, waited pc = Some l -> w_batch s = [] /\
     (forall b, In b (w_busy s) -> In b l \/ is_ready s b = Some true) /\ incl l (w_busy s)) ->
  (forall b d, pc = WPush b d -> length (w_batch s) < bs) ->
  Inv n bs disk0 tr (set_pc s pc) limbo.
Proof.
  intros * V P Q C W B. destruct V. constructor; proj; auto.
  - rewrite P; auto.
  - intros H; apply v_limbo. tauto.
  - rewrite Q; auto.
  - split; [apply v_batch|]. auto.
  - intros H; apply v_held; tauto.
Qed.

Lemma inv_post : forall tr s limbo z x rest,
  Inv n bs disk0 tr s limbo -> top_of (w_batch s) z x rest ->
  waited (w_pc s) = None -> (forall b d, w_pc s <> WPush b d) ->
  Inv n bs disk0 tr (post s x rest) limbo.
Proof.
  intros * V (l1 & l2 & E & -> & _) W NP.
  pose proof (inv_nodup _ _ _ _ _ _ V) as ND.
  assert (Nx : forall b, In b (w_busy s) -> b <> x).
  { intros b Hb ->. apply nodup_app_r in ND.
    apply (nodup_app_not _ _ _ ND Hb). apply in_or_app; left. rewrite E, map_app.
    apply in_or_app; cbn; auto. }
  constructor; proj.
  - apply (v_n _ _ _ _ _ _ V).
  - apply (v_bs _ _ _ _ _ _ V).
  - pose proof (v_bufs _ _ _ _ _ _ V) as P. rewrite E in P. rewrite <- P. clear. perm.
  - apply (v_limbo _ _ _ _ _ _ V).
  - intros i r H Hr. destruct (lt_dec i (length (w_reqs s))) as [Lt|Ge].
    + rewrite nth_error_app1 in H by auto.
      destruct (v_req _ _ _ _ _ _ V i r H Hr) as (B1 & B2). split.
      * apply in_or_app; auto.
      * rewrite updn_other; auto.
    + rewrite nth_error_app2 in H by lia.
      destruct (i - length (w_reqs s)) eqn:Z0; [|destruct n0; discriminate].
      cbn in H. inversion H; subst r. cbn. split; [apply in_or_app; cbn; auto|].
      rewrite updn_same. f_equal. lia.
  - intros b i H. destruct (Nat.eq_dec b x) as [->|N].
    + rewrite updn_same in H. inversion H; subst i.
      rewrite nth_error_app2, Nat.sub_diag by lia. cbn. eauto.
    + rewrite updn_other in H by auto.
      destruct (v_own _ _ _ _ _ _ V b i H) as (r & H1 & H2). exists r; split; auto.
      rewrite nth_error_app1; auto. apply nth_error_Some. congruence.
  - intros b H. destruct (Nat.eq_dec b x) as [->|N]; [rewrite updn_same; discriminate|].
    rewrite updn_other by auto. apply (v_busy _ _ _ _ _ _ V).
    apply in_app_or in H. destruct H as [H|[H|[]]]; auto. congruence.
  - eapply Permutation_trans; [apply (v_data _ _ _ _ _ _ V)|].
    apply Permutation_app_head. rewrite posted_app, E. unfold batch_of. rewrite !map_app. cbn.
    rewrite <- !app_assoc. apply Permutation_app_head. cbn.
    apply Permutation_sym. unfold pcd; proj. apply Permutation_cons_app; auto.
  - rewrite W; discriminate.
  - destruct (v_batch _ _ _ _ _ _ V) as (B & _). rewrite E, app_length in B. cbn in B.
    split; [rewrite app_length; lia|]. intros b d Hp; exfalso; eapply NP; eauto.
  - apply (v_held _ _ _ _ _ _ V).
  - apply (v_disk _ _ _ _ _ _ V).
Qed.

Lemma inv_push : forall tr s b d,
  Inv n bs disk0 tr s [] -> w_pc s = WPush b d ->
  Inv n bs disk0 tr (push_batch s b d) [].
Proof.
  intros * V E. pose proof (inv_nodup _ _ _ _ _ _ V) as ND.
  assert (Nb : ~ In b (map snd (w_batch s))).
  { intros H. do 2 apply nodup_app_r in ND. apply (nodup_app_not _ _ _ ND H).
    apply in_or_app; right. rewrite E. cbn; auto. }
  constructor; proj.
  - apply (v_n _ _ _ _ _ _ V).
  - apply (v_bs _ _ _ _ _ _ V).
  - pose proof (v_bufs _ _ _ _ _ _ V) as P. rewrite E in P. cbn in P. cbn.
    rewrite <- P. clear. perm.
  - auto.
  - apply (v_req _ _ _ _ _ _ V).
  - apply (v_own _ _ _ _ _ _ V).
  - apply (v_busy _ _ _ _ _ _ V).
  - eapply Permutation_trans; [apply (v_data _ _ _ _ _ _ V)|].
    apply Permutation_app_head, Permutation_app_head.
    cbn. rewrite updn_same. unfold pcd; proj. rewrite E.
    rewrite app_nil_r.
    fold (batch_of (w_mem s) (updn (w_bids s) b d) (w_batch s)).
    rewrite (batch_ext (w_mem s) (w_mem s) (w_bids s) (updn (w_bids s) b d)).
    + apply Permutation_sym, Permutation_cons_append.
    + intros b' H. split; auto. apply updn_other. intros ->; auto.
  - discriminate.
  - destruct (v_batch _ _ _ _ _ _ V) as (_ & B). specialize (B _ _ E). cbn.
    split; [lia|discriminate].
  - intros [].
  - apply (v_disk _ _ _ _ _ _ V).
Qed.

Lemma ready_mono_busy : forall s b i, is_ready s b = Some true -> w_wreqs s b = Some i -> ready s i = true.
Proof. unfold is_ready; intros s b i H E. rewrite E in H. congruence. Qed.

(** A busy buffer whose request is ready leaves the busy list. *)
Lemma req_after_remove : forall tr s limbo k b, Inv n bs disk0 tr s limbo ->
  nth_error (w_busy s) k = Some b -> is_ready s b = Some true ->
  forall i r, nth_error (w_reqs s) i = Some r -> r_ph r <> Ready ->
  In (r_buf r) (firstn k (w_busy s) ++ skipn (S k) (w_busy s)) /\ w_wreqs s (r_buf r) = Some i.
Proof.
  intros * V Hk Hr i r H P. destruct (v_req _ _ _ _ _ _ V i r H P) as (B1 & B2). split; auto.
  apply (Permutation_in _ (firstn_skipn_perm _ _ _ Hk)) in B1.
  destruct B1 as [B1|B1]; auto. exfalso. apply P.
  eapply inv_ready_idle; eauto.
Qed.

Lemma removed_in : forall (l : list nat) k b x, nth_error l k = Some b ->
  In x (firstn k l ++ skipn (S k) l) -> In x l.
Proof.
  intros l k b x H I. apply (Permutation_in _ (Permutation_sym (firstn_skipn_perm _ _ _ H))).
  cbn; auto.
Qed.

Lemma inv_poll_hit : forall tr s k b, Inv n bs disk0 tr s [] ->
  w_pc s = GPoll k -> nth_error (w_busy s) k = Some b -> is_ready s b = Some true ->
  Inv n bs disk0 tr (poll_hit s k b) [].
Proof.
  intros * V E Hk Hr. constructor; proj.
  - apply (v_n _ _ _ _ _ _ V).
  - apply (v_bs _ _ _ _ _ _ V).
  - pose proof (v_bufs _ _ _ _ _ _ V) as P. rewrite E in P. cbn [pcb] in *.
    pose proof (firstn_skipn_perm _ _ _ Hk) as Q. clear - P Q.
    set (r := firstn k (w_busy s) ++ skipn (S k) (w_busy s)) in *. clearbody r.
    rewrite <- P. clear P. perm.
  - auto.
  - eapply req_after_remove; eauto.
  - apply (v_own _ _ _ _ _ _ V).
  - intros x H. apply (v_busy _ _ _ _ _ _ V). eapply removed_in; eauto.
  - pose proof (v_data _ _ _ _ _ _ V) as P. unfold pcd in *. rewrite E in P. auto.
  - discriminate.
  - split; [apply (v_batch _ _ _ _ _ _ V)|discriminate].
  - intros [].
  - apply (v_disk _ _ _ _ _ _ V).
Qed.

Lemma inv_take_free : forall tr s l b, Inv n bs disk0 tr s [] ->
  w_pc s = GTake -> w_free s = l ++ [b] ->
  Inv n bs disk0 tr (return_buf s l (w_busy s) b) [].
Proof.
  intros * V E Hf. constructor; proj.
  - apply (v_n _ _ _ _ _ _ V).
  - apply (v_bs _ _ _ _ _ _ V).
  - pose proof (v_bufs _ _ _ _ _ _ V) as P. rewrite E, Hf in P. cbn [pcb] in *.
    rewrite <- P. clear. perm.
  - auto.
  - apply (v_req _ _ _ _ _ _ V).
  - apply (v_own _ _ _ _ _ _ V).
  - apply (v_busy _ _ _ _ _ _ V).
  - pose proof (v_data _ _ _ _ _ _ V) as P. unfold pcd in *. rewrite E in P. auto.
  - discriminate.
  - split; [apply (v_batch _ _ _ _ _ _ V)|discriminate].
  - intros [].
  - apply (v_disk _ _ _ _ _ _ V).
Qed.

Lemma inv_take_any : forall tr s k b, Inv n bs disk0 tr s [] ->
  w_pc s = GTake -> w_free s = [] -> nth_error (w_busy s) k = Some b ->
  is_ready s b = Some true ->
  Inv n bs disk0 tr (return_buf s [] (firstn k (w_busy s) ++ skipn (S k) (w_busy s)) b) [].
Proof.
  intros * V E Hf Hk Hr. constructor; proj.
  - apply (v_n _ _ _ _ _ _ V).
  - apply (v_bs _ _ _ _ _ _ V).
  - pose proof (v_bufs _ _ _ _ _ _ V) as P. rewrite E, Hf in P. cbn [pcb] in *.
    pose proof (firstn_skipn_perm _ _ _ Hk) as Q. clear - P Q.
    set (r := firstn k (w_busy s) ++ skipn (S k) (w_busy s)) in *. clearbody r.
    rewrite <- P. clear P. perm.
  - auto.
  - eapply req_after_remove; eauto.
  - apply (v_own _ _ _ _ _ _ V).
  - intros x H. apply (v_busy _ _ _ _ _ _ V). eapply removed_in; eauto.
  - pose proof (v_data _ _ _ _ _ _ V) as P. unfold pcd in *. rewrite E in P. auto.
  - discriminate.
  - split; [apply (v_batch _ _ _ _ _ _ V)|discriminate].
  - intros [].
  - apply (v_disk _ _ _ _ _ _ V).
Qed.

(** All requests are ready once flush() or the destructor have waited. *)
Lemma inv_all_ready : forall tr s limbo, Inv n bs disk0 tr s limbo -> waited (w_pc s) = Some [] ->
  forall r, In r (w_reqs s) -> r_ph r = Ready.
Proof.
  intros * V W r H. destruct (v_wait _ _ _ _ _ _ V [] W) as (_ & B & _).
  apply In_nth_error in H. destruct H as (i & H).
  destruct (r_ph r) eqn:P; auto; exfalso;
  (destruct (v_req _ _ _ _ _ _ V i r H) as (B1 & B2); [congruence|]);
  (destruct (B _ B1) as [[]|B3]);
  rewrite (inv_ready_idle _ _ _ _ _ _ _ _ _ V B3 H eq_refl) in P; discriminate.
Qed.

Lemma posted_none : forall (mem : nat -> A) l, (forall r, In r l -> r_ph r = Ready) -> posted_of mem l = [].
Proof.
  unfold posted_of. induction l; intros H; cbn; auto. rewrite H by (cbn; auto). cbn.
  apply IHl. intros; apply H; cbn; auto.
Qed.

Lemma inv_flush_end : forall tr s limbo, Inv n bs disk0 tr s limbo -> w_pc s = FWait [] ->
  Inv n bs disk0 tr (flush_end s) [].
Proof.
  intros * V E.
  assert (W : waited (w_pc s) = Some []) by (rewrite E; auto).
  pose proof (inv_all_ready _ _ _ V W) as AR.
  destruct (v_wait _ _ _ _ _ _ V [] W) as (Eb & _).
  assert (Eh : w_held s = []) by (apply (v_held _ _ _ _ _ _ V); rewrite E; cbn; auto).
  constructor; proj.
  - apply (v_n _ _ _ _ _ _ V).
  - apply (v_bs _ _ _ _ _ _ V).
  - rewrite Eb, Eh. cbn. rewrite app_nil_r. rewrite (v_n _ _ _ _ _ _ V). auto.
  - auto.
  - intros i r H P. exfalso. apply P, AR. eapply nth_error_In; eauto.
  - apply (v_own _ _ _ _ _ _ V).
  - intros b [].
  - pose proof (v_data _ _ _ _ _ _ V) as P. unfold pcd in *. rewrite E in P. auto.
  - discriminate.
  - split; [apply (v_batch _ _ _ _ _ _ V)|discriminate].
  - intros [].
  - apply (v_disk _ _ _ _ _ _ V).
Qed.

Lemma istep_inv : forall tr s limbo l s', Inv n bs disk0 tr s limbo -> istep s l s' ->
  exists limbo', Inv n bs disk0 (tr ++ [l]) s' limbo'.
Proof.
  intros tr s limbo l s' V H.
  assert (Tr : forall l', calls [l'] = [] -> served [l'] = [] ->
            calls (tr ++ [l']) = calls tr /\ served (tr ++ [l']) = served tr).
  { intros l' C S. rewrite calls_snoc, served_snoc, C, S, !app_nil_r. auto. }
  assert (T : calls (tr ++ [l]) = calls tr /\ served (tr ++ [l]) = served tr).
  { inversion H; subst; apply Tr; auto. }
  destruct T as (T1 & T2). clear Tr.
  assert (L0 : ~ closing (w_pc s) -> limbo = []) by apply (v_limbo _ _ _ _ _ _ V).
  inversion H; subst.
  - exists limbo. eapply inv_tr; eauto. eapply inv_post; eauto.
    + rewrite H0; auto.
    + intros; rewrite H0; discriminate.
  - exists limbo. eapply inv_tr; eauto. eapply inv_pc; eauto.
    + rewrite H0; auto.
    + unfold pcd; proj; rewrite H0; auto.
    + rewrite H0; cbn; tauto.
    + discriminate.
    + intros b' d' Q. rewrite H1. cbn. apply (v_bs _ _ _ _ _ _ V).
  - assert (limbo = []) by (apply L0; rewrite H0; auto). subst.
    exists []. eapply inv_tr; eauto. apply inv_push; auto.
  - assert (limbo = []) by (apply L0; rewrite H0; auto). subst.
    exists []. eapply inv_tr; eauto. apply inv_poll_hit; auto.
  - exists limbo. eapply inv_tr; eauto. eapply inv_pc; eauto.
    + rewrite H0; auto.
    + unfold pcd; proj; rewrite H0; auto.
    + rewrite H0; cbn; tauto.
    + discriminate.
    + discriminate.
  - exists limbo. eapply inv_tr; eauto. eapply inv_pc; eauto.
    + rewrite H0; auto.
    + unfold pcd; proj; rewrite H0; auto.
    + rewrite H0; cbn; tauto.
    + discriminate.
    + discriminate.
  - assert (limbo = []) by (apply L0; rewrite H0; auto). subst.
    exists []. eapply inv_tr; eauto. apply inv_take_free; auto.
  - assert (limbo = []) by (apply L0; rewrite H0; auto). subst.
    exists []. eapply inv_tr; eauto. apply inv_take_any; auto.
  - exists limbo. eapply inv_tr; eauto. eapply inv_post; eauto.
    + rewrite H0; auto.
    + intros; rewrite H0; discriminate.
  - exists limbo. eapply inv_tr; eauto. eapply inv_pc; eauto.
    + rewrite H0; auto.
    + unfold pcd; proj; rewrite H0; auto.
    + rewrite H0; cbn; tauto.
    + cbn. intros l Q; inversion Q; subst. csplit; auto. apply incl_refl.
    + discriminate.
  - exists limbo. eapply inv_tr; eauto. eapply inv_pc; eauto.
    + rewrite H0; auto.
    + unfold pcd; proj; rewrite H0; auto.
    + rewrite H0; cbn; tauto.
    + cbn. intros l' Q; inversion Q; subst.
      destruct (v_wait _ _ _ _ _ _ V (b :: l')) as (B1 & B2 & B3); [rewrite H0; auto|].
      csplit; auto; [|intros x Hx; apply B3; cbn; auto]. intros b' Hb'. destruct (B2 b' Hb') as [[->|B]|B]; auto.
    + discriminate.
  - exists []. eapply inv_tr; eauto. eapply inv_flush_end; eauto.
  - exists limbo. eapply inv_tr; eauto. eapply inv_post; eauto.
    + rewrite H0; auto.
    + intros; rewrite H0; discriminate.
  - exists limbo. eapply inv_tr; eauto. eapply inv_pc; eauto.
    + rewrite H0; auto.
    + unfold pcd; proj; rewrite H0; auto.
    + rewrite H0; cbn; tauto.
    + cbn. intros l Q; inversion Q; subst. csplit; auto. apply incl_refl.
    + discriminate.
  - exists limbo. eapply inv_tr; eauto. eapply inv_pc; eauto.
    + rewrite H0; auto.
    + unfold pcd; proj; rewrite H0; auto.
    + rewrite H0; cbn; tauto.
    + cbn. intros l' Q; inversion Q; subst.
      destruct (v_wait _ _ _ _ _ _ V (b :: l')) as (B1 & B2 & B3); [rewrite H0; auto|].
      csplit; auto; [|intros x Hx; apply B3; cbn; auto]. intros b' Hb'. destruct (B2 b' Hb') as [[->|B]|B]; auto.
    + discriminate.
  - exists limbo. eapply inv_tr; eauto. eapply inv_pc; eauto.
    + rewrite H0; auto.
    + unfold pcd; proj; rewrite H0; auto.
    + rewrite H0; cbn; tauto.
    + cbn. intros l Q; inversion Q; subst. apply (v_wait _ _ _ _ _ _ V []). rewrite H0; auto.
    + discriminate.
Qed.

(** Steps of the I/O layer. *)
Lemma is_ready_set : forall s i r ph b reqs' s',
  nth_error (w_reqs s) i = Some r -> r_ph r <> Ready ->
  reqs' = set_nth i (MkReq (r_buf r) (r_bid r) ph) (w_reqs s) ->
  w_reqs s' = reqs' -> w_wreqs s' = w_wreqs s ->
  is_ready s b = Some true -> is_ready s' b = Some true.
Proof.
  intros * H P -> E1 E2 R. unfold is_ready, ready in *. rewrite E1, E2.
  destruct (w_wreqs s b) as [j|]; [|discriminate].
  destruct (Nat.eq_dec j i) as [->|N].
  - exfalso. rewrite H in R. destruct (r_ph r); congruence.
  - rewrite set_nth_other; auto.
Qed.

Lemma estep_inv : forall tr s limbo l s', Inv n bs disk0 tr s limbo -> estep s l s' ->
  Inv n bs disk0 (tr ++ [l]) s' limbo.
Proof.
  intros tr s limbo l s' V H.
  assert (K : forall i r ph, nth_error (w_reqs s) i = Some r -> r_ph r <> Ready ->
     (forall j r', nth_error (set_nth i (MkReq (r_buf r) (r_bid r) ph) (w_reqs s)) j = Some r' ->
        r_ph r' <> Ready -> In (r_buf r') (w_busy s) /\ w_wreqs s (r_buf r') = Some j) /\
     (forall b j, w_wreqs s b = Some j ->
        exists r', nth_error (set_nth i (MkReq (r_buf r) (r_bid r) ph) (w_reqs s)) j = Some r' /\
                   r_buf r' = b)).
  { intros i r ph Hi P.
    assert (Li : i < length (w_reqs s)) by (apply nth_error_Some; congruence). split.
    - intros j r' Hj P'. destruct (Nat.eq_dec j i) as [->|N].
      + rewrite set_nth_same in Hj by auto. inversion Hj; subst r'. cbn.
        apply (v_req _ _ _ _ _ _ V i r Hi P).
      + rewrite set_nth_other in Hj by auto. apply (v_req _ _ _ _ _ _ V j r' Hj P').
    - intros b j Hj. destruct (v_own _ _ _ _ _ _ V b j Hj) as (r' & A1 & A2).
      destruct (Nat.eq_dec j i) as [->|N].
      + rewrite set_nth_same by auto. eexists; split; [reflexivity|]. cbn. congruence.
      + rewrite set_nth_other by auto. eauto. }
  inversion H; subst.
  - assert (P : r_ph r <> Ready) by congruence.
    destruct (K i r Served H0 P) as (K1 & K2).
    constructor; proj; try apply V; auto.
    + rewrite calls_snoc, served_snoc. cbn [calls served]. rewrite app_nil_r.
      eapply Permutation_trans; [apply (v_data _ _ _ _ _ _ V)|].
      rewrite <- app_assoc. apply Permutation_app_head.
      pose proof (posted_set (w_mem s) (w_reqs s) i r (MkReq (r_buf r) (r_bid r) Served) H0) as Q.
      rewrite H1 in Q. rewrite app_assoc.
      change (pcd (MkW (w_n s) (w_bs s) (w_mem s) (w_bids s) (w_wreqs s) (w_free s) (w_busy s)
           (w_batch s) (set_nth i (MkReq (r_buf r) (r_bid r) Served) (w_reqs s))
           (updb (w_disk s) (r_bid r) (w_mem s (r_buf r))) (w_pc s) (w_held s))) with (pcd s).
      rewrite (app_assoc [(r_bid r, w_mem s (r_buf r))]).
      rewrite !app_assoc. do 2 apply Permutation_app_tail. apply Q. discriminate.
    + intros l W. destruct (v_wait _ _ _ _ _ _ V l W) as (B1 & B2 & B3). csplit; auto.
      intros b Hb. destruct (B2 b Hb) as [B|B]; auto. right.
      eapply is_ready_set; eauto; reflexivity.
    + intros d. rewrite served_snoc. unfold disk_after. rewrite fold_left_app. cbn.
      unfold updb. rewrite (v_disk _ _ _ _ _ _ V d). auto.
  - assert (P : r_ph r <> Ready) by congruence.
    destruct (K i r Ready H0 P) as (K1 & K2).
    constructor; proj; try apply V; auto.
    + rewrite calls_snoc, served_snoc. cbn [calls served]. rewrite !app_nil_r.
      eapply Permutation_trans; [apply (v_data _ _ _ _ _ _ V)|].
      apply Permutation_app_head.
      pose proof (posted_set (w_mem s) (w_reqs s) i r (MkReq (r_buf r) (r_bid r) Ready) H0) as Q.
      rewrite H1 in Q. cbn [app] in Q.
      change (pcd (MkW (w_n s) (w_bs s) (w_mem s) (w_bids s) (w_wreqs s) (w_free s) (w_busy s)
           (w_batch s) (set_nth i (MkReq (r_buf r) (r_bid r) Ready) (w_reqs s))
           (w_disk s) (w_pc s) (w_held s))) with (pcd s).
      apply Permutation_app_tail. apply Q. discriminate.
    + intros l W. destruct (v_wait _ _ _ _ _ _ V l W) as (B1 & B2 & B3). csplit; auto.
      intros b Hb. destruct (B2 b Hb) as [B|B]; auto. right.
      eapply is_ready_set; eauto; reflexivity.
    + intros d. rewrite served_snoc. cbn. rewrite app_nil_r. apply (v_disk _ _ _ _ _ _ V).
Qed.

(** Steps of the caller. *)
Lemma cstep_inv : forall tr s limbo l s', Inv n bs disk0 tr s limbo -> cstep s l s' ->
  l <> LFlush true -> exists limbo', Inv n bs disk0 (tr ++ [l]) s' limbo'.
Proof.
  intros tr s limbo l s' V H NL.
  assert (Ei : w_pc s = Idle) by (inversion H; auto).
  assert (limbo = []) by (apply (v_limbo _ _ _ _ _ _ V); rewrite Ei; auto). subst limbo.
  pose proof (inv_nodup _ _ _ _ _ _ V) as ND.
  inversion H; subst.
  - exists []. eapply inv_tr; [rewrite calls_snoc; apply app_nil_r|
                               rewrite served_snoc; apply app_nil_r|].
    eapply inv_pc; eauto; try (rewrite Ei; cbn; tauto); try discriminate.
    unfold pcd; proj; rewrite Ei; auto.
  - assert (Nb : ~ In b (w_busy s)).
    { intros B. apply nodup_app_r in ND. apply (nodup_app_not _ _ _ ND B).
      apply in_or_app; right. apply in_or_app; auto. }
    assert (Nt : ~ In b (map snd (w_batch s))).
    { intros B. do 2 apply nodup_app_r in ND. apply (nodup_app_not _ _ _ ND B).
      apply in_or_app; auto. }
    exists []. eapply inv_tr; [rewrite calls_snoc; apply app_nil_r|
                               rewrite served_snoc; apply app_nil_r|].
    constructor; proj; try apply V; auto.
    + pose proof (v_bufs _ _ _ _ _ _ V) as P. rewrite Ei in P. auto.
    + pose proof (v_data _ _ _ _ _ _ V) as P. unfold pcd in *. rewrite Ei in P.
      proj. rewrite (posted_mem (w_mem s)), (batch_ext (w_mem s) _ (w_bids s)); auto.
      * intros b' Hb'. split; auto. apply updn_other. intros ->; auto.
      * intros r Hr Pr. apply updn_other. intros E. apply Nb. rewrite <- E.
        apply In_nth_error in Hr. destruct Hr as (i & Hr).
        apply (v_req _ _ _ _ _ _ V i r Hr). congruence.
    + discriminate.
    + split; [apply (v_batch _ _ _ _ _ _ V)|discriminate].
    + intros [].
  - exists [].
    destruct (v_batch _ _ _ _ _ _ V) as (B & _).
    destruct (v_bs _ _ _ _ _ _ V) as (Ebs & _).
    assert (Pb : pcb (enter_write s b d) = [b]).
    { unfold enter_write. destruct (w_bs s <=? length (w_batch s)); auto. }
    assert (Cb : ~ closing (enter_write s b d)).
    { unfold enter_write. destruct (w_bs s <=? length (w_batch s)); auto. }
    constructor; proj; try apply V; auto.
    + pose proof (v_bufs _ _ _ _ _ _ V) as P. rewrite Ei, H1 in P. cbn [pcb] in P.
      rewrite Pb. rewrite <- P. clear. perm.
    + rewrite calls_snoc, served_snoc. cbn [calls served]. rewrite app_nil_r.
      pose proof (v_data _ _ _ _ _ _ V) as P. unfold pcd in *. rewrite Ei in P.
      rewrite app_nil_r in P. proj.
      assert (Q : match enter_write s b d with
                  | WFlush b0 d0 => [(d0, w_mem s b0)]
                  | WPush b0 d0 => [(d0, w_mem s b0)]
                  | _ => [] end = [(d, w_mem s b)]).
      { unfold enter_write. destruct (w_bs s <=? length (w_batch s)); auto. }
      rewrite Q. rewrite !app_assoc. apply Permutation_app_tail.
      rewrite <- app_assoc. auto.
    + intros l W. exfalso. apply Cb. destruct (enter_write s b d); try discriminate; cbn; auto.
    + split; auto. intros b' d' Q. unfold enter_write in Q.
      destruct (w_bs s <=? length (w_batch s)) eqn:Z0; [discriminate|].
      apply Nat.leb_gt in Z0. lia.
    + intros; exfalso; auto.
    + intros d0. rewrite served_snoc. cbn. rewrite app_nil_r. apply (v_disk _ _ _ _ _ _ V).
  - destruct keep; [congruence|]. exists (w_held s).
    eapply inv_tr; [rewrite calls_snoc; apply app_nil_r|
                    rewrite served_snoc; apply app_nil_r|].
    constructor; proj; try apply V; auto.
    + pose proof (v_bufs _ _ _ _ _ _ V) as P. rewrite Ei in P. cbn [pcb] in *.
      rewrite app_nil_r in P. rewrite <- P. clear. perm.
    + intros Q; exfalso; apply Q; cbn; auto.
    + pose proof (v_data _ _ _ _ _ _ V) as P. unfold pcd in *. rewrite Ei in P. auto.
    + discriminate.
    + split; [apply (v_batch _ _ _ _ _ _ V)|discriminate].
  - exists (w_held s).
    eapply inv_tr; [rewrite calls_snoc; apply app_nil_r|
                    rewrite served_snoc; apply app_nil_r|].
    constructor; proj; try apply V; auto.
    + pose proof (v_bufs _ _ _ _ _ _ V) as P. rewrite Ei in P. cbn [pcb] in *.
      rewrite app_nil_r in P. rewrite <- P. clear. perm.
    + intros Q; exfalso; apply Q; cbn; auto.
    + pose proof (v_data _ _ _ _ _ _ V) as P. unfold pcd in *. rewrite Ei in P. auto.
    + discriminate.
    + split; [apply (v_batch _ _ _ _ _ _ V)|discriminate].
Qed.

Lemma wstep_inv : forall tr s limbo l s', Inv n bs disk0 tr s limbo -> wstep s l s' ->
  l <> LFlush true -> exists limbo', Inv n bs disk0 (tr ++ [l]) s' limbo'.
Proof.
  intros tr s limbo l s' V [H|[H|H]] N.
  - eapply cstep_inv; eauto.
  - eapply istep_inv; eauto.
  - exists limbo. eapply estep_inv; eauto.
Qed.

End Steps.

Lemma run_inv : forall {A} bsz bt mem bids (disk0 : bid -> A) tr s,
  wrun (w_init bsz bt mem bids disk0) tr s -> disciplined tr ->
  exists limbo, Inv (w_n (w_init bsz bt mem bids disk0)) (w_bs (w_init bsz bt mem bids disk0))
                    disk0 tr s limbo.
Proof.
  intros A bsz bt mem bids disk0 tr s R.
  remember (w_init bsz bt mem bids disk0) as s0 eqn:E0.
  induction R; intros Hd; subst.
  - exists []. apply inv_init.
  - destruct IHR as (limbo & V); auto.
    + intros Q; apply Hd. apply in_or_app; auto.
    + eapply wstep_inv; eauto. intros ->. apply Hd. apply in_or_app; cbn; auto.
Qed.
