(** The queues of the pools can always be emptied, and the operations of the pools can go on. *)

From Coq Require Import ZArith List Bool Arith Lia Permutation Sorting.Sorted.
From Verif Require QueueModel.
From Verif Require Import WriterProofs PoolModel PoolSpec PoolProofs PoolProofs2 PoolProps PoolQModel PoolQProofs.
Import ListNotations.

Lemma exists_last_dec : forall {A} (l : list A), l = [] \/ exists l0 a, l = l0 ++ [a].
Proof. intros A l. destruct l as [|a l]; auto. right. destruct (exists_last (l := a :: l)) as (l0 & b & E); [discriminate|eauto]. Qed.

Section Prog.
Variable kinds : nat -> QueueModel.kind.
Variable qid : nat -> nat.

Definition weight (q : dq) : nat :=
  2 * (length (d_w q) + length (d_r q)) + match d_cur q with Some _ => 1 | None => 0 end.

Lemma qenv_trans : forall a b c, qenv kinds a b -> qenv kinds b c -> qenv kinds a c.
Proof. intros a b c H. induction H; intros; auto. econstructor; eauto. Qed.

Lemma len_set_lst : forall w l q, length (d_w (set_lst w l q)) + length (d_r (set_lst w l q)) + length (lst w q) =
  length l + (length (d_w q) + length (d_r q)).
Proof. intros [|] l q; cbn; lia. Qed.

Lemma len_lst : forall w q, length (lst w q) + length (lst (negb w) q) = length (d_w q) + length (d_r q).
Proof. intros [|] q; cbn; lia. Qed.

Definition over (x : qio) (n : nat) : Prop :=
  forall i r, nth_error (qreqs x) i = Some r -> home qid r = n -> q_st r = Finished.

Lemma over_idle : forall x n, qinv kinds qid x -> d_cur (q_qs x n) = None ->
  (forall w i, ~ In (Some i) (lst w (q_qs x n))) -> over x n.
Proof.
  intros x n V C L i r Hi Hn. destruct (q_st r) eqn:E; auto; exfalso.
  - pose proof (v_pend _ _ _ V i r Hi E) as Z. rewrite Hn in Z. eapply L; eauto.
  - pose proof (v_run _ _ _ V i r Hi E) as Z. rewrite Hn, C in Z. discriminate.
Qed.

Lemma empty_flip : forall k ph, k <> QueueModel.OneQ \/ ph = false -> QueueModel.next_phase k ph false = negb ph.
Proof. intros [|[| |]] [|] [H|H]; try reflexivity; try discriminate; congruence. Qed.

Lemma can_pop : forall x n, qinv kinds qid x -> d_cur (q_qs x n) = None -> lst (d_phase (q_qs x n)) (q_qs x n) <> [] ->
  exists x', qenv1 kinds x x' /\ weight (q_qs x' n) < weight (q_qs x n).
Proof.
  intros x n V C L. destruct (lst (d_phase (q_qs x n)) (q_qs x n)) as [|[i|] rest] eqn:E; [congruence| |].
  - assert (Hin : In (Some i) (lst (d_phase (q_qs x n)) (q_qs x n))) by (rewrite E; left; auto).
    destruct (v_in _ _ _ V _ _ _ Hin) as (r & R1 & _).
    eexists. split; [eapply QEPop; eauto|]. cbn [q_qs]. rewrite set_q_same. unfold weight.
    pose proof (len_set_lst (d_phase (q_qs x n)) rest (q_qs x n)) as W. rewrite E in W. cbn [length] in W.
    cbn [set_worker d_w d_r d_cur]. rewrite C. lia.
  - eexists. split; [eapply QEPopOther; eauto|]. cbn [q_qs]. rewrite set_q_same. unfold weight.
    pose proof (len_set_lst (d_phase (q_qs x n)) rest (q_qs x n)) as W. rewrite E in W. cbn [length] in W.
    cbn [set_worker d_w d_r d_cur]. rewrite C. lia.
Qed.

Lemma drain : forall k x n, weight (q_qs x n) < k -> qinv kinds qid x ->
  exists x', qenv kinds x x' /\ over x' n.
Proof.
  induction k as [|k IH]; intros x n W V; [lia|].
  assert (Go : forall x1, qenv kinds x x1 -> forall x2, qenv1 kinds x1 x2 -> weight (q_qs x2 n) < weight (q_qs x n) ->
    exists x', qenv kinds x x' /\ over x' n).
  { intros x1 E1 x2 E2 W2. destruct (qenv_ref _ _ _ _ E1 V) as (V1 & _). destruct (qenv1_ref _ _ _ _ V1 E2) as (V2 & _).
    destruct (IH x2 n) as (x' & E3 & O); [lia|auto|]. exists x'. split; auto.
    eapply qenv_trans; eauto. eapply QEnvStep; eauto. }
  destruct (d_cur (q_qs x n)) as [[i|]|] eqn:C.
  - destruct (v_cur _ _ _ V _ _ C) as (r & R1 & R2 & R3). destruct (q_write r) eqn:Wr.
    + eapply (Go x (QEnvRefl _ _)); [eapply QEWrite; eauto|]. cbn [q_qs]. rewrite set_q_same.
      unfold weight. cbn [set_worker d_w d_r d_cur]. rewrite C. lia.
    + eapply (Go x (QEnvRefl _ _)); [eapply QERead; eauto|]. cbn [q_qs]. rewrite set_q_same.
      unfold weight. cbn [set_worker d_w d_r d_cur]. rewrite C. lia.
  - eapply (Go x (QEnvRefl _ _)); [eapply QEDoneOther; eauto|]. cbn [q_qs]. rewrite set_q_same.
    unfold weight. cbn [set_worker d_w d_r d_cur]. rewrite C. lia.
  - set (ph := d_phase (q_qs x n)) in *. destruct (lst ph (q_qs x n)) as [|e l] eqn:L.
    + destruct (lst (negb ph) (q_qs x n)) as [|e l] eqn:L2.
      { exists x. split; [constructor|]. apply over_idle; auto. intros w i Hi.
        assert (Z : lst w (q_qs x n) = []) by (destruct w, ph; cbn [negb] in *; auto). rewrite Z in Hi. destruct Hi. }
      assert (Dec : (kinds n <> QueueModel.OneQ \/ ph = false) \/ (kinds n = QueueModel.OneQ /\ ph = true)).
      { destruct (kinds n); [|left; left; discriminate]. destruct ph; auto. }
      destruct Dec as [F|(K1 & Ph)].
      * set (x1 := MkQ (q_io x) (set_q (q_qs x) n (set_worker None (QueueModel.next_phase (kinds n) ph false) (q_qs x n)))).
        assert (E1 : qenv1 kinds x x1) by (apply QEEmpty; auto).
        destruct (qenv1_ref _ _ _ _ V E1) as (V1 & _).
        destruct (can_pop x1 n V1) as (x2 & E2 & W2).
        -- unfold x1. cbn [q_qs]. rewrite set_q_same. auto.
        -- unfold x1. cbn [q_qs]. rewrite set_q_same. cbn [set_worker d_phase]. rewrite lst_set_worker.
           rewrite empty_flip; auto. rewrite L2. discriminate.
        -- eapply (Go x1); [eapply QEnvStep; [exact E1|constructor]|exact E2|].
           assert (weight (q_qs x1 n) = weight (q_qs x n)).
           { unfold x1. cbn [q_qs]. rewrite set_q_same. unfold weight. cbn [set_worker d_w d_r d_cur]. rewrite C. auto. }
           lia.
      * exists x. split; [constructor|]. apply over_idle; auto. intros w i Hi.
        destruct (v_in _ _ _ V _ _ _ Hi) as (r & R1 & R2 & R3 & R4).
        assert (w = true) by (rewrite <- R4; unfold side; rewrite R3, K1; reflexivity).
        rewrite H, <- Ph, L in Hi. destruct Hi.
    + destruct (can_pop x n V C) as (x2 & E2 & W2); [fold ph; rewrite L; discriminate|].
      eapply (Go x (QEnvRefl _ _)); eauto.
Qed.

Lemma over_keep : forall x x' n, qinv kinds qid x -> qenv kinds x x' -> over x n -> over x' n.
Proof.
  intros x x' n V E O i r Hi Hn. destruct (qenv_ref _ _ _ _ E V) as (_ & E'). pose proof (env_evol _ _ _ E') as Ev.
  destruct (evol_back _ _ i r Ev Hi) as (r0 & R0 & (A & B & D & L)).
  assert (home qid r0 = n) by (unfold home in *; congruence).
  specialize (O i r0 R0 H). rewrite O in L. destruct (q_st r); cbn in L; auto; contradiction.
Qed.

Lemma drain_all : forall ns x, qinv kinds qid x -> exists x', qenv kinds x x' /\ forall n, In n ns -> over x' n.
Proof.
  induction ns as [|n ns IH]; intros x V.
  - exists x. split; [constructor|]. intros n [].
  - destruct (drain (S (weight (q_qs x n))) x n) as (x1 & E1 & O1); [lia|auto|].
    destruct (qenv_ref _ _ _ _ E1 V) as (V1 & _). destruct (IH x1 V1) as (x2 & E2 & O2).
    exists x2. split; [eapply qenv_trans; eauto|]. intros m [<-|Hm]; auto. eapply over_keep; eauto.
Qed.

Lemma quiesce : forall x, qinv kinds qid x ->
  exists x', qenv kinds x x' /\ forall i r, nth_error (qreqs x') i = Some r -> q_st r = Finished.
Proof.
  intros x V. destruct (drain_all (map (home qid) (qreqs x)) x V) as (x' & E & O). exists x'. split; auto.
  intros i r Hi. apply (O (home qid r)) with (i := i); auto.
  destruct (qenv_ref _ _ _ _ E V) as (_ & E'). pose proof (env_evol _ _ _ E') as Ev.
  destruct (evol_back _ _ i r Ev Hi) as (r0 & R0 & (A & B & D & L)).
  apply in_map_iff. exists r0. split; [unfold home; congruence|]. eapply nth_error_In; eauto.
Qed.

(** A request that exists can be waited for. *)
Lemma can_wait : forall x i, qinv kinds qid x -> i < length (qreqs x) ->
  exists x', qenv kinds x x' /\ qfinished x' i = true.
Proof.
  intros x i V L. destruct (quiesce x V) as (x' & E & F). exists x'. split; auto.
  destruct (qenv_ref _ _ _ _ E V) as (_ & E'). pose proof (env_evol _ _ _ E') as (Le & _).
  apply finished_spec. unfold qreqs in *. destruct (nth_error (io_reqs (q_io x')) i) as [r|] eqn:N.
  - exists r. split; auto. eapply F; eauto.
  - apply nth_error_None in N. lia.
Qed.

(** *** The operations can go on *)

Lemma can_read : forall p w x own al b d, qinv kinds qid x -> SI p w (q_io x) own al ->
  exists p' w' x' b' r, qp_read kinds qid p w x b d p' w' x' b' r /\ qinv kinds qid x' /\ r < length (qreqs x').
Proof.
  intros p w x own al b d V I. destruct (p_find d (p_busy p)) as [e|] eqn:F.
  - do 5 eexists. split; [eapply QReadCached; eauto|]. split; auto.
    apply p_find_in in F. destruct F as (F & _). destruct (si_p _ _ _ _ _ I e F) as (q & N & _).
    apply nth_error_Some. unfold qreqs. congruence.
  - destruct (has_request w d) eqn:H.
    + destruct (proj1 (has_request_spec w d) H) as (e0 & He0). 
      destruct (steal_entry_some d (w_busy w)) as (e & l' & E); [exists e0; auto|].
      do 5 eexists. split; [eapply QReadWrite; eauto; unfold steal_request; rewrite E; reflexivity|]. split; auto.
      apply steal_entry_split in E. destruct (si_w _ _ _ _ _ I e) as (q & N & _).
      { destruct E as (l1 & l2 & E & _). rewrite E. apply in_or_app. right. left. auto. }
      apply nth_error_Some. unfold qreqs. congruence.
    + do 5 eexists. split; [apply QReadDisk; auto|]. split; [apply qinv_post; auto|].
      unfold qpost, qreqs. cbn [q_io]. unfold post. cbn [io_reqs]. rewrite app_length. cbn. lia.
Qed.

Lemma can_hint : forall p w x own al d, SI p w (q_io x) own al ->
  exists p' w' x' r, qp_hint kinds qid p w x d p' w' x' r.
Proof.
  intros p w x own al d I. destruct (p_find d (p_busy p)) as [e|] eqn:F.
  - do 4 eexists. eapply QHintAlready; eauto.
  - destruct (p_fsize p) as [|k] eqn:Z; [do 4 eexists; eapply QHintNone; eauto|].
    pose proof (si_fsize _ _ _ _ _ I) as Fs. rewrite Z in Fs.
    destruct (exists_last (l := p_free p)) as (l & b & E); [intros E; rewrite E in Fs; discriminate|].
    assert (Nz : p_fsize p <> 0) by lia.
    destruct (has_request w d) eqn:H.
    + destruct (proj1 (has_request_spec w d) H) as (e0 & He0).
      destruct (steal_entry_some d (w_busy w)) as (e & l' & E'); [exists e0; auto|].
      do 4 eexists. eapply QHintWrite; eauto. unfold steal_request. rewrite E'. reflexivity.
    + do 4 eexists. eapply QHintRead; eauto.
Qed.

Lemma can_invalidate : forall p w x own al d, qinv kinds qid x -> SI p w (q_io x) own al ->
  exists p' x' r, qp_invalidate kinds qid p x d p' x' r.
Proof.
  intros p w x own al d V I. destruct (p_find d (p_busy p)) as [e|] eqn:F.
  - set (x1 := if qis_read x (p_req e) then qcancel kinds qid x (p_req e) else x).
    pose proof (p_find_in _ _ _ F) as (F1 & _). destruct (si_p _ _ _ _ _ I e F1) as (q & N & _).
    assert (G : qinv kinds qid x1 /\ p_req e < length (qreqs x1)).
    { assert (L : p_req e < length (qreqs x)) by (apply nth_error_Some; unfold qreqs; congruence).
      unfold x1. destruct (qis_read x (p_req e)); auto. destruct (qcancel_ref kinds qid x (p_req e) V) as (V1 & C).
      split; auto. unfold qreqs. rewrite C. destruct (cancel_evol (q_io x) (p_req e)) as (Le & _). rewrite Le. auto. }
    destruct G as (V1 & L). destruct (can_wait x1 (p_req e) V1 L) as (x2 & E2 & F2).
    do 3 eexists. eapply QInvSome; [exact F|constructor|exact E2|exact F2].
  - do 3 eexists. apply QInvNone. auto.
Qed.

Lemma can_mark : forall d buf l x, (forall e, In e l -> e_buf e <> buf) ->
  exists l' x', qw_mark kinds qid d buf l x l' x'.
Proof.
  intros d buf. induction l as [|e l IH]; intros x H.
  - do 2 eexists. constructor.
  - destruct (bid_eqb (e_bid e) d) eqn:B.
    + destruct (IH (qcancel kinds qid x (e_req e))) as (l' & x' & M); [intros; apply H; right; auto|].
      do 2 eexists. eapply QMarkHit; eauto; [apply H; left; auto|constructor].
    + destruct (IH x) as (l' & x' & M); [intros; apply H; right; auto|].
      do 2 eexists. eapply QMarkSkip; eauto.
Qed.

Lemma can_check : forall l x, exists mv rest x', qw_check kinds l x mv rest x'.
Proof.
  induction l as [|e l IH]; intros x; [do 3 eexists; constructor|].
  destruct (IH x) as (mv & rest & x' & H). destruct (qfinished x (e_req e)) eqn:F.
  - do 3 eexists. eapply QChkMove; eauto. constructor.
  - do 3 eexists. eapply QChkKeep; eauto. constructor.
Qed.

Lemma can_steal : forall p w x own al, qinv kinds qid x -> SI p w (q_io x) own al -> w_size w <> 0 ->
  exists w' x' b, qw_steal kinds w x w' x' b.
Proof.
  intros p w x own al V I Nz. destruct (exists_last_dec (w_free w)) as [E|(l & b & E)].
  - destruct (w_busy w) as [|e l] eqn:B.
    { unfold w_size in Nz. rewrite E, B in Nz. cbn in Nz. lia. }
    destruct (si_w _ _ _ _ _ I e) as (q & N & _); [rewrite B; left; auto|].
    destruct (can_wait x (e_req e) V) as (x1 & E1 & F1); [apply nth_error_Some; unfold qreqs; congruence|].
    destruct (can_check ([] ++ l) x1) as (mv & rest & x2 & C).
    do 3 eexists. eapply (QWStealWait _ _ _ []); eauto.
  - do 3 eexists. eapply QWStealFree; eauto.
Qed.

End Prog.
