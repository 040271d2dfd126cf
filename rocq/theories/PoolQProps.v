(** C111: the pools on the request queues. *)

From Coq Require Import ZArith List Bool Arith Lia Permutation.
From Verif Require QueueModel.
From Verif Require Import WriterProofs PoolModel PoolSpec PoolProofs PoolProofs2 PoolProofs3 PoolProofs4 PoolProofs5 PoolProofs6
  PoolProofs7 PoolProps PoolQModel PoolQProofs PoolQProofs2.
Import ListNotations.

Section Statements.
Variable kinds : nat -> QueueModel.kind.
Variable qid : nat -> nat.

(** The queues serve the writes to one block in the order of their posting. *)
Theorem C111_order : forall np nw m disk l x s' i j ri rj rj',
  qrun kinds qid (qinit np nw m disk) l x -> qenv1 kinds (qs_io x) s' ->
  nth_error (qreqs (qs_io x)) j = Some rj -> q_st rj = Pending -> q_write rj = true ->
  nth_error (qreqs s') j = Some rj' -> q_st rj' <> Pending ->
  nth_error (qreqs (qs_io x)) i = Some ri -> q_write ri = true -> q_bid ri = q_bid rj -> i < j ->
  q_st ri = Finished.
Proof.
  intros np nw m disk l x s' i j ri rj rj' R E Hj Pj Wj Hj' Nj Hi Wi B Lt.
  destruct (qrun_init _ _ _ _ _ _ _ _ R) as (V & _). destruct (qenv1_ref _ _ _ _ V E) as (_ & [Eq|S1]).
  - unfold qreqs in *. rewrite Eq in Hj'. congruence.
  - unfold qreqs in *. remember (q_io (qs_io x)) as io0 eqn:E0. remember (q_io s') as io1 eqn:E1. clear E0 E1.
    destruct S1 as [s0 k q Hk Pk Old|s0 k q Hk Rk Wk|s0 k q Hk Rk Wk]; cbn [io_reqs set_st] in Hj';
      (destruct (Nat.eq_dec k j) as [->|D]; [|rewrite set_nth_other in Hj'; auto; congruence]).
    + assert (q = rj) by congruence. subst q. eapply Old; eauto.
    + congruence.
    + congruence.
Qed.

(** Every read returns what was last written, whatever class the queues have and whatever others
    do with them. *)
Theorem C111_reads_coherent : forall np nw m disk l x,
  qrun kinds qid (qinit np nw m disk) l x -> Forall rw_client l -> coherent disk l.
Proof.
  intros np nw m disk l x R W. destruct (qrun_init _ _ _ _ _ _ _ _ R) as (_ & R'). eapply C34_reads_coherent; eauto.
Qed.

(** A block on which no write is outstanding has what was last written. *)
Theorem C111_last_write_wins : forall np nw m disk l x d,
  qrun kinds qid (qinit np nw m disk) l x -> Forall rw_client l -> ~ unwritten (q_io (qs_io x)) d ->
  io_disk (q_io (qs_io x)) d = expected disk l d.
Proof.
  intros np nw m disk l x d R W U. destruct (qrun_init _ _ _ _ _ _ _ _ R) as (_ & R').
  exact (C33_last_write_wins _ _ _ _ _ _ d R' W U).
Qed.

(** No block is lost, doubled, or handed out while it is being transferred. *)
Theorem C111_blocks : forall np nw m disk l x,
  qrun kinds qid (qinit np nw m disk) l x -> Forall waiting l ->
  NoDup (w_bufs (qs_w x) ++ p_bufs (qs_p x) ++ qs_own x) /\
  (forall b, In b (w_free (qs_w x) ++ p_free (qs_p x) ++ qs_own x) -> ~ busy_buffer (q_io (qs_io x)) b).
Proof.
  intros np nw m disk l x R W. destruct (qrun_init _ _ _ _ _ _ _ _ R) as (_ & R'). split.
  - destruct (reach _ _ _ _ _ _ _ R' W) as (al & I0 & _). exact (si_nodup _ _ _ _ _ I0).
  - apply (C32_only_busy_blocks_in_transfer _ _ _ _ _ _ _ R' W).
Qed.

(** The workers can always finish everything; then the disk has the last writes. *)
Theorem C111_flushed : forall np nw m disk l x,
  qrun kinds qid (qinit np nw m disk) l x -> Forall rw_client l ->
  exists y, qstep kinds qid x AIdle y /\
    (forall i r, nth_error (qreqs (qs_io y)) i = Some r -> q_st r = Finished) /\
    (forall d, io_disk (q_io (qs_io y)) d = expected disk l d).
Proof.
  intros np nw m disk l [p w s own nx] R W. destruct (qrun_init _ _ _ _ _ _ _ _ R) as (V & R').
  destruct (quiesce _ _ _ V) as (s' & E & F). exists (QMkSt p w s' own nx).
  assert (Q : qstep kinds qid (QMkSt p w s own nx) AIdle (QMkSt p w s' own nx)) by (apply QSIdle; auto).
  csplit; auto. intros d. destruct (qstep_ref _ _ _ _ _ Q V) as (_ & S1).
  assert (R2 : forall x0 l0 x1, run true x0 l0 x1 -> forall a x2, step true x1 a x2 -> run true x0 (l0 ++ [a]) x2).
  { induction 1; intros; cbn; econstructor; eauto. constructor. }
  pose proof (R2 _ _ _ R' _ _ S1) as R3.
  assert (W3 : Forall rw_client (l ++ [AIdle])) by (apply Forall_app; split; auto; constructor; [exact I|constructor]).
  assert (Ex : forall d0 k, expected d0 (k ++ [AIdle]) d = expected d0 k d).
  { intros d0 k. revert d0. induction k as [|a k IH]; intros d0; [reflexivity|]. destruct a; cbn; auto. }
  rewrite <- (Ex disk l). refine (C33_last_write_wins _ _ _ _ _ _ d R3 W3 _).
  intros (i & q & N & _ & _ & U). apply U. eapply F; eauto.
Qed.

(** No operation of the pools can get stuck: a read (with the last content written), a write, a
    hint, an invalidation and taking a block each have a way to return. *)
Theorem C111_read_returns : forall np nw m disk l x b d,
  qrun kinds qid (qinit np nw m disk) l x -> Forall rw_client l -> In b (qs_own x) -> b_storage d <> O ->
  exists b' y, qstep kinds qid x (ARead d b' (expected disk l d)) y.
Proof.
  intros np nw m disk l [p w s own nx] b d R W Hb Hd. destruct (qrun_init _ _ _ _ _ _ _ _ R) as (V & R').
  assert (W' : Forall waiting l) by (eapply Forall_impl; [|exact W]; intros []; cbn; tauto).
  destruct (reach _ _ _ _ _ _ _ R' W') as (al & I0 & _). cbn in I0.
  destruct (can_read kinds qid p w s own al b d V I0) as (p' & w' & s1 & b' & r & Q & V1 & L).
  destruct (can_wait kinds qid s1 r V1 L) as (s2 & E & F).
  apply in_split in Hb. destruct Hb as (l1 & l2 & Hb). cbn in Hb.
  assert (Q1 : qstep kinds qid (QMkSt p w s own nx) (ARead d b' (qmem s2 b')) (QMkSt p' w' s2 (b' :: l1 ++ l2) nx)).
  { eapply QSRead; eauto. subst own. apply Permutation_sym, Permutation_middle. }
  assert (R2 : forall x0 l0 x1, qrun kinds qid x0 l0 x1 -> forall a x2, qstep kinds qid x1 a x2 -> qrun kinds qid x0 (l0 ++ [a]) x2).
  { induction 1; intros; cbn; econstructor; eauto. constructor. }
  assert (C : coherent disk (l ++ [ARead d b' (qmem s2 b')])).
  { eapply C111_reads_coherent; [eapply R2; eauto|]. apply Forall_app. split; auto. constructor; [exact I|constructor]. }
  specialize (C l d b' _ [] eq_refl). rewrite C in Q1. eauto.
Qed.

Theorem C111_write_returns : forall np nw m disk l x b d,
  qrun kinds qid (qinit np nw m disk) l x -> Forall waiting l -> In b (qs_own x) -> b_storage d <> O ->
  exists y, qstep kinds qid x (AWrite b d (qmem (qs_io x) b)) y.
Proof.
  intros np nw m disk l [p w s own nx] b d R W Hb Hd. destruct (qrun_init _ _ _ _ _ _ _ _ R) as (V & R').
  destruct (reach _ _ _ _ _ _ _ R' W) as (al & I0 & _). cbn in I0, Hb. cbn [qs_io].
  destruct (can_mark kinds qid d b (w_busy w) s) as (l' & s1 & M).
  { intros e He Eb. pose proof (si_nodup _ _ _ _ _ I0) as Nd. unfold w_bufs in Nd.
    rewrite <- app_assoc in Nd. apply nodup_app_r in Nd.
    eapply (nodup_app_disj _ _ b Nd); [apply in_map_iff; eauto|apply in_or_app; auto]. }
  apply in_split in Hb. destruct Hb as (l1 & l2 & Hb).
  assert (P : Permutation own (b :: l1 ++ l2)) by (subst own; apply Permutation_sym, Permutation_middle).
  set (w1 := MkWP (w_free w) (l' ++ [MkW b (length (qreqs s1)) d])). set (s2 := qpost kinds qid s1 true b d).
  assert (Wr : qw_write kinds qid w s b d w1 s2 (length (qreqs s1))) by (apply QWWrite; auto).
  destruct (qw_write_ref _ _ _ _ _ _ _ _ _ Wr V) as (V2 & Wr').
  assert (I2 : exists al2, SI p w1 (q_io s2) (l1 ++ l2) al2) by (eexists; eapply SI_write; [exact Wr'|eapply SI_perm; eauto]).
  destruct I2 as (al2 & I2).
  destruct (can_invalidate kinds qid p w1 s2 _ _ d V2 I2) as (p1 & s3 & r & Inv). destruct r.
  - destruct (qp_invalidate_ref _ _ _ _ _ _ _ _ Inv V2) as (V3 & Inv').
    assert (I3 : exists al3, SI p1 w1 (q_io s3) (l1 ++ l2) al3) by (eexists; eapply (proj1 (SI_invalidate _ _ _ _ _ _ _ _ _ _ Inv' I2))).
    destruct I3 as (al3 & I3). destruct (can_hint kinds qid p1 w1 s3 _ _ d I3) as (p2 & w2 & s4 & h & Hh).
    eexists. eapply QSWrite; eauto. eapply QRWRehint; eauto.
  - eexists. eapply QSWrite; eauto. eapply QRWPlain; eauto.
Qed.

Theorem C111_others_return : forall np nw m disk l x d,
  qrun kinds qid (qinit np nw m disk) l x -> Forall waiting l ->
  (exists r y, qstep kinds qid x (AInvalidate d r) y) /\
  (b_storage d <> O -> exists r y, qstep kinds qid x (AHint d r) y) /\
  (w_size (qs_w x) <> 0 -> exists b y, qstep kinds qid x (ASteal b) y).
Proof.
  intros np nw m disk l [p w s own nx] d R W. destruct (qrun_init _ _ _ _ _ _ _ _ R) as (V & R').
  destruct (reach _ _ _ _ _ _ _ R' W) as (al & I0 & _). cbn in I0. cbn [qs_w]. csplit.
  - destruct (can_invalidate kinds qid p w s _ _ d V I0) as (p1 & s3 & r & Inv). do 2 eexists. apply QSInvalidate. eauto.
  - intros Hd. destruct (can_hint kinds qid p w s _ _ d I0) as (p2 & w2 & s4 & h & Hh). do 2 eexists. apply QSHint; eauto.
  - intros Nz. destruct (can_steal kinds qid p w s _ _ V I0 Nz) as (w1 & s1 & b & H). do 2 eexists. apply QSSteal. eauto.
Qed.

End Statements.
Print Assumptions C111_order.
Print Assumptions C111_reads_coherent.
Print Assumptions C111_last_write_wins.
Print Assumptions C111_blocks.
Print Assumptions C111_flushed.
Print Assumptions C111_read_returns.
Print Assumptions C111_write_returns.
Print Assumptions C111_others_return.

(** ** Concrete executions *)

(** The default queue: one per disk, writes first (request_queue_impl_qwqr.cpp). *)
Definition default_kinds : nat -> QueueModel.kind := fun _ => QueueModel.QwQr QueueModel.PWrite.
Definition one_disk : nat -> nat := fun _ => 0.

Lemma q_write_step : forall p w s own nx b d v own' p' w' s',
  v = qmem s b -> Permutation own (b :: own') -> b_storage d <> O ->
  qrw_write default_kinds one_disk p w s b d p' w' s' ->
  qstep default_kinds one_disk (QMkSt p w s own nx) (AWrite b d v) (QMkSt p' w' s' own' nx).
Proof. intros; subst; eapply QSWrite; eauto. Qed.

Lemma q_read_step : forall p w s own nx b d own' p' w' s1 b' r s' v,
  Permutation own (b :: own') -> b_storage d <> O ->
  qp_read default_kinds one_disk p w s b d p' w' s1 b' r ->
  qenv default_kinds s1 s' -> qfinished s' r = true -> v = qmem s' b' ->
  qstep default_kinds one_disk (QMkSt p w s own nx) (ARead d b' v) (QMkSt p' w' s' (b' :: own') nx).
Proof. intros; subst; eapply QSRead; eauto. Qed.

(** Two writes to one block, the first being served when the second comes, so that it cannot be
    cancelled; a request of another client stands between them.  The read takes the second write
    out of the write pool and waits for it. *)
Definition qhistory : list act :=
  [ANew 0; ANew 1; ASet 0 1; ASet 1 2; AWrite 0 dA 1; AIdle; AWrite 1 dA 2; ANew 2; ARead dA 1 2].

Example C111_case : exists x,
  qrun default_kinds one_disk (qinit 0 0 (fun _ => 0%Z) (fun _ => 5%Z)) qhistory x /\
  Forall rw_client qhistory /\ In 1 (qs_own x) /\ ~ unwritten (q_io (qs_io x)) dA /\
  io_disk (q_io (qs_io x)) dA = 2%Z.
Proof.
  eexists. csplit.
  - unfold qhistory, qinit; cbn [seq Nat.add].
    eapply QRunCons; [apply QSNew|].
    eapply QRunCons; [apply QSNew|].
    eapply QRunCons; [apply QSSet; cbn; auto|].
    eapply QRunCons; [apply QSSet; cbn; auto|].
    eapply QRunCons.
    { eapply (q_write_step _ _ _ _ _ 0 dA _ [1%nat]); [reflexivity|apply perm_swap|cbn; lia|].
      eapply QRWPlain; [apply QWWrite; apply QMarkNil|apply QInvNone; reflexivity]. }
    eapply QRunCons.
    { eapply QSIdle. eapply QEnvStep; [eapply (QEPop _ _ 0 0); reflexivity|].
      eapply QEnvStep; [eapply (QEPostOther _ _ 0 true)|apply QEnvRefl]. }
    eapply QRunCons.
    { eapply (q_write_step _ _ _ _ _ 1 dA _ []); [reflexivity|apply Permutation_refl|cbn; lia|].
      eapply QRWPlain; [|apply QInvNone; reflexivity].
      apply QWWrite. cbn. eapply QMarkHit; [reflexivity|cbn; lia|apply QEnvRefl|apply QMarkNil]. }
    eapply QRunCons; [apply QSNew|].
    eapply QRunCons.
    { eapply (q_read_step _ _ _ _ _ 2 dA []); [apply Permutation_refl|cbn; lia| | | |].
      - apply (QReadWrite _ _ _ _ _ _ _ 1 1 (MkWP [] [MkW 0 0 (MkBid 0 0)])); reflexivity.
      - eapply QEnvStep; [eapply (QEWrite _ _ 0 0); reflexivity|].
        eapply QEnvStep; [eapply (QEPopOther _ _ 0); reflexivity|].
        eapply QEnvStep; [eapply (QEDoneOther _ _ 0); reflexivity|].
        eapply QEnvStep; [eapply (QEPop _ _ 0 1); reflexivity|].
        eapply QEnvStep; [eapply (QEWrite _ _ 0 1); reflexivity|apply QEnvRefl].
      - reflexivity.
      - reflexivity. }
    apply QRunNil.
  - repeat constructor.
  - left. reflexivity.
  - intros (i & q & N & _ & _ & F). cbn in N.
    destruct i as [|[|i]]; cbn in N; [| |destruct i; discriminate]; inversion N; subst; cbn in F; auto.
  - reflexivity.
Qed.

(** The client that does not wait for its first read: with the default queues, too, the second
    read can find old content.  The worker has turned to the reads for a read of another client,
    which is cancelled. *)
Theorem C111_not_waiting_refuted :
  ~ (forall np nw m disk l x,
       qrun default_kinds one_disk (qinit np nw m disk) l x ->
       Forall (fun a => rw_client a \/ exists d b r, a = AReadNoWait d b r) l ->
       coherent disk l).
Proof.
  intros H.
  set (l := [ANew 0; ANew 1; ANew 2; ASet 0 7; AIdle; AWrite 0 dA 7; AReadNoWait dA 0 0; ARead dA 2 5]).
  assert (E : exists x, qrun default_kinds one_disk (qinit 0 0 (fun _ => 0%Z) (fun _ => 5%Z)) l x).
  { eexists. unfold l, qinit; cbn [seq Nat.add].
    eapply QRunCons; [apply QSNew|].
    eapply QRunCons; [apply QSNew|].
    eapply QRunCons; [apply QSNew|].
    eapply QRunCons; [apply QSSet; cbn; auto|].
    eapply QRunCons.
    { eapply QSIdle. eapply QEnvStep; [eapply (QEPostOther _ _ 0 false)|].
      eapply QEnvStep; [eapply (QEEmpty _ _ 0); reflexivity|].
      eapply QEnvStep; [eapply (QECancelOther _ _ 0 false [] []); reflexivity|apply QEnvRefl]. }
    eapply QRunCons.
    { eapply (q_write_step _ _ _ _ _ 0 dA _ [1; 2]%nat); [reflexivity| |cbn; lia|].
      - change (Permutation [2; 1; 0] (rev [2; 1; 0]))%nat. apply Permutation_rev.
      - eapply QRWPlain; [apply QWWrite; apply QMarkNil|apply QInvNone; reflexivity]. }
    eapply QRunCons.
    { eapply (QSReadNoWait _ _ _ _ _ _ _ 1 dA); [apply Permutation_refl|cbn; lia|].
      apply (QReadWrite _ _ _ _ _ _ _ 0 0 (MkWP [] [])); reflexivity. }
    eapply QRunCons.
    { eapply (q_read_step _ _ _ _ _ 2 dA [0%nat]); [apply perm_swap|cbn; lia| | | |].
      - apply QReadDisk; reflexivity.
      - eapply QEnvStep; [eapply (QEPop _ _ 0 1); reflexivity|].
        eapply QEnvStep; [eapply (QERead _ _ 0 1); reflexivity|apply QEnvRefl].
      - reflexivity.
      - reflexivity. }
    apply QRunNil. }
  destruct E as (x & R). specialize (H _ _ _ _ _ _ R).
  assert (C : coherent (fun _ => 5%Z) l).
  { apply H. unfold l. repeat (constructor; [cbn; eauto 6|]). constructor. }
  specialize (C [ANew 0; ANew 1; ANew 2; ASet 0 7; AIdle; AWrite 0 dA 7; AReadNoWait dA 0 0]
                dA 2%nat 5%Z [] eq_refl).
  vm_compute in C. discriminate.
Qed.
Print Assumptions C111_not_waiting_refuted.
