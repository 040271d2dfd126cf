(** C40: records written to a stream come back in the same order. *)

From Coq Require Import List Arith Bool ZArith Lia Permutation.
From Verif Require Import WriterModel WriterSpec WriterProofs WriterProofs2 WriterProofs3 WriterProps
  PrefetchModel PrefetchSpec ScheduleModel ScheduleSpec ScheduleProps
  PrefetchProofs PrefetchProofs2 PrefetchProofs3 PrefetchProps
  StreamModel StreamProofs StreamProofs2.
Import ListNotations.

Section Props.
Context {R : Type}.
Variable B : nat.
Hypothesis HB : 1 <= B.
Variables (nb : nat) (mem0 : nat -> list R) (bids0 : nat -> bid) (disk0 : bid -> list R) (bids : nat -> bid).
Let w0 := w_init nb (nb / 2) mem0 bids0 disk0.
Hypothesis Hmem : forall b, length (mem0 b) = B.
Hypothesis Hbids : forall i j, bids i = bids j -> i = j.

(** The number of complete blocks and the position in the current block are
    the quotient and the remainder of the number of records. *)
Theorem C40_position : forall recs tr o, orun B w0 bids recs tr o ->
  length recs = o_bid o * B + o_elem o /\ o_elem o < B.
Proof.
  intros recs tr o H. destruct (orun_inv B HB nb (nb / 2) mem0 bids0 disk0 bids Hmem _ _ _ H) as [oi_run0 oi_disc0 oi_pc0 oi_held0 oi_elem0 oi_mem0 oi_bids0 oi_len0 oi_recs0].
  split; auto. rewrite oi_recs0, app_length, firstn_length, oi_mem0, Nat.min_l by lia. f_equal.
  apply (f_equal (@length _)) in oi_bids0. rewrite !map_length, seq_length in oi_bids0.
  rewrite <- oi_bids0. clear - oi_len0. induction (calls tr) as [|(d, a) l IH]; auto.
  cbn [map snd concat length]. rewrite app_length, (oi_len0 d a) by (left; auto).
  rewrite IH; [|intros; eapply oi_len0; right; eauto]. cbn. lia.
Qed.

(** fill() completes the block. *)
Theorem C40_fill_completes : forall recs tr o r tr' o', orun B w0 bids recs tr o ->
  orun B w0 bids (recs ++ padding B o r) tr' o' -> o_elem o' = 0.
Proof.
  intros recs tr o r tr' o' H H'.
  destruct (C40_position _ _ _ H) as (E & L). destruct (C40_position _ _ _ H') as (E' & L').
  rewrite app_length, E in E'. unfold padding in E'. destruct (o_elem o) eqn:Eo.
  - cbn in E'. assert (o_bid o = o_bid o') by nia. nia.
  - rewrite repeat_length in E'. assert (S (o_bid o) * B = o_bid o' * B + o_elem o') by nia.
    assert (S (o_bid o) = o_bid o') by nia. nia.
Qed.

(** After the stream has been closed the blocks contain the records, and no
    other block has changed. *)
Theorem C40_written : forall recs tr o t s,
  orun B w0 bids recs tr o -> oclose o t s ->
  concat (map (w_disk s) (map bids (seq 0 (o_bid o)))) = recs /\
  (forall k, k < o_bid o -> length (w_disk s (bids k)) = B) /\
  (forall d, ~ In d (map bids (seq 0 (o_bid o))) -> w_disk s d = disk0 d).
Proof.
  intros recs tr o t s H Hc.
  inversion Hc as [s1 t' s2 s3 E0 Hd Hs He]; subst.
  destruct (orun_inv B HB nb (nb / 2) mem0 bids0 disk0 bids Hmem _ _ _ H) as [oi_run0 oi_disc0 oi_pc0 oi_held0 oi_elem0 oi_mem0 oi_bids0 oi_len0 oi_recs0].
  destruct (sys_active _ _ _ Hs) as (_ & C & F & _).
  assert (Rn : wrun w0 (tr ++ LDestroy :: t' ++ [LDestroyed]) s).
  { eapply wrun_app; [eauto|]. eapply wrun_front; [left; eauto|].
    eapply wrun_app; [apply sys_run; eauto|]. apply wrun_one. right; auto. }
  assert (Ec : calls (tr ++ LDestroy :: t' ++ [LDestroyed]) = calls tr).
  { rewrite calls_app. cbn [calls]. rewrite calls_app, C. apply app_nil_r. }
  assert (ND : NoDup (map fst (calls tr))).
  { rewrite oi_bids0. apply FinFun.Injective_map_NoDup; [exact Hbids|]. apply seq_NoDup. }
  destruct (C41_disk_content _ _ _ _ _ _ _ Rn) as (D1 & D2).
  - apply disc_app; auto. intros [Q|Q]; [discriminate|]. apply in_app_or in Q.
    destruct Q as [Q|[Q|[]]]; [eapply F; eauto|discriminate].
  - right. exists (tr ++ LDestroy :: t'). rewrite <- app_assoc. reflexivity.
  - rewrite Ec. auto.
  - rewrite Ec in D1, D2. rewrite <- oi_bids0.
    assert (X : map (w_disk s) (map fst (calls tr)) = map snd (calls tr)).
    { rewrite map_map. apply map_ext_in. intros (d, a) Q. apply D1. auto. }
    csplit; auto.
    + rewrite X, oi_recs0, E0. cbn [firstn]. rewrite app_nil_r. auto.
    + intros k Hk. assert (Q : In (bids k) (map fst (calls tr))).
      { rewrite oi_bids0. apply in_map. apply in_seq. lia. }
      apply in_map_iff in Q. destruct Q as ((d, a) & Q1 & Q2). cbn in Q1. subst d.
      rewrite (D1 _ _ Q2). eauto.
Qed.

Lemma concat_rev : forall l : list (list R), concat (map (@rev R) (rev l)) = rev (concat l).
Proof.
  induction l as [|x l IH]; auto. cbn [rev concat]. rewrite map_app, concat_app, IH, rev_app_distr.
  cbn [map concat]. rewrite app_nil_r. auto.
Qed.

Lemma data_all : forall fwd (f : bid -> list R) (ds : list bid),
  concat (data fwd (stream_bids fwd ds) f) =
  if fwd then concat (map f ds) else rev (concat (map f ds)).
Proof.
  intros fwd f ds. unfold data, ord, stream_bids. destruct fwd.
  - rewrite map_id. auto.
  - rewrite map_rev. apply concat_rev.
Qed.

(** Reading the blocks of a stream: the records read so far are the first ones
    of what was written (the last ones in reverse order, for the reverse
    stream), and the stream ends with the last one. *)
Theorem C40_roundtrip : forall recs tr o t s fwd sq bufs mem p0 out tr' i,
  orun B w0 bids recs tr o -> oclose o t s ->
  all_blocks_once (o_bid o) sq ->
  p_init (stream_bids fwd (map bids (seq 0 (o_bid o)))) sq bufs (w_disk s) mem = Some p0 ->
  irun B fwd p0 out tr' i ->
  let expected := if fwd then recs else rev recs in
  out = firstn (length out) expected /\
  (i_more i = true -> length out < length recs) /\
  (i_more i = false -> out = expected).
Proof.
  intros recs tr o t s fwd sq bufs mem p0 out tr' i Ho Hc Hsq Hp Hi expected.
  destruct (C40_written _ _ _ _ _ Ho Hc) as (W1 & W2 & _).
  set (ds := map bids (seq 0 (o_bid o))) in *.
  assert (Ld : length (stream_bids fwd ds) = o_bid o).
  { unfold stream_bids, ds. destruct fwd; rewrite ?rev_length, map_length, seq_length; auto. }
  assert (Hl : forall d, In d (stream_bids fwd ds) -> length (w_disk s d) = B).
  { intros d Q. assert (Q' : In d ds) by (unfold stream_bids in Q; destruct fwd; [|apply in_rev in Q]; auto).
    unfold ds in Q'. apply in_map_iff in Q'. destruct Q' as (k & <- & Q'). apply in_seq in Q'. apply W2. lia. }
  rewrite <- Ld in Hsq.
  destruct (irun_inv B HB fwd _ _ _ _ _ _ Hsq Hp Hl _ _ _ Hi) as [_ _ V1 V2].
  assert (Ee : expected = concat (data fwd (stream_bids fwd ds) (w_disk s))).
  { rewrite data_all, W1. auto. }
  assert (Le : length expected = length recs) by (unfold expected; destruct fwd; rewrite ?rev_length; auto).
  assert (G : i_more i = true -> out = firstn (length out) expected /\ length out < length recs).
  { intros M. destruct (V1 M) as (_ & He & c & blk & _ & _ & Lb & Nb & Eo).
    rewrite <- Le, Ee.
    set (D := data fwd (stream_bids fwd ds) (w_disk s)) in *.
    assert (S1 : D = firstn c D ++ ord fwd blk :: skipn (S c) D).
    { clearbody D. clear - Nb. revert D Nb. induction c; intros [|x D] Nb; cbn in *; try discriminate.
      - inversion Nb; auto.
      - f_equal. apply IHc; auto. }
    assert (S2 : concat D = out ++ skipn (pos B fwd (i_elem i)) (ord fwd blk) ++ concat (skipn (S c) D)).
    { rewrite S1 at 1. rewrite concat_app. cbn [concat]. rewrite Eo, <- app_assoc. f_equal.
      rewrite app_assoc, firstn_skipn. auto. }
    rewrite S2. split.
    - rewrite firstn_app, firstn_all, Nat.sub_diag. cbn. rewrite app_nil_r. auto.
    - rewrite !app_length, skipn_length, ord_len, Lb.
      assert (pos B fwd (i_elem i) < B) by (unfold pos; destruct fwd; lia). lia. }
  csplit.
  - destruct (i_more i) eqn:M; [apply G; auto|]. rewrite (V2 eq_refl), <- Ee, firstn_all. auto.
  - intros M. apply G; auto.
  - intros M. rewrite Ee. auto.
Qed.

(** ** The operations terminate *)

Lemma getting_ends : forall s : wst (list R), returns s ->
  ((exists b d, w_pc s = WFlush b d) \/ (exists b d, w_pc s = WPush b d) \/
   (exists k, w_pc s = GPoll k) \/ w_pc s = GTake) ->
  exists t s2 b s3, sys s t s2 /\ sstep s2 (LRet b) s3.
Proof.
  intros s H. induction H as [s H|s Ex _ IH]; intros A.
  - exfalso. destruct A as [(b & d & A)|[(b & d & A)|[(k & A)|A]]]; destruct H; congruence.
  - destruct Ex as (l & s' & St).
    assert (X : (exists b, l = LRet b) \/
      ((exists b d, w_pc s' = WFlush b d) \/ (exists b d, w_pc s' = WPush b d) \/
       (exists k, w_pc s' = GPoll k) \/ w_pc s' = GTake)).
    { destruct St as [St|St]; inversion St; subst; eauto;
        try (right; proj; eauto 8; fail);
        destruct A as [(b1 & d1 & A)|[(b1 & d1 & A)|[(k1 & A)|A]]]; congruence. }
    destruct X as [(b & ->)|X].
    + exists [], s, b, s'. split; auto. constructor.
    + destruct (IH _ _ St X) as (t & s2 & b & s3 & X1 & X2).
      exists (l :: t), s2, b, s3. split; auto. econstructor; eauto.
Qed.

Lemma closing_ends : forall s : wst (list R), returns s ->
  (w_pc s = DFlush \/ exists l, w_pc s = DWait l) ->
  exists t s2 s3, sys s t s2 /\ sstep s2 LDestroyed s3.
Proof.
  intros s H. induction H as [s H|s Ex _ IH]; intros A.
  - exfalso. destruct A as [A|(l & A)]; destruct H; congruence.
  - destruct Ex as (l & s' & St).
    assert (X : l = LDestroyed \/ (w_pc s' = DFlush \/ exists l, w_pc s' = DWait l)).
    { destruct St as [St|St]; inversion St; subst; eauto;
        try (right; proj; eauto 8; fail);
        destruct A as [A|(l1 & A)]; congruence. }
    destruct X as [->|X].
    + exists [], s, s'. split; auto. constructor.
    + destruct (IH _ _ St X) as (t & s2 & s3 & X1 & X2).
      exists (l :: t), s2, s3. split; auto. econstructor; eauto.
Qed.

Lemma wbs : w_bs w0 < w_n w0.
Proof. apply C42_ostream_safe. Qed.

(** The constructor returns. *)
Theorem C40_open_returns : exists tr o, orun B w0 bids [] tr o.
Proof.
  assert (St : cstep w0 LGet (set_pc w0 (GPoll 0))) by (constructor; reflexivity).
  assert (Rt : returns (set_pc w0 (GPoll 0))).
  { eapply C42_calls_return.
    - apply wrun_one. left. exact St.
    - intros [Q|[]]; discriminate.
    - change (length (w_held (set_pc w0 (GPoll 0)))) with 0. pose proof wbs. unfold w0 in *. lia. }
  destruct (getting_ends _ Rt) as (t & s2 & b & s3 & X1 & X2).
  { right; right; left. eexists; reflexivity. }
  do 2 eexists. eapply ONew; eauto.
Qed.

(** Every record can be put: operator << never blocks forever, whatever the
    I/O layer does. *)
Theorem C40_put_returns : forall recs tr o r, orun B w0 bids recs tr o ->
  (exists t o', orun B w0 bids (recs ++ [r]) (tr ++ t) o') /\
  (forall s1 b d a s2 t s3, cstep (o_w o) (LFill (o_cur o) b) s1 ->
     cstep s1 (LWrite (o_cur o) d a) s2 -> sys s2 t s3 -> returns s3 \/ exists c, In (LRet c) t).
Proof.
  clear Hbids. intros recs tr o r H.
  destruct (orun_inv B HB nb (nb / 2) mem0 bids0 disk0 bids Hmem _ _ _ H) as [oi_run0 oi_disc0 oi_pc0 oi_held0 oi_elem0 oi_mem0 oi_bids0 oi_len0 oi_recs0].
  set (s1 := MkW (w_n (o_w o)) (w_bs (o_w o))
        (updn (w_mem (o_w o)) (o_cur o) (set_nth (o_elem o) r (w_mem (o_w o) (o_cur o))))
        (w_bids (o_w o)) (w_wreqs (o_w o)) (w_free (o_w o)) (w_busy (o_w o))
        (w_batch (o_w o)) (w_reqs (o_w o)) (w_disk (o_w o)) Idle (w_held (o_w o))).
  assert (St1 : cstep (o_w o) (LFill (o_cur o) (set_nth (o_elem o) r (w_mem (o_w o) (o_cur o)))) s1).
  { apply CFill; auto. rewrite oi_held0. left; auto. }
  assert (Gen : forall s1 b d a s2, cstep (o_w o) (LFill (o_cur o) b) s1 ->
     cstep s1 (LWrite (o_cur o) d a) s2 ->
     wrun w0 (tr ++ LFill (o_cur o) b :: [LWrite (o_cur o) d a]) s2 /\
     disciplined (tr ++ LFill (o_cur o) b :: [LWrite (o_cur o) d a]) /\ w_held s2 = []).
  { intros s1' b d a s2 Q1 Q2. csplit.
    - eapply wrun_app; [eauto|]. eapply wrun_front; [left; eauto|]. apply wrun_one. left; auto.
    - apply disc_app; auto. intros [Q|[Q|[]]]; discriminate.
    - destruct (fill_step _ _ _ _ Q1) as (_ & Hh & _).
      eapply (write_step _ _ _ _ _ Q2). congruence. }
  split.
  - destruct (le_lt_dec B (S (o_elem o))) as [L|L].
    + set (s2 := set_held (set_pc s1 (enter_write s1 (o_cur o) (bids (o_bid o)))) ([] ++ [])).
      assert (St2 : cstep s1 (LWrite (o_cur o) (bids (o_bid o)) (w_mem s1 (o_cur o))) s2).
      { apply (CWrite s1 [] (o_cur o) []); auto. }
      destruct (Gen _ _ _ _ _ St1 St2) as (G1 & G2 & G3).
      assert (Rt : returns s2).
      { eapply C42_calls_return; eauto. rewrite G3. cbn [length]. pose proof wbs. unfold w0 in *. lia. }
      destruct (getting_ends _ Rt) as (t & s3 & b & s4 & X1 & X2).
      { unfold s2. cbn [set_held set_pc w_pc]. unfold enter_write.
        destruct (w_bs s1 <=? length (w_batch s1)); eauto 6. }
      do 2 eexists. eapply OPutWrite; eauto.
    + do 2 eexists. eapply OPut; eauto.
  - intros s1' b d a s2 t s3 Q1 Q2 Q3. destruct (Gen _ _ _ _ _ Q1 Q2) as (G1 & G2 & G3).
    destruct (w_held s3) as [|x h] eqn:Hh.
    + left. eapply C42_calls_return.
      * eapply wrun_app; [exact G1|]. apply sys_run; eauto.
      * apply disc_app; auto. eapply (sys_active _ _ _ Q3).
      * rewrite Hh. cbn [length]. pose proof wbs. unfold w0 in *. lia.
    + right. clear - Q3 G3 Hh. induction Q3; [congruence|].
      destruct (sstep_facts _ _ _ H) as (_ & _ & _ & _ & _ & [(c & -> & _)|(E & _)]).
      * exists c. left; auto.
      * destruct IHQ3 as (c & Q); [congruence|auto|]. exists c. right; auto.
Qed.

(** The destructor returns. *)
Theorem C40_close_returns : forall recs tr o, orun B w0 bids recs tr o -> o_elem o = 0 ->
  exists t s, oclose o t s.
Proof.
  intros recs tr o H E.
  destruct (orun_inv B HB nb (nb / 2) mem0 bids0 disk0 bids Hmem _ _ _ H) as [oi_run0 oi_disc0 oi_pc0 oi_held0 oi_elem0 oi_mem0 oi_bids0 oi_len0 oi_recs0].
  assert (St : cstep (o_w o) LDestroy (set_held (set_pc (o_w o) DFlush) [])) by (constructor; auto).
  assert (Rt : returns (set_held (set_pc (o_w o) DFlush) [])).
  { eapply C42_calls_return.
    - eapply wrun_app; [eauto|]. apply wrun_one. left. exact St.
    - apply disc_app; auto. intros [Q|[]]; discriminate.
    - cbn [set_held w_held length]. pose proof wbs. unfold w0 in *. lia. }
  destruct (closing_ends _ Rt) as (t & s2 & s3 & X1 & X2).
  { left. reflexivity. }
  do 2 eexists. eapply OClose; eauto.
Qed.

End Props.

Print Assumptions C40_position.
Print Assumptions C40_fill_completes.
Print Assumptions C40_written.
Print Assumptions C40_roundtrip.
Print Assumptions C40_open_returns.
Print Assumptions C40_put_returns.
Print Assumptions C40_close_returns.

Section Reading.
Context {R : Type}.
Variable B : nat.
Hypothesis HB : 1 <= B.
Variables (fwd : bool) (bids : list bid) (disks : list (option nat)) (D : nat) (ndisks nbufs : Z)
          (sq : list nat) (disk : bid -> list R) (mem : nat -> option (list R)) (p0 : pst (list R)).
Hypothesis Hnd : (1 <= ndisks)%Z.
Hypothesis Hdisks : length disks = length bids.
Hypothesis Hids : ids_up_to D disks.
Hypothesis Hsched : schedule disks (nbuffers ndisks nbufs) D sq.
Hypothesis Hinit : p_init bids sq (nbuffers ndisks nbufs) disk mem = Some p0.
Hypothesis Hlen : forall d, In d bids -> length (disk d) = B.

Lemma nbuffers_pos : 1 <= nbuffers ndisks nbufs.
Proof. clear - Hnd. unfold nbuffers. lia. Qed.

Lemma sched_facts : all_blocks_once (length bids) sq /\
  never_starves (min (nbuffers ndisks nbufs) (length bids)) (length bids) sq.
Proof.
  rewrite <- Hdisks. eapply C39_computed_schedule; eauto. apply nbuffers_pos.
Qed.

Lemma free_returns : forall tr s, prun false p0 tr s -> p_held s = [] -> p_returns s.
Proof.
  intros tr s Rn E. destruct sched_facts as (F1 & F2).
  eapply C39_calls_return; eauto. rewrite E. cbn [length]. rewrite Nat.sub_0_r. auto.
Qed.

Lemma ctor_ends : forall s, p_returns s -> forall tr, prun false p0 tr s -> (exists i, p_pc s = PCtor i) ->
  exists t s2, psys s t s2 /\ p_pc s2 = PIdle.
Proof.
  intros s H. induction H as [s H|s Ex _ IH]; intros tr Rn (i & A).
  - exfalso. destruct H; congruence.
  - destruct Ex as (l & s' & St). destruct sched_facts as (F1 & _).
    assert (Rn' : prun false p0 (tr ++ [l]) s') by (econstructor; [eauto|right; auto]).
    destruct (C39_in_order _ _ _ _ _ _ _ _ F1 Hinit Rn') as (_ & _ & NF).
    assert (Y : psys s [l] s') by (econstructor; eauto; constructor).
    destruct (idle_psys _ _ _ Y) as [Z|[Z|Z]]; eauto; [congruence|].
    destruct (IH _ _ St _ Rn' Z) as (t & s2 & X1 & X2).
    exists (l :: t), s2. split; auto. econstructor; eauto.
Qed.

(** The constructor of an input stream returns. *)
Theorem C40_input_open_returns : exists tr i, irun B fwd p0 [] tr i.
Proof.
  destruct sched_facts as (F1 & _).
  assert (Pc0 : p_pc p0 = PCtor 0 /\ p_held p0 = [] /\ 0 < length bids).
  { clear - Hinit. unfold p_init in Hinit. destruct (length bids), (nbuffers ndisks nbufs); inversion Hinit; csplit; auto. lia. }
  destruct Pc0 as (Pc0 & Hh0 & Lb).
  assert (Rt : p_returns p0) by (eapply free_returns; eauto; constructor).
  destruct (ctor_ends _ Rt [] (PNil _ _)) as (t1 & s1 & X1 & X2); [eauto|].
  destruct (ctor_psys _ _ _ X1) as (Hh1 & D1); [eauto|auto|].
  pose proof (psys_run _ _ _ X1) as R1.
  assert (St : pcstep s1 FPull (start_wait s1)).
  { apply QPull; auto.
    destruct (prun_inv _ _ _ _ _ _ _ _ F1 Hinit R1) as (back & ret & hs & [C P (T1 & T2)]).
    unfold Pc in P. rewrite X2 in P. destruct P as (_ & P & _).
    destruct (k_const _ _ _ _ _ _ _ _ C) as (Eb & _). unfold p_len. rewrite Eb, P, <- T2, D1. auto. }
  assert (R2 : prun false p0 (t1 ++ [FPull]) (start_wait s1)).
  { eapply prun_app; [|eauto]. eapply prun_front; [left; eauto|constructor]. }
  assert (Rt2 : p_returns (start_wait s1)).
  { eapply free_returns; eauto. cbn [start_wait p_held]. congruence. }
  destruct (wait_ends _ _ _ _ _ _ F1 Hinit _ Rt2 _ R2) as (t & s2 & l & s3 & Y1 & Y2 & Y3); [right; eexists; reflexivity|].
  destruct Y3 as [(b & a & ->)|E].
  - do 2 eexists. eapply INew; eauto.
  - exfalso. subst l.
    assert (R3 : prun false p0 ((t1 ++ [FPull]) ++ t ++ [FNone]) s3).
    { eapply prun_app; [|eauto]. eapply prun_app; [|apply psys_run; eauto].
      eapply prun_front; [right; eauto|constructor]. }
    pose proof (C39_complete _ _ _ _ _ _ _ _ F1 Hinit R3) as Q.
    assert (PL : p_last ((t1 ++ [FPull]) ++ t ++ [FNone]) FNone).
    { exists ((t1 ++ [FPull]) ++ t). rewrite !app_assoc. reflexivity. }
    specialize (Q PL).
    assert (Eg : exists b, p_pc s2 = PGiven b) by (destruct Y2 as [Z|Z]; inversion Z; eauto).
    destruct Eg as (b & Eg).
    destruct (psys_active _ _ _ Y1) as (_ & D2); [congruence|].
    rewrite !delivered_app, D1, D2 in Q. cbn in Q. apply (f_equal (@length _)) in Q.
    unfold stream in Q. rewrite map_length in Q. cbn in Q. lia.
Qed.

(** As long as the stream has not ended another record can be read. *)
Theorem C40_get_returns : forall out tr i, irun B fwd p0 out tr i -> i_more i = true ->
  exists r t i', irun B fwd p0 (out ++ [r]) (tr ++ t) i'.
Proof.
  intros out tr i H M. destruct sched_facts as (F1 & _).
  destruct (irun_inv B HB fwd _ _ _ _ _ _ F1 Hinit Hlen _ _ _ H) as [V1 V2 V3 _].
  destruct (V3 M) as (Hh & He & c & blk & L & Em & Lb & _ & _).
  destruct (nth_error blk (i_elem i)) as [r|] eqn:N; [|apply nth_error_None in N; lia].
  exists r. destruct (block_done B fwd (i_elem i)) eqn:Bd.
  - set (s1 := set_pheld (set_ppc (i_p i) (PGiven (i_cur i))) ([] ++ [])).
    assert (St : pcstep (i_p i) (FGive (i_cur i)) s1).
    { apply (QGive _ [] (i_cur i) []); auto. }
    assert (R2 : prun false p0 (tr ++ [FGive (i_cur i)]) s1).
    { eapply prun_app; [|eauto]. eapply prun_front; [left; eauto|constructor]. }
    assert (Rt : p_returns s1) by (eapply free_returns; eauto).
    destruct (wait_ends _ _ _ _ _ _ F1 Hinit _ Rt _ R2) as (t & s2 & l & s3 & Y1 & Y2 & Y3);
      [left; eexists; reflexivity|].
    destruct Y3 as [(b & a & ->)| ->].
    + do 2 eexists. eapply IGetNext; eauto.
    + do 2 eexists. eapply IGetLast; eauto.
  - exists []. rewrite app_nil_r. eexists. eapply IGet; eauto.
Qed.

End Reading.
Print Assumptions C40_input_open_returns.
Print Assumptions C40_get_returns.

(** ** Complete runs *)

Lemma put_all : forall {R} B nb mem0 bids0 (disk0 : bid -> list R) bids,
  1 <= B -> (forall b, length (mem0 b) = B) ->
  forall recs, exists tr o, orun B (w_init nb (nb / 2) mem0 bids0 disk0) bids recs tr o.
Proof.
  intros R B nb mem0 bids0 disk0 bids HB Hm recs. induction recs as [|r recs IH] using rev_ind.
  - apply C40_open_returns; auto.
  - destruct IH as (tr & o & H). destruct (C40_put_returns B HB nb mem0 bids0 disk0 bids Hm _ _ _ r H) as ((t & o' & H') & _).
    eauto.
Qed.

(** Any number of blocks of records can be written and read back, forwards
    and backwards. *)
Theorem C40_everything_comes_back : forall {R} B nb mem0 bids0 (disk0 : bid -> list R) bids
    (recs : list R) n D (device : bid -> option nat) ndisks nbufs mem fwd,
  1 <= B -> (forall b, length (mem0 b) = B) -> (forall i j, bids i = bids j -> i = j) ->
  (1 <= ndisks)%Z -> (forall i d, device (bids i) = Some d -> d <= D) ->
  length recs = S n * B ->
  exists tr o t s, orun B (w_init nb (nb / 2) mem0 bids0 disk0) bids recs tr o /\ oclose o t s /\
    let ds := stream_bids fwd (map bids (seq 0 (S n))) in
    exists sq p0 tr' i, schedule (map device ds) (nbuffers ndisks nbufs) D sq /\
      p_init ds sq (nbuffers ndisks nbufs) (w_disk s) mem = Some p0 /\
      irun B fwd p0 (if fwd then recs else rev recs) tr' i /\ i_more i = false.
Proof.
  intros R B nb mem0 bids0 disk0 bids recs n D device ndisks nbufs mem fwd HB Hm Hb Hn Hdev Hl.
  destruct (put_all B nb mem0 bids0 disk0 bids HB Hm recs) as (tr & o & Ho).
  destruct (C40_position B HB nb mem0 bids0 disk0 bids Hm _ _ _ Ho) as (P1 & P2).
  assert (E : o_bid o = S n /\ o_elem o = 0).
  { assert (o_bid o = S n) by nia. split; auto. nia. }
  destruct E as (Eb & Ee).
  destruct (C40_close_returns B HB nb mem0 bids0 disk0 bids Hm _ _ _ Ho Ee) as (t & s & Hc).
  exists tr, o, t, s. csplit; auto. intros ds.
  assert (Ld : length ds = S n).
  { unfold ds, stream_bids. destruct fwd; rewrite ?rev_length, map_length, seq_length; auto. }
  assert (In_ds : forall d, In d ds -> exists k, k < S n /\ d = bids k).
  { intros d Q. assert (Q' : In d (map bids (seq 0 (S n)))).
    { unfold ds, stream_bids in Q; destruct fwd; auto. apply in_rev; auto. }
    apply in_map_iff in Q'. destruct Q' as (k & <- & Q'). apply in_seq in Q'. exists k. split; auto. lia. }
  assert (Hids : ids_up_to D (map device ds)).
  { intros d Q. apply in_map_iff in Q. destruct Q as (x & E & Q). apply In_ds in Q.
    destruct Q as (k & _ & ->). eauto. }
  pose proof (nbuffers_pos ndisks nbufs Hn) as Np.
  destruct (C36_schedule_is_permutation (map device ds) (nbuffers ndisks nbufs) D Hids Np) as ((sq & Hs) & Hperm).
  pose proof (Hperm _ Hs) as Hsq. rewrite map_length in Hsq.
  assert (Hi : exists p0, p_init ds sq (nbuffers ndisks nbufs) (w_disk s) mem = Some p0).
  { unfold p_init. rewrite Ld. destruct (nbuffers ndisks nbufs); [lia|]. eauto. }
  destruct Hi as (p0 & Hi).
  destruct (C40_written B HB nb mem0 bids0 disk0 bids Hm Hb _ _ _ _ _ Ho Hc) as (_ & W & _).
  assert (Hlen : forall d, In d ds -> length (w_disk s d) = B).
  { intros d Q. apply In_ds in Q. destruct Q as (k & Lk & ->). apply W. lia. }
  assert (Ldev : length (map device ds) = length ds) by apply map_length.
  assert (RT : forall out tr' i, irun B fwd p0 out tr' i ->
    out = firstn (length out) (if fwd then recs else rev recs) /\
    (i_more i = true -> length out < length recs) /\
    (i_more i = false -> out = if fwd then recs else rev recs)).
  { intros out tr' i Hr. eapply (C40_roundtrip B HB nb mem0 bids0 disk0 bids Hm Hb); eauto; rewrite Eb; eauto.
    rewrite <- Ld. auto. }
  assert (Go : forall k out tr' i, irun B fwd p0 out tr' i -> length recs - length out = k ->
     exists tr'' i', irun B fwd p0 (if fwd then recs else rev recs) tr'' i' /\ i_more i' = false).
  { induction k; intros out tr' i Hr Ek; destruct (RT _ _ _ Hr) as (X1 & X2 & X3); destruct (i_more i) eqn:M.
    - specialize (X2 eq_refl). lia.
    - rewrite <- (X3 eq_refl). eauto.
    - destruct (C40_get_returns B HB fwd ds (map device ds) D ndisks nbufs sq (w_disk s) mem p0 Hn Ldev Hids Hs Hi Hlen _ _ _ Hr M)
        as (r & t' & i' & Hr').
      eapply IHk; [exact Hr'|]. rewrite app_length. cbn [length]. lia.
    - rewrite <- (X3 eq_refl). eauto. }
  destruct (C40_input_open_returns B HB fwd ds (map device ds) D ndisks nbufs sq (w_disk s) mem p0 Hn Ldev Hids Hs Hi)
    as (tr' & i & Hr).
  destruct (Go _ _ _ _ Hr eq_refl) as (tr'' & i' & G1 & G2).
  exists sq, p0, tr'', i'. csplit; auto.
Qed.
Print Assumptions C40_everything_comes_back.

(** Six records in blocks of two on two disks, read backwards. *)
Example C40_case : exists tr o t s,
  orun 2 (w_init 3 1 (fun _ => [0; 0]) (fun _ => MkBid 0 0) (fun _ => [9; 9]))
       (fun k => MkBid (k mod 2) (Z.of_nat k)) [1; 2; 3; 4; 5; 6] tr o /\
  oclose o t s /\ w_disk s (MkBid 1 1) = [3; 4] /\ w_disk s (MkBid 1 3) = [9; 9] /\
  exists sq p0 tr' i,
    p_init (rev (map (fun k => MkBid (k mod 2) (Z.of_nat k)) [0; 1; 2])) sq 4 (w_disk s)
           (fun _ => None) = Some p0 /\
    irun 2 false p0 [6; 5; 4; 3; 2; 1] tr' i /\ i_more i = false.
Proof.
  set (bids := fun k => MkBid (k mod 2) (Z.of_nat k)).
  assert (Hm : forall b : nat, length ((fun _ : nat => [0; 0]) b) = 2) by auto.
  assert (Hb : forall i j, bids i = bids j -> i = j).
  { unfold bids. intros i j Q. inversion Q. lia. }
  assert (HB : 1 <= 2) by lia.
  destruct (C40_everything_comes_back 2 3 (fun _ => [0; 0]) (fun _ => MkBid 0 0) (fun _ => [9; 9]) bids
     [1; 2; 3; 4; 5; 6] 2 1 (fun d => Some (b_storage d)) 2 5 (fun _ => None) false)
    as (tr & o & t & s & Ho & Hc & sq & p0 & tr' & i & _ & Hi & Hr & M); auto; try lia.
  { unfold bids. cbn [b_storage]. intros k d Q. injection Q as <-.
    assert (k mod 2 < 2) by (apply Nat.mod_upper_bound; lia). apply Nat.lt_succ_r. auto. }
  destruct (C40_position 2 HB _ _ _ _ _ Hm _ _ _ Ho) as (P1 & P2). cbn in P1.
  assert (Eb : o_bid o = 3) by lia.
  destruct (C40_written 2 HB _ _ _ _ _ Hm Hb _ _ _ _ _ Ho Hc) as (W1 & W2 & W3).
  exists tr, o, t, s. csplit; auto.
  - pose proof (W2 0) as L0. pose proof (W2 1) as L1. rewrite Eb in W1, L0, L1. cbn in W1, L0, L1.
    specialize (L0 ltac:(lia)). specialize (L1 ltac:(lia)).
    destruct (w_disk s (bids 0)) as [|x [|y [|]]]; try discriminate.
    unfold bids in W1, L1. cbn in W1, L1.
    destruct (w_disk s (MkBid 1 1)) as [|x' [|y' [|]]]; try discriminate.
    cbn in W1. inversion W1; auto.
  - apply W3. rewrite Eb. cbn. intros [Q|[Q|[Q|[]]]]; inversion Q.
  - exists sq, p0, tr', i. csplit; auto.
Qed.
