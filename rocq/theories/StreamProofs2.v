(** Streams: the invariant of the input streams, termination. *)

From Coq Require Import List Arith Bool ZArith Lia Permutation.
From Verif Require Import WriterModel WriterSpec WriterProofs WriterProofs2 WriterProofs3 WriterProps
  PrefetchModel PrefetchSpec ScheduleModel ScheduleSpec PrefetchProofs PrefetchProofs2 PrefetchProofs3 PrefetchProps
  StreamModel StreamProofs.
Import ListNotations.

Section IStream.
Context {R : Type}.
Variable B : nat.
Hypothesis HB : 1 <= B.
Local Notation block := (list R).

Lemma prun_front : forall (s1 : pst block) l s2 t s3, pstep false s1 l s2 -> prun false s2 t s3 ->
  prun false s1 (l :: t) s3.
Proof. intros. eapply prun_front_eq; eauto. Qed.

Lemma prun_app : forall (s2 : pst block) t2 s3, prun false s2 t2 s3 -> forall s1 t1,
  prun false s1 t1 s2 -> prun false s1 (t1 ++ t2) s3.
Proof.
  intros s2 t2 s3 H. induction H; intros.
  - rewrite app_nil_r; auto.
  - rewrite app_assoc. econstructor; eauto.
Qed.

Lemma psys_run : forall (s s' : pst block) t, psys s t s' -> prun false s t s'.
Proof.
  intros s s' t H. induction H; [constructor|]. eapply prun_front; eauto. right; auto.
Qed.

Lemma consumed_held : forall (s : pst block) b, p_held (consumed s b) = p_held s.
Proof.
  intros. unfold consumed, refill. destruct (p_nread (clear_req s b) <? p_len (clear_req s b)); auto.
  destruct (b <? p_n (clear_req s b)); auto.
  destruct (nth_error (p_seq (clear_req s b)) (p_nread (clear_req s b))); auto.
  destruct ((n <? p_len (clear_req s b)) && negb (p_on (clear_req s b) n)); auto.
Qed.

Lemma psstep_facts : forall (s : pst block) l s', psstep false s l s' ->
  (exists b, l = FRet b (p_mem s b) /\ p_held s' = b :: p_held s /\ p_pc s' = PIdle /\ p_mem s' = p_mem s) \/
  (p_held s' = p_held s /\ delivered [l] = []).
Proof.
  intros s l s' [H|H]; inversion H; subst;
    try (right; split; [|reflexivity]; cbn [set_ppc set_pheld start_wait set_req p_held];
         rewrite ?consumed_held; auto; fail).
  - right. split; auto. unfold ctor_body. destruct (nth_error (p_seq s) i); auto.
    destruct (n <? p_len s); auto.
  - left. eexists. csplit; reflexivity.
Qed.

Lemma idle_psys : forall (s s' : pst block) t, psys s t s' -> (p_pc s = PIdle \/ exists i, p_pc s = PCtor i) ->
  p_pc s' = PIdle \/ p_pc s' = PFail \/ exists i, p_pc s' = PCtor i.
Proof.
  intros s s' t H. induction H; intros E; [tauto|].
  destruct H as [H|H].
  - inversion H; subst; destruct E as [E|(j & E)]; try congruence.
    + unfold ctor_body in *. destruct (nth_error (p_seq s1) i).
      * destruct (n <? p_len s1).
        -- apply IHpsys. right; eexists; reflexivity.
        -- clear - H0. remember (set_ppc s1 PFail) as s2. assert (p_pc s2 = PFail) by (subst; auto).
           clear Heqs2. right; left. induction H0; auto. apply IHpsys.
           destruct H0 as [H0|H0]; inversion H0; subst; try congruence; auto.
      * clear - H0. remember (set_ppc s1 PFail) as s2. assert (p_pc s2 = PFail) by (subst; auto).
        clear Heqs2. right; left. induction H0; auto. apply IHpsys.
        destruct H0 as [H0|H0]; inversion H0; subst; try congruence; auto.
    + apply IHpsys. left; reflexivity.
  - apply IHpsys. inversion H; subst; cbn [set_req p_pc]; auto.
Qed.

Lemma ret_pc : forall (s s' : pst block) b a, psstep false s (FRet b a) s' -> exists k, p_pc s = PWait k.
Proof. intros s s' b a [H|H]; inversion H; subst; eauto. Qed.

Lemma ctor_psys : forall (s s' : pst block) t, psys s t s' -> (p_pc s = PIdle \/ exists i, p_pc s = PCtor i) ->
  p_pc s' = PIdle -> p_held s' = p_held s /\ delivered t = [].
Proof.
  intros s s' t H. induction H; intros E E'; auto.
  assert (X : (p_pc s2 = PIdle \/ exists i, p_pc s2 = PCtor i)).
  { assert (Y : psys s1 [l] s2) by (econstructor; eauto; constructor).
    destruct (idle_psys _ _ _ Y E) as [Z|[Z|Z]]; auto. exfalso.
    clear - H0 Z E'. induction H0; [congruence|]. apply IHpsys; auto.
    destruct H as [H|H]; inversion H; subst; try congruence; auto. }
  destruct (IHpsys X E') as (X1 & X2).
  destruct (psstep_facts _ _ _ H) as [(b & -> & _)|(Y1 & Y2)].
  - exfalso. destruct (ret_pc _ _ _ _ H) as (k & Ek). destruct E as [E|(i & E)]; congruence.
  - split; [congruence|]. change (l :: tr) with ([l] ++ tr). rewrite delivered_app, Y2, X2. auto.
Qed.

Lemma idle_stays : forall (s s' : pst block) t, psys s t s' -> p_pc s = PIdle -> p_pc s' = PIdle.
Proof.
  intros s s' t H. induction H; intros E; auto. apply IHpsys.
  destruct H as [H|H]; inversion H; subst; try congruence; auto.
Qed.

Lemma psys_active : forall (s s' : pst block) t, psys s t s' -> p_pc s' <> PIdle ->
  p_held s' = p_held s /\ delivered t = [].
Proof.
  intros s s' t H. induction H; intros E; auto.
  destruct (IHpsys E) as (X1 & X2).
  destruct (psstep_facts _ _ _ H) as [(b & _ & _ & Y & _)|(Y1 & Y2)].
  - exfalso. apply E. eapply idle_stays; eauto.
  - split; [congruence|]. change (l :: tr) with ([l] ++ tr). rewrite delivered_app, Y2, X2. auto.
Qed.

Variables (fwd : bool) (bids : list bid) (sq : list nat) (bufs : nat) (disk : bid -> block)
          (mem : nat -> option block) (p0 : pst block).
Hypothesis Hsq : all_blocks_once (length bids) sq.
Hypothesis H0 : p_init bids sq bufs disk mem = Some p0.
Hypothesis Hlen : forall d, In d bids -> length (disk d) = B.

Definition ord (b : block) : block := if fwd then b else rev b.
Definition pos (e : nat) : nat := if fwd then e else B - 1 - e.
Definition data : list block := map ord (map disk bids).

Record IInv (out : list R) (tr : list (plabel block)) (i : ist R) : Prop := mkIInv {
  ii_run : prun false p0 tr (i_p i);
  ii_pc : p_pc (i_p i) = PIdle;
  ii_more : i_more i = true ->
    p_held (i_p i) = [i_cur i] /\ i_elem i < B /\
    exists c blk, length (delivered tr) = S c /\ p_mem (i_p i) (i_cur i) = Some blk /\
      length blk = B /\ nth_error data c = Some (ord blk) /\
      out = concat (firstn c data) ++ firstn (pos (i_elem i)) (ord blk);
  ii_done : i_more i = false -> out = concat data
}.

Lemma ord_len : forall b, length (ord b) = length b.
Proof. intros. unfold ord. destruct fwd; auto. apply rev_length. Qed.

Lemma delivered_nth : forall tr s c a, prun false p0 tr s -> delivered tr = c ++ [a] ->
  exists blk, a = Some blk /\ length blk = B /\ nth_error data (length c) = Some (ord blk).
Proof.
  intros tr s c a Rn E. destruct (C39_in_order _ _ _ _ _ _ _ _ Hsq H0 Rn) as (X1 & X2 & _).
  assert (N : nth_error (delivered tr) (length c) = Some a).
  { rewrite E, nth_error_app2, Nat.sub_diag by lia; auto. }
  rewrite X1 in N.
  assert (N' : nth_error (stream disk bids) (length c) = Some a).
  { clear - N. revert N. generalize (length (delivered tr)) (length c) (stream disk bids).
    intros n m l. revert n m. induction l; intros [|n] [|m]; cbn; auto; try discriminate. apply IHl. }
  unfold stream in N'. rewrite nth_error_map in N'.
  destruct (nth_error bids (length c)) as [d|] eqn:D; [|discriminate]. cbn in N'. inversion N'; subst.
  exists (disk d). csplit; auto.
  - apply Hlen. eapply nth_error_In; eauto.
  - unfold data. rewrite !nth_error_map, D. auto.
Qed.

Lemma first_pos : pos (first_elem B fwd) = 0 /\ first_elem B fwd < B.
Proof. unfold pos, first_elem. destruct fwd; lia. Qed.

Lemma get_last : forall blk e r, length blk = B -> e < B -> nth_error blk e = Some r ->
  firstn (pos e) (ord blk) ++ [r] = firstn (S (pos e)) (ord blk).
Proof.
  intros blk e r L He N. symmetry. apply firstn_snoc. unfold pos, ord. destruct fwd; auto.
  rewrite <- N, <- L. apply rev_nth_error. lia.
Qed.

Lemma done_pos : forall e, e < B -> block_done B fwd e = true -> S (pos e) = B.
Proof.
  intros e He D. unfold block_done, pos in *. destruct fwd.
  - apply Nat.leb_le in D. lia.
  - apply Nat.eqb_eq in D. lia.
Qed.

Lemma next_pos : forall e, e < B -> block_done B fwd e = false ->
  pos (next_elem fwd e) = S (pos e) /\ next_elem fwd e < B.
Proof.
  intros e He D. unfold block_done, pos, next_elem in *. destruct fwd.
  - apply Nat.leb_gt in D. lia.
  - apply Nat.eqb_neq in D. lia.
Qed.

Lemma irun_inv : forall out tr i, irun B fwd p0 out tr i -> IInv out tr i.
Proof.
  intros out tr i H. destruct first_pos as (FP & FE). induction H.
  - (* constructor *)
    assert (Pc0 : p_pc p0 = PCtor 0 /\ p_held p0 = []).
    { clear - H0. unfold p_init in H0. destruct (length bids), bufs; inversion H0; auto. }
    destruct Pc0 as (Pc0 & Hh0).
    assert (E2 : s2 = start_wait s1 /\ p_pc s1 = PIdle) by (inversion H1; auto).
    destruct E2 as (E2 & Ei).
    destruct (ctor_psys _ _ _ H) as (Hh1 & D1); [eauto|auto|].
    destruct (ret_pc _ _ _ _ H3) as (k & Ek).
    destruct (psys_active _ _ _ H2) as (Hh3 & D3); [congruence|].
    assert (Rn : prun false p0 (t1 ++ FPull :: t2 ++ [FRet b a]) s4).
    { eapply prun_app; [|apply psys_run; eauto]. eapply prun_front; [left; eauto|].
      eapply prun_app; [|apply psys_run; eauto]. eapply prun_front; [right; eauto|constructor]. }
    assert (Ed : delivered (t1 ++ FPull :: t2 ++ [FRet b a]) = [] ++ [a]).
    { rewrite delivered_app. cbn [delivered]. rewrite delivered_app, D1, D3. auto. }
    destruct (delivered_nth _ _ _ _ Rn Ed) as (blk & -> & Lb & Nb).
    destruct (psstep_facts _ _ _ H3) as [(b' & Eb & Hh4 & Ei4 & M4)|(_ & Q)]; [|discriminate].
    inversion Eb; subst b'.
    constructor; cbn [i_p i_cur i_elem i_more]; auto; [|discriminate].
    intros _. csplit; auto.
    + rewrite Hh4, Hh3, E2. cbn [start_wait p_held]. rewrite Hh1, Hh0. auto.
    + exists 0, blk. csplit; auto.
      * rewrite Ed. auto.
      * congruence.
      * rewrite FP. auto.
  - (* I/O *)
    destruct IHirun.
    assert (Pcs : p_pc s' = p_pc (i_p i) /\ p_held s' = p_held (i_p i) /\ delivered [l] = []).
    { inversion H1; subst; auto. }
    destruct Pcs as (Pcs & Hhs & Dl).
    constructor; cbn [i_p i_cur i_elem i_more].
    + econstructor; eauto. right; right; auto.
    + congruence.
    + intros M. destruct (ii_more0 M) as (X1 & X2 & c & blk & X3 & X4 & X5 & X6 & X7).
      csplit; auto; [congruence|]. exists c, blk. csplit; auto.
      * rewrite delivered_app, Dl, app_nil_r; auto.
      * rewrite <- X4.
        destruct (C39_held_buffers_untouched _ _ _ _ _ _ _ _ Hsq H0 ii_run0) as (_ & _ & _ & U).
        apply (U _ l). { rewrite X1; left; auto. } right; auto.
    + auto.
  - (* a record of the block *)
    destruct IHirun. destruct (ii_more0 H1) as (X1 & X2 & c & blk' & X3 & X4 & X5 & X6 & X7).
    rewrite X4 in H2. inversion H2; subst blk'.
    destruct (next_pos _ X2 H4) as (NP & NL).
    constructor; cbn [i_p i_cur i_elem i_more]; auto; [|discriminate].
    intros _. csplit; auto. exists c, blk. csplit; auto.
    rewrite X7, <- app_assoc, NP. f_equal. apply get_last; auto.
  - (* the last record of a block, another block follows *)
    destruct IHirun. destruct (ii_more0 H1) as (X1 & X2 & c & blk' & X3 & X4 & X5 & X6 & X7).
    rewrite X4 in H2. inversion H2; subst blk'.
    pose proof (done_pos _ X2 H4) as NP.
    destruct (ret_pc _ _ _ _ H7) as (k & Ek).
    destruct (psys_active _ _ _ H6) as (Hh3 & D3); [congruence|].
    assert (Hh1 : p_held s1 = []).
    { inversion H5; subst. rewrite X1 in *. cbn [set_pheld p_held].
      destruct h1 as [|x h1]; cbn in *; [congruence|]. destruct h1; discriminate. }
    assert (Rn : prun false p0 (tr ++ FGive (i_cur i) :: t ++ [FRet b a]) s3).
    { eapply prun_app; [|eauto]. eapply prun_front; [left; eauto|].
      eapply prun_app; [|apply psys_run; eauto]. eapply prun_front; [right; eauto|constructor]. }
    assert (Ed : delivered (tr ++ FGive (i_cur i) :: t ++ [FRet b a]) = delivered tr ++ [a]).
    { rewrite delivered_app. cbn [delivered]. rewrite delivered_app, D3. auto. }
    destruct (delivered_nth _ _ _ _ Rn Ed) as (blk' & -> & Lb & Nb).
    destruct (psstep_facts _ _ _ H7) as [(b' & Eb & Hh4 & Ei4 & M4)|(_ & Q)]; [|discriminate].
    inversion Eb; subst b'.
    constructor; cbn [i_p i_cur i_elem i_more]; auto; [|discriminate].
    intros _. csplit; auto.
    + rewrite Hh4, Hh3, Hh1. auto.
    + exists (S c), blk'. csplit; auto.
      * rewrite Ed, app_length, X3. cbn. lia.
      * congruence.
      * rewrite <- X3; auto.
      * rewrite FP, firstn_O, app_nil_r.
        rewrite (firstn_snoc _ _ _ X6), concat_app. cbn [concat]. rewrite app_nil_r.
        rewrite X7, <- app_assoc. f_equal. rewrite (get_last blk) by auto.
        rewrite NP. apply firstn_all2. rewrite ord_len. lia.
  - (* the last record *)
    destruct IHirun. destruct (ii_more0 H1) as (X1 & X2 & c & blk' & X3 & X4 & X5 & X6 & X7).
    rewrite X4 in H2. inversion H2; subst blk'.
    pose proof (done_pos _ X2 H4) as NP.
    assert (Rn : prun false p0 (tr ++ FGive (i_cur i) :: t ++ [FNone]) s3).
    { eapply prun_app; [|eauto]. eapply prun_front; [left; eauto|].
      eapply prun_app; [|apply psys_run; eauto]. eapply prun_front; [right; eauto|constructor]. }
    assert (PL : p_last (tr ++ FGive (i_cur i) :: t ++ [FNone]) FNone).
    { exists (tr ++ FGive (i_cur i) :: t). rewrite <- app_assoc. reflexivity. }
    pose proof (C39_complete _ _ _ _ _ _ _ _ Hsq H0 Rn PL) as Cm.
    assert (Ei : p_pc s3 = PIdle /\ exists b, p_pc s2 = PGiven b) by (destruct H7 as [Q|Q]; inversion Q; eauto).
    destruct Ei as (Ei & b & Eb).
    destruct (psys_active _ _ _ H6) as (Hh3 & D3); [congruence|].
    constructor; cbn [i_p i_cur i_elem i_more]; auto; [discriminate|].
    intros _.
    rewrite delivered_app in Cm. cbn [delivered] in Cm. rewrite delivered_app, D3 in Cm. cbn in Cm.
    rewrite app_nil_r in Cm. apply (f_equal (@length _)) in Cm. unfold stream in Cm. rewrite map_length, X3 in Cm.
    assert (Ed : data = firstn (S c) data).
    { rewrite firstn_all2; auto. unfold data. rewrite !map_length. lia. }
    rewrite Ed, (firstn_snoc _ _ _ X6), concat_app. cbn [concat]. rewrite app_nil_r.
    rewrite X7, <- app_assoc. f_equal. rewrite (get_last blk) by auto.
    rewrite NP. apply firstn_all2. rewrite ord_len. lia.
Qed.

(** ** The calls return *)

Lemma active_step : forall (s : pst block) l s', psstep false s l s' ->
  ((exists b, p_pc s = PGiven b) \/ exists k, p_pc s = PWait k) ->
  (exists b a, l = FRet b a) \/ l = FNone \/ p_pc s' = PFail \/
  ((exists b, p_pc s' = PGiven b) \/ exists k, p_pc s' = PWait k).
Proof.
  intros s l s' [H|H] A; inversion H; subst; eauto 6;
    try (destruct A as [(b1 & A)|(k1 & A)]; congruence);
    try (cbn [start_wait set_req set_ppc p_pc]; eauto 8).
Qed.

Lemma wait_ends : forall (s : pst block), p_returns s -> forall tr, prun false p0 tr s ->
  ((exists b, p_pc s = PGiven b) \/ exists k, p_pc s = PWait k) ->
  exists t s2 l s3, psys s t s2 /\ psstep false s2 l s3 /\ ((exists b a, l = FRet b a) \/ l = FNone).
Proof.
  intros s H. induction H as [s H|s Ex _ IH]; intros tr Rn A.
  - exfalso. destruct A as [(b & A)|(k & A)]; destruct H; congruence.
  - destruct Ex as (l & s' & St).
    assert (Rn' : prun false p0 (tr ++ [l]) s') by (econstructor; [eauto|right; auto]).
    destruct (active_step _ _ _ St A) as [(b & a & ->)|[->|[E|A']]].
    + exists [], s, (FRet b a), s'. csplit; eauto. constructor.
    + exists [], s, FNone, s'. csplit; eauto. constructor.
    + exfalso. destruct (C39_in_order _ _ _ _ _ _ _ _ Hsq H0 Rn') as (_ & _ & N). auto.
    + destruct (IH _ _ St _ Rn' A') as (t & s2 & l2 & s3 & X1 & X2 & X3).
      exists (l :: t), s2, l2, s3. csplit; auto. econstructor; eauto.
Qed.

End IStream.
