(** C107: streams on the block store, with other streams and clients beside them. *)

From Coq Require Import List Arith Bool ZArith Lia Permutation.
From Verif Require ManagerModel.
From Verif Require Import StoreModel StoreSpec StoreProofs2 StoreProps TogetherStore.
From Verif Require Import WriterModel WriterSpec WriterProofs WriterProofs2 WriterProofs3 WriterProps
  WriterErrModel WriterErrSpec WriterErrProofs WriterErrProps
  PrefetchModel PrefetchSpec ScheduleSpec PrefetchProofs PrefetchErrModel PrefetchErrSpec PrefetchErrProofs
  StreamModel StreamProofs2 StreamProps StreamErrModel StreamErrSpec StreamErrProofs StreamErrProps
  TogetherModel TogetherSpec TogetherProofs TogetherRead.
Import ListNotations.

Section Props.
Context {R : Type}.
Local Notation block := (list R).
Variables (B : nat) (size : Z) (enc : block -> list Z) (dec : list (option Z) -> block).
Variables (outs : nat -> nat -> bid) (ins : nat -> list bid).
Hypothesis HB : 1 <= B.
Hypothesis Hap : apart outs.
Hypothesis Hst : stores_blocks B size enc dec.
Variables (cfgs : list (Z * bool)) (disks : list disk) (ba : nat) (s00 s0 : store) (older : list event).
Let n := length cfgs.
Hypothesis Hba : 1 <= ba.
Hypothesis Hopen : setup cfgs disks s00.
Hypothesis Hold : shistory true n ba s00 older s0.
Hypothesis Hfresh : fresh size outs s0.

Lemma opened : sinv cfgs [] s00.
Proof. destruct Hopen as (X1 & X2 & X3 & X4). eapply open_inv; eauto. Qed.

(** Whatever the streams do, they keep to the rules of the block store (C92): they never
    write to a block for which a request is pending and never read one that is being
    written. *)
Theorem C107_rules : forall evs trs rts s, together B size enc dec outs ins n ba s0 evs trs rts s ->
  (forall i, writer_events (outs i) (trs i)) -> shistory true n ba s00 (evs ++ older) s.
Proof. intros evs trs rts s H W. eapply main; eauto using opened. Qed.

(** The events of an output stream are those of a writer. *)
Theorem C107_stream_is_writer : forall nb mem0 bids0 (disk0 : bid -> block) blocks recs tr e,
  (forall b, length (mem0 b) = B) -> (forall i k, blocks i = blocks k -> i = k) ->
  erun B (x_init nb (nb / 2) mem0 bids0 disk0) blocks recs tr e ->
  writer_events blocks tr /\ forall t x, edtor e t x -> writer_events blocks (tr ++ t).
Proof.
  intros nb mem0 bids0 disk0 blocks recs tr e Hm Hb H.
  pose proof (e_inv B HB nb mem0 bids0 disk0 blocks Hm _ _ _ H) as V.
  assert (G : forall t x, xrun (x_init nb (nb / 2) mem0 bids0 disk0) (tr ++ t) x -> x_disciplined (tr ++ t) ->
    calls (normal (tr ++ t)) = calls (normal tr) -> writer_events blocks (tr ++ t)).
  { intros t x Rn D C. exists nb, (nb / 2), mem0, bids0, disk0, x. csplit; auto; rewrite C, (ei_bids _ _ _ _ _ _ _ _ _ _ V).
    - apply FinFun.Injective_map_NoDup; [exact Hb|apply seq_NoDup].
    - intros d Q. apply in_map_iff in Q. destruct Q as (k & <- & _). eauto. }
  split.
  - rewrite <- (app_nil_r tr). apply (G [] (e_x e)); rewrite app_nil_r.
    + exact (ei_run _ _ _ _ _ _ _ _ _ _ V).
    + exact (ei_disc _ _ _ _ _ _ _ _ _ _ V).
    + auto.
  - intros t x Hd. destruct (dtor_run B HB nb mem0 bids0 disk0 blocks Hm _ _ _ _ _ H Hd) as (X1 & X2 & X3 & _). eauto.
Qed.

Section One.
Variables (evs : list event) (trs : nat -> list (xlabel block)) (rts : nat -> list (ylabel block)) (s : store).
Hypothesis Ht : together B size enc dec outs ins n ba s0 evs trs rts s.
Variables (i nb : nat) (mem0 : nat -> block) (bids0 : nat -> bid) (disk0 : bid -> block)
  (recs : list R) (tr t : list (xlabel block)) (e : est R) (x : xst block).
Hypothesis Hoth : forall i', i' <> i -> writer_events (outs i') (trs i').
Hypothesis Hmem : forall b, length (mem0 b) = B.
Hypothesis He : erun B (x_init nb (nb / 2) mem0 bids0 disk0) (outs i) recs tr e.
Hypothesis Hd : edtor e (t ++ [XOk LDestroyed]) x.
Hypothesis Htr : trs i = tr ++ t ++ [XOk LDestroyed].

Lemma inj_i : forall k k', outs i k = outs i k' -> k = k'.
Proof. intros k k' E. apply Hap in E. tauto. Qed.

Lemma all_writers : forall i', writer_events (outs i') (trs i').
Proof.
  intros i'. destruct (Nat.eq_dec i' i) as [->|N]; auto. rewrite Htr.
  apply (proj2 (C107_stream_is_writer nb mem0 bids0 disk0 (outs i) recs tr e Hmem inj_i He) _ _ Hd).
Qed.

Lemma on_disk : forall k, k < e_bid e -> exists blk, x_disk x (outs i k) = Some blk /\
  life B size enc older evs s (trs i) (outs i k) /\ In (outs i k, blk) (served (normal (trs i))).
Proof.
  intros k Hk.
  pose proof (proj2 (C107_stream_is_writer nb mem0 bids0 disk0 (outs i) recs tr e Hmem inj_i He) _ _ Hd) as We.
  rewrite <- Htr in We. pose proof (e_inv B HB nb mem0 bids0 disk0 (outs i) Hmem _ _ _ He) as V.
  destruct (dtor_run B HB nb mem0 bids0 disk0 (outs i) Hmem _ _ _ _ _ He Hd) as (Rn & D & Ec & _).
  assert (Hc : In (outs i k) (map fst (calls (normal (trs i))))).
  { rewrite Htr, Ec, (ei_bids _ _ _ _ _ _ _ _ _ _ V). apply in_map. apply in_seq. lia. }
  apply in_map_iff in Hc. destruct Hc as ((d & blk) & Ed & Hc). cbn in Ed. subst d. exists blk.
  assert (Cl : closed (trs i)) by (rewrite Htr; unfold closed; rewrite !in_app_iff; cbn; auto).
  csplit.
  - rewrite app_assoc in Rn, D.
    destruct (C88_return_means_written _ _ _ _ _ _ _ _ Rn (WriterErrProps.disc_app _ _ D) (or_intror eq_refl)) as (_ & _ & _ & W).
    assert (Ec' : calls (normal (tr ++ t)) = calls (normal tr)).
    { rewrite <- Ec, app_assoc, (normal_app (tr ++ t)), calls_app. cbn. rewrite app_nil_r. auto. }
    apply W.
    + rewrite Ec', (ei_bids _ _ _ _ _ _ _ _ _ _ V). apply FinFun.Injective_map_NoDup; [exact inj_i|apply seq_NoDup].
    + rewrite Ec'. rewrite Htr, Ec in Hc. auto.
  - eapply main; eauto using opened, all_writers.
  - eapply closed_served; eauto.
Qed.

(** After an output stream was closed, its blocks contain the records put into it as far as
    the store is concerned, whatever else happened in between and afterwards. *)
Theorem C107_written : exists blocks, concat blocks = recs /\ length blocks = e_bid e /\
  forall k blk, nth_error blocks k = Some blk ->
    length blk = B /\ expected (evs ++ older) (place size (outs i k)) = Some (enc blk).
Proof.
  destruct (C101_closed_means_written B HB nb mem0 bids0 disk0 (outs i) Hmem inj_i _ _ _ _ _ He Hd)
    as (_ & _ & _ & (blocks & W1 & W2 & W3) & _).
  assert (Lb : length blocks = e_bid e).
  { apply (f_equal (@length _)) in W1. rewrite !map_length, seq_length in W1. auto. }
  exists blocks. csplit; auto. intros k blk Hk. split; [apply W3; eapply nth_error_In; eauto|].
  assert (Lk : k < e_bid e) by (rewrite <- Lb; apply nth_error_Some; congruence).
  destruct (on_disk k Lk) as (blk' & X1 & X2 & X3).
  assert (E : blk' = blk).
  { apply (f_equal (fun l => nth_error l k)) in W1. rewrite !nth_error_map, Hk in W1.
    rewrite (nth_error_nth' _ 0) in W1 by (rewrite seq_length; auto). rewrite seq_nth in W1 by auto.
    cbn in W1. congruence. }
  subst blk'. destruct X2 as [A1 A2 A3|w A1 A2 A3 A4 A5|w A1 A2 A0 A3 A4 A5 A6|A1 A2 A3].
  - exfalso. eapply A3; eauto.
  - exfalso. eapply A5; eauto.
  - rewrite (A6 _ X3). auto.
  - exfalso. eapply A3; eauto.
Qed.

(** An input stream that reads the blocks of a closed output stream, forwards or backwards,
    delivers the records put into it, and ends only after the last one; [disk] is what the
    reads will deliver. *)
Theorem C107_read_back : forall j fwd sq bufs disk mem y0 out jj,
  ins j = stream_bids fwd (map (outs i) (seq 0 (e_bid e))) ->
  all_blocks_once (e_bid e) sq -> (forall d, In d (ins j) -> length (disk d) = B) ->
  y_init (ins j) sq bufs disk mem = Some y0 -> jrun B fwd y0 out (rts j) jj ->
  let all := if fwd then recs else rev recs in
  (j_more jj = false -> out = map Some all) /\
  (forall k r, nth_error out k = Some (Some r) -> nth_error all k = Some r).
Proof.
  intros j fwd sq bufs disk mem y0 out jj Ei Hsq Hl Hi Hj all.
  set (W := w_disk (x_w x)). set (ds := map (outs i) (seq 0 (e_bid e))) in *.
  assert (Ld : length (ins j) = e_bid e).
  { rewrite Ei. unfold stream_bids, ds. destruct fwd; rewrite ?rev_length, map_length, seq_length; auto. }
  assert (Ea : records fwd W (ins j) = all).
  { destruct (C101_closed_means_written B HB nb mem0 bids0 disk0 (outs i) Hmem inj_i _ _ _ _ _ He Hd)
      as (_ & _ & _ & (blocks & W1 & W2 & W3) & _).
    assert (Wd : map W ds = blocks).
    { clear - W1. unfold W. fold ds in W1. revert blocks W1. induction ds as [|d l IH]; intros [|b blocks] W1; try discriminate; auto.
      cbn [map] in *. inversion W1 as [[E1 E2]]. unfold x_disk in E1. destruct (x_torn x d); [discriminate|].
      inversion E1. rewrite (IH _ E2). subst. auto. }
    rewrite records_data, Ei, data_all, Wd, W2. auto. }
  rewrite <- Ea. rewrite <- Ld in Hsq. eapply (out_agrees B HB fwd (ins j) sq bufs disk W mem y0); eauto.
  intros c v d Hc Hn. assert (Hh : exists d' xs, nth_error (ins j) c = Some d' /\
    In (EReadDone (place size d') (Some xs)) evs /\ v = dec xs) by (eapply handed; eauto).
  destruct Hh as (d' & xs & N1 & N2 & ->).
  assert (d' = d) by congruence. subst d'.
  assert (Hin : In d ds).
  { apply nth_error_In in Hn. rewrite Ei in Hn. unfold stream_bids in Hn. destruct fwd; [|apply in_rev in Hn]; auto. }
  apply in_map_iff in Hin. destruct Hin as (k & <- & Hk). apply in_seq in Hk.
  destruct (on_disk k ltac:(lia)) as (blk & X1 & X2 & X3).
  assert (Ew : W (outs i k) = blk).
  { unfold x_disk in X1. fold W in X1. destruct (x_torn x (outs i k)); congruence. }
  destruct X2 as [A1 A2 A3|w A1 A2 A3 A4 A5|w A1 A2 A0 A3 A4 A5 A6 A7 A8|A1 A2 A3].
  - exfalso. eapply A3; eauto.
  - exfalso. eapply A5; eauto.
  - rewrite (A8 _ N2), Ew, (A6 _ X3). apply Hst; auto.
  - exfalso. eapply A3; eauto.
Qed.

End One.

(** A request of a stream can always be served; while the system does not fail, it
    succeeds. *)
Theorem C107_served : forall evs trs rts s a k, together B size enc dec outs ins n ba s0 evs trs rts s ->
  (forall i, writer_events (outs i) (trs i)) -> k < length (st_pending s) ->
  exists s' ev r, store_step ba s (SServe a k) = Some (s', ev) /\ nth_error (st_pending s) k = Some r /\
    (working a -> match rq_data r with
                  | Some _ => ev = EWritten (rq_bid r) true
                  | None => exists xs, ev = EReadDone (rq_bid r) (Some xs)
                  end).
Proof.
  intros evs trs rts s a k H W L. pose proof (C107_rules _ _ _ _ H W) as Hs.
  destruct (C92_no_undefined_behaviour ba cfgs disks s00 _ s (SServe a k) Hba Hopen Hs L) as (s' & ev & St).
  destruct (nth_error (st_pending s) k) as [r|] eqn:Er; [|apply nth_error_None in Er; lia].
  exists s', ev, r. csplit; auto. intros Wk.
  destruct (C92_requests_succeed ba cfgs disks s00 _ s a k s' ev Hba Hopen Hs L Wk St) as (r' & Er' & Q).
  assert (r' = r) by congruence. subst r'. destruct (rq_data r); auto. destruct Q as (xs & Q & _). eauto.
Qed.

End Props.
Print Assumptions C107_rules.
Print Assumptions C107_stream_is_writer.
Print Assumptions C107_written.
Print Assumptions C107_read_back.
Print Assumptions C107_served.
