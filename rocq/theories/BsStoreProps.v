(** C110: the block scheduler on the block store, with other clients beside it. *)

From Coq Require Import ZArith List Bool Arith Lia Permutation.
From Verif Require ManagerModel.
From Verif Require Import StoreModel StoreSpec StoreProofs StoreProofs2 StoreProps TogetherStore BsStoreDisk.
From Verif Require Import BsModel BsSpec BsProofs BsProofs2 BsProofs3 BsProofs4 BsProofs5.
From Verif Require Import BsStoreModel BsStoreSpec BsStoreActs BsStoreProofs.
Import ListNotations.

Section Props.
Variable pick : nat -> list nat -> nat.
Variable dflt : option Z.
Variables (size : Z) (enc : Z -> list Z) (dec : list (option Z) -> Z) (pl : nat -> ManagerModel.bid).
Hypothesis Fresh : fresh_blocks pick.
Hypothesis Hst : stores size enc dec pl.
Variables (cfgs : list (Z * bool)) (disks : list StoreModel.disk) (ba : nat) (s00 t0 : store) (older : list event).
Let n := length cfgs.
Hypothesis Hba : 1 <= ba.
Hypothesis Hopen : setup cfgs disks s00.
Hypothesis Hold : shistory true n ba s00 older t0.
Variables (max : nat) (m d0 : nat -> Z).
Variable k : conf.
Hypothesis Hrun : jrun pick dflt enc dec pl n ba (begins max m d0 t0) k.
Hypothesis Hp : proper k.

Lemma opened110 : sinv cfgs [] s00.
Proof. destruct Hopen as (X1 & X2 & X3 & X4). eapply open_inv; eauto. Qed.

Lemma inv110 : exists ss B T dn, Inv pick dflt enc pl cfgs ba s00 older max m d0 k ss B T dn.
Proof. eapply run_inv; eauto using opened110. Qed.

(** Whatever the scheduler does, it keeps to the rules of the store (C92): it never writes or
    deletes a block for which a request is pending, and never reads one being written. *)
Theorem C110_rules : shistory true n ba s00 (k_evs k ++ older) (k_t k).
Proof. destruct inv110 as (ss & B & T & dn & V). exact (I_hist _ _ _ _ _ _ _ _ _ _ _ _ _ _ _ _ V). Qed.

(** The results are those of the scheduler with a disk of its own (C44 to C49). *)
Theorem C110_same : exists ss, run pick dflt (start max m d0) (map fst (k_tr k)) = Ok (ss, map snd (k_tr k)) /\
  k_s k = with_disk ss (disk (k_s k)).
Proof.
  destruct inv110 as (ss & B & T & dn & V). exists ss. split.
  - exact (I_run _ _ _ _ _ _ _ _ _ _ _ _ _ _ _ _ V).
  - exact (I_st _ _ _ _ _ _ _ _ _ _ _ _ _ _ _ _ V).
Qed.

(** The client of the scheduler sees the values it wrote. *)
Theorem C110_transparent : agrees dflt c0 (k_tr k).
Proof.
  destruct C110_same as (ss & E & _). destruct Hp as (L & _).
  rewrite <- (combine_split_tr (k_tr k)). rewrite <- (combine_split_tr (k_tr k)) in L.
  exact (proj1 (proj2 (run_R pick dflt Fresh max _ _ _ _ _ (R_start max m d0) E L))).
Qed.

(** Between operations the external blocks of the client are in the store with their
    contents, and nothing is pending for any block of the scheduler. *)
Theorem C110_stored : k_op k = None ->
  (forall e v, own (client_of k) e = Some v ->
     In (pl e) (ManagerModel.mc_held (st_client (k_t k))) /\ expected (k_evs k ++ older) (pl e) = Some (enc v)) /\
  forall e, In e (k_us k) -> settled (k_t k) (pl e).
Proof.
  intros Hop. destruct inv110 as (ss & B & T & dn & V). destruct V as [V1 V2 V3 V4 V5 V6 V7 V8 V9 V10 V11 V12 V13].
  rewrite Hop in V6. destruct V6 as (-> & Et & -> & Ew & Er & Eg). rewrite Et in V5. cbn in V5. subst B.
  cbn [us_after wr] in *. split.
  - intros e v Ho. destruct (R_own _ _ _ _ _ V3 e v Ho) as (U & D). rewrite <- V4 in U.
    destruct (V13 e U) as [K1 K2 K3 K4]. split; [exact K1|]. rewrite <- D. apply K2. auto.
  - intros e He r Hr E. destruct (b_pend _ _ _ _ _ _ _ _ _ _ _ (V13 e He) r Hr E) as ([] & _).
Qed.

(** After flush every value that a block holds, unless the block is acquired, is in the store,
    each in a block of its own. *)
Theorem C110_flushed : forall tr r, k_op k = None -> k_tr k = tr ++ [(Flush, r)] ->
  forall b v, live (client_of k) b = true -> refs (vw (client_of k) b) = 0 -> val (vw (client_of k) b) = Some v ->
  exists e, ext (blk (k_s k) b) = Some e /\ (forall c, ext (blk (k_s k) c) = Some e -> c = b) /\
    In (pl e) (ManagerModel.mc_held (st_client (k_t k))) /\
    expected (k_evs k ++ older) (pl e) = Some (enc v) /\ settled (k_t k) (pl e).
Proof.
  intros tr r Hop Htr b v Lb Rb Vb.
  assert (F : forall ss, run pick dflt (start max m d0) (map fst (k_tr k)) = Ok (ss, map snd (k_tr k)) ->
    evictables (al ss) = []).
  { intros ss E. rewrite Htr, !map_app in E. cbn [map fst snd] in E.
    destruct (run_app _ _ _ _ _ _ _ E) as (s1 & rs1 & rs2 & E1 & E2 & E3).
    cbn [run] in E2. destruct (do pick dflt s1 Flush) as [(s2, x)| |] eqn:D; cbn [bind] in E2; try discriminate.
    inversion E2; subst s2 rs2. apply app_inj_tail in E3. destruct E3 as (E3 & _). subst rs1.
    destruct Hp as (L & _). rewrite Htr in L. apply legal_run_app in L. destruct L as (L & _).
    assert (R1 : R max [] [] s1 (after_all c0 tr)).
    { rewrite <- (combine_split_tr tr) in L |- *. eapply run_R; eauto. apply R_start. }
    cbn [do] in D. destruct (flush_ok pick Fresh max _ s1 _ R1 (le_n _)) as (s3 & Fl & _ & Ev & _).
    rewrite Fl in D. cbn [bind] in D. inversion D; subst. exact Ev. }
  destruct inv110 as (ss & B & T & dn & V). destruct V as [V1 V2 V3 V4 V5 V6 V7 V8 V9 V10 V11 V12 V13].
  specialize (F ss V2).
  rewrite Hop in V6. destruct V6 as (-> & Et & -> & Ew & Er & Eg). rewrite Et in V5. cbn in V5. subst B.
  cbn [us_after wr] in *. rewrite V1. cbn [blk with_disk].
  pose proof (R_rel _ _ _ _ _ V3 b Lb) as Br. unfold brel in Br. destruct Br as (Erc & Br).
  assert (Ei : int (blk ss b) = None).
  { destruct (int (blk ss b)) as [i|] eqn:Ei; [|reflexivity]. exfalso.
    assert (Q : In b (evictables (al ss))).
    { apply (R_q _ _ _ _ _ V3). split; [apply (R_live _ _ _ _ _ V3); auto|]. split; [|auto].
      unfold is_evictable, is_acquired, is_internal. rewrite Ei, Erc, Rb. reflexivity. }
    rewrite F in Q. contradiction. }
  rewrite Ei in Br. destruct Br as (_ & _ & Ev). rewrite Vb in Ev.
  destruct (ext (blk ss b)) as [e|] eqn:Ee; [|discriminate]. cbn in Ev. injection Ev as Ev.
  exists e. destruct (R_used _ _ _ _ _ V3 b e Ee) as (U & _). rewrite <- V4 in U.
  destruct (V13 e U) as [K1 K2 K3 K4]. split; [reflexivity|]. split.
  { intros c Hc. eapply (R_inj _ _ _ _ _ V3); eauto. }
  split; [exact K1|]. split.
  - rewrite Ev. apply K2. auto.
  - intros r' Hr E. destruct (K3 r' Hr E) as ([] & _).
Qed.

(** The scheduler does nothing to the blocks of others. *)
Theorem C110_private : forall k' b, jstep pick dflt enc dec pl n ba k k' -> own_step k k' ->
  In b (ManagerModel.mc_held (st_client (k_t k))) -> (forall e, In e (k_us k) -> b <> pl e) ->
  In b (ManagerModel.mc_held (st_client (k_t k'))) /\
  expected (k_evs k' ++ older) b = expected (k_evs k ++ older) b /\
  forall r, rq_bid r = b -> (In r (st_pending (k_t k')) <-> In r (st_pending (k_t k))).
Proof.
  intros k' b St (Oe & Ow) Hb N. destruct inv110 as (ss & B & T & dn & V).
  destruct V as [V1 V2 V3 V4 V5 V6 V7 V8 V9 V10 V11 V12 V13].
  pose proof (history_sinv _ _ _ _ _ Hba opened110 V12) as Vs.
  assert (G : forall o t' e, (forall ts f off sz, o = SNew ts f off sz -> StoreSpec.allowed n (k_t k) o) ->
    store_step ba (k_t k) o = Some (t', e) -> not_at b (k_t k) o ->
    In b (ManagerModel.mc_held (st_client t')) /\ expected ((e :: k_evs k) ++ older) b = expected (k_evs k ++ older) b /\
    forall r, rq_bid r = b -> (In r (st_pending t') <-> In r (st_pending (k_t k)))).
  { intros o t' e A S0 Na. destruct (left_alone _ _ _ _ _ _ _ _ Vs A S0 Na Hb) as (L1 & L2 & L3 & _).
    cbn [app]. auto. }
  inversion St; subst k k'; cbn [k_tr k_s k_op k_us k_todo k_w k_rd k_got k_evs k_t] in *; try congruence.
  - exfalso. intuition congruence.
  - match goal with K : exists _, _ |- _ => destruct K as (ts & f & off & sz & ->) end.
    match goal with K : store_step _ _ _ = _ |- _ => refine (G _ _ _ _ K _); [intros; auto|exact I] end.
  - match goal with K : store_step _ _ _ = _ |- _ => refine (G _ _ _ _ K _); [intros; discriminate|] end.
    cbn [not_at]. intros b' Hb' ->. unfold hold in Hb'. destruct V5 as (U & _). apply (N x U). congruence.
  - match goal with K : store_step _ _ _ = _ |- _ => refine (G _ _ _ _ K _); [intros; discriminate|] end.
    cbn [not_at]. intros b' Hb' ->. unfold hold in Hb'. destruct V5 as (U & _). apply (N x U). congruence.
  - match goal with K : store_step _ _ _ = _ |- _ =>
      destruct (serve_facts _ _ _ _ _ _ K) as (r & Er & _ & _ & Ed); refine (G _ _ _ _ K _); [intros; discriminate|] end.
    cbn [not_at]. intros r' Hr' E. assert (r' = r) by congruence. subst r'.
    apply (N x); [apply V7, V8; auto|]. destruct (rq_data r); destruct Ed as (y & Ed); inversion Ed; congruence.
  - match goal with K : store_step _ _ _ = _ |- _ => refine (G _ _ _ _ K _); [intros; discriminate|] end.
    cbn [not_at]. intros b' Hb' ->. unfold hold in Hb'. destruct V5 as (U & _). apply (N x U). congruence.
  - match goal with K : store_step _ _ _ = _ |- _ =>
      destruct (serve_facts _ _ _ _ _ _ K) as (r & Er & _ & _ & Ed); refine (G _ _ _ _ K _); [intros; discriminate|] end.
    cbn [not_at]. intros r' Hr' E. assert (r' = r) by congruence. subst r'.
    apply (N x); [apply V7, V9; auto|]. destruct (rq_data r); destruct Ed as (y & Ed); inversion Ed; congruence.
Qed.

(** An operation gets on, unless it waits for the store to allocate a block: it comes nearer
    to its end, returns, or is an acquire for which there is no memory. *)
Theorem C110_progress : forall o a, working a -> k_op k = Some o ->
  (exists x l, k_todo k = ANew x :: l) \/
  (exists k', jstep pick dflt enc dec pl n ba k k' /\ own_step k k' /\ left k' < left k) \/
  (exists k', jstep pick dflt enc dec pl n ba k k' /\ k_op k' = None) \/
  (exists b un, o = Acq b un /\ forall d, do pick dflt (with_disk (k_s k) d) o = NoMemory).
Proof.
  intros o a Wa Hop. pose proof Hp as (Lr & Lo). rewrite Hop in Lo. destruct inv110 as (ss & B & T & dn & V).
  destruct V as [V1 V2 V3 V4 V5 V6 V7 V8 V9 V10 V11 V12 V13]. rewrite Hop in V6.
  unfold client_of in V3.
  destruct k as [tr s op us todo w rd got evs t] eqn:Ek.
  cbn [k_tr k_s k_op k_us k_todo k_w k_rd k_got k_evs k_t] in *. subst op.
  pose proof (history_sinv _ _ _ _ _ Hba opened110 V12) as Vs.
  assert (Held : forall x, In x us -> exists h, nth_error (ManagerModel.mc_held (st_client t)) h = Some (pl x)).
  { intros x Hx. apply In_nth_error. exact (b_hold _ _ _ _ _ _ _ _ _ _ _ (V13 x Hx)). }
  assert (Np : forall x, In x us -> ~ In x T -> forall r, In r (st_pending t) -> rq_bid r <> pl x).
  { intros x Hx NT r Hr E. destruct (b_pend _ _ _ _ _ _ _ _ _ _ _ (V13 x Hx) r Hr E). auto. }
  assert (Ne : forall (e : event) l, e :: l <> l) by (intros e l Q; apply (f_equal (@length _)) in Q; cbn in Q; lia).
  assert (Nl : forall (A : Type) (x : A) l, l <> x :: l) by (intros A x l Q; apply (f_equal (@length _)) in Q; cbn in Q; lia).
  destruct todo as [|[x|x|x v|x] todo].
  - right. destruct w as [|x w]; [destruct rd as [|x rd]|].
    + (* return *)
      right. rewrite app_nil_r in V6. cbn in V5. subst B.
      pose proof (acts_valid pick Fresh max _ _ _ V3 Lo) as Va.
      assert (E0 : forall d, with_disk s d = with_disk ss d) by (intros d; rewrite V1; apply with_with).
      destruct (do_ok pick dflt Fresh max _ _ _ V3 Lo) as [(s1 & r1 & D1 & _ & R1)|(b & un & -> & D1 & Sm & Ei & _)].
      * left. eexists. split.
        -- eapply (JReturn pick dflt enc dec pl n ba tr s o us got evs t (wr dn (disk ss))).
           ++ intros x data Hx. destruct (V11 x data Hx) as (_ & _ & ->). symmetry. apply Hst.
           ++ rewrite E0, (do_disk pick dflt ss o _).
              ** rewrite D1. reflexivity.
              ** intros e Q. apply wr_not. rewrite <- V6. eapply valid_read; eauto.
        -- reflexivity.
      * right. exists b, un. split; auto. intros d. rewrite E0, (do_disk pick dflt ss (Acq b un) d), D1; [reflexivity|].
        intros e Q. exfalso. cbn [do] in D1. cbn [acts] in Q. unfold acquire in D1. unfold acquire_acts in Q.
        rewrite (live_lt _ _ _ _ _ _ V3 Lo) in D1. cbn [negb] in D1.
        rewrite (R_simu _ _ _ _ _ V3) in Sm. rewrite (Ncase _ Sm), Ei in D1. rewrite Ei in Q.
        assert (Gb : get_block pick ss = NoMemory).
        { destruct (get_block pick ss) as [(s2, j)| |]; auto; [exfalso|discriminate].
          cbn [bind] in D1. destruct (sb_initialized (blk s2 b)); [destruct un; [discriminate|]|discriminate].
          destruct (ext (blk s2 b)); discriminate. }
        rewrite Gb in Q.
        assert (Q' : In (ARead e) (get_block_acts pick ss)).
        { destruct (al ss); try discriminate; rewrite app_nil_r in Q; exact Q. }
        unfold get_block_acts in Q'. destruct (get_free ss); [contradiction|].
        destruct (pop_evictable (al ss)) as [(v, a')|]; [|contradiction]. eapply clean_acts_noread; eauto.
    + left. destruct (V9 x (or_introl eq_refl)) as (Tx & _). pose proof (V7 x Tx) as Hx.
      destruct (b_r _ _ _ _ _ _ _ _ _ _ _ (V13 x Hx) (or_introl eq_refl)) as (r & Hr & Eb & Ed).
      apply In_nth_error in Hr. destruct Hr as (j & Hj).
      assert (A : StoreSpec.allowed n t (SServe a j)) by (cbn; apply nth_error_Some; congruence).
      destruct (C92_no_undefined_behaviour ba cfgs disks s00 _ t _ Hba Hopen V12 A) as (t' & e & Es).
      destruct (C92_requests_succeed ba cfgs disks s00 _ t a j t' e Hba Hopen V12 A Wa Es) as (r' & Hj' & Z).
      assert (r' = r) by congruence. subst r'. rewrite Ed in Z. destruct Z as (data & -> & _). rewrite Eb in Es.
      eexists. split; [eapply JReadDone; [left; reflexivity|exact Es]|]. split.
      * split; cbn [k_evs k_todo k_w k_rd]; auto. right; right. intros Q.
        assert (Z : In x (remove Nat.eq_dec x (x :: rd))) by (rewrite Q; left; auto). apply List.in_remove in Z. tauto.
      * unfold left. cbn [k_todo k_w k_rd length].
        pose proof (remove_length_lt Nat.eq_dec (x :: rd) x (or_introl eq_refl)) as Z. cbn [length] in Z. lia.
    + left. pose proof (V8 x (or_introl eq_refl)) as Tx. pose proof (V7 x Tx) as Hx.
      destruct (b_w _ _ _ _ _ _ _ _ _ _ _ (V13 x Hx) (or_introl eq_refl)) as (r & Hr & Eb & Ed).
      apply In_nth_error in Hr. destruct Hr as (j & Hj).
      assert (A : StoreSpec.allowed n t (SServe a j)) by (cbn; apply nth_error_Some; congruence).
      destruct (C92_no_undefined_behaviour ba cfgs disks s00 _ t _ Hba Hopen V12 A) as (t' & e & Es).
      destruct (C92_requests_succeed ba cfgs disks s00 _ t a j t' e Hba Hopen V12 A Wa Es) as (r' & Hj' & Z).
      assert (r' = r) by congruence. subst r'. destruct (rq_data r) eqn:Er; [|congruence]. subst e. rewrite Eb in Es.
      eexists. split; [eapply JWritten; [left; reflexivity|exact Es]|]. split.
      * split; cbn [k_evs k_todo k_w k_rd]; auto. right; left. intros Q.
        assert (Z : In x (remove Nat.eq_dec x (x :: w))) by (rewrite Q; left; auto). apply List.in_remove in Z. tauto.
      * unfold left. cbn [k_todo k_w k_rd length].
        pose proof (remove_length_lt Nat.eq_dec (x :: w) x (or_introl eq_refl)) as Z. cbn [length] in Z. lia.
  - left. eauto.
  - right; left. destruct V5 as (Hx & NT & _). destruct (Held x Hx) as (h & Hh).
    assert (A : StoreSpec.allowed n t (SDelete (an_xfer a) h)) by (exists (pl x); split; auto).
    destruct (C92_no_undefined_behaviour ba cfgs disks s00 _ t _ Hba Hopen V12 A) as (t' & e & Es).
    eexists. split; [eapply JDel; eauto|]. split.
    + split; cbn [k_evs k_todo]; auto.
    + unfold left. cbn [k_todo k_w k_rd length]. lia.
  - right; left. destruct V5 as (Hx & NT & _). destruct (Held x Hx) as (h & Hh).
    assert (A : StoreSpec.allowed n t (SWrite h (enc v))).
    { exists (pl x). split; auto. split; auto. destruct Hst as (_ & S1 & S2). rewrite S1. apply S2. }
    destruct (C92_no_undefined_behaviour ba cfgs disks s00 _ t _ Hba Hopen V12 A) as (t' & e & Es).
    eexists. split; [eapply JWrite; eauto|]. split.
    + split; cbn [k_evs k_todo]; auto.
    + unfold left. cbn [k_todo k_w k_rd length]. lia.
  - right; left. destruct V5 as (Hx & _ & NT & _). destruct (Held x Hx) as (h & Hh).
    assert (A : StoreSpec.allowed n t (SRead h)) by (exists (pl x); split; auto).
    destruct (C92_no_undefined_behaviour ba cfgs disks s00 _ t _ Hba Hopen V12 A) as (t' & e & Es).
    eexists. split; [eapply JRead; eauto|]. split.
    + split; cbn [k_evs k_todo]; auto.
    + unfold left. cbn [k_todo k_w k_rd length]. lia.
Qed.

End Props.

Print Assumptions C110_rules.
Print Assumptions C110_same.
Print Assumptions C110_transparent.
Print Assumptions C110_stored.
Print Assumptions C110_flushed.
Print Assumptions C110_private.
Print Assumptions C110_progress.
