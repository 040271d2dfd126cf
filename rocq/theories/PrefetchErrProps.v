(** C89: the block prefetcher when reads fail. *)

From Coq Require Import List Arith Bool ZArith Lia Permutation.
From Verif Require Import WriterModel WriterProofs PrefetchModel PrefetchSpec ScheduleSpec PrefetchProofs
  PrefetchProofs2 PrefetchProofs3 PrefetchErrModel PrefetchErrSpec PrefetchErrProofs PrefetchErrProofs2.
Import ListNotations.

Lemma yrun_last : forall {A} (y1 y3 : yst A) tr l, yrun y1 (tr ++ [l]) y3 ->
  exists y2, yrun y1 tr y2 /\ ystep y2 l y3.
Proof.
  intros * R. remember (tr ++ [l]) as t. destruct R.
  - destruct tr; discriminate.
  - apply app_inj_tail in Heqt. destruct Heqt as (-> & ->). eauto.
Qed.

Section Props.
Context {A : Type}.
Variables (bids : list bid) (sq : list nat) (bufs : nat) (disk : bid -> A) (mem : nat -> option A) (y0 : yst A).
Hypothesis Hp : all_blocks_once (length bids) sq.
Hypothesis H0 : y_init bids sq bufs disk mem = Some y0.

Lemma Hn : 0 < min bufs (length bids) <= length bids.
Proof.
  unfold y_init in H0. destruct (p_init bids sq bufs disk mem) as [s0|] eqn:I; [|discriminate].
  destruct (init_facts _ _ _ _ _ _ I) as (Hn & _). auto.
Qed.

Lemma readable_nth : forall k bad, k < length bids ->
  nth_error (readable disk bids bad) k = Some (if in_dec Nat.eq_dec k bad then None else content bids disk k).
Proof.
  intros k bad L. unfold readable. rewrite nth_error_map.
  rewrite (nth_error_nth' _ 0) by (rewrite seq_length; auto). rewrite seq_nth by auto. cbn. auto.
Qed.

Lemma nth_ext_firstn : forall {B} (l1 l2 : list B), length l1 <= length l2 ->
  (forall k, k < length l1 -> nth_error l1 k = nth_error l2 k) -> l1 = firstn (length l1) l2.
Proof.
  induction l1 as [|x l1 IH]; intros [|z l2] L H; cbn in *; auto; try lia.
  pose proof (H 0 ltac:(lia)) as E. cbn in E. inversion E; subst. f_equal.
  apply IH; [lia|]. intros k Hk. apply (H (S k)). lia.
Qed.

Lemma del_le : forall tr y, yrun y0 tr y -> length (y_delivered tr) <= length bids.
Proof.
  intros tr y R. destruct (yi_p _ _ _ _ _ _ (yrun_inv _ _ _ _ _ _ _ _ Hp H0 R)) as (btr & back & hs & [C P (T1 & T2)]).
  rewrite <- T2, T1, firstn_length. unfold stream. rewrite map_length. lia.
Qed.

(** The blocks are handed out in order.  A block whose read failed is handed out
    all the same, with unknown content; every other one has the content it has on
    disk.  No assertion fails. *)
Theorem C89_in_order : forall tr y, yrun y0 tr y ->
  y_delivered tr = firstn (length (y_delivered tr)) (readable disk bids (y_fails tr)) /\
  length (y_delivered tr) <= length bids /\ p_pc (y_p y) <> PFail.
Proof.
  intros tr y R. pose proof (yrun_inv _ _ _ _ _ _ _ _ Hp H0 R) as V. pose proof (del_le _ _ R) as L.
  csplit; auto.
  - apply nth_ext_firstn.
    + unfold readable. rewrite map_length, seq_length. auto.
    + intros k Hk. rewrite (yi_del _ _ _ _ _ _ V k Hk), readable_nth by lia. auto.
  - intros E. destruct (yi_p _ _ _ _ _ _ V) as (btr & back & hs & [C P T]). unfold Pc in P. rewrite E in P. auto.
Qed.

(** block_consumed() returns false only when all blocks have been handed out. *)
Theorem C89_complete : forall tr y, yrun y0 (tr ++ [YOk FNone]) y ->
  y_delivered tr = readable disk bids (y_fails tr).
Proof.
  intros tr y R. destruct (yrun_last _ _ _ _ R) as (y2 & R2 & St).
  destruct (C89_in_order _ _ R2) as (E & L & _). rewrite E. apply firstn_all2.
  unfold readable. rewrite map_length, seq_length.
  destruct (yi_p _ _ _ _ _ _ (yrun_inv _ _ _ _ _ _ _ _ Hp H0 R2)) as (btr & back & hs & [C P T]).
  destruct (k_const _ _ _ _ _ _ _ _ C) as (E1 & _).
  inversion St; subst.
  - match goal with K : pcstep _ _ _ |- _ => inversion K end.
  - destruct l; try discriminate. match goal with K : pistep _ _ _ _ |- _ => inversion K; subst end.
    unfold Pc in P. match goal with K : p_pc _ = PGiven _ |- _ => rewrite K in P end. destruct P as (_ & P2 & _).
    unfold p_len in *. lia.
Qed.

(** ** Handed out buffers *)

Lemma handed_inv : forall tr y, yrun y0 tr y -> length (y_handed tr) = length (y_delivered tr) /\
  forall k b, nth_error (y_handed tr) k = Some b ->
    exists j r, nth_error (p_reqs (y_p y)) j = Some r /\ q_blk r = k /\ q_buf r = b.
Proof.
  intros tr y R. remember y0 as z eqn:Heqz in R. induction R as [y|z tr y2 l y3 R IH St].
  - split; auto. intros [|k] b; discriminate.
  - specialize (IH Heqz). subst z. destruct IH as (IHl & IH).
    pose proof (yrun_inv _ _ _ _ _ _ _ _ Hp H0 R) as V.
    assert (Eh : y_handed (tr ++ [l]) = y_handed tr ++ y_handed [l]).
    { unfold y_handed. rewrite flat_map_app. auto. }
    rewrite Eh, y_delivered_app, !app_length, IHl.
    assert (Old : forall k b, nth_error (y_handed tr) k = Some b ->
      exists j r, nth_error (p_reqs (y_p y3)) j = Some r /\ q_blk r = k /\ q_buf r = b).
    { intros k b Hk. destruct (IH k b Hk) as (j & r & E1 & E2 & E3).
      assert (X : forall i r0 ph, nth_error (p_reqs (y_p y2)) i = Some r0 ->
         exists r', nth_error (set_nth i (MkRd (q_buf r0) (q_blk r0) ph) (p_reqs (y_p y2))) j = Some r' /\ q_blk r' = k /\ q_buf r' = b).
      { intros i r0 ph Hi. destruct (Nat.eq_dec j i) as [->|N].
        - rewrite set_nth_same by (apply nth_error_Some; congruence). assert (r0 = r) by congruence. subst.
          eexists. csplit; [reflexivity|..]; auto.
        - rewrite set_nth_other by auto. exists r. auto. }
      inversion St; subst; yproj; pproj; try (match goal with K2 : nth_error _ _ = Some ?r0, K : q_ph ?r0 = _ |- context [MkRd _ _ ?ph] =>
        destruct (X _ _ ph K2) as (r' & Z); eauto end; fail).
      - match goal with K : pcstep _ _ _ |- _ => inversion K; subst; pproj; eauto end.
      - destruct (yi_p _ _ _ _ _ _ V) as (btr & back & hs & [C P T']).
        match goal with K : pistep _ _ _ _ |- _ => destruct (pistep_eff _ _ _ _ Hn _ _ _ _ _ _ C P K) as (Rq & _) end.
        exists j, r. csplit; auto. destruct Rq as [->|(b' & k' & ->)]; auto.
        rewrite nth_error_app1; auto. apply nth_error_Some; congruence.
      - eauto.
      - eauto. }
    split.
    + f_equal. unfold y_delivered. destruct l as [l| | | ]; auto. destruct l; auto.
    + intros k b Hk.
      assert (Cl : y_handed [l] = [] \/ exists b' a, l = YOk (FRet b' a)).
      { destruct l as [l| | | ]; auto. destruct l; auto. right; eauto. }
      destruct Cl as [Cl|(b' & a & ->)]; [rewrite Cl, app_nil_r in Hk; auto|].
      assert (Lk : k < S (length (y_handed tr))).
      { assert (k < length (y_handed tr ++ y_handed [YOk (FRet b' a)])) by (apply nth_error_Some; congruence).
        rewrite app_length in H. cbn in H. lia. }
      change (y_handed [YOk (FRet b' a)]) with [b'] in Hk.
      destruct (nth_error_snoc (y_handed tr) b' k Lk) as [(K1 & K2)|(K1 & K2)].
      * rewrite K2 in Hk. auto.
      * rewrite K2 in Hk. inversion Hk; subst b'. subst k.
        destruct (yi_p _ _ _ _ _ _ V) as (btr & back & hs & [C P T']).
        inversion St; subst; [match goal with K : pcstep _ _ _ |- _ => inversion K end|].
        destruct l; try discriminate. match goal with K : YOk _ = _ |- _ => inversion K; subst | _ => idtac end.
        match goal with K : pistep _ _ _ _ |- _ => inversion K; subst end.
        unfold Pc in P. match goal with K : p_pc _ = PWait _ |- _ => rewrite K in P end.
        destruct P as (P1 & P2 & P3 & P4 & P5).
        match goal with K : p_on _ _ = true \/ _ |- _ => destruct K as [On|?]; [|discriminate] end.
        apply (k_on _ _ _ _ _ _ _ _ C) in On. destruct On as (j & r & Hj & Ek & Ph).
        exists j, r. yproj. pproj. csplit; auto; [lia|].
        pose proof (k_pref _ _ _ _ _ _ _ _ C _ _ Hj). rewrite Ek in *. cbn in *. congruence.
Qed.

(** A buffer that was handed out for a block whose read failed stays out of use:
    whenever it is given back, block_consumed() throws and the caller has it again. *)
Theorem C89_error_reported : forall tr y k b, yrun y0 tr y ->
  In k (y_fails tr) -> nth_error (y_handed tr) k = Some b -> p_pc (y_p y) = PGiven b ->
  forall l y', y_sys l y y' ->
    p_pc (y_p y') = PGiven b \/ (l = YThrow /\ p_pc (y_p y') = PIdle /\ In b (p_held (y_p y'))).
Proof.
  intros tr y k b R Hk Hb Hpc l y' (St & N).
  pose proof (yrun_inv _ _ _ _ _ _ _ _ Hp H0 R) as V.
  destruct (yi_p _ _ _ _ _ _ V) as (btr & back & hs & [C P T']).
  destruct (handed_inv _ _ R) as (_ & Hh). destruct (Hh _ _ Hb) as (j & r & E1 & E2 & E3).
  destruct (yi_fail _ _ _ _ _ _ V k Hk) as (i & r' & F1 & F2 & F3).
  assert (i = j) by (eapply (blk_inj _ _ _ _ Hp Hn); eauto; congruence). subst i.
  assert (r' = r) by congruence. subst r'.
  destruct (yi_bad _ _ _ _ _ _ V j F1) as (x & G1 & _ & _ & G4). assert (x = r) by congruence. subst x.
  rewrite E3 in G4.
  assert (F : y_failed y b = true) by (eapply in_failed; eauto).
  inversion St; subst; yproj; pproj; try (left; assumption); try congruence.
  - match goal with K : pcstep _ _ _ |- _ => inversion K; congruence end.
  - match goal with K : wait_ok _ |- _ => specialize (K (q_buf r) (or_introl Hpc)) end. congruence.
  - right. csplit; auto. match goal with K : p_pc _ = PGiven ?z |- In _ (?z' :: _) => assert (z' = q_buf r) by congruence end. subst. cbn; auto.
Qed.

(** An exception is thrown only by block_consumed(), for a buffer that was handed out
    for a block whose read failed. *)
Theorem C89_throw_only_after_failure : forall tr y y', yrun y0 tr y -> ystep y YThrow y' ->
  exists b k, p_pc (y_p y) = PGiven b /\ In k (y_fails tr) /\ nth_error (y_handed tr) k = Some b.
Proof.
  intros tr y y' R St. pose proof (yrun_inv _ _ _ _ _ _ _ _ Hp H0 R) as V.
  destruct (yi_p _ _ _ _ _ _ V) as (btr & back & hs & [C P T']).
  inversion St as [| | | | | |b T Hpc Hw Hf|]; subst.
  destruct (failed_in _ _ Hf) as (i & Hi & Bi).
  destruct (yi_bad _ _ _ _ _ _ V i Bi) as (r & G1 & G2 & G3 & G4).
  destruct (k_own _ _ _ _ _ _ _ _ C _ _ Hi) as (r2 & G5 & G6). assert (r2 = r) by congruence. subst r2.
  exists b, (q_blk r). csplit; auto.
  unfold Pc in P. rewrite Hpc in P. destruct P as (_ & _ & ->).
  destruct (proj1 (k_hs _ _ _ _ _ _ _ _ C b)) as (j & r' & I1 & I2 & I3 & I4); [cbn; auto|].
  assert (L : q_blk r < length (y_delivered tr)).
  { destruct (Nat.lt_ge_cases (q_blk r) (length (y_delivered tr))) as [L|L]; auto.
    assert (i = j).
    { eapply (k_live _ _ _ _ _ _ _ _ C); eauto; [|congruence].
      intros B. apply (k_back _ _ _ _ _ _ _ _ C) in B. lia. }
    subst j. assert (r' = r) by congruence. subst. auto. }
  destruct (handed_inv _ _ R) as (Hl & Hh).
  destruct (nth_error (y_handed tr) (q_blk r)) as [b'|] eqn:E.
  - destruct (Hh _ _ E) as (j' & x & X1 & X2 & X3).
    assert (j' = i) by (eapply (blk_inj _ _ _ _ Hp Hn); eauto). subst j'. congruence.
  - apply nth_error_None in E. lia.
Qed.

(** Neither the prefetcher nor the I/O layer changes a buffer in the caller's hands. *)
Theorem C89_held_buffers_untouched : forall tr y l y' b, yrun y0 tr y -> y_sys l y y' ->
  In b (p_held (y_p y)) -> NoDup (p_held (y_p y)) /\ y_mem y' b = y_mem y b.
Proof.
  intros tr y l y' b R Sy Hb.
  pose proof (yrun_inv _ _ _ _ _ _ _ _ Hp H0 R) as V.
  destruct (yi_p _ _ _ _ _ _ V) as (btr & back & hs & V0). pose proof V0 as [C P T'].
  assert (Hs : In b hs /\ NoDup (p_held (y_p y))).
  { pose proof (k_nd _ _ _ _ _ _ _ _ C) as ND. unfold Pc in P. destruct (p_pc (y_p y)); try tauto.
    - destruct P as (_ & _ & _ & _ & _ & _ & P7 & _). rewrite P7 in Hb. destruct Hb.
    - destruct P as (_ & _ & ->). auto.
    - destruct P as (_ & _ & ->). inversion ND; subst. cbn; auto.
    - destruct P as (_ & _ & _ & _ & ->). auto.
    - destruct P as (P & _). rewrite P in Hb. destruct Hb.
    - destruct P as (P & _). rewrite P in Hb. destruct Hb. }
  destruct Hs as (Hs & ND). split; auto.
  apply (k_hs _ _ _ _ _ _ _ _ C) in Hs. destruct Hs as (j & r' & I1 & I2 & I3 & I4).
  assert (X : forall i r, nth_error (p_reqs (y_p y)) i = Some r -> q_ph r = RPosted -> b <> q_buf r).
  { intros i r Hi Hph Q.
    assert (j = i).
    { eapply (k_live _ _ _ _ _ _ _ _ C); eauto; [|congruence].
      apply (k_fin _ _ _ _ _ _ _ _ C i r); congruence. }
    subst j. assert (r' = r) by congruence. subst r'.
    destruct (returned_phase _ _ _ _ Hp Hn _ _ _ _ _ _ C I1 I3); congruence. }
  destruct Sy as (St & N).
  inversion St; subst; unfold y_mem; yproj; pproj; auto.
  - match goal with K : pcstep _ _ _ |- _ => inversion K; subst; destruct N end.
  - match goal with K : pistep _ _ _ _ |- _ =>
      rewrite (held_untouched _ _ _ _ Hp Hn _ _ _ _ _ _ _ _ V0 (or_introl K) Hb) end. auto.
  - rewrite !updn_other by eauto. auto.
  - rewrite !updn_other by eauto. auto.
Qed.

Lemma dtor_inv : forall tr y, yrun y0 tr y ->
  (forall i, p_pc (y_p y) = PDtor i -> forall b, b < i -> y_failed y b = false) /\
  (p_pc (y_p y) = PDead -> forall b, b < min bufs (length bids) -> y_failed y b = false).
Proof.
  intros tr y R. remember y0 as z eqn:Heqz in R. induction R as [y|z tr y2 l y3 R IH St].
  - subst y. clear - H0. unfold y_init in H0. destruct (p_init bids sq bufs disk mem) as [s0|] eqn:I; [|discriminate].
    inversion H0; subst y0. unfold p_init in I. destruct (length bids); [discriminate|]. destruct bufs; [discriminate|].
    inversion I; subst s0. split; intros; discriminate.
  - specialize (IH Heqz). subst z. destruct IH as (D1 & D2).
    pose proof (yrun_inv _ _ _ _ _ _ _ _ Hp H0 R) as V.
    destruct (yi_p _ _ _ _ _ _ V) as (btr & back & hs & [C P T']).
    destruct (k_const _ _ _ _ _ _ _ _ C) as (_ & _ & _ & En).
    inversion St; subst; yproj; pproj.
    + match goal with K : pcstep _ _ _ |- _ => inversion K; subst end; pproj; split; intros; try discriminate; try lia; try congruence.
      all: match goal with K : PDtor 0 = PDtor _ |- _ => inversion K; subst; lia | _ => idtac end.
    + match goal with K : pistep _ _ _ _ |- _ => inversion K; subst end; pproj; try (split; intros; congruence).
      * unfold ctor_body. destruct (nth_error _ i) as [k|]; [destruct (k <? _)|]; pproj; split; intros; discriminate.
      * split; intros; [|discriminate]. match goal with K : PDtor _ = PDtor _ |- _ => inversion K; subst end.
        change (y_failed y2 b = false).
        destruct (Nat.eq_dec b i) as [->|]; [match goal with K : wait_ok _ |- _ => apply K; auto end|].
        apply (D1 i); auto. lia.
      * split; intros; [discriminate|]. change (y_failed y2 b = false). apply (D1 i); auto. lia.
    + split; intros; [apply (D1 _ H4 b)|apply (D2 H4 b)]; auto.
    + assert (Rw : rwait (y_p y2) (q_buf r) = false).
      { destruct (k_fin _ _ _ _ _ _ _ _ C i r) as (K & _); [auto|congruence|].
        unfold rwait. rewrite K. match goal with K : nth_error (p_reqs _) i = _, K2 : q_ph r = _ |- _ => rewrite K, K2 end. auto. }
      assert (Ow : forall b, rwait (y_p y2) b = true -> y_failed y2 b = false ->
         y_failed {| y_p := set_req (y_p y2) i (MkRd (q_buf r) (q_blk r) RArrived)
                    (updn (p_mem (y_p y2)) (q_buf r) (Some (p_disk (y_p y2) d))) (p_on (y_p y2));
                     y_bad := i :: y_bad y2; y_undef := updn (y_undef y2) (q_buf r) true; y_term := y_term y2 |} b = false).
      { intros b Wb Fb. unfold y_failed in *. yproj. pproj. destruct (p_rreq (y_p y2) b) as [i'|] eqn:E; auto.
        cbn [existsb]. rewrite Fb. rewrite orb_false_r. apply Nat.eqb_neq. intros ->.
        destruct (k_own _ _ _ _ _ _ _ _ C _ _ E) as (x & X1 & X2). assert (x = r) by congruence. subst. congruence. }
      unfold Pc in P. split; intros Q; [intros Q' b L|intros b L]; rewrite ?Q, ?Q' in P.
      all: try (apply Ow; [apply P; auto|eauto]).
    + split; intros; [apply (D1 _ H3 b)|apply (D2 H3 b)]; auto.
    + split; intros; [apply (D1 _ H3 b)|apply (D2 H3 b)]; auto.
    + split; intros; discriminate.
    + split; intros; [apply (D1 _ H5 b)|apply (D2 H5 b)]; auto.
Qed.

(** After a failed read the destructor never returns. *)
Theorem C89_destructor_never_returns : forall tr y, yrun y0 tr y -> y_fails tr <> [] ->
  p_pc (y_p y) <> PDead /\ ~ In (YOk FDestroyed) tr.
Proof.
  assert (Dead : forall tr y, yrun y0 tr y -> y_fails tr <> [] -> p_pc (y_p y) <> PDead).
  { intros tr y R F E. pose proof (yrun_inv _ _ _ _ _ _ _ _ Hp H0 R) as V.
    destruct (yi_p _ _ _ _ _ _ V) as (btr & back & hs & [C P T']).
    destruct (y_fails tr) as [|k ks] eqn:Ef; [congruence|].
    destruct (yi_fail _ _ _ _ _ _ V k) as (i & r & B & Hr & _); [rewrite Ef; cbn; auto|].
    destruct (yi_bad _ _ _ _ _ _ V i B) as (x & X1 & _ & _ & X4).
    pose proof (k_bufn _ _ _ _ _ _ _ _ C _ _ X1) as L.
    pose proof (proj2 (dtor_inv _ _ R) E _ L) as N.
    rewrite (in_failed _ _ _ X4 B) in N. discriminate. }
  assert (Stay : forall tr y, yrun y0 tr y -> In (YOk FDestroyed) tr -> p_pc (y_p y) = PDead).
  { intros tr y R. remember y0 as z eqn:Heqz in R. induction R as [y|z tr y2 l y3 R IH St]; [intros []|].
    subst z. specialize (IH eq_refl). intros Q. apply in_app_or in Q. destruct Q as [Q|[Q|[]]].
    - specialize (IH Q). inversion St; subst; yproj; pproj; auto; try congruence.
      + match goal with K : pcstep _ _ _ |- _ => inversion K; congruence end.
      + match goal with K : pistep _ _ _ _ |- _ => inversion K; subst; congruence end.
    - subst l. inversion St; subst.
      + match goal with K : pcstep _ _ _ |- _ => inversion K end.
      + destruct l; try discriminate. match goal with K : pistep _ _ _ _ |- _ => inversion K; subst end. auto. }
  intros tr y R F. split; [eauto|]. intros Q. eapply Dead; eauto.
Qed.

(** Every call ends if the schedule never starves a reader that has as many buffers
    as the caller does not hold: it returns, throws, or ends the program. *)
Theorem C89_calls_end : forall tr y, yrun y0 tr y ->
  never_starves (min bufs (length bids) - length (p_held (y_p y))) (length bids) sq -> y_ends y.
Proof.
  intros tr y R NS. eapply (y_ends_wf _ _ _ _ Hp Hn); eauto. eapply yrun_inv; eauto.
Qed.

(** The program is ended only by the destructor, and only after a failed read. *)
Theorem C89_terminate_only_after_failure : forall tr y y', yrun y0 tr y -> ystep y YTerminate y' ->
  y_fails tr <> [] /\ exists i, p_pc (y_p y) = PDtor i.
Proof.
  intros tr y y' R St. pose proof (yrun_inv _ _ _ _ _ _ _ _ Hp H0 R) as V.
  inversion St as [| | | | | | |i T Hpc Hi Hw Hf]; subst. split; [|eauto].
  destruct (failed_in _ _ Hf) as (j & _ & B).
  destruct (yi_bad _ _ _ _ _ _ V j B) as (x & _ & _ & X3 & _). intros E. rewrite E in X3. destruct X3.
Qed.

End Props.
Print Assumptions C89_in_order.
Print Assumptions C89_complete.
Print Assumptions C89_error_reported.
Print Assumptions C89_throw_only_after_failure.
Print Assumptions C89_held_buffers_untouched.
Print Assumptions C89_destructor_never_returns.
Print Assumptions C89_calls_end.
Print Assumptions C89_terminate_only_after_failure.

(** Without failures the model is that of C39. *)
Theorem C89_extends_C39 : forall {A} (y y' : yst A) tr, yrun y tr y' -> y_fails tr = [] ->
  y_bad y = [] -> (forall b, y_undef y b = false) ->
  prun false (y_p y) (y_normal tr) (y_p y') /\ y_bad y' = [] /\ (forall b, y_undef y' b = false) /\
  ~ In YThrow tr /\ ~ In YTerminate tr.
Proof.
  intros A y y' tr R. induction R as [y|y1 tr y2 l y3 R IH St]; intros F B U.
  - csplit; auto. constructor.
  - rewrite y_fails_app in F. apply app_eq_nil in F. destruct F as (F1 & F2).
    destruct (IH F1 B U) as (R2 & B2 & U2 & T1 & T2).
    assert (NF : forall b, y_failed y2 b = false).
    { intros b. unfold y_failed. rewrite B2. destruct (p_rreq (y_p y2) b); auto. }
    assert (NI : forall x : ylabel A, ~ In x tr -> l <> x -> ~ In x (tr ++ [l])).
    { intros x Nx Ne Q. apply in_app_or in Q. destruct Q as [Q|[Q|[]]]; auto. }
    assert (Ms : forall z b, (forall b', y_undef z b' = false) -> y_mem z b = p_mem (A := A) (y_p z) b).
    { intros z b Uz. unfold y_mem. rewrite Uz. auto. }
    rewrite y_normal_app.
    inversion St; subst; yproj; cbn [y_normal]; try (rewrite NF in *; discriminate); try discriminate;
      (csplit; [econstructor; [exact R2|]|assumption| |apply NI; [assumption|discriminate]|apply NI; [assumption|discriminate]]); auto.
    + left; auto.
    + intros b. destruct l0; auto. unfold updn. destruct (b =? b0); auto.
    + right; left. match goal with K : pistep _ _ _ _ |- _ => inversion K; subst; cbn [y_see]; rewrite ?Ms by auto; exact K end.
    + right; right. eapply RArrive; eauto.
    + intros b. unfold updn. destruct (b =? q_buf r); auto.
    + right; right. eapply RSwitch; eauto.
    + right; right. eapply RFinish; eauto.
Qed.
Print Assumptions C89_extends_C39.

(** ** Concrete runs *)

Lemma yrun_front_eq : forall {A} (y1 y2 y3 : yst A) l l' tr,
  ystep y1 l y2 -> l = l' -> yrun y2 tr y3 -> yrun y1 (l' :: tr) y3.
Proof.
  intros A y1 y2 y3 l l' tr H -> R. induction R.
  - change [l'] with ([] ++ [l']). econstructor; [constructor|auto].
  - rewrite app_comm_cons. econstructor; eauto.
Qed.

Ltac ynorm := match goal with |- yrun ?s _ _ => let s' := eval cbv in s in change s with s' end.
Ltac yside := first [reflexivity | cbn; auto; fail | cbn; lia | cbn; discriminate | idtac].
Ltac ycal tac := eapply yrun_front_eq; [apply YCaller; [reflexivity|tac; yside]|reflexivity|ynorm].
Ltac ycode tac := eapply yrun_front_eq; [apply YCode; [reflexivity|tac; yside|
  let b := fresh in let Q := fresh in intros b [Q|(Q & _)]; inversion Q; reflexivity]|reflexivity|ynorm].
Ltac yenv ix := eapply yrun_front_eq; [
  first [eapply (YArrive _ ix); reflexivity|eapply (YSwitch _ ix); reflexivity
        |eapply (YFinish _ ix); reflexivity]|reflexivity|ynorm].
Ltac ybad ix := eapply yrun_front_eq; [eapply (YFails _ ix); reflexivity|reflexivity|ynorm].

Definition exy_bids := [MkBid 0 0; MkBid 0 8; MkBid 1 0].
Definition exy_disk (d : bid) : nat := 10 * b_storage d + Z.to_nat (b_offset d) + 1.

(** Three blocks, two buffers, schedule 1, 0, 2; the read of block 0 fails.  The caller
    gets buffer 1 without an exception.  Giving it back throws, twice.  pull_block()
    still delivers the other blocks through buffer 0. *)
Definition ex_ytr1 : list (ylabel nat) :=
  [YOk FTau; YOk FTau; YOk FTau; YFail 0; YOk FTau; YOk FTau; YOk FPull; YOk (FRet 1 None)].
Definition ex_ytr2 : list (ylabel nat) :=
  [YOk (FGive 1); YThrow; YOk (FGive 1)].
Definition ex_ytr3 : list (ylabel nat) :=
  [YThrow; YOk FPull; YOk FTau; YOk FTau; YOk FTau; YOk (FRet 0 (Some 9)); YOk (FGive 0); YOk FTau; YOk FTau; YOk FTau;
   YOk (FRet 0 (Some 11)); YOk FTau; YOk (FGive 0); YOk FNone].
Definition ex_ytr4 : list (ylabel nat) := [YOk FDestroy; YOk FTau; YTerminate].

Example C89_case : exists y0 y1 y2 y3 y4,
  all_blocks_once (length exy_bids) [1; 0; 2] /\
  y_init exy_bids [1; 0; 2] 2 exy_disk (fun _ => None) = Some y0 /\
  never_starves (min 2 (length exy_bids)) (length exy_bids) [1; 0; 2] /\
  yrun y0 ex_ytr1 y1 /\ p_held (y_p y1) = [1] /\
  yrun y1 ex_ytr2 y2 /\ p_pc (y_p y2) = PGiven 1 /\
  y_fails (ex_ytr1 ++ ex_ytr2) = [0] /\ nth_error (y_handed (ex_ytr1 ++ ex_ytr2)) 0 = Some 1 /\
  yrun y2 ex_ytr3 y3 /\ y_delivered (ex_ytr1 ++ ex_ytr2 ++ ex_ytr3) = [None; Some 9; Some 11] /\
  yrun y3 ex_ytr4 y4 /\ y_term y4 = true.
Proof.
  eexists. eexists. eexists. eexists. eexists. csplit.
  - unfold all_blocks_once. cbn. apply perm_swap.
  - reflexivity.
  - intros k Hk. cbn in Hk. destruct k as [|[|[|k]]]; cbn; auto; lia.
  - unfold ex_ytr1.
    ycode ltac:(apply (JCtor _ _ 0)). ycode ltac:(apply (JCtor _ _ 1)).
    ycode ltac:(apply (JCtorEnd _ _ 2)). ybad 1. yenv 1. yenv 1.
    ycal ltac:(apply QPull). ycode ltac:(apply (JRet _ _ 0 1)). constructor.
  - reflexivity.
  - unfold ex_ytr2. ynorm. ycal ltac:(apply (QGive _ [] 1 [])).
    eapply yrun_front_eq; [eapply (YThrows _ 1); reflexivity|reflexivity|ynorm].
    ycal ltac:(apply (QGive _ [] 1 [])). constructor.
  - reflexivity.
  - reflexivity.
  - reflexivity.
  - unfold ex_ytr3. ynorm.
    eapply yrun_front_eq; [eapply (YThrows _ 1); reflexivity|reflexivity|ynorm].
    ycal ltac:(apply QPull). yenv 0. yenv 0. yenv 0. ycode ltac:(apply (JRet _ _ 1 0)).
    ycal ltac:(apply (QGive _ [] 0 [1])). ycode ltac:(apply (JNext _ _ 0)).
    yenv 2. yenv 2. ycode ltac:(apply (JRet _ _ 2 0)). yenv 2.
    ycal ltac:(apply (QGive _ [] 0 [1])). ycode ltac:(apply (JNone _ _ 0)). constructor.
  - reflexivity.
  - unfold ex_ytr4. ynorm. ycal ltac:(apply QDestroy). ycode ltac:(apply (JDtor _ _ 0)).
    eapply yrun_front_eq; [eapply (YDies _ 1); first [reflexivity|cbn; lia]|reflexivity|ynorm]. constructor.
  - reflexivity.
Qed.

(** pull_block() and block_consumed() do not report that the block they return could
    not be read. *)
Theorem C89_contents_refuted :
  ~ (forall bids sq bufs (disk : bid -> nat) mem y0 tr y,
       all_blocks_once (length bids) sq ->
       y_init bids sq bufs disk mem = Some y0 -> yrun y0 tr y -> ~ In YThrow tr ->
       y_delivered tr = firstn (length (y_delivered tr)) (stream disk bids)).
Proof.
  intros H. destruct C89_case as (y0 & y1 & y2 & y3 & y4 & Hp & H0 & _ & R & _).
  specialize (H _ _ _ _ _ _ _ _ Hp H0 R).
  assert (N : ~ In YThrow ex_ytr1) by (cbn; intuition discriminate).
  apply H in N. discriminate.
Qed.
Print Assumptions C89_contents_refuted.
