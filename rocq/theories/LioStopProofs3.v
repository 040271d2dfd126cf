(** The destructor of the kernel AIO queue can always return. *)

From Coq Require Import List Arith Bool Lia ZArith.
From Verif Require Import LioModel LioSpec LioProofs LioProofs2 LioStopModel LioStopSpec
  LioStopProofs LioStopProofs2.
Import ListNotations.

Lemma full_qstep max q q' : full (poster (inner q)) -> qstep max false q q' ->
  full (poster (inner q')).
Proof.
  intros F H. destruct H; qunf; unf; fields; auto.
  - eapply full_step; eassumption.
  - exact Logic.I.
Qed.

Lemma full_qreach max q : qreach max false q -> full (poster (inner q)).
Proof. induction 1; [exact Logic.I|eapply full_qstep; eassumption]. Qed.

Definition gone x := match x with TERMINATED => true | NOT_RUNNING => true | _ => false end.

Definition qp_mu x (r : option nat) p := if gone x then 0 else match p with
  | P_idle => 4
  | P_got => match r with Some _ => 3 | None => 2 end
  | P_comp => 5
  | P_coll r => 20 * length r + 2
  | P_coll2 r => 20 * length r + 1
  | P_free r => 20 * length r
  | P_sub c => 19 * length c
  | P_sig _ _ => 5
  | _ => 0 end.
Definition qw_mu x (r : option nat) w := if gone x then 0 else match w with
  | W_idle => 2
  | W_get => match r with Some _ => 1 | None => 0 end
  | W_comp e => 5 * length e + 6
  | W_han (H_free e) => 5 * length e + 5
  | W_han (H_comp r _) => 5 * length r + 4
  | W_han (H_wait _) => 3
  end.
Definition d_mu d := match d with
  | D_no => 7 | D_pset => 6 | D_psig => 5 | D_pjoin => 4 | D_wset => 3 | D_wsig => 2
  | D_wjoin => 1 | D_done => 0 end.

Definition qmu q := 22 * length (waiting (inner q)) + qp_mu (pst q) (pread q) (poster (inner q))
  + qw_mu (wst q) (wread q) (waiter (inner q))
  + 13 * length (infl (inner q)) + 12 * length (dn (inner q)) + d_mu (dtor q).

Definition qbetter max q := exists q', qstep max false q q' /\ qmu q' < qmu q.

(** The waiting thread can move if there is something in the kernel and it has
    not left its loop. *)
Lemma waiter_moves max q : 1 <= max -> QInv max q -> gone (wst q) = false ->
  p_sign (poster (inner q)) = 0 -> p_pend (poster (inner q)) = 0 ->
  1 <= length (infl (inner q)) + length (dn (inner q)) + w_unsig (waiter (inner q))
       + w_pend (waiter (inner q)) + tok (w_signalled (dtor q)) ->
  qbetter max q.
Proof.
  intros Hm J G G2 G3 Hk.
  pose proof J as [Ji Jp Jw Jc Jps Jws Jpz Jwz Jpm Jwm].
  pose proof Ji as [If Ip Iw Il Iok Ipl Ia Io Is Ir Ih Ic].
  rewrite G2, G3 in Ip.
  destruct (waiter (inner q)) as [| |e|h] eqn:Ew.
  - cbn [w_unsig w_pend w_ate] in *.
    destruct (po (inner q)) as [|n] eqn:Epo; [exfalso; lia|].
    eexists. split; [apply Q_w_wait; eassumption|].
    unfold qmu. qunf; unf; fields. unfold qw_mu. rewrite G, Ew. lia.
  - destruct (wread q) as [v|] eqn:Er.
    + destruct (wst q) eqn:Es; try discriminate.
      * eexists. split; [apply (Q_w_go _ _ _ v); auto|].
        unfold qmu. qunf. unfold qw_mu. rewrite Es, Ew, Er. cbn. lia.
      * destruct v as [|v].
        -- eexists. split; [apply (Q_w_end _ _ _ 0); auto|].
           unfold qmu. qunf. unfold qw_mu. rewrite Es, Ew, Er. cbn. lia.
        -- eexists. split; [apply (Q_w_go _ _ _ (S v)); auto|].
           unfold qmu. qunf. unfold qw_mu. rewrite Es, Ew, Er. cbn. lia.
    + assert (D : 1 <= length (infl (inner q)) + length (dn (inner q))).
      { destruct (w_signalled (dtor q)) eqn:Sg.
        - specialize (Jwm eq_refl eq_refl ltac:(discriminate)). unfold in_kernel in Jwm.
          destruct (infl (inner q)); [destruct (dn (inner q)); [contradiction|cbn; lia]|cbn; lia].
        - cbn in Ip. lia. }
      destruct (dn (inner q)) as [|d0 dl] eqn:Ed.
      * destruct (infl (inner q)) as [|i il] eqn:Ei; [cbn in D; lia|].
        eexists. split.
        -- apply Q_inner; [eapply (S_kernel _ _ _ (inner q) [] i il); auto| | |]; unf; fields; auto.
        -- unfold qmu. qunf; unf; fields. rewrite Ed, Ei. cbn [length app]. lia.
      * eexists. split.
        -- apply Q_inner; [eapply (S_w_get _ _ _ (inner q) (d0 :: dl) []); auto| | |]; unf; fields; auto.
           ++ rewrite Ed. apply take_all.
           ++ cbn; lia.
           ++ lia.
           ++ right. rewrite Ew. auto. split; [discriminate|assumption].
        -- unfold qmu. qunf; unf; fields. unfold qw_mu. rewrite Ew, Ed, G, Er. cbn [length]. lia.
  - assert (Er : wread q = None).
    { destruct (wread q) eqn:E; [|reflexivity]. discriminate Jw. congruence. }
    eexists. split.
    + apply Q_inner; [eapply S_w_compensate; eauto| | |]; unf; fields; auto.
      right. rewrite Ew. split; [discriminate|assumption].
    + unfold qmu. qunf; unf; fields. unfold qw_mu. rewrite Ew, G. lia.
  - assert (Er : wread q = None).
    { destruct (wread q) eqn:E; [|reflexivity]. discriminate Jw. congruence. }
    assert (GW : waiter (inner q) <> W_idle /\ wread q = None) by (rewrite Ew; split; [discriminate|assumption]).
    destruct h as [e|[|i rem] k|k].
    + eexists. split.
      * apply Q_inner; [eapply S_w_handle; [assumption|eassumption|apply HS_free]| | |]; unf; fields; auto.
      * unfold qmu. qunf; unf; fields. unfold qw_mu. rewrite Ew, G. lia.
    + eexists. split.
      * apply Q_inner; [eapply S_w_handle; [assumption|eassumption|apply HS_end]| | |]; unf; fields; auto.
      * unfold qmu. qunf; unf; fields. unfold qw_mu. rewrite Ew, G. cbn [length]. lia.
    + assert (F : cnt i (ccalls (inner q)) = 0)
        by (sp i; pcs; rewrite Nat.eqb_refl in *; lia).
      eexists. split.
      * apply Q_inner; [eapply S_w_handle; [assumption|eassumption|apply HS_comp]| | |];
          rewrite complete_fresh by assumption; unf; fields; auto.
      * rewrite complete_fresh by assumption. unfold qmu. qunf; unf; fields.
        unfold qw_mu. rewrite Ew, G. cbn [length]. lia.
    + eexists. split.
      * apply Q_inner; [eapply S_w_handle; [assumption|eassumption|apply HS_wait]| | |]; unf; fields; auto.
        cbn [w_ate w_pend h_pend] in Ip. lia.
      * unfold qmu. qunf; unf; fields. unfold qw_mu. rewrite Ew, G. lia.
Qed.

Lemma poster_moves max q : 1 <= max -> QInv max q -> full (poster (inner q)) ->
  dtor q = D_psig -> pst q = TERMINATING -> qbetter max q.
Proof.
  intros Hm J Fu Hd Hs.
  pose proof J as [Ji Jp Jw Jc Jps Jws Jpz Jwz Jpm Jwm].
  pose proof Ji as [If Ip Iw Il Iok Ipl Ia Io Is Ir Ih Ic].
  destruct (Jc ltac:(congruence)) as (A0 & C0).
  rewrite A0, C0, Hd in Iw. cbn [length p_signalled tok] in Iw.
  assert (Gw : gone (wst q) = false) by (rewrite Hd in Jws; cbn in Jws; rewrite Jws; reflexivity).
  assert (NR : poster (inner q) <> P_got -> pread q = None).
  { intros N. destruct (pread q); [|reflexivity]. exfalso. apply N, Jp. discriminate. }
  destruct (poster (inner q)) as [| | |r|r|r|c|n c|c|h c] eqn:Ep; cbn [full] in Fu; try contradiction.
  - destruct (wt (inner q)) as [|n] eqn:En; [cbn in Iw; lia|].
    eexists. split; [apply Q_p_wait; eassumption|].
    unfold qmu. qunf; unf; fields. unfold qp_mu. rewrite Hs, Ep. cbn [gone]. lia.
  - destruct (pread q) as [v|] eqn:Er.
    + destruct v as [|v].
      * eexists. split; [apply (Q_p_end _ _ _ 0); auto|].
        unfold qmu. qunf. unfold qp_mu. rewrite Hs, Ep, Er. cbn [gone]. lia.
      * eexists. split; [apply (Q_p_go _ _ _ (S v)); auto|].
        unfold qmu. qunf. unfold qp_mu. rewrite Hs, Ep, Er. cbn [gone]. lia.
    + specialize (Jpm ltac:(rewrite Hd; reflexivity) eq_refl ltac:(discriminate)).
      destruct (waiting (inner q)) as [|i w] eqn:Ew; [contradiction|].
      eexists. split.
      * apply Q_inner; [eapply S_p_first; eauto| | |]; unf; fields; auto.
        right. rewrite Ep. split; [discriminate|assumption].
      * unfold qmu. qunf; unf; fields. unfold qp_mu. rewrite Hs, Ep, Er, Ew. cbn [gone length]. lia.
  - eexists. split.
    + apply Q_inner; [eapply S_p_compensate; eauto| | |]; unf; fields; auto.
      right. rewrite Ep. split; [discriminate|apply NR; discriminate].
    + unfold qmu. qunf; unf; fields. unfold qp_mu. rewrite Hs, Ep. cbn [gone]. lia.
  - assert (GP : poster (inner q) <> P_idle /\ pread q = None)
      by (rewrite Ep; split; [discriminate|apply NR; discriminate]).
    destruct (le_lt_dec 2 (fr (inner q))) as [Hf|Hf].
    + destruct (waiting (inner q)) as [|i w] eqn:Ew.
      * eexists. split.
        -- apply Q_inner; [eapply S_p_stop; eauto| | |]; unf; fields; auto.
        -- unfold qmu. qunf; unf; fields. unfold qp_mu. rewrite Hs, Ep, Ew. cbn [gone]. lia.
      * eexists. split.
        -- apply Q_inner; [eapply S_p_acquire; eauto; congruence| | |]; unf; fields; auto.
        -- unfold qmu. qunf; unf; fields. unfold qp_mu. rewrite Hs, Ep, Ew. cbn [gone]. lia.
    + eexists. split.
      * apply Q_inner; [eapply S_p_stop; eauto| | |]; unf; fields; auto.
      * unfold qmu. qunf; unf; fields. unfold qp_mu. rewrite Hs, Ep. cbn [gone]. lia.
  - assert (GP : poster (inner q) <> P_idle /\ pread q = None)
      by (rewrite Ep; split; [discriminate|apply NR; discriminate]).
    destruct (wt (inner q)) as [|n] eqn:En.
    + eexists. split.
      * apply Q_inner; [eapply S_p_giveback; eauto| | |]; unf; fields; auto.
      * unfold qmu. qunf; unf; fields. unfold qp_mu. rewrite Hs, Ep. cbn [gone]. lia.
    + cbn in Iok. destruct Iok as (_ & _ & Nw).
      destruct (waiting (inner q)) as [|i w] eqn:Ew; [congruence|].
      eexists. split.
      * apply Q_inner; [eapply S_p_more; eauto| | |]; unf; fields; auto.
      * unfold qmu. qunf; unf; fields. unfold qp_mu. rewrite Hs, Ep, Ew. cbn [gone length].
        rewrite app_length. cbn [length]. lia.
  - cbn in Iok. destruct Iok as (Nr & Kf).
    destruct (fr (inner q)) as [|n] eqn:En.
    + apply waiter_moves; auto; rewrite ?Ep; auto.
      cbn in If. destruct r as [|x [|y r]]; [congruence| |]; cbn in *; lia.
    + eexists. split.
      * apply Q_inner; [eapply S_p_last; eauto| | |]; unf; fields; auto.
        right. rewrite Ep. split; [discriminate|apply NR; discriminate].
      * unfold qmu. qunf; unf; fields. unfold qp_mu. rewrite Hs, Ep. cbn [gone].
        destruct r; [congruence|cbn [length]; lia].
  - cbn in Iok.
    eexists. split.
    + apply Q_inner; [eapply (S_p_submit _ _ _ (inner q) c []); auto; rewrite app_nil_r; exact Ep| | |];
        unf; fields; auto.
      right. rewrite Ep. split; [discriminate|apply NR; discriminate].
    + unfold qmu. qunf; unf; fields. unfold qp_mu. rewrite Hs, Ep. cbn [gone]. rewrite app_length.
      destruct c; [congruence|cbn [length]; lia].
  - subst c. eexists. split.
    + apply Q_inner; [eapply S_p_signal; eauto| | |]; unf; fields; auto.
      right. rewrite Ep. split; [discriminate|apply NR; discriminate].
    + unfold qmu. qunf; unf; fields. unfold qp_mu. rewrite Hs, Ep. cbn [gone]. lia.
Qed.

Lemma stop_progress max q : 1 <= max -> QInv max q -> full (poster (inner q)) ->
  dtor q <> D_no -> destroyed q \/ qbetter max q.
Proof.
  intros Hm J Fu Hd.
  pose proof J as [Ji Jp Jw Jc Jps Jws Jpz Jwz Jpm Jwm].
  unfold destroyed. destruct (dtor q) eqn:D; try congruence; auto; right; cbn in Jps, Jws.
  - eexists. split; [apply Q_d_psig; assumption|].
    unfold qmu. qunf; unf; fields. rewrite D. cbn. lia.
  - destruct Jps as [Es|(Es & Er)].
    + apply poster_moves; auto.
    + eexists. split; [apply Q_d_pjoin; assumption|].
      unfold qmu. qunf. unfold qp_mu. rewrite D, Es. cbn. lia.
  - destruct Jps as (Es & Er). eexists. split; [apply Q_d_wset; assumption|].
    unfold qmu. qunf. unfold qw_mu. rewrite D, Jws. cbn. lia.
  - eexists. split; [apply Q_d_wsig; assumption|].
    unfold qmu. qunf; unf; fields. rewrite D. cbn. lia.
  - destruct Jws as [Es|(Es & Er)].
    + destruct Jps as (_ & PR). rewrite <- D in *. apply waiter_moves; auto.
      * rewrite Es; reflexivity.
      * rewrite Jp by congruence. reflexivity.
      * rewrite Jp by congruence. reflexivity.
      * rewrite D. cbn. lia.
    + eexists. split; [apply Q_d_wjoin; assumption|].
      unfold qmu. qunf. unfold qw_mu. rewrite D, Es. cbn. lia.
  - eexists. split; [apply Q_d_done; assumption|].
    unfold qmu. qunf. rewrite D. cbn. lia.
Qed.

Lemma dtor_kept max q q' : qstep max false q q' -> dtor q <> D_no -> dtor q' <> D_no.
Proof. intros H N. destruct H; qunf; congruence. Qed.

(** Every step of the destruction makes the measure smaller. *)
Lemma pst_gone max q : QInv max q -> gone (pst q) = true -> pread q = Some 0.
Proof.
  intros J G. pose proof (J_pst _ _ J) as K.
  destruct (dtor q); cbn in K; try tauto; [rewrite K in G; discriminate| |];
    (destruct K as [K|(_ & K)]; [rewrite K in G; discriminate|assumption]).
Qed.

Lemma wst_gone max q : QInv max q -> gone (wst q) = true -> wread q = Some 0.
Proof.
  intros J G. pose proof (J_wst _ _ J) as K.
  destruct (dtor q); cbn in K; try tauto; try (rewrite K in G; discriminate);
    (destruct K as [K|(_ & K)]; [rewrite K in G; discriminate|assumption]).
Qed.

Lemma stop_decreases max q q' : QInv max q -> full (poster (inner q)) -> dtor q <> D_no ->
  qstep max false q q' -> qmu q' < qmu q.
Proof.
  intros J Fu Hd H.
  pose proof J as [Ji Jp Jw Jc Jps Jws Jpz Jwz Jpm Jwm].
  pose proof Ji as [If Ip Iw Il Iok Ipl Ia Io Is Ir Ih Ic].
  destruct (Jc Hd) as (A0 & C0).
  assert (Gp0 := pst_gone _ _ J). assert (Gw0 := wst_gone _ _ J).
  destruct H.
  - destruct H2 as [H2|(Ha & Hc)]; [contradiction|].
    assert (GP : poster s' <> poster (inner q) -> poster (inner q) <> P_idle /\ pread q = None /\ gone (pst q) = false).
    { intros N. destruct H0 as [H0|(H0 & R)]; [congruence|]. split; [assumption|split; [assumption|]].
      destruct (gone (pst q)); [|reflexivity]. rewrite Gp0 in R; [discriminate|reflexivity]. }
    assert (GW : waiter s' <> waiter (inner q) -> waiter (inner q) <> W_idle /\ wread q = None /\ gone (wst q) = false).
    { intros N. destruct H1 as [H1|(H1 & R)]; [congruence|]. split; [assumption|split; [assumption|]].
      destruct (gone (wst q)); [|reflexivity]. rewrite Gw0 in R; [discriminate|reflexivity]. }
    clear H0 H1 Gp0 Gw0. unfold qmu. qunf.
    remember (inner q) as s0 eqn:Es0.
    destruct H; unf; fields; try congruence;
      try (rewrite C0 in *; match goal with E : [] = ?x ++ _ :: _ |- _ => destruct x; discriminate end);
      try (exfalso; match goal with E : cancelers _ = ?x ++ _ :: _ |- _ => rewrite C0 in E; destruct x; discriminate end);
      try (exfalso; match goal with E : poster _ = _ |- _ => rewrite E in Fu; exact Fu end).
    + exfalso. assert (L : length (i :: added s) = length (added s)) by congruence. cbn in L. lia.
    + exfalso. destruct GP as (K & _); congruence.
    + (* empty *)
      exfalso. destruct GP as (_ & R & _); [congruence|].
      rewrite H0, H2, A0, C0 in Iw. cbn in Iw.
      destruct (p_signalled (dtor q)) eqn:Sg; cbn in Iw; [|lia].
      apply (Jpm eq_refl H0); [congruence|assumption].
    + destruct GP as (_ & R & G); [congruence|]. unfold qp_mu. rewrite H0, G. lia.
    + destruct GP as (_ & R & G); [congruence|]. unfold qp_mu. rewrite H0, G, R, H2. cbn [length]. lia.
    + destruct GP as (_ & R & G); [congruence|]. unfold qp_mu. rewrite H0, G. lia.
    + destruct GP as (_ & R & G); [congruence|]. unfold qp_mu. rewrite H0, G. lia.
    + destruct GP as (_ & R & G); [congruence|]. unfold qp_mu. rewrite H0, G. lia.
    + destruct GP as (_ & R & G); [congruence|]. unfold qp_mu. rewrite H0, G, H2. cbn [length].
      rewrite app_length. cbn [length]. lia.
    + destruct GP as (_ & R & G); [congruence|]. unfold qp_mu. rewrite H0, G.
      rewrite H0 in Iok. cbn in Iok. destruct r; [destruct Iok; congruence|cbn [length]; lia].
    + destruct GP as (_ & R & G); [congruence|]. unfold qp_mu. rewrite H0, G.
      destruct H2 as [H2|H2]; [discriminate|subst b]. rewrite app_nil_r, app_length.
      destruct a; [congruence|cbn [length]; lia].
    + destruct GP as (_ & R & G); [destruct c; congruence|]. unfold qp_mu. rewrite H0, G.
      rewrite H0 in Fu. cbn in Fu. subst c. lia.
    + destruct GW as (K & _); [congruence|]. congruence.
    + destruct GW as (_ & R & G); [congruence|]. unfold qw_mu. rewrite H0, G, R.
      rewrite (take_length _ _ _ H1). lia.
    + destruct GW as (_ & R & G); [congruence|]. unfold qw_mu. rewrite H0, G. lia.
    + assert (GW' : waiter s <> W_idle /\ wread q = None /\ gone (wst q) = false).
      { apply GW. rewrite H0. inversion H1; subst; try discriminate.
        - intros [= K]. assert (L : length rem = S (length rem)) by (rewrite K at 1; reflexivity). lia. }
      destruct GW' as (_ & R & G).
      destruct H1; unf; fields; unfold qw_mu; rewrite H0, G; cbn [length].
      * lia.
      * assert (F : cnt i (ccalls s) = 0)
          by (rewrite H0 in *; sp i; pcs; rewrite Nat.eqb_refl in *; lia).
        rewrite complete_fresh by assumption. fields. lia.
      * lia.
      * lia.
    + rewrite H0. rewrite !app_length. cbn [length]. lia.
  - unfold qmu. qunf; unf; fields. unfold qp_mu.
    destruct (gone (pst q)) eqn:G.
    + rewrite Jp in H by (rewrite Gp0; congruence). discriminate.
    + rewrite H. lia.
  - unfold qmu. qunf. unfold qp_mu.
    assert (G : gone (pst q) = false) by (destruct H0 as [->|(-> & _)]; reflexivity).
    rewrite G, H. rewrite Jp by congruence. lia.
  - destruct H0 as (E & ->). unfold qmu. qunf. unfold qp_mu. rewrite E, H.
    rewrite Jp by congruence. cbn [gone]. lia.
  - unfold qmu. qunf; unf; fields. unfold qw_mu.
    destruct (gone (wst q)) eqn:G.
    + rewrite Jw in H by (rewrite Gw0; congruence). discriminate.
    + rewrite H. lia.
  - unfold qmu. qunf. unfold qw_mu.
    assert (G : gone (wst q) = false) by (destruct H0 as [->|(-> & _)]; reflexivity).
    rewrite G, H. rewrite Jw by congruence. lia.
  - destruct H0 as (E & ->). unfold qmu. qunf. unfold qw_mu. rewrite E, H.
    rewrite Jw by congruence. cbn [gone]. lia.
  - congruence.
  - unfold qmu. qunf; unf; fields. rewrite H. cbn [d_mu]. lia.
  - unfold qmu. qunf. unfold qp_mu. rewrite H, H0. cbn [d_mu gone]. lia.
  - unfold qmu. qunf. unfold qw_mu. rewrite H in *. cbn in Jws. rewrite Jws. cbn [d_mu gone]. lia.
  - unfold qmu. qunf; unf; fields. rewrite H. cbn [d_mu]. lia.
  - unfold qmu. qunf. unfold qw_mu. rewrite H, H0. cbn [d_mu gone]. lia.
  - unfold qmu. qunf. rewrite H. cbn [d_mu]. lia.
Qed.

Lemma must_return max q : 1 <= max -> qreach max false q -> dtor q <> D_no ->
  inevitable (qstep max false) destroyed q.
Proof.
  intros Hm. remember (qmu q) as m eqn:Em. revert q Em.
  induction m as [m IH] using lt_wf_ind. intros q -> R Hd.
  destruct (stop_progress max q Hm (qinv_reach _ _ _ R) (full_qreach _ _ R) Hd) as [A|(q1 & St & Lt)].
  - apply inev_now. assumption.
  - apply inev_later; [eauto|]. intros q2 H2. apply (IH (qmu q2)); auto.
    + apply (stop_decreases max q q2); auto; [eapply qinv_reach|eapply full_qreach]; eassumption.
    + eapply QR_step; eassumption.
    + eapply dtor_kept; eassumption.
Qed.
