(** What the destructor of the kernel AIO queue leaves behind. *)

From Coq Require Import List Arith Bool Lia ZArith.
From Verif Require Import LioModel LioSpec LioProofs LioProofs2 LioStopModel LioStopSpec
  LioStopProofs.
Import ListNotations.

Definition tok (b : bool) : nat := if b then 1 else 0.

Definition pst_ok (d : dpc) (x : tstate) (r : option nat) : Prop := match d with
  | D_no => x = RUNNING
  | D_pset => x = TERMINATING \/ x = TERMINATED /\ r = Some 0
  | D_psig => x = TERMINATING \/ x = TERMINATED /\ r = Some 0
  | _ => x = NOT_RUNNING /\ r = Some 0
  end.

Definition wst_ok (d : dpc) (x : tstate) (r : option nat) : Prop := match d with
  | D_wset => x = TERMINATING \/ x = TERMINATED /\ r = Some 0
  | D_wsig => x = TERMINATING \/ x = TERMINATED /\ r = Some 0
  | D_wjoin => x = NOT_RUNNING /\ r = Some 0
  | D_done => x = NOT_RUNNING /\ r = Some 0
  | _ => x = RUNNING
  end.

Record QInv (max : nat) (q : qst) : Prop := mkQInv {
  J_inv : InvT (tok (p_signalled (dtor q))) (tok (w_signalled (dtor q))) max (inner q);
  J_pread : pread q <> None -> poster (inner q) = P_got;
  J_wread : wread q <> None -> waiter (inner q) = W_get;
  J_clients : dtor q <> D_no -> adders (inner q) = 0 /\ cancelers (inner q) = [];
  J_pst : pst_ok (dtor q) (pst q) (pread q);
  J_wst : wst_ok (dtor q) (wst q) (wread q);
  J_pzero : pread q = Some 0 -> p_early q = false -> waiting (inner q) = [] /\ dtor q <> D_no;
  J_wzero : wread q = Some 0 -> w_early q = false ->
    infl (inner q) = [] /\ dn (inner q) = [] /\ w_signalled (dtor q) = true;
  J_pmore : p_signalled (dtor q) = true -> poster (inner q) = P_got -> pread q <> Some 0 ->
    waiting (inner q) <> [];
  J_wmore : w_signalled (dtor q) = true -> waiter (inner q) = W_get -> wread q <> Some 0 ->
    in_kernel (inner q) <> []
}.

Lemma qinv_init max : QInv max (qinit max).
Proof.
  constructor; cbn; try congruence; auto. apply invt_init.
Qed.

(** Steps during the destruction. *)
Lemma waiting_only_shrinks max ps s s' : step max false ps s s' -> added s' = added s ->
  (waiting s = [] -> waiting s' = []).
Proof.
  intros H A W. destruct H; unf; fields; auto; try congruence;
    try (rewrite H1 in W; destruct a; discriminate);
    try (destruct H1; unf; fields; auto; unfold complete; destruct existsb; assumption);
    try (unfold complete; destruct existsb; assumption).
  - exfalso. assert (L : length (i :: added s) = length (added s)) by congruence. cbn in L. lia.
Qed.

Lemma kernel_only_shrinks max ps s s' : step max false ps s s' -> poster s' = poster s ->
  infl s = [] -> dn s = [] -> infl s' = [] /\ dn s' = [].
Proof.
  intros H P I D. destruct H; unf; fields; auto; try congruence;
    try (destruct H1; unf; fields; auto; unfold complete; destruct existsb; auto);
    try (unfold complete; destruct existsb; auto; fail).
  - rewrite H0 in P. destruct e; discriminate.
  - rewrite D in H1. inversion H1; subst. auto.
  - rewrite I in H0. destruct a; discriminate.
Qed.

(** A thread whose position does not change has not moved. *)
Lemma waiting_kept max ps s s' : step max false ps s s' -> poster s' = poster s ->
  added s' = added s -> cancelers s' = cancelers s -> waiting s' = waiting s.
Proof.
  intros H P A C. destruct H; unf; fields; auto; try congruence;
    try (destruct H1; unf; fields; auto; unfold complete; destruct existsb; auto; fail);
    try (unfold complete; destruct existsb; auto; fail).
  - exfalso. assert (L : length (i :: added s) = length (added s)) by congruence. cbn in L. lia.
  - exfalso. assert (L : length (C_compl i :: cancelers s) = length (cancelers s)) by congruence.
    cbn in L. lia.
Qed.

Lemma kernel_kept max ps s s' : step max false ps s s' -> poster s' = poster s ->
  waiter s' = waiter s -> length (in_kernel s') = length (in_kernel s).
Proof.
  intros H P W. unfold in_kernel. rewrite !app_length.
  destruct H; unf; fields; auto; try congruence;
    try (destruct H1; unf; fields; auto; unfold complete; destruct existsb; auto; fail);
    try (unfold complete; destruct existsb; auto; fail).
  - rewrite H0 in P. destruct e; discriminate.
  - rewrite H0. rewrite !app_length. cbn. lia.
Qed.

Lemma adders_kept max ps s s' : step max false ps s s' -> added s' = added s ->
  adders s = 0 -> adders s' = 0.
Proof.
  intros H A Z. destruct H; unf; fields; auto; try congruence;
    try (destruct H1; unf; fields; auto; unfold complete; destruct existsb; auto; fail);
    try (unfold complete; destruct existsb; auto; fail).
  exfalso. assert (L : length (i :: added s) = length (added s)) by congruence. cbn in L. lia.
Qed.

Lemma to_got max ps s s' : step max false ps s s' -> poster s' = P_got ->
  poster s = P_idle \/ poster s = P_got.
Proof.
  intros H P. destruct H; unf; fields; auto; try congruence;
    try (destruct c; discriminate); try (destruct e; discriminate);
    try (destruct h'; discriminate);
    try (destruct H1; unf; fields; auto; unfold complete in P; destruct existsb; auto; fail);
    try (unfold complete in P; destruct existsb; auto; fail).
Qed.

Lemma to_get max ps s s' : step max false ps s s' -> waiter s' = W_get ->
  waiter s = W_idle \/ waiter s = W_get.
Proof.
  intros H P. destruct H; unf; fields; auto; try congruence;
    try (destruct h'; discriminate);
    try (destruct H1; unf; fields; auto; unfold complete in P; destruct existsb; auto; fail);
    try (unfold complete in P; destruct existsb; auto; fail).
Qed.

Lemma pst_late d x r : pst_ok d x r -> w_signalled d = true -> r = Some 0.
Proof. destruct d; cbn; intros H W; try discriminate; tauto. Qed.

Ltac qunf := unfold set_inner, set_pst, set_wst, set_pread, set_wread, set_dtor, set_p_early,
  set_w_early in *; cbn [inner pst wst pread wread dtor p_early w_early] in *.

Theorem qinv_step max ps q q' : QInv max q -> qstep max ps q q' -> QInv max q'.
Proof.
  intros J H.
  pose proof J as [Ji Jp Jw Jc Jps Jws Jpz Jwz Jpm Jwm].
  destruct H.
  - (* inner *)
    rename H into St, H0 into Gp, H1 into Gw, H2 into Gc.
    assert (EP : pread q <> None -> poster s' = poster (inner q)) by (intros N; destruct Gp as [|[_ ]]; congruence).
    assert (EW : wread q <> None -> waiter s' = waiter (inner q)) by (intros N; destruct Gw as [|[_ ]]; congruence).
    assert (EC : dtor q <> D_no -> added s' = added (inner q) /\ cancelers s' = cancelers (inner q))
      by (intros N; destruct Gc; [contradiction|assumption]).
    qunf. constructor; qunf; auto.
    + eapply invt_step; eassumption.
    + intros N. rewrite EP by assumption. auto.
    + intros N. rewrite EW by assumption. auto.
    + intros N. destruct (Jc N) as (A0 & C0). destruct (EC N) as (A1 & C1). split; [|congruence].
      exact (adders_kept _ _ _ _ St A1 A0).
    + intros R E. destruct (Jpz R E) as (W & N). split; [|assumption].
      destruct (EC N) as (A1 & C1). exact (waiting_only_shrinks _ _ _ _ St A1 W).
    + intros R E. destruct (Jwz R E) as (I0 & D0 & W).
      assert (PR : pread q = Some 0) by (eapply pst_late; eassumption).
      assert (PE : poster s' = poster (inner q)) by (apply EP; congruence).
      destruct (kernel_only_shrinks _ _ _ _ St PE I0 D0). auto.
    + intros Sg P N. destruct (to_got _ _ _ _ St P) as [K|K].
      * destruct Gp as [K2|[K2 _]]; congruence.
      * assert (DN : dtor q <> D_no) by (intros E; rewrite E in Sg; discriminate).
        destruct (EC DN) as (A1 & C1).
        rewrite (waiting_kept _ _ _ _ St) by congruence. auto.
    + intros Sg P N. destruct (to_get _ _ _ _ St P) as [K|K].
      * destruct Gw as [K2|[K2 _]]; congruence.
      * assert (PR : pread q = Some 0) by (eapply pst_late; eassumption).
        assert (PE : poster s' = poster (inner q)) by (apply EP; congruence).
        assert (L := kernel_kept _ _ _ _ St PE ltac:(congruence)).
        specialize (Jwm Sg K N). destruct (in_kernel s'); [|discriminate].
        destruct (in_kernel (inner q)); [congruence|discriminate].
  - (* p_wait *)
    rename H into P, H0 into W.
    assert (NR : pread q = None).
    { destruct (pread q) eqn:E; [|reflexivity]. rewrite Jp in P by congruence. discriminate. }
    pose proof Ji as [If Ip Iw Il Iok Ipl Ia Io Is Ir Ih Ic].
    rewrite P, W in Iw. cbn [p_got] in Iw.
    qunf. constructor; qunf; auto; try (intros; congruence).
    + eapply (invt_step _ _ _ ps); [exact Ji|]. apply S_p_wait; auto.
    + destruct (dtor q); cbn in *; auto; try (destruct Jps as [|(_ & K)]; [auto|congruence]);
        destruct Jps; congruence.
    + intros [= ->] E. apply negb_false_iff in E.
      assert (DN : dtor q <> D_no) by (intros K; rewrite K in E; discriminate).
      destruct (Jc DN) as (A0 & C0). rewrite A0, C0, E in Iw. cbn in Iw.
      split; [|assumption]. unf; fields. destruct (waiting (inner q)); [reflexivity|cbn in Iw; lia].
    + intros Sg _ N.
      assert (DN : dtor q <> D_no) by (intros K; rewrite K in Sg; discriminate).
      destruct (Jc DN) as (A0 & C0). rewrite A0, C0, Sg in Iw. cbn in Iw.
      unf; fields. destruct (waiting (inner q)); [|discriminate]. cbn in Iw.
      assert (n = 0) by lia. congruence.
  - (* p_go *)
    rename H into P, H0 into G.
    qunf. constructor; qunf; auto; try (intros; congruence).
    + destruct (dtor q); cbn in *; auto; destruct G as [G|(G & V)]; rewrite G in *;
        try (destruct Jps as [K|(K & _)]); try discriminate; auto; destruct Jps; discriminate.
    + intros Sg Q _. apply Jpm; auto. rewrite P. destruct G as [G|(G & V)]; [|congruence].
      exfalso. destruct (dtor q); cbn in *; try discriminate;
        try (destruct Jps as [K|(K & _)]; congruence); destruct Jps; congruence.
  - (* p_end *)
    rename H into P, H0 into G. destruct G as (G & ->).
    qunf. constructor; qunf; auto.
    destruct (dtor q); cbn in *; auto; try congruence; destruct Jps; congruence.
  - (* w_wait *)
    rename H into P, H0 into W.
    assert (NR : wread q = None).
    { destruct (wread q) eqn:E; [|reflexivity]. rewrite Jw in P by congruence. discriminate. }
    pose proof Ji as [If Ip Iw Il Iok Ipl Ia Io Is Ir Ih Ic].
    rewrite P, W in Ip. cbn [w_ate w_pend] in Ip.
    assert (Late : w_signalled (dtor q) = true ->
      n = length (infl (inner q)) + length (dn (inner q))).
    { intros Sg. assert (PR : pread q = Some 0) by (eapply pst_late; eassumption).
      rewrite Jp in Ip by congruence. rewrite Sg in Ip. cbn in Ip. lia. }
    qunf. constructor; qunf; auto; try (intros; congruence).
    + eapply (invt_step _ _ _ ps); [exact Ji|]. apply S_w_wait; auto.
    + destruct (dtor q); cbn in *; auto; try (destruct Jws as [|(_ & K)]; [auto|congruence]);
        destruct Jws; congruence.
    + intros [= ->] E. apply negb_false_iff in E. specialize (Late E). unf; fields.
      destruct (infl (inner q)); [|cbn in Late; lia]. destruct (dn (inner q)); [auto|cbn in Late; lia].
    + intros Sg _ N. specialize (Late Sg). unfold in_kernel. unf; fields. intros K.
      apply app_eq_nil in K. destruct K as (K1 & K2). rewrite K1, K2 in Late. cbn in Late. congruence.
  - (* w_go *)
    rename H into P, H0 into G.
    qunf. constructor; qunf; auto; try (intros; congruence).
    + destruct (dtor q); cbn in *; auto; destruct G as [G|(G & V)]; rewrite G in *;
        try (destruct Jws as [K|(K & _)]); try discriminate; auto; destruct Jws; discriminate.
    + intros Sg Q _. apply Jwm; auto. rewrite P. destruct G as [G|(G & V)]; [|congruence].
      exfalso. destruct (dtor q); cbn in *; try discriminate;
        try (destruct Jws as [K|(K & _)]; congruence); destruct Jws; congruence.
  - (* w_end *)
    rename H into P, H0 into G. destruct G as (G & ->).
    qunf. constructor; qunf; auto.
    destruct (dtor q); cbn in *; auto; try congruence; destruct Jws; congruence.
  - (* d_pset *)
    rewrite H in *. qunf. constructor; qunf; cbn in *; auto; try (intros; discriminate).
    + intros R E. destruct (Jpz R E). congruence.
  - (* d_psig *)
    rewrite H in *. destruct (Jc ltac:(discriminate)) as (A0 & C0).
    pose proof Ji as [If Ip Iw Il Iok Ipl Ia Io Is Ir Ih Ic].
    qunf. constructor; qunf; cbn [p_signalled w_signalled pst_ok wst_ok] in *; unf; fields; auto;
      try (intros; discriminate).
    + constructor; fields; auto. cbn [tok] in *. lia.
    + intros R E. destruct (Jpz R E). split; [assumption|discriminate].
    + intros _ P N. rewrite P, A0, C0 in Iw. cbn in Iw. intros K. rewrite K in Iw. cbn in Iw. lia.
  - (* d_pjoin *)
    rewrite H, H0 in *. qunf. constructor; qunf; cbn [p_signalled w_signalled pst_ok wst_ok] in *; auto;
      try (intros; discriminate).
    + intros _. apply Jc. discriminate.
    + destruct Jps as [|(_ & R)]; [discriminate|auto].
    + intros R E. destruct (Jpz R E). split; [assumption|discriminate].
  - (* d_wset *)
    rewrite H in *. qunf. constructor; qunf; cbn [p_signalled w_signalled pst_ok wst_ok] in *; auto;
      try (intros; discriminate).
    + intros _. apply Jc. discriminate.
    + intros R E. destruct (Jpz R E). split; [assumption|discriminate].
  - (* d_wsig *)
    rewrite H in *. destruct (Jc ltac:(discriminate)) as (A0 & C0).
    pose proof Ji as [If Ip Iw Il Iok Ipl Ia Io Is Ir Ih Ic].
    qunf. constructor; qunf; cbn [p_signalled w_signalled pst_ok wst_ok] in *; unf; fields; auto;
      try (intros; discriminate).
    + constructor; fields; auto. cbn [tok] in *. lia.
    + intros R E. destruct (Jpz R E). split; [assumption|discriminate].
    + intros R E. destruct (Jwz R E) as (_ & _ & K). discriminate.
    + intros _ W N. destruct Jps as (_ & PR). rewrite Jp in Ip by congruence. rewrite W in Ip. cbn in Ip.
      unfold in_kernel. fields. intros K. apply app_eq_nil in K. destruct K as (K1 & K2).
      rewrite K1, K2 in Ip. cbn in Ip. lia.
  - (* d_wjoin *)
    rewrite H, H0 in *. qunf. constructor; qunf; cbn [p_signalled w_signalled pst_ok wst_ok] in *; auto;
      try (intros; discriminate).
    + intros _. apply Jc. discriminate.
    + destruct Jws as [|(_ & R)]; [discriminate|auto].
    + intros R E. destruct (Jpz R E). split; [assumption|discriminate].
  - (* d_done *)
    rewrite H in *. qunf. constructor; qunf; cbn [p_signalled w_signalled pst_ok wst_ok] in *; auto;
      try (intros; discriminate).
    + intros _. apply Jc. discriminate.
    + intros R E. destruct (Jpz R E). split; [assumption|discriminate].
Qed.

Theorem qinv_reach max ps q : qreach max ps q -> QInv max q.
Proof. induction 1; [apply qinv_init|eapply qinv_step; eassumption]. Qed.
