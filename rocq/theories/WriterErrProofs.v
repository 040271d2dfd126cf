(** Buffered writer with failing writes: the invariant. *)

From Coq Require Import List Arith Bool ZArith Lia Permutation.
From Verif Require Import WriterModel WriterSpec WriterProofs WriterProofs2 WriterErrModel WriterErrSpec.
Import ListNotations.

Ltac xproj := cbn [x_w x_bad x_torn x_kept x_leak x_term x_ok x_throw x_terminate set_batch
  w_n w_bs w_mem w_bids w_wreqs w_free w_busy w_batch w_reqs w_disk w_pc w_held
  set_pc set_held post push_batch poll_hit return_buf flush_end] in *.

Section Inv.
Context {A : Type}.
Variables (n bs : nat) (disk0 : bid -> A).
Implicit Types x : xst A.
Implicit Types tr : list (xlabel A).

Lemma normal_app : forall t1 t2, normal (t1 ++ t2) = normal t1 ++ @normal A t2.
Proof. induction t1 as [|[] t1]; intros; cbn; auto; rewrite IHt1; auto. Qed.
Lemma fails_app : forall t1 t2, fails (t1 ++ t2) = fails t1 ++ @fails A t2.
Proof. induction t1 as [|[] t1]; intros; cbn; auto; rewrite IHt1; auto. Qed.
Lemma throws_app : forall t1 t2, throws (t1 ++ t2) = throws t1 + @throws A t2.
Proof. induction t1 as [|[] t1]; intros; cbn; auto; rewrite IHt1; auto. Qed.

Definition flushing (pc : wpc) : Prop := match pc with FFlush | FWait _ => True | _ => False end.

Record XI tr x : Prop := mkXI {
  xi_inv  : exists limbo, Inv n bs disk0 (normal tr) (x_w x) limbo;
  xi_bad  : forall i, In i (x_bad x) -> exists r, nth_error (w_reqs (x_w x)) i = Some r /\ r_ph r = Posted;
  xi_kept : flushing (w_pc (x_w x)) ->
            Permutation (w_free (x_w x) ++ w_busy (x_w x) ++ map snd (w_batch (x_w x)) ++ x_kept x) (seq 0 n);
  xi_torn : forall d, x_torn x d = true -> In d (fails tr);
  xi_len  : length (x_bad x) = length (fails tr);
  xi_leak : x_leak x <= throws tr
}.

Lemma failed_in : forall x b, failed x b = true ->
  exists i, w_wreqs (x_w x) b = Some i /\ In i (x_bad x).
Proof.
  intros x b H. unfold failed in H. destruct (w_wreqs (x_w x) b) as [i|]; [|discriminate].
  exists i. split; auto. apply existsb_exists in H. destruct H as (j & H & E).
  apply Nat.eqb_eq in E. subst; auto.
Qed.

Lemma bad_busy : forall tr x i, XI tr x -> In i (x_bad x) ->
  exists r, nth_error (w_reqs (x_w x)) i = Some r /\ r_ph r = Posted /\ In (r_buf r) (w_busy (x_w x)) /\
    w_wreqs (x_w x) (r_buf r) = Some i /\ failed x (r_buf r) = true.
Proof.
  intros tr x i V H. destruct (xi_bad _ _ V i H) as (r & E & P). destruct (xi_inv _ _ V) as (limbo & I).
  destruct (v_req _ _ _ _ _ _ I i r E) as (B & W); [congruence|].
  exists r. csplit; auto. unfold failed. rewrite W. apply existsb_exists. exists i. split; auto. apply Nat.eqb_refl.
Qed.

(** A buffer whose last request failed is busy ... *)
Lemma failed_busy : forall tr x b, XI tr x -> failed x b = true -> In b (w_busy (x_w x)).
Proof.
  intros tr x b V H. destruct (failed_in _ _ H) as (i & W & B).
  destruct (bad_busy _ _ _ V B) as (r & E & P & Hb & W' & _).
  destruct (xi_inv _ _ V) as (limbo & I).
  destruct (v_own _ _ _ _ _ _ I b i W) as (r' & E' & <-). congruence.
Qed.

(** ... and so not in the batch. *)
Lemma failed_batch : forall tr x b, XI tr x -> failed x b = true -> ~ In b (map snd (w_batch (x_w x))).
Proof.
  intros tr x b V H Q. pose proof (failed_busy _ _ _ V H) as B.
  destruct (xi_inv _ _ V) as (limbo & I). pose proof (inv_nodup _ _ _ _ _ _ I) as ND.
  apply nodup_app_r in ND. apply (nodup_app_not _ _ _ ND B). apply in_or_app; auto.
Qed.

Lemma no_reuse : forall tr x z y rest, XI tr x -> top_of (w_batch (x_w x)) z y rest -> failed x y = true -> False.
Proof.
  intros tr x z y rest V (l1 & l2 & E & _) F. apply (failed_batch _ _ _ V F). rewrite E, map_app.
  apply in_or_app. cbn; auto.
Qed.

Lemma istep_reqs : forall (s : wst A) l s' i r, istep s l s' -> nth_error (w_reqs s) i = Some r ->
  nth_error (w_reqs s') i = Some r.
Proof.
  intros s l s' i r H E.
  assert (P : forall q, nth_error (w_reqs s ++ [q]) i = Some r).
  { intros q. rewrite nth_error_app1; auto. apply nth_error_Some. congruence. }
  inversion H; subst; xproj; auto.
Qed.

Lemma xi_init : forall bsz bt mem bids,
  let x := x_init bsz bt mem bids disk0 in
  n = w_n (x_w x) -> bs = w_bs (x_w x) -> XI [] x.
Proof.
  intros * E1 E2. unfold x, x_init in *. constructor; xproj; cbn [normal fails throws length]; auto.
  - exists []. rewrite E1, E2. apply inv_init.
  - intros i [].
  - cbn. intros [].
  - discriminate.
Qed.

Lemma xstep_inv : forall tr x l x', XI tr x -> xstep x l x' -> l <> XOk (LFlush true) -> XI (tr ++ [l]) x'.
Proof.
  intros tr x l x' V H N. pose proof (xi_inv _ _ V) as (limbo & I).
  assert (Pc : forall lb, w_pc (x_w x) = GTake \/ (exists k, w_pc (x_w x) = GPoll k) ->
     XI (tr ++ [XThrow]) (x_throw x (x_w x) (if (lb : bool) then 1 else 0))).
  { intros lb Hp. constructor; xproj; rewrite ?normal_app, ?fails_app, ?throws_app; cbn [normal fails throws];
      rewrite ?app_nil_r; try apply V.
    - exists limbo. apply inv_pc; auto.
      + destruct Hp as [->|(k & ->)]; auto.
      + unfold pcd; cbn. destruct Hp as [->|(k & ->)]; auto.
      + destruct Hp as [->|(k & ->)]; cbn; tauto.
      + discriminate.
      + discriminate.
    - intros [].
    - pose proof (xi_leak _ _ V). destruct lb; lia. }
  inversion H; subst.
  - (* caller *)
    destruct (cstep_inv n bs disk0 _ _ _ _ _ I H1) as (limbo' & I'); [congruence|].
    assert (Er : w_reqs s' = w_reqs (x_w x)) by (inversion H1; subst; auto).
    constructor; xproj; rewrite ?normal_app, ?fails_app, ?throws_app; cbn [normal fails throws];
      rewrite ?app_nil_r, ?Nat.add_0_r; try apply V; eauto.
    + rewrite Er. apply V.
    + inversion H1; subst; xproj; cbn [flushing].
      all: try (intros []; fail).
      * intros K. unfold enter_write in K. destruct (w_bs (x_w x) <=? length (w_batch (x_w x))); destruct K.
      * intros _. pose proof (v_bufs _ _ _ _ _ _ I) as P. rewrite H2 in P.
        rewrite (v_limbo _ _ _ _ _ _ I) in P by (rewrite H2; auto). cbn [pcb] in P.
        rewrite !app_nil_r in P. auto.
    + inversion H1; subst; apply (xi_torn _ _ V).
  - (* code *)
    destruct (istep_inv n bs disk0 _ _ _ _ _ I H1) as (limbo' & I').
    constructor; xproj; rewrite ?normal_app, ?fails_app, ?throws_app; cbn [normal fails throws];
      rewrite ?app_nil_r, ?Nat.add_0_r; try apply V; eauto.
    + intros i Hi. destruct (xi_bad _ _ V i Hi) as (r & E & P). exists r. split; auto. eapply istep_reqs; eauto.
    + intros K. inversion H1; subst; xproj;
        repeat match goal with Q : w_pc (x_w x) = _ |- _ => rewrite Q in K end;
        cbn [flushing] in K; try (destruct K; fail);
        match goal with Q : w_pc (x_w x) = _ |- _ => pose proof (xi_kept _ _ V) as P; rewrite Q in P; specialize (P Logic.I) end;
        auto.
      match goal with T : top_of _ _ _ _ |- _ => destruct T as (l1 & l2 & E & -> & _) end.
      rewrite E in P. perm.
    + inversion H1; subst; apply (xi_torn _ _ V).
  - (* I/O *)
    destruct (wstep_inv n bs disk0 _ _ _ _ _ I (or_intror (or_intror H1))) as (limbo' & I'); [congruence|].
    assert (Es : w_free s' = w_free (x_w x) /\ w_busy s' = w_busy (x_w x) /\ w_batch s' = w_batch (x_w x) /\
                 w_pc s' = w_pc (x_w x)) by (inversion H1; subst; auto).
    destruct Es as (E1 & E2 & E3 & E4).
    constructor; xproj; rewrite ?normal_app, ?fails_app, ?throws_app; cbn [normal fails throws];
      rewrite ?app_nil_r, ?Nat.add_0_r; try apply V; eauto.
    + intros i Hi. rewrite (H2 i Hi). apply (xi_bad _ _ V i Hi).
    + rewrite E1, E2, E3, E4. inversion H1; subst; apply (xi_kept _ _ V).
    + inversion H1; subst; try apply (xi_torn _ _ V). intros d. unfold updb.
      destruct (bid_eqb d (r_bid r)); [discriminate|]. apply (xi_torn _ _ V).
  - (* failure *)
    constructor; xproj; rewrite ?normal_app, ?fails_app, ?throws_app; cbn [normal fails throws];
      rewrite ?app_nil_r, ?Nat.add_0_r; try apply V.
    + intros j [<-|Hj]; [eauto|]. apply (xi_bad _ _ V j Hj).
    + intros d. unfold updb. destruct (bid_eqb d (r_bid r)) eqn:E; intros Hd.
      * apply bid_eqb_eq in E. subst. apply in_or_app; cbn; auto.
      * apply in_or_app; left. apply (xi_torn _ _ V); auto.
    + rewrite app_length. cbn [length]. rewrite (xi_len _ _ V). lia.
  - apply (Pc false). eauto.
  - apply (Pc true). auto.
  - exfalso. eapply no_reuse; eauto.
  - exfalso. eapply no_reuse; eauto.
  - (* flush throws *)
    constructor; xproj; rewrite ?normal_app, ?fails_app, ?throws_app; cbn [normal fails throws];
      rewrite ?app_nil_r; try apply V.
    + exists []. pose proof (xi_kept _ _ V) as K. rewrite H1 in K. specialize (K Logic.I).
      destruct I. constructor; xproj; auto.
      * cbn [pcb]. rewrite !app_nil_r. auto.
      * unfold pcd in *. xproj. rewrite H1 in v_data. auto.
      * discriminate.
      * split; [apply v_batch|]. discriminate.
      * intros [].
    + intros [].
    + pose proof (xi_leak _ _ V). lia.
  - exfalso. eapply no_reuse; eauto.
  - constructor; xproj; rewrite ?normal_app, ?fails_app, ?throws_app; cbn [normal fails throws];
      rewrite ?app_nil_r, ?Nat.add_0_r; try apply V; eauto.
Qed.

End Inv.

Lemma xrun_inv : forall {A} bsz bt mem bids (disk0 : bid -> A) tr x,
  xrun (x_init bsz bt mem bids disk0) tr x -> x_disciplined tr ->
  XI (w_n (w_init bsz bt mem bids disk0)) (w_bs (w_init bsz bt mem bids disk0)) disk0 tr x.
Proof.
  intros A bsz bt mem bids disk0 tr x R.
  remember (x_init bsz bt mem bids disk0) as x0 eqn:E0.
  induction R; intros Hd; subst.
  - apply xi_init; auto.
  - unfold x_disciplined, disciplined in *. rewrite normal_app in Hd.
    eapply xstep_inv; eauto.
    + apply IHR; auto. intros Q; apply Hd. apply in_or_app; auto.
    + intros ->. apply Hd. apply in_or_app; cbn; auto.
Qed.
