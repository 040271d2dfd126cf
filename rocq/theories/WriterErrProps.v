(** C88: the buffered writer when writes fail. *)

From Coq Require Import List Arith Bool ZArith Lia Permutation.
From Verif Require Import WriterModel WriterSpec WriterProofs WriterProofs2 WriterErrModel WriterErrSpec
  WriterErrProofs WriterErrProofs2.
Import ListNotations.

Lemma xrun_app : forall {A} (x1 x2 x3 : xst A) t1 t2, xrun x1 t1 x2 -> xrun x2 t2 x3 -> xrun x1 (t1 ++ t2) x3.
Proof.
  intros * R1 R2. induction R2; [rewrite app_nil_r; auto|]. rewrite app_assoc. eapply XCons; eauto.
Qed.
Lemma xrun_split : forall {A} (x1 x3 : xst A) tr, xrun x1 tr x3 -> forall t1 t2, tr = t1 ++ t2 ->
  exists x2, xrun x1 t1 x2 /\ xrun x2 t2 x3.
Proof.
  induction 1 as [x|x1 tr x2 l x3 R IH St]; intros t1 t2 E.
  - symmetry in E. apply app_eq_nil in E. destruct E as (-> & ->). exists x. split; constructor.
  - destruct (@exists_last _ (tr ++ [l])) as (tr' & l' & E'); [destruct tr; discriminate|].
    destruct t2 as [|y t2].
    + rewrite app_nil_r in E. subst. exists x3. split; [econstructor; eauto|constructor].
    + destruct (@exists_last _ (y :: t2)) as (t2' & l2 & E2); [discriminate|]. rewrite E2 in *.
      rewrite app_assoc in E. apply app_inj_tail in E. destruct E as (-> & ->).
      destruct (IH t1 t2' eq_refl) as (xm & R1 & R2). exists xm. split; auto. econstructor; eauto.
Qed.
Lemma xrun_last : forall {A} (x1 x3 : xst A) tr l, xrun x1 (tr ++ [l]) x3 ->
  exists x2, xrun x1 tr x2 /\ xstep x2 l x3.
Proof.
  intros * R. remember (tr ++ [l]) as t. destruct R.
  - destruct tr; discriminate.
  - apply app_inj_tail in Heqt. destruct Heqt as (-> & ->). eauto.
Qed.

Section Props.
Context {A : Type}.
Variables (bsz bt : nat) (mem : nat -> A) (bids : nat -> bid) (disk0 : bid -> A).
Let x0 := x_init bsz bt mem bids disk0.
Let n := w_n (x_w x0).

Lemma disc_app : forall t1 t2 : list (xlabel A), x_disciplined (t1 ++ t2) -> x_disciplined t1.
Proof. unfold x_disciplined, disciplined. intros t1 t2 H Q. apply H. rewrite normal_app. apply in_or_app; auto. Qed.

(** If flush() or the destructor returns, no write has failed, and everything that
    was passed to write() is on disk. *)
Theorem C88_return_means_written : forall tr l x,
  xrun x0 (tr ++ [XOk l]) x -> x_disciplined tr -> l = LFlushed \/ l = LDestroyed ->
  fails tr = [] /\ Permutation (calls (normal tr)) (served (normal tr)) /\
  (forall b, ~ in_flight (x_w x) b) /\
  (NoDup (map fst (calls (normal tr))) ->
   forall d a, In (d, a) (calls (normal tr)) -> x_disk x d = Some a).
Proof.
  intros tr l x R D Hl. destruct (xrun_last _ _ _ _ R) as (x2 & R2 & St).
  pose proof (xrun_inv _ _ _ _ _ _ _ R2 D) as V. destruct (xi_inv _ _ _ _ _ V) as (limbo & I).
  assert (St' : exists s', istep (x_w x2) l s' /\ x = x_ok x2 l s').
  { inversion St; subst; eauto.
    - match goal with K : cstep _ _ _ |- _ => destruct Hl; subst l; inversion K end.
    - match goal with K : estep _ _ _ |- _ => destruct Hl; subst l; inversion K end. }
  destruct St' as (s' & Is & ->).
  assert (W : waited (w_pc (x_w x2)) = Some [] /\ w_reqs s' = w_reqs (x_w x2) /\ w_disk s' = w_disk (x_w x2) /\
     x_torn (x_ok x2 l s') = x_torn x2).
  { destruct Hl; subst l; inversion Is; subst; xproj; match goal with Q : w_pc _ = _ |- _ => rewrite Q end; auto. }
  destruct W as (W & Er & Ed & Et).
  pose proof (inv_all_ready _ _ _ _ _ _ I W) as AR.
  destruct (v_wait _ _ _ _ _ _ I [] W) as (Eb & _).
  assert (Bad : fails tr = []).
  { pose proof (xi_len _ _ _ _ _ V) as L. destruct (x_bad x2) as [|i bad] eqn:B.
    - destruct (fails tr); auto. discriminate.
    - exfalso. destruct (xi_bad _ _ _ _ _ V i) as (r & E & P); [rewrite B; cbn; auto|].
      rewrite (AR r) in P; [discriminate|]. eapply nth_error_In; eauto. }
  assert (P : Permutation (calls (normal tr)) (served (normal tr))).
  { pose proof (v_data _ _ _ _ _ _ I) as P.
    rewrite (posted_none (w_mem (x_w x2)) (w_reqs (x_w x2)) AR), Eb in P.
    unfold pcd in P. destruct (w_pc (x_w x2)); try discriminate; cbn in P; rewrite app_nil_r in P; auto. }
  csplit; auto.
  - intros b (r & Hr & _ & Hp). apply Hp. xproj. rewrite Er in Hr. apply AR; auto.
  - intros ND d a Hin. unfold x_disk. rewrite Et.
    destruct (x_torn x2 d) eqn:T; [apply (xi_torn _ _ _ _ _ V) in T; rewrite Bad in T; destruct T|].
    f_equal. xproj. rewrite Ed, (v_disk _ _ _ _ _ _ I).
    assert (ND' : NoDup (map fst (served (normal tr)))).
    { eapply Permutation_NoDup; [apply Permutation_map; exact P|auto]. }
    assert (Hin' : In (d, a) (served (normal tr))) by (apply (Permutation_in _ P); auto).
    clear - ND' Hin'. revert ND' Hin'. generalize (served (normal tr)) as ws. unfold disk_after.
    assert (Keep : forall (ws : list (bid * A)) f, ~ In d (map fst ws) ->
       fold_left (fun f w => updb f (fst w) (snd w)) ws f d = f d).
    { induction ws as [|(d1, a1) ws IH]; intros f N; cbn [fold_left fst snd]; auto. cbn in N.
      rewrite IH by tauto. unfold updb. destruct (bid_eqb d d1) eqn:E; auto.
      apply bid_eqb_eq in E. subst. tauto. }
    intros ws. revert disk0. induction ws as [|(d1, a1) ws IH]; intros f N H; [destruct H|].
    cbn [fold_left fst snd map] in *. inversion N; subst. destruct H as [H|H]; [|auto].
    inversion H; subst. rewrite Keep by auto. unfold updb.
    assert (bid_eqb d d = true) as -> by (apply bid_eqb_eq; auto). auto.
Qed.

(** Once a write has failed, neither flush() nor the destructor ever returns again. *)
Theorem C88_failure_is_final : forall t1 d t2 x,
  xrun x0 (t1 ++ XFail d :: t2) x -> x_disciplined (t1 ++ XFail d :: t2) ->
  ~ In (XOk LFlushed) t2 /\ ~ In (XOk LDestroyed) t2.
Proof.
  intros t1 d t2 x R D.
  assert (G : forall l, l = LFlushed \/ l = LDestroyed -> ~ In (XOk l) t2).
  { intros l Hl Q. apply in_split in Q. destruct Q as (u1 & u2 & ->).
    assert (E : t1 ++ XFail d :: u1 ++ XOk l :: u2 = ((t1 ++ XFail d :: u1) ++ [XOk l]) ++ u2).
    { rewrite <- !app_assoc. reflexivity. }
    rewrite E in R, D. destruct (xrun_split _ _ _ R _ _ eq_refl) as (x2 & R2 & _).
    apply disc_app in D. apply disc_app in D.
    destruct (C88_return_means_written _ _ _ R2 D Hl) as (F & _).
    rewrite fails_app in F. apply app_eq_nil in F. destruct F as (_ & F). discriminate. }
  split; apply G; auto.
Qed.

(** A call throws, and the program is ended, only after a write has failed. *)
Theorem C88_throw_only_after_failure : forall tr l x,
  xrun x0 (tr ++ [l]) x -> x_disciplined tr -> l = XThrow \/ l = XTerminate -> fails tr <> [].
Proof.
  intros tr l x R D Hl E. destruct (xrun_last _ _ _ _ R) as (x2 & R2 & St).
  pose proof (xrun_inv _ _ _ _ _ _ _ R2 D) as V. pose proof (xi_len _ _ _ _ _ V) as L. rewrite E in L.
  assert (F : exists b, failed x2 b = true).
  { inversion St; subst; eauto; destruct Hl; discriminate. }
  destruct F as (b & F). destruct (failed_in _ _ F) as (i & _ & B).
  destruct (x_bad x2); [destruct B|discriminate].
Qed.

(** The content of every block passed to write() is on disk or still in a buffer of
    the writer, which is neither free nor in the hands of the caller; whatever threw. *)
Theorem C88_nothing_forgotten : forall tr x, xrun x0 tr x -> x_disciplined tr ->
  exists rest, Permutation (calls (normal tr)) (served (normal tr) ++ rest) /\
    forall d a, In (d, a) rest -> exists b, b < n /\ w_mem (x_w x) b = a /\
      ~ In b (w_held (x_w x)) /\ ~ In b (w_free (x_w x)).
Proof.
  intros tr x R D. pose proof (xrun_inv _ _ _ _ _ _ _ R D) as V.
  destruct (xi_inv _ _ _ _ _ V) as (limbo & I).
  eexists. split; [apply (v_data _ _ _ _ _ _ I)|].
  pose proof (inv_nodup _ _ _ _ _ _ I) as ND. pose proof (v_bufs _ _ _ _ _ _ I) as P.
  set (s := x_w x) in *.
  assert (K : forall b, In b (w_busy s ++ map snd (w_batch s) ++ pcb (w_pc s)) ->
     b < n /\ ~ In b (w_held s) /\ ~ In b (w_free s)).
  { intros b Hb. csplit.
    - assert (Q : In b (seq 0 n)).
      { apply (Permutation_in _ P). apply in_app_or in Hb. apply in_or_app; right. apply in_or_app.
        destruct Hb as [Hb|Hb]; auto. right. apply in_app_or in Hb. apply in_or_app.
        destruct Hb as [Hb|Hb]; auto. right. apply in_or_app; right. apply in_or_app; auto. }
      apply in_seq in Q. lia.
    - intros Hh. assert (C : count_occ Nat.eq_dec (w_free s ++ w_busy s ++ map snd (w_batch s) ++ w_held s ++ pcb (w_pc s) ++ limbo) b <= 1)
        by (apply NoDup_count_occ; auto).
      rewrite !count_occ_app in C. apply (count_occ_In Nat.eq_dec) in Hb, Hh. rewrite !count_occ_app in Hb. lia.
    - intros Hh. assert (C : count_occ Nat.eq_dec (w_free s ++ w_busy s ++ map snd (w_batch s) ++ w_held s ++ pcb (w_pc s) ++ limbo) b <= 1)
        by (apply NoDup_count_occ; auto).
      rewrite !count_occ_app in C. apply (count_occ_In Nat.eq_dec) in Hb, Hh. rewrite !count_occ_app in Hb. lia. }
  intros d a H. apply in_app_or in H. destruct H as [H|H]; [|apply in_app_or in H; destruct H as [H|H]].
  - unfold posted_of in H. apply in_flat_map in H. destruct H as (r & Hr & H).
    destruct (r_ph r) eqn:Ep; try destruct H. inversion H; subst.
    apply In_nth_error in Hr. destruct Hr as (i & Hr).
    destruct (v_req _ _ _ _ _ _ I i r Hr) as (B & _); [congruence|].
    exists (r_buf r). destruct (K (r_buf r)) as (K1 & K2 & K3); auto. apply in_or_app; auto. destruct H.
  - unfold batch_of in H. apply in_map_iff in H. destruct H as ((z, b) & H & Hb). inversion H; subst.
    exists b. destruct (K b) as (K1 & K2 & K3); auto. apply in_or_app; right. apply in_or_app; left.
    apply in_map_iff. exists (z, b); auto.
  - unfold pcd in H. destruct (w_pc s) eqn:E; try destruct H; try (inversion H; subst); try destruct H;
    exists b; (destruct (K b) as (K1 & K2 & K3);
      [rewrite !in_app_iff; cbn [pcb]; right; right; cbn; auto|auto]).
Qed.

(** A buffer in the hands of the caller takes part in no transfer, waits for none
    and was handed out only once, also after exceptions. *)
Theorem C88_handed_out_buffers_idle : forall tr x, xrun x0 tr x -> x_disciplined tr ->
  NoDup (w_held (x_w x)) /\
  forall b, In b (w_held (x_w x)) ->
    b < n /\ ~ in_flight (x_w x) b /\ ~ In b (map snd (w_batch (x_w x))) /\
    ~ In b (w_free (x_w x)) /\ ~ In b (w_busy (x_w x)).
Proof.
  intros tr x R H. pose proof (xrun_inv _ _ _ _ _ _ _ R H) as X.
  destruct (xi_inv _ _ _ _ _ X) as (limbo & V).
  pose proof (inv_nodup _ _ _ _ _ _ V) as ND. split.
  - do 3 apply nodup_app_r in ND. clear - ND. induction (w_held (x_w x)); constructor; inversion ND; subst; auto.
    intros Q; apply H1; apply in_or_app; auto.
  - intros b Hb.
    assert (Nb : ~ In b (w_busy (x_w x))).
    { intros B. apply nodup_app_r in ND. apply (nodup_app_not _ _ _ ND B).
      apply in_or_app; right. apply in_or_app; auto. }
    csplit; auto.
    + assert (Q : In b (seq 0 n)).
      { apply (Permutation_in _ (v_bufs _ _ _ _ _ _ V)).
        do 3 (apply in_or_app; right). apply in_or_app; auto. }
      apply in_seq in Q. lia.
    + eapply inv_idle; eauto.
    + intros B. do 2 apply nodup_app_r in ND. apply (nodup_app_not _ _ _ ND B).
      apply in_or_app; auto.
    + intros B. apply (nodup_app_not _ _ _ ND B).
      do 2 (apply in_or_app; right). apply in_or_app; auto.
Qed.

(** Every call is over at some time, unless the batch and the caller's buffers can
    use up all buffers (compare C42). *)
Theorem C88_calls_end : forall tr x, xrun x0 tr x -> x_disciplined tr ->
  w_bs (x_w x0) + length (w_held (x_w x)) < n -> ends x.
Proof.
  intros tr x R D Hb. pose proof (xrun_inv _ _ _ _ _ _ _ R D) as V. eapply ends_wf; eauto.
Qed.

(** If the write posted first of those not yet seen to be over fails, the writer never
    hands out a buffer again: every get_free_block() and write() throws. *)
Theorem C88_no_recovery : forall tr x b busy, xrun x0 tr x -> x_disciplined tr ->
  w_pc (x_w x) = Idle -> w_busy (x_w x) = b :: busy -> failed x b = true ->
  forall tr' x', xrun x tr' x' -> x_disciplined tr' -> forall c, ~ In (XOk (LRet c)) tr'.
Proof.
  intros tr x b busy R D P E F tr' x' R'.
  assert (S0 : stuck x) by (unfold stuck; rewrite E; csplit; auto; congruence).
  assert (G : x_disciplined tr' -> stuck x' /\ forall c, ~ In (XOk (LRet c)) tr').
  { induction R' as [|x tr1 x2 l x3 R1 IH St]; intros Hd; [split; [auto|intros c []]|].
    pose proof (disc_app _ _ Hd) as Hd1. destruct IH as (S2 & N2); auto.
    assert (V2 : XI n (w_bs (w_init bsz bt mem bids disk0)) disk0 (tr ++ tr1) x2).
    { apply (xrun_inv bsz bt mem bids disk0); [eapply xrun_app; eauto|].
      unfold x_disciplined, disciplined in *. rewrite normal_app. intros Q. apply in_app_or in Q. tauto. }
    destruct (stuck_step _ _ _ _ _ _ _ V2 S2 St) as (S3 & N3). split; auto.
    intros c Q. apply in_app_or in Q. destruct Q as [Q|[Q|[]]]; [eapply N2; eauto|]. eapply N3; eauto. }
  intros Hd. apply G; auto.
Qed.

(** The array of requests made for wait_any is lost only when a call throws. *)
Theorem C88_leak_only_by_throwing : forall tr x, xrun x0 tr x -> x_disciplined tr ->
  x_leak x <= throws tr.
Proof. intros tr x R D. apply (xi_leak _ _ _ _ _ (xrun_inv _ _ _ _ _ _ _ R D)). Qed.

(** Once a write has failed, the destructor ends the program: it does not return, it
    does not throw, and (by C88_calls_end) it does not run for ever. *)
Theorem C88_destructor_ends_program : forall t1 d t2 t3 x,
  xrun x0 (t1 ++ XFail d :: t2 ++ XOk LDestroy :: t3) x -> x_disciplined (t1 ++ XFail d :: t2 ++ XOk LDestroy :: t3) ->
  w_pc (x_w x) <> Idle /\ w_pc (x_w x) <> Dead /\
  (w_bs (x_w x0) < n -> ends x) /\
  (forall l x', x_sys l x x' -> w_pc (x_w x') <> Idle /\ w_pc (x_w x') <> Dead).
Proof.
  intros t1 d t2 t3 x R D.
  assert (Dst : forall (y : xst A) l y', (w_pc (x_w y) = DFlush \/ exists q, w_pc (x_w y) = DWait q) -> w_held (x_w y) = [] -> xstep y l y' ->
     l <> XOk LDestroyed -> (w_pc (x_w y') = DFlush \/ exists q, w_pc (x_w y') = DWait q) /\ w_held (x_w y') = []).
  { intros y l y' P Hh St N.
    inversion St; subst; xproj; auto; try (destruct P as [P|(q & P)]; congruence);
      match goal with K : _ _ _ _ |- _ => inversion K; subst; xproj; auto end;
      try (destruct P as [P|(q & P)]; congruence); eauto. }
  assert (Go : forall t4 (y : xst A), xrun x0 (t1 ++ XFail d :: t2 ++ XOk LDestroy :: t4) y ->
     x_disciplined (t1 ++ XFail d :: t2 ++ XOk LDestroy :: t4) ->
     (w_pc (x_w y) = DFlush \/ exists q, w_pc (x_w y) = DWait q) /\ w_held (x_w y) = []).
  { induction t4 as [|l t4 IH] using rev_ind; intros y Ry Dy.
    - assert (E : t1 ++ XFail d :: t2 ++ [XOk LDestroy] = (t1 ++ XFail d :: t2) ++ [XOk LDestroy])
        by (rewrite <- app_assoc; reflexivity).
      rewrite E in Ry. destruct (xrun_last _ _ _ _ Ry) as (y1 & _ & St).
      inversion St; subst; match goal with K : _ _ _ _ |- _ => inversion K; subst; xproj; auto end.
    - pose proof (C88_failure_is_final _ _ _ _ Ry Dy) as (_ & N).
      assert (E : t1 ++ XFail d :: t2 ++ XOk LDestroy :: t4 ++ [l] = (t1 ++ XFail d :: t2 ++ XOk LDestroy :: t4) ++ [l]).
      { rewrite <- !app_assoc. cbn [app]. rewrite <- !app_assoc. reflexivity. }
      rewrite E in Ry, Dy. destruct (xrun_last _ _ _ _ Ry) as (y1 & R1 & St). apply disc_app in Dy.
      destruct (IH _ R1 Dy) as (P & Hh). eapply Dst; eauto.
      intros ->. apply N. apply in_or_app; right. cbn. right. apply in_or_app; cbn; auto. }
  destruct (Go t3 x R D) as (P & Hh). csplit.
  - destruct P as [P|(q & P)]; congruence.
  - destruct P as [P|(q & P)]; congruence.
  - intros Hb. eapply C88_calls_end; eauto. rewrite Hh. cbn [length]. lia.
  - intros l x' (St & K).
    assert (E : t1 ++ XFail d :: t2 ++ XOk LDestroy :: t3 ++ [l] = (t1 ++ XFail d :: t2 ++ XOk LDestroy :: t3) ++ [l]).
    { rewrite <- !app_assoc. cbn [app]. rewrite <- !app_assoc. reflexivity. }
    assert (R' : xrun x0 (t1 ++ XFail d :: t2 ++ XOk LDestroy :: t3 ++ [l]) x') by (rewrite E; econstructor; eauto).
    assert (D' : x_disciplined (t1 ++ XFail d :: t2 ++ XOk LDestroy :: t3 ++ [l])).
    { rewrite E. unfold x_disciplined, disciplined in *. rewrite normal_app. intros Q. apply in_app_or in Q.
      destruct Q as [Q|Q]; auto. destruct l as [l| | |]; cbn in Q; try tauto. destruct Q as [Q|[]]. subst l. destruct K. }
    destruct (Go _ _ R' D') as ([P'|(q & P')] & _); split; congruence.
Qed.

End Props.

Print Assumptions C88_destructor_ends_program.
Print Assumptions C88_return_means_written.
Print Assumptions C88_failure_is_final.
Print Assumptions C88_throw_only_after_failure.
Print Assumptions C88_nothing_forgotten.
Print Assumptions C88_handed_out_buffers_idle.
Print Assumptions C88_calls_end.
Print Assumptions C88_no_recovery.
Print Assumptions C88_leak_only_by_throwing.

(** ** Concrete runs *)

Lemma xrun_front : forall {A} (x1 x2 x3 : xst A) l tr, xstep x1 l x2 -> xrun x2 tr x3 -> xrun x1 (l :: tr) x3.
Proof.
  intros * St R. apply (xrun_app x1 x2 x3 [l] tr); auto. apply (XCons x1 [] x1 l x2); [constructor|auto].
Qed.
Lemma xfront_eq : forall {A} (x1 x2 x3 : xst A) l l' tr,
  xstep x1 l x2 -> l = l' -> xrun x2 tr x3 -> xrun x1 (l' :: tr) x3.
Proof. intros; subst; eapply xrun_front; eauto. Qed.

Ltac norm := match goal with |- xrun ?s _ _ => let s' := eval cbv in s in change s with s' end.
Ltac side := first [reflexivity | cbn; auto; fail | cbn; lia | idtac].
Ltac cal tac := eapply xfront_eq; [apply XCaller; [reflexivity|tac; side]|reflexivity|norm].
Ltac pr := let k := fresh in let b := fresh in let E1 := fresh in let E2 := fresh in
  intros k b E1 E2; cbn in E1, E2; try discriminate;
  inversion E1; subst k; cbn in E2; inversion E2; subst b; reflexivity.
Ltac code tac := eapply xfront_eq; [apply XCode; [reflexivity|tac; side|pr]|reflexivity|norm].
Ltac fl i := eapply xfront_eq; [eapply (XFails _ i); [reflexivity|reflexivity|reflexivity|cbn; tauto]|reflexivity|norm].
Ltac thr tac := eapply xfront_eq; [tac; side|reflexivity|norm].
Ltac top l1 l2 := exists l1, l2; csplit; try reflexivity; cbn; intros ? ? ?;
  repeat match goal with H : _ \/ _ |- _ => destruct H end; try tauto;
  match goal with H : (_, _) = (_, _) |- _ => inversion H; subst; lia end.

Definition ex88_d1 := MkBid 0 100.
Definition ex88_d2 := MkBid 1 40.
Definition ex88 : xst nat := x_init 2 1 (fun _ => 0) (fun _ => ex88_d1) (fun _ => 7).

(** Two buffers, batch size 1.  The first write fails; the second call of write() throws,
    so does flush(), and the destructor ends the program. *)
Definition ex88_trace : list (xlabel nat) :=
  [XOk LGet; XOk LTau; XOk (LRet 1); XOk (LFill 1 11); XOk (LWrite 1 ex88_d1 11); XOk LTau; XOk LTau; XOk (LRet 0);
   XOk (LFill 0 22); XOk (LWrite 0 ex88_d2 22); XOk LTau; XOk LTau; XOk LTau; XFail ex88_d1; XThrow;
   XOk (LFlush false); XOk LTau; XOk LTau; XThrow; XOk LDestroy; XOk LTau; XTerminate].

Example C88_case : exists x, xrun ex88 ex88_trace x /\ x_disciplined ex88_trace /\ x_term x = true /\
  x_disk x ex88_d1 = None /\ x_disk x ex88_d2 = Some 7 /\ fails ex88_trace = [ex88_d1].
Proof.
  eexists. csplit.
  - unfold ex88, ex88_trace. norm.
    cal ltac:(apply CGet). code ltac:(eapply IPollEnd).
    code ltac:(apply (ITakeFree _ [0] 1)). cal ltac:(apply (CFill _ 1 11)).
    cal ltac:(apply (CWrite _ [] 1 [])).
    code ltac:(eapply IWPush). code ltac:(eapply IPollEnd).
    code ltac:(apply (ITakeFree _ [] 0)). cal ltac:(apply (CFill _ 0 22)).
    cal ltac:(apply (CWrite _ [] 0 [])).
    code ltac:(eapply (IWFlush _ 0 ex88_d2 100 1 []); [reflexivity|top (@nil (Z * nat)) (@nil (Z * nat))|reflexivity]).
    code ltac:(eapply IWFlushEnd). code ltac:(eapply IWPush).
    fl 0. thr ltac:(eapply (XPoll _ 0 1)).
    cal ltac:(apply (CFlush _ false)).
    code ltac:(eapply (IFFlush _ 40 0 []); [reflexivity|top (@nil (Z * nat)) (@nil (Z * nat))|reflexivity]).
    code ltac:(eapply IFFlushEnd). thr ltac:(eapply (XFWait _ 1 [0])).
    cal ltac:(apply CDestroy). code ltac:(eapply IDFlushEnd). thr ltac:(eapply (XDWait _ 1 [0])).
    constructor.
  - vm_compute. intuition discriminate.
  - reflexivity.
  - reflexivity.
  - reflexivity.
  - reflexivity.
Qed.

(** The failure is noticed by wait_any: the array of requests is lost. *)
Example C88_leak_case : exists x,
  xrun ex88 [XOk LGet; XOk LTau; XOk (LRet 1); XOk (LWrite 1 ex88_d1 0); XOk LTau; XOk LTau; XOk (LRet 0);
   XOk (LWrite 0 ex88_d2 0); XOk LTau; XOk LTau; XOk LTau; XOk LTau; XOk LTau; XFail ex88_d1; XThrow] x /\
  x_leak x = 1 /\ w_pc (x_w x) = Idle /\ w_busy (x_w x) = [1] /\ failed x 1 = true /\ w_held (x_w x) = [].
Proof.
  eexists. csplit.
  - unfold ex88. norm.
    cal ltac:(apply CGet). code ltac:(eapply IPollEnd).
    code ltac:(apply (ITakeFree _ [0] 1)).
    cal ltac:(apply (CWrite _ [] 1 [])).
    code ltac:(eapply IWPush). code ltac:(eapply IPollEnd).
    code ltac:(apply (ITakeFree _ [] 0)).
    cal ltac:(apply (CWrite _ [] 0 [])).
    code ltac:(eapply (IWFlush _ 0 ex88_d2 100 1 []); [reflexivity|top (@nil (Z * nat)) (@nil (Z * nat))|reflexivity]).
    code ltac:(eapply IWFlushEnd). code ltac:(eapply IWPush).
    code ltac:(eapply (IPollMiss _ 0 1)). code ltac:(eapply IPollEnd).
    fl 0. thr ltac:(eapply (XAny _ 1)).
    constructor.
  - reflexivity.
  - reflexivity.
  - reflexivity.
  - reflexivity.
  - reflexivity.
Qed.
