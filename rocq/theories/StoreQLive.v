(** C119: posted requests come to an end. *)

From Coq Require Import ZArith List Bool Arith Lia.
From Verif Require Import WriterProofs.
From Verif Require Import AllocModel ManagerModel ManagerSpec FileModel StoreModel StoreSpec StoreProofs2 StoreProps StoreQModel StoreQSpec StoreQProofs StoreQProofs2 StoreQProps.
From Verif Require QueueModel QueueSpec QueueProofs QueueLife QueueTrace QueueProps QueueProps2 QueueProgress XferProofs.
Import ListNotations.

(** Only the worker of queue [q] moves, [m] times; [t']: what happens, the newest first. *)
Inductive alone (ks : nat -> QueueModel.kind) (qid : nat -> nat) (ba q : nat) : nat -> world -> list happening -> world -> Prop :=
| al_none : forall s, alone ks qid ba q 0 s [] s
| al_more : forall m s1 ho s2 t s3, bstep ks qid ba s1 ho s2 -> QueueModel.wstep (ks q) (b_q s1 q) (b_q s2 q) ->
    alone ks qid ba q m s2 t s3 -> alone ks qid ba q (S m) s1 (t ++ match ho with Some h => [h] | None => [] end) s3.

Lemma worker_event : forall k s s', QueueModel.wstep k s s' -> log s' = log s \/
  exists e, log s' = e :: log s /\ (plain e = true \/ exists r ok, e = QueueModel.EServe r ok /\ QueueModel.st_wpc s = QueueModel.WServe r).
Proof.
  intros k s s' T. destruct T as [s W S|s r rest W Q|s W Q|s r q ok W Q|s r q st st' W Q N|s r q W Q|s W|s W S|s W S|s W S|s W S|s W|s W]; cbn; auto.
  - right. eexists. split; [destruct (QueueModel.st_phase s); reflexivity|auto].
  - right. eexists. split; [reflexivity|eauto].
  - right. unfold QueueModel.complete_step. destruct st; cbn in N; inversion N; subst; cbn.
    + eexists. split; [reflexivity|auto].
    + destruct (QueueModel.q_handler q); eexists; split; [reflexivity|auto|reflexivity|auto].
    + destruct (QueueModel.notify_all (QueueModel.q_waiters q) (QueueModel.st_sws s)) as [l bad]. eexists. split; [reflexivity|auto].
    + eexists. split; [reflexivity|auto].
  - right. eexists. split; [reflexivity|eauto].
  - right. eexists. split; [reflexivity|eauto].
  - right. eexists. split; [reflexivity|eauto].
Qed.

Lemma no_self : forall A (x : A) l, l <> x :: l.
Proof. intros A x l E. apply (f_equal (@length A)) in E. cbn in E. lia. Qed.
Lemma wstep_moves : forall k s, ~ QueueModel.wstep k s s.
Proof.
  intros k s T. remember s as s' eqn:E in T at 2. destruct T as [s W S|s r rest W Q|s W Q|s r q ok W Q|s r q st st' W Q N|s r q W Q|s W|s W S|s W S|s W S|s W S|s W|s W];
    apply (f_equal QueueModel.st_wpc) in E; cbn in E; try congruence.
  rewrite W in E. inversion E; subst. destruct st; discriminate.
Qed.

(** A step of the worker is recorded as its own. *)
Lemma alone_step : forall ks qid ba q s ho s', bstep ks qid ba s ho s' -> QueueModel.wstep (ks q) (b_q s q) (b_q s' q) ->
  forall h, ho = Some h -> (exists r a e, h = HServed q r a e) \/ exists e, h = HQueue q e.
Proof.
  intros ks qid ba q s ho s' St T h ->.
  assert (P : forall q1 (q' : QueueModel.state), QueueModel.wstep (ks q) (b_q s q) (put q1 q' (b_q s) q) -> q1 = q).
  { intros q1 q' X. unfold put in X. destruct (Nat.eqb_spec q q1) as [Q|D]; auto. exfalso. eapply wstep_moves; eauto. }
  assert (W : forall q' e, QueueModel.wstep (ks q) (b_q s q) q' -> log q' = e :: log (b_q s q) -> plain e = true \/ exists r ok, e = QueueModel.EServe r ok).
  { intros q' e X L. destruct (worker_event _ _ _ X) as [E|(e' & E & K)]; rewrite L in E; [exfalso; eapply no_self; eauto|].
    inversion E; subst. destruct K as [K|(r & ok & K & _)]; eauto. }
  remember (Some h) as ho eqn:Eh.
  destruct St as [s q1 q' T1 E|s q1 q' c1 r1 o s1 e1 x ob T1 E So Rx Qd Ob Op|s q1 q' r1 a k x s1 e1 T1 E Ek So|s q1 q' r1 c1 k x T1 E Ek|s o s1 e1 Ic So|s q1 q' e1 T1 E Pl];
    inversion Eh; subst h; cbn [b_q] in T.
  - pose proof (P _ _ T) as Q. rewrite Q in *. rewrite put_same in T. destruct (W _ _ T E) as [K|(r & ok & K)]; discriminate.
  - pose proof (P _ _ T) as Q. rewrite Q in *. left. eauto.
  - pose proof (P _ _ T) as Q. rewrite Q in *. rewrite put_same in T. destruct (W _ _ T E) as [K|(r & ok & K)]; discriminate.
  - exfalso. eapply wstep_moves; eauto.
  - pose proof (P _ _ T) as Q. rewrite Q in *. eauto.
Qed.

Lemma alone_history : forall ks qid ba q n w0 m s t' s', alone ks qid ba q m s t' s' -> forall t, history ks qid ba w0 t s -> follows n t ->
  history ks qid ba w0 (t' ++ t) s' /\ follows n (t' ++ t) /\ QueueSpec.wsteps (ks q) m (b_q s q) (b_q s' q) /\
  Forall (fun h => (exists r a e, h = HServed q r a e) \/ exists e, h = HQueue q e) t'.
Proof.
  intros ks qid ba q n w0 m s t' s' A. induction A as [s|m s1 ho s2 t' s3 St T A IH]; intros t H F.
  - csplit; auto; constructor.
  - pose proof (alone_step _ _ _ _ _ _ _ St T) as K.
    destruct ho as [h|].
    + specialize (K _ eq_refl). destruct (IH (h :: t)) as (I1 & I2 & I3 & I4).
      * eapply HsSome; eauto.
      * intros newer h' older E. destruct newer as [|y newer]; cbn in E; inversion E; subst; [|eapply F; eauto].
        destruct K as [(r & a & e & ->)|(e & ->)]; exact Logic.I.
      * rewrite <- app_assoc. cbn [app]. csplit; auto; [econstructor; eauto|]. apply Forall_app. auto.
    + rewrite app_nil_r. destruct (IH t) as (I1 & I2 & I3 & I4); auto; [eapply HsSilent; eauto|]. csplit; auto. econstructor; eauto.
Qed.

Lemma ready_down : forall r l, In (QueueModel.EReady r) l -> ~ flying (loc r l) /\ loc r l <> QueueProofs.PNone.
Proof.
  intros r. induction l as [|e l IH]; intros I; [destruct I|]. rewrite XferProofs.loc_cons. destruct I as [->|I].
  - cbn [QueueSpec.about]. rewrite Nat.eqb_refl. destruct (loc r l) as [|c0| | |c0|o st|o|]; try (destruct st); cbn; split; auto; discriminate.
  - specialize (IH I). destruct (QueueSpec.about r e); auto. apply down_kept; tauto.
Qed.

Lemma can_serve : forall ks qid ba nc cfgs disks s0 t s q r a, (1 <= ba)%nat -> setup cfgs disks s0 ->
  history ks qid ba (begin nc s0) t s -> follows (length cfgs) t -> QueueModel.st_wpc (b_q s q) = QueueModel.WServe r ->
  exists e s', bstep ks qid ba s (Some (HServed q r a e)) s' /\ QueueModel.wstep (ks q) (b_q s q) (b_q s' q).
Proof.
  intros ks qid ba nc cfgs disks s0 t s q r a Hb Su H F W. pose proof (inv_history _ _ _ _ _ _ _ H) as V.
  pose proof (prefix_sinv _ _ _ _ _ _ _ _ _ Hb Su H F) as Si.
  pose proof (i_reach _ _ _ _ _ V q) as R. pose proof (proj2 (XferProofs.serving _ _ _ _ R) W) as L.
  destruct (i_has _ _ _ _ _ V q r) as (x & I); [rewrite L; exact Logic.I|]. apply In_nth_error in I. destruct I as (k & Ek).
  assert (Exx : nth_error (map snd (b_fly s)) k = Some x) by (rewrite (map_nth_error snd _ _ Ek); auto).
  assert (Al : allowed (length cfgs) (as_store s) (SServe a k)) by (cbn; apply nth_error_Some; congruence).
  destruct (step_serve ba cfgs _ _ a k Si Al) as (s1 & e & E & _).
  destruct (nth_error (QueueModel.st_reqs (b_q s q)) r) as [ob|] eqn:Ob.
  2:{ exfalso. apply (QueueProofs.l_dom _ _ (QueueLife.linv_reachable _ _ _ R)) in Ob. congruence. }
  pose proof (QueueModel.w_serve (ks q) _ _ _ (went e) W Ob) as T.
  exists e. eexists. split; [eapply BServed; eauto; [apply QueueModel.step_worker; exact T|reflexivity]|].
  cbn [b_q]. rewrite put_same. exact T.
Qed.

(** If the clients of a running queue are not in the middle of a submission or cancellation, its
    worker serves the requests in it, whatever the system answers, if only it is scheduled: it
    comes to rest after a bounded number of steps, and then all are served. *)
Theorem C119_progress : forall ks qid ba nc cfgs disks s0 t s q m t' s', (1 <= ba)%nat -> setup cfgs disks s0 ->
  history ks qid ba (begin nc s0) t s -> follows (length cfgs) t ->
  QueueModel.st_ts (b_q s q) = QueueModel.RUNNING ->
  QueueSpec.clients_at QueueSpec.signalling (b_q s q) = 0%nat -> QueueSpec.clients_at QueueSpec.taking (b_q s q) = 0%nat ->
  alone ks qid ba q m s t' s' ->
  (m <= 40 * QueueSpec.queued (b_q s q) + 35)%nat /\
  ((forall ho s'', ~ (bstep ks qid ba s' ho s'' /\ QueueModel.wstep (ks q) (b_q s' q) (b_q s'' q))) ->
   QueueSpec.queued (b_q s' q) = 0%nat /\
   forall r, In r (QueueModel.st_rq (b_q s q) ++ QueueModel.st_wq (b_q s q)) ->
     (exists a e, In (HServed q r a e) t') /\ QueueSpec.completed r (QueueSpec.trace (b_q s' q))).
Proof.
  intros ks qid ba nc cfgs disks s0 t s q m t' s' Hb Su H F Rn C1 C2 A.
  destruct (alone_history _ _ _ _ (length cfgs) _ _ _ _ _ A t H F) as (H' & F' & Ws & On).
  pose proof (inv_history _ _ _ _ _ _ _ H) as V. pose proof (inv_history _ _ _ _ _ _ _ H') as V'.
  pose proof (i_reach _ _ _ _ _ V q) as R. pose proof (i_reach _ _ _ _ _ V' q) as R'.
  destruct (QueueProps2.C21_worker_serves_everything _ _ _ _ _ R Rn C1 C2 Ws) as (B & K). split; auto. intros N.
  assert (Stop : forall q'', ~ QueueModel.wstep (ks q) (b_q s' q) q'').
  { intros q'' T. destruct (C119_unrestricted _ _ _ _ _ _ _ _ _ Hb Su H' F') as (U1 & U2 & _ & _).
    assert (Sv : forall r, QueueModel.st_wpc (b_q s' q) = QueueModel.WServe r -> False).
    { intros r Wp. destruct (can_serve _ _ _ _ _ _ _ _ _ _ _ ok92 Hb Su H' F' Wp) as (e & s'' & St). exact (N _ _ St). }
    destruct (U1 q q'') as [(r & ok & _ & Wp)|[(c & r & E)|(ho & s'' & St & E)]]; [apply QueueModel.step_worker; auto|eauto| |].
    - destruct (worker_event _ _ _ T) as [E'|(e' & E' & [K'|(r' & ok & K' & _)])]; rewrite E in E'.
      + eapply no_self; eauto.
      + inversion E'; subst. discriminate.
      + inversion E'; subst. discriminate.
    - apply (N ho s''). split; auto. rewrite E, put_same. auto. }
  destruct (K Stop) as (K1 & K2). split; auto. intros r I. destruct (K2 r I) as (K3 & K4). split; auto.
  assert (Fl : flying (loc r (log (b_q s q)))).
  { assert (W : exists w, In r (QueueModel.queue w (b_q s q))).
    { apply in_app_iff in I. destruct I as [I|I]; [exists false|exists true]; exact I. }
    destruct W as (w & W). rewrite (QueueProofs.l_own _ _ (QueueLife.linv_reachable _ _ _ R) _ _ (QueueProofs.own_q _ _ _ W)). exact Logic.I. }
  destruct (i_has _ _ _ _ _ V _ _ Fl) as (x & Ix). destruct (i_fly _ _ _ _ _ V _ _ _ Ix) as (_ & (c & e & P & _) & Ns).
  destruct (i_end _ _ _ _ _ V' q c r e) as [(y & J)|[(a & e' & J)|(c' & J)]]; [apply in_app_iff; auto| | |].
  - exfalso. destruct (i_fly _ _ _ _ _ V' _ _ _ J) as (L & _).
    unfold QueueSpec.completed in K4. rewrite QueueTrace.in_trace in K4. exact (proj1 (ready_down _ _ K4) L).
  - apply in_app_iff in J. destruct J as [J|J]; [eauto|]. exfalso. eapply Ns; eauto.
  - exfalso. apply in_app_iff in J. destruct J as [J|J].
    + rewrite Forall_forall in On. destruct (On _ J) as [(r1 & a & e1 & Q)|(e1 & Q)]; discriminate.
    + destruct (erased_down _ _ _ _ _ _ _ H _ _ _ J) as (Nf & _). exact (Nf Fl).
Qed.
Print Assumptions C119_progress.

(** A case: two writes are in the queue of disks 0 and 1; the second fails. *)
Definition worker_move (q : nat) (m : bmove) : Prop := (exists ok, m = BQ q (QueueRun.W ok)) \/ exists a, m = BS q a.

Lemma bexec_worker : forall ks qid ba q m s h s', worker_move q m -> bexec ks qid ba m s = Some (h, s') ->
  QueueModel.wstep (ks q) (b_q s q) (b_q s' q).
Proof.
  intros ks qid ba q m s h s' [(ok & ->)|(a & ->)] H; cbn [bexec] in H.
  - destruct (QueueRun.exec (ks q) (QueueRun.W ok) (b_q s q)) as [q'|] eqn:X; [|discriminate]. cbn [QueueRun.exec] in X.
    apply QueueRun.exec_w_ok in X.
    repeat match type of H with match ?e with _ => _ end = _ => destruct e; try discriminate H end;
      inversion H; subst; cbn [b_q]; rewrite put_same; auto.
  - destruct (QueueModel.st_wpc (b_q s q)); try discriminate. destruct (find_fly q r (b_fly s)) as [[k x]|]; [|discriminate].
    destruct (store_step ba (as_store s) (SServe a k)) as [[s1 e]|]; [|discriminate].
    destruct (nth_error (QueueModel.st_reqs (b_q s q)) r); [|discriminate].
    destruct (QueueRun.exec (ks q) (QueueRun.W (went e)) (b_q s q)) as [q'|] eqn:X; [|discriminate]. cbn [QueueRun.exec] in X.
    apply QueueRun.exec_w_ok in X. inversion H; subst. cbn [b_q]. rewrite put_same. auto.
Qed.

Lemma brun_alone : forall ks qid ba q ms t s t' s', Forall (worker_move q) ms -> brun ks qid ba ms t s = Some (t', s') ->
  exists u, t' = u ++ t /\ alone ks qid ba q (length ms) s u s'.
Proof.
  intros ks qid ba q. induction ms as [|m ms IH]; intros t s t' s' Wm H; cbn in H.
  - inversion H; subst. exists []. split; auto. constructor.
  - inversion Wm as [|? ? W1 W2]; subst. destruct (bexec ks qid ba m s) as [[h s1]|] eqn:X; [|discriminate].
    destruct (IH _ _ _ _ W2 H) as (u & -> & A). pose proof (bexec_worker _ _ _ _ _ _ _ _ W1 X) as T. exists (u ++ h). split; [rewrite <- app_assoc; auto|].
    destruct (bexec_ok _ _ _ _ _ _ _ X) as [(-> & St)|(y & -> & St)]; cbn [length].
    + exact (al_more _ _ _ _ _ _ None _ _ _ St T A).
    + exact (al_more _ _ _ _ _ _ (Some y) _ _ _ St T A).
Qed.

Definition posts119 : list bmove :=
  [BC (SNew 4 stripe92 0 [4; 4]%Z); BP 0 (SWrite 1 [1; 2; 3; 4]%Z)] ++ qs 0 (QueueRun.Cs 0 2) ++ [BP 1 (SWrite 0 [5; 6; 7; 8]%Z)] ++ qs 0 (QueueRun.Cs 1 2).
Definition works119 : list bmove :=
  qs 0 (QueueRun.Ws 2) ++ [BS 0 bad92] ++ qs 0 (QueueRun.Ws 8) ++ [BS 0 ok92] ++ qs 0 (QueueRun.Ws 6).

Definition go119 (ms : list bmove) (s : world) : list happening * world :=
  match brun ks119 qid119 4 ms [] s with Some p => p | None => ([], s) end.
Definition done119 (ms : list bmove) (s : world) : bool :=
  match brun ks119 qid119 4 ms [] s with Some _ => true | None => false end.
Lemma go119_ok : forall ms s, done119 ms s = true -> brun ks119 qid119 4 ms [] s = Some (go119 ms s).
Proof. intros ms s H. unfold done119, go119 in *. destruct (brun ks119 qid119 4 ms [] s); auto. discriminate. Qed.
Definition p119 := go119 posts119 (begin 2 start92).
Definition w119 := go119 works119 (snd p119).

Example C119_progress_case :
  history ks119 qid119 4 (begin 2 start92) (fst p119) (snd p119) /\ follows (length cfgs92) (fst p119) /\
  let s := b_q (snd p119) 0 in
  QueueModel.st_ts s = QueueModel.RUNNING /\ QueueSpec.clients_at QueueSpec.signalling s = 0%nat /\
  QueueSpec.clients_at QueueSpec.taking s = 0%nat /\ QueueModel.st_rq s ++ QueueModel.st_wq s = [0; 1]%nat /\
  alone ks119 qid119 4 0 18 (snd p119) (fst w119) (snd w119) /\
  (forall ho s'', ~ (bstep ks119 qid119 4 (snd w119) ho s'' /\ QueueModel.wstep (ks119 0) (b_q (snd w119) 0) (b_q s'' 0))) /\
  In (HServed 0 0 bad92 (EWritten (b119 1) false)) (fst w119) /\ In (HServed 0 1 ok92 (EWritten (b119 0) true)) (fst w119).
Proof.
  assert (X : brun ks119 qid119 4 posts119 [] (begin 2 start92) = Some (fst p119, snd p119)).
  { rewrite <- surjective_pairing. apply go119_ok. vm_compute. reflexivity. }
  assert (Y : brun ks119 qid119 4 works119 [] (snd p119) = Some (fst w119, snd w119)).
  { rewrite <- surjective_pairing. apply go119_ok. vm_compute. reflexivity. }
  assert (Hh : history ks119 qid119 4 (begin 2 start92) (fst p119) (snd p119) /\ Forall (sane (length cfgs92)) (fst p119)).
  { apply (brun_ok ks119 qid119 4 (begin 2 start92) (length cfgs92) posts119 [] _ _ _ (HsNil _ _ _ _) X); [constructor|].
    unfold posts119. apply Forall_cons.
    - split; [exact stripe92_lt|]. intros z Hz. cbn in Hz. destruct Hz as [<-|[<-|[]]]; lia.
    - repeat (apply Forall_app; split); repeat (apply Forall_cons || apply Forall_nil); cbn; auto. }
  destruct Hh as (Hh & Sa).
  assert (Wm : Forall (worker_move 0) works119).
  { unfold works119, qs. repeat (apply Forall_app; split); repeat (apply Forall_cons || apply Forall_nil); unfold worker_move; eauto. }
  destruct (brun_alone _ _ _ 0 _ _ _ _ _ Wm Y) as (u & Eu & A). rewrite app_nil_r in Eu. rewrite <- Eu in A.
  change (length works119) with 18%nat in A.
  assert (W : QueueModel.st_wpc (b_q (snd w119) 0) = QueueModel.WWait /\ QueueModel.st_sem (b_q (snd w119) 0) = 0%nat) by (vm_compute; split; reflexivity).
  split; [exact Hh|]. split; [apply followsb_ok; [vm_compute; reflexivity|eapply history_shaped; exact Hh|exact Sa]|].
  cbv zeta. split; [vm_compute; reflexivity|]. split; [vm_compute; reflexivity|]. split; [vm_compute; reflexivity|].
  split; [vm_compute; reflexivity|]. split; [exact A|]. split.
  - intros ho s'' (_ & T). revert W T. generalize (b_q (snd w119) 0) (b_q s'' 0). intros x y (W1 & W2) T. inversion T; congruence || lia.
  - split; vm_compute; auto 20.
Qed.
