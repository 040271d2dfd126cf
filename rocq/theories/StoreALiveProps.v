(** C120: posted requests can always come to an end. *)

From Coq Require Import ZArith List Bool Arith Lia.
From Verif Require Import WriterProofs.
From Verif Require Import AllocModel ManagerModel ManagerSpec FileModel StoreModel StoreSpec StoreProofs2 StoreProps StoreAModel StoreASpec StoreAProofs StoreAProps StoreACaseProps.
From Verif Require LioModel LioSpec LioProofs LioProofs2 LioProps LioLiveProps AioXferModel AioXferProofs StoreQModel StoreQProofs StoreQProps.
Import ListNotations.

(** A step of the queue or the kernel without a call of a client is possible for the store too. *)
Lemma lift_inner : forall max ba cfgs disks s0 t s (ans : nat -> answers), (1 <= ba)%nat -> setup cfgs disks s0 ->
  history max false ba (begin max s0) t s -> follows (length cfgs) t -> forall q1, LioSpec.inner_step max false false (a_q s) q1 ->
  exists h s1, astep max false ba s h s1 /\ (h = None \/ exists i e, h = Some (KEnd i (ans i) e)) /\ a_q s1 = q1.
Proof.
  intros max ba cfgs disks s0 t s ans Hb Su H F q1 (T & Ta & Tc). pose proof (inv_history _ _ _ _ _ _ H) as V.
  pose proof (LioProofs.inv_reach _ _ _ (i_reach _ _ _ _ V)) as L1.
  assert (Fly : forall i, flying (a_q s) i -> exists k x, nth_error (a_fly s) k = Some (i, x)).
  { intros i Fl. destruct (i_has _ _ _ _ V _ Fl) as (x & I). apply In_nth_error in I. destruct I as (k & E). eauto. }
  destruct (AioXferProofs.step_kind _ _ _ _ L1 T) as [K _ _|i K1 K2 K3 K4 K5|l1 i l2 K1 K2 K3 K4 K5|i K1 K2 K3 K4 K5].
  - exists None, (MkA (a_client s) (a_disks s) (a_fly s) q1). csplit; auto. apply AQuiet; auto.
  - exfalso. rewrite K1 in Ta. apply (f_equal (@length _)) in Ta. cbn in Ta. lia.
  - pose proof (prefix_sinv _ _ _ _ _ _ _ _ Hb Su H F) as Si.
    destruct (Fly i) as (k & x & Ek); [right; right; rewrite K1; apply in_elt|].
    assert (Exx : nth_error (map snd (a_fly s)) k = Some x) by (rewrite (map_nth_error snd _ _ Ek); auto).
    assert (Al : allowed (length cfgs) (as_store s) (SServe (ans i) k)) by (cbn; apply nth_error_Some; congruence).
    destruct (step_serve ba cfgs _ _ (ans i) k Si Al) as (s1 & e & E & _).
    exists (Some (KEnd i (ans i) e)), (MkA (st_client s1) (st_disks s1) (remove_nth k (a_fly s)) q1). csplit; eauto.
    eapply AEnd; eauto.
  - exfalso. rewrite K2 in Tc. cbn in Tc. lia.
Qed.

(** When all requests are handled. *)
Lemma finished : forall max ba s0 t s, history max false ba (begin max s0) t s -> LioSpec.all_handled (a_q s) ->
  st_pending (as_store s) = [] /\
  forall c0 i e, In (KPost c0 i e) t -> forall c, exists b, astep max false ba s (Some (KTold c i b)) s.
Proof.
  intros max ba s0 t s H Ah. pose proof (inv_history _ _ _ _ _ _ H) as V. pose proof (LioProofs.inv_reach _ _ _ (i_reach _ _ _ _ V)) as L1.
  assert (Nf : forall i, ~ flying (a_q s) i).
  { intros i Fl. pose proof (AioXferProofs.flying_added _ _ _ L1 Fl) as A. destruct (Ah _ A) as (b & B).
    eapply AioXferProofs.handled_landed; eauto. }
  split.
  - cbn. destruct (a_fly s) as [|(i & x) l] eqn:El; auto. exfalso. apply (Nf i). apply (i_fly _ _ _ _ V i x). rewrite El. left; auto.
  - intros c0 i e P c. destruct (Ah i) as (b & B); [eapply i_posted; eauto|]. exists b. apply ATold. auto.
Qed.

Lemma steps_snoc : forall max n q q1 q2, LioLiveProps.steps max n q q1 -> LioSpec.inner_step max false false q1 q2 ->
  LioLiveProps.steps max (S n) q q2.
Proof.
  induction 1 as [q|n q qa qb T St IH]; intros X; [econstructor; eauto; constructor|]. eapply LioLiveProps.N_step; eauto.
Qed.

(** The threads of the queue and the kernel can finish whatever is posted, without any further
    call of a client, whatever the system answers ([ans i]: to request [i]); then every client can
    learn of every request that it is over, and of one that is not canceled the kernel has
    finished it. *)
Theorem C120_can_finish : forall max ba cfgs disks s0 t s (ans : nat -> answers), (1 <= ba)%nat -> (1 <= max)%nat -> setup cfgs disks s0 ->
  history max false ba (begin max s0) t s -> follows (length cfgs) t ->
  exists t' s', history max false ba (begin max s0) (t' ++ t) s' /\ follows (length cfgs) (t' ++ t) /\
    (forall h, In h t' -> exists i e, h = KEnd i (ans i) e) /\
    st_pending (as_store s') = [] /\
    forall c0 i e, In (KPost c0 i e) t ->
      (forall c, exists b, astep max false ba s' (Some (KTold c i b)) s') /\
      (In (KErased i) t \/ exists a e', In (KEnd i a e') (t' ++ t)).
Proof.
  intros max ba cfgs disks s0 t s ans Hb Hm Su H F.
  pose proof (i_reach _ _ _ _ (inv_history _ _ _ _ _ _ H)) as R.
  destruct (LioProps.C27_can_always_finish max (a_q s) Hm R) as (qe & St & Ah & Ad).
  assert (G : exists t' s', history max false ba (begin max s0) (t' ++ t) s' /\ follows (length cfgs) (t' ++ t) /\
    (forall h, In h t' -> exists i e, h = KEnd i (ans i) e) /\ a_q s' = qe).
  { clear R Ad Ah. remember (a_q s) as q0 eqn:Eq. revert t s H F Eq. induction St as [q|q q1 q2 T St IH]; intros t s H F Eq.
    - exists [], s. csplit; auto. intros h [].
    - subst q. destruct (lift_inner _ _ _ _ _ _ _ ans Hb Su H F _ T) as (h & s1 & St1 & [E|(i & e & E)] & Eq1); subst h.
      + destruct (IH t s1) as (t' & s' & X); auto.
        * eapply HaSilent; eauto.
        * exists t', s'. exact X.
      + destruct (IH (KEnd i (ans i) e :: t) s1) as (t' & s' & X1 & X2 & X3 & X4); auto.
        * eapply HaSome; eauto.
        * intros newer h older Eo. destruct newer as [|y newer]; cbn in Eo; inversion Eo; subst; [exact Logic.I|]. eapply F; eauto.
        * exists (t' ++ [KEnd i (ans i) e]), s'. rewrite <- app_assoc. csplit; auto.
          intros h I. apply in_app_iff in I. destruct I as [I|[I|[]]]; eauto. }
  destruct G as (t' & s' & H' & F' & Hs & Eq). exists t', s'. pose proof (inv_history _ _ _ _ _ _ H') as V'.
  rewrite <- Eq in Ah. destruct (finished _ _ _ _ _ H' Ah) as (Em & Te). csplit; auto.
  intros c0 i e P. assert (P' : In (KPost c0 i e) (t' ++ t)) by (apply in_app_iff; auto). split; [eapply Te; eauto|].
  destruct (i_end _ _ _ _ V' _ _ _ P') as [(x & A)|[A|A]]; auto.
  - cbn in Em. apply (in_map snd) in A. rewrite Em in A. destruct A.
  - left. apply in_app_iff in A. destruct A as [A|A]; auto. destruct (Hs _ A) as (? & ? & ?). discriminate.
Qed.
Print Assumptions C120_can_finish.

(** Two writes are in the list of waiting requests when the clients stop. *)
Definition moves120c : list amove :=
  [MC (SNew 4 stripe92 0 [4; 4; 4]%Z); MP 0 0 (SWrite 1 [1; 2; 3; 4]%Z); MP 1 1 (SWrite 2 [5; 6; 7; 8]%Z)].
Example C120_finish_case : exists t s, history 2 false 4 (begin 2 start92) t s /\ follows (length cfgs92) t /\
  length (st_pending (as_store s)) = 2%nat /\ LioModel.waiting (a_q s) = [0; 1]%nat /\ LioModel.cancelers (a_q s) = [].
Proof.
  destruct (arun 2 4 moves120c [] (begin 2 start92)) as [[t s]|] eqn:X; [|exfalso; vm_compute in X; discriminate].
  exists t, s.
  assert (Hh : history 2 false 4 (begin 2 start92) t s /\ Forall (sane (length cfgs92)) t).
  { apply (arun_ok 2 false 4 (begin 2 start92) (length cfgs92) moves120c [] _ _ _ (HaNil _ _ _ _) X); [constructor|].
    unfold moves120c. apply Forall_cons.
    - split; [exact stripe92_lt|]. intros z Hz. cbn in Hz. destruct Hz as [<-|[<-|[<-|[]]]]; lia.
    - repeat (apply Forall_cons || apply Forall_nil); cbn; auto. }
  destruct Hh as (Hh & Sa).
  assert (Et : t = match arun 2 4 moves120c [] (begin 2 start92) with Some (t, _) => t | None => [] end) by (rewrite X; auto).
  assert (Es : s = match arun 2 4 moves120c [] (begin 2 start92) with Some (_, s) => s | None => s end) by (rewrite X; auto).
  split; [auto|]. split; [apply followsb_ok; [rewrite Et; vm_compute; reflexivity|auto]|].
  csplit; rewrite Es; vm_compute; reflexivity.
Qed.

(** [alone max ba n s t' s']: [n] steps of the queue and the kernel, with the happenings [t'], while
    no client calls anything. *)
Inductive alone (max ba : nat) : nat -> world -> list happening -> world -> Prop :=
| Alone_none : forall s, alone max ba 0 s [] s
| Alone_quiet : forall n s t s1 s2, alone max ba n s t s1 -> astep max false ba s1 None s2 -> alone max ba (S n) s t s2
| Alone_end : forall n s t s1 i a e s2, alone max ba n s t s1 -> astep max false ba s1 (Some (KEnd i a e)) s2 ->
    alone max ba (S n) s (KEnd i a e :: t) s2.

Lemma alone_history : forall max ba w0 n s t' s', alone max ba n s t' s' -> forall t, history max false ba w0 t s ->
  history max false ba w0 (t' ++ t) s'.
Proof.
  induction 1 as [s|n s t1 s1 s2 A IH St|n s t1 s1 i a e s2 A IH St]; intros t H; auto.
  - eapply HaSilent; eauto.
  - cbn. eapply HaSome; eauto.
Qed.

Lemma alone_follows : forall max ba nd n s t' s', alone max ba n s t' s' -> forall t, follows nd t -> follows nd (t' ++ t).
Proof.
  induction 1 as [s|n s t1 s1 s2 A IH St|n s t1 s1 i a e s2 A IH St]; intros t F; auto.
  cbn. intros newer h older Eo. destruct newer as [|y newer]; cbn in Eo; inversion Eo; subst; [exact Logic.I|]. eapply IH; eauto.
Qed.

Lemma astep_inner : forall max ba s h s', LioProofs.Inv max (a_q s) -> astep max false ba s h s' ->
  (h = None \/ exists i a e, h = Some (KEnd i a e)) -> LioSpec.inner_step max false false (a_q s) (a_q s').
Proof.
  intros max ba s h s' V St Hh. destruct St; try (exfalso; destruct Hh as [Hh|(? & ? & ? & Hh)]; discriminate).
  - cbn [a_q]. pose proof H0 as (Q1 & Q2 & Q3). split; [auto|]. split; [auto|].
    destruct (AioXferProofs.step_kind _ _ _ _ V H) as [_ K _|j K1 K2 K3 K4 K5|m1 j m2 K1 K2 K3 K4 K5|j K1 K2 K3 K4 K5]; auto; try (rewrite K4; auto).
    exfalso. assert (I : In (LioModel.C_compl j) (LioModel.cancelers (a_q s))) by (apply Q3; rewrite K2; left; auto).
    apply AioXferProofs.compl_cnt in I. apply LioProofs.cnt_In in K1.
    pose proof (LioProofs.I_all _ _ V j). pose proof (LioProofs.I_once _ _ V j). lia.
  - cbn [a_q]. assert (L : length (LioModel.infl (a_q s)) = S (length (LioModel.infl q'))) by (rewrite H0, H1, !app_length; cbn; lia).
    pose proof (AioXferProofs.step_kind _ _ _ _ V H) as K. destruct (AioXferProofs.kind_end _ _ _ _ _ _ V K H0 H1) as (Ad & _).
    split; [auto|]. split; [auto|].
    destruct K as [_ K _|j K1 K2 K3 K4 K5|m1 j m2 K1 K2 K3 K4 K5|j K1 K2 K3 K4 K5]; auto; try (rewrite K4; auto).
    rewrite K4 in L. lia.
Qed.

(** Unless a cancellation is under way when the clients stop, the queue and the kernel are done
    after at most 20 steps for each request that is not over and 7 more, whatever they do in which
    order and whatever the system answers; and as long as they are not done, they can do something.
    Then nothing is pending and every client can learn that its requests are over. *)
Theorem C120_must_finish : forall max ba cfgs disks s0 t s n t' s', (1 <= ba)%nat -> (1 <= max)%nat -> setup cfgs disks s0 ->
  history max false ba (begin max s0) t s -> follows (length cfgs) t -> LioModel.cancelers (a_q s) = [] ->
  alone max ba n s t' s' ->
  (n <= 20 * (length (LioModel.added (a_q s)) - length (LioModel.handled (a_q s))) + 7)%nat /\
  ((forall t2 s2, ~ alone max ba 1 s' t2 s2) ->
   st_pending (as_store s') = [] /\
   forall c0 i e, In (KPost c0 i e) t -> forall c, exists b, astep max false ba s' (Some (KTold c i b)) s').
Proof.
  intros max ba cfgs disks s0 t s n t' s' Hb Hm Su H F Ec A.
  pose proof (i_reach _ _ _ _ (inv_history _ _ _ _ _ _ H)) as R.
  assert (G : LioLiveProps.steps max n (a_q s) (a_q s')).
  { clear Ec F. revert R. induction A as [s|n s t1 s1 s2 A IH St|n s t1 s1 i a e s2 A IH St]; intros R; [constructor| |];
      pose proof (alone_history _ _ _ _ _ _ _ A _ H) as H1;
      pose proof (i_reach _ _ _ _ (inv_history _ _ _ _ _ _ H1)) as R1;
      (eapply steps_snoc; [apply IH; auto|]; eapply astep_inner; [eapply LioProofs.inv_reach; eauto|eauto|eauto 6]). }
  destruct (LioLiveProps.C27_must_finish _ _ _ _ Hm R Ec G) as (B & C). split; [auto|]. intros Stuck.
  pose proof (alone_history _ _ _ _ _ _ _ A _ H) as H'. pose proof (alone_follows _ _ _ _ _ _ _ A _ F) as F'.
  assert (Ah : LioSpec.all_handled (a_q s')).
  { apply C. intros q2 T. destruct (lift_inner _ _ _ _ _ _ _ (fun _ => ok92) Hb Su H' F' _ T) as (h & s2 & St & [E|(i & e & E)] & _); subst h.
    - apply (Stuck [] s2). eapply Alone_quiet; [apply Alone_none|auto].
    - apply (Stuck [KEnd i ok92 e] s2). eapply Alone_end; [apply Alone_none|auto]. }
  destruct (finished _ _ _ _ _ H' Ah) as (Em & Te). split; auto.
  intros c0 i e P. apply Te with (1 := in_or_app _ _ _ (or_intror P)).
Qed.
Print Assumptions C120_must_finish.
