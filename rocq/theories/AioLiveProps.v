(** C117: posted requests can always come to an end. *)

From Coq Require Import ZArith List Bool Arith Lia.
From Verif Require Import WriterProofs.
From Verif Require Import LioModel LioSpec LioProofs LioProps AioXferModel AioXferProofs AioXferProps.
From Verif Require AsyncModel AsyncSpec XferProps.
Import ListNotations.

Lemma posted_added : forall max ps kf w t s c i a, history max ps kf (begin max w) t s -> In (APost c i a) t -> In i (added (a_q s)).
Proof.
  intros max ps kf w t s c i a H. remember (begin max w) as s0 eqn:E0.
  induction H as [|t s s' H IH St|t s h s' H IH St]; intros I; [destruct I| |].
  - specialize (IH I). destruct (inv_history max ps kf w t s) as (x & V); [subst; auto|].
    remember None as o eqn:Eo. destruct St; inversion Eo; subst; cbn [a_q]; auto. destruct H1 as (-> & _). auto.
  - destruct (inv_history max ps kf w t s) as (x & V); [subst; auto|]. pose proof (inv_reach _ _ _ (u_reach _ _ _ _ _ _ V)) as I1.
    apply in_app_iff in I. remember (Some h) as o eqn:Eo.
    destruct St; inversion Eo; subst; cbn [a_q]; (destruct I as [I|[I|[]]]; [specialize (IH I)|try discriminate]); auto.
    + rewrite H1. right. auto.
    + inversion I; subst. rewrite H1. left. auto.
    + destruct (kind_end _ _ _ _ _ _ I1 (step_kind _ _ _ _ I1 H0) H1 H2) as (-> & _). auto.
    + destruct (kind_erase _ _ _ (step_kind _ _ _ _ I1 H0) H1) as (_ & -> & _). auto.
Qed.

(** If io_submit accepts everything, then at any time the threads of the queue and the kernel can
    copy all bytes of everything posted, without any further call of a client and without an
    error; and then every client can learn that its requests are over. *)
Theorem C117_can_finish : forall max kf w t s, (1 <= max)%nat -> history max false kf (begin max w) t s ->
  exists t' s', history max false kf (begin max w) (t ++ t') s' /\
    (forall h, In h t' -> exists c i, h = AEnd c i true) /\
    forall c0 i a, In (APost c0 i a) t -> forall c, astep max false kf s' (Some (ATold c i)) s'.
Proof.
  intros max kf w t s Hm H. destruct (inv_history _ _ _ _ _ _ H) as (x & V).
  destruct (C27_can_always_finish max (a_q s) Hm (u_reach _ _ _ _ _ _ V)) as (qe & St & Ah & Ad). clear x V.
  assert (G : exists t' s', history max false kf (begin max w) (t ++ t') s' /\
    (forall h, In h t' -> exists c i, h = AEnd c i true) /\ a_q s' = qe).
  { clear Ad Ah. remember (a_q s) as q0 eqn:Eq. revert t s H Eq. induction St as [q|q q1 q2 T St IH]; intros t s H Eq.
    - exists [], s. rewrite app_nil_r. csplit; auto. intros h [].
    - subst q. destruct T as (T & Ta & Tc). destruct (inv_history _ _ _ _ _ _ H) as (x & V).
      pose proof (inv_reach _ _ _ (u_reach _ _ _ _ _ _ V)) as I1.
      assert (Par : forall i, flying (a_q s) i -> exists c a, a_par s i = Some (c, a)).
      { intros i F. destruct (a_par s i) as [[c a]|] eqn:E; eauto. exfalso. apply (u_none _ _ _ _ _ _ V) in E. apply E.
        eapply flying_added; eauto. }
      destruct (step_kind _ _ _ _ I1 T) as [Q _ _|i K1 K2 K3 K4 K5|l1 i l2 K1 K2 K3 K4 K5|i K1 K2 K3 K4 K5].
      + destruct (IH t (MkA q1 (a_par s) (a_todo s) (a_val s))) as (t' & s' & X); auto.
        * eapply HaSilent; [eauto|apply AX_quiet; eauto].
        * exists t', s'. exact X.
      + exfalso. rewrite K1 in Ta. apply (f_equal (@length _)) in Ta. cbn in Ta. lia.
      + assert (Ii : In i (infl (a_q s))) by (rewrite K1; apply in_elt).
        assert (Fi : flying (a_q s) i) by (right; right; auto).
        destruct (Par i Fi) as (c & a & P).
        assert (Rg : forall k, In k (a_todo s i) -> (0 <= k < AsyncModel.r_size a)%Z).
        { intros k I. destruct (u_has _ _ _ _ _ _ V i Fi) as (e & Ie & Eid).
          destruct (u_fits _ _ _ _ _ _ V e Ie) as (X1 & X2 & X3 & X4). rewrite Eid, P in *. inversion X1; subst c a.
          rewrite <- X3 in I. eapply (XferProps.todo_range _ _ _ (u_run _ _ _ _ _ _ V)); eauto. cbn. intros ? ? []. }
        destruct (copy_all max false kf _ t i c a _ s H Ii P (le_n _) Rg) as (s1 & H1 & A1 & A2 & A3).
        rewrite <- A1 in T, K1. rewrite <- A2 in P.
        destruct (IH (t ++ [AEnd c i true]) (MkA q1 (a_par s1) (a_todo s1) (a_val s1))) as (t' & s' & X1 & X2 & X3); auto.
        * eapply HaSome; [eauto|eapply AX_end; eauto].
        * exists (AEnd c i true :: t'), s'. rewrite <- app_assoc in X1. csplit; auto.
          intros h [I|I]; eauto.
      + exfalso. rewrite K2 in Tc. cbn in Tc. lia. }
  destruct G as (t' & s' & H' & Hs & Eq). exists t', s'. csplit; auto.
  intros c0 i a P c. destruct (Ah i) as (b & B).
  - rewrite Ad. eapply posted_added; eauto.
  - apply (AX_told _ _ _ _ c i b). rewrite Eq. auto.
Qed.
Print Assumptions C117_can_finish.

(** A request is in the list when the clients stop. *)
Example C117_finish_case : exists t s, history 2 false false (begin 2 (fun _ => 0%Z)) t s /\
  In (APost 0 0 (AsyncModel.MkR true 0 0 0 4)) t /\ waiting (a_q s) = [0%nat].
Proof.
  pose proof (HaNil 2 false false (begin 2 (fun _ => 0%Z))) as H. unfold begin at 2, init in H.
  post H 0 0 (AsyncModel.MkR true 0 0 0 4).
  match type of H with history _ _ _ _ ?t ?s => exists t, s end. split; [exact H|]. split; [cbn; auto|reflexivity].
Qed.
