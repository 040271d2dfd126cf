(* C104, second part: what a thread reads of a request once it has seen the
   request finished, over the model of the queues, which has the values. *)
From Coq Require Import List Bool PeanoNat.
From Verif Require Import QueueModel QueueProofs QueueLife QueueClients QueueRun.
Import ListNotations.

(* While the worker serves the request it may write error_; it is then still OP. *)
Lemma serving_op k n s r q :
  qreachable k n s -> nth_error (st_reqs s) r = Some q -> st_wpc s = WServe r ->
  q_state q = OP.
Proof.
  intros Hr Hq Hw. destruct (inv_reachable _ _ _ Hr) as (HL & _ & _).
  pose proof (l_fld _ _ HL _ _ Hq) as HF.
  rewrite (l_own _ _ HL r PServe) in HF by (apply own_w; rewrite Hw; reflexivity).
  apply HF.
Qed.

(* What is final once a request is not OP any more. *)
Definition settled (r : nat) (e : bool) (s : state) : Prop :=
  exists q, nth_error (st_reqs s) r = Some q /\ q_state q <> OP /\ q_err q = e.

Lemma settled_same r e s s' : st_reqs s' = st_reqs s -> settled r e s -> settled r e s'.
Proof. unfold settled. intros ->. auto. Qed.

Lemma settled_set r e s s' r0 q0 q1 :
  nth_error (st_reqs s) r0 = Some q0 -> st_reqs s' = upd r0 q1 (st_reqs s) ->
  (q_state q0 <> OP -> q_state q1 <> OP /\ q_err q1 = q_err q0) ->
  settled r e s -> settled r e s'.
Proof.
  intros H0 HR H1 (q & Hq & Ho & He). unfold settled. rewrite HR.
  destruct (Nat.eq_dec r0 r) as [->|N].
  - rewrite H0 in Hq. injection Hq as <-. exists q1.
    split; [eapply nth_upd_eq; eauto|]. destruct (H1 Ho). split; congruence.
  - exists q. rewrite nth_upd_neq by auto. auto.
Qed.

Lemma settled_complete r e s s' r0 q0 st ok :
  nth_error (st_reqs s) r0 = Some q0 -> st_reqs s' = st_reqs (complete_step r0 q0 st ok s) ->
  settled r e s -> settled r e s'.
Proof.
  intros H0 HR HS. destruct st; cbn in HR.
  - eapply settled_set; [exact H0|exact HR|split; [discriminate|reflexivity]|exact HS].
  - eapply settled_same; [|exact HS]. destruct (q_handler q0); exact HR.
  - eapply settled_same; [|exact HS]. destruct (notify_all _ _); exact HR.
  - eapply settled_set; [exact H0|exact HR|auto|exact HS].
  - eapply settled_set; [exact H0|exact HR|split; [discriminate|reflexivity]|exact HS].
Qed.

Lemma settled_step k n s s' r e :
  qreachable k n s -> step k s s' -> settled r e s -> settled r e s'.
Proof.
  intros Hr Hs HS.
  assert (HF : st_wpc s <> WServe r).
  { intros Hw. destruct HS as (q & Hq & Ho & _). apply Ho.
    eapply serving_op; eauto. }
  assert (HQ : forall w l s, st_reqs (set_queue w l s) = st_reqs s) by (intros [] l s0; reflexivity).
  destruct Hs as [s s' Hs|c s s' Hs|c s s' Hs]; destruct Hs;
    try (eapply settled_same; [|exact HS]; cbn; rewrite ?HQ; reflexivity);
    try (eapply settled_complete; [eassumption|reflexivity|exact HS]);
    try (eapply settled_set; [eassumption|reflexivity|cbn; auto|exact HS]).
  - intros Ho. exfalso. apply Ho. eapply serving_op; eauto.
  - destruct HS as (q1 & Hq & Ho & He). exists q1. cbn. split; [|auto].
    rewrite nth_error_app1; [auto|]. apply nth_error_Some. congruence.
Qed.

(* Once a thread has seen the request in any other state than OP, nobody is
   about to write error_, now or later: the error that wait, or a poll that
   found the request finished, reads is the final one. *)
Theorem C104_error_after_wait k n s s' r q :
  qreachable k n s -> nth_error (st_reqs s) r = Some q -> q_state q <> OP ->
  steps k s s' ->
  st_wpc s' <> WServe r /\
  exists q', nth_error (st_reqs s') r = Some q' /\ q_state q' <> OP /\ q_err q' = q_err q.
Proof.
  intros Hr Hq Ho Hs.
  assert (HX : qreachable k n s' /\ settled r (q_err q) s').
  { induction Hs as [s|s1 s2 s3 _ IH Hs].
    - split; [exact Hr|exists q; auto].
    - destruct (IH Hr Hq) as [A B]. split; [eapply steps_trans; eauto|].
      eapply settled_step; eauto. }
  destruct HX as [Hr' (q' & Hq' & Ho' & He')]. split; [|exists q'; auto].
  intros Hw. apply Ho'. eapply serving_op; eauto.
Qed.
Print Assumptions C104_error_after_wait.

(* A request whose transfer failed; client 0 waits for it. *)
Example C104_wait_case :
  let s := after OneQ 1 (submit 0 Read false ++ [W true; W true; W false; W true; WaitAll 0 [0]]) in
  qreachable OneQ 1 s /\ nth_error (st_clients s) 0 = Some (CWait [0] [0]) /\
  (exists q, nth_error (st_reqs s) 0 = Some q /\ q_state q = DONE /\ q_err q = true).
Proof.
  cbv zeta. split; [apply after_reachable|]. split; [reflexivity|].
  eexists. split; [reflexivity|]. split; reflexivity.
Qed.

(* wait_any, however, polls a request that is being served: it reads error_
   (C104_error_refuted) while the worker may write it. *)
Theorem C104_wait_any_reads_error_refuted :
  exists s, qreachable OneQ 2 s /\ st_wpc s = WServe 0 /\
    nth_error (st_clients s) 1 = Some (CAnyAdd [] [0] 0).
Proof.
  exists (after OneQ 2 (submit 0 Read false ++ [W true; W true; WaitAny 1 [0]])).
  split; [apply after_reachable|]. split; reflexivity.
Qed.
Print Assumptions C104_wait_any_reads_error_refuted.

(* And cancel reads file_ while the worker is about to clear it. *)
Theorem C104_cancel_reads_file_refuted :
  exists s, qreachable OneQ 2 s /\ st_wpc s = WFin 0 SRelease /\
    nth_error (st_clients s) 1 = Some (CCancel [0] [0] []).
Proof.
  exists (after OneQ 2 (submit 0 Read false ++ Ws 6 ++ [Cancel 1 [0]])).
  split; [apply after_reachable|]. split; reflexivity.
Qed.
Print Assumptions C104_cancel_reads_file_refuted.
