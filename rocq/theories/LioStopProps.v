(** Property C93: destruction of the kernel AIO queue. *)

From Coq Require Import List Arith Bool Lia ZArith.
From Verif Require Import LioModel LioSpec LioProofs LioProofs2 LioStopModel LioStopSpec
  LioStopProofs LioStopProofs2 LioStopProofs3.
Import ListNotations.

(** When io_submit takes everything it is given, every run of the destructor
    comes to its end. *)
Theorem C93_destructor_returns : forall max q, 1 <= max -> qreach max false q ->
  dtor q <> D_no -> inevitable (qstep max false) destroyed q.
Proof. exact must_return. Qed.
Print Assumptions C93_destructor_returns.

Lemma destroyed_parts max q : QInv max q -> destroyed q ->
  poster (inner q) = P_got /\ waiter (inner q) = W_get /\ cancelers (inner q) = [] /\
  pread q = Some 0 /\ wread q = Some 0.
Proof.
  intros J D. pose proof J as [Ji Jp Jw Jc Jps Jws Jpz Jwz Jpm Jwm].
  unfold destroyed in D. rewrite D in *. cbn in Jps, Jws.
  destruct Jps as (_ & P). destruct Jws as (_ & W). destruct (Jc ltac:(discriminate)) as (_ & C).
  rewrite Jp, Jw by congruence. auto.
Qed.

(** Afterwards every request is handled, or was not given to the kernel, or is
    still in the kernel, and only one of these. *)
Theorem C93_what_is_left : forall max ps q, qreach max ps q -> destroyed q ->
  forall i, In i (added (inner q)) ->
    (is_handled q i \/ is_waiting q i \/ is_in_kernel q i) /\
    ~ (is_handled q i /\ is_waiting q i) /\ ~ (is_handled q i /\ is_in_kernel q i) /\
    ~ (is_waiting q i /\ is_in_kernel q i).
Proof.
  intros max ps q R D i Hi. pose proof (qinv_reach _ _ _ R) as J.
  destruct (destroyed_parts _ _ J D) as (P & W & C & _).
  destruct (J_inv _ _ J) as [If Ip Iw Il Iok Ipl Ia Io Is Ir Ih Ic].
  apply cnt_In in Hi. specialize (Ia i). specialize (Io i). rewrite P, W, C in Ia. pcs.
  assert (H1 : is_handled q i <-> 1 <= cnt i (ccalls (inner q))).
  { unfold is_handled, was_handled. rewrite <- Ih. rewrite <- cnt_In, in_map_iff. split.
    - intros (c & Hc). exists (i, c). auto.
    - intros ((j, c) & <- & Hc). exists c. assumption. }
  assert (H2 : is_waiting q i <-> 1 <= cnt i (waiting (inner q))) by apply cnt_In.
  assert (H3 : is_in_kernel q i <-> 1 <= cnt i (infl (inner q)) + cnt i (dn (inner q))).
  { unfold is_in_kernel, in_kernel. rewrite cnt_In, cnt_app. reflexivity. }
  rewrite H1, H2, H3. lia.
Qed.
Print Assumptions C93_what_is_left.

Lemma all_served_inv max q : QInv max q -> destroyed q ->
  waiting (inner q) = [] -> in_kernel (inner q) = [] -> all_handled (inner q).
Proof.
  intros J D W0 K0 i Hi.
  destruct (destroyed_parts _ _ J D) as (P & W & C & _).
  destruct (J_inv _ _ J) as [If Ip Iw Il Iok Ipl Ia Io Is Ir Ih Ic].
  apply app_eq_nil in K0. destruct K0 as (K1 & K2).
  apply cnt_In in Hi. specialize (Ia i). rewrite P, W, C, W0, K1, K2 in Ia. pcs.
  assert (K : In i (ccalls (inner q))) by (apply cnt_In; lia).
  rewrite <- Ih in K. apply in_map_iff in K. destruct K as ((j, b) & <- & K). exists b. exact K.
Qed.

(** A thread that is not between its wait(), with the value 0, and the end of
    its loop when the destructor signals leaves nothing behind. *)
Definition p_held (q : qst) : Prop := pread q = Some 0.
Definition w_held (q : qst) : Prop := wread q = Some 0.

Lemma p_fresh_star max ps q q' : star (qstep max ps) q q' ->
  p_signalled (dtor q) = true -> (p_held q -> p_early q = false) ->
  p_signalled (dtor q') = true /\ (p_held q' -> p_early q' = false).
Proof.
  unfold p_held. induction 1 as [|q q1 q2 H St IH]; intros Sg E; [auto|].
  apply IH; destruct H; qunf; auto; try (rewrite H in Sg; discriminate); try congruence;
    try (rewrite Sg; auto).
Qed.

Lemma w_fresh_star max ps q q' : star (qstep max ps) q q' ->
  w_signalled (dtor q) = true -> (w_held q -> w_early q = false) ->
  w_signalled (dtor q') = true /\ (w_held q' -> w_early q' = false).
Proof.
  unfold w_held. induction 1 as [|q q1 q2 H St IH]; intros Sg E; [auto|].
  apply IH; destruct H; qunf; auto; try (rewrite H in Sg; discriminate); try congruence;
    try (rewrite Sg; auto).
Qed.

Lemma star_reach max ps q q' : qreach max ps q -> star (qstep max ps) q q' -> qreach max ps q'.
Proof. intros R St. induction St; [assumption|]. apply IHSt. eapply QR_step; eassumption. Qed.

Theorem C93_nothing_waiting : forall max ps q q1 q2, qreach max ps q ->
  qstep max ps q q1 -> dtor q = D_pset -> dtor q1 = D_psig ->
  ~ p_held q -> star (qstep max ps) q1 q2 -> destroyed q2 -> waiting (inner q2) = [].
Proof.
  intros max ps q q1 q2 R St D D1 N S2 De.
  assert (R1 : qreach max ps q1) by (eapply QR_step; eassumption).
  pose proof (qinv_reach _ _ _ (star_reach _ _ _ _ R1 S2)) as J.
  destruct (destroyed_parts _ _ J De) as (_ & _ & _ & P & _).
  apply (J_pzero _ _ J P).
  apply (p_fresh_star _ _ _ _ S2); [rewrite D1; reflexivity| |exact P].
  intros K. exfalso. apply N. revert K. unfold p_held.
  destruct St; qunf; try congruence.
Qed.
Print Assumptions C93_nothing_waiting.

Theorem C93_nothing_in_kernel : forall max ps q q1 q2, qreach max ps q ->
  qstep max ps q q1 -> dtor q = D_wset -> dtor q1 = D_wsig ->
  ~ w_held q -> star (qstep max ps) q1 q2 -> destroyed q2 -> in_kernel (inner q2) = [].
Proof.
  intros max ps q q1 q2 R St D D1 N S2 De.
  assert (R1 : qreach max ps q1) by (eapply QR_step; eassumption).
  pose proof (qinv_reach _ _ _ (star_reach _ _ _ _ R1 S2)) as J.
  destruct (destroyed_parts _ _ J De) as (_ & _ & _ & _ & W).
  assert (E : w_early q2 = false).
  { apply (w_fresh_star _ _ _ _ S2); [rewrite D1; reflexivity| |exact W].
    intros K. exfalso. apply N. revert K. unfold w_held. destruct St; qunf; try congruence. }
  destruct (J_wzero _ _ J W E) as (I0 & D0 & _). unfold in_kernel. rewrite I0, D0. reflexivity.
Qed.
Print Assumptions C93_nothing_in_kernel.

(** When the last values that the threads read were read after the signals,
    everything has been handled. *)
Theorem C93_all_served : forall max ps q, qreach max ps q -> destroyed q ->
  p_early q = false -> w_early q = false -> all_handled (inner q).
Proof.
  intros max ps q R D E1 E2. pose proof (qinv_reach _ _ _ R) as J.
  destruct (destroyed_parts _ _ J D) as (_ & _ & _ & P & W).
  destruct (J_pzero _ _ J P E1) as (W0 & _). destruct (J_wzero _ _ J W E2) as (I0 & D0 & _).
  apply (all_served_inv max); auto. unfold in_kernel. rewrite I0, D0. reflexivity.
Qed.
Print Assumptions C93_all_served.

(** Nothing is handled any more after the destruction. *)
Lemma destroyed_step max ps q q' : QInv max q -> destroyed q -> qstep max ps q q' ->
  destroyed q' /\ handled (inner q') = handled (inner q).
Proof.
  intros J D H. destruct (destroyed_parts _ _ J D) as (P & W & C & PR & WR).
  unfold destroyed in *. destruct H; qunf; try congruence.
  - split; [assumption|].
    assert (Ep : poster s' = poster (inner q)) by (destruct H0 as [|(_ & ?)]; congruence).
    assert (Ew : waiter s' = waiter (inner q)) by (destruct H1 as [|(_ & ?)]; congruence).
    destruct H2 as [H2|(Ha & Hc)]; [congruence|].
    destruct H; unf; fields; try congruence; auto;
      try (exfalso; rewrite C in H3; destruct x; discriminate);
      try (exfalso; rewrite C in *; match goal with E : [] = ?x ++ _ |- _ => destruct x; discriminate end).
  - pose proof (J_pst _ _ J) as K. rewrite D in K. cbn in K. destruct K, H0 as [K0|(K0 & _)]; congruence.
  - pose proof (J_pst _ _ J) as K. rewrite D in K. cbn in K. destruct K, H0; congruence.
  - pose proof (J_wst _ _ J) as K. rewrite D in K. cbn in K. destruct K, H0 as [K0|(K0 & _)]; congruence.
  - pose proof (J_wst _ _ J) as K. rewrite D in K. cbn in K. destruct K, H0; congruence.
Qed.

Lemma destroyed_for_ever max ps q q' : qreach max ps q -> destroyed q ->
  star (qstep max ps) q q' -> handled (inner q') = handled (inner q).
Proof.
  intros R D St. induction St as [|q q1 q2 H St IH]; [reflexivity|].
  destruct (destroyed_step _ _ _ _ (qinv_reach _ _ _ R) D H) as (D1 & E).
  rewrite <- E. apply IH; [eapply QR_step; eassumption|assumption].
Qed.

(** *** Concrete runs *)
Ltac qside := first [reflexivity | discriminate | left; reflexivity
  | right; split; [discriminate|reflexivity] | apply take_all | cbn; lia
  | cbn; intuition discriminate | intros K; cbn in K; intuition discriminate | auto].
Ltac qf_ R tac :=
  match type of R with qreach ?m ?p ?q =>
    let H := fresh "H" in let R' := fresh "R" in
    eassert (qstep m p q _) as H;
      [tac|pose proof (QR_step _ _ _ _ R H) as R'; clear H; clear R; rename R' into R;
       unfold set_inner, set_pst, set_wst, set_pread, set_wread, set_dtor, set_p_early,
         set_w_early in R; unf; cbn in R]
  end.
Tactic Notation "qi" hyp(R) uconstr(c) :=
  qf_ R ltac:(eapply Q_inner; [eapply c; qside| | |]; qside).
Tactic Notation "qih" hyp(R) uconstr(c) uconstr(d) :=
  qf_ R ltac:(eapply Q_inner; [eapply c; [| |eapply d]; qside| | |]; qside).
Tactic Notation "qf" hyp(R) uconstr(c) := qf_ R ltac:(eapply c; qside).

(** The posting thread has taken the last signal and has not looked at the state
    when the destructor sets it: the request is never given to the kernel. *)
Lemma lost_waiting m : exists q, qreach (S m) false q /\ destroyed q /\
  added (inner q) = [7] /\ is_waiting q 7.
Proof.
  pose proof (QR_init (S m) false) as R. unfold qinit, init in R.
  qi R (S_add _ _ _ _ 7).
  qi R S_add_signal.
  qf R Q_p_wait.
  qf R Q_d_pset.
  qf R Q_p_end.
  qf R Q_d_psig.
  qf R Q_d_pjoin.
  qf R Q_d_wset.
  qf R Q_d_wsig.
  qf R Q_w_wait.
  qf R Q_w_end.
  qf R Q_d_wjoin.
  qf R Q_d_done.
  eexists. split; [exact R|]. split; [reflexivity|]. split; [reflexivity|]. left. reflexivity.
Qed.

(** The same for the waiting thread: the request is carried out, but never
    completed. *)
Lemma lost_in_kernel m : exists q, qreach (S m) false q /\ destroyed q /\
  added (inner q) = [7] /\ is_in_kernel q 7.
Proof.
  pose proof (QR_init (S m) false) as R. unfold qinit, init in R.
  qi R (S_add _ _ _ _ 7).
  qi R S_add_signal.
  qf R Q_p_wait.
  qf R Q_p_go.
  qi R S_p_first.
  qi R S_p_stop.
  qi R S_p_last.
  qi R (S_p_submit _ _ _ _ [7] []).
  qi R S_p_signal.
  qf R Q_w_wait.
  qf R Q_d_pset.
  qf R Q_d_psig.
  qf R Q_p_wait.
  qf R Q_p_end.
  qf R Q_d_pjoin.
  qf R Q_d_wset.
  qf R Q_w_end.
  qf R Q_d_wsig.
  qf R Q_d_wjoin.
  qi R (S_kernel _ _ _ _ [] 7 []).
  qf R Q_d_done.
  eexists. split; [exact R|]. split; [reflexivity|]. split; [reflexivity|]. left. reflexivity.
Qed.

(** Not every request is handled: the destructor can return, however many events
    there are, with the only request still waiting or still in the kernel, and
    then it is never handled. *)
Theorem C93_all_served_refuted : forall max, 1 <= max ->
  (exists q, qreach max false q /\ destroyed q /\ added (inner q) = [7] /\ is_waiting q 7 /\
     forall q', star (qstep max false) q q' -> ~ is_handled q' 7) /\
  (exists q, qreach max false q /\ destroyed q /\ added (inner q) = [7] /\ is_in_kernel q 7 /\
     forall q', star (qstep max false) q q' -> ~ is_handled q' 7).
Proof.
  intros max Hm. destruct max as [|m]; [lia|]. split.
  - destruct (lost_waiting m) as (q & R & D & A & W). exists q. repeat (split; [assumption|]).
    intros q' St (c & K). rewrite (destroyed_for_ever _ _ _ _ R D St) in K.
    destruct (C93_what_is_left _ _ _ R D 7) as (_ & N & _); [rewrite A; left; reflexivity|].
    apply N. split; [exists c|]; assumption.
  - destruct (lost_in_kernel m) as (q & R & D & A & W). exists q. repeat (split; [assumption|]).
    intros q' St (c & K). rewrite (destroyed_for_ever _ _ _ _ R D St) in K.
    destruct (C93_what_is_left _ _ _ R D 7) as (_ & _ & N & _); [rewrite A; left; reflexivity|].
    apply N. split; [exists c|]; assumption.
Qed.
Print Assumptions C93_all_served_refuted.

(** A queue for one event: two requests, the destructor begins while the first
    one is in the kernel, and both are handled. *)
Example C93_case : exists q0 q, qreach 1 false q0 /\ dtor q0 = D_pset /\
  is_in_kernel q0 1 /\ is_waiting q0 2 /\
  star (qstep 1 false) q0 q /\ destroyed q /\ handled (inner q) = [(2, false); (1, false)] /\
  p_early q = false /\ w_early q = false.
Proof.
  pose proof (QR_init 1 false) as R. unfold qinit, init in R.
  qi R (S_add _ _ _ _ 1).
  qi R S_add_signal.
  qf R Q_p_wait.
  qf R Q_p_go.
  qi R S_p_first.
  qi R S_p_stop.
  qi R S_p_last.
  qi R (S_p_submit _ _ _ _ [1] []).
  qi R S_p_signal.
  qi R (S_add _ _ _ _ 2).
  qi R S_add_signal.
  qf R Q_d_pset.
  match type of R with qreach _ _ ?q => exists q end.
  assert (G : forall q1, qreach 1 false q1 ->
    (exists q, star (qstep 1 false) q1 q /\ destroyed q /\ handled (inner q) = [(2, false); (1, false)] /\
       p_early q = false /\ w_early q = false) ->
    dtor q1 = D_pset -> is_in_kernel q1 1 -> is_waiting q1 2 ->
    exists q, qreach 1 false q1 /\ dtor q1 = D_pset /\
      is_in_kernel q1 1 /\ is_waiting q1 2 /\
      star (qstep 1 false) q1 q /\ destroyed q /\ handled (inner q) = [(2, false); (1, false)] /\
      p_early q = false /\ w_early q = false).
  { intros q1 R1 (q & H1 & H2 & H3 & H4 & H5) D K W. exists q.
    repeat (split; [assumption|]). assumption. }
  apply G; [exact R| |reflexivity|left; reflexivity|left; reflexivity].
  clear R G.
  Ltac sg := unfold set_inner, set_pst, set_wst, set_pread, set_wread, set_dtor, set_p_early,
         set_w_early; unf; cbn.
  eexists. split.
  { eapply star_step; [eapply Q_d_psig; qside|sg].
    eapply star_step; [eapply Q_p_wait; qside|sg].
    eapply star_step; [eapply Q_p_go; qside|sg].
    eapply star_step; [eapply Q_inner; [eapply S_p_first; qside| | |]; qside|sg].
    eapply star_step; [eapply Q_inner; [eapply S_p_stop; qside| | |]; qside|sg].
    eapply star_step; [eapply Q_inner; [eapply (S_kernel _ _ _ _ [] 1 []); qside| | |]; qside|sg].
    eapply star_step; [eapply Q_w_wait; qside|sg].
    eapply star_step; [eapply Q_w_go; qside|sg].
    eapply star_step; [eapply Q_inner; [eapply S_w_get; qside| | |]; qside|sg].
    eapply star_step; [eapply Q_inner; [eapply S_w_compensate; qside| | |]; qside|sg].
    eapply star_step; [eapply Q_inner; [eapply S_w_handle; [| |eapply HS_free]; qside| | |]; qside|sg].
    eapply star_step; [eapply Q_inner; [eapply S_w_handle; [| |eapply HS_comp]; qside| | |]; qside|sg].
    eapply star_step; [eapply Q_inner; [eapply S_w_handle; [| |eapply HS_end]; qside| | |]; qside|sg].
    eapply star_step; [eapply Q_inner; [eapply S_w_handle; [| |eapply HS_wait]; qside| | |]; qside|sg].
    eapply star_step; [eapply Q_inner; [eapply S_p_last; qside| | |]; qside|sg].
    eapply star_step; [eapply Q_inner; [eapply (S_p_submit _ _ _ _ [2] []); qside| | |]; qside|sg].
    eapply star_step; [eapply Q_inner; [eapply S_p_signal; qside| | |]; qside|sg].
    eapply star_step; [eapply Q_p_wait; qside|sg].
    eapply star_step; [eapply Q_p_end; qside|sg].
    eapply star_step; [eapply Q_d_pjoin; qside|sg].
    eapply star_step; [eapply Q_d_wset; qside|sg].
    eapply star_step; [eapply Q_d_wsig; qside|sg].
    eapply star_step; [eapply Q_w_wait; qside|sg].
    eapply star_step; [eapply Q_w_go; qside|sg].
    eapply star_step; [eapply Q_inner; [eapply (S_kernel _ _ _ _ [] 2 []); qside| | |]; qside|sg].
    eapply star_step; [eapply Q_inner; [eapply S_w_get; qside| | |]; qside|sg].
    eapply star_step; [eapply Q_inner; [eapply S_w_compensate; qside| | |]; qside|sg].
    eapply star_step; [eapply Q_inner; [eapply S_w_handle; [| |eapply HS_free]; qside| | |]; qside|sg].
    eapply star_step; [eapply Q_inner; [eapply S_w_handle; [| |eapply HS_comp]; qside| | |]; qside|sg].
    eapply star_step; [eapply Q_inner; [eapply S_w_handle; [| |eapply HS_end]; qside| | |]; qside|sg].
    eapply star_step; [eapply Q_inner; [eapply S_w_handle; [| |eapply HS_wait]; qside| | |]; qside|sg].
    eapply star_step; [eapply Q_w_wait; qside|sg].
    eapply star_step; [eapply Q_w_end; qside|sg].
    eapply star_step; [eapply Q_d_wjoin; qside|sg].
    eapply star_step; [eapply Q_d_done; qside|sg].
    apply star_refl. }
  repeat split.
Qed.
