(** Token accounting: what the semaphore counts, progress and shutdown. *)
From Coq Require Import List Bool PeanoNat Lia.
From Verif Require Import QueueModel QueueSpec QueueProofs QueueLife QueueTrace QueueClients QueueMain.
Import ListNotations.

Definition b2n (b : bool) : nat := if b then 1 else 0.

Lemma count_upd : forall (f : cpc -> bool) l c p0 p1, nth_error l c = Some p0 ->
  length (filter f (upd c p1 l)) + b2n (f p0) = length (filter f l) + b2n (f p1).
Proof.
  intros f l. induction l as [|x l IH]; intros [|c] p0 p1 H; cbn in *; try discriminate.
  - injection H as ->. destruct (f p0), (f p1); cbn; lia.
  - specialize (IH _ _ p1 H). destruct (f x); cbn; lia.
Qed.

(** Tokens in the hands of the worker. *)
Definition wtok (p : wpc) : nat :=
  match p with WLock | WSignal | WTermSignal | WTermSet | WStopped => 1 | _ => 0 end.

Definition is_stop (e : event) : bool := match e with EStopSignal => true | _ => false end.
Definition stops (s : state) : nat := length (filter is_stop (st_log s)).
Definition at_stop1 (p : cpc) : bool := match p with CStop1 => true | _ => false end.

Definition running (t : tstate) : bool := match t with RUNNING => true | _ => false end.

Record tinv (s : state) : Prop := {
  t_eq : st_sem s + wtok (st_wpc s) + clients_at signalling s = queued s + clients_at taking s + stops s;
  t_stop : stops s + clients_at at_stop1 s = if running (st_ts s) then 0 else 1;
  t_ts : match st_ts s with
         | RUNNING => match st_wpc s with WTermWait | WTermSignal | WTermSet | WStopped => False | _ => True end
         | TERMINATING => st_wpc s <> WStopped
         | _ => st_wpc s = WStopped
         end
}.

Lemma stops_frame : forall s s', (st_log s' = st_log s \/ exists e, is_stop e = false /\ st_log s' = e :: st_log s) ->
  stops s' = stops s.
Proof. unfold stops. intros s s' [->|(e & E & ->)]; cbn; rewrite ?E; auto. Qed.

Lemma stage_not_stop : forall q r st b s, is_stop (stage_event q r st b s) = false.
Proof. intros. destruct st; cbn; auto. destruct (q_handler q); auto. Qed.

Lemma queued_set : forall w l s, queued (set_queue w l s) + length (queue w s) = queued s + length l.
Proof. unfold queued. intros [] l s; cbn; lia. Qed.

Lemma tinv_init : forall n, tinv (init n).
Proof.
  assert (Z : forall f n, f CIdle = false -> length (filter f (repeat CIdle n)) = 0).
  { intros f n F. induction n; cbn; rewrite ?F; auto. }
  intros. constructor; unfold queued, clients_at, stops; cbn; rewrite ?Z; auto.
Qed.

Ltac cnt H s c p1 :=
  pose proof (count_upd signalling (st_clients s) c _ p1 H);
  pose proof (count_upd taking (st_clients s) c _ p1 H);
  pose proof (count_upd at_stop1 (st_clients s) c _ p1 H).

Lemma tinv_cl : forall s s' c p0 p1, tinv s ->
  nth_error (st_clients s) c = Some p0 -> st_clients s' = upd c p1 (st_clients s) ->
  st_wpc s' = st_wpc s -> st_ts s' = st_ts s -> stops s' = stops s ->
  at_stop1 p1 = at_stop1 p0 ->
  st_sem s' + b2n (signalling p1) + queued s + b2n (taking p0) =
    st_sem s + b2n (signalling p0) + queued s' + b2n (taking p1) ->
  tinv s'.
Proof.
  intros s s' c p0 p1 [A B D] H C W T S ST E.
  cnt H s c p1.
  constructor; unfold clients_at in *; rewrite ?C, ?W, ?T, ?S in *; auto.
  - lia.
  - rewrite ST in *. lia.
Qed.

Lemma tinv_step : forall k s s', tinv s -> step k s s' -> tinv s'.
Proof.
  intros k s s' I T. pose proof I as [A B D].
  assert (SAME : forall s', st_clients s' = st_clients s -> stops s' = stops s -> st_ts s' = st_ts s ->
    st_sem s' + wtok (st_wpc s') + queued s = st_sem s + wtok (st_wpc s) + queued s' ->
    (match st_ts s with
     | RUNNING => match st_wpc s' with WTermWait | WTermSignal | WTermSet | WStopped => False | _ => True end
     | TERMINATING => st_wpc s' <> WStopped
     | _ => st_wpc s' = WStopped
     end) -> tinv s').
  { intros s1 E1 E2 E3 E4 E5. constructor; unfold clients_at in *; rewrite ?E1, ?E2, ?E3; auto. lia. }
  destruct T as [s s' T | c s s' T | c s s' T]; destruct T.
  - (* wait *) apply SAME; cbn; auto; rewrite H in *; cbn in *; [unfold queued in *; cbn in *; lia|].
    destruct (st_ts s); auto; discriminate.
  - (* pop *) apply SAME.
    + destruct (st_phase s); reflexivity.
    + apply stops_frame. right. eexists; split; [|destruct (st_phase s); reflexivity]. reflexivity.
    + destruct (st_phase s); reflexivity.
    + pose proof (queued_set (st_phase s) rest s) as Q. rewrite H0 in Q. cbn in Q.
      rewrite H. unfold queued in *. destruct (st_phase s); cbn in *; lia.
    + rewrite H in D. cbn. destruct (st_ts s); auto; discriminate.
  - (* empty *) apply SAME; cbn; auto; rewrite H in *; cbn in *.
    + unfold queued; cbn; lia.
    + destruct (st_ts s); auto; discriminate.
  - (* serve *) apply SAME; cbn; auto; try (rewrite H in *; cbn in * ).
    + unfold queued; cbn; lia.
    + destruct (st_ts s); auto; discriminate.
  - (* fin *) destruct (complete_frame r q st true s) as (F1 & F2 & F3 & F4 & F5 & F6 & F7). apply SAME; cbn; auto.
    + unfold stops. cbn. rewrite complete_log. cbn. rewrite stage_not_stop. auto.
    + rewrite F6, H. unfold queued. cbn. rewrite F1, F2. lia.
    + rewrite H in D. destruct (st_ts s); auto; discriminate.
  - (* ready *) apply SAME; cbn; auto; rewrite H in *; cbn in *.
    + unfold queued; cbn; lia.
    + destruct (st_ts s); auto; discriminate.
  - apply SAME; cbn; auto; rewrite H in *; cbn in *.
    + unfold queued; cbn; lia.
    + destruct (st_ts s); auto; discriminate.
  - apply SAME; cbn; auto; rewrite H in *; cbn in *.
    + unfold queued; cbn; lia.
    + destruct (st_ts s); auto; discriminate.
  - apply SAME; cbn; auto; rewrite H in *; cbn in *.
    + unfold queued; cbn; lia.
    + rewrite H0 in *. discriminate.
  - apply SAME; cbn; auto; rewrite H in *; cbn in *.
    + unfold queued; cbn; lia.
    + destruct (st_ts s); auto; discriminate.
  - apply SAME; cbn; auto; rewrite H in *; cbn in *.
    + unfold queued; cbn; lia.
    + destruct (st_ts s); auto; discriminate.
  - apply SAME; cbn; auto; rewrite H in *; cbn in *.
    + unfold queued; cbn; lia.
    + destruct (st_ts s); auto; discriminate.
  - (* terminated *) rewrite H in *. destruct (st_ts s) eqn:TS; try tauto; try discriminate.
    constructor; unfold clients_at, queued, stops in *; cbn in *; auto.
  - (* create *) eapply (tinv_cl s); [exact I|exact H|reflexivity|reflexivity|reflexivity| |reflexivity|].
    + apply stops_frame. cbn. right; eexists; split; [|reflexivity]; reflexivity.
    + unfold queued; cbn; lia.
  - apply SAME; cbn; auto.
  - eapply (tinv_cl s); [exact I|exact H|reflexivity|reflexivity|reflexivity|reflexivity|reflexivity|unfold queued; cbn; lia].
  - eapply (tinv_cl s); [exact I|exact H|reflexivity|reflexivity|reflexivity|reflexivity|reflexivity|unfold queued; cbn; lia].
  - eapply (tinv_cl s); [exact I|exact H|reflexivity|reflexivity|reflexivity|reflexivity|reflexivity|unfold queued; cbn; lia].
  - eapply (tinv_cl s); [exact I|exact H|reflexivity|reflexivity|reflexivity|reflexivity|reflexivity|unfold queued; cbn; lia].
  - (* push *) eapply (tinv_cl s _ c _ (CSignal r) I H).
    + destruct (which k (q_op q)); reflexivity.
    + destruct (which k (q_op q)); reflexivity.
    + destruct (which k (q_op q)); reflexivity.
    + apply stops_frame. right; eexists; split; [|destruct (which k (q_op q)); reflexivity]; reflexivity.
    + reflexivity.
    + pose proof (queued_set (which k (q_op q)) (queue (which k (q_op q)) s ++ [r]) s) as Q.
      rewrite app_length in Q. unfold queued in *. destruct (which k (q_op q)); cbn in *; lia.
  - (* signal *) eapply (tinv_cl s); [exact I|exact H|reflexivity|reflexivity|reflexivity|reflexivity|reflexivity|unfold queued; cbn; lia].
  - eapply (tinv_cl s); [exact I|exact H|reflexivity|reflexivity|reflexivity|reflexivity|reflexivity|unfold queued; cbn; lia].
  - eapply (tinv_cl s); [exact I|exact H|reflexivity|reflexivity|reflexivity|reflexivity|reflexivity|unfold queued; cbn; lia].
  - eapply (tinv_cl s); [exact I|exact H|reflexivity|reflexivity|reflexivity|reflexivity|reflexivity|unfold queued; cbn; lia].
  - eapply (tinv_cl s); [exact I|exact H|reflexivity|reflexivity|reflexivity|reflexivity|reflexivity|unfold queued; cbn; lia].
  - eapply (tinv_cl s); [exact I|exact H|reflexivity|reflexivity|reflexivity|reflexivity|reflexivity|unfold queued; cbn; lia].
  - eapply (tinv_cl s); [exact I|exact H|reflexivity|reflexivity|reflexivity|reflexivity|reflexivity|unfold queued; cbn; lia].
  - (* erase *) eapply (tinv_cl s _ c _ (CTake r rest all acc) I H).
    + destruct (which k (q_op q)); reflexivity.
    + destruct (which k (q_op q)); reflexivity.
    + destruct (which k (q_op q)); reflexivity.
    + apply stops_frame. right; eexists; split; [|destruct (which k (q_op q)); reflexivity]; reflexivity.
    + reflexivity.
    + pose proof (queued_set (which k (q_op q)) (l1 ++ l2) s) as Q. rewrite H1 in Q.
      rewrite !app_length in Q. cbn in Q. unfold queued in *. destruct (which k (q_op q)); cbn in *; lia.
  - eapply (tinv_cl s); [exact I|exact H|reflexivity|reflexivity|reflexivity|reflexivity|reflexivity|unfold queued; cbn; lia].
  - (* take *) eapply (tinv_cl s); [exact I|exact H|reflexivity|reflexivity|reflexivity|reflexivity|reflexivity|unfold queued; cbn; lia].
  - (* fin *) destruct (complete_frame r q st false s) as (F1 & F2 & F3 & F4 & F5 & F6 & F7).
    eapply (tinv_cl s _ c _ (CFin r st' rest all acc) I H); cbn; auto.
    + rewrite F4; auto.
    + unfold stops. cbn. rewrite complete_log. cbn. rewrite stage_not_stop. auto.
    + rewrite F6. unfold queued. cbn. rewrite F1, F2. lia.
  - eapply (tinv_cl s); [exact I|exact H|reflexivity|reflexivity|reflexivity|reflexivity|reflexivity|unfold queued; cbn; lia].
  - eapply (tinv_cl s); [exact I|exact H|reflexivity|reflexivity|reflexivity|reflexivity|reflexivity|unfold queued; cbn; lia].
  - eapply (tinv_cl s); [exact I|exact H|reflexivity|reflexivity|reflexivity|reflexivity|reflexivity|unfold queued; cbn; lia].
  - eapply (tinv_cl s); [exact I|exact H|reflexivity|reflexivity|reflexivity|reflexivity|reflexivity|unfold queued; cbn; lia].
  - eapply (tinv_cl s); [exact I|exact H|reflexivity|reflexivity|reflexivity|reflexivity|reflexivity|unfold queued; cbn; lia].
  - eapply (tinv_cl s); [exact I|exact H|reflexivity|reflexivity|reflexivity|reflexivity|reflexivity|unfold queued; cbn; lia].
  - eapply (tinv_cl s); [exact I|exact H|reflexivity|reflexivity|reflexivity|reflexivity|reflexivity|unfold queued; cbn; lia].
  - eapply (tinv_cl s); [exact I|exact H|reflexivity|reflexivity|reflexivity|reflexivity|reflexivity|unfold queued; cbn; lia].
  - eapply (tinv_cl s); [exact I|exact H|reflexivity|reflexivity|reflexivity|reflexivity|reflexivity|unfold queued; cbn; lia].
  - eapply (tinv_cl s); [exact I|exact H|reflexivity|reflexivity|reflexivity|reflexivity|reflexivity|unfold queued; cbn; lia].
  - eapply (tinv_cl s); [exact I|exact H|reflexivity|reflexivity|reflexivity|reflexivity|reflexivity|unfold queued; cbn; lia].
  - eapply (tinv_cl s); [exact I|exact H|reflexivity|reflexivity|reflexivity|reflexivity|reflexivity|unfold queued; cbn; lia].
  - eapply (tinv_cl s); [exact I|exact H|reflexivity|reflexivity|reflexivity|reflexivity|reflexivity|unfold queued; cbn; lia].
  - eapply (tinv_cl s); [exact I|exact H|reflexivity|reflexivity|reflexivity|reflexivity|reflexivity|unfold queued; cbn; lia].
  - eapply (tinv_cl s); [exact I|exact H|reflexivity|reflexivity|reflexivity|reflexivity|reflexivity|unfold queued; cbn; lia].
  - eapply (tinv_cl s); [exact I|exact H|reflexivity|reflexivity|reflexivity|reflexivity|reflexivity|unfold queued; cbn; lia].
  - eapply (tinv_cl s); [exact I|exact H|reflexivity|reflexivity|reflexivity|reflexivity|reflexivity|unfold queued; cbn; lia].
  - (* stop0 *) cnt H s c CStop1. rewrite H0 in *. cbn in *.
    constructor; unfold clients_at, queued, stops in *; cbn in *; try lia.
    destruct (st_wpc s); try tauto; discriminate.
  - (* stop1 *) cnt H s c CStop2. cbn in *.
    constructor; unfold clients_at, queued, stops in *; cbn in *; try lia; auto.
  - (* stop2 *) cnt H s c CIdle. rewrite H0 in *. cbn in *.
    constructor; unfold clients_at, queued, stops in *; cbn in *; rewrite ?H0; cbn in *; auto; try lia.
    destruct (st_ts s); cbn in *; try tauto; lia.
Qed.

Lemma tinv_reachable : forall k n s, qreachable k n s -> tinv s.
Proof. intros k n s H. eapply steps_ind_inv; eauto using tinv_init. apply tinv_step. Qed.
