(** Properties C27 and C28: the kernel AIO queue. *)

From Coq Require Import List Arith Bool Lia Permutation.
From Verif Require Import LioModel LioSpec LioProofs LioProofs2.
Import ListNotations.

Lemma cnt_occ i l : cnt i l = count_occ Nat.eq_dec l i.
Proof.
  induction l as [|x l IH]; cbn; [reflexivity|].
  destruct (Nat.eqb_spec i x), (Nat.eq_dec x i); try congruence; lia.
Qed.

Lemma cnt_perm a b : (forall i, cnt i a = cnt i b) -> Permutation a b.
Proof.
  intros H. apply (Permutation_count_occ Nat.eq_dec). intros i. rewrite <- !cnt_occ. apply H.
Qed.

(** *** C27 *)

(** The requests in the kernel together with the free events never exceed the
    limit, whatever io_submit accepts. *)
Theorem C27_limit : forall max ps s, reach max false ps s ->
  length (in_kernel s) + fr s <= max.
Proof.
  intros max ps s R. destruct (inv_reach _ _ _ R). unfold in_kernel. rewrite app_length. lia.
Qed.
Print Assumptions C27_limit.

(** Every request is submitted at most once, received from the kernel at most
    once and only after it was submitted; its handler is called at most once,
    and it is called uncanceled only if the event was received. *)
Theorem C27_once : forall max ps s, reach max false ps s ->
  NoDup (submitted s) /\ incl (submitted s) (added s) /\
  Permutation (submitted s) (in_kernel s ++ reaped s) /\
  NoDup (map fst (handled s)) /\ incl (map fst (handled s)) (added s) /\
  (forall i, In (i, false) (handled s) -> In i (reaped s)) /\
  (forall i, In (i, true) (handled s) -> ~ In i (submitted s)) /\
  crashed s = false.
Proof.
  intros max ps s R. destruct (inv_reach _ _ _ R) as [If Ip Iw Il Iok Ipl Ia Io Is Ir Ih Ic].
  assert (Le : forall i, cnt i (map fst (filter (fun x => negb (snd x)) (handled s)))
                         + cnt i (map fst (filter snd (handled s))) = cnt i (ccalls s)).
  { intros i. rewrite <- Ih. clear. induction (handled s) as [|(j, b) l IH]; [reflexivity|].
    destruct b; cbn in *; lia. }
  assert (Sub : forall i, cnt i (submitted s) <= cnt i (added s)).
  { intros i. sp i. lia. }
  split; [|split; [|split; [|split; [|split; [|split; [|split]]]]]].
  - apply cnt_NoDup. intros i. specialize (Sub i). specialize (Io i). lia.
  - intros i Hi. apply cnt_In in Hi. apply cnt_In. specialize (Sub i). lia.
  - apply cnt_perm. intros i. unfold in_kernel. rewrite !cnt_app. apply Is.
  - rewrite Ih. apply cnt_NoDup. intros i. sp i. lia.
  - rewrite Ih. intros i Hi. apply cnt_In in Hi. apply cnt_In. sp i. lia.
  - intros i Hi. apply cnt_In. rewrite Ir.
    enough (1 <= cnt i (map fst (filter (fun x => negb (snd x)) (handled s)))) by lia.
    apply cnt_In. apply in_map_iff. exists (i, false). split; [reflexivity|].
    apply filter_In. auto.
  - intros i Hi Hs. apply cnt_In in Hs.
    assert (1 <= cnt i (map fst (filter snd (handled s)))).
    { apply cnt_In. apply in_map_iff. exists (i, true). split; [reflexivity|]. apply filter_In. auto. }
    sp i. lia.
  - assumption.
Qed.
Print Assumptions C27_once.

(** When no thread is inside of a function, the three counters are the numbers
    of waiting requests, of requests in the kernel, and of free events; what
    was received from the kernel has been handled, and everything is waiting,
    in the kernel or handled. *)
Theorem C27_counters_at_rest : forall max ps s, reach max false ps s -> at_rest s ->
  wt s = length (waiting s) /\ po s = length (in_kernel s) /\
  fr s + length (in_kernel s) = max /\
  Permutation (reaped s) (map fst (filter (fun x => negb (snd x)) (handled s))) /\
  Permutation (added s) (waiting s ++ in_kernel s ++ map fst (handled s)).
Proof.
  intros max ps s R (E1 & E2 & E3 & E4).
  destruct (inv_reach _ _ _ R) as [If Ip Iw Il Iok Ipl Ia Io Is Ir Ih Ic].
  unfold in_kernel. rewrite E1, E2, ?E3, ?E4 in *. pcs. rewrite app_length.
  repeat match goal with |- _ /\ _ => split end; try lia.
  - apply cnt_perm. intros i. sp i. lia.
  - apply cnt_perm. intros i. rewrite !cnt_app, Ih. sp i. lia.
Qed.
Print Assumptions C27_counters_at_rest.

(** The same at every moment, for a request: it is in one place. *)
Theorem C27_accounted : forall max ps s i, reach max false ps s ->
  In i (added s) ->
  In i (waiting s) \/ In (C_compl i) (cancelers s) \/ In i (p_reqs (poster s)) \/
  In i (in_kernel s) \/ In i (p_rem (poster s)) \/ In i (w_rem (waiter s)) \/ was_handled s i.
Proof.
  intros max ps s i R Hi.
  destruct (inv_reach _ _ _ R) as [If Ip Iw Il Iok Ipl Ia Io Is Ir Ih Ic].
  specialize (Ia i). apply cnt_In in Hi. unfold in_kernel.
  destruct (Nat.eq_dec (cnt i (waiting s)) 0); [|left; apply cnt_In; lia]. right.
  destruct (Nat.eq_dec (cnt i (flat_map c_rem (cancelers s))) 0) as [|H].
  2:{ left. assert (K : In i (flat_map c_rem (cancelers s))) by (apply cnt_In; lia).
      apply in_flat_map in K. destruct K as (c & Hc & K). destruct c; cbn in K; try contradiction.
      destruct K as [->|[]]. exact Hc. }
  right.
  destruct (Nat.eq_dec (cnt i (p_reqs (poster s))) 0); [|left; apply cnt_In; lia]. right.
  destruct (Nat.eq_dec (cnt i (infl s ++ dn s)) 0) as [K|]; [|left; apply cnt_In; lia]. right.
  rewrite cnt_app in K.
  destruct (Nat.eq_dec (cnt i (p_rem (poster s))) 0); [|left; apply cnt_In; lia]. right.
  destruct (Nat.eq_dec (cnt i (w_rem (waiter s))) 0); [|left; apply cnt_In; lia]. right.
  assert (M : In i (ccalls s)) by (apply cnt_In; lia).
  rewrite <- Ih in M. apply in_map_iff in M. destruct M as ((j, b) & <- & M). exists b. exact M.
Qed.
Print Assumptions C27_accounted.

(** If io_submit accepts everything, all requests can be handled from every
    reachable state without any further call of a client. *)
Theorem C27_can_always_finish : forall max s, 1 <= max -> reach max false false s ->
  exists s', star (inner_step max false false) s s' /\ all_handled s' /\ added s' = added s.
Proof.
  intros max s Hm R. destruct (can_finish max s Hm R) as (s' & St & A).
  exists s'. split; [exact St|]. split; [exact A|].
  clear - St. induction St as [|x y z H _ IH]; [reflexivity|].
  destruct H as (_ & E & _). congruence.
Qed.
Print Assumptions C27_can_always_finish.

(** If io_submit may accept less than it was given, the two threads can block
    each other for ever: request 2 is never handled, whatever happens later. *)
Theorem C27_partial_submit_deadlock_refuted : forall max, 2 <= max ->
  exists s, reach max false true s /\ In 2 (added s) /\
    forall s', star (step max false true) s s' ->
      ~ was_handled s' 2 /\ ~ In 2 (submitted s').
Proof.
  intros max Hm. destruct max as [|[|m]]; try lia.
  destruct (reach_dead m) as (s & R & D & A). exists s. split; [exact R|]. split; [exact A|].
  intros s' St. destruct (dead_forever _ _ _ _ R D s' St) as (R' & D').
  pose proof (inv_reach _ _ _ R') as I. split.
  - eapply dead_unhandled; [exact I|exact D'|left; reflexivity].
  - intros K. apply cnt_In in K. destruct I as [_ _ _ _ _ _ Ia Io Is Ir Ih _].
    destruct D' as (Dp & _). rewrite Dp in *. pcs. sp 2. cbn in Ia.
    assert (cnt 2 (map fst (filter (fun x => negb (snd x)) (handled s'))) <= cnt 2 (ccalls s')).
    { rewrite <- Ih. clear. induction (handled s') as [|(j, b) l IH]; [reflexivity|].
      destruct b; cbn in *; lia. }
    lia.
Qed.
Print Assumptions C27_partial_submit_deadlock_refuted.

(** The default length of the queue. *)
Theorem C27_default_limit : forall d, 1 <= queue_limit d /\ (1 <= d -> queue_limit d = d).
Proof.
  intros d. unfold queue_limit. destruct (Nat.eqb_spec d 0); lia.
Qed.
Print Assumptions C27_default_limit.

(** Two requests with a limit of one: the second one waits until the event of
    the first one was received. *)
Example C27_case : exists s1 s2,
  reach 1 false false s1 /\ in_kernel s1 = [1] /\ fr s1 = 0 /\ poster s1 = P_free [2] /\
  reach 1 false false s2 /\ handled s2 = [(2, false); (1, false)] /\ at_rest s2 /\ fr s2 = 1.
Proof.
  pose proof (R_init 1 false false) as R. unfold init in R.
  fwd R (S_add _ _ _ _ 1).
  fwd R (S_add _ _ _ _ 2).
  fwd R S_add_signal.
  fwd R S_add_signal.
  fwd R S_p_wait.
  fwd R S_p_first.
  fwd_ R ltac:(eapply S_p_stop; [| |right]).
  fwd R S_p_last.
  fwd R (S_p_submit _ _ _ _ [1] []).
  fwd R S_p_signal.
  fwd R S_p_wait.
  fwd R S_p_first.
  fwd R S_p_stop.
  eexists. eexists. split; [exact R|]. do 3 (split; [reflexivity|]).
  fwd R S_w_wait.
  fwd R (S_kernel _ _ _ _ [] 1 []).
  fwd R S_w_get.
  fwd R S_w_compensate.
  fwdh R S_w_handle HS_free.
  fwdh R S_w_handle HS_comp.
  fwdh R S_w_handle HS_end.
  fwdh R S_w_handle HS_wait.
  fwd R S_p_last.
  fwd R (S_p_submit _ _ _ _ [2] []).
  fwd R S_p_signal.
  fwd R S_w_wait.
  fwd R (S_kernel _ _ _ _ [] 2 []).
  fwd R S_w_get.
  fwd R S_w_compensate.
  fwdh R S_w_handle HS_free.
  fwdh R S_w_handle HS_comp.
  fwdh R S_w_handle HS_end.
  fwdh R S_w_handle HS_wait.
  split; [exact R|]. split; [reflexivity|]. split; [repeat split|reflexivity].
Qed.

(** *** C28 *)

(** When the kernel cancels a posted request, handle_events completes it before
    cancel_request does: there completed() is called for a request whose
    completion has already been run. *)
Theorem C28_completed_before : forall max pc ps s i, reach max pc ps s ->
  In (K_free i) (cancelers s) \/ In (K_compl i) (cancelers s) -> In i (ccalls s).
Proof.
  intros max pc ps s i R H. destruct (kinv_reach _ _ _ _ R) as (F & _).
  rewrite Forall_forall in F. destruct H as [H|H]; exact (F _ H).
Qed.
Print Assumptions C28_completed_before.

(** So a call of cancel_request that gets past its second call of completed()
    has dereferenced the null pointer that the first call has left, and has
    called completed() twice: cancelling a posted request never succeeds. *)
Theorem C28_second_call_crashes : forall max pc ps s i, reach max pc ps s ->
  In (K_wait i) (cancelers s) ->
  crashed s = true /\ 2 <= count_occ Nat.eq_dec (ccalls s) i.
Proof.
  intros max pc ps s i R H. destruct (kinv_reach _ _ _ _ R) as (F & _).
  rewrite Forall_forall in F. specialize (F _ H). rewrite <- cnt_occ. exact F.
Qed.
Print Assumptions C28_second_call_crashes.

(** Every execution in which the client that cancels gets its turn twice after
    handle_events crashes. *)
Theorem C28_cancel_crashes : forall max pc ps s i, reach max pc ps s -> crashed s = false ->
  In (K_free i) (cancelers s) ->
  exists s1 s2, step max pc ps s s1 /\ step max pc ps s1 s2 /\ crashed s2 = true.
Proof.
  intros max pc ps s i R C H.
  pose proof (C28_completed_before _ _ _ _ _ R (or_introl H)) as K.
  apply in_split in H. destruct H as (x & y & E).
  eexists. eexists. split; [eapply S_k_free; eassumption|]. split.
  - eapply S_k_complete; [exact C|reflexivity].
  - unfold set_cancelers; cbn [crashed]. apply complete_again. exact K.
Qed.
Print Assumptions C28_cancel_crashes.

(** The handler runs at most once in every execution. *)
Theorem C28_handler_once : forall max pc ps s, reach max pc ps s -> NoDup (map fst (handled s)).
Proof. intros max pc ps s R. apply (kinv_reach _ _ _ _ R). Qed.
Print Assumptions C28_handler_once.

(** A crash can be reached. *)
Theorem C28_crash_reachable : forall max, 1 <= max ->
  exists s, reach max true false s /\ crashed s = true /\ handled s = [(1, true)].
Proof.
  intros max Hm. destruct max as [|m]; [lia|].
  pose proof (R_init (S m) true false) as R. unfold init in R.
  fwd R (S_add _ _ _ _ 1).
  fwd R S_add_signal.
  fwd R S_p_wait.
  fwd R S_p_first.
  fwd R S_p_stop.
  fwd R S_p_last.
  fwd R (S_p_submit _ _ _ _ [1] []).
  fwd R S_p_signal.
  fwd R (S_k_cancel _ _ _ _ [] 1 []).
  fwdh R (S_k_handle _ _ _ _ [] _ _ []) HS_free.
  fwdh R (S_k_handle _ _ _ _ [] _ _ []) HS_comp.
  fwdh R (S_k_handle _ _ _ _ [] _ _ []) HS_end.
  fwdh R (S_k_handled _ _ _ _ [] _ _ []) HS_wait.
  fwd R (S_k_free _ _ _ _ [] _ []).
  fwd R (S_k_complete _ _ _ _ [] _ []).
  eexists. split; [exact R|]. split; reflexivity.
Qed.
Print Assumptions C28_crash_reachable.

(** The waiting thread may have taken the token of the request before: then
    cancel_request waits for it with the lock held, and nothing moves any
    more, although no thread has crashed. *)
Theorem C28_blocks_with_lock_refuted : forall max, 1 <= max ->
  exists s, reach max true false s /\ crashed s = false /\ lock s = true /\
    (exists h, In (K_han 1 h) (cancelers s)) /\ forall s', ~ step max true false s s'.
Proof.
  intros max Hm. destruct max as [|m]; [lia|].
  pose proof (R_init (S m) true false) as R. unfold init in R.
  fwd R (S_add _ _ _ _ 1).
  fwd R S_add_signal.
  fwd R S_p_wait.
  fwd R S_p_first.
  fwd R S_p_stop.
  fwd R S_p_last.
  fwd R (S_p_submit _ _ _ _ [1] []).
  fwd R S_p_signal.
  fwd R S_w_wait.
  fwd R (S_k_cancel _ _ _ _ [] 1 []).
  fwdh R (S_k_handle _ _ _ _ [] _ _ []) HS_free.
  fwdh R (S_k_handle _ _ _ _ [] _ _ []) HS_comp.
  fwdh R (S_k_handle _ _ _ _ [] _ _ []) HS_end.
  eexists. split; [exact R|]. split; [reflexivity|]. split; [reflexivity|].
  split; [eexists; left; reflexivity|].
  intros s' H. inversion H; subst; cbn in *; try discriminate;
    repeat match goal with
    | E : [_] = ?x ++ _ :: _ |- _ => destruct x as [|? [|]]; try discriminate E; injection E as ? ?
    | E : [] = ?x ++ _ :: _ |- _ => destruct x; discriminate E
    | T : take [] _ _ |- _ => inversion T; subst; cbn in *; lia
    end; subst;
    match goal with E : hstep _ _ _ _ _ |- _ => inversion E; subst; cbn in *; lia end.
Qed.
Print Assumptions C28_blocks_with_lock_refuted.

(** A free event is released twice: with a limit of one, two requests get into
    the kernel. *)
Theorem C28_limit_refuted : exists s, reach 1 true false s /\ crashed s = false /\
  length (in_kernel s) = 2.
Proof.
  pose proof (R_init 1 true false) as R. unfold init in R.
  fwd R (S_add _ _ _ _ 1).
  fwd R S_add_signal.
  fwd R S_p_wait.
  fwd R S_p_first.
  fwd R S_p_stop.
  fwd R S_p_last.
  fwd R (S_p_submit _ _ _ _ [1] []).
  fwd R S_p_signal.
  fwd R (S_k_cancel _ _ _ _ [] 1 []).
  fwdh R (S_k_handle _ _ _ _ [] _ _ []) HS_free.
  fwdh R (S_k_handle _ _ _ _ [] _ _ []) HS_comp.
  fwdh R (S_k_handle _ _ _ _ [] _ _ []) HS_end.
  fwdh R (S_k_handled _ _ _ _ [] _ _ []) HS_wait.
  fwd R (S_k_free _ _ _ _ [] _ []).
  fwd R (S_add _ _ _ _ 2).
  fwd R S_add_signal.
  fwd R (S_add _ _ _ _ 3).
  fwd R S_add_signal.
  fwd R S_p_wait.
  fwd R S_p_first.
  fwd R S_p_acquire.
  fwd R S_p_more.
  fwd R S_p_stop.
  fwd R S_p_last.
  fwd R (S_p_submit _ _ _ _ [2; 3] []).
  eexists. split; [exact R|]. split; reflexivity.
Qed.
Print Assumptions C28_limit_refuted.

(** A cancellation of a request that is still waiting is harmless. *)
Example C28_case : exists s, reach 1 true false s /\ crashed s = false /\
  handled s = [(1, true)] /\ at_rest s /\ wt s = 0.
Proof.
  pose proof (R_init 1 true false) as R. unfold init in R.
  fwd R (S_add _ _ _ _ 1).
  fwd R S_add_signal.
  fwd R (S_c_erase _ _ _ _ [] 1 []).
  fwd R (S_c_complete _ _ _ _ [] _ []).
  fwd R (S_c_wait _ _ _ _ [] _ []).
  eexists. split; [exact R|]. repeat split.
Qed.
