(** Running the queue machine on concrete schedules: an executable version of
    the step relation, with a proof that it only takes steps of the relation.
    Used for the example cases and counterexamples only. *)
From Coq Require Import List Bool PeanoNat Lia.
From Verif Require Import QueueModel QueueProofs QueueLife.
Import ListNotations.

Inductive move :=
| W (ok : bool)              (* the worker moves; ok: outcome of a transfer *)
| C (c : nat) (spur : bool)  (* client c continues; spur: spurious wakeup allowed *)
| Add (c : nat) (op : rw) (h : bool)
| Cancel (c : nat) (rs : list nat)
| WaitAll (c : nat) (rs : list nat)
| WaitAny (c : nat) (rs : list nat)
| Stop (c : nat).

Definition is_run (t : tstate) : bool := match t with RUNNING => true | _ => false end.
Definition is_term (t : tstate) : bool := match t with TERMINATING => true | _ => false end.

Fixpoint split_at (r : nat) (l : list nat) : option (list nat * list nat) :=
  match l with
  | [] => None
  | x :: l' => if Nat.eqb r x then Some ([], l')
               else match split_at r l' with Some (a, b) => Some (x :: a, b) | None => None end
  end.

Definition exec_w (k : kind) (ok : bool) (s : state) : option state :=
  match st_wpc s with
  | WWait => if Nat.ltb 0 (st_sem s) then Some (set_wpc WLock (set_sem (st_sem s - 1) s)) else None
  | WLock => match queue (st_phase s) s with
             | r :: rest => Some (emit (EPop r) (set_phase (next_phase k (st_phase s) true)
                (set_wpc (WServe r) (set_queue (st_phase s) rest s))))
             | [] => Some (set_phase (next_phase k (st_phase s) false) (set_wpc WSignal s))
             end
  | WServe r => match nth_error (st_reqs s) r with
                | Some q => Some (emit (EServe r ok) (set_wpc (WFin r SDone) (set_req r (set_err (negb ok) q) s)))
                | None => None
                end
  | WFin r st => match nth_error (st_reqs s) r with
                 | Some q => Some (set_wpc (match next_stage st with Some st' => WFin r st' | None => WCheck end)
                                     (complete_step r q st true s))
                 | None => None
                 end
  | WSignal => Some (set_wpc WCheck (set_sem (S (st_sem s)) s))
  | WCheck => Some (set_wpc (if is_term (st_ts s) then WTermWait else WWait) s)
  | WTermWait => match st_sem s with
                 | 0 => None
                 | 1 => Some (emit EBreak (set_wpc WTermSet (set_sem 0 s)))
                 | _ => Some (set_wpc WTermSignal (set_sem (st_sem s - 1) s))
                 end
  | WTermSignal => Some (set_wpc WWait (set_sem (S (st_sem s)) s))
  | WTermSet => Some (emit ETerminated (set_wpc WStopped (set_ts TERMINATED s)))
  | WStopped => None
  end.

Definition with_req (s : state) (r : nat) (f : req -> option state) : option state :=
  match nth_error (st_reqs s) r with Some q => f q | None => None end.

Definition exec_c (k : kind) (c : nat) (spur : bool) (s : state) : option state :=
  match nth_error (st_clients s) c with
  | Some (CPush r) => with_req s r (fun q =>
      Some (emit (EPush r) (set_client c (CSignal r)
        (set_queue (which k (q_op q)) (queue (which k (q_op q)) s ++ [r]) s))))
  | Some (CSignal r) => Some (set_client c CIdle (set_sem (S (st_sem s)) s))
  | Some (CCancel [] all acc) => Some (emit (ECancelRet c all acc (count_true acc)) (set_client c CIdle s))
  | Some (CCancel (r :: rest) all acc) => with_req s r (fun q =>
      if q_file q then Some (set_client c (CDeref r rest all acc) s)
      else Some (set_client c (CCancel rest all (acc ++ [false])) s))
  | Some (CDeref r rest all acc) => with_req s r (fun q =>
      if q_file q then
        if is_run (st_ts s) then Some (set_client c (CErase r rest all acc) s)
        else Some (emit (EReject c) (set_client c CIdle s))
      else Some (emit (ENullDeref c) (set_client c CCrash s)))
  | Some (CErase r rest all acc) => with_req s r (fun q =>
      match split_at r (queue (which k (q_op q)) s) with
      | Some (l1, l2) => Some (emit (EErase c r) (set_client c (CTake r rest all acc)
                  (set_queue (which k (q_op q)) (l1 ++ l2) s)))
      | None => Some (set_client c (CCancel rest all (acc ++ [false])) s)
      end)
  | Some (CTake r rest all acc) =>
      if Nat.ltb 0 (st_sem s)
      then Some (emit (ETook c r) (set_client c (CFin r SDone rest all acc) (set_sem (st_sem s - 1) s)))
      else None
  | Some (CFin r st rest all acc) => with_req s r (fun q =>
      Some (set_client c (match next_stage st with Some st' => CFin r st' rest all acc
                          | None => CCancel rest all (acc ++ [true]) end)
              (complete_step r q st false s)))
  | Some (CWait [] all) => Some (emit (EWaitRet c all) (set_client c CIdle s))
  | Some (CWait (r :: rest) all) => with_req s r (fun q =>
      match q_state q with
      | READY2DIE => if q_err q then Some (emit (EWaitThrow c all r) (set_client c CIdle s))
                     else Some (set_client c (CWait rest all) s)
      | _ => None
      end)
  | Some (CAnyAdd done [] sw) => Some (set_client c (CAnyWait done sw) s)
  | Some (CAnyAdd done (r :: todo) sw) => with_req s r (fun q =>
      if q_err q then Some (emit (EAnyThrow c (done ++ r :: todo) r)
                  (set_sws (upd sw SwDead (st_sws s)) (set_client c CIdle s)))
      else if finished q then Some (set_client c (CAnyUndo done (done ++ r :: todo) r sw) s)
      else Some (set_client c (CAnyAdd (done ++ [r]) todo sw)
                  (set_req r (set_waiters (insert_waiter sw (q_waiters q)) q) s)))
  | Some (CAnyUndo del all res sw) =>
      match rev del with
      | [] => with_req s res (fun q =>
          if q_err q then Some (emit (EAnyThrow c all res)
                  (set_sws (upd sw SwDead (st_sws s)) (set_client c CIdle s)))
          else Some (emit (EAnyRet c all (Some res) false)
                  (set_sws (upd sw SwDead (st_sws s)) (set_client c CIdle s))))
      | r :: rdel => with_req s r (fun q =>
          Some (set_client c (CAnyUndo (rev rdel) all res sw)
                  (set_req r (set_waiters (erase_waiter sw (q_waiters q)) q) s)))
      end
  | Some (CAnyWait all sw) =>
      match nth_error (st_sws s) sw with
      | Some SwOn => Some (set_client c (CAnyScan all all None sw false) s)
      | Some SwOff => if spur then Some (set_client c (CAnyScan all all None sw true) s) else None
      | _ => None
      end
  | Some (CAnyScan (r :: todo) all (Some res) sw sp) => with_req s r (fun q =>
      Some (set_client c (CAnyScan todo all (Some res) sw sp)
                  (set_req r (set_waiters (erase_waiter sw (q_waiters q)) q) s)))
  | Some (CAnyScan (r :: todo) all None sw sp) => with_req s r (fun q =>
      if q_err q then Some (emit (EAnyThrow c all r) (set_sws (upd sw SwDead (st_sws s)) (set_client c CIdle
                  (set_req r (set_waiters (erase_waiter sw (q_waiters q)) q) s))))
      else Some (set_client c (CAnyScan todo all (if finished q then Some r else None) sw sp)
                  (set_req r (set_waiters (erase_waiter sw (q_waiters q)) q) s)))
  | Some (CAnyScan [] all res sw sp) =>
      Some (emit (EAnyRet c all res sp) (set_sws (upd sw SwDead (st_sws s)) (set_client c CIdle s)))
  | Some CStop0 => if is_run (st_ts s) then Some (emit ETerminate (set_client c CStop1 (set_ts TERMINATING s))) else None
  | Some CStop1 => Some (emit EStopSignal (set_client c CStop2 (set_sem (S (st_sem s)) s)))
  | Some CStop2 => match st_wpc s with
                   | WStopped => Some (set_client c CIdle (set_ts NOT_RUNNING s))
                   | _ => None
                   end
  | _ => None
  end.

Definition knownb (s : state) (r : nat) : bool :=
  Nat.ltb r (length (st_reqs s)) &&
  forallb (fun p => match p with CPush r' => negb (Nat.eqb r r') | _ => true end) (st_clients s).

Definition idle (s : state) (c : nat) : bool :=
  match nth_error (st_clients s) c with Some CIdle => true | _ => false end.

Definition exec (k : kind) (m : move) (s : state) : option state :=
  match m with
  | W ok => exec_w k ok s
  | C c spur => exec_c k c spur s
  | Add c op h =>
      if idle s c then
        if is_run (st_ts s) then
          Some (emit (ECreate c (length (st_reqs s)))
                    (set_client c (CPush (length (st_reqs s))) (add_req (new_req op h) s)))
        else Some (emit (EReject c) s)
      else None
  | Cancel c rs => if idle s c && forallb (knownb s) rs then Some (set_client c (CCancel rs rs []) s) else None
  | WaitAll c rs => if idle s c && forallb (knownb s) rs then Some (set_client c (CWait rs rs) s) else None
  | WaitAny c rs => if idle s c && forallb (knownb s) rs then
      Some (set_sws (st_sws s ++ [SwOff]) (set_client c (CAnyAdd [] rs (length (st_sws s))) s)) else None
  | Stop c => if idle s c && is_run (st_ts s) then Some (set_client c CStop0 s) else None
  end.

Fixpoint run (k : kind) (ms : list move) (s : state) : option state :=
  match ms with
  | [] => Some s
  | m :: ms' => match exec k m s with Some s' => run k ms' s' | None => None end
  end.

Lemma split_at_ok : forall r l l1 l2, split_at r l = Some (l1, l2) -> l = l1 ++ r :: l2 /\ ~ In r l1.
Proof.
  induction l as [|x l IH]; cbn; intros l1 l2 H; [discriminate|].
  destruct (Nat.eqb_spec r x).
  - injection H as <- <-. subst. auto.
  - destruct (split_at r l) as [[a b]|] eqn:E; [|discriminate]. injection H as <- <-.
    destruct (IH _ _ eq_refl) as (-> & N). split; auto. cbn. intuition.
Qed.

Lemma split_at_none : forall r l, split_at r l = None -> ~ In r l.
Proof.
  induction l as [|x l IH]; cbn; intros H; auto.
  destruct (Nat.eqb_spec r x); [discriminate|].
  destruct (split_at r l) as [[a b]|]; [discriminate|]. intuition.
Qed.

Lemma idle_ok : forall s c, idle s c = true -> nth_error (st_clients s) c = Some CIdle.
Proof. unfold idle. intros s c H. destruct (nth_error (st_clients s) c) as [[]|]; try discriminate; auto. Qed.

Lemma known_ok : forall s rs, forallb (knownb s) rs = true -> forall r, In r rs -> known s r.
Proof.
  intros s rs H r I. rewrite forallb_forall in H. apply H in I. unfold knownb in I.
  apply andb_true_iff in I. destruct I as (A & B). apply Nat.ltb_lt in A. split; auto.
  intros c X. apply nth_error_In in X. rewrite forallb_forall in B. apply B in X.
  rewrite Nat.eqb_refl in X. discriminate.
Qed.

Lemma is_run_ok : forall t, is_run t = true -> t = RUNNING.
Proof. destruct t; cbn; congruence. Qed.
Lemma not_run_ok : forall t, is_run t = false -> t <> RUNNING.
Proof. destruct t; cbn; congruence. Qed.

Lemma exec_w_ok : forall k ok s s', exec_w k ok s = Some s' -> wstep k s s'.
Proof.
  intros k ok s s' H. unfold exec_w in H. destruct (st_wpc s) eqn:E.
  - destruct (Nat.ltb_spec 0 (st_sem s)); [|discriminate]. injection H as <-. apply w_wait; auto.
  - destruct (queue (st_phase s) s) eqn:Q; injection H as <-; [apply w_empty | apply w_pop]; auto.
  - destruct (nth_error (st_reqs s) r) eqn:Q; [|discriminate]. injection H as <-. apply w_serve; auto.
  - destruct (nth_error (st_reqs s) r) eqn:Q; [|discriminate]. injection H as <-.
    destruct (next_stage s0) eqn:N.
    + eapply w_fin; eauto.
    + destruct s0; try discriminate. apply w_ready; auto.
  - injection H as <-. apply w_signal; auto.
  - injection H as <-. destruct (st_ts s) eqn:T; cbn; try (apply w_check_run; congruence); apply w_check_term; auto.
  - destruct (st_sem s) as [|[|n]] eqn:Z; [discriminate| |]; injection H as <-.
    + apply w_term_break; auto.
    + pose proof (w_term_more k s E) as X. rewrite Z in X. apply X. lia.
  - injection H as <-. apply w_term_signal; auto.
  - injection H as <-. apply w_term_set; auto.
  - discriminate.
Qed.

Lemma exec_c_ok : forall k c spur s s', exec_c k c spur s = Some s' -> cstep k c s s'.
Proof.
  intros k c spur s s' H. unfold exec_c, with_req in H.
  destruct (nth_error (st_clients s) c) as [pc|] eqn:E; [|discriminate].
  destruct pc; try discriminate.
  - destruct (nth_error (st_reqs s) r) eqn:Q; [|discriminate]. injection H as <-. apply c_push; auto.
  - injection H as <-. eapply c_signal; eauto.
  - destruct rest as [|r rest].
    + injection H as <-. apply c_cancel_ret; auto.
    + destruct (nth_error (st_reqs s) r) eqn:Q; [|discriminate].
      destruct (q_file r0) eqn:F; injection H as <-; [eapply c_cancel_file | eapply c_cancel_nofile]; eauto.
  - destruct (nth_error (st_reqs s) r) eqn:Q; [|discriminate].
    destruct (q_file r0) eqn:F; [destruct (is_run (st_ts s)) eqn:R|]; injection H as <-.
    + eapply c_deref_ok; eauto. apply is_run_ok; auto.
    + eapply c_deref_reject; eauto. apply not_run_ok; auto.
    + eapply c_deref_null; eauto.
  - destruct (nth_error (st_reqs s) r) eqn:Q; [|discriminate].
    destruct (split_at r (queue (which k (q_op r0)) s)) as [[l1 l2]|] eqn:SP; injection H as <-.
    + apply split_at_ok in SP. destruct SP. eapply c_erase_found; eauto.
    + apply split_at_none in SP. eapply c_erase_missing; eauto.
  - destruct (Nat.ltb_spec 0 (st_sem s)); [|discriminate]. injection H as <-. apply c_take; auto.
  - destruct (nth_error (st_reqs s) r) eqn:Q; [|discriminate]. injection H as <-.
    destruct (next_stage s0) eqn:N.
    + eapply c_fin; eauto.
    + destruct s0; try discriminate. eapply c_ready; eauto.
  - destruct rest as [|r rest].
    + injection H as <-. apply c_wait_ret; auto.
    + destruct (nth_error (st_reqs s) r) eqn:Q; [|discriminate]. destruct (q_state r0) eqn:ST; try discriminate.
      destruct (q_err r0) eqn:ER; injection H as <-; [eapply c_wait_throw | eapply c_wait_ok]; eauto.
  - destruct todo as [|r todo].
    + injection H as <-. apply c_any_all_added; auto.
    + destruct (nth_error (st_reqs s) r) eqn:Q; [|discriminate].
      destruct (q_err r0) eqn:ER; [|destruct (finished r0) eqn:F]; injection H as <-.
      * eapply c_any_add_throw; eauto.
      * eapply c_any_hit; eauto.
      * eapply c_any_add; eauto.
  - destruct (rev del) as [|r rdel] eqn:D.
    + assert (del = []) by (rewrite <- (rev_involutive del), D; reflexivity). subst.
      destruct (nth_error (st_reqs s) res) eqn:Q; [|discriminate].
      destruct (q_err r) eqn:ER; injection H as <-; [eapply c_any_undo_throw | eapply c_any_undo_ret]; eauto.
    + assert (del = rev rdel ++ [r]) by (rewrite <- (rev_involutive del), D; reflexivity). subst.
      destruct (nth_error (st_reqs s) r) eqn:Q; [|discriminate]. injection H as <-.
      eapply c_any_undo; eauto.
  - destruct (nth_error (st_sws s) sw) as [[]|] eqn:SW; try discriminate.
    + destruct spur; [|discriminate]. injection H as <-. apply c_any_spurious; auto.
    + injection H as <-. apply c_any_woken; auto.
  - destruct todo as [|r todo].
    + injection H as <-. apply c_any_scan_ret; auto.
    + destruct res as [res|]; destruct (nth_error (st_reqs s) r) eqn:Q; try discriminate.
      * injection H as <-. eapply c_any_scan_skip; eauto.
      * destruct (q_err r0) eqn:ER; injection H as <-; [eapply c_any_scan_throw | eapply c_any_scan_poll]; eauto.
  - destruct (is_run (st_ts s)) eqn:R; [|discriminate]. injection H as <-. apply c_stop0; auto. apply is_run_ok; auto.
  - injection H as <-. apply c_stop1; auto.
  - destruct (st_wpc s) eqn:WP; try discriminate. injection H as <-. apply c_stop2; auto.
Qed.

Lemma exec_ok : forall k m s s', exec k m s = Some s' -> step k s s'.
Proof.
  intros k m s s' H. destruct m; cbn in H.
  - apply step_worker. eapply exec_w_ok; eauto.
  - eapply step_client. eapply exec_c_ok; eauto.
  - destruct (idle s c) eqn:I; [|discriminate]. apply idle_ok in I.
    destruct (is_run (st_ts s)) eqn:R; injection H as <-; eapply step_start with (c := c).
    + apply s_add; auto. apply is_run_ok; auto.
    + apply s_add_reject; auto. apply not_run_ok; auto.
  - destruct (idle s c && forallb (knownb s) rs) eqn:I; [|discriminate]. apply andb_true_iff in I. destruct I as (I & F).
    injection H as <-. eapply step_start. apply s_cancel_all; [apply idle_ok; auto | apply known_ok; auto].
  - destruct (idle s c && forallb (knownb s) rs) eqn:I; [|discriminate]. apply andb_true_iff in I. destruct I as (I & F).
    injection H as <-. eapply step_start. apply s_wait_all; [apply idle_ok; auto | apply known_ok; auto].
  - destruct (idle s c && forallb (knownb s) rs) eqn:I; [|discriminate]. apply andb_true_iff in I. destruct I as (I & F).
    injection H as <-. eapply step_start with (c := c). apply s_wait_any; [apply idle_ok; auto | apply known_ok; auto].
  - destruct (idle s c && is_run (st_ts s)) eqn:I; [|discriminate]. apply andb_true_iff in I. destruct I as (I & F).
    injection H as <-. eapply step_start. apply s_stop; [apply idle_ok; auto | apply is_run_ok; auto].
Qed.

Lemma run_ok : forall k ms s s', run k ms s = Some s' -> steps k s s'.
Proof.
  intros k ms. induction ms as [|m ms IH]; cbn; intros s s' H.
  - injection H as <-. apply steps_refl.
  - destruct (exec k m s) as [s1|] eqn:E; [|discriminate]. apply exec_ok in E. apply IH in H.
    clear IH. induction H as [s1|a b c A IHA B].
    + eapply steps_trans; [apply steps_refl|auto].
    + eapply steps_trans; [apply IHA; auto | exact B].
Qed.

(** The state after a schedule (the initial state if the schedule is not possible). *)
Definition after (k : kind) (n : nat) (ms : list move) : state :=
  match run k ms (init n) with Some s => s | None => init n end.

Lemma after_reachable : forall k n ms, qreachable k n (after k n ms).
Proof.
  intros k n ms. unfold after. destruct (run k ms (init n)) eqn:E.
  - apply run_ok in E. exact E.
  - apply steps_refl.
Qed.

Definition possible (k : kind) (n : nat) (ms : list move) : bool :=
  match run k ms (init n) with Some _ => true | None => false end.

(** Abbreviations. *)
Definition Ws (m : nat) : list move := repeat (W true) m.
Definition Cs (c m : nat) : list move := repeat (C c false) m.
Definition submit (c : nat) (op : rw) (h : bool) : list move := Add c op h :: Cs c 2.
