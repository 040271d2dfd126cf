(** From the invariants to statements about traces. *)
From Coq Require Import List Bool PeanoNat Lia.
From Verif Require Import QueueModel QueueSpec QueueProofs QueueLife QueueTrace QueueClients.
Import ListNotations.

Lemma cons_neq : forall A (x : A) l, l = x :: l -> False.
Proof. intros A x l H. apply (f_equal (@length A)) in H. cbn in H. lia. Qed.

(** Which step emitted an event. *)
Ltac evstep T E :=
  destruct T as [?s ?s' T | ?c ?s ?s' T | ?c ?s ?s' T]; destruct T; cbn in E;
  rewrite ?complete_log in E;
  try (destruct (st_phase _); cbn in E);
  try (destruct (which _ _); cbn in E);
  try (exfalso; apply cons_neq in E; exact E);
  try discriminate E;
  try (injection E; clear E; intros; subst).

Lemma ev_wait_ret : forall k s s' c rs, step k s s' -> st_log s' = EWaitRet c rs :: st_log s ->
  nth_error (st_clients s) c = Some (CWait [] rs).
Proof.
  intros k s s' c rs T E. evstep T E; auto; try (destruct st; cbn in *; try discriminate; destruct (q_handler q); discriminate).
Qed.

Lemma ev_wait_throw : forall k s s' c rs r, step k s s' -> st_log s' = EWaitThrow c rs r :: st_log s ->
  exists rest q, nth_error (st_clients s) c = Some (CWait (r :: rest) rs) /\
    nth_error (st_reqs s) r = Some q /\ q_state q = READY2DIE /\ q_err q = true.
Proof.
  intros k s s' c rs r T E. evstep T E; eauto 10; try (destruct st; cbn in *; try discriminate; destruct (q_handler q); discriminate).
Qed.

Lemma ev_cancel_ret : forall k s s' c rs bs n, step k s s' -> st_log s' = ECancelRet c rs bs n :: st_log s ->
  nth_error (st_clients s) c = Some (CCancel [] rs bs) /\ n = count_true bs.
Proof.
  intros k s s' c rs bs n T E. evstep T E; auto; try (destruct st; cbn in *; try discriminate; destruct (q_handler q); discriminate).
Qed.

Lemma ev_any_ret : forall k s s' c rs res sp, step k s s' -> st_log s' = EAnyRet c rs res sp :: st_log s ->
  (exists sw r q, nth_error (st_clients s) c = Some (CAnyUndo [] rs r sw) /\ res = Some r /\ sp = false /\
      nth_error (st_reqs s) r = Some q /\ q_err q = false) \/
  (exists sw, nth_error (st_clients s) c = Some (CAnyScan [] rs res sw sp)).
Proof.
  intros k s s' c rs res sp T E. evstep T E; eauto 15; try (destruct st; cbn in *; try discriminate; destruct (q_handler q); discriminate).
Qed.

Lemma ev_any_throw : forall k s s' c rs r, step k s s' -> st_log s' = EAnyThrow c rs r :: st_log s ->
  (exists q, nth_error (st_reqs s) r = Some q /\ q_err q = true) /\
  ((exists done todo sw, nth_error (st_clients s) c = Some (CAnyAdd done (r :: todo) sw) /\ rs = done ++ r :: todo) \/
   (exists sw, nth_error (st_clients s) c = Some (CAnyUndo [] rs r sw)) \/
   (exists todo sw sp, nth_error (st_clients s) c = Some (CAnyScan (r :: todo) rs None sw sp))).
Proof.
  intros k s s' c rs r T E. evstep T E; eauto 15; try (destruct st; cbn in *; try discriminate; destruct (q_handler q); discriminate).
Qed.

(** Counting in words. *)
Lemma filter_filter : forall A (f g : A -> bool) l, (forall x, f x = true -> g x = true) ->
  filter f (filter g l) = filter f l.
Proof.
  intros A f g l H. induction l as [|x l IH]; cbn; auto.
  destruct (g x) eqn:G; cbn; destruct (f x) eqn:F; rewrite ?IH; auto.
  apply H in F. congruence.
Qed.

Lemma handler_about : forall r e, is_handler r e = true -> about r e = true.
Proof. intros r []; cbn; intros; try discriminate; auto. Qed.
Lemma transfer_about : forall r e, is_transfer r e = true -> about r e = true.
Proof. intros r []; cbn; intros; try discriminate; auto. Qed.

Lemma handler_calls_about : forall r l, handler_calls r l = handler_calls r (filter (about r) l).
Proof. intros. unfold handler_calls. rewrite filter_filter; auto. apply handler_about. Qed.
Lemma transfers_about : forall r l, transfers r l = transfers r (filter (about r) l).
Proof. intros. unfold transfers. rewrite filter_filter; auto. apply transfer_about. Qed.

(** Splitting a word inside a trace. *)
Lemma filter_split : forall A (f : A -> bool) l x l1 l2, filter f l = l1 ++ x :: l2 ->
  exists m1 m2, l = m1 ++ x :: m2 /\ filter f m1 = l1 /\ filter f m2 = l2.
Proof.
  intros A f l x l1. revert l. induction l1 as [|y l1 IH]; intros l l2 H; cbn in H.
  - induction l as [|z l IHl]; cbn in H; [discriminate|]. destruct (f z) eqn:F.
    + injection H as -> H. exists [], l. auto.
    + destruct (IHl H) as (m1 & m2 & -> & A1 & A2). exists (z :: m1), m2. cbn. rewrite F. auto.
  - induction l as [|z l IHl]; cbn in H; [discriminate|]. destruct (f z) eqn:F.
    + injection H as -> H. destruct (IH _ _ H) as (m1 & m2 & -> & A1 & A2).
      exists (y :: m1), m2. cbn. rewrite F, A1. auto.
    + destruct (IHl H) as (m1 & m2 & -> & A1 & A2). exists (z :: m1), m2. cbn. rewrite F. auto.
Qed.

Definition full (r : nat) (l : list event) : Prop :=
  (exists h c ok dead, filter (about r) l = served_life h c r ok dead) \/
  (exists h c c' dead, filter (about r) l = cancelled_life h c c' r dead).

Lemma ended_full : forall k s r, linv k s -> ended (loc r (st_log s)) -> full r (trace s).
Proof.
  intros k s r L E. pose proof (reach_word k s r L) as W.
  destruct (loc r (st_log s)) as [| | | | | |o|]; cbn in E; try tauto.
  apply word_served in W. destruct o as [c'|].
  - destruct W as (c & h & d & W). right. eauto 10.
  - destruct W as (c & ok & h & d & W). left. eauto 10.
Qed.

Lemma handler_flag : forall s r q h b, err_inv s -> nth_error (st_reqs s) r = Some q ->
  In (handler_event h r b) (trace s) -> q_handler q = h.
Proof.
  intros s r q h b I H X. rewrite in_trace in X. destruct (I _ _ H) as (_ & A & B).
  destruct h; cbn in X; eauto.
Qed.

Lemma reqs_grow : forall k s s' r q, step k s s' -> nth_error (st_reqs s) r = Some q ->
  exists q', nth_error (st_reqs s') r = Some q' /\ q_handler q' = q_handler q /\ q_op q' = q_op q.
Proof.
  assert (U : forall l r0 q0 q1, nth_error l r0 = Some q0 -> q_handler q1 = q_handler q0 -> q_op q1 = q_op q0 ->
     forall r q, nth_error l r = Some q -> exists q', nth_error (upd r0 q1 l) r = Some q' /\ q_handler q' = q_handler q /\ q_op q' = q_op q).
  { intros l r0 q0 q1 A B C r q D. rewrite (nth_upd _ _ _ _ _ _ A). destruct (Nat.eqb_spec r0 r); subst; eauto.
    rewrite A in D. injection D as <-. eauto. }
  intros k s s' r q T H. destruct T as [s s' T | c s s' T | c s s' T]; destruct T; cbn;
    try (erewrite complete_reqs by eassumption);
    try (destruct (st_phase s); cbn); try (destruct (which k _); cbn); eauto;
    try (eapply U; eauto; fail).
  all: try (eapply U; eauto; destruct st; reflexivity).
  all: rewrite nth_error_app1; eauto; apply nth_error_Some; congruence.
Qed.

Lemma reqs_grow_steps : forall k s s' r q, steps k s s' -> nth_error (st_reqs s) r = Some q ->
  exists q', nth_error (st_reqs s') r = Some q' /\ q_handler q' = q_handler q /\ q_op q' = q_op q.
Proof.
  intros k s s' r q T H. induction T.
  - eauto.
  - destruct (IHT H) as (q1 & A & B & C). destruct (reqs_grow _ _ _ _ _ H0 A) as (q2 & D & E & F).
    exists q2. intuition congruence.
Qed.

(** Once ended, the word does not change any more. *)
Lemma end_steps : forall k s s' r o, linv k s -> steps k s s' -> loc r (st_log s) = PEnd o -> loc r (st_log s') = PEnd o.
Proof.
  intros k s s' r o L T E.
  assert (X : linv k s' /\ loc r (st_log s') = PEnd o).
  { eapply (steps_ind_inv k (fun s' => linv k s' /\ loc r (st_log s') = PEnd o)); [|split; eauto|exact T].
    intros a b (A & B) S. pose proof (linv_step _ _ _ A S). split; auto. eapply end_stable; eauto. }
  tauto.
Qed.

Lemma good_steps : forall k s s' r, linv k s -> steps k s s' -> good_fin (st_log s) r -> good_fin (st_log s') r.
Proof.
  intros k s s' r L T E.
  assert (X : linv k s' /\ good_fin (st_log s') r).
  { eapply (steps_ind_inv k (fun s' => linv k s' /\ good_fin (st_log s') r)); [|split; eauto|exact T].
    intros a b (A & B) S. pose proof (linv_step _ _ _ A S). split; auto. eapply good_stable; eauto. }
  tauto.
Qed.

Lemma step_steps : forall k s s' s'', step k s s' -> steps k s' s'' -> steps k s s''.
Proof. intros. eapply steps_app; eauto. eapply steps_trans; [apply steps_refl|auto]. Qed.

(** Successful cancellations are reported at most once. *)
Definition acc_hits (r : nat) (p : cpc) : nat :=
  match p with
  | CCancel _ all acc | CDeref _ _ all acc | CErase _ _ all acc | CTake _ _ all acc | CFin _ _ _ all acc => hits r all acc
  | _ => 0
  end.

Lemma hits_app : forall r done rest acc, length acc = length done -> hits r (done ++ rest) acc = hits r done acc.
Proof.
  induction done as [|x done IH]; intros rest acc H; destruct acc; cbn in *; try discriminate; auto.
  destruct rest; auto.
Qed.

Lemma Forall2_len : forall A B (P : A -> B -> Prop) l1 l2, Forall2 P l1 l2 -> length l2 = length l1.
Proof. induction 1; cbn; auto. Qed.

Lemma acc_hits_pos : forall log c pc r, cinv log c pc -> acc_hits r pc <> 0 ->
  loc r log = PEnd (Some c) /\ acc_hits r pc <= 1.
Proof.
  intros log c pc r I H.
  assert (G : forall done rest acc, results log c done acc -> hits r (done ++ rest) acc <> 0 ->
     loc r log = PEnd (Some c) /\ hits r (done ++ rest) acc <= 1).
  { intros done rest acc X Y. pose proof (Forall2_len _ _ _ _ _ (proj1 X)) as Ln.
    rewrite hits_app in * by auto. split; [eapply hits_pos; eauto|]. apply (proj2 X). }
  destruct pc; cbn in *; try congruence; destruct I as (_ & done & -> & X); apply G; auto.
Qed.

Definition jinv (s : state) : Prop := forall r,
  cancel_successes r (st_log s) <= 1 /\
  (0 < cancel_successes r (st_log s) ->
   (exists c, loc r (st_log s) = PEnd (Some c)) /\
   forall c pc, nth_error (st_clients s) c = Some pc -> acc_hits r pc = 0).


Lemma hits_snoc_false : forall r all acc, hits r all (acc ++ [false]) = hits r all acc.
Proof.
  intros r all. induction all as [|x all IH]; destruct acc; cbn; auto.
  - rewrite andb_false_r. destruct all; reflexivity.
Qed.

Lemma hits_snoc_true : forall r done r0 rest acc, length acc = length done ->
  hits r (done ++ r0 :: rest) (acc ++ [true]) = hits r (done ++ r0 :: rest) acc + (if Nat.eqb r r0 then 1 else 0).
Proof.
  intros r done r0 rest. induction done as [|x done IH]; destruct acc; cbn; intros H; try discriminate.
  - destruct (Nat.eqb r r0); destruct rest; reflexivity.
  - rewrite IH by lia. lia.
Qed.

Lemma acc_step : forall k s s' c pc' r, cinvs s -> step k s s' -> nth_error (st_clients s') c = Some pc' ->
  (exists pc, nth_error (st_clients s) c = Some pc /\ acc_hits r pc' <= acc_hits r pc) \/
  acc_hits r pc' = 0 \/
  (exists rest all acc, nth_error (st_clients s) c = Some (CFin r SReady rest all acc)).
Proof.
  intros k s s' c pc' r CI T H.
  assert (U : forall c0 pc0 pc1, nth_error (st_clients s) c0 = Some pc0 ->
     nth_error (upd c0 pc1 (st_clients s)) c = Some pc' -> acc_hits r pc1 <= acc_hits r pc0 ->
     exists pc, nth_error (st_clients s) c = Some pc /\ acc_hits r pc' <= acc_hits r pc).
  { intros c0 pc0 pc1 A B C. rewrite (nth_upd _ _ _ _ _ _ A) in B. destruct (Nat.eqb_spec c0 c); subst; eauto.
    injection B as <-. eauto. }
  assert (U0 : forall c0 pc0 pc1, nth_error (st_clients s) c0 = Some pc0 ->
     nth_error (upd c0 pc1 (st_clients s)) c = Some pc' -> acc_hits r pc1 = 0 ->
     (exists pc, nth_error (st_clients s) c = Some pc /\ acc_hits r pc' <= acc_hits r pc) \/ acc_hits r pc' = 0).
  { intros c0 pc0 pc1 A B C. rewrite (nth_upd _ _ _ _ _ _ A) in B. destruct (Nat.eqb_spec c0 c); subst; eauto.
    injection B as <-. auto. }
  destruct T as [s s' T | c0 s s' T | c0 s s' T]; destruct T; cbn in H;
    rewrite ?(proj1 (proj2 (proj2 (proj2 (complete_frame _ _ _ _ _))))) in H;
    try match type of H with context [st_phase s] => destruct (st_phase s); cbn in H end;
    try match type of H with context [which k ?o] => destruct (which k o); cbn in H end; eauto;
    try (left; eapply U; [eassumption|eassumption|cbn; rewrite ?hits_snoc_false; lia]);
    try (destruct (U0 _ _ _ H0 H) as [V|V]; [cbn; destruct rs; reflexivity|eauto|eauto]; fail).
  - destruct (Nat.eqb_spec c0 c) as [->|N].
    + destruct (Nat.eqb_spec r r0) as [<-|N'].
      * right; right. eauto.
      * left. eapply U; [eassumption|eassumption|]. cbn.
        pose proof (CI _ _ H0) as X. cbn in X. destruct X as (_ & done & -> & X).
        rewrite hits_snoc_true by (eapply Forall2_len; apply X).
        apply Nat.eqb_neq in N'. rewrite N'. lia.
    + left. rewrite nth_upd_neq in H by auto. eauto.
Qed.

Lemma jinv_step : forall k s s', linv k s -> cinvs s -> jinv s -> step k s s' -> jinv s'.
Proof.
  intros k s s' L CI J T r. pose proof (linv_step _ _ _ L T) as L'. destruct (J r) as (J1 & J2).
  assert (CASE : cancel_successes r (st_log s') = cancel_successes r (st_log s) \/
     exists c rs bs n, st_log s' = ECancelRet c rs bs n :: st_log s).
  { destruct (one_event _ _ _ T) as [->|(e & E)]; auto. rewrite E.
    destruct e; auto. right; eauto 10. }
  destruct CASE as [E|(c & rs & bs & n & E)].
  - rewrite E. split; auto. intros P. destruct (J2 P) as ((c & Lc) & A). split.
    + exists c. eapply end_stable; eauto.
    + intros c' pc' H. destruct (acc_step _ _ _ _ _ r CI T H) as [(pc & B & C)|[B|(rest & all & acc & B)]]; auto.
      * rewrite (A _ _ B) in C. lia.
      * exfalso. assert (loc r (st_log s) = PFin (Some c') SReady) by (eapply own_client_fin; eauto). congruence.
  - destruct (ev_cancel_ret _ _ _ _ _ _ _ T E) as (HC & ->).
    assert (CL : st_clients s' = upd c CIdle (st_clients s)).
    { clear J J1 J2. evstep T E; cbn; auto; try (destruct st; cbn in *; try discriminate; destruct (q_handler q); discriminate). }
    rewrite E. cbn [cancel_successes].
    assert (LL : loc r (ECancelRet c rs bs (count_true bs) :: st_log s) = loc r (st_log s)) by reflexivity.
    destruct (Nat.eq_dec (hits r rs bs) 0) as [Z|Z].
    + rewrite Z, LL. cbn [Nat.add]. split; auto. intros P. destruct (J2 P) as (B & A). split; auto.
      intros c' pc' H. rewrite CL, (nth_upd _ _ _ _ _ _ HC) in H. destruct (Nat.eqb_spec c c'); eauto.
      injection H as <-. reflexivity.
    + destruct (acc_hits_pos _ _ _ r (CI _ _ HC) Z) as (A & B). cbn in B.
      assert (S0 : cancel_successes r (st_log s) = 0).
      { destruct (cancel_successes r (st_log s)) eqn:S0; auto. exfalso.
        destruct (J2 ltac:(lia)) as (_ & X). specialize (X _ _ HC). cbn in X. congruence. }
      rewrite S0. split; [lia|]. intros _. split; [rewrite LL; eauto|].
      intros c' pc' H. rewrite CL, (nth_upd _ _ _ _ _ _ HC) in H. destruct (Nat.eqb_spec c c') as [->|N].
      * injection H as <-. reflexivity.
      * destruct (acc_hits r pc') eqn:X; auto. exfalso.
        destruct (acc_hits_pos _ _ _ r (CI _ _ H)) as (Y & _); [lia|]. congruence.
Qed.

Lemma jinv_reachable : forall k n s, qreachable k n s -> jinv s.
Proof.
  intros k n s R.
  assert (X : (linv k s /\ err_inv s /\ cinvs s) /\ jinv s).
  { eapply (steps_ind_inv k (fun s => (linv k s /\ err_inv s /\ cinvs s) /\ jinv s)); [| |exact R].
    - intros a b ((A & B & C) & D) T. split; [split; [|split]|];
        [eapply linv_step | eapply err_step | eapply cinvs_step | eapply jinv_step]; eauto.
    - split; [eapply inv_reachable; apply steps_refl|]. intros r. cbn. split; lia. }
  tauto.
Qed.

Lemma succ_app : forall r l1 l2, cancel_successes r (l1 ++ l2) = cancel_successes r l1 + cancel_successes r l2.
Proof. induction l1 as [|[] l1 IH]; cbn; intros; auto. rewrite IH. lia. Qed.
Lemma succ_rev : forall r l, cancel_successes r (rev l) = cancel_successes r l.
Proof.
  induction l as [|e l IH]; auto. cbn [rev]. rewrite succ_app, IH. destruct e; cbn; lia.
Qed.
