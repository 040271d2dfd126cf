(** Order of service. *)
From Coq Require Import List Bool PeanoNat Lia.
From Verif Require Import QueueModel QueueSpec QueueProofs QueueLife QueueTrace QueueClients QueueMain QueueTokens.
Import ListNotations.

Definition live (log : list event) (l : list nat) : list nat := filter (fun r => negb (erased r log)) l.

Lemma erased_in : forall r l, erased r l = true <-> exists c, In (EErase c r) l.
Proof.
  intros r l. unfold erased. rewrite existsb_exists. split.
  - intros (e & A & B). destruct e; try discriminate. apply Nat.eqb_eq in B. subst. eauto.
  - intros (c & A). eexists. split; eauto. cbn. apply Nat.eqb_refl.
Qed.

Lemma pushes_in : forall r l, In r (pushes l) <-> In (EPush r) l.
Proof.
  intros r l. unfold pushes. rewrite in_flat_map. split.
  - intros (e & A & B). destruct e; cbn in B; try tauto. destruct B as [->|[]]. auto.
  - intros A. exists (EPush r). cbn. auto.
Qed.

Lemma pops_in : forall r l, In r (pops l) <-> In (EPop r) l.
Proof.
  intros r l. unfold pops. rewrite in_flat_map. split.
  - intros (e & A & B). destruct e; cbn in B; try tauto. destruct B as [->|[]]. auto.
  - intros A. exists (EPop r). cbn. auto.
Qed.

Lemma pushes_app : forall l1 l2, pushes (l1 ++ l2) = pushes l1 ++ pushes l2.
Proof. intros. apply flat_map_app. Qed.
Lemma pops_app : forall l1 l2, pops (l1 ++ l2) = pops l1 ++ pops l2.
Proof. intros. apply flat_map_app. Qed.

Lemma erased_rev : forall r l, erased r (rev l) = erased r l.
Proof.
  intros. apply Bool.eq_iff_eq_true. rewrite !erased_in.
  split; intros (c & A); exists c; apply in_rev; auto. rewrite rev_involutive; auto.
Qed.

(** Directions never change. *)
Lemma direction_back : forall k s s' d, step k s s' -> is_direction d s' -> is_direction d s.
Proof.
  intros k s s' d T D r q H. destruct (reqs_grow _ _ _ _ _ T H) as (q' & A & _ & B).
  apply D in A. congruence.
Qed.

Definition fifo (k : kind) (d : nat -> rw) (s : state) : Prop := forall w,
  live (st_log s) (going k d w (pushes (trace s))) = going k d w (pops (trace s)) ++ queue w s.

(** Steps that leave the queues alone. *)
Definition plain (e : event) : bool :=
  match e with EPush _ | EPop _ | EErase _ _ => false | _ => true end.

Lemma fifo_frame : forall k d s s', fifo k d s ->
  st_rq s' = st_rq s -> st_wq s' = st_wq s ->
  (st_log s' = st_log s \/ exists e, st_log s' = e :: st_log s /\ plain e = true) ->
  fifo k d s'.
Proof.
  intros k d s s' F HR HW HL w. specialize (F w). unfold trace in *.
  assert (Q : queue w s' = queue w s) by (destruct w; cbn; auto). rewrite Q.
  destruct HL as [->|(e & -> & P)]; auto.
  cbn [rev]. rewrite pushes_app, pops_app.
  assert (E1 : pushes [e] = []) by (destruct e; try discriminate; reflexivity).
  assert (E2 : pops [e] = []) by (destruct e; try discriminate; reflexivity).
  rewrite E1, E2, !app_nil_r, <- F. unfold live. apply filter_ext. intros a.
  destruct e; try discriminate; reflexivity.
Qed.

Lemma stage_plain : forall q r st b s, plain (stage_event q r st b s) = true.
Proof. intros. destruct st; cbn; auto. destruct (q_handler q); auto. Qed.

Lemma erased_loc : forall k s r, linv k s -> erased r (st_log s) = true -> taken (loc r (st_log s)).
Proof.
  intros k s r L E. apply erased_in in E. destruct E as (c & E).
  destruct (in_word k s r (EErase c r) _ L eq_refl) as (l & W & I); auto; [cbn; apply Nat.eqb_refl|].
  destruct (loc r (st_log s)) as [|c0| | |c0|o st|o|]; cbn; auto; words W; cbn in I; intuition discriminate.
Qed.

Lemma pop_loc : forall k s r, linv k s -> In (EPop r) (st_log s) -> taken (loc r (st_log s)).
Proof.
  intros k s r L E.
  destruct (in_word k s r (EPop r) _ L eq_refl) as (l & W & I); auto; [cbn; apply Nat.eqb_refl|].
  destruct (loc r (st_log s)) as [|c0| | |c0|o st|o|]; cbn; auto; words W; cbn in I; intuition discriminate.
Qed.

Definition by_worker (p : ph) : Prop :=
  match p with PServe | PFin None _ | PEnd None => True | _ => False end.

Lemma pop_worker : forall k s r, linv k s -> In (EPop r) (st_log s) -> by_worker (loc r (st_log s)).
Proof.
  intros k s r L E.
  destruct (in_word k s r (EPop r) _ L eq_refl) as (l & W & I); auto; [cbn; apply Nat.eqb_refl|].
  destruct (loc r (st_log s)) as [|c0| | |c0|o st|o|]; try (destruct o); cbn; auto; try (destruct st);
    words W; unfold cancelled_life in *; try (match goal with h : bool |- _ => destruct h end); cbn in I;
    repeat match goal with h : bool |- _ => destruct h end; cbn in I;
    repeat (destruct I as [I|I]; [discriminate I|]); tauto.
Qed.

Lemma erase_client : forall k s c r, linv k s -> In (EErase c r) (st_log s) -> ~ by_worker (loc r (st_log s)).
Proof.
  intros k s c r L E B.
  destruct (in_word k s r (EErase c r) _ L eq_refl) as (l & W & I); auto; [cbn; apply Nat.eqb_refl|].
  destruct (loc r (st_log s)) as [|c0| | |c0|o st|o|]; try (destruct o); cbn in B; try tauto; try (destruct st);
    words W; unfold served_life in *; repeat match goal with h : bool |- _ => destruct h end; cbn in I;
    repeat (destruct I as [I|I]; [discriminate I|]); tauto.
Qed.

Lemma pop_not_erased : forall k s c r, linv k s -> In (EPop r) (st_log s) -> In (EErase c r) (st_log s) -> False.
Proof. intros k s c r L A B. eapply erase_client; eauto. eapply pop_worker; eauto. Qed.

Lemma push_loc : forall k s r, linv k s -> In (EPush r) (st_log s) -> pushed (loc r (st_log s)).
Proof.
  intros k s r L E.
  destruct (in_word k s r (EPush r) _ L eq_refl) as (l & W & I); auto; [cbn; apply Nat.eqb_refl|].
  destruct (loc r (st_log s)) as [|c0| | |c0|o st|o|]; cbn; auto; words W; cbn in I; intuition discriminate.
Qed.

Lemma queue_loc : forall k s r w, linv k s -> In r (queue w s) -> loc r (st_log s) = PQueued.
Proof. intros. eapply l_own; eauto. eapply own_q; eauto. Qed.

Lemma going_app : forall k d w a b, going k d w (a ++ b) = going k d w a ++ going k d w b.
Proof. intros. apply filter_app. Qed.

Lemma going_one : forall k d w r, going k d w [r] = if Bool.eqb (which k (d r)) w then [r] else [].
Proof. intros. cbn. destruct (Bool.eqb _ _); auto. Qed.

Lemma filter_all : forall A (f : A -> bool) l, (forall x, In x l -> f x = true) -> filter f l = l.
Proof.
  intros A f l. induction l as [|x l IH]; cbn; intros H; auto.
  rewrite H by auto. f_equal. apply IH. auto.
Qed.

Lemma filter_filter_and : forall A (f g : A -> bool) l, filter f (filter g l) = filter (fun x => g x && f x) l.
Proof.
  intros A f g l. induction l as [|x l IH]; cbn; auto. destruct (g x); cbn; auto. destruct (f x); rewrite IH; auto.
Qed.

Lemma fifo_pop : forall k d s s' r rest, linv k s -> fifo k d s -> is_direction d s ->
  queue (st_phase s) s = r :: rest ->
  st_log s' = EPop r :: st_log s -> queue (st_phase s) s' = rest ->
  queue (negb (st_phase s)) s' = queue (negb (st_phase s)) s -> fifo k d s'.
Proof.
  intros k d s s' r rest L F D Q E Q1 Q2 w. specialize (F w).
  destruct (l_dir k s L r (st_phase s)) as (q & HQ & HW); [rewrite Q; left; auto|].
  assert (DR : d r = q_op q) by eauto.
  unfold trace in *. rewrite E. cbn [rev]. rewrite pushes_app, pops_app, going_app.
  rewrite app_nil_r. unfold live in *. cbn [erased existsb] in *.
  change (filter _ (going k d w (pushes (rev (st_log s)))))
    with (filter (fun r => negb (erased r (st_log s))) (going k d w (pushes (rev (st_log s))))).
  rewrite F. cbn [pops flat_map app]. rewrite going_app, going_one, DR, HW.
  destruct (Bool.eqb_spec (st_phase s) w) as [<-|N].
  - rewrite Q, Q1, <- app_assoc. reflexivity.
  - apply bool_neq in N. subst w. rewrite Q2. cbn. rewrite app_nil_r. reflexivity.
Qed.

Lemma fifo_push : forall k d s s' r q, linv k s -> fifo k d s -> is_direction d s ->
  nth_error (st_reqs s) r = Some q -> (exists c, loc r (st_log s) = PPush c) ->
  st_log s' = EPush r :: st_log s ->
  queue (which k (q_op q)) s' = queue (which k (q_op q)) s ++ [r] ->
  queue (negb (which k (q_op q))) s' = queue (negb (which k (q_op q))) s -> fifo k d s'.
Proof.
  intros k d s s' r q L F D HQ (c & LO) E Q1 Q2 w. specialize (F w).
  assert (DR : d r = q_op q) by eauto.
  unfold trace in *. rewrite E. cbn [rev]. rewrite pushes_app, pops_app.
  rewrite !going_app. cbn [pops pushes flat_map app]. unfold live in *. rewrite filter_app.
  change (fun r0 => negb (erased r0 (EPush r :: st_log s))) with (fun r0 => negb (erased r0 (st_log s))).
  rewrite F. cbn [going filter]. rewrite app_nil_r. rewrite DR.
  destruct (Bool.eqb_spec (which k (q_op q)) w) as [<-|N].
  - rewrite Q1. cbn. destruct (erased r (st_log s)) eqn:X.
    + apply (erased_loc k s r L) in X. rewrite LO in X. destruct X.
    + cbn. rewrite <- app_assoc. reflexivity.
  - apply bool_neq in N. subst w. rewrite Q2. cbn. rewrite app_nil_r. reflexivity.
Qed.

Lemma fifo_erase : forall k d s s' c r q l1 l2, linv k s -> fifo k d s -> is_direction d s ->
  nth_error (st_reqs s) r = Some q ->
  queue (which k (q_op q)) s = l1 ++ r :: l2 ->
  st_log s' = EErase c r :: st_log s ->
  queue (which k (q_op q)) s' = l1 ++ l2 ->
  queue (negb (which k (q_op q))) s' = queue (negb (which k (q_op q))) s -> fifo k d s'.
Proof.
  intros k d s s' c r q l1 l2 L F D HQ Q E Q1 Q2 w. specialize (F w).
  assert (DR : d r = q_op q) by eauto.
  assert (LQ : loc r (st_log s) = PQueued) by (eapply (queue_loc k s r (which k (q_op q))); eauto; rewrite Q; apply in_elt).
  assert (NP : ~ In r (going k d w (pops (rev (st_log s))))).
  { intros X. apply filter_In in X. destruct X as (X & _). apply pops_in in X. apply in_rev in X.
    apply (pop_loc k s r L) in X. rewrite LQ in X. destruct X. }
  unfold trace in *. rewrite E. cbn [rev]. rewrite pushes_app, pops_app.
  cbn [pops pushes flat_map app]. rewrite !app_nil_r. unfold live in *.
  assert (X : filter (fun r0 => negb (erased r0 (EErase c r :: st_log s))) (going k d w (pushes (rev (st_log s)))) =
     filter (fun x => negb (x =? r)) (filter (fun r0 => negb (erased r0 (st_log s))) (going k d w (pushes (rev (st_log s)))))).
  { rewrite filter_filter_and. apply filter_ext. intros a. unfold erased. cbn.
    destruct (a =? r); cbn; rewrite ?andb_false_r, ?andb_true_r; auto. }
  rewrite X, F, filter_app. clear X F.
  assert (KEEP : forall l, ~ In r l -> filter (fun x => negb (x =? r)) l = l).
  { intros l N. apply filter_all. intros x I. destruct (Nat.eqb_spec x r); subst; auto. }
  rewrite KEEP by exact NP. f_equal.
  destruct (Bool.eqb_spec (which k (q_op q)) w) as [<-|N].
  - pose proof (l_nodup k s L (which k (q_op q))) as ND. rewrite Q in *. apply NoDup_remove_2 in ND.
    rewrite Q1, filter_app. cbn. rewrite Nat.eqb_refl. cbn. rewrite <- filter_app. apply KEEP. exact ND.
  - apply bool_neq in N. subst w. rewrite Q2. apply KEEP.
    intros I. destruct (l_dir k s L _ _ I) as (q' & A & B). rewrite HQ in A. injection A as <-.
    destruct (which k (q_op q)); discriminate.
Qed.

Lemma fifo_step : forall k d s s', linv k s -> is_direction d s -> fifo k d s -> step k s s' -> fifo k d s'.
Proof.
  intros k d s s' L D F T.
  destruct T as [s s' T | c s s' T | c s s' T].
  - destruct T; try (apply (fifo_frame k d s); cbn; auto; fail);
      try (apply (fifo_frame k d s); cbn; eauto; fail).
    + eapply fifo_pop; eauto; destruct (st_phase s); reflexivity.
    + destruct (complete_frame r q st true s) as (F1 & F2 & _).
      apply (fifo_frame k d s); cbn; auto. rewrite complete_log. right. eexists; split; [reflexivity|]. apply stage_plain.
  - destruct T; apply (fifo_frame k d s); cbn; eauto.
  - destruct T; try (apply (fifo_frame k d s); cbn; auto; fail);
      try (apply (fifo_frame k d s); cbn; eauto; fail).
    + eapply fifo_push; eauto.
      * exists c. eapply l_own; eauto. eapply own_c; eauto.
      * destruct (which k (q_op q)); reflexivity.
      * destruct (which k (q_op q)); reflexivity.
      * destruct (which k (q_op q)); reflexivity.
    + eapply fifo_erase; eauto; destruct (which k (q_op q)); reflexivity.
    + destruct (complete_frame r q st false s) as (F1 & F2 & _).
      apply (fifo_frame k d s); cbn; auto. rewrite complete_log. right. eexists; split; [reflexivity|]. apply stage_plain.
Qed.

Lemma fifo_reachable : forall k n s d, qreachable k n s -> is_direction d s -> fifo k d s.
Proof.
  intros k n s d R. unfold qreachable in R. remember (init n) as s0 eqn:E.
  assert (L0 : linv k s0) by (subst; eapply linv_reachable; apply steps_refl).
  revert d. induction R as [s|s0 s s' R IH T]; intros d D.
  - subst. intros []; reflexivity.
  - pose proof (direction_back _ _ _ _ T D) as D0.
    subst. apply (fifo_step k d s s'); auto. eapply linv_reachable. exact R.
Qed.

(** Positions in lists. *)
Lemma before_in : forall a b l, before a b l -> In a l /\ In b l.
Proof. intros a b l (l1 & l2 & l3 & ->). split; rewrite in_app_iff; cbn; rewrite ?in_app_iff; cbn; auto 10. Qed.

Lemma in_before : forall a e l, In a l -> before a e (l ++ [e]).
Proof.
  intros a e l H. apply in_split in H. destruct H as (l1 & l2 & ->). exists l1, l2, [].
  rewrite <- app_assoc. reflexivity.
Qed.

Lemma before_app : forall a b l l', before a b l -> before a b (l ++ l').
Proof.
  intros a b l l' (l1 & l2 & l3 & ->). exists l1, l2, (l3 ++ l').
  rewrite <- app_assoc. cbn. rewrite <- app_assoc. reflexivity.
Qed.

(** Submission is once. *)
Lemma once : forall k s e r l1 l2, linv k s -> about r e = true -> trace s = l1 ++ e :: l2 ->
  (e = EPush r \/ e = EPop r) -> ~ In e l1 /\ ~ In e l2.
Proof.
  intros k s e r l1 l2 L A E K.
  pose proof (reach_word k s r L) as W. rewrite E in W. rewrite filter_app in W. cbn in W. rewrite A in W.
  assert (C : forall m1 m2, word r (loc r (st_log s)) (m1 ++ e :: m2) -> ~ In e m1 /\ ~ In e m2).
  { clear. intros m1 m2 W. 
    assert (ND : NoDup (m1 ++ e :: m2)).
    { apply word_served in W. destruct (loc r (st_log s)) as [|c0| | |c0|o st|o|]; try (destruct o); try (destruct st);
        repeat match goal with H : exists _, _ |- _ => destruct H end; try tauto;
        match goal with H : _ ++ _ = _ |- _ => rewrite H end; unfold served_life, cancelled_life;
        repeat match goal with h : bool |- _ => destruct h end; cbn;
        repeat (constructor; [cbn; intuition discriminate|]); constructor. }
    apply NoDup_remove_2 in ND. rewrite in_app_iff in ND. tauto. }
  destruct (C _ _ W) as (C1 & C2).
  split; intros X; [apply C1 | apply C2]; apply filter_In; auto.
Qed.

(** Two submissions to one list are served in order. *)
Lemma sub_order : forall (l : list nat) a b x y z, NoDup l -> l = x ++ a :: y ++ b :: z ->
  forall p q, l = p ++ q -> In b p -> In a p.
Proof.
  intros l a b x y z ND E p q E2 IB.
  destruct (in_dec Nat.eq_dec a p) as [I|N]; auto. exfalso.
  assert (IA : In a q). { assert (In a l) by (rewrite E; apply in_elt). rewrite E2, in_app_iff in H. tauto. }
  apply in_split in IB. destruct IB as (p1 & p2 & ->). apply in_split in IA. destruct IA as (q1 & q2 & ->).
  assert (E3 : l = p1 ++ b :: (p2 ++ q1) ++ a :: q2) by (rewrite E2; repeat (rewrite <- app_assoc; cbn); reflexivity).
  rewrite E in E3, ND. clear - E3 ND.
  revert p1 E3. induction x as [|h x IH]; intros p1 E3.
  - destruct p1 as [|h p1]; cbn in E3; injection E3; intros; subst.
    + apply NoDup_cons_iff in ND. destruct ND as (ND & _). apply ND. rewrite in_app_iff. cbn. auto.
    + apply NoDup_cons_iff in ND. destruct ND as (ND & _). apply ND. rewrite H. rewrite !in_app_iff. cbn. rewrite !in_app_iff. cbn. tauto.
  - cbn in ND. destruct p1 as [|h' p1]; cbn in E3; injection E3; intros; subst.
    + apply NoDup_cons_iff in ND. destruct ND as (ND & _). apply ND. rewrite !in_app_iff. cbn. rewrite in_app_iff. cbn. tauto.
    + apply NoDup_cons_iff in ND. destruct ND as (_ & ND). eapply IH; eauto.
Qed.

Lemma pushes_nodup : forall k n s, qreachable k n s -> NoDup (pushes (trace s)).
Proof.
  intros k n s R. pose proof (linv_reachable _ _ _ R) as L.
  assert (G : forall l m, trace s = m ++ l -> NoDup (pushes l)).
  { induction l as [|e l IH]; intros m E; cbn; [constructor|].
    assert (X : NoDup (pushes l)). { apply (IH (m ++ [e])). rewrite E, <- app_assoc. reflexivity. }
    destruct e; cbn; auto. constructor; auto.
    destruct (once k s (EPush r) r m l L) as (_ & N); auto. { cbn. apply Nat.eqb_refl. }
    rewrite pushes_in. exact N. }
  apply (G _ []). reflexivity.
Qed.

Lemma before_pushes : forall a b l, before (EPush a) (EPush b) l -> exists x y z, pushes l = x ++ a :: y ++ b :: z.
Proof.
  intros a b l (l1 & l2 & l3 & ->). exists (pushes l1), (pushes l2), (pushes l3).
  rewrite pushes_app. cbn. f_equal. f_equal. apply pushes_app.
Qed.

Lemma filter_mid : forall A (f : A -> bool) x a y b z, f a = true -> f b = true ->
  filter f (x ++ a :: y ++ b :: z) = filter f x ++ a :: filter f y ++ b :: filter f z.
Proof. intros. rewrite filter_app. cbn. rewrite H. rewrite filter_app. cbn. rewrite H0. reflexivity. Qed.

Lemma served_in_order : forall k n s a b qa qb, qreachable k n s ->
  before (EPush a) (EPush b) (trace s) ->
  nth_error (st_reqs s) a = Some qa -> nth_error (st_reqs s) b = Some qb ->
  which k (q_op qa) = which k (q_op qb) ->
  In (EPop b) (trace s) ->
  before (EPop a) (EPop b) (trace s) \/ exists c, before (EErase c a) (EPop b) (trace s).
Proof.
  intros k n s a b qa qb R B QA QB W P.
  apply in_split in P. destruct P as (l1 & l2 & E).
  destruct (trace_split _ _ _ _ _ _ R E) as (s1 & s2 & R1 & T & EL & E1 & T2).
  assert (R2 : qreachable k n s2) by (eapply steps_trans; eauto).
  pose proof (linv_reachable _ _ _ R1) as L1. pose proof (linv_reachable _ _ _ R2) as L2.
  pose proof (linv_reachable _ _ _ R) as L.
  set (d := fun r => match nth_error (st_reqs s) r with Some q => q_op q | None => Read end).
  assert (D2 : is_direction d s2).
  { intros r q H. destruct (reqs_grow_steps _ _ _ _ _ T2 H) as (q' & A & _ & A2). unfold d. rewrite A. auto. }
  assert (TR2 : trace s2 = l1 ++ [EPop b]) by (unfold trace; rewrite EL; cbn [rev]; fold (trace s1); congruence).
  (* both were submitted before *)
  assert (B2 : before (EPush a) (EPush b) (trace s2)).
  { assert (PB : In (EPush b) l1).
    { assert (X : In (EPop b) (st_log s2)) by (rewrite EL; left; auto).
      apply (pop_loc k s2 b L2) in X.
      assert (Y : In (EPush b) (st_log s2)).
      { eapply (word_in k s2 b); eauto. intros l W0. destruct (loc b (st_log s2)) as [|c0| | |c0|o st|o|]; cbn in X; try tauto;
          try (destruct o); try (destruct st); words W0; unfold served_life, cancelled_life; cbn; auto. }
      rewrite EL in Y. destruct Y as [Y|Y]; [discriminate|]. rewrite <- E1, in_trace. exact Y. }
    destruct B as (m1 & m2 & m3 & EB).
    apply in_split in PB. destruct PB as (p1 & p2 & PB).
    (* the position of EPush b is unique *)
    assert (U : m1 ++ EPush a :: m2 = p1).
    { rewrite E in EB. rewrite PB in EB. rewrite <- app_assoc in EB. cbn in EB.
      assert (EB' : p1 ++ EPush b :: (p2 ++ EPop b :: l2) = (m1 ++ EPush a :: m2) ++ EPush b :: m3)
        by (rewrite EB, <- app_assoc; reflexivity).
      destruct (once k s (EPush b) b p1 (p2 ++ EPop b :: l2) L) as (N1 & N2); auto.
      { cbn. apply Nat.eqb_refl. } { rewrite E, PB, <- app_assoc. reflexivity. }
      revert EB' N1 N2. generalize (m1 ++ EPush a :: m2) as m. generalize (p2 ++ EPop b :: l2) as t. clear.
      intros t m. revert p1. induction m as [|h m IH]; intros p1 H N1 N2.
      - destruct p1; cbn in H; auto. injection H; intros; subst. exfalso. apply N1. left; auto.
      - destruct p1 as [|h' p1]; cbn in H; injection H; intros; subst.
        + exfalso. apply N2. apply in_elt.
        + f_equal. apply IH; auto. intros X. apply N1. right. auto. }
    rewrite TR2, PB, <- U. exists m1, m2, (p2 ++ [EPop b]). repeat (rewrite <- app_assoc; cbn). reflexivity. }
  pose proof (fifo_reachable _ _ _ d R2 D2 (which k (q_op qb))) as F.
  destruct (erased a (st_log s2)) eqn:ER.
  - right. apply erased_in in ER. destruct ER as (c & ER). exists c. rewrite E.
    rewrite EL in ER. destruct ER as [ER|ER]; [discriminate|].
    change (EPop b :: l2) with ([EPop b] ++ l2). rewrite app_assoc. apply before_app, in_before. rewrite <- E1, in_trace. exact ER.
  - left. destruct (Nat.eq_dec a b) as [->|NE].
    { exfalso. destruct B as (m1 & m2 & m3 & EB).
      destruct (once k s (EPush b) b m1 (m2 ++ EPush b :: m3) L) as (_ & N); auto.
      { cbn. apply Nat.eqb_refl. } apply N. apply in_elt. }
    assert (EB : erased b (st_log s2) = false).
    { destruct (erased b (st_log s2)) eqn:X; auto. exfalso. apply erased_in in X. destruct X as (c & X).
      assert (X2 : In (EPop b) (st_log s2)) by (rewrite EL; left; auto).
      exact (pop_not_erased k s2 c b L2 X2 X). }
    assert (DA : d a = q_op qa) by (unfold d; rewrite QA; auto).
    assert (DB : d b = q_op qb) by (unfold d; rewrite QB; auto).
    destruct (before_pushes _ _ _ B2) as (x & y & z & EP).
    assert (ND : NoDup (live (st_log s2) (going k d (which k (q_op qb)) (pushes (trace s2))))).
    { apply NoDup_filter, NoDup_filter. eapply pushes_nodup; eauto. }
    assert (IA : In a (pops (trace s2))).
    { assert (X : In a (going k d (which k (q_op qb)) (pops (trace s2)))).
      { eapply sub_order; [exact ND| |exact F|].
        - rewrite EP. unfold live, going. rewrite filter_mid.
          + rewrite filter_mid; [reflexivity| |]; [rewrite ER | rewrite EB]; reflexivity.
          + rewrite DA, W. apply Bool.eqb_reflx.
          + rewrite DB. apply Bool.eqb_reflx.
        - apply filter_In. split; [|rewrite DB; apply Bool.eqb_reflx].
          apply pops_in. rewrite TR2. apply in_elt. }
      apply filter_In in X. tauto. }
    apply pops_in in IA. rewrite TR2 in IA. apply in_app_iff in IA.
    destruct IA as [IA|[IA|[]]]; [|injection IA; intros; congruence].
    rewrite E. change (EPop b :: l2) with ([EPop b] ++ l2). rewrite app_assoc. apply before_app, in_before. exact IA.
Qed.

(** Without cancellations, and while the queue runs, the write-priority queue
    never serves a read before a write that was submitted earlier. *)
Definition undisturbed (log : list event) : Prop :=
  (forall c r, ~ In (EErase c r) log) /\ ~ In ETerminate log.

Definition first_read (s : state) : Prop :=
  st_phase s = false -> exists r0 rest, st_rq s = r0 :: rest /\
    forall w, In w (st_wq s) -> before (EPush r0) (EPush w) (trace s).

Lemma undisturbed_back : forall k s s', step k s s' -> undisturbed (st_log s') -> undisturbed (st_log s).
Proof.
  intros k s s' T (A & B). destruct (one_event _ _ _ T) as [E|(e & E)]; rewrite E in *; split; auto.
  - intros c r X. apply (A c r). right. auto.
  - intros X. apply B. right. auto.
Qed.

Lemma ts_log : forall k n s, qreachable k n s -> ~ In ETerminate (st_log s) -> st_ts s = RUNNING.
Proof.
  intros k n s R. unfold qreachable in R. remember (init n) as s0 eqn:E.
  induction R as [s|s0 s s' R IH T]; intros N; [subst; reflexivity|].
  subst. assert (N0 : ~ In ETerminate (st_log s)).
  { destruct (one_event _ _ _ T) as [EL|(e & EL)]; rewrite EL in N; auto. intros X. apply N. right. auto. }
  specialize (IH eq_refl N0). pose proof (tinv_reachable _ _ _ R) as I.
  destruct T as [s s' T | c s s' T | c s s' T]; destruct T; cbn in *;
    rewrite ?(proj2 (proj2 (proj2 (proj2 (proj2 (proj2 (complete_frame _ _ _ _ _))))))); auto;
    try (destruct (st_phase s); cbn; auto; fail); try (destruct (which k _); cbn; auto; fail).
  - pose proof (t_ts _ I) as X. rewrite IH, H in X. destruct X.
  - tauto.
  - pose proof (t_ts _ I) as X. rewrite IH, H0 in X. destruct X.
Qed.

Lemma no_erase_taking : forall k s, linv k s -> (forall c r, ~ In (EErase c r) (st_log s)) -> clients_at taking s = 0.
Proof.
  intros k s L N. unfold clients_at. destruct (filter taking (st_clients s)) as [|p l] eqn:E; auto. exfalso.
  assert (I : In p (filter taking (st_clients s))) by (rewrite E; left; auto).
  apply filter_In in I. destruct I as (I & T). apply In_nth_error in I. destruct I as (c & I).
  destruct p; try discriminate.
  assert (LO : loc r (st_log s) = PTake c) by (eapply l_own; eauto; eapply own_c; eauto; reflexivity).
  apply (N c r). eapply (word_in k s r); eauto. intros w W. words W. cbn. auto.
Qed.

Lemma undisturbed_tokens : forall k n s, qreachable k n s -> undisturbed (st_log s) ->
  st_sem s + wtok (st_wpc s) + clients_at signalling s = queued s.
Proof.
  intros k n s R (U1 & U2). pose proof (tinv_reachable _ _ _ R) as [TE TS TT].
  rewrite (ts_log _ _ _ R U2) in TS. cbn in TS.
  rewrite (no_erase_taking k s (linv_reachable _ _ _ R) U1) in TE. lia.
Qed.

Lemma trace_cons : forall s s' e, st_log s' = e :: st_log s -> trace s' = trace s ++ [e].
Proof. intros s s' e H. unfold trace. rewrite H. reflexivity. Qed.

Lemma first_read_frame : forall s s', first_read s -> st_phase s' = st_phase s ->
  st_rq s' = st_rq s -> st_wq s' = st_wq s ->
  (st_log s' = st_log s \/ exists e, st_log s' = e :: st_log s) -> first_read s'.
Proof.
  intros s s' F HP HR HW HL P. rewrite HP in P. destruct (F P) as (r0 & rest & A & B).
  exists r0, rest. rewrite HR, HW. split; auto. intros w I.
  destruct HL as [HL|(e & HL)].
  - unfold trace in *. rewrite HL. auto.
  - rewrite (trace_cons _ _ _ HL). apply before_app. auto.
Qed.

Lemma first_read_step : forall n s s', qreachable (QwQr PWrite) n s -> undisturbed (st_log s') ->
  first_read s -> step (QwQr PWrite) s s' -> first_read s'.
Proof.
  intros n s s' R U F T. pose proof (linv_reachable _ _ _ R) as L.
  pose proof (undisturbed_back _ _ _ T U) as U0.
  pose proof (undisturbed_tokens _ _ _ R U0) as TK.
  destruct T as [s s' T | c s s' T | c s s' T].
  - destruct T; try (apply (first_read_frame s); cbn; eauto; fail).
    + (* pop *) intros P. cbn in P. destruct (st_phase s); discriminate.
    + (* empty *) intros P. cbn in P. destruct (st_phase s) eqn:PH; [|discriminate]. cbn in H0.
      rewrite H in TK. cbn in TK. unfold queued in TK. rewrite H0 in TK. cbn in TK.
      cbn. destruct (st_rq s) as [|r0 rest]; [cbn in TK; lia|]. exists r0, rest. split; auto.
      rewrite H0. intros w [].
    + destruct (complete_frame r q st true s) as (F1 & F2 & F3 & F4 & F5 & _).
      apply (first_read_frame s); cbn; auto. rewrite complete_log. eauto.
  - destruct T; apply (first_read_frame s); cbn; eauto.
  - destruct T; try (apply (first_read_frame s); cbn; eauto; fail).
    + (* push *) intros P.
      assert (PH : st_phase s = false) by (destruct (which (QwQr PWrite) (q_op q)); exact P).
      destruct (F PH) as (r0 & rest & A & B).
      assert (I0 : In (EPush r0) (trace s)).
      { rewrite in_trace. assert (LQ : loc r0 (st_log s) = PQueued).
        { eapply (queue_loc _ s r0 false); eauto. cbn. rewrite A. left; auto. }
        eapply (word_in _ s r0); eauto. intros w W. words W. cbn. auto. }
      rewrite (trace_cons s _ (EPush r)) by (destruct (which (QwQr PWrite) (q_op q)); reflexivity).
      destruct (q_op q); cbn.
      * exists r0, (rest ++ [r]). rewrite A. split; auto. intros w I. apply before_app. auto.
      * exists r0, rest. split; auto. intros w I. apply in_app_iff in I. destruct I as [I|[<-|[]]].
        -- apply before_app. auto.
        -- apply in_before. auto.
    + (* erase *) exfalso. destruct U as (U & _). apply (U c r).
      destruct (which (QwQr PWrite) (q_op q)); left; reflexivity.
    + destruct (complete_frame r q st false s) as (F1 & F2 & F3 & F4 & F5 & _).
      apply (first_read_frame s); cbn; auto. rewrite complete_log. eauto.
Qed.

Lemma first_read_reachable : forall n s, qreachable (QwQr PWrite) n s -> undisturbed (st_log s) -> first_read s.
Proof.
  intros n s R. unfold qreachable in R. remember (init n) as s0 eqn:E.
  induction R as [s|s0 s s' R IH T]; intros U.
  - subst. intros P. discriminate P.
  - subst. eapply first_read_step; eauto. apply IH; auto. eapply undisturbed_back; eauto.
Qed.

Lemma before_asym : forall k s a b, linv k s -> before (EPush a) (EPush b) (trace s) ->
  before (EPush b) (EPush a) (trace s) -> False.
Proof.
  intros k s a b L (l1 & l2 & l3 & E) (m1 & m2 & m3 & E').
  assert (U1 : ~ In (EPush b) l1).
  { assert (E1 : trace s = (l1 ++ EPush a :: l2) ++ EPush b :: l3) by (rewrite E, <- app_assoc; reflexivity).
    destruct (once k s (EPush b) b _ _ L (Nat.eqb_refl b) E1) as (N & _); auto.
    intros X. apply N. rewrite in_app_iff. auto. }
  destruct (once k s (EPush a) a _ _ L (Nat.eqb_refl a) E) as (N1 & N2); auto.
  rewrite E in E'. clear - E' U1 N1 N2.
  revert m1 E'. induction l1 as [|h l1 IH]; intros m1 E'.
  - destruct m1 as [|h m1]; cbn in E'; injection E'; intros; subst.
    + apply N2. apply in_elt.
    + apply N2. rewrite H. rewrite in_app_iff. right. right. apply in_elt.
  - destruct m1 as [|h' m1]; cbn in E'; injection E'; intros; subst.
    + apply U1. left; auto.
    + eapply IH; eauto; intros X; [apply U1 | apply N1]; right; auto.
Qed.

Lemma ev_pop : forall k s s' r, step k s s' -> st_log s' = EPop r :: st_log s ->
  exists rest, queue (st_phase s) s = r :: rest.
Proof.
  intros k s s' r T E.
  destruct T as [s s' T | c s s' T | c s s' T]; destruct T; cbn in E; rewrite ?complete_log in E;
    try (exfalso; apply cons_neq in E; exact E); try discriminate E;
    try (exfalso; destruct (which _ _); cbn in E; discriminate E);
    try (exfalso; destruct st; cbn in *; try discriminate; destruct (q_handler q); discriminate).
  exists rest. replace r with r0; auto. destruct (st_phase s); cbn in E; injection E; auto.
Qed.

Lemma writes_first : forall n s a b qa qb, qreachable (QwQr PWrite) n s -> undisturbed (trace s) ->
  before (EPush a) (EPush b) (trace s) ->
  nth_error (st_reqs s) a = Some qa -> nth_error (st_reqs s) b = Some qb ->
  q_op qa = Write -> q_op qb = Read ->
  In (EPop b) (trace s) -> before (EPop a) (EPop b) (trace s).
Proof.
  intros n s a b qa qb R U B QA QB WA WB P.
  pose proof (linv_reachable _ _ _ R) as L.
  assert (U' : undisturbed (st_log s)).
  { destruct U as (U1 & U2). split; intros; rewrite <- in_trace; auto. }
  apply in_split in P. destruct P as (l1 & l2 & E).
  destruct (trace_split _ _ _ _ _ _ R E) as (s1 & s2 & R1 & T & EL & E1 & T2).
  pose proof (linv_reachable _ _ _ R1) as L1.
  assert (U1 : undisturbed (st_log s1)).
  { destruct U as (U1 & U2). split.
    - intros c r X. apply (U1 c r). rewrite E, <- E1, in_app_iff, in_trace. auto.
    - intros X. apply U2. rewrite E, <- E1, in_app_iff, in_trace. auto. }
  destruct (ev_pop _ _ _ _ T EL) as (rest & Q).
  assert (BACK : forall r q q1, nth_error (st_reqs s) r = Some q -> nth_error (st_reqs s1) r = Some q1 -> q_op q1 = q_op q).
  { intros r q q1 A1 A2. destruct (reqs_grow_steps _ _ _ _ _ (step_steps _ _ _ _ T T2) A2) as (q' & A3 & _ & A4). congruence. }
  destruct (l_dir _ s1 L1 b (st_phase s1)) as (qb1 & QB1 & WB1); [rewrite Q; left; auto|].
  rewrite (BACK _ _ _ QB QB1), WB in WB1. cbn in WB1. rewrite <- WB1 in Q. cbn in Q.
  destruct (first_read_reachable _ _ R1 U1 (eq_sym WB1)) as (r0 & rest' & Q' & FR).
  assert (r0 = b) by congruence. subst r0.
  (* a was submitted before b, so it is in the log of s1 *)
  assert (IB : In (EPush b) (trace s1)).
  { rewrite in_trace. assert (LQ : loc b (st_log s1) = PQueued) by (eapply (queue_loc _ s1 b false); eauto; cbn; rewrite Q; left; auto).
    eapply (word_in _ s1 b); eauto. intros w W. words W. cbn. auto. }
  assert (TAIL : forall r, In (EPush r) (trace s1) -> In (EPush r) (trace s)).
  { intros r X. rewrite E, <- E1, in_app_iff. auto. }
  assert (IA : before (EPush a) (EPush b) (trace s1)).
  { destruct (in_split _ _ IB) as (p1 & p2 & PB). destruct B as (m1 & m2 & m3 & EB).
    assert (U2 : m1 ++ EPush a :: m2 = p1).
    { assert (EB' : p1 ++ EPush b :: (p2 ++ EPop b :: l2) = (m1 ++ EPush a :: m2) ++ EPush b :: m3).
      { rewrite <- app_assoc. cbn. rewrite <- EB, E, <- E1, PB, <- app_assoc. reflexivity. }
      destruct (once _ s (EPush b) b p1 (p2 ++ EPop b :: l2) L) as (N1 & N2); auto.
      { cbn. apply Nat.eqb_refl. } { rewrite E, <- E1, PB, <- app_assoc. reflexivity. }
      revert EB' N1 N2. generalize (m1 ++ EPush a :: m2) as m. generalize (p2 ++ EPop b :: l2) as t. clear.
      intros t m. revert p1. induction m as [|h m IH]; intros p1 H N1 N2.
      - destruct p1; cbn in H; auto. injection H; intros; subst. exfalso. apply N1. left; auto.
      - destruct p1 as [|h' p1]; cbn in H; injection H; intros; subst.
        + exfalso. apply N2. apply in_elt.
        + f_equal. apply IH; auto. intros X. apply N1. right. auto. }
    rewrite PB, <- U2. exists m1, m2, p2. rewrite <- app_assoc. reflexivity. }
  destruct (before_in _ _ _ IA) as (PA & _). rewrite in_trace in PA.
  pose proof (push_loc _ _ _ L1 PA) as LA.
  rewrite E. change (EPop b :: l2) with ([EPop b] ++ l2). rewrite app_assoc. apply before_app, in_before.
  rewrite <- E1, in_trace.
  assert (NE : forall c, ~ In (EErase c a) (st_log s1)) by (intros c; apply U1).
  destruct (loc a (st_log s1)) as [|c0| | |c0|o st|o|] eqn:LO; cbn in LA; try tauto.
  - (* still queued: contradiction *)
    exfalso. destruct (own_queued _ _ _ L1 LO) as (w & q1 & A1 & A2 & A3).
    rewrite (BACK _ _ _ QA A2), WA in A3. cbn in A3. subst w.
    apply (before_asym _ s1 a b L1); auto.
  - eapply (word_in _ s1 a); eauto. intros w W. words W. cbn. auto.
  - exfalso. apply (NE c0). eapply (word_in _ s1 a); eauto. intros w W. words W. cbn. auto.
  - destruct o as [c0|]; [exfalso; apply (NE c0)|]; eapply (word_in _ s1 a); eauto; intros w W;
      destruct st; words W; cbn; auto.
  - destruct o as [c0|]; [exfalso; apply (NE c0)|]; eapply (word_in _ s1 a); eauto; intros w W;
      words W; unfold served_life, cancelled_life; cbn; auto.
Qed.
