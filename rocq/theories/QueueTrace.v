(** What the life-cycle invariant says about traces. *)
From Coq Require Import List Bool PeanoNat Lia.
From Verif Require Import QueueModel QueueSpec QueueProofs QueueLife.
Import ListNotations.

Lemma one_event : forall k s s', step k s s' ->
  st_log s' = st_log s \/ exists e, st_log s' = e :: st_log s.
Proof.
  intros k s s' T. destruct T as [s s' T | c s s' T | c s s' T]; destruct T; cbn;
    rewrite ?complete_log; eauto;
    try (destruct (st_phase s); cbn; eauto);
    try (destruct (which k (q_op q)); cbn; eauto).
Qed.

Lemma app_snoc_split : forall A (l l1 l2 : list A) x e,
  l ++ [x] = l1 ++ e :: l2 -> (l2 = [] /\ l = l1 /\ x = e) \/ exists l2', l2 = l2' ++ [x] /\ l = l1 ++ e :: l2'.
Proof.
  intros A l l1 l2 x e H. destruct l2 as [|y l2'] using rev_ind.
  - left. apply app_inj_tail in H. intuition.
  - right. clear IHl2'. rewrite app_comm_cons, app_assoc in H. apply app_inj_tail in H. destruct H as [H <-]. eauto.
Qed.

Lemma trace_split : forall k n s l1 e l2, qreachable k n s -> trace s = l1 ++ e :: l2 ->
  exists s1 s2, qreachable k n s1 /\ step k s1 s2 /\ st_log s2 = e :: st_log s1 /\ trace s1 = l1 /\ steps k s2 s.
Proof.
  intros k n s l1 e l2 R. unfold qreachable in *. remember (init n) as s0 eqn:E0. revert l1 e l2.
  induction R as [s|s0 s s' R IH T]; intros l1 e l2 H.
  - subst. destruct l1; discriminate.
  - destruct (one_event _ _ _ T) as [E|(x & E)].
    + unfold trace in H. rewrite E in H. destruct (IH E0 _ _ _ H) as (s1 & s2 & A & B & C & D & F).
      exists s1, s2. repeat split; auto. econstructor; eauto.
    + unfold trace in H. rewrite E in H. cbn in H. apply app_snoc_split in H.
      destruct H as [(-> & <- & ->)|(l2' & -> & H)].
      * exists s, s'. repeat split; auto. constructor.
      * destruct (IH E0 _ _ _ H) as (s1 & s2 & A & B & C & D & F).
        exists s1, s2. repeat split; auto. econstructor; eauto.
Qed.

Lemma steps_app : forall k s1 s2 s3, steps k s1 s2 -> steps k s2 s3 -> steps k s1 s3.
Proof. intros k s1 s2 s3 A B. induction B; auto. eapply steps_trans; [apply IHB; exact A | eassumption]. Qed.

Lemma in_trace : forall e s, In e (trace s) <-> In e (st_log s).
Proof. intros. unfold trace. symmetry. apply in_rev. Qed.

(** The word a phase stands for. *)
Inductive word (r : nat) : ph -> list event -> Prop :=
| wd_none : word r PNone []
| wd_push : forall c, word r (PPush c) [ECreate c r]
| wd_queued : forall c, word r PQueued [ECreate c r; EPush r]
| wd_serve : forall c, word r PServe [ECreate c r; EPush r; EPop r]
| wd_take : forall c c', word r (PTake c') [ECreate c r; EPush r; EErase c' r]
| wd_w0 : forall c ok, word r (PFin None SDone) [ECreate c r; EPush r; EPop r; EServe r ok]
| wd_c0 : forall c c', word r (PFin (Some c') SDone) [ECreate c r; EPush r; EErase c' r; ETook c' r]
| wd_1 : forall o l, word r (PFin o SDone) l -> word r (PFin o SHandler) (l ++ [EDone r])
| wd_2 : forall o l h, word r (PFin o SHandler) l -> word r (PFin o SNotify) (l ++ [handler_event h r (is_none o)])
| wd_3 : forall o l d, word r (PFin o SNotify) l -> word r (PFin o SRelease) (l ++ [ENotify r d])
| wd_4 : forall o l, word r (PFin o SRelease) l -> word r (PFin o SReady) (l ++ [ERelease r])
| wd_5 : forall o l, word r (PFin o SReady) l -> word r (PEnd o) (l ++ [EReady r]).

Lemma about_eq : forall r e, about r e = true ->
  (exists c, e = ECreate c r) \/ e = EPush r \/ e = EPop r \/ (exists c, e = EErase c r) \/
  (exists c, e = ETook c r) \/ (exists b, e = EServe r b) \/ e = EDone r \/ (exists b, e = EHandler r b) \/
  e = ENoHandler r \/ (exists b, e = ENotify r b) \/ e = ERelease r \/ e = EReady r.
Proof.
  intros r e H; destruct e; cbn in H; try discriminate; apply Nat.eqb_eq in H; subst; eauto 20.
Qed.

Lemma adv_word : forall r e p l, about r e = true -> adv e p <> PBad -> word r p l -> word r (adv e p) (l ++ [e]).
Proof.
  intros r e p l A NB W.
  apply about_eq in A.
  destruct A as [(c&->)|[->|[->|[(c&->)|[(c&->)|[(b&->)|[->|[(b&->)|[->|[(b&->)|[->| ->]]]]]]]]]]];
    destruct p as [|c0| | |c0|o st|o|]; cbn in *; try congruence;
    try (destruct st; try congruence);
    try (inversion W; subst; cbn; constructor; fail).
  - destruct (Nat.eqb_spec c0 c); try congruence. subst. inversion W; subst. cbn. constructor.
  - constructor; auto.
  - destruct (Bool.eqb b (is_none o)) eqn:E; try congruence. apply eqb_prop in E. subst.
    apply (wd_2 r o l true); auto.
  - apply (wd_2 r o l false); auto.
  - constructor; auto.
  - constructor; auto.
  - constructor; auto.
Qed.

Lemma adv_bad : forall e, adv e PBad = PBad.
Proof. destruct e; reflexivity. Qed.

Lemma loc_word : forall r log, loc r log <> PBad -> word r (loc r log) (filter (about r) (rev log)).
Proof.
  induction log as [|e log IH]; cbn [loc rev]; intros NB.
  - constructor.
  - rewrite filter_app. cbn [filter]. destruct (about r e) eqn:A.
    + apply adv_word; auto. apply IH. intros X. rewrite X, adv_bad in NB. auto.
    + rewrite app_nil_r. auto.
Qed.

Lemma loc_good : forall k s r, linv k s -> loc r (st_log s) <> PBad.
Proof.
  intros k s r L X. destruct (nth_error (st_reqs s) r) eqn:E.
  - apply (l_fld k s L) in E. rewrite X in E. destruct E.
  - apply (l_dom k s L) in E. congruence.
Qed.

Lemma reach_word : forall k s r, linv k s -> word r (loc r (st_log s)) (filter (about r) (trace s)).
Proof. intros. apply loc_word. eapply loc_good; eauto. Qed.

Lemma in_word : forall k s r e p, linv k s -> loc r (st_log s) = p -> about r e = true ->
  In e (st_log s) -> exists l, word r p l /\ In e l.
Proof.
  intros k s r e p L <- A I. eexists. split; [eapply reach_word; eauto|].
  apply filter_In. rewrite in_trace. auto.
Qed.

Lemma word_in : forall k s r e p, linv k s -> loc r (st_log s) = p ->
  (forall l, word r p l -> In e l) -> In e (st_log s).
Proof.
  intros k s r e p L <- H. specialize (H _ (reach_word k s r L)). apply filter_In in H.
  rewrite in_trace in H. tauto.
Qed.

(** Complete words. *)
Lemma word_served : forall r p l, word r p l ->
  match p with
  | PServe => exists c, l = [ECreate c r; EPush r; EPop r]
  | PFin None SDone => exists c ok, l = [ECreate c r; EPush r; EPop r; EServe r ok]
  | PFin None SHandler => exists c ok, l = [ECreate c r; EPush r; EPop r; EServe r ok; EDone r]
  | PFin None SNotify => exists c ok h, l = [ECreate c r; EPush r; EPop r; EServe r ok; EDone r; handler_event h r true]
  | PFin None SRelease => exists c ok h d, l = [ECreate c r; EPush r; EPop r; EServe r ok; EDone r; handler_event h r true; ENotify r d]
  | PFin None SReady => exists c ok h d, l = [ECreate c r; EPush r; EPop r; EServe r ok; EDone r; handler_event h r true; ENotify r d; ERelease r]
  | PEnd None => exists c ok h d, l = served_life h c r ok d
  | PTake c' => exists c, l = [ECreate c r; EPush r; EErase c' r]
  | PFin (Some c') SDone => exists c, l = [ECreate c r; EPush r; EErase c' r; ETook c' r]
  | PFin (Some c') SHandler => exists c, l = [ECreate c r; EPush r; EErase c' r; ETook c' r; EDone r]
  | PFin (Some c') SNotify => exists c h, l = [ECreate c r; EPush r; EErase c' r; ETook c' r; EDone r; handler_event h r false]
  | PFin (Some c') SRelease => exists c h d, l = [ECreate c r; EPush r; EErase c' r; ETook c' r; EDone r; handler_event h r false; ENotify r d]
  | PFin (Some c') SReady => exists c h d, l = [ECreate c r; EPush r; EErase c' r; ETook c' r; EDone r; handler_event h r false; ENotify r d; ERelease r]
  | PEnd (Some c') => exists c h d, l = cancelled_life h c c' r d
  | PQueued => exists c, l = [ECreate c r; EPush r]
  | PPush c => l = [ECreate c r]
  | PNone => l = []
  | PBad => False
  end.
Proof.
  intros r p l W. induction W; eauto; destruct o as [c'|]; cbn in *;
    repeat match goal with H : exists _, _ |- _ => destruct H end; subst; cbn; eauto 10;
    unfold served_life, cancelled_life; eauto 10.
Qed.

(** Everything about a request in one phase, as a flat case list. *)
Ltac words W := apply word_served in W;
  repeat match goal with H : exists _, _ |- _ => destruct H end; subst.

(** A request with a handler event has the matching flag; failed requests have
    their error set. *)
Definition err_inv (s : state) : Prop := forall r q, nth_error (st_reqs s) r = Some q ->
  (q_err q = true <-> In (EServe r false) (st_log s)) /\
  (forall b, In (EHandler r b) (st_log s) -> q_handler q = true) /\
  (In (ENoHandler r) (st_log s) -> q_handler q = false).

(** The events of a step that matter here. *)
Definition mundane (e : event) : Prop :=
  match e with EServe _ _ | EHandler _ _ | ENoHandler _ => False | _ => True end.

Lemma err_frame : forall s s', err_inv s ->
  (forall r q', nth_error (st_reqs s') r = Some q' -> exists q, nth_error (st_reqs s) r = Some q /\
     q_err q' = q_err q /\ q_handler q' = q_handler q) ->
  (st_log s' = st_log s \/ exists e, mundane e /\ st_log s' = e :: st_log s) ->
  err_inv s'.
Proof.
  intros s s' I R Lg r q' H. destruct (R _ _ H) as (q & A & B & C). destruct (I _ _ A) as (D & E & F).
  rewrite B, C. destruct Lg as [->|(e & M & ->)]; auto.
  split; [|split].
  - rewrite D. cbn. split; auto. intros [X|X]; auto. subst; destruct M.
  - intros b [X|X]; eauto. subst; destruct M.
  - intros [X|X]; eauto. subst; destruct M.
Qed.

Lemma r_same : forall (l : list req) r q', nth_error l r = Some q' ->
  exists q, nth_error l r = Some q /\ q_err q' = q_err q /\ q_handler q' = q_handler q.
Proof. eauto. Qed.

Lemma r_upd : forall l r0 q0 q1, nth_error l r0 = Some q0 -> q_err q1 = q_err q0 -> q_handler q1 = q_handler q0 ->
  forall r q', nth_error (upd r0 q1 l) r = Some q' ->
  exists q, nth_error l r = Some q /\ q_err q' = q_err q /\ q_handler q' = q_handler q.
Proof.
  intros l r0 q0 q1 H E1 E2 r q' X. rewrite (nth_upd _ _ _ _ _ _ H) in X. destruct (Nat.eqb_spec r0 r).
  - subst. injection X as <-. eauto.
  - eauto.
Qed.

Lemma err_stage : forall s s' r q st b, err_inv s -> nth_error (st_reqs s) r = Some q ->
  st_reqs s' = st_reqs (complete_step r q st b s) -> st_log s' = st_log (complete_step r q st b s) ->
  err_inv s'.
Proof.
  intros s s' r q st b I Q HR HL. rewrite (complete_reqs _ _ _ _ _ Q) in HR. rewrite complete_log in HL.
  destruct st; try (eapply err_frame;
    [ exact I | rewrite HR; eapply r_upd; [eassumption | reflexivity | reflexivity]
    | right; eexists; split; [|exact HL]; exact Logic.I ]).
  cbn in HL, HR. rewrite upd_id in HR by auto.
  intros r0 q0 H0. rewrite HR in H0. rewrite HL. destruct (I _ _ H0) as (D & E & F).
  split; [|split].
  - rewrite D. cbn. split; auto. intros [X|X]; auto. destruct (q_handler q); discriminate.
  - intros b0 [X|X]; eauto. destruct (q_handler q) eqn:HH; try discriminate. injection X as <- <-. congruence.
  - intros [X|X]; eauto. destruct (q_handler q) eqn:HH; try discriminate. injection X as <-. congruence.
Qed.

Ltac errf I := eapply err_frame;
  [ exact I
  | cbn; first [ apply r_same | eapply r_upd; [eassumption | reflexivity | reflexivity] ]
  | cbn; first [ left; reflexivity | right; eexists; split; [|reflexivity]; exact Logic.I ] ].

Lemma err_step : forall k s s', linv k s -> err_inv s -> step k s s' -> err_inv s'.
Proof.
  intros k s s' L I T. destruct T as [s s' T | c s s' T | c s s' T]; destruct T; try (errf I).
  - destruct (st_phase s); errf I.
  - (* serve *)
    assert (E : loc r (st_log s) = PServe) by (apply (l_own k s L); apply own_w; rewrite H; reflexivity).
    intros r0 q0 X. cbn in X. rewrite (nth_upd _ _ _ _ _ _ H0) in X. destruct (Nat.eqb_spec r r0).
    + subst r0. injection X as <-. cbn. destruct (I _ _ H0) as (D & E1 & E2).
      split; [|split].
      * destruct ok; cbn; split; auto; try discriminate. intros [X|X]; [discriminate|].
        exfalso. assert (A : about r (EServe r false) = true) by (cbn; apply Nat.eqb_refl).
        destruct (in_word k s r _ _ L E A X) as (l & W & J). words W. cbn in J.
        intuition discriminate.
      * intros b [X|X]; [discriminate|eauto].
      * intros [X|X]; [discriminate|eauto].
    + destruct (I _ _ X) as (D & E1 & E2). cbn. split; [|split].
      * rewrite D. split; auto. intros [Y|Y]; [congruence|auto].
      * intros b [Y|Y]; [discriminate|eauto].
      * intros [Y|Y]; [discriminate|eauto].
  - eapply (err_stage s _ r q st true); eauto; reflexivity.
  - (* create *)
    intros r q X. cbn in X. rewrite nth_snoc in X. destruct (Nat.eqb_spec r (length (st_reqs s))).
    + injection X as <-. cbn.
      assert (N : loc r (st_log s) = PNone).
      { apply (l_dom k s L). apply nth_error_None. lia. }
      assert (Z : forall e, about r e = true -> In e (st_log s) -> False).
      { intros e1 A Y. destruct (in_word k s r _ _ L N A Y) as (l & W & J). words W. destruct J. }
      split; [|split].
      * split; [discriminate|]. intros [Y|Y]; [discriminate|]. exfalso; eapply Z; eauto. cbn; apply Nat.eqb_refl.
      * intros b [Y|Y]; [discriminate|]. exfalso; eapply Z; eauto. cbn; apply Nat.eqb_refl.
      * intros [Y|Y]; [discriminate|]. exfalso; eapply Z; eauto. cbn; apply Nat.eqb_refl.
    + destruct (I _ _ X) as (D & E1 & E2). cbn. split; [|split].
      * rewrite D. split; auto. intros [Y|Y]; [discriminate|auto].
      * intros b [Y|Y]; [discriminate|eauto].
      * intros [Y|Y]; [discriminate|eauto].
  - destruct (which k (q_op q)); errf I.
  - destruct (which k (q_op q)); errf I.
  - eapply (err_stage s _ r q st false); eauto; reflexivity.
Qed.

Lemma err_reachable : forall k n s, qreachable k n s -> err_inv s.
Proof.
  intros k n s R.
  assert (X : linv k s /\ err_inv s).
  { eapply (steps_ind_inv k (fun s => linv k s /\ err_inv s)); [| |exact R].
    - intros a b (A & B) T. split; [eapply linv_step | eapply err_step]; eauto.
    - split; [apply linv_init|]. intros r q H. destruct r; discriminate. }
  tauto.
Qed.
